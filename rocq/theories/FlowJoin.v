(** Proofs about building control flow graphs: going on from an end of a piece. *)
From Coq Require Import Permutation ZifyBool ZifyNat.
From Verif Require Import Base GraphModel FlowModel FlowSpec FlowProofs FlowFrag FlowSteps FlowCat FlowGlue FlowPool FlowFork FlowExprs FlowBin FlowGo FlowStmt FlowLoop.

(** A fragment joined to the end [e] of the block [x]; [e] is left without a way to it. *)
Definition joinP (P : pool) (U : frag) (p : region) (e x x' : nat) (l : list nat) (b : bool) : pool :=
  mk_pool p (pI P) (pa P) (pf P) (fun y k => pJ P y k \/ fJ U y k \/ (y = fe U /\ k = None))
    (fun c t y => (pS P c t y /\ y <> e) \/ ((c = pa P \/ exists i, pN P i c) /\ exists t1 t2, t = t1 ++ t2 /\ pS P c t1 e /\ fR U t2 y))
    (pD P) (fun o l' => (pO P o l' /\ o <> x) \/ (o = fo U /\ l' = l)) (pN P) (pZ P)
    (fun e' y b' K => e' = fe U /\ y = x' /\ b' = b && fb U /\ K = fK U).
Section Order.
Variable order : heap -> list nat -> list nat.
Hypothesis Hperm : forall h l, Permutation (order h l) l.
Lemma pool_join : forall h P U rest o e x b i, ok h (Pt P :: Fr U :: rest) -> pE P e x b [] -> pO P o [e] -> In i (fI U) ->
  exists h' p x', link_seq order h (Some o) (Some i) = Some h' /\ ok h' (Pt (joinP P U p e x x' (outs h (fo U)) b) :: rest).
Proof using Hperm.
  intros h P U rest o e x b i O Pe Po Hi.
  destruct (ok_Pt _ _ _ O) as [WA KA]. destruct (ok_Fr _ _ _ (ok_tail _ _ _ O)) as [WB VB].
  assert (D : disj (pP P) (fP U)) by (destruct O as [_ [Q _]]; apply (Q (Fr U)); left; reflexivity).
  pose proof (n_base _ _ KA) as BA. pose proof (v_base _ _ VB) as BB. pose proof (n_E _ _ KA _ _ _ _ Pe) as EA. pose proof (v_end _ _ VB) as EB.
  destruct (n_O _ _ KA o [e] Po) as [Ro Eo].
  assert (W : wf h (union (pP P) (fP U))) by (apply wf_union; auto).
  assert (Ui : unwrap_in order h i = Some (fa U)) by (apply entry_unwrap; [exact Hperm|eapply base_entry; eauto]).
  assert (Se : is_seq (ed h e) = true) by (unfold is_seq; rewrite (k_e _ _ _ _ _ _ EA); reflexivity).
  assert (Sq : out_seq order h o = Some e). { apply (out_seq_is order Hperm); [rewrite Eo; left; reflexivity|exact Se|]. intros y Iy _. rewrite Eo in Iy. destruct Iy as [<-|[]]. reflexivity. }
  assert (Uo : unwrap_out order h o = Some x) by (unfold unwrap_out; rewrite Sq, (k_e _ _ _ _ _ _ EA); reflexivity).
  destruct (join_ok order h (union (pP P) (fP U)) o i x (fa U) W) as (h' & Ej & Jn); [left; apply (k_x _ _ _ _ _ _ EA)|exact Ui|exact Uo|].
  destruct (joined_endp h h' _ _ _ _ _ _ _ _ _ _ _ _ _ _ _ _ WA WB D BA BB EA EB Jn) as [x' Ex].
  pose proof (joined_base h h' _ _ _ _ _ _ _ _ _ _ _ _ WA WB D BA BB EA Jn) as Bx.
  exists h', (kill (union (pP P) (fP U)) (fa U)), x'. split.
  { unfold link_seq, link. cbv zeta. replace (only_seq_out h o) with true.
    - rewrite (lone_only_in _ _ _ _ _ _ BB Hi). exact Ej.
    - unfold only_seq_out. rewrite Eo, (k_e _ _ _ _ _ _ EA). cbn [e_src]. rewrite (k_xo _ _ _ _ _ _ EA), Se. reflexivity. }
  assert (Nx : fo U <> x) by (intro Q; destruct D as (D1 & _); apply (D1 x); [apply (k_x _ _ _ _ _ _ EA)|rewrite <- Q; apply (v_o _ _ VB)]).
  eapply ok_step; [apply ok_pair, O|..].
  - cbn. eapply joined_chg; [exact W|left; apply (k_x _ _ _ _ _ _ EA)|right; apply (k_a _ _ _ _ _ _ BB)|exact Jn].
  - cbn. split; cbn; auto.
  - assert (W' : wf h' (kill (union (pP P) (fP U)) (fa U))).
    { eapply joined_wf; [exact W|left; apply (k_x _ _ _ _ _ _ EA)|right; apply (k_a _ _ _ _ _ _ BB)|exact Jn|]. eapply (jp_lone h (pP P) (fP U)); eauto. }
    split; [exact W'|]. split; [|apply Pt_stable]. split; cbn.
    + destruct Bx as [b1 b2 b3 b4 b5 b6 b6' b7 b8 b9]. split; auto.
      * intros z k [Q|[Q|[-> ->]]]; [apply b7; auto|apply b7; auto|]. split; [exact (endp_re _ _ _ _ _ _ W' Ex)|]. unfold hang. rewrite (k_e _ _ _ _ _ _ Ex). auto.
      * intros z R S1 S2. destruct (b8 z R S1 S2) as [k [Q|Q]]; exists k; auto.
    + intros c t y [[Q Ny]|[Hc (t1 & t2 & -> & Q & R)]].
      * destruct (n_S _ _ KA c t y Q) as (A1 & A2 & A3). split; [left; exact A1|]. split; [unfold ng; rewrite (joined_bk _ _ _ _ _ Jn); exact A2|].
        eapply (joined_path2 h h' (pP P) (fP U)); eauto.
      * destruct (n_S _ _ KA c t1 e Q) as (A1 & A2 & A3). split; [left; exact A1|]. split; [unfold ng; rewrite (joined_bk _ _ _ _ _ Jn); exact A2|].
        eapply (joined_path1 h h' (pP P) (fP U)); eauto; [|apply (v_R _ _ VB _ _ R)].
        destruct Hc as [->|[i' Hc]]; [apply (k_da _ _ _ _ _ _ BA)|apply (n_N _ _ KA i' c Hc)].
    + intros z c Q. destruct (n_D _ _ KA z c Q) as [A1 A2]. split; [left; exact A1|]. destruct (joined_edge _ _ _ _ z Jn) as (_ & _ & ->). exact A2.
    + intros o' l' [[Q N]|[-> ->]].
      * destruct (n_O _ _ KA o' l' Q) as [A1 A2]. split; [left; exact A1|]. rewrite (joined_outs _ _ _ _ _ Jn N). exact A2.
      * split; [right; apply (v_o _ _ VB)|apply (joined_outs _ _ _ _ _ Jn Nx)].
    + intros i' c Q. destruct (n_N _ _ KA i' c Q) as (A1 & A2 & A3 & A4 & A5 & A6). split; [left; exact A1|]. split; [left; exact A2|].
      split; [unfold ng; rewrite (joined_bk _ _ _ _ _ Jn); exact A3|]. split.
      * destruct D as (D1 & _). intros [[K|K]|K]; [exact (A4 K)|apply (D1 c A2); eapply w_dead; eauto|apply (D1 c A2); rewrite K; apply (k_a _ _ _ _ _ _ BB)].
      * rewrite !(joined_im _ _ _ _ _ Jn). split; [exact A5|]. destruct A6 as [(z & I & S) A]. unfold entry. rewrite (joined_ins _ _ _ _ _ Jn). split.
        -- exists z. split; [exact I|]. unfold is_seq. destruct (joined_edge _ _ _ _ z Jn) as (-> & _ & _). exact S.
        -- intros y Iy. unfold is_seq. destruct (joined_edge _ _ _ _ y Jn) as (-> & _ & ->). apply A, Iy.
    + intros i' Q. destruct (n_Z _ _ KA i' Q) as [A1 A2]. split; [left; exact A1|]. rewrite <- A2. apply only_seq_in_eq; [apply (joined_ins _ _ _ _ _ Jn)|].
      intros z _. apply (joined_edge _ _ _ _ z Jn).
    + intros e' y b' K (-> & -> & -> & ->). exact Ex.
Qed.
End Order.
