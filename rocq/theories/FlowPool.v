(** Proofs about building control flow graphs: pieces of graphs with any number of hanging edges. *)
From Coq Require Import Permutation ZifyBool ZifyNat.
From Verif Require Import Base GraphModel FlowModel FlowSpec FlowProofs FlowFrag FlowSteps FlowCat FlowGlue.

(** What is known about a piece: its hanging edges [pJ]; paths [pS] from blocks to edges; where edges go [pD]; the outgoing
    edges of blocks [pO]; the first block of what a block stands for [pN]; which blocks have other than one sequential
    edge into them [pZ]; and its ends [pE]. *)
Record pool := mk_pool { pP : region; pI : list nat; pa : nat; pf : bool; pJ : nat -> option bool -> Prop;
  pS : nat -> list nat -> nat -> Prop; pD : nat -> nat -> Prop; pO : nat -> list nat -> Prop; pN : nat -> nat -> Prop;
  pZ : nat -> Prop; pE : nat -> nat -> bool -> list nat -> Prop }.
Record known (P : pool) (h : heap) : Prop := {
  n_base : base (pP P) (pI P) (pa P) (pf P) (pJ P) h;
  n_S : forall b t y, pS P b t y -> rb (pP P) b /\ ng h b /\ path0 h b t y;
  n_D : forall x b, pD P x b -> re (pP P) x /\ e_dst (ed h x) = Some b;
  n_O : forall o l, pO P o l -> rb (pP P) o /\ outs h o = l;
  n_N : forall i b, pN P i b -> rb (pP P) i /\ rb (pP P) b /\ ng h b /\ ~ rd (pP P) b /\ im (bl h i) = im (bl h b) /\ entry h b b;
  n_Z : forall i, pZ P i -> rb (pP P) i /\ only_seq_in h i = false;
  n_E : forall e x b K, pE P e x b K -> endp (pP P) e x b K h }.
Definition Pt (P : pool) : thing := mk_thing (pP P) (known P).
Lemma only_seq_in_eq : forall h h' i, ins h' i = ins h i -> (forall x, In x (ins h i) -> e_kind (ed h' x) = e_kind (ed h x)) -> only_seq_in h' i = only_seq_in h i.
Proof. intros h h' i E H. unfold only_seq_in. rewrite E. destruct (ins h i) as [|x [|]]; try reflexivity. unfold is_seq. rewrite H by (left; reflexivity). reflexivity. Qed.
Lemma Pt_stable : forall P, stable (Pt P).
Proof.
  intros P h h' W Sm K. cbn in *. destruct K as [k1 k2 k3 k4 k5 k6 k7]. split.
  - eapply base_same; eauto.
  - intros b t y Q. destruct (k2 b t y Q) as (A & B & C). split; [exact A|]. split; [unfold ng; rewrite (s_b _ _ _ Sm b A); exact B|].
    eapply path0_mono; [exact W|apply same_mono; eauto|exact A|exact B|exact C].
  - intros x b Q. destruct (k3 x b Q) as (A & B). rewrite (s_e _ _ _ Sm x A). auto.
  - intros o l Q. destruct (k4 o l Q) as (A & B). rewrite (same_outs _ _ _ o W Sm A). auto.
  - intros i b Q. destruct (k5 i b Q) as (A & B & C & D & E & F). unfold ng. rewrite (s_b _ _ _ Sm i A), (s_b _ _ _ Sm b B).
    repeat (split; [assumption|]). eapply same_entry; eauto.
  - intros i Q. destruct (k6 i Q) as (A & B). split; [exact A|]. rewrite <- B. apply only_seq_in_eq; [eapply same_ins; eauto|].
    intros x Ix. rewrite (s_e _ _ _ Sm x); [reflexivity|]. exact (in_re h _ i x W A Ix).
  - intros e x b K Q. eapply endp_same; eauto.
Qed.
Lemma ok_Pt : forall h P l, ok h (Pt P :: l) -> wf h (pP P) /\ known P h.
Proof. intros h P l [A _]. destruct (A _ (or_introl eq_refl)) as (W & V & _). auto. Qed.
Lemma ok_more : forall h t u l, ok h (t :: l) -> tp u = tp t -> (wf h (tp t) -> tq t h -> tq u h) -> stable u -> ok h (u :: l).
Proof.
  intros h t u l [A [B C]] E Q S. split.
  - intros v [<-|I]; [|apply A; right; exact I]. destruct (A t (or_introl eq_refl)) as (W & T & _). split; [rewrite E; exact W|auto].
  - cbn. rewrite E. auto.
Qed.
Lemma ok_swap : forall h t u l, ok h (t :: u :: l) -> ok h (u :: t :: l).
Proof. intros h t u l. apply ok_perm. apply perm_swap. Qed.

(** A fragment as a piece. *)
Definition poolF (F : frag) (l : list nat) : pool :=
  mk_pool (fP F) (fI F) (fa F) true (fun y k => fJ F y k \/ (y = fe F /\ k = None)) (fun b t y => b = fa F /\ fR F t y) (fun _ _ => False)
    (fun o l' => o = fo F /\ l' = l) (fun i b => In i (fI F) /\ b = fa F) (fun _ => False) (fun e x b K => e = fe F /\ x = fx F /\ b = fb F /\ K = fK F).
Lemma pool_of : forall h F rest, ok h (Fr F :: rest) -> ok h (Pt (poolF F (outs h (fo F))) :: rest).
Proof.
  intros h F rest O. eapply ok_more; [exact O|reflexivity| |apply Pt_stable]. cbn. intros W V. pose proof (v_base _ _ V) as B. pose proof (v_end _ _ V) as E.
  split; cbn.
  - destruct B as [b1 b2 b3 b4 b5 b6 b6' b7 b8 b9]. split; auto.
    + intros x k [Q|[-> ->]]; [auto|]. split; [eapply endp_re; eauto|]. unfold hang. rewrite (k_e _ _ _ _ _ _ E). auto.
    + intros x R S1 S2. destruct (b8 x R S1 S2) as [k Q]. eauto.
  - intros b t y [-> Q]. split; [apply (k_a _ _ _ _ _ _ B)|]. split; [apply (k_ga _ _ _ _ _ _ B)|]. apply (v_R _ _ V t y Q).
  - tauto.
  - intros o l [-> ->]. split; [apply (v_o _ _ V)|reflexivity].
  - intros i b [Hi ->]. destruct (k_i _ _ _ _ _ _ B i Hi) as [R1 R2]. split; [exact R1|]. split; [exact (k_a _ _ _ _ _ _ B)|]. split; [exact (k_ga _ _ _ _ _ _ B)|]. split; [exact (k_da _ _ _ _ _ _ B)|]. split; [exact R2|exact (k_in _ _ _ _ _ _ B)].
  - tauto.
  - intros e x b K (-> & -> & -> & ->). exact E.
Qed.
(** Two pieces as one. *)
Definition both (P Q : pool) : pool :=
  mk_pool (union (pP P) (pP Q)) (pI P) (pa P) (pf P) (fun y k => pJ P y k \/ pJ Q y k) (fun b t y => pS P b t y \/ pS Q b t y)
    (fun x b => pD P x b \/ pD Q x b) (fun o l => pO P o l \/ pO Q o l) (fun i b => pN P i b \/ pN Q i b) (fun i => pZ P i \/ pZ Q i)
    (fun e x b K => pE P e x b K \/ pE Q e x b K).
Lemma pool_both : forall h P Q rest, ok h (Pt P :: Pt Q :: rest) -> ok h (Pt (both P Q) :: rest).
Proof.
  intros h P Q rest O. apply ok_pair in O. eapply ok_more; [exact O|reflexivity| |apply Pt_stable]. cbn. intros _ (WA & WB & D & KA & KB).
  pose proof D as (D1 & D2 & D3). split; cbn.
  - pose proof (n_base _ _ KA) as [b1 b2 b3 b4 b5 b6 b6' b7 b8 b9]. pose proof (n_base _ _ KB) as BB. split; cbn; auto.
    + intros i Hi. destruct (b1 i Hi). auto.
    + intros [Z|Z]; [tauto|]. apply (D1 (pa P) b2). eapply w_dead; eauto.
    + intros E1 c z [Hc|Hc] Oc; [eauto|]. intro Z. apply (D1 (pa P) b2). eapply w_dst; [exact WB|exact (out_re h _ c z WB Hc Oc)|exact Z].
    + intros z k [Z|Z]; [destruct (b7 z k Z)|destruct (k_J _ _ _ _ _ _ BB z k Z)]; auto.
    + intros z [Hz|Hz] S1 S2; [destruct (b8 z Hz S1 S2) as [k Z]|destruct (k_all _ _ _ _ _ _ BB z Hz S1 S2) as [k Z]]; exists k; auto.
  - intros b t y [Z|Z]; [destruct (n_S _ _ KA b t y Z) as (A1 & A2 & A3)|destruct (n_S _ _ KB b t y Z) as (A1 & A2 & A3)]; auto.
  - intros x b [Z|Z]; [destruct (n_D _ _ KA x b Z) as (A1 & A2)|destruct (n_D _ _ KB x b Z) as (A1 & A2)]; auto.
  - intros o l [Z|Z]; [destruct (n_O _ _ KA o l Z) as (A1 & A2)|destruct (n_O _ _ KB o l Z) as (A1 & A2)]; auto.
  - intros i b [Z|Z]; [destruct (n_N _ _ KA i b Z) as (A1 & A2 & A3 & A4 & A5 & A6)|destruct (n_N _ _ KB i b Z) as (A1 & A2 & A3 & A4 & A5 & A6)].
    + split; [auto|]. split; [auto|]. split; [auto|]. split; [|split; auto]. intros [Y|Y]; [auto|]. apply (D1 b A2). eapply w_dead; eauto.
    + split; [auto|]. split; [auto|]. split; [auto|]. split; [|split; auto]. intros [Y|Y]; [|auto]. apply (D1 b); [eapply w_dead; eauto|exact A2].
  - intros i [Z|Z]; [destruct (n_Z _ _ KA i Z)|destruct (n_Z _ _ KB i Z)]; auto.
  - intros e x b K [Z|Z]; [apply endp_union_l; auto; apply (n_E _ _ KA _ _ _ _ Z)|apply endp_union_r; auto; apply (n_E _ _ KB _ _ _ _ Z)].
Qed.

Section Order.
Variable order : heap -> list nat -> list nat.
Hypothesis Hperm : forall h l, Permutation (order h l) l.

(** A link. *)
Definition linkP (P : pool) (p : region) (fk : ekind) (ft : N) (l : list nat) (a : nat) : pool :=
  mk_pool p (pI P) (pa P) (pf P) (fun y k => pJ P y k /\ ~ (In y l /\ hits fk ft k = true)) (pS P)
    (fun x b => pD P x b \/ (b = a /\ In x l /\ exists k, pJ P x k /\ hits fk ft k = true)) (pO P) (pN P) (pZ P)
    (fun e x b K => pE P e x b K /\ (~ In e l \/ hits fk ft None = false)).
Lemma pool_link : forall h P rest o l i a fk ft tk tt flag, ok h (Pt P :: rest) -> pO P o l -> NoDup l -> pN P i a -> a <> pa P ->
  no_join order h o i fk flag ->
  exists h' p, link order h (Some o) fk ft tk tt (Some i) flag = Some h' /\ ok h' (Pt (linkP P p fk ft l a) :: rest) /\ bl h' = bl h
    /\ ((exists x k, In x l /\ pJ P x k /\ hits fk ft k = true) -> tk = EK_JMP -> only_seq_in h' i = false).
Proof using Hperm.
  intros h P rest o l i a fk ft tk tt flag O Oo Nd Ni Na Nj. destruct (ok_Pt _ _ _ O) as [W K].
  destruct (n_O _ _ K o l Oo) as [Ro El]. destruct (n_N _ _ K i a Ni) as (Ri & Ra & Ga & Da & Im & En).
  assert (Ei : entry h i a) by (unfold entry, ins in *; rewrite Im; exact En). rewrite <- El in Nd.
  destruct (link_far order Hperm (pP P) h o i a fk ft tk tt flag W Ro Ri Ei Da Nd Nj) as (h' & L & Lk & Hi). rewrite El in *.
  set (p := pP P) in *. exists h', (more_edges p (nx h) (nx h')).
  pose proof (linked_wf order Hperm p _ _ _ _ _ h h' W Ra Ga Da Lk) as W'. pose proof (l_bl _ _ _ _ _ _ _ _ Lk) as Bl.
  pose proof (linked_mono p _ _ _ _ _ h h' W Ra Lk) as M.
  split; [exact L|]. split; [|split; [exact Bl|]].
  2: { intros (x & k & I1 & J1 & H1) ->. eapply only_seq_in_jmp; [apply Hi|rewrite Bl; exact Im].
       exists x. split; [exact I1|]. destruct (k_J _ _ _ _ _ _ (n_base _ _ K) x k J1) as [_ Hh]. rewrite (hang_matches _ _ _ _ _ Hh). exact H1. }
  eapply ok_step; [exact O|cbn; fold p; eapply linked_chg; [exact W|exact Ra| |exact Lk]|cbn; exact (linked_grows order Hperm p _ _ _ _ _ h h' Lk)|].
  { intros x Ix. eapply (out_re h p o); [exact W|exact Ro|rewrite El; exact Ix]. }
  split; [exact W'|]. split; [|apply Pt_stable]. cbn. destruct K as [k1 k2 k3 k4 k5 k6 k7]. split; cbn.
  - eapply (base_link p _ _ _ _ _ h h'); [exact W|exact Ra|exact En|exact Lk| |exact k1]. intro Ef. split; [exact Ef|].
    intro E. apply Na. symmetry. eapply (entry_eq h (pa P) a); [apply (k_in _ _ _ _ _ _ k1)|exact En|unfold ins; rewrite E; reflexivity].
  - intros b t y Q. destruct (k2 b t y Q) as (A & B & C). split; [exact A|]. split; [unfold ng; rewrite Bl; exact B|]. eapply path0_mono; [exact W|exact M|exact A|exact B|exact C].
  - intros x b [Q|(-> & I1 & k & J1 & H1)].
    + destruct (k3 x b Q) as (A & B). split; [left; exact A|]. apply (m_dst _ _ _ M); auto.
    + destruct (k_J _ _ _ _ _ _ k1 x k J1) as [R Hh]. split; [left; exact R|].
      destruct (linked_hang p _ _ _ _ _ h h' x k W Ra Lk R Hh) as [(_ & _ & Z)|[Z _]]; [exact Z|tauto].
  - intros o' l' Q. destruct (k4 o' l' Q) as (A & B). split; [exact A|]. rewrite <- B. exact (linked_outs p _ _ _ _ _ h h' o' W Ra A Lk).
  - intros i' b Q. destruct (k5 i' b Q) as (A & B & C & D & E & F). unfold ng. rewrite Bl. repeat (split; [assumption|]).
    exact (linked_entry p _ _ _ _ _ h h' b b W Ra Lk En B F).
  - intros i' Q. destruct (k6 i' Q) as (A & B). split; [exact A|].
    assert (Kd : forall x, In x (ins h i') -> e_kind (ed h' x) = e_kind (ed h x)).
    { intros x Ix. pose proof (in_re h p i' x W A Ix) as Rx. destruct (in_dec Nat.eq_dec x (ins h a)) as [Z|Z]; [apply (l_ins _ _ _ _ _ _ _ _ Lk x Z)|].
      rewrite (l_ed _ _ _ _ _ _ _ _ Lk x (w_e _ _ W x Rx) Z). destruct (_ && _ && _); reflexivity. }
    assert (Ix : exists new, ins h' i' = ins h i' ++ new).
    { unfold ins. rewrite Bl. destruct (Nat.eq_dec (im (bl h i')) (im (bl h a))) as [E|E].
      - destruct (l_in _ _ _ _ _ _ _ _ Lk) as (new & En' & _). exists new. rewrite E, En'. reflexivity.
      - exists []. rewrite app_nil_r. apply (l_mp _ _ _ _ _ _ _ _ Lk). exact E. }
    destruct Ix as [new Ei']. pose proof (w_ins _ _ W i' A) as Nn. unfold only_seq_in in *. rewrite Ei'. destruct (ins h i') as [|x [|x2 r]]; [congruence| |reflexivity].
    cbn. destruct new; [|reflexivity]. unfold is_seq in *. rewrite Kd by (left; reflexivity). exact B.
  - intros e x b K [Q Hn]. eapply (endp_link p _ _ _ _ _ h h'); [exact W|exact Ra|exact Lk|exact Hn|apply k7, Q].
Qed.

(** Why a link does not join. *)
Lemma nj_jmp : forall h o i, no_join order h o i EK_JMP LF_NONE.
Proof. intros. split; [reflexivity|left; reflexivity]. Qed.
Lemma nj_sep : forall h o i fk, no_join order h o i fk LF_FORCE_SEP.
Proof. intros. split; [reflexivity|right; left; reflexivity]. Qed.
Lemma nj_Z : forall h P rest o i fk flag, ok h (Pt P :: rest) -> pZ P i -> is_join flag = false -> no_join order h o i fk flag.
Proof. intros h P rest o i fk flag O Z F. destruct (ok_Pt _ _ _ O) as [_ K]. split; [exact F|]. right. right. left. apply (n_Z _ _ K i Z). Qed.
Lemma nj_K : forall h P rest o i fk flag l e x b j K, ok h (Pt P :: rest) -> pE P e x b (j :: K) -> pO P o l -> In e l -> In j l -> e <> j ->
  (forall y, In y l -> exists k, pJ P y k /\ (k = None -> y = e)) -> is_join flag = false -> no_join order h o i fk flag.
Proof using Hperm.
  intros h P rest o i fk flag l e x b j K O E Oo Ie Ij Nej Hl F. destruct (ok_Pt _ _ _ O) as [W Kn]. destruct (n_O _ _ Kn o l Oo) as [Ro El].
  pose proof (n_E _ _ Kn _ _ _ _ E) as Ep. split; [exact F|]. right. right. right. split.
  - unfold only_seq_out. rewrite El. destruct l as [|u [|w l]]; [destruct Ie| |reflexivity]. destruct Ie as [<-|[]]. destruct Ij as [<-|[]]. congruence.
  - intros q s Q Es. unfold out_seq in Q. apply find_some in Q as [Q1 Q2]. apply (Permutation_in _ (Hperm _ _)) in Q1. rewrite El in Q1.
    destruct (Hl q Q1) as (k & Hk & Hk'). destruct (k_J _ _ _ _ _ _ (n_base _ _ Kn) q k Hk) as [_ (H1 & _)]. unfold is_seq in Q2. rewrite H1 in Q2.
    destruct k; [discriminate Q2|]. rewrite (Hk' eq_refl), (k_e _ _ _ _ _ _ Ep) in Es. injection Es as <-.
    unfold only_seq_out. rewrite (k_xo _ _ _ _ _ _ Ep). reflexivity.
Qed.

(** A new group. *)
Definition grpP (P : pool) (p : region) (v : nat) (L : list nat) : pool :=
  mk_pool p (v :: pI P) (pa P) (pf P) (pJ P) (pS P) (pD P) (fun o l => (o = v /\ l = L) \/ (pO P o l /\ o <> v)) (pN P) (pZ P) (pE P).
Lemma pool_grouped : forall h P rest v i m L h', ok h (Pt P :: rest) -> grouped (pP P) v i m L h h' -> i = im (bl h (pa P)) ->
  ok h' (Pt (grpP P (addg (pP P) v m) v L) :: rest) /\ ~ ng h' v.
Proof.
  intros h P rest v i m L h' O G Ei. destruct (ok_Pt _ _ _ O) as [W K]. set (p := pP P) in *.
  split; [|unfold ng; destruct (gr_bv _ _ _ _ _ _ _ G) as [its ->]; cbn; tauto].
  pose proof (grouped_mono h h' p _ _ _ _ W G) as M.
  eapply ok_step; [exact O|eapply grouped_chg; eauto|cbn; eapply grouped_grows; eauto|].
  split; [cbn; eapply grouped_wf; eauto|]. split; [|apply Pt_stable]. cbn. destruct K as [k1 k2 k3 k4 k5 k6 k7]. split; cbn; fold p.
  - eapply grouped_base_v; eauto.
  - intros b t y Q. destruct (k2 b t y Q) as (A & B & C). split; [auto|]. split; [apply (m_ng _ _ _ M); auto|]. eapply path0_mono; [exact W|exact M|exact A|exact B|exact C].
  - intros x b Q. destruct (k3 x b Q) as (A & B). rewrite (gr_ed _ _ _ _ _ _ _ G). auto.
  - intros o l [[-> ->]|[Q N]]; [split; [auto|apply (gr_outs_v h h' _ _ _ _ _ G)]|]. destruct (k4 o l Q) as (A & B). split; [auto|]. rewrite <- B. eapply gr_outs; eauto.
  - intros i' b Q. destruct (k5 i' b Q) as (A & B & C & D & E & F). split; [auto|]. split; [auto|]. split; [apply (m_ng _ _ _ M); auto|]. split; [exact D|].
    rewrite (gr_im h h' p _ _ _ _ W G i' A), (gr_im h h' p _ _ _ _ W G b B). split; [exact E|]. eapply grouped_entry; eauto.
  - intros i' Q. destruct (k6 i' Q) as (A & B). split; [auto|]. rewrite <- B. apply only_seq_in_eq; [eapply gr_ins; eauto|]. intros x _. rewrite (gr_ed _ _ _ _ _ _ _ G). reflexivity.
  - intros e x b K Q. eapply grouped_endp; eauto.
Qed.

(** A piece with one end as a fragment. *)
Lemma pool_frag : forall h P rest e x b K o l J (R : list nat -> nat -> Prop), ok h (Pt P :: rest) -> pf P = true -> pE P e x b K -> pO P o l -> NoDup l ->
  (forall y k, J y k <-> pJ P y k /\ k <> None) -> (forall y, In y l <-> y = e \/ exists k, J y k) ->
  (forall t y, R t y -> (y = e \/ exists k, J y k) /\ path0 h (pa P) t y) ->
  exists F, ok h (Fr F :: rest) /\ is_frag F (pI P) o b K J R /\ fe F = e /\ fx F = x /\ fa F = pa P.
Proof.
  intros h P rest e x b K o l J R O Pf E Oo Nd HJ Hl HR. exists (mk_frag (pP P) (pI P) o (pa P) e x b K J R).
  split; [|repeat split]. eapply ok_more; [exact O|reflexivity| |apply Fr_stable]. cbn. intros W Kn. destruct (n_O _ _ Kn o l Oo) as [Ro El].
  pose proof (n_base _ _ Kn) as [b1 b2 b3 b4 b5 b6 b6' b7 b8 b9]. split; cbn; auto.
  - split; auto; try (rewrite Pf in *; auto).
    + intros y k Q. apply HJ in Q as [Q _]. auto.
    + intros y R1 S1 S2. destruct (b8 y R1 S1 S2) as [k Q]. exists k. apply HJ. split; [exact Q|]. intros ->. destruct (b7 y None Q) as [_ (H1 & _)]. unfold is_seq in S1. rewrite H1 in S1. discriminate.
  - apply (n_E _ _ Kn _ _ _ _ E).
  - rewrite El. exact Nd.
  - intro y. rewrite El. apply Hl.
  - intros y k Q. apply HJ in Q. tauto.
Qed.

(** Closing a piece: all its hanging edges lead to a fragment. *)
Lemma pool_close : forall h P B rest oj lj os ls i ft tt flag, ok h (Pt P :: Fr B :: rest) -> pf P = true -> In i (fI B) -> any_tag ft ->
  pO P oj lj -> NoDup lj -> pO P os ls -> NoDup ls ->
  (forall y b, pJ P y (Some b) -> In y lj) -> (forall y, pJ P y None -> In y ls) -> is_join flag = false -> (is_sep flag = true \/ exists y b, pJ P y (Some b)) ->
  exists h1 h2 F, link order h (Some oj) EK_JMP ft EK_JMP tt (Some i) LF_NONE = Some h1 /\ link order h1 (Some os) EK_SEQ 0 EK_SEQ 0 (Some i) flag = Some h2
    /\ ok h2 (Fr F :: rest) /\ is_frag F (pI P) (fo B) (fb B) (fK B) (fJ B) (fun t y => exists t1 t2 m k, t = t1 ++ t2 /\ pS P (pa P) t1 m /\ pJ P m k /\ fR B t2 y) /\ fx F = fx B.
Proof using Hperm.
  intros h P B rest oj lj os ls i ft tt flag O Pf Hi Hft Oj Nj Os Ns Hj Hs Fl Sep.
  destruct (ok_Pt _ _ _ O) as [WP KP]. destruct (ok_Fr _ _ _ (ok_tail _ _ _ O)) as [WB VB].
  assert (D : disj (pP P) (fP B)) by (destruct O as [_ [Q _]]; apply (Q (Fr B)); left; reflexivity). destruct D as (D1 & D2 & D3).
  pose proof (k_a _ _ _ _ _ _ (v_base _ _ VB)) as RaB. pose proof (k_a _ _ _ _ _ _ (n_base _ _ KP)) as RaP.
  assert (Na : fa B <> pa P) by (intro E; apply (D1 (pa P)); [exact RaP|rewrite <- E; exact RaB]).
  pose proof (ok_swap _ _ _ _ (pool_of _ _ _ (ok_swap _ _ _ _ O))) as O1. apply pool_both in O1.
  assert (In1 : forall o l x, pO P o l -> In x l -> re (pP P) x) by (intros o l x Q Ix; destruct (n_O _ _ KP o l Q) as [R <-]; exact (out_re _ _ _ _ WP R Ix)).
  set (Q := poolF B (outs h (fo B))) in *.
  destruct (pool_link h (both P Q) rest oj lj i (fa B) EK_JMP ft EK_JMP tt LF_NONE O1) as (h1 & p1 & L1 & O2 & Bl1 & Z1).
  { left. exact Oj. } { exact Nj. } { right. split; [exact Hi|reflexivity]. } { exact Na. } { apply nj_jmp. }
  destruct (pool_link h1 (linkP (both P Q) p1 EK_JMP ft lj (fa B)) rest os ls i (fa B) EK_SEQ 0 EK_SEQ 0 flag O2) as (h2 & p2 & L2 & O3 & Bl2 & _).
  { left. exact Os. } { exact Ns. } { right. split; [exact Hi|reflexivity]. } { exact Na. }
  { destruct Sep as [Sep|(y & b & Jy)].
    - split; [exact Fl|]. right. left. exact Sep.
    - split; [exact Fl|]. right. right. left. apply Z1; [|reflexivity]. exists y, (Some b). split; [eapply Hj; eauto|]. split; [left; exact Jy|]. apply hits_any, Hft. }
  assert (NoB : forall o l x, pO P o l -> In x l -> re (fP B) x -> False) by (intros o l x Qx Ix Rx; eapply D3; [eapply In1; eauto|exact Rx]).
  pose proof (endp_re _ _ _ _ _ _ WB (v_end _ _ VB)) as ReB.
  destruct (pool_frag h2 _ rest (fe B) (fx B) (fb B) (fK B) (fo B) (outs h (fo B)) (fJ B)
    (fun t y => exists t1 t2 m k, t = t1 ++ t2 /\ pS P (pa P) t1 m /\ pJ P m k /\ fR B t2 y) O3) as (F & OF & Is & _ & Fx & _).
  - exact Pf.
  - cbn. split; [split; [right; auto|right; reflexivity]|]. left. intro Ix. exact (NoB os ls _ Os Ix ReB).
  - cbn. right. split; reflexivity.
  - apply (v_nd _ _ VB).
  - intros y k. cbn. split.
    + intro Jy. destruct (k_J _ _ _ _ _ _ (v_base _ _ VB) y k Jy) as [R _]. pose proof (v_jmp _ _ VB y k Jy). split; [|assumption].
      split; [split; [auto|]|]; intros [Ix _]; [exact (NoB oj lj _ Oj Ix R)|exact (NoB os ls _ Os Ix R)].
    + intros [[[[Jy|[Jy|[-> ->]]] N1] N2] Nk]; [|exact Jy|congruence]. exfalso. destruct k as [b|]; [|congruence]. apply N1. split; [eapply Hj; eauto|apply hits_any, Hft].
  - intro y. apply (v_out _ _ VB).
  - intros t y (t1 & t2 & m & k & -> & S1 & J1 & R1). destruct (v_R _ _ VB t2 y R1) as [X _]. split; [exact X|].
    destruct (ok_Pt _ _ _ O3) as [W3 K3]. cbn [pa linkP both].
    destruct (n_S _ _ K3 (pa P) t1 m) as (_ & _ & P1); [left; exact S1|].
    destruct (n_S _ _ K3 (fa B) t2 y) as (_ & _ & P2); [right; split; [reflexivity|exact R1]|].
    eapply path0_app; [exact P1| |exact P2]. apply (n_D _ _ K3 m (fa B)). destruct k as [b|].
    + left. right. split; [reflexivity|]. split; [eapply Hj; eauto|]. exists (Some b). split; [left; exact J1|apply hits_any, Hft].
    + right. split; [reflexivity|]. split; [eapply Hs; eauto|]. exists None. split; [|reflexivity]. split; [left; exact J1|]. intros [_ Z]. discriminate Z.
  - exists h1, h2, F. split; [exact L1|]. split; [exact L2|]. split; [exact OF|]. split; [exact Is|exact Fx].
Qed.
End Order.
