(** Proofs about building control flow graphs: operators that skip, choices and loops. *)
From Coq Require Import Permutation ZifyBool ZifyNat.
From Verif Require Import Base GraphModel FlowModel FlowSpec FlowProofs FlowFrag FlowSteps FlowCat FlowGlue FlowPool.

Definition is_pool (P : pool) I a (J : nat -> option bool -> Prop) (S : nat -> list nat -> nat -> Prop) (D : nat -> nat -> Prop)
    (O : nat -> list nat -> Prop) (N : nat -> nat -> Prop) (Z : nat -> Prop) (E : nat -> nat -> bool -> list nat -> Prop) : Prop :=
  pI P = I /\ pa P = a /\ pf P = true /\ pJ P = J /\ pS P = S /\ pD P = D /\ pO P = O /\ pN P = N /\ pZ P = Z /\ pE P = E.
Lemma pool_weaken : forall h P rest J (S : nat -> list nat -> nat -> Prop) (D : nat -> nat -> Prop) (O : nat -> list nat -> Prop) (N : nat -> nat -> Prop) (Z : nat -> Prop)
    (E : nat -> nat -> bool -> list nat -> Prop), ok h (Pt P :: rest) -> pf P = true ->
  (forall y k, J y k <-> pJ P y k) -> (forall b t y, S b t y -> pS P b t y) -> (forall x b, D x b -> pD P x b) -> (forall o l, O o l -> pO P o l) ->
  (forall i b, N i b -> pN P i b) -> (forall i, Z i -> pZ P i) -> (forall e x b K, E e x b K -> pE P e x b K) ->
  exists P', ok h (Pt P' :: rest) /\ is_pool P' (pI P) (pa P) J S D O N Z E.
Proof.
  intros h P rest J S D O N Z E Ok Pf H1 H2 H3 H4 H5 H6 H7. exists (mk_pool (pP P) (pI P) (pa P) true J S D O N Z E). split; [|repeat split].
  eapply ok_more; [exact Ok|reflexivity| |apply Pt_stable]. cbn. intros W [k1 k2 k3 k4 k5 k6 k7]. split; cbn; auto.
  rewrite <- Pf. eapply base_J; [|exact k1]. intros y k. symmetry. apply H1.
Qed.
Lemma merge_in : forall a b x, In x (merge_set a b) <-> In x a \/ In x b.
Proof.
  intros a b x. unfold merge_set. rewrite in_app_iff, filter_In. destruct (existsb (Nat.eqb x) a) eqn:E.
  - apply existsb_spec in E. cbn. tauto.
  - assert (~ In x a) by (intro I; apply existsb_spec in I; congruence). cbn. tauto.
Qed.
Lemma merge_nd : forall a b, NoDup a -> NoDup b -> NoDup (merge_set a b).
Proof.
  intros a b Ha Hb. unfold merge_set. induction Ha as [|x a Nx Ha IH]; cbn.
  - rewrite filter_all; auto.
  - constructor.
    + intro I. apply in_app_iff in I as [I|I]; [tauto|]. apply filter_In in I as [_ I]. rewrite Nat.eqb_refl in I. discriminate.
    + replace (a ++ filter (fun x0 => negb ((x0 =? x) || existsb (Nat.eqb x0) a)) b)
        with (a ++ filter (fun y => negb (y =? x)) (filter (fun x0 => negb (existsb (Nat.eqb x0) a)) b)).
      * revert IH. generalize (filter (fun x0 => negb (existsb (Nat.eqb x0) a)) b). intros l N. clear -N.
        induction a as [|u a IHa]; cbn in *; [apply NoDup_filter, N|]. inversion N; subst. constructor; [|auto].
        intro I. apply H1. apply in_app_iff. apply in_app_iff in I as [I|I]; [auto|]. apply filter_In in I. tauto.
      * f_equal. clear. induction b as [|u b IHb]; [reflexivity|]. cbn. destruct (existsb (Nat.eqb u) a); cbn; [rewrite orb_true_r; cbn; exact IHb|].
        rewrite orb_false_r. destruct (u =? x); cbn; [exact IHb|f_equal; exact IHb].
Qed.
Lemma outs_exits : forall F h, valid F h -> forall y, In y (outs h (fo F)) <-> y = fe F \/ exists k, fJ F y k.
Proof. intros F h V. apply (v_out _ _ V). Qed.
Lemma fr_ne : forall h A B rest, ok h (Fr A :: Fr B :: rest) -> fo A <> fo B /\ fa A <> fa B.
Proof.
  intros h A B rest O. destruct (ok_Fr _ _ _ O) as [_ VA]. destruct (ok_Fr _ _ _ (ok_tail _ _ _ O)) as [_ VB]. destruct (ok_disj _ _ _ _ O) as (D & _).
  split; intro E; [apply (D (fo A)); [apply (v_o _ _ VA)|rewrite E; apply (v_o _ _ VB)]|].
  apply (D (fa A)); [apply (k_a _ _ _ _ _ _ (v_base _ _ VA))|rewrite E; apply (k_a _ _ _ _ _ _ (v_base _ _ VB))].
Qed.
Lemma fe_not_J : forall F h k, valid F h -> fJ F (fe F) k -> False.
Proof.
  intros F h k V Q. destruct (k_J _ _ _ _ _ _ (v_base _ _ V) _ k Q) as [_ (H & _)]. rewrite (k_e _ _ _ _ _ _ (v_end _ _ V)) in H. pose proof (v_jmp _ _ V _ k Q). destruct k; [discriminate H|congruence].
Qed.
(** The hanging edges among those of a block. *)
Lemma known_hanging : forall P h o l x, wf h (pP P) -> known P h -> pO P o l -> In x l -> (exists k, pJ P x k) \/ (exists b, pD P x b) ->
  (hanging (ed h x) = true <-> exists k, pJ P x k).
Proof.
  intros P h o l x W K Oo Ix H. unfold hanging. split.
  - intro Q. destruct H as [H|[b Hb]]; [exact H|]. destruct (n_D _ _ K x b Hb) as [_ E]. rewrite E in Q. discriminate.
  - intros [k Hk]. destruct (k_J _ _ _ _ _ _ (n_base _ _ K) x k Hk) as [_ (_ & _ & E)]. rewrite E. reflexivity.
Qed.
Lemma known_seq : forall P h x k, known P h -> pJ P x k -> is_seq (ed h x) = match k with None => true | Some _ => false end.
Proof. intros P h x k K Hk. destruct (k_J _ _ _ _ _ _ (n_base _ _ K) x k Hk) as [_ (E & _)]. unfold is_seq. rewrite E. destruct k; reflexivity. Qed.

Section Order.
Variable order : heap -> list nat -> list nat.
Hypothesis Hperm : forall h l, Permutation (order h l) l.

(** ** From [A] to [B] *)
Definition hit_by (fto : option N) (k : option bool) : bool := match fto with Some ft => hits EK_JMP ft k | None => false end.
Definition forkJ (A B : frag) (fto : option N) (y : nat) (k : option bool) : Prop := (fJ A y k /\ hit_by fto k = false) \/ fJ B y k \/ (y = fe B /\ k = None).
Lemma fork2 : forall h A B rest j K c fto, ok h (Fr A :: Fr B :: rest) -> fK A = j :: K -> fJ A j (Some c) -> In (fo B) (fI B) ->
  exists h1 h2 P, link_seq order h (Some (fo A)) (Some (fo B)) = Some h1
    /\ (match fto with Some ft => link order h1 (Some (fo A)) EK_JMP ft EK_SEQ 0 (Some (fo B)) LF_NONE | None => Some h1 end) = Some h2
    /\ bl h2 = bl h /\ ok h2 (Pt P :: rest)
    /\ is_pool P (fI A) (fa A) (forkJ A B fto) (fun b t y => (b = fa A /\ fR A t y) \/ (b = fa B /\ fR B t y))
         (fun x b => b = fa B /\ (x = fe A \/ exists k, fJ A x k /\ hit_by fto k = true))
         (fun o l => (o = fo A /\ l = outs h (fo A)) \/ (o = fo B /\ l = outs h (fo B)))
         (fun i b => (In i (fI A) /\ b = fa A) \/ (In i (fI B) /\ b = fa B)) (fun _ => False)
         (fun e x b K => e = fe B /\ x = fx B /\ b = fb B /\ K = fK B).
Proof using Hperm.
  intros h A B rest j K c fto O KA Jj Io. destruct (ok_Fr _ _ _ O) as [WA VA]. destruct (ok_Fr _ _ _ (ok_tail _ _ _ O)) as [WB VB].
  pose proof (ok_disj _ _ _ _ O) as (D1 & D2 & D3). destruct (fr_ne _ _ _ _ O) as [No Na].
  pose proof (ok_swap _ _ _ _ (pool_of _ _ _ (ok_swap _ _ _ _ (pool_of _ _ _ O)))) as O1. apply pool_both in O1.
  set (lA := outs h (fo A)) in *. set (lB := outs h (fo B)) in *.
  assert (Ie : In (fe A) lA) by (apply (v_out _ _ VA); left; reflexivity).
  assert (Ij : In j lA) by (apply (v_out _ _ VA); right; eauto).
  assert (NoB : forall x, In x lA -> re (fP B) x -> False) by (intros x Ix; apply D3; exact (out_re h (fP A) (fo A) x WA (v_o _ _ VA) Ix)).
  assert (Hl : forall y, In y lA -> exists k, pJ (both (poolF A lA) (poolF B lB)) y k /\ (k = None -> y = fe A)).
  { intros y Iy. apply (v_out _ _ VA) in Iy as [->|[k Q]]; [exists None; cbn; auto|]. exists k. cbn. split; [auto|]. intros ->. exfalso. exact (v_jmp _ _ VA y None Q eq_refl). }
  destruct (pool_link order Hperm h _ rest (fo A) lA (fo B) (fa B) EK_SEQ 0 EK_SEQ 0 LF_NONE O1) as (h1 & p1 & L1 & O2 & Bl1 & _).
  { left. split; reflexivity. } { apply (v_nd _ _ VA). } { right. split; [exact Io|reflexivity]. } { cbn. congruence. }
  { apply (nj_K order Hperm h _ rest (fo A) (fo B) EK_SEQ LF_NONE lA (fe A) (fx A) (fb A) j K O1).
    - left. cbn. rewrite KA. auto.
    - left. split; reflexivity.
    - exact Ie.
    - exact Ij.
    - intros E. rewrite <- E in Jj. exact (fe_not_J A h _ VA Jj).
    - exact Hl.
    - reflexivity. }
  assert (Seq0 : forall k, hits EK_SEQ 0 k = match k with None => true | Some _ => false end) by (intros [[]|]; reflexivity).
  assert (ReB : re (fP B) (fe B)) by (eapply endp_re; [exact WB|apply (v_end _ _ VB)]).
  assert (JB : forall y k, fJ B y k -> re (fP B) y) by (intros y k Q; apply (k_J _ _ _ _ _ _ (v_base _ _ VB) y k Q)).
  assert (JA : forall y k, fJ A y k -> In y lA /\ k <> None) by (intros y k Q; split; [apply (v_out _ _ VA); right; eauto|eapply (v_jmp _ _ VA); eauto]).
  destruct fto as [ft|].
  - destruct (pool_link order Hperm h1 _ rest (fo A) lA (fo B) (fa B) EK_JMP ft EK_SEQ 0 LF_NONE O2) as (h2 & p2 & L2 & O3 & Bl2 & _).
    { left. split; reflexivity. } { apply (v_nd _ _ VA). } { right. split; [exact Io|reflexivity]. } { cbn. congruence. } { apply nj_jmp. }
    edestruct (pool_weaken h2 _ rest (forkJ A B (Some ft)) (fun b t y => (b = fa A /\ fR A t y) \/ (b = fa B /\ fR B t y))
         (fun x b => b = fa B /\ (x = fe A \/ exists k, fJ A x k /\ hit_by (Some ft) k = true))
         (fun o l => (o = fo A /\ l = lA) \/ (o = fo B /\ l = lB))
         (fun i b => (In i (fI A) /\ b = fa A) \/ (In i (fI B) /\ b = fa B)) (fun _ => False)
         (fun e x b K => e = fe B /\ x = fx B /\ b = fb B /\ K = fK B) O3) as (P & OP & Is); [reflexivity|..].
    + intros y k. unfold forkJ, hit_by. cbn. split.
      * intros [[Q H]|[Q|[-> ->]]].
        { destruct (JA y k Q) as [Iy Nk]. split; [split; [left; left; exact Q|]|]; intros [_ Z]; [rewrite Seq0 in Z; destruct k; [discriminate|congruence]|congruence]. }
        { split; [split; [right; left; exact Q|]|]; intros [Iy _]; exact (NoB y Iy (JB y k Q)). }
        { split; [split; [right; right; auto|]|]; intros [Iy _]; exact (NoB _ Iy ReB). }
      * intros [[[[Q|[-> ->]]|[Q|[-> ->]]] N1] N2]; [|exfalso; apply N1; auto|right; left; exact Q|right; right; auto].
        left. split; [exact Q|]. destruct (hits EK_JMP ft k) eqn:E; [|reflexivity]. exfalso. apply N2. split; [apply (JA y k Q)|reflexivity].
    + cbn. auto.
    + cbn. intros x b [-> [->|(k & Q & H)]]; [left; right|right]; (split; [reflexivity|]).
      * split; [exact Ie|]. exists None. auto.
      * destruct (JA x k Q) as [Ix Nk]. split; [exact Ix|]. exists k. split; [split; [auto|]|exact H]. intros [_ Z]. rewrite Seq0 in Z. destruct k; [discriminate|congruence].
    + cbn. intros o l [Q|Q]; auto.
    + cbn. intros i b [Q|Q]; auto.
    + cbn. auto.
    + cbn. intros e x b K0 (-> & -> & -> & ->). split; [split; [right; auto|]|]; left; intro Ix; exact (NoB _ Ix ReB).
    + exists h1, h2, P. split; [exact L1|]. split; [exact L2|]. split; [congruence|]. split; [exact OP|exact Is].
  - edestruct (pool_weaken h1 _ rest (forkJ A B None) (fun b t y => (b = fa A /\ fR A t y) \/ (b = fa B /\ fR B t y))
         (fun x b => b = fa B /\ (x = fe A \/ exists k, fJ A x k /\ hit_by None k = true))
         (fun o l => (o = fo A /\ l = lA) \/ (o = fo B /\ l = lB))
         (fun i b => (In i (fI A) /\ b = fa A) \/ (In i (fI B) /\ b = fa B)) (fun _ => False)
         (fun e x b K => e = fe B /\ x = fx B /\ b = fb B /\ K = fK B) O2) as (P & OP & Is); [reflexivity|..].
    + intros y k. unfold forkJ, hit_by. cbn. split.
      * intros [[Q H]|[Q|[-> ->]]].
        { destruct (JA y k Q) as [Iy Nk]. split; [left; left; exact Q|]. intros [_ Z]; rewrite Seq0 in Z; destruct k; [discriminate|congruence]. }
        { split; [right; left; exact Q|]. intros [Iy _]; exact (NoB y Iy (JB y k Q)). }
        { split; [right; right; auto|]. intros [Iy _]; exact (NoB _ Iy ReB). }
      * intros [[[Q|[-> ->]]|[Q|[-> ->]]] N1]; [auto|exfalso; apply N1; auto|right; left; exact Q|right; right; auto].
    + cbn. auto.
    + cbn. intros x b [-> [->|(k & Q & H)]]; [|discriminate]. right. split; [reflexivity|]. split; [exact Ie|]. exists None. auto.
    + cbn. intros o l [Q|Q]; auto.
    + cbn. intros i b [Q|Q]; auto.
    + cbn. auto.
    + cbn. intros e x b K0 (-> & -> & -> & ->). split; [right; auto|]. left; intro Ix; exact (NoB _ Ix ReB).
    + exists h1, h1, P. split; [exact L1|]. split; [reflexivity|]. split; [congruence|]. split; [exact OP|exact Is].
Qed.

(** ** A new group over a piece *)
Definition grown (h : heap) (i : nat) (ls : list (list nat)) : heap := fold_left (fun g l => add_outs g (nx h) l) ls (snd (new_grp i h)).
Lemma grown_same : forall h i ls b, b < nx h -> om (bl h b) < nx h -> outs (grown h i ls) b = outs h b /\ ed (grown h i ls) = ed h.
Proof.
  intros h i ls b Hb Hm. unfold grown.
  assert (Q : outs (snd (new_grp i h)) b = outs h b /\ ed (snd (new_grp i h)) = ed h /\ bl (snd (new_grp i h)) (nx h) = mk_blk BK_GROUP [] i (1 + nx h) /\ bl (snd (new_grp i h)) b = bl h b).
  { cbn -[Nat.add]. unfold outs. cbn -[Nat.add]. rewrite (upd_other _ (bl h)) by lia. rewrite upd_other by lia. rewrite upd_same. auto. }
  revert Q. generalize (snd (new_grp i h)) as g. induction ls as [|l ls IH]; intros g (Q1 & Q2 & Q3 & Q4); [cbn; auto|]. cbn [fold_left]. apply IH. unfold add_outs, outs in *. cbn -[Nat.add].
  split; [|auto]. rewrite upd_other; [exact Q1|]. rewrite Q3, Q4. cbn -[Nat.add]. lia.
Qed.
Lemma grown_x : forall P h i ls o l, wf h (pP P) -> known P h -> pO P o l ->
  outs (grown h i ls) o = l /\ x_out (grown h i ls) o = x_out h o /\ x_jmp (grown h i ls) o = x_jmp h o.
Proof.
  intros P h i ls o l W K Oo. destruct (n_O _ _ K o l Oo) as [Ro El].
  destruct (grown_same h i ls o (w_b _ _ W _ Ro) (w_m _ _ W _ (w_om _ _ W _ Ro))) as [E1 E2]. unfold x_out, x_jmp. rewrite E1, E2. auto.
Qed.
Lemma group_over : forall h P rest c ls, ok h (Pt P :: rest) -> rb (pP P) c -> im (bl h c) = im (bl h (pa P)) ->
  (forall l, In l ls -> forall x, In x l -> exists d, rb (pP P) d /\ In x (outs h d)) ->
  exists p, ok (grown h (im (bl h c)) ls) (Pt (grpP P p (nx h) (fold_left merge_set ls [])) :: rest) /\ ~ ng (grown h (im (bl h c)) ls) (nx h).
Proof.
  intros h P rest c ls O Rc Im Hl. destruct (ok_Pt _ _ _ O) as [W K]. unfold grown.
  assert (G : grouped (pP P) (nx h) (im (bl h c)) (1 + nx h) (fold_left merge_set ls []) h (fold_left (fun g l => add_outs g (nx h) l) ls (snd (new_grp (im (bl h c)) h)))).
  { pose proof (grouped_new (pP P) h c Rc) as G0. revert G0. generalize (snd (new_grp (im (bl h c)) h)) as g. generalize (@nil nat) as L. clear -Hl.
    induction ls as [|l ls IH]; intros L g G; [exact G|]. cbn. apply IH; [intros l' I; apply Hl; right; exact I|].
    apply grouped_add; [exact G|lia|]. apply Hl. left. reflexivity. }
  exists (addg (pP P) (nx h) (1 + nx h)). eapply pool_grouped; eauto.
Qed.
Lemma x_out_in : forall P h o l x, wf h (pP P) -> known P h -> pO P o l -> (forall x, In x l -> (exists k, pJ P x k) \/ (exists b, pD P x b)) ->
  (In x (x_out h o) <-> In x l /\ exists k, pJ P x k).
Proof.
  intros P h o l x W K Oo Hl. destruct (n_O _ _ K o l Oo) as [Ro El]. unfold x_out. rewrite filter_In, El. split.
  - intros [I Q]. split; [exact I|]. apply (known_hanging P h o l x W K Oo I (Hl x I)), Q.
  - intros [I Q]. split; [exact I|]. apply (known_hanging P h o l x W K Oo I (Hl x I)), Q.
Qed.
Lemma x_jmp_in : forall P h o l x, wf h (pP P) -> known P h -> pO P o l -> (forall x, In x l -> (exists k, pJ P x k) \/ (exists b, pD P x b)) ->
  (In x (x_jmp h o) <-> In x l /\ exists b, pJ P x (Some b)).
Proof.
  intros P h o l x W K Oo Hl. destruct (n_O _ _ K o l Oo) as [Ro El]. unfold x_jmp. rewrite filter_In, El, andb_true_iff. split.
  - intros [I [Q1 Q]]. split; [exact I|]. apply (known_hanging P h o l x W K Oo I (Hl x I)) in Q as [[b|] Hk]; [eauto|]. rewrite (known_seq P h x None K Hk) in Q1. discriminate.
  - intros [I [b Q]]. split; [exact I|]. split; [rewrite (known_seq P h x _ K Q); reflexivity|]. apply (known_hanging P h o l x W K Oo I (Hl x I)). eauto.
Qed.
Lemma x_from : forall P h o l x, known P h -> pO P o l -> In x (x_out h o) \/ In x (x_jmp h o) -> exists d, rb (pP P) d /\ In x (outs h d).
Proof.
  intros P h o l x K Oo H. destruct (n_O _ _ K o l Oo) as [Ro El]. exists o. split; [exact Ro|]. destruct H as [H|H]; apply filter_In in H; tauto.
Qed.
Lemma x_nd : forall P h o l, known P h -> pO P o l -> NoDup l -> NoDup (x_out h o) /\ NoDup (x_jmp h o).
Proof. intros P h o l K Oo N. destruct (n_O _ _ K o l Oo) as [Ro El]. unfold x_out, x_jmp. rewrite El. split; apply NoDup_filter, N. Qed.

(** ** Logical operators *)
Lemma logic_ok : forall h A B rest j K c fto, ok h (Fr A :: Fr B :: rest) -> In (fo A) (fI A) -> fK A = j :: K -> fJ A j (Some c) -> In (fo B) (fI B) ->
  exists h1 h2 C, link_seq order h (Some (fo A)) (Some (fo B)) = Some h1
    /\ (match fto with Some ft => link order h1 (Some (fo A)) EK_JMP ft EK_SEQ 0 (Some (fo B)) LF_NONE | None => Some h1 end) = Some h2
    /\ (let h3 := snd (new_grp (im (bl h2 (fo A))) h2) in let h4 := add_outs (add_outs h3 (nx h2) (outs h3 (fo B))) (nx h2) (x_out h3 (fo A)) in
        ok h4 (Fr C :: rest) /\ ~ ng h4 (nx h2))
    /\ is_frag C (nx h2 :: fI A) (nx h2) (fb B) (fK B) (fun y k => (fJ A y k /\ hit_by fto k = false) \/ fJ B y k)
         (fun t y => (exists t1 t2 m, t = t1 ++ t2 /\ fR A t1 m /\ (m = fe A \/ exists k, fJ A m k /\ hit_by fto k = true) /\ fR B t2 y)
                     \/ (fR A t y /\ exists k, fJ A y k /\ hit_by fto k = false))
    /\ fe C = fe B.
Proof using Hperm.
  intros h A B rest j K c fto O Ia KA Jj Ib.
  destruct (ok_Fr _ _ _ O) as [WA VA]. destruct (ok_Fr _ _ _ (ok_tail _ _ _ O)) as [WB VB].
  destruct (fr_ne _ _ _ _ O) as [No Na].
  destruct (fork2 h A B rest j K c fto O KA Jj Ib) as (h1 & h2 & P & L1 & L2 & Bl & OP & Ip & Ea & Ef & EJ & ES & ED & EO & EN & EZ & EE).
  exists h1, h2. set (lA := outs h (fo A)) in *. set (lB := outs h (fo B)) in *.
  destruct (ok_Pt _ _ _ OP) as [WP KP].
  assert (OA : pO P (fo A) lA) by (rewrite EO; left; auto). assert (OB : pO P (fo B) lB) by (rewrite EO; right; auto).
  assert (HlA : forall x, In x lA -> (exists k, pJ P x k) \/ (exists b, pD P x b)).
  { intros x Ix. apply (v_out _ _ VA) in Ix. rewrite EJ, ED. destruct Ix as [->|[k Q]]; [right; exists (fa B); auto|].
    destruct (hit_by fto k) eqn:E; [right; exists (fa B); split; [reflexivity|]; right; eauto|left; exists k; left; auto]. }
  destruct (k_i _ _ _ _ _ _ (v_base _ _ VA) _ Ia) as [RA ImA].
  destruct (group_over h2 P rest (fo A) [lB; x_out h2 (fo A)] OP) as (p & OG & Gv).
  { apply (n_O _ _ KP _ _ OA). }
  { rewrite Ea, Bl. exact ImA. }
  { intros l [<-|[<-|[]]] x Ix; [|apply (x_from P h2 (fo A) lA x KP OA); auto]. exists (fo B). destruct (n_O _ _ KP _ _ OB) as [RB EB]. rewrite EB. auto. }
  assert (G4 : add_outs (add_outs (snd (new_grp (im (bl h2 (fo A))) h2)) (nx h2) (outs (snd (new_grp (im (bl h2 (fo A))) h2)) (fo B))) (nx h2) (x_out (snd (new_grp (im (bl h2 (fo A))) h2)) (fo A))
    = grown h2 (im (bl h2 (fo A))) [lB; x_out h2 (fo A)]).
  { destruct (grown_x P h2 (im (bl h2 (fo A))) [] (fo B) lB WP KP OB) as (E1 & _). destruct (grown_x P h2 (im (bl h2 (fo A))) [] (fo A) lA WP KP OA) as (_ & E2 & _).
    unfold grown in *. cbn [fold_left] in *. rewrite E1, E2. reflexivity. }
  edestruct (pool_frag _ _ rest (fe B) (fx B) (fb B) (fK B) (nx h2) (fold_left merge_set [lB; x_out h2 (fo A)] [])
    (fun y k => (fJ A y k /\ hit_by fto k = false) \/ fJ B y k)
    (fun t y => (exists t1 t2 m, t = t1 ++ t2 /\ fR A t1 m /\ (m = fe A \/ exists k, fJ A m k /\ hit_by fto k = true) /\ fR B t2 y)
                     \/ (fR A t y /\ exists k, fJ A y k /\ hit_by fto k = false)) OG) as (C & OC & Is & Fe & _).
  - exact Ef.
  - cbn. rewrite EE. auto.
  - cbn. left. split; reflexivity.
  - cbn [fold_left]. apply merge_nd; [apply merge_nd; [constructor|apply (v_nd _ _ VB)]|]. eapply x_nd; [exact KP|exact OA|apply (v_nd _ _ VA)].
  - intros y k. cbn. rewrite EJ. unfold forkJ. split.
    + intros [[Q H]|Q]; [split; [auto|eapply (v_jmp _ _ VA); eauto]|split; [auto|eapply (v_jmp _ _ VB); eauto]].
    + intros [[Q|[Q|[-> ->]]] N]; [auto|auto|congruence].
  - intro y. cbn [fold_left]. rewrite !merge_in, (x_out_in P h2 (fo A) lA y WP KP OA HlA), EJ.
    assert (Eb : In y lB <-> exits B y) by apply (v_out _ _ VB). assert (Ea' : In y lA <-> exits A y) by apply (v_out _ _ VA). rewrite Eb, Ea'. cbn [In]. unfold exits, forkJ. split.
    + intros [[[]|[->|[k Q]]]|[Iy [k [[Q H]|[Q|[-> ->]]]]]]; eauto.
    + intros [->|[k [[Q H]|Q]]]; [auto|right; split; eauto|left; right; eauto].
  - intros t y H. cbn [pa grpP]. rewrite Ea. destruct (ok_Pt _ _ _ OG) as [WG KG]. destruct H as [(t1 & t2 & m & -> & R1 & Hm & R2)|[R1 [k [Q H]]]].
    + split; [destruct (v_R _ _ VB t2 y R2) as [[->|[k Q]] _]; [auto|right; exists k; auto]|].
      destruct (n_S _ _ KG (fa A) t1 m) as (_ & _ & P1); [cbn; rewrite ES; auto|]. destruct (n_S _ _ KG (fa B) t2 y) as (_ & _ & P2); [cbn; rewrite ES; auto|].
      eapply path0_app; [exact P1| |exact P2]. apply (n_D _ _ KG m (fa B)). cbn. rewrite ED. auto.
    + split; [right; exists k; auto|]. apply (n_S _ _ KG (fa A) t y). cbn. rewrite ES. auto.
  - exists C. split; [exact L1|]. split; [exact L2|]. cbv zeta. rewrite G4. split; [split; [exact OC|exact Gv]|]. split; [|exact Fe].
    cbn [pI grpP] in Is. rewrite Ip in Is. exact Is.
Qed.

(** ** Three pieces *)
Lemma fork3 : forall h A B C rest j K c, ok h (Fr A :: Fr B :: Fr C :: rest) -> fK A = j :: K -> fJ A j (Some c) -> In (fo B) (fI B) -> In (fo C) (fI C) ->
  exists h1 h2 h3 P, link_seq order h (Some (fo A)) (Some (fo B)) = Some h1
    /\ link order h1 (Some (fo A)) EK_JMP ET_JMP_T EK_SEQ 0 (Some (fo B)) LF_NONE = Some h2
    /\ link order h2 (Some (fo A)) EK_JMP ET_JMP_F EK_SEQ 0 (Some (fo C)) LF_NONE = Some h3
    /\ bl h3 = bl h /\ ok h3 (Pt P :: rest)
    /\ is_pool P (fI A) (fa A) (fun y k => (fJ B y k \/ (y = fe B /\ k = None)) \/ (fJ C y k \/ (y = fe C /\ k = None)))
         (fun b t y => (b = fa A /\ fR A t y) \/ (b = fa B /\ fR B t y) \/ (b = fa C /\ fR C t y))
         (fun x b => (b = fa B /\ (x = fe A \/ fJ A x (Some true))) \/ (b = fa C /\ fJ A x (Some false)))
         (fun o l => (o = fo A /\ l = outs h (fo A)) \/ (o = fo B /\ l = outs h (fo B)) \/ (o = fo C /\ l = outs h (fo C)))
         (fun i b => False) (fun _ => False) (fun e x b K => False).
Proof using Hperm.
  intros h A B C rest j K c O KA Jj Ib Ic. destruct (ok_Fr _ _ _ O) as [WA VA].
  destruct (ok_Fr _ _ _ (ok_tail _ _ _ (ok_tail _ _ _ O))) as [WC VC].
  destruct (fr_ne _ _ _ _ (ok_tail _ _ _ O)) as [NoBC _].
  assert (NeA : fo A <> fo C /\ fa A <> fa C /\ (forall x, re (fP A) x -> re (fP C) x -> False)).
  { assert (O' : ok h (Fr A :: Fr C :: Fr B :: rest)) by (eapply ok_perm; [|exact O]; constructor; apply perm_swap).
    destruct (fr_ne _ _ _ _ O') as [X Y]. destruct (ok_disj _ _ _ _ O') as (_ & _ & D3). auto. }
  destruct NeA as (NoAC & NaAC & DAC).
  assert (O1 : ok h (Fr A :: Fr B :: Pt (poolF C (outs h (fo C))) :: rest)).
  { eapply (ok_perm h (Pt (poolF C (outs h (fo C))) :: Fr A :: Fr B :: rest)); [|apply pool_of; eapply ok_perm; [|exact O]].
    - eapply perm_trans; [apply perm_swap|]. constructor. apply perm_swap.
    - eapply perm_trans; [constructor; apply perm_swap|]. apply perm_swap. }
  destruct (fork2 h A B _ j K c (Some ET_JMP_T) O1 KA Jj Ib) as (h1 & h2 & P & L1 & L2 & Bl & OP & Ip & Ea & Ef & EJ & ES & ED & EO & EN & EZ & EE).
  set (lA := outs h (fo A)) in *. set (lB := outs h (fo B)) in *. set (lC := outs h (fo C)) in *.
  destruct (ok_Pt _ _ _ OP) as [WP KP]. pose proof (ok_tail _ _ _ OP) as OC. destruct (ok_Pt _ _ _ OC) as [_ KC].
  assert (DPC : forall x, re (pP P) x -> re (fP C) x -> False) by (destruct OP as [_ [Q _]]; apply (Q _ (or_introl eq_refl))).
  apply pool_both in OP.
  destruct (pool_link order Hperm h2 _ rest (fo A) lA (fo C) (fa C) EK_JMP ET_JMP_F EK_SEQ 0 LF_NONE OP) as (h3 & p3 & L3 & O3 & Bl3 & _).
  { left. rewrite EO. left. auto. } { apply (v_nd _ _ VA). } { right. split; [exact Ic|reflexivity]. } { cbn. rewrite Ea. congruence. } { apply nj_jmp. }
  assert (JA : forall y k, fJ A y k -> In y lA /\ k <> None) by (intros y k Q; split; [apply (v_out _ _ VA); right; eauto|eapply (v_jmp _ _ VA); eauto]).
  assert (NoA : forall y, In y lA -> re (pP P) y) by (intros y Iy; destruct (n_O _ _ KP (fo A) lA) as [R E]; [rewrite EO; auto|]; eapply out_re; [exact WP|exact R|rewrite E; exact Iy]).
  assert (JC : forall y k, fJ C y k \/ (y = fe C /\ k = None) -> ~ In y lA).
  { intros y k Q Iy. apply (DPC y (NoA y Iy)). apply (k_J _ _ _ _ _ _ (n_base _ _ KC) y k). exact Q. }
  assert (JB : forall y k, fJ B y k \/ (y = fe B /\ k = None) -> ~ In y lA).
  { destruct (ok_Fr _ _ _ (ok_tail _ _ _ O)) as [WB VB]. destruct (ok_disj _ _ _ _ O) as (_ & _ & D3). intros y k Q Iy.
    apply (D3 y); [exact (out_re h (fP A) (fo A) y WA (v_o _ _ VA) Iy)|]. destruct Q as [Q|[-> _]]; [apply (k_J _ _ _ _ _ _ (v_base _ _ VB) y k Q)|eapply endp_re; [exact WB|apply (v_end _ _ VB)]]. }
  edestruct (pool_weaken h3 _ rest (fun y k => (fJ B y k \/ (y = fe B /\ k = None)) \/ (fJ C y k \/ (y = fe C /\ k = None)))
         (fun b t y => (b = fa A /\ fR A t y) \/ (b = fa B /\ fR B t y) \/ (b = fa C /\ fR C t y))
         (fun x b => (b = fa B /\ (x = fe A \/ fJ A x (Some true))) \/ (b = fa C /\ fJ A x (Some false)))
         (fun o l => (o = fo A /\ l = lA) \/ (o = fo B /\ l = lB) \/ (o = fo C /\ l = lC))
         (fun i b => False) (fun _ => False) (fun e x b K => False) O3) as (P' & OP' & Is); [exact Ef|..].
  - intros y k. cbn. rewrite EJ. unfold forkJ. split.
    + intros [Q|Q]; (split; [|intros [Iy _]]); [tauto|exact (JB y k Q Iy)|tauto|exact (JC y k Q Iy)].
    + intros [[[[Q H]|Q]|Q] N]; [|tauto|tauto]. exfalso. destruct (JA y k Q) as [Iy Nk]. destruct k as [[|]|]; [discriminate H|apply N; split; [exact Iy|reflexivity]|congruence].
  - cbn. rewrite ES. intros b t y Q. tauto.
  - cbn. rewrite ED, EJ. unfold forkJ. intros x b [[-> [->|Q]]|[-> Q]].
    + left. left. auto.
    + left. left. split; [reflexivity|]. right. exists (Some true). auto.
    + right. split; [reflexivity|]. split; [apply (JA _ _ Q)|]. exists (Some false). split; [|reflexivity]. left. left. split; [exact Q|reflexivity].
  - cbn. rewrite EO. intros o l Q. tauto.
  - tauto.
  - tauto.
  - tauto.
  - exists h1, h2, h3, P'. split; [exact L1|]. split; [exact L2|]. split; [exact L3|]. split; [congruence|]. split; [exact OP'|].
    cbn [pI pa linkP both] in Is. rewrite Ip, Ea in Is. exact Is.
Qed.
End Order.
