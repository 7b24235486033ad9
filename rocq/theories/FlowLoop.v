(** Proofs about building control flow graphs: loops. *)
From Coq Require Import Permutation ZifyBool ZifyNat.
From Verif Require Import Base GraphModel FlowModel FlowSpec FlowProofs FlowFrag FlowSteps FlowCat FlowGlue FlowPool FlowFork FlowExprs FlowBin FlowGo FlowStmt.

Lemma lor_cut : forall a b, has_bit a ET_CUT = false -> has_bit b ET_CUT = false -> has_bit (N.lor a b) ET_CUT = false.
Proof.
  intros a b A B. unfold has_bit in *. rewrite N.land_lor_distr_l. apply negb_false_iff in A, B. apply N.eqb_eq in A, B. rewrite A, B. reflexivity.
Qed.

Section Order.
Variable order : heap -> list nat -> list nat.
Hypothesis Hperm : forall h l, Permutation (order h l) l.

(** A place to come back to. *)
Definition loopP (F : frag) (p : region) (l : list nat) : pool :=
  mk_pool p (fI F) (fa F) false (fun y k => fJ F y k \/ (y = fe F /\ k = None)) (fun b t y => b = fa F /\ fR F t y) (fun _ _ => False)
    (fun o l' => o = fo F /\ l' = l) (fun i b => In i (fI F) /\ b = fa F) (fun i => In i (fI F))
    (fun e x b K => e = fe F /\ x = fx F /\ b = fb F /\ K = fK F).
Lemma loop_in : forall h F rest i, ok h (Fr F :: rest) -> In i (fI F) ->
  exists h' p, new_loop_in order h i = Some h' /\ bl h' = bl h
    /\ ok h' (Pt (loopP F p (outs h (fo F))) :: rest).
Proof using Hperm.
  intros h F rest i O Hi. pose proof (pool_of _ _ _ O) as OP. destruct (ok_Pt _ _ _ OP) as [W K]. set (P := poolF F (outs h (fo F))) in *.
  destruct (new_loop_in_ok order Hperm h (pP P) (pI P) (pa P) (pf P) (pJ P) i W (n_base _ _ K) Hi) as (h' & E & W' & Ch & Gr & M & B' & Ep & Outs & Bl & Ent & Z).
  exists h', (adde (pP P) (nx h)). split; [exact E|]. split; [exact Bl|].
  eapply ok_step; [exact OP|exact Ch|exact Gr|]. split; [exact W'|]. split; [|apply Pt_stable]. cbn. destruct K as [k1 k2 k3 k4 k5 k6 k7]. split; cbn.
  - exact B'.
  - intros b t y Q. destruct (k2 b t y Q) as (A & B & C). split; [exact A|]. split; [unfold ng; rewrite Bl; exact B|]. eapply path0_mono; [exact W|exact M|exact A|exact B|exact C].
  - tauto.
  - intros o l Q. destruct (k4 o l Q) as (A & B). split; [exact A|]. rewrite <- B. apply Outs, A.
  - intros i' b Q. destruct (k5 i' b Q) as (A & B & C & D & E1 & F1). unfold ng. rewrite Bl. repeat (split; [assumption|]). apply Ent; assumption.
  - intros i' Q. split; [apply (k_i _ _ _ _ _ _ k1 i' Q)|apply Z, Q].
  - intros e x b K Q. apply Ep, k7, Q.
Qed.
(** A link leaves the kinds of edges. *)
Lemma pool_link_kind : forall h P rest o l i a fk ft tk tt flag h', ok h (Pt P :: rest) -> pO P o l -> NoDup l -> pN P i a -> no_join order h o i fk flag ->
  link order h (Some o) fk ft tk tt (Some i) flag = Some h' -> forall x, re (pP P) x -> e_kind (ed h' x) = e_kind (ed h x).
Proof using Hperm.
  intros h P rest o l i a fk ft tk tt flag h' O Oo Nd Ni Nj L x Rx. destruct (ok_Pt _ _ _ O) as [W K].
  destruct (n_O _ _ K o l Oo) as [Ro El]. destruct (n_N _ _ K i a Ni) as (Ri & Ra & Ga & Da & Im & En).
  assert (Ei : entry h i a) by (unfold entry, ins in *; rewrite Im; exact En). rewrite <- El in Nd.
  destruct (link_far order Hperm (pP P) h o i a fk ft tk tt flag W Ro Ri Ei Da Nd Nj) as (h2 & L2 & Lk & Hi). rewrite L in L2. injection L2 as <-.
  destruct (in_dec Nat.eq_dec x (ins h a)) as [Z|Z]; [apply (l_ins _ _ _ _ _ _ _ _ Lk x Z)|].
  rewrite (l_ed _ _ _ _ _ _ _ _ Lk x (w_e _ _ W x Rx) Z). destruct (_ && _ && _); reflexivity.
Qed.
Lemma pool_rekind : forall h P rest q a k t, ok h (Pt P :: rest) -> pD P q a -> (exists c, rb (pP P) c /\ In q (outs h c)) -> has_bit t ET_CUT = false ->
  ok (set_ed h q (mk_edge k t (e_src (ed h q)) (e_dst (ed h q)))) (Pt P :: rest).
Proof.
  intros h P rest q a k t O D (c & Rc & Ic) Ht. destruct (ok_Pt _ _ _ O) as [W K]. destruct (n_D _ _ K q a D) as [Rq Eq].
  assert (Nq : forall b, rb (pP P) b -> ~ In q (ins h b)) by (intros b Hb Ib; exact (w_io _ _ W b c q Hb Rc Ib Ic)).
  destruct (rekind (pP P) h q k t W Rq) as (W' & Ch & M & B' & Ep); [congruence|exact Nq|exact Ht|].
  eapply ok_step; [exact O|exact Ch| |].
  { split; cbn; auto. }
  split; [exact W'|]. split; [|apply Pt_stable]. cbn. destruct K as [k1 k2 k3 k4 k5 k6 k7].
  assert (Ei : forall b x, rb (pP P) b -> In x (ins h b) -> upd (ed h) q (mk_edge k t (e_src (ed h q)) (e_dst (ed h q))) x = ed h x) by (intros b x Hb Ix; apply upd_other; intros ->; exact (Nq b Hb Ix)).
  split.
  - apply B', k1.
  - intros b s y Q. destruct (k2 b s y Q) as (A & B & C). split; [exact A|]. split; [exact B|]. eapply path0_mono; [exact W|exact M|exact A|exact B|exact C].
  - intros x b Q. destruct (k3 x b Q) as (A & B). split; [exact A|]. apply (m_dst _ _ _ M); assumption.
  - exact k4.
  - intros i b Q. destruct (k5 i b Q) as (A1 & A2 & A3 & A4 & A5 & [(x & Ix & Sx) A]). repeat (split; [assumption|]). split.
    + exists x. split; [exact Ix|]. cbn. rewrite (Ei b x A2 Ix). exact Sx.
    + intros y Iy. cbn. rewrite (Ei b y A2 Iy). apply A, Iy.
  - intros i Q. destruct (k6 i Q) as (A & B). split; [exact A|]. rewrite <- B. apply only_seq_in_eq; [reflexivity|]. intros x Ix. cbn. rewrite (Ei i x A Ix). reflexivity.
  - intros e x b KK Q. apply Ep, k7, Q.
Qed.

(** ** A test and a body *)
Lemma seq_hits : forall k, hits EK_SEQ 0 k = match k with None => true | Some _ => false end.
Proof. intros [[]|]; reflexivity. Qed.
Lemma loop_links : forall h G T B rest j K (jl : bool) tk p lT, ok h (Pt (loopP T p lT) :: Fr B :: Fr G :: rest) -> NoDup lT -> (forall y, In y lT <-> exits T y) -> (forall y k, fJ T y k -> k <> None) -> (forall k, ~ fJ T (fe T) k) -> fK G = [] -> noJ G -> seg B -> fK T = j :: K -> fJ T j (Some false) -> In (fo T) (fI T) ->
  (jl = false -> forall y, ~ fJ T y (Some true)) ->
  exists h' P lB, (do h <- link order h (Some (fo G)) EK_SEQ 0 tk 0 (Some (fo T)) LF_NONE;
      do h <- link_seq order h (Some (fo T)) (Some (fo B));
      if jl then do h <- link order h (Some (fo T)) EK_JMP ET_JMP_T EK_SEQ 0 (Some (fo B)) LF_NONE; link order h (Some (fo B)) EK_JMP ET_LOOP EK_JMP ET_LOOP (Some (fo T)) LF_NONE else Some h) = Some h'
    /\ ok h' (Pt P :: rest) /\ bl h' = bl h
    /\ NoDup lB /\ (forall y, In y lB <-> y = fe B)
    /\ is_pool P (fI G) (fa G) (fun y k => (fJ T y k /\ k = Some false) \/ (y = fe B /\ k = None))
         (fun b t y => (b = fa G /\ fR G t y) \/ (b = fa T /\ fR T t y) \/ (b = fa B /\ fR B t y))
         (fun x b => (b = fa T /\ x = fe G) \/ (b = fa B /\ (x = fe T \/ fJ T x (Some true))))
         (fun o l => (o = fo T /\ l = lT) \/ (o = fo B /\ l = lB)) (fun i b => (In i (fI T) /\ b = fa T) \/ (In i (fI B) /\ b = fa B)) (fun i => In i (fI T))
         (fun e x b K => e = fe B /\ x = fx B /\ b = fb B /\ K = fK B)
    /\ fa T <> fa G /\ (forall y, exits T y -> exits B y -> False).
Proof using Hperm.
  intros h1 G T B rest j K jl tk p lT O1 NdT OuT JmT NeT Gk Gn (Bk & Bn & Bo) Tk Tj To Hjl.
  destruct (ok_Pt _ _ _ O1) as [WT KT].
  assert (RT : forall y, exits T y -> re p y).
  { intros y [->|[k Q]]; [apply (k_J _ _ _ _ _ _ (n_base _ _ KT) (fe T) None); right; auto|apply (k_J _ _ _ _ _ _ (n_base _ _ KT) y k); left; exact Q]. }
  assert (RaT : rb p (fa T)) by apply (k_a _ _ _ _ _ _ (n_base _ _ KT)).
  assert (DB : forall X, In (Fr X) [Fr B; Fr G] -> disj p (fP X) /\ wf h1 (fP X) /\ valid X h1).
  { intros X IX. destruct O1 as [A [Q _]]. assert (I' : In (Fr X) (Fr B :: Fr G :: rest)) by (destruct IX as [E|[E|[]]]; rewrite <- E; [left|right; left]; reflexivity).
    split; [apply (Q _ I')|]. destruct (A (Fr X)) as (W & V & _); [right; exact I'|]. auto. }
  assert (Dx : forall X, In (Fr X) [Fr B; Fr G] -> fa T <> fa X /\ forall y, exits T y -> exits X y -> False).
  { intros X IX. destruct (DB X IX) as ((D1 & _ & D3) & WX & VX). split.
    - intro E. apply (D1 (fa T) RaT). rewrite E. apply (k_a _ _ _ _ _ _ (v_base _ _ VX)).
    - intros y Q1 Q2. exact (D3 y (RT y Q1) (exit_re _ _ _ WX VX Q2)). }
  destruct (Dx B (or_introl eq_refl)) as [NaTB ApTB]. destruct (Dx G (or_intror (or_introl eq_refl))) as [NaTG ApTG]. clear Dx DB.
  destruct (fr_ne _ _ _ _ (ok_swap _ _ _ _ (ok_tail _ _ _ O1))) as [_ NaGB].
  assert (ApBG : forall y, exits B y -> exits G y -> False) by (intros y; apply (exits_apart h1 B G rest y); exact (ok_tail _ _ _ O1)).
  apply ok_swap in O1. destruct (ok_Fr _ _ _ O1) as [_ VB]. apply pool_of in O1. set (lB := outs h1 (fo B)) in *.
  match type of O1 with ok _ (?B :: ?T :: ?G :: _) => assert (O1' : ok h1 (G :: T :: B :: rest)) by (eapply ok_perm; [|exact O1]; eapply perm_trans; [apply perm_skip, perm_swap|]; eapply perm_trans; [apply perm_swap|]; apply perm_skip, perm_swap) end.
  clear O1. destruct (ok_Fr _ _ _ O1') as [_ VG]. apply pool_of in O1'. set (lG := outs h1 (fo G)) in *.
  assert (HB : forall y, In y lB <-> y = fe B). { intro y. unfold lB. rewrite (v_out _ _ VB). split; [|intros ->; left; reflexivity]. intros [Q|[k Q]]; [exact Q|destruct (Bn _ _ Q)]. }
  assert (HG : forall y, In y lG <-> y = fe G). { intro y. unfold lG. rewrite (v_out _ _ VG). split; [|intros ->; left; reflexivity]. intros [Q|[k Q]]; [exact Q|destruct (Gn _ _ Q)]. }
  assert (NdB : NoDup lB) by apply (v_nd _ _ VB). assert (NdG : NoDup lG) by apply (v_nd _ _ VG). clear VB VG.
  assert (HT : forall y, In y lT <-> exits T y) by exact OuT.
  assert (eB : exits B (fe B)) by (left; reflexivity). assert (eG : exits G (fe G)) by (left; reflexivity). assert (eT : exits T (fe T)) by (left; reflexivity).
  assert (eJ : forall y k, fJ T y k -> exits T y) by (intros y k Q; right; eauto).
  match type of O1' with ok _ (Pt ?A :: Pt ?B :: Pt ?C :: ?r) => assert (O2 : ok h1 (Pt (both A (both B C)) :: rest)) end.
  { apply pool_both, ok_swap, pool_both. eapply ok_perm; [|exact O1']. eapply perm_trans; [apply perm_swap|]. apply perm_skip, perm_swap. }
  clear O1'. match type of O2 with ok _ (Pt ?A :: _) => set (P0 := A) in * end.
  destruct (pool_link order Hperm h1 P0 rest (fo G) lG (fo T) (fa T) EK_SEQ 0 tk 0 LF_NONE O2) as (h2 & p2 & L2 & O3 & Bl2 & _).
  { left. split; reflexivity. } { exact NdG. } { right. left. split; [exact To|reflexivity]. } { exact NaTG. } { eapply nj_Z; [exact O2| |reflexivity]. right. left. exact To. }
  rewrite L2. set (P1 := linkP P0 p2 EK_SEQ 0 lG (fa T)) in *.
  destruct (pool_link order Hperm h2 P1 rest (fo T) lT (fo B) (fa B) EK_SEQ 0 EK_SEQ 0 LF_NONE O3) as (h3 & p3 & L3 & O4 & Bl3 & _).
  { right. left. split; reflexivity. } { exact NdT. } { right. right. split; [exact Bo|reflexivity]. } { cbn. congruence. }
  { apply (nj_K order Hperm h2 P1 rest (fo T) (fo B) EK_SEQ LF_NONE lT (fe T) (fx T) (fb T) j K O3).
    - cbn. split; [right; left; rewrite <- Tk; auto|]. left. intro Q. apply HG in Q. apply (ApTG (fe T)); [exact eT|rewrite Q; exact eG].
    - right. left. split; reflexivity.
    - apply HT, eT.
    - apply HT. exact (eJ _ _ Tj).
    - intro Q. rewrite <- Q in Tj. exact (NeT _ Tj).
    - intros y Iy. assert (Ng : ~ In y lG) by (intro Q; apply HG in Q; apply HT in Iy; subst y; exact (ApTG _ Iy eG)).
      apply HT in Iy as [->|[k Q]]; [exists None|exists k]; cbn; (split; [split; [tauto|intros [Z _]; tauto]|]); [reflexivity|]. intros ->. exfalso. exact (JmT y None Q eq_refl).
    - reflexivity. }
  unfold link_seq at 1. rewrite L3. set (P2 := linkP P1 p3 EK_SEQ 0 lT (fa B)) in *.
  set (S := fun b t y => (b = fa G /\ fR G t y) \/ (b = fa T /\ fR T t y) \/ (b = fa B /\ fR B t y)).
  set (O' := fun o l => (o = fo T /\ l = lT) \/ (o = fo B /\ l = lB)).
  set (N' := fun i b => (In i (fI T) /\ b = fa T) \/ (In i (fI B) /\ b = fa B)).
  set (E' := fun e x b K => e = fe B /\ x = fx B /\ b = fb B /\ K = fK B).
  assert (nTG : forall y k, fJ T y k -> ~ In y lG) by (intros y k Q I; apply HG in I; subst y; exact (ApTG _ (eJ _ _ Q) eG)).
  assert (nBG : ~ In (fe B) lG) by (intros I; apply HG in I; rewrite I in eB; exact (ApBG _ eB eG)).
  assert (nBT : ~ In (fe B) lT) by (intros I; apply HT in I; exact (ApTB _ I eB)).
  assert (nTB : forall y k, fJ T y k -> ~ In y lB) by (intros y k Q I; apply HB in I; subst y; exact (ApTB _ (eJ _ _ Q) eB)).
  edestruct (pool_weaken h3 P2 rest (fun y k => fJ T y k \/ (y = fe B /\ k = None)) S
     (fun x b => (b = fa T /\ x = fe G) \/ (b = fa B /\ x = fe T)) O' N' (fun i => In i (fI T)) E' O4) as (P & OP & Is); [reflexivity|..].
  { intros y k. cbn. split.
    - intros [Q|[-> ->]].
      + pose proof (JmT y k Q) as Nk. pose proof (nTG y k Q). split; [split; [tauto|tauto]|]. intros [_ Z]. rewrite seq_hits in Z. destruct k; [discriminate|congruence].
      + split; [split; [right; right; right; auto|tauto]|tauto].
    - intros [[[[Q|[-> ->]]|[[Q|[-> ->]]|[Q|[-> ->]]]] N1] N2]; [destruct (Gn _ _ Q)| |left; exact Q| |destruct (Bn _ _ Q)|right; auto].
      + exfalso. apply N1. split; [apply HG; reflexivity|reflexivity].
      + exfalso. apply N2. split; [apply HT, eT|reflexivity]. }
  { unfold S. cbn. tauto. }
  { cbn. intros x b [[-> ->]|[-> ->]].
    - left. right. split; [reflexivity|]. split; [apply HG; reflexivity|]. exists None. split; [left; right; auto|reflexivity].
    - right. split; [reflexivity|]. split; [apply HT, eT|]. exists None. split; [|reflexivity]. split; [right; left; right; auto|]. intros [I _]. apply HG in I. rewrite I in eT. exact (ApTG _ eT eG). }
  { unfold O'. cbn. tauto. } { unfold N'. cbn. tauto. } { cbn. tauto. }
  { unfold E'. cbn. intros e x b K0 (-> & -> & -> & ->). tauto. }
  destruct Is as (P3 & P4 & P5 & P6 & P7 & P8 & P9 & P10 & P11 & P12).
  set (D4 := fun x b => (b = fa T /\ x = fe G) \/ (b = fa B /\ (x = fe T \/ fJ T x (Some true)))).
  assert (M : exists h4 P', (if jl then do h <- link order h3 (Some (fo T)) EK_JMP ET_JMP_T EK_SEQ 0 (Some (fo B)) LF_NONE; link order h (Some (fo B)) EK_JMP ET_LOOP EK_JMP ET_LOOP (Some (fo T)) LF_NONE else Some h3) = Some h4
    /\ ok h4 (Pt P' :: rest) /\ bl h4 = bl h3 /\ is_pool P' (fI G) (fa G) (fun y k => (fJ T y k /\ k = Some false) \/ (y = fe B /\ k = None)) S D4 O' N' (fun i => In i (fI T)) E').
  { destruct jl.
    - destruct (pool_link order Hperm h3 P rest (fo T) lT (fo B) (fa B) EK_JMP ET_JMP_T EK_SEQ 0 LF_NONE OP) as (h4 & p4 & L4 & O5 & Bl4 & _).
      { rewrite P9. left. auto. } { exact NdT. } { rewrite P10. right. auto. } { rewrite P4. cbn. congruence. } { apply nj_jmp. }
      rewrite L4. set (Q4 := linkP P p4 EK_JMP ET_JMP_T lT (fa B)) in *.
      destruct (pool_link order Hperm h4 Q4 rest (fo B) lB (fo T) (fa T) EK_JMP ET_LOOP EK_JMP ET_LOOP LF_NONE O5) as (h5 & p5 & L5 & O6 & Bl5 & _).
      { cbn. rewrite P9. right. auto. } { exact NdB. } { cbn. rewrite P10. left. auto. } { cbn. rewrite P4. cbn. congruence. } { apply nj_jmp. }
      rewrite L5. edestruct (pool_weaken h5 _ rest (fun y k => (fJ T y k /\ k = Some false) \/ (y = fe B /\ k = None)) S D4 O' N' (fun i => In i (fI T)) E' O6) as (P' & OP' & Is).
      { exact P5. }
      { intros y k. cbn. rewrite P6. split.
        - intros [[Q ->]|[-> ->]]; (split; [split; [tauto|]|]); intros [_ Z]; discriminate Z.
        - intros [[[Q|[-> ->]] N1] N2]; [|tauto]. left. split; [exact Q|]. pose proof (JmT y k Q) as Nk. destruct k as [[|]|]; [|reflexivity|congruence].
          exfalso. apply N1. split; [apply HT; exact (eJ _ _ Q)|reflexivity]. }
      { cbn. rewrite P7. auto. }
      { cbn. unfold D4. rewrite P8, P6. intros x b [Q|[-> [->|Q]]]; [auto|auto|]. left. right. split; [reflexivity|]. split; [apply HT; exact (eJ _ _ Q)|]. exists (Some true). auto. }
      { cbn. rewrite P9. auto. } { cbn. rewrite P10. auto. } { cbn. rewrite P11. auto. }
      { cbn. rewrite P12. intros e x b K0 Q. split; [split; [exact Q|]|]; right; reflexivity. }
      exists h5, P'. split; [reflexivity|]. split; [exact OP'|]. split; [congruence|]. cbn [pI pa linkP Q4] in Is. unfold Q4 in Is. cbn [pI pa linkP] in Is. rewrite P3, P4 in Is. exact Is.
    - specialize (Hjl eq_refl). edestruct (pool_weaken h3 _ rest (fun y k => (fJ T y k /\ k = Some false) \/ (y = fe B /\ k = None)) S D4 O' N' (fun i => In i (fI T)) E' OP) as (P' & OP' & Is).
      { exact P5. }
      { intros y k. rewrite P6. split; [tauto|]. intros [Q|Q]; [|tauto]. left. split; [exact Q|]. pose proof (JmT y k Q) as Nk. destruct k as [[|]|]; [destruct (Hjl _ Q)|reflexivity|congruence]. }
      { rewrite P7. auto. } { unfold D4. rewrite P8. intros x b [Q|[-> [->|Q]]]; [auto|auto|destruct (Hjl _ Q)]. }
      { rewrite P9. auto. } { rewrite P10. auto. } { rewrite P11. auto. } { rewrite P12. auto. }
      exists h3, P'. split; [reflexivity|]. split; [exact OP'|]. split; [reflexivity|]. rewrite P3, P4 in Is. exact Is. }
  destruct M as (h4 & Q & L4 & O5 & Bl4 & Is). rewrite L4. exists h4, Q, lB. split; [reflexivity|]. split; [exact O5|]. split; [congruence|]. auto 10.
Qed.
Lemma loop_facts : forall h T, valid T h -> NoDup (outs h (fo T)) /\ (forall y, In y (outs h (fo T)) <-> exits T y) /\ (forall y k, fJ T y k -> k <> None) /\ (forall k, ~ fJ T (fe T) k).
Proof. intros h T V. split; [apply (v_nd _ _ V)|]. split; [apply (v_out _ _ V)|]. split; [apply (v_jmp _ _ V)|]. intros k Q. exact (fe_not_J T h k V Q). Qed.
Lemma loop_front : forall h G T B rest j K (jl : bool) tk, ok h (Fr T :: Fr B :: Fr G :: rest) -> fK G = [] -> noJ G -> seg B -> fK T = j :: K -> fJ T j (Some false) -> In (fo T) (fI T) ->
  (jl = false -> forall y, ~ fJ T y (Some true)) ->
  exists h' P lT lB, (do h <- new_loop_in order h (fo T);
      do h <- link order h (Some (fo G)) EK_SEQ 0 tk 0 (Some (fo T)) LF_NONE;
      do h <- link_seq order h (Some (fo T)) (Some (fo B));
      if jl then do h <- link order h (Some (fo T)) EK_JMP ET_JMP_T EK_SEQ 0 (Some (fo B)) LF_NONE; link order h (Some (fo B)) EK_JMP ET_LOOP EK_JMP ET_LOOP (Some (fo T)) LF_NONE else Some h) = Some h'
    /\ ok h' (Pt P :: rest) /\ bl h' = bl h
    /\ NoDup lT /\ NoDup lB /\ (forall y, In y lT <-> y = fe T \/ exists k, fJ T y k) /\ (forall y, In y lB <-> y = fe B)
    /\ is_pool P (fI G) (fa G) (fun y k => (fJ T y k /\ k = Some false) \/ (y = fe B /\ k = None))
         (fun b t y => (b = fa G /\ fR G t y) \/ (b = fa T /\ fR T t y) \/ (b = fa B /\ fR B t y))
         (fun x b => (b = fa T /\ x = fe G) \/ (b = fa B /\ (x = fe T \/ fJ T x (Some true))))
         (fun o l => (o = fo T /\ l = lT) \/ (o = fo B /\ l = lB)) (fun i b => (In i (fI T) /\ b = fa T) \/ (In i (fI B) /\ b = fa B)) (fun i => In i (fI T))
         (fun e x b K => e = fe B /\ x = fx B /\ b = fb B /\ K = fK B)
    /\ fa T <> fa G /\ (forall y, exits T y -> exits B y -> False).
Proof using Hperm.
  intros h G T B rest j K jl tk O Gk Gn SB Tk Tj To Hjl. destruct (ok_Fr _ _ _ O) as [_ VT0]. destruct (loop_facts h T VT0) as (N1 & N2 & N3 & N4).
  destruct (loop_in h T _ (fo T) O To) as (h1 & p & E1 & Bl1 & O1). rewrite E1.
  destruct (loop_links h1 G T B rest j K jl tk p _ O1 N1 N2 N3 N4 Gk Gn SB Tk Tj To Hjl) as (h' & P & lB & L & O' & Bl & NB & HB & Is & Na & Ap).
  exists h', P, (outs h (fo T)), lB. split; [exact L|]. split; [exact O'|]. split; [congruence|]. auto 10.
Qed.
(** The way back. *)
Lemma loop_back : forall h P rest o e x b K lo i a, ok h (Pt P :: rest) -> pf P = true -> pE P e x b K -> pO P o lo -> NoDup lo -> In e lo ->
  (forall y, In y lo -> y = e \/ exists c, pJ P y (Some c)) -> pJ P e None -> pN P i a -> pZ P i -> a <> pa P ->
  exists h' P', (do h <- link_seq order h (Some o) (Some i); mrk_seq_out_as_loop order h o) = Some h' /\ ok h' (Pt P' :: rest) /\ bl h' = bl h
    /\ is_pool P' (pI P) (pa P) (fun y k => pJ P y k /\ y <> e) (pS P) (fun y c => pD P y c \/ (y = e /\ c = a)) (pO P) (pN P) (pZ P) (fun _ _ _ _ => False).
Proof using Hperm.
  intros h P rest o e x b K lo i a O Pf Pe Po Nd Ie Hlo Je Ni Zi Na. destruct (ok_Pt _ _ _ O) as [W Kn].
  pose proof (n_E _ _ Kn _ _ _ _ Pe) as Ep. pose proof (endp_re _ _ _ _ _ _ W Ep) as Re.
  assert (NJ : no_join order h o i EK_SEQ LF_NONE) by (eapply nj_Z; [exact O|exact Zi|reflexivity]).
  destruct (pool_link order Hperm h P rest o lo i a EK_SEQ 0 EK_SEQ 0 LF_NONE O Po Nd Ni Na NJ) as (h5 & p5 & L5 & O6 & Bl5 & _).
  unfold link_seq. rewrite L5.
  pose proof (pool_link_kind h P rest o lo i a EK_SEQ 0 EK_SEQ 0 LF_NONE h5 O Po Nd Ni NJ L5) as Kd.
  destruct (ok_Pt _ _ _ O6) as [W6 K6].
  assert (OB6 : outs h5 o = lo) by (apply (n_O _ _ K6); exact Po).
  assert (Uk : forall y c, pJ P y (Some c) -> is_seq (ed h y) = false).
  { intros y c Q. destruct (k_J _ _ _ _ _ _ (n_base _ _ Kn) y _ Q) as [_ (H1 & _)]. unfold is_seq. rewrite H1. reflexivity. }
  assert (Se : is_seq (ed h e) = true) by (unfold is_seq; rewrite (k_e _ _ _ _ _ _ Ep); reflexivity).
  assert (Sq : out_seq order h5 o = Some e).
  { apply (out_seq_is order Hperm); [rewrite OB6; exact Ie|unfold is_seq in *; rewrite (Kd e Re); exact Se|]. intros y Iy Sy. rewrite OB6 in Iy. destruct (Hlo y Iy) as [->|[c Q]]; [reflexivity|].
    exfalso. destruct (k_J _ _ _ _ _ _ (n_base _ _ Kn) y _ Q) as [Ry _]. unfold is_seq in *. rewrite (Kd y Ry) in Sy. pose proof (Uk y c Q). congruence. }
  edestruct (pool_weaken h5 _ rest (fun y k => pJ P y k /\ y <> e) (pS P) (fun y c => pD P y c \/ (y = e /\ c = a)) (pO P) (pN P) (pZ P) (fun _ _ _ _ => False) O6) as (R & OR & Is).
  { exact Pf. }
  { intros y k. cbn. split.
    - intros [Q Ny]. split; [exact Q|]. intros [Iy Hk]. rewrite seq_hits in Hk. destruct k as [c|]; [discriminate|]. destruct (Hlo y Iy) as [->|[c Q']]; [congruence|].
      destruct (k_J _ _ _ _ _ _ (n_base _ _ Kn) y _ Q) as [_ (H1 & _)]. pose proof (Uk y c Q') as Z. unfold is_seq in Z. rewrite H1 in Z. discriminate.
    - intros [Q N]. split; [exact Q|]. intros ->. destruct k as [c|]; [pose proof (Uk e c Q); congruence|]. apply N. split; [exact Ie|reflexivity]. }
  { cbn. auto. }
  { cbn. intros y c [Q|[-> ->]]; [auto|]. right. split; [reflexivity|]. split; [exact Ie|]. exists None. split; [exact Je|reflexivity]. }
  { cbn. auto. } { cbn. auto. } { cbn. auto. } { tauto. }
  destruct (ok_Pt _ _ _ OR) as [WR KR]. destruct Is as (R1 & R2 & R3 & R4 & R5 & R6 & R7 & R8 & R9 & R10).
  assert (RD : pD R e a) by (rewrite R6; auto).
  unfold mrk_seq_out_as_loop. rewrite Sq. cbv zeta beta. eexists _, R. split; [reflexivity|]. split; [|split; [exact Bl5|]].
  - apply (pool_rekind h5 R rest e a _ _ OR RD).
    + exists o. split; [apply (n_O _ _ KR o lo); rewrite R7; exact Po|rewrite OB6; exact Ie].
    + apply lor_cut; [|reflexivity]. apply (w_cut _ _ WR). apply (n_D _ _ KR _ _ RD).
  - cbn [pI pa linkP] in R1, R2. split; [exact R1|]. split; [exact R2|]. auto 10.
Qed.
Lemma loop_core : forall h G T B rest j K (jl : bool) tk, ok h (Fr T :: Fr B :: Fr G :: rest) -> fK G = [] -> noJ G -> seg B -> fK T = j :: K -> fJ T j (Some false) -> In (fo T) (fI T) ->
  (jl = false -> forall y, ~ fJ T y (Some true)) ->
  exists h' P lT lB, (do h <- new_loop_in order h (fo T);
      do h <- link order h (Some (fo G)) EK_SEQ 0 tk 0 (Some (fo T)) LF_NONE;
      do h <- link_seq order h (Some (fo T)) (Some (fo B));
      do h <- (if jl then do h <- link order h (Some (fo T)) EK_JMP ET_JMP_T EK_SEQ 0 (Some (fo B)) LF_NONE; link order h (Some (fo B)) EK_JMP ET_LOOP EK_JMP ET_LOOP (Some (fo T)) LF_NONE else Some h);
      do h <- link_seq order h (Some (fo B)) (Some (fo T));
      mrk_seq_out_as_loop order h (fo B)) = Some h'
    /\ ok h' (Pt P :: rest) /\ bl h' = bl h
    /\ NoDup lT /\ NoDup lB /\ (forall y, In y lT <-> y = fe T \/ exists k, fJ T y k) /\ (forall y, In y lB <-> y = fe B)
    /\ is_pool P (fI G) (fa G) (fun y k => fJ T y k /\ k = Some false)
         (fun b t y => (b = fa G /\ fR G t y) \/ (b = fa T /\ fR T t y) \/ (b = fa B /\ fR B t y))
         (fun x b => (b = fa T /\ (x = fe G \/ x = fe B)) \/ (b = fa B /\ (x = fe T \/ fJ T x (Some true))))
         (fun o l => (o = fo T /\ l = lT) \/ (o = fo B /\ l = lB)) (fun _ _ => False) (fun _ => False) (fun _ _ _ _ => False).
Proof using Hperm.
  intros h G T B rest j K jl tk O Gk Gn SB Tk Tj To Hjl.
  assert (ApTB : forall y, exits T y -> exits B y -> False) by (intros y; apply (exits_apart h T B (Fr G :: rest) y); exact O).
  destruct (loop_front h G T B rest j K jl tk O Gk Gn SB Tk Tj To Hjl) as (h4 & Q & lT & lB & L & O5 & Bl4 & NdT & NdB & HT & HB & (P3 & P4 & P5 & P6 & P7 & P8 & P9 & P10 & P11 & P12) & NaTG & _).
  destruct (loop_back h4 Q rest (fo B) (fe B) (fx B) (fb B) (fK B) lB (fo T) (fa T) O5) as (h' & R & L' & OR & Bl & (R1 & R2 & R3 & R4 & R5 & R6 & R7 & R8 & R9 & R10)).
  { exact P5. } { rewrite P12. auto. } { rewrite P9. auto. } { exact NdB. } { apply HB. reflexivity. } { intros y Iy. left. apply HB, Iy. } { rewrite P6. auto. } { rewrite P10. auto. } { rewrite P11. exact To. } { rewrite P4. exact NaTG. }
  edestruct (pool_weaken h' R rest (fun y k => fJ T y k /\ k = Some false) (fun b t y => (b = fa G /\ fR G t y) \/ (b = fa T /\ fR T t y) \/ (b = fa B /\ fR B t y))
     (fun x b => (b = fa T /\ (x = fe G \/ x = fe B)) \/ (b = fa B /\ (x = fe T \/ fJ T x (Some true)))) (fun o l => (o = fo T /\ l = lT) \/ (o = fo B /\ l = lB)) (fun _ _ => False) (fun _ => False) (fun _ _ _ _ => False) OR) as (R' & OR' & Is).
  { exact R3. }
  { intros y k. rewrite R4, P6. split; [intros [Z ->]; split; [auto|]; intros ->; apply (ApTB (fe B)); [right; eauto|left; reflexivity]|]. intros [[Z|[-> ->]] N]; [exact Z|congruence]. }
  { rewrite R5, P7. auto. } { rewrite R6, P8. intros x b [[-> [-> | ->]]|Z]; auto. } { rewrite R7, P9. auto. } { tauto. } { tauto. } { tauto. }
  rewrite R1, R2, P3, P4 in Is. exists h', R', lT, lB. split; [|split; [exact OR'|split; [congruence|auto 10]]].
  clear -L L'. destruct (new_loop_in order h (fo T)) as [g1|]; [|discriminate L]. destruct (link order g1 _ _ _ _ _ _ _) as [g2|]; [|discriminate L]. destruct (link_seq order g2 _ _) as [g3|]; [|discriminate L]. rewrite L. exact L'.
Qed.

(** The way out. *)
Lemma loop_close : forall h P rest k c t b lT lB, ok h (Pt P :: rest) -> pf P = true -> In c (pI P) -> pO P t lT -> pO P b lB -> NoDup lT -> NoDup lB ->
  (forall x, In x lT -> (exists k, pJ P x k) \/ (exists b, pD P x b)) -> (forall x, In x lB -> (exists k, pJ P x k) \/ (exists b, pD P x b)) ->
  (forall y k, pJ P y k -> (In y lT /\ k = Some false) \/ In y lB) -> (exists y, pJ P y (Some false)) ->
  exists v h' F, loop_exit order k None (grown h (im (bl h c)) [x_jmp h t; x_out h b]) (nx h) = Some (Some v, h') /\ ok h' (Fr F :: rest) /\ fo F = v /\ seg F /\ suf (pI P) (fI F)
    /\ forall s m k, paths P (pa P) s m -> pJ P m k -> reach F s.
Proof using Hperm.
  intros h P rest k c t b lT lB O Pf Ic OT OB NT NB HT HB HJ [j Hj]. destruct (ok_Pt _ _ _ O) as [W K].
  destruct (k_i _ _ _ _ _ _ (n_base _ _ K) c Ic) as [Rc Im].
  destruct (group_over h P rest c [x_jmp h t; x_out h b] O Rc Im) as (p & OG & _).
  { intros l [<-|[<-|[]]] x Ix; [apply (x_from P h t _ x K OT)|apply (x_from P h b _ x K OB)]; auto. }
  apply ok_withS in OG. unfold loop_exit. destruct (new_exit_ok k _ _ OG) as (m & h1 & -> & O1). set (L := fold_left merge_set [x_jmp h t; x_out h b] []) in *.
  destruct (close_grp order Hperm h1 _ rest m k (nx h) L LF_NONE (ok_swap _ _ _ _ O1)) with (ft := 0%N) as (h8 & h9 & w & h10 & F & L8 & L9 & G10 & O10 & Fo & SF & Inc & RF).
  { exact Pf. } { left. split; reflexivity. }
  { unfold L. cbn [fold_left]. apply merge_nd; [apply merge_nd; [constructor|]|]; [apply (x_nd P h t _ K OT NT)|apply (x_nd P h b _ K OB NB)]. }
  { left. reflexivity. }
  { intros y k' Q. cbn in Q. unfold L. cbn [fold_left]. rewrite !merge_in, (x_jmp_in P h t _ y W K OT HT), (x_out_in P h b _ y W K OB HB). destruct (HJ y k' Q) as [[Iy ->]|Iy]; eauto 7. }
  { left. reflexivity. } { reflexivity. } { right. exists j, false. exact Hj. }
  unfold link_jmp, link_seq. rewrite L8, L9, G10. destruct (ok_Fr _ _ _ O10) as [_ V]. pose proof (valid_seq_out order Hperm F h10 V) as Sq. rewrite Fo in Sq. rewrite Sq, (k_e _ _ _ _ _ _ (v_end _ _ V)). cbn [e_src].
  exists w, h10, F. split; [reflexivity|]. split; [exact O10|]. split; [exact Fo|]. split; [exact SF|]. split; [eapply suf_tran; [|exact Inc]; cbn; apply suf_cons, suf_refl|]. intros s m' k' Q Z. apply (RF s m' k'); [|exact Z].
  cbn. clear -Q. induction Q as [b0 t0 y Q|b0 t0 x b' t' y Q D Q' IH]; [apply ps_one; exact Q|]. eapply ps_more; [exact Q|exact D|exact IH].
Qed.
Lemma while_ok : forall h G T B c (X : list nat -> Prop) rest, ok h (Fr B :: Fr T :: Fr G :: rest) -> seg G -> seg B -> xspec false c T -> test_ok c = true -> (forall t, X t -> reach B t) ->
  exists v h' F, after_while order false h (Some (fo G)) (Some (fo T)) (Some (fo B)) = Some (Some v, h') /\ ok h' (Fr F :: rest) /\ fo F = v /\ seg F
    /\ after_all G F (then_ (often (then_ (is_true c) X)) (is_not c)).
Proof using Hperm.
  intros h G T B c X rest O SG SB XT Tk HX. pose proof XT as [xb xk xo xc xn]. unfold after_while.
  assert (O0 : ok h (Fr T :: Fr B :: Fr G :: rest)) by (arrange O). clear O.
  destruct (jump_ok order Hperm h T _ false O0 xk) as (h1 & A & Ej & O1 & (A1 & A2 & A3 & A4 & A5 & A6) & A7 & _).
  change (tagof (Some false)) with ET_JMP_F in Ej. rewrite Ej.
  assert (Tst : tested c A).
  { destruct (ok_Fr _ _ _ O0) as [_ VT]. destruct (ok_Fr _ _ _ O1) as [_ VT']. eapply (test_cover c T A A h (nx h) h1 h1); eauto. }
  destruct (loop_core h1 G A B rest (nx h) [] true EK_SEQ O1) as (h2 & P & lT & lB & L & O2 & Bl & NT & NB & HT & HB & (P1 & P2 & P3 & P4 & P5 & P6 & P7 & P8 & P9 & P10)).
  { apply SG. } { apply SG. } { exact SB. } { exact A4. } { rewrite A5. auto. } { rewrite A1, A2. exact xo. } { discriminate. }
  rewrite A2 in *. unfold link_seq at 1. destruct (ok_Fr _ _ _ O1) as [_ VA].
  destruct (loop_close h2 P rest K_WHILE (fo G) (fo T) (fo B) lT lB O2) as (v & h' & F & LE & O3 & Fo & SF & Inc & RF).
  { exact P3. } { rewrite P1. apply SG. } { rewrite P7. auto. } { rewrite P7. auto. } { exact NT. } { exact NB. }
  { intros x Ix. rewrite P4, P6. apply HT in Ix as [->|[k Q]]; [right; exists (fa B); auto|]. pose proof (v_jmp _ _ VA x k Q). destruct k as [[|]|]; [right; exists (fa B); auto|left; eauto|congruence]. }
  { intros x Ix. rewrite P6. apply HB in Ix as ->. right. exists (fa A). auto. }
  { intros y k Q. rewrite P4 in Q. destruct Q as [Q ->]. left. split; [|reflexivity]. apply HT. eauto. }
  { exists (nx h). rewrite P4, A5. auto. }
  destruct (ok_Pt _ _ _ O2) as [W2 K2]. assert (OA : pO P (fo T) lT) by (rewrite P7; auto). assert (OB : pO P (fo B) lB) by (rewrite P7; auto).
  assert (E1 : x_jmp (snd (new_grp (im (bl h2 (fo G))) h2)) (fo T) = x_jmp h2 (fo T)) by (apply (grown_x order Hperm P h2 (im (bl h2 (fo G))) [] (fo T) _ W2 K2 OA)).
  assert (E2 : x_out (snd (new_grp (im (bl h2 (fo G))) h2)) (fo B) = x_out h2 (fo B)) by (apply (grown_x order Hperm P h2 (im (bl h2 (fo G))) [] (fo B) _ W2 K2 OB)).
  exists v, h', F. split.
  { rewrite <- LE. clear -L E1 E2. destruct (new_loop_in order h1 (fo T)) as [g1|]; [|discriminate L].
    destruct (link order g1 (Some (fo G)) EK_SEQ 0 EK_SEQ 0 (Some (fo T)) LF_NONE) as [g2|]; [|discriminate L].
    destruct (link_seq order g2 (Some (fo T)) (Some (fo B))) as [g3|]; [|discriminate L]. destruct (link order g3 (Some (fo T)) EK_JMP ET_JMP_T EK_SEQ 0 (Some (fo B)) LF_NONE) as [g4|]; [|discriminate L].
    destruct (link order g4 (Some (fo B)) EK_JMP ET_LOOP EK_JMP ET_LOOP (Some (fo T)) LF_NONE) as [g5|]; [|discriminate L].
    destruct (link_seq order g5 (Some (fo B)) (Some (fo T))) as [g6|]; [|discriminate L]. rewrite L.
    change (new_grp (im (bl h2 (fo G))) h2) with (nx h2, snd (new_grp (im (bl h2 (fo G))) h2)). cbv iota beta zeta. rewrite E1, E2. reflexivity. }
  split; [exact O3|]. split; [exact Fo|]. split; [exact SF|].
  assert (Lp : forall s, often (then_ (is_true c) X) s -> forall s' m, paths P (fa A) s' m -> paths P (fa A) (s ++ s') m).
  { intros s Q. induction Q as [|t1 t2 (u1 & u2 & -> & Q1 & Q2) _ IH]; intros s' m Z; [exact Z|]. rewrite <- !app_assoc.
    destruct (Tst u1 V_true Q1) as [Ht _]. destruct (Ht eq_refl) as (y & Ry & Hy). destruct (HX u2 Q2) as [z Rz].
    apply (ps_more _ (fa A) u1 y (fa B)); [rewrite P5; auto|rewrite P6; auto|]. apply (ps_more _ (fa B) u2 z (fa A)); [rewrite P5; auto| |apply IH, Z].
    rewrite P6. left. split; [reflexivity|]. right. destruct (ok_Fr _ _ _ (ok_tail _ _ _ O1)) as [_ VB]. destruct (v_R _ _ VB _ _ Rz) as [[->|[k Jk]] _]; [reflexivity|]. destruct SB as (_ & Bn & _). destruct (Bn _ _ Jk). }
  split; [rewrite <- P1; exact Inc|]. intros s s' [y Ry] (s1 & s2 & -> & Q1 & (u & Q2 & Nu)). destruct (Tst s2 u Q2) as [_ Hf]. destruct (Hf Nu) as (z & Rz & Hz).
  apply (RF _ z (Some false)); [|rewrite P4; auto]. rewrite P2.
  apply (ps_more _ (fa G) s y (fa A)); [rewrite P5; auto| |apply Lp; [exact Q1|apply ps_one; rewrite P5; auto]].
  rewrite P6. left. split; [reflexivity|]. left. destruct (ok_Fr _ _ _ (ok_tail _ _ _ (ok_tail _ _ _ O1))) as [_ VG]. destruct (v_R _ _ VG _ _ Ry) as [[->|[k Jk]] _]; [reflexivity|]. destruct SG as (_ & Gn & _). destruct (Gn _ _ Jk).
Qed.
End Order.
