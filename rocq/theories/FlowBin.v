(** Proofs about building control flow graphs: binary and conditional expressions. *)
From Coq Require Import Permutation ZifyBool ZifyNat.
From Verif Require Import Base GraphModel FlowModel FlowSpec FlowProofs FlowFrag FlowSteps FlowCat FlowGlue FlowPool FlowFork FlowExprs.

Lemma exit_re : forall F h y, wf h (fP F) -> valid F h -> exits F y -> re (fP F) y.
Proof.
  intros F h y W V [->|[k Q]]; [|apply (k_J _ _ _ _ _ _ (v_base _ _ V) y k Q)].
  pose proof (v_end _ _ V) as E. apply (out_re h (fP F) (fx F) (fe F) W (k_x _ _ _ _ _ _ E)). rewrite (k_xo _ _ _ _ _ _ E). left. reflexivity.
Qed.
Lemma exits_apart : forall h A B rest y, ok h (Fr A :: Fr B :: rest) -> exits A y -> exits B y -> False.
Proof.
  intros h A B rest y O EA EB. destruct (ok_Fr _ _ _ O) as [WA VA]. destruct (ok_Fr _ _ _ (ok_tail _ _ _ O)) as [WB VB]. destruct (ok_disj _ _ _ _ O) as (_ & _ & D).
  exact (D y (exit_re _ _ _ WA VA EA) (exit_re _ _ _ WB VB EB)).
Qed.
Lemma new_exit_bl : forall k h n h' x, new_exit k h = (n, h') -> x < nx h -> bl h' x = bl h x.
Proof. intros k h n h' x E L. unfold new_exit, new_blk in E. injection E as <- <-. cbn -[Nat.add]. apply upd_other. lia. Qed.
Definition jump_of (op : bop) : bool := match op with B_and => false | _ => true end.
Definition into_of (op : bop) : option N := match op with B_and => None | _ => Some ET_JMP_F end.
Lemma plain_root : forall e op, plain e = true -> root e = Some op -> logical op = false.
Proof. intros e op P R. unfold plain in P. rewrite R in P. apply andb_true_iff in P as [_ P]. destruct (logical op); [discriminate|reflexivity]. Qed.
Lemma jok_plain : forall e b v, plain e = true -> jok e b v -> False.
Proof. intros e b v P J. unfold jok in J. destruct (root e) as [op|] eqn:R; [|exact J]. pose proof (plain_root e op P R). destruct op; try discriminate; exact J. Qed.
Lemma logic_cover : forall op l r A B C j, logical op = true -> operand_ok op true l = true -> operand_ok op false r = true ->
  (forall t v, eval l t v -> exists y, fR A t y /\ ((y = fe A /\ fR A t j) \/ ((exists k, fJ A y (Some k)) /\ forall b, fJ A y (Some b) -> jok l b v))) ->
  (forall k, fJ A j k <-> k = Some (jump_of op)) -> (forall y, exits A y -> exits B y -> False) -> (forall t y, fR B t y -> exits B y) ->
  (forall t v, eval r t v -> exists y, fR B t y /\ forall b, fJ B y (Some b) -> jok r b v) ->
  fJ C = (fun y k => (fJ A y k /\ hit_by (into_of op) k = false) \/ fJ B y k) ->
  fR C = (fun t y => (exists t1 t2 m, t = t1 ++ t2 /\ fR A t1 m /\ (m = fe A \/ exists k, fJ A m k /\ hit_by (into_of op) k = true) /\ fR B t2 y)
                     \/ (fR A t y /\ exists k, fJ A y k /\ hit_by (into_of op) k = false)) ->
  forall t v, eval (Bin op l r) t v -> exists y, fR C t y /\ forall b, fJ C y (Some b) -> jok (Bin op l r) b v.
Proof.
  intros op l r A B C j Lo Ol Or HA Hj Dis RB HB EJ ER t v Ev. rewrite EJ, ER.
  assert (Jl : forall b u, jok l b u -> root l = Some op /\ True \/ op = B_or /\ root l = Some B_and).
  { intros b u J. unfold operand_ok in Ol. apply orb_true_iff in Ol as [Pl|Ol]; [exfalso; eapply jok_plain; eauto|].
    destruct op; try discriminate; destruct (root l) as [[]|]; try discriminate; auto. }
  assert (Jr : forall b u, jok r b u -> op = B_or /\ root r = Some B_and).
  { intros b u J. unfold operand_ok in Or. apply orb_true_iff in Or as [Pl|Or]; [exfalso; eapply jok_plain; eauto|].
    destruct op; try discriminate; destruct (root r) as [[]|]; try discriminate; auto. }
  cbn in Ev. destruct Ev as [(v1 & Q & St & ->)|(t1 & v1 & t2 & v2 & -> & Q1 & NS & Q2 & Vv)].
  - destruct (HA t v1 Q) as (y & R & [[-> Rj]|[[k Jk] Hk]]).
    + exists j. split; [right; split; [exact Rj|]; exists (Some (jump_of op)); split; [apply Hj; reflexivity|]; destruct op; try discriminate; reflexivity|].
      intros b [[Jb _]|Jb]; [|exfalso; apply (Dis j); [right; exists (Some (jump_of op)); apply Hj; reflexivity|right; eauto]].
      apply Hj in Jb. injection Jb as ->. destruct op; try discriminate; cbn in *; auto.
    + assert (Tr : forall b, fJ A y (Some b) -> jok (Bin op l r) b v1 /\ hit_by (into_of op) (Some b) = false).
      { intros b Jb. specialize (Hk b Jb). pose proof (Jl _ _ Hk) as [[E _]|[-> E]]; unfold jok in Hk; rewrite E in Hk; cbn [jok root].
        - destruct op; try discriminate; destruct b; unfold jok; cbn in *; try (split; [|reflexivity]); try tauto; try congruence; intuition congruence.
        - cbn in St. subst v1. destruct Hk as [_ Hk]. congruence. }
      exists y. split; [right; split; [exact R|]; exists (Some k); split; [exact Jk|apply (Tr k Jk)]|].
      intros b [[Jb _]|Jb]; [apply Tr, Jb|]. exfalso. apply (Dis y); right; eauto.
  - specialize (Vv Lo). subst v2. destruct (HB t2 v Q2) as (y2 & R2 & K2).
    assert (Go : exists m, fR A t1 m /\ (m = fe A \/ exists k, fJ A m k /\ hit_by (into_of op) k = true)).
    { destruct (HA t1 v1 Q1) as (y & R & [[-> Rj]|[[k Jk] Hk]]); [eauto|]. exists y. split; [exact R|]. right. exists (Some k). split; [exact Jk|].
      specialize (Hk k Jk). pose proof (Jl _ _ Hk) as [[E _]|[-> E]]; unfold jok in Hk; rewrite E in Hk.
      - destruct op; try discriminate; cbn in *; [tauto| |tauto]. destruct k; [congruence|reflexivity].
      - destruct Hk as [-> _]. reflexivity. }
    destruct Go as (m & R1 & Hm). exists y2. split; [left; exists t1, t2, m; auto|].
    intros b [[Jb _]|Jb]; [exfalso; apply (Dis y2); [right; eauto|eapply RB; eauto]|].
    specialize (K2 b Jb). destruct (Jr _ _ K2) as [-> E]. unfold jok in K2. rewrite E in K2. destruct K2 as [-> Nv]. exact Nv.
Qed.

(** Paths through several parts of a piece. *)
Inductive paths (P : pool) : nat -> list nat -> nat -> Prop :=
| ps_one b t y : pS P b t y -> paths P b t y
| ps_more b t x b' t' y : pS P b t x -> pD P x b' -> paths P b' t' y -> paths P b (t ++ t') y.
Definition withS (P : pool) : pool := mk_pool (pP P) (pI P) (pa P) (pf P) (pJ P) (paths P) (pD P) (pO P) (pN P) (pZ P) (pE P).
Lemma ok_withS : forall h P rest, ok h (Pt P :: rest) -> ok h (Pt (withS P) :: rest).
Proof.
  intros h P rest O. eapply ok_more; [exact O|reflexivity| |apply Pt_stable]. cbn. intros W [k1 k2 k3 k4 k5 k6 k7]. split; cbn; auto.
  intros b t y Q. induction Q as [b t y Q|b t x b' t' y Q D Q' IH]; [auto|]. destruct (k2 b t x Q) as (A & B & C). split; [exact A|]. split; [exact B|].
  eapply path0_app; [exact C|apply (k3 x b' D)|apply IH].
Qed.
Lemma grp_v : forall h from to v h', grp h (Some from) (Some to) = Some (Some v, h') -> v = from \/ v = nx h.
Proof. intros h from to v h' E. unfold grp in E. destruct (bk (bl h from)); cbn in E; injection E as <- _; auto. Qed.
(** What a tested value says about the edge left through. *)
Definition tested (c : expr) (A : frag) : Prop :=
  forall t v, eval c t v -> (v = V_true -> exists y, fR A t y /\ (y = fe A \/ fJ A y (Some true))) /\ (v <> V_true -> exists y, fR A t y /\ fJ A y (Some false)).
Lemma test_cover : forall c T T' A h j h' h2, xspec false c T -> test_ok c = true -> valid T h -> valid T' h' -> valid A h2 ->
  fJ T' = (fun y k => fJ T y k \/ (y = j /\ k = Some false)) -> fR T' = (fun t y => fR T t y \/ (y = j /\ fR T t (fe T))) -> fe T' = fe T ->
  fJ A = fJ T' -> (forall t y, fR T' t y -> fR A t y) -> tested c A.
Proof.
  intros c T T' A h j h' h2 [xb xk xo xc xn] Ok V V' VA EJ ER Ee EJA ERA t v Q. destruct (xc t v Q) as (y & R & K).
  assert (RA : fR A t y) by (apply ERA; rewrite ER; auto).
  destruct (v_R _ _ V t y R) as [[->|[k Jk]] _].
  - assert (Ey : fe T = fe A).
    { destruct (v_R _ _ VA _ _ RA) as [[E|[k Jk]] _]; [exact E|]. exfalso. rewrite EJA, <- Ee in Jk. eapply fe_not_J; [exact V'|exact Jk]. }
    split; intro Hv; [exists (fe T); auto|]. exists j. rewrite EJA, EJ. split; [apply ERA; rewrite ER; auto|auto].
  - pose proof (v_jmp _ _ V y k Jk) as Nk. destruct k as [b|]; [|congruence]. specialize (K b Jk). unfold jok in K. unfold test_ok in Ok.
    assert (Jb : forall b', b = b' -> fJ A y (Some b')) by (intros b' <-; rewrite EJA, EJ; auto).
    destruct (root c) as [[]|]; try contradiction; try discriminate.
    + destruct K as [-> Nv]. split; intro Hv; [congruence|]. exists y. auto.
    + split; intro Hv; exists y; (split; [exact RA|]); [right|]; apply Jb; destruct b; congruence.
Qed.

Section Order.
Variable order : heap -> list nat -> list nat.
Hypothesis Hperm : forall h l, Permutation (order h l) l.
Section Ops.
Variables (h : heap) (n : nat) (rest : list thing).
Let E := enterF n K_BIN.
Lemma other_ok : forall es L R l r, ok h (Fr R :: Fr L :: Fr E :: rest) -> xspec false l L -> xspec false r R -> plain l = true -> plain r = true ->
  exists v h' F, after_bin order B_other es h (Some n) (Some (fo L)) (Some (fo R)) = Some (Some v, h') /\ ok h' (Fr F :: rest) /\ fo F = v /\ xspec es (Bin B_other l r) F.
Proof using Hperm.
  intros es L R l r O [lb lk lo lc ln] [rb' rk ro rc rn] Pl Pr. unfold after_bin.
  destruct (enter_ok order Hperm n K_BIN h L (Fr R :: rest) EK_NONE) as (h2 & F1 & L1 & O2 & I1 & I2 & I3 & I4 & I5 & I6 & _ & Ne); [fold E; arrange O|exact lo|].
  rewrite L1. destruct (grp_ok h2 F1 _ n O2) as (v1 & h3 & F2 & G1 & O3 & (J1 & J2 & J3 & J4 & J5 & J6) & _ & _); [rewrite I1; left; reflexivity|congruence|].
  rewrite I2 in G1. rewrite G1.
  destruct (seq_into order Hperm h3 F2 R _ (fo R) 0 EK_SEQ 0 LF_NONE O3) as (h4 & F3 & L2 & O4 & (K1 & K2 & K3 & K4 & K5 & K6) & _).
  { intros y k. rewrite J5, I5. apply (ln (or_intror Pl)). } { congruence. } { exact ro. } { reflexivity. }
  unfold link_seq at 1. rewrite J2 in L2. rewrite L2.
  destruct (alias_ok order Hperm h4 F3 rest v1 O4) as (F4 & O5 & (M1 & M2 & M3 & M4 & M5 & M6) & _); [rewrite K1, J1; left; reflexivity|]. rewrite K2 in O5.
  change (new_grp (im (bl h4 v1)) h4) with (nx h4, snd (new_grp (im (bl h4 v1)) h4)). cbv iota beta zeta.
  destruct (new_exit_ok K_BIN _ _ O5) as (m & h6 & Em & O6). rewrite Em.
  destruct (fin_seq order Hperm h6 F4 m K_BIN rest (nx h4) (ok_swap _ _ _ _ O6)) as (h7 & v & h8 & F & L5 & Gr & O8 & Fin).
  { intros y k. rewrite M5, K5. apply (rn (or_intror Pr)). } { congruence. } { rewrite M1; left; reflexivity. }
  rewrite M2 in L5. rewrite L5, Gr. exists v, h8, F. split; [reflexivity|]. split; [exact O8|]. split; [apply Fin|].
  eapply fin_spec; [exact Fin|rewrite M3, K3, J3, I3, lb, rb'; reflexivity|]. intros t u [(w & _ & [] & _)|(t1 & w1 & t2 & w2 & -> & Q1 & _ & Q2 & _)].
  destruct (lc t1 w1 Q1) as (y & R1 & _). destruct (rc t2 w2 Q2) as (z & R2 & _). exists z. rewrite M6, K6. exists t1, t2, y. rewrite J6. auto.
Qed.
Lemma bin_ok : forall op es L R l r, ok h (Fr R :: Fr L :: Fr E :: rest) -> xspec false l L -> xspec false r R -> logical op = true ->
  operand_ok op true l = true -> operand_ok op false r = true ->
  exists v h' F, after_bin order op es h (Some n) (Some (fo L)) (Some (fo R)) = Some (Some v, h') /\ ok h' (Fr F :: rest) /\ fo F = v /\ xspec es (Bin op l r) F.
Proof using Hperm.
  intros op es L R l r O [lb lk lo lc ln] [rb' rk ro rc rn] Lo Ol Or. unfold after_bin.
  destruct (enter_ok order Hperm n K_BIN h L (Fr R :: rest) EK_NONE) as (h2 & F1 & L1 & O2 & I1 & I2 & I3 & I4 & I5 & I6 & _ & Ne); [fold E; arrange O|exact lo|].
  rewrite L1. destruct (grp_ok h2 F1 _ n O2) as (v1 & h3 & F2 & G1 & O3 & (J1 & J2 & J3 & J4 & J5 & J6) & _ & _); [rewrite I1; left; reflexivity|congruence|].
  rewrite I2 in G1. rewrite G1.
  destruct (jump_ok order Hperm h3 F2 _ (jump_of op) O3) as (h4 & A & Ej & O4 & (A1 & A2 & A3 & A4 & A5 & A6) & A7 & _); [congruence|].
  rewrite J2 in *.
  assert (Ej' : match op with B_and => new_jmp_out order h3 v1 ET_JMP_F | B_or | B_nullish => new_jmp_out order h3 v1 ET_JMP_T | B_other => Some h3 end = Some h4).
  { destruct op; try discriminate; exact Ej. }
  rewrite Ej'. clear Ej'.
  assert (Jj : fJ A (nx h3) (Some (jump_of op))) by (rewrite A5; auto).
  destruct (logic_ok order Hperm h4 A R rest (nx h3) [] (jump_of op) (into_of op) O4) as (h5 & h6 & C & L2 & L3 & (O6 & Ng) & (C1 & C2 & C3 & C4 & C5 & C6) & C7).
  { rewrite A1, A2, J1. left. reflexivity. } { exact A4. } { exact Jj. } { exact ro. }
  rewrite A2 in *. rewrite L2.
  assert (L3' : match op with B_or | B_nullish => link order h5 (Some v1) EK_JMP ET_JMP_F EK_SEQ 0 (Some (fo R)) LF_NONE | _ => Some h5 end = Some h6).
  { destruct op; try discriminate; exact L3. }
  rewrite L3'. clear L3'.
  change (new_grp (im (bl h6 v1)) h6) with (nx h6, snd (new_grp (im (bl h6 v1)) h6)). cbv iota beta zeta.
  set (h7 := snd (new_grp (im (bl h6 v1)) h6)) in *.
  replace (match op with B_other => set_bl h7 (nx h6) (mk_blk BK_GROUP [] (im (bl h7 (nx h6))) (om (bl h7 (fo R)))) | _ => add_outs (add_outs h7 (nx h6) (outs h7 (fo R))) (nx h6) (x_out h7 v1) end)
    with (add_outs (add_outs h7 (nx h6) (outs h7 (fo R))) (nx h6) (x_out h7 v1)) by (destruct op; try discriminate; reflexivity).
  set (h8 := add_outs (add_outs h7 (nx h6) (outs h7 (fo R))) (nx h6) (x_out h7 v1)) in *.
  assert (Cov : forall t v, eval (Bin op l r) t v -> exists y, fR C t y /\ forall b, fJ C y (Some b) -> jok (Bin op l r) b v).
  { destruct (ok_Fr _ _ _ O3) as [W2 V2].
    assert (Fresh : forall k, ~ fJ F2 (nx h3) k).
    { intros k Q. pose proof (w_e _ _ W2 _ (exit_re _ _ _ W2 V2 (or_intror (ex_intro _ k Q)))). lia. }
    eapply (logic_cover op l r A R C (nx h3)); eauto.
    - intros t v Q. destruct (lc t v Q) as (y & Ry & Hy). assert (Ry2 : fR F2 t y) by (rewrite J6; auto). exists y. split; [rewrite A6; auto|].
      destruct (v_R _ _ V2 t y Ry2) as [[->|[k Jk]] _].
      + left. rewrite A7. split; [reflexivity|]. rewrite A6. auto.
      + right. pose proof (v_jmp _ _ V2 y k Jk) as Nk. destruct k as [k|]; [|congruence]. split; [exists k; rewrite A5; auto|].
        intros b. rewrite A5. intros [Jb|[-> Eb]]; [rewrite J5, I5 in Jb; auto|exfalso; exact (Fresh _ Jk)].
    - intro k. rewrite A5. split; [intros [Q|[_ Q]]; [exfalso; exact (Fresh _ Q)|exact Q]|auto].
    - intros y. eapply exits_apart; exact O4.
    - intros t y Q. destruct (ok_Fr _ _ _ (ok_tail _ _ _ O4)) as [_ VR]. apply (v_R _ _ VR t y Q). }
  destruct (new_exit_ok K_BIN _ _ O6) as (m & h9 & Em & O9).
  assert (Ng9 : ~ ng h9 (nx h6)).
  { unfold ng in *. rewrite (new_exit_bl _ _ _ _ _ Em); [exact Ng|]. destruct (ok_Fr _ _ _ O6) as [W6 V6]. rewrite <- C2. apply (w_b _ _ W6 _ (v_o _ _ V6)). }
  rewrite Em. destruct es.
  - destruct (fin_jmp order Hperm h9 C m K_BIN rest (nx h6) (N.lor ET_JMP_T ET_JMP_F) 0 (ok_swap _ _ _ _ O9)) as (h10 & h11 & v & h12 & F & L5 & L6 & Gr & O8 & Fin);
      [congruence|rewrite C1; left; reflexivity|right; reflexivity|].
    rewrite C2 in *. replace (match op with B_other => Some h9 | _ => link order h9 (Some (nx h6)) EK_JMP (N.lor ET_JMP_T ET_JMP_F) EK_JMP 0 (Some m) LF_NONE end) with (Some h10) by (destruct op; try discriminate; symmetry; exact L5).
    rewrite L6, Gr. exists v, h12, F. split; [reflexivity|]. split; [exact O8|]. split; [apply Fin|].
    eapply fin_spec; [exact Fin|congruence|]. intros t u Q. destruct (Cov t u Q) as (y & Ry & _). exists y. exact Ry.
  - replace (match op with B_other => Some h9 | _ => Some h9 end) with (Some h9) by (destruct op; reflexivity).
    destruct (exit_grp order Hperm h9 C rest m [IExit K_BIN] (ok_swap _ _ _ _ O9)) as (h10 & v & h11 & F & L5 & Gr & O8 & (D1 & D2 & D3 & D4 & D5 & D6) & _ & D7).
    { destruct (ok_Fr _ _ _ O9) as [_ V9]. pose proof (k_b _ _ _ _ _ _ (v_end _ _ V9) eq_refl) as Q. cbn in Q. unfold is_basic in Q. destruct (bk (bl h9 m)); try discriminate; reflexivity. }
    { congruence. } { congruence. } { rewrite C1, C2; left; reflexivity. } { rewrite C2. exact Ng9. }
    rewrite C2 in *. rewrite L5, Gr. exists v, h11, F. split; [reflexivity|]. split; [exact O8|]. split; [exact D2|].
    split; [congruence|congruence|rewrite D1, D2; left; reflexivity| |].
    + intros t u Q. destruct (Cov t u Q) as (y & Ry & Ky). rewrite D5, D6. destruct (Nat.eq_dec y (fe C)) as [->|Ny].
      * exists (4 + m). split; [left; split; [reflexivity|]; exists t; split; [exact Ry|cbn; rewrite app_nil_r; reflexivity]|].
        intros b Jb. exfalso. apply (exits_apart h9 (blkF m BK_BASIC [IExit K_BIN]) C rest (4 + m) O9); [left; reflexivity|right; eauto].
      * exists y. split; [right; auto|exact Ky].
    + intros [Q|Q]; [discriminate|]. exfalso. pose proof (plain_root (Bin op l r) op Q eq_refl). congruence.
Qed.
End Ops.
Lemma cond_ok : forall h n rest es T B C c a b, ok h (Fr C :: Fr B :: Fr T :: Fr (enterF n K_COND) :: rest) -> xspec false c T -> xspec false a B -> xspec false b C -> test_ok c = true ->
  exists v h' F, after_cond order h (Some n) (Some (fo T)) (Some (fo B)) (Some (fo C)) = Some (Some v, h') /\ ok h' (Fr F :: rest) /\ fo F = v /\ xspec es (Cond c a b) F.
Proof using Hperm.
  intros h n rest es T B C c a b O XT [ab ak ao ac an] [bb bk' bo bc bn] Tok. unfold after_cond.
  destruct (new_exit_ok K_COND h _ O) as (m & h1 & -> & O1). set (X := blkF m BK_BASIC [IExit K_COND]) in *.
  assert (O1' : ok h1 (Fr T :: Fr (enterF n K_COND) :: Fr B :: Fr C :: Fr X :: rest)) by (arrange O1).
  destruct (jump_ok order Hperm h1 T _ false O1') as (h2 & T' & L0 & O2 & (T1 & T2 & T3 & T4 & T5 & T6) & T7 & _); [apply XT|]. change (tagof (Some false)) with ET_JMP_F in L0. rewrite L0.
  destruct (enter_ok order Hperm n K_COND h2 T' (Fr B :: Fr C :: Fr X :: rest) EK_SEQ (ok_swap _ _ _ _ O2)) as (h3 & F1 & L1 & O3 & I1 & I2 & I3 & I4 & I5 & I6 & _ & Ne); [rewrite T1, T2; apply XT|].
  rewrite T2 in *. unfold link_seq at 1. rewrite L1.
  destruct (grp_ok h3 F1 _ n O3) as (v1 & h4 & F2 & G1 & O4 & (J1 & J2 & J3 & J4 & J5 & J6) & _ & _); [rewrite I1; left; reflexivity|congruence|].
  rewrite I2 in G1. rewrite G1.
  assert (Tst : tested c F2).
  { destruct (ok_Fr _ _ _ O1') as [_ VT]. destruct (ok_Fr _ _ _ O2) as [_ VT']. destruct (ok_Fr _ _ _ O4) as [_ V2].
    eapply (test_cover c T T' F2 h1 (nx h1) h2 h4); eauto; [congruence|]. intros t y Q. rewrite J6. auto. }
  destruct (ok_Fr _ _ _ O4) as [W2 V2]. destruct (ok_Fr _ _ _ (ok_tail _ _ _ O4)) as [WB VB]. destruct (ok_Fr _ _ _ (ok_tail _ _ _ (ok_tail _ _ _ O4))) as [WC VC].
  destruct (fork3 order Hperm h4 F2 B C _ (nx h1) [] false O4) as (h5 & h6 & h7 & P & L2 & L3 & L4 & Bl & O7 & (P1 & P2 & P3 & P4 & P5 & P6 & P7 & P8 & P9 & P10)).
  { congruence. } { rewrite J5, I5, T5. auto. } { exact ao. } { exact bo. }
  rewrite J2 in *. rewrite L2, L3, L4. apply ok_withS in O7. destruct (ok_Pt _ _ _ O7) as [W7 K7]. set (PP := withS P) in *.
  assert (OA : pO PP v1 (outs h4 v1)) by (cbn; rewrite P7; auto). assert (OB : pO PP (fo B) (outs h4 (fo B))) by (cbn; rewrite P7; auto). assert (OC : pO PP (fo C) (outs h4 (fo C))) by (cbn; rewrite P7; auto).
  assert (Nb : fo B <> v1) by (intro Q; apply (proj1 (fr_ne _ _ _ _ O4)); congruence).
  assert (Nc : fo C <> v1).
  { intro Q. assert (O4' : ok h4 (Fr F2 :: Fr C :: Fr B :: Fr X :: rest)) by (arrange O4). apply (proj1 (fr_ne _ _ _ _ O4')). congruence. }
  destruct (grp_spec (pP PP) h7 v1 (fo B) W7 (proj1 (n_O _ _ K7 _ _ OA)) (proj1 (n_O _ _ K7 _ _ OB)) Nb) as (v & mm & h8 & G2 & Hm & Gr).
  rewrite G2. pose proof (grp_v _ _ _ _ _ G2) as Hv.
  assert (Rc : rb (pP PP) (fo C)) by apply (n_O _ _ K7 _ _ OC).
  assert (Xc : x_out h8 (fo C) = x_out h7 (fo C)).
  { apply x_out_same; [apply (gr_ed _ _ _ _ _ _ _ Gr)|]. apply (gr_outs h7 h8 (pP PP) _ _ _ _ W7 Gr (fo C) Rc). pose proof (w_b _ _ W7 _ Rc). destruct Hv; [congruence|lia]. }
  rewrite Xc.
  assert (Gr2 : grouped (pP PP) v (im (bl h7 v1)) mm (merge_set (merge_set (x_out h7 (fo B)) (x_jmp h7 v1)) (x_out h7 (fo C))) h7 (add_outs h8 v (x_out h7 (fo C)))).
  { apply grouped_add; [exact Gr|exact Hm|]. intros x Ix. apply (x_from PP h7 (fo C) _ x K7 OC). auto. }
  set (L := merge_set (merge_set (x_out h7 (fo B)) (x_jmp h7 v1)) (x_out h7 (fo C))) in *.
  destruct (pool_grouped h7 PP _ v _ mm L _ O7 Gr2) as [O8 _].
  { cbn. rewrite P2, Bl. apply (k_i _ _ _ _ _ _ (v_base _ _ V2)). rewrite J1. left. reflexivity. }
  set (h9 := add_outs h8 v (x_out h7 (fo C))) in *.
  assert (HB : forall x, In x (outs h4 (fo B)) -> (exists k, pJ PP x k) \/ (exists b, pD PP x b)).
  { intros x Ix. apply (v_out _ _ VB) in Ix. left. cbn. rewrite P4. destruct Ix as [->|[k Q]]; [exists None; auto|exists k; auto]. }
  assert (HC : forall x, In x (outs h4 (fo C)) -> (exists k, pJ PP x k) \/ (exists b, pD PP x b)).
  { intros x Ix. apply (v_out _ _ VC) in Ix. left. cbn. rewrite P4. destruct Ix as [->|[k Q]]; [exists None; auto|exists k; auto]. }
  assert (NL : NoDup L).
  { apply merge_nd; [apply merge_nd|].
    - apply (x_nd PP h7 (fo B) _ K7 OB (v_nd _ _ VB)).
    - apply (x_nd PP h7 v1 _ K7 OA). pose proof (v_nd _ _ V2) as N2. rewrite J2 in N2. exact N2.
    - apply (x_nd PP h7 (fo C) _ K7 OC (v_nd _ _ VC)). }
  assert (AL : forall y k, pJ PP y k -> In y L).
  { intros y k Q. unfold L. rewrite !merge_in, (x_out_in PP h7 (fo B) _ y W7 K7 OB HB), (x_out_in PP h7 (fo C) _ y W7 K7 OC HC), (v_out _ _ VB), (v_out _ _ VC). unfold exits.
    pose proof Q as Q'. cbn in Q'. rewrite P4 in Q'. destruct Q' as [[Q'|[-> _]]|[Q'|[-> _]]]; eauto 7. }
  assert (Ov : pO (grpP PP (addg (pP PP) v mm) v L) v L) by (cbn; auto).
  destruct (pool_close order Hperm h9 _ X rest v L v L m 0 0 LF_FORCE_SEP O8) as (h10 & h11 & F & L5 & L6 & O11 & (D1 & D2 & D3 & D4 & D5 & D6) & _).
  { exact P3. } { left. reflexivity. } { left. reflexivity. } { exact Ov. } { exact NL. } { exact Ov. } { exact NL. }
  { intros y k Q. eapply AL, Q. } { intros y Q. eapply AL, Q. } { reflexivity. } { left. reflexivity. }
  unfold link_jmp. rewrite L5, L6.
  destruct (grp_ok h11 F rest v O11) as (w & h12 & F' & G3 & O12 & (E1 & E2 & E3 & E4 & E5 & E6) & _ & _).
  { rewrite D1. left. reflexivity. }
  { rewrite D2. cbn. intro Q. destruct (ok_Pt _ _ _ O8) as [W8 K8].
    destruct O8 as [_ [Qd _]]. destruct (Qd (Fr X) (or_introl eq_refl)) as (Dd & _). apply (Dd v); [cbn; auto|cbn; auto]. }
  rewrite D2 in G3. change (fo X) with m in G3. rewrite G3. exists w, h12, F'. split; [reflexivity|]. split; [exact O12|]. split; [exact E2|].
  apply xspec_plain; [rewrite E3, D3; reflexivity|rewrite E4, D4; reflexivity|rewrite E1, E2; left; reflexivity|intros x k; rewrite E5, D5; cbn; tauto|].
  intros t u (t1 & t2 & u1 & -> & Q1 & Q2). exists (4 + m). rewrite E6, D6. destruct (Tst t1 u1 Q1) as [Ht Hf].
  assert (Go : exists mm k, paths P (fa F2) (t1 ++ t2) mm /\ pJ P mm k).
  { destruct Q2 as [[-> Q2]|[Nv Q2]].
    - destruct (Ht eq_refl) as (y & Ry & Hy). destruct (ac t2 u Q2) as (z & Rz & _). exists z.
      assert (Kz : exists k, pJ P z k) by (rewrite P4; destruct (v_R _ _ VB _ _ Rz) as [[->|[k Jk]] _]; [exists None; auto|exists k; auto]).
      destruct Kz as [k Kz]. exists k. split; [|exact Kz]. apply (ps_more P (fa F2) t1 y (fa B) t2 z); [rewrite P5; auto|rewrite P6; auto|]. apply ps_one. rewrite P5. auto.
    - destruct (Hf Nv) as (y & Ry & Hy). destruct (bc t2 u Q2) as (z & Rz & _). exists z.
      assert (Kz : exists k, pJ P z k) by (rewrite P4; destruct (v_R _ _ VC _ _ Rz) as [[->|[k Jk]] _]; [exists None; auto|exists k; auto]).
      destruct Kz as [k Kz]. exists k. split; [|exact Kz]. apply (ps_more P (fa F2) t1 y (fa C) t2 z); [rewrite P5; auto|rewrite P6; auto|]. apply ps_one. rewrite P5. auto. }
  destruct Go as (z & k & Q & Jz). exists (t1 ++ t2), [], z, k. split; [rewrite app_nil_r; reflexivity|]. cbn. rewrite P2. split; [exact Q|]. split; [exact Jz|]. split; reflexivity.
Qed.
End Order.
