(** Proofs about building control flow graphs: statements without loops. *)
From Coq Require Import Permutation ZifyBool ZifyNat.
From Verif Require Import Base GraphModel FlowModel FlowSpec FlowProofs FlowFrag FlowSteps FlowCat FlowGlue FlowPool FlowFork FlowExprs FlowBin FlowGo.

(** A stretch of statements: left in one way only. *)
Definition seg (F : frag) : Prop := fK F = [] /\ noJ F /\ In (fo F) (fI F).
Lemma suf_refl : forall L, suf L L.
Proof. intro L. exists []. reflexivity. Qed.
Lemma suf_tran : forall L M N, suf L M -> suf M N -> suf L N.
Proof. intros L M N [l ->] [m ->]. exists (m ++ l). apply app_assoc. Qed.
Lemma suf_cons : forall x L M, suf L M -> suf L (x :: M).
Proof. intros x L M [l ->]. exists (x :: l). reflexivity. Qed.
Lemma suf_nil : forall M, suf [] M.
Proof. intro M. exists M. symmetry. apply app_nil_r. Qed.
Definition after_all (G F : frag) (X : list nat -> Prop) : Prop := suf (fI G) (fI F) /\ forall t t', reach G t -> X t' -> reach F (t ++ t').
Lemma test_jump : forall (c : expr) (Ev : list nat -> val -> Prop) F A h j,
  (forall t v, Ev t v -> exists y, fR F t y /\ forall b, fJ F y (Some b) -> jok c b v) -> test_ok c = true -> valid F h ->
  fJ A = (fun y k => fJ F y k \/ (y = j /\ k = Some false)) -> fR A = (fun t y => fR F t y \/ (y = j /\ fR F t (fe F))) -> fe A = fe F ->
  forall t v, Ev t v -> (v = V_true -> exists y, fR A t y /\ (y = fe A \/ fJ A y (Some true))) /\ (v <> V_true -> exists y, fR A t y /\ fJ A y (Some false)).
Proof.
  intros c Ev F A h j xc Ok V EJ ER Ee t v Q. destruct (xc t v Q) as (y & R & K). rewrite EJ, ER, Ee.
  destruct (v_R _ _ V t y R) as [[->|[k Jk]] _].
  - split; intro Hv; [exists (fe F); auto|]. exists j. auto.
  - pose proof (v_jmp _ _ V y k Jk) as Nk. destruct k as [b|]; [|congruence]. specialize (K b Jk). unfold jok in K. unfold test_ok in Ok.
    assert (Jb : forall b', b = b' -> fJ F y (Some b')) by (intros b' <-; exact Jk).
    destruct (root c) as [[]|]; try contradiction; try discriminate.
    + destruct K as [-> Nv]. split; intro Hv; [congruence|]. exists y. auto.
    + split; intro Hv; exists y; (split; [auto|]); [right|]; left; apply Jb; destruct b; congruence.
Qed.

Section Order.
Variable order : heap -> list nat -> list nat.
Hypothesis Hperm : forall h l, Permutation (order h l) l.

(** One stretch after another, grouped. *)
Lemma seg_then : forall h A B rest i, ok h (Fr A :: Fr B :: rest) -> seg A -> In i (fI B) -> fo B <> fo A ->
  exists h1 v h2 F, link_seq order h (Some (fo A)) (Some i) = Some h1 /\ grp h1 (Some (fo A)) (Some (fo B)) = Some (Some v, h2) /\ ok h2 (Fr F :: rest)
    /\ is_frag F (v :: fI A) v (fb A && fb B) (fK B) (fJ B) (seqR A B).
Proof using Hperm.
  intros h A B rest i O (Ak & An & Ao) Hi Ne.
  destruct (seq_into order Hperm h A B rest i 0 EK_SEQ 0 LF_NONE O An Ak Hi eq_refl) as (h1 & F1 & L1 & O1 & (I1 & I2 & I3 & I4 & I5 & I6) & _).
  destruct (grp_ok h1 F1 rest (fo A) O1) as (v & h2 & F & G & O2 & (J1 & J2 & J3 & J4 & J5 & J6) & _ & _); [rewrite I1; exact Ao|congruence|].
  exists h1, v, h2, F. split; [exact L1|]. rewrite I2 in G. split; [exact G|]. split; [exact O2|].
  unfold is_frag. rewrite J1, J2, J3, J4, J5, J6, I1, I3, I4, I5, I6. auto 10.
Qed.
Lemma seqR_reach : forall A B F t t', fR F = seqR A B -> reach A t -> reach B t' -> reach F (t ++ t').
Proof. intros A B F t t' E [y R] [z R']. exists z. rewrite E. exists t, t', y. auto. Qed.

(** ** Entering and leaving statements *)
Definition pre (fork : bool) (w : world) (st : list nat) (rest : list thing) (Q : list nat -> Prop) (L : list nat) : Prop :=
  if fork then st = w_st w /\ ok (w_h w) rest /\ Q = none /\ L = []
  else exists A, w_st w = fo A :: st /\ ok (w_h w) (Fr A :: rest) /\ seg A /\ Q = reach A /\ L = fI A.
Definition done (w w' : world) (st : list nat) (rest : list thing) (F : frag) : Prop :=
  w_xs w' = w_xs w /\ w_st w' = fo F :: st /\ ok (w_h w') (Fr F :: rest) /\ seg F.
Lemma seg_blk : forall n k l, seg (blkF n k l).
Proof. intros n k l. split; [reflexivity|]. split; [apply noJ_blk|left; reflexivity]. Qed.
Lemma enter_stmt_ok : forall k fork w st rest Q L, pre fork w st rest Q L ->
  exists w' G, enter_stmt order k fork w = Some w' /\ done w w' st rest G /\ suf L (fI G) /\ forall t, Q t -> reach G t.
Proof using Hperm.
  intros k fork w st rest Q L P. unfold enter_stmt, new_enter. destruct fork; cbn in P.
  - destruct P as (-> & O & -> & ->). destruct (new_blk_ok BK_BASIC [IEnter k] (w_h w) rest) as [E O']; [discriminate|exact O|].
    destruct (new_blk BK_BASIC [IEnter k] (w_h w)) as [n g]. cbn in E, O'. subst n. eexists _, (blkF (nx (w_h w)) BK_BASIC [IEnter k]). split; [reflexivity|]. split.
    + split; [reflexivity|]. split; [reflexivity|]. split; [exact O'|apply seg_blk].
    + split; [apply suf_nil|]. intros t ->. exists (4 + nx (w_h w)). split; reflexivity.
  - destruct P as (A & Es & O & SA & -> & ->). destruct (new_blk_ok BK_BASIC [IEnter k] (w_h w) (Fr A :: rest)) as [E O']; [discriminate|exact O|].
    destruct (new_blk BK_BASIC [IEnter k] (w_h w)) as [n g]. cbn in E, O'. rewrite Es. cbn [pop].
    assert (Ne : n <> fo A) by (rewrite E; intro Z; destruct (ok_Fr _ _ _ O) as [W V]; pose proof (w_b _ _ W _ (v_o _ _ V)); lia). subst n.
    destruct (seg_then g A (blkF (nx (w_h w)) BK_BASIC [IEnter k]) rest (nx (w_h w)) (ok_swap _ _ _ _ O') SA) as (h1 & v & h2 & F & Lk & G & O2 & (I1 & I2 & I3 & I4 & I5 & I6)); [left; reflexivity|exact Ne|].
    rewrite Lk. cbn [fo blkF] in G. rewrite G. cbn [push]. eexists _, F. split; [reflexivity|]. split.
    + split; [reflexivity|]. cbn. rewrite I2. split; [reflexivity|]. split; [exact O2|]. split; [exact I4|]. split; [intros x c; rewrite I5; apply noJ_blk|rewrite I1, I2; left; reflexivity].
    + split; [rewrite I1; apply suf_cons, suf_refl|]. intros t R. rewrite <- (app_nil_r t). eapply seqR_reach; [exact I6|exact R|]. exists (4 + nx (w_h w)). split; reflexivity.
Qed.
Lemma leave_stmt_ok : forall k w A st rest, w_st w = fo A :: st -> ok (w_h w) (Fr A :: rest) -> seg A ->
  exists w' F, leave_stmt order k w = Some w' /\ done w w' st rest F /\ suf (fI A) (fI F) /\ forall t, reach A t -> reach F t.
Proof using Hperm.
  intros k w A st rest Es O SA. unfold leave_stmt. rewrite Es. cbn [pop]. destruct (new_exit_ok k (w_h w) _ O) as (m & h1 & -> & O1).
  destruct (fin_seq order Hperm h1 A m k rest (fo A) (ok_swap _ _ _ _ O1)) as (h2 & v & h3 & F & L & G & O3 & (F1 & F2 & F3 & F4 & F5 & F6 & _)); [apply SA|apply SA|apply SA|].
  rewrite L, G. cbn [push]. eexists _, F. split; [reflexivity|]. split; [|split; [rewrite F4; apply suf_cons, suf_refl|exact F6]]. split; [reflexivity|]. cbn. rewrite F1. split; [reflexivity|]. split; [exact O3|].
  split; [exact F3|]. split; [exact F5|]. rewrite F1, F4. left. reflexivity.
Qed.

(** ** Expression statements and declarations *)
Lemma exp_ok : forall h G X e rest, ok h (Fr X :: Fr G :: rest) -> seg G -> xspec true e X ->
  exists v h' F, after_exp order h (Some (fo G)) (Some (fo X)) = Some (Some v, h') /\ ok h' (Fr F :: rest) /\ fo F = v /\ seg F /\ after_all G F (evals e).
Proof using Hperm.
  intros h G X e rest O (Gk & Gn & Go) [xb xk xo xc xn]. unfold after_exp.
  destruct (fr_ne _ _ _ _ O) as [Ne _].
  destruct (seq_into order Hperm h G X rest (fo X) 0 EK_SEQ 0 LF_FORCE_JOIN (ok_swap _ _ _ _ O) Gn Gk xo eq_refl) as (h1 & F1 & L1 & O1 & (I1 & I2 & I3 & I4 & I5 & I6) & _).
  rewrite L1. destruct (grp_ok h1 F1 rest (fo G) O1) as (v & h2 & F2 & Gr & O2 & (J1 & J2 & J3 & J4 & J5 & J6) & _ & _); [rewrite I1; exact Go|congruence|].
  rewrite I2 in Gr. rewrite Gr. destruct (new_exit_ok K_EXPR_STMT h2 _ O2) as (m & h3 & -> & O3).
  destruct (fin_jmp order Hperm h3 F2 m K_EXPR_STMT rest (fo G) (N.lor ET_JMP_T ET_JMP_F) 0 (ok_swap _ _ _ _ O3)) as (h4 & h5 & v' & h6 & F & L4 & L5 & Gr2 & O6 & (F1' & F2' & F3 & F4 & F5 & F6 & _));
    [congruence|rewrite J1, I1; right; exact Go|right; reflexivity|].
  rewrite J2 in *. rewrite L4, L5, Gr2. exists v', h6, F. split; [reflexivity|]. split; [exact O6|]. split; [exact F1'|]. split.
  - split; [exact F3|]. split; [exact F5|]. rewrite F1', F4. left. reflexivity.
  - split; [rewrite F4, J1, I1; do 2 apply suf_cons; apply suf_refl|]. intros t t' R [u Q]. apply F6. destruct (xc t' u Q) as (y & Ry & _). destruct (seqR_reach G X F1 t t' I6 R) as [z Rz]; [exists y; exact Ry|]. exists z. rewrite J6. exact Rz.
Qed.
Lemma dec_ok : forall d w A st rest, good (fst d) = true -> plain (fst d) = true -> (match snd d with Some e => good e = true | None => True end) ->
  w_st w = fo A :: st -> ok (w_h w) (Fr A :: rest) -> seg A ->
  exists w' F, go_dec order d w = Some w' /\ done w w' st rest F /\ after_all A F (then_ (evals (fst d)) (match snd d with Some e => evals e | None => none end)).
Proof using Hperm.
  intros [x i] w A st rest Gx Px Gi Es O SA. cbn [fst snd] in *. unfold go_dec. cbn [fst snd].
  destruct (push_enter_ok K_VAR_DEC w _ O) as (n & X0 & S0 & O0).
  destruct (go_expr_ok order Hperm x false _ _ Gx O0) as (w1 & L & E1 & S1 & X1 & O1 & [lb lk lo lc ln]). rewrite E1.
  assert (Fin : exists v h4 V, (do w2 <- go_opt order i w1; let (init, xs) := pop_opt i (w_xs w2) in let (id, xs) := pop xs in let (enter, xs) := pop xs in let (prev, st) := pop (w_st w2) in
        done_s (after_var_dec order (w_h w2) prev enter id init) st xs) = done_s (do h <- link_seq order h4 (Some (fo A)) (Some v); grp h (Some (fo A)) (Some v)) st (w_xs w)
      /\ ok h4 (Fr V :: Fr A :: rest) /\ fo V = v /\ seg V
      /\ (forall t, then_ (evals x) (match i with Some e => evals e | None => none end) t -> reach V t)).
  { destruct i as [e|]; cbn [go_opt pop_opt].
    - destruct (go_expr_ok order Hperm e false _ _ Gi O1) as (w2 & R & E2 & S2 & X2 & O2 & [rb' rk ro rc rn]). rewrite E2, X2, X1, X0. cbn [pop]. rewrite S2, S1, S0, Es.
      unfold after_var_dec.
      destruct (enter_ok order Hperm n K_VAR_DEC (w_h w2) L (Fr R :: Fr A :: rest) EK_SEQ) as (h2 & F1 & L1 & O2' & I1 & I2 & I3 & I4 & I5 & I6 & _ & Ne); [arrange O2|exact lo|].
      unfold link_seq at 1. rewrite L1. destruct (new_exit_ok K_VAR_DEC h2 _ O2') as (m & h3 & -> & O3).
      set (X := blkF m BK_BASIC [IExit K_VAR_DEC]) in *.
      assert (O3' : ok h3 (Fr F1 :: Fr R :: Fr X :: Fr A :: rest)) by (arrange O3).
      destruct (seq_into order Hperm h3 F1 R _ (fo R) 0 EK_SEQ 0 LF_NONE O3') as (h4 & F2 & L2 & O4 & (J1 & J2 & J3 & J4 & J5 & J6) & _).
      { intros y k. rewrite I5. apply (ln (or_intror Px)). } { congruence. } { exact ro. } { reflexivity. }
      unfold link_seq at 1. rewrite I2 in L2. rewrite L2.
      destruct (fin_jmp order Hperm h4 F2 m K_VAR_DEC (Fr A :: rest) n 0 0 O4) as (h5 & h6 & v & h7 & V & L4 & L5 & Gr & O7 & (V1 & V2 & V3 & V4 & V5 & V6 & _)); [congruence|rewrite J1, I1; left; reflexivity|left; reflexivity|].
      rewrite J2 in *. unfold link_jmp. rewrite L4, L5, Gr. exists v, h7, V.
      split; [reflexivity|]. split; [exact O7|]. split; [exact V1|]. split; [split; [exact V3|]; split; [exact V5|]; rewrite V1, V4; left; reflexivity|].
      intros t (t1 & t2 & -> & [u1 Q1] & [u2 Q2]). apply V6. destruct (lc t1 u1 Q1) as (y & Ry & _). destruct (rc t2 u2 Q2) as (z & Rz & _).
      eapply (seqR_reach F1 R); [exact J6|exists y; auto|exists z; exact Rz].
    - rewrite X1, X0. cbn [pop]. rewrite S1, S0, Es. unfold after_var_dec.
      destruct (enter_ok order Hperm n K_VAR_DEC (w_h w1) L (Fr A :: rest) EK_SEQ) as (h2 & F1 & L1 & O2' & I1 & I2 & I3 & I4 & I5 & I6 & _ & Ne); [arrange O1|exact lo|].
      unfold link_seq at 1. rewrite L1. destruct (new_exit_ok K_VAR_DEC h2 _ O2') as (m & h3 & -> & O3).
      destruct (fin_seq order Hperm h3 F1 m K_VAR_DEC (Fr A :: rest) n (ok_swap _ _ _ _ O3)) as (h5 & v & h7 & V & L5 & Gr & O7 & (V1 & V2 & V3 & V4 & V5 & V6 & _)).
      { intros y k. rewrite I5. apply (ln (or_intror Px)). } { congruence. } { rewrite I1. left. reflexivity. }
      rewrite I2 in *. rewrite L5, Gr. exists v, h7, V.
      split; [reflexivity|]. split; [exact O7|]. split; [exact V1|]. split; [split; [exact V3|]; split; [exact V5|]; rewrite V1, V4; left; reflexivity|].
      intros t (t1 & t2 & -> & [u1 Q1] & ->). rewrite app_nil_r. apply V6. destruct (lc t1 u1 Q1) as (y & Ry & _). exists y. auto. }
  destruct Fin as (v & h4 & V & -> & O4 & Vo & SV & RV).
  destruct (seg_then h4 A V rest v (ok_swap _ _ _ _ O4) SA) as (h5 & v' & h6 & F & L5 & Gr & O6 & (I1 & I2 & I3 & I4 & I5 & I6)).
  { rewrite <- Vo. apply SV. } { apply (fr_ne _ _ _ _ O4). }
  rewrite Vo in Gr. rewrite L5, Gr. cbn. eexists _, F. split; [reflexivity|]. split.
  - split; [reflexivity|]. cbn. rewrite I2. split; [reflexivity|]. split; [exact O6|]. split; [rewrite I4; apply SV|]. split; [intros y c; rewrite I5; apply SV|rewrite I1, I2; left; reflexivity].
  - split; [rewrite I1; apply suf_cons, suf_refl|]. intros t t' R Q. eapply (seqR_reach A V); [exact I6|exact R|apply RV, Q].
Qed.
Lemma decs_ok : forall l w A st rest, forallb (fun d => good (fst d) && plain (fst d) && match snd d with Some e => good e | None => true end) l = true ->
  w_st w = fo A :: st -> ok (w_h w) (Fr A :: rest) -> seg A ->
  exists w' F, go_decs order l w = Some w' /\ done w w' st rest F /\ after_all A F (exec (Var l)).
Proof using Hperm.
  induction l as [|d l IH]; intros w A st rest G Es O SA.
  - exists w, A. split; [reflexivity|]. split; [split; [reflexivity|auto]|]. split; [apply suf_refl|]. intros t t' R ->. rewrite app_nil_r. exact R.
  - cbn in G. apply andb_true_iff in G as [Gd Gl]. apply andb_true_iff in Gd as [Gd Gi]. apply andb_true_iff in Gd as [Gx Px].
    destruct (dec_ok d w A st rest Gx Px) as (w1 & F1 & E1 & (X1 & S1 & O1 & SF1) & In1 & R1); [destruct (snd d); auto|exact Es|exact O|exact SA|].
    destruct (IH w1 F1 st rest Gl S1 O1 SF1) as (w2 & F2 & E2 & (X2 & S2 & O2 & SF2) & In2 & R2).
    exists w2, F2. cbn [go_decs]. rewrite E1. split; [exact E2|]. split; [split; [congruence|auto]|].
    split; [eapply suf_tran; eauto|]. intros t t' R (t1 & t2 & -> & Q1 & Q2). rewrite app_assoc. apply R2; [apply R1; assumption|exact Q2].
Qed.

(** ** Conditions *)
Lemma if_test : forall h G T c rest, ok h (Fr G :: Fr T :: rest) -> seg G -> xspec false c T -> test_ok c = true ->
  exists h1 v h2 h3 A, link order h (Some (fo G)) EK_SEQ 0 EK_NONE 0 (Some (fo T)) LF_NONE = Some h1 /\ grp h1 (Some (fo G)) (Some (fo T)) = Some (Some v, h2)
    /\ new_jmp_out order h2 v ET_JMP_F = Some h3 /\ ok h3 (Fr A :: rest) /\ fI A = v :: fI G /\ fo A = v /\ fK A = [nx h2] /\ fJ A (nx h2) (Some false)
    /\ forall t t' u, reach G t -> eval c t' u -> (u = V_true -> exists y, fR A (t ++ t') y /\ (y = fe A \/ fJ A y (Some true)))
                                                /\ (u <> V_true -> exists y, fR A (t ++ t') y /\ fJ A y (Some false)).
Proof using Hperm.
  intros h G T c rest O (Gk & Gn & Go) [xb xk xo xc xn] Tk.
  destruct (fr_ne _ _ _ _ O) as [Ne _].
  destruct (seq_into order Hperm h G T rest (fo T) 0 EK_NONE 0 LF_NONE O Gn Gk xo eq_refl) as (h1 & F1 & L1 & O1 & (I1 & I2 & I3 & I4 & I5 & I6) & _).
  destruct (grp_ok h1 F1 rest (fo G) O1) as (v & h2 & F2 & Gr & O2 & (J1 & J2 & J3 & J4 & J5 & J6) & _ & _); [rewrite I1; exact Go|congruence|].
  rewrite I2 in Gr. destruct (jump_ok order Hperm h2 F2 rest false O2) as (h3 & A & Ej & O3 & (A1 & A2 & A3 & A4 & A5 & A6) & A7 & _); [congruence|].
  rewrite J2 in *. exists h1, v, h2, h3, A. split; [exact L1|]. split; [exact Gr|]. split; [exact Ej|]. split; [exact O3|]. split; [congruence|]. split; [exact A2|]. split; [exact A4|].
  split; [rewrite A5; auto|]. intros t t' u R Q. destruct (ok_Fr _ _ _ O2) as [_ V2].
  apply (test_jump c (fun s u => exists s1 s2, s = s1 ++ s2 /\ reach G s1 /\ eval c s2 u) F2 A h2 (nx h2)); auto; [|exists t, t'; auto].
  intros s w (s1 & s2 & -> & [y1 R1] & Q2). destruct (xc s2 w Q2) as (y & Ry & Ky). exists y. split; [|intro b; rewrite J5, I5; apply Ky]. rewrite J6, I6. exists s1, s2, y1. auto.
Qed.
(** A group out of which all leads to an exit. *)
Lemma close_grp : forall h P rest n k v L flag, ok h (Pt P :: Fr (blkF n BK_BASIC [IExit k]) :: rest) -> pf P = true -> pO P v L -> NoDup L -> In v (pI P) -> (forall y k, pJ P y k -> In y L) ->
  forall ft, any_tag ft -> is_join flag = false -> (is_sep flag = true \/ exists y b, pJ P y (Some b)) ->
  exists h1 h2 w h3 F, link order h (Some v) EK_JMP ft EK_JMP 0 (Some n) LF_NONE = Some h1 /\ link order h1 (Some v) EK_SEQ 0 EK_SEQ 0 (Some n) flag = Some h2
    /\ grp h2 (Some v) (Some n) = Some (Some w, h3) /\ ok h3 (Fr F :: rest) /\ fo F = w /\ seg F /\ suf (pI P) (fI F) /\ forall t m k, pS P (pa P) t m -> pJ P m k -> reach F t.
Proof using Hperm.
  intros h P rest n k v L flag O Pf Ov NL Iv AL ft Hft Hj Hs. set (X := blkF n BK_BASIC [IExit k]) in *.
  destruct (pool_close order Hperm h P X rest v L v L n ft 0 flag O) as (h1 & h2 & F & L5 & L6 & O11 & (D1 & D2 & D3 & D4 & D5 & D6) & _); auto.
  { left. reflexivity. } { intros y b Q. eapply AL, Q. } { intros y Q. eapply AL, Q. }
  destruct (grp_ok h2 F rest v O11) as (w & h3 & F' & G3 & O12 & (E1 & E2 & E3 & E4 & E5 & E6) & _ & _).
  { rewrite D1. exact Iv. }
  { rewrite D2. intro Q. destruct (ok_Pt _ _ _ O) as [W8 K8]. destruct O as [_ [Qd _]]. destruct (Qd (Fr X) (or_introl eq_refl)) as (Dd & _). apply (Dd v); [apply (n_O _ _ K8 _ _ Ov)|symmetry; exact Q]. }
  rewrite D2 in G3. exists h1, h2, w, h3, F'. split; [exact L5|]. split; [exact L6|]. split; [exact G3|]. split; [exact O12|]. split; [exact E2|]. split.
  - split; [rewrite E4, D4; reflexivity|]. split; [intros x c; rewrite E5, D5; apply noJ_blk|rewrite E1, E2; left; reflexivity].
  - split; [rewrite E1, D1; apply suf_cons, suf_refl|]. intros t m c Q J. exists (4 + n). rewrite E6, D6. exists t, [], m, c. split; [rewrite app_nil_r; reflexivity|]. split; [exact Q|]. split; [exact J|]. split; reflexivity.
Qed.

Lemma if_ok : forall h G T B c (X : list nat -> Prop) rest, ok h (Fr B :: Fr T :: Fr G :: rest) -> seg G -> seg B -> xspec false c T -> test_ok c = true -> (forall t, X t -> reach B t) ->
  exists v h' F, after_if order h (Some (fo G)) (Some (fo T)) (Some (fo B)) None = Some (Some v, h') /\ ok h' (Fr F :: rest) /\ fo F = v /\ seg F
    /\ after_all G F (fun t => then_ (is_true c) X t \/ then_ (is_not c) none t).
Proof using Hperm.
  intros h G T B c X rest O SG (Bk & Bn & Bo) XT Tk HX. unfold after_if.
  destruct (if_test h G T c (Fr B :: rest)) as (h1 & t & h2 & h3 & A & L1 & G1 & L2 & O3 & A1 & A2 & A3 & A4 & Tst); [arrange O|exact SG|exact XT|exact Tk|].
  rewrite L1, G1, L2. destruct (ok_Fr _ _ _ O3) as [WA VA]. destruct (ok_Fr _ _ _ (ok_tail _ _ _ O3)) as [WB VB].
  destruct (fork2 order Hperm h3 A B rest (nx h2) [] false (Some ET_JMP_T) O3 A3 A4 Bo) as (h4 & h5 & P & L3 & L4 & Bl & O5 & (P1 & P2 & P3 & P4 & P5 & P6 & P7 & P8 & P9 & P10)).
  rewrite A2 in *. rewrite L3, L4. destruct (ok_Pt _ _ _ O5) as [W5 K5].
  assert (OA : pO P t (outs h3 t)) by (rewrite P7; auto). assert (OB : pO P (fo B) (outs h3 (fo B))) by (rewrite P7; auto).
  destruct (k_i _ _ _ _ _ _ (n_base _ _ K5) (fo G)) as [RG Im]; [rewrite P1, A1; right; apply SG|].
  destruct (group_over h5 P rest (fo G) [x_jmp h5 t; x_out h5 (fo B)] O5 RG Im) as (p & OG & _).
  { intros l [<-|[<-|[]]] x Ix; [apply (x_from P h5 t _ x K5 OA)|apply (x_from P h5 (fo B) _ x K5 OB)]; auto. }
  change (new_grp (im (bl h5 (fo G))) h5) with (nx h5, snd (new_grp (im (bl h5 (fo G))) h5)). cbv iota beta zeta.
  set (vn := nx h5) in *. set (g := snd (new_grp (im (bl h5 (fo G))) h5)) in *.
  assert (E1 : x_jmp g t = x_jmp h5 t) by (apply (grown_x order Hperm P h5 (im (bl h5 (fo G))) [] t _ W5 K5 OA)).
  assert (E2 : x_out g (fo B) = x_out h5 (fo B)) by (apply (grown_x order Hperm P h5 (im (bl h5 (fo G))) [] (fo B) _ W5 K5 OB)).
  rewrite E1, E2. change (add_outs (add_outs g vn (x_jmp h5 t)) vn (x_out h5 (fo B))) with (grown h5 (im (bl h5 (fo G))) [x_jmp h5 t; x_out h5 (fo B)]).
  set (h6 := grown h5 (im (bl h5 (fo G))) [x_jmp h5 t; x_out h5 (fo B)]) in *. set (L := fold_left merge_set [x_jmp h5 t; x_out h5 (fo B)] []) in *.
  apply ok_withS in OG. destruct (new_exit_ok K_IF h6 _ OG) as (m & h7 & -> & O7).
  assert (HA : forall x, In x (outs h3 t) -> (exists k, pJ P x k) \/ (exists b, pD P x b)).
  { intros x Ix. rewrite <- A2 in Ix. apply (v_out _ _ VA) in Ix. rewrite P4, P6. destruct Ix as [->|[k Q]]; [right; exists (fa B); auto|].
    destruct (hit_by (Some ET_JMP_T) k) eqn:E; [right; exists (fa B); split; [reflexivity|]; right; eauto|left; exists k; left; auto]. }
  assert (HB : forall x, In x (outs h3 (fo B)) -> (exists k, pJ P x k) \/ (exists b, pD P x b)).
  { intros x Ix. apply (v_out _ _ VB) in Ix. left. rewrite P4. unfold forkJ. destruct Ix as [->|[k Q]]; [exists None; auto|exists k; auto]. }
  destruct (close_grp h7 _ rest m K_IF vn L LF_NONE (ok_swap _ _ _ _ O7)) with (ft := N.lor ET_JMP_T ET_JMP_F) as (h8 & h9 & w & h10 & F & L8 & L9 & G10 & O10 & Fo & SF & Inc & RF).
  { exact P3. } { left. split; reflexivity. }
  { cbn [fold_left L]. unfold L. cbn [fold_left]. apply merge_nd; [apply merge_nd; [constructor|]|].
    - apply (x_nd P h5 t _ K5 OA). rewrite <- A2. apply (v_nd _ _ VA).
    - apply (x_nd P h5 (fo B) _ K5 OB (v_nd _ _ VB)). }
  { left. reflexivity. }
  { intros y k Q. unfold L. cbn [fold_left]. rewrite !merge_in, (x_jmp_in P h5 t _ y W5 K5 OA HA), (x_out_in P h5 (fo B) _ y W5 K5 OB HB), (v_out _ _ VB).
    pose proof Q as Q'. cbn in Q, Q'. rewrite P4 in Q'. destruct Q' as [[Q' H]|[Q'|[-> ->]]].
    - left. right. rewrite <- A2, (v_out _ _ VA). split; [right; eauto|]. pose proof (v_jmp _ _ VA y k Q'). destruct k as [b|]; [eauto|congruence].
    - exfalso. exact (Bn y k Q').
    - right. split; [left; reflexivity|eauto]. }
  { right. reflexivity. } { reflexivity. } { right. exists (nx h2), false. cbn. rewrite P4. left. split; [exact A4|reflexivity]. }
  rewrite L8, L9, G10. exists w, h10, F. split; [reflexivity|]. split; [exact O10|]. split; [exact Fo|]. split; [exact SF|].
  split; [eapply suf_tran; [|exact Inc]; cbn; rewrite P1, A1; do 2 apply suf_cons; apply suf_refl|]. intros s s' R [(s1 & s2 & -> & Q1 & Q2)|(s1 & s2 & -> & (u & Q1 & Nu) & ->)].
  - destruct (Tst s s1 V_true R Q1) as [Ht _]. destruct (Ht eq_refl) as (y & Ry & Hy). destruct (HX s2 Q2) as [z Rz].
    assert (Jz : pJ P z None). { rewrite P4. right. right. destruct (v_R _ _ VB _ _ Rz) as [[->|[k Jk]] _]; [auto|exfalso; exact (Bn _ _ Jk)]. }
    apply (RF _ z None); [|exact Jz]. cbn. rewrite app_assoc. apply (ps_more _ (pa P) (s ++ s1) y (fa B) s2 z); cbn.
    + rewrite P5, P2. auto.
    + rewrite P6. split; [reflexivity|]. destruct Hy as [->|Hy]; [auto|]. right. exists (Some true). split; [exact Hy|reflexivity].
    + apply ps_one. cbn. rewrite P5. auto.
  - rewrite app_nil_r. destruct (Tst s s1 u R Q1) as [_ Hf]. destruct (Hf Nu) as (y & Ry & Hy).
    apply (RF _ y (Some false)); [|cbn; rewrite P4; left; split; [exact Hy|reflexivity]]. cbn. apply ps_one. cbn. rewrite P5, P2. auto.
Qed.
Lemma if_else_ok : forall h G T B C c (X Y : list nat -> Prop) rest, ok h (Fr C :: Fr B :: Fr T :: Fr G :: rest) -> seg G -> seg B -> seg C -> xspec false c T -> test_ok c = true ->
  (forall t, X t -> reach B t) -> (forall t, Y t -> reach C t) ->
  exists v h' F, after_if order h (Some (fo G)) (Some (fo T)) (Some (fo B)) (Some (fo C)) = Some (Some v, h') /\ ok h' (Fr F :: rest) /\ fo F = v /\ seg F
    /\ after_all G F (fun t => then_ (is_true c) X t \/ then_ (is_not c) Y t).
Proof using Hperm.
  intros h G T B C c X Y rest O SG (Bk & Bn & Bo) (Ck & Cn & Co) XT Tk HX HY. unfold after_if.
  destruct (if_test h G T c (Fr B :: Fr C :: rest)) as (h1 & t & h2 & h3 & A & L1 & G1 & L2 & O3 & A1 & A2 & A3 & A4 & Tst); [arrange O|exact SG|exact XT|exact Tk|].
  rewrite L1, G1, L2. destruct (ok_Fr _ _ _ O3) as [WA VA]. destruct (ok_Fr _ _ _ (ok_tail _ _ _ O3)) as [WB VB]. destruct (ok_Fr _ _ _ (ok_tail _ _ _ (ok_tail _ _ _ O3))) as [WC VC].
  destruct (fork3 order Hperm h3 A B C rest (nx h2) [] false O3 A3 A4 Bo Co) as (h4 & h5 & h6 & P & L3 & L4 & L5 & Bl & O5 & (P1 & P2 & P3 & P4 & P5 & P6 & P7 & P8 & P9 & P10)).
  rewrite A2 in *. rewrite L3, L4, L5. destruct (ok_Pt _ _ _ O5) as [W5 K5].
  assert (OA : pO P t (outs h3 t)) by (rewrite P7; auto). assert (OB : pO P (fo B) (outs h3 (fo B))) by (rewrite P7; auto). assert (OC : pO P (fo C) (outs h3 (fo C))) by (rewrite P7; auto).
  destruct (k_i _ _ _ _ _ _ (n_base _ _ K5) (fo G)) as [RG Im]; [rewrite P1, A1; right; apply SG|].
  set (ls := [x_jmp h6 t; x_out h6 (fo B); x_out h6 (fo C)]).
  destruct (group_over h6 P rest (fo G) ls O5 RG Im) as (p & OG & _).
  { intros l [<-|[<-|[<-|[]]]] x Ix; [apply (x_from P h6 t _ x K5 OA)|apply (x_from P h6 (fo B) _ x K5 OB)|apply (x_from P h6 (fo C) _ x K5 OC)]; auto. }
  change (new_grp (im (bl h6 (fo G))) h6) with (nx h6, snd (new_grp (im (bl h6 (fo G))) h6)). cbv iota beta zeta.
  set (vn := nx h6) in *. set (g := snd (new_grp (im (bl h6 (fo G))) h6)) in *.
  assert (E1 : x_jmp g t = x_jmp h6 t) by (apply (grown_x order Hperm P h6 (im (bl h6 (fo G))) [] t _ W5 K5 OA)).
  assert (E2 : x_out g (fo B) = x_out h6 (fo B)) by (apply (grown_x order Hperm P h6 (im (bl h6 (fo G))) [] (fo B) _ W5 K5 OB)).
  rewrite E1, E2. change (add_outs (add_outs g vn (x_jmp h6 t)) vn (x_out h6 (fo B))) with (grown h6 (im (bl h6 (fo G))) [x_jmp h6 t; x_out h6 (fo B)]).
  assert (E3 : x_out (grown h6 (im (bl h6 (fo G))) [x_jmp h6 t; x_out h6 (fo B)]) (fo C) = x_out h6 (fo C)) by apply (grown_x order Hperm P h6 (im (bl h6 (fo G))) _ (fo C) _ W5 K5 OC).
  rewrite E3. change (add_outs (grown h6 (im (bl h6 (fo G))) [x_jmp h6 t; x_out h6 (fo B)]) vn (x_out h6 (fo C))) with (grown h6 (im (bl h6 (fo G))) ls).
  set (h7 := grown h6 (im (bl h6 (fo G))) ls) in *. set (L := fold_left merge_set ls []) in *.
  apply ok_withS in OG. destruct (new_exit_ok K_IF h7 _ OG) as (m & h8 & -> & O8).
  assert (HB : forall x, In x (outs h3 (fo B)) -> (exists k, pJ P x k) \/ (exists b, pD P x b)).
  { intros x Ix. apply (v_out _ _ VB) in Ix. left. rewrite P4. destruct Ix as [->|[k Q]]; [exists None; auto|exists k; auto]. }
  assert (HC : forall x, In x (outs h3 (fo C)) -> (exists k, pJ P x k) \/ (exists b, pD P x b)).
  { intros x Ix. apply (v_out _ _ VC) in Ix. left. rewrite P4. destruct Ix as [->|[k Q]]; [exists None; auto|exists k; auto]. }
  destruct (close_grp h8 _ rest m K_IF vn L LF_FORCE_SEP (ok_swap _ _ _ _ O8)) with (ft := N.lor ET_JMP_T ET_JMP_F) as (h9 & h10 & w & h11 & F & L8 & L9 & G10 & O10 & Fo & SF & Inc & RF).
  { exact P3. } { left. split; reflexivity. }
  { unfold L, ls. cbn [fold_left]. apply merge_nd; [apply merge_nd; [apply merge_nd; [constructor|]|]|].
    - apply (x_nd P h6 t _ K5 OA). rewrite <- A2. apply (v_nd _ _ VA).
    - apply (x_nd P h6 (fo B) _ K5 OB (v_nd _ _ VB)).
    - apply (x_nd P h6 (fo C) _ K5 OC (v_nd _ _ VC)). }
  { left. reflexivity. }
  { intros y k Q. unfold L, ls. cbn [fold_left]. rewrite !merge_in, (x_out_in P h6 (fo B) _ y W5 K5 OB HB), (x_out_in P h6 (fo C) _ y W5 K5 OC HC), (v_out _ _ VB), (v_out _ _ VC).
    pose proof Q as Q'. cbn in Q, Q'. rewrite P4 in Q'. unfold exits. destruct Q' as [[Q'|[-> ->]]|[Q'|[-> ->]]]; eauto 7. }
  { right. reflexivity. } { reflexivity. } { left. reflexivity. }
  rewrite L8, L9, G10. exists w, h11, F. split; [reflexivity|]. split; [exact O10|]. split; [exact Fo|]. split; [exact SF|].
  split; [eapply suf_tran; [|exact Inc]; cbn; rewrite P1, A1; do 2 apply suf_cons; apply suf_refl|]. intros s s' R [(s1 & s2 & -> & Q1 & Q2)|(s1 & s2 & -> & (u & Q1 & Nu) & Q2)].
  - destruct (Tst s s1 V_true R Q1) as [Ht _]. destruct (Ht eq_refl) as (y & Ry & Hy). destruct (HX s2 Q2) as [z Rz].
    assert (Jz : exists k, pJ P z k) by (rewrite P4; destruct (v_R _ _ VB _ _ Rz) as [[->|[k Jk]] _]; [exists None; auto|exists k; auto]). destruct Jz as [k Jz].
    apply (RF _ z k); [|exact Jz]. cbn. rewrite app_assoc. apply (ps_more _ (pa P) (s ++ s1) y (fa B) s2 z); cbn; [rewrite P5, P2; auto|rewrite P6; auto|]. apply ps_one. cbn. rewrite P5. auto.
  - destruct (Tst s s1 u R Q1) as [_ Hf]. destruct (Hf Nu) as (y & Ry & Hy). destruct (HY s2 Q2) as [z Rz].
    assert (Jz : exists k, pJ P z k) by (rewrite P4; destruct (v_R _ _ VC _ _ Rz) as [[->|[k Jk]] _]; [exists None; auto|exists k; auto]). destruct Jz as [k Jz].
    apply (RF _ z k); [|exact Jz]. cbn. rewrite app_assoc. apply (ps_more _ (pa P) (s ++ s1) y (fa C) s2 z); cbn; [rewrite P5, P2; auto|rewrite P6; auto|]. apply ps_one. cbn. rewrite P5. auto.
Qed.
End Order.
