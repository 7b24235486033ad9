(** Proofs about building control flow graphs: all statements and whole programs. *)
From Coq Require Import Permutation ZifyBool ZifyNat.
From Verif Require Import Base GraphModel FlowModel FlowSpec FlowProofs FlowFrag FlowSteps FlowCat FlowGlue FlowPool FlowFork FlowExprs FlowBin FlowGo FlowStmt FlowLoop FlowJoin FlowFor FlowDo.

Lemma stmt_rec' (P : stmt -> Prop) :
  (forall e, P (Exp e)) -> P Empty -> (forall l, P (Var l)) -> (forall l, Forall P l -> P (Block l)) ->
  (forall c a b, P a -> (forall s, b = Some s -> P s) -> P (If c a b)) -> (forall c a, P a -> P (While c a)) -> (forall a c, P a -> P (Do a c)) ->
  (forall i c u a, P a -> P (For i c u a)) -> forall s, P s.
Proof.
  intros H1 H2 H3 H4 H5 H6 H7 H8. fix IH 1. intros [e| |l|l|c a b|c a|a c|i c u a].
  - apply H1.
  - apply H2.
  - apply H3.
  - apply H4. revert l. fix IHl 1. intros [|x l]; constructor; [apply IH|apply IHl].
  - apply H5; [apply IH|]. intros s E. destruct b as [b|]; [|discriminate]. injection E as <-. apply IH.
  - apply H6; apply IH.
  - apply H7; apply IH.
  - apply H8; apply IH.
Qed.

Section Order.
Variable order : heap -> list nat -> list nat.
Hypothesis Hperm : forall h l, Permutation (order h l) l.

Definition sbuilds (s : stmt) : Prop := forall fork w st rest (Q : list nat -> Prop) L, good_stmt s = true -> (fork = true -> is_empty s = false) -> pre fork w st rest Q L ->
  exists w' F, go_stmt order fork s w = Some w' /\ done w w' st rest F /\ suf L (fI F) /\ forall t t', Q t -> exec s t' -> reach F (t ++ t').
Lemma stmts_ok : forall l, Forall sbuilds l -> forall w A st rest, forallb good_stmt l = true -> w_st w = fo A :: st -> ok (w_h w) (Fr A :: rest) -> seg A ->
  exists w' F, go_stmts order l w = Some w' /\ done w w' st rest F /\ after_all A F (all_of exec l).
Proof.
  intros l Fl. induction Fl as [|s l Hs Fl IH]; intros w A st rest G Es O SA.
  - exists w, A. split; [reflexivity|]. split; [split; auto|]. split; [apply suf_refl|]. intros t t' R ->. rewrite app_nil_r. exact R.
  - cbn in G. apply andb_true_iff in G as [Gs Gl].
    destruct (Hs false w st rest (reach A) (fI A) Gs) as (w1 & F1 & E1 & (X1 & S1 & O1 & SF1) & In1 & R1); [discriminate|exists A; auto|].
    destruct (IH w1 F1 st rest Gl S1 O1 SF1) as (w2 & F2 & E2 & (X2 & S2 & O2 & SF2) & In2 & R2).
    exists w2, F2. cbn [go_stmts]. rewrite E1. split; [exact E2|]. split; [split; [congruence|auto]|]. split; [eapply suf_tran; eauto|].
    intros t t' R (t1 & t2 & -> & Q1 & Q2). rewrite app_assoc. apply R2; [apply R1; assumption|exact Q2].
Qed.
(** A body starts with nothing before it. *)
Lemma body_ok : forall s w rest, sbuilds s -> good_stmt s = true -> is_empty s = false -> ok (w_h w) rest ->
  exists w' B, go_stmt order true s w = Some w' /\ done w w' (w_st w) rest B /\ fo B <> fx B /\ forall t, exec s t -> reach B t.
Proof.
  intros s w rest H G E O. destruct (H true w (w_st w) rest none [] G) as (w' & B & E1 & D & _ & R); [auto|cbn; auto|].
  exists w', B. split; [exact E1|]. split; [exact D|]. split.
  { destruct D as (_ & S1 & O1 & _). destruct (ok_Fr _ _ _ O1) as [_ V]. destruct (stmt_grouped order s true w E w' E1) as (v & st & S2 & Bk). rewrite S1 in S2. injection S2 as <- <-.
    intros Eq. apply (k_gx _ _ _ _ _ _ (v_end _ _ V)). rewrite <- Eq. exact Bk. }
  intros t Q. apply (R [] t); [reflexivity|exact Q].
Qed.
Lemma go_opt_ok : forall e w rest, match e with Some e => good e && plain e | None => true end = true -> ok (w_h w) rest ->
  exists w' U, go_opt order e w = Some w' /\ w_st w' = w_st w /\ pop_opt e (w_xs w') = (option_map fo U, w_xs w) /\ ok (w_h w') (opt_thing U ++ rest)
    /\ (forall F, U = Some F -> seg F) /\ forall t, (match e with Some e => evals e | None => none end) t -> opt_reach U t.
Proof using Hperm.
  intros [e|] w rest G O.
  - apply andb_true_iff in G as [G P]. destruct (go_expr_ok order Hperm e false w _ G O) as (w' & T & E & S & X & O' & [xb xk xo xc xn]).
    exists w', (Some T). split; [exact E|]. split; [exact S|]. split; [cbn; rewrite X; reflexivity|]. split; [exact O'|]. split.
    + intros F Q. injection Q as <-. split; [exact xk|]. split; [apply xn; auto|exact xo].
    + intros t [v Q]. destruct (xc t v Q) as (y & R & _). exists y. exact R.
  - exists w, None. split; [reflexivity|]. split; [reflexivity|]. split; [reflexivity|]. split; [exact O|]. split; [discriminate|]. intros t Q. exact Q.
Qed.
Lemma go_stmt_ok : forall s, sbuilds s.
Proof using Hperm.
  induction s as [e| |l|l IHl|c a b IHa IHb|c a IHa|a c IHa|i c u a IHa] using stmt_rec'; intros fork w st rest Q L Gd Em Pr.
  - destruct (enter_stmt_ok order Hperm K_EXPR_STMT fork w st rest Q L Pr) as (w1 & G & E1 & (X1 & S1 & O1 & SG) & In1 & R1).
    destruct (go_expr_ok order Hperm e true w1 _ Gd O1) as (w2 & X & E2 & S2 & X2 & O2 & Sp).
    cbn [go_stmt]. rewrite E1, E2, X2, S2, S1. cbn [pop].
    destruct (exp_ok order Hperm _ G X e rest O2 SG Sp) as (v & h' & F & E3 & O3 & Fo & SF & (In2 & R2)). rewrite E3. cbn. eexists _, F. split; [reflexivity|].
    split; [split; [cbn; congruence|]; split; [cbn; congruence|]; split; assumption|]. split; [eapply suf_tran; eauto|]. intros t t' Qt Ex. apply R2; auto.
  - destruct fork; [discriminate (Em eq_refl)|]. destruct Pr as (A & Es & O & SA & -> & ->). exists w, A. split; [reflexivity|]. split; [split; auto|]. split; [apply suf_refl|].
    intros t t' R ->. rewrite app_nil_r. exact R.
  - destruct (enter_stmt_ok order Hperm K_VAR fork w st rest Q L Pr) as (w1 & G & E1 & (X1 & S1 & O1 & SG) & In1 & R1).
    destruct (decs_ok order Hperm l w1 G st rest Gd S1 O1 SG) as (w2 & F2 & E2 & (X2 & S2 & O2 & SF2) & In2 & R2).
    destruct (leave_stmt_ok order Hperm K_VAR w2 F2 st rest S2 O2 SF2) as (w3 & F3 & E3 & (X3 & S3 & O3 & SF3) & In3 & R3).
    cbn [go_stmt]. rewrite E1, E2, E3. exists w3, F3. split; [reflexivity|]. split; [split; [congruence|auto]|]. split; [eapply suf_tran; [exact In1|eapply suf_tran; eauto]|].
    intros t t' Qt Ex. apply R3, R2; auto.
  - destruct (enter_stmt_ok order Hperm K_BLOCK fork w st rest Q L Pr) as (w1 & G & E1 & (X1 & S1 & O1 & SG) & In1 & R1).
    destruct (stmts_ok l IHl w1 G st rest Gd S1 O1 SG) as (w2 & F2 & E2 & (X2 & S2 & O2 & SF2) & In2 & R2).
    destruct (leave_stmt_ok order Hperm K_BLOCK w2 F2 st rest S2 O2 SF2) as (w3 & F3 & E3 & (X3 & S3 & O3 & SF3) & In3 & R3).
    change (go_stmt order fork (Block l) w) with (do w <- enter_stmt order K_BLOCK fork w; do w <- go_stmts order l w; leave_stmt order K_BLOCK w).
    rewrite E1, E2, E3. exists w3, F3. split; [reflexivity|]. split; [split; [congruence|auto]|]. split; [eapply suf_tran; [exact In1|eapply suf_tran; eauto]|].
    intros t t' Qt Ex. apply R3, R2; auto.
  - cbn [good_stmt] in Gd. repeat rewrite andb_true_iff in Gd. destruct Gd as [[[[Gc Tk] Ga] Ea] Gb]. apply negb_true_iff in Ea.
    destruct (enter_stmt_ok order Hperm K_IF fork w st rest Q L Pr) as (w1 & G & E1 & (X1 & S1 & O1 & SG) & In1 & R1).
    destruct (go_expr_ok order Hperm c false w1 _ Gc O1) as (w2 & T & E2 & S2 & X2 & O2 & Sp).
    destruct (body_ok a w2 _ IHa Ga Ea O2) as (w3 & B & E3 & (X3 & S3 & O3 & SB) & _ & R3).
    cbn [go_stmt]. rewrite E1, E2, E3. destruct b as [b|].
    + apply andb_true_iff in Gb as [Gb Eb]. apply negb_true_iff in Eb.
      destruct (body_ok b w3 _ (IHb b eq_refl) Gb Eb O3) as (w4 & C & E4 & (X4 & S4 & O4 & SC) & _ & R4).
      rewrite E4, S4, S3, S2, S1, X4, X3, X2. cbn [pop].
      destruct (if_else_ok order Hperm _ G T B C c (exec a) (exec b) rest O4 SG SB SC Sp Tk R3 R4) as (v & h' & F & E5 & O5 & Fo & SF & (In5 & R5)). rewrite E5. cbn. eexists _, F. split; [reflexivity|].
      split; [split; [cbn; congruence|]; split; [cbn; congruence|]; split; assumption|]. split; [eapply suf_tran; eauto|]. intros t t' Qt Ex. apply R5; auto.
    + rewrite S3, S2, S1, X3, X2. cbn [pop].
      destruct (if_ok order Hperm _ G T B c (exec a) rest O3 SG SB Sp Tk R3) as (v & h' & F & E5 & O5 & Fo & SF & (In5 & R5)). rewrite E5. cbn. eexists _, F. split; [reflexivity|].
      split; [split; [cbn; congruence|]; split; [cbn; congruence|]; split; assumption|]. split; [eapply suf_tran; eauto|]. intros t t' Qt Ex. apply R5; auto.
  - cbn [good_stmt] in Gd. repeat rewrite andb_true_iff in Gd. destruct Gd as [[[[Gc Tk] Li] Ga] Ea]. apply negb_true_iff in Ea, Li.
    destruct (enter_stmt_ok order Hperm K_WHILE fork w st rest Q L Pr) as (w1 & G & E1 & (X1 & S1 & O1 & SG) & In1 & R1).
    destruct (go_expr_ok order Hperm c false w1 _ Gc O1) as (w2 & T & E2 & S2 & X2 & O2 & Sp).
    destruct (body_ok a w2 _ IHa Ga Ea O2) as (w3 & B & E3 & (X3 & S3 & O3 & SB) & _ & R3).
    cbn [go_stmt]. rewrite E1, E2, E3, S3, S2, S1, X3, X2. cbn [pop]. rewrite Li.
    destruct (while_ok order Hperm _ G T B c (exec a) rest O3 SG SB Sp Tk R3) as (v & h' & F & E5 & O5 & Fo & SF & (In5 & R5)). rewrite E5. cbn. eexists _, F. split; [reflexivity|].
    split; [split; [cbn; congruence|]; split; [cbn; congruence|]; split; assumption|]. split; [eapply suf_tran; eauto|]. intros t t' Qt Ex. apply R5; auto.
  - cbn [good_stmt] in Gd. repeat rewrite andb_true_iff in Gd. destruct Gd as [[[[Gc Tk] Li] Ga] Ea]. apply negb_true_iff in Ea, Li.
    destruct (enter_stmt_ok order Hperm K_DO fork w st rest Q L Pr) as (w1 & G & E1 & (X1 & S1 & O1 & SG) & In1 & R1).
    destruct (body_ok a w1 _ IHa Ga Ea O1) as (w2 & B & E2 & (X2 & S2 & O2 & SB) & Nox & R2).
    destruct (go_expr_ok order Hperm c false w2 _ Gc O2) as (w3 & T & E3 & S3 & X3 & O3 & Sp).
    cbn [go_stmt]. rewrite E1, E2, E3, S3, S2, S1, X3, X2. cbn [pop]. rewrite Li.
    destruct (do_ok order Hperm _ G T B c (exec a) rest O3 SG SB Nox Sp Tk R2) as (v & h' & F & E5 & O5 & Fo & SF & (In5 & R5)). rewrite E5. cbn. eexists _, F. split; [reflexivity|].
    split; [split; [cbn; congruence|]; split; [cbn; congruence|]; split; assumption|]. split; [eapply suf_tran; eauto|]. intros t t' Qt Ex. apply R5; auto.
  - cbn [good_stmt] in Gd. repeat rewrite andb_true_iff in Gd. destruct Gd as [[[[Gi Gc] Gu] Ga] Ea]. apply negb_true_iff in Ea.
    destruct c as [c|]; [|discriminate]. repeat rewrite andb_true_iff in Gc. destruct Gc as [[Gc Pc] Li]. apply negb_true_iff in Li.
    destruct (enter_stmt_ok order Hperm K_FOR fork w st rest Q L Pr) as (w1 & G & E1 & (X1 & S1 & O1 & SG) & In1 & R1).
    destruct (go_opt_ok i w1 _ Gi O1) as (w2 & I & E2 & S2 & X2 & O2 & SI & RI).
    destruct (go_expr_ok order Hperm c false w2 _ Gc O2) as (w3 & T & E3 & S3 & X3 & O3 & Sp).
    destruct (go_opt_ok u w3 _ Gu O3) as (w4 & U & E4 & S4 & X4 & O4 & SU & RU).
    destruct (body_ok a w4 _ IHa Ga Ea O4) as (w5 & B & E5 & (X5 & S5 & O5 & SB) & Nox & R5).
    cbn [go_stmt go_opt]. rewrite E1. cbn [go_opt] in *. rewrite E2, E3, E4, E5, S5, S4, S3, S2, S1, X5. cbn [pop]. rewrite X4, X3. cbn [pop_opt pop]. rewrite X2, Li.
    destruct (for_ok order Hperm _ G T B I U c (exec a) (match i with Some i => evals i | None => none end) (match u with Some u => evals u | None => none end) rest O5 SG SB Nox Sp Pc SI SU R5 RI RU) as (v & h' & F & E6 & O6 & Fo & SF & (In6 & R6)).
    rewrite E6. cbn. eexists _, F. split; [reflexivity|].
    split; [split; [cbn; congruence|]; split; [cbn; congruence|]; split; assumption|]. split; [eapply suf_tran; eauto|]. intros t t' Qt Ex. apply R6; auto.
Qed.


(** ** Programs *)
(** The end of the program. *)
Lemma last_ok : forall h A n, ok h (Fr A :: Fr (blkF n BK_BASIC [IExit K_PROG]) :: []) -> items (bl h n) = [IExit K_PROG] -> seg A ->
  exists h1 h2 v h3 F, link_jmp order h (Some (fo A)) (Some n) = Some h1 /\ link_seq order h1 (Some (fo A)) (Some n) = Some h2
    /\ grp h2 (Some (fo A)) (Some n) = Some (Some v, h3) /\ ok h3 (Fr F :: []) /\ suf (fI A) (fI F) /\ final h3 (4 + n) /\ forall t, reach A t -> fR F t (4 + n).
Proof using Hperm.
  intros h A n O In (Ak & An & Ao). destruct (ok_Fr _ _ _ O) as [WA VA]. destruct (ok_Fr _ _ _ (ok_tail _ _ _ O)) as [WX VX]. set (X := blkF n BK_BASIC [IExit K_PROG]) in *.
  pose proof (ok_disj _ _ _ _ O) as D. destruct (fr_ne _ _ _ _ O) as [No _].
  pose proof (v_base _ _ VA) as BA. pose proof (v_base _ _ VX) as BX. pose proof (v_end _ _ VA) as EA. pose proof (v_end _ _ VX) as EX. rewrite Ak in EA.
  assert (W : wf h (union (fP A) (fP X))) by (apply wf_union; auto).
  assert (Ei : entry h n (fa X)) by (eapply base_entry; [exact BX|left; reflexivity]).
  assert (L1 : link_jmp order h (Some (fo A)) (Some n) = Some h).
  { apply (link_none order Hperm (union (fP A) (fP X)) h (fo A) n (fa X)); [exact W|left; apply (v_o _ _ VA)|exact Ei|apply nj_jmp|].
    intros x Ix. apply (v_out _ _ VA) in Ix as [->|[k Q]]; [|destruct (An _ _ Q)]. rewrite (k_e _ _ _ _ _ _ EA). reflexivity. }
  assert (Uo : unwrap_out order h (fo A) = Some (fx A)) by (unfold unwrap_out; rewrite (valid_seq_out order Hperm A h VA), (k_e _ _ _ _ _ _ EA); reflexivity).
  destruct (join_ok order h (union (fP A) (fP X)) (fo A) n (fx A) (fa X) W) as (h' & Ej & Jn); [left; apply (k_x _ _ _ _ _ _ EA)|apply entry_unwrap; assumption|exact Uo|].
  destruct (seq_into order Hperm h A X [] n 0 EK_SEQ 0 LF_NONE O An Ak (or_introl eq_refl) eq_refl) as (h2 & F1 & L2 & O2 & (I1 & I2 & I3 & I4 & I5 & I6) & _).
  assert (E2 : h2 = h').
  { assert (Z : link order h (Some (fo A)) EK_SEQ 0 EK_SEQ 0 (Some n) LF_NONE = Some h'); [|congruence].
    unfold link. cbv zeta. rewrite (valid_only_out order Hperm A h VA An Ak), (lone_only_in _ _ _ _ _ _ BX (or_introl eq_refl)). exact Ej. }
  subst h'. destruct (grp_ok h2 F1 [] (fo A) O2) as (v & h3 & F & G & O3 & (J1 & J2 & J3 & J4 & J5 & J6) & Gv & _); [rewrite I1; exact Ao|rewrite I2; congruence|].
  rewrite I2 in G. exists h, h2, v, h3, F. split; [exact L1|]. split; [exact L2|]. split; [exact G|]. split; [exact O3|]. split; [rewrite J1, I1; apply suf_cons, suf_refl|].
  assert (Ox : outs h n = [4 + n]) by (pose proof (k_xo _ _ _ _ _ _ EX) as Q; exact Q).
  split.
  - destruct (ok_Fr _ _ _ O2) as [W2 V2].
    destruct (grp_spec (fP F1) h2 (fo A) n W2) as (v' & m & h3' & G' & _ & Gr).
    { apply (k_i _ _ _ _ _ _ (v_base _ _ V2)). rewrite I1. exact Ao. } { replace n with (fo F1) by exact I2. apply (v_o _ _ V2). } { intro Z. apply No. symmetry. exact Z. }
    change (fo X) with n in G. rewrite G in G'. injection G' as <- <-.
    assert (Ed : ed h3 (4 + n) = mk_edge EK_SEQ 0 (Some (fx A)) None).
    { rewrite (gr_ed _ _ _ _ _ _ _ Gr), (j_ed _ _ _ _ Jn). change (fa X) with n. rewrite Ox. cbn -[Nat.add]. rewrite Nat.eqb_refl. cbn -[Nat.add]. pose proof (k_e _ _ _ _ _ _ EX) as Q. cbn -[Nat.add] in Q. rewrite Q. reflexivity. }
    split; [rewrite Ed; reflexivity|]. exists (fx A), (items (bl h (fx A))). split; [rewrite Ed; reflexivity|].
    assert (Nv : fx A <> v).
    { intros E. apply Gv. unfold ng. rewrite <- E. destruct (gr_fv _ _ _ _ _ _ _ Gr) as [Q|(_ & Q & _)].
      - exfalso. pose proof (w_b _ _ WA _ (k_x _ _ _ _ _ _ EA)). rewrite (j_nx _ _ _ _ Jn) in Q. lia.
      - exfalso. apply Q. unfold ng. rewrite <- E, (joined_bk _ _ _ _ _ Jn). apply (k_gx _ _ _ _ _ _ EA). }
    rewrite (gr_bl _ _ _ _ _ _ _ Gr _ Nv), (j_bl _ _ _ _ Jn), Nat.eqb_refl. cbn [items]. change (fa X) with n. rewrite In. reflexivity.
  - intros t [y R]. rewrite J6, I6. exists t, [], y. rewrite app_nil_r. split; [reflexivity|]. split; [exact R|]. split; reflexivity.
Qed.
Lemma analyze_ok : forall l, forallb good_stmt l = true ->
  exists w, analyze order l = Some w /\ forall t, runs l t -> exists x, final (w_h w) x /\ path (w_h w) 0 t x.
Proof using Hperm.
  intros l Gd. set (A := blkF 0 BK_START []).
  assert (O0 : ok (w_h start) (Fr A :: [])) by (apply (new_blk_ok BK_START [] empty_heap []); [discriminate|split; [intros t []|exact I]]).
  assert (P0 : pre false start [] [] (reach A) (fI A)) by (exists A; split; [reflexivity|]; split; [exact O0|]; split; [apply seg_blk|auto]).
  destruct (enter_stmt_ok order Hperm K_PROG false start [] [] (reach A) (fI A) P0) as (w1 & G & E1 & (X1 & S1 & O1 & SG) & In1 & R1).
  destruct (stmts_ok l (proj2 (Forall_forall sbuilds l) (fun s _ => go_stmt_ok s)) w1 G [] [] Gd S1 O1 SG) as (w2 & F2 & E2 & (X2 & S2 & O2 & SF2) & In2 & R2).
  unfold analyze. rewrite E1, E2, S2. cbn [pop].
  destruct (new_exit_ok K_PROG (w_h w2) _ O2) as (n & h & En & O3).
  assert (It : items (bl h n) = [IExit K_PROG]). { unfold new_exit, new_blk in En. injection En as <- <-. cbn -[Nat.add]. rewrite upd_same. reflexivity. }
  rewrite En. destruct (last_ok h F2 n (ok_swap _ _ _ _ O3) It SF2) as (h1 & h2 & v & h3 & F & L1 & L2 & L3 & O4 & In3 & Fin & R3).
  rewrite L1, L2, L3. cbn. eexists. split; [reflexivity|]. cbn. intros t Q. exists (4 + n). split; [exact Fin|].
  destruct (ok_Fr _ _ _ O4) as [W4 V4]. 
  assert (R : fR F t (4 + n)). { apply R3. apply (R2 [] t); [|exact Q]. apply R1. exists 4. split; reflexivity. }
  assert (Z : suf [0] (fI F)) by (eapply suf_tran; [exact In1|eapply suf_tran; [exact In2|exact In3]]).
  assert (B0 : 0 = fa F).
  { destruct Z as [l1 Z1]. destruct (k_u _ _ _ _ _ _ (v_base _ _ V4)) as [l2 Z2]. rewrite Z1 in Z2. apply app_inj_tail in Z2 as [_ Z2]. exact Z2. }
  assert (Y : path h3 (fa F) t (4 + n)) by (apply (path_of_path0 (fP F)); [exact W4|apply (k_a _ _ _ _ _ _ (v_base _ _ V4))|apply (v_R _ _ V4 t _ R)]).
  rewrite <- B0 in Y. exact Y.
Qed.
End Order.
