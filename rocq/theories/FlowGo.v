(** Proofs about building control flow graphs: all expressions. *)
From Coq Require Import Permutation ZifyBool ZifyNat.
From Verif Require Import Base GraphModel FlowModel FlowSpec FlowProofs FlowFrag FlowSteps FlowCat FlowGlue FlowPool FlowFork FlowExprs FlowBin.

Lemma expr_rec' (P : expr -> Prop) :
  (forall b n, P (Leaf b n)) -> P Hole -> (forall op l r, P l -> P r -> P (Bin op l r)) -> (forall k x, P x -> P (One k x)) ->
  (forall c a b, P c -> P a -> P b -> P (Cond c a b)) -> (forall l r, P l -> P r -> P (Assign l r)) -> (forall l, Forall P l -> P (Elems l)) ->
  (forall f l, P f -> Forall P l -> P (Call f l)) -> (forall f l, P f -> Forall P l -> P (New f l)) -> (forall o p, P o -> P p -> P (Member o p)) -> forall e, P e.
Proof.
  intros H1 H2 H3 H4 H5 H6 H7 H8 H9 H10. fix IH 1. intros [b n| |op l r|k x|c a b|l r|l|f l|f l|o p].
  - apply H1.
  - apply H2.
  - apply H3; apply IH.
  - apply H4; apply IH.
  - apply H5; apply IH.
  - apply H6; apply IH.
  - apply H7. revert l. fix IHl 1. intros [|x l]; constructor; [apply IH|apply IHl].
  - apply H8; [apply IH|]. revert l. fix IHl 1. intros [|x l]; constructor; [apply IH|apply IHl].
  - apply H9; [apply IH|]. revert l. fix IHl 1. intros [|x l]; constructor; [apply IH|apply IHl].
  - apply H10; apply IH.
Qed.
Lemma Forall2_rev' : forall (A B : Type) (R : A -> B -> Prop) l l', Forall2 R l l' -> Forall2 R (rev l) (rev l').
Proof. intros A B R l l' F. induction F; [constructor|]. cbn. apply Forall2_app; [assumption|]. constructor; [assumption|constructor]. Qed.
Lemma Forall2_len : forall (A B : Type) (R : A -> B -> Prop) l l', Forall2 R l l' -> List.length l = List.length l'.
Proof. intros A B R l l' F. induction F; cbn; congruence. Qed.
Lemma all_of_list : forall (A : Type) (f : A -> list nat -> Prop) l t, all_of f l t -> exists ts, t = concat ts /\ Forall2 f l ts.
Proof.
  induction l as [|x l IH]; intros t Q; [exists []; split; [exact Q|constructor]|]. destruct Q as (t1 & t2 & -> & Q1 & Q2).
  destruct (IH t2 Q2) as (ts & -> & F). exists (t1 :: ts). split; [reflexivity|]. constructor; assumption.
Qed.
Lemma evals_reach : forall es l fs ts, Forall2 (xspec es) l fs -> Forall2 (fun x t => exists v, eval x t v) l ts -> Forall2 reach fs ts.
Proof.
  intros es l fs ts F. revert ts. induction F as [|x f l fs Hx F IH]; intros ts Ft; inversion Ft as [|? t0 ? ts' [v Q] Ft' E1 E2]; subst; constructor; [|auto].
  destruct (x_cov _ _ _ Hx t0 v Q) as (y & R & _). exists y. exact R.
Qed.
Lemma chain_all : forall es l fs, Forall2 (xspec es) l fs -> Forall chainable fs.
Proof. intros es l fs F. induction F as [|x g l gs Hx F IH]; constructor; [|exact IH]. split; [apply Hx|]. split; apply Hx. Qed.
Lemma good_plain : forall e, plain e = true -> no_hole e = true.
Proof. intros e P. apply andb_true_iff in P. tauto. Qed.
Lemma operand_no_hole : forall op b e, operand_ok op b e = true -> no_hole e = true.
Proof. intros op b e Q. apply orb_true_iff in Q as [Q|Q]; [apply good_plain, Q|]. destruct e; try reflexivity. destruct op, b; discriminate Q. Qed.

Section Order.
Variable order : heap -> list nat -> list nat.
Hypothesis Hperm : forall h l, Permutation (order h l) l.

Definition builds (e : expr) : Prop := forall es w rest, good e = true -> ok (w_h w) rest ->
  exists w' F, go_expr order es e w = Some w' /\ w_st w' = w_st w /\ w_xs w' = fo F :: w_xs w /\ ok (w_h w') (Fr F :: rest) /\ xspec es e F.
Lemma push_enter_ok : forall k w rest, ok (w_h w) rest ->
  exists n, w_xs (push_enter k w) = n :: w_xs w /\ w_st (push_enter k w) = w_st w /\ ok (w_h (push_enter k w)) (Fr (enterF n k) :: rest).
Proof.
  intros k w rest O. destruct (new_blk_ok BK_BASIC [IEnter k] (w_h w) rest) as [E O']; [discriminate|exact O|].
  exists (nx (w_h w)). unfold push_enter, new_enter in *. destruct (new_blk _ _ (w_h w)) as [b g]. cbn in *. subst b. auto.
Qed.
Lemma list_ok : forall l, Forall builds l -> forall w rest, forallb good l = true -> ok (w_h w) rest ->
  exists w' fs, go_exprs order l w = Some w' /\ w_st w' = w_st w /\ w_xs w' = map fo fs ++ w_xs w /\ ok (w_h w') (map Fr fs ++ rest) /\ Forall2 (xspec false) (rev l) fs.
Proof.
  induction l as [|e l IH]; intros Fl w rest G O.
  - exists w, []. repeat (split; [first [reflexivity|exact O]|]). constructor.
  - inversion Fl as [|? ? He Hl]; subst. cbn in G. apply andb_true_iff in G as [Ge Gl].
    destruct (He false w rest Ge O) as (w1 & F & E1 & S1 & X1 & O1 & Sp).
    destruct (IH Hl w1 (Fr F :: rest) Gl O1) as (w2 & fs & E2 & S2 & X2 & O2 & Sps).
    exists w2, (fs ++ [F]). cbn. rewrite E1. split; [exact E2|]. split; [congruence|]. rewrite !map_app, <- !app_assoc. cbn. split; [congruence|]. split; [exact O2|].
    apply Forall2_app; [exact Sps|]. constructor; [exact Sp|constructor].
Qed.
Lemma args_ok : forall l fs h rest xs, ok h (map Fr fs ++ rest) -> Forall2 (xspec false) (rev l) fs ->
  exists hd tl o h', pop_link order (List.length l) h (map fo fs ++ xs) = Some (hd, tl, h', xs) /\ ok h' (with_chain o rest) /\ chain hd tl o
    /\ forall t, all_of (fun x t => exists v, eval x t v) l t -> reaches o t.
Proof using Hperm.
  intros l fs h rest xs O F.
  assert (Ln : List.length l = List.length fs) by (rewrite <- rev_length; eapply Forall2_len; exact F).
  destruct fs as [|f fs].
  - destruct l as [|x l]; [|discriminate]. exists None, None, None, h. split; [reflexivity|]. split; [exact O|]. split; [split; reflexivity|]. intros t Q. exact Q.
  - assert (Ch : Forall chainable (f :: fs)).
    { eapply chain_all; exact F. }
    destruct (pop_link_ok order Hperm f fs h rest xs O Ch) as (h' & G & hd & E & O' & Hh & Ho & Hk & Hb & HR).
    exists (Some hd), (Some (fo f)), (Some G), h'. rewrite Ln. split; [exact E|]. split; [exact O'|]. split; [exists hd; rewrite Ho; auto|].
    intros t Q. destruct (all_of_list _ _ _ _ Q) as (ts & -> & Ft). cbn. rewrite <- (rev_involutive ts). apply HR. eapply evals_reach; [exact F|]. apply Forall2_rev', Ft.
Qed.
Lemma good_all : forall l, forallb legal l = true -> forallb fine l = true -> forallb no_hole l = true -> forallb good l = true.
Proof. induction l as [|x l IH]; [reflexivity|]. cbn. intros A B C. apply andb_true_iff in A as [A1 A2], B as [B1 B2], C as [C1 C2]. unfold good at 1. rewrite A1, B1, C1. cbn. auto. Qed.
Lemma good_of : forall e, legal e = true -> fine e = true -> no_hole e = true -> good e = true.
Proof. intros e A B C. unfold good. rewrite A, B, C. reflexivity. Qed.

Theorem go_expr_ok : forall e, builds e.
Proof using Hperm.
  induction e as [b n| |op l r IHl IHr|k x IHx|c a b IHc IHa IHb|l r IHl IHr|l IHl|f l IHf IHl|f l IHf IHl|o p IHo IHp] using expr_rec'; intros es w rest G O;
    unfold good in G; apply andb_true_iff in G as [G Nh]; apply andb_true_iff in G as [Lg Fn]; cbn [legal fine] in Lg, Fn; repeat rewrite andb_true_iff in Lg; repeat rewrite andb_true_iff in Fn.
  - destruct (new_blk_ok BK_BASIC [ILeaf n] (w_h w) rest) as [E O']; [discriminate|exact O|]. cbn [go_expr]. destruct (new_blk BK_BASIC [ILeaf n] (w_h w)) as [m g]. cbn in E, O'. subst m.
    eexists _, (blkF (nx (w_h w)) BK_BASIC [ILeaf n]). split; [reflexivity|]. cbn [w_st w_xs w_h]. split; [reflexivity|]. split; [reflexivity|]. split; [exact O'|].
    apply xspec_plain; [reflexivity|reflexivity|left; reflexivity|apply noJ_blk|]. intros t v ->. exists (4 + nx (w_h w)). split; reflexivity.
  - discriminate.
  - destruct Lg as [[[Ll Lr] Ol] Or], Fn as [Fl Fr']. destruct (push_enter_ok K_BIN w rest O) as (n & X0 & S0 & O0).
    destruct (IHl false _ _ (good_of _ Ll Fl (operand_no_hole _ _ _ Ol)) O0) as (w1 & L & E1 & S1 & X1 & O1 & XL).
    destruct (IHr false _ _ (good_of _ Lr Fr' (operand_no_hole _ _ _ Or)) O1) as (w2 & R & E2 & S2 & X2 & O2 & XR).
    cbn [go_expr]. rewrite E1, E2, X2, X1, X0. cbn [pop].
    assert (H : exists v h' F, after_bin order op es (w_h w2) (Some n) (Some (fo L)) (Some (fo R)) = Some (Some v, h') /\ ok h' (Fr F :: rest) /\ fo F = v /\ xspec es (Bin op l r) F).
    { destruct (logical op) eqn:Lo; [apply (bin_ok order Hperm); assumption|]. destruct op; try discriminate. unfold operand_ok in Ol, Or.
      apply (other_ok order Hperm); try assumption; [destruct (plain l); [reflexivity|discriminate Ol]|destruct (plain r); [reflexivity|discriminate Or]]. }
    destruct H as (v & h' & F & E & O' & Fo & Sp). rewrite E. cbn. eexists _, F. split; [reflexivity|]. cbn. split; [congruence|]. split; [congruence|]. split; assumption.
  - destruct k.
    + apply andb_true_iff in Lg as [Lx Px]. destruct (push_enter_ok K_UNARY w rest O) as (n & X0 & S0 & O0).
      destruct (IHx false _ _ (good_of _ Lx Fn (good_plain _ Px)) O0) as (w1 & L & E1 & S1 & X1 & O1 & XL).
      cbn [go_expr after_one]. rewrite E1, X1, X0. cbn [pop].
      destruct (unary_ok order Hperm _ _ _ _ es L x O1 XL Px) as (v & h' & F & E & O' & Fo & Sp). rewrite E. cbn. eexists _, F. split; [reflexivity|]. cbn. split; [congruence|]. split; [congruence|]. split; assumption.
    + apply andb_true_iff in Lg as [Lx Px]. destruct (push_enter_ok K_PAREN w rest O) as (n & X0 & S0 & O0).
      destruct (IHx false _ _ (good_of _ Lx Fn Px) O0) as (w1 & L & E1 & S1 & X1 & O1 & XL).
      cbn [go_expr after_one]. rewrite E1, X1, X0. cbn [pop].
      destruct (paren_ok order Hperm _ _ _ _ es L x O1 XL) as (v & h' & F & E & O' & Fo & Sp). rewrite E. cbn. eexists _, F. split; [reflexivity|]. cbn. split; [congruence|]. split; [congruence|]. split; assumption.
    + apply andb_true_iff in Lg as [Lx Px]. destruct (push_enter_ok K_SPREAD w rest O) as (n & X0 & S0 & O0).
      destruct (IHx false _ _ (good_of _ Lx Fn Px) O0) as (w1 & L & E1 & S1 & X1 & O1 & XL).
      cbn [go_expr after_one]. rewrite E1, X1, X0. cbn [pop].
      destruct (spread_ok order Hperm _ _ _ _ es L x O1 XL) as (v & h' & F & E & O' & Fo & Sp). rewrite E. cbn. eexists _, F. split; [reflexivity|]. cbn. split; [congruence|]. split; [congruence|]. split; assumption.
  - destruct Lg as [[[[[L1 L2] L3] N1] N2] N3], Fn as [[[F1 F2] F3] Tk]. destruct (push_enter_ok K_COND w rest O) as (n & X0 & S0 & O0).
    destruct (IHc false _ _ (good_of _ L1 F1 N1) O0) as (w1 & T & E1 & S1 & X1 & O1 & XT).
    destruct (IHa false _ _ (good_of _ L2 F2 N2) O1) as (w2 & B & E2 & S2 & X2 & O2 & XB).
    destruct (IHb false _ _ (good_of _ L3 F3 N3) O2) as (w3 & C & E3 & S3 & X3 & O3 & XC).
    cbn [go_expr]. rewrite E1, E2, E3, X3, X2, X1, X0. cbn [pop].
    destruct (cond_ok order Hperm _ _ _ es T B C c a b O3 XT XB XC Tk) as (v & h' & F & E & O' & Fo & Sp). rewrite E. cbn. eexists _, F. split; [reflexivity|]. cbn. split; [congruence|]. split; [congruence|]. split; assumption.
  - destruct Lg as [[[Ll Lr] Pl] Nr], Fn as [Fl Fr']. destruct (push_enter_ok K_ASSIGN w rest O) as (n & X0 & S0 & O0).
    destruct (IHl false _ _ (good_of _ Ll Fl (good_plain _ Pl)) O0) as (w1 & L & E1 & S1 & X1 & O1 & XL).
    destruct (IHr false _ _ (good_of _ Lr Fr' Nr) O1) as (w2 & R & E2 & S2 & X2 & O2 & XR).
    cbn [go_expr]. rewrite E1, E2, X2, X1, X0. cbn [pop].
    destruct (assign_ok order Hperm _ _ _ _ es L R l r O2 XL XR Pl) as (v & h' & F & E & O' & Fo & Sp). rewrite E. cbn. eexists _, F. split; [reflexivity|]. cbn. split; [congruence|]. split; [congruence|]. split; assumption.
  - destruct Fn as [Fl Nl]. destruct (push_enter_ok K_ELEMS w rest O) as (n & X0 & S0 & O0).
    destruct (list_ok l IHl _ _ (good_all _ Lg Fl Nl) O0) as (w1 & fs & E1 & S1 & X1 & O1 & XL).
    change (go_expr order es (Elems l) w) with (do w <- go_exprs order l (push_enter K_ELEMS w);
      do r <- pop_link order (List.length l) (w_h w) (w_xs w); let '(head, tail, h, xs) := r in let (enter, xs) := pop xs in done_x (after_elems order h enter head tail) (w_st w) xs).
    rewrite E1, X1, X0. destruct (args_ok l fs _ _ (n :: w_xs w) O1 XL) as (hd & tl & o & h1 & E2 & O2 & Ch & HR). rewrite E2. cbn [pop].
    destruct (elems_ok order Hperm _ _ _ _ es hd tl o (Elems l) O2 Ch eq_refl (fun t v Q => HR t Q)) as (v & h' & F & E & O' & Fo & Sp). rewrite E. cbn. eexists _, F. split; [reflexivity|]. cbn. split; [congruence|]. split; [congruence|]. split; assumption.
  - destruct Lg as [[[Lf Pf] Ll] Nl], Fn as [Ff Fl]. destruct (push_enter_ok K_CALL w rest O) as (n & X0 & S0 & O0).
    destruct (IHf false _ _ (good_of _ Lf Ff (good_plain _ Pf)) O0) as (w0 & L & E0 & S0' & X0' & O0' & XF).
    destruct (list_ok l IHl _ _ (good_all _ Ll Fl Nl) O0') as (w1 & fs & E1 & S1 & X1 & O1 & XL).
    change (go_expr order es (Call f l) w) with (do w <- go_expr order false f (push_enter K_CALL w); do w <- go_exprs order l w;
      do r <- pop_link order (List.length l) (w_h w) (w_xs w); let '(head, tail, h, xs) := r in let (fn, xs) := pop xs in let (enter, xs) := pop xs in done_x (after_call order h enter fn head tail) (w_st w) xs).
    rewrite E0, E1, X1, X0', X0. destruct (args_ok l fs _ _ (fo L :: n :: w_xs w) O1 XL) as (hd & tl & o & h1 & E2 & O2 & Ch & HR). rewrite E2. cbn [pop].
    destruct (call_ok order Hperm _ _ _ _ es L hd tl o f (Call f l) O2 XF Pf Ch eq_refl) as (v & h' & F & E & O' & Fo & Sp).
    { intros t v (t1 & t2 & -> & [v1 Q1] & Q2). exists t1, v1, t2. auto. }
    rewrite E. cbn. eexists _, F. split; [reflexivity|]. cbn. split; [congruence|]. split; [congruence|]. split; assumption.
  - destruct Lg as [[[Lf Pf] Ll] Nl], Fn as [Ff Fl]. destruct (push_enter_ok K_NEW w rest O) as (n & X0 & S0 & O0).
    destruct (IHf false _ _ (good_of _ Lf Ff (good_plain _ Pf)) O0) as (w0 & L & E0 & S0' & X0' & O0' & XF).
    destruct (list_ok l IHl _ _ (good_all _ Ll Fl Nl) O0') as (w1 & fs & E1 & S1 & X1 & O1 & XL).
    change (go_expr order es (New f l) w) with (do w <- go_expr order false f (push_enter K_NEW w); do w <- go_exprs order l w;
      do r <- pop_link order (List.length l) (w_h w) (w_xs w); let '(head, tail, h, xs) := r in let (fn, xs) := pop xs in let (enter, xs) := pop xs in done_x (after_new order h enter fn head tail) (w_st w) xs).
    rewrite E0, E1, X1, X0', X0. destruct (args_ok l fs _ _ (fo L :: n :: w_xs w) O1 XL) as (hd & tl & o & h1 & E2 & O2 & Ch & HR). rewrite E2. cbn [pop].
    destruct (new_ok order Hperm _ _ _ _ es L hd tl o f (New f l) O2 XF Ch eq_refl) as (v & h' & F & E & O' & Fo & Sp).
    { intros t v (t1 & t2 & -> & [v1 Q1] & Q2). exists t1, v1, t2. auto. }
    rewrite E. cbn. eexists _, F. split; [reflexivity|]. cbn. split; [congruence|]. split; [congruence|]. split; assumption.
  - destruct Lg as [[[Ll Lr] Pl] Nr], Fn as [Fl Fr']. destruct (push_enter_ok K_MEMBER w rest O) as (n & X0 & S0 & O0).
    destruct (IHo false _ _ (good_of _ Ll Fl (good_plain _ Pl)) O0) as (w1 & L & E1 & S1 & X1 & O1 & XL).
    destruct (IHp false _ _ (good_of _ Lr Fr' Nr) O1) as (w2 & R & E2 & S2 & X2 & O2 & XR).
    cbn [go_expr]. rewrite E1, E2, X2, X1, X0. cbn [pop].
    destruct (member_ok order Hperm _ _ _ _ es L R o p O2 XL XR Pl) as (v & h' & F & E & O' & Fo & Sp). rewrite E. cbn. eexists _, F. split; [reflexivity|]. cbn. split; [congruence|]. split; [congruence|]. split; assumption.
Qed.
End Order.
