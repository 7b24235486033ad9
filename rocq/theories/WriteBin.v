(** Trees of binary operators with their places: a chain is read as the tree it is written as, places included. *)
From Coq Require Import Lia.
From Verif Require Import Base TokenModel LexModel ParseBase BinModel BinSpec BinProofs BinProps.

Section Laid.
Context {A : Type}.
Variables (unary : pst -> pres A) (not_in : bool).

(** The tree [t] lies between two states. *)
Inductive laid : pst -> btree A -> pst -> Prop :=
| Laid_leaf s a s' : unary s = POk a s' -> laid s (Leaf a) s'
| Laid_bin s l s1 op r s2 : laid s l s1 -> is_bin not_in false (peek s1) = Some op -> laid (next s1) r s2 ->
    laid s (Bin op (t_lo (peek s1), t_hi (peek s1)) (p_end s2) l r) s2.

Lemma laid_unique : forall s t1 s1, laid s t1 s1 -> forall t2 s2, laid s t2 s2 -> shape t1 = shape t2 -> t1 = t2 /\ s1 = s2.
Proof.
  induction 1 as [s a s1 U|s l s1 op r s2 L IL O R IR]; intros t2 s3 H E; inversion H; subst; cbn [shape] in E; try discriminate E.
  - rewrite U in H0. injection H0 as <- <-. auto.
  - injection E as -> E2 E3. destruct (IL _ _ H0 E2) as [-> ->]. destruct (IR _ _ H2 E3) as [-> ->]. auto.
Qed.

Variables (is_un is_ar : A -> bool) (feat : N).
Lemma not_as : forall ni t op, is_bin ni false t = Some op -> tv_eqb op T_TS_AS = false.
Proof.
  intros ni t op H. unfold is_bin in H. destruct (N.ltb _ _ && N.ltb _ _) eqn:E.
  - injection H as <-. destruct (t_val t); try reflexivity. vm_compute in E. discriminate E.
  - destruct (negb ni && is_name t (bs "in") false); [injection H as <-; reflexivity|discriminate H].
Qed.
Notation loop := (bin_loop unary (fun _ => PErr) is_un is_ar feat false not_in false).
Notation rloop := (rhs_loop unary (fun _ => PErr) is_un is_ar feat false not_in false).
Definition laid' s t s' := exists s1, laid s t s1 /\ peeked s1 = peeked s'.
Lemma laid_bin' : forall s l s1 op r s2, laid' s l s1 -> is_bin not_in false (peek s1) = Some op -> laid' (next s1) r s2 ->
  laid' s (Bin op (t_lo (peek s1), t_hi (peek s1)) (p_end s2) l r) s2.
Proof.
  intros s l s1 op r s2 (x & X & Y) O (z & Z & W). exists z. split; [|exact W].
  assert (P : peek x = peek s1) by (change (peek x) with (peek (peeked x)); rewrite Y; reflexivity).
  assert (N : next x = next s1) by (unfold next; rewrite P; f_equal; change (p_toks x) with (p_toks (peeked x)); rewrite Y; reflexivity).
  assert (E : p_end z = p_end s2) by (change (p_end z) with (p_end (peeked z)); rewrite W; reflexivity).
  rewrite <- P, <- E. constructor; [exact X|rewrite P; exact O|rewrite N; exact Z].
Qed.
Lemma laid_peeked : forall s t s', laid' s t s' -> laid' s t (peeked s').
Proof. intros s t s' (x & X & Y). exists x. split; [exact X|exact Y]. Qed.
Lemma loop_laid : forall fuel,
  (forall lhs min lg nl s t s' s0, loop fuel lhs min lg nl s = POk t s' -> laid' s0 lhs s -> laid' s0 t s') /\
  (forall rhs pcd lg nl s t s' s0, rloop fuel rhs pcd lg nl s = POk t s' -> laid' s0 rhs s -> laid' s0 t s').
Proof.
  induction fuel as [|fuel [IB IR]]; [split; intros; discriminate|]. split.
  - intros lhs min lg nl s t s' s0 H L. cbn [bin_loop] in H.
    destruct (is_bin not_in false (peek s)) as [op|] eqn:O; [|injection H as <- <-; apply laid_peeked, L].
    match type of H with (if ?b then _ else _) = _ => destruct b; [injection H as <- <-; apply laid_peeked, L|] end.
    match type of H with (if ?b then _ else _) = _ => destruct b; [discriminate|] end. cbv zeta in H.
    match type of H with (if ?b then _ else _) = _ => destruct b; [discriminate|] end.
    unfold operand in H. rewrite (not_as _ _ _ O) in H.
    destruct (unary (next s)) as [a sa| | | ] eqn:U; try discriminate H. cbn [pbind] in H.
    match type of H with pbind ?x _ = _ => destruct x as [b sb| | | ] eqn:R; try discriminate H end. cbn [pbind] in H.
    match type of H with (if ?b then _ else _) = _ => destruct b; [discriminate|] end.
    match type of H with (if ?b then _ else _) = _ => destruct b; [discriminate|] end.
    eapply IB; [exact H|]. apply laid_bin'; [exact L|exact O|]. eapply IR; [exact R|]. exists sa. split; [constructor; exact U|reflexivity].
  - intros rhs pcd lg nl s t s' s0 H L. cbn [rhs_loop] in H.
    destruct (is_bin not_in false (peek s)) as [op|] eqn:O; [|injection H as <- <-; apply laid_peeked, L].
    match type of H with (if ?b then _ else _) = _ => destruct b; [|injection H as <- <-; apply laid_peeked, L] end.
    match type of H with pbind ?x _ = _ => destruct x as [b sb| | | ] eqn:R; try discriminate H end. cbn [pbind] in H.
    eapply IR; [exact H|]. eapply IB; [exact R|]. apply laid_peeked, L.
Qed.

(** The chain of a tree. *)
Notation chain := (chain unary (fun _ => PErr) false not_in false).
Lemma operator_bin : forall s op, is_bin not_in false (peek s) = Some op -> operator_at false not_in false s = Some op.
Proof. intros s op H. unfold operator_at. rewrite H, Bool.andb_false_r. reflexivity. Qed.
Lemma laid_chain : forall s t s', laid s t s' -> exists s0, unary s = POk (first t) s0 /\
  forall l s2, chain s' l s2 -> chain s0 (following t ++ l) s2.
Proof.
  induction 1 as [s a s1 U|s l s1 op r s2 L (x & X1 & X2) O R (y & Y1 & Y2)]; cbn [first following].
  - exists s1. split; [exact U|]. intros l s2 C. exact C.
  - exists x. split; [exact X1|]. intros q s3 C. rewrite <- app_assoc. apply X2. cbn [app].
    eapply Ch_op; [apply operator_bin, O|rewrite (not_as _ _ _ O); exact Y1|]. apply Y2, C.
Qed.

(** A tree that breaks no rule and has no dent is what binExpr returns. *)
Lemma laid_read : forall fuel s t s', laid s t s' -> is_bin not_in false (peek s') = None -> derives 0 t ->
  ~ dented (map fst (following t)) -> ~ mixed (following t) -> ~ unary_base is_un (first t) (following t) ->
  has feat FEAT_POW = true -> Forall (fun x => is_ar (snd x) = false) (following t) -> 2 * length (following t) + 4 <= fuel ->
  bin_expr unary (fun _ => PErr) is_un is_ar feat false not_in false fuel None s = POk t (peeked s').
Proof.
  intros fuel s t s' L E D ND M B P Ar F. destruct (laid_chain _ _ _ L) as (s0 & U & C).
  specialize (C [] (peeked s')). rewrite app_nil_r in C.
  destruct (C28_accepts A unary (fun _ => PErr) is_un is_ar feat false not_in false fuel s (first t) s0 (following t) (peeked s') U) as (u & X & X1 & X2); auto.
  - apply C. constructor. unfold operator_at. rewrite E. reflexivity.
  - assert (Du : derives 0 u) by (apply (proj2 (C28_grouping_partial _ _ _ _ _ _ _ _ _ _ _ _ _ X)); rewrite X2; exact ND).
    pose proof (C28_unique _ _ _ Du D X1 X2) as Sh.
    assert (Lu : laid' s u (peeked s')).
    { pose proof X as Y. unfold bin_expr in Y. rewrite U in Y. cbn [pbind] in Y. refine (proj1 (loop_laid fuel) _ _ _ _ _ _ _ _ Y _).
      exists s0. split; [constructor; exact U|reflexivity]. }
    destruct Lu as (z & Lu & _). destruct (laid_unique _ _ _ Lu _ _ L Sh) as [-> _]. exact X.
Qed.
End Laid.
