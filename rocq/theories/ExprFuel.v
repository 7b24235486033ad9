(** Fuel: with more of it the expression parser gives the same result, and in proportion to the tokens it suffices. *)
From Coq Require Import Lia ZifyBool ZifyNat ZifyN.
From Verif Require Import Base TokenModel LexModel ParseBase BinModel SymtabModel EarlyModel ExprModel.

(** ** More fuel *)
Definition ple {A} (x y : pres A) : Prop := x = PFuel \/ x = y.
Definition ole (x y : option (pres rng)) : Prop := x = Some PFuel \/ x = y.
Lemma ple_refl : forall A (x : pres A), ple x x.
Proof. right. reflexivity. Qed.
Lemma ple_bind : forall A B (x y : pres A) (f g : A -> pst -> pres B), ple x y -> (forall a s, ple (f a s) (g a s)) -> ple (pbind x f) (pbind y g).
Proof. intros A B x y f g [->| ->] H; [left; reflexivity|]. destruct y; cbn; try (right; reflexivity). apply H. Qed.
Lemma ple_lift : forall A B (x : ares A) (f g : A -> pres B), (forall a, ple (f a) (g a)) -> ple (alift x f) (alift x g).
Proof. intros A B [a| | ] f g H; cbn; [apply H|right; reflexivity..]. Qed.

Record cle (a b : calls) : Prop := mk_cle {
  l_fuel : c_fuel a <= c_fuel b;
  l_seq : forall k s, ple (c_seq a k s) (c_seq b k s);
  l_seq_loop : forall k l acc s, ple (c_seq_loop a k l acc s) (c_seq_loop b k l acc s);
  l_assign : forall k c s, ple (c_assign a k c s) (c_assign b k c s);
  l_yield_expr : forall k s, ple (c_yield_expr a k s) (c_yield_expr b k s);
  l_cond : forall k s, ple (c_cond a k s) (c_cond b k s);
  l_unary : forall k s, ple (c_unary a k s) (c_unary b k s);
  l_update : forall k s, ple (c_update a k s) (c_update b k s);
  l_lhs : forall k s, ple (c_lhs a k s) (c_lhs b k s);
  l_new_expr : forall k s, ple (c_new_expr a k s) (c_new_expr b k s);
  l_new_loop : forall k e r o s, ple (c_new_loop a k e r o s) (c_new_loop b k e r o s);
  l_call_expr : forall k c r d o s, ple (c_call_expr a k c r d o s) (c_call_expr b k c r d o s);
  l_call_loop : forall k l c r d o s, ple (c_call_loop a k l c r d o s) (c_call_loop b k l c r d o s);
  l_member_expr : forall k o c r p s, ple (c_member_expr a k o c r p s) (c_member_expr b k o c r p s);
  l_member_loop : forall k e o s, ple (c_member_loop a k e o s) (c_member_loop b k e o s);
  l_subscript : forall k e o s, ple (c_subscript a k e o s) (c_subscript b k e o s);
  l_arg_list : forall k c i s, ple (c_arg_list a k c i s) (c_arg_list b k c i s);
  l_arg_loop : forall k c i acc t s, ple (c_arg_loop a k c i acc t s) (c_arg_loop b k c i acc t s);
  l_spread : forall k s, ple (c_spread a k s) (c_spread b k s);
  l_paren : forall k s, ple (c_paren a k s) (c_paren b k s);
  l_arrow : forall k l ps s, ple (c_arrow a k l ps s) (c_arrow b k l ps s);
  l_arr_lit : forall k l acc s, ple (c_arr_lit a k l acc s) (c_arr_lit b k l acc s);
  l_obj_lit : forall k l acc s, ple (c_obj_lit a k l acc s) (c_obj_lit b k l acc s);
  l_obj_prop : forall k s, ple (c_obj_prop a k s) (c_obj_prop b k s);
  l_tpl : forall k t s, ple (c_tpl a k t s) (c_tpl b k t s);
  l_tpl_loop : forall k t l acc s, ple (c_tpl_loop a k t l acc s) (c_tpl_loop b k t l acc s);
  l_primary : forall k s, ple (c_primary a k s) (c_primary b k s) }.

(** *** Binary expressions *)
Section BinMono.
Variables (feat : N) (u u' typ : pst -> pres expr) (iu ia : expr -> bool) (ni : bool).
Hypothesis u_le : forall s, ple (u s) (u' s).
Lemma op_le : forall op s, ple (operand u typ op s) (operand u' typ op s).
Proof. intros. unfold operand. destruct (tv_eqb op T_TS_AS); [apply ple_refl|apply u_le]. Qed.
Lemma bin_le : forall n m, n <= m ->
  (forall lhs min l nu s, ple (bin_loop u typ iu ia feat false ni false n lhs min l nu s) (bin_loop u' typ iu ia feat false ni false m lhs min l nu s)) /\
  (forall rhs pcd l nu s, ple (rhs_loop u typ iu ia feat false ni false n rhs pcd l nu s) (rhs_loop u' typ iu ia feat false ni false m rhs pcd l nu s)).
Proof.
  induction n as [|n IH]; intros m Le; [split; intros; left; reflexivity|]. destruct m as [|m]; [lia|]. destruct (IH m ltac:(lia)) as [IB IR].
  split; intros; cbn [bin_loop rhs_loop]; (destruct (is_bin ni false (peek s)); [|apply ple_refl]).
  - repeat (match goal with |- ple (if ?x then _ else _) _ => destruct x end; try apply ple_refl). cbv zeta.
    repeat (match goal with |- ple (if ?x then _ else _) _ => destruct x end; try apply ple_refl).
    apply ple_bind; [apply op_le|]. intros. apply ple_bind; [apply IR|]. intros. repeat (match goal with |- ple (if ?x then _ else _) _ => destruct x end; try apply ple_refl). apply IB.
  - match goal with |- ple (if ?x then _ else _) _ => destruct x end; [|apply ple_refl]. apply ple_bind; [apply IB|]. intros. apply IR.
Qed.
Lemma bin_expr_le : forall n m s, n <= m -> ple (bin_expr u typ iu ia feat false ni false n None s) (bin_expr u' typ iu ia feat false ni false m None s).
Proof. intros n m s Le. unfold bin_expr. apply ple_bind; [apply u_le|]. intros. apply bin_le. exact Le. Qed.
End BinMono.

Section Mono.
Variables (feat : N) (text : token -> bytes) (chk : pst -> bool) (params_ok : N -> list expr -> pst -> bool).
Variables (other other' method method' : N -> pst -> option (pres rng)) (block block' : N -> pst -> pres rng).
Hypotheses (other_le : forall k s, ole (other k s) (other' k s)) (method_le : forall k s, ole (method k s) (method' k s))
  (block_le : forall k s, ple (block k s) (block' k s)).
Variables (a b : calls).
Hypothesis L : cle a b.

Lemma ole_other : forall k s, ole (other k s) (other' k s) -> forall (f : pres rng -> pres expr) (z z' : pres expr), f PFuel = PFuel -> ple z z' ->
  ple (match other k s with Some x => f x | None => z end) (match other' k s with Some x => f x | None => z' end).
Proof. intros k s [->| ->] f z z' E Z; [left; exact E|]. destruct (other' k s); [right; reflexivity|exact Z]. Qed.
Lemma ole_method : forall k s, ole (method k s) (method' k s) -> forall (f : pres rng -> pres expr) (z z' : pres expr), f PFuel = PFuel -> ple z z' ->
  ple (match method k s with Some x => f x | None => z end) (match method' k s with Some x => f x | None => z' end).
Proof. intros k s [->| ->] f z z' E Z; [left; exact E|]. destruct (method' k s); [right; reflexivity|exact Z]. Qed.

Ltac mono := cbv zeta; match goal with
  | |- ple ?x ?x => apply ple_refl
  | |- ple (pbind _ _) (pbind _ _) => apply ple_bind; [mono|intros; mono]
  | |- ple (alift _ _) (alift _ _) => apply ple_lift; intros; mono
  | |- ple (match other _ _ with _ => _ end) _ => apply ole_other; [apply other_le|reflexivity|mono]
  | |- ple (match method _ _ with _ => _ end) _ => apply ole_method; [apply method_le|reflexivity|mono]
  | |- ple (block _ _) _ => apply block_le
  | |- ple (match ?x with _ => _ end) (match ?x with _ => _ end) => destruct x; mono
  | |- ple (c_seq _ _ _) _ => apply (l_seq _ _ L)
  | |- ple (c_seq_loop _ _ _ _ _) _ => apply (l_seq_loop _ _ L)
  | |- ple (c_assign _ _ _ _) _ => apply (l_assign _ _ L)
  | |- ple (c_yield_expr _ _ _) _ => apply (l_yield_expr _ _ L)
  | |- ple (c_cond _ _ _) _ => apply (l_cond _ _ L)
  | |- ple (c_unary _ _ _) _ => apply (l_unary _ _ L)
  | |- ple (c_update _ _ _) _ => apply (l_update _ _ L)
  | |- ple (c_lhs _ _ _) _ => apply (l_lhs _ _ L)
  | |- ple (c_new_expr _ _ _) _ => apply (l_new_expr _ _ L)
  | |- ple (c_new_loop _ _ _ _ _ _) _ => apply (l_new_loop _ _ L)
  | |- ple (c_call_expr _ _ _ _ _ _ _) _ => apply (l_call_expr _ _ L)
  | |- ple (c_call_loop _ _ _ _ _ _ _ _) _ => apply (l_call_loop _ _ L)
  | |- ple (c_member_expr _ _ _ _ _ _ _) _ => apply (l_member_expr _ _ L)
  | |- ple (c_member_loop _ _ _ _ _) _ => apply (l_member_loop _ _ L)
  | |- ple (c_subscript _ _ _ _ _) _ => apply (l_subscript _ _ L)
  | |- ple (c_arg_list _ _ _ _ _) _ => apply (l_arg_list _ _ L)
  | |- ple (c_arg_loop _ _ _ _ _ _ _) _ => apply (l_arg_loop _ _ L)
  | |- ple (c_spread _ _ _) _ => apply (l_spread _ _ L)
  | |- ple (c_paren _ _ _) _ => apply (l_paren _ _ L)
  | |- ple (c_arrow _ _ _ _ _) _ => apply (l_arrow _ _ L)
  | |- ple (c_arr_lit _ _ _ _ _) _ => apply (l_arr_lit _ _ L)
  | |- ple (c_obj_lit _ _ _ _ _) _ => apply (l_obj_lit _ _ L)
  | |- ple (c_obj_prop _ _ _) _ => apply (l_obj_prop _ _ L)
  | |- ple (c_tpl _ _ _ _) _ => apply (l_tpl _ _ L)
  | |- ple (c_tpl_loop _ _ _ _ _ _) _ => apply (l_tpl_loop _ _ L)
  | |- ple (c_primary _ _ _) _ => apply (l_primary _ _ L)
  end.

Lemma cond_le : forall k s, ple (cond_b feat a k s) (cond_b feat b k s).
Proof using L.
  intros k s. unfold cond_b. apply ple_bind; [apply bin_expr_le; [apply (l_unary _ _ L)|apply (l_fuel _ _ L)]|]. intros. cbv zeta. mono.
Qed.
Lemma seq_le : forall k s, ple (seq_b text a k s) (seq_b text b k s). Proof using L. intros. unfold seq_b. mono. Qed.
Lemma seq_loop_le : forall k l acc s, ple (seq_loop_b a k l acc s) (seq_loop_b b k l acc s). Proof using L. intros. unfold seq_loop_b. mono. Qed.
Lemma assign_le : forall k c s, ple (assign_b feat text chk a k c s) (assign_b feat text chk b k c s). Proof using L. intros. unfold assign_b. mono. Qed.
Lemma yield_le : forall k s, ple (yield_expr_b feat a k s) (yield_expr_b feat b k s). Proof using L. intros. unfold yield_expr_b. mono. Qed.
Lemma unary_le : forall k s, ple (unary_b feat other a k s) (unary_b feat other' b k s). Proof using L other_le. intros. unfold unary_b. mono. Qed.
Lemma update_le : forall k s, ple (update_b a k s) (update_b b k s). Proof using L. intros. unfold update_b. mono. Qed.
Lemma lhs_le : forall k s, ple (lhs_b a k s) (lhs_b b k s). Proof using L. intros. unfold lhs_b. mono. Qed.
Lemma new_expr_le : forall k s, ple (new_expr_b feat text a k s) (new_expr_b feat text b k s). Proof using L. intros. unfold new_expr_b. mono. Qed.
Lemma new_loop_le : forall k e r o s, ple (new_loop_b a k e r o s) (new_loop_b b k e r o s). Proof using L. intros. unfold new_loop_b. mono. Qed.
Lemma call_expr_le : forall k c r d o s, ple (call_expr_b a k c r d o s) (call_expr_b b k c r d o s). Proof using L. intros. unfold call_expr_b. mono. Qed.
Lemma call_loop_le : forall k l c r d o s, ple (call_loop_b a k l c r d o s) (call_loop_b b k l c r d o s). Proof using L. intros. unfold call_loop_b. mono. Qed.
Lemma member_expr_le : forall k o c r p s, ple (member_expr_b a k o c r p s) (member_expr_b b k o c r p s). Proof using L. intros. unfold member_expr_b. mono. Qed.
Lemma member_loop_le : forall k e o s, ple (member_loop_b text a k e o s) (member_loop_b text b k e o s). Proof using L. intros. unfold member_loop_b. mono. Qed.
Lemma subscript_le : forall k e o s, ple (subscript_b a k e o s) (subscript_b b k e o s). Proof using L. intros. unfold subscript_b. mono. Qed.
Lemma arg_list_le : forall k c i s, ple (arg_list_b a k c i s) (arg_list_b b k c i s). Proof using L. intros. unfold arg_list_b. mono. Qed.
Lemma arg_loop_le : forall k c i acc t s, ple (arg_loop_b text a k c i acc t s) (arg_loop_b text b k c i acc t s). Proof using L. intros. unfold arg_loop_b. mono. Qed.
Lemma spread_le : forall k s, ple (spread_b feat a k s) (spread_b feat b k s). Proof using L. intros. unfold spread_b. mono. Qed.
Lemma paren_le : forall k s, ple (paren_b feat text chk a k s) (paren_b feat text chk b k s). Proof using L. intros. unfold paren_b. mono. Qed.
Lemma arrow_le : forall k l ps s, ple (arrow_b block params_ok a k l ps s) (arrow_b block' params_ok b k l ps s). Proof using L block_le. intros. unfold arrow_b. mono. Qed.
Lemma arr_lit_le : forall k l acc s, ple (arr_lit_b a k l acc s) (arr_lit_b b k l acc s). Proof using L. intros. unfold arr_lit_b. mono. Qed.
Lemma obj_lit_le : forall k l acc s, ple (obj_lit_b a k l acc s) (obj_lit_b b k l acc s). Proof using L. intros. unfold obj_lit_b. mono. Qed.
Lemma obj_prop_le : forall k s, ple (obj_prop_b text method a k s) (obj_prop_b text method' b k s). Proof using L method_le. intros. unfold obj_prop_b. mono. Qed.
Lemma tpl_le : forall k t s, ple (tpl_b a k t s) (tpl_b b k t s). Proof using L. intros. unfold tpl_b. mono. Qed.
Lemma tpl_loop_le : forall k t l acc s, ple (tpl_loop_b feat a k t l acc s) (tpl_loop_b feat b k t l acc s). Proof using L. intros. unfold tpl_loop_b. mono. Qed.
Lemma primary_le : forall k s, ple (primary_b text chk other a k s) (primary_b text chk other' b k s).
Proof using L other_le.
  intros. unfold primary_b. destruct (other_le k s) as [->| ->]; [left; reflexivity|]. destruct (other' k s); mono.
Qed.
End Mono.

Theorem calls_le : forall feat text chk params_ok other other' method method' block block',
  (forall k s, ole (other k s) (other' k s)) -> (forall k s, ole (method k s) (method' k s)) -> (forall k s, ple (block k s) (block' k s)) ->
  forall n m, n <= m -> cle (calls_at feat text chk other method block params_ok n) (calls_at feat text chk other' method' block' params_ok m).
Proof.
  intros feat text chk params_ok other other' method method' block block' Ho Hm Hb. induction n as [|n IH]; intros m Le.
  - constructor; cbn; intros; try lia; left; reflexivity.
  - destruct m as [|m]; [lia|]. specialize (IH m ltac:(lia)).
    constructor; cbn [calls_at c_fuel c_seq c_seq_loop c_assign c_yield_expr c_cond c_unary c_update c_lhs c_new_expr c_new_loop c_call_expr c_call_loop
      c_member_expr c_member_loop c_subscript c_arg_list c_arg_loop c_spread c_paren c_arrow c_arr_lit c_obj_lit c_obj_prop c_tpl c_tpl_loop c_primary]; [lia|..]; intros.
    + apply seq_le; assumption.
    + apply seq_loop_le; assumption.
    + apply assign_le; assumption.
    + apply yield_le; assumption.
    + apply cond_le; assumption.
    + apply unary_le; assumption.
    + apply update_le; assumption.
    + apply lhs_le; assumption.
    + apply new_expr_le; assumption.
    + apply new_loop_le; assumption.
    + apply call_expr_le; assumption.
    + apply call_loop_le; assumption.
    + apply member_expr_le; assumption.
    + apply member_loop_le; assumption.
    + apply subscript_le; assumption.
    + apply arg_list_le; assumption.
    + apply arg_loop_le; assumption.
    + apply spread_le; assumption.
    + apply paren_le; assumption.
    + apply arrow_le; assumption.
    + apply arr_lit_le; assumption.
    + apply obj_lit_le; assumption.
    + apply obj_prop_le; assumption.
    + apply tpl_le; assumption.
    + apply tpl_loop_le; assumption.
    + apply primary_le; assumption.
Qed.

(** ** Enough fuel *)
Definition len (s : pst) : nat := length (p_toks s).
(** The result is there, and fewer than [n] tokens are left. *)
Definition fine {A} (n : nat) (x : pres A) : Prop := match x with POk _ s => len s < n | PFuel => False | _ => True end.
Lemma fine_bind : forall A B m n (x : pres A) (f : A -> pst -> pres B), fine m x -> (forall a s, len s < m -> fine n (f a s)) -> fine n (pbind x f).
Proof. intros A B m n [a s| | | ] f H K; cbn in *; auto; contradiction. Qed.
Lemma fine_lift : forall A B n (x : ares A) (f : A -> pres B), (forall a, fine n (f a)) -> fine n (alift x f).
Proof. intros A B n [a| | ] f H; cbn; auto. Qed.
Lemma fine_more : forall A m n (x : pres A), fine m x -> m <= n -> fine n x.
Proof. intros A m n [a s| | | ] H L; cbn in *; try lia; auto. Qed.
Lemma len_next : forall s, len (next s) = len s - 1.
Proof. intros s. unfold len, next. cbn. destruct (p_toks s); cbn; lia. Qed.
Lemma len_peeked : forall s, len (peeked s) = len s.
Proof. reflexivity. Qed.
Lemma val_len : forall s, t_val (peek s) <> T_EOF -> 0 < len s.
Proof. intros [[|t ts] b p] H; unfold len; cbn in *; [congruence|lia]. Qed.
Lemma at_len : forall v s, at_tok v s = true -> v <> T_EOF -> 0 < len s.
Proof. intros v s H N. apply val_len. unfold at_tok, pval in H. apply tv_eqb_spec in H. congruence. Qed.
Lemma at_peek : forall v s, at_tok v (peeked s) = at_tok v s.
Proof. reflexivity. Qed.
Definition at3 (s : pst) : bool := at_tok T_BRACKET_L s || at_tok T_DOT s || at_tok T_OPT_CHAIN s.
Lemma bin_len : forall ni ts s op, is_bin ni ts (peek s) = Some op -> 0 < len s.
Proof.
  intros ni ts s op H. apply val_len. intros E. unfold is_bin, is_name in H. rewrite E in H. cbn in H. destruct ni, ts; cbn in H; discriminate H.
Qed.
Lemma elision_len : forall f s l s', elision f s = (l, s') -> len s' <= len s.
Proof.
  induction f; intros s l s' H; cbn [elision] in H; [inversion H; lia|]. destruct (at_tok T_COMMA s).
  - destruct (elision f (next s)) eqn:E. apply IHf in E. inversion H. subst. rewrite len_next in E. lia.
  - inversion H. subst. rewrite len_peeked. lia.
Qed.

Section BinTotal.
Variables (feat : N) (u typ : pst -> pres expr) (iu ia : expr -> bool) (ni : bool) (top : nat).
Hypothesis u_fine : forall s, len s <= top -> fine (len s) (u s).
Hypothesis typ_fine : forall s, fine (len s) (typ s).
Lemma bin_fine : forall n,
  (forall lhs min l nu s, len s <= top -> 2 * len s < n ->
     fine (S (len s)) (bin_loop u typ iu ia feat false ni false n lhs min l nu s) /\
     (forall op, is_bin ni false (peek s) = Some op -> min <= tv_pcd op -> fine (len s) (bin_loop u typ iu ia feat false ni false n lhs min l nu s))) /\
  (forall rhs pcd l nu s, len s <= top -> 2 * len s + 1 < n -> fine (S (len s)) (rhs_loop u typ iu ia feat false ni false n rhs pcd l nu s)).
Proof.
  induction n as [|n [IB IR]]; [split; intros; lia|]. split.
  - intros lhs min l nu s Ht Hn.
    assert (W : forall op, is_bin ni false (peek s) = Some op -> forall l nu,
      fine (len s) (pbind (operand u typ op (next s)) (fun a s1 => pbind (rhs_loop u typ iu ia feat false ni false n (Leaf a) (tv_pcd op) l nu s1) (fun rhs s2 =>
              if match lhs with Leaf x => iu x | _ => false end && tv_eqb op T_POW then PErr
              else if match rhs with Leaf x => ia x | _ => false end then PErr
              else bin_loop u typ iu ia feat false ni false n (Bin op (t_lo (peek s), t_hi (peek s)) (p_end s2) lhs rhs) min l nu s2)))).
    { intros op E l' nu'. apply bin_len in E. apply fine_bind with (m := len (next s)).
      - unfold operand. destruct (tv_eqb op T_TS_AS); [apply typ_fine|apply u_fine]. rewrite len_next. lia.
      - intros a s1 L1. rewrite len_next in L1. apply fine_bind with (m := S (len s1)); [apply IR; lia|]. intros rhs s2 L2.
        match goal with |- fine _ (if ?b then _ else _) => destruct b; [exact I|] end.
        match goal with |- fine _ (if ?b then _ else _) => destruct b; [exact I|] end.
        eapply fine_more; [apply IB; lia|lia]. }
    cbn [bin_loop]. split.
    + destruct (is_bin ni false (peek s)) as [op|] eqn:E; [|cbn [fine]; rewrite len_peeked; lia].
      match goal with |- fine _ (if ?b then _ else _) => destruct b; [cbn [fine]; rewrite len_peeked; lia|] end.
      match goal with |- fine _ (if ?b then _ else _) => destruct b; [exact I|] end. cbv zeta.
      match goal with |- fine _ (if ?b then _ else _) => destruct b; [exact I|] end. eapply fine_more; [apply W; reflexivity|lia].
    + intros op E Hm. rewrite E. replace (Nat.ltb (tv_pcd op) min) with false by lia. rewrite Bool.andb_false_r. cbn [orb].
      match goal with |- fine _ (if ?b then _ else _) => destruct b; [exact I|] end. cbv zeta.
      match goal with |- fine _ (if ?b then _ else _) => destruct b; [exact I|] end. apply W; assumption.
  - intros rhs pcd l nu s Ht Hn. cbn [rhs_loop]. destruct (is_bin ni false (peek s)) as [op|] eqn:E; [|cbn [fine]; rewrite len_peeked; lia].
    match goal with |- fine _ (if ?b then _ else _) => destruct b; [|cbn [fine]; rewrite len_peeked; lia] end.
    apply fine_bind with (m := len s).
    + apply (proj2 (IB rhs (tv_pcd op) l nu (peeked s) ltac:(rewrite len_peeked; lia) ltac:(rewrite len_peeked; lia)) op); [exact E|lia].
    + intros r s1 L1. eapply fine_more; [apply IR; lia|lia].
Qed.
Lemma bin_expr_fine : forall n s, len s <= top -> 2 * len s < n -> fine (len s) (bin_expr u typ iu ia feat false ni false n None s).
Proof.
  intros n s Ht Hn. unfold bin_expr. apply fine_bind with (m := len s); [apply u_fine; exact Ht|]. intros a s1 L1.
  eapply fine_more; [apply bin_fine; lia|lia].
Qed.
End BinTotal.

(** The fuel [lim] is enough for a call at [s] of a function of rank [r]. *)
Definition room (lim r : nat) (s : pst) : Prop := 16 * len s + r < lim.
Record total (rc : calls) (lim top : nat) : Prop := mk_total {
  o_fuel : lim <= c_fuel rc;
  o_seq : forall k s, len s < top -> room lim 13 s -> fine (len s) (c_seq rc k s);
  o_seq_loop : forall k l acc s, len s < top -> room lim 1 s -> fine (S (len s)) (c_seq_loop rc k l acc s);
  o_assign : forall k c s, len s < top -> room lim 12 s -> fine (len s) (c_assign rc k c s);
  o_yield_expr : forall k s, len s < top -> room lim 1 s -> 0 < len s -> fine (len s) (c_yield_expr rc k s);
  o_cond : forall k s, len s < top -> room lim 11 s -> fine (len s) (c_cond rc k s);
  o_unary : forall k s, len s < top -> room lim 10 s -> fine (len s) (c_unary rc k s);
  o_update : forall k s, len s < top -> room lim 9 s -> fine (len s) (c_update rc k s);
  o_lhs : forall k s, len s < top -> room lim 8 s -> fine (len s) (c_lhs rc k s);
  o_new_expr : forall k s, len s < top -> room lim 1 s -> 0 < len s -> fine (len s) (c_new_expr rc k s);
  o_new_loop : forall k e r o s, len s < top -> room lim 7 s -> fine (S (len s)) (c_new_loop rc k e r o s);
  o_call_none : forall k r d o s, len s < top -> room lim 6 s -> fine (len s) (c_call_expr rc k None r d o s);
  o_call_some : forall k c r d o s, len s < top -> room lim 6 s -> fine (len s + if at_tok T_PAREN_L s then 0 else 1) (c_call_expr rc k (Some c) r d o s);
  o_call_loop : forall k l c r d o s, len s < top -> room lim 5 s -> fine (len s + if at_tok T_PAREN_L s then 0 else 1) (c_call_loop rc k l c r d o s);
  o_member_none : forall k c r p s, len s < top -> room lim 4 s -> fine (len s) (c_member_expr rc k None c r p s);
  o_member_some : forall k o c r p s, len s < top -> room lim 4 s -> at3 s = true -> fine (len s) (c_member_expr rc k (Some o) c r p s);
  o_member_loop : forall k e o s, len s < top -> room lim 2 s -> fine (len s + if at3 s then 0 else 1) (c_member_loop rc k e o s);
  o_subscript : forall k e o s, len s < top -> room lim 1 s -> 0 < len s -> fine (len s) (c_subscript rc k e o s);
  o_arg_list : forall k c i s, len s < top -> room lim 1 s -> fine (len s) (c_arg_list rc k c i s);
  o_arg_loop : forall k c i acc t s, len s < top -> room lim 13 s -> fine (len s) (c_arg_loop rc k c i acc t s);
  o_spread : forall k s, len s < top -> room lim 1 s -> 0 < len s -> fine (len s) (c_spread rc k s);
  o_paren : forall k s, len s < top -> room lim 2 s -> fine (len s) (c_paren rc k s);
  o_arrow : forall k l ps s, len s < top -> room lim 1 s -> 0 < len s -> fine (len s) (c_arrow rc k l ps s);
  o_arr_lit : forall k l acc s, len s < top -> room lim 13 s -> fine (len s) (c_arr_lit rc k l acc s);
  o_obj_lit : forall k l acc s, len s < top -> room lim 14 s -> fine (len s) (c_obj_lit rc k l acc s);
  o_obj_prop : forall k s, len s < top -> room lim 13 s -> fine (len s) (c_obj_prop rc k s);
  o_tpl : forall k t s, len s < top -> room lim 2 s -> fine (len s) (c_tpl rc k t s);
  o_tpl_loop : forall k t l acc s, len s < top -> room lim 1 s -> fine (len s) (c_tpl_loop rc k t l acc s);
  o_primary : forall k s, len s < top -> room lim 3 s -> fine (len s) (c_primary rc k s) }.

Section Total.
Variables (feat : N) (text : token -> bytes) (chk : pst -> bool) (params_ok : N -> list expr -> pst -> bool).
Variables (other method : N -> pst -> option (pres rng)) (block : N -> pst -> pres rng).
Variable top : nat.
Hypotheses (other_fine : forall k s x, len s < top -> other k s = Some x -> fine (len s) x)
  (method_fine : forall k s x, len s < top -> method k s = Some x -> fine (len s) x)
  (block_fine : forall k s, len s < top -> fine (len s) (block k s)).
Variables (rc : calls) (lim : nat).
Hypothesis T : total rc lim top.
Notation ready s r := (len s < top /\ 16 * len s + r <= lim).

(** What the tests say about the tokens left. *)
Ltac facts := unfold room, at3 in *; repeat match goal with
  | H : _ && _ = true |- _ => apply Bool.andb_true_iff in H; destruct H
  | H : context [at_tok ?v (peeked ?s)] |- _ => change (at_tok v (peeked s)) with (at_tok v s) in H
  | |- context [at_tok ?v (peeked ?s)] => change (at_tok v (peeked s)) with (at_tok v s)
  | H : context [len (peeked ?s)] |- _ => rewrite (len_peeked s) in H
  | |- context [len (peeked ?s)] => rewrite (len_peeked s)
  | H : context [len (next ?s)] |- _ => rewrite (len_next s) in H
  | |- context [len (next ?s)] => rewrite (len_next s)
  end; repeat match goal with
  | H : at_tok ?v ?s = true |- _ => lazymatch goal with K : 0 < len s |- _ => fail | _ => assert (0 < len s) by (apply (at_len v s H); discriminate) end
  end.
(** A test some token passes but not the end of the input. *)
Ltac some H s := lazymatch goal with K : 0 < len s |- _ => fail | _ =>
  assert (0 < len s) by (apply val_len; let E := fresh in intros E; unfold at_tok, pval, can_be_key in H; rewrite E in H; cbn in H; solve [discriminate H|repeat rewrite ?Bool.andb_false_r in H; discriminate H]) end.
Ltac somes := repeat match goal with
  | H : ?b = true |- _ => match b with context [at_tok _ ?s] => some H s | context [pval ?s] => some H s | context [peek ?s] => some H s end
  | H : t_val (peek ?s) = _ |- _ => lazymatch goal with K : 0 < len s |- _ => fail | _ => assert (0 < len s) by (apply val_len; rewrite H; discriminate) end
  end.
Ltac arith := facts; cbn [fst snd] in *; try assumption; try lia;
  repeat match goal with
  | H : context [if ?b then _ else _] |- _ => destruct b eqn:?
  | |- context [if ?b then _ else _] => destruct b eqn:? end; facts; try lia; somes; try lia;
  try (repeat match goal with H : at_tok _ _ = false, K : _ = true |- _ => rewrite H in K end; cbn in *; discriminate).
Ltac call := match goal with
  | |- fine _ (c_seq _ _ _) => eapply fine_more; [apply (o_seq _ _ _ T)|]
  | |- fine _ (c_seq_loop _ _ _ _ _) => eapply fine_more; [apply (o_seq_loop _ _ _ T)|]
  | |- fine _ (c_assign _ _ _ _) => eapply fine_more; [apply (o_assign _ _ _ T)|]
  | |- fine _ (c_yield_expr _ _ _) => eapply fine_more; [apply (o_yield_expr _ _ _ T)|]
  | |- fine _ (c_cond _ _ _) => eapply fine_more; [apply (o_cond _ _ _ T)|]
  | |- fine _ (c_unary _ _ _) => eapply fine_more; [apply (o_unary _ _ _ T)|]
  | |- fine _ (c_update _ _ _) => eapply fine_more; [apply (o_update _ _ _ T)|]
  | |- fine _ (c_lhs _ _ _) => eapply fine_more; [apply (o_lhs _ _ _ T)|]
  | |- fine _ (c_new_expr _ _ _) => eapply fine_more; [apply (o_new_expr _ _ _ T)|]
  | |- fine _ (c_new_loop _ _ _ _ _ _) => eapply fine_more; [apply (o_new_loop _ _ _ T)|]
  | |- fine _ (c_call_expr _ _ None _ _ _ _) => eapply fine_more; [apply (o_call_none _ _ _ T)|]
  | |- fine _ (c_call_expr _ _ (Some _) _ _ _ _) => eapply fine_more; [apply (o_call_some _ _ _ T)|]
  | |- fine _ (c_call_loop _ _ _ _ _ _ _ _) => eapply fine_more; [apply (o_call_loop _ _ _ T)|]
  | |- fine _ (c_member_expr _ _ None _ _ _ _) => eapply fine_more; [apply (o_member_none _ _ _ T)|]
  | |- fine _ (c_member_expr _ _ (Some _) _ _ _ _) => eapply fine_more; [apply (o_member_some _ _ _ T)|]
  | |- fine _ (c_member_loop _ _ _ _ _) => eapply fine_more; [apply (o_member_loop _ _ _ T)|]
  | |- fine _ (c_subscript _ _ _ _ _) => eapply fine_more; [apply (o_subscript _ _ _ T)|]
  | |- fine _ (c_arg_list _ _ _ _ _) => eapply fine_more; [apply (o_arg_list _ _ _ T)|]
  | |- fine _ (c_arg_loop _ _ _ _ _ _ _) => eapply fine_more; [apply (o_arg_loop _ _ _ T)|]
  | |- fine _ (c_spread _ _ _) => eapply fine_more; [apply (o_spread _ _ _ T)|]
  | |- fine _ (c_paren _ _ _) => eapply fine_more; [apply (o_paren _ _ _ T)|]
  | |- fine _ (c_arrow _ _ _ _ _) => eapply fine_more; [apply (o_arrow _ _ _ T)|]
  | |- fine _ (c_arr_lit _ _ _ _ _) => eapply fine_more; [apply (o_arr_lit _ _ _ T)|]
  | |- fine _ (c_obj_lit _ _ _ _ _) => eapply fine_more; [apply (o_obj_lit _ _ _ T)|]
  | |- fine _ (c_obj_prop _ _ _) => eapply fine_more; [apply (o_obj_prop _ _ _ T)|]
  | |- fine _ (c_tpl _ _ _ _) => eapply fine_more; [apply (o_tpl _ _ _ T)|]
  | |- fine _ (c_tpl_loop _ _ _ _ _ _) => eapply fine_more; [apply (o_tpl_loop _ _ _ T)|]
  | |- fine _ (c_primary _ _ _) => eapply fine_more; [apply (o_primary _ _ _ T)|]
  | |- fine _ (block _ _) => eapply fine_more; [apply block_fine|]
  end.
Lemma yield_len : forall k s, ahead_yield text k s = true -> 0 < len s.
Proof using. intros k s H. apply val_len. intros E. unfold ahead_yield, at_tok, pval in H. rewrite E in H. cbn in H. rewrite Bool.andb_false_r in H. discriminate H. Qed.
Lemma bind_bind : forall A B D (x : pres A) (f : A -> pst -> pres B) (g : B -> pst -> pres D), pbind (pbind x f) g = pbind x (fun a s => pbind (f a s) g).
Proof using. intros A B D [a s| | | ] f g; reflexivity. Qed.
Ltac first_call := match goal with
  | |- fine _ (c_seq _ _ _) => apply (o_seq _ _ _ T)
  | |- fine _ (c_assign _ _ _ _) => apply (o_assign _ _ _ T)
  | |- fine _ (c_cond _ _ _) => apply (o_cond _ _ _ T)
  | |- fine _ (c_unary _ _ _) => apply (o_unary _ _ _ T)
  | |- fine _ (c_lhs _ _ _) => apply (o_lhs _ _ _ T)
  | |- fine _ (c_new_expr _ _ _) => apply (o_new_expr _ _ _ T)
  | |- fine _ (c_call_expr _ _ None _ _ _ _) => apply (o_call_none _ _ _ T)
  | |- fine _ (c_call_expr _ _ (Some _) _ _ _ _) => apply (o_call_some _ _ _ T)
  | |- fine _ (c_member_expr _ _ None _ _ _ _) => apply (o_member_none _ _ _ T)
  | |- fine _ (c_member_expr _ _ (Some _) _ _ _ _) => apply (o_member_some _ _ _ T)
  | |- fine _ (c_member_loop _ _ _ _ _) => apply (o_member_loop _ _ _ T)
  | |- fine _ (c_subscript _ _ _ _ _) => apply (o_subscript _ _ _ T)
  | |- fine _ (c_arg_list _ _ _ _ _) => apply (o_arg_list _ _ _ T)
  | |- fine _ (c_spread _ _ _) => apply (o_spread _ _ _ T)
  | |- fine _ (c_arrow _ _ _ _ _) => apply (o_arrow _ _ _ T)
  | |- fine _ (c_obj_prop _ _ _) => apply (o_obj_prop _ _ _ T)
  | |- fine _ (c_tpl _ _ _ _) => apply (o_tpl _ _ _ T)
  | |- fine _ (c_primary _ _ _) => apply (o_primary _ _ _ T)
  | |- fine _ (block _ _) => apply block_fine
  end.
Ltac go := cbv zeta; match goal with
  | |- fine _ (POk _ _) => cbn [fine]; arith
  | |- fine _ PErr => exact Logic.I
  | |- fine _ PPanic => exact Logic.I
  | |- fine _ (pbind (POk _ _) _) => cbn [pbind]; go
  | |- fine _ (pbind PErr _) => exact Logic.I
  | |- fine _ (pbind PPanic _) => exact Logic.I
  | H : ahead_yield _ _ ?s = true |- fine _ (c_yield_expr _ _ _) => apply yield_len in H; call; arith
  | |- fine _ (pbind (pbind _ _) _) => rewrite bind_bind; go
  | |- fine _ (pbind (alift ?x _) _) => destruct x; cbn [alift]; go
  | |- fine _ (pbind (must _ _) _) => unfold must; go
  | |- fine _ (pbind (prop_dot _ _) _) => unfold prop_dot; go
  | |- fine _ (pbind (match ?x with _ => _ end) _) => destruct x eqn:?; go
  | |- fine _ (pbind _ _) => eapply fine_bind; [first_call; arith|intros; go]
  | |- fine _ (alift _ _) => apply fine_lift; intros; go
  | |- fine _ (match ?x with _ => _ end) => destruct x eqn:?; go
  | |- fine _ (block _ _) => call; arith
  | |- fine _ (other_expr _) => unfold other_expr; eapply fine_bind; [eapply other_fine; [|eassumption]; arith|intros; go]
  | |- fine _ (method_expr _) => unfold method_expr; eapply fine_bind; [eapply method_fine; [|eassumption]; arith|intros; go]
  | |- fine _ _ => call; arith
  end.

Lemma seq_tot : forall k s, ready s 13 -> fine (len s) (seq_b text rc k s). Proof. intros k s [A B]. unfold seq_b. go. Qed.
Lemma seq_loop_tot : forall k l acc s, ready s 1 -> fine (S (len s)) (seq_loop_b rc k l acc s). Proof. intros k l acc s [A B]. unfold seq_loop_b. go. Qed.
Lemma assign_tot : forall k c s, ready s 12 -> fine (len s) (assign_b feat text chk rc k c s). Proof. intros k c s [A B]. unfold assign_b. go. Qed.
Lemma yield_tot : forall k s, ready s 1 -> 0 < len s -> fine (len s) (yield_expr_b feat rc k s). Proof. intros k s [A B] P. unfold yield_expr_b. go. Qed.
Lemma cond_tot : forall k s, ready s 11 -> fine (len s) (cond_b feat rc k s).
Proof.
  intros k s [A B]. unfold cond_b. eapply fine_bind; [apply bin_expr_fine with (top := len s)|intros; go].
  - intros s0 L0. apply (o_unary _ _ _ T); arith.
  - intros. exact Logic.I.
  - lia.
  - pose proof (o_fuel _ _ _ T). lia.
Qed.
Lemma unary_tot : forall k s, ready s 10 -> fine (len s) (unary_b feat other rc k s). Proof. intros k s [A B]. unfold unary_b. go. Qed.
Lemma update_tot : forall k s, ready s 9 -> fine (len s) (update_b rc k s). Proof. intros k s [A B]. unfold update_b. go. Qed.
Lemma lhs_tot : forall k s, ready s 8 -> fine (len s) (lhs_b rc k s). Proof. intros k s [A B]. unfold lhs_b. go. Qed.
Lemma new_expr_tot : forall k s, ready s 1 -> 0 < len s -> fine (len s) (new_expr_b feat text rc k s). Proof. intros k s [A B] P. unfold new_expr_b. go. Qed.
Lemma new_loop_tot : forall k e r o s, ready s 7 -> fine (S (len s)) (new_loop_b rc k e r o s). Proof. intros k e r o s [A B]. unfold new_loop_b. go. Qed.
Lemma call_none_tot : forall k r d o s, ready s 6 -> fine (len s) (call_expr_b rc k None r d o s). Proof. intros k r d o s [A B]. unfold call_expr_b. go. Qed.
Lemma call_some_tot : forall k c r d o s, ready s 6 -> fine (len s + if at_tok T_PAREN_L s then 0 else 1) (call_expr_b rc k (Some c) r d o s).
Proof. intros k c r d o s [A B]. unfold call_expr_b. go. Qed.
Lemma call_loop_tot : forall k l c r d o s, ready s 5 -> fine (len s + if at_tok T_PAREN_L s then 0 else 1) (call_loop_b rc k l c r d o s).
Proof. intros k l c r d o s [A B]. unfold call_loop_b. go. Qed.
Lemma member_none_tot : forall k c r p s, ready s 4 -> fine (len s) (member_expr_b rc k None c r p s). Proof. intros k c r p s [A B]. unfold member_expr_b. go. Qed.
Lemma member_some_tot : forall k o c r p s, ready s 4 -> at3 s = true -> fine (len s) (member_expr_b rc k (Some o) c r p s).
Proof. intros k o c r p s [A B] P. unfold member_expr_b. go. Qed.
Lemma member_loop_tot : forall k e o s, ready s 2 -> fine (len s + if at3 s then 0 else 1) (member_loop_b text rc k e o s).
Proof. intros k e o s [A B]. unfold member_loop_b. go. Qed.
Lemma subscript_tot : forall k e o s, ready s 1 -> 0 < len s -> fine (len s) (subscript_b rc k e o s). Proof. intros k e o s [A B] P. unfold subscript_b. go. Qed.
Lemma arg_list_tot : forall k c i s, ready s 1 -> fine (len s) (arg_list_b rc k c i s). Proof. intros k c i s [A B]. unfold arg_list_b. go. Qed.
Lemma arg_loop_tot : forall k c i acc t s, ready s 13 -> fine (len s) (arg_loop_b text rc k c i acc t s). Proof. intros k c i acc t s [A B]. unfold arg_loop_b. go. Qed.
Lemma spread_tot : forall k s, ready s 1 -> 0 < len s -> fine (len s) (spread_b feat rc k s). Proof. intros k s [A B] P. unfold spread_b. go. Qed.
Lemma paren_tot : forall k s, ready s 2 -> fine (len s) (paren_b feat text chk rc k s). Proof. intros k s [A B]. unfold paren_b. go. Qed.
Lemma arrow_tot : forall k l ps s, ready s 1 -> 0 < len s -> fine (len s) (arrow_b block params_ok rc k l ps s). Proof. intros k l ps s [A B] P. unfold arrow_b. go. Qed.
Lemma arr_lit_tot : forall k l acc s, ready s 13 -> fine (len s) (arr_lit_b rc k l acc s).
Proof. intros k l acc s [A B]. unfold arr_lit_b. destruct (elision (S (length (p_toks s))) s) as [h s0] eqn:E. apply elision_len in E. go. Qed.
Lemma obj_lit_tot : forall k l acc s, ready s 14 -> fine (len s) (obj_lit_b rc k l acc s). Proof. intros k l acc s [A B]. unfold obj_lit_b. go. Qed.
Lemma obj_prop_tot : forall k s, ready s 13 -> fine (len s) (obj_prop_b text method rc k s). Proof. intros k s [A B]. unfold obj_prop_b. go. Qed.
Lemma tpl_tot : forall k t s, ready s 2 -> fine (len s) (tpl_b rc k t s). Proof. intros k t s [A B]. unfold tpl_b. go. Qed.
Lemma tpl_loop_tot : forall k t l acc s, ready s 1 -> fine (len s) (tpl_loop_b feat rc k t l acc s). Proof. intros k t l acc s [A B]. unfold tpl_loop_b. go. Qed.
Lemma primary_tot : forall k s, ready s 3 -> fine (len s) (primary_b text chk other rc k s).
Proof.
  intros k s [A B]. unfold primary_b. destruct (other k s) as [x|] eqn:O; [|go]. unfold other_expr. rewrite bind_bind.
  eapply fine_bind; [eapply other_fine; [|eassumption]; arith|]. intros. go.
Qed.
End Total.

Theorem calls_total : forall feat text chk params_ok other method block top,
  (forall k s x, len s < top -> other k s = Some x -> fine (len s) x) -> (forall k s x, len s < top -> method k s = Some x -> fine (len s) x) ->
  (forall k s, len s < top -> fine (len s) (block k s)) ->
  forall n, total (calls_at feat text chk other method block params_ok n) n top.
Proof.
  intros feat text chk params_ok other method block top Ho Hm Hb. induction n as [|n IH].
  - constructor; unfold room; cbn; intros; lia.
  - constructor; unfold room; cbn [calls_at c_fuel c_seq c_seq_loop c_assign c_yield_expr c_cond c_unary c_update c_lhs c_new_expr c_new_loop c_call_expr c_call_loop
      c_member_expr c_member_loop c_subscript c_arg_list c_arg_loop c_spread c_paren c_arrow c_arr_lit c_obj_lit c_obj_prop c_tpl c_tpl_loop c_primary]; [lia|..]; intros.
    + eapply seq_tot; first [exact IH|exact Ho|exact Hm|exact Hb|lia|eassumption].
    + eapply seq_loop_tot; first [exact IH|exact Ho|exact Hm|exact Hb|lia|eassumption].
    + eapply assign_tot; first [exact IH|exact Ho|exact Hm|exact Hb|lia|eassumption].
    + eapply yield_tot; first [exact IH|exact Ho|exact Hm|exact Hb|lia|eassumption].
    + eapply cond_tot; first [exact IH|exact Ho|exact Hm|exact Hb|lia|eassumption].
    + eapply unary_tot; first [exact IH|exact Ho|exact Hm|exact Hb|lia|eassumption].
    + eapply update_tot; first [exact IH|exact Ho|exact Hm|exact Hb|lia|eassumption].
    + eapply lhs_tot; first [exact IH|exact Ho|exact Hm|exact Hb|lia|eassumption].
    + eapply new_expr_tot; first [exact IH|exact Ho|exact Hm|exact Hb|lia|eassumption].
    + eapply new_loop_tot; first [exact IH|exact Ho|exact Hm|exact Hb|lia|eassumption].
    + eapply call_none_tot; first [exact IH|exact Ho|exact Hm|exact Hb|lia|eassumption].
    + eapply call_some_tot; first [exact IH|exact Ho|exact Hm|exact Hb|lia|eassumption].
    + eapply call_loop_tot; first [exact IH|exact Ho|exact Hm|exact Hb|lia|eassumption].
    + eapply member_none_tot; first [exact IH|exact Ho|exact Hm|exact Hb|lia|eassumption].
    + eapply member_some_tot; first [exact IH|exact Ho|exact Hm|exact Hb|lia|eassumption].
    + eapply member_loop_tot; first [exact IH|exact Ho|exact Hm|exact Hb|lia|eassumption].
    + eapply subscript_tot; first [exact IH|exact Ho|exact Hm|exact Hb|lia|eassumption].
    + eapply arg_list_tot; first [exact IH|exact Ho|exact Hm|exact Hb|lia|eassumption].
    + eapply arg_loop_tot; first [exact IH|exact Ho|exact Hm|exact Hb|lia|eassumption].
    + eapply spread_tot; first [exact IH|exact Ho|exact Hm|exact Hb|lia|eassumption].
    + eapply paren_tot; first [exact IH|exact Ho|exact Hm|exact Hb|lia|eassumption].
    + eapply arrow_tot; first [exact IH|exact Ho|exact Hm|exact Hb|lia|eassumption].
    + eapply arr_lit_tot; first [exact IH|exact Ho|exact Hm|exact Hb|lia|eassumption].
    + eapply obj_lit_tot; first [exact IH|exact Ho|exact Hm|exact Hb|lia|eassumption].
    + eapply obj_prop_tot; first [exact IH|exact Ho|exact Hm|exact Hb|lia|eassumption].
    + eapply tpl_tot; first [exact IH|exact Ho|exact Hm|exact Hb|lia|eassumption].
    + eapply tpl_loop_tot; first [exact IH|exact Ho|exact Hm|exact Hb|lia|eassumption].
    + eapply primary_tot; first [exact IH|exact Ho|exact Hm|exact Hb|lia|eassumption].
Qed.
