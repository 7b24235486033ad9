(** C51 for TypeScript: reading types and lists ends. *)
From Coq Require Import Lia PeanoNat.
From Verif Require Import Base TokenModel LexModel ParseBase ExprModel ExprFuel ExprProps FuelProps TsUnionModel TsUnionProofs TsListModel TsListProofs TsUnionProps TsListProps TsCondModel.

Lemma at_len : forall v s, at_tok v s = true -> tv_eqb v T_EOF = false -> 0 < len s.
Proof.
  intros v s H D. unfold len. destruct (p_toks s) eqn:E; [|cbn; lia]. exfalso.
  assert (P : at_tok T_EOF s = true) by (unfold at_tok, pval, peek; rewrite E; reflexivity).
  rewrite (at_two v T_EOF s H D) in P. discriminate.
Qed.
Lemma op_len : forall s, at_op s = true -> 0 < len s.
Proof. intros s H. unfold at_op in H. apply orb_prop in H. destruct H as [H|H]; exact (at_len _ _ H eq_refl). Qed.
(** No lack of fuel, and at most the tokens of [s] are left. *)
Definition fin {A} (s : pst) (x : pres A) : Prop := match x with POk _ s' => len s' <= len s | PFuel => False | _ => True end.
Section Union.
Variables (A : Type) (prim : pst -> pres A) (is_fn : A -> bool) (most : nat).
Hypothesis prim_ends : forall s, len s <= most -> ends s (prim s).
Lemma union_fin : forall n,
  (forall c lhs min s, len s <= most -> 3 * len s + 2 <= n -> fin s (union_at A prim is_fn n c lhs min s) /\
    (lhs <> None -> at_op s = true -> min <= pcd s -> forall t s', union_at A prim is_fn n c lhs min s = POk t s' -> s' = s \/ len s' < len s)) /\
  (forall lhs rhs nt es min s, len s <= most -> 3 * len s + 1 <= n -> fin s (union_loop A prim is_fn n lhs rhs nt es min s) /\
    (at_op s = true -> min <= pcd s -> forall t s', union_loop A prim is_fn n lhs rhs nt es min s = POk t s' -> len s' < len s)) /\
  (forall r p s, len s <= most -> 3 * len s + 3 <= n -> fin s (rhs_at A prim is_fn n r p s)).
Proof using prim_ends.
  induction n as [|n (I1 & I2 & I3)]; [split; [|split]; intros; lia|]. split; [|split].
  - intros c lhs min s Lm Le. rewrite at_eq. destruct lhs as [t|]; [|split; [|congruence]; destruct (at_op s)].
    + cbn [pbind]. destruct (I2 (Some t) None None [] min s ltac:(lia) ltac:(lia)) as [F G].
      assert (G' : Some t <> None -> at_op s = true -> min <= pcd s -> forall t' s', union_loop A prim is_fn n (Some t) None None [] min s = POk t' s' -> s' = s \/ len s' < len s)
        by (intros _ O M t' s' H; right; exact (G O M t' s' H)).
      destruct t as [a|l|l]; try (split; [exact F|exact G']).
      destruct (is_fn a && negb c); [|split; [exact F|exact G']]. split; [cbn; lia|]. intros _ _ _ t' s' H. injection H as <- <-. left; reflexivity.
    + cbn [pbind]. apply I2; lia.
    + pose proof (prim_ends s Lm) as P. destruct (prim s) as [a s1| | |]; cbn [pbind] in *; try exact P; try exact Logic.I. cbn in P. fold (len s1) in P. fold (len s) in P.
      destruct (is_fn a && negb c); [cbn; lia|].
      pose proof (proj1 (I2 (Some (TOne a)) None None [] min s1 ltac:(lia) ltac:(lia))) as F. unfold fin in *. destruct (union_loop _ _ _ _ _ _ _ _ _ _); auto. lia.
  - intros lhs rhs nt es min s Lm Le. rewrite loop_eq. destruct (at_op s) eqn:O; cbn [negb orb].
    2: { split; [destruct lhs, rhs; cbn; auto|discriminate]. }
    destruct (Nat.ltb (pcd s) min) eqn:Lt; [split; [destruct lhs, rhs; cbn; auto|apply Nat.ltb_lt in Lt; intros; lia]|]. cbv zeta. pose proof (op_len s O) as L.
    pose proof (prim_ends (next s) ltac:(rewrite len_next; lia)) as P. destruct (prim (next s)) as [a s1| | |]; cbn [pbind] in *; try (split; [exact P|discriminate]).
    cbn [ends] in P. fold (len s1) in P. fold (len (next s)) in P. rewrite len_next in P.
    pose proof (I3 (TOne a) (pcd s) s1 ltac:(lia) ltac:(lia)) as R. destruct (rhs_at A prim is_fn n (TOne a) (pcd s) s1) as [x s2| | |]; cbn [pbind fin] in *; try (split; [exact R|discriminate]).
    assert (Z : forall lhs rhs nt es, fin s (union_loop A prim is_fn n lhs rhs nt es min s2) /\
      (true = true -> min <= pcd s -> forall t s', union_loop A prim is_fn n lhs rhs nt es min s2 = POk t s' -> len s' < len s)).
    { intros lhs' rhs' nt' es'. pose proof (proj1 (I2 lhs' rhs' nt' es' min s2 ltac:(lia) ltac:(lia))) as F. unfold fin in *.
      destruct (union_loop _ _ _ _ _ _ _ _ _ _); (split; [try lia; auto|intros _ _ t' s' H; try discriminate]); injection H as <- <-; lia. }
    destruct lhs; [match goal with |- context [if ?c then _ else _] => destruct c end|]; apply Z.
  - intros r p s Lm Le. rewrite rhs_eq. destruct (at_op s && Nat.ltb p (pcd s)) eqn:G; [|cbn; lia]. cbv zeta. apply andb_prop in G. destruct G as [O _].
    destruct (I1 false (Some r) (pcd s) s ltac:(lia) ltac:(lia)) as [F K].
    destruct (union_at A prim is_fn n false (Some r) (pcd s) s) as [t s1| | |] eqn:E; cbn [pbind fin] in *; auto.
    destruct (K ltac:(discriminate) O (le_n _) t s1 eq_refl) as [->|Q].
    + destruct n as [|n]; [lia|]. rewrite rhs_eq, Nat.ltb_irrefl, andb_false_r. cbn. lia.
    + pose proof (I3 t (pcd s) s1 ltac:(lia) ltac:(lia)) as R. unfold fin in *. destruct (rhs_at _ _ _ _ _ _ _); auto. lia.
Qed.
Lemma typ_fin : forall n s, len s <= most -> 3 * len s + 2 <= n -> fin s (ts_typ A prim is_fn n s).
Proof using prim_ends. intros n s Lm Le. exact (proj1 (proj1 (union_fin n) false None 0 s Lm Le)). Qed.
End Union.
(** Reading a type ends, with calls nested at most three deep for each token. *)
Theorem C51_types : forall (A : Type) (prim : pst -> pres A) (is_fn : A -> bool), (forall s, ends s (prim s)) ->
  forall s depth, 3 * length (p_toks s) + 2 <= depth -> ts_typ A prim is_fn depth s <> PFuel.
Proof.
  intros A prim is_fn H s depth Le E. pose proof (typ_fin A prim is_fn (len s) (fun s _ => H s) depth s (le_n _) Le) as F. rewrite E in F. exact F.
Qed.
Print Assumptions C51_types.

Lemma skip_len : forall s, len (skip_comma s) <= len s.
Proof. intros s. unfold skip_comma. destruct (at_tok T_COMMA s); [rewrite len_next|]; lia. Qed.
(** Conditional types too. *)
Lemma must_fin : forall v s, tv_eqb v T_EOF = false -> match must v s with POk _ s1 => len s1 < len s | PFuel => False | _ => True end.
Proof. intros v s D. unfold must. destruct (at_tok v s) eqn:E; [|exact Logic.I]. pose proof (at_len _ _ E D). rewrite len_next. lia. Qed.
Section Cond.
Variables (B : Type) (base : pst -> pres B) (early is_fn : B -> bool).
Hypothesis base_ends : forall s, ends s (base s).
Lemma cond_fin : forall n c s, 3 * len s + 3 <= n -> fin s (cond_typ B base early is_fn n c s).
Proof using base_ends.
  induction n as [|n IH]; intros c s Le; [lia|]. cbn [cond_typ]. apply (typ_fin _ _ _ (len s)); [|lia|lia].
  intros s0 Lm. unfold primary. pose proof (base_ends s0) as P. destruct (base s0) as [b s1| | |]; cbn [pbind ends] in *; auto. fold (len s1) in P. fold (len s0) in P.
  destruct (negb (early b) && at_tok T_EXTENDS s1 && c); [|exact P]. unfold conditional.
  pose proof (must_fin T_EXTENDS s1 eq_refl) as M1. destruct (must T_EXTENDS s1) as [u1 s2| | |]; cbn [pbind ends]; auto.
  pose proof (IH false s2 ltac:(lia)) as F1. destruct (cond_typ B base early is_fn n false s2) as [e s3| | |]; cbn [pbind fin ends] in *; auto.
  pose proof (must_fin T_HOOK s3 eq_refl) as M2. destruct (must T_HOOK s3) as [u2 s4| | |]; cbn [pbind ends]; auto.
  pose proof (IH true s4 ltac:(lia)) as F2. destruct (cond_typ B base early is_fn n true s4) as [y s5| | |]; cbn [pbind fin ends] in *; auto.
  pose proof (must_fin T_COLON s5 eq_refl) as M3. destruct (must T_COLON s5) as [u3 s6| | |]; cbn [pbind ends]; auto.
  pose proof (IH true s6 ltac:(lia)) as F3. destruct (cond_typ B base early is_fn n true s6) as [z s7| | |]; cbn [pbind fin ends] in *; auto. unfold len in *. lia.
Qed.
Theorem C51_conditional_types : forall can_cond s depth, 3 * length (p_toks s) + 3 <= depth -> cond_typ B base early is_fn depth can_cond s <> PFuel.
Proof using base_ends. intros c s depth Le E. pose proof (cond_fin depth c s Le) as F. rewrite E in F. exact F. Qed.
End Cond.
Print Assumptions C51_conditional_types.

Section Lists.
Variables (A : Type) (item : pst -> pres A).
Hypothesis item_ends : forall s, ends s (item s).
Ltac turn s := let P := fresh "P" in pose proof (item_ends s) as P; destruct (item s) as [a s1| | |]; cbn [pbind ends] in *; try discriminate; try contradiction; fold (len s1) in P; fold (len s) in P.
Lemma enum_ends : forall n acc s, len s < n -> enum_loop A item n acc s <> PFuel.
Proof using item_ends.
  induction n as [|n IH]; intros acc s Le; [lia|]. cbn [enum_loop]. destruct (at_tok T_BRACE_R s); [discriminate|]. turn s. apply IH. pose proof (skip_len s1). lia.
Qed.
Lemma params_ends : forall n acc s, len s < n -> params_loop A item n acc s <> PFuel.
Proof using item_ends.
  induction n as [|n IH]; intros acc s Le; [lia|]. cbn [params_loop]. destruct (at_tok T_GT s); [discriminate|]. pose proof (skip_len s) as K. turn (skip_comma s). apply IH. lia.
Qed.
Lemma args_ends : forall n acc s, len s < n -> args_loop A item n acc s <> PFuel.
Proof using item_ends.
  induction n as [|n IH]; intros acc s Le; [lia|]. cbn [args_loop]. destruct (at_tok T_GT s); [discriminate|]. destruct (negb _); [discriminate|]. turn s.
  destruct (at_tok T_COMMA s1); [apply IH; rewrite len_next; lia|]. destruct (at_tok T_GT s1); discriminate.
Qed.
Lemma ext_ends : forall n acc s, len s < n -> ext_loop A item n acc s <> PFuel.
Proof using item_ends.
  induction n as [|n IH]; intros acc s Le; [lia|]. cbn [ext_loop]. turn s. destruct (at_tok T_BRACE_L s1); [discriminate|]. apply IH. pose proof (skip_len s1). lia.
Qed.
Lemma impl_ends : forall n acc s, len s < n -> impl_loop A item n acc s <> PFuel.
Proof using item_ends.
  induction n as [|n IH]; intros acc s Le; [lia|]. cbn [impl_loop]. destruct (at_tok T_BRACE_L s); [discriminate|]. turn s. apply IH. lia.
Qed.
Lemma tuple_ends : forall kind n nm o acc s, len s < n -> tuple_loop A item kind n nm o acc s <> PFuel.
Proof using item_ends.
  intros kind. induction n as [|n IH]; intros nm o acc s Le; [lia|]. cbn [tuple_loop]. destruct (at_tok T_BRACKET_R s); [discriminate|]. turn s. cbv zeta.
  pose proof (skip_len s1) as K. assert (Z : forall nm o acc, tuple_loop A item kind n nm o acc (skip_comma s1) <> PFuel) by (intros; apply IH; lia).
  destruct (kind a) as [o'| |r|]; repeat match goal with |- (if ?c then _ else _) <> PFuel => destruct c; [discriminate|] end; apply Z.
Qed.
(** Reading a list ends, in a turn for each token and one. *)
Theorem C51_lists : forall s depth, length (p_toks s) < depth ->
  enum_body A item depth s <> PFuel /\ typ_params A item depth s <> PFuel /\ typ_args A item depth s <> PFuel /\
  ext_clause A item depth s <> PFuel /\ implements A item depth s <> PFuel /\ (forall kind, tuple A item kind depth s <> PFuel).
Proof using item_ends.
  intros s depth Le. fold (len s) in Le. assert (Ln : len (next s) < depth) by (rewrite len_next; lia). repeat split.
  - unfold enum_body, must. destruct (at_tok T_BRACE_L s); [|discriminate]. cbn [pbind]. apply enum_ends, Ln.
  - unfold typ_params. pose proof (params_ends depth [] (next s) Ln) as K. destruct (params_loop _ _ _ _ _) as [[|] ?| | |]; cbn; congruence.
  - unfold typ_args. pose proof (args_ends depth [] (next s) Ln) as K. destruct (args_loop _ _ _ _ _) as [[|] ?| | |]; cbn; congruence.
  - unfold ext_clause. destruct (at_tok T_EXTENDS s); [|discriminate]. destruct (at_tok T_BRACE_L (next s)); [discriminate|]. apply ext_ends, Ln.
  - unfold implements. destruct (at_tok T_IMPLEMENTS s); [|discriminate]. pose proof (impl_ends depth [] (next s) Ln) as K. destruct (impl_loop _ _ _ _ _) as [[|] ?| | |]; cbn; congruence.
  - intros kind. apply tuple_ends, Ln.
Qed.
End Lists.
Print Assumptions C51_lists.
(** Names end. *)
Example names_end : forall s, ends s (one_name s).
Proof.
  intros s. unfold one_name. destruct (at_tok T_NAME s) eqn:E; [|exact Logic.I]. pose proof (at_len _ _ E eq_refl) as L. cbn. unfold len in L.
  destruct (p_toks s); cbn in *; lia.
Qed.
Example types_of_names_end : forall s, ts_typ bytes one_name (fun _ => false) (3 * length (p_toks s) + 2) s <> PFuel.
Proof. intros s. apply (C51_types bytes one_name (fun _ => false) names_end). lia. Qed.
(** With nothing left, a list that is not closed is an error and not a loop. *)
Example open_list : enum_body bytes one_name 2 (src [y T_BRACE_L]) = PErr.
Proof. reflexivity. Qed.
Example conditional_types_of_names_end : forall c s, cond_typ bytes one_name (fun _ => false) (fun _ => false) (3 * length (p_toks s) + 3) c s <> PFuel.
Proof. intros c s. apply (C51_conditional_types bytes one_name (fun _ => false) (fun _ => false) names_end). lia. Qed.
