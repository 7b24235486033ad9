(** Fuel: with more of it the parser of functions, methods and classes gives the same result, and in proportion to the
    tokens it suffices, however deep functions and statements are nested in one another. *)
From Coq Require Import Lia ZifyBool ZifyNat ZifyN.
From Verif Require Import Base TokenModel LexModel ParseBase BinModel SymtabModel EarlyModel ExprModel ExprFuel StmtModel StmtFuel FnModel.

(** ** More fuel *)
Section Mono.
Variables (feat : N) (text : token -> bytes) (chk : pst -> bool).
Variables (ex ex' asg asg' lhs lhs' : N -> pst -> pres expr) (args args' : N -> pst -> pres (list expr * bool)) (body body' : N -> pst -> pres stmt) (var var' : tv -> N -> pst -> pres stmt).
Variables (fn_ok : N -> option expr -> list expr -> stmt -> pst -> bool) (class_ok : N -> expr -> pst -> bool).
Variables (rest_async : bool -> N -> pst -> pres rng) (rest_other : N -> pst -> option (pres rng)).
Variables (n m : nat).
Hypotheses (ex_le : forall k s, ple (ex k s) (ex' k s)) (asg_le : forall k s, ple (asg k s) (asg' k s)) (lhs_le : forall k s, ple (lhs k s) (lhs' k s))
  (args_le : forall k s, ple (args k s) (args' k s)) (body_le : forall k s, ple (body k s) (body' k s)) (var_le : forall v k s, ple (var v k s) (var' v k s)) (Le : n <= m).
Ltac mono tac := cbv zeta; match goal with
  | |- ple ?x ?x => apply ple_refl
  | |- ple (pbind _ _) (pbind _ _) => apply ple_bind; [mono tac|intros; mono tac]
  | |- ple (alift _ _) (alift _ _) => apply ple_lift; intros; mono tac
  | |- ple (match ?x with _ => _ end) (match ?x with _ => _ end) => destruct x; mono tac
  | |- ple (ex _ _) _ => apply ex_le
  | |- ple (asg _ _) _ => apply asg_le
  | |- ple (lhs _ _) _ => apply lhs_le
  | |- ple (args _ _) _ => apply args_le
  | |- ple (body _ _) _ => apply body_le
  | |- ple (var _ _ _) _ => apply var_le
  | |- ple _ _ => tac
  end.
Ltac none := fail.
Local Lemma bound_le : forall e k s, ple (bind feat text asg n e k s) (bind feat text asg' m e k s).
Proof.
  apply bind1_le with (ex := fun _ _ => PErr) (ex' := fun _ _ => PErr) (decl := fun _ _ => None) (decl' := fun _ _ => None);
    [exact (fun _ _ _ => true)|exact (fun _ _ _ => true)|intros; apply ple_refl|exact asg_le|intros; right; reflexivity|exact Le].
Qed.
Lemma param_le : forall kind k s, ple (param feat text chk asg n kind k s) (param feat text chk asg' m kind k s).
Proof. intros. unfold param. mono ltac:(apply bound_le). Qed.
Lemma param_loop_le : forall i j, i <= j -> forall kind k acc s,
  ple (param_loop feat text chk asg n i kind k acc s) (param_loop feat text chk asg' m j kind k acc s).
Proof.
  induction i as [|i IH]; intros j L kind k acc s; [left; reflexivity|]. destruct j as [|j]; [lia|]. cbn [param_loop].
  mono ltac:(first [apply param_le|apply IH; lia]).
Qed.
Lemma param_list_le : forall kind k s, ple (param_list feat text chk asg n kind k s) (param_list feat text chk asg' m kind k s).
Proof. intros. unfold param_list. mono ltac:(apply param_loop_le; exact Le). Qed.
Lemma fn_body_le : forall e k s, ple (fn_body ex body e k s) (fn_body ex' body' e k s).
Proof. intros. unfold fn_body. mono none. Qed.
Lemma fn_dec_le : forall dec anon k s, ple (fn_dec feat text chk ex asg body fn_ok n dec anon k s) (fn_dec feat text chk ex' asg' body' fn_ok m dec anon k s).
Proof. intros. unfold fn_dec. mono ltac:(first [apply param_list_le|apply fn_body_le]). Qed.
Lemma async_arrow_le : forall dec k s, ple (async_arrow feat text chk ex args body fn_ok dec k s) (async_arrow feat text chk ex' args' body' fn_ok dec k s).
Proof. intros. unfold async_arrow. mono ltac:(apply fn_body_le). Qed.
Lemma to_range_le : forall x y, ple x y -> ple (to_range x) (to_range y).
Proof. intros x y H. unfold to_range. apply ple_bind; [exact H|intros; apply ple_refl]. Qed.
Lemma async_node_le : forall dec anon k s,
  ple (async_node feat text chk ex asg args body fn_ok rest_async n dec anon k s) (async_node feat text chk ex' asg' args' body' fn_ok rest_async m dec anon k s).
Proof. intros. unfold async_node. mono ltac:(first [apply fn_dec_le|apply async_arrow_le]). Qed.
Lemma key_at_le : forall p k s, ple (key_at text asg p k s) (key_at text asg' p k s).
Proof. intros. unfold key_at. mono ltac:(apply prop_name_le; exact asg_le). Qed.
Lemma method_rest_le : forall c st a g kind l k key comp esc s,
  ple (method_rest feat text chk ex asg body fn_ok n c st a g kind l k key comp esc s) (method_rest feat text chk ex' asg' body' fn_ok m c st a g kind l k key comp esc s).
Proof. intros. unfold method_rest. mono ltac:(first [apply param_list_le|apply fn_body_le]). Qed.
Lemma method_new_le : forall c st a g kind l k s,
  ple (method_new feat text chk ex asg body fn_ok n c st a g kind l k s) (method_new feat text chk ex' asg' body' fn_ok m c st a g kind l k s).
Proof. intros. unfold method_new. mono ltac:(first [apply key_at_le|apply method_rest_le]). Qed.
Lemma field_rest_le : forall st l k key comp esc s,
  ple (field_rest feat text chk ex asg body fn_ok n st l k key comp esc s) (field_rest feat text chk ex' asg' body' fn_ok m st l k key comp esc s).
Proof. intros. unfold field_rest. mono ltac:(apply method_rest_le). Qed.
Lemma elem_rest_le : forall st l k s,
  ple (elem_rest feat text chk ex asg body fn_ok n st l k s) (elem_rest feat text chk ex' asg' body' fn_ok m st l k s).
Proof. intros. unfold elem_rest, as_member. mono ltac:(first [apply method_new_le|apply method_rest_le|apply field_rest_le|apply key_at_le]). Qed.
Lemma class_elem_le : forall k s,
  ple (class_elem feat text chk ex asg body fn_ok n k s) (class_elem feat text chk ex' asg' body' fn_ok m k s).
Proof. intros. unfold class_elem, as_member. mono ltac:(first [apply method_rest_le|apply field_rest_le|apply elem_rest_le]). Qed.
Lemma class_loop_le : forall i j, i <= j -> forall k acc s,
  ple (class_loop feat text chk ex asg body fn_ok n i k acc s) (class_loop feat text chk ex' asg' body' fn_ok m j k acc s).
Proof.
  induction i as [|i IH]; intros j L k acc s; [left; reflexivity|]. destruct j as [|j]; [lia|]. cbn [class_loop].
  mono ltac:(first [apply class_elem_le|apply IH; lia]).
Qed.
Lemma class_dec_le : forall dec anon k s,
  ple (class_dec feat text chk ex asg lhs body fn_ok class_ok n dec anon k s) (class_dec feat text chk ex' asg' lhs' body' fn_ok class_ok m dec anon k s).
Proof. intros. unfold class_dec. mono ltac:(apply class_loop_le; exact Le). Qed.
Lemma import_named_le : forall i j, i <= j -> forall k acc s, ple (import_named text i k acc s) (import_named text j k acc s).
Proof. induction i as [|i IH]; intros j L k acc s; [left; reflexivity|]. destruct j as [|j]; [lia|]. cbn [import_named]. mono ltac:(apply IH; lia). Qed.
Lemma import_dec_le : forall k s, ple (import_dec text n k s) (import_dec text m k s).
Proof. intros. unfold import_dec, import_group. mono ltac:(apply import_named_le; exact Le). Qed.
Lemma export_named_le : forall i j, i <= j -> forall k acc s, ple (export_named text i k acc s) (export_named text j k acc s).
Proof. induction i as [|i IH]; intros j L k acc s; [left; reflexivity|]. destruct j as [|j]; [lia|]. cbn [export_named]. mono ltac:(apply IH; lia). Qed.
Lemma export_dec_le : forall k s,
  ple (export_dec feat text chk ex asg lhs args body var fn_ok class_ok rest_async n k s) (export_dec feat text chk ex' asg' lhs' args' body' var' fn_ok class_ok rest_async m k s).
Proof.
  intros. unfold export_dec, export_any, export_fn, export_from.
  mono ltac:(first [apply fn_dec_le|apply async_node_le|apply class_dec_le|apply export_named_le; exact Le]).
Qed.
Lemma some_le : forall x y, ple x y -> ole (Some x) (Some y).
Proof. intros x y [->| ->]; [left|right]; reflexivity. Qed.
Lemma other_at_le : forall k s, ole (other_at feat text chk ex asg lhs args body fn_ok class_ok rest_async rest_other n k s)
  (other_at feat text chk ex' asg' lhs' args' body' fn_ok class_ok rest_async rest_other m k s).
Proof.
  intros. unfold other_at. destruct (at_tok T_FUNC s); [apply some_le, to_range_le, fn_dec_le|].
  destruct (at_tok T_CLASS s); [apply some_le, to_range_le, class_dec_le|].
  destruct (ahead_async _ _ _ _ _); [apply some_le, to_range_le, async_node_le|right; reflexivity].
Qed.
Lemma sole_le : forall k x y, ple x y -> ple (sole k x) (sole k y).
Proof. intros k x y H. unfold sole. apply ple_bind; [exact H|intros; apply ple_refl]. Qed.
Lemma top_le : forall k x y, ple x y -> ple (top k x) (top k y).
Proof. intros k x y H. unfold top. apply ple_bind; [exact H|intros; apply ple_refl]. Qed.
Lemma decl_at_le : forall k s, ole (decl_at feat text chk ex asg lhs args body var fn_ok class_ok rest_async n k s)
  (decl_at feat text chk ex' asg' lhs' args' body' var' fn_ok class_ok rest_async m k s).
Proof.
  intros. unfold decl_at. destruct (at_tok T_FUNC s); [apply some_le, sole_le, to_range_le, fn_dec_le|].
  destruct (at_tok T_CLASS s); [apply some_le; mono ltac:(apply to_range_le, class_dec_le)|].
  destruct (at_tok T_IMPORT s).
  { destruct (_ && _); [right; reflexivity|]. destruct (_ || _); [right; reflexivity|]. apply some_le, top_le, to_range_le, import_dec_le. }
  destruct (at_tok T_EXPORT s); [apply some_le, top_le, to_range_le, export_dec_le|].
  destruct (ahead_async _ _ _ _ _); [apply some_le; mono ltac:(first [apply sole_le, to_range_le, async_node_le|apply to_range_le, async_node_le])|right; reflexivity].
Qed.
Lemma as_method_le : forall x y, ple x y -> ole (as_method x) (as_method y).
Proof. intros x y H. apply some_le. apply ple_bind; [exact H|intros; apply ple_refl]. Qed.
Lemma method_at_le : forall k s, ole (method_at feat text chk ex asg body fn_ok n k s) (method_at feat text chk ex' asg' body' fn_ok m k s).
Proof.
  intros. unfold method_at. cbv zeta.
  destruct (at_tok T_MUL s); [destruct (negb _); [right; reflexivity|apply as_method_le, method_new_le]|].
  destruct (ahead_async _ _ _ _ _); [destruct (contains_escape _); [right; reflexivity|apply as_method_le, method_new_le]|].
  destruct (key_at_le false k s) as [->| ->]; [left; reflexivity|]. destruct (key_at text asg' false k s) as [[[key comp] esc] s1| | |]; try (right; reflexivity).
  repeat match goal with |- ole (if ?b then _ else _) _ => destruct b end; try (right; reflexivity); apply as_method_le; first [apply method_rest_le|apply method_new_le].
Qed.
Lemma block_at_le : forall k s, ple (block_at body k s) (block_at body' k s).
Proof. intros. unfold block_at. mono none. Qed.
End Mono.

(** ** Enough fuel *)
Section Total.
Variables (feat : N) (text : token -> bytes) (chk : pst -> bool).
Variables (ex asg lhs : N -> pst -> pres expr) (args : N -> pst -> pres (list expr * bool)) (body : N -> pst -> pres stmt) (var : tv -> N -> pst -> pres stmt).
Variables (fn_ok : N -> option expr -> list expr -> stmt -> pst -> bool) (class_ok : N -> expr -> pst -> bool).
Variables (rest_async : bool -> N -> pst -> pres rng) (rest_other : N -> pst -> option (pres rng)).
Variables (fuel b : nat).
(** What a function holds is read with less than [b] tokens left, its body with at most that. *)
Hypotheses (ex_fine : forall k s, len s < b -> fine (len s) (ex k s)) (asg_fine : forall k s, len s < b -> fine (len s) (asg k s))
  (lhs_fine : forall k s, len s < b -> fine (len s) (lhs k s)) (args_fine : forall k s, len s < b -> fine (len s) (args k s))
  (body_fine : forall k s, len s <= b -> fine (len s) (body k s))
  (var_fine : forall v k s, len s < b -> 0 < len s -> fine (len s) (var v k s)) (enough : 4 * b + 3 <= fuel).
Hypotheses (async_fine : forall d k s, len s <= b -> fine (len s) (rest_async d k s))
  (other_fine : forall k s x, len s <= b -> rest_other k s = Some x -> fine (len s) x).

Local Lemma name_tot : forall k s, fine (len s) (ident text k s).
Proof.
  intros. apply ident_tot with (ex := fun _ _ => PErr) (asg := fun _ _ => PErr) (decl := fun _ _ => None) (top := 0);
    [exact (fun _ => true)|exact (fun _ _ _ => true)|exact (fun _ _ _ => true)|intros; exact Logic.I|intros; exact Logic.I|discriminate].
Qed.
Local Lemma bound_tot : forall e k s, len s < b -> fine (len s) (bind feat text asg fuel e k s).
Proof.
  intros. apply bind1_tot with (ex := fun _ _ => PErr) (decl := fun _ _ => None) (top := b);
    [exact (fun _ => true)|exact (fun _ _ _ => true)|exact (fun _ _ _ => true)|intros; exact Logic.I|exact asg_fine|discriminate|lia|lia].
Qed.
Ltac e_hd := first [here ex_fine|here asg_fine|here lhs_fine|here args_fine|here body_fine|apply name_tot].
Ltac e_tl := first [more ex_fine|more asg_fine|more lhs_fine|more args_fine|more body_fine].
Lemma param_tot : forall kind k s, len s < b -> fine (len s) (param feat text chk asg fuel kind k s).
Proof. intros. unfold param. go ltac:(first [here bound_tot|here asg_fine]) e_tl. Qed.
Lemma param_loop_tot : forall n kind k acc s, len s < b -> len s < n -> fine (len s) (param_loop feat text chk asg fuel n kind k acc s).
Proof. induction n as [|n IH]; intros; [lia|]. cbn [param_loop]. go ltac:(here param_tot) ltac:(more IH). Qed.
Lemma param_list_tot : forall kind k s, len s <= b -> fine (len s) (param_list feat text chk asg fuel kind k s).
Proof. intros. unfold param_list. go ltac:(here param_loop_tot) ltac:(more param_loop_tot). Qed.
Lemma fn_body_tot : forall e k s, len s < b -> fine (len s) (fn_body ex body e k s).
Proof. intros. unfold fn_body. go e_hd e_tl. Qed.
Lemma fn_dec_tot : forall dec anon k s, len s <= b -> 0 < len s -> fine (len s) (fn_dec feat text chk ex asg body fn_ok fuel dec anon k s).
Proof. intros. unfold fn_dec. go ltac:(first [apply name_tot|here param_list_tot|here fn_body_tot]) e_tl. Qed.
Lemma async_arrow_tot : forall dec k s, len s <= b -> 0 < len s -> fine (len s) (async_arrow feat text chk ex args body fn_ok dec k s).
Proof. intros. unfold async_arrow. go ltac:(first [apply name_tot|here args_fine|here fn_body_tot]) e_tl. Qed.
Lemma to_range_tot : forall n x, fine n x -> fine n (to_range x).
Proof. intros n x H. unfold to_range. eapply fine_bind; [exact H|intros; exact H0]. Qed.
Lemma async_node_tot : forall dec anon k s, len s <= b -> 0 < len s -> fine (len s) (async_node feat text chk ex asg args body fn_ok rest_async fuel dec anon k s).
Proof.
  intros dec anon k s L P. unfold async_node. destruct (contains_escape (peek s)); [exact Logic.I|].
  destruct (at_tok T_FUNC (next s)); [apply fn_dec_tot; assumption|].
  eapply fine_bind; [apply async_arrow_tot; assumption|]. intros [f|] s1 H; [exact H|].
  eapply fine_bind; [apply async_fine; lia|]. intros r s2 H2. cbn; lia.
Qed.
Local Lemma key_name_tot : forall k s, len s <= b -> fine (len s) (prop_name text asg k s).
Proof. intros. unfold prop_name. go e_hd e_tl. Qed.
Lemma key_at_tot : forall p k s, len s <= b -> fine (len s) (key_at text asg p k s).
Proof. intros. unfold key_at. go ltac:(here key_name_tot) e_tl. Qed.
Lemma method_rest_tot : forall c st a g kind l k key comp esc s, len s <= b ->
  fine (len s) (method_rest feat text chk ex asg body fn_ok fuel c st a g kind l k key comp esc s).
Proof. intros. unfold method_rest. go ltac:(first [here param_list_tot|here fn_body_tot]) e_tl. Qed.
Lemma method_new_tot : forall c st a g kind l k s, len s <= b ->
  fine (len s) (method_new feat text chk ex asg body fn_ok fuel c st a g kind l k s).
Proof. intros. unfold method_new. go ltac:(here key_at_tot) ltac:(more method_rest_tot). Qed.
(** With the key, a field has a token. *)
Lemma field_rest_tot : forall st l k key comp esc s, len s <= b ->
  fine (S (len s)) (field_rest feat text chk ex asg body fn_ok fuel st l k key comp esc s).
Proof. intros. unfold field_rest. go ltac:(first [here asg_fine|here method_rest_tot]) e_tl. Qed.
Lemma elem_rest_tot : forall st l k s, len s <= b -> fine (len s) (elem_rest feat text chk ex asg body fn_ok fuel st l k s).
Proof.
  intros. unfold elem_rest, as_member.
  go ltac:(first [here method_new_tot|here method_rest_tot|here key_at_tot]) ltac:(more field_rest_tot).
Qed.
Lemma class_elem_tot : forall k s, len s <= b -> fine (len s) (class_elem feat text chk ex asg body fn_ok fuel k s).
Proof.
  intros. unfold class_elem, as_member.
  go ltac:(first [here method_rest_tot|here body_fine]) ltac:(first [more elem_rest_tot|more field_rest_tot]).
Qed.
Lemma class_loop_tot : forall n k acc s, len s <= b -> len s < n -> fine (len s) (class_loop feat text chk ex asg body fn_ok fuel n k acc s).
Proof. induction n as [|n IH]; intros; [lia|]. cbn [class_loop]. go ltac:(here class_elem_tot) ltac:(more IH). Qed.
Lemma class_dec_tot : forall dec anon k s, len s <= b -> 0 < len s -> fine (len s) (class_dec feat text chk ex asg lhs body fn_ok class_ok fuel dec anon k s).
Proof.
  intros. unfold class_dec, class_ident.
  go ltac:(first [apply name_tot|here lhs_fine|here class_loop_tot]) e_tl.
Qed.
Lemma ahead_async_len : forall k p q s, ahead_async feat k p q s = true -> 0 < len s.
Proof.
  intros k p q s H. apply val_len. intros E. unfold ahead_async, is_name in H. rewrite E in H.
  destruct (has feat FEAT_ASYNC_AWAIT); discriminate H.
Qed.
Lemma other_at_tot : forall k s x, len s <= b ->
  other_at feat text chk ex asg lhs args body fn_ok class_ok rest_async rest_other fuel k s = Some x -> fine (len s) x.
Proof.
  intros k s x L H. unfold other_at in H.
  destruct (at_tok T_FUNC s) eqn:A; [injection H as <-; apply to_range_tot; apply fn_dec_tot; arith|].
  destruct (at_tok T_CLASS s) eqn:B; [injection H as <-; apply to_range_tot; apply class_dec_tot; arith|].
  destruct (ahead_async feat k false false s) eqn:D; [injection H as <-; apply to_range_tot; apply async_node_tot; [exact L|exact (ahead_async_len _ _ _ _ D)]|].
  exact (other_fine k s x L H).
Qed.
Lemma sole_tot : forall n k x, fine n x -> fine n (sole k x).
Proof. intros n k x H. unfold sole. eapply fine_bind; [exact H|]. intros. destruct (_ && _); [exact Logic.I|exact H0]. Qed.
Lemma top_tot : forall n k x, fine n x -> fine n (top k x).
Proof. intros n k x H. unfold top. eapply fine_bind; [exact H|]. intros. destruct (has _ _); [exact Logic.I|exact H0]. Qed.
Lemma kw_tot : forall k s, fine (len s) (ident_kw text k s).
Proof.
  intros. unfold ident_kw. cbv zeta. destruct (is_kw (t_val (peek s))) eqn:K; [|apply name_tot].
  cbn [fine]. assert (0 < len s) by (apply val_len; intros E; rewrite E in K; discriminate K). arith.
Qed.
Lemma import_spec_tot : forall k s, fine (len s) (import_spec text k s).
Proof. intros. unfold import_spec. go ltac:(first [apply kw_tot|apply name_tot]) none. Qed.
Lemma import_named_tot : forall n k acc s, len s < n -> fine (len s) (import_named text n k acc s).
Proof. induction n as [|n IH]; intros; [lia|]. cbn [import_named]. go ltac:(apply import_spec_tot) ltac:(more IH). Qed.
Lemma import_group_tot : forall k s, len s <= b -> fine (len s) (import_group text fuel k s).
Proof. intros. unfold import_group. go ltac:(apply name_tot) ltac:(more import_named_tot). Qed.
Lemma import_dec_tot : forall k s, len s <= b -> 0 < len s -> fine (len s) (import_dec text fuel k s).
Proof. intros. unfold import_dec. go ltac:(first [apply name_tot|here import_group_tot]) none. Qed.
Lemma export_spec_tot : forall k s, fine (len s) (export_spec text k s).
Proof. intros. unfold export_spec. go ltac:(first [apply kw_tot|apply name_tot]) none. Qed.
Lemma export_named_tot : forall n k acc s, len s < n -> fine (len s) (export_named text n k acc s).
Proof. induction n as [|n IH]; intros; [lia|]. cbn [export_named]. go ltac:(apply export_spec_tot) ltac:(more IH). Qed.
Lemma export_from_tot : forall k s, len s <= b -> 0 < len s -> fine (len s) (export_from feat text fuel k s).
Proof. intros. unfold export_from. go ltac:(first [apply name_tot|here export_named_tot]) none. Qed.
Lemma export_any_tot : forall k s, len s <= b -> 0 < len s ->
  fine (len s) (export_any feat text chk ex asg lhs args body var fn_ok class_ok rest_async fuel k s).
Proof.
  intros. unfold export_any, export_fn.
  go ltac:(first [here var_fine|here fn_dec_tot|here async_node_tot|here class_dec_tot|here asg_fine|here export_from_tot]) none.
  all: repeat match goal with
    | H : ahead_var _ _ _ = Some _ |- _ => apply ahead_len in H
    | H : ahead_async _ _ _ _ _ = true |- _ => apply ahead_async_len in H
    | H : _ || _ = true |- _ => apply Bool.orb_true_iff in H; destruct H end; arith.
Qed.
Lemma export_dec_tot : forall k s, len s <= b -> 0 < len s ->
  fine (len s) (export_dec feat text chk ex asg lhs args body var fn_ok class_ok rest_async fuel k s).
Proof.
  intros. unfold export_dec. destruct (negb _); [exact Logic.I|]. eapply fine_bind; [apply export_any_tot; assumption|].
  intros f s1 L. destruct (has _ _); [exact L|exact Logic.I].
Qed.
Lemma decl_at_tot : forall k s x, len s <= b ->
  decl_at feat text chk ex asg lhs args body var fn_ok class_ok rest_async fuel k s = Some x -> fine (len s) x.
Proof.
  intros k s x L H. unfold decl_at in H.
  destruct (at_tok T_FUNC s) eqn:A; [injection H as <-; apply sole_tot; apply to_range_tot; apply fn_dec_tot; arith|].
  destruct (at_tok T_CLASS s) eqn:B.
  { injection H as <-. destruct (has k SPK_INTERIM); [exact Logic.I|]. apply to_range_tot; apply class_dec_tot; arith. }
  destruct (at_tok T_IMPORT s) eqn:C.
  { destruct (_ && _); [injection H as <-; exact Logic.I|]. destruct (_ || _); [discriminate H|]. injection H as <-.
    apply top_tot, to_range_tot, import_dec_tot; arith. }
  destruct (at_tok T_EXPORT s) eqn:E; [injection H as <-; apply top_tot, to_range_tot, export_dec_tot; arith|].
  destruct (ahead_async feat k false false s) eqn:D; [|discriminate H].
  apply ahead_async_len in D. injection H as <-. destruct (at_tok T_FUNC (next s)); [apply sole_tot|]; apply to_range_tot, async_node_tot; assumption.
Qed.
Lemma as_method_tot : forall n x y, fine n x -> as_method x = Some y -> fine n y.
Proof. intros n x y H E. injection E as <-. eapply fine_bind; [exact H|]. intros. exact H0. Qed.
Lemma method_at_tot : forall k s x, len s <= b -> method_at feat text chk ex asg body fn_ok fuel k s = Some x -> fine (len s) x.
Proof.
  intros k s x L H. unfold method_at in H. cbv zeta in H.
  destruct (at_tok T_MUL s); [destruct (negb _); [injection H as <-; exact Logic.I|revert H; apply as_method_tot; apply method_new_tot; exact L]|].
  destruct (ahead_async _ _ _ _ _); [destruct (contains_escape _); [injection H as <-; exact Logic.I|revert H; apply as_method_tot; apply method_new_tot; exact L]|].
  pose proof (key_at_tot false k s L) as K.
  destruct (key_at text asg false k s) as [[[key comp] esc] s1| | |]; [|discriminate H|discriminate H|destruct K].
  cbn [fine] in K. repeat match type of H with context [if ?b then _ else _] => destruct b end;
    first [discriminate H|injection H as <-; exact Logic.I|revert H; apply as_method_tot; eapply fine_more; [first [apply method_rest_tot|apply method_new_tot]|]; arith].
Qed.
Lemma block_at_tot : forall k s, len s <= b -> fine (len s) (block_at body k s).
Proof. intros k s L. unfold block_at. eapply fine_bind; [apply body_fine; exact L|]. intros. exact H. Qed.
End Total.

(** ** The whole parser *)
Record wle (a b : world) : Prop := mk_wle {
  wl_other : forall k s, ole (w_other a k s) (w_other b k s); wl_method : forall k s, ole (w_method a k s) (w_method b k s);
  wl_block : forall k s, ple (w_block a k s) (w_block b k s); wl_decl : forall k s, ole (w_decl a k s) (w_decl b k s) }.
Record wtot (w : world) (b : nat) : Prop := mk_wtot {
  wt_other : forall k s x, len s < b -> w_other w k s = Some x -> fine (len s) x; wt_method : forall k s x, len s < b -> w_method w k s = Some x -> fine (len s) x;
  wt_block : forall k s, len s < b -> fine (len s) (w_block w k s); wt_decl : forall k s x, len s < b -> w_decl w k s = Some x -> fine (len s) x }.
Section World.
Variables (feat : N) (text : token -> bytes) (chk : pst -> bool).
Variables (params_ok : N -> list expr -> pst -> bool) (names_ok : N -> list expr -> pst -> bool)
  (jump_ok : N -> stmt -> pst -> bool) (use_strict : token -> bool)
  (fn_ok : N -> option expr -> list expr -> stmt -> pst -> bool) (class_ok : N -> expr -> pst -> bool).
Variables (rest_async : bool -> N -> pst -> pres rng) (rest_other : N -> pst -> option (pres rng)).
Notation w_calls := (w_calls feat text chk params_ok).
Notation w_asg := (w_asg feat text chk params_ok).
Notation w_args := (w_args feat text chk params_ok).
Notation w_stmt := (w_stmt feat text chk params_ok names_ok jump_ok use_strict).
Notation w_body := (w_body feat text chk params_ok names_ok jump_ok use_strict).
Notation grow := (grow feat text chk params_ok names_ok jump_ok use_strict fn_ok class_ok rest_async rest_other).
Notation world_at := (world_at feat text chk params_ok names_ok jump_ok use_strict fn_ok class_ok rest_async rest_other).
Notation parse := (parse feat text chk params_ok names_ok jump_ok use_strict fn_ok class_ok rest_async rest_other).
Notation parse_expr := (parse_expr feat text chk params_ok names_ok jump_ok use_strict fn_ok class_ok rest_async rest_other).
Lemma w_calls_le : forall n m a b, n <= m -> wle a b -> cle (w_calls n a) (w_calls m b).
Proof. intros n m a b Le W. apply calls_le; [apply (wl_other _ _ W)|apply (wl_method _ _ W)|apply (wl_block _ _ W)|exact Le]. Qed.
Lemma w_stmt_le : forall n m a b, n <= m -> wle a b -> forall k s, ple (w_stmt n a k s) (w_stmt m b k s).
Proof.
  intros n m a b Le W. pose proof (w_calls_le n m a b Le W) as C. unfold FnModel.w_stmt, FnModel.w_asg.
  apply stmt_at_le; [apply (l_seq _ _ C)|intros; apply (l_assign _ _ C)|apply (wl_decl _ _ W)|exact Le].
Qed.
Lemma w_body_le : forall n m a b, n <= m -> wle a b -> forall k s, ple (w_body n a k s) (w_body m b k s).
Proof.
  intros n m a b Le W. unfold FnModel.w_body.
  apply block_stmt_le with (ex := fun _ _ => PErr) (ex' := fun _ _ => PErr) (asg := fun _ _ => PErr) (asg' := fun _ _ => PErr) (decl := fun _ _ => None) (decl' := fun _ _ => None);
    [exact text|exact chk|exact names_ok|exact jump_ok|intros; apply ple_refl|intros; apply ple_refl|intros; right; reflexivity|apply w_stmt_le; assumption|exact Le].
Qed.
Lemma grow_le : forall n m a b, n <= m -> wle a b -> wle (grow n a) (grow m b).
Proof.
  intros n m a b Le W. pose proof (w_calls_le n m a b Le W) as C. pose proof (w_body_le n m a b Le W) as B.
  assert (E : forall k s, ple (c_seq (w_calls n a) k s) (c_seq (w_calls m b) k s)) by apply (l_seq _ _ C).
  assert (A : forall k s, ple (w_asg n a k s) (w_asg m b k s)) by (intros; apply (l_assign _ _ C)).
  assert (L : forall k s, ple (c_lhs (w_calls n a) k s) (c_lhs (w_calls m b) k s)) by apply (l_lhs _ _ C).
  assert (G : forall k s, ple (w_args n a k s) (w_args m b k s)) by (intros; apply (l_arg_list _ _ C)).
  assert (V : forall v k s, ple (var_stmt feat text (w_asg n a) names_ok n v false k s) (var_stmt feat text (w_asg m b) names_ok m v false k s)).
  { intros. apply var_stmt_le with (ex := fun _ _ => PErr) (ex' := fun _ _ => PErr) (decl := fun _ _ => None) (decl' := fun _ _ => None);
      [exact chk|exact jump_ok|intros; apply ple_refl|exact A|intros; right; reflexivity|exact Le]. }
  constructor; intros k s; cbn [FnModel.grow w_other w_method w_block w_decl].
  - eapply other_at_le; first [exact V|eassumption].
  - eapply method_at_le; first [exact V|eassumption].
  - eapply block_at_le; first [exact V|eassumption].
  - apply decl_at_le; assumption.
Qed.
Lemma world_at_le : forall n m, n <= m -> wle (world_at n) (world_at m).
Proof.
  induction n as [|n IH]; intros m Le; [constructor; intros; left; reflexivity|]. destruct m as [|m]; [lia|].
  cbn [FnModel.world_at]. apply grow_le; [lia|apply IH; lia].
Qed.
Theorem parse_le : forall n m, n <= m -> forall k s, ple (parse n k s) (parse m k s).
Proof.
  intros n m Le k s. pose proof (world_at_le n m Le) as W. pose proof (w_calls_le n m _ _ Le W) as C. unfold FnModel.parse, FnModel.w_asg.
  apply program_le; [apply (l_seq _ _ C)|intros; apply (l_assign _ _ C)|apply (wl_decl _ _ W)|exact Le].
Qed.
Theorem parse_expr_le : forall n m, n <= m -> forall k s, ple (parse_expr n k s) (parse_expr m k s).
Proof. intros n m Le. apply (l_seq _ _ (w_calls_le n m _ _ Le (world_at_le n m Le))). Qed.

(** What is left out is read with less than [most] tokens left. *)
Variable most : nat.
Hypotheses (async_fine : forall d k s, len s < most -> fine (len s) (rest_async d k s))
  (other_fine : forall k s x, len s < most -> rest_other k s = Some x -> fine (len s) x).
Lemma w_calls_tot : forall n w b, wtot w b -> total (w_calls n w) n b.
Proof. intros n w b W. apply calls_total; [apply (wt_other _ _ W)|apply (wt_method _ _ W)|apply (wt_block _ _ W)]. Qed.
Ltac roomy := unfold room; lia.
Lemma w_stmt_tot : forall n w b, wtot w b -> 16 * b <= n -> forall k s, len s < b -> fine (len s) (w_stmt n w k s).
Proof.
  intros n w b W G k s L. pose proof (w_calls_tot n w b W) as T. unfold FnModel.w_stmt, FnModel.w_asg.
  apply stmt_at_tot with (top := b); [intros; apply (o_seq _ _ _ T); roomy|intros; apply (o_assign _ _ _ T); roomy|apply (wt_decl _ _ W)|lia|lia].
Qed.
Lemma w_body_tot : forall n w b, wtot w b -> 16 * b <= n -> forall k s, len s <= b -> fine (len s) (w_body n w k s).
Proof.
  intros n w b W G k s L. unfold FnModel.w_body.
  apply block_stmt_tot with (ex := fun _ _ => PErr) (asg := fun _ _ => PErr) (decl := fun _ _ => None) (top := S b) (below := b);
    [exact text|exact chk|exact names_ok|exact jump_ok|intros; exact Logic.I|intros; exact Logic.I|discriminate|intros; apply w_stmt_tot with b; assumption|lia..].
Qed.
Lemma grow_tot : forall n w b, wtot w b -> 16 * b + 3 <= n -> b < most -> wtot (grow n w) (S b).
Proof.
  intros n w b W G Most. pose proof (w_calls_tot n w b W) as T. pose proof (w_body_tot n w b W ltac:(lia)) as B.
  assert (E : forall k s, len s < b -> fine (len s) (c_seq (w_calls n w) k s)) by (intros; apply (o_seq _ _ _ T); roomy).
  assert (A : forall k s, len s < b -> fine (len s) (w_asg n w k s)) by (intros; apply (o_assign _ _ _ T); roomy).
  assert (L : forall k s, len s < b -> fine (len s) (c_lhs (w_calls n w) k s)) by (intros; apply (o_lhs _ _ _ T); roomy).
  assert (H : forall k s, len s < b -> fine (len s) (w_args n w k s)) by (intros; apply (o_arg_list _ _ _ T); roomy).
  assert (V : forall v k s, len s < b -> 0 < len s -> fine (len s) (var_stmt feat text (w_asg n w) names_ok n v false k s)).
  { intros. apply var_stmt_tot with (ex := fun _ _ => PErr) (decl := fun _ _ => None) (top := b);
      [exact chk|exact jump_ok|intros; exact Logic.I|exact A|discriminate|lia..]. }
  assert (AF : forall d k s, len s <= b -> fine (len s) (rest_async d k s)) by (intros; apply async_fine; lia).
  assert (OF : forall k s x, len s <= b -> rest_other k s = Some x -> fine (len s) x) by (intros k s x Lb; apply other_fine; lia).
  constructor; intros k s; cbn [FnModel.grow w_other w_method w_block w_decl]; intros.
  - eapply other_at_tot with (b := b); [..|exact H1]; try exact V; try eassumption; lia.
  - eapply method_at_tot with (b := b); [..|exact H1]; try exact V; try eassumption; lia.
  - eapply block_at_tot with (b := b); try exact V; try eassumption; lia.
  - eapply decl_at_tot with (b := b); [..|exact H1]; try exact V; try eassumption; lia.
Qed.
Lemma world_at_tot : forall b n, b <= most -> 16 * b <= n -> wtot (world_at n) b.
Proof.
  induction b as [|b IH]; intros n Most G; [constructor; intros; lia|]. destruct n as [|n]; [lia|].
  cbn [FnModel.world_at]. apply grow_tot; [apply IH; lia|lia|lia].
Qed.
Theorem parse_total : forall k s n, len s < most -> 16 * len s + 16 <= n -> parse n k s <> PFuel.
Proof.
  intros k s n Most G. pose proof (world_at_tot (S (len s)) n ltac:(lia) ltac:(lia)) as W. pose proof (w_calls_tot n _ _ W) as T. unfold FnModel.parse, FnModel.w_asg.
  apply program_total with (top := S (len s)); [intros; apply (o_seq _ _ _ T); roomy|intros; apply (o_assign _ _ _ T); roomy|apply (wt_decl _ _ W)|lia|lia].
Qed.
Theorem parse_expr_total : forall k s n, len s < most -> 16 * len s + 16 <= n -> parse_expr n k s <> PFuel.
Proof.
  intros k s n Most G E. pose proof (world_at_tot (S (len s)) n ltac:(lia) ltac:(lia)) as W. pose proof (w_calls_tot n _ _ W) as T.
  pose proof (o_seq _ _ _ T k s ltac:(lia) ltac:(roomy)) as F. unfold FnModel.parse_expr in E. rewrite E in F. exact F.
Qed.
End World.
