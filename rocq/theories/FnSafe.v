(** Where the parser of functions, methods and classes cannot panic. *)
From Coq Require Import Lia.
From Verif Require Import Base TokenModel LexModel ParseBase BinModel SymtabModel EarlyModel ExprModel ExprFuel StmtModel StmtFuel PanicSpec PanicSafe FnModel.

Section Safe.
Variables (plain unlinked : bool) (W : list token).
Notation suf := (suf W).
Notation sound := (sound W).
Notation safe := (safe plain unlinked).
Hypotheses (plain_ok : plain = true -> ~ has_tok T_ASSIGN W) (single_ok : plain = true -> ~ has_tok T_EXTENDS W)
  (full_ok : plain = false -> ~ hole W /\ ~ lone_literal W)
  (unlinked_ok : unlinked = true -> ~ has_tok T_OPT_CHAIN W) (linked_ok : unlinked = false -> ~ has_tok T_DELETE W) (tpl_ok : templates_carry W).
Section Fn.
Variables (feat : N) (text : token -> bytes) (chk : pst -> bool).
Variables (ex asg lhs : N -> pst -> pres expr) (args : N -> pst -> pres (list expr * bool)) (body : N -> pst -> pres stmt) (var : tv -> N -> pst -> pres stmt).
Variables (fn_ok : N -> option expr -> list expr -> stmt -> pst -> bool) (class_ok : N -> expr -> pst -> bool).
Variables (rest_async : bool -> N -> pst -> pres rng) (rest_other : N -> pst -> option (pres rng)).
Variable fuel : nat.
Hypotheses (ex_ok : forall k s, suf s -> sound safe (ex k s)) (asg_ok : forall k s, suf s -> sound safe (asg k s)) (lhs_ok : forall k s, suf s -> sound safe (lhs k s))
  (args_ok : forall k s, suf s -> sound (safes plain unlinked) (args k s)) (body_ok : forall k s, suf s -> sound any (body k s))
  (var_ok : forall v k s, suf s -> sound any (var v k s)).
Hypotheses (async_ok : forall d k s, suf s -> sound any (rest_async d k s))
  (other_ok : forall k s x, suf s -> rest_other k s = Some x -> sound any x).

Local Lemma given : forall v s, suf s -> at_tok v s = true -> v = T_ASSIGN \/ v = T_EXTENDS -> plain = false.
Proof using plain_ok single_ok.
  intros v s S A V. destruct (Bool.bool_dec plain false) as [E|E]; [exact E|]. apply Bool.not_false_is_true in E. exfalso.
  destruct V; subst v; [apply (plain_ok E)|apply (single_ok E)]; apply (suf_has W _ s S A); discriminate.
Qed.
Ltac sufs := solve [repeat match goal with |- PanicSafe.suf _ (next _) => apply suf_next | |- PanicSafe.suf _ (peeked _) => apply suf_peeked | |- PanicSafe.suf _ (if ?b then _ else _) => destruct b | |- PanicSafe.suf _ _ => assumption end].
Ltac fits L := solve [apply L; sufs|eapply sound_any; apply L; sufs].
Ltac go hd := cbv zeta; match goal with
  | |- PanicSafe.sound _ _ (POk _ _) => cbn [PanicSafe.sound]; split; [try reflexivity; try assumption|try sufs]
  | |- PanicSafe.sound _ _ PErr => exact Logic.I
  | |- PanicSafe.sound _ _ PFuel => exact Logic.I
  | |- PanicSafe.sound _ _ (pbind (POk _ _) _) => cbn [pbind]; go hd
  | |- PanicSafe.sound _ _ (pbind PErr _) => exact Logic.I
  | |- PanicSafe.sound _ _ (pbind (pbind _ _) _) => rewrite bind_bind; go hd
  | |- PanicSafe.sound _ _ (pbind (alift _ _) _) => rewrite alift_bind; go hd
  | |- PanicSafe.sound _ _ (pbind (must _ _) _) => eapply sound_bind; [fits must_sound|intros; go hd]
  | |- PanicSafe.sound _ _ (pbind (advance_if_semi _ _) _) => eapply sound_bind; [fits semi_sound|intros; go hd]
  | |- PanicSafe.sound _ _ (pbind (match ?x with _ => _ end) _) => destruct x eqn:?; go hd
  | |- PanicSafe.sound _ _ (pbind _ _) => eapply sound_bind; [hd|intros; go hd]
  | |- PanicSafe.sound _ _ (alift (check_arg _ _ _ _ _) _) => apply sound_lift; [apply check_arg_safe|intros; go hd]
  | |- PanicSafe.sound _ _ (alift (check_default _ _ _ _ _ _) _) => apply sound_lift; [eapply check_default_safe;
      [match goal with H : at_tok ?v ?s = true |- _ => apply (given v s); [sufs|exact H|auto] end|eassumption]|intros; go hd]
  | |- PanicSafe.sound _ _ (match ?x with _ => _ end) => destruct x eqn:?; go hd
  | |- PanicSafe.sound _ _ _ => hd
  end.
Ltac e_hd := first [fits ex_ok|fits asg_ok|fits lhs_ok|fits body_ok|fits ident_sf].
Local Lemma bound_sf : forall e k s, suf s -> sound any (bind feat text asg fuel e k s).
Proof. intros. eapply bind1_sf; [exact asg_ok|assumption]. Qed.
Local Lemma name_sf : forall k s, suf s -> sound any (prop_name text asg k s).
Proof. intros. eapply prop_name_sf; [exact asg_ok|assumption]. Qed.
Lemma param_sf : forall kind k s, suf s -> sound any (param feat text chk asg fuel kind k s).
Proof. intros. unfold param. go ltac:(first [fits bound_sf|apply asg_ok; sufs]). Qed.
Lemma param_loop_sf : forall n kind k acc s, suf s -> sound any (param_loop feat text chk asg fuel n kind k acc s).
Proof. induction n as [|n IH]; intros; [exact Logic.I|]. cbn [param_loop]. go ltac:(first [fits param_sf|fits IH]). Qed.
Lemma param_list_sf : forall kind k s, suf s -> sound any (param_list feat text chk asg fuel kind k s).
Proof. intros. unfold param_list. go ltac:(fits param_loop_sf). Qed.
Lemma fn_body_sf : forall e k s, suf s -> sound any (fn_body ex body e k s).
Proof. intros. unfold fn_body. go e_hd. Qed.
Lemma fn_dec_sf : forall dec anon k s, suf s -> sound any (fn_dec feat text chk ex asg body fn_ok fuel dec anon k s).
Proof. intros. unfold fn_dec. go ltac:(first [fits ident_sf|fits param_list_sf|fits fn_body_sf]). Qed.
Lemma name_safe : forall k s, suf s -> sound safe (ident text k s).
Proof.
  intros k s S. unfold ident. go idtac.
Qed.
Definition params_safe (x : option expr * list expr) : bool := forallb safe (snd x).
Lemma async_arrow_sf : forall dec k s, suf s -> sound any (async_arrow feat text chk ex args body fn_ok dec k s).
Proof.
  intros dec k s S. unfold async_arrow. cbv zeta.
  match goal with |- PanicSafe.sound _ _ (if ?b then _ else _) => destruct b end; [exact Logic.I|].
  apply sound_bind with (P := params_safe).
  - assert (L : forall kf s, suf s -> sound (forallb safe) (pbind (args kf s) (fun a s' => POk (fst a) s'))).
    { intros kf s0 S0. eapply sound_bind; [apply args_ok; exact S0|]. intros a s1 H S1. split; [exact H|exact S1]. }
    match goal with |- PanicSafe.sound _ _ (if ?b then _ else _) => destruct b end.
    + eapply sound_bind; [apply L; sufs|]. intros a s1 H S1. split; [exact H|exact S1].
    + eapply sound_bind; [apply name_safe; sufs|]. intros e s1 H S1.
      match goal with |- PanicSafe.sound _ _ (pbind (if ?b then _ else _) _) => destruct b end.
      * split; [|sufs]. cbn. rewrite H. reflexivity.
      * eapply sound_bind; [apply L; sufs|]. intros a s2 H2 S2. split; [exact H2|exact S2].
  - intros [name a] s4 H S4. cbv iota beta. unfold params_safe in H. cbn [snd] in H.
    match goal with |- PanicSafe.sound _ _ (if ?b then _ else _) => destruct b end; [|split; [reflexivity|exact S4]].
    apply sound_lift; [exact (proj1 (proj2 (to_params_safe plain unlinked _ feat _ text a H)))|]. intros ps _.
    go ltac:(fits fn_body_sf).
Qed.
Lemma to_range_sf : forall x, sound any x -> sound any (to_range x).
Proof. intros x H. unfold to_range. eapply sound_bind; [exact H|]. intros. split; [reflexivity|assumption]. Qed.
Lemma async_node_sf : forall dec anon k s, suf s -> sound any (async_node feat text chk ex asg args body fn_ok rest_async fuel dec anon k s).
Proof.
  intros dec anon k s S. unfold async_node. destruct (contains_escape (peek s)); [exact Logic.I|].
  destruct (at_tok T_FUNC (next s)); [apply fn_dec_sf, S|].
  eapply sound_bind; [apply async_arrow_sf; exact S|]. intros [f|] s1 _ S1; [split; [reflexivity|exact S1]|].
  eapply sound_bind; [apply async_ok; exact S|]. intros r s2 _ S2. split; [reflexivity|exact S2].
Qed.
Lemma key_at_sf : forall p k s, suf s -> sound any (key_at text asg p k s).
Proof. intros. unfold key_at. go ltac:(fits name_sf). Qed.
Lemma method_rest_sf : forall c st a g kind l k key comp esc s, suf s ->
  sound any (method_rest feat text chk ex asg body fn_ok fuel c st a g kind l k key comp esc s).
Proof. intros. unfold method_rest. go ltac:(first [fits param_list_sf|fits fn_body_sf]). Qed.
Lemma method_new_sf : forall c st a g kind l k s, suf s ->
  sound any (method_new feat text chk ex asg body fn_ok fuel c st a g kind l k s).
Proof. intros. unfold method_new. go ltac:(first [fits key_at_sf|fits method_rest_sf]). Qed.
Lemma field_rest_sf : forall st l k key comp esc s, suf s ->
  sound any (field_rest feat text chk ex asg body fn_ok fuel st l k key comp esc s).
Proof. intros. unfold field_rest. go ltac:(first [apply asg_ok; sufs|fits method_rest_sf]). Qed.
Lemma elem_rest_sf : forall st l k s, suf s -> sound any (elem_rest feat text chk ex asg body fn_ok fuel st l k s).
Proof. intros. unfold elem_rest, as_member. go ltac:(first [fits method_new_sf|fits method_rest_sf|fits key_at_sf|fits field_rest_sf]). Qed.
Lemma class_elem_sf : forall k s, suf s -> sound any (class_elem feat text chk ex asg body fn_ok fuel k s).
Proof. intros. unfold class_elem, as_member. go ltac:(first [fits method_rest_sf|fits body_ok|fits elem_rest_sf|fits field_rest_sf]). Qed.
Lemma class_loop_sf : forall n k acc s, suf s -> sound any (class_loop feat text chk ex asg body fn_ok fuel n k acc s).
Proof. induction n as [|n IH]; intros; [exact Logic.I|]. cbn [class_loop]. go ltac:(first [fits class_elem_sf|fits IH]). Qed.
Lemma class_dec_sf : forall dec anon k s, suf s -> sound any (class_dec feat text chk ex asg lhs body fn_ok class_ok fuel dec anon k s).
Proof. intros. unfold class_dec, class_ident. go ltac:(first [fits ident_sf|apply lhs_ok; sufs|fits class_loop_sf]). Qed.
Lemma other_at_sf : forall k s x, suf s ->
  other_at feat text chk ex asg lhs args body fn_ok class_ok rest_async rest_other fuel k s = Some x -> sound any x.
Proof.
  intros k s x S H. unfold other_at in H.
  destruct (at_tok T_FUNC s); [injection H as <-; apply to_range_sf, fn_dec_sf, S|].
  destruct (at_tok T_CLASS s); [injection H as <-; apply to_range_sf, class_dec_sf, S|].
  destruct (ahead_async feat k false false s); [injection H as <-; apply to_range_sf, async_node_sf, S|]. exact (other_ok k s x S H).
Qed.
Lemma sole_sf : forall k x, sound any x -> sound any (sole k x).
Proof. intros k x H. unfold sole. eapply sound_bind; [exact H|]. intros. destruct (_ && _); [exact Logic.I|split; [reflexivity|assumption]]. Qed.
Lemma top_sf : forall k x, sound any x -> sound any (top k x).
Proof. intros k x H. unfold top. eapply sound_bind; [exact H|]. intros. destruct (has _ _); [exact Logic.I|split; [reflexivity|assumption]]. Qed.
Lemma kw_sf : forall k s, suf s -> sound any (ident_kw text k s).
Proof. intros. unfold ident_kw. go ltac:(fits ident_sf). Qed.
Lemma import_named_sf : forall n k acc s, suf s -> sound any (import_named text n k acc s).
Proof.
  induction n as [|n IH]; intros; [exact Logic.I|]. cbn [import_named]. unfold import_spec. go ltac:(first [fits kw_sf|fits ident_sf|fits IH]).
Qed.
Lemma import_group_sf : forall k s, suf s -> sound any (import_group text fuel k s).
Proof. intros. unfold import_group. go ltac:(first [fits ident_sf|fits import_named_sf]). Qed.
Lemma import_dec_sf : forall k s, suf s -> sound any (import_dec text fuel k s).
Proof. intros. unfold import_dec. go ltac:(first [fits ident_sf|fits import_group_sf]). Qed.
Lemma export_named_sf : forall n k acc s, suf s -> sound any (export_named text n k acc s).
Proof.
  induction n as [|n IH]; intros; [exact Logic.I|]. cbn [export_named]. unfold export_spec. go ltac:(first [fits kw_sf|fits ident_sf|fits IH]).
Qed.
Lemma export_from_sf : forall k s, suf s -> sound any (export_from feat text fuel k s).
Proof. intros. unfold export_from. go ltac:(first [fits ident_sf|fits export_named_sf]). Qed.
Lemma export_any_sf : forall k s, suf s -> sound any (export_any feat text chk ex asg lhs args body var fn_ok class_ok rest_async fuel k s).
Proof.
  intros. unfold export_any, export_fn.
  go ltac:(first [fits var_ok|fits fn_dec_sf|fits async_node_sf|fits class_dec_sf|fits asg_ok|fits export_from_sf]).
Qed.
Lemma export_dec_sf : forall k s, suf s -> sound any (export_dec feat text chk ex asg lhs args body var fn_ok class_ok rest_async fuel k s).
Proof. intros. unfold export_dec. go ltac:(fits export_any_sf). Qed.
Lemma decl_at_sf : forall k s x, suf s ->
  decl_at feat text chk ex asg lhs args body var fn_ok class_ok rest_async fuel k s = Some x -> sound any x.
Proof.
  intros k s x S H. unfold decl_at in H.
  destruct (at_tok T_FUNC s); [injection H as <-; apply sole_sf, to_range_sf, fn_dec_sf, S|].
  destruct (at_tok T_CLASS s); [injection H as <-; destruct (has k SPK_INTERIM); [exact Logic.I|apply to_range_sf, class_dec_sf, S]|].
  destruct (at_tok T_IMPORT s).
  { destruct (_ && _); [injection H as <-; exact Logic.I|]. destruct (_ || _); [discriminate H|]. injection H as <-. apply top_sf, to_range_sf, import_dec_sf, S. }
  destruct (at_tok T_EXPORT s); [injection H as <-; apply top_sf, to_range_sf, export_dec_sf, S|].
  destruct (ahead_async feat k false false s); [|discriminate H]. injection H as <-.
  destruct (at_tok T_FUNC (next s)); [apply sole_sf|]; apply to_range_sf, async_node_sf, S.
Qed.
Lemma as_method_sf : forall x y, sound any x -> as_method x = Some y -> sound any y.
Proof. intros x y H E. injection E as <-. eapply sound_bind; [exact H|]. intros. split; [reflexivity|assumption]. Qed.
Lemma method_at_sf : forall k s x, suf s -> method_at feat text chk ex asg body fn_ok fuel k s = Some x -> sound any x.
Proof.
  intros k s x S H. unfold method_at in H. cbv zeta in H.
  destruct (at_tok T_MUL s); [destruct (negb _); [injection H as <-; exact Logic.I|revert H; apply as_method_sf; apply method_new_sf; exact S]|].
  destruct (ahead_async _ _ _ _ _); [destruct (contains_escape _); [injection H as <-; exact Logic.I|revert H; apply as_method_sf; apply method_new_sf; exact S]|].
  pose proof (key_at_sf false k s S) as K.
  destruct (key_at text asg false k s) as [[[key comp] esc] s1| | |]; [|discriminate H|discriminate H|injection H as <-; exact Logic.I].
  apply proj2 in K. repeat match type of H with context [if ?b then _ else _] => destruct b end;
    first [discriminate H|injection H as <-; exact Logic.I|revert H; apply as_method_sf; first [apply method_rest_sf|apply method_new_sf]; sufs].
Qed.
Lemma block_at_sf : forall k s, suf s -> sound any (block_at body k s).
Proof. intros k s S. unfold block_at. eapply sound_bind; [apply body_ok; exact S|]. intros. split; [reflexivity|assumption]. Qed.
End Fn.

Record wcalm (w : world) : Prop := mk_wcalm {
  wc_other : forall k s x, suf s -> w_other w k s = Some x -> sound any x; wc_method : forall k s x, suf s -> w_method w k s = Some x -> sound any x;
  wc_block : forall k s, suf s -> sound any (w_block w k s); wc_decl : forall k s x, suf s -> w_decl w k s = Some x -> sound any x }.
Section World.
Variables (feat : N) (text : token -> bytes) (chk : pst -> bool).
Variables (params_ok : N -> list expr -> pst -> bool) (names_ok : N -> list expr -> pst -> bool)
  (jump_ok : N -> stmt -> pst -> bool) (use_strict : token -> bool)
  (fn_ok : N -> option expr -> list expr -> stmt -> pst -> bool) (class_ok : N -> expr -> pst -> bool).
Variables (rest_async : bool -> N -> pst -> pres rng) (rest_other : N -> pst -> option (pres rng)).
Hypotheses (async_ok : forall d k s, suf s -> sound any (rest_async d k s))
  (other_ok : forall k s x, suf s -> rest_other k s = Some x -> sound any x).
Notation w_calls := (w_calls feat text chk params_ok).
Notation w_stmt := (w_stmt feat text chk params_ok names_ok jump_ok use_strict).
Notation grow := (grow feat text chk params_ok names_ok jump_ok use_strict fn_ok class_ok rest_async rest_other).
Notation world_at := (world_at feat text chk params_ok names_ok jump_ok use_strict fn_ok class_ok rest_async rest_other).
Notation parse := (parse feat text chk params_ok names_ok jump_ok use_strict fn_ok class_ok rest_async rest_other).
Notation parse_expr := (parse_expr feat text chk params_ok names_ok jump_ok use_strict fn_ok class_ok rest_async rest_other).
Lemma w_calls_calm : forall n w, wcalm w -> calm plain unlinked W (w_calls n w).
Proof. intros n w C. apply calls_calm; try assumption; [apply (wc_other _ C)|apply (wc_method _ C)|apply (wc_block _ C)]. Qed.
Lemma w_stmt_sf : forall n w, wcalm w -> forall k s, suf s -> sound any (w_stmt n w k s).
Proof.
  intros n w C k s S. pose proof (w_calls_calm n w C) as M. unfold FnModel.w_stmt, w_asg.
  eapply stmt_at_sf; [apply (m_seq _ _ _ _ M)|intros; apply (m_assign _ _ _ _ M); assumption|apply (wc_decl _ C)|exact S].
Qed.
Lemma grow_calm : forall n w, wcalm w -> wcalm (grow n w).
Proof.
  intros n w C. pose proof (w_calls_calm n w C) as M. pose proof (w_stmt_sf n w C) as S.
  assert (A : forall k s, suf s -> sound safe (w_asg feat text chk params_ok n w k s)) by (intros; apply (m_assign _ _ _ _ M); assumption).
  assert (G : forall k s, suf s -> sound (safes plain unlinked) (w_args feat text chk params_ok n w k s)) by (intros; apply (m_arg_list _ _ _ _ M); assumption).
  assert (B : forall k s, suf s -> sound any (w_body feat text chk params_ok names_ok jump_ok use_strict n w k s)) by (intros; apply block_stmt_sf; assumption).
  pose proof (m_seq _ _ _ _ M) as E. pose proof (m_lhs _ _ _ _ M) as L.
  assert (V : forall v k s, suf s -> sound any (var_stmt feat text (w_asg feat text chk params_ok n w) names_ok n v false k s)) by (intros; eapply sound_any; eapply var_stmt_sf; eassumption).
  constructor; cbn [FnModel.grow w_other w_method w_block w_decl]; intros k s.
  - intros x; apply other_at_sf; assumption.
  - intros x; apply method_at_sf; assumption.
  - apply block_at_sf; assumption.
  - intros x; apply decl_at_sf; assumption.
Qed.
Lemma world_calm : forall n, wcalm (world_at n).
Proof. induction n as [|n IH]; cbn [FnModel.world_at]; [constructor; cbn; intros; try (injection H0 as <-); exact Logic.I|apply grow_calm; exact IH]. Qed.
Theorem parse_calm : forall n k s, suf s -> sound any (parse n k s).
Proof.
  intros n k s S. pose proof (world_calm n) as C. pose proof (w_calls_calm n _ C) as M. unfold FnModel.parse, w_asg.
  eapply program_calm; [apply (m_seq _ _ _ _ M)|intros; apply (m_assign _ _ _ _ M); assumption|apply (wc_decl _ C)|exact S].
Qed.
Theorem parse_expr_calm : forall n k s, suf s -> sound safe (parse_expr n k s).
Proof. intros n k s S. apply (m_seq _ _ _ _ (w_calls_calm n _ (world_calm n))). exact S. Qed.
End World.
End Safe.
