(** C50, C51 for the whole parser: it ends with a tree or an error, however deep functions, classes and statements
    are nested in one another. *)
From Coq Require Import Lia.
From Verif Require Import Base TokenModel LexModel ParseBase BinModel SymtabModel EarlyModel ExprModel ExprFuel ExprProps StmtModel StmtFuel StmtProps FuelProps
  PanicSpec PanicSafe PanicProps FnModel FnFuel FnSafe FnReads FnWorld FnProps.

(** Nor has what a class extends a hole or a lone literal in it. *)
Definition tame_classes (ts : list token) : Prop := tame ts /\ ~ (has_tok T_EXTENDS ts /\ (hole ts \/ lone_literal ts)).

Section Claims.
Variables (feat : N) (text : token -> bytes) (chk : pst -> bool).
Variables (params_ok : N -> list expr -> pst -> bool) (names_ok : N -> list expr -> pst -> bool)
  (jump_ok : N -> stmt -> pst -> bool) (use_strict : token -> bool)
  (fn_ok : N -> option expr -> list expr -> stmt -> pst -> bool) (class_ok : N -> expr -> pst -> bool).
Variables (rest_async : bool -> N -> pst -> pres rng) (rest_other : N -> pst -> option (pres rng)).
Notation program depth := (FnModel.parse feat text chk params_ok names_ok jump_ok use_strict fn_ok class_ok rest_async rest_other depth).
Notation expression depth := (parse_expr feat text chk params_ok names_ok jump_ok use_strict fn_ok class_ok rest_async rest_other depth).
Hypotheses (async_end : forall dec, block_settles (rest_async dec)) (other_end : settles rest_other).

Theorem C51_functions : forall k s depth, 16 * length (p_toks s) + 16 <= depth ->
  program depth k s = program (16 * length (p_toks s) + 16) k s /\ program depth k s <> PFuel.
Proof using async_end other_end.
  intros k s depth H. assert (T : forall n, 16 * length (p_toks s) + 16 <= n -> program n k s <> PFuel) by (intros n L; apply parse_total with (most := S (len s)); [intros; apply async_end|intros k' s' x _; apply other_end|unfold len; lia|exact L]).
  split; [|exact (T depth H)]. destruct (parse_le feat text chk params_ok names_ok jump_ok use_strict fn_ok class_ok rest_async rest_other _ depth H k s) as [E|E].
  - destruct (T _ (le_n _) E).
  - symmetry. exact E.
Qed.
Theorem C51_expression_functions : forall k s depth, 16 * length (p_toks s) + 16 <= depth ->
  expression depth k s = expression (16 * length (p_toks s) + 16) k s /\ expression depth k s <> PFuel.
Proof using async_end other_end.
  intros k s depth H. assert (T : forall n, 16 * length (p_toks s) + 16 <= n -> expression n k s <> PFuel) by (intros n L; apply parse_expr_total with (most := S (len s)); [intros; apply async_end|intros k' s' x _; apply other_end|unfold len; lia|exact L]).
  split; [|exact (T depth H)]. destruct (parse_expr_le feat text chk params_ok names_ok jump_ok use_strict fn_ok class_ok rest_async rest_other _ depth H k s) as [E|E].
  - destruct (T _ (le_n _) E).
  - symmetry. exact E.
Qed.

Hypotheses (async_quiet : forall dec, block_quiet (rest_async dec)) (other_quiet : quiet rest_other).
Local Definition lacking (v : tv) (ts : list token) : bool := negb (existsb (fun t => tv_eqb (t_val t) v) ts).
Local Lemma lacking_spec : forall v ts, (lacking v ts = true -> ~ has_tok v ts) /\ (lacking v ts = false -> has_tok v ts).
Proof using.
  intros v ts. unfold lacking. destruct (existsb (fun t => tv_eqb (t_val t) v) ts) eqn:E; cbn; split; intros H; try discriminate H.
  - apply existsb_exists in E. destruct E as [t [E1 E2]]. exists t. split; [exact E1|apply tv_eqb_spec, E2].
  - intros [t [I1 I2]]. rewrite <- Bool.not_true_iff_false in E. apply E. apply existsb_exists. exists t. split; [exact I1|apply tv_eqb_spec, I2].
Qed.
Local Definition unextended (W : list token) : bool := lacking T_ASSIGN W && lacking T_EXTENDS W.
Local Lemma safe_world : forall W, tame_classes W -> 
  (unextended W = true -> ~ has_tok T_ASSIGN W) /\ (unextended W = true -> ~ has_tok T_EXTENDS W) /\ (unextended W = false -> ~ hole W /\ ~ lone_literal W) /\
  (lacking T_OPT_CHAIN W = true -> ~ has_tok T_OPT_CHAIN W) /\ (lacking T_OPT_CHAIN W = false -> ~ has_tok T_DELETE W).
Proof using.
  intros W [[T1 T2] T3]. unfold unextended.
  split; [|split; [|split; [|split]]]; intros H; try (apply Bool.andb_true_iff in H; destruct H).
  - apply lacking_spec. assumption.
  - apply lacking_spec. assumption.
  - apply Bool.andb_false_iff in H. destruct H as [H|H]; apply lacking_spec in H; split; intros K; first [apply T1; auto; fail|apply T3; auto].
  - apply lacking_spec. exact H.
  - apply lacking_spec in H. intros K. apply T2; auto.
Qed.
Local Lemma forward_fits : forall A W s (x : pres A), suf W s -> forward s x -> PanicSafe.sound W any x.
Proof using. intros A W s [a s'| | | ] [pre E] F; cbn in *; auto. destruct F as [q F]. split; [reflexivity|]. exists (pre ++ q). rewrite <- app_assoc, <- F. exact E. Qed.
Local Lemma settled_outcome : forall A W (P : A -> bool) x, PanicSafe.sound W P x -> x <> PFuel -> (exists a s', x = POk a s') \/ x = PErr.
Proof using. intros A W P [a s| | | ] H N; cbn in H; [left; eauto|right; reflexivity|contradiction|contradiction]. Qed.
Theorem C50_functions_partial : forall k s depth, tame_classes (p_toks s) -> templates_carry (p_toks s) -> 16 * length (p_toks s) + 16 <= depth ->
  (exists l s', program depth k s = POk l s') \/ program depth k s = PErr.
Proof using All.
  intros k s depth T C D. destruct (safe_world _ T) as (P1 & P2 & P3 & P4 & P5).
  apply settled_outcome with (W := p_toks s) (P := any); [|exact (proj2 (C51_functions k s depth D))].
  eapply parse_calm; try eassumption.
  - intros d k' s' S. exact (forward_fits _ _ s' _ S (async_quiet d k' s')).
  - intros k' s' x S E. exact (forward_fits _ _ s' x S (other_quiet k' s' x E)).
  - exists []. reflexivity.
Qed.
Theorem C50_expression_functions_partial : forall k s depth, tame_classes (p_toks s) -> templates_carry (p_toks s) -> 16 * length (p_toks s) + 16 <= depth ->
  (exists e s', expression depth k s = POk e s') \/ expression depth k s = PErr.
Proof using All.
  intros k s depth T C D. destruct (safe_world _ T) as (P1 & P2 & P3 & P4 & P5).
  eapply settled_outcome with (W := p_toks s); [|exact (proj2 (C51_expression_functions k s depth D))].
  eapply parse_expr_calm; try eassumption.
  - intros d k' s' S. exact (forward_fits _ _ s' _ S (async_quiet d k' s')).
  - intros k' s' x S E. exact (forward_fits _ _ s' x S (other_quiet k' s' x E)).
  - exists []. reflexivity.
Qed.
End Claims.
Print Assumptions C51_functions.
Print Assumptions C51_expression_functions.
Print Assumptions C50_functions_partial.
Print Assumptions C50_expression_functions_partial.

(** A real case: what stands for the parts not modelled ends and is quiet; [f(() => { f(() => { ... }) })] is read with
    this depth and not with a constant one. *)
Example rest_settles : (forall dec : bool, block_settles ((fun _ _ _ => PErr) dec)) /\ settles no_parts /\ (forall dec : bool, block_quiet ((fun _ _ _ => PErr) dec)) /\ quiet no_parts.
Proof. repeat split; intros; try discriminate; intros k s; exact I. Qed.
Fixpoint callbacks (n : nat) : list (tv * bytes * ext * bool) :=
  match n with O => [] | S n => [w (bs "f"); y T_PAREN_L; y T_PAREN_L; y T_PAREN_R; y T_ARROW; y T_BRACE_L] ++ callbacks n ++ [y T_BRACE_R; y T_PAREN_R] end.
Example callbacks_read : accepted (all_of (16 * 24 + 16) SPK_GLOBAL (callbacks 3)) = true /\ all_of 10 SPK_GLOBAL (callbacks 3) = PFuel.
Proof. vm_compute. auto. Qed.
(** [class a extends b { c = [a] }] is tame. *)
Definition mild_class : list (tv * bytes * ext * bool) :=
  [y T_CLASS; w (bs "a"); y T_EXTENDS; w (bs "b"); y T_BRACE_L; w (bs "c"); y T_ASSIGN; y T_BRACKET_L; w (bs "a"); y T_BRACKET_R; y T_BRACE_R].
Local Lemma full : ~ (hole (p_toks (src mild_class)) \/ lone_literal (p_toks (src mild_class))).
Proof.
  intros [(x & a & b & z & E & V & C)|(x & a & l & b & z & E & V & L & C)]; apply (f_equal (map t_val)) in E; rewrite map_app in E; cbn [map] in E.
  - rewrite C in E. assert (V2 : t_val a = T_BRACKET_L \/ t_val a = T_COMMA) by exact V. clear V C.
    repeat (destruct x as [|? x]; [cbn in E; destruct V2 as [V2|V2]; rewrite V2 in E; discriminate E|cbn in E; injection E as _ E]); destruct x; discriminate E.
  - assert (V2 : t_val a = T_BRACE_L \/ t_val a = T_COMMA) by tauto. clear V.
    repeat (destruct x as [|? x]; [cbn in E; destruct V2 as [V2|V2], L as [L|L]; rewrite V2, L in E; discriminate E|cbn in E; injection E as _ E]); destruct x; discriminate E.
Qed.
Example mild_class_tame : tame_classes (p_toks (src mild_class)) /\ templates_carry (p_toks (src mild_class)) /\
  accepted (all_of (16 * 11 + 16) SPK_GLOBAL mild_class) = true.
Proof.
  split; [split; [split|]|split].
  - intros [_ H]. exact (full H).
  - intros [(t & H & K) _]. cbn in H. repeat (destruct H as [H|H]; [subst t; discriminate K|]). exact H.
  - intros [_ H]. exact (full H).
  - intros t H K. exfalso. cbn in H. repeat (destruct H as [H|H]; [subst t; destruct K as [K|[K|K]]; discriminate K|]). exact H.
  - vm_compute. reflexivity.
Qed.
(** [function f(a = [,]) {}], [class a { b = [,] }], [class a extends [,] {}] *)
Theorem C50_param_refuted : all_of 60 SPK_GLOBAL ([y T_FUNC; w (bs "f"); y T_PAREN_L; w (bs "a"); y T_ASSIGN; y T_BRACKET_L; y T_COMMA; y T_BRACKET_R; y T_PAREN_R] ++ braces) = PPanic.
Proof. vm_compute; reflexivity. Qed.
Theorem C50_field_refuted : all_of 60 SPK_GLOBAL [y T_CLASS; w (bs "a"); y T_BRACE_L; w (bs "b"); y T_ASSIGN; y T_BRACKET_L; y T_COMMA; y T_BRACKET_R; y T_BRACE_R] = PPanic.
Proof. vm_compute; reflexivity. Qed.
Theorem C50_extends_refuted : all_of 60 SPK_GLOBAL ([y T_CLASS; w (bs "a"); y T_EXTENDS; y T_BRACKET_L; y T_COMMA; y T_BRACKET_R] ++ braces) = PPanic.
Proof. vm_compute; reflexivity. Qed.
