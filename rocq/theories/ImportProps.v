(** C50, C51 for the whole parser, expressions that begin with import included. *)
From Coq Require Import Lia.
From Verif Require Import Base TokenModel LexModel ParseBase BinModel SymtabModel EarlyModel ExprModel ExprFuel ExprProps StmtModel StmtFuel StmtProps FuelProps
  PanicSpec PanicSafe PanicProps FnModel FnFuel FnSafe FnReads FnWorld FnProps FnRunProps JsxModel ImportModel ImportProofs.

Section Claims.
Variables (feat : N) (text : token -> bytes) (chk : pst -> bool).
Variables (params_ok : N -> list expr -> pst -> bool) (names_ok : N -> list expr -> pst -> bool)
  (jump_ok : N -> stmt -> pst -> bool) (use_strict : token -> bool)
  (fn_ok : N -> option expr -> list expr -> stmt -> pst -> bool) (class_ok : N -> expr -> pst -> bool).
Variables (rest_async : bool -> N -> pst -> pres rng) (rest_jsx : N -> pst -> option (pres rng)).
Notation program depth := (parse_with_imports feat text chk params_ok names_ok jump_ok use_strict fn_ok class_ok rest_async rest_jsx depth).
Hypotheses (async_end : forall dec, block_settles (rest_async dec)) (jsx_end : settles rest_jsx).
Theorem C51_imports : forall k s depth, 16 * length (p_toks s) + 16 <= depth ->
  program depth k s = program (16 * length (p_toks s) + 16) k s /\ program depth k s <> PFuel.
Proof using async_end jsx_end.
  intros k s depth H.
  assert (T : forall n, 16 * length (p_toks s) + 16 <= n -> program n k s <> PFuel).
  { intros n L. unfold parse_with_imports. apply parse_total with (most := S (len s)); [intros; apply async_end| |unfold len; lia|exact L].
    intros k' s' x Ls. apply import_other_tot with (b := S (len s)); [intros; apply async_end|exact jsx_end|unfold len; lia|exact Ls]. }
  split; [|exact (T depth H)].
  destruct (parse_imports_le feat text chk params_ok names_ok jump_ok use_strict fn_ok class_ok rest_async rest_jsx _ depth H k s) as [E|E].
  - destruct (T _ (le_n _) E).
  - symmetry. exact E.
Qed.
Hypotheses (async_quiet : forall dec, block_quiet (rest_async dec)) (jsx_quiet : quiet rest_jsx).
Theorem C50_imports_partial : forall k s depth, tame_classes (p_toks s) -> templates_carry (p_toks s) -> 16 * length (p_toks s) + 16 <= depth ->
  (exists l s', program depth k s = POk l s') \/ program depth k s = PErr.
Proof using All.
  intros k s depth T C D. destruct (FnRunProps.safe_world _ T) as (P1 & P2 & P3 & P4 & P5).
  apply FnRunProps.settled_outcome with (W := p_toks s) (P := any); [|exact (proj2 (C51_imports k s depth D))].
  assert (A : forall d k' s', PanicSafe.suf (p_toks s) s' -> PanicSafe.sound (p_toks s) any (rest_async d k' s'))
    by (intros d k' s' S; exact (FnRunProps.forward_fits _ _ s' _ S (async_quiet d k' s'))).
  unfold parse_with_imports. eapply parse_calm; try eassumption.
  - eapply import_other_sf; try eassumption. intros k' s' x S E. exact (FnRunProps.forward_fits _ _ s' x S (jsx_quiet k' s' x E)).
  - exists []. reflexivity.
Qed.
End Claims.
Print Assumptions C51_imports.
Print Assumptions C50_imports_partial.

(** A real case: imports inside each other, in functions inside them, and import.meta.  Without the depth the same source
    is not read. *)
Definition with_imports (depth : nat) (l : list (tv * bytes * ext * bool)) : pres (list stmt) :=
  parse_with_imports feats t_text (fun _ => true) (fun _ _ _ => true) (fun _ _ _ => true) (fun _ _ _ => true) (fun _ => false)
    (fun _ _ _ _ _ => true) (fun _ _ _ => true) (fun _ _ _ => PErr) no_parts depth SPK_GLOBAL (src l).
Fixpoint imports (n : nat) : list (tv * bytes * ext * bool) :=
  match n with
  | O => [y T_IMPORT; y T_DOT; w (bs "meta"); y T_DOT; w (bs "a")]
  | S n => [y T_IMPORT; y T_PAREN_L; y T_PAREN_L; y T_PAREN_R; y T_ARROW] ++ imports n ++ [y T_PAREN_R]
  end.
Definition three_imports := [w (bs "b"); y T_ASSIGN] ++ imports 3.
(** [b = import(() => import(() => import(() => import.meta.a)))] *)
Example imports_read : accepted (with_imports (16 * length three_imports + 16) three_imports) = true /\ with_imports 3 three_imports = PFuel.
Proof. vm_compute. auto. Qed.
Example imports_tame : tame_classes (p_toks (src three_imports)) /\ templates_carry (p_toks (src three_imports)).
Proof.
  assert (F : ~ (hole (p_toks (src three_imports)) \/ lone_literal (p_toks (src three_imports)))).
  { intros [(x & a & b & z & E & V & C)|(x & a & l & b & z & E & V & L & C)]; apply (f_equal (map t_val)) in E; rewrite map_app in E; cbn [map] in E.
    - rewrite C in E. assert (V2 : t_val a = T_BRACKET_L \/ t_val a = T_COMMA) by exact V. clear V C.
      repeat (destruct x as [|? x]; [cbn in E; destruct V2 as [V2|V2]; rewrite V2 in E; discriminate E|cbn in E; injection E as _ E]); destruct x; discriminate E.
    - assert (V2 : t_val a = T_BRACE_L \/ t_val a = T_COMMA) by tauto. clear V.
      repeat (destruct x as [|? x]; [cbn in E; destruct V2 as [V2|V2], L as [L|L]; rewrite V2, L in E; discriminate E|cbn in E; injection E as _ E]); destruct x; discriminate E. }
  split; [split; [split|]|].
  - intros [_ H]. exact (F H).
  - intros [(t & H & K) _]. cbn in H. repeat (destruct H as [H|H]; [subst t; discriminate K|]). exact H.
  - intros [_ H]. exact (F H).
  - intros t H K. exfalso. cbn in H. repeat (destruct H as [H|H]; [subst t; destruct K as [K|[K|K]]; discriminate K|]). exact H.
Qed.
(** [(a = import([,]))] does not panic although it has a hole and an assignment; [import(a = [,])], in parentheses, does. *)
Theorem C50_import_refuted : with_imports 60 ([y T_PAREN_L; w (bs "a"); y T_ASSIGN; y T_IMPORT; y T_PAREN_L; y T_BRACKET_L; y T_COMMA; y T_BRACKET_R; y T_PAREN_R; y T_PAREN_R]) <> PPanic /\
  with_imports 80 [y T_IMPORT; y T_PAREN_L; y T_PAREN_L; w (bs "a"); y T_ASSIGN; y T_BRACKET_L; y T_COMMA; y T_BRACKET_R; y T_PAREN_R; y T_PAREN_R] = PPanic.
Proof. vm_compute. split; [discriminate|reflexivity]. Qed.
