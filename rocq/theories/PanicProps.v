(** C50: parsing does not panic, except at the defaults and deletions that C50_hole_refuted, C50_delete_refuted and
    C50_literal_refuted show. *)
From Coq Require Import Lia.
From Verif Require Import Base TokenModel LexModel ParseBase BinModel SymtabModel EarlyModel ExprModel ExprFuel ExprProps StmtModel StmtFuel StmtProps FuelProps PanicSpec PanicSafe.

(** What is not modelled does not panic either, and goes forward. *)
Definition forward {A} (s : pst) (x : pres A) : Prop :=
  match x with POk _ s' => exists read, p_toks s = read ++ p_toks s' | PPanic => False | _ => True end.
Definition quiet (f : N -> pst -> option (pres rng)) : Prop := forall k s x, f k s = Some x -> forward s x.
Definition block_quiet (f : N -> pst -> pres rng) : Prop := forall k s, forward s (f k s).

Section Claims.
Variables (feat : N) (text : token -> bytes) (chk : pst -> bool).
Variables (other method : N -> pst -> option (pres rng)) (block : N -> pst -> pres rng)
  (params_ok : N -> list expr -> pst -> bool).
Variables (decl : N -> pst -> option (pres rng)) (names_ok : N -> list expr -> pst -> bool)
  (jump_ok : N -> stmt -> pst -> bool) (use_strict : token -> bool).
Hypotheses (other_ok : quiet other) (method_ok : quiet method) (block_ok : block_quiet block) (decl_ok : quiet decl).
Hypotheses (other_end : settles other) (method_end : settles method) (block_end : block_settles block) (decl_end : settles decl).
Notation expression depth := (seq feat text chk other method block params_ok depth).
Notation assignment depth := (fun k => assign feat text chk other method block params_ok depth k true).
Notation parse depth := (program feat text chk (expression depth) (assignment depth) decl names_ok jump_ok use_strict depth).

Local Lemma forward_sound : forall A W s (x : pres A), suf W s -> forward s x -> sound W any x.
Proof using. intros A W s [a s'| | | ] [pre E] F; cbn in *; auto. destruct F as [q F]. split; [reflexivity|]. exists (pre ++ q). rewrite <- app_assoc, <- F. exact E. Qed.
Local Definition lacks (v : tv) (ts : list token) : bool := negb (existsb (fun t => tv_eqb (t_val t) v) ts).
Local Lemma lacks_spec : forall v ts, (lacks v ts = true -> ~ has_tok v ts) /\ (lacks v ts = false -> has_tok v ts).
Proof using.
  intros v ts. unfold lacks. destruct (existsb (fun t => tv_eqb (t_val t) v) ts) eqn:E; cbn; split; intros H; try discriminate H.
  - apply existsb_exists in E. destruct E as [t [E1 E2]]. exists t. split; [exact E1|apply tv_eqb_spec, E2].
  - intros [t [I1 I2]]. rewrite <- Bool.not_true_iff_false in E. apply E. apply existsb_exists. exists t. split; [exact I1|apply tv_eqb_spec, I2].
Qed.
Local Lemma calm_of : forall W, tame W -> templates_carry W -> forall n,
  calm (lacks T_ASSIGN W) (lacks T_OPT_CHAIN W) W (calls_at feat text chk other method block params_ok n).
Proof using other_ok method_ok block_ok.
  intros W [T1 T2] C n. apply calls_calm.
  - apply lacks_spec.
  - intros H. apply lacks_spec in H. split; intros K; apply T1; auto.
  - apply lacks_spec.
  - intros H K. apply lacks_spec in H. apply T2; auto.
  - exact C.
  - intros k s x S E. exact (forward_sound _ W s x S (other_ok k s x E)).
  - intros k s x S E. exact (forward_sound _ W s x S (method_ok k s x E)).
  - intros k s S. exact (forward_sound _ W s _ S (block_ok k s)).
Qed.
Local Lemma outcome : forall A W (P : A -> bool) x, sound W P x -> x <> PFuel -> (exists a s', x = POk a s') \/ x = PErr.
Proof using. intros A W P [a s| | | ] H N; cbn in H; [left; eauto|right; reflexivity|contradiction|contradiction]. Qed.
Theorem C50_expression_partial : forall k s depth, tame (p_toks s) -> templates_carry (p_toks s) -> 16 * length (p_toks s) + 14 <= depth ->
  (exists e s', expression depth k s = POk e s') \/ expression depth k s = PErr.
Proof using other_ok method_ok block_ok other_end method_end block_end.
  intros k s depth T C D. apply outcome with (W := p_toks s) (P := safe (lacks T_ASSIGN (p_toks s)) (lacks T_OPT_CHAIN (p_toks s))).
  - apply (m_seq _ _ _ _ (calm_of (p_toks s) T C depth)). exists []. reflexivity.
  - exact (proj2 (C51_expression feat text chk other method block params_ok other_end method_end block_end k s depth D)).
Qed.
Theorem C50_program_partial : forall k s depth, tame (p_toks s) -> templates_carry (p_toks s) -> 16 * length (p_toks s) + 14 <= depth ->
  (exists l s', parse depth k s = POk l s') \/ parse depth k s = PErr.
Proof.
  intros k s depth T C D. apply outcome with (W := p_toks s) (P := any).
  - apply program_calm with (plain := lacks T_ASSIGN (p_toks s)) (unlinked := lacks T_OPT_CHAIN (p_toks s)).
    + intros k' s' S. apply (m_seq _ _ _ _ (calm_of (p_toks s) T C depth)). exact S.
    + intros k' s' S. apply (m_assign _ _ _ _ (calm_of (p_toks s) T C depth)). exact S.
    + intros k' s' x S E. exact (forward_sound _ _ s' x S (decl_ok k' s' x E)).
    + exists []. reflexivity.
  - exact (proj2 (C51_program feat text chk other method block params_ok decl names_ok jump_ok use_strict other_end method_end block_end decl_end k s depth D)).
Qed.
End Claims.
Print Assumptions C50_expression_partial.
Print Assumptions C50_program_partial.

(** [(a = {1})] *)
Theorem C50_literal_refuted : ExprProps.parse 0 (src [y T_PAREN_L; w (bs "a"); y T_ASSIGN; y T_BRACE_L; num (bs "1"); y T_BRACE_R; y T_PAREN_R]) = PPanic.
Proof. vm_compute; reflexivity. Qed.

(** A real case: what stands for the parts not modelled in the examples is quiet, and [(a = [1, b], c) => a?.b] is tame. *)
Example parts_quiet : quiet no_parts /\ block_quiet empty_block.
Proof.
  split; [intros k s x H; discriminate H|]. intros k [[|a [|b l]] p q]; cbn; try exact I. exists [a; b]. reflexivity.
Qed.
Definition mild : pst := src [y T_PAREN_L; w (bs "a"); y T_ASSIGN; y T_BRACKET_L; num (bs "1"); y T_COMMA; w (bs "b"); y T_BRACKET_R; y T_COMMA; w (bs "c"); y T_PAREN_R;
  y T_ARROW; w (bs "a"); y T_OPT_CHAIN; w (bs "b")].
Example mild_tame : tame (p_toks mild) /\ templates_carry (p_toks mild) /\
  match seq feats t_text (fun _ => true) no_parts no_parts empty_block (fun _ _ _ => true) (16 * 15 + 14) 0 mild with POk (EArrow _ _ _) _ => True | _ => False end.
Proof.
  split; [split|split].
  - intros [_ [(x & a & b & z & E & V & C)|(x & a & l & b & z & E & V & L & C)]]; apply (f_equal (map t_val)) in E; rewrite map_app in E; cbn [map] in E.
    + rewrite C in E. assert (V2 : t_val a = T_BRACKET_L \/ t_val a = T_COMMA) by exact V. clear V C.
      repeat (destruct x as [|? x]; [cbn in E; destruct V2 as [V2|V2]; rewrite V2 in E; discriminate E|cbn in E; injection E as _ E]); destruct x; discriminate E.
    + assert (V2 : t_val a = T_BRACE_L \/ t_val a = T_COMMA) by tauto. clear V.
      repeat (destruct x as [|? x]; [cbn in E; destruct V2 as [V2|V2], L as [L|L]; rewrite V2, L in E; discriminate E|cbn in E; injection E as _ E]); destruct x; discriminate E.
  - intros [(t & H & K) _]. cbn in H. repeat (destruct H as [H|H]; [subst t; discriminate K|]). exact H.
  - intros t H K. exfalso. cbn in H. repeat (destruct H as [H|H]; [subst t; destruct K as [K|[K|K]]; discriminate K|]). exact H.
  - vm_compute. exact I.
Qed.
