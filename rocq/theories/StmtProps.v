(** C29, and C38, C39, C40 for statements: where semicolons may be left out, what statements are read from, what
    the heads of loops assign to, and where nodes are. *)
From Coq Require Import Lia ZifyBool ZifyNat ZifyN.
From Verif Require Import Base TokenModel LexModel ParseBase BinModel BinSpec BinProofs SymtabModel EarlyModel ExprModel ExprSpec ExprProofs
  ExprPlaces ExprTargets ExprReads ExprProps StmtModel StmtSpec StmtReads StmtPlaces StmtEnds LabelProofs StmtTargets.

(** Where a statement may end, before its semicolon if there is one, and what is read then. *)
Definition may_stop (nx : token) : Prop := t_val nx = T_SEMI \/ may_omit nx.
Definition ended (s s' : pst) : Prop := read s (if at_tok T_SEMI s then [peek s] else []) s'.
(** What is not modelled does not begin with a comma, a closing parenthesis or a colon. *)
Definition opening (r : rng) (ts : list token) : Prop := whole r ts /\ ~ stray (hd (eof_tok 0) ts).
Definition reads_opening (f : N -> pst -> option (pres rng)) : Prop :=
  forall k s r s', f k s = Some (POk r s') -> exists ts, read s ts s' /\ opening r ts.

Section Claims.
Variables (feat : N) (text : token -> bytes) (chk : pst -> bool).
Variables (other method : N -> pst -> option (pres rng)) (block : N -> pst -> pres rng)
  (params_ok : N -> list expr -> pst -> bool).
Variables (decl : N -> pst -> option (pres rng)) (names_ok : N -> list expr -> pst -> bool)
  (jump_ok : N -> stmt -> pst -> bool) (use_strict : token -> bool).
Hypotheses (other_ok : reads_whole other) (method_ok : reads_whole method) (block_ok : block_whole block) (decl_ok : reads_whole decl).
(** The parsers of expressions, each with its fuel. *)
Variable depth : nat.
Notation expression := (seq feat text chk other method block params_ok depth).
Notation assignment := (fun k => assign feat text chk other method block params_ok depth k true).
Notation parse := (program feat text chk expression assignment decl names_ok jump_ok use_strict).
Notation any := (fun r ts (_ : token) => whole r ts).
Notation spelled lax := (stats text whole whole whole any lax True).

Lemma expression_reads : forall k s e s', expression k s = POk e s' -> exists ts, read s ts s' /\ full text whole whole whole True e ts.
Proof using other_ok method_ok block_ok.
  intros k s e s' H. destruct (parse_spelled _ _ _ _ _ _ _ other_ok method_ok block_ok _ _ _ _ _ H) as (n & ts & R & S & N).
  exists ts. split; [exact R|]. exists n; auto.
Qed.
Lemma assignment_reads : forall k s e s', assignment k s = POk e s' -> exists ts, read s ts s' /\ single text whole whole whole True e ts.
Proof using other_ok method_ok block_ok.
  intros k s e s' H. destruct (v_assign _ _ _ _ _ (ExprProps.inv feat text chk _ _ _ params_ok other_ok method_ok block_ok depth) _ _ _ _ _ H) as (n & ts & R & S & N).
  exists ts. split; [exact R|]. exists n; auto.
Qed.
Local Definition prog_reads := program_reads feat text chk expression assignment decl names_ok jump_ok use_strict whole whole whole any
  whole_framed whole_framed whole_framed (fun _ => whole_framed) expression_reads assignment_reads decl_ok.

(** A program that is accepted is read to the end, and is a spelling of the statements that are returned, each of
    them of the grammar's form, and none of its tokens is skipped or read twice.
    Partial: what [stat] allows beyond ECMA-262 is shown by the refuted claims below; functions, classes, imports
    and exports are not modelled. *)
Theorem C39_program_partial : forall fuel k s l s', parse fuel k s = POk l s' ->
  exists ts, p_toks s = ts ++ p_toks s' /\ pval s' = T_EOF /\ spelled True l ts (peek s').
Proof using other_ok method_ok block_ok decl_ok.
  intros fuel k s l s' H. destruct (prog_reads _ _ _ _ _ H) as (ts & (R & _) & E & S). exists ts; auto.
Qed.
(** In an accepted program every statement that needs a semicolon has one, or stands before a closing brace, the end
    of the input or a line terminator; and no line terminator stands after return, throw, break and continue before
    what belongs to them, nor between an operand and a postfix operator.
    Partial: functions, classes, imports and exports are not modelled; they must not begin with a comma, a closing
    parenthesis or a colon.  See also C29_return_refuted. *)
Theorem C29_program_partial : reads_opening other -> reads_opening decl -> forall fuel k s l s', parse fuel k s = POk l s' ->
  exists ts, p_toks s = ts ++ p_toks s' /\ pval s' = T_EOF /\ stats text opening whole whole (fun r ts _ => opening r ts) True False l ts (peek s').
Proof using method_ok block_ok.
  intros Ot De fuel k s l s' H.
  assert (Fr : framed opening) by (intros r ts W; exact (proj1 W)).
  assert (St : forall r ts, opening r ts -> starts ts).
  { intros r ts ((N & _) & W). destruct ts as [|t us]; [contradiction|]. exists t, us. split; [reflexivity|exact W]. }
  pose proof (inv_all feat text chk other method block params_ok opening whole whole Fr whole_framed whole_framed Ot method_ok block_ok depth) as V.
  assert (R1 : forall k s e s', expression k s = POk e s' -> exists ts, read s ts s' /\ full text opening whole whole True e ts).
  { intros k0 s0 e s1 E. destruct (v_seq _ _ _ _ _ V _ _ _ _ E) as (n & ts & R & S & N). exists ts. split; [exact R|]. exists n; auto. }
  assert (R2 : forall k s e s', assignment k s = POk e s' -> exists ts, read s ts s' /\ single text opening whole whole True e ts).
  { intros k0 s0 e s1 E. destruct (v_assign _ _ _ _ _ V _ _ _ _ _ E) as (n & ts & R & S & N). exists ts. split; [exact R|]. exists n; auto. }
  destruct (program_reads feat text chk expression assignment decl names_ok jump_ok use_strict opening whole whole (fun r ts _ => opening r ts)
    Fr whole_framed whole_framed (fun _ => Fr) R1 R2 De _ _ _ _ _ H) as (ts & (R & _) & E & S). exists ts. split; [exact R|]. split; [exact E|].
  apply (proj1 (proj2 (proj2 (stat_tight text opening whole whole (fun r ts _ => opening r ts) (fun r ts _ => opening r ts) St (fun r ts _ => St r ts) (fun r ts _ H _ => H)))) _ _ _ S).
  unfold stray. unfold pval in E. rewrite E. cbn [In]. intuition discriminate.
Qed.

(** The ranges of the nodes of an accepted program nest, siblings follow one another, and ranges begin and end at
    edges of tokens. *)
Theorem C40_program_partial : forall fuel k s l s', parse fuel k s = POk l s' -> ordered (p_toks s) ->
  exists ts a b, p_toks s = ts ++ p_toks s' /\ srow a b l /\ Forall (snested (edge ts)) l.
Proof using other_ok method_ok block_ok decl_ok.
  intros fuel k s l s' H (a & b & O). destruct (prog_reads _ _ _ _ _ H) as (ts & (R & _) & E & S). exists ts, a.
  rewrite R in O. apply span_app in O as (m & O & _). exists m. split; [exact R|].
  destruct (stat_places text whole whole whole any whole_framed whole_framed whole_framed (fun _ => whole_framed) (edge ts) True) as (_ & _ & L & _).
  apply (L _ _ _ S _ _ O). apply Forall_forall. intros t I. split; exists t; auto.
Qed.

(** Wherever a for-in or for-of statement stands, what it assigns to is a name, a member, a pattern, or one of
    these in parentheses, or a single declarator; and whatever is assigned to in the expressions of statements
    can be, as in C38_targets_partial; so can whatever the expressions within bindings assign to.
    Partial: see C38_for_refuted. *)
Theorem C38_program_partial : forall fuel k s l s', parse fuel k s = POk l s' -> forall st x, In st l -> inside x st -> sound x.
Proof using other_ok method_ok block_ok decl_ok.
  intros fuel k s l s' H. destruct (prog_reads _ _ _ _ _ H) as (ts & _ & _ & S).
  exact (fun st x => proj1 (proj2 (proj2 (stat_sound text whole whole whole any True whole_framed whole_framed whole_framed))) _ _ _ S st x).
Qed.

(** Wherever a switch stands in an accepted program, no default clause directly follows another.
    Partial: with a case clause between them two default clauses are accepted, C31_switch_refuted. *)
Theorem C31_program_partial : forall fuel k s l s', parse fuel k s = POk l s' ->
  forall st r e cs, In st l -> inside (SSwitch r e cs) st -> forall p q r1 l1 r2 l2, cs <> p ++ SCase r1 None l1 :: SCase r2 None l2 :: q.
Proof using other_ok method_ok block_ok decl_ok.
  intros fuel k s l s' H st r e cs I J. exact (proj1 (C38_program_partial _ _ _ _ _ H st _ I J)).
Qed.

(** Where statements end.  After an expression, the declarators of a declaration, [debugger], and [break] or
    [continue] with or without a label, a statement ends exactly where the next token is a semicolon, a closing
    brace, the end of the input or follows a line terminator, and a semicolon is all that is read then.
    Partial: three more tokens are let through, see C29_stray_refuted, but no statement begins with them. *)
Lemma semi_iff : forall s, (exists u s', advance_if_semi true s = POk u s') <-> may_stop (peek s) \/ stray (peek s).
Proof.
  intro s. split.
  - intros (u & s' & H). unfold may_stop. destruct (semi_read _ _ _ H) as (x & R & X). destruct X as [t X|X N].
    + destruct R as (R & _). left. left. unfold peek. rewrite R. exact X.
    + assert (P : peek s' = peek s).
      { destruct R as (R1 & R2 & _). unfold peek, p_end. rewrite R1. cbn [app]. rewrite R2 by reflexivity. reflexivity. }
      rewrite P in X. tauto.
  - intro H. assert (M : may_end (peek s) = true).
    { unfold may_end. cbn [existsb]. unfold may_stop, may_omit, stray in H. cbn [In] in H.
      destruct H as [[H|[H|[H|H]]]|[H|[H|[H|[]]]]]; match type of H with _ = t_val _ => symmetry in H | _ => idtac end; rewrite H; rewrite ?Bool.orb_true_r; reflexivity. }
    unfold advance_if_semi. rewrite M. cbn [andb negb]. destruct (at_tok T_SEMI s); eauto.
Qed.
Lemma semi_ended : forall b s u s', advance_if_semi b s = POk u s' -> ended s s'.
Proof.
  intros b s u s' H. unfold advance_if_semi in H. destruct (b && negb (may_end (peek s))); [discriminate|]. unfold ended.
  destruct (at_tok T_SEMI s) eqn:A; injection H as _ <-; [exact (at_read _ _ A eq_refl)|exact (sp_refl s)].
Qed.
Theorem C29_expression_partial : forall k s e s1, expression k s = POk e s1 ->
  ((exists st s', expr_stmt expression k s = POk st s') <-> may_stop (peek s1) \/ stray (peek s1)) /\
  forall st s', expr_stmt expression k s = POk st s' -> ended s1 s' /\ exists r, st = SExpr r e.
Proof.
  intros k s e s1 H. unfold expr_stmt. rewrite H. cbn [pbind]. rewrite <- semi_iff. split.
  - split; [intros (st & s' & X); okb X u s2 E; eauto|]. intros (u & s' & X). rewrite X. cbn [pbind]. eauto.
  - intros st s' X. okb X u s2 E. injection X as <- <-. split; [exact (semi_ended _ _ _ _ E)|eauto].
Qed.
Theorem C29_declaration_partial : forall fuel kind k s ds s1, var_decs feat text assignment fuel kind k [] (next s) = POk ds s1 ->
  names_ok k (dec_ids ds) s1 = true ->
  ((exists st s', var_stmt feat text assignment names_ok fuel kind false k s = POk st s') <-> may_stop (peek s1) \/ stray (peek s1)) /\
  forall st s', var_stmt feat text assignment names_ok fuel kind false k s = POk st s' -> ended s1 s' /\ exists r, st = SVar r kind ds.
Proof.
  intros fuel kind k s ds s1 H N. unfold var_stmt. rewrite H. cbn [pbind]. rewrite N. cbn [negb]. rewrite <- semi_iff. split.
  - split; [intros (st & s' & X); okb X u s2 E; eauto|]. intros (u & s' & X). rewrite X. cbn [pbind]. eauto.
  - intros st s' X. okb X u s2 E. injection X as <- <-. split; [exact (semi_ended _ _ _ _ E)|eauto].
Qed.
Theorem C29_debugger_partial : forall s,
  ((exists st s', debug_stmt s = POk st s') <-> may_stop (peek (next s)) \/ stray (peek (next s))) /\
  forall st s', debug_stmt s = POk st s' -> ended (next s) s'.
Proof.
  intro s. unfold debug_stmt. rewrite <- semi_iff. split.
  - split; [intros (st & s' & X); okb X u s2 E; eauto|]. intros (u & s' & X). rewrite X. cbn [pbind]. eauto.
  - intros st s' X. okb X u s2 E. injection X as <- <-. exact (semi_ended _ _ _ _ E).
Qed.
(** After [throw] there is an expression on the same line, and after it a statement ends as above. *)
Theorem C29_throw_partial : forall k s,
  (t_atl (peek (next s)) = true -> throw_stmt expression k s = PErr) /\
  forall e s1, t_atl (peek (next s)) = false -> ~ In (pval (next s)) [T_EOF; T_ILLEGAL] -> expression k (peeked (next s)) = POk e s1 ->
  ((exists st s', throw_stmt expression k s = POk st s') <-> may_stop (peek s1) \/ stray (peek s1)) /\
  forall st s', throw_stmt expression k s = POk st s' -> ended s1 s' /\ exists r, st = SThrow r e.
Proof.
  intros k s. unfold throw_stmt. cbv zeta. change (peek (peeked (next s))) with (peek (next s)). split.
  - intros ->. rewrite Bool.orb_true_r. reflexivity.
  - intros e s1 L Q H. rewrite L, H. unfold at_tok. change (pval (peeked (next s))) with (pval (next s)).
    destruct (tv_eqb (pval (next s)) T_ILLEGAL) eqn:E1; [apply tv_eqb_spec in E1; cbn [In] in Q; rewrite E1 in Q; tauto|].
    destruct (tv_eqb (pval (next s)) T_EOF) eqn:E2; [apply tv_eqb_spec in E2; cbn [In] in Q; rewrite E2 in Q; tauto|].
    cbn [pbind orb]. rewrite <- semi_iff. split.
    + split; [intros (st & s' & X); okb X u s2 E; eauto|]. intros (u & s' & X). rewrite X. cbn [pbind]. eauto.
    + intros st s' X. okb X u s2 E. injection X as <- <-. split; [exact (semi_ended _ _ _ _ E)|eauto].
Qed.
(** A return before a line terminator returns nothing, and nothing but its own semicolon is read; in a function,
    it is accepted. *)
Theorem C29_return_newline : forall k s, t_atl (peek (next s)) = true -> pval (next s) <> T_SEMI ->
  has k SPK_FUNC || has k SPK_FUNC_INDIRECT = true ->
  exists r s', ret_stmt expression k s = POk (SRet r None) s' /\ read (next s) [] s'.
Proof.
  intros k s L Q F. unfold ret_stmt. cbv zeta. change (peek (peeked (next s))) with (peek (next s)). rewrite L.
  unfold at_tok. change (pval (peeked (next s))) with (pval (next s)).
  destruct (tv_eqb (pval (next s)) T_SEMI) eqn:E1; [apply tv_eqb_spec in E1; contradiction|]. rewrite Bool.orb_true_r.
  cbn [pbind negb]. unfold advance_if_semi. unfold may_end, at_tok. change (peek (peeked (next s))) with (peek (next s)). rewrite L, Bool.orb_true_r.
  cbn [andb negb pbind]. change (pval (peeked (next s))) with (pval (next s)). rewrite E1. cbn [pbind].
  destruct (has k SPK_FUNC), (has k SPK_FUNC_INDIRECT); try discriminate F; cbn [negb andb]; eexists; eexists; (split; [reflexivity|exact (sp_refl (next s))]).
Qed.
(** A return with an expression ends as an expression statement does. *)
Theorem C29_return_partial : forall k s e s1, t_atl (peek (next s)) = false ->
  ~ In (pval (next s)) [T_SEMI; T_ILLEGAL; T_BRACE_R; T_PAREN_R; T_BRACKET_R; T_EOF] -> expression k (peeked (next s)) = POk e s1 ->
  has k SPK_FUNC || has k SPK_FUNC_INDIRECT = true ->
  ((exists st s', ret_stmt expression k s = POk st s') <-> may_stop (peek s1) \/ stray (peek s1)) /\
  forall st s', ret_stmt expression k s = POk st s' -> ended s1 s' /\ exists r, st = SRet r (Some e).
Proof.
  intros k s e s1 L Q H F. unfold ret_stmt. cbv zeta. change (peek (peeked (next s))) with (peek (next s)). rewrite L, H.
  unfold at_tok. change (pval (peeked (next s))) with (pval (next s)).
  assert (Z : forall v, In v [T_SEMI; T_ILLEGAL; T_BRACE_R; T_PAREN_R; T_BRACKET_R; T_EOF] -> tv_eqb (pval (next s)) v = false).
  { intros v Hv. destruct (tv_eqb (pval (next s)) v) eqn:E; [|reflexivity]. apply tv_eqb_spec in E. rewrite E in Q. contradiction. }
  cbn [existsb]. rewrite !Z by (cbn [In]; tauto). cbn [orb pbind negb]. rewrite <- semi_iff.
  assert (G : negb (has k SPK_FUNC) && negb (has k SPK_FUNC_INDIRECT) = false) by (destruct (has k SPK_FUNC), (has k SPK_FUNC_INDIRECT); try discriminate F; reflexivity).
  rewrite G. split.
  - split; [intros (st & s' & X); okb X u s2 E; eauto|]. intros (u & s' & X). rewrite X. cbn [pbind]. eauto.
  - intros st s' X. okb X u s2 E. injection X as <- <-. split; [exact (semi_ended _ _ _ _ E)|eauto].
Qed.
(** Break and continue: before a line terminator they have no label, whatever stands there; and they end as an
    expression statement does. *)
Theorem C29_jump_partial : forall mk k s, t_atl (peek (next s)) = true -> (forall st t, jump_ok k st t = true) ->
  exists r s', jump_stmt text jump_ok mk k s = POk (mk r None) s' /\ ended (next s) s'.
Proof.
  intros mk k s L J. unfold jump_stmt. cbv zeta. change (peek (peeked (next s))) with (peek (next s)). rewrite L, Bool.andb_false_r. cbn [pbind].
  destruct (proj2 (semi_iff (peeked (next s)))) as (u & s' & X); [left; right; unfold may_omit; right; right; exact L|].
  rewrite X. cbn [pbind]. rewrite J. eexists; eexists; split; [reflexivity|]. exact (semi_ended _ _ _ _ X).
Qed.
Lemma name_read : forall k s e s', ident text k s = POk e s' ->
  exists kw, e = EName (place (peek s)) (text (peek s)) false kw /\ s' = next s /\ read s [peek s] s'.
Proof.
  intros k s e s' H. unfold ident in H. cbv zeta in H. destruct (ident_tok (t_val (peek s))) eqn:A; [|discriminate]. cbn [negb] in H.
  repeat match type of H with (if ?b then _ else _) = _ => destruct b; [discriminate|] end. injection H as <- <-.
  exists (is_kw (t_val (peek s))). repeat split; auto.
  all: apply sp_next; intro Q; unfold pval in Q; rewrite Q in A; discriminate A.
Qed.
Theorem C29_jump_end_partial : forall mk k s st s', jump_stmt text jump_ok mk k s = POk st s' ->
  exists l s1 r, st = mk r l /\ (may_stop (peek s1) \/ stray (peek s1)) /\ ended s1 s' /\
    match l with
    | None => s1 = peeked (next s)
    | Some e => exists w kw, e = EName (place w) (text w) false kw /\ read (next s) [w] s1 /\ t_val w = T_NAME /\ t_atl w = false
    end.
Proof.
  intros mk k s st s' H. unfold jump_stmt in H. cbv zeta in H. okb H l s1 E. okb H u s2 X.
  destruct (jump_ok k (mk (fin (here s) s2) l) s2); [|discriminate]. injection H as <- <-.
  exists l, s1, (fin (here s) s2). split; [reflexivity|]. split; [apply semi_iff; eauto|]. split; [exact (semi_ended _ _ _ _ X)|].
  destruct (at_tok T_NAME (peeked (next s)) && negb (t_atl (peek (peeked (next s))))) eqn:A.
  - apply andb_true_iff in A. destruct A as (A & B). okb E e s3 E1. injection E as <- <-. 
    destruct (name_read _ _ _ _ E1) as (kw & -> & -> & Q2). exists (peek (next s)), kw. split; [reflexivity|].
    apply tv_eqb_spec in A. split; [exact Q2|split; [exact A|]].
    destruct (t_atl (peek (next s))) eqn:Q; [|reflexivity]. change (peek (peeked (next s))) with (peek (next s)) in B. rewrite Q in B. discriminate.
  - injection E as <- <-. reflexivity.
Qed.
Lemma simple_strict : forall k e, has k SPK_STRICT = true -> forall m, is_simple k true m false e = true -> strict_word (bare e) = false.
Proof.
  intros k e St. induction e; intros m Q; cbn [bare strict_word]; try reflexivity.
  - cbn [is_simple] in Q. rewrite St in Q. cbn [andb] in Q.
    destruct (has k SPK_ASYNC && bytes_eqb n (bs "await")); [discriminate|]. destruct (bytes_eqb n (bs "eval") || bytes_eqb n (bs "arguments")); [discriminate|reflexivity].
  - cbn [is_simple] in Q. exact (IHe _ Q).
Qed.
Lemma has_if : forall (c : bool) a b m, has (if c then a else b) m = if c then has a m else has b m.
Proof. intros [] a b m; reflexivity. Qed.
Lemma strict_entered : forall k, has (entered_kind k false false) SPK_STRICT = has k SPK_STRICT.
Proof.
  intro k. unfold entered_kind. cbv zeta. cbn [negb orb].
  assert (F : forall (c : bool) m x, has m SPK_STRICT = false -> has (if c then N.lor x m else x) SPK_STRICT = has x SPK_STRICT).
  { intros c m x E. destruct c; [|reflexivity]. rewrite LabelProofs.has_lor, E. apply Bool.orb_false_r. }
  do 4 rewrite F by reflexivity. rewrite has_if, LabelProofs.has_lor. do 9 rewrite F by reflexivity.
  destruct (has k SPK_STRICT); reflexivity.
Qed.
(** In strict code no loop assigns to eval or arguments, also not in parentheses. *)
Theorem C38_head_strict_partial : forall fuel k s r isin await e h b s' rec,
  for_stmt feat text chk expression assignment names_ok rec fuel k s = POk (SForIn r isin await (SE e) h b) s' ->
  has k SPK_STRICT = true -> strict_word (bare e) = false.
Proof.
  intros fuel k s r isin await e h b s' rec H St.
  assert (K : has (block_kind k SPK_LOOP_DIRECT) SPK_STRICT = true).
  { unfold block_kind. rewrite LabelProofs.has_lor. apply Bool.orb_true_intro. left. exact (eq_trans (strict_entered k) St). }
  unfold for_stmt in H. cbv zeta in H.
  match type of H with (if ?c then _ else _) = _ => destruct c; [discriminate|] end. okb H u s2 E1. okb H init s3 E2.
  match type of H with (if ?c then _ else _) = _ => destruct c; [discriminate|] end.
  match type of H with (if ?c then _ else _) = _ => destruct c; [discriminate|] end.
  match type of H with (if ?c then _ else _) = _ => destruct c end.
  - destruct init as [init|]; [|destruct (is_name _ _ _); discriminate]. oka H left E3. okb H right s4 E4. okb H u5 s5 E5. okb H b6 s6 E6.
    injection H as _ _ _ -> _ _ _. unfold for_left in E3. destruct init; try discriminate E3.
    + destruct (is_simple (block_kind k SPK_LOOP_DIRECT) true true false e0) eqn:Q; [|discriminate E3]. cbn [negb] in E3.
      destruct (is_lit_pat e0) eqn:P.
      * destruct e0; try discriminate P; cbn [arg_to_param] in E3.
        -- destruct (stop_map _ es) as [es' x]. cbn [snd] in E3. destruct x; try discriminate E3. cbn [athen] in E3. injection E3 as <-. reflexivity.
        -- destruct (stop_map _ ps) as [ps' x]. cbn [snd] in E3. destruct x; try discriminate E3. cbn [athen] in E3. injection E3 as <-. reflexivity.
      * injection E3 as <-. exact (simple_strict _ _ K _ Q).
    + repeat match type of E3 with (if ?c then _ else _) = _ => destruct c end; discriminate E3.
  - repeat (let x := fresh in let y := fresh in let z := fresh in okb H x y z). discriminate H.
Qed.
End Claims.
Print Assumptions C39_program_partial.
Print Assumptions C29_program_partial.
Print Assumptions C40_program_partial.
Print Assumptions C38_program_partial.
Print Assumptions C31_program_partial.
Print Assumptions C29_expression_partial.
Print Assumptions C29_declaration_partial.
Print Assumptions C29_debugger_partial.
Print Assumptions C29_throw_partial.
Print Assumptions C29_return_newline.
Print Assumptions C29_return_partial.
Print Assumptions C29_jump_partial.
Print Assumptions C29_jump_end_partial.
Print Assumptions C38_head_strict_partial.

(** Shapes of statements. *)
Definition opt_stmt_shape (f : stmt -> shape) (o : option stmt) : shape := match o with Some s => f s | None => leaf "none" end.
Definition opt_expr_shape (o : option expr) : shape := match o with Some e => shape_of e | None => leaf "none" end.
Fixpoint sshape_of (s : stmt) : shape :=
  match s with
  | SE e => shape_of e
  | SExpr _ e => Sh (bs "expression") [shape_of e]
  | SEmpty _ => leaf ";"
  | SDebug _ => leaf "debugger"
  | SDecl _ => leaf "declaration"
  | SThrow _ e => Sh (bs "throw") [shape_of e]
  | SBlock _ l => Sh (bs "block") (map sshape_of l)
  | SVar _ _ l => Sh (bs "var") (map sshape_of l)
  | SDec _ b i => Sh (bs "declarator") [shape_of b; opt_expr_shape i]
  | SIf _ t c a => Sh (bs "if") [shape_of t; sshape_of c; opt_stmt_shape sshape_of a]
  | SWhile _ t b => Sh (bs "while") [shape_of t; sshape_of b]
  | SWith _ t b => Sh (bs "with") [shape_of t; sshape_of b]
  | SDo _ b t => Sh (bs "do") [sshape_of b; shape_of t]
  | SFor _ i t u b => Sh (bs "for") [opt_stmt_shape sshape_of i; opt_expr_shape t; opt_expr_shape u; sshape_of b]
  | SForIn _ i _ l r b => Sh (if i then bs "for-in" else bs "for-of") [sshape_of l; shape_of r; sshape_of b]
  | SRet _ e => Sh (bs "return") [opt_expr_shape e]
  | SBrk _ e => Sh (bs "break") [opt_expr_shape e]
  | SCont _ e => Sh (bs "continue") [opt_expr_shape e]
  | SLabel _ l b => Sh (bs "label") [shape_of l; sshape_of b]
  | SSwitch _ e cs => Sh (bs "switch") (shape_of e :: map sshape_of cs)
  | SCase _ e l => Sh (bs "case") (opt_expr_shape e :: map sshape_of l)
  | STry _ b c f => Sh (bs "try") [sshape_of b; opt_stmt_shape sshape_of c; opt_stmt_shape sshape_of f]
  | SCatch _ p b => Sh (bs "catch") [opt_expr_shape p; sshape_of b]
  end.
Definition exprs := seq feats t_text (fun _ => true) no_parts no_parts empty_block (fun _ _ _ => true) 60.
Definition assigns k := assign feats t_text (fun _ => true) no_parts no_parts empty_block (fun _ _ _ => true) 60 k true.
Definition run (k : N) (l : list (tv * bytes * ext * bool)) : option (list shape) :=
  match program feats t_text (fun _ => true) exprs assigns no_parts (fun _ _ _ => true) (fun _ _ _ => true) (fun _ => false) 60 k (src l) with
  | POk l _ => Some (map sshape_of l)
  | _ => None
  end.
Lemma no_parts_opening : reads_opening no_parts.
Proof. intros k s r s' H; discriminate H. Qed.

(** [for (a of b) { var [c] = a ; } throw a] and, on the next line, [if (a) b; else debugger]: programs meet the
    hypotheses. *)
Definition at_nl (x : tv * bytes * ext * bool) := let '(v, n, e, _) := x in (v, n, e, true).
Example program_tree : run SPK_GLOBAL
  [y T_FOR; y T_PAREN_L; A; w (bs "of"); B; y T_PAREN_R; y T_BRACE_L; y T_VAR; y T_BRACKET_L; C; y T_BRACKET_R; y T_ASSIGN; A; y T_SEMI; y T_BRACE_R;
   y T_THROW; A; nl T_IF; y T_PAREN_L; A; y T_PAREN_R; B; y T_SEMI; y T_ELSE; y T_DEBUGGER] =
  Some [Sh (bs "for-of") [leaf "a"; leaf "b"; Sh (bs "block") [Sh (bs "var") [Sh (bs "declarator") [Sh (bs "[pattern]") [leaf "c"]; leaf "a"]]]];
        Sh (bs "throw") [leaf "a"]; Sh (bs "if") [leaf "a"; Sh (bs "expression") [leaf "b"]; leaf "debugger"]].
Proof. vm_compute; reflexivity. Qed.
(** Without the line terminator a semicolon is missing. *)
Example program_semicolon : run SPK_GLOBAL [A; B] = None /\ run SPK_GLOBAL [A; at_nl B] = Some [Sh (bs "expression") [leaf "a"]; Sh (bs "expression") [leaf "b"]].
Proof. vm_compute; auto. Qed.
(** [return], newline, [a]; [throw], newline, [a]; [break], newline, [a]; [a], newline, [++], newline, [b]. *)
Example restricted : run SPK_FUNC [y T_RETURN; at_nl A] = Some [Sh (bs "return") [leaf "none"]; Sh (bs "expression") [leaf "a"]] /\
  run SPK_FUNC [y T_THROW; at_nl A] = None /\
  run SPK_FUNC [y T_BREAK; at_nl A] = Some [Sh (bs "break") [leaf "none"]; Sh (bs "expression") [leaf "a"]] /\
  run SPK_FUNC [A; nl T_INC; at_nl B] = Some [Sh (bs "expression") [leaf "a"]; Sh (bs "expression") [Sh (bs "prefix") [leaf "b"]]].
Proof. vm_compute; auto. Qed.
(** [switch (a) { case b: default: c; }] and the same with a second default clause. *)
Example switch_tree : run SPK_GLOBAL [y T_SWITCH; y T_PAREN_L; A; y T_PAREN_R; y T_BRACE_L; y T_CASE; B; y T_COLON; y T_DEFAULT; y T_COLON; C; y T_SEMI; y T_BRACE_R] =
  Some [Sh (bs "switch") [leaf "a"; Sh (bs "case") [leaf "b"]; Sh (bs "case") [leaf "none"; Sh (bs "expression") [leaf "c"]]]] /\
  run SPK_GLOBAL [y T_SWITCH; y T_PAREN_L; A; y T_PAREN_R; y T_BRACE_L; y T_CASE; B; y T_COLON; y T_DEFAULT; y T_COLON; y T_DEFAULT; y T_COLON; C; y T_SEMI; y T_BRACE_R] = None.
Proof. vm_compute; auto. Qed.
Example strict_head : run SPK_STRICT [y T_FOR; y T_PAREN_L; w (bs "eval"); w (bs "of"); B; y T_PAREN_R; y T_SEMI] = None /\
  run SPK_STRICT [y T_FOR; y T_PAREN_L; w (bs "a"); w (bs "of"); B; y T_PAREN_R; y T_SEMI] = Some [Sh (bs "for-of") [leaf "a"; leaf "b"; leaf ";"]].
Proof. vm_compute; auto. Qed.

(** A semicolon is found to be missing before a comma, a closing parenthesis or a colon only by the next statement:
    the statement itself ends there. *)
Theorem C29_stray_refuted : forall v, In v [T_COMMA; T_PAREN_R; T_COLON] ->
  exists st s', expr_stmt (fun _ s => POk (EName (0, 0) (bs "a") false false) (next s)) 0 (src [A; y v]) = POk st s' /\ pval s' = v.
Proof. intros v [<-|[<-|[<-|[]]]]; eexists; eexists; (split; [vm_compute; reflexivity|reflexivity]). Qed.
(** [if (a) return;; else b]: the second semicolon is a statement of its own, so that else stands alone. *)
Theorem C29_return_refuted : run SPK_FUNC [y T_IF; y T_PAREN_L; A; y T_PAREN_R; y T_RETURN; y T_SEMI; y T_SEMI; y T_ELSE; B] =
  Some [Sh (bs "if") [leaf "a"; Sh (bs "return") [leaf "none"]; Sh (bs "expression") [leaf "b"]]].
Proof. vm_compute; reflexivity. Qed.
(** [for (([a]) of b);] *)
Theorem C38_for_refuted : run SPK_GLOBAL [y T_FOR; y T_PAREN_L; y T_PAREN_L; y T_BRACKET_L; A; y T_BRACKET_R; y T_PAREN_R; w (bs "of"); B; y T_PAREN_R; y T_SEMI] =
  Some [Sh (bs "for-of") [Sh (bs "()") [Sh (bs "[]") [leaf "a"]]; leaf "b"; leaf ";"]].
Proof. vm_compute; reflexivity. Qed.
(** [var ...a = b] and [var [...a = 1, b] = c] *)
Theorem C39_rest_refuted :
  run SPK_GLOBAL [y T_VAR; y T_DOT_TRI; A; y T_ASSIGN; B] = Some [Sh (bs "var") [Sh (bs "declarator") [Sh (bs "...") [leaf "a"]; leaf "b"]]] /\
  run SPK_GLOBAL [y T_VAR; y T_BRACKET_L; y T_DOT_TRI; A; y T_ASSIGN; num (bs "1"); y T_COMMA; B; y T_BRACKET_R; y T_ASSIGN; C] =
  Some [Sh (bs "var") [Sh (bs "declarator") [Sh (bs "[pattern]") [Sh (bs "default") [Sh (bs "...") [leaf "a"]; leaf "1"]; leaf "b"]; leaf "c"]]].
Proof. vm_compute; auto. Qed.
(** [var {1} = b] and [var {[a] = 1} = b] *)
Theorem C39_binding_key_refuted :
  run SPK_GLOBAL [y T_VAR; y T_BRACE_L; num (bs "1"); y T_BRACE_R; y T_ASSIGN; B] =
  Some [Sh (bs "var") [Sh (bs "declarator") [Sh (bs "{pattern}") [Sh (bs ":") [leaf "1"; leaf "1"]]; leaf "b"]]] /\
  run SPK_GLOBAL [y T_VAR; y T_BRACE_L; y T_BRACKET_L; A; y T_BRACKET_R; y T_ASSIGN; num (bs "1"); y T_BRACE_R; y T_ASSIGN; B] =
  Some [Sh (bs "var") [Sh (bs "declarator") [Sh (bs "{pattern}") [Sh (bs ":") [leaf "a"; Sh (bs "default") [leaf "a"; leaf "1"]]]; leaf "b"]]].
Proof. vm_compute; auto. Qed.
