(** Proofs about the tokens buffer. *)
From Verif Require Import Base Utf8Model SourceModel SourceSpec SourceProofs TokenModel LexModel LexSpec LexProofs LexGapProofs LexKindProofs LexProps LexStrProps LexTplProps LexBufModel LexBufSpec.
From Coq Require Import ZifyBool ZifyNat.
Ltac Zify.zify_post_hook ::= Z.div_mod_to_equations.

Definition tb_ok (b : tbuf) : Prop := length (tb_buf b) = 5 /\ tb_len b <= 5 /\ tb_r b < 5 /\ tb_w b = (tb_r b + tb_len b) mod 5.
Lemma new_tb_ok : tb_ok new_tb.
Proof. repeat split; cbn; lia. Qed.
Lemma inc_mod : forall i, i < 5 -> inc i = (i + 1) mod 5.
Proof. intros i H. unfold inc. destruct (Nat.eqb_spec (S i) 5); lia. Qed.
Lemma set_cell_length : forall l i t, length (set_cell l i t) = length l.
Proof. induction l; intros [|i] t; cbn; auto. Qed.
Lemma set_cell_nth : forall l i j t, nth j (set_cell l i t) zero_tok = if Nat.eqb i j && (j <? length l) then t else nth j l zero_tok.
Proof.
  induction l as [|x l IH]; intros i j t; [cbn; rewrite Bool.andb_false_r; destruct j; reflexivity|]. destruct i, j; cbn [set_cell nth Nat.eqb andb length]; try reflexivity. rewrite IH. reflexivity.
Qed.

Definition bqueue (b : tbuf) : list token := map (fun k => cell b ((tb_r b + k) mod 5)) (seq 0 (tb_len b)).
Lemma queue_length : forall b, length (bqueue b) = tb_len b.
Proof. intros b. unfold bqueue. rewrite map_length, seq_length. reflexivity. Qed.
Lemma fill_queue : forall b t, tb_ok b -> tb_len b < 5 -> bqueue (tb_fill b t) = bqueue b.
Proof.
  intros b t [H1 [H2 [H3 H4]]] H. unfold bqueue. cbn [tb_fill tb_len tb_r]. apply map_ext_in. intros k Hk. apply in_seq in Hk. unfold cell. cbn [tb_buf tb_fill]. rewrite set_cell_nth.
  destruct (Nat.eqb_spec (tb_w b) ((tb_r b + k) mod 5)); [exfalso; lia|]. reflexivity.
Qed.
Lemma fill_ok : forall b t, tb_ok b -> tb_ok (tb_fill b t).
Proof. intros b t [H1 [H2 [H3 H4]]]. repeat split; cbn [tb_fill tb_buf tb_len tb_r tb_w]; auto. rewrite set_cell_length. exact H1. Qed.
Lemma write_queue : forall b t b', tb_ok b -> tb_write (tb_fill b t) = Some b' -> tb_ok b' /\ bqueue b' = bqueue b ++ [t] /\ tb_len b < 5.
Proof.
  intros b t b' Hb H. assert (Hb' := Hb). destruct Hb as [H1 [H2 [H3 H4]]]. unfold tb_write in H. cbn [tb_fill tb_len tb_buf tb_r tb_w] in H. destruct (tb_len b <? 5) eqn:E; [|discriminate]. apply Nat.ltb_lt in E. injection H as <-.
  split; [|split; [|exact E]].
  - repeat split; cbn [tb_buf tb_len tb_r tb_w]; [rewrite set_cell_length; exact H1|lia|exact H3|]. rewrite inc_mod by lia. lia.
  - unfold bqueue at 1. cbn [tb_len tb_r]. rewrite seq_S, map_app. cbn [map plus]. f_equal.
    + rewrite <- (fill_queue b t Hb' E). reflexivity.
    + unfold cell. cbn [tb_buf]. rewrite set_cell_nth. rewrite <- H4, Nat.eqb_refl, H1. replace (tb_w b <? 5) with true by lia. reflexivity.
Qed.
Lemma write_none : forall b t, tb_write (tb_fill b t) = None <-> 5 <= tb_len b.
Proof. intros b t. unfold tb_write. cbn [tb_fill tb_len]. destruct (tb_len b <? 5) eqn:E; split; intros H; try discriminate; try lia; reflexivity. Qed.
Lemma read_queue : forall b, tb_ok b -> tb_readable b = true -> tb_ok (tb_read b) /\ bqueue b = cell b (tb_r b) :: bqueue (tb_read b).
Proof.
  intros b [H1 [H2 [H3 H4]]] H. unfold tb_readable in H. apply Nat.ltb_lt in H. split.
  - repeat split; cbn [tb_read tb_buf tb_len tb_r tb_w]; auto; try lia; rewrite inc_mod by lia; lia.
  - unfold bqueue. cbn [tb_read tb_len tb_r]. destruct (tb_len b) as [|n] eqn:E; [lia|]. cbn [pred seq map]. f_equal.
    + f_equal. lia.
    + rewrite <- seq_shift, map_map. apply map_ext_in. intros k Hk. unfold cell. cbn [tb_read tb_buf]. f_equal. rewrite inc_mod by lia. lia.
Qed.
Lemma readable_queue : forall b, tb_readable b = negb (match bqueue b with [] => true | _ => false end).
Proof. intros b. pose proof (queue_length b) as H. unfold tb_readable. destruct (bqueue b); cbn [length] in H; rewrite <- H; reflexivity. Qed.

Lemma tv_eof : forall v, tv_eqb v T_EOF = true <-> v = T_EOF.
Proof. intros. apply tv_eqb_spec. Qed.

Section Ops.
Variable U : uni.
Variable entity : bytes -> option bytes.
Notation step := (step U entity). Notation advance := (advance U entity). Notation scanned := (scanned U entity).

Lemma scanned_app : forall a t1 b t2 c, scanned a t1 b -> scanned b t2 c -> scanned a (t1 ++ t2) c.
Proof. intros a t1 b t2 c H. induction H; intros G; cbn [app]; eauto using sc_tok, sc_prt, sc_begin. Qed.

Lemma advance_ok : forall q i t q', tb_ok (lb q) -> advance q = Ok i t q' ->
  tb_ok (lb q') /\ (exists l1, lex_tok U entity (lq q) = Some (t, l1) /\ lq q' = set_prt l1 (t_val t)) /\
  ((t_val t = T_EOF /\ (tb_len (lb q) < 5 -> bqueue (lb q') = bqueue (lb q)) /\ tb_len (lb q') = tb_len (lb q)) \/ (t_val t <> T_EOF /\ bqueue (lb q') = bqueue (lb q) ++ [t])).
Proof.
  intros q i t q' Hb H. unfold LexBufModel.advance in H. destruct (lex_tok U entity (lq q)) as [[t1 l1]|]; [|discriminate].
  destruct (tv_eqb (t_val t1) T_EOF) eqn:E.
  - injection H as <- <- <-. cbn [lb lq]. split; [apply fill_ok; assumption|]. split; [eauto|]. left. apply tv_eof in E. split; [exact E|]. split; [|reflexivity]. intros Hl. apply fill_queue; assumption.
  - destruct (tb_write _) as [b'|] eqn:Ew; [|discriminate]. injection H as <- <- <-. apply write_queue in Ew; [|assumption]. destruct Ew as [W1 [W2 W3]]. cbn [lb lq]. split; [exact W1|]. split; [eauto|]. right. split; [|exact W2].
    intros G. apply tv_eof in G. congruence.
Qed.

(** What every operation does to the queue and returns. *)
Definition step_spec (o : op) (q : lexer) (t : token) (q' : lexer) (ts : list token) : Prop :=
  match o with
  | ONext | ORevise _ => (queue q = t :: queue q' /\ ts = []) \/ (queue q = [] /\ queue q' = [] /\ ts = [t])
  | OPeek | OPeekStmt => queue q' = queue q ++ filter not_eof ts /\ (hd_error (queue q') = Some t \/ (queue q' = [] /\ t_val t = T_EOF))
  | OPeekGrow => ts = [t] /\ queue q' = queue q ++ filter not_eof ts
  | OPeek2nd => queue q' = queue q ++ filter not_eof ts /\ (nth_error (queue q') 1 = Some t \/ (length (queue q') < 2 /\ t_val t = T_EOF))
  end.

Lemma filter_one : forall t, filter not_eof [t] = if tv_eqb (t_val t) T_EOF then [] else [t].
Proof. intros t. cbn. unfold not_eof. destruct (tv_eqb _ _); reflexivity. Qed.
Lemma advance_filter : forall q i t q', tb_ok (lb q) -> tb_len (lb q) < 5 -> advance q = Ok i t q' -> tb_ok (lb q') /\ queue q' = queue q ++ filter not_eof [t] /\ scanned (lq q) [t] (lq q').
Proof.
  intros q i t q' Hb Hl H. destruct (advance_ok _ _ _ _ Hb H) as [A [[l1 [B1 B2]] C]]. split; [exact A|]. split.
  - rewrite filter_one. destruct C as [[C1 [C2 _]]|[C1 C2]].
    + rewrite C1. cbn [tv_eqb]. rewrite (proj2 (tv_eof _) eq_refl). rewrite app_nil_r. apply C2. exact Hl.
    + destruct (tv_eqb (t_val t) T_EOF) eqn:E; [apply tv_eof in E; congruence|]. exact C2.
  - econstructor; [exact B1|]. rewrite B2. apply sc_prt with (v := t_val t). apply sc_nil.
Qed.
Lemma queue_b : forall q, queue q = bqueue (lb q).
Proof. reflexivity. Qed.

Lemma step_ok : forall o q i t q', tb_ok (lb q) -> (o = OPeekGrow -> tb_len (lb q) < 5) -> step o q = Ok i t q' ->
  tb_ok (lb q') /\ exists ts, scanned (lq q) ts (lq q') /\ step_spec o q t q' ts.
Proof.
  assert (Take : forall rev q i t q', tb_ok (lb q) -> do_take U entity rev q = Ok i t q' ->
     tb_ok (lb q') /\ exists ts, scanned (lq q) ts (lq q') /\ ((queue q = t :: queue q' /\ ts = []) \/ (queue q = [] /\ queue q' = [] /\ ts = [t]))).
  { intros rev q i t q' Hb H. unfold do_take in H. destruct (tb_readable (lb q)) eqn:E.
    - injection H as <- <- <-. destruct (read_queue _ Hb E) as [R1 R2]. split; [exact R1|]. exists []. split; [eapply sc_prt; apply sc_nil|]. left. split; [exact R2|reflexivity].
    - destruct (lex_tok U entity (lq q)) as [[t1 l1]|] eqn:El; [|discriminate]. injection H as <- <- <-. cbn [lb lq]. split; [apply fill_ok; exact Hb|]. exists [t1]. split; [econstructor; [exact El|]; eapply sc_prt; apply sc_nil|].
      right. assert (Hq : queue q = []) by (rewrite readable_queue in E; rewrite queue_b; destruct (bqueue (lb q)); [reflexivity|discriminate]).
      split; [exact Hq|]. split; [|reflexivity]. rewrite <- Hq. apply fill_queue; [exact Hb|]. unfold tb_readable in E. apply Nat.ltb_ge in E. lia. }
  assert (Peek : forall q i t q', tb_ok (lb q) -> do_peek U entity q = Ok i t q' ->
     tb_ok (lb q') /\ exists ts, scanned (lq q) ts (lq q') /\ queue q' = queue q ++ filter not_eof ts /\ (hd_error (queue q') = Some t \/ (queue q' = [] /\ t_val t = T_EOF))).
  { intros q i t q' Hb H. unfold do_peek in H. destruct (tb_readable (lb q)) eqn:E.
    - injection H as <- <- <-. destruct (read_queue _ Hb E) as [R1 R2]. split; [exact Hb|]. exists []. split; [apply sc_nil|]. cbn [filter]. rewrite app_nil_r. split; [reflexivity|]. left. rewrite queue_b, R2. reflexivity.
    - assert (Hl : tb_len (lb q) = 0) by (unfold tb_readable in E; apply Nat.ltb_ge in E; lia). assert (Hq : queue q = []) by (pose proof (queue_length (lb q)) as G; rewrite Hl in G; rewrite queue_b; destruct (bqueue (lb q)); [reflexivity|discriminate]).
      destruct (advance_filter _ _ _ _ Hb ltac:(lia) H) as [A [B C]]. split; [exact A|]. exists [t]. split; [exact C|]. split; [exact B|]. rewrite B, Hq, filter_one. destruct (tv_eqb (t_val t) T_EOF) eqn:Ev; [right|left; reflexivity]. apply tv_eof in Ev. split; [reflexivity|exact Ev]. }
  assert (Grow : forall q i t q', tb_ok (lb q) -> grow2 U entity q = Ok i t q' -> tb_ok (lb q') /\ exists ts, scanned (lq q) ts (lq q') /\ queue q' = queue q ++ filter not_eof ts).
  { intros q i t q' Hb H. unfold grow2 in H. destruct (tb_len (lb q) <? 2) eqn:E.
    - apply Nat.ltb_lt in E. destruct (advance_filter _ _ _ _ Hb ltac:(lia) H) as [A [B C]]. eauto.
    - injection H as <- <- <-. split; [exact Hb|]. exists []. split; [apply sc_nil|]. cbn [filter]. rewrite app_nil_r. reflexivity. }
  intros o q i t q' Hb Hg H. destruct o; cbn [LexBufModel.step] in H.
  - apply Peek in H; [|exact Hb]. destruct H as [A [ts [B C]]]. eauto.
  - unfold do_peek_stmt in H. destruct (do_peek U entity _) as [i1 t1 q1| |] eqn:E; try discriminate. injection H as <- <- <-. apply Peek in E; [|exact Hb]. destruct E as [A [ts [B [C D]]]]. cbn [lb lq] in *. split; [exact A|]. exists ts. split.
    { apply sc_begin with (b := true). rewrite <- (app_nil_r ts). eapply scanned_app; [exact B|]. eapply sc_begin. apply sc_nil. }
    split; [exact C|exact D].
  - destruct (advance_filter _ _ _ _ Hb (Hg eq_refl) H) as [A [B C]]. split; [exact A|]. exists [t]. split; [exact C|]. split; [reflexivity|exact B].
  - unfold do_peek2 in H. destruct (grow2 U entity q) as [i1 t1 q1| |] eqn:E1; try discriminate. destruct (grow2 U entity q1) as [i2 t2 q2| |] eqn:E2; try discriminate.
    apply Grow in E1; [|exact Hb]. destruct E1 as [A1 [ts1 [B1 C1]]]. apply Grow in E2; [|exact A1]. destruct E2 as [A2 [ts2 [B2 C2]]].
    destruct (2 <=? tb_len (lb q2)) eqn:E.
    + injection H as <- <- <-. split; [exact A2|]. exists (ts1 ++ ts2). split; [eapply scanned_app; eassumption|]. split; [rewrite C2, C1, filter_app, <- app_assoc; reflexivity|]. left.
      apply Nat.leb_le in E. destruct A2 as [_ [_ [A3 _]]]. rewrite queue_b. unfold bqueue. destruct (tb_len (lb q2)) as [|[|n]]; [lia|lia|]. cbn [seq map nth_error]. rewrite inc_mod by lia. reflexivity.
    + injection H as <- <- <-. cbn [lb lq]. apply Nat.leb_gt in E. assert (Hq : queue (mk_lexer (lq q2) (tb_fill (lb q2) (fin_tok (l_src (lq q2)) (l_src (lq q2)) T_EOF [] (0, 0) XNone))) = queue q2) by (apply fill_queue; [exact A2|lia]).
      split; [apply fill_ok; exact A2|]. exists (ts1 ++ ts2). split; [eapply scanned_app; eassumption|]. split; [rewrite Hq, C2, C1, filter_app, <- app_assoc; reflexivity|]. right. split; [|reflexivity]. rewrite Hq, queue_b, queue_length. exact E.
  - apply Take in H; [|exact Hb]. destruct H as [A [ts [B C]]]. eauto.
  - apply Take in H; [|exact Hb]. destruct H as [A [ts [B C]]]. eauto.
Qed.
(** ** Modes and the end of input *)

Definition jsx_free (l : lx) : Prop := Forall (fun m => has_bit m JSX_BITS = false) (l_modes l) /\ l_modes l <> [].
Lemma jsx_free_no : forall l, jsx_free l -> no_jsx l.
Proof.
  intros l [H _]. unfold no_jsx, is_mode, cur_mode. destruct (l_modes l) as [|m r]; [repeat split; reflexivity|].
  apply Forall_inv in H. unfold has_bit in H. apply Bool.negb_false_iff, N.eqb_eq in H. unfold JSX_BITS in H. apply land_part in H. destruct H as [A B]. apply land_part in B. destruct B as [B C]. rewrite A, B, C. auto.
Qed.
Lemma jsx_free_push : forall l k, N.land k JSX_BITS = 0%N -> jsx_free l -> jsx_free (push_mode k true l).
Proof.
  intros l k Hk [H _]. destruct (push_mode_bits l k) as [m [E Hm]]. unfold jsx_free. rewrite E. split; [|discriminate]. constructor; [|exact H]. rewrite Hm by reflexivity. rewrite Hk. reflexivity.
Qed.
Lemma jsx_free_pop : forall l, jsx_free l -> jsx_free (pop_mode l).
Proof.
  intros l [H _]. unfold jsx_free, pop_mode. destruct (l_modes l) as [|m [|m2 r]]; cbn [set_modes l_modes]; (split; [|discriminate]); try (repeat constructor; fail). inversion H; assumption.
Qed.
Lemma jsx_free_same : forall l l', l_modes l' = l_modes l -> jsx_free l -> jsx_free l'.
Proof. intros l l' E H. unfold jsx_free. rewrite E. exact H. Qed.
Lemma jsx_free_paren : forall l d, jsx_free l -> jsx_free (add_paren l d).
Proof.
  intros l d [H G]. unfold jsx_free, add_paren. destruct (l_modes l) as [|m r] eqn:E; [congruence|]. cbn [set_modes l_modes]. split; [|discriminate]. inversion H; subst. constructor; assumption.
Qed.
Lemma read_tpl_span_free : forall l t l', jsx_free l -> read_tpl_span U l = Some (t, l') -> jsx_free l'.
Proof.
  intros l t l' H E. unfold read_tpl_span in E. destruct (read (l_src l)) as [c s1].
  set (l1 := if (c =? 96)%Z then _ else _) in E. assert (H1 : jsx_free l1).
  { subst l1. destruct (c =? 96)%Z; [apply jsx_free_push; [reflexivity|]|apply jsx_free_pop]; exact H. }
  clearbody l1. destruct (tpl_loop _ _ _ _ _) as [[p s2]|]; [|discriminate]. destruct (tp_err p).
  - injection E as <- <-. apply jsx_free_pop. exact H1.
  - injection E as <- <-. destruct (tp_fin p); [apply jsx_free_pop|apply jsx_free_push; [reflexivity|]]; exact H1.
Qed.
Lemma read_symbol_free : forall l t l', jsx_free l -> read_symbol U l = Some (t, l') -> jsx_free l'.
Proof.
  intros l t l' H E. unfold read_symbol in E. destruct (read (l_src l)) as [c s1].
  repeat match type of E with
  | (if ?b then _ else _) = _ => destruct b
  | Some _ = Some _ => injection E as <- <-; try exact H
  | (let (_, _) := ?x in _) = _ => destruct x
  | (match ?x with Some _ => _ | None => _ end) = _ => destruct x as [[? ?]|]; [|try discriminate E]
  end.
  match goal with |- jsx_free (set_src ?x _) => change (jsx_free x) end.
  destruct t0; try exact H; [apply jsx_free_push; [reflexivity|exact H]|apply jsx_free_pop, H| |]; apply jsx_free_paren, H.
Qed.
Lemma read_tok_free : forall l t l', jsx_free l -> read_tok_cmt U entity l = Some (t, l') -> jsx_free l'.
Proof.
  intros l0 t l' H E. unfold read_tok_cmt in E. assert (H1 : jsx_free (lx_skip_space l0)) by (unfold lx_skip_space; destruct (negb _); exact H).
  set (l := lx_skip_space l0) in *. clearbody l. cbv zeta in E. destruct (ahead_is_eof (l_src l)); [injection E as <- <-; exact H1|].
  destruct (jsx_free_no _ H1) as [J1 [J2 J3]]. rewrite J1, J2, J3 in E. cbn [orb] in E.
  destruct (is_id_start U (peek (l_src l))); [destruct (read_name _ _ _ _ _ _) as [[? ?]|]; [|discriminate]; injection E as <- <-; exact H1|].
  destruct (ahead_is_num_start (l_src l)); [destruct (read_num _ _ _ _); injection E as <- <-; exact H1|].
  destruct ((peek (l_src l) =? 39)%Z || (peek (l_src l) =? 34)%Z)%bool; [destruct (read_str _ _ _) as [[? ?]|]; [|discriminate]; injection E as <- <-; exact H1|].
  destruct ((peek (l_src l) =? 96)%Z || _)%bool; [eapply read_tpl_span_free; eassumption|].
  destruct (peek (l_src l) =? 35)%Z; [destruct (read_name_pvt _ _ _ _ _) as [[? ?]|]; [|discriminate]; injection E as <- <-; exact H1|].
  eapply read_symbol_free; eassumption.
Qed.
Lemma lex_tok_free : forall l t l', jsx_free l -> lex_tok U entity l = Some (t, l') -> jsx_free l'.
Proof.
  intros l t l' H E. unfold lex_tok in E. revert E. enough (G : forall n a b c l, jsx_free l -> lex_loop U entity n l a b c = Some (t, l') -> jsx_free l') by (apply G; exact H). clear. intros n a b c l H E. revert a b c l H E. induction n as [|n IH]; intros a b c l H E; [discriminate|]. cbn [lex_loop] in E.
  destruct (read_tok_cmt U entity l) as [[t1 l1]|] eqn:R; [|discriminate]. apply read_tok_free in R; [|exact H]. destruct (negb _); [injection E as _ <-; exact R|].
  eapply IH; [|exact E]. unfold add_cmt. destruct (_ || _)%bool; exact R.
Qed.

Lemma lex_tok_at_end : forall l, src_ok (l_src l) -> s_raw (st (l_src l)) = [] -> exists t l1, lex_tok U entity l = Some (t, l1) /\ t_val t = T_EOF /\ s_raw (st (l_src l1)) = [].
Proof.
  intros l Hok Hr. unfold lex_tok, fuel. cbn [lex_loop]. unfold read_tok_cmt. assert (E1 : l_src (lx_skip_space l) = skip_space (l_src l)) by (unfold lx_skip_space; destruct (negb _); reflexivity).
  rewrite E1. destruct (skip_space_facts (l_src l)) as [_ [K2 [_ [K4 _]]]]. assert (Hr1 : s_raw (st (skip_space (l_src l))) = []) by (unfold lenraw in K2; rewrite Hr in K2; destruct (s_raw (st (skip_space (l_src l)))); [reflexivity|cbn in K2; lia]).
  cbv zeta. rewrite (proj2 (eof_raw _ (K4 Hok)) Hr1). cbn [t_val fin_tok]. cbn. eexists. eexists. split; [reflexivity|]. split; [|rewrite E1; exact Hr1]. destruct (s_met _); reflexivity.
Qed.
End Ops.
