(** C16: the tokens buffer. *)
From Verif Require Import Base Utf8Model SourceModel SourceSpec SourceProofs TokenModel LexModel LexSpec LexProofs LexGapProofs LexKindProofs LexProps LexStrProps LexTplProps LexBufModel LexBufSpec LexBufProofs.
From Coq Require Import ZifyBool ZifyNat.

(** ** C16 *)

Section Ops.
Variable U : uni.
Variable entity : bytes -> option bytes.
Notation step := (step U entity). Notation scanned := (scanned U entity). Notation history := (history U entity). Notation plain := (plain U entity).

(** Lexers reached by operations that do not call [PeekGrow] on a full buffer. *)
Definition roomy (o : op) (q : lexer) : Prop := o = OPeekGrow -> length (queue q) < 5.
Inductive roomy_history : lexer -> list (op * token) -> lexer -> Prop :=
| rh_nil : forall q, roomy_history q [] q
| rh_op : forall q o i t q1 h q', roomy o q -> step o q = Ok i t q1 -> roomy_history q1 h q' -> roomy_history q ((o, t) :: h) q'.

Lemma roomy_len : forall o q, roomy o q -> o = OPeekGrow -> tb_len (lb q) < 5.
Proof. intros o q H E. specialize (H E). unfold queue in H. rewrite map_length, seq_length in H. exact H. Qed.
Lemma roomy_ok : forall q h q', roomy_history q h q' -> tb_ok (lb q) -> tb_ok (lb q').
Proof. intros q h q' H. induction H as [|q o i t q1 h q' Hr H Hh IH]; intros Hb; [exact Hb|]. apply IH. eapply step_ok; eauto using roomy_len. Qed.
Lemma delivered_cons : forall o t h, delivered ((o, t) :: h) = (if takes o then [t] else []) ++ delivered h.
Proof. intros o t h. unfold delivered. cbn [filter fst]. destruct (takes o); reflexivity. Qed.
Lemma filter_le : forall l, length (filter not_eof l) <= length l.
Proof. induction l as [|x l IH]; [reflexivity|]. cbn. destruct (not_eof x); cbn; lia. Qed.
End Ops.

(** For every sequence of lookahead and consume operations on a new lexer: the tokens the scanner read
    are the tokens delivered followed by those in the buffer, in order, each once; ends of input aside,
    which are not buffered. *)
Theorem C16_fifo : forall U entity feat c h q', roomy_history U entity (new_buf_lexer feat c) h q' ->
  exists ts, scanned U entity (new_lexer feat c) ts (lq q') /\ filter not_eof ts = filter not_eof (delivered h) ++ queue q'.
Proof.
  intros U entity feat c h q' H.
  assert (G : forall q h q', roomy_history U entity q h q' -> tb_ok (lb q) ->
    exists ts, scanned U entity (lq q) ts (lq q') /\ filter not_eof (queue q) ++ filter not_eof ts = filter not_eof (delivered h) ++ filter not_eof (queue q')).
  { clear. intros q h q' H. induction H as [q|q o i t q1 h q' Hr H Hh IH]; intros Hb.
    - exists []. split; [apply sc_nil|]. cbn. apply app_nil_r.
    - destruct (step_ok U entity o q i t q1 Hb (roomy_len _ _ Hr) H) as [A [ts1 [B C]]]. destruct (IH A) as [ts2 [D E]]. exists (ts1 ++ ts2). split; [eapply scanned_app; eassumption|].
      rewrite delivered_cons, !filter_app, <- !app_assoc, <- E. rewrite !app_assoc. f_equal.
      assert (FF : forall l : list token, filter not_eof (filter not_eof l) = filter not_eof l) by (induction l as [|x l IHl]; [reflexivity|]; cbn; destruct (not_eof x) eqn:Ex; cbn; rewrite ?Ex, IHl; reflexivity).
      destruct o; cbn [step_spec takes] in C |- *.
      + destruct C as [-> _]. rewrite filter_app, FF. reflexivity.
      + destruct C as [-> _]. rewrite filter_app, FF. reflexivity.
      + destruct C as [_ ->]. rewrite filter_app, FF. reflexivity.
      + destruct C as [-> _]. rewrite filter_app, FF. reflexivity.
      + destruct C as [[-> ->]|[-> [-> ->]]]; cbn [filter app]; destruct (not_eof t); rewrite ?app_nil_r; reflexivity.
      + destruct C as [[-> ->]|[-> [-> ->]]]; cbn [filter app]; destruct (not_eof t); rewrite ?app_nil_r; reflexivity. }
  assert (N : forall q h q', roomy_history U entity q h q' -> tb_ok (lb q) -> filter not_eof (queue q) = queue q -> filter not_eof (queue q') = queue q').
  { clear. intros q h q' H. induction H as [q|q o i t q1 h q' Hr H Hh IH]; intros Hb Hq; [exact Hq|].
    destruct (step_ok U entity o q i t q1 Hb (roomy_len _ _ Hr) H) as [A [ts1 [B C]]]. apply IH; [exact A|].
    assert (FF : forall l : list token, filter not_eof (filter not_eof l) = filter not_eof l) by (induction l as [|x l IHl]; [reflexivity|]; cbn; destruct (not_eof x) eqn:Ex; cbn; rewrite ?Ex, IHl; reflexivity).
    destruct o; cbn [step_spec] in C.
    + destruct C as [-> _]. rewrite filter_app, FF, Hq. reflexivity.
    + destruct C as [-> _]. rewrite filter_app, FF, Hq. reflexivity.
    + destruct C as [_ ->]. rewrite filter_app, FF, Hq. reflexivity.
    + destruct C as [-> _]. rewrite filter_app, FF, Hq. reflexivity.
    + destruct C as [[E _]|[_ [-> _]]]; [|reflexivity]. rewrite E in Hq. cbn in Hq. destruct (not_eof t); [injection Hq as Hq; exact Hq|]. exfalso. apply (f_equal (@length _)) in Hq. pose proof (filter_le (queue q1)). cbn in Hq. lia.
    + destruct C as [[E _]|[_ [-> _]]]; [|reflexivity]. rewrite E in Hq. cbn in Hq. destruct (not_eof t); [injection Hq as Hq; exact Hq|]. exfalso. apply (f_equal (@length _)) in Hq. pose proof (filter_le (queue q1)). cbn in Hq. lia. }
  destruct (G _ _ _ H new_tb_ok) as [ts [A B]]. exists ts. split; [exact A|]. rewrite (N _ _ _ H new_tb_ok eq_refl) in B. exact B.
Qed.
Print Assumptions C16_fifo.

(** What the operations return.  Consuming takes the front of the queue, or scans a token when it is
    empty; peeking returns the front, peeking the second token the next one, an end of input if there is
    none, and leaves the queue as it is but for tokens added at its end. *)
Theorem C16_operations : forall U entity feat c h q o i t q', roomy_history U entity (new_buf_lexer feat c) h q -> roomy o q ->
  step U entity o q = Ok i t q' ->
  exists ts, scanned U entity (lq q) ts (lq q') /\
  match o with
  | ONext | ORevise _ => (queue q = t :: queue q' /\ ts = []) \/ (queue q = [] /\ queue q' = [] /\ ts = [t])
  | OPeek | OPeekStmt => queue q' = queue q ++ filter not_eof ts /\ (hd_error (queue q') = Some t \/ (queue q' = [] /\ t_val t = T_EOF))
  | OPeekGrow => ts = [t] /\ queue q' = queue q ++ filter not_eof ts
  | OPeek2nd => queue q' = queue q ++ filter not_eof ts /\ (nth_error (queue q') 1 = Some t \/ (length (queue q') < 2 /\ t_val t = T_EOF))
  end.
Proof.
  intros U entity feat c h q o i t q' H Hr Hs. apply (step_ok U entity o q i t q' (roomy_ok _ _ _ _ _ H new_tb_ok) (roomy_len _ _ Hr) Hs).
Qed.
Print Assumptions C16_operations.

(** An operation panics exactly when it asks for a sixth token and there is one. *)
Theorem C16_panic : forall U entity feat c h q o, roomy_history U entity (new_buf_lexer feat c) h q ->
  step U entity o q = Panic <-> o = OPeekGrow /\ length (queue q) = 5 /\ exists t l1, lex_tok U entity (lq q) = Some (t, l1) /\ t_val t <> T_EOF.
Proof.
  intros U entity feat c h q o H. assert (Hb := roomy_ok _ _ _ _ _ H new_tb_ok). assert (Hb5 : tb_len (lb q) <= 5) by apply Hb. assert (HL : length (queue q) = tb_len (lb q)) by (unfold queue; rewrite map_length, seq_length; reflexivity).
  assert (AP : forall q, tb_len (lb q) < 5 -> advance U entity q <> Panic).
  { clear. intros q Hl E. unfold advance in E. destruct (lex_tok U entity (lq q)) as [[t l1]|]; [|discriminate]. destruct (tv_eqb (t_val t) T_EOF); [discriminate|]. destruct (tb_write _) eqn:W; [discriminate|]. apply write_none in W. lia. }
  assert (GP : forall q, grow2 U entity q <> Panic).
  { intros q0 E. unfold grow2 in E. destruct (tb_len (lb q0) <? 2) eqn:El; [|discriminate]. apply Nat.ltb_lt in El. apply (AP q0); [lia|exact E]. }
  assert (PP : forall q, tb_ok (lb q) -> do_peek U entity q <> Panic).
  { intros q0 Hb0 E. unfold do_peek in E. destruct (tb_readable (lb q0)) eqn:El; [discriminate|]. unfold tb_readable in El. apply Nat.ltb_ge in El. apply (AP q0); [lia|exact E]. }
  split.
  - intros E. destruct o; cbn [LexBufModel.step] in E.
    + exfalso. exact (PP q Hb E).
    + exfalso. unfold do_peek_stmt in E. destruct (do_peek U entity _) eqn:E1; try discriminate. eapply PP; [|exact E1]. exact Hb.
    + split; [reflexivity|]. unfold advance in E. destruct (lex_tok U entity (lq q)) as [[t l1]|] eqn:El; [|discriminate]. destruct (tv_eqb (t_val t) T_EOF) eqn:Ev; [discriminate|].
      destruct (tb_write _) eqn:W; [discriminate|]. apply write_none in W. split; [lia|]. exists t, l1. split; [reflexivity|]. intros G. apply tv_eof in G. congruence.
    + exfalso. unfold do_peek2 in E. destruct (grow2 U entity q) as [i1 t1 q1| |] eqn:E1; try discriminate; [|exact (GP _ E1)]. destruct (grow2 U entity q1) as [i2 t2 q2| |] eqn:E2; try discriminate; [|exact (GP _ E2)]. destruct (2 <=? _); discriminate.
    + exfalso. unfold do_take in E. destruct (tb_readable (lb q)); [discriminate|]. destruct (lex_tok U entity (lq q)) as [[t l1]|]; discriminate.
    + exfalso. unfold do_take in E. destruct (tb_readable (lb q)); [discriminate|]. destruct (lex_tok U entity (lq q)) as [[t l1]|]; discriminate.
  - intros [-> [H5 [t [l1 [El Hv]]]]]. cbn [LexBufModel.step]. unfold advance. rewrite El. destruct (tv_eqb (t_val t) T_EOF) eqn:Ev; [apply tv_eof in Ev; congruence|].
    destruct (tb_write _) eqn:W; [|reflexivity]. apply write_queue in W; [|exact Hb]. lia.
Qed.
Print Assumptions C16_panic.

(** ** The stream of tokens *)

(** Which tokens the scanner reads depends on the token before, so lookahead can change the stream: here
    [/b/] is read after [a] was delivered, and taken for a division. *)
Theorem C16_stream_refuted :
  exists h1 h2 q1 q2, roomy_history ascii_uni no_entity (new_buf_lexer 0 (bs "a+/b/")) h1 q1 /\ roomy_history ascii_uni no_entity (new_buf_lexer 0 (bs "a+/b/")) h2 q2 /\
    map t_val (delivered h1) = [T_NAME; T_ADD; T_REGEXP] /\ map t_val (delivered h2) = [T_NAME; T_ADD; T_DIV].
Proof.
  eexists [(ONext, _); (ONext, _); (ONext, _)]. eexists [(OPeek2nd, _); (ONext, _); (OPeek2nd, _); (ONext, _); (ONext, _)]. eexists. eexists. split; [|split; [|split]].
  - do 3 (eapply rh_op; [discriminate|vm_compute; reflexivity|]). apply rh_nil.
  - do 5 (eapply rh_op; [discriminate|vm_compute; reflexivity|]). apply rh_nil.
  - reflexivity.
  - reflexivity.
Qed.
Print Assumptions C16_stream_refuted.

Section Stream.
Variable U : uni.
Variable entity : bytes -> option bytes.
Hypothesis HU : uni_ok U.
Notation plain := (plain U entity).

Lemma plain_snoc : forall l ts l1 t l2, plain l ts l1 -> next_tok U entity l1 = Some (t, l2) -> plain l (ts ++ [t]) l2.
Proof. intros l ts l1 t l2 H. induction H; intros G; cbn [app]; [eapply pl_tok; [exact G|apply pl_nil]|eapply pl_tok; eauto]. Qed.

(** [q]: reached after delivering [ds]. *)
Definition in_step (feat : N) (c : bytes) (ds : list token) (q : lexer) : Prop :=
  tb_ok (lb q) /\ lexer_at feat c (lq q) /\ jsx_free (lq q) /\
  exists ts l', plain (new_lexer feat c) ts l' /\ filter not_eof ts = filter not_eof ds ++ queue q /\
    ((set_prt (lq q) T_EOF = set_prt l' T_EOF /\ (queue q = [] -> lq q = l') /\ (queue q <> [] -> l_prt l' = t_val (last (queue q) zero_tok))) \/ s_raw (st (l_src (lq q))) = []).

Lemma set_prt_eq : forall a b, set_prt a T_EOF = set_prt b T_EOF -> l_prt a = l_prt b -> a = b.
Proof. intros [] [] H E. cbn in *. injection H. intros. subst. reflexivity. Qed.
Lemma set_prt_any : forall a b v w, set_prt a v = set_prt b v -> set_prt a w = set_prt b w.
Proof. intros [] [] v w H. cbn in *. injection H. intros. subst. reflexivity. Qed.

Definition ready (q : lexer) : Prop := queue q = [] \/ l_prt (lq q) = t_val (last (queue q) zero_tok).

Lemma scan_step : forall feat c ds q t l1, in_step feat c ds q -> ready q -> lex_tok U entity (lq q) = Some (t, l1) ->
  lexer_at feat c (set_prt l1 (t_val t)) /\ jsx_free (set_prt l1 (t_val t)) /\
  exists ts l', plain (new_lexer feat c) ts l' /\ filter not_eof ts = filter not_eof ds ++ queue q ++ filter not_eof [t] /\
    ((t_val t <> T_EOF /\ l' = set_prt l1 (t_val t)) \/ (t_val t = T_EOF /\ s_raw (st (l_src l1)) = [])).
Proof.
  intros feat c ds q t l1 [H1 [H2 [H3 [ts [l' [H4 [H5 H6]]]]]]] Hr E.
  assert (A1 := C18_lexer_at_step U entity feat c _ _ _ HU H2 E). assert (A2 := lex_tok_free U entity _ _ _ H3 E). split; [exact A1|]. split; [exact A2|].
  destruct H6 as [[K1 [K2 K3]]|K].
  - assert (El : lq q = l').
    { destruct (queue q) as [|x r] eqn:Eq; [apply K2; reflexivity|]. apply set_prt_eq; [exact K1|]. destruct Hr as [Hr|Hr]; [congruence|]. rewrite Hr, K3 by congruence. rewrite Eq. reflexivity. }
    exists (ts ++ [t]), (set_prt l1 (t_val t)). split; [|split].
    + eapply plain_snoc; [exact H4|]. rewrite <- El. unfold next_tok. rewrite E. reflexivity.
    + rewrite filter_app, H5, <- app_assoc. reflexivity.
    + destruct (tv_eqb (t_val t) T_EOF) eqn:Ev; [right|left; split; [intros G; apply tv_eof in G; congruence|reflexivity]]. apply tv_eof in Ev. split; [exact Ev|].
      destruct (C18_eof U entity feat c _ _ _ HU H2 (proj1 (proj2 (jsx_free_no _ H3))) E Ev) as [_ [_ [_ [_ G]]]]. exact G.
  - destruct (lex_tok_at_end U entity (lq q) (proj1 H2) K) as [t0 [l0 [E0 [V0 R0]]]]. assert (t0 = t /\ l0 = l1) as [-> ->] by (rewrite E in E0; injection E0; auto).
    exists ts, l'. split; [exact H4|]. split; [|right; auto]. rewrite filter_one, V0, (proj2 (tv_eof _) eq_refl), app_nil_r. exact H5.
Qed.

Lemma advance_step : forall feat c ds q i t q', in_step feat c ds q -> ready q -> tb_len (lb q) < 5 -> advance U entity q = Ok i t q' -> in_step feat c ds q' /\ (ready q' \/ s_raw (st (l_src (lq q'))) = []).
Proof.
  intros feat c ds q i t q' H Hr Hl E. destruct (advance_filter U entity _ _ _ _ (proj1 H) Hl E) as [B1 [B2 _]]. destruct (advance_ok U entity _ _ _ _ (proj1 H) E) as [_ [[l1 [L1 L2]] _]].
  destruct (scan_step _ _ _ _ _ _ H Hr L1) as [A1 [A2 [ts [l' [P1 [P2 P3]]]]]]. rewrite <- L2 in *. split.
  - split; [exact B1|]. split; [exact A1|]. split; [exact A2|]. exists ts, l'. split; [exact P1|]. rewrite B2. split; [exact P2|]. destruct P3 as [[V ->]|[V R]].
    + left. assert (F : filter not_eof [t] = [t]) by (rewrite filter_one; destruct (tv_eqb _ _) eqn:Ev; [apply tv_eof in Ev; congruence|reflexivity]). rewrite F. split; [reflexivity|]. split; [intros G; destruct (queue q); discriminate|]. intros _. rewrite last_last, L2. reflexivity.
    + right. rewrite L2. exact R.
  - destruct P3 as [[V ->]|[V R]]; [left|right; rewrite L2; exact R]. right. rewrite B2, filter_one. destruct (tv_eqb (t_val t) T_EOF) eqn:Ev; [apply tv_eof in Ev; congruence|]. rewrite last_last, L2. reflexivity.
Qed.

(** At the end of the input it does not matter what the previous token was. *)
Lemma advance_end : forall feat c ds q i t q', in_step feat c ds q -> s_raw (st (l_src (lq q))) = [] -> tb_len (lb q) < 5 -> advance U entity q = Ok i t q' -> in_step feat c ds q' /\ s_raw (st (l_src (lq q'))) = [].
Proof.
  intros feat c ds q i t q' H Hr Hl E. destruct (advance_filter U entity _ _ _ _ (proj1 H) Hl E) as [B1 [B2 _]]. destruct (advance_ok U entity _ _ _ _ (proj1 H) E) as [_ [[l1 [L1 L2]] _]].
  destruct H as [H1 [H2 [H3 [ts [l' [H4 [H5 H6]]]]]]]. destruct (lex_tok_at_end U entity (lq q) (proj1 H2) Hr) as [t0 [l0 [E0 [V0 R0]]]]. assert (t0 = t /\ l0 = l1) as [-> ->] by (rewrite L1 in E0; injection E0; auto).
  assert (R : s_raw (st (l_src (lq q'))) = []) by (rewrite L2; exact R0). split; [|exact R]. split; [exact B1|]. rewrite L2 in *.
  split; [exact (C18_lexer_at_step U entity feat c _ _ _ HU H2 L1)|]. split; [exact (lex_tok_free U entity _ _ _ H3 L1)|]. exists ts, l'. split; [exact H4|]. split; [|right; exact R0].
  rewrite B2, filter_one, V0, (proj2 (tv_eof _) eq_refl), app_nil_r. exact H5.
Qed.

Lemma careful_step : forall feat c ds q o i t q', in_step feat c ds q -> careful o q -> step U entity o q = Ok i t q' ->
  in_step feat c (ds ++ (if takes o then [t] else [])) q'.
Proof.
  intros feat c ds q o i t q' H Hc E. destruct o; cbn [careful takes] in *; try contradiction; cbn [step] in E; rewrite ?app_nil_r.
  - unfold do_peek in E. destruct (tb_readable (lb q)) eqn:Er; [injection E as <- <- <-; exact H|]. assert (Hl : tb_len (lb q) = 0) by (unfold tb_readable in Er; apply Nat.ltb_ge in Er; lia).
    eapply advance_step; [exact H| |lia|exact E]. left. unfold queue. rewrite Hl. reflexivity.
  - destruct Hc as [Hf Hc]. eapply advance_step; [exact H|exact Hc| |exact E]. unfold queue in Hf. rewrite map_length, seq_length in Hf. exact Hf.
  - unfold do_peek2 in E. destruct (grow2 U entity q) as [i1 t1 q1| |] eqn:E1; try discriminate. destruct (grow2 U entity q1) as [i2 t2 q2| |] eqn:E2; try discriminate.
    assert (S1 : in_step feat c ds q1 /\ (ready q1 \/ s_raw (st (l_src (lq q1))) = [])).
    { unfold grow2 in E1. destruct (tb_len (lb q) <? 2) eqn:El; [|injection E1 as <- <- <-; split; [exact H|left; exact (proj2 Hc)]]. apply Nat.ltb_lt in El. eapply advance_step; [exact H|exact (proj2 Hc)|lia|exact E1]. }
    assert (S2 : in_step feat c ds q2).
    { unfold grow2 in E2. destruct (tb_len (lb q1) <? 2) eqn:El; [|injection E2 as <- <- <-; apply S1]. apply Nat.ltb_lt in El. destruct S1 as [S1 [R|R]]; [eapply advance_step|eapply advance_end]; try eassumption; lia. }
    destruct (2 <=? tb_len (lb q2)) eqn:El; [injection E as <- <- <-; exact S2|]. injection E as <- <- <-. apply Nat.leb_gt in El. destruct S2 as [P1 P2]. split; [apply fill_ok; exact P1|]. cbn [lq].
    replace (queue (mk_lexer (lq q2) _)) with (queue q2); [exact P2|]. symmetry. apply (fill_queue (lb q2)); [exact P1|lia].
  - unfold do_take in E. destruct (tb_readable (lb q)) eqn:Er.
    + injection E as <- <- <-. destruct H as [H1 [H2 [H3 [ts [l' [H4 [H5 H6]]]]]]]. destruct (read_queue _ H1 Er) as [R1 R2]. split; [exact R1|]. split; [exact H2|]. split; [exact H3|]. cbn [lq lb].
      set (x := cell (lb q) (tb_r (lb q))) in *. set (q1 := mk_lexer (set_prt (lq q) (t_val x)) (tb_read (lb q))). assert (Eq : queue q = x :: queue q1) by exact R2.
      assert (Vx : not_eof x = true).
      { assert (G : In x (filter not_eof ts)) by (rewrite H5, Eq; apply in_or_app; right; left; reflexivity). apply filter_In in G. apply G. }
      exists ts, l'. split; [exact H4|]. split; [rewrite H5, Eq, filter_app; cbn [filter]; rewrite Vx, <- app_assoc; reflexivity|]. destruct H6 as [[K1 [K2 K3]]|K]; [left|right; exact K].
      split; [apply (set_prt_any (lq q) l' _ _ K1)|]. rewrite Eq in K3. specialize (K3 ltac:(discriminate)). split; intros Hq.
      * rewrite Hq in K3. cbn [last] in K3. apply set_prt_eq; [exact (set_prt_any (lq q) l' _ _ K1)|]. rewrite K3. reflexivity.
      * rewrite K3. destruct (queue q1); [congruence|reflexivity].
    + assert (Hl : tb_len (lb q) = 0) by (unfold tb_readable in Er; apply Nat.ltb_ge in Er; lia). assert (Hq : queue q = []) by (unfold queue; rewrite Hl; reflexivity).
      destruct (lex_tok U entity (lq q)) as [[t1 l1]|] eqn:El; [|discriminate]. injection E as <- <- <-. destruct (scan_step _ _ _ _ _ _ H (or_introl Hq) El) as [A1 [A2 [ts [l' [P1 [P2 P3]]]]]].
      split; [apply fill_ok; apply H|]. split; [exact A1|]. split; [exact A2|]. exists ts, l'. split; [exact P1|].
      assert (Hq' : queue (mk_lexer (set_prt l1 (t_val t1)) (tb_fill (lb q) t1)) = []) by (unfold queue; cbn [lb tb_fill tb_len]; rewrite Hl; reflexivity). rewrite Hq', app_nil_r. split; [rewrite P2, Hq, filter_app; reflexivity|].
      destruct P3 as [[V ->]|[V R]]; [left|right; exact R]. split; [reflexivity|]. split; [reflexivity|congruence].
Qed.
End Stream.

(** As long as the buffer grows only when the scanner's previous token is the last token in it, any
    mixture of lookahead and consumption delivers, in order, the tokens that consumption alone would.
    Missing for the full claim: lookahead past that point (refuted above), [PeekStmtBegin] and
    [NextRevise], which are there to change how the next token is read, and a full buffer at the end of
    the input (refuted below). *)
Theorem C16_stream_partial : forall U entity feat c h q', uni_ok U -> careful_history U entity (new_buf_lexer feat c) h q' ->
  exists ts l', plain U entity (new_lexer feat c) ts l' /\ filter not_eof ts = filter not_eof (delivered h) ++ queue q'.
Proof.
  intros U entity feat c h q' HU H.
  enough (G : forall q h q', careful_history U entity q h q' -> forall ds, in_step U entity feat c ds q -> in_step U entity feat c (ds ++ delivered h) q').
  { destruct (G _ _ _ H []) as [_ [_ [_ [ts [l' [A [B _]]]]]]]; [|exists ts, l'; auto]. split; [apply new_tb_ok|]. split; [apply C18_new_lexer|]. split; [split; [repeat constructor|discriminate]|]. exists [], (new_lexer feat c). split; [apply pl_nil|]. split; [reflexivity|]. left. split; [reflexivity|]. split; [reflexivity|]. intros K. elim K. reflexivity. }
  clear H. intros q h0 q0 H. induction H as [q|q o i t q1 h0 q0 Hc Hs Hh IH]; intros ds Hd; [cbn; rewrite app_nil_r; exact Hd|].
  rewrite delivered_cons, app_assoc. apply IH. eapply careful_step; eassumption.
Qed.
Print Assumptions C16_stream_partial.

Example C16_stream_example : exists h q, careful_history ascii_uni no_entity (new_buf_lexer 0 (bs "a+b;c")) h q /\
  map fst h = [OPeek; OPeekGrow; OPeekGrow; ONext; ONext; ONext; OPeek2nd; ONext; ONext; OPeek2nd; ONext] /\
  map (fun x => t_val (snd x)) h = [T_NAME; T_ADD; T_NAME; T_NAME; T_ADD; T_NAME; T_NAME; T_SEMI; T_NAME; T_EOF; T_EOF] /\ queue q = [].
Proof.
  eexists [(OPeek, _); (OPeekGrow, _); (OPeekGrow, _); (ONext, _); (ONext, _); (ONext, _); (OPeek2nd, _); (ONext, _); (ONext, _); (OPeek2nd, _); (ONext, _)]. eexists.
  split; [|split; [reflexivity|split]].
  - do 11 (eapply ch_op; [first [exact I|split; [vm_compute; lia|first [left; vm_compute; reflexivity|right; vm_compute; reflexivity]]]|vm_compute; reflexivity|]). apply ch_nil.
  - reflexivity.
  - reflexivity.
Qed.

(** ** The end of the input *)

(** With five tokens buffered the end of the input overwrites the first of them. *)
Theorem C16_full_at_end_refuted :
  exists h q i t q', roomy_history ascii_uni no_entity (new_buf_lexer 0 (bs "a+b;c")) h q /\ map t_val (queue q) = [T_NAME; T_ADD; T_NAME; T_SEMI; T_NAME] /\
    step ascii_uni no_entity OPeekGrow q = Ok i t q' /\ map t_val (queue q') = [T_EOF; T_ADD; T_NAME; T_SEMI; T_NAME].
Proof.
  eexists [(OPeekGrow, _); (OPeekGrow, _); (OPeekGrow, _); (OPeekGrow, _); (OPeekGrow, _)]. do 4 eexists. split; [|split; [|split]].
  - do 5 (eapply rh_op; [intros _; vm_compute; lia|vm_compute; reflexivity|]). apply rh_nil.
  - vm_compute. reflexivity.
  - vm_compute. reflexivity.
  - vm_compute. reflexivity.
Qed.
Print Assumptions C16_full_at_end_refuted.

(** ** Tokens handed out *)

Inductive lookaheads (U : uni) (entity : bytes -> option bytes) : lexer -> lexer -> Prop :=
| la_nil : forall q, lookaheads U entity q q
| la_op : forall q o i t q1 q', takes o = false -> step U entity o q = Ok i t q1 -> lookaheads U entity q1 q' -> lookaheads U entity q q'.

(** A token taken from the buffer is still in its cell, unchanged, after any lookahead that leaves at
    most three tokens buffered. *)
Theorem C16_handed_out_partial : forall U entity feat c h q o i t q1 q2, roomy_history U entity (new_buf_lexer feat c) h q ->
  takes o = true -> queue q <> [] -> step U entity o q = Ok i t q1 -> lookaheads U entity q1 q2 -> length (queue q2) <= 3 ->
  cell (lb q2) i = t.
Proof.
  intros U entity feat c h q o i t q1 q2 H Ho Hq Hs Hl Hn. assert (Hb := roomy_ok _ _ _ _ _ H new_tb_ok).
  assert (QL : forall q, length (queue q) = tb_len (lb q)) by (intros; unfold queue; rewrite map_length, seq_length; reflexivity). rewrite QL in Hn.
  assert (T : tb_ok (lb q1) /\ i < 5 /\ tb_r (lb q1) = (i + 1) mod 5 /\ cell (lb q1) i = t).
  { assert (Hr : tb_readable (lb q) = true) by (unfold tb_readable; apply Nat.ltb_lt; rewrite <- QL; destruct (queue q); [congruence|cbn; lia]).
    assert (G : forall rev, do_take U entity rev q = Ok i t q1 -> tb_ok (lb q1) /\ i < 5 /\ tb_r (lb q1) = (i + 1) mod 5 /\ cell (lb q1) i = t).
    { intros rev E. unfold do_take in E. rewrite Hr in E. injection E as <- <- <-. destruct (read_queue _ Hb Hr) as [R1 _]. split; [exact R1|]. cbn [lb tb_read tb_r]. assert (tb_r (lb q) < 5) by apply Hb. split; [assumption|]. split; [apply inc_mod; assumption|reflexivity]. }
    destruct o; try discriminate; cbn [step] in Hs; eapply G; exact Hs. }
  clear Hs Hq H Ho Hb h q o. destruct T as [Hb [Hi [Hr Hc]]].
  set (K := fun q => tb_ok (lb q) /\ tb_r (lb q) = (i + 1) mod 5 /\ (tb_len (lb q) <= 3 -> cell (lb q) i = t)).
  assert (FK : forall l l' b x, K (mk_lexer l b) -> K (mk_lexer l' (tb_fill b x))).
  { clear - Hi. intros l l' b x [B [R C]]. cbn [lb] in *. split; [apply fill_ok; exact B|]. split; [exact R|]. cbn [lb]. change (tb_len (tb_fill b x)) with (tb_len b). intros L. rewrite <- (C L). destruct B as [B1 [B2 [B3 B4]]].
    unfold cell, tb_fill. cbn [tb_buf]. rewrite set_cell_nth. destruct (Nat.eqb_spec (tb_w b) i); [|reflexivity]. exfalso.
    pose proof (Nat.div_mod (i + 1) 5). pose proof (Nat.mod_upper_bound (i + 1) 5). pose proof (Nat.div_mod (tb_r b + tb_len b) 5). pose proof (Nat.mod_upper_bound (tb_r b + tb_len b) 5). lia. }
  assert (AK : forall q j x q', K q -> advance U entity q = Ok j x q' -> K q').
  { intros [l b] j x q' HK E. destruct (advance_ok U entity _ _ _ _ (proj1 HK) E) as [B' _]. unfold advance in E. cbn [lq lb] in E. destruct (lex_tok U entity l) as [[t1 l1]|]; [|discriminate].
    apply (FK l (set_prt l1 (t_val t1)) b t1) in HK. destruct (tv_eqb _ _); [injection E as <- <- <-; exact HK|]. destruct (tb_write _) as [b'|] eqn:W; [|discriminate]. injection E as <- <- <-.
    split; [exact B'|]. unfold tb_write in W. destruct (_ <? _); [|discriminate]. injection W as <-. cbn [lb tb_r tb_len] in *. destruct HK as [_ [R C]]. split; [exact R|]. intros L. apply C. cbn [lb tb_fill tb_len] in *. lia. }
  assert (PK : forall q j x q', K q -> do_peek U entity q = Ok j x q' -> K q').
  { intros q j x q' HK E. unfold do_peek in E. destruct (tb_readable (lb q)); [injection E as <- <- <-; exact HK|eapply AK; eassumption]. }
  assert (SK : forall o q j x q', takes o = false -> K q -> step U entity o q = Ok j x q' -> K q').
  { intros o q j x q' Ho HK E. destruct o; try discriminate; cbn [step] in E; [eapply PK; eassumption| |eapply AK; eassumption|].
    - unfold do_peek_stmt in E. destruct (do_peek U entity _) as [i1 t1 q3| |] eqn:E1; try discriminate. injection E as <- <- <-. apply PK in E1; [|exact HK]. exact E1.
    - unfold do_peek2, grow2 in E. assert (G : exists i1 t1 q3, (if tb_len (lb q) <? 2 then advance U entity q else Ok 0 zero_tok q) = Ok i1 t1 q3) by (destruct (if tb_len (lb q) <? 2 then _ else _); eauto; discriminate).
      destruct G as [i1 [t1 [q3 E1]]]. rewrite E1 in E. assert (K3 : K q3) by (destruct (tb_len (lb q) <? 2); [eapply AK; eassumption|injection E1 as <- <- <-; exact HK]). clear E1.
      assert (G : exists i2 t2 q4, (if tb_len (lb q3) <? 2 then advance U entity q3 else Ok 0 zero_tok q3) = Ok i2 t2 q4) by (destruct (if tb_len (lb q3) <? 2 then _ else _); eauto; discriminate).
      destruct G as [i2 [t2 [q4 E2]]]. rewrite E2 in E. assert (K4 : K q4) by (destruct (tb_len (lb q3) <? 2); [eapply AK; eassumption|injection E2 as <- <- <-; exact K3]). clear E2.
      destruct (2 <=? tb_len (lb q4)); injection E as <- <- <-; [exact K4|]. destruct q4 as [l4 b4]. exact (FK _ _ _ _ K4). }
  assert (K1 : K q1) by (split; [exact Hb|]; split; [exact Hr|]; intros _; exact Hc). clear Hb Hr Hc.
  induction Hl as [q|q o j x q1 q' Ho E Hl IH]; [apply K1; exact Hn|]. apply IH; [exact Hn|]. eapply SK; eassumption.
Qed.
Print Assumptions C16_handed_out_partial.

Example C16_handed_out_example : exists h q i t q1 q2, roomy_history ascii_uni no_entity (new_buf_lexer 0 (bs "a+b;c")) h q /\
  queue q <> [] /\ step ascii_uni no_entity ONext q = Ok i t q1 /\ lookaheads ascii_uni no_entity q1 q2 /\ length (queue q2) = 3.
Proof.
  eexists [(OPeek, _)]. do 5 eexists. split; [eapply rh_op; [discriminate|vm_compute; reflexivity|apply rh_nil]|]. split; [vm_compute; discriminate|]. split; [vm_compute; reflexivity|].
  split; [eapply (la_op _ _ _ OPeek); [reflexivity|vm_compute; reflexivity|]; eapply (la_op _ _ _ OPeekGrow); [reflexivity|vm_compute; reflexivity|]; eapply (la_op _ _ _ OPeekGrow); [reflexivity|vm_compute; reflexivity|]; apply la_nil|]. vm_compute. reflexivity.
Qed.

(** A token that [Next] scanned itself, with nothing in the buffer, is overwritten by the next [Peek]. *)
Theorem C16_handed_out_refuted : exists i t q1 j t2 q2,
  step ascii_uni no_entity ONext (new_buf_lexer 0 (bs "a+b")) = Ok i t q1 /\ step ascii_uni no_entity OPeek q1 = Ok j t2 q2 /\
  t_val t = T_NAME /\ cell (lb q2) i = t2 /\ t_val t2 = T_ADD.
Proof. do 6 eexists. split; [vm_compute; reflexivity|]. split; [vm_compute; reflexivity|]. repeat split. Qed.
Print Assumptions C16_handed_out_refuted.

Example C16_panic_example : exists h q, roomy_history ascii_uni no_entity (new_buf_lexer 0 (bs "a+b;c+d")) h q /\ step ascii_uni no_entity OPeekGrow q = Panic.
Proof.
  eexists [(OPeekGrow, _); (OPeekGrow, _); (OPeekGrow, _); (OPeekGrow, _); (OPeekGrow, _)]. eexists. split; [do 5 (eapply rh_op; [intros _; vm_compute; lia|vm_compute; reflexivity|]); apply rh_nil|]. vm_compute. reflexivity.
Qed.
