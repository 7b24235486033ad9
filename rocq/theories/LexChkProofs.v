(** Proofs about checkpoints. *)
From Verif Require Import Base Utf8Model SourceModel SourceSpec SourceProofs TokenModel LexModel LexSpec LexProofs LexGapProofs LexKindProofs LexProps LexTplProps LexBufModel LexBufSpec LexBufProofs LexChkModel LexChkSpec.
From Coq Require Import ZifyBool ZifyNat.

(** ** The lexer reads the same tokens from the same place *)

Definition rel (x y : option (token * lx)) : Prop :=
  match x, y with None, None => True | Some (t, a), Some (u, b) => t = u /\ same_lexer a b | _, _ => False end.

Lemma is_mode_kinds : forall a k, is_mode a k = negb (N.eqb (N.land (hd LM_NONE (kinds a)) k) 0).
Proof. intros a k. unfold is_mode, cur_mode, kinds. destruct (l_modes a); reflexivity. Qed.
Lemma same_is_mode : forall a b k, same_place a b -> is_mode a k = is_mode b k.
Proof. intros a b k [_ [_ [H _]]]. rewrite !is_mode_kinds, H. reflexivity. Qed.
Lemma same_regexp : forall a b, same_place a b -> ahead_is_regexp a = ahead_is_regexp b.
Proof. intros a b H. unfold ahead_is_regexp. rewrite !(same_is_mode _ _ _ H). destruct H as [_ [_ [_ [-> [-> _]]]]]. reflexivity. Qed.

Lemma no_ts_hd : forall a, forallb (fun k => negb (ts_bits k)) (kinds a) = true -> ts_bits (hd LM_NONE (kinds a)) = false.
Proof. intros a H. destruct (kinds a) as [|k r]; [reflexivity|]. cbn in *. apply andb_prop in H. destruct H as [H _]. destruct (ts_bits k); [discriminate|reflexivity]. Qed.
Lemma ts_bits_parts : forall k, ts_bits k = false -> N.land k LM_TS = 0%N /\ N.land k LM_TS_TYP_ARG = 0%N.
Proof. intros k H. unfold ts_bits in H. apply Bool.negb_false_iff, N.eqb_eq in H. apply land_part in H. exact H. Qed.

Lemma kinds_push : forall k a, kinds (push_mode k true a) = N.lor k (inherited (hd LM_NONE (kinds a))) :: kinds a.
Proof. intros k a. unfold kinds, push_mode, inherited, cur_mode. cbn. destruct (l_modes a); reflexivity. Qed.
Lemma kinds_pop : forall a, kinds (pop_mode a) = v_act MPop (kinds a).
Proof. intros a. unfold kinds, pop_mode. destruct (l_modes a) as [|m [|m2 r]]; reflexivity. Qed.
Lemma kinds_paren : forall a d, kinds (add_paren a d) = kinds a.
Proof. intros a d. unfold kinds, add_paren. destruct (l_modes a) eqn:E; [rewrite E|]; reflexivity. Qed.

Lemma same_src : forall a b s, same_lexer a b -> same_lexer (set_src a s) (set_src b s).
Proof. intros a b s [[H1 [H2 [H3 [H4 [H5 H6]]]]] H7]. split; [repeat split; assumption|exact H7]. Qed.
Lemma same_push : forall a b k, N.land k (N.lor LM_TS LM_TS_TYP_ARG) = 0%N -> same_lexer a b -> same_lexer (push_mode k true a) (push_mode k true b).
Proof.
  intros a b k Hk [[H1 [H2 [H3 [H4 [H5 H6]]]]] H7]. split.
  - repeat split; try assumption. rewrite !kinds_push, H3. reflexivity.
  - destruct H7 as [H7|H7]; [left; exact H7|right]. rewrite kinds_push. cbn [forallb]. rewrite H7, Bool.andb_true_r. apply no_ts_hd in H7. apply ts_bits_parts in H7. destruct H7 as [T1 T2].
    unfold ts_bits. rewrite N.land_lor_distr_l, Hk, N.lor_0_l. unfold inherited. rewrite T1, N.lor_0_r, <- N.land_lor_distr_r, <- N.land_assoc. cbn. rewrite N.land_0_r. reflexivity.
Qed.
Lemma same_pop : forall a b, same_lexer a b -> same_lexer (pop_mode a) (pop_mode b).
Proof.
  intros a b [[H1 [H2 [H3 [H4 [H5 H6]]]]] H7]. assert (P : forall l, l_src (pop_mode l) = l_src l /\ l_feat (pop_mode l) = l_feat l /\ l_prt (pop_mode l) = l_prt l /\ l_begin (pop_mode l) = l_begin l /\ l_prevws (pop_mode l) = l_prevws l /\ l_maybe_lsh (pop_mode l) = l_maybe_lsh l /\ l_lsh (pop_mode l) = l_lsh l) by (intros l; unfold pop_mode; destruct (l_modes l) as [|? [|? ?]]; repeat split).
  destruct (P a) as [A1 [A2 [A3 [A4 [A5 [A6 A7]]]]]]. destruct (P b) as [B1 [B2 [B3 [B4 [B5 [B6 B7]]]]]]. split.
  - unfold same_place. rewrite !kinds_pop, H3. repeat split; congruence.
  - destruct H7 as [H7|H7]; [left; rewrite A6, A7, B6, B7; exact H7|right]. rewrite kinds_pop. destruct (kinds a) as [|m [|m2 r]]; try reflexivity. cbn in H7 |- *. apply andb_prop in H7. apply H7.
Qed.
Lemma same_paren : forall a b d, same_lexer a b -> same_lexer (add_paren a d) (add_paren b d).
Proof.
  intros a b d [[H1 [H2 [H3 [H4 [H5 H6]]]]] H7].
  assert (P : forall l, l_src (add_paren l d) = l_src l /\ l_feat (add_paren l d) = l_feat l /\ l_prt (add_paren l d) = l_prt l /\ l_begin (add_paren l d) = l_begin l /\ l_prevws (add_paren l d) = l_prevws l /\ l_maybe_lsh (add_paren l d) = l_maybe_lsh l /\ l_lsh (add_paren l d) = l_lsh l) by (intros l; unfold add_paren; destruct (l_modes l); repeat split).
  destruct (P a) as [A1 [A2 [A3 [A4 [A5 [A6 A7]]]]]]. destruct (P b) as [B1 [B2 [B3 [B4 [B5 [B6 B7]]]]]]. split.
  - unfold same_place. rewrite !kinds_paren. repeat split; congruence.
  - rewrite kinds_paren, A6, A7, B6, B7. exact H7.
Qed.
Lemma same_prt : forall a b v, same_lexer a b -> same_lexer (set_prt a v) (set_prt b v).
Proof. intros a b s [[H1 [H2 [H3 [H4 [H5 H6]]]]] H7]. split; [repeat split; assumption|exact H7]. Qed.
Lemma same_begin : forall a b v, same_lexer a b -> same_lexer (set_begin a v) (set_begin b v).
Proof. intros a b s [[H1 [H2 [H3 [H4 [H5 H6]]]]] H7]. split; [repeat split; assumption|exact H7]. Qed.
Lemma same_cmt : forall a b x y r, same_lexer a b -> same_lexer (add_cmt a x r) (add_cmt b y r).
Proof. intros a b x y r [[H1 [H2 [H3 [H4 [H5 H6]]]]] H7]. unfold add_cmt. destruct x, y; (split; [repeat split; assumption|exact H7]). Qed.
Lemma same_maybe : forall a b m, same_lexer a b -> l_lsh a = l_lsh b -> same_lexer (set_maybe a m) (set_maybe b m).
Proof. intros a b m [[H1 [H2 [H3 [H4 [H5 H6]]]]] H7] G. split; [repeat split; assumption|left; split; [reflexivity|exact G]]. Qed.

Section Frame.
Variable U : uni.
Variable entity : bytes -> option bytes.

Lemma read_tpl_span_same : forall a b, same_lexer a b -> rel (read_tpl_span U a) (read_tpl_span U b).
Proof.
  intros a b H. unfold read_tpl_span. destruct H as [Hp Hq]. assert (Hp' := Hp). destruct Hp as [E _]. rewrite <- E. destruct (read (l_src a)) as [c s1].
  assert (H1 : same_lexer (if (c =? 96)%Z then push_mode LM_TEMPLATE true (set_src a s1) else pop_mode (set_src a s1)) (if (c =? 96)%Z then push_mode LM_TEMPLATE true (set_src b s1) else pop_mode (set_src b s1))).
  { destruct (c =? 96)%Z; [apply same_push; [reflexivity|]|apply same_pop]; apply same_src; split; assumption. }
  rewrite (same_is_mode _ _ LM_TEMPLATE (proj1 H1)). destruct (tpl_loop _ _ _ _ _ _) as [[p s2]|]; [|exact I]. destruct (tp_err p).
  - split; [reflexivity|]. apply same_pop, same_src, H1.
  - split; [reflexivity|]. destruct (tp_fin p); [apply same_pop, same_src, H1|apply same_push; [reflexivity|apply same_src, H1]].
Qed.

Lemma read_symbol_same : forall a b, same_lexer a b -> rel (read_symbol U a) (read_symbol U b).
Proof.
  intros a b H. unfold read_symbol. assert (Hp := proj1 H). rewrite !(same_is_mode _ _ _ Hp), (same_regexp _ _ Hp). destruct Hp as [E [Ef [Ek _]]]. rewrite <- E, <- Ef. destruct (read (l_src a)) as [c s1].
  assert (Hs : forall s, same_lexer (set_src a s) (set_src b s)) by (intros; apply same_src; exact H).
  destruct (c =? 60)%Z.
  { destruct (ahead_is_ch s1 61); [split; [reflexivity|apply Hs]|]. destruct (ahead_is_ch s1 60); [|split; [reflexivity|apply Hs]].
    destruct (negb (is_space (ahead2nd s1)) && (is_mode b LM_TS || is_mode b LM_TS_TYP_ARG))%bool eqn:Et.
    - assert (Q : l_maybe_lsh a = l_maybe_lsh b /\ l_lsh a = l_lsh b).
      { destruct H as [_ [Q|Q]]; [exact Q|]. exfalso. apply no_ts_hd in Q. apply ts_bits_parts in Q. destruct Q as [T1 T2]. rewrite !is_mode_kinds, <- Ek, T1, T2 in Et. cbn in Et. rewrite Bool.andb_false_r in Et. discriminate. }
      destruct Q as [Q1 Q2]. rewrite <- Q1, <- Q2. destruct (mem_nat _ (l_lsh a)); [split; [reflexivity|apply Hs]|]. destruct (mem_nat _ (l_maybe_lsh a)); cbn [negb]; [split; [reflexivity|apply Hs]|].
      split; [reflexivity|]. apply same_src. apply same_maybe; assumption.
    - destruct (ahead_is_ch (rd s1) 61); (split; [reflexivity|apply Hs]). }
  destruct (c =? 47)%Z.
  { destruct (ahead_is_ch s1 47); [destruct (read_single_cmt _ _); split; [reflexivity|apply Hs]|].
    destruct (ahead_is_ch s1 42); [destruct (read_multi_cmt _ _) as [[? ?]|]; [split; [reflexivity|apply Hs]|exact I]|].
    destruct (ahead_is_regexp b); [destruct (read_regexp _ _ _ _) as [[? ?]|]; [split; [reflexivity|apply Hs]|exact I]|].
    destruct (ahead_is_ch s1 61); (split; [reflexivity|apply Hs]). }
  destruct (c =? 64)%Z; [split; [reflexivity|apply Hs]|]. destruct (sym_plain _ _ _ _) as [[v s2]|]; [|split; [reflexivity|apply Hs]].
  destruct (sym_allowed _ _); [|split; [reflexivity|apply Hs]]. split; [reflexivity|]. apply same_src.
  destruct v; try exact H; [apply same_push; [reflexivity|exact H]|apply same_pop, H|apply same_paren, H|apply same_paren, H].
Qed.

Lemma read_jsx_same : forall a b, same_lexer a b -> rel (read_jsx U entity a) (read_jsx U entity b).
Proof.
  intros a b H. unfold read_jsx. assert (Hp := proj1 H). rewrite !(same_is_mode _ _ _ Hp). destruct Hp as [E [Ef [Ek [_ [_ Ew]]]]]. rewrite <- E, <- Ef.
  assert (Hs : forall s, same_lexer (set_src a s) (set_src b s)) by (intros; apply same_src; exact H).
  repeat match goal with
  | |- rel (if ?x then _ else _) (if ?x then _ else _) => destruct x
  | |- rel (Some (_, set_src a _)) _ => split; [reflexivity|apply Hs]
  | |- rel (Some (_, push_mode _ _ _)) _ => split; [reflexivity|apply same_push; [reflexivity|apply Hs]]
  | |- rel (Some (_, pop_mode _)) _ => split; [reflexivity|apply same_pop, Hs]
  | |- rel (let (_, _) := ?x in _) _ => destruct x
  | |- rel (match ?x with Some _ => _ | None => _ end) _ => destruct x as [[? ?]|]; [|exact I]
  | |- rel (Some (_, a)) _ => split; [reflexivity|exact H]
  end.
  unfold read_jsx_txt. rewrite <- E, <- Ew. destruct (l_prevws a) as [[wlo whi] wlen]. destruct (jsx_txt_loop _ _ _ _ _ _) as [[[[rs eof] [|]] s1]|]; try exact I; (split; [reflexivity|apply Hs]).
Qed.

Lemma read_tok_same : forall a b, same_lexer a b -> rel (read_tok_cmt U entity a) (read_tok_cmt U entity b).
Proof.
  intros a0 b0 H0. unfold read_tok_cmt. assert (H : same_lexer (lx_skip_space a0) (lx_skip_space b0)).
  { unfold lx_skip_space. destruct H0 as [[H1 [H2 [H3 [H4 [H5 H6]]]]] H7]. rewrite <- H1, <- H2. destruct (negb _); (split; [repeat split; assumption|exact H7]). }
  set (a := lx_skip_space a0) in *. set (b := lx_skip_space b0) in *. clearbody a b. cbv zeta. assert (Hp := proj1 H). rewrite !(same_is_mode _ _ _ Hp). destruct Hp as [E [Ef _]]. rewrite <- E, <- Ef.
  assert (Hs : forall s, same_lexer (set_src a s) (set_src b s)) by (intros; apply same_src; exact H).
  destruct (ahead_is_eof (l_src a)); [split; [reflexivity|exact H]|]. destruct (is_mode b LM_JSX || is_mode b LM_JSX_CHILD)%bool; [apply read_jsx_same; exact H|].
  destruct (is_id_start U (peek (l_src a))); [destruct (read_name _ _ _ _ _ _) as [[? ?]|]; [split; [reflexivity|apply Hs]|exact I]|].
  destruct (ahead_is_num_start (l_src a)); [destruct (read_num _ _ _ _); split; [reflexivity|apply Hs]|].
  destruct ((peek (l_src a) =? 39)%Z || (peek (l_src a) =? 34)%Z)%bool.
  { destruct (is_mode b LM_JSX_ATTR); [destruct (read_jsx_str _) as [[? ?]|]|destruct (read_str _ _ _) as [[? ?]|]]; try exact I; (split; [reflexivity|apply Hs]). }
  destruct ((peek (l_src a) =? 96)%Z || _)%bool; [apply read_tpl_span_same; exact H|].
  destruct (peek (l_src a) =? 35)%Z; [destruct (read_name_pvt _ _ _ _ _) as [[? ?]|]; [split; [reflexivity|apply Hs]|exact I]|].
  apply read_symbol_same. exact H.
Qed.

Lemma lex_tok_same : forall a b, same_lexer a b -> rel (lex_tok U entity a) (lex_tok U entity b).
Proof.
  intros a b H. unfold lex_tok. destruct (proj1 H) as [E _]. rewrite <- E. clear E. generalize (fuel (l_src a)). intros n.
  enough (G : forall x y z, rel (lex_loop U entity n a x y z) (lex_loop U entity n b x y z)) by apply G.
  revert a b H. induction n as [|n IH]; intros a b H x y z; [exact I|]. cbn [lex_loop]. assert (R := read_tok_same a b H).
  destruct (read_tok_cmt U entity a) as [[t a1]|], (read_tok_cmt U entity b) as [[u b1]|]; try contradiction; [|exact I]. destruct R as [<- R].
  destruct (negb _); [split; [reflexivity|exact R]|]. apply IH. apply same_cmt. exact R.
Qed.
End Frame.

Section StepFrame.
Variable U : uni.
Variable entity : bytes -> option bytes.

Definition same_q (a b : lexer) : Prop := same_lexer (lq a) (lq b) /\ lb a = lb b.
Definition relo (x y : outcome) : Prop :=
  match x, y with Ok i t a, Ok j u b => i = j /\ t = u /\ same_q a b | Panic, Panic => True | Hang, Hang => True | _, _ => False end.

Lemma advance_same : forall a b, same_q a b -> relo (advance U entity a) (advance U entity b).
Proof.
  intros [la ba] [lb' bb] [H E]. cbn [lq lb] in *. subst bb. unfold advance. cbn [lq lb]. assert (R := lex_tok_same U entity _ _ H).
  destruct (lex_tok U entity la) as [[t a1]|], (lex_tok U entity lb') as [[u b1]|]; try contradiction; [|exact I]. destruct R as [<- R].
  destruct (tv_eqb (t_val t) T_EOF); [repeat split; apply same_prt; exact R|]. destruct (tb_write _); [|exact I]. repeat split; apply same_prt; exact R.
Qed.
Lemma peek_same : forall a b, same_q a b -> relo (do_peek U entity a) (do_peek U entity b).
Proof. intros a b H. unfold do_peek. destruct H as [H E]. rewrite <- E. destruct (tb_readable (lb a)); [repeat split; [apply H..|exact E]|apply advance_same; split; assumption]. Qed.
Lemma grow2_same : forall a b, same_q a b -> relo (grow2 U entity a) (grow2 U entity b).
Proof. intros a b H. unfold grow2. destruct H as [H E]. rewrite <- E. destruct (tb_len (lb a) <? 2); [apply advance_same; split; assumption|repeat split; [apply H..|exact E]]. Qed.
Lemma take_same : forall r a b, same_q a b -> relo (do_take U entity r a) (do_take U entity r b).
Proof.
  intros r a b [H E]. unfold do_take. rewrite <- E. destruct (tb_readable (lb a)); [repeat split; apply same_prt; exact H|]. assert (R := lex_tok_same U entity _ _ H).
  destruct (lex_tok U entity (lq a)) as [[t a1]|], (lex_tok U entity (lq b)) as [[u b1]|]; try contradiction; [|exact I]. destruct R as [<- R]. repeat split; apply same_prt; exact R.
Qed.
Lemma step_same : forall o a b, same_q a b -> relo (step U entity o a) (step U entity o b).
Proof.
  intros o a b H. destruct o; cbn [step]; [apply peek_same, H| |apply advance_same, H| |apply take_same, H|apply take_same, H].
  - unfold do_peek_stmt. assert (R : relo (do_peek U entity (mk_lexer (set_begin (lq a) true) (lb a))) (do_peek U entity (mk_lexer (set_begin (lq b) true) (lb b)))) by (apply peek_same; split; [apply same_begin, H|apply H]).
    destruct (do_peek U entity (mk_lexer (set_begin (lq a) true) (lb a))), (do_peek U entity (mk_lexer (set_begin (lq b) true) (lb b))); try contradiction; try exact I. destruct R as [<- [<- [R1 R2]]]. split; [reflexivity|]. split; [reflexivity|]. split; [apply same_begin, R1|exact R2].
  - unfold do_peek2. assert (R := grow2_same a b H). destruct (grow2 U entity a) as [i1 t1 a1| |], (grow2 U entity b) as [j1 u1 b1| |]; try contradiction; try exact I. destruct R as [_ [_ R]].
    assert (R' := grow2_same a1 b1 R). destruct (grow2 U entity a1) as [i2 t2 a2| |], (grow2 U entity b1) as [j2 u2 b2| |]; try contradiction; try exact I. destruct R' as [_ [_ R']].
    assert (R2 := R'). destruct R2 as [R2 E]. rewrite <- E. destruct (2 <=? tb_len (lb a2)); [repeat split; [apply R2..|exact E]|]. destruct (proj1 R2) as [<- _]. repeat split; apply R2.
Qed.
Lemma history_same : forall a h a', history U entity a h a' -> forall b, same_q a b -> exists b', history U entity b h b' /\ same_q a' b'.
Proof.
  intros a h a' H. induction H as [a|a o i t a1 h a' Hs Hh IH]; intros b Hb; [exists b; split; [apply hi_nil|exact Hb]|].
  assert (R := step_same o a b Hb). rewrite Hs in R. destruct (step U entity o b) as [j u b1| |] eqn:E; try contradiction. destruct R as [<- [<- R]]. destruct (IH b1 R) as [b' [A B]]. exists b'. split; [|exact B]. eapply hi_op; eassumption.
Qed.

(** ** What reading leaves alone *)

Hypothesis HU : uni_ok U.

Lemma lex_tok_ss : forall l t l', src_ok (l_src l) -> ws_ok l -> lex_tok U entity l = Some (t, l') -> ss (l_src l') = ss (l_src l).
Proof using HU.
  intros l t l' Hok Hws E. unfold lex_tok in E.
  enough (G : forall n l a b c, src_ok (l_src l) -> ws_ok l -> lex_loop U entity n l a b c = Some (t, l') -> ss (l_src l') = ss (l_src l)) by (eapply G; eassumption).
  clear E Hok Hws l. induction n as [|n IH]; intros l a b c Hok Hws E; [discriminate|]. cbn [lex_loop] in E. destruct (read_tok_cmt U entity l) as [[t1 l1]|] eqn:R; [|discriminate].
  destruct (read_tok_cmt_ok U entity HU _ _ _ Hok Hws R) as [A [_ [B _]]]. destruct (adv_facts _ _ A) as [_ [_ [_ [S1 [_ S2]]]]].
  destruct (skip_space_facts (l_src l)) as [_ [_ [_ [K _]]]].
  assert (S0 : ss (l_src l1) = ss (l_src l)) by (rewrite S1; apply (skip_space_loop_ss _ (set_met (l_src l) false))).
  destruct (negb _); [injection E as _ <-; exact S0|]. destruct (add_cmt_facts l1 (t_atl t1 || a && b || Nat.eqb (t_lo t1) 0) (t_lo t1, t_hi t1)) as [F1 [F2 [F3 _]]].
  rewrite <- S0, <- F1. eapply IH; [rewrite F1; apply S2, K, Hok| |exact E]. unfold ws_ok. rewrite F2, F3. exact B.
Qed.

Definition keeps (feat : N) (c : bytes) (a b : lx) : Prop := lexer_at feat c a -> lexer_at feat c b /\ ss (l_src b) = ss (l_src a).
Lemma keeps_trans : forall feat c x y z, keeps feat c x y -> keeps feat c y z -> keeps feat c x z.
Proof using Type. intros feat c x y z H G K. destruct (H K) as [A B]. destruct (G A) as [C D]. split; [exact C|congruence]. Qed.
Lemma lex_tok_keeps : forall feat c l t l', lex_tok U entity l = Some (t, l') -> keeps feat c l l'.
Proof using HU. intros feat c l t l' E K. split; [eapply C18_lexer_at_step; eassumption|]. destruct K as [K1 [_ [_ K4]]]. eapply lex_tok_ss; eassumption. Qed.
Lemma advance_keeps : forall feat c q i t q', advance U entity q = Ok i t q' -> keeps feat c (lq q) (lq q').
Proof using HU.
  intros feat c q i t q' E. unfold advance in E. destruct (lex_tok U entity (lq q)) as [[t1 l1]|] eqn:El; [|discriminate]. apply (lex_tok_keeps feat c) in El.
  destruct (tv_eqb _ _); [injection E as <- <- <-; exact El|]. destruct (tb_write _); [|discriminate]. injection E as <- <- <-. exact El.
Qed.
Lemma step_keeps : forall feat c o q i t q', step U entity o q = Ok i t q' -> keeps feat c (lq q) (lq q').
Proof using HU.
  assert (P : forall feat c q i t q', do_peek U entity q = Ok i t q' -> keeps feat c (lq q) (lq q')).
  { intros feat c q i t q' E. unfold do_peek in E. destruct (tb_readable _); [injection E as <- <- <-; intros K; auto|eapply advance_keeps; exact E]. }
  assert (G : forall feat c q i t q', grow2 U entity q = Ok i t q' -> keeps feat c (lq q) (lq q')).
  { intros feat c q i t q' E. unfold grow2 in E. destruct (_ <? _); [eapply advance_keeps; exact E|injection E as <- <- <-; intros K; auto]. }
  assert (T : forall feat c r q i t q', do_take U entity r q = Ok i t q' -> keeps feat c (lq q) (lq q')).
  { intros feat c r q i t q' E. unfold do_take in E. destruct (tb_readable _); [injection E as <- <- <-; intros K; split; [exact K|reflexivity]|]. destruct (lex_tok U entity (lq q)) as [[t1 l1]|] eqn:El; [|discriminate]. apply (lex_tok_keeps feat c) in El. injection E as <- <- <-. exact El. }
  intros feat c o q i t q' E. destruct o; cbn [step] in E; eauto using advance_keeps.
  - unfold do_peek_stmt in E. destruct (do_peek U entity _) as [i1 t1 q1| |] eqn:E1; try discriminate. injection E as <- <- <-. apply (P feat c) in E1. exact E1.
  - unfold do_peek2 in E. destruct (grow2 U entity q) as [i1 t1 q1| |] eqn:E1; try discriminate. destruct (grow2 U entity q1) as [i2 t2 q2| |] eqn:E2; try discriminate. apply (G feat c) in E1, E2.
    destruct (2 <=? _); injection E as <- <- <-; eapply keeps_trans; eassumption.
Qed.
End StepFrame.

(** ** The slice of modes *)

Lemma put_length : forall A (l : list A) i x, length (put l i x) = length l.
Proof. intros A l. induction l; intros [|i] x; cbn; auto. Qed.
Lemma put_nth : forall A (l : list A) i j x d, nth j (put l i x) d = if Nat.eqb i j && (j <? length l) then x else nth j l d.
Proof.
  intros A l. induction l as [|y l IH]; intros i j x d; [cbn; rewrite Bool.andb_false_r; destruct j; reflexivity|].
  destruct i, j; cbn [put nth Nat.eqb andb length]; try reflexivity. rewrite IH. reflexivity.
Qed.
Lemma put_firstn : forall A (l : list A) i x d, d <= i -> firstn d (put l i x) = firstn d l.
Proof.
  intros A l. induction l as [|y l IH]; intros i x d H; [reflexivity|]. destruct d; [reflexivity|]. destruct i; [lia|]. cbn. f_equal. apply IH. lia.
Qed.
Lemma put_at : forall A (l : list A) i x, i < length l -> firstn (S i) (put l i x) = firstn i l ++ [x].
Proof. intros A l. induction l as [|y l IH]; intros i x H; cbn in H; [lia|]. destruct i; [reflexivity|]. cbn [put firstn app]. f_equal. apply IH. lia. Qed.
Lemma store_length : forall h r i x, length (store h r i x) = length h.
Proof. intros. apply put_length. Qed.
Lemma store_marr : forall h r i x r', r < length h -> marr (store h r i x) r' = if Nat.eqb r r' then put (marr h r) i x else marr h r'.
Proof. intros h r i x r' H. unfold marr, store. rewrite put_nth. destruct (Nat.eqb_spec r r'); [subst r'|reflexivity]. replace (r <? length h) with true by lia. reflexivity. Qed.
Lemma app_marr : forall h x r, r < length h -> marr (h ++ [x]) r = marr h r.
Proof. intros. unfold marr. apply app_nth1. assumption. Qed.

Definition in_heap (h : mheap) (s : mslice) : Prop := ms_ref s < length h /\ 1 <= ms_len s <= length (marr h (ms_ref s)).

Section Slice.
Variable room : nat -> nat.

(** The live slice holds the stack. *)
Lemma h_act_view : forall a h s h' s', in_heap h s -> h_act room a (h, s) = (h', s') ->
  in_heap h' s' /\ rev (content h' s') = v_act a (rev (content h s)).
Proof.
  intros a h [r n] h' s' [H1 H2] E. cbn [ms_ref ms_len] in *.
  assert (Lc : length (content h (mk_ms r n)) = n) by (unfold content; cbn [ms_ref ms_len]; rewrite firstn_length; lia).
  assert (Hd : forall d, hd d (rev (content h (mk_ms r n))) = last (content h (mk_ms r n)) d).
  { intros d. generalize (content h (mk_ms r n)). intros l. induction l as [|x l _] using rev_ind; [reflexivity|]. rewrite rev_app_distr, last_last. reflexivity. }
  assert (W : forall x, in_heap (store h r (pred n) x) (mk_ms r n) /\ content (store h r (pred n) x) (mk_ms r n) = firstn (pred n) (content h (mk_ms r n)) ++ [x]).
  { intros x. unfold in_heap, content. cbn [ms_ref ms_len]. rewrite store_length, store_marr, Nat.eqb_refl by assumption. rewrite put_length. split; [lia|]. destruct n as [|n]; [lia|]. cbn [pred]. rewrite put_at by lia. f_equal. rewrite firstn_firstn. f_equal. lia. }
  assert (SP : forall l : list N, length l = n -> exists l0 x, l = l0 ++ [x] /\ length l0 = pred n /\ firstn (pred n) l = l0).
  { intros l Hl. destruct l as [|x l _] using rev_ind; [cbn in Hl; lia|]. exists l, x. rewrite app_length in Hl. cbn in Hl. split; [reflexivity|]. split; [lia|]. replace (pred n) with (length l) by lia. rewrite firstn_app, firstn_all, Nat.sub_diag. cbn. apply app_nil_r. }
  destruct a as [k inh| |k|k]; cbn [h_act ms_ref ms_len] in E.
  - destruct (n <? length (marr h r)) eqn:El; injection E as <- <-.
    + apply Nat.ltb_lt in El. split.
      * unfold in_heap. cbn [ms_ref ms_len]. rewrite store_length, store_marr, Nat.eqb_refl, put_length by assumption. lia.
      * unfold content at 1. cbn [ms_ref ms_len]. rewrite store_marr, Nat.eqb_refl, put_at by assumption. rewrite rev_app_distr. cbn [rev app v_act]. rewrite Hd. reflexivity.
    + apply Nat.ltb_ge in El. split.
      * unfold in_heap, marr. cbn [ms_ref ms_len]. rewrite app_nth2, Nat.sub_diag by lia. cbn [nth]. rewrite !app_length. cbn [length]. rewrite repeat_length. unfold content. cbn [ms_len ms_ref]. rewrite firstn_length. unfold marr in *. lia.
      * unfold content at 1. unfold marr at 1. cbn [ms_ref ms_len]. rewrite app_nth2, Nat.sub_diag by lia. cbn [nth]. rewrite firstn_app, Lc. replace (S n - n) with 1 by lia. rewrite firstn_all2 by lia. cbn [firstn]. rewrite rev_app_distr. cbn [rev app v_act]. rewrite Hd. reflexivity.
  - destruct (Nat.eqb_spec n 1) as [->|En]; injection E as <- <-.
    + destruct (W LM_NONE) as [W1 W2]. split; [exact W1|]. cbn [pred] in W2. rewrite W2. cbn [firstn app rev]. destruct (SP _ Lc) as [l0 [x [-> [L0 _]]]]. destruct l0; [|discriminate]. reflexivity.
    + split; [unfold in_heap; cbn [ms_ref ms_len]; lia|]. destruct (SP _ Lc) as [l0 [x [Ec [L0 F]]]]. rewrite Ec, rev_app_distr. cbn [rev app]. assert (C : content h (mk_ms r (pred n)) = l0) by (rewrite <- F; unfold content; cbn [ms_ref ms_len]; rewrite firstn_firstn; f_equal; lia). rewrite C. cbn [v_act]. destruct (rev l0) eqn:Er; [|reflexivity]. apply (f_equal (@length _)) in Er. rewrite rev_length in Er. cbn in Er. lia.
  - injection E as <- <-. destruct (W (N.lor (top h (mk_ms r n)) k)) as [W1 W2]. split; [exact W1|]. rewrite W2. destruct (SP _ Lc) as [l0 [x [Ec [L0 F]]]]. unfold top. rewrite F, Ec, !rev_app_distr, last_last. reflexivity.
  - injection E as <- <-. destruct (W (N.ldiff (top h (mk_ms r n)) k)) as [W1 W2]. split; [exact W1|]. rewrite W2. destruct (SP _ Lc) as [l0 [x [Ec [L0 F]]]]. unfold top. rewrite F, Ec, !rev_app_distr, last_last. reflexivity.
Qed.
Lemma h_acts_view : forall l h s h' s', in_heap h s -> h_acts room l (h, s) = (h', s') -> in_heap h' s' /\ rev (content h' s') = v_acts l (rev (content h s)).
Proof.
  induction l as [|a l IH]; intros h s h' s' H E; [injection E as <- <-; auto|]. cbn [h_acts fold_left v_acts] in *. destruct (h_act room a (h, s)) as [h1 s1] eqn:E1. destruct (h_act_view _ _ _ _ _ H E1) as [A B]. fold (h_acts room l (h1, s1)) in E. destruct (IH _ _ _ _ A E) as [C D]. split; [exact C|]. rewrite D, B. reflexivity.
Qed.
(** Any slice on the heap stays on it. *)
Lemma h_act_heap : forall a h s h' s' s2, in_heap h s -> h_act room a (h, s) = (h', s') -> in_heap h s2 -> in_heap h' s2.
Proof.
  intros a h [r n] h' s' s2 [H1 H2] E [G1 G2]. cbn [ms_ref ms_len] in *.
  assert (W : forall i x, in_heap (store h r i x) s2) by (intros i x; unfold in_heap; rewrite store_length, store_marr by assumption; destruct (Nat.eqb_spec r (ms_ref s2)); [subst r; rewrite put_length|]; split; assumption).
  destruct a as [k inh| |k|k]; cbn [h_act ms_ref ms_len] in E.
  - destruct (n <? length (marr h r)); injection E as <- <-; [apply W|]. unfold in_heap. rewrite app_length, app_marr by assumption. split; [lia|exact G2].
  - destruct (Nat.eqb n 1); injection E as <- <-; [apply W|split; assumption].
  - injection E as <- <-. apply W.
  - injection E as <- <-. apply W.
Qed.
Lemma h_acts_heap : forall l h s h' s' s2, in_heap h s -> h_acts room l (h, s) = (h', s') -> in_heap h s2 -> in_heap h' s2.
Proof.
  induction l as [|a l IH]; intros h s h' s' s2 H E G; [injection E as <- <-; exact G|]. cbn [h_acts fold_left] in E. destruct (h_act room a (h, s)) as [h1 s1] eqn:E1. fold (h_acts room l (h1, s1)) in E. eapply IH; [exact (proj1 (h_act_view _ _ _ _ _ H E1))|exact E|exact (h_act_heap _ _ _ _ _ _ H E1 G)].
Qed.
(** Operations above depth [d] leave the lowest [d] cells of every array alone. *)
Lemma h_act_below : forall a d h s h' s' m, in_heap h s -> stays d (ms_len s) [a] m -> 1 <= d <= ms_len s -> h_act room a (h, s) = (h', s') ->
  ms_len s' = m /\ d <= m /\ forall r, r < length h -> firstn d (marr h' r) = firstn d (marr h r).
Proof.
  intros a d h [r n] h' s' m [H1 H2] S Hd E. cbn [ms_ref ms_len] in *.
  assert (W : forall i x, d <= i -> forall r', r' < length h -> firstn d (marr (store h r i x) r') = firstn d (marr h r')) by (intros i x Hi r' Hr; rewrite store_marr by assumption; destruct (Nat.eqb_spec r r') as [<-|]; [apply put_firstn; exact Hi|reflexivity]).
  inversion S; subst; cbn [h_act ms_ref ms_len] in E.
  - match goal with K : stays _ _ [] _ |- _ => inversion K; subst end. destruct (n <? length (marr h r)); injection E as <- <-; (split; [reflexivity|]; split; [lia|]); [apply W; lia|]. intros r' Hr. rewrite app_marr by assumption. reflexivity.
  - match goal with K : stays _ _ [] _ |- _ => inversion K; subst end. destruct (Nat.eqb_spec (Datatypes.S m) 1); injection E as <- <-; [|split; [reflexivity|]; split; [lia|]; reflexivity]. exfalso. lia.
  - match goal with K : stays _ _ [] _ |- _ => inversion K; subst end. injection E as <- <-. split; [reflexivity|]. split; [lia|]. apply W. lia.
  - match goal with K : stays _ _ [] _ |- _ => inversion K; subst end. injection E as <- <-. split; [reflexivity|]. split; [lia|]. apply W. lia.
Qed.
Lemma stays_cons : forall d a l n m, stays d n (a :: l) m -> exists m1, stays d n [a] m1 /\ stays d m1 l m.
Proof using Type. intros d a l n m H. inversion H; subst; eexists; (split; [|eassumption]); repeat (constructor; try assumption). Qed.
Lemma h_acts_below : forall l d h s h' s' m, in_heap h s -> stays d (ms_len s) l m -> 1 <= d <= ms_len s -> h_acts room l (h, s) = (h', s') ->
  d <= ms_len s' /\ length h <= length h' /\ forall r, r < length h -> firstn d (marr h' r) = firstn d (marr h r).
Proof using Type.
  induction l as [|a l IH]; intros d h s h' s' m H S Hd E; [injection E as <- <-; split; [lia|]; split; [lia|reflexivity]|]. cbn [h_acts fold_left] in E. destruct (h_act room a (h, s)) as [h1 s1] eqn:E1. fold (h_acts room l (h1, s1)) in E.
  apply stays_cons in S. destruct S as [m1 [S1 S2]]. destruct (h_act_below _ _ _ _ _ _ _ H S1 Hd E1) as [A [B C]]. rewrite <- A in S2.
  assert (Hlen : length h <= length h1).
  { clear - E1. destruct s as [r n]. destruct a as [k inh| |k|k]; cbn [h_act ms_ref ms_len] in E1; [destruct (n <? _)|destruct (Nat.eqb n 1)| |]; injection E1 as <- <-; rewrite ?store_length, ?app_length; lia. }
  destruct (IH d h1 s1 h' s' m) as [D [F G]]; [exact (proj1 (h_act_view _ _ _ _ _ H E1))|exact S2|lia|exact E|]. split; [exact D|]. split; [lia|]. intros r Hr. rewrite G by lia. apply C. exact Hr.
Qed.
End Slice.

(** ** Reachable lexers *)

Section Reach.
Variable U : uni.
Variable entity : bytes -> option bytes.
Variable room : nat -> nat.
Hypothesis HU : uni_ok U.

Definition saved_ok (feat : N) (h : mheap) (v : saved) : Prop := in_heap h (v_sl v) /\ (has feat FEAT_JSX = true \/ snd (v_prevws v) = O).
Definition chk_ok (feat : N) (c : bytes) (k : chk) : Prop :=
  lexer_at feat c (k_lx k) /\ in_heap (k_heap k) (k_sl k) /\ Forall (saved_ok feat (k_heap k)) (k_ss k) /\ length (ss (l_src (k_lx k))) = length (k_ss k).

Lemma new_chk_ok : forall feat c, chk_ok feat c (new_chk feat c).
Proof using Type. clear. intros feat c. split; [apply C18_new_lexer|]. split; [unfold in_heap; cbn; lia|]. split; [constructor|reflexivity]. Qed.

Lemma cstep_ok : forall feat c k a k', chk_ok feat c k -> cstep U entity room k a k' -> chk_ok feat c k'.
Proof using HU.
  intros feat c k a k' [H1 [H2 [H3 H4]]] S. destruct S as [k o i t q acts h s Hs Hv Hh|k a h s Hh|k|k|k k' Hd|k k' Hr].
  - apply (step_keeps U entity HU feat c) in Hs. destruct Hs as [A B]; [exact H1|]. split; [exact A|]. cbn [k_heap k_sl k_ss k_lx]. split; [exact (proj1 (h_acts_view room _ _ _ _ _ H2 Hh))|]. split; [|rewrite B; exact H4].
    eapply Forall_impl; [|exact H3]. intros v [V1 V2]. split; [exact (h_acts_heap room _ _ _ _ _ _ H2 Hh V1)|exact V2].
  - split; [exact H1|]. cbn [k_heap k_sl k_ss k_lx]. split; [exact (proj1 (h_act_view room _ _ _ _ _ H2 Hh))|]. split; [|exact H4]. eapply Forall_impl; [|exact H3]. intros v [V1 V2]. split; [exact (h_act_heap room _ _ _ _ _ _ H2 Hh V1)|exact V2].
  - split; [exact H1|]. split; [exact H2|]. split; [exact H3|exact H4].
  - destruct H1 as [[A1 A2] [B [C D]]]. split; [|split; [exact H2|]; split; [|cbn; congruence]].
    + split; [split; [exact A1|constructor; [exact A1|exact A2]]|]. split; [exact B|]. split; [exact C|exact D].
    + constructor; [|exact H3]. split; [exact H2|]. unfold ws_ok in D. rewrite C in D. exact D.
  - unfold discard, discard_state in Hd. destruct (k_ss k) as [|v r]; [discriminate|]. destruct (ss (l_src (k_lx k))) as [|x xs] eqn:Es; [discriminate|]. injection Hd as <-. destruct H1 as [[A1 A2] [B [C D]]]. rewrite Es in A2. inversion A2; subst. inversion H3; subst.
    split; [split; [split; first [assumption|reflexivity]|]; split; [first [assumption|reflexivity]|]; split; first [assumption|reflexivity]|]. split; [exact H2|]. split; [first [assumption|reflexivity]|]. cbn in *. congruence.
  - unfold restore, pop_state in Hr. destruct (k_ss k) as [|v r]; [discriminate|]. destruct (ss (l_src (k_lx k))) as [|x xs] eqn:Es; [discriminate|]. injection Hr as <-. destruct H1 as [[A1 A2] [B [C D]]]. rewrite Es in A2. inversion A2; subst. inversion H3 as [|? ? V H3']; subst. destruct V as [V1 V2].
    split; [split; [split; first [assumption|reflexivity]|]; split; [first [assumption|reflexivity]|]; split; [first [assumption|reflexivity]|]; unfold ws_ok; cbn; exact V2|]. split; [exact V1|]. split; [first [assumption|reflexivity]|]. cbn in *. congruence.
Qed.

(** ** Between a checkpoint and its restoration *)

Definition kept (feat : N) (c : bytes) (k0 : chk) (j : nat) (k : chk) : Prop :=
  let d := ms_len (k_sl k0) in
  chk_ok feat c k /\ d <= ms_len (k_sl k) /\ ms_ref (k_sl k0) < length (k_heap k) /\ firstn d (marr (k_heap k) (ms_ref (k_sl k0))) = content (k_heap k0) (k_sl k0) /\
  (exists vs, k_ss k = vs ++ k_ss (save k0) /\ length vs = j /\ Forall (fun v => d <= ms_len (v_sl v)) vs) /\
  (exists xs, ss (l_src (k_lx k)) = xs ++ ss (l_src (k_lx (save k0))) /\ length xs = j).

Lemma kept_start : forall feat c k0, chk_ok feat c k0 -> kept feat c k0 0 (save k0).
Proof using HU entity room.
  intros feat c k0 H. split; [eapply cstep_ok; [exact H|apply cs_save]|]. destruct H as [_ [[A B] _]]. split; [apply le_n|]. split; [exact A|]. split; [reflexivity|]. split; [exists []; auto|exists []; auto].
Qed.

Lemma kept_step : forall feat c k0 j k l k', 1 <= ms_len (k_sl k0) -> kept feat c k0 j k -> between U entity room (ms_len (k_sl k0)) j k l k' -> kept feat c k0 0 k'.
Proof using HU.
  intros feat c k0 j k l k' Hd HK H. set (d := ms_len (k_sl k0)) in *.
  induction H as [k|j k o t acts m k1 l k' Hs Hc Hb IH|j k a m k1 l k' Hs Hc Hb IH|j k k1 l k' Hc Hb IH|j k k1 l k' Hc Hb IH|j k k1 l k' Hc Hb IH|j k k1 l k' Hc Hb IH].
  - exact HK.
  - apply IH. clear IH Hb. destruct HK as [K1 [K2 [K3 [K4 [[vs [K5 [K6 K7]]] [xs [K8 K9]]]]]]]. assert (N := cstep_ok _ _ _ _ _ K1 Hc). inversion Hc; subst. destruct K1 as [L1 [L2 _]].
    destruct (h_acts_below room _ _ _ _ _ _ _ L2 Hs ltac:(lia) ltac:(eassumption)) as [A [B C]]. destruct (step_keeps U entity HU feat c _ _ _ _ _ ltac:(eassumption) L1) as [_ E].
    split; [exact N|]. cbn [k_sl k_heap k_ss k_lx]. split; [exact A|]. split; [lia|]. split; [rewrite C by exact K3; exact K4|]. split; [exists vs; auto|]. exists xs. rewrite E. auto.
  - apply IH. clear IH Hb. destruct HK as [K1 [K2 [K3 [K4 [[vs [K5 [K6 K7]]] [xs [K8 K9]]]]]]]. assert (N := cstep_ok _ _ _ _ _ K1 Hc). inversion Hc; subst. destruct K1 as [L1 [L2 _]].
    destruct (h_acts_below room [a] _ _ _ _ _ _ L2 Hs ltac:(lia) ltac:(eassumption)) as [A [B C]].
    split; [exact N|]. cbn [k_sl k_heap k_ss k_lx]. split; [exact A|]. split; [lia|]. split; [rewrite C by exact K3; exact K4|]. split; [exists vs; auto|]. exists xs. auto.
  - apply IH. clear IH Hb. destruct HK as [K1 [K2 [K3 [K4 [K5 K6]]]]]. assert (N := cstep_ok _ _ _ _ _ K1 Hc). inversion Hc; subst. split; [exact N|]. split; [exact K2|]. split; [exact K3|]. split; [exact K4|]. split; [exact K5|exact K6].
  - apply IH. clear IH Hb. destruct HK as [K1 [K2 [K3 [K4 [[vs [K5 [K6 K7]]] [xs [K8 K9]]]]]]]. assert (N := cstep_ok _ _ _ _ _ K1 Hc). inversion Hc; subst. split; [exact N|]. split; [exact K2|]. split; [exact K3|]. split; [exact K4|]. split.
    + eexists (_ :: vs). cbn [save k_ss app]. split; [f_equal; exact K5|]. split; [cbn; congruence|]. constructor; [exact K2|exact K7].
    + eexists (_ :: xs). cbn [save k_lx l_src set_src push_state ss app]. split; [f_equal; exact K8|]. cbn. congruence.
  - apply IH. clear IH Hb. destruct HK as [K1 [K2 [K3 [K4 [[vs [K5 [K6 K7]]] [xs [K8 K9]]]]]]]. assert (N := cstep_ok _ _ _ _ _ K1 Hc). inversion Hc; subst. match goal with D : discard _ = Some _ |- _ => unfold discard, discard_state in D; rewrite K5, K8 in D end.
    destruct vs as [|v vs]; [discriminate|]. destruct xs as [|x xs]; [discriminate|]. cbn [app] in *. match goal with D : Some _ = Some _ |- _ => injection D as <- end. inversion K7; subst. cbn [length] in *.
    split; [exact N|]. split; [exact K2|]. split; [exact K3|]. split; [exact K4|]. split; [exists vs; repeat split; auto; lia|exists xs; repeat split; auto; lia].
  - apply IH. clear IH Hb. destruct HK as [K1 [K2 [K3 [K4 [[vs [K5 [K6 K7]]] [xs [K8 K9]]]]]]]. assert (N := cstep_ok _ _ _ _ _ K1 Hc). inversion Hc; subst. match goal with D : restore _ = Some _ |- _ => unfold restore, pop_state in D; rewrite K5, K8 in D end.
    destruct vs as [|v vs]; [discriminate|]. destruct xs as [|x xs]; [discriminate|]. cbn [app] in *. match goal with D : Some _ = Some _ |- _ => injection D as <- end. inversion K7; subst. cbn [length] in *.
    split; [exact N|]. split; [assumption|]. split; [exact K3|]. split; [exact K4|]. split; [exists vs; repeat split; auto; lia|exists xs; repeat split; auto; lia].
Qed.
End Reach.
