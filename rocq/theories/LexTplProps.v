(** C21: templates. *)
From Verif Require Import Base Utf8Model Utf8Proofs SourceModel SourceSpec SourceProofs TokenModel LexModel LexSpec LexProofs LexGapProofs LexKindProofs LexStrProofs LexProps LexStrProps LexPunctProps LexTplSpec LexTplProofs.
From Coq Require Import ZifyBool ZifyNat ZifyN.
Local Open Scope Z_scope.

(** ** The mode stack *)

Definition has_bit (m : mode) (k : N) : bool := negb (N.eqb (N.land (m_kind m) k) 0).
Definition JSX_BITS : N := N.lor LM_JSX (N.lor LM_JSX_CHILD LM_JSX_ATTR).

(** The mode stack that stands for a stack of open brackets. *)
Inductive stands : list bracket -> list mode -> Prop :=
| st_nil : forall m, has_bit m LM_TEMPLATE = false -> has_bit m JSX_BITS = false -> stands [] [m]
| st_brace : forall m st ms, has_bit m LM_TEMPLATE = false -> has_bit m JSX_BITS = false -> stands st ms -> stands (Brace :: st) (m :: ms)
| st_tpl : forall b a st ms, has_bit b LM_TEMPLATE = true -> has_bit a LM_TEMPLATE = true -> has_bit b JSX_BITS = false -> has_bit a JSX_BITS = false ->
    stands st ms -> stands (Tpl :: st) (b :: a :: ms).

Lemma land_part : forall a b k, N.land a (N.lor b k) = 0%N -> N.land a b = 0%N /\ N.land a k = 0%N.
Proof. intros a b k H. rewrite N.land_lor_distr_r in H. apply N.lor_eq_0_iff in H. exact H. Qed.

Lemma stands_modes : forall st l, stands st (l_modes l) ->
  no_jsx l /\ is_mode l LM_TEMPLATE = match st with Tpl :: _ => true | _ => false end.
Proof.
  intros st l H. unfold no_jsx, is_mode, cur_mode.
  assert (G : exists m ms, l_modes l = m :: ms /\ has_bit m JSX_BITS = false /\ has_bit m LM_TEMPLATE = match st with Tpl :: _ => true | _ => false end).
  { destruct H; eexists; eexists; (split; [reflexivity|]); auto. }
  destruct G as [m [ms [-> [G1 G2]]]]. split; [|exact G2]. unfold has_bit in G1. apply Bool.negb_false_iff, N.eqb_eq in G1.
  unfold JSX_BITS in G1. apply land_part in G1. destruct G1 as [A B]. apply land_part in B. destruct B as [B C]. rewrite A, B, C. auto.
Qed.

Lemma inh_bits : forall c k, N.land (N.lor (N.lor LM_STRICT LM_ASYNC) LM_TS) k = 0%N ->
  N.land (N.lor (N.lor (N.land c LM_STRICT) (N.land c LM_ASYNC)) (N.land c LM_TS)) k = 0%N.
Proof. intros c k H. rewrite <- !N.land_lor_distr_r, <- N.land_assoc, H. apply N.land_0_r. Qed.

Lemma push_mode_bits : forall l k, exists m, l_modes (push_mode k true l) = m :: l_modes l /\
  (forall b, N.land (N.lor (N.lor LM_STRICT LM_ASYNC) LM_TS) b = 0%N -> has_bit m b = negb (N.eqb (N.land k b) 0)).
Proof.
  intros l k. eexists. split; [reflexivity|]. intros b Hb. unfold has_bit. cbn [m_kind].
  rewrite N.land_lor_distr_l, inh_bits by exact Hb. rewrite N.lor_0_r. reflexivity.
Qed.

(** The parser may set and clear modes of the current context between tokens. *)
Definition harmless (k : N) : Prop := N.land k (N.lor LM_TEMPLATE JSX_BITS) = 0%N.

Lemma has_bit_add : forall m k b, N.land k b = 0%N -> has_bit (mk_mode (N.lor (m_kind m) k) (m_paren m)) b = has_bit m b.
Proof. intros m k b H. unfold has_bit. cbn. rewrite N.land_lor_distr_l, H, N.lor_0_r. reflexivity. Qed.
Lemma has_bit_erase : forall m k b, N.land k b = 0%N -> has_bit (mk_mode (N.ldiff (m_kind m) k) (m_paren m)) b = has_bit m b.
Proof.
  intros m k b H. unfold has_bit. cbn. replace (N.land (N.ldiff (m_kind m) k) b) with (N.land (m_kind m) b); [reflexivity|].
  apply N.bits_inj. intros i. rewrite !N.land_spec, N.ldiff_spec. assert (G : N.testbit (N.land k b) i = false) by (rewrite H; apply N.bits_0).
  rewrite N.land_spec in G. destruct (N.testbit (m_kind m) i), (N.testbit k i), (N.testbit b i); cbn in *; congruence.
Qed.

(** Replacing the head of the stack by a mode with the same bits. *)
Lemma stands_head : forall st m m' ms, (forall b, b = LM_TEMPLATE \/ b = JSX_BITS -> has_bit m' b = has_bit m b) -> stands st (m :: ms) -> stands st (m' :: ms).
Proof.
  intros st m m' ms H S. assert (H1 := H _ (or_introl eq_refl)). assert (H2 := H _ (or_intror eq_refl)).
  inversion S; subst; constructor; congruence.
Qed.
Lemma stands_ne : forall st ms, stands st ms -> exists m r, ms = m :: r.
Proof. intros st ms H. destruct H; eauto. Qed.
Lemma stands_change : forall st l k, harmless k -> stands st (l_modes l) -> stands st (l_modes (add_mode k l)) /\ stands st (l_modes (erase_mode k l)).
Proof.
  intros st l k Hk S. unfold add_mode, erase_mode. destruct (stands_ne _ _ S) as [m [r E]]. rewrite E in *. apply land_part in Hk. destruct Hk as [K1 K2].
  split; cbn [l_modes set_modes]; (eapply stands_head; [|exact S]); intros b [-> | ->]; auto using has_bit_add, has_bit_erase.
Qed.

Lemma sym_plain_brace : forall ts ta c s v s', sym_plain ts ta c s = Some (v, s') -> v = T_BRACE_R -> c = 125.
Proof.
  intros ts ta c s v s' H ->. unfold sym_plain in H.
  destruct (c =? 123); [congruence|]. destruct (c =? 125) eqn:E; [lia|]. exfalso.
  repeat match type of H with
  | (if ?b then _ else _) = _ => destruct b
  | Some (if ?b then _ else _) = _ => destruct b
  | Some (_, _) = Some (_, _) => discriminate H
  | None = Some _ => discriminate H
  end.
Qed.

Lemma read_symbol_modes : forall U l t l', read_symbol U l = Some (t, l') -> t_val t <> T_ILLEGAL ->
  (t_val t = T_BRACE_R -> peek (l_src l) = 125) /\
  l_modes l' = l_modes (match t_val t with T_BRACE_L => push_mode LM_NONE true l | T_BRACE_R => pop_mode l
                        | T_PAREN_L => add_paren l 1 | T_PAREN_R => add_paren l (-1) | _ => l end).
Proof.
  intros U l t l' H Hv. unfold read_symbol in H. pose proof (read_fst (l_src l)) as F. destruct (read (l_src l)) as [c s1]. cbn [fst] in F.
  destruct (c =? 60).
  { repeat match type of H with (if ?b then _ else _) = _ => destruct b end; inj; (split; [discriminate|reflexivity]). }
  destruct (c =? 47).
  { destruct (ahead_is_ch s1 47); [unfold read_single_cmt in H; inj; split; [discriminate|reflexivity]|].
    destruct (ahead_is_ch s1 42). { unfold read_multi_cmt in H. destruct (mcmt_loop _ _ _) as [[[[] ?] ?]|]; inj; (split; [discriminate|reflexivity]). }
    destruct (ahead_is_regexp l).
    { destruct (read_regexp _ _ _ _) as [[t1 s2]|] eqn:Ere; [|discriminate]. inj. apply read_regexp_kind in Ere.
      assert (K : kind_of (t_val t) = KRe) by (destruct Ere as [K|[K|[]]]; [congruence|destruct (t_val t); try discriminate K; congruence]).
      destruct (t_val t); try discriminate K. split; [discriminate|reflexivity]. }
    destruct (ahead_is_ch s1 61); inj; (split; [discriminate|reflexivity]). }
  destruct (c =? 64). { inj. destruct (has _ _); (split; [discriminate|reflexivity]). }
  destruct (sym_plain _ _ _ _) as [[v s2]|] eqn:Ep; [|inj; cbn in Hv; congruence].
  destruct (sym_allowed _ v); [|inj; cbn in Hv; congruence]. inj. cbn [t_val fin_tok] in *.
  split; [|destruct v; reflexivity]. intros E. apply (sym_plain_brace _ _ _ _ _ _ Ep) in E.
  destruct ((peek (l_src l) =? 13) || (peek (l_src l) =? 10)); [lia|congruence].
Qed.

Lemma bits_ok : N.land (N.lor (N.lor LM_STRICT LM_ASYNC) LM_TS) LM_TEMPLATE = 0%N /\ N.land (N.lor (N.lor LM_STRICT LM_ASYNC) LM_TS) JSX_BITS = 0%N.
Proof. split; reflexivity. Qed.

Lemma stands_height : forall st ms, stands st ms -> length ms = S (length (filter (fun b => match b with Brace => true | Tpl => false end) st)
   + 2 * length (filter (fun b => match b with Brace => false | Tpl => true end) st)).
Proof. intros st ms H. induction H; cbn [filter length]; lia. Qed.

Lemma pop_stands : forall st l, stands (Brace :: st) (l_modes l) -> stands st (l_modes (pop_mode l)).
Proof. intros st l H. unfold pop_mode. inversion H; subst. destruct ms; [inversion H4|exact H4]. Qed.

Lemma read_by_stands : forall U l s t l' st, stands st (l_modes l) -> read_by U l s t l' -> t_val t <> T_ILLEGAL ->
  exists st', nest t st = Some st' /\ stands st' (l_modes l').
Proof.
  intros U l s t l' st S H Hv.
  assert (Same : forall ks, kind_in t ks -> ~ In KSym ks -> ~ In KTpl ks -> l_modes l' = l_modes l -> exists st', nest t st = Some st' /\ stands st' (l_modes l')).
  { intros ks K1 K2 K3 E. exists st. rewrite E. split; [|exact S]. unfold nest. unfold kind_in in K1.
    destruct (t_val t); try reflexivity; exfalso; cbn in K1; tauto. }
  destruct (stands_modes st l S) as [HJ HT].
  destruct H as [Hraw Ht Hsrc Hm|Hst Hn Hm|Hst Hnum Hn Hm|Hq Hn Hm|l1 Hc Hs1 Hm1 Hf Hsp|Hp Hn Hm|l1 Q1 Q2 Q3 Q4 Q5 Q6 Q7 Q8 Hs1 Hm1 _ _ _ _ _ Hsy].
  - subst t. apply (Same [KEof]); [left; reflexivity|cbn; intuition discriminate|cbn; intuition discriminate|exact Hm].
  - eapply Same; [eapply read_name_kind; eassumption|cbn; intuition discriminate|cbn; intuition discriminate|exact Hm].
  - eapply Same; [eapply read_num_kind; eassumption|cbn; intuition discriminate|cbn; intuition discriminate|exact Hm].
  - eapply Same; [eapply read_str_kind; eassumption|cbn; intuition discriminate|cbn; intuition discriminate|exact Hm].
  - unfold read_tpl_span in Hsp. rewrite Hs1 in Hsp.
    assert (Hne : peek s <> EOF /\ peek s <> 13) by (unfold EOF; destruct Hc as [Hc|[_ Hc]]; lia). destruct Hne as [N1 N2].
    destruct (peek_inv s _ eq_refl N1) as [rs Hr]. destruct (read_one s _ rs Hr N2) as [s1 [Er [R1 R2]]]. rewrite Er in Hsp.
    destruct Hc as [Hc|[Ht Hc]]; rewrite Hc in Hsp; cbn [Z.eqb Pos.eqb] in Hsp.
    + destruct (tpl_loop _ _ _ _ _ _) as [[p s2]|]; [|discriminate]. destruct (tp_err p); [inj; cbn in Hv; congruence|].
      destruct bits_ok as [BT BJ].
      destruct (push_mode_bits (set_src l1 s1) LM_TEMPLATE) as [a [A1 A2]].
      assert (AT := A2 _ BT). assert (AJ := A2 _ BJ). cbn in AT, AJ. clear A2.
      destruct (tp_fin p) eqn:Ef; inj; cbn [nest t_val t_ext fin_tok andb].
      * exists st. split; [reflexivity|]. unfold pop_mode. cbn [l_modes set_src] in *. rewrite A1. cbn [l_modes set_modes set_src]. rewrite Hm1.
        destruct (stands_ne _ _ S) as [m [r E]]. rewrite E. cbn [l_modes set_modes]. rewrite <- E. exact S.
      * exists (Tpl :: st). split; [reflexivity|].
        destruct (push_mode_bits (set_src (push_mode LM_TEMPLATE true (set_src l1 s1)) s2) LM_TEMPLATE) as [b [B1 B2]].
        assert (BT' := B2 _ BT). assert (BJ' := B2 _ BJ). cbn in BT', BJ'. clear B2.
        rewrite B1. cbn [l_modes set_src]. rewrite A1. cbn [l_modes set_src]. rewrite Hm1. constructor; assumption.
    + rewrite Ht in HT. destruct st as [|[|] st]; try discriminate HT.
      assert (Sl1 : stands (Tpl :: st) (l_modes l1)) by (rewrite Hm1; exact S).
      inversion Sl1 as [| |b a st0 ms Hb Ha Jb Ja S0 E1 E2]; subst.
      assert (Hpop : l_modes (pop_mode (set_src l1 s1)) = a :: ms) by (unfold pop_mode; cbn [l_modes set_src]; rewrite <- E2; reflexivity).
      destruct (tpl_loop _ _ _ _ _ _) as [[p s2]|]; [|discriminate]. destruct (tp_err p); [inj; cbn in Hv; congruence|].
      destruct bits_ok as [BT BJ].
      destruct (tp_fin p) eqn:Ef; inj; cbn [nest t_val t_ext fin_tok andb].
      * exists st. split; [reflexivity|]. unfold pop_mode at 1. cbn [l_modes set_src]. rewrite Hpop.
        destruct (stands_ne _ _ S0) as [m [r E]]. rewrite E. cbn [l_modes set_modes]. rewrite <- E. exact S0.
      * exists (Tpl :: st). split; [reflexivity|].
        destruct (push_mode_bits (set_src (pop_mode (set_src l1 s1)) s2) LM_TEMPLATE) as [b' [B1 B2]].
        assert (BT' := B2 _ BT). assert (BJ' := B2 _ BJ). cbn in BT', BJ'. clear B2.
        rewrite B1. cbn [l_modes set_src]. rewrite Hpop. constructor; assumption.
  - eapply Same; [eapply read_name_pvt_kind; eassumption|cbn; intuition discriminate|cbn; intuition discriminate|exact Hm].
  - destruct (read_symbol_modes U l1 t l' Hsy Hv) as [M1 M2]. rewrite Hs1 in M1.
    assert (K := read_symbol_kind U _ _ _ Hsy). rewrite M2. assert (S1 : stands st (l_modes l1)) by (rewrite Hm1; exact S).
    destruct bits_ok as [BT BJ].
    unfold nest. unfold kind_in in K.
    destruct (t_val t) eqn:Ev; try (exists st; split; [reflexivity|exact S1]); try (exfalso; cbn in K; intuition discriminate).
    + exists (Brace :: st). split; [reflexivity|]. destruct (push_mode_bits l1 LM_NONE) as [m [A1 A2]].
      assert (AT := A2 _ BT). assert (AJ := A2 _ BJ). cbn in AT, AJ. rewrite A1. constructor; assumption.
    + assert (Hpk := M1 eq_refl). destruct st as [|[|] st].
      * exists []. split; [reflexivity|]. unfold pop_mode. inversion S1; subst. cbn. constructor; reflexivity.
      * exists st. split; [reflexivity|]. apply pop_stands. exact S1.
      * exfalso. apply (Q6 HT). exact Hpk.
    + exists st. split; [reflexivity|]. unfold add_paren. destruct (stands_ne _ _ S1) as [m [r E]]. rewrite E in *. cbn [l_modes set_modes].
      eapply stands_head; [|exact S1]. reflexivity.
    + exists st. split; [reflexivity|]. unfold add_paren. destruct (stands_ne _ _ S1) as [m [r E]]. rewrite E in *. cbn [l_modes set_modes].
      eapply stands_head; [|exact S1]. reflexivity.
Qed.

(** Tokens read one after the other; between tokens the parser may set and clear modes other than
    those of templates and JSX (strict, async, ...) and mark the start of a statement. *)
Inductive reading (U : uni) (entity : bytes -> option bytes) : lx -> list token -> lx -> Prop :=
| rd_nil : forall l, reading U entity l [] l
| rd_tok : forall l t l1 ts l', next_tok U entity l = Some (t, l1) -> t_val t <> T_ILLEGAL -> reading U entity l1 ts l' -> reading U entity l (t :: ts) l'
| rd_add : forall l k ts l', harmless k -> reading U entity (add_mode k l) ts l' -> reading U entity l ts l'
| rd_erase : forall l k ts l', harmless k -> reading U entity (erase_mode k l) ts l' -> reading U entity l ts l'
| rd_begin : forall l b ts l', reading U entity (set_begin l b) ts l' -> reading U entity l ts l'.

Lemma same_nest : forall t t0 st, same_tok t t0 -> nest t st = nest t0 st.
Proof. intros t t0 st H. unfold same_tok in H. unfold nest. replace (t_val t) with (t_val t0) by intuition congruence. replace (t_ext t) with (t_ext t0) by intuition congruence. reflexivity. Qed.

Lemma lexer_at_modes : forall feat c l ms, lexer_at feat c l -> lexer_at feat c (set_modes l ms).
Proof. intros feat c l ms H. exact H. Qed.

Lemma reading_stands : forall U entity feat c, uni_ok U -> forall l ts l', reading U entity l ts l' -> forall st, lexer_at feat c l -> stands st (l_modes l) ->
  exists st', nest_all ts st = Some st' /\ stands st' (l_modes l') /\ lexer_at feat c l'.
Proof.
  intros U entity feat c HU l ts l' H. induction H as [l|l t l1 ts l' Hn Hv Hr IH|l k ts l' Hk Hr IH|l k ts l' Hk Hr IH|l b ts l' Hr IH]; intros st HL HS.
  - exists st. auto.
  - unfold next_tok in Hn. destruct (lex_tok U entity l) as [[t1 l2]|] eqn:El; [|discriminate].
    assert (t1 = t /\ l1 = set_prt l2 (t_val t)) as [-> ->] by (injection Hn as <- <-; auto). clear Hn.
    assert (HL2 := C18_lexer_at_step U entity feat c l t l2 HU HL El).
    destruct HL as [H1 [H2 [H3 H4]]]. destruct (stands_modes st l HS) as [HJ HT].
    apply lex_tok_delivers in El; try assumption. destruct El as [s [Hs [_ [_ [l3 [t0 [M1 [M2 [_ [_ [_ [_ [Ht Hby]]]]]]]]]]]]].
    rewrite <- M1 in HS. assert (Hv0 : t_val t0 <> T_ILLEGAL) by (destruct Ht as [E _]; congruence).
    destruct (read_by_stands U _ _ _ _ _ HS Hby Hv0) as [st1 [N1 N2]].
    destruct (IH st1) as [st' [A1 [A2 A3]]]; [exact HL2|exact N2|]. exists st'. cbn [nest_all]. rewrite (same_nest _ _ _ Ht), N1. auto.
  - apply IH; [unfold add_mode; destruct (l_modes l); exact HL|apply stands_change; assumption].
  - apply IH; [unfold erase_mode; destruct (l_modes l); exact HL|apply stands_change; assumption].
  - apply IH; [exact HL|exact HS].
Qed.

(** ** C21 *)

(** For every sequence of tokens read from the start of a source, whatever is nested in what: each
    closing brace, and each span and tail of a template, matches the innermost open brace or template;
    the mode stack has one entry per open brace and two per open template above its bottom. *)
Theorem C21_nesting : forall U entity feat c ts l, uni_ok U -> reading U entity (new_lexer feat c) ts l ->
  exists st, nest_all ts [] = Some st /\
    length (l_modes l) = S (length (filter (fun b => match b with Brace => true | Tpl => false end) st)
                            + 2 * length (filter (fun b => match b with Brace => false | Tpl => true end) st)) /\
    is_mode l LM_TEMPLATE = match st with Tpl :: _ => true | _ => false end.
Proof.
  intros U entity feat c ts l HU H. destruct (reading_stands U entity feat c HU _ _ _ H []) as [st [A [B _]]].
  - apply C18_new_lexer.
  - constructor; reflexivity.
  - exists st. split; [exact A|]. split; [apply stands_height; exact B|apply stands_modes; exact B].
Qed.
Print Assumptions C21_nesting.

(** After the closing backquote of a template the mode stack is back at its height: the tokens from
    the head to the tail leave it as it was before. *)
Theorem C21_height_restored : forall U entity feat c ts1 l1 ts2 l2 st, uni_ok U ->
  reading U entity (new_lexer feat c) ts1 l1 -> reading U entity l1 ts2 l2 -> nest_all ts1 [] = Some st -> nest_all ts2 st = Some st ->
  length (l_modes l2) = length (l_modes l1).
Proof.
  intros U entity feat c ts1 l1 ts2 l2 st HU H1 H2 N1 N2.
  destruct (reading_stands U entity feat c HU _ _ _ H1 []) as [st1 [A [B C]]]; [apply C18_new_lexer|constructor; reflexivity|].
  assert (st1 = st) by congruence. subst st1.
  destruct (reading_stands U entity feat c HU _ _ _ H2 st C B) as [st2 [A' [B' _]]]. assert (st2 = st) by congruence. subst st2.
  rewrite (stands_height _ _ B), (stands_height _ _ B'). reflexivity.
Qed.
Print Assumptions C21_height_restored.

Lemma read_by_tpl : forall U l s t l', read_by U l s t l' -> kind_of (t_val t) = KTpl ->
  exists l1, (peek s = 96 \/ (is_mode l LM_TEMPLATE = true /\ peek s = 125)) /\ l_src l1 = s /\ l_modes l1 = l_modes l /\ read_tpl_span U l1 = Some (t, l').
Proof.
  intros U l s t l' H Hv.
  assert (W : forall ks, kind_in t ks -> ~ In KTpl ks -> False) by (intros ks K1 K2; unfold kind_in in K1; rewrite Hv in K1; contradiction).
  destruct H.
  - subst t. discriminate.
  - exfalso. eapply W; [eapply read_name_kind; eassumption|cbn; intuition discriminate].
  - exfalso. eapply W; [eapply read_num_kind; eassumption|cbn; intuition discriminate].
  - exfalso. eapply W; [eapply read_str_kind; eassumption|cbn; intuition discriminate].
  - exists l1. tauto.
  - exfalso. eapply W; [eapply read_name_pvt_kind; eassumption|cbn; intuition discriminate].
  - exfalso. eapply W; [eapply read_symbol_kind; eassumption|cbn; intuition discriminate].
Qed.

Lemma tpl_pop_src : forall l, l_src (pop_mode l) = l_src l.
Proof. intros l. unfold pop_mode. destruct (l_modes l) as [|? [|]]; reflexivity. Qed.

(** The mode the characters of a span are read in is that of templates. *)
Lemma span_mode : forall l st s1 (head : bool), stands st (l_modes l) -> (head = false -> is_mode l LM_TEMPLATE = true) ->
  is_mode (if head then push_mode LM_TEMPLATE true (set_src l s1) else pop_mode (set_src l s1)) LM_TEMPLATE = true.
Proof.
  intros l st s1 head S Hh. destruct head.
  - destruct (push_mode_bits (set_src l s1) LM_TEMPLATE) as [m [A B]]. unfold is_mode, cur_mode. rewrite A. apply (B LM_TEMPLATE). reflexivity.
  - specialize (Hh eq_refl). destruct (stands_modes st l S) as [_ HT]. rewrite Hh in HT. destruct st as [|[|] st]; try discriminate.
    inversion S as [| |b a st0 ms Hb Ha Jb Ja S0 E1 E2]; subst. unfold is_mode, cur_mode, pop_mode. cbn [l_modes set_src]. rewrite <- E2. cbn. exact Ha.
Qed.

(** A template token without a bad escape is, after white space and comments, a backquote or the
    closing brace of a substitution, the characters of a span, and the closing backquote or the
    opening of a substitution; its cooked text is the value of the span, and its raw range the text.
    Missing from the full statement: spans with bad escapes (in tagged templates), see the refutations. *)
Theorem C21_span_partial : forall U entity feat c ts l t l' txt lo hi plain, uni_ok U ->
  reading U entity (new_lexer feat c) ts l -> lex_tok U entity l = Some (t, l') ->
  kind_of (t_val t) = KTpl -> t_ext t = XTpl txt lo hi plain None ->
  exists cs ws body v last, let open := if tv_eqb (t_val t) T_TPL_HEAD then 96 else 125 in
    ahead l = gap_text (cs, ws) ++ open :: body ++ tpl_close last ++ ahead l'
    /\ gap_wf cs ws (open :: body ++ tpl_close last ++ ahead l')
    /\ (t_val t = T_TPL_HEAD \/ t_val t = T_TPL_SPAN \/ t_val t = T_TPL_TAIL)
    /\ (t_val t = T_TPL_HEAD -> last = plain) /\ (t_val t = T_TPL_SPAN -> last = false) /\ (t_val t = T_TPL_TAIL -> last = true)
    /\ tpl_body false (tpl_close last ++ ahead l') body v
    /\ decode_all txt = map norm v
    /\ (exists raw, text (l_src l') lo hi = Some raw /\ decode_all raw = body).
Proof.
  intros U entity feat c ts l t l' txt lo hi plain HU HR H Hk Hx.
  destruct (reading_stands U entity feat c HU _ _ _ HR []) as [st [_ [S HL]]]; [apply C18_new_lexer|constructor; reflexivity|].
  destruct (stands_modes st l S) as [HJ HT]. destruct HL as [H1 [H2 [H3 H4]]].
  apply lex_tok_delivers in H; try assumption. destruct H as [s [Hs [Hcode [[cs [ws [G1 G2]]] [l1 [t0 [M1 [M2 [_ [_ [_ [_ [Ht Hby]]]]]]]]]]]]].
  assert (Ev : t_val t = t_val t0 /\ t_ext t = t_ext t0) by (unfold same_tok in Ht; intuition congruence). destruct Ev as [Ev Ex]. rewrite Ev, Ex in *. clear Ht Ev Ex t.
  destruct (read_by_tpl U _ _ _ _ Hby Hk) as [l2 [Hc [Hs2 [Hm2 Hsp]]]].
  unfold ahead. fold (rest (l_src l)) (rest (l_src l')). rewrite G1.
  assert (S2 : stands st (l_modes l2)) by (rewrite Hm2, M1; exact S).
  unfold read_tpl_span in Hsp. rewrite Hs2 in Hsp.
  assert (Hne : peek s <> EOF /\ peek s <> 13) by (unfold EOF; destruct Hc as [Hc|[_ Hc]]; lia). destruct Hne as [N1 N2].
  destruct (peek_inv s _ eq_refl N1) as [rs Hr]. destruct (read_one s _ rs Hr N2) as [s1 [Er [R1 R2]]]. rewrite Er in Hsp.
  assert (Hmode := span_mode l2 st s1 (peek s =? 96) S2).
  assert (Hhead : (peek s =? 96) = false -> is_mode l2 LM_TEMPLATE = true /\ peek s = 125).
  { intros E. destruct Hc as [Hc|[Hc1 Hc2]]; [lia|]. rewrite (is_mode_modes l2 l1) by assumption. auto. }
  rewrite Hmode in Hsp by (intros E; apply Hhead; exact E).
  destruct (tpl_loop U (fuel s1) true s1 [] None) as [[p s2]|] eqn:El; [|discriminate].
  destruct (tp_err p) eqn:Ee; [inj; discriminate Hk|].
  assert (Hok1 : src_ok s1) by (eapply adv_ok; [apply R2|exact Hs]).
  injection Hsp as <- <-. cbn [t_ext fin_tok] in Hx. injection Hx as <- <- <- <- Hesc.
  pose proof (tpl_loop_adv _ _ _ _ _ _ _ _ El) as Ha12.
  destruct (tpl_loop_sound U _ _ _ _ _ Hok1 El Ee Hesc) as [body [v [B1 [B2 [B3 [s3 [B4 [B5 B6]]]]]]]].
  assert (El' : forall l4, l_src (if tp_fin p then pop_mode (set_src l4 s2) else push_mode LM_TEMPLATE true (set_src l4 s2)) = s2).
  { intros l4. destruct (tp_fin p); [rewrite tpl_pop_src|]; reflexivity. }
  unfold text. rewrite El'. clear El'. cbn [t_val fin_tok].
  exists cs, ws, body, v, (tp_fin p). rewrite <- B1.
  assert (Hopen : rest s = (if tv_eqb (if peek s =? 96 then T_TPL_HEAD else if tp_fin p then T_TPL_TAIL else T_TPL_SPAN) T_TPL_HEAD then 96 else 125) :: rest s1).
  { rewrite Hr, R1. f_equal. destruct (peek s =? 96) eqn:E; [cbn; lia|]. destruct (Hhead eq_refl) as [_ ->]. destruct (tp_fin p); reflexivity. }
  rewrite <- Hopen. split; [reflexivity|]. split; [exact G2|].
  split; [destruct (peek s =? 96); [auto|destruct (tp_fin p); auto]|].
  split. { destruct (peek s =? 96); [reflexivity|]. destruct (tp_fin p); discriminate. }
  split. { destruct (peek s =? 96); [discriminate|]. destruct (tp_fin p); [discriminate|reflexivity]. }
  split. { destruct (peek s =? 96); [discriminate|]. destruct (tp_fin p); [reflexivity|discriminate]. }
  split; [exact B2|]. split; [exact B3|]. rewrite <- B5.
  assert (Hok3 : src_ok s3) by (eapply adv_ok; eassumption).
  pose proof (adv_ofst_le _ _ B4) as O1. pose proof (src_ok_ofst _ Hok3) as O2. rewrite (adv_code _ _ B4) in O2. rewrite (adv_code _ _ Ha12).
  exists (firstn (ofst s3 - ofst s1) (skipn (ofst s1) (code s1))). replace ((ofst s1 <=? ofst s3)%nat && (ofst s3 <=? length (code s1))%nat) with true by lia.
  split; [reflexivity|]. apply (slice_text s1 s3 body Hok1 Hok3 (adv_code _ _ B4) O1). rewrite B6. exact B1.
Qed.
Print Assumptions C21_span_partial.

(** Conversely the characters of a span (without \0 and U+FFFD) are read up to its end, wherever the
    template opens and whatever follows. *)
Theorem C21_recognised_partial : forall U entity feat c ts l open body last after v, uni_ok U ->
  reading U entity (new_lexer feat c) ts l -> (open = 96 \/ (open = 125 /\ is_mode l LM_TEMPLATE = true)) ->
  ahead l = open :: body ++ tpl_close last ++ after -> tpl_body false (tpl_close last ++ after) body v -> ~ In RuneError v ->
  exists t l' txt lo hi plain, lex_tok U entity l = Some (t, l') /\ kind_of (t_val t) = KTpl /\ t_ext t = XTpl txt lo hi plain None /\ ahead l' = after.
Proof.
  intros U entity feat c ts l open body last after v HU HR Hopen Hr HB Hre.
  destruct (reading_stands U entity feat c HU _ _ _ HR []) as [st [_ [S HL]]]; [apply C18_new_lexer|constructor; reflexivity|].
  destruct (stands_modes st l S) as [[J1 [J2 J3]] HT]. destruct HL as [H1 [H2 [H3 H4]]].
  unfold ahead in Hr. fold (rest (l_src l)) in Hr.
  assert (Hsp : is_space open = false) by (unfold is_space; destruct Hopen as [-> | [-> _]]; reflexivity).
  destruct (skip_space_facts (l_src l)) as [_ [_ [_ [K4 _]]]]. specialize (K4 H1).
  assert (Hr' := Hr). rewrite <- (skip_space_start _ _ _ Hr Hsp) in Hr'. set (s := skip_space (l_src l)) in *.
  assert (Hp : peek s = open) by (apply (peek_cons _ _ _ Hr')).
  assert (Hid : is_id_start U open = false).
  { unfold is_id_start. pose proof (HU open) as G. destruct (u_start U open) eqn:Eu; [specialize (G eq_refl); lia|].
    destruct (u_lo U open); [specialize (G eq_refl); lia|]. destruct Hopen as [-> | [-> _]]; reflexivity. }
  destruct (read_one s open _ Hr') as [s1 [Er [R1 R2]]]; [lia|].
  assert (Hok1 : src_ok s1) by (eapply adv_ok; [apply R2|exact K4]).
  destruct (tpl_loop_complete U last after body v HB Hre (fuel s1) s1 [] Hok1) as [p [s2 [P1 [P2 [P3 [P4 P5]]]]]]; [unfold fuel, lenraw; lia|exact R1|].
  destruct (lx_skip_space_src l) as [E1 [E2 [E3 [E4 E5]]]].
  assert (Hmode := span_mode (lx_skip_space l) st s1 (open =? 96) ltac:(rewrite E2; exact S)).
  rewrite (is_mode_modes _ l LM_TEMPLATE E2) in Hmode.
  assert (Hh : (open =? 96) = false -> is_mode l LM_TEMPLATE = true) by (intros E; destruct Hopen as [Ho|[_ Ho]]; [lia|exact Ho]).
  specialize (Hmode Hh).
  assert (Hrd : exists t l', read_tpl_span U (lx_skip_space l) = Some (t, l') /\ kind_of (t_val t) = KTpl /\
     (exists txt lo hi plain, t_ext t = XTpl txt lo hi plain None) /\ rest (l_src l') = after).
  { unfold read_tpl_span. rewrite E1. fold s. rewrite Er, Hmode, P1, P2. eexists; eexists. split; [reflexivity|].
    cbn [t_val t_ext fin_tok]. split; [destruct (open =? 96); [reflexivity|destruct (tp_fin p); reflexivity]|].
    split; [rewrite P3; eauto|]. rewrite <- P5. destruct (tp_fin p); [rewrite tpl_pop_src|]; reflexivity. }
  destruct Hrd as [t [l' [D1 [D2 [[txt [lo [hi [plain D3]]]] D4]]]]]. exists t, l', txt, lo, hi, plain. split; [|auto].
  apply lex_tok_first; [|intros Ev; rewrite Ev in D2; discriminate].
  unfold read_tok_cmt. rewrite E1. fold s. rewrite !(is_mode_modes _ l _ E2), J1, J2.
  assert (He : ahead_is_eof s = false).
  { destruct (ahead_is_eof s) eqn:E; [|reflexivity]. apply eof_raw in E; [|assumption]. apply rest_nil_iff in E. rewrite E in Hr'. discriminate. }
  rewrite He, Hp, Hid. cbn [orb]. unfold ahead_is_num_start. rewrite Hp.
  destruct Hopen as [-> | [-> Ho]]; cbn [is_digit Z.leb Z.eqb Pos.eqb andb orb Z.compare Pos.compare Pos.compare_cont]; [|rewrite Ho; cbn [andb]]; exact D1.
Qed.
Print Assumptions C21_recognised_partial.

(** ** Cases *)

Fixpoint read_n (n : nat) (l : lx) : option (list token * lx) :=
  match n with
  | O => Some ([], l)
  | S n' => match next_tok ascii_uni no_entity l with
            | Some (t, l1) => if tv_eqb (t_val t) T_ILLEGAL then None else match read_n n' l1 with Some (ts, l2) => Some (t :: ts, l2) | None => None end
            | None => None
            end
  end.
Lemma read_n_reading : forall n l ts l', read_n n l = Some (ts, l') -> reading ascii_uni no_entity l ts l'.
Proof.
  induction n as [|n IH]; intros l ts l' H; cbn [read_n] in H; [injection H as <- <-; constructor|].
  destruct (next_tok ascii_uni no_entity l) as [[t l1]|] eqn:E; [|discriminate].
  destruct (tv_eqb (t_val t) T_ILLEGAL) eqn:Ev; [discriminate|]. destruct (read_n n l1) as [[ts1 l2]|] eqn:E2; [|discriminate].
  injection H as <- <-. econstructor; [exact E| |apply IH; exact E2]. intros C. rewrite C in Ev. discriminate.
Qed.

(** A template with an object, a block and a template inside its substitution. *)
Example C21_nesting_case : exists ts l,
  reading ascii_uni no_entity (new_lexer 0 (bs "`a${ {x:`b${'}'}c`, y:{}} }d${1}e`;")) ts l /\
  map t_val ts = [T_TPL_HEAD; T_BRACE_L; T_NAME; T_COLON; T_TPL_HEAD; T_STRING; T_TPL_TAIL; T_COMMA; T_NAME; T_COLON; T_BRACE_L; T_BRACE_R;
                  T_BRACE_R; T_TPL_SPAN; T_NUM; T_TPL_TAIL; T_SEMI]
  /\ nest_all ts [] = Some [] /\ length (l_modes l) = 1%nat.
Proof. do 2 eexists. split; [apply (read_n_reading 17); vm_compute; reflexivity|vm_compute; auto]. Qed.

(** Six tokens in: an open brace inside an open template inside an open brace inside an open template. *)
Example C21_height_restored_case : exists ts l ts2 l2,
  reading ascii_uni no_entity (new_lexer 0 (bs "`a${ {x:`b${'}'}c`, y:{}} }d${1}e`;")) ts l /\ nest_all ts [] = Some [Brace; Tpl] /\ length (l_modes l) = 4%nat /\
  reading ascii_uni no_entity l ts2 l2 /\ map t_val ts2 = [T_TPL_HEAD; T_STRING; T_TPL_TAIL] /\ nest_all ts2 [Brace; Tpl] = Some [Brace; Tpl].
Proof.
  do 4 eexists. split; [apply (read_n_reading 4); vm_compute; reflexivity|]. split; [vm_compute; reflexivity|]. split; [vm_compute; reflexivity|].
  split; [apply (read_n_reading 3); vm_compute; reflexivity|vm_compute; auto].
Qed.

Example C21_span_case : exists ts l t l', reading ascii_uni no_entity (new_lexer 0 (bs "`${1}a\x41$\n${b}`")) ts l /\
  lex_tok ascii_uni no_entity l = Some (t, l') /\ kind_of (t_val t) = KTpl /\ t_val t = T_TPL_SPAN /\ t_ext t = XTpl (bs "aA$" ++ [x0a]) 5 13 false None /\
  ahead l' = map b2z (bs "b}`").
Proof. do 4 eexists. split; [apply (read_n_reading 2); vm_compute; reflexivity|]. split; [vm_compute; reflexivity|vm_compute; auto]. Qed.

Example C21_recognised_case : exists ts l, reading ascii_uni no_entity (new_lexer 0 (bs "`${1}a$\n${b}`")) ts l /\
  is_mode l LM_TEMPLATE = true /\ ahead l = 125 :: [97; 36; 92; 110] ++ tpl_close false ++ [98; 125; 96] /\
  tpl_body false (tpl_close false ++ [98; 125; 96]) [97; 36; 92; 110] [97; 36; 10].
Proof.
  do 2 eexists. split; [apply (read_n_reading 2); vm_compute; reflexivity|]. split; [reflexivity|]. split; [reflexivity|].
  apply tb_char; try lia. apply tb_dollar; [cbn; lia|]. apply (tb_esc _ _ [110] 10 [] []); [|constructor].
  split; [apply esc_single; cbn; auto 10|left; reflexivity].
Qed.

(** [\0] stands for U+0000 in a template; the lexer reports it as an octal escape. *)
Theorem C21_null_refuted : tpl_body true [96] [92; 48] [0] /\
  exists t l' txt lo hi plain e, lex_tok ascii_uni no_entity (new_lexer 0 (bs "`\0`")) = Some (t, l') /\ t_ext t = XTpl txt lo hi plain (Some e).
Proof.
  split.
  - apply (tb_esc _ _ [48] 0 [] []); [|constructor]. split; [|right; repeat split]. apply (esc_octal [48] 0 [96]); [reflexivity|]. cbn. unfold octal_escape. cbn. auto.
  - do 7 eexists. split; vm_compute; reflexivity.
Qed.
Print Assumptions C21_null_refuted.

(** The escape of U+FFFD is taken for a bad escape. *)
Theorem C21_replacement_char_refuted : tpl_escape false (map b2z (bs "uFFFD")) [96] 65533 /\
  exists t l' txt lo hi plain e, lex_tok ascii_uni no_entity (new_lexer 0 (bs "`\uFFFD`")) = Some (t, l') /\ t_ext t = XTpl txt lo hi plain (Some e).
Proof.
  split.
  - split; [|left; reflexivity]. apply (esc_u4 (map b2z (bs "FFFD")) 65533 [96]); reflexivity.
  - do 7 eexists. split; vm_compute; reflexivity.
Qed.
Print Assumptions C21_replacement_char_refuted.

(** A bad [\x] escape takes the two characters behind it with it, the closing backquote included: the
    tagged template (tag, backquote, backslash, x, backquote) is complete and is reported as unterminated. *)
Theorem C21_bad_escape_refuted : exists ts,
  option_map fst (read_n 1 (new_lexer 0 (bs "tag`\x`;a"))) = Some ts /\ map t_val ts = [T_NAME] /\ read_n 2 (new_lexer 0 (bs "tag`\x`;a")) = None.
Proof. eexists. split; [vm_compute; reflexivity|vm_compute; auto]. Qed.
Print Assumptions C21_bad_escape_refuted.
