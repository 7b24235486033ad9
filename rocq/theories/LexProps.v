(** C18, C19, C26: termination, token ranges, line terminators. *)
From Verif Require Import Base Utf8Model SourceModel SourceSpec SourceProofs TokenModel LexModel LexSpec LexProofs LexGapProofs.
From Coq Require Import ZifyBool ZifyNat ZifyN.
Local Open Scope Z_scope.

(** A table of identifier characters that meets the assumption of the theorems: the ASCII part of
    Unicode's. *)
Definition ascii_uni : uni :=
  let al c := ((65 <=? c) && (c <=? 90) || (97 <=? c) && (c <=? 122)) in
  mk_uni al al (fun c => al c || ((48 <=? c) && (c <=? 57)) || (c =? 95)).
Lemma ascii_uni_ok : uni_ok ascii_uni.
Proof. intros c H. cbn in H. lia. Qed.
Definition no_entity (b : bytes) : option bytes := None.

(** Driving the lexer over a whole source, for the examples below. *)
Fixpoint lex_all (n : nat) (l : lx) : list token :=
  match n with
  | O => []
  | S n' => match next_tok ascii_uni no_entity l with
            | Some (t, l') => if tv_eqb (t_val t) T_EOF then [] else t :: lex_all n' l'
            | None => []
            end
  end.
Definition tokens (src : bytes) : list (tv * nat * nat * bool) :=
  map (fun t => (t_val t, t_lo t, t_hi t, t_atl t)) (lex_all 50 (new_lexer 0%N src)).

(** ** C18 *)

(** [good t] (LexGapProofs): the token is neither T_ILLEGAL nor T_EOF. *)

(** A reachable lexer: whatever modes a parser has put it into. *)
Definition lexer_at (feat : N) (c : bytes) (l : lx) : Prop := src_ok (l_src l) /\ code (l_src l) = c /\ l_feat l = feat /\ ws_ok l.

Theorem C18_new_lexer : forall feat c, lexer_at feat c (new_lexer feat c).
Proof.
  intros feat c. split; [apply new_source_ok|]. split; [reflexivity|]. split; [reflexivity|]. right. reflexivity.
Qed.

Theorem C18_lexer_at_step : forall U entity feat c l t l', uni_ok U -> lexer_at feat c l ->
  lex_tok U entity l = Some (t, l') -> lexer_at feat c l'.
Proof.
  intros U entity feat c l t l' HU [H1 [H2 [H3 H4]]] H. apply (lex_tok_ok U entity HU l t l' H1 H4) in H.
  destruct H as [cs [ws [s0 [s [G1 [G2 [G3 [G4 [G5 [G6 [G7 [G8 [G9 [G10 [G11 [G12 [G13 G14]]]]]]]]]]]]]]]]].
  destruct (adv_facts _ _ G11) as [_ [_ [A3 [_ [_ A]]]]].
  split; [auto|]. split; [congruence|]. split; [congruence|assumption].
Qed.
Print Assumptions C18_lexer_at_step.

(** Every request for a token returns, in every mode, provided the text ahead holds no U+FFFD (which is
    also what an invalid byte decodes to). Missing: that proviso, see [C18_terminates_refuted]. *)
Theorem C18_terminates_partial : forall U entity feat c l, uni_ok U -> lexer_at feat c l ->
  Forall (fun r => r <> RuneError) (decode_all (s_raw (st (l_src l)))) ->
  exists t l', lex_tok U entity l = Some (t, l').
Proof.
  intros U entity feat c l HU [H1 [H2 [H3 H4]]] Hb. pose proof (lex_tok_fuel U entity HU l H1 H4 Hb) as H.
  destruct (lex_tok U entity l) as [[t l']|]; [eauto|congruence].
Qed.
Print Assumptions C18_terminates_partial.

(** A template with an invalid byte in it: the loop never ends, however long it runs. *)
Theorem C18_terminates_refuted : forall U tpl txt ee n,
  tpl_loop U n tpl (snd (read (new_source [x60; xff; x60]))) txt ee = None.
Proof.
  intros U tpl txt ee n. revert txt ee. induction n as [|n IH]; intros txt ee; [reflexivity|].
  set (s := snd (read (new_source [x60; xff; x60]))) in *. cbn [tpl_loop].
  change (peek s) with RuneError. cbn [Z.eqb RuneError Pos.eqb orb andb].
  repeat match goal with |- (if ?b then _ else _) = None => destruct b eqn:?E; try discriminate end; try reflexivity; try apply IH.
Qed.
Print Assumptions C18_terminates_refuted.

(** A request that reports neither an error nor the end of input consumes at least one byte. *)
Theorem C18_progress : forall U entity feat c l t l', uni_ok U -> lexer_at feat c l ->
  lex_tok U entity l = Some (t, l') -> t_val t <> T_ILLEGAL -> t_val t <> T_EOF ->
  (length (s_raw (st (l_src l'))) < length (s_raw (st (l_src l))))%nat.
Proof.
  intros U entity feat c l t l' HU [H1 [H2 [H3 H4]]] H G1 G2.
  apply (lex_tok_progress U entity HU l t l' H1 H4 H (conj G1 G2)).
Qed.
Print Assumptions C18_progress.

(** A source of n bytes yields at most n tokens, whatever the parser does to the modes in between. *)
Theorem C18_token_count : forall U entity feat c ts l', uni_ok U ->
  lexrun U entity (new_lexer feat c) ts l' -> Forall good ts -> (length ts <= length c)%nat.
Proof.
  intros U entity feat c ts l' HU H HF. destruct (C18_new_lexer feat c) as [H1 [_ [_ H4]]].
  pose proof (lexrun_count U entity HU _ _ _ H H1 H4 HF) as HL. unfold lenraw in HL. cbn in HL. lia.
Qed.
Print Assumptions C18_token_count.

(** Outside JSX children the end of input is reported only when white space and comments are all that
    is left. *)
Theorem C18_eof : forall U entity feat c l t l', uni_ok U -> lexer_at feat c l -> is_mode l LM_JSX_CHILD = false ->
  lex_tok U entity l = Some (t, l') -> t_val t = T_EOF ->
  exists cs ws, decode_all (s_raw (st (l_src l))) = gap_text (cs, ws) /\ gap_wf cs ws [] /\ s_raw (st (l_src l')) = [].
Proof.
  intros U entity feat c l t l' HU [H1 [H2 [H3 H4]]] Hm H Hv. apply (lex_tok_ok U entity HU l t l' H1 H4) in H.
  destruct H as [cs [ws [s0 [s [G1 [G2 [G3 [G4 [G5 [G6 [G7 [G8 [G9 [G10 [G11 [G12 [G13 G14]]]]]]]]]]]]]]]]].
  destruct G14 as [G14|[_ [[_ [_ [_ [G14 G15]]]]|[_ [_ [_ [_ G14]]]]]]]; [congruence| |rewrite (G14 Hv) in Hm; discriminate].
  exists cs, ws. rewrite G14 in *. rewrite app_nil_r in G1. split; [exact G1|]. split; [exact G2|].
  rewrite G15. apply rest_nil_iff. exact G14.
Qed.
Print Assumptions C18_eof.

(** ** C19 *)

(** The ranges of the tokens of a run lie inside the source, none is empty, they follow each other
    without overlap, and only white space and comments lie before and between them. *)
Theorem C19_ranges_tile : forall U entity feat c ts l', uni_ok U ->
  lexrun U entity (new_lexer feat c) ts l' -> Forall good ts -> tiles c 0 (map (fun t => (t_lo t, t_hi t)) ts).
Proof.
  intros U entity feat c ts l' HU H HF. destruct (C18_new_lexer feat c) as [H1 [_ [_ H4]]].
  exact (lexrun_tiles U entity HU _ _ _ H H1 H4 HF).
Qed.
Print Assumptions C19_ranges_tile.

(** In particular the ranges are sorted and disjoint, not only neighbours. *)
Theorem C19_ranges_disjoint : forall U entity feat c ts l', uni_ok U ->
  lexrun U entity (new_lexer feat c) ts l' -> Forall good ts ->
  forall i j a b, (i < j)%nat -> nth_error ts i = Some a -> nth_error ts j = Some b ->
    (t_lo a < t_hi a <= t_lo b)%nat /\ (t_lo b < t_hi b <= length c)%nat.
Proof.
  intros U entity feat c ts l' HU H HF i j a b Hij Ha Hb.
  pose proof (C19_ranges_tile U entity feat c ts l' HU H HF) as HT. clear H HF l'.
  revert i j Hij Ha Hb HT. generalize 0%nat as o. induction ts as [|t ts IH]; intros o i j Hij Ha Hb HT.
  - destruct i; discriminate.
  - cbn in HT. destruct HT as [T1 [T2 [T3 [_ T5]]]]. destruct j as [|j]; [lia|]. destruct i as [|i].
    + cbn in Ha. injection Ha as <-. cbn in Hb.
      assert (Hlow : forall k ts o, tiles c o (map (fun t => (t_lo t, t_hi t)) ts) -> nth_error ts k = Some b ->
        (o <= t_lo b < t_hi b)%nat /\ (t_hi b <= length c)%nat).
      { clear. induction k as [|k IHk]; intros [|t ts] o HT Hn; try discriminate; cbn in HT; destruct HT as [T1 [T2 [T3 [_ T5]]]].
        - cbn in Hn. injection Hn as ->. lia.
        - cbn in Hn. destruct (IHk _ _ T5 Hn). lia. }
      destruct (Hlow _ _ _ T5 Hb). lia.
    + cbn in Ha, Hb. eapply (IH _ i j); eauto; lia.
Qed.
Print Assumptions C19_ranges_disjoint.

Example C19_nonvacuous : exists ts l', lexrun ascii_uni no_entity (new_lexer 0%N (bs "a /* x */ + b2 // y")) ts l'
  /\ Forall good ts /\ length ts = 3%nat.
Proof.
  set (l0 := new_lexer 0%N (bs "a /* x */ + b2 // y")).
  destruct (lex_tok ascii_uni no_entity l0) as [[t1 l1]|] eqn:E1; [|vm_compute in E1; discriminate].
  destruct (lex_tok ascii_uni no_entity l1) as [[t2 l2]|] eqn:E2; [|vm_compute in E1; injection E1 as <- <-; vm_compute in E2; discriminate].
  destruct (lex_tok ascii_uni no_entity l2) as [[t3 l3]|] eqn:E3.
  - exists [t1; t2; t3], l3. split.
    + econstructor; [reflexivity|reflexivity|reflexivity|exact E1|].
      econstructor; [reflexivity|reflexivity|reflexivity|exact E2|].
      econstructor; [reflexivity|reflexivity|reflexivity|exact E3|]. constructor.
    + split; [|reflexivity]. vm_compute in E1. injection E1 as <- <-. vm_compute in E2. injection E2 as <- <-.
      vm_compute in E3. injection E3 as <- <-. repeat constructor; discriminate.
  - exfalso. vm_compute in E1. injection E1 as <- <-. vm_compute in E2. injection E2 as <- <-. vm_compute in E3. discriminate.
Qed.
Example C19_ex : tokens (bs "a /* x */ + b2 // y")
  = [(T_NAME, 0, 1, false); (T_ADD, 10, 11, false); (T_NAME, 12, 14, false)]%nat.
Proof. vm_compute. reflexivity. Qed.

(** ** C26 *)

(** What the mark after-line-terminator says of a token: the white space right before it, or the last
    comment before it, contains a line terminator. Missing for the full property: line terminators
    before the last comment, see [C26_marked_refuted]. *)
Theorem C26_marked_partial : forall U entity feat c l t l', uni_ok U -> lexer_at feat c l ->
  lex_tok U entity l = Some (t, l') -> t_val t <> T_ILLEGAL ->
  exists cs ws after, decode_all (s_raw (st (l_src l))) = gap_text (cs, ws) ++ after /\ gap_wf cs ws after
    /\ match after with [] => True | r :: _ => is_space r = false end
    /\ t_atl t = (existsb is_line_term ws || last_spans_lines cs)%bool.
Proof.
  intros U entity feat c l t l' HU [H1 [H2 [H3 H4]]] H Hv. apply (lex_tok_ok U entity HU l t l' H1 H4) in H.
  destruct H as [cs [ws [s0 [s [G1 [G2 [G3 [G4 [G5 [G6 [G7 [G8 [G9 [G10 [G11 [G12 [G13 G14]]]]]]]]]]]]]]]]].
  exists cs, ws, (rest s). split; [exact G1|]. split; [exact G2|]. split; [exact G9|].
  destruct G14 as [G14|[G14 _]]; [contradiction|]. rewrite G14. destruct cs; reflexivity.
Qed.
Print Assumptions C26_marked_partial.

(** A marked token is preceded by a line terminator. *)
Theorem C26_marked_sound : forall U entity feat c l t l', uni_ok U -> lexer_at feat c l ->
  lex_tok U entity l = Some (t, l') -> t_val t <> T_ILLEGAL -> t_atl t = true ->
  exists cs ws after, decode_all (s_raw (st (l_src l))) = gap_text (cs, ws) ++ after /\ gap_wf cs ws after
    /\ existsb is_line_term (gap_text (cs, ws)) = true.
Proof.
  intros U entity feat c l t l' HU Hl H Hv Ha.
  destruct (C26_marked_partial U entity feat c l t l' HU Hl H Hv) as [cs [ws [after [G1 [G2 [_ G3]]]]]].
  exists cs, ws, after. split; [exact G1|]. split; [exact G2|]. rewrite Ha in G3. symmetry in G3.
  unfold gap_text. cbn [fst snd]. rewrite existsb_app.
  apply orb_true_iff in G3. destruct G3 as [G3|G3]; [rewrite G3; apply orb_true_r|].
  apply orb_true_iff; left. unfold last_spans_lines in G3.
  destruct (rev cs) as [|[w k] r] eqn:E; [discriminate|].
  apply (f_equal (@rev _)) in E. rewrite rev_involutive in E. cbn in E. subst cs.
  rewrite flat_map_app, existsb_app. apply orb_true_iff; right. cbn [flat_map fst snd]. rewrite app_nil_r, existsb_app.
  apply orb_true_iff; right. destruct k as [b|b]; cbn in G3 |- *; [discriminate|].
  rewrite existsb_app, G3. reflexivity.
Qed.
Print Assumptions C26_marked_sound.

(** Without comments in between the mark is exact. *)
Theorem C26_marked_white_space : forall U entity feat c l t l' ws after, uni_ok U -> lexer_at feat c l ->
  lex_tok U entity l = Some (t, l') -> t_val t <> T_ILLEGAL ->
  decode_all (s_raw (st (l_src l))) = ws ++ after -> Forall (fun r => is_space r = true) ws ->
  match after with [] => True | r :: x => is_space r = false /\ ~ (r = 47 /\ In (hd 0 x) [42; 47]) end ->
  t_atl t = existsb is_line_term ws.
Proof.
  intros U entity feat c l t l' ws after HU Hl H Hv Hr Hws Haf.
  destruct (C26_marked_partial U entity feat c l t l' HU Hl H Hv) as [cs [ws' [after' [G1 [G2 [G3 G4]]]]]].
  rewrite Hr in G1. clear Hr H.
  assert (Heq : forall (a : list rune) b x y, Forall (fun r => is_space r = true) a -> Forall (fun r => is_space r = true) b ->
    match x with [] => True | r :: _ => is_space r = false end -> match y with [] => True | r :: _ => is_space r = false end ->
    a ++ x = b ++ y -> a = b /\ x = y).
  { clear. induction a as [|r a IH]; intros [|q b] x y Ha Hb Hx Hy E; cbn in E.
    - tauto.
    - subst x. inversion Hb; subst. congruence.
    - subst y. inversion Ha; subst. congruence.
    - injection E as -> E. inversion Ha; inversion Hb; subst. destruct (IH b x y); try assumption. subst. tauto. }
  destruct cs as [|[w k] cs].
  - cbn in G1, G2. rewrite orb_false_r in G4. unfold gap_text in G1. cbn in G1.
    destruct (Heq ws ws' after after') as [-> _]; try assumption. destruct after; tauto.
  - exfalso. rewrite gap_text_cons in G1. rewrite <- app_assoc in G1. cbn [gap_wf] in G2. destruct G2 as [G2 _].
    destruct (Heq ws w after ((comment_text k ++ gap_text (cs, ws')) ++ after')) as [_ E]; try assumption.
    + destruct after; tauto.
    + destruct k; reflexivity.
    + subst after. destruct k; cbn in Haf; tauto.
Qed.
Print Assumptions C26_marked_white_space.

(** The full property fails: in these sources the last token follows a line terminator but is not
    marked, because a comment without one stands in between. *)
Theorem C26_marked_refuted :
  tokens (bs "a" ++ [x0a] ++ bs "/* */ b") = [(T_NAME, 0, 1, false); (T_NAME, 8, 9, false)]%nat
  /\ tokens (bs "a/*" ++ [x0a] ++ bs "*//**/b") = [(T_NAME, 0, 1, false); (T_NAME, 10, 11, false)]%nat
  /\ existsb is_line_term (decode_all (firstn 7 (skipn 1 (bs "a" ++ [x0a] ++ bs "/* */ b")))) = true.
Proof. vm_compute. repeat split. Qed.
Print Assumptions C26_marked_refuted.
Example C26_ex : tokens (bs "a" ++ [x0a] ++ bs "b /* */ c") = [(T_NAME, 0, 1, false); (T_NAME, 2, 3, true); (T_NAME, 10, 11, false)]%nat.
Proof. vm_compute. reflexivity. Qed.
