(** C20: string literals. *)
From Verif Require Import Base Utf8Model Utf8Proofs SourceModel SourceSpec SourceProofs TokenModel LexModel LexSpec LexProofs LexGapProofs LexKindProofs LexStrProofs LexProps.
From Coq Require Import ZifyBool ZifyNat ZifyN.
Local Open Scope Z_scope.

(** The characters ahead of a lexer. *)
Definition ahead (l : lx) : list rune := decode_all (s_raw (st (l_src l))).

Lemma read_str_sound : forall U feat tpl s t s' q rs, src_ok s -> rest s = q :: rs -> q = 34 \/ q = 39 ->
  read_str U feat tpl s = Some (t, s') -> t_val t = T_STRING ->
  exists body v, rs = body ++ q :: rest s' /\ str_body (js_of feat) q (rest s') body v
    /\ (v <> [] \/ body = [] -> decode_all (tok_text t s') = map norm v).
Proof.
  intros U feat tpl s t s' q rs Hok Hr Hq H Hv. unfold read_str in H.
  destruct (read_ascii s q rs Hr) as [s1 [Er [R1 [R2 R3]]]]; [lia|lia|]. rewrite Er in H.
  assert (Hok1 : src_ok s1) by (eapply adv_ok; [apply R2|assumption]).
  destruct (str_loop _ _ _ _ _ _ _ _ _) as [[[buf lg hi|e o] s2]|] eqn:El; [|inj; discriminate Hv|discriminate H].
  inj.
  pose proof (str_loop_adv U _ _ _ _ _ _ _ _ _ _ El) as Ha.
  apply (str_loop_sound U) with (v0 := []) in El; [|assumption|assumption|apply le_n|exists s1; tauto].
  destruct El as [body [v [s3 [L1 [L2 [L3 [L4 [L5 [L6 L7]]]]]]]]]. cbn [app] in L6.
  exists body, v. split; [congruence|]. split; [exact L2|].
  intros Hne. unfold tok_text. subst hi.
  change (is_kw (t_val _)) with false. change (tv_eqb (t_val _) T_EOF) with false. cbn [t_text t_txt fin_tok fst snd].
  assert (Htx : decode_all (match text s' (ofst s1) (ofst s3) with Some b => b | None => [] end) = body).
  { assert (Hok3 : src_ok s3) by (eapply adv_ok; eassumption). unfold text. rewrite (adv_code _ _ Ha).
    pose proof (adv_ofst_le _ _ L3). pose proof (src_ok_ofst _ Hok3). rewrite (adv_code _ _ L3) in *.
    replace ((ofst s1 <=? ofst s3)%nat && (ofst s3 <=? length (code s1))%nat) with true by lia.
    apply slice_text; try assumption; [apply adv_code; assumption|congruence]. }
  assert (Hnz : negb (rng_empty (mk_range (ofst s1) (ofst s3))) = true) by (rewrite R3; reflexivity).
  destruct buf as [[|b0 b]|]; [|exact L6|]; rewrite Hnz.
  - cbn [buf_inv] in L6. change (decode_all []) with (@nil rune) in L6. destruct v; [|discriminate L6].
    destruct Hne as [Hne|Hne]; [congruence|]. subst body. exact Htx.
  - destruct (L7 eq_refl) as [_ <-]. rewrite <- Htx. symmetry. eapply decode_all_norm. apply le_n.
Qed.

Lemma same_tok_text : forall t t0 s, same_tok t t0 -> tok_text t s = tok_text t0 s.
Proof. intros t t0 s [H1 [H2 [H3 [H4 [H5 _]]]]]. unfold tok_text. rewrite H1, H2, H3, H4, H5. reflexivity. Qed.

(** A scanner that yields another kind of token is out of the question. *)
Ltac wrong_kind lem := match goal with H : _ = _ |- _ => apply lem in H; exfalso;
  match goal with K : kind_in ?t _, Hv : t_val ?t = _ |- _ => unfold kind_in in K; rewrite Hv in K; cbn [kind_of In] in K; intuition discriminate end end.

Lemma read_by_str : forall U l s t l', read_by U l s t l' -> t_val t = T_STRING ->
  (peek s = 39 \/ peek s = 34) /\ read_str U (l_feat l) (is_mode l LM_TEMPLATE) s = Some (t, l_src l') /\ l_modes l' = l_modes l.
Proof.
  intros U l s t l' H Hv. destruct H.
  - subst t. discriminate.
  - wrong_kind read_name_kind.
  - wrong_kind read_num_kind.
  - tauto.
  - wrong_kind read_tpl_span_kind.
  - wrong_kind read_name_pvt_kind.
  - wrong_kind read_symbol_kind.
Qed.

(** ** C20 *)

(** Every string token stands, after white space and comments, for a string literal of the grammar
    (LexSpec.str_body), the text after the token is what follows the closing quote, and the value of
    the token is the value of the literal.  Missing from the full statement, see the refutations
    below: code points that are no characters (lone surrogates, and so surrogate pairs written as two
    escapes) come out as U+FFFD ([norm]), and a literal of nothing but line continuations has no
    correct value. *)
Theorem C20_value_partial : forall U entity feat c l t l', uni_ok U -> lexer_at feat c l -> no_jsx l ->
  lex_tok U entity l = Some (t, l') -> t_val t = T_STRING ->
  exists cs ws q body v, (q = 34 \/ q = 39)
    /\ ahead l = gap_text (cs, ws) ++ q :: body ++ q :: ahead l'
    /\ gap_wf cs ws (q :: body ++ q :: ahead l')
    /\ str_body (has feat FEAT_JSON_SUPER_SET) q (ahead l') body v
    /\ (v <> [] \/ body = [] -> decode_all (tok_text t (l_src l')) = map norm v).
Proof.
  intros U entity feat c l t l' HU [H1 [H2 [H3 H4]]] HJ H Hv.
  apply lex_tok_delivers in H; try assumption. destruct H as [s [Hs [_ [[cs [ws [G1 G2]]] [l1 [t0 [_ [M2 [_ [_ [_ [_ [Ht Hby]]]]]]]]]]]]].
  assert (Hv0 : t_val t0 = T_STRING) by (destruct Ht as [E _]; congruence).
  destruct (read_by_str U _ _ _ _ Hby Hv0) as [Hp [Hr _]].
  destruct (peek_inv s (peek s) eq_refl) as [rs Hrs]; [unfold EOF; lia|].
  set (q := peek s) in *.
  assert (Hq : q = 34 \/ q = 39) by lia.
  destruct (read_str_sound U _ _ _ _ _ q rs Hs Hrs Hq Hr Hv0) as [body [v [B1 [B2 B3]]]].
  exists cs, ws, q, body, v. unfold ahead. fold (rest (l_src l)). fold (rest (l_src l')).
  rewrite G1, Hrs, B1. rewrite Hrs, B1 in G2. split; [lia|]. split; [reflexivity|]. split; [exact G2|].
  rewrite M2, H3 in B2. split; [exact B2|]. rewrite (same_tok_text t t0) by assumption. exact B3.
Qed.
Print Assumptions C20_value_partial.

Lemma decode_scalar : forall v, Forall (fun r => is_scalar r = true) v -> map norm v = v.
Proof.
  intros v H. induction H as [|r v Hr _ IH]; [reflexivity|]. cbn [map]. rewrite IH. unfold norm. rewrite Hr. reflexivity.
Qed.

(** For a value of characters only, the text of the token is the value. *)
Theorem C20_value_characters : forall U entity feat c l t l', uni_ok U -> lexer_at feat c l -> no_jsx l ->
  lex_tok U entity l = Some (t, l') -> t_val t = T_STRING ->
  exists cs ws q body v, ahead l = gap_text (cs, ws) ++ q :: body ++ q :: ahead l'
    /\ str_body (has feat FEAT_JSON_SUPER_SET) q (ahead l') body v
    /\ (v <> [] \/ body = [] -> Forall (fun r => is_scalar r = true) v -> decode_all (tok_text t (l_src l')) = v).
Proof.
  intros U entity feat c l t l' HU HL HJ H Hv. destruct (C20_value_partial U entity feat c l t l' HU HL HJ H Hv) as [cs [ws [q [body [v [A [B [C [D E]]]]]]]]].
  exists cs, ws, q, body, v. split; [exact B|]. split; [exact D|]. intros Hne Hs. rewrite (E Hne). apply decode_scalar. exact Hs.
Qed.
Print Assumptions C20_value_characters.

Lemma skip_space_start : forall s r rs, rest s = r :: rs -> is_space r = false -> rest (skip_space s) = rest s.
Proof.
  intros s r rs H Hr. destruct (skip_space_gap s) as [w [W1 [W2 _]]]. rewrite W1 in H. destruct w as [|x w]; [rewrite W1; reflexivity|].
  cbn in H. injection H as -> _. inversion W2; subst. congruence.
Qed.

Lemma lex_tok_first : forall U entity l t l', read_tok_cmt U entity l = Some (t, l') -> t_val t <> T_COMMENT -> lex_tok U entity l = Some (t, l').
Proof.
  intros U entity l t l' H Hv. unfold lex_tok. unfold fuel. cbn [lex_loop]. rewrite H.
  destruct (tv_eqb (t_val t) T_COMMENT) eqn:E; [apply tv_eqb_spec in E; congruence|]. cbn [negb]. rewrite Bool.andb_false_r. reflexivity.
Qed.

(** At a quote, outside templates: the lexer yields a string token when a literal of the grammar
    starts there, leaving what follows the literal, and reports an error otherwise. *)
Theorem C20_recognised : forall U entity feat c l q rs, uni_ok U -> lexer_at feat c l -> no_jsx l ->
  is_mode l LM_TEMPLATE = false -> (q = 34 \/ q = 39) -> ahead l = q :: rs ->
  exists t l', lex_tok U entity l = Some (t, l') /\
   ((t_val t = T_STRING /\ exists body v, rs = body ++ q :: ahead l' /\ str_body (has feat FEAT_JSON_SUPER_SET) q (ahead l') body v)
    \/ (t_val t = T_ILLEGAL /\ forall body after v, rs = body ++ q :: after -> ~ str_body (has feat FEAT_JSON_SUPER_SET) q after body v)).
Proof.
  intros U entity feat c l q rs HU [H1 [H2 [H3 H4]]] [J1 [J2 J3]] Hm Hq Hr.
  unfold ahead in Hr. fold (rest (l_src l)) in Hr.
  assert (Hsp : is_space q = false) by (unfold is_space; destruct Hq as [-> | ->]; reflexivity).
  destruct (skip_space_facts (l_src l)) as [_ [_ [_ [K4 _]]]]. specialize (K4 H1).
  assert (Hr' := Hr). rewrite <- (skip_space_start _ _ _ Hr Hsp) in Hr'. set (s := skip_space (l_src l)) in *.
  assert (Hp : peek s = q) by (apply (peek_cons _ _ _ Hr')).
  assert (Hid : is_id_start U q = false).
  { unfold is_id_start. pose proof (HU q) as G. destruct (u_start U q) eqn:Eu; [specialize (G eq_refl); lia|].
    destruct (u_lo U q); [specialize (G eq_refl); lia|]. destruct Hq as [-> | ->]; reflexivity. }
  assert (Hl : exists t l1, read_tok_cmt U entity l = Some (t, l1) /\ read_str U (l_feat l) false s = Some (t, l_src l1)).
  { destruct (read_str U (l_feat l) false s) as [[t s2]|] eqn:Ers.
    2:{ exfalso. revert Ers. apply read_str_fuel. }
    exists t, (set_src (lx_skip_space l) s2). split; [|reflexivity]. unfold read_tok_cmt.
    destruct (lx_skip_space_src l) as [E1 [E2 [E3 [E4 E5]]]]. rewrite E1, E4, !lx_skip_space_mode, J1, J2, J3, Hm. fold s. cbn [orb].
    assert (He : ahead_is_eof s = false).
    { destruct (ahead_is_eof s) eqn:E; [|reflexivity]. apply eof_raw in E; [|assumption]. apply rest_nil_iff in E. rewrite E in Hr'. discriminate. }
    rewrite He, Hp, Hid. unfold ahead_is_num_start. rewrite Hp.
    destruct Hq as [-> | ->]; cbn [is_digit Z.leb Z.eqb Pos.eqb andb orb Z.compare Pos.compare Pos.compare_cont]; rewrite Ers; reflexivity. }
  destruct Hl as [t [l1 [Hl Hs]]]. exists t, l1.
  assert (Hlt : lex_tok U entity l = Some (t, l1)).
  { apply lex_tok_first; [exact Hl|]. apply read_str_nc in Hs. apply Hs. }
  split; [exact Hlt|].
  destruct (read_str_kind U _ _ _ _ _ Hs) as [K|[K|[]]].
  - left. assert (Hv : t_val t = T_STRING) by (destruct (t_val t); try discriminate K; reflexivity). split; [exact Hv|].
    destruct (read_str_sound U _ _ _ _ _ q rs K4 Hr' Hq Hs Hv) as [body [v [B1 [B2 _]]]]. exists body, v. rewrite H3 in B2. split; assumption.
  - right. assert (Hv : t_val t = T_ILLEGAL) by (destruct (t_val t); try discriminate K; reflexivity). split; [exact Hv|].
    intros body after v E B. unfold read_str in Hs.
    destruct (read_ascii s q rs Hr') as [s1 [Er [R1 [R2 R3]]]]; [lia|lia|]. rewrite Er in Hs.
    assert (Hok1 : src_ok s1) by (eapply adv_ok; [apply R2|assumption]).
    rewrite <- H3 in B.
    destruct (str_loop_complete U (l_feat l) q after body v Hq B (fuel s1) (ofst s1) s1 None false Hok1) as [buf' [lg' [hi [s' [Ec _]]]]];
      [unfold fuel, lenraw; lia|congruence|]. rewrite Ec in Hs. inj. discriminate Hv.
Qed.
Print Assumptions C20_recognised.

(** The first token of a source: value, text and what is left. *)
Definition first_tok (feat : N) (src : bytes) : option (tv * list rune * list rune) :=
  match lex_tok ascii_uni no_entity (new_lexer feat src) with
  | Some (t, l') => Some (t_val t, decode_all (tok_text t (l_src l')), ahead l')
  | None => None
  end.
Lemma new_lexer_no_jsx : forall feat c, no_jsx (new_lexer feat c).
Proof. intros. repeat split. Qed.

(** A literal with every kind of escape, and a line continuation. *)
Example C20_value_partial_case :
  first_tok 0 (bs "/* c */ 'a\n\x41\u0042\u{1F600}\101\q\" ++ [x0a] ++ bs "z' ;")
  = Some (T_STRING, [97; 10; 65; 66; 128512; 65; 113; 122], [32; 59]).
Proof. vm_compute. reflexivity. Qed.
Example C20_value_characters_case : Forall (fun r => is_scalar r = true) [97; 10; 65; 66; 128512; 65; 113; 122].
Proof. repeat constructor. Qed.
(** The three outcomes of [C20_recognised]: a literal, an unterminated one, a bad escape. *)
Example C20_recognised_case :
  first_tok 0 (bs "'a'") = Some (T_STRING, [97], []) /\
  (exists x y, first_tok 0 (bs "'a") = Some (T_ILLEGAL, x, y)) /\
  (exists x y, first_tok 0 (bs "'\u{110000}'") = Some (T_ILLEGAL, x, y)) /\
  is_mode (new_lexer 0 (bs "'a'")) LM_TEMPLATE = false.
Proof.
  split; [vm_compute; reflexivity|]. split; [exists [], []; vm_compute; reflexivity|].
  split; [exists [], [39]; vm_compute; reflexivity|reflexivity].
Qed.

(** The UTF-16 code units of a list of code points: what an ECMAScript string is made of. *)
Definition units (v : list rune) : list Z :=
  flat_map (fun r => if r <=? 65535 then [r] else [55296 + (r - 65536) / 1024; 56320 + (r - 65536) mod 1024]) v.

(** The value of '\uD83D\uDE00' is the two code units of U+1F600; the token's text is U+FFFD twice. *)
Theorem C20_surrogate_escapes_refuted :
  str_body false 39 [] (map b2z (bs "\uD83D\uDE00")) [55357; 56832] /\ units [55357; 56832] = units [128512] /\
  exists x, first_tok 0 (bs "'\uD83D\uDE00'") = Some (T_STRING, x, []) /\ units x <> units [55357; 56832].
Proof.
  split.
  { apply (sb_esc false 39 [] (map b2z (bs "uD83D")) 55357 (map b2z (bs "\uDE00")) [56832]).
    - apply (esc_u4 (map b2z (bs "D83D"))); reflexivity.
    - apply (sb_esc false 39 [] (map b2z (bs "uDE00")) 56832 [] []); [|constructor].
      apply (esc_u4 (map b2z (bs "DE00"))); reflexivity. }
  split; [reflexivity|]. exists [65533; 65533]. split; [vm_compute; reflexivity|discriminate].
Qed.
Print Assumptions C20_surrogate_escapes_refuted.

(** A literal of one line continuation denotes the empty string; the token's text is its source text. *)
Theorem C20_line_continuation_refuted :
  str_body false 39 [] [92; 10] [] /\ first_tok 0 (bs "'\" ++ [x0a] ++ bs "'") = Some (T_STRING, [92; 10], []).
Proof.
  split; [apply (sb_cont false 39 [] [10] [] []); [left; left; reflexivity|constructor]|vm_compute; reflexivity].
Qed.
Print Assumptions C20_line_continuation_refuted.

(** Inside a template substitution '\0' is rejected, though it is a literal of the grammar. *)
Definition after_tokens (n : nat) (feat : N) (src : bytes) : option lx :=
  Nat.iter n (fun ol => match ol with
    | Some l => match next_tok ascii_uni no_entity l with Some (_, l') => Some l' | None => None end | None => None end)
    (Some (new_lexer feat src)).
Theorem C20_template_null_refuted :
  str_body false 39 [125; 96] [92; 48] [0] /\
  exists l t l', after_tokens 1 0 (bs "`${'\0'}`") = Some l /\ ahead l = map b2z (bs "'\0'}`")
    /\ lex_tok ascii_uni no_entity l = Some (t, l') /\ t_val t = T_ILLEGAL.
Proof.
  split.
  { apply (sb_esc false 39 _ [48] 0 [] []); [|constructor]. apply esc_octal; [reflexivity|].
    split; [cbn; lia|]. split; [cbn; lia|right; reflexivity]. }
  destruct (after_tokens 1 0 (bs "`${'\0'}`")) as [l|] eqn:E; [|vm_compute in E; discriminate].
  destruct (lex_tok ascii_uni no_entity l) as [[t l']|] eqn:E2.
  - exists l, t, l'. vm_compute in E. injection E as <-. split; [reflexivity|]. split; [vm_compute; reflexivity|].
    split; [exact E2|]. vm_compute in E2. injection E2 as <- _. reflexivity.
  - vm_compute in E. injection E as <-. vm_compute in E2. discriminate.
Qed.
Print Assumptions C20_template_null_refuted.
