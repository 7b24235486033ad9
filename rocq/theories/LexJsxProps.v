(** C55: the text between JSX tags, and the strings of attributes. *)
From Verif Require Import Base Utf8Model Utf8Proofs SourceModel SourceSpec SourceProofs TokenModel LexModel LexSpec LexProofs
  LexGapProofs LexStrProofs LexKindProofs LexProps LexStrProps LexJsxSpec LexJsxProofs.
From Coq Require Import ZifyBool ZifyNat ZifyN String Ascii.
Local Open Scope Z_scope.

(** Between the tags of an element: the lexer is to read children. *)
Definition among_children (feat : N) (l : lx) : Prop :=
  has feat FEAT_JSX = true /\ is_mode l LM_JSX_CHILD = true /\ is_mode l LM_JSX = false.

Lemma children_tok : forall U entity feat c l t l', lexer_at feat c l -> among_children feat l ->
  lex_tok U entity l = Some (t, l') -> read_tok_cmt U entity l = Some (t, l').
Proof.
  intros U entity feat c l t l' [H1 [H2 [H3 H4]]] [J1 [J2 J3]] H. unfold lex_tok, fuel in H. cbn [lex_loop] in H.
  destruct (read_tok_cmt U entity l) as [[t0 l0]|] eqn:E; [|discriminate].
  destruct (tv_eqb (t_val t0) T_COMMENT) eqn:Ec.
  - exfalso. apply tv_eqb_spec in Ec. unfold read_tok_cmt in E. rewrite !lx_skip_space_mode, J2, J3 in E. cbn [orb] in E.
    destruct (ahead_is_eof _); [injection E as <- <-; discriminate|]. unfold read_jsx in E. rewrite lx_skip_space_mode, J3 in E.
    destruct (_ =? 123); [injection E as <- <-; discriminate|]. destruct (_ =? 125); [injection E as <- <-; discriminate|].
    destruct (_ =? 60); [injection E as <- <-; discriminate|]. unfold read_jsx_txt in E.
    destruct (l_prevws _) as [[wlo whi] wlen]. destruct (jsx_txt_loop _ _ _ _ _ _) as [[[[rs eof] er] s1]|]; [|discriminate].
    destruct er; injection E as <- <-; [discriminate|]. cbn in Ec. destruct eof; discriminate.
  - cbn [negb] in H. rewrite Bool.andb_false_r in H. exact H.
Qed.

Lemma white_space_iff : forall ws, Forall (fun r => is_space r = true) ws <-> Forall (fun r => In r white_space) ws.
Proof. intros ws. split; intros H; (eapply Forall_impl; [|exact H]); intros r; apply is_space_spec. Qed.

Lemma txt_value_space : forall entity ws body v, Forall (fun r => is_space r = true) ws -> ~ In 13 ws ->
  txt_value entity body v -> txt_value entity (ws ++ body) (spell ws ++ v).
Proof.
  intros entity ws body v H. induction H as [|c ws Hc _ IH]; intros Hn W; [exact W|].
  change (spell (c :: ws)) with (encode_rune c ++ spell ws). rewrite <- app_assoc. cbn [app].
  assert (c <> 38) by (intros ->; discriminate). apply TV_char; [assumption|intros ->; apply Hn; left; reflexivity|].
  apply IH; [intros G; apply Hn; right; exact G|exact W].
Qed.

(** A text token among the children of an element covers all there is from where the last token ended
    up to the next brace or tag: white space, then the text proper.  Its value is what JSX says the text
    stands for, provided the text has at most one character reference, no other [&] and no CR in its
    leading white space.  Missing from the full statement: those provisos, see the refutations. *)
Theorem C55_text_partial : forall U entity feat c l t l', lexer_at feat c l -> among_children feat l ->
  lex_tok U entity l = Some (t, l') -> t_val t = T_JSX_TXT ->
  exists ws body v, ahead l = ws ++ body ++ ahead l'
    /\ Forall (fun r => In r white_space) ws /\ body <> [] /\ ~ In (hd 0 body) white_space
    /\ Forall txt_char body /\ txt_end (ahead l')
    /\ t_lo t = ofst (l_src l) /\ t_hi t = ofst (l_src l') /\ t_ext t = XJsx v
    /\ (one_reference entity body -> ~ In 13 ws -> txt_value entity (ws ++ body) v).
Proof.
  intros U entity feat c l t l' HL HC H Hv. pose proof (children_tok _ _ _ _ _ _ _ HL HC H) as E. clear H.
  destruct HL as [H1 [H2 [H3 H4]]]. destruct HC as [J1 [J2 J3]].
  unfold read_tok_cmt in E. rewrite !lx_skip_space_mode, J2, J3 in E. cbn [orb] in E.
  destruct (ahead_is_eof _); [injection E as <- <-; discriminate|]. unfold read_jsx in E. rewrite lx_skip_space_mode, J3 in E.
  destruct (_ =? 123) eqn:E1; [injection E as <- <-; discriminate|]. destruct (_ =? 125); [injection E as <- <-; discriminate|].
  destruct (_ =? 60) eqn:E2; [injection E as <- <-; discriminate|]. unfold read_jsx_txt in E.
  destruct (skip_space_gap (l_src l)) as [ws [W1 [W2 [_ W4]]]].
  destruct (skip_space_spec (l_src l)) as [S1 [_ [S3 _]]]. cbn zeta in S1, S3.
  destruct (skip_space_facts (l_src l)) as [K1 [K2 [K3 [K4 _]]]]. specialize (K4 H1).
  fold (rest (l_src l)) in S1, S3. fold (rest (skip_space (l_src l))) in S1.
  assert (Hws : take_while is_space (rest (l_src l)) = ws).
  { apply (app_inv_tail (rest (skip_space (l_src l)))). rewrite <- W1, S1. symmetry. apply take_drop. }
  rewrite Hws in S3.
  assert (Hpw : l_prevws (lx_skip_space l) = (ofst (l_src l), ofst (skip_space (l_src l)), List.length ws)).
  { unfold lx_skip_space. rewrite H3, J1. cbn [negb].
    transitivity (ofst (l_src l), ofst (skip_space (l_src l)), s_pos (st (skip_space (l_src l))) - s_pos (st (l_src l)))%nat; [reflexivity|].
    rewrite S3. f_equal. lia. }
  rewrite Hpw in E. destruct (lx_skip_space_src l) as [Esrc _]. rewrite Esrc in *. set (s := skip_space (l_src l)) in *. clearbody s.
  assert (Htx : text s (ofst (l_src l)) (ofst s) = Some (spell ws)) by (apply (text_space (l_src l) s ws); try assumption; lia).
  assert (Hpre : match List.length ws with O => [] | S _ => match text s (ofst (l_src l)) (ofst s) with Some b => b | None => [] end end = spell ws).
  { rewrite Htx. destruct ws; reflexivity. }
  assert (Hlo : match List.length ws with O => ofst s | S _ => ofst (l_src l) end = ofst (l_src l)).
  { destruct ws as [|w ws0]; [|reflexivity]. cbn. cbn [app] in W1. unfold ofst, lenraw in *.
    destruct H1 as [[B1 [R1 P1]] _]. destruct K4 as [[B2 [R2 P2]] _]. rewrite K3 in *.
    assert (boundary (skipn (s_ofst (st (l_src l))) (code (l_src l))) (s_ofst (st s) - s_ofst (st (l_src l)))) as BB by (apply boundary_skipn; [assumption..|lia]).
    pose proof (decode_all_split _ _ BB) as D. rewrite skipn_skipn_add in D.
    replace (s_ofst (st (l_src l)) + (s_ofst (st s) - s_ofst (st (l_src l))))%nat with (s_ofst (st s)) in D by lia.
    rewrite <- R1, <- R2 in D. unfold rest in W1. rewrite W1 in D.
    set (X := firstn _ _) in D.
    assert (decode_all X = []) as DX by (apply (app_inv_tail (decode_all (s_raw (st s)))); rewrite <- D; reflexivity).
    apply decode_all_nil_inv in DX. apply (f_equal (@List.length _)) in DX. unfold X in DX. rewrite firstn_length, R1, skipn_length in DX. cbn in DX.
    pose proof (boundary_le _ _ B2). lia. }
  rewrite Hpre, Hlo in E.
  destruct (jsx_txt_loop _ _ _ _ _ _) as [[[[rs eof] er] s1]|] eqn:El; [|discriminate].
  destruct er; [injection E as <- <-; discriminate|]. injection E as <- <-. cbn in Hv.
  destruct eof; [discriminate|].
  assert (Hne : peek s <> EOF).
  { intros Q. apply peek_eof_iff in Q. unfold fuel in El. cbn [jsx_txt_loop] in El.
    assert (peek s = EOF) as Q2 by (apply peek_eof_iff; exact Q). rewrite Q2 in El. cbn in El. injection El as _ Hf _. discriminate. }
  destruct (jsx_loop_txt entity _ _ _ _ _ _ _ _ El) as [body [B1 [B2 [B3 [B4 [B5 _]]]]]].
  exists ws, body, (spell ws ++ rs). unfold ahead. fold (rest (l_src l)). cbn [l_src set_src]. 
  replace (l_src (set_src (lx_skip_space l) s1)) with s1 by reflexivity. fold (rest s1).
  split; [rewrite W1, B1; reflexivity|]. split; [apply white_space_iff; exact W2|].
  assert (Hbne : body <> []).
  { intros ->. cbn [app] in B1. pose proof Hne as N. rewrite peek_rest, B1 in N. rewrite peek_rest, B1 in E1, E2.
    destruct (rest s1) as [|x k]; [apply N; reflexivity|]. cbn in B3, E1, E2. lia. }
  split; [exact Hbne|]. split.
  { destruct body as [|x body]; [congruence|]. rewrite B1 in W4. cbn in W4. cbn [hd]. intros Q. apply is_space_spec in Q. congruence. }
  split; [exact B2|]. split; [exact B3|]. cbn. split; [reflexivity|]. split; [reflexivity|]. split; [reflexivity|].
  intros Hone Hcr. apply txt_value_space; [assumption|assumption|].
  destruct Hone as [Hn|[a [name [e [b [Hb [Ha [Hnb [Hname Hent]]]]]]]]].
  - destruct (B4 eq_refl Hn) as [_ [w [-> W]]]. exact W.
  - destruct (B5 eq_refl eq_refl a name e b Hb Ha Hnb Hname Hent) as [w [-> W]]. exact W.
Qed.
Print Assumptions C55_text_partial.

(** The other way round: whatever lies up to the next brace or tag, other than a [}] or a [&], comes as
    one text token. *)
Theorem C55_read : forall U entity feat c l ws body stop after, lexer_at feat c l -> among_children feat l ->
  ahead l = ws ++ body ++ stop :: after -> Forall (fun r => In r white_space) ws ->
  body <> [] -> ~ In (hd 0 body) white_space -> hd 0 body <> 125 -> Forall txt_char body -> ~ In 38 body -> (stop = 123 \/ stop = 60) ->
  exists t l', lex_tok U entity l = Some (t, l') /\ t_val t = T_JSX_TXT /\ ahead l' = stop :: after.
Proof.
  intros U entity feat c l ws body stop after [H1 [H2 [H3 H4]]] [J1 [J2 J3]] Hr Hw Hne Hsp H125 Hb Hn Hst.
  unfold ahead in Hr. fold (rest (l_src l)) in Hr. apply white_space_iff in Hw.
  assert (Hs : rest (skip_space (l_src l)) = body ++ stop :: after).
  { apply (skip_space_to _ ws); try assumption. destruct body as [|x body]; [congruence|]. cbn in Hsp |- *.
    destruct (is_space x) eqn:E; [apply is_space_spec in E; tauto|reflexivity]. }
  destruct (lx_skip_space_src l) as [Esrc _]. set (s := skip_space (l_src l)) in *. clearbody s.
  destruct (jsx_loop_reads entity (fuel s) s [] [] body (stop :: after) Hs Hb Hn Hst) as [v [s1 [L1 L2]]]; [unfold fuel, lenraw; lia|].
  destruct (l_prevws (lx_skip_space l)) as [[wlo whi] wlen] eqn:Ew.
  eexists _, _. split; [apply lex_tok_first; [|] |].
  - unfold read_tok_cmt. rewrite !lx_skip_space_mode, J2, J3, Esrc. cbn [orb].
    assert (ahead_is_eof s = false) as ->.
    { unfold ahead_is_eof. destruct (Nat.eqb _ _) eqn:E; [|reflexivity]. exfalso.
      assert (src_ok s) as [[_ [R _]] _].
      { rewrite <- Esrc. destruct (skip_space_facts (l_src l)) as [_ [_ [_ [K4 _]]]]. destruct (lx_skip_space_src l) as [-> _]. apply K4, H1. }
      apply Nat.eqb_eq in E. rewrite E, skipn_all in R. unfold rest in Hs. rewrite R in Hs. destruct body; discriminate. }
    unfold read_jsx. rewrite Esrc, lx_skip_space_mode, J3.
    assert (Hp : peek s = hd 0 body) by (rewrite peek_rest, Hs; destruct body; [congruence|reflexivity]).
    assert (txt_char (hd 0 body)) as [T1 T2] by (destruct body; [congruence|inversion Hb; assumption]).
    rewrite Hp. replace (hd 0 body =? 123) with false by lia. replace (hd 0 body =? 125) with false by lia. replace (hd 0 body =? 60) with false by lia.
    unfold read_jsx_txt. rewrite Ew, Esrc, L1. reflexivity.
  - discriminate.
  - split; [reflexivity|exact L2].
Qed.
Print Assumptions C55_read.

(** The string of an attribute is the text between its quotes, whatever is in it. *)
Theorem C55_attribute_partial : forall U entity feat c l ws q body after, uni_ok U -> lexer_at feat c l ->
  is_mode l LM_JSX_ATTR = true -> is_mode l LM_JSX = false -> is_mode l LM_JSX_CHILD = false ->
  Forall (fun r => In r white_space) ws -> (q = 34 \/ q = 39) -> ~ In q body -> ahead l = ws ++ q :: body ++ q :: after ->
  exists t l', lex_tok U entity l = Some (t, l') /\ t_val t = T_STRING /\ t_hi t = ofst (l_src l') /\ ahead l' = after
    /\ decode_all (tok_text t (l_src l')) = body.
Proof.
  intros U entity feat c l ws q body after HU [H1 [H2 [H3 H4]]] J1 J2 J3 Hw Hq Hn Hr.
  unfold ahead in Hr. fold (rest (l_src l)) in Hr. apply white_space_iff in Hw.
  assert (Hs : rest (skip_space (l_src l)) = q :: body ++ q :: after).
  { apply (skip_space_to _ ws); try assumption. destruct Hq as [-> | ->]; reflexivity. }
  destruct (skip_space_facts (l_src l)) as [_ [_ [_ [K4 _]]]]. specialize (K4 H1).
  destruct (lx_skip_space_src l) as [Esrc _]. set (s := skip_space (l_src l)) in *. clearbody s.
  destruct (read_jsx_str_reads q s body after Hq K4 Hs Hn) as [t [s' [R1 [R2 [R3 [R4 [R5 R6]]]]]]].
  exists t, (set_src (lx_skip_space l) s'). split; [|split; [exact R2|split; [exact R4|split; [exact R5|exact R6]]]].
  apply lex_tok_first; [|congruence]. unfold read_tok_cmt. rewrite !lx_skip_space_mode, J2, J3, J1, Esrc. cbn [orb].
  assert (ahead_is_eof s = false) as ->.
  { unfold ahead_is_eof. destruct (Nat.eqb _ _) eqn:E; [|reflexivity]. exfalso. destruct K4 as [[_ [R _]] _].
    apply Nat.eqb_eq in E. rewrite E, skipn_all in R. unfold rest in Hs. rewrite R in Hs. discriminate. }
  pose proof (peek_cons _ _ _ Hs) as Hp. rewrite Hp.
  assert (Hid : is_id_start U q = false).
  { destruct (is_id_start U q) eqn:E; [|reflexivity]. unfold is_id_start in E. destruct Hq as [-> | ->]; cbn in E.
    all: match goal with |- _ => try discriminate end. all: pose proof (HU 34) as U1; pose proof (HU 39) as U2; lia. }
  rewrite Hid. unfold ahead_is_num_start. rewrite Hp.
  replace (is_digit q || ((q =? 46) && is_digit (ahead2nd s))) with false by (destruct Hq as [-> | ->]; reflexivity).
  replace ((q =? 39) || (q =? 34)) with true by lia. rewrite R1. reflexivity.
Qed.
Print Assumptions C55_attribute_partial.

(** ** Cases, and what is missing *)

(** Three of the references JSX knows. *)
Definition html (k : bytes) : option bytes :=
  if list_eq_dec Byte.byte_eq_dec k (bs "&lt;") then Some (bs "<") else
  if list_eq_dec Byte.byte_eq_dec k (bs "&gt;") then Some (bs ">") else
  if list_eq_dec Byte.byte_eq_dec k (bs "&amp;") then Some (bs "&") else None.
Definition between_tags (src : bytes) : lx := push_mode LM_JSX_CHILD true (new_lexer FEAT_JSX src).
Definition child_tok (src : bytes) : option (tv * ext * list rune) :=
  match lex_tok ascii_uni html (between_tags src) with Some (t, l') => Some (t_val t, t_ext t, ahead l') | None => None end.

Example C55_at : forall src, lexer_at FEAT_JSX src (between_tags src) /\ among_children FEAT_JSX (between_tags src).
Proof.
  intros src. split; [|split; [reflexivity|split; reflexivity]].
  split; [apply new_source_ok|]. split; [reflexivity|]. split; [reflexivity|]. right. reflexivity.
Qed.
Example C55_text_partial_case :
  child_tok (bs "  a &lt; b" ++ [x0d; x0a] ++ bs "c <b>") = Some (T_JSX_TXT, XJsx (bs "  a < b" ++ [x0a] ++ bs "c "), map b2z (bs "<b>"))
  /\ one_reference html (map b2z (bs "a &lt; b" ++ [x0d; x0a] ++ bs "c ")).
Proof.
  split; [vm_compute; reflexivity|]. right. exists (map b2z (bs "a ")), (map b2z (bs "lt")), (bs "<"), (map b2z (bs " b" ++ [x0d; x0a] ++ bs "c ")).
  split; [reflexivity|]. split; [cbn; intuition discriminate|]. split; [cbn; intuition discriminate|].
  split; [repeat constructor; unfold name_char; cbn; lia|reflexivity].
Qed.
Example C55_read_case : child_tok (bs " x } y{z}") = Some (T_JSX_TXT, XJsx (bs " x } y"), map b2z (bs "{z}")).
Proof. vm_compute. reflexivity. Qed.
Definition in_attribute (src : bytes) : lx := push_mode LM_JSX_ATTR true (new_lexer FEAT_JSX src).
Example C55_attribute_partial_case :
  match lex_tok ascii_uni html (in_attribute (bs " 'a\n""b' />")) with
  | Some (t, l') => t_val t = T_STRING /\ tok_text t (l_src l') = bs "a\n""b" /\ ahead l' = map b2z (bs " />") | None => False end.
Proof. vm_compute. repeat split. Qed.

(** Two references: the second is looked up under the name of the first. *)
Theorem C55_two_references_refuted :
  txt_value html (map b2z (bs "&lt;&gt;")) (bs "<>") /\
  child_tok (bs "&lt;&gt;</a>") = Some (T_JSX_TXT, XJsx (bs "<<"), map b2z (bs "</a>")) /\
  txt_value html (map b2z (bs "&amp;&lt;")) (bs "&<") /\
  exists e after, child_tok (bs "&amp;&lt;</a>") = Some (T_ILLEGAL, XErr e, after).
Proof.
  split; [apply (TV_ref html (map b2z (bs "lt")) (bs "<") (map b2z (bs "&gt;")) (bs ">")); [cbn; intuition discriminate|reflexivity|];
          apply (TV_ref html (map b2z (bs "gt")) (bs ">") [] []); [cbn; intuition discriminate|reflexivity|constructor]|].
  split; [vm_compute; reflexivity|].
  split; [apply (TV_ref html (map b2z (bs "amp")) (bs "&") (map b2z (bs "&lt;")) (bs "<")); [cbn; intuition discriminate|reflexivity|];
          apply (TV_ref html (map b2z (bs "lt")) (bs "<") [] []); [cbn; intuition discriminate|reflexivity|constructor]|].
  eexists _, _. vm_compute. reflexivity.
Qed.
Print Assumptions C55_two_references_refuted.

(** A lone [&] swallows the text after it. *)
Theorem C55_ampersand_refuted :
  txt_value html (map b2z (bs "a & b")) (bs "a & b") /\
  child_tok (bs "a & b</a>") = Some (T_JSX_TXT, XJsx (bs "a "), map b2z (bs "</a>")).
Proof.
  split; [|vm_compute; reflexivity].
  apply (TV_char html 97 _ (bs " & b")); [lia|lia|]. apply (TV_char html 32 _ (bs "& b")); [lia|lia|].
  apply (TV_amp html (map b2z (bs " b")) (bs " b")).
  - intros name after E _. exfalso. assert (In 59 (map b2z (bs " b"))) as G by (rewrite E; apply in_or_app; right; left; reflexivity).
    cbn in G. intuition discriminate.
  - apply (TV_char html 32 _ (bs "b")); [lia|lia|]. apply (TV_char html 98 _ []); [lia|lia|constructor].
Qed.
Print Assumptions C55_ampersand_refuted.

(** Line ends in the white space a text starts with are kept as they are. *)
Theorem C55_line_end_refuted :
  txt_value html (13 :: 10 :: map b2z (bs "a")) (x0a :: bs "a") /\
  child_tok ([x0d; x0a] ++ bs "a</a>") = Some (T_JSX_TXT, XJsx ([x0d; x0a] ++ bs "a"), map b2z (bs "</a>")).
Proof.
  split; [|vm_compute; reflexivity]. apply (TV_crlf html _ (bs "a")). apply (TV_char html 97 _ []); [lia|lia|constructor].
Qed.
Print Assumptions C55_line_end_refuted.

(** A [}] among children starts no text: it comes as a brace, and the lexer leaves the children. *)
Theorem C55_brace_refuted :
  txt_value html (map b2z (bs "}")) (bs "}") /\ child_tok (bs "}</a>") = Some (T_BRACE_R, XNone, map b2z (bs "</a>")).
Proof. split; [apply (TV_char html 125 _ []); [lia|lia|constructor]|vm_compute; reflexivity]. Qed.
Print Assumptions C55_brace_refuted.

(** In JSX a reference in the string of an attribute stands for its character too; here it does not. *)
Theorem C55_attribute_refuted :
  txt_value html (map b2z (bs "&lt;")) (bs "<") /\
  match lex_tok ascii_uni html (in_attribute (bs "'&lt;' />")) with
  | Some (t, l') => t_val t = T_STRING /\ tok_text t (l_src l') = bs "&lt;" | None => False end.
Proof.
  split; [apply (TV_ref html (map b2z (bs "lt")) (bs "<") [] []); [cbn; intuition discriminate|reflexivity|constructor]|].
  vm_compute. split; reflexivity.
Qed.
Print Assumptions C55_attribute_refuted.
