(** Which scanner a token comes from. *)
From Verif Require Import Base Utf8Model Utf8Proofs SourceModel SourceSpec SourceProofs TokenModel LexModel LexSpec LexProofs LexGapProofs.
From Coq Require Import ZifyBool ZifyNat ZifyN.
Local Open Scope Z_scope.

Definition same_tok (t t0 : token) : Prop :=
  t_val t = t_val t0 /\ t_lo t = t_lo t0 /\ t_hi t = t_hi t0 /\ t_text t = t_text t0 /\ t_txt t = t_txt t0
  /\ t_len t = t_len t0 /\ t_ext t = t_ext t0.

(** No JSX mode in force. *)
Definition no_jsx (l : lx) : Prop := is_mode l LM_JSX = false /\ is_mode l LM_JSX_CHILD = false /\ is_mode l LM_JSX_ATTR = false.

Section KindOf.
Variable U : uni.
(** ** Token values by scanner *)

Inductive vkind := KName | KPvt | KNum | KStr | KTpl | KRe | KSym | KEof | KCmt | KIllegal | KOther.
Definition kind_of (v : tv) : vkind :=
  match v with
  | T_NAME | T_AWAIT | T_BREAK | T_CASE | T_CATCH | T_CLASS | T_CONTINUE | T_DEBUGGER | T_DEFAULT | T_DO | T_ELSE | T_ENUM
  | T_EXPORT | T_EXTENDS | T_FINALLY | T_FOR | T_FUNC | T_IF | T_IMPORT | T_NEW | T_RETURN | T_SUPER | T_SWITCH | T_THIS
  | T_THROW | T_TRY | T_VAR | T_WHILE | T_WITH | T_VOID | T_NULL | T_TRUE | T_FALSE | T_TYPE_OF | T_DELETE | T_INSTANCE_OF
  | T_LET | T_CONST | T_STATIC | T_IMPLEMENTS | T_INTERFACE | T_PACKAGE | T_PRIVATE | T_PROTECTED | T_PUBLIC | T_YIELD => KName
  | T_NAME_PVT => KPvt
  | T_NUM => KNum
  | T_STRING => KStr
  | T_TPL_HEAD | T_TPL_SPAN | T_TPL_TAIL => KTpl
  | T_REGEXP => KRe
  | T_BRACE_L | T_BRACE_R | T_PAREN_L | T_PAREN_R | T_BRACKET_L | T_BRACKET_R | T_DOT | T_DOT_TRI | T_SEMI | T_COMMA | T_HOOK
  | T_COLON | T_INC | T_DEC | T_OPT_CHAIN | T_ARROW | T_NULLISH | T_LT | T_GT | T_LTE | T_GTE | T_EQ | T_NE | T_EQ_S | T_NE_S
  | T_LSH | T_RSH | T_RSH_U | T_BIT_OR | T_BIT_XOR | T_BIT_AND | T_OR | T_AND | T_ADD | T_SUB | T_MUL | T_DIV | T_MOD | T_POW
  | T_NOT | T_BIT_NOT | T_ASSIGN | T_ASSIGN_ADD | T_ASSIGN_SUB | T_ASSIGN_NULLISH | T_ASSIGN_OR | T_ASSIGN_AND | T_ASSIGN_BIT_OR
  | T_ASSIGN_BIT_XOR | T_ASSIGN_BIT_AND | T_ASSIGN_BIT_LSH | T_ASSIGN_BIT_RSH | T_ASSIGN_BIT_RSH_U | T_ASSIGN_MUL | T_ASSIGN_DIV
  | T_ASSIGN_MOD | T_ASSIGN_POW | T_AT => KSym
  | T_EOF => KEof
  | T_COMMENT => KCmt
  | T_ILLEGAL => KIllegal
  | _ => KOther
  end.
Definition kind_in (t : token) (ks : list vkind) : Prop := In (kind_of (t_val t)) ks.

Lemma keyword_kind : forall x v, keyword x = Some v -> kind_of v = KName.
Proof.
  intros x v H. apply find_kw_in in H. destruct H as [H _].
  assert (F : Forall (fun v => kind_of v = KName) keyword_list) by (repeat constructor).
  rewrite Forall_forall in F. auto.
Qed.
Lemma strict_keyword_kind : forall x v, strict_keyword x = Some v -> kind_of v = KName.
Proof.
  intros x v H. apply find_kw_in in H. destruct H as [H _].
  assert (F : Forall (fun v => kind_of v = KName) strict_keyword_list) by (repeat constructor).
  rewrite Forall_forall in F. auto.
Qed.

Ltac kk := first [discriminate | cbv [kind_in t_val fin_tok err_tok]; cbn [kind_of In]; tauto].

Lemma read_name_kind : forall feat strict async jsx s t s',
  read_name U feat strict async jsx s = Some (t, s') -> kind_in t [KName; KIllegal].
Proof.
  intros feat strict async jsx s t s' H. unfold read_name in H. destruct (read s) as [c0 s1].
  destruct (read_unicode_escape _ _ _ _) as [[[r e0] er] s2].
  destruct er as [[e o]|]; [inj; kk|].
  destruct (r =? RuneError); [inj; kk|].
  destruct (read_id_part U jsx s2) as [[[[idp e1] [[e o]|]] s3]|]; [inj; kk| |kk].
  destruct (keyword _) as [v|] eqn:Ek.
  { destruct (e0 || e1); inj; [kk|]. apply keyword_kind in Ek. cbv [kind_in t_val fin_tok]. rewrite Ek. left. reflexivity. }
  destruct (if strict then _ else _) as [v|] eqn:Es.
  { inj. destruct strict; [|kk]. apply strict_keyword_kind in Es. cbv [kind_in t_val fin_tok]. rewrite Es. left. reflexivity. }
  destruct (_ && _); [destruct (e0 || e1)|]; inj; kk.
Qed.
Lemma read_name_pvt_kind : forall feat strict async s t s',
  read_name_pvt U feat strict async s = Some (t, s') -> kind_in t [KName; KPvt; KIllegal].
Proof.
  intros feat strict async s t s' H. unfold read_name_pvt in H.
  destruct (negb _); [inj; kk|].
  destruct (read_name _ _ _ _ _ _) as [[t1 s2]|] eqn:En; [|kk]. apply read_name_kind in En.
  destruct (tv_eqb _ _); [destruct (has _ _)|]; inj; try kk. unfold kind_in in *. cbn [t_val] in *.
  destruct En as [<- | [<- | []]]; [left|right; right; left]; reflexivity.
Qed.
Lemma read_str_kind : forall feat tpl s t s', read_str U feat tpl s = Some (t, s') -> kind_in t [KStr; KIllegal].
Proof.
  intros feat tpl s t s' H. unfold read_str in H. destruct (read s).
  destruct (str_loop _ _ _ _ _ _ _ _ _) as [[[] ?]|]; inj; kk.
Qed.
Lemma num_end_kind : forall feat big s0 s t s', num_end U feat big s0 s = (t, s') -> kind_in t [KNum; KIllegal].
Proof.
  intros feat big s0 s t s' H. unfold num_end in H. destruct (if big then _ else _) as [[] ?]; [inj; kk|].
  destruct (is_id_start _ _); inj; kk.
Qed.
Lemma read_num_kind : forall feat strict s t s', read_num U feat strict s = (t, s') -> kind_in t [KNum; KIllegal].
Proof.
  intros feat strict s t s' H. unfold read_num in H. destruct (read s) as [c s1].
  assert (Hd : forall f, read_decimal_num U feat f s s1 = (t, s') -> kind_in t [KNum; KIllegal]).
  { clear H. intros f H. unfold read_decimal_num in H.
    destruct (dec_int _ _ _ _) as [[[]|] ?]; [inj; kk|].
    destruct (dec_frac _ _ _ _) as [[[[]|] ?] ?]; [inj; kk|].
    destruct (dec_exp _ _ _) as [[[[]|] ?] ?]; [inj; kk|]. eapply num_end_kind; eassumption. }
  assert (Ho : forall lg, read_octal_num U feat lg s s1 = (t, s') -> kind_in t [KNum; KIllegal]).
  { clear H. intros lg H. unfold read_octal_num in H. destruct (oct_loop _ _ _ _ _ _) as [[[[] ?] ?] ?]; [inj; kk|].
    destruct (_ =? _); [inj; kk|]. destruct (Nat.eqb _ _); [inj; kk|]. eapply num_end_kind; eassumption. }
  destruct (c =? 48); [|eapply Hd; eassumption].
  destruct (_ || _).
  { unfold read_binary_num in H. destruct (bin_loop _ _ _ _ _ _) as [[[[] ?] ?] ?]; [inj; kk|].
    destruct (_ =? _); [inj; kk|]. destruct (Nat.eqb _ _); [inj; kk|]. eapply num_end_kind; eassumption. }
  destruct (_ || _); [eapply Ho; eassumption|].
  destruct (_ || _).
  { unfold read_hex_num in H. destruct (hex_loop _ _ _ _ _) as [[[[] ?] ?] ?]; [inj; kk|].
    destruct (Nat.eqb _ _); [inj; kk|]. destruct (_ =? _); [inj; kk|]. eapply num_end_kind; eassumption. }
  destruct (is_digit _); [|eapply Hd; eassumption].
  destruct (is_octal _); [|inj; kk]. destruct strict; [inj; kk|eapply Ho; eassumption].
Qed.
Lemma read_regexp_kind : forall feat s0 s t s', read_regexp U feat s0 s = Some (t, s') -> kind_in t [KRe; KIllegal].
Proof.
  intros feat s0 s t s' H. unfold read_regexp in H.
  destruct (re_loop _ _ _ _ _ _ _) as [[[t1|] s1]|] eqn:E; [| |kk].
  - apply re_loop_adv in E. destruct E as [_ E]. inj. unfold kind_in. rewrite E. kk.
  - match type of H with (match ?x with _ => _ end) = _ => destruct x as [[[[? ?] [[]|]] ?]|] end; try (inj; kk).
    destruct (_ && _); inj; kk.
Qed.
Lemma read_tpl_span_kind : forall l t l', read_tpl_span U l = Some (t, l') -> kind_in t [KTpl; KIllegal].
Proof.
  intros l t l' H. unfold read_tpl_span in H. destruct (read _) as [c s1].
  destruct (tpl_loop _ _ _ _ _ _) as [[p s2]|]; [|kk]. destruct (tp_err p); inj; [kk|].
  cbv [kind_in t_val fin_tok]. destruct (c =? 96); [|destruct (tp_fin p)]; kk.
Qed.
Lemma sym_plain_kind : forall ts ta c s v s', sym_plain ts ta c s = Some (v, s') -> kind_of v = KSym.
Proof.
  intros ts ta c s v s' H. unfold sym_plain in H.
  repeat match type of H with
    | (if ?b then _ else _) = _ => destruct b
    | Some (if ?b then _ else _) = _ => destruct b
    | Some (let _ := _ in _) = _ => cbn zeta in H
    | Some _ = Some _ => injection H; clear H; intros; subst
    end; try reflexivity; discriminate.
Qed.
Lemma read_symbol_kind : forall l t l', read_symbol U l = Some (t, l') -> kind_in t [KSym; KRe; KCmt; KIllegal].
Proof.
  intros l t l' H. unfold read_symbol in H. destruct (read (l_src l)) as [c s1].
  destruct (c =? 60).
  { destruct (ahead_is_ch s1 61); [inj; kk|]. destruct (ahead_is_ch s1 60); [|inj; kk].
    destruct (_ && _); [|destruct (ahead_is_ch _ 61); inj; kk].
    destruct (mem_nat _ _); [inj; kk|]. destruct (negb _); inj; kk. }
  destruct (c =? 47).
  { destruct (ahead_is_ch s1 47); [unfold read_single_cmt in H; inj; kk|].
    destruct (ahead_is_ch s1 42).
    { unfold read_multi_cmt in H. destruct (mcmt_loop _ _ _) as [[[[] ?] ?]|]; inj; kk. }
    destruct (ahead_is_regexp l).
    { destruct (read_regexp _ _ _ _) as [[t1 s2]|] eqn:Er; [|discriminate]. inj. apply read_regexp_kind in Er.
      unfold kind_in in *. cbn [In] in *. tauto. }
    destruct (ahead_is_ch s1 61); inj; kk. }
  destruct (c =? 64); [inj; destruct (has _ _); kk|].
  destruct (sym_plain _ _ _ _) as [[v s2]|] eqn:Ep; [|inj; kk].
  apply sym_plain_kind in Ep. destruct (sym_allowed _ _); inj; [|kk].
  cbv [kind_in t_val fin_tok]. rewrite Ep. left. reflexivity.
Qed.

End KindOf.

Section Kind.
Variable U : uni.
Variable entity : bytes -> option bytes.

(** Outside JSX the first character [peek s] decides. *)
Inductive read_by (l : lx) (s : source) (t : token) (l' : lx) : Prop :=
| rb_eof : s_raw (st s) = [] -> t = fin_tok s s T_EOF [] (0%nat, 0%nat) XNone -> l_src l' = s -> l_modes l' = l_modes l -> read_by l s t l'
| rb_name : is_id_start U (peek s) = true ->
    read_name U (l_feat l) (is_mode l LM_STRICT) (is_mode l LM_ASYNC) false s = Some (t, l_src l') -> l_modes l' = l_modes l -> read_by l s t l'
| rb_num : is_id_start U (peek s) = false -> ahead_is_num_start s = true ->
    read_num U (l_feat l) (is_mode l LM_STRICT) s = (t, l_src l') -> l_modes l' = l_modes l -> read_by l s t l'
| rb_str : peek s = 39 \/ peek s = 34 ->
    read_str U (l_feat l) (is_mode l LM_TEMPLATE) s = Some (t, l_src l') -> l_modes l' = l_modes l -> read_by l s t l'
| rb_tpl : forall l1, peek s = 96 \/ (is_mode l LM_TEMPLATE = true /\ peek s = 125) -> l_src l1 = s -> l_modes l1 = l_modes l ->
    l_feat l1 = l_feat l -> read_tpl_span U l1 = Some (t, l') -> read_by l s t l'
| rb_pvt : peek s = 35 -> read_name_pvt U (l_feat l) (is_mode l LM_STRICT) (is_mode l LM_ASYNC) s = Some (t, l_src l') ->
    l_modes l' = l_modes l -> read_by l s t l'
| rb_sym : forall l1, is_id_start U (peek s) = false -> ahead_is_num_start s = false -> peek s <> 39 -> peek s <> 34 -> peek s <> 96 ->
    (is_mode l LM_TEMPLATE = true -> peek s <> 125) -> peek s <> 35 -> s_raw (st s) <> [] ->
    l_src l1 = s -> l_modes l1 = l_modes l -> l_prt l1 = l_prt l -> l_begin l1 = l_begin l -> l_feat l1 = l_feat l ->
    l_maybe_lsh l1 = l_maybe_lsh l -> l_lsh l1 = l_lsh l ->
    read_symbol U l1 = Some (t, l') -> read_by l s t l'.

Lemma is_mode_modes : forall a b k, l_modes a = l_modes b -> is_mode a k = is_mode b k.
Proof. intros a b k H. unfold is_mode, cur_mode. rewrite H. reflexivity. Qed.
Lemma lx_skip_space_lsh : forall l, l_maybe_lsh (lx_skip_space l) = l_maybe_lsh l /\ l_lsh (lx_skip_space l) = l_lsh l.
Proof. intros l. unfold lx_skip_space. destruct (negb _); split; reflexivity. Qed.

Lemma read_tok_cmt_by : forall l t l', src_ok (l_src l) -> no_jsx l -> read_tok_cmt U entity l = Some (t, l') ->
  read_by l (skip_space (l_src l)) t l'.
Proof.
  intros l t l' Hok [J1 [J2 J3]] H. unfold read_tok_cmt in H.
  destruct (lx_skip_space_src l) as [E1 [E2 [E3 [E4 E5]]]]. destruct (lx_skip_space_lsh l) as [E6 E7].
  rewrite E1, E4, !lx_skip_space_mode in H. rewrite J1, J2, J3 in H. cbn [orb] in H.
  set (l1 := lx_skip_space l) in *. set (s := skip_space (l_src l)) in *.
  assert (Hoks : src_ok s) by (apply skip_space_facts; assumption).
  destruct (ahead_is_eof s) eqn:Ee.
  { apply eof_raw in Ee; [|assumption]. inj. eapply rb_eof; eauto. }
  assert (Hne : s_raw (st s) <> []) by (intros G; apply eof_raw in G; [congruence|assumption]).
  destruct (is_id_start U (peek s)) eqn:C1.
  { destruct (read_name _ _ _ _ _ _) as [[t1 s2]|] eqn:Ec; [|discriminate]. inj. apply rb_name; assumption. }
  destruct (ahead_is_num_start s) eqn:C2.
  { destruct (read_num _ _ _ _) as [t1 s2] eqn:Ec. inj. apply rb_num; assumption. }
  destruct ((peek s =? 39) || (peek s =? 34)) eqn:C3.
  { destruct (read_str _ _ _ _) as [[t1 s2]|] eqn:Ec; [|discriminate]. inj. apply rb_str; [lia|assumption|assumption]. }
  destruct ((peek s =? 96) || is_mode l LM_TEMPLATE && (peek s =? 125)) eqn:C4.
  { eapply rb_tpl; [| | | |exact H]; try assumption. apply Bool.orb_true_iff in C4. destruct C4 as [C4|C4]; [left; lia|right].
    apply andb_prop in C4. split; [apply C4|lia]. }
  destruct (peek s =? 35) eqn:C5.
  { destruct (read_name_pvt _ _ _ _ _) as [[t1 s2]|] eqn:Ec; [|discriminate]. inj. apply rb_pvt; [lia|assumption|assumption]. }
  eapply (rb_sym l s t l' l1); try assumption; try lia.
Qed.

(** The last round of the token loop. *)
Lemma lex_loop_last : forall n l prt atm pext t l', src_ok (l_src l) -> ws_ok l -> uni_ok U ->
  lex_loop U entity n l prt atm pext = Some (t, l') ->
  exists l1 t0, read_tok_cmt U entity l1 = Some (t0, l') /\ same_tok t t0 /\ t_val t0 <> T_COMMENT
    /\ l_modes l1 = l_modes l /\ l_feat l1 = l_feat l /\ l_prt l1 = l_prt l
    /\ l_begin l1 = l_begin l /\ l_maybe_lsh l1 = l_maybe_lsh l /\ l_lsh l1 = l_lsh l
    /\ src_ok (l_src l1) /\ code (l_src l1) = code (l_src l) /\ ws_ok l1
    /\ exists cs, rest (l_src l) = gap_text (cs, []) ++ rest (l_src l1) /\ gap_wf cs [] (rest (l_src l1)).
Proof.
  induction n as [|n IH]; intros l prt atm pext t l' Hok Hws HU H; cbn [lex_loop] in H; [discriminate|].
  destruct (read_tok_cmt U entity l) as [[t1 l1]|] eqn:Er; [|discriminate].
  destruct (tv_eqb (t_val t1) T_COMMENT) eqn:Ec; cbn [negb] in H.
  - apply tv_eqb_spec in Ec.
    pose proof (read_tok_cmt_cmt U entity l t1 l1 Er Ec) as [[c [C1 [C2 [C3 C4]]]] [CM [CP CL]]].
    pose proof (read_tok_cmt_ok U entity HU l t1 l1 Hok Hws Er) as [S1 [S2 [S3 S4]]].
    destruct (skip_space_gap (l_src l)) as [w [W1 [W2 [W3 W4]]]].
    destruct (lx_skip_space_src l) as [E1 [E2 [E3 [E4 E5]]]]. destruct (lx_skip_space_lsh l) as [E6 E7].
    destruct (adv_facts _ _ S1) as [A1 [A2 [A3 [_ [_ A6]]]]].
    destruct (skip_space_facts (l_src l)) as [K1 [K2 [K3 [K4 K5]]]]. specialize (K4 Hok).
    assert (L : l_begin l1 = l_begin l /\ l_maybe_lsh l1 = l_maybe_lsh l /\ l_lsh l1 = l_lsh l).
    { rewrite CL. split; [exact E5|]. split; [exact E6|exact E7]. }
    match type of H with lex_loop _ _ _ (add_cmt _ ?b ?r) _ _ _ = _ => destruct (add_cmt_facts l1 b r) as [F1 [F2 [F3 F4]]];
      assert (F5 : l_prt (add_cmt l1 b r) = l_prt l1 /\ l_begin (add_cmt l1 b r) = l_begin l1
         /\ l_maybe_lsh (add_cmt l1 b r) = l_maybe_lsh l1 /\ l_lsh (add_cmt l1 b r) = l_lsh l1) by (destruct b; repeat split) end.
    apply IH in H; [|rewrite F1; auto|unfold ws_ok in *; rewrite F2, F3; exact S3|exact HU].
    destruct H as [l3 [t3 [R1 [R2 [R3 [R4 [R5 [R6 [R7 [R8 [R9 [R10 [R11 [R12 [cs [R13 R14]]]]]]]]]]]]]]]].
    destruct F5 as [F5 [F6 [F7 F8]]]. destruct L as [L1 [L2 L3]].
    exists l3, t3. repeat match goal with |- _ /\ _ => split end; try assumption; try congruence.
    rewrite F1 in R13. exists ((w, c) :: cs). split; [rewrite gap_text_cons, W1, C1, R13, <- !app_assoc; reflexivity|].
    cbn [gap_wf]. split; [exact W2|]. split; [rewrite <- R13; exact C2|exact R14].
  - exists l, t1. assert (Hv : same_tok t t1 /\ l' = l1).
    { injection H as <- <-. destruct (negb (t_atl t1) && prt && pext); repeat split. }
    destruct Hv as [Hv ->]. split; [exact Er|]. split; [exact Hv|]. split; [intros G; rewrite G in Ec; discriminate|].
    repeat match goal with |- _ /\ _ => split end; try reflexivity; try assumption.
    exists []. split; [reflexivity|constructor].
Qed.

(** ** Delivery: the gap, then one scanner *)

(** [delivers l s l1 t l']: the lexer [l] skips white space and comments up to [s] and reads [t] there. *)
Definition delivers (l : lx) (s : source) (t : token) (l' : lx) : Prop :=
  src_ok s /\ code s = code (l_src l)
  /\ (exists cs ws, rest (l_src l) = gap_text (cs, ws) ++ rest s /\ gap_wf cs ws (rest s))
  /\ exists l1 t0, l_modes l1 = l_modes l /\ l_feat l1 = l_feat l /\ l_prt l1 = l_prt l /\ l_begin l1 = l_begin l
     /\ l_maybe_lsh l1 = l_maybe_lsh l /\ l_lsh l1 = l_lsh l /\ same_tok t t0 /\ read_by l1 s t0 l'.

Lemma gap_wf_ws : forall cs ws after, gap_wf cs [] (ws ++ after) -> Forall (fun r => is_space r = true) ws -> gap_wf cs ws after.
Proof.
  induction cs as [|[w c] cs IH]; intros ws after H1 H2; cbn [gap_wf] in *; [exact H2|].
  destruct H1 as [A [B C]]. split; [exact A|]. split; [|apply IH; assumption].
  unfold gap_text in *. cbn [fst snd] in *. rewrite app_nil_r in B. rewrite <- app_assoc. exact B.
Qed.

Theorem lex_tok_delivers : forall l t l', src_ok (l_src l) -> ws_ok l -> uni_ok U -> no_jsx l ->
  lex_tok U entity l = Some (t, l') -> exists s, delivers l s t l'.
Proof.
  intros l t l' Hok Hws HU [J1 [J2 J3]] H. unfold lex_tok in H. apply lex_loop_last in H; try assumption.
  destruct H as [l1 [t0 [R1 [R2 [R3 [R4 [R5 [R6 [R7 [R8 [R9 [R10 [R11 [R12 [cs [R13 R14]]]]]]]]]]]]]]]].
  apply read_tok_cmt_by in R1; [|assumption|unfold no_jsx; rewrite !(is_mode_modes l1 l) by assumption; repeat split; assumption].
  exists (skip_space (l_src l1)). destruct (skip_space_gap (l_src l1)) as [w [W1 [W2 [W3 W4]]]].
  destruct (skip_space_facts (l_src l1)) as [K1 [K2 [K3 [K4 K5]]]].
  split; [auto|]. split; [congruence|]. split.
  - exists cs, w. split.
    + rewrite R13, W1. unfold gap_text. cbn [fst snd]. rewrite app_nil_r, <- app_assoc. reflexivity.
    + apply gap_wf_ws; [rewrite <- W1; exact R14|exact W2].
  - exists l1, t0. tauto.
Qed.

End Kind.
