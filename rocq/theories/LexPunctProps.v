(** C25: punctuators. *)
From Verif Require Import Base Utf8Model Utf8Proofs SourceModel SourceSpec SourceProofs TokenModel LexModel LexSpec LexProofs LexGapProofs LexKindProofs LexStrProofs LexProps LexStrProps LexTokSpec LexPunctProofs.
From Coq Require Import ZifyBool ZifyNat ZifyN.
Local Open Scope Z_scope.
Local Arguments is_digit : simpl never.

Lemma punct_fun : forall p v v', In (p, v) punctuators -> In (p, v') punctuators -> v = v'.
Proof.
  intros p v v' H1 H2.
  assert (F : Forall (fun a : list rune * tv => Forall (fun b : list rune * tv => fst a = fst b -> snd a = snd b) punctuators) punctuators).
  { apply Forall_forall. intros a Ha. apply Forall_forall. intros b Hb.
    assert (G : forallb (fun a : list rune * tv => forallb (fun b : list rune * tv =>
       implb (if list_eq_dec Z.eq_dec (fst a) (fst b) then true else false) (tv_eqb (snd a) (snd b))) punctuators) punctuators = true) by (vm_compute; reflexivity).
    rewrite forallb_forall in G. specialize (G a Ha). rewrite forallb_forall in G. specialize (G b Hb). intros E.
    destruct (list_eq_dec Z.eq_dec (fst a) (fst b)); [|congruence]. cbn [implb] in G. apply tv_eqb_spec. exact G. }
  rewrite Forall_forall in F. specialize (F _ H1). rewrite Forall_forall in F. apply (F _ H2). reflexivity.
Qed.
Lemma longest_unique : forall p v after p' v' after', longest_punct p v after -> longest_punct p' v' after' ->
  p ++ after = p' ++ after' -> p = p' /\ v = v' /\ after = after'.
Proof.
  intros p v after p' v' after' [H1 H2] [H3 H4] E.
  assert (L1 := H2 _ _ _ (eq_sym E) H3). assert (L2 := H4 _ _ _ E H1).
  assert (Ep : p = p' /\ after = after').
  { assert (L : length p = length p') by lia. clear -E L. revert p' L E. induction p as [|a p IH]; intros [|b p'] L E; cbn in *; try lia; [auto|].
    injection E as -> E. destruct (IH p') as [-> ->]; [lia|assumption|auto]. }
  destruct Ep as [-> ->]. split; [reflexivity|]. split; [|reflexivity]. destruct H1, H3. eapply punct_fun; eassumption.
Qed.

Section Sym.
Variable U : uni.

Definition no_ts (l : lx) : Prop := is_mode l LM_TS = false /\ is_mode l LM_TS_TYP_ARG = false.

Lemma read_symbol_sound : forall l t l', no_ts l -> read_symbol U l = Some (t, l') -> kind_of (t_val t) = KSym ->
  exists p, p <> [] /\ rest (l_src l) = p ++ rest (l_src l') /\ longest_punct p (t_val t) (rest (l_src l')).
Proof.
  intros l t l' [T1 T2] H Hk. unfold read_symbol in H. rewrite T1, T2 in H. cbn [orb andb] in H.
  destruct (read (l_src l)) as [c s1] eqn:Er. rewrite Bool.andb_false_r in H.
  assert (Hgo : forall v s2, 32 < c -> sym_ok c s1 v s2 -> exists p, p <> [] /\ rest (l_src l) = p ++ rest s2 /\ longest_punct p v (rest s2)).
  { intros v s2 Hc [p [P1 P2]]. exists (c :: p). split; [discriminate|]. split; [|exact P2].
    pose proof (read_fst (l_src l)) as F. rewrite Er in F. cbn [fst] in F.
    match type of F with _ = (if ?b then _ else _) => destruct b eqn:E; [lia|] end.
    destruct (peek_inv (l_src l) c) as [rs Hrs]; [congruence|unfold EOF; lia|].
    destruct (read_one (l_src l) c rs Hrs) as [s1' [E1 [E2 _]]]; [lia|]. rewrite Er in E1. injection E1 as <-.
    rewrite Hrs, <- E2, P1. reflexivity. }
  destruct (c =? 60) eqn:C60.
  { assert (c = 60) by lia. subst c.
    destruct (ahead_is_ch s1 61) eqn:E1; [inj; cbn [l_src set_src t_val fin_tok]; apply Hgo; [lia|]; sym [61]|].
    destruct (ahead_is_ch s1 60) eqn:E2; [|inj; cbn [l_src set_src t_val fin_tok]; apply Hgo; [lia|]; sym (@nil Z)].
    destruct (ahead_is_ch (rd s1) 61) eqn:E3; inj; cbn [l_src set_src t_val fin_tok]; apply Hgo; try lia; [sym [60; 61]|sym [60]]. }
  destruct (c =? 47) eqn:C47.
  { assert (c = 47) by lia. subst c.
    destruct (ahead_is_ch s1 47) eqn:E1; [unfold read_single_cmt in H; inj; discriminate Hk|].
    destruct (ahead_is_ch s1 42) eqn:E2.
    { unfold read_multi_cmt in H. destruct (mcmt_loop _ _ _) as [[[[] ?] ?]|]; inj; discriminate Hk. }
    destruct (ahead_is_regexp l).
    { destruct (read_regexp _ _ _ _) as [[t1 s2]|] eqn:Ere; [|discriminate]. inj. apply read_regexp_kind in Ere.
      destruct Ere as [K|[K|[]]]; congruence. }
    destruct (ahead_is_ch s1 61) eqn:E3; inj; cbn [l_src set_src t_val fin_tok]; apply Hgo; try lia; [sym [61]|sym (@nil Z)]. }
  destruct (c =? 64) eqn:C64.
  { assert (c = 64) by lia. subst c. inj. destruct (has _ _); [|discriminate Hk]. cbn [l_src set_src t_val fin_tok]. apply Hgo; [lia|]. sym (@nil Z). }
  destruct (sym_plain _ _ _ _) as [[v s2]|] eqn:Ep; [|inj; discriminate Hk].
  assert (Hc : 32 < c). { unfold sym_plain in Ep. repeat match type of Ep with (if ?b then _ else _) = _ => destruct b eqn:?; [lia|] end. discriminate. }
  apply sym_plain_sound in Ep.
  destruct (sym_allowed _ v); inj; [|discriminate Hk]. cbn [t_val fin_tok].
  destruct v; apply Hgo; assumption.
Qed.

Lemma read_symbol_complete : forall l p v after, no_ts l -> src_ok (l_src l) -> rest (l_src l) = p ++ after -> longest_punct p v after ->
  (v = T_DIV \/ v = T_ASSIGN_DIV -> ahead_is_regexp l = false /\ hd 0 after <> 47 /\ hd 0 after <> 42) ->
  exists t l', read_symbol U l = Some (t, l') /\
   ((t_val t = v /\ rest (l_src l') = after) \/
    (t_val t = T_ILLEGAL /\ (sym_allowed (l_feat l) v = false \/ (v = T_AT /\ has (l_feat l) FEAT_DECORATOR = false)))).
Proof.
  intros l p v after HT Hok Hr Hlp Hdiv.
  assert (Hlp' := Hlp). destruct Hlp as [[Hin Hopt] Hmax].
  assert (Hp : exists c q, p = c :: q /\ 32 < c < 128).
  { clear -Hin. assert (F : Forall (fun pv : list rune * tv => exists c q, fst pv = c :: q /\ 32 < c < 128) punctuators).
    { repeat (constructor; [cbn; eexists; eexists; split; [reflexivity|lia]|]). constructor. }
    rewrite Forall_forall in F. apply (F _ Hin). }
  destruct Hp as [c [q [-> Hc]]]. cbn [app] in Hr.
  assert (Hrd : read (l_src l) = (c, rd (l_src l))).
  { destruct (read_one _ _ _ Hr) as [s1 [E _]]; [lia|]. unfold rd. rewrite E. reflexivity. }
  assert (Hr1 : rest (rd (l_src l)) = q ++ after) by (eapply rd_rest; [exact Hr|lia]).
  (* a punctuator token is the right one *)
  assert (Hgood : forall t l', read_symbol U l = Some (t, l') -> kind_of (t_val t) = KSym -> t_val t = v /\ rest (l_src l') = after).
  { intros t l' H Hk. destruct (read_symbol_sound l t l' HT H Hk) as [p' [_ [P1 P2]]].
    assert (E : (c :: q) ++ after = p' ++ rest (l_src l')) by (cbn [app]; congruence).
    destruct (longest_unique _ _ _ _ _ _ Hlp' P2 E) as [_ [<- <-]]. auto. }
  assert (Hcase : exists t l', read_symbol U l = Some (t, l') /\ (kind_of (t_val t) = KSym \/
     (t_val t = T_ILLEGAL /\ (sym_allowed (l_feat l) v = false \/ (v = T_AT /\ has (l_feat l) FEAT_DECORATOR = false))))).
  2:{ destruct Hcase as [t [l' [H [K|K]]]]; exists t, l'; (split; [exact H|]); [left; apply Hgood; assumption|right; exact K]. }
  clear Hgood. destruct HT as [T1 T2].
  unfold read_symbol. rewrite Hrd, T1, T2. cbn [orb]. rewrite Bool.andb_false_r. set (s1 := rd (l_src l)) in *.
  destruct (c =? 60) eqn:C60.
  { destruct (ahead_is_ch s1 61); [eexists; eexists; split; [reflexivity|left; reflexivity]|].
    destruct (ahead_is_ch s1 60); [|eexists; eexists; split; [reflexivity|left; reflexivity]].
    destruct (ahead_is_ch (rd s1) 61); eexists; eexists; (split; [reflexivity|left; reflexivity]). }
  destruct (c =? 47) eqn:C47.
  { assert (c = 47) by lia. subst c.
    assert (Hq : (q = [] /\ v = T_DIV) \/ (q = [61] /\ v = T_ASSIGN_DIV)).
    { clear -Hin. unfold punctuators in Hin. cbn in Hin.
      repeat (destruct Hin as [Hin|Hin]; [first [discriminate Hin | injection Hin as <- <-; tauto]|]). contradiction. }
    destruct Hdiv as [D1 [D2 D3]]; [tauto|]. rewrite D1.
    assert (Hpk : peek s1 <> 47 /\ peek s1 <> 42).
    { rewrite peek_rest, Hr1. destruct Hq as [[-> _]|[-> _]]; cbn [app hd]; [|lia].
      destruct after as [|x after]; cbn [hd] in *; [unfold EOF; lia|lia]. }
    unfold ahead_is_ch. replace (peek s1 =? 47) with false by lia. replace (peek s1 =? 42) with false by lia.
    destruct (peek s1 =? 61); eexists; eexists; (split; [reflexivity|left; reflexivity]). }
  destruct (c =? 64) eqn:C64.
  { assert (c = 64) by lia. subst c. eexists. eexists. split; [reflexivity|]. destruct (has (l_feat l) FEAT_DECORATOR) eqn:Ed; [left; reflexivity|].
    right. split; [reflexivity|]. right. split; [|reflexivity]. clear -Hin. unfold punctuators in Hin. cbn in Hin.
    repeat (destruct Hin as [Hin|Hin]; [first [discriminate Hin | injection Hin as <- <-; reflexivity]|]). contradiction. }
  destruct (sym_plain _ _ _ _) as [[v' s2]|] eqn:Ep.
  - pose proof (sym_plain_kind _ _ _ _ _ _ Ep) as Hk. apply sym_plain_sound in Ep. destruct Ep as [p' [P1 P2]].
    assert (E : (c :: q) ++ after = (c :: p') ++ rest s2) by (cbn [app]; congruence).
    destruct (longest_unique _ _ _ _ _ _ Hlp' P2 E) as [_ [<- _]].
    destruct (sym_allowed (l_feat l) v) eqn:Ea; eexists; eexists; (split; [reflexivity|]); [left; exact Hk|right].
    split; [reflexivity|left; reflexivity].
  - exfalso. eapply (sym_plain_none _ _ _ _ Ep); [lia|lia|lia|exact Hin].
Qed.
End Sym.

Lemma punct_kind : forall v, In v (map snd punctuators) -> kind_of v = KSym.
Proof.
  intros v H. assert (F : Forall (fun v => kind_of v = KSym) (map snd punctuators)) by (repeat constructor).
  rewrite Forall_forall in F. auto.
Qed.

Lemma read_by_sym : forall U l s t l', read_by U l s t l' -> kind_of (t_val t) = KSym ->
  exists l1, l_src l1 = s /\ l_modes l1 = l_modes l /\ read_symbol U l1 = Some (t, l').
Proof.
  intros U l s t l' H Hv.
  assert (W : forall ks, kind_in t ks -> ~ In KSym ks -> False) by (intros ks K1 K2; unfold kind_in in K1; rewrite Hv in K1; contradiction).
  destruct H.
  - subst t. discriminate.
  - exfalso. eapply W; [eapply read_name_kind; eassumption|cbn; intuition discriminate].
  - exfalso. eapply W; [eapply read_num_kind; eassumption|cbn; intuition discriminate].
  - exfalso. eapply W; [eapply read_str_kind; eassumption|cbn; intuition discriminate].
  - exfalso. eapply W; [eapply read_tpl_span_kind; eassumption|cbn; intuition discriminate].
  - exfalso. eapply W; [eapply read_name_pvt_kind; eassumption|cbn; intuition discriminate].
  - exists l1. tauto.
Qed.

(** ** C25 *)

(** A punctuator token is, after white space and comments, the longest punctuator of the text ahead;
    the text after the token is what follows it.  Outside JSX, and outside TypeScript where the lexer
    splits shift operators on purpose. *)
Theorem C25_longest_match : forall U entity feat c l t l', uni_ok U -> lexer_at feat c l -> no_jsx l -> no_ts l ->
  lex_tok U entity l = Some (t, l') -> In (t_val t) (map snd punctuators) ->
  exists cs ws p, ahead l = gap_text (cs, ws) ++ p ++ ahead l' /\ gap_wf cs ws (p ++ ahead l')
    /\ p <> [] /\ longest_punct p (t_val t) (ahead l').
Proof.
  intros U entity feat c l t l' HU [H1 [H2 [H3 H4]]] HJ [T1 T2] H Hv. apply punct_kind in Hv.
  apply lex_tok_delivers in H; try assumption. destruct H as [s [Hs [_ [[cs [ws [G1 G2]]] [l1 [t0 [M1 [M2 [_ [_ [_ [_ [Ht Hby]]]]]]]]]]]]].
  destruct Ht as [E _]. rewrite E in *. destruct (read_by_sym U _ _ _ _ Hby Hv) as [l2 [E1 [E2 E3]]].
  assert (HT : no_ts l2) by (unfold no_ts; rewrite !(is_mode_modes l2 l) by congruence; auto).
  destruct (read_symbol_sound U l2 t0 l' HT E3 Hv) as [p [P0 [P1 P2]]]. rewrite E1 in P1.
  exists cs, ws, p. unfold ahead. fold (rest (l_src l)) (rest (l_src l')). rewrite G1, P1. rewrite P1 in G2. auto.
Qed.
Print Assumptions C25_longest_match.

Lemma punct_first : forall p v, In (p, v) punctuators -> forall U, uni_ok U ->
  exists c q, p = c :: q /\ 32 < c < 128 /\ is_id_start U c = false /\ is_digit c = false /\ c <> 39 /\ c <> 34 /\ c <> 96 /\ c <> 35 /\ is_space c = false.
Proof.
  intros p v Hin U HU.
  assert (F : Forall (fun pv : list rune * tv => exists c q, fst pv = c :: q /\ 32 < c < 128 /\ (c < 48 \/ (57 < c < 65) \/ (90 < c < 95) \/ (122 < c))
     /\ c <> 92 /\ c <> 36 /\ c <> 39 /\ c <> 34 /\ c <> 96 /\ c <> 35) punctuators).
  { repeat (constructor; [cbn; eexists; eexists; split; [reflexivity|lia]|]). constructor. }
  rewrite Forall_forall in F. destruct (F _ Hin) as [c [q [E K]]]. cbn [fst] in E. exists c, q. split; [exact E|].
  split; [lia|]. split; [|split; [unfold is_digit; lia|]; split; [lia|]; split; [lia|]; split; [lia|]; split; [lia|]; unfold is_space, in_rng; lia].
  unfold is_id_start. pose proof (HU c) as G. destruct (u_start U c) eqn:Eu; [specialize (G eq_refl); lia|].
  destruct (u_lo U c); [specialize (G eq_refl); lia|].
  match goal with |- (if ?b then _ else _) = _ => destruct b eqn:Eb end; [lia|reflexivity].
Qed.

Lemma dot_first : forall q v, In (46 :: q, v) punctuators -> (q = [] /\ v = T_DOT) \/ (exists y q', q = y :: q' /\ y = 46).
Proof.
  intros q v Hin. unfold punctuators in Hin. cbn in Hin.
  repeat (destruct Hin as [Hin|Hin]; [first [discriminate Hin | injection Hin as <- <-;
    first [left; split; reflexivity | right; eexists; eexists; split; reflexivity]]|]). contradiction.
Qed.
Lemma brace_first : forall q v, In (125 :: q, v) punctuators -> v = T_BRACE_R.
Proof.
  intros q v Hin. unfold punctuators in Hin. cbn in Hin.
  repeat (destruct Hin as [Hin|Hin]; [first [discriminate Hin | injection Hin as <- <-; reflexivity]|]). contradiction.
Qed.

(** Where a punctuator starts, and no comment, no regular expression, no number and no template part
    does, the lexer delivers the longest one; it reports an error only when the punctuator belongs to
    a language feature that is switched off. *)
Theorem C25_recognised : forall U entity feat c l p v after, uni_ok U -> lexer_at feat c l -> no_jsx l -> no_ts l ->
  ahead l = p ++ after -> longest_punct p v after ->
  (v = T_DIV \/ v = T_ASSIGN_DIV -> ahead_is_regexp l = false /\ hd 0 after <> 47 /\ hd 0 after <> 42) ->
  (v = T_DOT -> ~ digit (hd 0 after)) -> (v = T_BRACE_R -> is_mode l LM_TEMPLATE = false) ->
  exists t l', lex_tok U entity l = Some (t, l') /\
   ((t_val t = v /\ ahead l' = after) \/
    (t_val t = T_ILLEGAL /\ (sym_allowed feat v = false \/ (v = T_AT /\ has feat FEAT_DECORATOR = false)))).
Proof.
  intros U entity feat c l p v after HU [H1 [H2 [H3 H4]]] [J1 [J2 J3]] [T1 T2] Hr Hlp Hdiv Hdot Hbr.
  unfold ahead in Hr. fold (rest (l_src l)) in Hr.
  destruct Hlp as [[Hin Hopt] Hmax]. destruct (punct_first p v Hin U HU) as [x [q [-> [K1 [K2 [K3 [K4 [K5 [K6 [K7 K8]]]]]]]]]].
  destruct (skip_space_facts (l_src l)) as [_ [_ [_ [Hok _]]]]. specialize (Hok H1).
  assert (Hr' := Hr). rewrite <- (skip_space_start _ _ _ Hr K8) in Hr'.
  destruct (lx_skip_space_src l) as [E1 [E2 [E3 [E4 E5]]]]. set (l1 := lx_skip_space l) in *.
  assert (Hre : ahead_is_regexp l1 = ahead_is_regexp l).
  { unfold ahead_is_regexp. rewrite !(is_mode_modes l1 l) by assumption. rewrite E3, E5. reflexivity. }
  assert (HT : no_ts l1) by (unfold no_ts; rewrite !(is_mode_modes l1 l) by assumption; auto).
  assert (Hok1 : src_ok (l_src l1)) by (rewrite E1; exact Hok).
  assert (Hr1 : rest (l_src l1) = (x :: q) ++ after) by (rewrite E1; exact Hr').
  rewrite <- Hre in Hdiv.
  destruct (read_symbol_complete U l1 (x :: q) v after HT Hok1 Hr1 (conj (conj Hin Hopt) Hmax) Hdiv) as [t [l' [R1 R2]]].
  exists t, l'. rewrite E4, H3 in R2. split; [|exact R2].
  apply lex_tok_first.
  - unfold read_tok_cmt. fold l1. rewrite E1 in *. set (s := skip_space (l_src l)) in *.
    rewrite !(is_mode_modes l1 l) by assumption. rewrite J1, J2.
    assert (He : ahead_is_eof s = false).
    { destruct (ahead_is_eof s) eqn:E; [|reflexivity]. apply eof_raw in E; [|assumption]. apply rest_nil_iff in E. rewrite E in Hr'. discriminate. }
    assert (Hp : peek s = x) by (apply (peek_cons _ _ _ Hr')).
    rewrite He, Hp, K2. cbn [orb]. unfold ahead_is_num_start. rewrite Hp, K3. cbn [orb].
    assert (Hn : (x =? 46) && is_digit (ahead2nd s) = false).
    { destruct (x =? 46) eqn:Ex; [|reflexivity]. cbn [andb]. apply Z.eqb_eq in Ex.
      rewrite ahead2nd_spec. fold (rest s). rewrite Hr'. cbn [app nth].
      assert (Hv := dot_first q v ltac:(rewrite <- Ex; exact Hin)).
      destruct Hv as [[-> Hv]|[y [q' [-> ->]]]]; [|reflexivity]. specialize (Hdot Hv). cbn [app].
      destruct after as [|y after]; [reflexivity|]. cbn [hd nth] in *. clear -Hdot. unfold digit, is_digit in *. lia. }
    rewrite Hn, (proj2 (Z.eqb_neq x 39) K4), (proj2 (Z.eqb_neq x 34) K5), (proj2 (Z.eqb_neq x 96) K6).
    cbn [orb]. rewrite (proj2 (Z.eqb_neq x 35) K7).
    assert (Hb : is_mode l LM_TEMPLATE && (x =? 125) = false).
    { destruct (x =? 125) eqn:Ex; [|apply Bool.andb_false_r]. apply Z.eqb_eq in Ex.
      rewrite Hbr; [reflexivity|]. apply (brace_first q). rewrite <- Ex. exact Hin. }
    rewrite Hb. exact R1.
  - intros Ev. destruct R2 as [[R2 _]|[R2 _]]; [|congruence].
    assert (Hk : kind_of v = KSym) by (apply punct_kind; apply (in_map snd _ _ Hin)). rewrite <- R2, Ev in Hk. discriminate Hk.
Qed.
Print Assumptions C25_recognised.

(** All features on: the 58 punctuators in one run, each the longest at its place. *)
Definition vals (feat : N) (src : bytes) : list tv := map t_val (lex_all 60 (new_lexer feat src)).
Example C25_longest_match_case :
  vals (N.ones 70) (bs "a>>>=b>>>c>>=d=>e...f?.g?.5:h??=i**=j!==k===l&&=m--n%=o~p") =
  [T_NAME; T_ASSIGN_BIT_RSH_U; T_NAME; T_RSH_U; T_NAME; T_ASSIGN_BIT_RSH; T_NAME; T_ARROW; T_NAME; T_DOT_TRI; T_NAME; T_OPT_CHAIN; T_NAME;
   T_HOOK; T_NUM; T_COLON; T_NAME; T_ASSIGN_NULLISH; T_NAME; T_ASSIGN_POW; T_NAME; T_NE_S; T_NAME; T_EQ_S; T_NAME; T_ASSIGN_AND;
   T_NAME; T_DEC; T_NAME; T_ASSIGN_MOD; T_NAME; T_BIT_NOT; T_NAME].
Proof. vm_compute. reflexivity. Qed.
Example C25_recognised_case :
  longest_punct (chars (bs ">>>")) T_RSH_U (chars (bs "=")) -> False.
Proof.
  intros [_ H]. specialize (H (chars (bs ">>>=")) T_ASSIGN_BIT_RSH_U [] eq_refl).
  assert (G : punct_at (chars (bs ">>>=")) T_ASSIGN_BIT_RSH_U []) by (split; [in_table|discriminate]).
  specialize (H G). cbn in H. lia.
Qed.
Example C25_recognised_case2 : longest_punct (chars (bs "**")) T_POW (chars (bs "b")) /\
  no_ts (new_lexer 0 (bs "**b")) /\ no_jsx (new_lexer 0 (bs "**b")) /\
  vals 0 (bs "**b") = [T_ILLEGAL; T_NAME] /\ vals FEAT_POW (bs "**b") = [T_POW; T_NAME].
Proof.
  split; [apply longest_check_sound; [split; [in_table|discriminate]|vm_compute; reflexivity]|].
  split; [split; reflexivity|]. split; [repeat split|]. split; vm_compute; reflexivity.
Qed.
