(** C27: regular expression literals. *)
From Verif Require Import Base Utf8Model Utf8Proofs SourceModel SourceSpec SourceProofs TokenModel LexModel LexSpec LexProofs LexGapProofs LexKindProofs LexStrProofs LexProps LexStrProps LexTokSpec LexPunctProofs LexPunctProps LexNameSpec LexNameProofs LexReSpec LexReProofs.
From Coq Require Import ZifyBool ZifyNat ZifyN.
Local Open Scope Z_scope.

(** The characters of the source between two offsets. *)
Definition piece (s : source) (lo hi : nat) : list rune := match text s lo hi with Some b => decode_all b | None => [] end.
Lemma piece_slice : forall s1 s2 s g, src_ok s1 -> src_ok s2 -> adv s1 s2 -> adv s2 s -> rest s1 = g ++ rest s2 -> piece s (ofst s1) (ofst s2) = g.
Proof.
  intros s1 s2 s g H1 H2 Ha Hb Hr. unfold piece, text. rewrite (adv_code _ _ Hb). pose proof (adv_ofst_le _ _ Ha). pose proof (src_ok_ofst _ H2).
  rewrite (adv_code _ _ Ha) in *. replace ((ofst s1 <=? ofst s2)%nat && (ofst s2 <=? length (code s1))%nat) with true by lia. apply slice_text; auto. apply adv_code. exact Ha.
Qed.

Section Re.
Variable U : uni.
Hypothesis HU : uni_ok U.

Lemma read_regexp_sound : forall feat s0 s t s', src_ok s -> read_regexp U feat s0 s = Some (t, s') -> t_val t = T_REGEXP ->
  exists body is, rest s = body ++ 47 :: flat_map item_text is ++ rest s' /\ re_part true 0 false body /\ Forall (item_ok U false) is
    /\ (forall x r, rest s' = x :: r -> ~ i_part U x)
    /\ (exists lo hi flo fhi, t_ext t = XRe lo hi flo fhi /\ piece s' lo hi = body /\ piece s' flo fhi = flat_map item_text is)
    /\ (has feat FEAT_CHK_REGEXP_FLAGS = true -> Forall (fun b => legal_flag feat (b2z b) = true) (flat_map encode_rune (map item_value is))).
Proof using HU.
  intros feat s0 s t s' Hok H Hv. unfold read_regexp in H.
  destruct (re_loop U (fuel s) s0 s [] false false) as [[[t1|] s1]|] eqn:E; [| |discriminate].
  { exfalso. apply re_loop_adv in E. destruct E as [_ E]. injection H as <- <-. congruence. }
  apply (re_loop_sound U _ _ _ 0%nat false) in E; [|discriminate|assumption]. destruct E as (body & q & B1 & B2 & B3 & B4).
  assert (Hok1 : src_ok s1) by (eapply adv_ok; eassumption).
  destruct (read_one s1 47 q B2) as [s2 [Er [R1 R2]]]; [lia|]. rewrite Er in H. cbn [snd] in H. assert (Hok2 : src_ok s2) by (eapply adv_ok; [apply R2|assumption]).
  destruct (ahead_is_id_part U false s2) eqn:Ei.
  - destruct (read_id_part U false s2) as [[[[fs e] [[er o]|]] s3]|] eqn:Ep; [injection H as <- <-; discriminate Hv| |discriminate].
    destruct (has feat FEAT_CHK_REGEXP_FLAGS && negb (forallb _ fs)) eqn:Ef; [injection H as <- <-; discriminate Hv|]. injection H as <- <-.
    unfold read_id_part in Ep. apply id_part_sound in Ep; [|assumption|assumption]. destruct Ep as (is & I1 & I2 & I3 & I4 & I5 & I6). exists body, is. cbn [app] in I3.
    assert (Hok3 : src_ok s3) by (eapply adv_ok; eassumption).
    split; [rewrite <- I1, R1; exact B1|]. split; [exact B3|]. split; [exact I2|]. split; [intros x r Hx; apply (I5 x r Hx)|]. split.
    + eexists _, _, _, _. split; [reflexivity|]. split.
      * apply (piece_slice s s1); auto; [eapply adv_trans; [apply R2|exact I6]|]. rewrite B2. exact B1.
      * assert (Hs : piece s3 (ofst s2) (ofst s3) = flat_map item_text is) by (apply piece_slice; auto; apply adv_refl). destruct fs as [|b fs]; [|exact Hs].
        exfalso. symmetry in I3. apply (f_equal decode_all) in I3. rewrite enc_text in I3. apply (f_equal (@length Z)) in I3. rewrite !map_length in I3. destruct is as [|i is]; [|discriminate I3].
        cbn [flat_map app] in I1. rewrite I1 in *. unfold ahead_is_id_part in Ei. cbn [orb] in Ei. assert (G : is_id_start U (peek s2) || is_id_part U (peek s2) = true) by (destruct (is_id_start U (peek s2)), (is_id_part U (peek s2)); cbn in *; congruence).
        apply id_part_iff in G. pose proof (i_part_ne U HU _ G) as [_ [_ [N _]]]. destruct (peek_inv s2 _ eq_refl N) as [rs Hrs]. rewrite <- I1 in I5. destruct (I5 _ _ Hrs). tauto.
    + intros Hf. rewrite Hf in Ef. cbn [andb] in Ef. apply Bool.negb_false_iff in Ef. rewrite forallb_forall in Ef. apply Forall_forall. rewrite <- I3. exact Ef.
  - cbn [forallb negb] in H. rewrite Bool.andb_false_r in H. injection H as <- <-. exists body, []. cbn [flat_map app]. rewrite R1. split; [exact B1|]. split; [exact B3|]. split; [constructor|]. split.
    { intros x r Hx G. unfold ahead_is_id_part in Ei. rewrite <- R1 in Hx. rewrite (peek_cons _ _ _ Hx) in Ei. assert (K : is_id_start U x || is_id_part U x = true) by (apply id_part_iff; auto).
      cbn [orb] in Ei. destruct (x =? 92) eqn:E92.
      - apply Z.eqb_eq in E92. subst x. clear -G HU. unfold i_part, ident_part, ident_start, digit in G. pose proof (HU 92) as K. destruct (u_start U 92); [specialize (K eq_refl); lia|]. destruct (u_lo U 92); [specialize (K eq_refl); lia|]. destruct (u_part U 92); [specialize (K eq_refl); lia|]. lia.
      - cbn [negb] in Ei. rewrite Bool.andb_true_r in Ei. congruence. }
    split; [|constructor]. eexists _, _, _, _. split; [reflexivity|]. split.
    * apply (piece_slice s s1); auto; [apply R2|]. rewrite B2. exact B1.
    * apply piece_slice; auto using adv_refl.
Qed.

Lemma chars_text : forall fl : list rune, flat_map item_text (map NChar fl) = fl /\ map item_value (map NChar fl) = fl.
Proof. induction fl as [|c fl [I1 I2]]; [split; reflexivity|]. cbn [map flat_map item_text item_value app]. rewrite I1, I2. split; reflexivity. Qed.
Lemma i_part_not_92 : ~ i_part U 92.
Proof using HU.
  clear -HU. intros G. unfold i_part, ident_part, ident_start, digit in G. pose proof (HU 92) as K. destruct (u_start U 92); [specialize (K eq_refl); lia|]. destruct (u_lo U 92); [specialize (K eq_refl); lia|]. destruct (u_part U 92); [specialize (K eq_refl); lia|]. lia.
Qed.

Lemma read_regexp_complete : forall sl feat s0 s body fl after, src_ok s -> re_part sl 0 false body -> Forall (i_part U) fl ->
  rest s = body ++ 47 :: fl ++ after -> (forall x r, after = x :: r -> ~ i_part U x /\ x <> 92) ->
  (has feat FEAT_CHK_REGEXP_FLAGS = true -> Forall (fun b => legal_flag feat (b2z b) = true) (flat_map encode_rune fl)) ->
  exists t s', read_regexp U feat s0 s = Some (t, s') /\ t_val t = T_REGEXP /\ rest s' = after.
Proof using HU.
  intros sl feat s0 s body fl after Hok Hb Hf Hr Haft Hleg. unfold read_regexp.
  destruct (re_loop_complete U sl 0 false body Hb (fuel s) s0 s false (fl ++ after)) as [s1 [E1 [E2 E3]]]; [discriminate|assumption|unfold fuel, lenraw; lia|assumption|].
  change (opens 0 false) with (@nil rune) in E1. rewrite E1. assert (Hok1 : src_ok s1) by (eapply adv_ok; eassumption).
  destruct (read_one s1 47 _ E2) as [s2 [Er [R1 R2]]]; [lia|]. rewrite Er. cbn [snd]. assert (Hok2 : src_ok s2) by (eapply adv_ok; [apply R2|assumption]).
  destruct (chars_text fl) as [T1 T2].
  destruct (ahead_is_id_part U false s2) eqn:Ei.
  - destruct (id_part_complete U HU after Haft (map NChar fl) (fuel s2) s2 [] false) as [s' [G1 G2]]; try assumption.
    + unfold fuel, lenraw. lia.
    + apply Forall_forall. intros i Hi. apply in_map_iff in Hi. destruct Hi as [x [<- Hx]]. rewrite Forall_forall in Hf. specialize (Hf x Hx). split; [exact Hf|]. split; [|exact I]. intros E. cbn in E. subst x. apply i_part_not_92. exact Hf.
    + rewrite T1. exact R1.
    + unfold read_id_part. rewrite G1. rewrite T2. cbn [app]. assert (El : has feat FEAT_CHK_REGEXP_FLAGS && negb (forallb (fun b => legal_flag feat (b2z b)) (flat_map encode_rune fl)) = false).
      { destruct (has feat FEAT_CHK_REGEXP_FLAGS); [|reflexivity]. cbn [andb]. apply Bool.negb_false_iff. apply forallb_forall. apply Forall_forall. apply Hleg. reflexivity. }
      rewrite El. eexists _, _. split; [reflexivity|]. split; [reflexivity|apply G2].
  - cbn [forallb negb]. rewrite Bool.andb_false_r. eexists _, _. split; [reflexivity|]. split; [reflexivity|]. rewrite R1. destruct fl as [|c fl]; [reflexivity|]. exfalso.
    cbn [app] in R1. unfold ahead_is_id_part in Ei. rewrite (peek_cons _ _ _ R1) in Ei. inversion Hf; subst. assert (K : is_id_start U c || is_id_part U c = true) by (apply id_part_iff; auto).
    assert (N : c <> 92) by (intros ->; apply i_part_not_92; assumption). rewrite (proj2 (Z.eqb_neq _ _) N) in Ei. cbn [negb orb] in Ei. rewrite Bool.andb_true_r in Ei. congruence.
Qed.
End Re.

Lemma read_by_regexp : forall U l s t l', read_by U l s t l' -> t_val t = T_REGEXP ->
  exists s1, read s = (47, s1) /\ peek s = 47 /\ ahead_is_ch s1 47 = false /\ ahead_is_ch s1 42 = false /\ read_regexp U (l_feat l) s s1 = Some (t, l_src l').
Proof.
  intros U l s t l' H Hv. destruct H.
  - subst t. discriminate.
  - wrong_kind read_name_kind.
  - wrong_kind read_num_kind.
  - wrong_kind read_str_kind.
  - wrong_kind read_tpl_span_kind.
  - wrong_kind read_name_pvt_kind.
  - match goal with H : read_symbol U _ = _ |- _ => rename H into Hs end. unfold read_symbol in Hs. rewrite H7 in Hs. destruct (read s) as [c s1] eqn:Er.
    destruct (c =? 60).
    { destruct (ahead_is_ch s1 61); [inj; discriminate|]. destruct (ahead_is_ch s1 60); [|inj; discriminate]. destruct (_ && _); [|destruct (ahead_is_ch _ 61); inj; discriminate].
      destruct (mem_nat _ _); [inj; discriminate|]. destruct (negb _); inj; discriminate. }
    destruct (c =? 47) eqn:Ec.
    { apply Z.eqb_eq in Ec. subst c. exists s1. destruct (ahead_is_ch s1 47) eqn:Ea; [unfold read_single_cmt in Hs; inj; discriminate|].
      destruct (ahead_is_ch s1 42) eqn:Eb.
      { unfold read_multi_cmt in Hs. destruct (mcmt_loop _ _ _) as [[[[] ?] ?]|]; inj; discriminate. }
      destruct (ahead_is_regexp l1); [|destruct (ahead_is_ch s1 61); inj; discriminate].
      destruct (read_regexp U (l_feat l1) s s1) as [[t1 s2]|] eqn:Err; [|discriminate]. inj. split; [reflexivity|]. split; [|split; [reflexivity|split; [reflexivity|]]].
      - pose proof (read_fst (l_src l1)) as G. rewrite Er in G. cbn in G. destruct ((peek (l_src l1) =? 13) || (peek (l_src l1) =? 10)); [discriminate|congruence].
      - cbn [l_src set_src]. match goal with H : l_feat _ = l_feat l |- _ => rewrite <- H end. exact Err. }
    destruct (c =? 64); [inj; destruct (has _ _); discriminate|].
    destruct (sym_plain _ _ _ _) as [[v s2]|] eqn:Ep; [|inj; discriminate].
    apply sym_plain_kind in Ep. destruct (sym_allowed _ _); inj; [|discriminate]. cbn in Hv. subst v. discriminate.
Qed.

(** ** C27 *)

(** Every regular expression token stands, after white space and comments, for a slash, a body, a slash and
    flags; the pattern and flags ranges of the token delimit just these; the body is not empty and does not
    start a comment.  [re_part true] differs from RegularExpressionBody only by slashes inside groups (see
    C27_body_partial and the refutation), and flags extend as far as identifier characters go. *)
Theorem C27_literal_partial : forall U entity feat c l t l', uni_ok U -> lexer_at feat c l -> no_jsx l ->
  lex_tok U entity l = Some (t, l') -> t_val t = T_REGEXP ->
  exists cs ws body is, ahead l = gap_text (cs, ws) ++ 47 :: body ++ 47 :: flat_map item_text is ++ ahead l'
    /\ gap_wf cs ws (47 :: body ++ 47 :: flat_map item_text is ++ ahead l')
    /\ re_part true 0 false body /\ body <> [] /\ hd 0 body <> 42
    /\ Forall (item_ok U false) is /\ (forall x r, ahead l' = x :: r -> ~ i_part U x)
    /\ (exists lo hi flo fhi, t_ext t = XRe lo hi flo fhi /\ piece (l_src l') lo hi = body /\ piece (l_src l') flo fhi = flat_map item_text is)
    /\ (has feat FEAT_CHK_REGEXP_FLAGS = true -> Forall (fun b => legal_flag feat (b2z b) = true) (flat_map encode_rune (map item_value is))).
Proof.
  intros U entity feat c l t l' HU [H1 [H2 [H3 H4]]] HJ H Hv.
  apply lex_tok_delivers in H; try assumption. destruct H as [s [Hs [_ [[cs [ws [G1 G2]]] [l1 [t0 [_ [M2 [_ [_ [_ [_ [Ht Hby]]]]]]]]]]]]].
  destruct Ht as [E [_ [_ [_ [_ [_ Ex]]]]]]. rewrite E in Hv. rewrite Ex. clear E Ex t.
  destruct (read_by_regexp U _ _ _ _ Hby Hv) as [s1 [Er [Hp [Ha [Hb Hr]]]]].
  destruct (peek_inv s 47 Hp) as [rs Hrs]; [discriminate|]. destruct (read_one s 47 rs Hrs) as [s1' [Er' [R1 R2]]]; [lia|]. assert (s1' = s1) by congruence. subst s1'. clear Er'.
  assert (Hok1 : src_ok s1) by (eapply adv_ok; [apply R2|assumption]).
  destruct (read_regexp_sound U HU _ _ _ _ _ Hok1 Hr Hv) as (body & is & B1 & B2 & B3 & B4 & B5 & B6).
  exists cs, ws, body, is. unfold ahead. fold (rest (l_src l)). fold (rest (l_src l')). rewrite <- B1, R1, <- Hrs. rewrite M2, H3 in B6.
  split; [exact G1|]. split; [exact G2|]. split; [exact B2|]. unfold ahead_is_ch in Ha, Hb. split; [|split; [|auto]].
  - intros ->. cbn [app] in B1. rewrite (peek_cons _ _ _ B1) in Ha. discriminate.
  - destruct body as [|x body]; [discriminate|]. cbn [app hd] in *. rewrite (peek_cons _ _ _ B1) in Hb. lia.
Qed.
Print Assumptions C27_literal_partial.

(** Unless it has a slash inside a group, such a body is a RegularExpressionBody of ECMAScript, and the
    slash that ends it is the only one that can: the first that is neither escaped nor inside a class. *)
Theorem C27_body_partial : forall body, re_part false 0 false body \/ (re_part true 0 false body /\ ~ In 47 body) ->
  re_body body /\ forall after body' after', re_body body' -> body ++ 47 :: after = body' ++ 47 :: after' -> body' = body.
Proof.
  intros body H. assert (Hb : re_body body).
  { destruct H as [H|[H N]]; [apply (re_part_body 0 false _ H)|]. apply (re_part_body 0 false body). apply re_part_no_slash; assumption. }
  split; [exact Hb|]. intros after body' after' H' E. symmetry. apply (re_body_unique body Hb body' after after' H' E).
Qed.
Print Assumptions C27_body_partial.

(** Where a regular expression may stand. *)
Definition regexp_place (l : lx) : Prop :=
  is_mode l LM_TS_TYP_ARG = false /\ (l_begin l = true \/ l_prt l = T_ILLEGAL \/ tv_before_expr (l_prt l) = true).
Lemma regexp_place_ahead : forall l, no_jsx l -> regexp_place l -> ahead_is_regexp l = true.
Proof.
  intros l [J1 [J2 J3]] [H1 H2]. unfold ahead_is_regexp. rewrite J1, J3, H1. cbn [orb]. destruct (l_begin l); [reflexivity|]. destruct (tv_eqb (l_prt l) T_ILLEGAL) eqn:E; [reflexivity|].
  destruct H2 as [H2|[H2|H2]]; [discriminate| |exact H2]. apply tv_eqb_spec in H2. congruence.
Qed.

Lemma lex_tok_regexp : forall U entity feat c l rs, uni_ok U -> lexer_at feat c l -> no_jsx l -> regexp_place l -> ahead l = 47 :: rs -> hd 0 rs <> 47 -> hd 0 rs <> 42 ->
  exists s0 s1 t s', src_ok s1 /\ rest s1 = rs /\ read_regexp U feat s0 s1 = Some (t, s') /\ exists l', lex_tok U entity l = Some (t, l') /\ l_src l' = s'.
Proof.
  intros U entity feat c l rs HU [H1 [H2 [H3 H4]]] HJ HP Hr N1 N2. unfold ahead in Hr. fold (rest (l_src l)) in Hr.
  destruct (skip_space_facts (l_src l)) as [_ [_ [_ [Hok _]]]]. specialize (Hok H1).
  assert (Hr' := Hr). rewrite <- (skip_space_start _ _ _ Hr eq_refl) in Hr'.
  destruct (lx_skip_space_src l) as [E1 [E2 [E3 [E4 E5]]]]. set (l1 := lx_skip_space l) in *. set (s := skip_space (l_src l)) in *.
  assert (Hre : ahead_is_regexp l1 = true).
  { transitivity (ahead_is_regexp l); [|apply regexp_place_ahead; assumption]. unfold ahead_is_regexp. rewrite !(is_mode_modes l1 l) by assumption. rewrite E3, E5. reflexivity. }
  destruct (read_one s 47 rs Hr') as [s1 [Er [R1 R2]]]; [lia|]. assert (Hok1 : src_ok s1) by (eapply adv_ok; [apply R2|assumption]).
  destruct (read_regexp U feat s s1) as [[t s2]|] eqn:Err; [|exfalso; revert Err; apply read_regexp_fuel; [exact entity|exact HU]].
  exists s, s1, t, s2. split; [exact Hok1|]. split; [exact R1|]. split; [exact Err|]. exists (set_src l1 s2). split; [|reflexivity].
  assert (Hp : peek s = 47) by (apply (peek_cons _ _ _ Hr')).
  apply lex_tok_first; [|apply read_regexp_nc in Err; apply Err].
  unfold read_tok_cmt. fold l1. rewrite E1 in *. fold s. destruct HJ as [J1 [J2 J3]]. rewrite !(is_mode_modes l1 l) by assumption. rewrite J1, J2.
  assert (He : ahead_is_eof s = false).
  { destruct (ahead_is_eof s) eqn:E; [|reflexivity]. apply eof_raw in E; [|assumption]. apply rest_nil_iff in E. rewrite E in Hr'. discriminate. }
  assert (Hid : is_id_start U 47 = false).
  { unfold is_id_start. pose proof (HU 47) as G. destruct (u_start U 47) eqn:Eu; [specialize (G eq_refl); lia|]. destruct (u_lo U 47); [specialize (G eq_refl); lia|]. reflexivity. }
  rewrite He, Hp, Hid. unfold ahead_is_num_start. rewrite Hp. cbn [is_digit orb andb Z.leb Z.eqb Pos.eqb Z.compare Pos.compare Pos.compare_cont]. rewrite Bool.andb_false_r.
  unfold read_symbol. rewrite E1. fold s. rewrite Er. cbn [Z.eqb Pos.eqb]. 
  assert (A1 : ahead_is_ch s1 47 = false /\ ahead_is_ch s1 42 = false).
  { unfold ahead_is_ch. destruct rs as [|x rs].
    - apply rest_nil_iff in R1. apply peek_eof_iff in R1. rewrite R1. split; reflexivity.
    - rewrite (peek_cons _ _ _ R1). cbn [hd] in *. lia. }
  destruct A1 as [-> ->]. rewrite Hre. rewrite E4, H3, Err. reflexivity.
Qed.

(** Where a regular expression may stand, a literal whose body is as above (groups closed, \u complete, no
    U+FFFD) and whose flags are plain identifier characters, accepted ones if flags are checked, is
    delivered as one token that ends where the flags end. *)
Theorem C27_recognised_partial : forall U entity feat c l body fl after, uni_ok U -> lexer_at feat c l -> no_jsx l -> regexp_place l ->
  re_part false 0 false body -> body <> [] -> hd 0 body <> 42 -> Forall (i_part U) fl ->
  (forall x r, after = x :: r -> ~ i_part U x /\ x <> 92) ->
  (has feat FEAT_CHK_REGEXP_FLAGS = true -> Forall (fun b => legal_flag feat (b2z b) = true) (flat_map encode_rune fl)) ->
  ahead l = 47 :: body ++ 47 :: fl ++ after ->
  exists t l', lex_tok U entity l = Some (t, l') /\ t_val t = T_REGEXP /\ ahead l' = after.
Proof.
  intros U entity feat c l body fl after HU HL HJ HP Hb Hne Hh Hf Haft Hleg Hr.
  assert (N : hd 0 (body ++ 47 :: fl ++ after) <> 47 /\ hd 0 (body ++ 47 :: fl ++ after) <> 42).
  { destruct body as [|x body]; [congruence|]. cbn [app hd] in *. split; [|exact Hh]. intros ->. remember (47 :: body) as b eqn:E in Hb. remember 0%nat as d eqn:Ed in Hb. remember false as k eqn:Ek in Hb at 2. destruct Hb; try discriminate; subst; injection E as -> _; destruct H2 as [_ [_ [_ G]]]; destruct (G eq_refl); discriminate. }
  destruct (lex_tok_regexp U entity feat c l _ HU HL HJ HP Hr (proj1 N) (proj2 N)) as (s0 & s1 & t & s' & Hok & R & Err & l' & El & Es).
  destruct (read_regexp_complete U HU false feat s0 s1 body fl after Hok Hb Hf R Haft Hleg) as (t' & s'' & G1 & G2 & G3). rewrite Err in G1. injection G1 as <- <-.
  exists t, l'. split; [exact El|]. split; [exact G2|]. unfold ahead. rewrite Es. exact G3.
Qed.
Print Assumptions C27_recognised_partial.

(** A slash there that no body and slash follow (a line terminator or the end of input comes first) is an
    error. *)
Theorem C27_unterminated : forall U entity feat c l rs, uni_ok U -> lexer_at feat c l -> no_jsx l -> regexp_place l ->
  ahead l = 47 :: rs -> hd 0 rs <> 47 -> hd 0 rs <> 42 -> (forall body after, rs = body ++ 47 :: after -> ~ re_part true 0 false body) ->
  exists t l', lex_tok U entity l = Some (t, l') /\ t_val t = T_ILLEGAL.
Proof.
  intros U entity feat c l rs HU HL HJ HP Hr N1 N2 Hno.
  destruct (lex_tok_regexp U entity feat c l _ HU HL HJ HP Hr N1 N2) as (s0 & s1 & t & s' & Hok & R & Err & l' & El & Es). exists t, l'. split; [exact El|].
  destruct (read_regexp_kind U _ _ _ _ _ Err) as [K|[K|[]]].
  - assert (Hv : t_val t = T_REGEXP) by (destruct (t_val t); try discriminate K; reflexivity). exfalso.
    destruct (read_regexp_sound U HU _ _ _ _ _ Hok Err Hv) as (body & is & B1 & B2 & _). eapply Hno; [|exact B2]. rewrite <- R. exact B1.
  - destruct (t_val t); try discriminate K; reflexivity.
Qed.
Print Assumptions C27_unterminated.

(** Non-vacuity: [/a[/\]](b\/c)/gi;] and an unterminated one. *)
Definition re_of (src : bytes) : option (tv * list rune * list rune * list rune) :=
  match lex_tok ascii_uni no_entity (new_lexer 0 src) with
  | Some (t, l') => match t_ext t with XRe lo hi flo fhi => Some (t_val t, piece (l_src l') lo hi, piece (l_src l') flo fhi, ahead l') | _ => Some (t_val t, [], [], ahead l') end
  | None => None
  end.
Example C27_literal_case : re_of (bs "/a[/\]](b\/c)/gi;") = Some (T_REGEXP, map b2z (bs "a[/\]](b\/c)"), map b2z (bs "gi"), [59]).
Proof. vm_compute. reflexivity. Qed.
Example C27_recognised_case : re_part false 0 false (map b2z (bs "a[/\]](b\/c)")) /\ regexp_place (new_lexer 0 (bs "/")).
Proof.
  assert (P : forall c, is_line_term c = false -> ~ line_end c) by apply nle.
  split.
  - cbn [bs map]. vm_compute. apply rp_char; [apply P; reflexivity|lia|lia|lia|]. apply rp_class. apply rp_char; [apply P; reflexivity|lia|lia|lia|]. apply rp_esc; [apply P; reflexivity|lia|]. apply rp_unclass.
    apply rp_open. apply rp_char; [apply P; reflexivity|lia|lia|lia|]. apply rp_esc; [apply P; reflexivity|lia|]. apply rp_char; [apply P; reflexivity|lia|lia|lia|]. apply rp_close. apply rp_end.
  - split; [reflexivity|]. right. left. reflexivity.
Qed.
Example C27_unterminated_case : exists x, re_of (bs "/ab") = Some (T_ILLEGAL, [], [], x) /\ forall body after, map b2z (bs "ab") = body ++ 47 :: after -> ~ re_part true 0 false body.
Proof.
  eexists. split; [vm_compute; reflexivity|]. intros body after E _. assert (G : In 47 (map b2z (bs "ab"))) by (rewrite E; apply in_or_app; right; left; reflexivity). vm_compute in G. intuition discriminate.
Qed.

(** A slash inside a group does not end the literal: [/(a/] is a whole RegularExpressionLiteral. *)
Theorem C27_group_refuted : re_of (bs "/(a/ b)/") = Some (T_REGEXP, map b2z (bs "(a/ b)"), [], []) /\ re_body (map b2z (bs "(a")) /\ ~ re_body (map b2z (bs "(a/ b)")).
Proof.
  split; [vm_compute; reflexivity|]. split.
  - vm_compute. repeat (apply rb_char; [apply nle; reflexivity|lia|lia|lia|]). constructor.
  - vm_compute. intros H. repeat match goal with K : re_body (_ :: _) |- _ => inversion K; clear K; subst; try lia end.
Qed.
Print Assumptions C27_group_refuted.
(** [/\u/] and a U+FFFD are rejected, a flag may be written as an escape and repeated. *)
Theorem C27_rejected_refuted :
  (exists x, re_of (bs "/" ++ [x5c] ++ bs "u/") = Some (T_ILLEGAL, [], [], x)) /\ re_body [92; 117] /\
  (exists x, re_of (bs "/" ++ encode_rune 65533 ++ bs "/") = Some (T_ILLEGAL, [], [], x)) /\ re_body [65533] /\
  (exists b f, re_of (bs "/a/gg" ++ [x5c] ++ bs "u{67}") = Some (T_REGEXP, b, f, [])).
Proof.
  split; [eexists; vm_compute; reflexivity|]. split; [apply rb_esc; [apply nle; reflexivity|constructor]|]. split; [eexists; vm_compute; reflexivity|].
  split; [apply rb_char; [apply nle; reflexivity|lia|lia|lia|constructor]|]. eexists _, _. vm_compute. reflexivity.
Qed.
Print Assumptions C27_rejected_refuted.
