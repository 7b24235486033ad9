(** Proofs about white space and comments between tokens. *)
From Verif Require Import Base Utf8Model Utf8Proofs SourceModel SourceSpec SourceProofs TokenModel LexModel LexSpec LexProofs.
From Coq Require Import ZifyBool ZifyNat ZifyN.
Local Open Scope Z_scope.

(** One Read: it takes one rune, or CR LF. *)
Lemma read_cases : forall s, rest s <> [] ->
  (exists r, rest s = r :: rest (snd (read s)) /\ fst (read s) = if r =? 13 then 10 else r)
  \/ (rest s = 13 :: 10 :: rest (snd (read s)) /\ fst (read s) = 10).
Proof.
  intros s Hne. destruct (rest s) as [|r rs] eqn:E; [congruence|].
  destruct (read_decode s r rs E) as [s' [-> [HD _]]]. cbn [fst snd]. unfold rest. rewrite HD.
  destruct (r =? 13) eqn:E13.
  - assert (r = 13) by lia. subst r. cbn [orb]. destruct rs as [|y rs'].
    + left. exists 13. split; reflexivity.
    + destruct (y =? 10) eqn:E10; [right; replace y with 10 by lia; split; reflexivity|].
      left. exists 13. split; reflexivity.
  - left. exists r. rewrite E13. split; [reflexivity|]. cbn [orb]. destruct (r =? 10) eqn:E10; lia.
Qed.

Lemma first_close_cons : forall r b after,
  ~ (r = 42 /\ exists t, b ++ 42 :: 47 :: after = 47 :: t) ->
  (forall x y, b ++ 42 :: 47 :: after = x ++ 42 :: 47 :: y -> (length b <= length x)%nat) ->
  forall x y, (r :: b) ++ 42 :: 47 :: after = x ++ 42 :: 47 :: y -> (length (r :: b) <= length x)%nat.
Proof.
  intros r b after Hn IH [|z x] y E; cbn [app] in E.
  - injection E as -> E. exfalso. apply Hn. split; [reflexivity|eauto].
  - injection E as -> E. apply IH in E. cbn. lia.
Qed.

Lemma mcmt_loop_spec : forall n s m multi s', mcmt_loop n s m = Some ((true, multi), s') ->
  exists b, rest s = b ++ 42 :: 47 :: rest s' /\ comment_ends (CBlock b) (rest s')
    /\ multi = (m || existsb is_line_term b)%bool.
Proof.
  induction n as [|n IH]; intros s m multi s' H; cbn [mcmt_loop] in H; [discriminate|].
  destruct (rest s) as [|r0 rs0] eqn:Es.
  { apply rest_nil_iff in Es. rewrite (read_eof s Es) in H. cbn in H. discriminate. }
  destruct (read_cases s) as [[r [Er Ef]]|[Er Ef]]; [congruence| |].
  - destruct (read s) as [c s1]. cbn [fst snd] in *. rewrite Es in Er. subst c. rewrite Er.
    assert (Hr : (if r =? 13 then 10 else r) = 42 -> r = 42) by (destruct (r =? 13); lia).
    assert (Hlt : is_line_term (if r =? 13 then 10 else r) = is_line_term r).
    { destruct (r =? 13) eqn:E13; [|reflexivity]. replace r with 13 by lia. reflexivity. }
    rewrite Hlt in H.
    destruct ((if r =? 13 then 10 else r) =? 42) eqn:E42.
    + assert (r = 42) by lia. subst r. destruct (ahead_is_ch s1 47) eqn:E47.
      * injection H as <- <-. exists []. unfold ahead_is_ch in E47. rewrite peek_rest in E47.
        destruct (rest s1) as [|y ys] eqn:E1; [cbn in E47; discriminate|]. cbn in E47. assert (y = 47) by lia. subst y.
        destruct (read_rest s1 47 ys E1) as [-> _]; [lia|].
        cbn. rewrite orb_false_r. repeat split. intros; lia.
      * apply IH in H. destruct H as [b [Hb1 [Hb2 Hb3]]]. exists (42 :: b). rewrite Hb1. split; [reflexivity|].
        split; [|exact Hb3]. cbn [comment_ends] in *. apply first_close_cons; [|exact Hb2].
        intros [_ [t Et]]. unfold ahead_is_ch in E47. rewrite peek_rest, Hb1, Et in E47. discriminate.
    + assert (Hgo : exists m', mcmt_loop n s1 m' = Some ((true, multi), s') /\ m' = (m || is_line_term r)%bool).
      { destruct (is_line_term r); [exists true; rewrite orb_true_r; split; [assumption|reflexivity]|].
        exists m. rewrite orb_false_r. split; [|reflexivity].
        destruct (_ =? EOF); [discriminate|assumption]. }
      destruct Hgo as [m' [Hm Em]]. apply IH in Hm. destruct Hm as [b [Hb1 [Hb2 Hb3]]].
      exists (r :: b). rewrite Hb1. split; [reflexivity|]. split.
      * cbn [comment_ends] in *. apply first_close_cons; [|exact Hb2]. intros [-> _]. discriminate.
      * rewrite Hb3, Em. cbn. rewrite orb_assoc. reflexivity.
  - destruct (read s) as [c s1]. cbn [fst snd] in *. subst c. rewrite Es in Er. rewrite Er. cbn in H.
    apply IH in H. destruct H as [b [Hb1 [Hb2 Hb3]]]. exists (13 :: 10 :: b). rewrite Hb1. split; [reflexivity|].
    split; [|rewrite Hb3; cbn; rewrite orb_true_r; reflexivity].
    cbn [comment_ends] in *. apply first_close_cons; [intros [? _]; lia|].
    apply first_close_cons; [intros [? _]; lia|exact Hb2].
Qed.

Lemma scmt_loop_spec : forall n s, (lenraw s < n)%nat ->
  exists b, rest s = b ++ rest (scmt_loop n s) /\ comment_ends (CLine b) (rest (scmt_loop n s)).
Proof.
  induction n as [|n IH]; intros s Hn; [lia|]. cbn [scmt_loop].
  destruct (rest s) as [|r rs] eqn:Es.
  { rewrite peek_rest, Es. cbn. exists []. rewrite Es. repeat split; [constructor|left; reflexivity]. }
  rewrite peek_rest, Es. cbn [hd].
  pose proof (rest_ge0 s) as Hge. rewrite Es in Hge. inversion Hge; subst.
  replace (r =? EOF) with false by (unfold EOF; lia). cbn [orb].
  destruct (is_line_term r) eqn:El.
  { exists []. rewrite Es. repeat split; [constructor|right; exact El]. }
  assert (Hne : peek s <> EOF) by (rewrite peek_rest, Es; cbn; unfold EOF; lia).
  apply read_peek_ne in Hne. destruct Hne as [_ Hlt].
  destruct (read_rest s r rs Es) as [Hr _]; [unfold is_line_term in El; lia|].
  destruct (IH (snd (read s))) as [b [Hb1 [Hb2 Hb3]]]; [lia|]. rewrite Hr in Hb1.
  exists (r :: b). rewrite Hb1. split; [reflexivity|]. split; [constructor; assumption|assumption].
Qed.

(** Keywords are no comments. *)
Lemma find_kw_in : forall l x v, find_kw l x = Some v -> In v l /\ tv_name v = x.
Proof.
  induction l as [|k l IH]; intros x v H; cbn in *; [discriminate|].
  destruct (bytes_eqb _ _) eqn:E; [injection H as <-; split; [left; reflexivity|apply bytes_eqb_spec; exact E]|].
  apply IH in H. tauto.
Qed.
Lemma keyword_ne : forall x v, keyword x = Some v -> v <> T_COMMENT /\ v <> T_EOF /\ v <> T_ILLEGAL.
Proof.
  intros x v H. apply find_kw_in in H. destruct H as [H _]. cbn in H.
  repeat (destruct H as [<-|H]; [repeat split; discriminate|]). contradiction.
Qed.
Lemma strict_keyword_ne : forall x v, strict_keyword x = Some v -> v <> T_COMMENT /\ v <> T_EOF /\ v <> T_ILLEGAL.
Proof.
  intros x v H. apply find_kw_in in H. destruct H as [H _]. cbn in H.
  repeat (destruct H as [<-|H]; [repeat split; discriminate|]). contradiction.
Qed.

Section Gap.
Variable U : uni.
Variable entity : bytes -> option bytes.

Definition not_cmt (t : token) : Prop := t_val t <> T_COMMENT /\ t_val t <> T_EOF.
Ltac nc := first [discriminate | split; discriminate].

Lemma read_name_nc : forall feat strict async jsx s t s',
  read_name U feat strict async jsx s = Some (t, s') -> not_cmt t.
Proof.
  intros feat strict async jsx s t s' H. unfold read_name in H. destruct (read s) as [c0 s1].
  destruct (read_unicode_escape _ _ _ _) as [[[r e0] er] s2].
  destruct er as [[e o]|]; [inj; nc|].
  destruct (r =? RuneError); [inj; nc|].
  destruct (read_id_part U jsx s2) as [[[[idp e1] [[e o]|]] s3]|]; [inj; nc| |nc].
  destruct (keyword _) as [v|] eqn:Ek.
  { destruct (e0 || e1); inj; [nc|]. apply keyword_ne in Ek. cbv [not_cmt t_val fin_tok]. tauto. }
  destruct (if strict then _ else _) as [v|] eqn:Es.
  { inj. destruct strict; [|nc]. apply strict_keyword_ne in Es. cbv [not_cmt t_val fin_tok]. tauto. }
  destruct (_ && _); [destruct (e0 || e1)|]; inj; nc.
Qed.
Lemma read_name_pvt_nc : forall feat strict async s t s',
  read_name_pvt U feat strict async s = Some (t, s') -> not_cmt t.
Proof.
  intros feat strict async s t s' H. unfold read_name_pvt in H.
  destruct (negb _); [inj; nc|].
  destruct (read_name _ _ _ _ _ _) as [[t1 s2]|] eqn:En; [|nc]. apply read_name_nc in En.
  destruct (tv_eqb _ _); [destruct (has _ _)|]; inj; try nc. exact En.
Qed.
Lemma read_str_nc : forall feat tpl s t s', read_str U feat tpl s = Some (t, s') -> not_cmt t.
Proof.
  intros feat tpl s t s' H. unfold read_str in H. destruct (read s).
  destruct (str_loop _ _ _ _ _ _ _ _ _) as [[[] ?]|]; inj; nc.
Qed.
Lemma read_jsx_str_nc : forall s t s', read_jsx_str s = Some (t, s') -> not_cmt t.
Proof.
  intros s t s' H. unfold read_jsx_str in H. destruct (read s).
  destruct (jsx_str_loop _ _ _) as [[[] ?]|]; inj; nc.
Qed.
Lemma num_end_nc : forall feat big s0 s t s', num_end U feat big s0 s = (t, s') -> not_cmt t.
Proof.
  intros feat big s0 s t s' H. unfold num_end in H. destruct (if big then _ else _) as [[] ?]; [inj; nc|].
  destruct (is_id_start _ _); inj; nc.
Qed.
Lemma read_num_nc : forall feat strict s t s', read_num U feat strict s = (t, s') -> not_cmt t.
Proof.
  intros feat strict s t s' H. unfold read_num in H. destruct (read s) as [c s1].
  assert (Hd : forall f, read_decimal_num U feat f s s1 = (t, s') -> not_cmt t).
  { clear H. intros f H. unfold read_decimal_num in H.
    destruct (dec_int _ _ _ _) as [[[]|] ?]; [inj; nc|].
    destruct (dec_frac _ _ _ _) as [[[[]|] ?] ?]; [inj; nc|].
    destruct (dec_exp _ _ _) as [[[[]|] ?] ?]; [inj; nc|]. eapply num_end_nc; eassumption. }
  assert (Ho : forall lg, read_octal_num U feat lg s s1 = (t, s') -> not_cmt t).
  { clear H. intros lg H. unfold read_octal_num in H. destruct (oct_loop _ _ _ _ _ _) as [[[[] ?] ?] ?]; [inj; nc|].
    destruct (_ =? _); [inj; nc|]. destruct (Nat.eqb _ _); [inj; nc|]. eapply num_end_nc; eassumption. }
  destruct (c =? 48); [|eapply Hd; eassumption].
  destruct (_ || _).
  { unfold read_binary_num in H. destruct (bin_loop _ _ _ _ _ _) as [[[[] ?] ?] ?]; [inj; nc|].
    destruct (_ =? _); [inj; nc|]. destruct (Nat.eqb _ _); [inj; nc|]. eapply num_end_nc; eassumption. }
  destruct (_ || _); [eapply Ho; eassumption|].
  destruct (_ || _).
  { unfold read_hex_num in H. destruct (hex_loop _ _ _ _ _) as [[[[] ?] ?] ?]; [inj; nc|].
    destruct (Nat.eqb _ _); [inj; nc|]. destruct (_ =? _); [inj; nc|]. eapply num_end_nc; eassumption. }
  destruct (is_digit _); [|eapply Hd; eassumption].
  destruct (is_octal _); [|inj; nc]. destruct strict; [inj; nc|eapply Ho; eassumption].
Qed.
Lemma read_regexp_nc : forall feat s0 s t s', read_regexp U feat s0 s = Some (t, s') -> not_cmt t.
Proof.
  intros feat s0 s t s' H. unfold read_regexp in H.
  destruct (re_loop _ _ _ _ _ _ _) as [[[t1|] s1]|] eqn:E; [| |nc].
  - apply re_loop_adv in E. destruct E as [_ E]. inj. unfold not_cmt. rewrite E. nc.
  - match type of H with (match ?x with _ => _ end) = _ => destruct x as [[[[? ?] [[]|]] ?]|] end; try (inj; nc).
    destruct (_ && _); inj; nc.
Qed.
Lemma read_tpl_span_nc : forall l t l', read_tpl_span U l = Some (t, l') -> not_cmt t.
Proof.
  intros l t l' H. unfold read_tpl_span in H. destruct (read _) as [c s1].
  destruct (tpl_loop _ _ _ _ _ _) as [[p s2]|]; [|nc]. destruct (tp_err p); inj; [nc|].
  cbv [not_cmt t_val fin_tok]. destruct (c =? 96); [|destruct (tp_fin p)]; nc.
Qed.
Lemma sym_plain_nc : forall ts ta c s v s', sym_plain ts ta c s = Some (v, s') -> v <> T_COMMENT /\ v <> T_EOF.
Proof.
  intros ts ta c s v s' H. unfold sym_plain in H.
  repeat match type of H with
    | (if ?b then _ else _) = _ => destruct b
    | Some (if ?b then _ else _) = _ => destruct b
    | Some (let _ := _ in _) = _ => cbn zeta in H
    | Some _ = Some _ => injection H; clear H; intros; subst
    end; nc.
Qed.

(** A comment token: exactly one comment was consumed. *)
Definition cmt_spec (s s' : source) (t : token) : Prop :=
  exists c, rest s = comment_text c ++ rest s' /\ comment_ends c (rest s')
    /\ t_ext t = XCmt (spans_lines c) /\ t_atl t = s_met (st s).

Lemma single_spec : forall s t s', peek s = 47 -> peek (rd s) = 47 -> read_single_cmt s (rd s) = (t, s') -> cmt_spec s s' t.
Proof.
  intros s t s' H1 H2 H. unfold read_single_cmt in H. rewrite peek_rest in H1, H2.
  destruct (rest s) as [|r rs] eqn:E; [cbn in H1; discriminate|]. cbn in H1. subst r.
  destruct (read_rest s 47 rs E) as [Hr _]; [lia|]. fold (rd s) in Hr. rewrite Hr in H2.
  destruct rs as [|r rs]; [cbn in H2; discriminate|]. cbn in H2. subst r.
  destruct (read_rest (rd s) 47 rs Hr) as [Hr2 _]; [lia|].
  destruct (scmt_loop_spec (fuel (snd (read (rd s)))) (snd (read (rd s)))) as [b [Hb1 Hb2]]; [unfold fuel, lenraw; lia|].
  rewrite Hr2 in Hb1. exists (CLine b).
  assert (Hm : adv s (scmt_loop (fuel (snd (read (rd s)))) (snd (read (rd s))))).
  { eapply adv_trans; [|apply scmt_loop_adv]. eapply adv_trans; [apply rd_adv|apply adv_read]. }
  injection H as <- <-. cbn [t_ext t_atl fin_tok comment_text app spans_lines].
  rewrite E. split; [do 2 f_equal; exact Hb1|]. split; [exact Hb2|]. split; [reflexivity|apply adv_met; exact Hm].
Qed.
Lemma multi_spec : forall s t s', peek s = 47 -> peek (rd s) = 42 -> t_val t = T_COMMENT ->
  read_multi_cmt s (rd s) = Some (t, s') -> cmt_spec s s' t.
Proof.
  intros s t s' H1 H2 Hv H. unfold read_multi_cmt in H. rewrite peek_rest in H1, H2.
  destruct (rest s) as [|r rs] eqn:E; [cbn in H1; discriminate|]. cbn in H1. subst r.
  destruct (read_rest s 47 rs E) as [Hr _]; [lia|]. fold (rd s) in Hr. rewrite Hr in H2.
  destruct rs as [|r rs]; [cbn in H2; discriminate|]. cbn in H2. subst r.
  destruct (read_rest (rd s) 42 rs Hr) as [Hr2 _]; [lia|].
  destruct (mcmt_loop _ _ _) as [[[[|] m] s2]|] eqn:El; [| |discriminate].
  2:{ inj. discriminate. }
  pose proof (mcmt_loop_adv _ _ _ _ _ El) as Ha.
  apply mcmt_loop_spec in El. destruct El as [b [Hb1 [Hb2 Hb3]]]. rewrite Hr2 in Hb1.
  exists (CBlock b). inj. cbn [t_ext t_atl fin_tok comment_text spans_lines].
  rewrite E. split; [cbn; rewrite <- app_assoc; reflexivity|]. split; [exact Hb2|]. split; [reflexivity|].
  apply adv_met. eapply adv_trans; [|exact Ha]. eapply adv_trans; [apply rd_adv|apply adv_read].
Qed.

Lemma read_fst_47 : forall s, fst (read s) = 47 -> peek s = 47.
Proof. intros s H. rewrite read_fst in H. destruct (_ || _); lia. Qed.

Lemma read_symbol_cmt : forall l t l', read_symbol U l = Some (t, l') -> t_val t = T_COMMENT ->
  cmt_spec (l_src l) (l_src l') t /\ l_modes l' = l_modes l /\ l_prt l' = l_prt l /\ l' = set_src l (l_src l').
Proof.
  intros l t l' H Hv. unfold read_symbol in H. pose proof (read_fst_47 (l_src l)) as H47.
  destruct (read (l_src l)) as [c s1] eqn:E. cbn [fst] in H47.
  assert (E1 : s1 = rd (l_src l)) by (unfold rd; rewrite E; reflexivity).
  destruct (c =? 60).
  { destruct (ahead_is_ch s1 61); [inj; discriminate|]. destruct (ahead_is_ch s1 60); [|inj; discriminate].
    destruct (_ && _); [|destruct (ahead_is_ch _ 61); inj; discriminate].
    destruct (mem_nat _ _); [inj; discriminate|]. destruct (negb _); inj; discriminate. }
  destruct (c =? 47) eqn:Ec.
  { assert (Hp : peek (l_src l) = 47) by (apply H47; lia).
    unfold ahead_is_ch in H. subst s1. destruct (peek (rd (l_src l)) =? 47) eqn:E47.
    { destruct (read_single_cmt _ _) as [t1 s2] eqn:Er. inj. split; [|repeat split].
      apply single_spec; [assumption|lia|assumption]. }
    destruct (peek (rd (l_src l)) =? 42) eqn:E42.
    { destruct (read_multi_cmt _ _) as [[t1 s2]|] eqn:Er; [|discriminate]. inj. split; [|repeat split].
      apply multi_spec; try assumption; lia. }
    destruct (ahead_is_regexp l).
    { destruct (read_regexp _ _ _ _) as [[t1 s2]|] eqn:Er; [|discriminate]. inj. apply read_regexp_nc in Er; destruct Er; tauto. }
    destruct (peek (rd (l_src l)) =? 61); inj; discriminate. }
  destruct (c =? 64); [inj; destruct (has _ _); discriminate|].
  destruct (sym_plain _ _ _ _) as [[v s2]|] eqn:Ep; [|inj; discriminate].
  apply sym_plain_nc in Ep. destruct (sym_allowed _ _); inj; [|discriminate].
  cbn in Hv. tauto.
Qed.

Lemma read_jsx_cmt : forall l t l', read_jsx U entity l = Some (t, l') -> t_val t = T_COMMENT ->
  cmt_spec (l_src l) (l_src l') t /\ l_modes l' = l_modes l /\ l_prt l' = l_prt l /\ l' = set_src l (l_src l').
Proof.
  intros l t l' H Hv. unfold read_jsx in H. set (s := l_src l) in *. cbn zeta in H.
  destruct (peek s =? 123) eqn:C1; [inj; discriminate|].
  destruct (peek s =? 125) eqn:C2; [inj; discriminate|].
  destruct (peek s =? 60) eqn:C3; [inj; discriminate|].
  destruct (is_mode l LM_JSX).
  2:{ unfold read_jsx_txt in H. destruct (l_prevws l) as [[? ?] ?].
      destruct (jsx_txt_loop _ _ _ _ _ _) as [[[[? eof] []] ?]|]; inj; try discriminate. cbn in Hv. destruct eof; discriminate. }
  destruct (peek s =? 58); [inj; discriminate|].
  destruct (peek s =? 46); [inj; discriminate|].
  destruct (peek s =? 47) eqn:C4.
  { unfold ahead_is_ch in H. destruct (peek (rd s) =? 47) eqn:C5; [|inj; discriminate].
    destruct (read_single_cmt _ _) as [t1 s2] eqn:Er. inj. split; [|repeat split].
    apply single_spec; try assumption; fold s; lia. }
  destruct (peek s =? 62); [inj; discriminate|].
  destruct (peek s =? 61); [inj; discriminate|].
  destruct (_ && _).
  { destruct (read_jsx_str _) as [[t1 s2]|] eqn:Ec; [|discriminate]. inj. apply read_jsx_str_nc in Ec; destruct Ec; tauto. }
  destruct (peek s =? 45); [inj; discriminate|].
  destruct (is_id_start U _).
  { destruct (read_name _ _ _ _ _ _) as [[t1 s2]|] eqn:Ec; [|discriminate]. inj. apply read_name_nc in Ec; destruct Ec; tauto. }
  inj. discriminate.
Qed.

Lemma lx_skip_space_src : forall l, l_src (lx_skip_space l) = skip_space (l_src l) /\ l_modes (lx_skip_space l) = l_modes l
  /\ l_prt (lx_skip_space l) = l_prt l /\ l_feat (lx_skip_space l) = l_feat l /\ l_begin (lx_skip_space l) = l_begin l.
Proof. intros l. unfold lx_skip_space. destruct (negb _); repeat split. Qed.

Lemma read_tok_cmt_cmt : forall l t l', read_tok_cmt U entity l = Some (t, l') -> t_val t = T_COMMENT ->
  cmt_spec (skip_space (l_src l)) (l_src l') t /\ l_modes l' = l_modes l /\ l_prt l' = l_prt l
  /\ l' = set_src (lx_skip_space l) (l_src l').
Proof.
  intros l t l' H Hv. unfold read_tok_cmt in H.
  destruct (lx_skip_space_src l) as [E1 [E2 [E3 [E4 E5]]]]. rewrite <- E1, <- E2, <- E3.
  set (l1 := lx_skip_space l) in *.
  destruct (ahead_is_eof _); [inj; discriminate|].
  destruct (_ || _); [apply read_jsx_cmt; assumption|].
  destruct (is_id_start U _).
  { destruct (read_name _ _ _ _ _ _) as [[t1 s2]|] eqn:Ec; [|discriminate]. inj. apply read_name_nc in Ec; destruct Ec; tauto. }
  destruct (ahead_is_num_start _).
  { destruct (read_num _ _ _ _) as [t1 s2] eqn:Ec. inj. apply read_num_nc in Ec; destruct Ec; tauto. }
  destruct (_ || _).
  { destruct (is_mode l1 LM_JSX_ATTR).
    - destruct (read_jsx_str _) as [[t1 s2]|] eqn:Ec; [|discriminate]. inj. apply read_jsx_str_nc in Ec; destruct Ec; tauto.
    - destruct (read_str _ _ _ _) as [[t1 s2]|] eqn:Ec; [|discriminate]. inj. apply read_str_nc in Ec; destruct Ec; tauto. }
  destruct (_ || _); [apply read_tpl_span_nc in H; destruct H; tauto|].
  destruct (_ =? 35).
  { destruct (read_name_pvt _ _ _ _ _) as [[t1 s2]|] eqn:Ec; [|discriminate]. inj. apply read_name_pvt_nc in Ec; destruct Ec; tauto. }
  apply read_symbol_cmt; assumption.
Qed.

(** The end of input is reported at the end of input, or inside JSX children. *)
Lemma read_symbol_eof : forall l t l', read_symbol U l = Some (t, l') -> t_val t <> T_EOF.
Proof.
  intros l t l' H. unfold read_symbol in H. destruct (read (l_src l)) as [c s1].
  destruct (c =? 60).
  { destruct (ahead_is_ch s1 61); [inj; discriminate|]. destruct (ahead_is_ch s1 60); [|inj; discriminate].
    destruct (_ && _); [|destruct (ahead_is_ch _ 61); inj; discriminate].
    destruct (mem_nat _ _); [inj; discriminate|]. destruct (negb _); inj; discriminate. }
  destruct (c =? 47).
  { destruct (ahead_is_ch s1 47).
    { destruct (read_single_cmt _ _) as [t1 s2] eqn:Er. unfold read_single_cmt in Er. injection Er as <- <-. inj. discriminate. }
    destruct (ahead_is_ch s1 42).
    { destruct (read_multi_cmt _ _) as [[t1 s2]|] eqn:Er; [|discriminate]. unfold read_multi_cmt in Er.
      destruct (mcmt_loop _ _ _) as [[[[|] m] s3]|]; [| |discriminate]; injection Er as <- <-; inj; discriminate. }
    destruct (ahead_is_regexp l).
    { destruct (read_regexp _ _ _ _) as [[t1 s2]|] eqn:Er; [|discriminate]. inj. apply read_regexp_nc in Er; destruct Er; tauto. }
    destruct (ahead_is_ch s1 61); inj; discriminate. }
  destruct (c =? 64); [inj; destruct (has _ _); discriminate|].
  destruct (sym_plain _ _ _ _) as [[v s2]|] eqn:Ep; [|inj; discriminate].
  apply sym_plain_nc in Ep. destruct (sym_allowed _ _); inj; [|discriminate]. cbn. tauto.
Qed.
Lemma read_jsx_eof : forall l t l', read_jsx U entity l = Some (t, l') -> t_val t = T_EOF -> is_mode l LM_JSX = false.
Proof.
  intros l t l' H Hv. unfold read_jsx in H. set (s := l_src l) in *. cbn zeta in H.
  destruct (peek s =? 123) eqn:C1; [inj; discriminate|].
  destruct (peek s =? 125) eqn:C2; [inj; discriminate|].
  destruct (peek s =? 60) eqn:C3; [inj; discriminate|].
  destruct (is_mode l LM_JSX); [|reflexivity]. exfalso.
  destruct (peek s =? 58); [inj; discriminate|].
  destruct (peek s =? 46); [inj; discriminate|].
  destruct (peek s =? 47) eqn:C4.
  { destruct (ahead_is_ch _ _); [|inj; discriminate].
    destruct (read_single_cmt _ _) as [t1 s2] eqn:Er. unfold read_single_cmt in Er. injection Er as <- <-. inj. discriminate. }
  destruct (peek s =? 62); [inj; discriminate|].
  destruct (peek s =? 61); [inj; discriminate|].
  destruct (_ && _).
  { destruct (read_jsx_str _) as [[t1 s2]|] eqn:Ec; [|discriminate]. inj. apply read_jsx_str_nc in Ec; destruct Ec; tauto. }
  destruct (peek s =? 45); [inj; discriminate|].
  destruct (is_id_start U _).
  { destruct (read_name _ _ _ _ _ _) as [[t1 s2]|] eqn:Ec; [|discriminate]. inj. apply read_name_nc in Ec; destruct Ec; tauto. }
  inj. discriminate.
Qed.
Lemma lx_skip_space_mode : forall l k, is_mode (lx_skip_space l) k = is_mode l k.
Proof. intros l k. unfold lx_skip_space. destruct (negb _); reflexivity. Qed.
Lemma read_tok_cmt_eof : forall l t l', read_tok_cmt U entity l = Some (t, l') -> t_val t = T_EOF ->
  ahead_is_eof (skip_space (l_src l)) = true \/ is_mode l LM_JSX_CHILD = true.
Proof.
  intros l t l' H Hv. unfold read_tok_cmt in H.
  destruct (lx_skip_space_src l) as [E1 [E2 [E3 [E4 E5]]]]. rewrite <- E1.
  pose proof (lx_skip_space_mode l LM_JSX_CHILD) as HM. rewrite <- HM. clear HM.
  set (l1 := lx_skip_space l) in *.
  destruct (ahead_is_eof _); [left; reflexivity|right].
  destruct (is_mode l1 LM_JSX) eqn:EJ; [cbn [orb] in H; pose proof (read_jsx_eof _ _ _ H Hv); congruence|].
  destruct (is_mode l1 LM_JSX_CHILD) eqn:EC; [reflexivity|exfalso]. cbn [orb] in H.
  destruct (is_id_start U _).
  { destruct (read_name _ _ _ _ _ _) as [[t1 s2]|] eqn:Ec; [|discriminate]. inj. apply read_name_nc in Ec; destruct Ec; tauto. }
  destruct (ahead_is_num_start _).
  { destruct (read_num _ _ _ _) as [t1 s2] eqn:Ec. inj. apply read_num_nc in Ec; destruct Ec; tauto. }
  destruct (_ || _).
  { destruct (is_mode l1 LM_JSX_ATTR).
    - destruct (read_jsx_str _) as [[t1 s2]|] eqn:Ec; [|discriminate]. inj. apply read_jsx_str_nc in Ec; destruct Ec; tauto.
    - destruct (read_str _ _ _ _) as [[t1 s2]|] eqn:Ec; [|discriminate]. inj. apply read_str_nc in Ec; destruct Ec; tauto. }
  destruct (_ || _); [apply read_tpl_span_nc in H; destruct H; tauto|].
  destruct (_ =? 35).
  { destruct (read_name_pvt _ _ _ _ _) as [[t1 s2]|] eqn:Ec; [|discriminate]. inj. apply read_name_pvt_nc in Ec; destruct Ec; tauto. }
  apply read_symbol_eof in H. contradiction.
Qed.
End Gap.

(** ** The token loop *)

Lemma take_drop : forall (p : rune -> bool) l, l = take_while p l ++ drop_while p l.
Proof. induction l as [|x l IH]; cbn; [reflexivity|]. destruct (p x); [cbn; congruence|reflexivity]. Qed.
Lemma take_while_all : forall (p : rune -> bool) l, Forall (fun r => p r = true) (take_while p l).
Proof. induction l as [|x l IH]; cbn; [constructor|]. destruct (p x) eqn:E; constructor; assumption. Qed.

Lemma skip_space_gap : forall s, exists ws, rest s = ws ++ rest (skip_space s) /\ Forall (fun r => is_space r = true) ws
  /\ s_met (st (skip_space s)) = existsb is_line_term ws
  /\ match rest (skip_space s) with [] => True | r :: _ => is_space r = false end.
Proof.
  intros s. destruct (skip_space_spec s) as [H1 [H2 _]]. fold (rest s) in *. fold (rest (skip_space s)) in *.
  exists (take_while is_space (rest s)). rewrite H1. split; [apply take_drop|]. split; [apply take_while_all|].
  split; [exact H2|]. clear. induction (rest s) as [|r l IH]; cbn; [exact I|]. destruct (is_space r) eqn:E; [assumption|exact E].
Qed.

Section Loop.
Variable U : uni.
Variable entity : bytes -> option bytes.
Hypothesis HU : uni_ok U.

(** What one call of the lexer does: it passes over the gap [cs], [ws] and then delivers a token that
    starts at [s] (or, inside JSX, at the white space before [s]). *)
Definition lex_ok (prt pext : bool) (l : lx) (t : token) (l' : lx) : Prop :=
  exists cs ws s0 s, rest (l_src l) = gap_text (cs, ws) ++ rest s /\ gap_wf cs ws (rest s)
    /\ code s = code (l_src l) /\ (ofst (l_src l) <= ofst s0 <= ofst s)%nat
    /\ rest s0 = ws ++ rest s /\ src_ok s0 /\ src_ok s /\ code s0 = code (l_src l)
    /\ match rest s with [] => True | r :: _ => is_space r = false end
    /\ (ofst s + lenraw s = ofst (l_src l) + lenraw (l_src l))%nat
    /\ adv s (l_src l') /\ l_feat l' = l_feat l /\ ws_ok l' /\
    (t_val t = T_ILLEGAL \/
     (t_atl t = (existsb is_line_term ws || (match cs with [] => prt && pext | _ => last_spans_lines cs end))%bool /\
      ((t_val t = T_EOF /\ t_lo t = ofst s /\ t_hi t = ofst s /\ rest s = [] /\ l_src l' = s) \/
       ((t_lo t = ofst s \/ (has (l_feat l) FEAT_JSX = true /\ t_lo t = ofst s0))
        /\ t_hi t = ofst (l_src l') /\ t_val t <> T_COMMENT /\ sadv s (l_src l')
        /\ (t_val t = T_EOF -> is_mode l LM_JSX_CHILD = true))))).

Lemma last_spans_cons : forall w c cs, last_spans_lines ((w, c) :: cs) =
  match cs with [] => spans_lines c | _ => last_spans_lines cs end.
Proof.
  intros w c cs. unfold last_spans_lines. cbn [rev]. destruct cs as [|x cs]; [reflexivity|].
  cbn [rev]. destruct (rev cs ++ [x]) as [|y q] eqn:E.
  { apply (f_equal (@length _)) in E. rewrite app_length in E. cbn in E. lia. }
  reflexivity.
Qed.

Lemma add_cmt_facts : forall l b r, l_src (add_cmt l b r) = l_src l /\ l_feat (add_cmt l b r) = l_feat l
  /\ l_prevws (add_cmt l b r) = l_prevws l /\ l_modes (add_cmt l b r) = l_modes l.
Proof. intros l [] r; repeat split. Qed.

Lemma gap_text_cons : forall w c cs ws, gap_text ((w, c) :: cs, ws) = w ++ comment_text c ++ gap_text (cs, ws).
Proof. intros. unfold gap_text. cbn [flat_map fst snd]. rewrite <- !app_assoc. reflexivity. Qed.

Lemma eof_atl : forall l t l', read_tok_cmt U entity l = Some (t, l') -> s_raw (st (skip_space (l_src l))) = [] ->
  src_ok (l_src l) -> t_atl t = s_met (st (skip_space (l_src l))).
Proof.
  intros l t l' H Hr Hok. unfold read_tok_cmt in H. destruct (lx_skip_space_src l) as [E1 _]. rewrite E1 in H.
  destruct (skip_space_facts (l_src l)) as [_ [_ [_ [K4 _]]]].
  rewrite (proj2 (eof_raw _ (K4 Hok)) Hr) in H. inj. reflexivity.
Qed.

Lemma lex_loop_ok : forall n l prt atm pext t l', src_ok (l_src l) -> ws_ok l ->
  lex_loop U entity n l prt atm pext = Some (t, l') -> lex_ok prt pext l t l'.
Proof.
  induction n as [|n IH]; intros l prt atm pext t l' Hok Hws H; cbn [lex_loop] in H; [discriminate|].
  destruct (read_tok_cmt U entity l) as [[t1 l1]|] eqn:Er; [|discriminate].
  pose proof (read_tok_cmt_ok U entity HU l t1 l1 Hok Hws Er) as Hstep.
  destruct (skip_space_gap (l_src l)) as [w [W1 [W2 [W3 W4]]]].
  destruct (skip_space_facts (l_src l)) as [K1 [K2 [K3 [K4 K5]]]]. specialize (K4 Hok).
  pose proof (eof_atl l t1 l1 Er) as Heof.
  unfold step_ok in Hstep. cbn zeta in Hstep.
  destruct Hstep as [S1 [S2 [S3 S4]]].
  destruct (tv_eqb (t_val t1) T_COMMENT) eqn:Ec; cbn [negb] in H.
  - apply tv_eqb_spec in Ec.
    pose proof (read_tok_cmt_cmt U entity l t1 l1 Er Ec) as [[c [C1 [C2 [C3 C4]]]] [CM _]].
    assert (CM' : is_mode l1 LM_JSX_CHILD = is_mode l LM_JSX_CHILD) by (unfold is_mode, cur_mode; rewrite CM; reflexivity).
    assert (Hadd : forall b r, lex_loop U entity n (add_cmt l1 b r) true (t_atl t1)
         (match t_ext t1 with XCmt b => b | _ => false end) = Some (t, l') -> lex_ok true (spans_lines c) l1 t l').
    { intros b r G. apply IH in G.
      - destruct (add_cmt_facts l1 b r) as [F1 [F2 [F3 F4]]]. unfold lex_ok in *. rewrite F1, F2 in G. rewrite C3 in G.
        replace (is_mode (add_cmt l1 b r) LM_JSX_CHILD) with (is_mode l1 LM_JSX_CHILD) in G by (unfold is_mode, cur_mode; rewrite F4; reflexivity).
        exact G.
      - destruct (add_cmt_facts l1 b r) as [-> _]. destruct (adv_facts _ _ S1) as [_ [_ [_ [_ [_ G1]]]]]. auto.
      - destruct (add_cmt_facts l1 b r) as [_ [F2 [F3 _]]]. unfold ws_ok in *. rewrite F2, F3. exact S3. }
    apply Hadd in H. clear Hadd.
    destruct H as [cs [ws [s0 [s [G1 [G2 [G3 [G4 [G5 [G6 [G7 [G8 [G9 [G10 [G11 [G12 [G13 G14]]]]]]]]]]]]]]]]].
    destruct (adv_facts _ _ S1) as [A1 [A2 [A3 _]]].
    exists ((w, c) :: cs), ws, s0, s.
    split; [rewrite gap_text_cons, W1, C1, G1, <- !app_assoc; reflexivity|].
    split; [cbn [gap_wf]; split; [exact W2|]; split; [rewrite <- G1; exact C2|exact G2]|].
    split; [congruence|]. split; [lia|].
    split; [exact G5|]. split; [exact G6|]. split; [exact G7|]. split; [congruence|]. split; [exact G9|].
    split; [lia|]. split; [exact G11|]. split; [congruence|]. split; [exact G13|].
    rewrite S2, CM' in G14. destruct G14 as [G14|[G14 G15]]; [left; exact G14|right].
    split; [|exact G15]. rewrite G14, last_spans_cons. destruct cs; reflexivity.
  - assert (Hne : t_val t1 <> T_COMMENT) by (intros G; rewrite G in Ec; discriminate).
    assert (Hnil : rest (skip_space (l_src l)) = [] <-> s_raw (st (skip_space (l_src l))) = []) by apply rest_nil_iff.
    exists [], w, (l_src l), (skip_space (l_src l)).
    assert (Hv : t_val t = t_val t1 /\ t_lo t = t_lo t1 /\ t_hi t = t_hi t1 /\ l' = l1 /\ t_atl t = (t_atl t1 || (prt && pext))%bool).
    { injection H as <- <-. destruct (t_atl t1) eqn:Ea, prt, pext; cbn; repeat split; assumption. }
    destruct Hv as [V1 [V2 [V3 [V4 V5]]]]. subst l'. rewrite V1, V2, V3, V5.
    cbn [gap_text fst snd flat_map app gap_wf]. unfold gap_text. cbn [flat_map fst snd app].
    repeat match goal with |- _ /\ _ => split end; try assumption; try lia; try reflexivity.
    destruct S4 as [S4|[[S4 [S5 [S6 [S7 S8]]]]|[S4 [S5 [S6 S7]]]]]; [left; exact S4|right|right].
    + split; [rewrite (Heof S7 Hok), W3; reflexivity|]. left. tauto.
    + split; [rewrite S6, W3; reflexivity|]. right. split; [exact S4|]. split; [exact S5|]. split; [exact Hne|]. split; [exact S7|].
      intros Hv. destruct (read_tok_cmt_eof U entity l t1 l1 Er Hv) as [G|G]; [|exact G].
      apply eof_raw in G; [|assumption]. destruct S7 as [_ S7]. unfold lenraw in S7. rewrite G in S7. cbn in S7. lia.
Qed.

Theorem lex_tok_ok : forall l t l', src_ok (l_src l) -> ws_ok l -> lex_tok U entity l = Some (t, l') -> lex_ok false false l t l'.
Proof. intros l t l' Hok Hws H. unfold lex_tok in H. eapply lex_loop_ok; eassumption. Qed.

(** ** Termination *)

Lemma lex_loop_fuel : forall n l prt atm pext, (lenraw (l_src l) < n)%nat -> src_ok (l_src l) -> ws_ok l ->
  no_bad_rune (l_src l) -> lex_loop U entity n l prt atm pext <> None.
Proof.
  induction n as [|n IH]; intros l prt atm pext Hn Hok Hws Hb; [lia|]. cbn [lex_loop].
  pose proof (read_tok_cmt_fuel U entity HU l Hb) as Hf.
  destruct (read_tok_cmt U entity l) as [[t1 l1]|] eqn:Er; [|congruence].
  pose proof (read_tok_cmt_ok U entity HU l t1 l1 Hok Hws Er) as Hstep.
  destruct (skip_space_facts (l_src l)) as [K1 [K2 [K3 [K4 K5]]]]. specialize (K4 Hok).
  destruct Hstep as [S1 [S2 [S3 S4]]]. fold (skip_space (l_src l)) in *.
  destruct (tv_eqb (t_val t1) T_COMMENT) eqn:Ec; cbn [negb]; [|discriminate].
  apply tv_eqb_spec in Ec.
  destruct S4 as [S4|[[S4 _]|[_ [_ [_ S7]]]]]; [congruence|congruence|].
  destruct (adv_facts _ _ S1) as [_ [_ [_ [_ [_ G1]]]]].
  destruct S7 as [_ S7].
  match goal with |- lex_loop _ _ _ (add_cmt l1 ?b ?r) _ _ _ <> None => destruct (add_cmt_facts l1 b r) as [F1 [F2 [F3 _]]] end.
  apply IH.
  - rewrite F1. lia.
  - rewrite F1. auto.
  - unfold ws_ok in *. rewrite F2, F3. exact S3.
  - rewrite F1. eapply adv_forall; [exact S1|]. apply K5. exact Hb.
Qed.

Theorem lex_tok_fuel : forall l, src_ok (l_src l) -> ws_ok l -> no_bad_rune (l_src l) -> lex_tok U entity l <> None.
Proof. intros l Hok Hws Hb. unfold lex_tok. apply lex_loop_fuel; try assumption. unfold fuel, lenraw. lia. Qed.
End Loop.

(** ** Runs of the lexer *)

Section Run.
Variable U : uni.
Variable entity : bytes -> option bytes.

(** The lexer driven by a parser: before each token the parser may change the lexer's modes, its idea
    of the previous token, the start-of-statement flag and the comment lists in any way; it does not
    touch the source, the features and the recorded white space. *)
Inductive lexrun : lx -> list token -> lx -> Prop :=
| lexrun_nil : forall l, lexrun l [] l
| lexrun_step : forall l l1 t l2 ts l3, l_src l1 = l_src l -> l_feat l1 = l_feat l -> l_prevws l1 = l_prevws l ->
    lex_tok U entity l1 = Some (t, l2) -> lexrun l2 ts l3 -> lexrun l (t :: ts) l3.

Definition good (t : token) : Prop := t_val t <> T_ILLEGAL /\ t_val t <> T_EOF.

Hypothesis HU : uni_ok U.

Lemma lex_tok_progress : forall l t l', src_ok (l_src l) -> ws_ok l -> lex_tok U entity l = Some (t, l') -> good t ->
  (lenraw (l_src l') < lenraw (l_src l))%nat /\ src_ok (l_src l') /\ ws_ok l'.
Proof.
  intros l t l' Hok Hws H [G1 G2]. apply (lex_tok_ok U entity HU l t l' Hok Hws) in H.
  destruct H as [cs [ws [s0 [s [H1 [H2 [H3 [H4 [H5 [H6 [H7 [H8 [H9 [H10 [H11 [H12 [H13 H14]]]]]]]]]]]]]]]]].
  destruct (adv_facts _ _ H11) as [_ [_ [_ [_ [_ A]]]]].
  destruct H14 as [H14|[_ [[H14 _]|[_ [_ [_ [[_ H14] _]]]]]]]; [contradiction|contradiction|]. split; [lia|]. auto.
Qed.

Lemma lexrun_count : forall l ts l', lexrun l ts l' -> src_ok (l_src l) -> ws_ok l -> Forall good ts ->
  (length ts + lenraw (l_src l') <= lenraw (l_src l))%nat.
Proof.
  induction 1 as [l|l l1 t l2 ts l3 E1 E2 E3 Ht Hr IH]; intros Hok Hws HF; [cbn; lia|].
  inversion HF; subst. apply lex_tok_progress in Ht; [|rewrite E1; assumption|unfold ws_ok in *; rewrite E2, E3; assumption|assumption].
  destruct Ht as [T1 [T2 T3]]. specialize (IH T2 T3 H2). cbn [length]. rewrite E1 in T1. lia.
Qed.

Lemma slice_text : forall s0 s g, src_ok s0 -> src_ok s -> code s = code s0 -> (ofst s0 <= ofst s)%nat ->
  rest s0 = g ++ rest s -> decode_all (firstn (ofst s - ofst s0) (skipn (ofst s0) (code s0))) = g.
Proof.
  intros s0 s g [[B0 [R0 _]] _] [[B1 [R1 _]] _] Hc Hle Hr.
  unfold rest in Hr. rewrite R0, R1 in Hr. rewrite Hc in *. fold (ofst s0) (ofst s) in *.
  pose proof (boundary_skipn _ _ _ B0 B1 Hle) as Hb. rewrite (decode_all_split _ _ Hb) in Hr.
  rewrite skipn_skipn_add in Hr. replace (ofst s0 + (ofst s - ofst s0))%nat with (ofst s) in Hr by lia.
  apply app_inv_tail in Hr. exact Hr.
Qed.

Lemma gap_wf_nil_ws : forall cs ws after, gap_wf cs ws after -> gap_wf cs [] (ws ++ after) /\ Forall (fun r => is_space r = true) ws.
Proof.
  induction cs as [|[w c] cs IH]; intros ws after H; cbn [gap_wf] in *; [split; [constructor|assumption]|].
  destruct H as [H1 [H2 H3]]. apply IH in H3. split; [|tauto]. split; [assumption|]. split; [|tauto].
  replace (gap_text (cs, []) ++ ws ++ after) with (gap_text (cs, ws) ++ after); [assumption|].
  unfold gap_text. cbn. rewrite app_nil_r, <- app_assoc. reflexivity.
Qed.

Lemma rest_code : forall s, src_ok s -> rest s = decode_all (skipn (ofst s) (code s)).
Proof. intros s [[_ [R _]] _]. unfold rest. rewrite R. reflexivity. Qed.

Lemma lexrun_tiles : forall l ts l', lexrun l ts l' -> src_ok (l_src l) -> ws_ok l -> Forall good ts ->
  tiles (code (l_src l)) (ofst (l_src l)) (map (fun t => (t_lo t, t_hi t)) ts).
Proof.
  induction 1 as [l|l l1 t l2 ts l3 E1 E2 E3 Ht Hr IH]; intros Hok Hws HF; [exact I|].
  inversion HF as [|? ? G GF]; subst. rewrite <- E1 in *.
  assert (Hws1 : ws_ok l1) by (unfold ws_ok in *; rewrite E2, E3; assumption).
  pose proof (lex_tok_progress l1 t l2 Hok Hws1 Ht G) as [P1 [P2 P3]].
  apply (lex_tok_ok U entity HU l1 t l2 Hok Hws1) in Ht.
  destruct Ht as [cs [ws [s0 [s [H1 [H2 [H3 [H4 [H5 [H6 [H7 [H8 [H9 [H10 [H11 [H12 [H13 H14]]]]]]]]]]]]]]]]].
  destruct G as [G1 G2].
  destruct H14 as [H14|[_ [[H14 _]|[L1 [L2 [_ [[_ L4] _]]]]]]]; [contradiction|contradiction|].
  destruct (adv_facts _ _ H11) as [A1 [A2 [A3 _]]].
  cbn [map tiles]. rewrite L2.
  assert (Hlen : (ofst (l_src l2) + lenraw (l_src l2) = length (code (l_src l1)))%nat).
  { rewrite <- H3, <- A3. apply src_ok_ofst. assumption. }
  specialize (IH P2 P3 GF). rewrite A3, H3 in IH.
  destruct L1 as [L1|[_ L1]]; rewrite L1.
  - split; [lia|]. split; [lia|]. split; [lia|]. split; [|exact IH].
    exists cs, ws. rewrite <- H3 at 2. rewrite <- rest_code by assumption. split; [|exact H2].
    apply slice_text; try assumption. lia.
  - split; [lia|]. split; [lia|]. split; [lia|]. split; [|exact IH].
    exists cs, []. rewrite <- H8 at 2. rewrite <- rest_code by assumption. rewrite H5.
    split; [|apply gap_wf_nil_ws; exact H2].
    apply slice_text; try assumption; [lia|]. rewrite H1, H5. unfold gap_text. cbn. rewrite app_nil_r, <- app_assoc. reflexivity.
Qed.
End Run.
