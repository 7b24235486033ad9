(** Templates: spans against their grammar, and the mode stack against the nesting of brackets. *)
From Verif Require Import Base Utf8Model Utf8Proofs SourceModel SourceSpec SourceProofs TokenModel LexModel LexSpec LexProofs LexGapProofs LexKindProofs LexStrProofs LexTplSpec.
From Coq Require Import ZifyBool ZifyNat ZifyN.
Local Open Scope Z_scope.

Section Tpl.
Variable U : uni.

Lemma read_norm : forall s c, peek s = c -> c <> EOF -> exists r s1, read s = (r, s1) /\ sadv s s1 /\
  ((c <> 13 /\ r = c /\ rest s = c :: rest s1) \/
   (c = 13 /\ r = 10 /\ ((rest s = 13 :: rest s1 /\ hd 0 (rest s1) <> 10) \/ rest s = 13 :: 10 :: rest s1))).
Proof.
  intros s c Hp Hc. destruct (peek_inv s c Hp Hc) as [rs Hr]. destruct (c =? 13) eqn:E.
  - apply Z.eqb_eq in E. subst c. rewrite E in Hr. destruct (read_decode s 13 rs Hr) as [s' [E1 [E2 [E3 _]]]]. cbn [Z.eqb Pos.eqb orb] in *.
    exists 10, s'. split; [exact E1|]. split.
    { split; [|exact E3]. pose proof (adv_read s) as G. rewrite E1 in G. exact G. }
    right. split; [exact E|]. split; [reflexivity|]. rewrite Hr. fold (rest s') in E2. rewrite E2.
    destruct rs as [|y rs]; [left; split; [reflexivity|cbn; lia]|]. destruct (y =? 10) eqn:Ey; [right; apply Z.eqb_eq in Ey; subst; reflexivity|].
    left. split; [reflexivity|cbn; lia].
  - apply Z.eqb_neq in E. destruct (read_one s c rs Hr E) as [s1 [E1 [E2 E3]]]. exists c, s1. split; [exact E1|]. split; [exact E3|].
    left. repeat split; try assumption. congruence.
Qed.

(** A finished loop without a bad escape never met one. *)
Lemma tpl_loop_ee : forall n tpl s txt e p s', tpl_loop U n tpl s txt (Some e) = Some (p, s') -> tp_escape p <> None.
Proof.
  induction n as [|n IH]; intros tpl s txt e p s' H; cbn [tpl_loop] in H; [discriminate|].
  destruct (peek s =? 36). { destruct (ahead_is_ch _ _); [inj; discriminate|eapply IH; eassumption]. }
  destruct (peek s =? 92). { destruct (is_line_term _); eapply IH; eassumption. }
  destruct (peek s =? RuneError); [eapply IH; eassumption|].
  destruct (peek s =? EOF); [inj; discriminate|]. destruct (peek s =? 96); [inj; discriminate|].
  destruct (read s). eapply IH; eassumption.
Qed.

Lemma octal_at_hd : forall c es, octal_at (c :: es) = is_octal c.
Proof. reflexivity. Qed.

Lemma tpl_loop_sound : forall n s txt p s', src_ok s -> tpl_loop U n true s txt None = Some (p, s') ->
  tp_err p = false -> tp_escape p = None ->
  exists body v, rest s = body ++ tpl_close (tp_fin p) ++ rest s' /\ tpl_body false (tpl_close (tp_fin p) ++ rest s') body v
    /\ decode_all (tp_text p) = decode_all txt ++ map norm v /\ exists s2, adv s s2 /\ ofst s2 = tp_ofst p /\ rest s2 = tpl_close (tp_fin p) ++ rest s'.
Proof.
  induction n as [|n IH]; intros s txt p s' Hok H He Hn; cbn [tpl_loop] in H; [discriminate|].
  assert (Hext : forall (s1 : source) (c : rune) (v0 : list rune), adv s s1 -> forall txt1 : bytes, tpl_loop U n true s1 txt1 None = Some (p, s') ->
     (forall rs v after, rest s1 = rs ++ after -> tpl_body false after rs v -> exists b, rest s = b ++ after /\ tpl_body false after b (v0 ++ v)) ->
     decode_all txt1 = decode_all txt ++ map norm v0 -> c = c ->
     exists body v, rest s = body ++ tpl_close (tp_fin p) ++ rest s' /\ tpl_body false (tpl_close (tp_fin p) ++ rest s') body v
    /\ decode_all (tp_text p) = decode_all txt ++ map norm v /\ exists s2, adv s s2 /\ ofst s2 = tp_ofst p /\ rest s2 = tpl_close (tp_fin p) ++ rest s').
  { intros s1 c v0 Ha txt1 H1 Hb Ht _. apply IH in H1; [|eapply adv_ok; eassumption|assumption|assumption].
    destruct H1 as [body [v [B1 [B2 [B3 [s2 [B4 B5]]]]]]]. destruct (Hb _ _ _ B1 B2) as [b [C1 C2]].
    exists b, (v0 ++ v). split; [exact C1|]. split; [exact C2|]. split; [rewrite B3, Ht, map_app, app_assoc; reflexivity|].
    exists s2. split; [eapply adv_trans; eassumption|exact B5]. }
  destruct (peek s =? 36) eqn:E36.
  { apply Z.eqb_eq in E36. destruct (peek_inv s 36 E36) as [rs Hr]; [discriminate|]. destruct (read_one s 36 rs Hr) as [s1 [Er [R1 R2]]]; [lia|].
    rewrite Er in H. cbn [snd] in H. unfold ahead_is_ch in H. destruct (peek s1 =? 123) eqn:E123.
    - apply Z.eqb_eq in E123. destruct (peek_inv s1 123 E123) as [rs1 Hr1]; [discriminate|]. destruct (read_one s1 123 rs1 Hr1) as [s2 [Er2 [R3 R4]]]; [lia|].
      rewrite Er2 in H. cbn [snd] in H. injection H as <- <-. cbn [tp_fin tp_text tp_ofst snd]. exists [], []. cbn [app tpl_close map]. rewrite app_nil_r.
      assert (Htot : rest s = [36; 123] ++ rest s2) by (cbn [app]; congruence).
      split; [exact Htot|]. split; [constructor|]. split; [reflexivity|]. exists s. split; [apply adv_refl|]. split; [reflexivity|exact Htot].
    - eapply (Hext s1 36 [36]); [apply R2|exact H| |rewrite decode_app_encode, E36; reflexivity|reflexivity].
      intros rs' v after A B. exists (36 :: rs'). cbn [app]. split; [congruence|]. apply tb_dollar; [|exact B].
      rewrite <- A. apply Z.eqb_neq in E123. intros G. apply E123. destruct (rest s1) as [|y ys] eqn:Ey; [cbn in G; discriminate|].
      cbn in G. subst y. apply (peek_cons _ _ _ Ey). }
  destruct (peek s =? 92) eqn:E92.
  { apply Z.eqb_eq in E92. destruct (peek_inv s 92 E92) as [rs Hr]; [discriminate|]. destruct (read_one s 92 rs Hr) as [s1 [Er [R1 R2]]]; [lia|].
    rewrite Er in H. cbn [snd] in H. destruct (is_line_term (peek s1)) eqn:El.
    - destruct (read_line_term_sound s1 El) as [cs [C1 C2]].
      eapply (Hext (read_line_term s1) 0 []); [eapply adv_trans; [apply R2|apply read_line_term_adv]|exact H| |rewrite app_nil_r; reflexivity|reflexivity].
      intros rs' v after A B. exists (92 :: cs ++ rs'). split; [cbn [app]; rewrite <- app_assoc; congruence|].
      apply tb_cont; [|exact B]. rewrite <- A. exact C2.
    - destruct (read_escape_seq U true s1) as [[[r e] lo] s2] eqn:Ee. destruct (r =? EOF) eqn:Er0; [inj; discriminate He|].
      destruct e as [m|]; [apply tpl_loop_ee in H; contradiction|].
      destruct (r =? RuneError); [apply tpl_loop_ee in H; contradiction|].
      assert (Hp : peek s1 <> EOF).
      { intros G. unfold read_escape_seq in Ee. pose proof (read_fst s1) as F. destruct (read s1) as [c1 s3] eqn:E3. cbn in F. rewrite G in F.
        change ((EOF =? 13) || (EOF =? 10)) with false in F. subst c1. cbn in Ee. injection Ee as <- _ _. discriminate. }
      assert (Hoct : is_octal (peek s1) = false).
      { destruct (is_octal (peek s1)) eqn:Eo; [|reflexivity]. exfalso. unfold read_escape_seq in Ee. pose proof (read_fst s1) as F.
        destruct (read s1) as [c1 s3]. cbn [fst] in F. assert (c1 = peek s1) by (unfold is_octal in Eo; destruct ((peek s1 =? 13) || (peek s1 =? 10)) eqn:G; [lia|exact F]).
        rewrite H0 in Ee. clear F H0. unfold is_octal in Eo.
        replace (peek s1 =? 98) with false in Ee by lia. replace (peek s1 =? 102) with false in Ee by lia. replace (peek s1 =? 110) with false in Ee by lia.
        replace (peek s1 =? 114) with false in Ee by lia. replace (peek s1 =? 116) with false in Ee by lia. replace (peek s1 =? 118) with false in Ee by lia.
        unfold is_octal in Ee. rewrite Eo in Ee. cbn in Ee. discriminate. }
      pose proof (read_escape_seq_adv U true s1) as Ha. rewrite Ee in Ha. cbn [snd] in Ha.
      assert (Ee' := Ee). apply read_escape_sound in Ee'; [|assumption|assumption]. destruct Ee' as [es [C1 C2]].
      eapply (Hext s2 0 [r]); [eapply adv_trans; [apply R2|exact Ha]|exact H| |apply decode_app_encode|reflexivity].
      intros rs' v after A B. exists (92 :: es ++ rs'). split; [cbn [app]; rewrite <- app_assoc; congruence|].
      apply tb_esc; [|exact B]. rewrite <- A. split; [exact C2|]. left.
      destruct es as [|y es]; [reflexivity|]. rewrite octal_at_hd. cbn [app] in C1. rewrite (peek_cons _ _ _ C1) in Hoct. exact Hoct. }
  destruct (peek s =? RuneError); [apply tpl_loop_ee in H; contradiction|].
  destruct (peek s =? EOF) eqn:EE; [inj; discriminate He|]. apply Z.eqb_neq in EE.
  destruct (peek s =? 96) eqn:E96.
  { apply Z.eqb_eq in E96. destruct (peek_inv s 96 E96) as [rs Hr]; [discriminate|]. destruct (read_one s 96 rs Hr) as [s1 [Er [R1 R2]]]; [lia|].
    rewrite Er in H. cbn [snd] in H. injection H as <- <-. cbn [tp_fin tp_text tp_ofst snd]. exists [], []. cbn [app tpl_close map]. rewrite app_nil_r, R1.
    split; [exact Hr|]. split; [constructor|]. split; [reflexivity|]. exists s. split; [apply adv_refl|]. split; [reflexivity|exact Hr]. }
  destruct (read_norm s (peek s) eq_refl EE) as [r [s1 [Er [R2 HR]]]]. rewrite Er in H.
  eapply (Hext s1 0 [r]); [apply R2|exact H| |apply decode_app_encode|reflexivity].
  apply Z.eqb_neq in E36, E92, E96. intros rs' v after A B.
  destruct HR as [[N13 [-> Hr]]|[_ [-> [[Hr Hh]|Hr]]]].
  - exists (peek s :: rs'). cbn [app]. split; [congruence|]. apply tb_char; assumption.
  - exists (13 :: rs'). cbn [app]. split; [congruence|]. apply tb_cr; [rewrite <- A; exact Hh|exact B].
  - exists (13 :: 10 :: rs'). cbn [app]. split; [congruence|]. apply tb_crlf. exact B.
Qed.

Lemma escape_tpl : forall s, is_octal (peek s) = false -> peek s <> EOF -> read_escape_seq U true s = read_escape_seq U false s.
Proof.
  intros s H He. unfold read_escape_seq. pose proof (read_fst s) as F. destruct (read s) as [c s1]. cbn [fst] in F.
  assert (is_octal c = false) by (destruct ((peek s =? 13) || (peek s =? 10)); subst c; [reflexivity|exact H]). rewrite H0. reflexivity.
Qed.

Lemma parse_ge0 : forall base ds, (forall d, In d ds -> 0 <= digit_val d) -> 0 <= base -> 0 <= parse_digits base ds.
Proof.
  intros base ds. unfold parse_digits.
  assert (K : forall ds a, (forall d, In d ds -> 0 <= digit_val d) -> 0 <= base -> 0 <= a -> 0 <= fold_left (fun a d => a * base + digit_val d) ds a).
  { clear. induction ds as [|d ds IH]; intros a Hd Hb Ha; [exact Ha|]. cbn. apply IH; [intros; apply Hd; right; assumption|exact Hb|].
    specialize (Hd d (or_introl eq_refl)). nia. }
  intros. apply K; auto. lia.
Qed.
Lemma hex_ge0 : forall d, is_hex d = true -> 0 <= digit_val d.
Proof. intros d H. unfold is_hex in H. unfold digit_val. destruct (d <=? 57) eqn:D1; [lia|]. destruct (d <=? 90) eqn:D2; lia. Qed.
Lemma oct_ge0 : forall d, is_octal d = true -> 0 <= digit_val d.
Proof. intros d H. unfold is_octal in H. unfold digit_val. destruct (d <=? 57) eqn:D1; lia. Qed.
Lemma escape_ge0 : forall es after r, escape es after r -> Forall (fun c => 0 <= c) es -> 0 <= r.
Proof.
  assert (H16 : forall ds v0, num_value 16 ds = Some v0 -> 0 <= v0).
  { intros ds v0 Hv. apply num16_iff in Hv. destruct Hv as [HF ->]. apply parse_ge0; [|lia]. rewrite Forall_forall in HF. intros d Hd. apply hex_ge0. auto. }
  assert (H8 : forall ds v0, num_value 8 ds = Some v0 -> 0 <= v0).
  { intros ds v0 Hv. apply num8_iff in Hv. destruct Hv as [HF ->]. apply parse_ge0; [|lia]. rewrite Forall_forall in HF. intros d Hd. apply oct_ge0. auto. }
  intros es after r H HF. destruct H; eauto.
  - cbn in H. destruct H as [H|[H|[H|[H|[H|[H|[]]]]]]]; injection H as _ <-; lia.
  - inversion HF. assumption.
Qed.

Lemma tpl_loop_complete : forall fin after body v, tpl_body false (tpl_close fin ++ after) body v -> ~ In RuneError v ->
  forall n s txt, src_ok s -> (lenraw s < n)%nat -> rest s = body ++ tpl_close fin ++ after ->
  exists p s', tpl_loop U n true s txt None = Some (p, s') /\ tp_err p = false /\ tp_escape p = None /\ tp_fin p = fin /\ rest s' = after.
Proof.
  intros fin after body v HB. induction HB as [|c rs v N1 N2 N3 N4 HB IH|rs v Hd HB IH|rs v Hd HB IH|rs v HB IH|cs rs v Hc HB IH|es r rs v He HB IH];
    intros Hre n s txt Hok Hn Hr; (destruct n as [|n]; [lia|]); cbn [tpl_loop].
  - cbn [app] in Hr. destruct fin; cbn [tpl_close app] in Hr.
    + rewrite (peek_cons _ _ _ Hr). destruct (read_one s 96 _ Hr) as [s1 [Er [R1 R2]]]; [lia|]. cbn [Z.eqb Pos.eqb]. rewrite Er. cbn. eauto 10.
    + rewrite (peek_cons _ _ _ Hr). destruct (read_one s 36 _ Hr) as [s1 [Er [R1 R2]]]; [lia|]. cbn [Z.eqb Pos.eqb]. rewrite Er. cbn [snd].
      unfold ahead_is_ch. rewrite (peek_cons _ _ _ R1). cbn [Z.eqb Pos.eqb]. destruct (read_one s1 123 _ R1) as [s2 [Er2 [R3 R4]]]; [lia|].
      rewrite Er2. cbn. eauto 10.
  - cbn [app] in Hr. rewrite (peek_cons _ _ _ Hr).
    assert (Hc : c <> RuneError) by (intros ->; apply Hre; left; reflexivity).
    assert (HE : c <> EOF). { pose proof (rest_ge0 s) as G. rewrite Hr in G. inversion G; subst. unfold EOF. lia. }
    rewrite (proj2 (Z.eqb_neq _ _) N3), (proj2 (Z.eqb_neq _ _) N2), (proj2 (Z.eqb_neq _ _) Hc), (proj2 (Z.eqb_neq _ _) HE), (proj2 (Z.eqb_neq _ _) N1).
    destruct (read_one s c _ Hr N4) as [s1 [Er [R1 R2]]]. rewrite Er.
    apply IH; [intros G; apply Hre; right; exact G|eapply adv_ok; [apply R2|exact Hok]|destruct R2; lia|exact R1].
  - cbn [app] in Hr. rewrite (peek_cons _ _ _ Hr). cbn [Z.eqb Pos.eqb]. destruct (read_one s 36 _ Hr) as [s1 [Er [R1 R2]]]; [lia|]. rewrite Er. cbn [snd].
    unfold ahead_is_ch. assert (Hp : peek s1 <> 123).
    { intros G. destruct (peek_inv s1 123 G) as [q Hq]; [discriminate|]. rewrite R1 in Hq. apply Hd. rewrite Hq. reflexivity. }
    rewrite (proj2 (Z.eqb_neq _ _) Hp). apply IH; [intros G; apply Hre; right; exact G|eapply adv_ok; [apply R2|exact Hok]|destruct R2; lia|exact R1].
  - cbn [app] in Hr. rewrite (peek_cons _ _ _ Hr). cbn [Z.eqb Pos.eqb]. change (13 =? RuneError) with false. change (13 =? EOF) with false.
    destruct (read_norm s 13 (peek_cons _ _ _ Hr)) as [r [s1 [Er [R2 HR]]]]; [discriminate|]. rewrite Er.
    assert (rest s1 = rs ++ tpl_close fin ++ after).
    { destruct HR as [[G _]|[_ [_ [[G _]|G]]]]; [lia|congruence|]. rewrite Hr in G. injection G as G. rewrite G in Hd. cbn in Hd. lia. }
    apply IH; [intros G; apply Hre; right; exact G|eapply adv_ok; [apply R2|exact Hok]|destruct R2; lia|assumption].
  - cbn [app] in Hr. rewrite (peek_cons _ _ _ Hr). cbn [Z.eqb Pos.eqb]. change (13 =? RuneError) with false. change (13 =? EOF) with false.
    destruct (read_norm s 13 (peek_cons _ _ _ Hr)) as [r [s1 [Er [R2 HR]]]]; [discriminate|]. rewrite Er.
    assert (rest s1 = rs ++ tpl_close fin ++ after).
    { destruct HR as [[G _]|[_ [_ [[G K]|G]]]]; [lia| |congruence]. rewrite Hr in G. injection G as G. rewrite <- G in K. cbn in K. lia. }
    apply IH; [intros G; apply Hre; right; exact G|eapply adv_ok; [apply R2|exact Hok]|destruct R2; lia|assumption].
  - cbn [app] in Hr. rewrite (peek_cons _ _ _ Hr). cbn [Z.eqb Pos.eqb]. destruct (read_one s 92 _ Hr) as [s1 [Er [R1 R2]]]; [lia|]. rewrite Er. cbn [snd].
    rewrite <- app_assoc in R1. destruct (read_line_term_complete s1 cs _ R1 Hc) as [L1 L2]. rewrite L1.
    pose proof (read_line_term_adv s1) as Ha.
    apply IH; [exact Hre|eapply adv_ok; [exact Ha|eapply adv_ok; [apply R2|exact Hok]]|pose proof (adv_len _ _ Ha); destruct R2; lia|exact L2].
  - cbn [app] in Hr. rewrite (peek_cons _ _ _ Hr). cbn [Z.eqb Pos.eqb]. destruct (read_one s 92 _ Hr) as [s1 [Er [R1 R2]]]; [lia|]. rewrite Er. cbn [snd].
    rewrite <- app_assoc in R1. destruct He as [He [Ho|[Ho _]]]; [|discriminate].
    assert (Hok1 : src_ok s1) by (eapply adv_ok; [apply R2|exact Hok]).
    destruct (read_escape_complete U s1 r es _ Hok1 R1 He) as [lo [s2 [E1 E2]]].
    assert (Hes : exists c es', es = c :: es' /\ is_line_term c = false /\ 0 <= c).
    { pose proof (rest_ge0 s1) as G. rewrite R1 in G.
      destruct He as [c r after' Hin|a b v0 after' Hv|ds v0 after' Hl Hv|ds v0 after' Hn' Hv Hm|ds v0 after' Hv Hoc|c after' H1 H2 H3 H4 H5];
        try (eexists; eexists; split; [reflexivity|]; split; [reflexivity|lia]).
      - exists c, []. cbn in Hin. intuition (try (inversion H; subst; reflexivity); try lia).
        all: try (match goal with H : (_, _) = (_, _) |- _ => injection H as <- _ end; first [reflexivity|lia]).
      - destruct Hoc as [L _]. destruct ds as [|c ds]; [cbn in L; lia|]. exists c, ds. split; [reflexivity|].
        rewrite octal_at_hd in Ho. apply num8_iff in Hv. destruct Hv as [HF _]. inversion HF; subst. congruence.
      - exists c, []. split; [reflexivity|]. split; [exact H5|]. inversion G; subst. lia. }
    destruct Hes as [c [es' [-> [Hlt Hc0]]]]. cbn [app] in R1. rewrite (peek_cons _ _ _ R1), Hlt.
    rewrite escape_tpl; [|rewrite (peek_cons _ _ _ R1); exact Ho|rewrite (peek_cons _ _ _ R1); unfold EOF; lia].
    rewrite E1. assert (Hrr : r <> RuneError) by (intros ->; apply Hre; left; reflexivity).
    assert (HrE : r <> EOF).
    { intros ->. assert (0 <= EOF); [|unfold EOF in *; lia]. eapply escape_ge0; [exact He|]. pose proof (rest_ge0 s1) as G. rewrite R1 in G.
      eapply Forall_impl; [|exact (proj1 (proj1 (Forall_app _ (c :: es') _) G))]. cbn. intros; lia. }
    rewrite (proj2 (Z.eqb_neq _ _) Hrr), (proj2 (Z.eqb_neq _ _) HrE).
    pose proof (read_escape_seq_adv U false s1) as Ha. rewrite E1 in Ha. cbn [snd] in Ha.
    apply IH; [intros G; apply Hre; right; exact G|eapply adv_ok; [exact Ha|exact Hok1]|pose proof (adv_len _ _ Ha); destruct R2; lia|exact E2].
Qed.
End Tpl.
