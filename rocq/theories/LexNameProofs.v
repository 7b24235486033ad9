(** The name scanner against the grammar of names. *)
From Verif Require Import Base Utf8Model Utf8Proofs SourceModel SourceSpec SourceProofs TokenModel LexModel LexSpec LexProofs LexGapProofs LexKindProofs LexStrProofs LexTokSpec LexNameSpec.
From Coq Require Import ZifyBool ZifyNat ZifyN.
Local Open Scope Z_scope.

Section Name.
Variable U : uni.
Lemma id_start_iff : forall c, is_id_start U c = true <-> i_start U c \/ c = 92.
Proof.
  intros c. unfold is_id_start, i_start, ident_start. destruct (u_start U c), (u_lo U c);
    match goal with |- (if ?b then _ else _) = _ <-> _ => destruct b eqn:E end; cbn [andb];
    (split; intros H; [try discriminate|try reflexivity]); try (left; do 4 right; left; reflexivity); try lia; intuition (try lia; try discriminate).
Qed.
Lemma id_part_iff : forall c, is_id_start U c || is_id_part U c = true <-> i_part U c \/ c = 92.
Proof.
  intros c. rewrite Bool.orb_true_iff, id_start_iff. unfold i_part, ident_part, is_id_part, digit.
  fold (i_start U c). rewrite !Bool.orb_true_iff, Bool.andb_true_iff, !Z.leb_le, !Z.eqb_eq. tauto.
Qed.

Lemma ue_sound : forall c s r e s', read_unicode_escape U c true s = ((r, e, None), s') ->
  (c <> 92 /\ r = c /\ e = false /\ s' = s) \/
  (c = 92 /\ e = true /\ exists i, item_escaped i = true /\ item_value i = r /\ 92 :: rest s = item_text i ++ rest s' /\ item_ok U true i).
Proof.
  intros c s r e s' H. unfold read_unicode_escape in H. destruct (c =? 92) eqn:Ec.
  2:{ left. injection H as <- <- <-. split; [lia|auto]. }
  right. split; [lia|]. unfold ahead_is_ch in H. destruct (peek s =? 117) eqn:Ep; [|discriminate].
  destruct (peek_inv s 117) as [rs Hr]; [lia|discriminate|].
  destruct (read_one s 117 rs Hr) as [s1 [Er [R1 _]]]; [lia|]. rewrite Er in H. cbn [snd] in H.
  destruct (read_unicode_escape_seq U true (pred (ofst s)) s1) as [[r1 e1] s2] eqn:Eu.
  injection H as -> <- -> ->. split; [reflexivity|].
  unfold read_unicode_escape_seq, ahead_is_ch in Eu. destruct (peek s1 =? 123) eqn:E.
  - destruct (peek_inv s1 123) as [rs' Hr']; [lia|discriminate|].
    destruct (read_one s1 123 rs' Hr') as [s3 [Er' [R1' _]]]; [lia|]. unfold read_codepoint in Eu. rewrite Er' in Eu. cbn [snd] in Eu.
    destruct (cp_loop (fuel s3) s3 []) as [[hex|] s4] eqn:Ecp; [|discriminate].
    apply cp_loop_sound in Ecp. destruct Ecp as [ds [-> [D2 D3]]]. cbn [app] in Eu.
    destruct (MaxRune <? _) eqn:Em; [discriminate|]. destruct ds as [|d ds]; [discriminate|]. injection Eu as <- <-.
    exists (NEscB (d :: ds) (parse_digits 16 (d :: ds))). split; [reflexivity|]. split; [reflexivity|]. split.
    + cbn [item_text]. rewrite Hr, <- R1, Hr', <- R1', D2. rewrite <- !app_comm_cons, <- app_assoc. reflexivity.
    + cbn [item_ok]. split; [discriminate|]. split; [apply num16_iff; tauto|]. unfold MaxRune in Em. split; [lia|discriminate].
  - unfold read_hex4 in Eu. destruct (hex4_loop 4 s1 []) as [[hex|] s4] eqn:Ecp; [|discriminate].
    apply hex4_sound in Ecp. destruct Ecp as [ds [-> [D2 [D3 D4]]]]. cbn [app andb] in Eu.
    match type of Eu with (if ?b then _ else _) = _ => destruct b eqn:Eb; [discriminate|] end. injection Eu as <- <-.
    exists (NEsc4 ds (parse_digits 16 ds)). split; [reflexivity|]. split; [reflexivity|]. split.
    + cbn [item_text]. rewrite Hr, <- R1, D2. reflexivity.
    + cbn [item_ok]. split; [exact D4|]. split; [apply num16_iff; tauto|].
      apply Bool.orb_false_iff in Eb. destruct Eb as [Eb1 Eb2]. split; [|lia].
      assert (G : is_id_start U (parse_digits 16 ds) || is_id_part U (parse_digits 16 ds) = true) by (destruct (is_id_start U _), (is_id_part U _); cbn in *; congruence).
      apply id_part_iff in G. destruct G as [G|G]; [exact G|lia].
Qed.

Lemma read_cr : forall s c s1, read s = (c, s1) -> c <> 10 -> c <> EOF -> c <> 13 /\ rest s = c :: rest s1.
Proof.
  intros s c s1 Er Hn He. pose proof (read_fst s) as G. rewrite Er in G. cbn in G.
  match type of G with _ = (if ?b then _ else _) => destruct b eqn:E end; [lia|].
  assert (c <> 13) by lia. split; [assumption|]. destruct (peek_inv s c) as [q Hq']; [congruence|assumption|].
  destruct (read_one s c q Hq') as [s1' [E1 [E2 _]]]; [assumption|]. congruence.
Qed.

Hypothesis HU : uni_ok U.
Lemma i_part_ne : forall c, i_part U c \/ c = 92 -> c <> 10 /\ c <> 13 /\ c <> EOF /\ c <> RuneError.
Proof.
  intros c H. pose proof (HU c) as G. unfold i_part, ident_part, ident_start, digit in H. unfold EOF, RuneError in *.
  destruct (u_start U c), (u_lo U c), (u_part U c); cbn in G; try (specialize (G eq_refl)); clear -H G; intuition (try lia; try discriminate).
Qed.

Lemma id_part_sound : forall n s b0 esc0 b esc s', src_ok s -> id_part_loop U n false s b0 esc0 = Some ((b, esc, None), s') ->
  exists is, rest s = flat_map item_text is ++ rest s' /\ Forall (item_ok U false) is
    /\ b = b0 ++ flat_map encode_rune (map item_value is) /\ esc = (esc0 || existsb item_escaped is)%bool
    /\ (forall c r, rest s' = c :: r -> ~ i_part U c /\ c <> 92)
    /\ adv s s'.
Proof.
  induction n as [|n IH]; intros s b0 esc0 b esc s' Hok H; cbn [id_part_loop] in H; [discriminate|].
  destruct (is_id_start U (peek s) || is_id_part U (peek s) || false && (peek s =? 45)) eqn:Ec.
  2:{ injection H as <- <- <-. exists []. split; [reflexivity|]. split; [constructor|]. split; [rewrite app_nil_r; reflexivity|].
      split; [rewrite Bool.orb_false_r; reflexivity|]. split; [|apply adv_refl]. intros c r E. rewrite (peek_cons _ _ _ E) in Ec.
      cbn [andb] in Ec. rewrite Bool.orb_false_r in Ec. split; intros G; (assert (K : i_part U c \/ c = 92) by tauto; apply id_part_iff in K; congruence). }
  cbn [andb] in Ec. rewrite Bool.orb_false_r in Ec. apply id_part_iff in Ec. pose proof (i_part_ne _ Ec) as [N1 [N2 [N3 N4]]].
  destruct (peek_inv s (peek s) eq_refl N3) as [rs Hr]. destruct (read_one s _ rs Hr N2) as [s1 [Er [R1 R2]]]. rewrite Er in H.
  destruct (read_unicode_escape U (peek s) true s1) as [[[c1 e1] [er|]] s2] eqn:Eu; [discriminate|].
  destruct (c1 =? 92) eqn:E92; [discriminate|].
  pose proof (read_unicode_escape_adv U (peek s) true s1) as Ha. rewrite Eu in Ha. cbn [snd] in Ha.
  assert (Ha' : adv s s2) by (eapply adv_trans; [apply R2|exact Ha]).
  apply IH in H; [|eapply adv_ok; eassumption]. destruct H as [is [I1 [I2 [I3 [I4 [I5 I6]]]]]].
  assert (Hi : exists i, item_ok U false i /\ rest s = item_text i ++ rest s2 /\ item_value i = c1 /\ e1 = item_escaped i).
  { apply ue_sound in Eu. destruct Eu as [[U1 [U2 [U3 U4]]]|[U1 [U2 [i [U3 [U4 [U5 U6]]]]]]].
    - exists (NChar c1). subst. split; [cbn; tauto|]. split; [cbn; congruence|]. split; reflexivity.
    - exists i. split; [destruct i; cbn in *; try discriminate; intuition lia|]. split; [rewrite Hr, U1; rewrite <- R1; exact U5|].
      split; [exact U4|congruence]. }
  destruct Hi as [i [K1 [K2 [K3 K4]]]]. exists (i :: is). cbn [flat_map map existsb].
  split; [rewrite K2, I1, <- app_assoc; reflexivity|]. split; [constructor; assumption|].
  split; [rewrite I3, K3, <- app_assoc; reflexivity|]. split; [rewrite I4, K4, Bool.orb_assoc; reflexivity|].
  split; [exact I5|]. eapply adv_trans; eassumption.
Qed.

(** ** The whole name *)

Lemma find_kw_spec : forall l b, match find_kw l b with Some v => In v l /\ tv_name v = b | None => ~ In b (map tv_name l) end.
Proof.
  induction l as [|x l IH]; intros b; cbn [find_kw map In]; [tauto|].
  destruct (bytes_eqb (tv_name x) b) eqn:E; [apply bytes_eqb_spec in E; auto|].
  specialize (IH b). destruct (find_kw l b); [tauto|]. intros [G|G]; [|tauto].
  assert (K : bytes_eqb (tv_name x) b = true) by (apply bytes_eqb_spec; exact G). congruence.
Qed.

Lemma unesc_text : forall is, existsb item_escaped is = false -> flat_map item_text is = map item_value is.
Proof.
  induction is as [|[c|ds r|ds r] is IH]; intros H; cbn in *; try discriminate; [reflexivity|]. rewrite IH by assumption. reflexivity.
Qed.
Lemma enc_text : forall v, decode_all (flat_map encode_rune v) = map norm v.
Proof.
  intros v. rewrite <- (rev_involutive v). induction (rev v) as [|a w IH]; [reflexivity|].
  cbn [rev]. rewrite flat_map_app, map_app. cbn [flat_map map]. rewrite app_nil_r, decode_app_encode, IH. reflexivity.
Qed.

(** The token value a name gets. *)
Definition name_value (t : token) (esc : bool) : Prop :=
  (t_val t = T_NAME /\ ~ In (t_text t) (map tv_name keyword_list))
  \/ (In (t_val t) keyword_list /\ tv_name (t_val t) = t_text t /\ esc = false)
  \/ (In (t_val t) strict_keyword_list /\ tv_name (t_val t) = t_text t)
  \/ (t_val t = T_AWAIT /\ t_text t = bs "await" /\ esc = false).

Lemma read_name_sound : forall feat strict async s t s', src_ok s -> is_id_start U (peek s) = true ->
  read_name U feat strict async false s = Some (t, s') -> kind_of (t_val t) = KName ->
  exists i is, rest s = flat_map item_text (i :: is) ++ rest s' /\ item_ok U true i /\ Forall (item_ok U false) is
    /\ (forall c r, rest s' = c :: r -> ~ i_part U c /\ c <> 92)
    /\ decode_all (t_text t) = map norm (map item_value (i :: is))
    /\ t_text t <> [] /\ name_value t (existsb item_escaped (i :: is)).
Proof.
  intros feat strict async s t s' Hok Hst H Hk. unfold read_name in H.
  assert (Hc : i_part U (peek s) \/ peek s = 92) by (apply id_part_iff; rewrite Hst; reflexivity).
  pose proof (i_part_ne _ Hc) as [N1 [N2 [N3 N4]]].
  destruct (peek_inv s (peek s) eq_refl N3) as [rs Hr]. destruct (read_one s _ rs Hr N2) as [s1 [Er [R1 R2]]]. rewrite Er in H.
  destruct (read_unicode_escape U (peek s) true s1) as [[[c1 e1] [[er o]|]] s2] eqn:Eu; [inj; discriminate Hk|].
  destruct (c1 =? RuneError); [inj; discriminate Hk|].
  destruct (read_id_part U false s2) as [[[[idp e2] [[er o]|]] s3]|] eqn:Ei; [inj; discriminate Hk| |discriminate].
  pose proof (read_unicode_escape_adv U (peek s) true s1) as Ha. rewrite Eu in Ha. cbn [snd] in Ha.
  assert (Ha' : adv s s2) by (eapply adv_trans; [apply R2|exact Ha]).
  assert (Hok2 : src_ok s2) by (eapply adv_ok; eassumption).
  unfold read_id_part in Ei. apply id_part_sound in Ei; [|assumption]. destruct Ei as [is [I1 [I2 [I3 [I4 [I5 I6]]]]]].
  assert (Hi : exists i, item_ok U true i /\ rest s = item_text i ++ rest s2 /\ item_value i = c1 /\ e1 = item_escaped i).
  { apply ue_sound in Eu. destruct Eu as [[U1 [U2 [U3 U4]]]|[U1 [U2 [i [U3 [U4 [U5 U6]]]]]]].
    - exists (NChar c1). subst. apply id_start_iff in Hst. split; [cbn; tauto|]. split; [cbn; congruence|]. split; reflexivity.
    - exists i. split; [exact U6|]. split; [rewrite Hr, U1; rewrite <- R1; exact U5|]. split; [exact U4|congruence]. }
  destruct Hi as [i [K1 [K2 [K3 K4]]]]. cbn [app] in I3. cbn [orb] in I4.
  set (txt := if e1 || e2 then encode_rune c1 ++ idp else match text s (ofst s) (ofst s3) with Some b => b | None => [] end) in *.
  assert (Htot : rest s = flat_map item_text (i :: is) ++ rest s3) by (cbn [flat_map]; rewrite K2, I1, <- app_assoc; reflexivity).
  assert (Hesc : (e1 || e2)%bool = existsb item_escaped (i :: is)) by (cbn [existsb]; congruence).
  assert (Htxt : decode_all txt = map norm (map item_value (i :: is))).
  { unfold txt. destruct (e1 || e2) eqn:Ee.
    - rewrite I3. change (encode_rune c1 ++ flat_map encode_rune (map item_value is)) with (flat_map encode_rune (c1 :: map item_value is)).
      rewrite enc_text. cbn [map]. rewrite K3. reflexivity.
    - assert (Ha3 : adv s s3) by (eapply adv_trans; eassumption). assert (Hok3 : src_ok s3) by (eapply adv_ok; eassumption).
      pose proof (adv_ofst_le _ _ Ha3). pose proof (src_ok_ofst _ Hok3). rewrite (adv_code _ _ Ha3) in *.
      unfold text. replace ((ofst s <=? ofst s3)%nat && (ofst s3 <=? length (code s))%nat) with true by lia.
      assert (Hs := slice_text s s3 (flat_map item_text (i :: is)) Hok Hok3 (adv_code _ _ Ha3) ltac:(assumption) Htot).
      rewrite <- (unesc_text (i :: is)) by congruence. rewrite <- Hs. symmetry. eapply decode_all_norm. apply le_n. }
  assert (Hne : txt <> []) by (intros E; rewrite E in Htxt; discriminate Htxt).
  assert (Hgo : t_text t = txt /\ s' = s3 /\ name_value t (e1 || e2)).
  { pose proof (find_kw_spec keyword_list txt) as F. fold (keyword txt) in F. destruct (keyword txt) as [v|].
    { destruct (e1 || e2); inj; [discriminate Hk|]. split; [reflexivity|]. split; [reflexivity|]. right. left. tauto. }
    pose proof (find_kw_spec strict_keyword_list txt) as F2. fold (strict_keyword txt) in F2.
    destruct strict; [destruct (strict_keyword txt)|].
    { inj. split; [reflexivity|]. split; [reflexivity|]. right. right. left. tauto. }
    all: destruct (bytes_eqb txt (bs "await") && _) eqn:Ea; [destruct (e1 || e2)|]; inj; try discriminate Hk;
      (split; [reflexivity|]; split; [reflexivity|]); try (left; split; [reflexivity|exact F]);
      right; right; right; (split; [reflexivity|]; split; [|reflexivity]); apply Bool.andb_true_iff in Ea; apply bytes_eqb_spec; apply Ea. }
  destruct Hgo as [G1 [-> G2]]. exists i, is. rewrite G1, <- Hesc. auto 10.
Qed.

Lemma ues_complete_id : forall start s r ds after, src_ok s -> num_value 16 ds = Some r -> i_part U r -> r <> 92 ->
  (ds <> [] /\ r <= 1114111 /\ rest s = 123 :: ds ++ 125 :: after) \/ (length ds = 4%nat /\ rest s = ds ++ after) ->
  exists s', read_unicode_escape_seq U true start s = ((r, None), s') /\ rest s' = after.
Proof.
  intros start s r ds after Hok Hv Hp H92 H. destruct (ues_complete U start s r ds after Hok Hv H) as [s' [E R]]. exists s'. split; [|exact R].
  unfold read_unicode_escape_seq in *. destruct (ahead_is_ch s 123); [exact E|]. unfold read_hex4 in *.
  destruct (hex4_loop 4 s []) as [[hex|] s1]; [|discriminate]. cbn [andb] in *. injection E as <- <-.
  assert (G : is_id_start U (parse_digits 16 hex) || is_id_part U (parse_digits 16 hex) = true) by (apply id_part_iff; auto).
  assert (K : (negb (is_id_start U (parse_digits 16 hex)) && negb (is_id_part U (parse_digits 16 hex))) || (parse_digits 16 hex =? 92) = false).
  { apply Bool.orb_false_iff. split; [|apply Z.eqb_neq; exact H92]. destruct (is_id_start U _), (is_id_part U _); cbn in *; congruence. }
  rewrite K. reflexivity.
Qed.

(** Reading one element. *)
Lemma item_complete : forall first i s after, src_ok s -> item_good U first i -> rest s = item_text i ++ after ->
  exists c s1 s2, read s = (c, s1) /\ peek s = c /\ read_unicode_escape U c true s1 = ((item_value i, item_escaped i, None), s2)
    /\ rest s2 = after /\ (i_part U c \/ c = 92) /\ (first = true -> i_start U c \/ c = 92) /\ sadv s s1.
Proof.
  intros first i s after Hok [G1 [G2 G3]] Hr.
  assert (Gp : i_part U (item_value i)) by (destruct first; [left|]; exact G1).
  destruct i as [c|ds r|ds r]; cbn [item_text item_value item_escaped app] in *.
  - assert (Hp : i_part U c \/ c = 92) by tauto. pose proof (i_part_ne _ Hp) as [N1 [N2 [N3 N4]]].
    destruct (read_one s _ _ Hr N2) as [s1 [Er [R1 R2]]]. exists c, s1, s1. split; [exact Er|]. split; [apply (peek_cons _ _ _ Hr)|].
    unfold read_unicode_escape. rewrite (proj2 (Z.eqb_neq _ _) G2). repeat split; try assumption; try apply R2. intros ->. tauto.
  - destruct (read_one s _ _ Hr) as [s1 [Er [R1 R2]]]; [lia|]. exists 92, s1.
    destruct (read_one s1 _ _ R1) as [s3 [Er3 [R3 R4]]]; [lia|].
    assert (Hok3 : src_ok s3) by (eapply adv_ok; [apply R4|eapply adv_ok; [apply R2|exact Hok]]).
    destruct (ues_complete_id (pred (ofst s1)) s3 r ds after Hok3) as [s' [E R]]; try tauto.
    exists s'. split; [exact Er|]. split; [apply (peek_cons _ _ _ Hr)|]. unfold read_unicode_escape, ahead_is_ch.
    rewrite (peek_cons _ _ _ R1), Er3. cbn [Z.eqb Pos.eqb snd]. rewrite E. repeat split; auto; apply R2.
  - destruct (read_one s _ _ Hr) as [s1 [Er [R1 R2]]]; [lia|]. exists 92, s1.
    destruct (read_one s1 _ _ R1) as [s3 [Er3 [R3 R4]]]; [lia|].
    assert (Hok3 : src_ok s3) by (eapply adv_ok; [apply R4|eapply adv_ok; [apply R2|exact Hok]]).
    rewrite <- app_assoc in R3. cbn [app] in R3.
    destruct (ues_complete_id (pred (ofst s1)) s3 r ds after Hok3) as [s' [E R]]; try tauto.
    exists s'. split; [exact Er|]. split; [apply (peek_cons _ _ _ Hr)|]. unfold read_unicode_escape, ahead_is_ch.
    rewrite (peek_cons _ _ _ R1), Er3. cbn [Z.eqb Pos.eqb snd]. rewrite E. repeat split; auto; apply R2.
Qed.

Lemma id_part_complete : forall after, (forall c r, after = c :: r -> ~ i_part U c /\ c <> 92) ->
  forall is n s b0 e0, src_ok s -> (lenraw s < n)%nat -> Forall (item_good U false) is -> rest s = flat_map item_text is ++ after ->
  exists s', id_part_loop U n false s b0 e0 = Some ((b0 ++ flat_map encode_rune (map item_value is), (e0 || existsb item_escaped is)%bool, None), s')
    /\ rest s' = after.
Proof.
  intros after Haft. induction is as [|i is IH]; intros n s b0 e0 Hok Hn HF Hr; (destruct n as [|n]; [lia|]); cbn [id_part_loop].
  - cbn [flat_map map existsb app] in *. exists s. split; [|exact Hr].
    assert (E : is_id_start U (peek s) || is_id_part U (peek s) = false).
    { destruct (is_id_start U (peek s) || is_id_part U (peek s)) eqn:E; [|reflexivity]. apply id_part_iff in E.
      pose proof (i_part_ne _ E) as [_ [_ [N3 _]]]. destruct (peek_inv s _ eq_refl N3) as [rs Hrs]. rewrite Hr in Hrs.
      destruct (Haft _ _ Hrs). tauto. }
    cbn [andb]. rewrite Bool.orb_false_r, E, app_nil_r, Bool.orb_false_r. reflexivity.
  - inversion HF as [|? ? Hi HF']; subst. cbn [flat_map] in Hr. rewrite <- app_assoc in Hr.
    destruct (item_complete false i s _ Hok Hi Hr) as [c [s1 [s2 [E1 [E2 [E3 [E4 [E5 [E6 E7]]]]]]]]].
    cbn [andb]. rewrite Bool.orb_false_r, E2. rewrite (proj2 (id_part_iff c) E5). rewrite E1, E3.
    rewrite (proj2 (Z.eqb_neq _ _) (proj1 (proj2 Hi))).
    pose proof (read_unicode_escape_adv U c true s1) as Ha. rewrite E3 in Ha. cbn [snd] in Ha.
    destruct (IH n s2 (b0 ++ encode_rune (item_value i)) (e0 || item_escaped i)%bool) as [s' [G1 G2]].
    + eapply adv_ok; [exact Ha|]. eapply adv_ok; [apply E7|exact Hok].
    + pose proof (adv_len _ _ Ha). destruct E7. lia.
    + exact HF'.
    + exact E4.
    + exists s'. split; [|exact G2]. rewrite G1. cbn [map flat_map existsb]. rewrite <- app_assoc, Bool.orb_assoc. reflexivity.
Qed.

Lemma read_name_complete : forall feat strict async s i is after, src_ok s -> item_good U true i -> Forall (item_good U false) is ->
  rest s = flat_map item_text (i :: is) ++ after -> (forall c r, after = c :: r -> ~ i_part U c /\ c <> 92) ->
  exists t s', read_name U feat strict async false s = Some (t, s') /\ rest s' = after /\
    (kind_of (t_val t) = KName \/
     (t_val t = T_ILLEGAL /\ existsb item_escaped (i :: is) = true /\
      In (flat_map encode_rune (map item_value (i :: is))) (bs "await" :: map tv_name keyword_list))) /\
    (existsb item_escaped (i :: is) = true -> In (flat_map encode_rune (map item_value (i :: is))) (map tv_name keyword_list) -> t_val t = T_ILLEGAL).
Proof.
  intros feat strict async s i is after Hok Hi HF Hr Haft. cbn [flat_map] in Hr. rewrite <- app_assoc in Hr.
  destruct (item_complete true i s _ Hok Hi Hr) as [c [s1 [s2 [E1 [E2 [E3 [E4 [E5 [E6 E7]]]]]]]]].
  unfold read_name. rewrite E1, E3.
  assert (Gp : i_part U (item_value i) \/ item_value i = 92) by (left; left; apply Hi). pose proof (i_part_ne _ Gp) as [_ [_ [_ N4]]].
  rewrite (proj2 (Z.eqb_neq _ _) N4).
  pose proof (read_unicode_escape_adv U c true s1) as Ha. rewrite E3 in Ha. cbn [snd] in Ha.
  destruct (id_part_complete after Haft is (fuel s2) s2 [] false) as [s' [G1 G2]]; try assumption.
  { eapply adv_ok; [exact Ha|]. eapply adv_ok; [apply E7|exact Hok]. }
  { unfold fuel, lenraw. lia. }
  unfold read_id_part. rewrite G1. cbn [app orb existsb].
  change (encode_rune (item_value i) ++ flat_map encode_rune (map item_value is)) with (flat_map encode_rune (map item_value (i :: is))).
  set (enc := flat_map encode_rune (map item_value (i :: is))). set (esc := (item_escaped i || existsb item_escaped is)%bool).
  set (txt := if esc then enc else match text s (ofst s) (ofst s') with Some b => b | None => [] end).
  pose proof (find_kw_spec keyword_list txt) as F. fold (keyword txt) in F.
  pose proof (keyword_kind txt) as FK. pose proof (strict_keyword_kind txt) as FS.
  destruct (keyword txt) as [v|].
  { destruct esc eqn:Ee; eexists; exists s'; (split; [reflexivity|]; split; [exact G2|]).
    - split; [right|auto]. split; [reflexivity|]. split; [reflexivity|]. right. destruct F as [F1 F2]. unfold txt in F2. rewrite <- F2. apply in_map. exact F1.
    - split; [left; cbn [t_val fin_tok]; apply FK; reflexivity|discriminate]. }
  assert (Hno : esc = true -> ~ In enc (map tv_name keyword_list)) by (intros Ee; unfold txt in F; rewrite Ee in F; exact F).
  destruct (if strict then strict_keyword txt else None) as [v|] eqn:Es.
  { eexists; exists s'; (split; [reflexivity|]; split; [exact G2|]). destruct strict; [|discriminate].
    split; [left; cbn [t_val fin_tok]; apply FS; exact Es|intros Ee Hin; destruct (Hno Ee Hin)]. }
  destruct (bytes_eqb txt (bs "await") && _) eqn:Ea.
  - apply Bool.andb_true_iff in Ea. destruct Ea as [Ea _]. apply bytes_eqb_spec in Ea.
    destruct esc eqn:Ee; eexists; exists s'; (split; [reflexivity|]; split; [exact G2|]).
    + split; [right|reflexivity]. split; [reflexivity|]. split; [reflexivity|]. left. unfold txt in Ea. congruence.
    + split; [left; reflexivity|discriminate].
  - eexists; exists s'; (split; [reflexivity|]; split; [exact G2|]). split; [left; reflexivity|intros Ee Hin; destruct (Hno Ee Hin)].
Qed.
End Name.
