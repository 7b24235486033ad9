(** Proofs about string literals and escape sequences. *)
From Verif Require Import Base Utf8Model Utf8Proofs SourceModel SourceSpec SourceProofs TokenModel LexModel LexSpec LexProofs LexGapProofs.
From Coq Require Import ZifyBool ZifyNat ZifyN.
Local Open Scope Z_scope.

(** ** UTF-8: decoding splits before a byte that is no continuation byte *)

Definition starts_char (b : bytes) : Prop := match b with [] => True | x :: _ => is_cont (b2z x) = false end.

Lemma lead_cont : forall b0 sz lo hi, lead b0 = Some (sz, lo, hi) -> 128 <= lo /\ hi <= 191.
Proof.
  intros b0 sz lo hi H. unfold lead in H.
  repeat match type of H with (if ?b then _ else _) = _ => destruct b end; try discriminate; injection H as <- <- <-; lia.
Qed.
Lemma in_rng_cont : forall b0 sz lo hi x, lead b0 = Some (sz, lo, hi) -> is_cont x = false -> in_rng lo hi x = false.
Proof. intros b0 sz lo hi x H Hx. apply lead_cont in H. unfold is_cont, in_rng in *. lia. Qed.

Lemma decode_rune_app : forall c0 a b, starts_char b -> decode_rune ((c0 :: a) ++ b) = decode_rune (c0 :: a).
Proof.
  intros c0 a b Hb. cbn [app]. unfold decode_rune. cbn zeta. destruct (b2z c0 <? 128); [reflexivity|].
  destruct (lead (b2z c0)) as [[[sz lo] hi]|] eqn:El; [|reflexivity].
  destruct a as [|c1 a]; cbn [app].
  { destruct b as [|x b]; [reflexivity|]. cbn in Hb. rewrite (in_rng_cont _ _ _ _ _ El Hb). reflexivity. }
  destruct (negb _); [reflexivity|]. destruct (Nat.eqb sz 2); [reflexivity|].
  destruct a as [|c2 a]; cbn [app].
  { destruct b as [|x b]; [reflexivity|]. cbn in Hb. rewrite Hb. reflexivity. }
  destruct (negb _); [reflexivity|]. destruct (Nat.eqb sz 3); [reflexivity|].
  destruct a as [|c3 a]; cbn [app]; [|reflexivity].
  destruct b as [|x b]; [reflexivity|]. cbn in Hb. rewrite Hb. reflexivity.
Qed.

Lemma decode_all_app : forall a b, starts_char b -> decode_all (a ++ b) = decode_all a ++ decode_all b.
Proof.
  intros a b Hb. remember (length a) as n eqn:En. assert (Hn : (length a <= n)%nat) by lia. clear En.
  revert a Hn. induction n as [|n IH]; intros [|c a] Hn; try (cbn in Hn; lia); try reflexivity.
  change ((c :: a) ++ b) with (c :: (a ++ b)). rewrite !decode_all_cons.
  change (c :: a ++ b) with ((c :: a) ++ b). rewrite (decode_rune_app c a b Hb).
  pose proof (decode_size_pos c a) as Hp. pose proof (decode_size_le (c :: a)) as Hl.
  rewrite skipn_app. replace (snd (decode_rune (c :: a)) - length (c :: a))%nat with 0%nat by lia.
  rewrite skipn_O, IH; [reflexivity|]. rewrite skipn_length. cbn [length] in *. lia.
Qed.

Lemma encode_starts_char : forall r, starts_char (encode_rune r).
Proof.
  assert (Hsc : forall r, is_scalar r = true -> starts_char (encode_rune r)).
  { intros r Hr. unfold is_scalar, in_rng, MaxRune in Hr. unfold encode_rune, MaxRune, in_rng.
    destruct ((0 <=? r) && (r <=? 127)) eqn:E1; [cbn [starts_char]; rewrite b2z_z2b by lia; unfold is_cont; lia|].
    destruct ((128 <=? r) && (r <=? 2047)) eqn:E2; [cbn [starts_char]; rewrite b2z_z2b by lia; unfold is_cont; lia|].
    destruct ((r <? 0) || (1114111 <? r) || ((55296 <=? r) && (r <=? 57343))) eqn:E3; [lia|].
    destruct (r <=? 65535) eqn:E4; cbn [starts_char]; rewrite b2z_z2b by lia; unfold is_cont; lia. }
  intros r. destruct (is_scalar r) eqn:E; [auto|]. rewrite (encode_nonscalar r E). apply Hsc. reflexivity.
Qed.
Lemma decode_encode_norm : forall r, decode_all (encode_rune r) = [norm r].
Proof.
  intros r. unfold norm. destruct (is_scalar r) eqn:E.
  - pose proof (decode_all_encode [r]) as H. cbn in H. rewrite app_nil_r in H. apply H. repeat constructor; assumption.
  - rewrite (encode_nonscalar r E). reflexivity.
Qed.
Lemma decode_app_encode : forall b r, decode_all (b ++ encode_rune r) = decode_all b ++ [norm r].
Proof. intros b r. rewrite decode_all_app by apply encode_starts_char. rewrite decode_encode_norm. reflexivity. Qed.
Lemma decode_all_norm : forall n b, (length b <= n)%nat -> map norm (decode_all b) = decode_all b.
Proof.
  induction n as [|n IH]; intros [|c b] Hn; try reflexivity; [cbn in Hn; lia|].
  rewrite decode_all_cons. cbn [map]. rewrite IH.
  - unfold norm at 1. rewrite decode_rune_scalar. reflexivity.
  - rewrite skipn_length. pose proof (decode_size_pos c b). cbn [length] in *. lia.
Qed.

(** ** Reading *)

Lemma read_one : forall s r rs, rest s = r :: rs -> r <> 13 -> exists s1, read s = (r, s1) /\ rest s1 = rs /\ sadv s s1.
Proof.
  intros s r rs H Hr. destruct (read_rest s r rs H Hr) as [H1 H2]. destruct (read s) as [c s1] eqn:E. cbn in *. subst c.
  exists s1. split; [reflexivity|]. split; [assumption|]. eapply read_sadv'; [exact E|].
  pose proof (rest_ge0 s) as G. rewrite H in G. inversion G. unfold EOF. lia.
Qed.
Lemma read_ascii : forall s r rs, rest s = r :: rs -> r < 128 -> r <> 13 ->
  exists s1, read s = (r, s1) /\ rest s1 = rs /\ sadv s s1 /\ ofst s1 = S (ofst s).
Proof.
  intros s r rs H Hr H13. destruct (read_one s r rs H H13) as [s1 [E [H1 H2]]]. exists s1.
  split; [exact E|]. split; [exact H1|]. split; [exact H2|].
  unfold rest in H. destruct (s_raw (st s)) as [|b t] eqn:Er; [discriminate|].
  rewrite decode_all_cons in H. injection H as Hd _.
  assert (Hk : snd (decode_rune (b :: t)) = 1%nat).
  { destruct (decode_rune (b :: t)) as [r' k] eqn:ED. cbn in Hd. subst r'.
    pose proof (decode_size_le (b :: t)) as Hle. rewrite ED in Hle. cbn [snd] in *.
    pose proof (decode_rune_range (b :: t)) as Hrg. rewrite ED in Hrg. cbn [fst] in Hrg.
    destruct (decode_prefix b t r k ED) as [[_ ->]|HP]; [reflexivity|].
    apply (f_equal (@length _)) in HP. rewrite firstn_length in HP. unfold encode_rune in HP.
    replace ((0 <=? r) && (r <=? 127)) with true in HP by lia. cbn [length] in HP, Hle. lia. }
  unfold read in E. rewrite (src_advance_cons s b t Er), Hd in E.
  replace (r =? 13) with false in E by lia.
  destruct (is_line_term r); injection E as _ <-; unfold ofst; cbn [set_st st s_ofst]; lia.
Qed.

(** ** Digits *)

Lemma is_hex_digit : forall c, is_hex c = true <-> exists d, digit_value c = Some d /\ (d <? 16) = true /\ d = digit_val c.
Proof.
  intros c. unfold is_hex, digit_value, digit_val. split.
  - intros H. destruct ((48 <=? c) && (c <=? 57)) eqn:E1; [exists (c - 48); replace (c <=? 57) with true by lia; repeat split; lia|].
    destruct ((97 <=? c) && (c <=? 102)) eqn:E2.
    + exists (c - 87). replace (c <=? 57) with false by lia. replace (c <=? 90) with false by lia. repeat split; lia.
    + destruct ((65 <=? c) && (c <=? 70)) eqn:E3; [|lia]. exists (c - 55).
      replace (c <=? 57) with false by lia. replace (c <=? 90) with true by lia. repeat split; lia.
  - intros [d [H _]]. destruct ((48 <=? c) && (c <=? 57)) eqn:E1; [lia|].
    destruct ((97 <=? c) && (c <=? 102)) eqn:E2; [lia|]. destruct ((65 <=? c) && (c <=? 70)) eqn:E3; [lia|discriminate].
Qed.
Lemma is_octal_digit : forall c, is_octal c = true <-> exists d, digit_value c = Some d /\ (d <? 8) = true /\ d = digit_val c.
Proof.
  intros c. unfold is_octal, digit_value, digit_val. split.
  - intros H. replace ((48 <=? c) && (c <=? 57)) with true by lia. exists (c - 48). replace (c <=? 57) with true by lia. repeat split; lia.
  - intros [d [H [H1 _]]]. destruct ((48 <=? c) && (c <=? 57)) eqn:E1; [injection H as <-; lia|].
    destruct ((97 <=? c) && (c <=? 102)) eqn:E2; [injection H as <-; lia|].
    destruct ((65 <=? c) && (c <=? 70)) eqn:E3; [injection H as <-; lia|discriminate].
Qed.
Lemma num_acc_iff : forall base (p : rune -> bool),
  (forall c, p c = true <-> exists d, digit_value c = Some d /\ (d <? base) = true /\ d = digit_val c) ->
  forall ds acc v, num_acc base acc ds = Some v <->
    (Forall (fun c => p c = true) ds /\ v = fold_left (fun a d => a * base + digit_val d) ds acc).
Proof.
  intros base p Hp. induction ds as [|c ds IH]; intros acc v; cbn [num_acc fold_left].
  - split; [intros [= ->]; split; [constructor|reflexivity]|intros [_ ->]; reflexivity].
  - split.
    + intros H. destruct (digit_value c) as [d|] eqn:E; [|discriminate]. destruct (d <? base) eqn:El; [|discriminate].
      assert (Hd : d = digit_val c).
      { unfold digit_value, digit_val in *. destruct ((48 <=? c) && (c <=? 57)) eqn:E1; [injection E as <-; replace (c <=? 57) with true by lia; reflexivity|].
        destruct ((97 <=? c) && (c <=? 102)) eqn:E2; [injection E as <-; replace (c <=? 57) with false by lia; replace (c <=? 90) with false by lia; reflexivity|].
        destruct ((65 <=? c) && (c <=? 70)) eqn:E3; [injection E as <-; replace (c <=? 57) with false by lia; replace (c <=? 90) with true by lia; reflexivity|discriminate]. }
      apply IH in H. destruct H as [H1 ->]. subst d. split; [|reflexivity]. constructor; [|assumption].
      apply Hp. eauto.
    + intros [HF ->]. inversion HF as [|? ? H1 H2]; subst. apply Hp in H1. destruct H1 as [d [-> [-> ->]]].
      apply IH. split; [assumption|reflexivity].
Qed.
Lemma num16_iff : forall ds v, num_value 16 ds = Some v <-> (Forall (fun c => is_hex c = true) ds /\ v = parse_digits 16 ds).
Proof. intros. apply num_acc_iff. apply is_hex_digit. Qed.
Lemma num8_iff : forall ds v, num_value 8 ds = Some v <-> (Forall (fun c => is_octal c = true) ds /\ v = parse_digits 8 ds).
Proof. intros. apply num_acc_iff. apply is_octal_digit. Qed.

Lemma is_hex_ne : forall c, is_hex c = true -> c <> 13 /\ c <> 125 /\ c <> RuneError /\ c <> EOF.
Proof. intros c H. unfold is_hex, RuneError, EOF in *. lia. Qed.
Lemma is_octal_ne : forall c, is_octal c = true -> c <> 13 /\ c <> 10 /\ c <> EOF.
Proof. intros c H. unfold is_octal, EOF in *. lia. Qed.

Lemma peek_cons : forall s r rs, rest s = r :: rs -> peek s = r.
Proof. intros s r rs H. rewrite peek_rest, H. reflexivity. Qed.
Lemma peek_inv : forall s c, peek s = c -> c <> EOF -> exists rs, rest s = c :: rs.
Proof. intros s c H Hc. rewrite peek_rest in H. destruct (rest s) as [|r rs]; cbn in H; [congruence|subst; eauto]. Qed.

(** ** Code points *)

Lemma cp_loop_sound : forall n s hex h s', cp_loop n s hex = (Some h, s') ->
  exists ds, h = hex ++ ds /\ rest s = ds ++ 125 :: rest s' /\ Forall (fun c => is_hex c = true) ds.
Proof.
  induction n as [|n IH]; intros s hex h s' H; cbn [cp_loop] in H; [discriminate|].
  destruct (peek s =? 125) eqn:E.
  - injection H as <- <-. exists []. rewrite app_nil_r. destruct (peek_inv s 125) as [rs Hr]; [lia|discriminate|].
    destruct (read_rest s 125 rs Hr) as [-> _]; [lia|]. repeat split; [exact Hr|constructor].
  - destruct (ahead_is_eof s); [discriminate|]. destruct (_ || _) eqn:E1; [discriminate|].
    assert (Hh : is_hex (peek s) = true) by (destruct (is_hex (peek s)); [reflexivity|rewrite orb_true_r in E1; discriminate]).
    destruct (is_hex_ne _ Hh) as [N1 [N2 [N3 N4]]].
    destruct (peek_inv s _ eq_refl N4) as [rs Hr]. destruct (read_one s _ rs Hr N1) as [s1 [Er [R1 _]]].
    rewrite Er in H. apply IH in H. destruct H as [ds [-> [D2 D3]]].
    exists (peek s :: ds). rewrite <- app_assoc. rewrite Hr, <- R1, D2. repeat split. constructor; assumption.
Qed.
Lemma cp_loop_complete : forall n s hex ds after, src_ok s -> (lenraw s < n)%nat -> rest s = ds ++ 125 :: after ->
  Forall (fun c => is_hex c = true) ds -> exists s', cp_loop n s hex = (Some (hex ++ ds), s') /\ rest s' = after.
Proof.
  induction n as [|n IH]; intros s hex ds after Hok Hn Hr HF; [lia|]. cbn [cp_loop].
  destruct ds as [|c ds]; cbn [app] in Hr.
  - rewrite (peek_cons _ _ _ Hr). cbn. rewrite app_nil_r. eexists. split; [reflexivity|].
    apply (read_rest s 125 after Hr). lia.
  - inversion HF as [|? ? Hc HF']; subst. destruct (is_hex_ne _ Hc) as [N1 [N2 [N3 N4]]].
    rewrite (peek_cons _ _ _ Hr). replace (c =? 125) with false by lia.
    destruct (ahead_is_eof s) eqn:Ee.
    { apply eof_raw in Ee; [|assumption]. apply rest_nil_iff in Ee. congruence. }
    rewrite Hc. replace (c =? RuneError) with false by lia. cbn [orb negb].
    destruct (read_one s c _ Hr N1) as [s1 [-> [R1 R2]]].
    destruct (IH s1 (hex ++ [c]) ds after) as [s' [E1 E2]]; try assumption.
    + eapply adv_ok; [apply R2|assumption].
    + destruct R2. lia.
    + rewrite <- app_assoc in E1. eauto.
Qed.

Lemma hex4_sound : forall n s hex h s', hex4_loop n s hex = (Some h, s') ->
  exists ds, h = hex ++ ds /\ rest s = ds ++ rest s' /\ Forall (fun c => is_hex c = true) ds /\ length ds = n.
Proof.
  induction n as [|n IH]; intros s hex h s' H; cbn [hex4_loop] in H.
  - injection H as <- <-. exists []. rewrite app_nil_r. repeat split. constructor.
  - destruct (_ || _) eqn:E1; [discriminate|].
    assert (Hh : is_hex (peek s) = true) by (destruct (is_hex (peek s)); [reflexivity|rewrite orb_true_r in E1; discriminate]).
    destruct (is_hex_ne _ Hh) as [N1 [N2 [N3 N4]]].
    destruct (peek_inv s _ eq_refl N4) as [rs Hr]. destruct (read_one s _ rs Hr N1) as [s1 [Er [R1 _]]].
    rewrite Er in H. apply IH in H. destruct H as [ds [-> [D2 [D3 D4]]]].
    exists (peek s :: ds). rewrite <- app_assoc. rewrite Hr, <- R1, D2. repeat split; [constructor; assumption|cbn; lia].
Qed.
Lemma hex4_complete : forall n s hex ds after, rest s = ds ++ after -> length ds = n ->
  Forall (fun c => is_hex c = true) ds -> exists s', hex4_loop n s hex = (Some (hex ++ ds), s') /\ rest s' = after.
Proof.
  induction n as [|n IH]; intros s hex [|c ds] after Hr Hl HF; cbn in Hl; try lia; cbn [hex4_loop].
  - rewrite app_nil_r. eauto.
  - inversion HF as [|? ? Hc HF']; subst. destruct (is_hex_ne _ Hc) as [N1 [N2 [N3 N4]]]. cbn [app] in Hr.
    rewrite (peek_cons _ _ _ Hr), Hc. replace (c =? RuneError) with false by lia. cbn [orb negb].
    destruct (read_one s c _ Hr N1) as [s1 [-> [R1 R2]]].
    destruct (IH s1 (hex ++ [c]) ds after) as [s' [E1 E2]]; try assumption; [lia|]. rewrite <- app_assoc in E1. eauto.
Qed.

Lemma octal_loop_sound : forall n s ds0 ds s', octal_loop n s ds0 = (ds, s') ->
  exists e, ds = ds0 ++ e /\ rest s = e ++ rest s' /\ Forall (fun c => is_octal c = true) e /\ (length e <= n)%nat
    /\ (length e = n \/ octal_at (rest s') = false).
Proof.
  induction n as [|n IH]; intros s ds0 ds s' H; cbn [octal_loop] in H.
  - injection H as <- <-. exists []. rewrite app_nil_r. repeat split; [constructor|cbn; lia|left; reflexivity].
  - destruct (is_octal (peek s)) eqn:E.
    + destruct (is_octal_ne _ E) as [N1 [N2 N3]].
      destruct (peek_inv s _ eq_refl N3) as [rs Hr]. destruct (read_one s _ rs Hr N1) as [s1 [Er [R1 _]]].
      rewrite Er in H. apply IH in H. destruct H as [e [-> [D2 [D3 [D4 D5]]]]].
      exists (peek s :: e). rewrite <- app_assoc, Hr, <- R1, D2. split; [reflexivity|]. split; [reflexivity|].
      split; [constructor; assumption|]. cbn [length]. split; [lia|]. destruct D5; [left; lia|right; assumption].
    + injection H as <- <-. exists []. rewrite app_nil_r. repeat split; [constructor|cbn; lia|right].
      rewrite peek_rest in E. destruct (rest s); [reflexivity|exact E].
Qed.
Lemma octal_loop_complete : forall n s ds0 e after, rest s = e ++ after -> Forall (fun c => is_octal c = true) e ->
  (length e <= n)%nat -> (length e = n \/ octal_at after = false) ->
  exists s', octal_loop n s ds0 = (ds0 ++ e, s') /\ rest s' = after.
Proof.
  induction n as [|n IH]; intros s ds0 [|c e] after Hr HF Hl Hd; cbn [length app] in *; try lia; cbn [octal_loop].
  - rewrite app_nil_r. eauto.
  - rewrite app_nil_r. destruct Hd as [Hd|Hd]; [lia|]. replace (is_octal (peek s)) with false; [eauto|].
    rewrite peek_rest, Hr. destruct after; [reflexivity|symmetry; exact Hd].
  - inversion HF as [|? ? Hc HF']; subst. destruct (is_octal_ne _ Hc) as [N1 [N2 N3]].
    rewrite (peek_cons _ _ _ Hr), Hc. destruct (read_one s c _ Hr N1) as [s1 [-> [R1 R2]]].
    destruct (IH s1 (ds0 ++ [c]) e after) as [s' [E1 E2]]; try assumption; [lia|destruct Hd; [left; lia|right; assumption]|].
    rewrite <- app_assoc in E1. eauto.
Qed.

Section Str.
Variable U : uni.

Lemma ues_sound : forall start s r s', read_unicode_escape_seq U false start s = ((r, None), s') ->
  (exists ds, ds <> [] /\ rest s = 123 :: ds ++ 125 :: rest s' /\ num_value 16 ds = Some r /\ r <= 1114111)
  \/ (exists ds, length ds = 4%nat /\ rest s = ds ++ rest s' /\ num_value 16 ds = Some r).
Proof.
  intros start s r s' H. unfold read_unicode_escape_seq, ahead_is_ch in H. destruct (peek s =? 123) eqn:E.
  - left. destruct (peek_inv s 123) as [rs Hr]; [lia|discriminate|].
    destruct (read_one s 123 rs Hr) as [s1 [Er [R1 _]]]; [lia|]. unfold read_codepoint in H. rewrite Er in H. cbn [snd] in H.
    destruct (cp_loop (fuel s1) s1 []) as [[hex|] s2] eqn:Ec; [|discriminate].
    apply cp_loop_sound in Ec. destruct Ec as [ds [-> [D2 D3]]]. cbn [app] in H.
    destruct (MaxRune <? _) eqn:Em; [discriminate|]. destruct ds as [|d ds]; [discriminate|]. injection H as <- <-.
    exists (d :: ds). split; [discriminate|]. rewrite Hr, <- R1, D2. split; [reflexivity|]. split; [|unfold MaxRune in Em; lia].
    apply num16_iff. tauto.
  - right. unfold read_hex4 in H. destruct (hex4_loop 4 s []) as [[hex|] s2] eqn:Ec; [|discriminate].
    apply hex4_sound in Ec. destruct Ec as [ds [-> [D2 [D3 D4]]]]. cbn in H. injection H as <- <-.
    exists ds. repeat split; try assumption. apply num16_iff. tauto.
Qed.
Lemma ues_complete : forall start s r ds after, src_ok s -> num_value 16 ds = Some r ->
  (ds <> [] /\ r <= 1114111 /\ rest s = 123 :: ds ++ 125 :: after) \/ (length ds = 4%nat /\ rest s = ds ++ after) ->
  exists s', read_unicode_escape_seq U false start s = ((r, None), s') /\ rest s' = after.
Proof.
  intros start s r ds after Hok Hv H. apply num16_iff in Hv. destruct Hv as [HF ->].
  unfold read_unicode_escape_seq, ahead_is_ch. destruct H as [[H1 [H2 H3]]|[H1 H2]].
  - rewrite (peek_cons _ _ _ H3). cbn [Z.eqb Pos.eqb].
    destruct (read_one s 123 _ H3) as [s1 [Er [R1 R2]]]; [lia|]. unfold read_codepoint. rewrite Er. cbn [snd].
    destruct (cp_loop_complete (fuel s1) s1 [] ds after) as [s2 [-> E2]]; try assumption.
    + eapply adv_ok; [apply R2|assumption].
    + unfold fuel, lenraw. lia.
    + cbn [app]. replace (MaxRune <? _) with false by (unfold MaxRune; lia). destruct ds; [congruence|]. eauto.
  - destruct (hex4_complete 4 s [] ds after) as [s2 [E1 E2]]; try assumption.
    destruct (peek s =? 123) eqn:E.
    { destruct ds as [|d ds]; [cbn in H1; lia|]. cbn in H2. rewrite (peek_cons _ _ _ H2) in E.
      inversion HF as [|? ? Hd _]; subst. unfold is_hex in Hd. lia. }
    unfold read_hex4. rewrite E1. cbn. eauto.
Qed.

(** ** Escape sequences *)

Definition not_special (c : rune) : Prop := ~ In c (map fst single_escapes) /\ c <> 120 /\ c <> 117 /\ octal_at [c] = false.

Lemma read_escape_sound : forall tpl s r lo s', is_line_term (peek s) = false -> peek s <> EOF ->
  read_escape_seq U tpl s = ((r, None, lo), s') -> exists es, rest s = es ++ rest s' /\ escape es (rest s') r.
Proof.
  intros tpl s r lo s' Hlt Heof H. unfold read_escape_seq in H.
  destruct (peek_inv s _ eq_refl Heof) as [rs Hr]. set (c := peek s) in *.
  assert (N13 : c <> 13) by (unfold is_line_term in Hlt; lia).
  destruct (read_one s c rs Hr N13) as [s1 [Er [R1 R2]]]. rewrite Er in H.
  assert (Hone : forall v, escape [c] (rest s1) v -> ((r, @None lexerr, lo), s') = ((v, None, false), s1) ->
     exists es, rest s = es ++ rest s' /\ escape es (rest s') r).
  { intros v Hv E. injection E as -> -> ->. exists [c]. rewrite Hr, R1. split; [reflexivity|]. rewrite <- R1. exact Hv. }
  destruct (c =? 98) eqn:C1. { eapply Hone; [|symmetry; exact H]. apply esc_single. assert (c = 98) by lia. cbn. intuition congruence. }
  destruct (c =? 102) eqn:C2. { eapply Hone; [|symmetry; exact H]. apply esc_single. assert (c = 102) by lia. cbn. intuition congruence. }
  destruct (c =? 110) eqn:C3. { eapply Hone; [|symmetry; exact H]. apply esc_single. assert (c = 110) by lia. cbn. intuition congruence. }
  destruct (c =? 114) eqn:C4. { eapply Hone; [|symmetry; exact H]. apply esc_single. assert (c = 114) by lia. cbn. intuition congruence. }
  destruct (c =? 116) eqn:C5. { eapply Hone; [|symmetry; exact H]. apply esc_single. assert (c = 116) by lia. cbn. intuition congruence. }
  destruct (c =? 118) eqn:C6. { eapply Hone; [|symmetry; exact H]. apply esc_single. assert (c = 118) by lia. cbn. intuition congruence. }
  destruct (is_octal c) eqn:Co.
  { unfold read_octal_escape in H. destruct tpl; [discriminate|].
    destruct (octal_loop _ s1 [c]) as [ds s2] eqn:El. injection H as <- <- <-.
    apply octal_loop_sound in El. destruct El as [e [-> [D2 [D3 [D4 D5]]]]].
    exists ([c] ++ e). cbn [app]. rewrite Hr, <- R1, D2. split; [reflexivity|]. apply esc_octal.
    - apply num8_iff. split; [constructor; assumption|reflexivity].
    - unfold octal_escape. cbn [length hd]. split; [lia|]. destruct (c <=? 51); split; try lia;
        (destruct D5; [left; lia|right; assumption]). }
  destruct (c =? 120) eqn:Cx.
  { assert (Hc : c = 120) by lia. unfold read_hex_escape in H.
    destruct (read s1) as [h0 s2] eqn:E0. destruct (read s2) as [h1 s3] eqn:E1.
    destruct (_ || _) eqn:Eh; [discriminate|]. injection H as <- <- <-.
    assert (H0 : is_hex h0 = true) by (destruct (is_hex h0); [reflexivity|discriminate]).
    assert (H1 : is_hex h1 = true) by (destruct (is_hex h1); [reflexivity|rewrite orb_true_r in Eh; discriminate]).
    assert (Hinv : forall a h b, read a = (h, b) -> is_hex h = true -> rest a = h :: rest b).
    { intros a h b Ea Hh. pose proof (read_fst a) as G. rewrite Ea in G. cbn in G.
      destruct ((peek a =? 13) || (peek a =? 10)) eqn:E; [subst h; discriminate|].
      destruct (peek_inv a h) as [q Hq]; [congruence|unfold is_hex, EOF in *; lia|].
      destruct (read_one a h q Hq) as [b' [Eb [Rb _]]]; [unfold is_hex in Hh; lia|]. congruence. }
    exists [120; h0; h1]. rewrite Hr, Hc, <- R1. rewrite (Hinv _ _ _ E0 H0), (Hinv _ _ _ E1 H1). split; [reflexivity|].
    apply esc_hex. apply num16_iff. split; [repeat constructor; assumption|reflexivity]. }
  destruct (c =? 117) eqn:Cu.
  { assert (Hc : c = 117) by lia. destruct (read_unicode_escape_seq _ _ _ _) as [[r' e] s2] eqn:Eu.
    destruct e as [[m o]|]; [discriminate|]. injection H as <- <- <-. apply ues_sound in Eu.
    destruct Eu as [[ds [D1 [D2 [D3 D4]]]]|[ds [D1 [D2 D3]]]].
    - exists (117 :: 123 :: ds ++ [125]). split; [rewrite Hr, Hc, <- R1, D2; cbn; rewrite <- app_assoc; reflexivity|apply esc_ubrace; assumption].
    - exists (117 :: ds). split; [rewrite Hr, Hc, <- R1, D2; reflexivity|apply esc_u4; assumption]. }
  eapply Hone; [|symmetry; exact H]. apply esc_self; try assumption; cbn; unfold is_octal in Co; lia.
Qed.

Lemma read_escape_complete : forall s r es after, src_ok s -> rest s = es ++ after -> escape es after r ->
  exists lo s', read_escape_seq U false s = ((r, None, lo), s') /\ rest s' = after.
Proof.
  intros s r es after Hok Hr He. unfold read_escape_seq.
  destruct He as [c r after Hin|a b v after Hv|ds v after Hl Hv|ds v after Hn Hv Hm|ds v after Hv Ho|c after H1 H2 H3 H4 H5].
  - cbn in Hr. assert (Hc : c <> 13) by (cbn in Hin; intuition congruence).
    destruct (read_one s c _ Hr Hc) as [s1 [-> [R1 _]]].
    cbn in Hin. repeat (destruct Hin as [Hin|Hin]; [injection Hin as <- <-; cbn; eauto|]). contradiction.
  - cbn in Hr. apply num16_iff in Hv. destruct Hv as [HF ->]. inversion HF as [|? ? Ha HF']; subst. inversion HF' as [|? ? Hb _]; subst.
    destruct (read_one s 120 _ Hr) as [s1 [-> [R1 _]]]; [lia|]. cbn.
    unfold read_hex_escape. destruct (read_one s1 a _ R1) as [s2 [-> [R2 _]]]; [apply (is_hex_ne a Ha)|].
    destruct (read_one s2 b _ R2) as [s3 [-> [R3 _]]]; [apply (is_hex_ne b Hb)|]. rewrite Ha, Hb. cbn. eauto.
  - cbn in Hr. destruct (read_one s 117 _ Hr) as [s1 [-> [R1 R2]]]; [lia|]. cbn.
    destruct (ues_complete (ofst s1) s1 v ds after) as [s2 [-> E2]]; try assumption; [eapply adv_ok; [apply R2|assumption]|tauto|]. eauto.
  - cbn in Hr. rewrite <- app_assoc in Hr. destruct (read_one s 117 _ Hr) as [s1 [-> [R1 R2]]]; [lia|]. cbn.
    destruct (ues_complete (ofst s1) s1 v ds after) as [s2 [-> E2]]; try assumption; [eapply adv_ok; [apply R2|assumption]|tauto|]. eauto.
  - apply num8_iff in Hv. destruct Hv as [HF ->]. destruct Ho as [Ho1 [Ho2 Ho3]]. destruct ds as [|c e]; [cbn in Ho1; lia|].
    cbn [app length hd] in *. inversion HF as [|? ? Hc HF']; subst. destruct (is_octal_ne c Hc) as [N1 [N2 N3]].
    destruct (read_one s c _ Hr N1) as [s1 [-> [R1 R2]]].
    pose proof Hc as Hc'. unfold is_octal in Hc'. rewrite Hc.
    replace (c =? 98) with false by lia. replace (c =? 102) with false by lia. replace (c =? 110) with false by lia.
    replace (c =? 114) with false by lia. replace (c =? 116) with false by lia. replace (c =? 118) with false by lia.
    unfold read_octal_escape.
    destruct (octal_loop_complete (if c <=? 51 then 2%nat else 1%nat) s1 [c] e after) as [s2 [-> E2]]; try assumption.
    + destruct (c <=? 51); lia.
    + destruct (c <=? 51); (destruct Ho3; [left; lia|right; assumption]).
    + cbn [app]. eauto.
  - cbn in Hr. assert (Hc : c <> 13) by (intros ->; discriminate).
    destruct (read_one s c _ Hr Hc) as [s1 [-> [R1 _]]].
    assert (Hn : c <> 98 /\ c <> 102 /\ c <> 110 /\ c <> 114 /\ c <> 116 /\ c <> 118) by (cbn in H1; intuition congruence).
    replace (is_octal c) with false by (cbn in H4; unfold is_octal; lia).
    replace (c =? 98) with false by lia. replace (c =? 102) with false by lia. replace (c =? 110) with false by lia.
    replace (c =? 114) with false by lia. replace (c =? 116) with false by lia. replace (c =? 118) with false by lia.
    replace (c =? 120) with false by lia. replace (c =? 117) with false by lia. eauto.
Qed.

(** ** The string loop *)

Lemma read_line_term_sound : forall s, is_line_term (peek s) = true ->
  exists cs, rest s = cs ++ rest (read_line_term s) /\ line_continuation cs (rest (read_line_term s)).
Proof.
  intros s Hl. assert (Hne : rest s <> []) by (intros E; rewrite peek_rest, E in Hl; discriminate).
  assert (Hrl : read_line_term s = snd (read s)).
  { unfold read_line_term. pose proof (read_fst s) as G. destruct (read s) as [c s1]. cbn in G. cbn [snd].
    replace (c =? 13) with false; [reflexivity|]. match type of G with _ = (if ?b then _ else _) => destruct b eqn:E end; lia. }
  rewrite Hrl. destruct (rest s) as [|r rs] eqn:E; [congruence|]. rewrite (peek_cons _ _ _ E) in Hl.
  destruct (read_decode s r rs E) as [s' [-> [HD _]]]. cbn [snd]. fold (rest s') in HD. rewrite HD.
  unfold is_line_term in Hl. destruct (r =? 13) eqn:E13.
  - assert (r = 13) by lia. subst r. destruct rs as [|y rs'].
    + exists [13]. split; [reflexivity|]. right. cbn. split; [reflexivity|lia].
    + destruct (y =? 10) eqn:E10.
      * assert (y = 10) by lia. subst y. exists [13; 10]. split; [reflexivity|]. left. cbn. tauto.
      * exists [13]. split; [reflexivity|]. right. cbn. split; [reflexivity|lia].
  - exists [r]. split; [reflexivity|]. left. cbn.
    assert (Hr : r = 10 \/ r = 8232 \/ r = 8233) by lia. destruct Hr as [-> | [-> | -> ]]; tauto.
Qed.
Lemma read_line_term_complete : forall s cs after, rest s = cs ++ after -> line_continuation cs after ->
  is_line_term (peek s) = true /\ rest (read_line_term s) = after.
Proof.
  intros s cs after Hr Hc. assert (Hl : is_line_term (peek s) = true).
  { rewrite peek_rest, Hr. destruct Hc as [Hc|[-> _]]; [|reflexivity].
    cbn in Hc. destruct Hc as [<-|[<-|[<-|[<-|Hc]]]]; [..|contradiction]; reflexivity. }
  split; [exact Hl|]. assert (Hrl : read_line_term s = snd (read s)).
  { unfold read_line_term. pose proof (read_fst s) as G. destruct (read s) as [c s1]. cbn in G. cbn [snd].
    replace (c =? 13) with false; [reflexivity|]. match type of G with _ = (if ?b then _ else _) => destruct b eqn:E end; lia. }
  rewrite Hrl. destruct (rest s) as [|r rs] eqn:E; [rewrite (peek_rest s), E in Hl; discriminate|].
  destruct (read_decode s r rs E) as [s' [-> [HD _]]]. cbn [snd]. fold (rest s') in HD. rewrite HD.
  destruct Hc as [Hc|[-> Hn]].
  - cbn in Hc. destruct Hc as [<-|[<-|[<-|[<-|Hc]]]]; [..|contradiction]; cbn in Hr; injection Hr as -> ->; reflexivity.
  - cbn in Hr. injection Hr as -> ->. cbn. destruct after as [|y after]; [reflexivity|]. cbn in Hn.
    replace (y =? 10) with false by lia. reflexivity.
Qed.

Definition js_of (feat : N) : bool := has feat FEAT_JSON_SUPER_SET.
Lemma lex_lt_false : forall feat c, lex_line_term feat c = false <-> (c <> 10 /\ c <> 13 /\ (c = 8232 \/ c = 8233 -> js_of feat = true)).
Proof. intros feat c. unfold lex_line_term, js_of. destruct (has feat FEAT_JSON_SUPER_SET); cbn; lia. Qed.

(** What the buffer holds: [v0] is the value of the text from [start] to [s]. *)
Definition buf_inv (start : nat) (s : source) (buf : option bytes) (v0 : list rune) : Prop :=
  match buf with
  | None => exists s0, ofst s0 = start /\ src_ok s0 /\ code s0 = code s /\ rest s0 = v0 ++ rest s
  | Some b => decode_all b = map norm v0
  end.

Lemma start_buf_inv : forall start s s1 buf v0 rs, src_ok s -> (start <= ofst s)%nat -> buf_inv start s buf v0 ->
  rest s = 92 :: rs -> read s = (92, s1) -> decode_all (start_buf buf s1 start (ofst s1)) = map norm v0.
Proof.
  intros start s s1 buf v0 rs Hok Hst Hi Hr Er. unfold start_buf. destruct buf as [b|]; [exact Hi|].
  destruct (read_ascii s 92 rs Hr) as [s1' [Er' [R1 [R2 R3]]]]; [lia|lia|]. assert (s1' = s1) by congruence. subst s1'.
  destruct Hi as [s0 [H1 [H2 [H3 H4]]]]. rewrite R3. replace (Nat.eqb (S (ofst s)) start) with false by lia. cbn [pred].
  unfold text. rewrite (adv_code _ _ (sadv_adv _ _ R2)).
  assert (Hle : (ofst s <= length (code s))%nat) by (pose proof (src_ok_ofst _ Hok); lia).
  replace ((start <=? ofst s)%nat && (ofst s <=? length (code s))%nat) with true by lia.
  rewrite <- H3, <- H1. assert (Hs := slice_text s0 s v0 H2 Hok (eq_sym H3)). rewrite <- Hs; [|lia|assumption].
  symmetry. eapply decode_all_norm. apply le_n.
Qed.

Lemma str_loop_sound : forall n feat tpl open start s buf lg buf' lg' hi s' v0,
  open = 34 \/ open = 39 -> src_ok s -> (start <= ofst s)%nat -> buf_inv start s buf v0 ->
  str_loop U n feat tpl open start s buf lg = Some (SOk buf' lg' hi, s') ->
  exists body v s2, rest s = body ++ open :: rest s' /\ str_body (js_of feat) open (rest s') body v
    /\ adv s s2 /\ rest s2 = open :: rest s' /\ hi = ofst s2 /\ buf_inv start s2 buf' (v0 ++ v)
    /\ (buf' = None -> buf = None /\ body = v).
Proof.
  induction n as [|n IH]; intros feat tpl open start s buf lg buf' lg' hi s' v0 Hq Hok Hst Hi H; cbn [str_loop] in H; [discriminate|].
  destruct (read s) as [c s1] eqn:Er.
  destruct (c =? EOF) eqn:Ee; [discriminate|].
  assert (Ha : sadv s s1) by (eapply read_sadv'; [exact Er|lia]).
  assert (Hok1 : src_ok s1) by (eapply adv_ok; [apply Ha|assumption]).
  assert (Hst1 : (start <= ofst s1)%nat) by (pose proof (adv_ofst_le _ _ (sadv_adv _ _ Ha)); lia).
  assert (Hc : c <> 10 -> c <> 13 /\ rest s = c :: rest s1).
  { intros Hn. pose proof (read_fst s) as G. rewrite Er in G. cbn in G. match type of G with _ = (if ?b then _ else _) => destruct b eqn:E end; [lia|].
    assert (c <> 13) by lia. split; [assumption|]. destruct (peek_inv s c) as [q Hq']; [congruence|lia|].
    destruct (read_one s c q Hq') as [s1' [E1 [E2 _]]]; [assumption|]. congruence. }
  destruct (c =? 92) eqn:E92.
  { assert (c = 92) by lia. subst c. destruct Hc as [_ Hc]; [lia|].
    pose proof (start_buf_inv start s s1 buf v0 _ Hok Hst Hi Hc Er) as Hsb.
    destruct (is_line_term (peek s1)) eqn:El.
    - destruct (read_line_term_sound s1 El) as [cs [C1 C2]].
      pose proof (read_line_term_adv s1) as Hla.
      apply (IH _ _ _ _ _ _ _ _ _ _ _ v0) in H; try assumption.
      + destruct H as [body [v [s2 [B1 [B2 [B3 [B4 [B5 [B6 B7]]]]]]]]].
        exists (92 :: cs ++ body), v, s2. split; [rewrite Hc, C1, B1; cbn; rewrite <- app_assoc; reflexivity|].
        split; [apply sb_cont; [rewrite <- B1; exact C2|exact B2]|].
        split; [eapply adv_trans; [apply Ha|]; eapply adv_trans; [exact Hla|exact B3]|].
        split; [exact B4|]. split; [exact B5|]. split; [exact B6|]. intros E. destruct (B7 E); discriminate.
      + eapply adv_ok; eassumption.
      + pose proof (adv_ofst_le _ _ Hla). lia.
    - destruct (read_escape_seq U tpl s1) as [[[r e] lo] s2] eqn:Es. destruct e as [m|]; [discriminate|].
      destruct (r =? EOF) eqn:Ere; [discriminate|].
      pose proof (read_escape_seq_adv U tpl s1) as Hea. rewrite Es in Hea. cbn [snd] in Hea.
      assert (Hpe : peek s1 <> EOF).
      { intros G. assert (Hp := G). apply peek_eof_iff in G. unfold read_escape_seq in Es. rewrite (read_eof s1 G) in Es.
        cbn in Es. injection Es as <- _ _. unfold EOF in Ere. lia. }
      destruct (read_escape_sound tpl s1 r lo s2 El Hpe Es) as [es [S1 S2]].
      apply (IH _ _ _ _ _ _ _ _ _ _ _ (v0 ++ [r])) in H; try assumption.
      + destruct H as [body [v [s3 [B1 [B2 [B3 [B4 [B5 [B6 B7]]]]]]]]].
        exists (92 :: es ++ body), (r :: v), s3. split; [rewrite Hc, S1, B1; cbn; rewrite <- app_assoc; reflexivity|].
        split; [apply sb_esc; [rewrite <- B1; exact S2|exact B2]|].
        split; [eapply adv_trans; [apply Ha|]; eapply adv_trans; [exact Hea|exact B3]|].
        split; [exact B4|]. split; [exact B5|]. rewrite <- app_assoc in B6. split; [exact B6|].
        intros E. destruct (B7 E); discriminate.
      + eapply adv_ok; eassumption.
      + pose proof (adv_ofst_le _ _ Hea). lia.
      + cbn [buf_inv]. rewrite decode_app_encode, Hsb, map_app. reflexivity. }
  destruct (lex_line_term feat c) eqn:El; [discriminate|]. apply lex_lt_false in El. destruct El as [L1 [L2 L3]].
  destruct (Hc L1) as [_ Hc']. clear Hc.
  destruct (c =? open) eqn:Eq.
  - assert (c = open) by lia. subst c. injection H as <- <- <- <-.
    exists [], [], s. destruct (read_ascii s open _ Hc') as [s1' [E1 [_ [_ E4]]]]; [lia|lia|].
    assert (s1' = s1) by congruence. subst s1'.
    split; [exact Hc'|]. split; [constructor|]. split; [apply adv_refl|]. split; [exact Hc'|]. split; [lia|].
    rewrite app_nil_r. split; [exact Hi|tauto].
  - apply (IH _ _ _ _ _ _ _ _ _ _ _ (v0 ++ [c])) in H; try assumption.
    + destruct H as [body [v [s3 [B1 [B2 [B3 [B4 [B5 [B6 B7]]]]]]]]].
      exists (c :: body), (c :: v), s3. split; [rewrite Hc', B1; reflexivity|].
      split; [apply sb_char; try assumption; lia|].
      split; [eapply adv_trans; [apply Ha|exact B3]|].
      split; [exact B4|]. split; [exact B5|]. rewrite <- app_assoc in B6. split; [exact B6|].
      intros E. destruct (B7 E) as [G1 ->]. destruct buf; [discriminate|]. tauto.
    + destruct buf as [b|]; cbn [buf_inv] in *.
      * rewrite decode_app_encode, Hi, map_app. reflexivity.
      * destruct Hi as [s0 [H1 [H2 [H3 H4]]]]. exists s0. split; [exact H1|]. split; [exact H2|].
        split; [rewrite H3; symmetry; apply adv_code, Ha|]. rewrite H4, Hc', <- app_assoc. reflexivity.
Qed.

Lemma str_loop_complete : forall feat open after body v, open = 34 \/ open = 39 -> str_body (js_of feat) open after body v ->
  forall n start s buf lg, src_ok s -> (lenraw s < n)%nat -> rest s = body ++ open :: after ->
  exists buf' lg' hi s', str_loop U n feat false open start s buf lg = Some (SOk buf' lg' hi, s') /\ rest s' = after.
Proof.
  intros feat open after body v Hq Hb. induction Hb as [|c rs v H1 H2 H3 H4 H5 Hb IH|cs rs v Hc Hb IH|es r rs v He Hb IH];
    intros n start s buf lg Hok Hn Hr; (destruct n as [|n]; [lia|]); cbn [str_loop].
  - cbn [app] in Hr. destruct (read_one s open after Hr) as [s1 [-> [R1 R2]]]; [lia|].
    replace (open =? EOF) with false by (unfold EOF; lia). replace (open =? 92) with false by lia.
    replace (lex_line_term feat open) with false by (unfold lex_line_term; lia). rewrite Z.eqb_refl. eauto 10.
  - cbn [app] in Hr. destruct (read_one s c _ Hr H4) as [s1 [-> [R1 R2]]].
    assert (Hc0 : c <> EOF) by (pose proof (rest_ge0 s) as G; rewrite Hr in G; inversion G; unfold EOF; lia).
    replace (c =? EOF) with false by lia. replace (c =? 92) with false by lia.
    replace (lex_line_term feat c) with false by (symmetry; apply lex_lt_false; tauto). replace (c =? open) with false by lia.
    apply IH; [eapply adv_ok; [apply R2|assumption]|destruct R2; lia|exact R1].
  - cbn [app] in Hr. rewrite <- app_assoc in Hr. destruct (read_one s 92 _ Hr) as [s1 [-> [R1 R2]]]; [lia|].
    cbn [Z.eqb Pos.eqb EOF]. destruct (read_line_term_complete s1 cs _ R1 Hc) as [-> L2].
    pose proof (read_line_term_adv s1) as Hla.
    apply IH; [eapply adv_ok; [exact Hla|eapply adv_ok; [apply R2|assumption]]|apply adv_len in Hla; destruct R2; lia|exact L2].
  - cbn [app] in Hr. rewrite <- app_assoc in Hr. destruct (read_one s 92 _ Hr) as [s1 [-> [R1 R2]]]; [lia|].
    cbn [Z.eqb Pos.eqb EOF].
    assert (Hlt : is_line_term (peek s1) = false).
    { destruct He as [c r after' Hin|a b v' after' Hv|ds v' after' Hl Hv|ds v' after' Hn' Hv Hm|ds v' after' Hv Ho|c after' G1 G2 G3 G4 G5];
        cbn [app] in R1; try (rewrite (peek_cons _ _ _ R1); reflexivity).
      - rewrite (peek_cons _ _ _ R1). cbn in Hin.
        repeat (destruct Hin as [Hin|Hin]; [injection Hin as <- <-; reflexivity|]). contradiction.
      - destruct ds as [|d ds]; [destruct Ho as [Ho _]; cbn in Ho; lia|]. apply num8_iff in Hv. destruct Hv as [HF _].
        inversion HF as [|? ? Hd _]; subst. cbn [app] in R1. rewrite (peek_cons _ _ _ R1). unfold is_octal, is_line_term in *. lia.
      - rewrite (peek_cons _ _ _ R1). exact G5. }
    rewrite Hlt.
    assert (Hok1 : src_ok s1) by (eapply adv_ok; [apply R2|assumption]).
    assert (Hr0 : r <> EOF).
    { assert (Hpos : forall base ds a x, 0 <= a -> 0 < base -> num_acc base a ds = Some x -> 0 <= x).
      { clear. intros base. induction ds as [|d ds IH]; intros a x Ha Hb H; cbn in H; [congruence|].
        destruct (digit_value d) as [z|] eqn:E; [|discriminate]. destruct (z <? base); [|discriminate].
        apply IH in H; try assumption. unfold digit_value in E.
        destruct ((48 <=? d) && (d <=? 57)) eqn:E1; [injection E as <-; lia|].
        destruct ((97 <=? d) && (d <=? 102)) eqn:E2; [injection E as <-; lia|].
        destruct ((65 <=? d) && (d <=? 70)) eqn:E3; [injection E as <-; lia|discriminate]. }
      unfold EOF. destruct He as [c r after' Hin|a b v' after' Hv|ds v' after' Hl Hv|ds v' after' Hn' Hv Hm|ds v' after' Hv Ho|c after' G1 G2 G3 G4 G5];
        try (apply Hpos in Hv; lia).
      - cbn in Hin. repeat (destruct Hin as [Hin|Hin]; [injection Hin as <- <-; lia|]). contradiction.
      - pose proof (rest_ge0 s1) as G. cbn [app] in R1. rewrite R1 in G. inversion G; lia. }
    pose proof (read_escape_seq_adv U false s1) as Hea.
    destruct (read_escape_complete s1 r es _ Hok1 R1 He) as [lo [s2 [Es R3]]]. rewrite Es in *. cbn [snd] in Hea.
    replace (r =? EOF) with false by lia.
    apply IH; [eapply adv_ok; eassumption|apply adv_len in Hea; destruct R2; lia|exact R3].
Qed.
End Str.
