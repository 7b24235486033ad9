(** Facts about UTF-8 decoding and encoding. *)
From Verif Require Import Base Utf8Model.
From Coq Require Import ZifyBool ZifyNat ZifyN.
Local Open Scope Z_scope.

Lemma decode_size_pos : forall b s, (1 <= snd (decode_rune (b :: s)) <= 4)%nat.
Proof.
  intros b s. unfold decode_rune.
  destruct (b2z b <? 128); [cbn; lia|].
  destruct (lead (b2z b)) as [[[sz lo] hi]|]; [|cbn; lia].
  destruct s as [|c1 s]; [cbn; lia|].
  destruct (negb (in_rng lo hi (b2z c1))); [cbn; lia|].
  destruct (Nat.eqb sz 2); [cbn; lia|].
  destruct s as [|c2 s]; [cbn; lia|].
  destruct (negb (is_cont (b2z c2))); [cbn; lia|].
  destruct (Nat.eqb sz 3); [cbn; lia|].
  destruct s as [|c3 s]; [cbn; lia|].
  destruct (negb (is_cont (b2z c3))); cbn; lia.
Qed.

Lemma decode_size_le : forall s, (snd (decode_rune s) <= length s)%nat.
Proof.
  intros s. destruct s as [|b s]; [cbn; lia|]. unfold decode_rune.
  destruct (b2z b <? 128); [cbn; lia|].
  destruct (lead (b2z b)) as [[[sz lo] hi]|]; [|cbn; lia].
  destruct s as [|c1 s]; [cbn; lia|].
  destruct (negb (in_rng lo hi (b2z c1))); [cbn; lia|].
  destruct (Nat.eqb sz 2); [cbn; lia|].
  destruct s as [|c2 s]; [cbn; lia|].
  destruct (negb (is_cont (b2z c2))); [cbn; lia|].
  destruct (Nat.eqb sz 3); [cbn; lia|].
  destruct s as [|c3 s]; [cbn; lia|].
  destruct (negb (is_cont (b2z c3))); cbn; lia.
Qed.

Lemma decode_rune_range : forall s, 0 <= fst (decode_rune s) <= MaxRune.
Proof.
  intros s. unfold MaxRune. destruct s as [|b s]; [cbn; unfold RuneError; lia|].
  unfold decode_rune, RuneError.
  pose proof (b2z_range b) as Hb.
  destruct (b2z b <? 128) eqn:E0; [cbn; lia|].
  destruct (lead (b2z b)) as [[[sz lo] hi]|] eqn:EL; [|cbn; lia].
  assert (HL : (sz = 2%nat /\ 194 <= b2z b <= 223 /\ lo = 128 /\ hi = 191)
             \/ (sz = 3%nat /\ b2z b = 224 /\ lo = 160 /\ hi = 191)
             \/ (sz = 3%nat /\ 225 <= b2z b <= 239 /\ 128 <= lo /\ hi <= 191)
             \/ (sz = 4%nat /\ b2z b = 240 /\ lo = 144 /\ hi = 191)
             \/ (sz = 4%nat /\ 241 <= b2z b <= 243 /\ lo = 128 /\ hi = 191)
             \/ (sz = 4%nat /\ b2z b = 244 /\ lo = 128 /\ hi = 143)).
  { unfold lead, in_rng in EL.
    repeat match type of EL with (if ?x then _ else _) = _ => destruct x eqn:? end;
      try discriminate; injection EL as <- <- <-; lia. }
  destruct s as [|c1 s]; [cbn; lia|].
  pose proof (b2z_range c1).
  destruct (negb (in_rng lo hi (b2z c1))) eqn:E1; [cbn; lia|].
  unfold in_rng in E1.
  destruct (Nat.eqb sz 2) eqn:S2; [cbn [fst]; lia|].
  destruct s as [|c2 s]; [cbn; lia|].
  pose proof (b2z_range c2).
  destruct (negb (is_cont (b2z c2))) eqn:E2; [cbn; lia|].
  unfold is_cont in E2.
  destruct (Nat.eqb sz 3) eqn:S3; [cbn [fst]; lia|].
  destruct s as [|c3 s]; [cbn; lia|].
  pose proof (b2z_range c3).
  destruct (negb (is_cont (b2z c3))) eqn:E3; [cbn; lia|].
  unfold is_cont in E3. cbn [fst]. lia.
Qed.

Lemma decode_rune_scalar : forall s, is_scalar (fst (decode_rune s)) = true.
Proof.
  intros s. unfold is_scalar, in_rng, MaxRune. destruct s as [|b s]; [reflexivity|].
  unfold decode_rune.
  pose proof (b2z_range b) as Hb.
  destruct (b2z b <? 128) eqn:E0; [cbn [fst]; lia|].
  destruct (lead (b2z b)) as [[[sz lo] hi]|] eqn:EL; [|reflexivity].
  assert (HL : (sz = 2%nat /\ 194 <= b2z b <= 223 /\ lo = 128 /\ hi = 191)
             \/ (sz = 3%nat /\ b2z b = 224 /\ lo = 160 /\ hi = 191)
             \/ (sz = 3%nat /\ 225 <= b2z b <= 239 /\ 128 <= lo /\ hi <= 191
                 /\ (b2z b = 237 -> hi = 159))
             \/ (sz = 4%nat /\ b2z b = 240 /\ lo = 144 /\ hi = 191)
             \/ (sz = 4%nat /\ 241 <= b2z b <= 243 /\ lo = 128 /\ hi = 191)
             \/ (sz = 4%nat /\ b2z b = 244 /\ lo = 128 /\ hi = 143)).
  { unfold lead, in_rng in EL.
    repeat match type of EL with (if ?x then _ else _) = _ => destruct x eqn:? end;
      try discriminate; injection EL as <- <- <-; lia. }
  destruct s as [|c1 s]; [reflexivity|].
  pose proof (b2z_range c1).
  destruct (negb (in_rng lo hi (b2z c1))) eqn:E1; [reflexivity|].
  unfold in_rng in E1.
  destruct (Nat.eqb sz 2) eqn:S2; [cbn [fst]; lia|].
  destruct s as [|c2 s]; [reflexivity|].
  pose proof (b2z_range c2).
  destruct (negb (is_cont (b2z c2))) eqn:E2; [reflexivity|].
  unfold is_cont in E2.
  destruct (Nat.eqb sz 3) eqn:S3; [cbn [fst]; lia|].
  destruct s as [|c3 s]; [reflexivity|].
  pose proof (b2z_range c3).
  destruct (negb (is_cont (b2z c3))) eqn:E3; [reflexivity|].
  unfold is_cont in E3. cbn [fst]. lia.
Qed.

Ltac dec_if :=
  match goal with
  | |- context [if ?x then _ else _] =>
      let E := fresh "E" in destruct x eqn:E; try (exfalso; lia)
  end.

Lemma lead_2 : forall b, 194 <= b <= 223 -> lead b = Some (2%nat, 128, 191).
Proof. intros b H. unfold lead, in_rng. replace ((194 <=? b) && (b <=? 223)) with true by lia. reflexivity. Qed.

Lemma lead_3 : forall b, 224 <= b <= 239 ->
  lead b = Some (3%nat, (if b =? 224 then 160 else 128), (if b =? 237 then 159 else 191)).
Proof.
  intros b H. unfold lead, in_rng.
  destruct ((194 <=? b) && (b <=? 223)) eqn:E1; [lia|].
  destruct (b =? 224) eqn:E2; [destruct (b =? 237) eqn:E3; [lia|reflexivity]|].
  destruct ((225 <=? b) && (b <=? 236)) eqn:E3; [destruct (b =? 237) eqn:E4; [lia|reflexivity]|].
  destruct (b =? 237) eqn:E4; [reflexivity|].
  destruct ((238 <=? b) && (b <=? 239)) eqn:E5; [reflexivity|lia].
Qed.

Lemma lead_4 : forall b, 240 <= b <= 244 ->
  lead b = Some (4%nat, (if b =? 240 then 144 else 128), (if b =? 244 then 143 else 191)).
Proof.
  intros b H. unfold lead, in_rng.
  destruct ((194 <=? b) && (b <=? 223)) eqn:E1; [lia|].
  destruct (b =? 224) eqn:E2; [lia|].
  destruct ((225 <=? b) && (b <=? 236)) eqn:E3; [lia|].
  destruct (b =? 237) eqn:E4; [lia|].
  destruct ((238 <=? b) && (b <=? 239)) eqn:E5; [lia|].
  destruct (b =? 240) eqn:E6; [destruct (b =? 244) eqn:E7; [lia|reflexivity]|].
  destruct ((241 <=? b) && (b <=? 243)) eqn:E7; [destruct (b =? 244) eqn:E8; [lia|reflexivity]|].
  destruct (b =? 244) eqn:E8; [reflexivity|lia].
Qed.

Lemma decode_2 : forall x0 x1 s, 194 <= x0 <= 223 -> 128 <= x1 <= 191 ->
  decode_rune (z2b x0 :: z2b x1 :: s) = ((x0 - 192) * 64 + (x1 - 128), 2%nat).
Proof.
  intros x0 x1 s H0 H1. unfold decode_rune. rewrite !b2z_z2b by lia.
  replace (x0 <? 128) with false by lia. rewrite lead_2 by lia.
  unfold in_rng. replace (negb ((128 <=? x1) && (x1 <=? 191))) with false by lia.
  reflexivity.
Qed.

Lemma decode_3 : forall x0 x1 x2 s, 224 <= x0 <= 239 -> 128 <= x1 <= 191 -> 128 <= x2 <= 191 ->
  (x0 = 224 -> 160 <= x1) -> (x0 = 237 -> x1 <= 159) ->
  decode_rune (z2b x0 :: z2b x1 :: z2b x2 :: s)
  = ((x0 - 224) * 4096 + (x1 - 128) * 64 + (x2 - 128), 3%nat).
Proof.
  intros x0 x1 x2 s H0 H1 H2 Ha Hb. unfold decode_rune. rewrite !b2z_z2b by lia.
  replace (x0 <? 128) with false by lia. rewrite lead_3 by lia.
  unfold in_rng, is_cont.
  destruct (x0 =? 224) eqn:E1; destruct (x0 =? 237) eqn:E2;
    match goal with |- context [negb (?a && (x1 <=? ?b))] =>
      replace (negb (a && (x1 <=? b))) with false by lia end;
    replace (negb ((128 <=? x2) && (x2 <=? 191))) with false by lia; reflexivity.
Qed.

Lemma decode_4 : forall x0 x1 x2 x3 s, 240 <= x0 <= 244 -> 128 <= x1 <= 191 -> 128 <= x2 <= 191 ->
  128 <= x3 <= 191 -> (x0 = 240 -> 144 <= x1) -> (x0 = 244 -> x1 <= 143) ->
  decode_rune (z2b x0 :: z2b x1 :: z2b x2 :: z2b x3 :: s)
  = ((x0 - 240) * 262144 + (x1 - 128) * 4096 + (x2 - 128) * 64 + (x3 - 128), 4%nat).
Proof.
  intros x0 x1 x2 x3 s H0 H1 H2 H3 Ha Hb. unfold decode_rune. rewrite !b2z_z2b by lia.
  replace (x0 <? 128) with false by lia. rewrite lead_4 by lia.
  unfold in_rng, is_cont.
  destruct (x0 =? 240) eqn:E1; destruct (x0 =? 244) eqn:E2;
    match goal with |- context [negb (?a && (x1 <=? ?b))] =>
      replace (negb (a && (x1 <=? b))) with false by lia end;
    replace (negb ((128 <=? x2) && (x2 <=? 191))) with false by lia;
    replace (negb ((128 <=? x3) && (x3 <=? 191))) with false by lia; reflexivity.
Qed.

Lemma decode_encode : forall r s, is_scalar r = true ->
  decode_rune (encode_rune r ++ s) = (r, length (encode_rune r)).
Proof.
  intros r s Hs. unfold is_scalar, in_rng, MaxRune in Hs.
  unfold encode_rune, in_rng, MaxRune.
  destruct ((0 <=? r) && (r <=? 127)) eqn:E1.
  { cbn [app length decode_rune]. rewrite b2z_z2b by lia.
    replace (r <? 128) with true by lia. reflexivity. }
  destruct ((128 <=? r) && (r <=? 2047)) eqn:E2.
  { cbn [app length]. rewrite decode_2 by lia. f_equal. lia. }
  destruct ((r <? 0) || (1114111 <? r) || (55296 <=? r) && (r <=? 57343)) eqn:E3; [lia|].
  destruct (r <=? 65535) eqn:E4.
  { cbn [app length]. rewrite decode_3 by lia. f_equal. lia. }
  cbn [app length]. rewrite decode_4 by lia. f_equal. lia.
Qed.

Lemma encode_nonscalar : forall r, is_scalar r = false -> encode_rune r = encode_rune RuneError.
Proof.
  intros r Hs. unfold is_scalar, in_rng, MaxRune in Hs.
  unfold encode_rune, in_rng, MaxRune.
  replace ((0 <=? r) && (r <=? 127)) with false by lia.
  replace ((128 <=? r) && (r <=? 2047)) with false by lia.
  replace ((r <? 0) || (1114111 <? r) || (55296 <=? r) && (r <=? 57343)) with true by lia.
  reflexivity.
Qed.

(** decode_all unfolds without mentioning fuel. *)
Lemma decode_all_fuel_irrel : forall n m s, (length s <= n)%nat -> (length s <= m)%nat ->
  decode_all_fuel n s = decode_all_fuel m s.
Proof.
  induction n as [|n IH]; intros m s Hn Hm.
  - destruct s; [|cbn in Hn; lia]. destruct m; reflexivity.
  - destruct m as [|m].
    + destruct s; [reflexivity|cbn in Hm; lia].
    + destruct s as [|b s]; [reflexivity|]. cbn [decode_all_fuel].
      pose proof (decode_size_pos b s).
      destruct (decode_rune (b :: s)) as [r k]. cbn [snd] in *. f_equal.
      apply IH; rewrite skipn_length; cbn [length] in *; lia.
Qed.

Lemma decode_all_nil : decode_all [] = [].
Proof. reflexivity. Qed.

Lemma decode_all_cons : forall b s,
  decode_all (b :: s) =
  fst (decode_rune (b :: s)) :: decode_all (skipn (snd (decode_rune (b :: s))) (b :: s)).
Proof.
  intros b s. pose proof (decode_size_pos b s) as Hp. unfold decode_all at 1.
  cbn [length decode_all_fuel].
  destruct (decode_rune (b :: s)) as [r k]. cbn [fst snd] in *. f_equal.
  apply decode_all_fuel_irrel; rewrite skipn_length; cbn [length] in *; lia.
Qed.

Lemma decode_all_encode : forall rs, Forall (fun r => is_scalar r = true) rs ->
  decode_all (flat_map encode_rune rs) = rs.
Proof.
  induction 1 as [|r rs Hr HF IH]; [reflexivity|].
  cbn [flat_map]. pose proof (decode_encode r (flat_map encode_rune rs) Hr) as HD.
  destruct (encode_rune r ++ flat_map encode_rune rs) as [|b t] eqn:E.
  { cbn in HD. injection HD as _ HL. destruct (encode_rune r) eqn:EE; [|discriminate HL].
    unfold encode_rune in EE.
    repeat match type of EE with (if ?x then _ else _) = _ => destruct x end; discriminate EE. }
  rewrite decode_all_cons, HD. cbn [fst snd]. f_equal.
  rewrite <- E, skipn_app, skipn_all, Nat.sub_diag. cbn. exact IH.
Qed.

Lemma z2b_eq : forall b z, b2z b = z -> z2b z = b.
Proof. intros b z <-. apply z2b_b2z. Qed.

(** A prefix decoded to anything but an error of width 1 is the encoding of the rune. *)
Lemma decode_prefix : forall b s r k, decode_rune (b :: s) = (r, k) ->
  (r = RuneError /\ k = 1%nat) \/ firstn k (b :: s) = encode_rune r.
Proof.
  intros b s r k H. unfold decode_rune in H.
  pose proof (b2z_range b) as Hb.
  destruct (b2z b <? 128) eqn:E0.
  { injection H as <- <-. right. unfold encode_rune.
    replace ((0 <=? b2z b) && (b2z b <=? 127)) with true by lia. cbn [firstn]. rewrite z2b_b2z. reflexivity. }
  destruct (lead (b2z b)) as [[[sz lo] hi]|] eqn:EL; [|injection H as <- <-; left; auto].
  assert (HL : (sz = 2%nat /\ 194 <= b2z b <= 223 /\ lo = 128 /\ hi = 191)
             \/ (sz = 3%nat /\ b2z b = 224 /\ lo = 160 /\ hi = 191)
             \/ (sz = 3%nat /\ 225 <= b2z b <= 239 /\ 128 <= lo /\ hi <= 191
                 /\ (b2z b = 237 -> hi = 159))
             \/ (sz = 4%nat /\ b2z b = 240 /\ lo = 144 /\ hi = 191)
             \/ (sz = 4%nat /\ 241 <= b2z b <= 243 /\ lo = 128 /\ hi = 191)
             \/ (sz = 4%nat /\ b2z b = 244 /\ lo = 128 /\ hi = 143)).
  { unfold lead, in_rng in EL.
    repeat match type of EL with (if ?x then _ else _) = _ => destruct x eqn:? end;
      try discriminate; injection EL as <- <- <-; lia. }
  clear EL.
  destruct s as [|c1 s]; [injection H as <- <-; left; auto|].
  pose proof (b2z_range c1).
  destruct (negb (in_rng lo hi (b2z c1))) eqn:E1; [injection H as <- <-; left; auto|].
  unfold in_rng in E1.
  destruct (Nat.eqb sz 2) eqn:S2.
  { injection H as <- <-. right.
    set (r := (b2z b - 192) * 64 + (b2z c1 - 128)).
    assert (Hr : 128 <= r <= 2047) by lia.
    unfold encode_rune.
    replace ((0 <=? r) && (r <=? 127)) with false by lia.
    replace ((128 <=? r) && (r <=? 2047)) with true by lia.
    cbn [firstn]. rewrite (z2b_eq b) by lia. rewrite (z2b_eq c1) by lia. reflexivity. }
  destruct s as [|c2 s]; [injection H as <- <-; left; auto|].
  pose proof (b2z_range c2).
  destruct (negb (is_cont (b2z c2))) eqn:E2; [injection H as <- <-; left; auto|].
  unfold is_cont in E2.
  destruct (Nat.eqb sz 3) eqn:S3.
  { injection H as <- <-. right.
    set (r := (b2z b - 224) * 4096 + (b2z c1 - 128) * 64 + (b2z c2 - 128)).
    assert (Hr : 2048 <= r <= 65535 /\ ~ (55296 <= r <= 57343)) by lia.
    unfold encode_rune, in_rng, MaxRune.
    replace ((0 <=? r) && (r <=? 127)) with false by lia.
    replace ((128 <=? r) && (r <=? 2047)) with false by lia.
    replace ((r <? 0) || (1114111 <? r) || ((55296 <=? r) && (r <=? 57343))) with false by lia.
    replace (r <=? 65535) with true by lia.
    cbn [firstn]. rewrite (z2b_eq b) by lia. rewrite (z2b_eq c1) by lia. rewrite (z2b_eq c2) by lia. reflexivity. }
  destruct s as [|c3 s]; [injection H as <- <-; left; auto|].
  pose proof (b2z_range c3).
  destruct (negb (is_cont (b2z c3))) eqn:E3; [injection H as <- <-; left; auto|].
  unfold is_cont in E3.
  injection H as <- <-. right.
  set (r := (b2z b - 240) * 262144 + (b2z c1 - 128) * 4096 + (b2z c2 - 128) * 64 + (b2z c3 - 128)).
  assert (Hr : 65536 <= r <= 1114111) by lia.
  unfold encode_rune, in_rng, MaxRune.
  replace ((0 <=? r) && (r <=? 127)) with false by lia.
  replace ((128 <=? r) && (r <=? 2047)) with false by lia.
  replace ((r <? 0) || (1114111 <? r) || ((55296 <=? r) && (r <=? 57343))) with false by lia.
  replace (r <=? 65535) with false by lia.
  cbn [firstn]. rewrite (z2b_eq b) by lia. rewrite (z2b_eq c1) by lia. rewrite (z2b_eq c2) by lia.
  rewrite (z2b_eq c3) by lia. reflexivity.
Qed.

(** The replacement of width one is reported exactly when no scalar value is encoded at the front. *)
Lemma decode_malformed_iff : forall b s,
  decode_rune (b :: s) = (RuneError, 1%nat)
  <-> ~ exists r t, is_scalar r = true /\ b :: s = encode_rune r ++ t.
Proof.
  intros b s. split.
  - intros H [r [t [Hr E]]]. rewrite E, decode_encode in H by assumption.
    injection H as H1 H2. subst r. discriminate H2.
  - intros H. destruct (decode_rune (b :: s)) as [r k] eqn:E.
    destruct (decode_prefix b s r k E) as [[-> ->]|HF]; [reflexivity|]. exfalso. apply H.
    exists r, (skipn k (b :: s)). split.
    + pose proof (decode_rune_scalar (b :: s)) as HS. rewrite E in HS. exact HS.
    + rewrite <- HF, firstn_skipn. reflexivity.
Qed.
