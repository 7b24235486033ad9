(** Proofs about the readers of numbers. *)
From Verif Require Import Base Utf8Model Utf8Proofs SourceModel SourceSpec SourceProofs TokenModel LexModel LexSpec LexProofs LexGapProofs LexKindProofs LexStrProofs LexTokSpec LexNameSpec LexNameProofs LexNumSpec.
From Coq Require Import ZifyBool ZifyNat ZifyN.
Local Open Scope Z_scope.

Section Num.
Variable U : uni.
Hypothesis HU : uni_ok U.

Lemma dig10 : forall c, is_dig 10 c = is_digit c.
Proof using Type. clear. intros c. unfold is_dig, is_digit, digit_value. repeat match goal with |- context [if ?b then _ else _] => destruct b eqn:? end; lia. Qed.
Lemma dig8 : forall c, is_dig 8 c = is_octal c.
Proof using Type. clear. intros c. unfold is_dig, is_octal, digit_value. repeat match goal with |- context [if ?b then _ else _] => destruct b eqn:? end; lia. Qed.
Lemma dig16 : forall c, is_dig 16 c = is_hex c.
Proof using Type. clear. intros c. unfold is_dig, is_hex, digit_value. repeat match goal with |- context [if ?b then _ else _] => destruct b eqn:? end; lia. Qed.
Lemma dig2 : forall c, is_dig 2 c = ((c =? 48) || (c =? 49))%bool.
Proof using Type. clear. intros c. unfold is_dig, digit_value. repeat match goal with |- context [if ?b then _ else _] => destruct b eqn:? end; lia. Qed.
Lemma dig_range : forall b c, is_dig b c = true -> (48 <= c <= 57) \/ (97 <= c <= 102) \/ (65 <= c <= 70).
Proof using Type. clear. intros b c. unfold is_dig, digit_value. repeat match goal with |- context [if ?b then _ else _] => destruct b eqn:? end; lia. Qed.

(** A run of digits and separators, [prev]: a digit precedes. *)
Fixpoint run_ok (sep : bool) (base : Z) (prev : bool) (run : list rune) : bool :=
  match run with
  | [] => prev
  | c :: r => if is_dig base c then run_ok sep base true r else (c =? 95) && sep && prev && run_ok sep base false r
  end.
Definition stop (base : Z) (rs : list rune) : Prop := forall c r, rs = c :: r -> is_dig base c = false /\ c <> 95.

Lemma run_digits : forall sep base run, (run_ok sep base false run = true -> digits sep base run) /\
  (run_ok sep base true run = true -> forall d, is_dig base d = true -> digits sep base (d :: run)).
Proof using Type.
  clear. intros sep base run. induction run as [|c r [IH1 IH2]]; cbn [run_ok].
  - split; [discriminate|]. intros _ d Hd. constructor. exact Hd.
  - destruct (is_dig base c) eqn:E.
    + split; [intros H; apply IH2; assumption|]. intros H d Hd. apply dg_more; [exact Hd|apply IH2; assumption].
    + split; [rewrite Bool.andb_false_r; discriminate|]. intros H d Hd. assert (c = 95 /\ sep = true /\ run_ok sep base false r = true) as [-> [-> H3]] by lia.
      apply dg_sep; [reflexivity|exact Hd|apply IH1; exact H3].
Qed.
Lemma digits_run : forall sep base run, digits sep base run -> forall p, run_ok sep base p run = true.
Proof using Type.
  clear. intros sep base run H. induction H; intros p; cbn [run_ok].
  - rewrite H. reflexivity.
  - rewrite H. apply IHdigits.
  - rewrite H0. cbn [run_ok]. destruct (is_dig base 95) eqn:E; [apply dig_range in E; lia|]. rewrite IHdigits, H. reflexivity.
Qed.
Lemma digits_iff : forall sep base run, digits sep base run <-> run_ok sep base false run = true.
Proof using Type. clear. intros. split; [intros H; apply digits_run; exact H|apply run_digits]. Qed.

Lemma sadv_len : forall s s1, sadv s s1 -> (lenraw s1 < lenraw s)%nat.
Proof using Type. intros s s1 H. apply H. Qed.
Definition prev_of (i : nat) (last : rune) : bool := negb (Nat.eqb i 0) && negb (last =? 95).
Definition inv (i : nat) (last : rune) : Prop := (i = 0%nat /\ last = 0) \/ (i <> 0%nat).
Definition sep_of (feat : N) : bool := has feat FEAT_NUM_SEP.

Lemma read_dig : forall s c, peek s = c -> (48 <= c <= 122) -> exists s1, read s = (c, s1) /\ rest s = c :: rest s1 /\ sadv s s1.
Proof using Type.
  intros s c H Hc. destruct (peek_inv s c H) as [rs Hr]; [unfold EOF; lia|]. destruct (read_one s c rs Hr) as [s1 [E [R1 R2]]]; [lia|].
  exists s1. rewrite R1. auto.
Qed.
Lemma stop_peek : forall s base, is_dig base (peek s) = false -> peek s <> 95 -> stop base (rest s).
Proof using Type. intros s base H1 H2 c r E. rewrite (peek_cons _ _ _ E) in *. auto. Qed.

Lemma dec_loop_sound : forall feat opt n s i last s', (lenraw s < n)%nat -> inv i last -> dec_loop U n feat opt s i last = (None, s') ->
  exists run, rest s = run ++ rest s' /\ stop 10 (rest s') /\ (run_ok (sep_of feat) 10 (prev_of i last) run = true \/ (run = [] /\ i = 0%nat /\ opt = true)).
Proof using Type.
  intros feat opt n. induction n as [|n IH]; intros s i last s' Hn Hi H; [lia|]. cbn [dec_loop] in H.
  destruct (is_digit (peek s) || (peek s =? 95)) eqn:E.
  - destruct ((peek s =? 95) && negb (has feat FEAT_NUM_SEP)) eqn:E1; [discriminate|].
    destruct (Nat.eqb i 0 && (peek s =? 95)) eqn:E2; [discriminate|]. destruct ((last =? 95) && (peek s =? 95)) eqn:E3; [discriminate|].
    destruct (read_dig s _ eq_refl) as [s1 [Er [Hr Ha]]]; [unfold is_digit in E; lia|]. rewrite Er in H. cbn [snd] in H.
    apply IH in H; [|pose proof (sadv_len _ _ Ha); lia|right; lia]. destruct H as [run [R1 [R2 R3]]].
    exists (peek s :: run). split; [rewrite Hr, R1; reflexivity|]. split; [exact R2|]. left. cbn [run_ok]. rewrite dig10.
    destruct R3 as [R3|[_ [R3 _]]]; [|lia]. unfold prev_of in R3. cbn [Nat.eqb negb andb] in R3.
    destruct (is_digit (peek s)) eqn:Ed.
    + replace (negb (peek s =? 95)) with true in R3 by (unfold is_digit in Ed; lia). exact R3.
    + replace (negb (peek s =? 95)) with false in R3 by lia. rewrite R3. unfold sep_of, prev_of. destruct Hi as [[-> ->]|Hi]; [lia|]. destruct (has feat FEAT_NUM_SEP); lia.
  - destruct (last =? 95) eqn:E1; [discriminate|]. destruct (Nat.eqb i 0 && negb opt) eqn:E2; [destruct (is_id_start U (peek s)); discriminate|].
    injection H as <-. exists []. split; [reflexivity|]. split; [apply stop_peek; [rewrite dig10|]; lia|]. cbn [run_ok]. unfold prev_of.
    destruct (Nat.eqb i 0) eqn:E3; [right; destruct opt; [|discriminate]; repeat split; lia|left; rewrite E1; reflexivity].
Qed.

Lemma dec_loop_complete : forall feat opt after, stop 10 after -> forall run n s i last, (lenraw s < n)%nat -> inv i last ->
  rest s = run ++ after -> (run_ok (sep_of feat) 10 (prev_of i last) run = true \/ (run = [] /\ i = 0%nat /\ opt = true)) ->
  exists s', dec_loop U n feat opt s i last = (None, s') /\ rest s' = after /\ adv s s'.
Proof using Type.
  intros feat opt after Hst. induction run as [|c r IH]; intros n s i last Hn Hi Hr Hok; (destruct n as [|n]; [lia|]); cbn [dec_loop].
  - assert (E : is_digit (peek s) || (peek s =? 95) = false).
    { destruct (peek s =? EOF) eqn:Ep; [replace (peek s) with EOF by lia; reflexivity|]. destruct (peek_inv s _ eq_refl) as [rs Hrs]; [lia|]. rewrite Hr in Hrs. destruct (Hst _ _ Hrs) as [S1 S2]. rewrite dig10 in S1. lia. }
    rewrite E. cbn [run_ok] in Hok. unfold prev_of in Hok. replace (last =? 95) with false by (destruct Hi as [[? ->]|?]; lia).
    replace (Nat.eqb i 0 && negb opt) with false by (destruct Hok as [Hok|[_ [_ Hok]]]; [lia|rewrite Hok; lia]). exists s. split; [reflexivity|]. split; [exact Hr|apply adv_refl].
  - destruct Hok as [Hok|[Hok _]]; [|discriminate]. cbn [run_ok app] in Hok, Hr. rewrite (peek_cons _ _ _ Hr). rewrite dig10 in Hok.
    destruct (read_one s c _ Hr) as [s1 [Er [R1 R2]]]; [destruct (is_digit c) eqn:Ed; unfold is_digit in *; lia|]. rewrite Er. cbn [snd].
    assert (Hl := sadv_len _ _ R2).
    destruct (is_digit c) eqn:Ed.
    + cbn [orb]. replace (c =? 95) with false by (unfold is_digit in Ed; lia). rewrite !Bool.andb_false_r. cbn [andb].
      destruct (IH n s1 (S i) c) as [s' [A1 [A2 A3]]]; [lia|right; lia|exact R1|left; unfold prev_of; cbn; replace (c =? 95) with false by (unfold is_digit in Ed; lia); exact Hok|].
      exists s'. split; [exact A1|]. split; [exact A2|eapply adv_trans; [apply R2|exact A3]].
    + unfold prev_of, sep_of in Hok. destruct (has feat FEAT_NUM_SEP) eqn:Ef; [|lia]. assert (c = 95) by lia. subst c. cbn [orb Z.eqb Pos.eqb negb andb].
      replace (Nat.eqb i 0) with false by lia. replace (last =? 95) with false by lia. cbn [andb].
      destruct (IH n s1 (S i) 95) as [s' [A1 [A2 A3]]]; [lia|right; lia|exact R1|left; unfold prev_of, sep_of; rewrite Ef; change (negb (Nat.eqb (S i) 0) && negb (95 =? 95)) with false; lia|].
      exists s'. split; [exact A1|]. split; [exact A2|eapply adv_trans; [apply R2|exact A3]].
Qed.

(** The loops of the three radix readers, at once. *)
Definition bad (sep : bool) (i : nat) (last c : rune) : bool := (c =? 95) && (negb sep || Nat.eqb i 0 || (last =? 95)).
Definition radix_loop (sep big : bool) (base : Z) (lp : nat -> source -> nat -> rune -> (option lexerr * nat * rune) * source) : Prop :=
  forall n s i last,
    (is_dig base (peek s) || (peek s =? 95) = true -> bad sep i last (peek s) = true -> exists e, lp (S n) s i last = ((Some e, i, last), s)) /\
    (is_dig base (peek s) || (peek s =? 95) = true -> bad sep i last (peek s) = false -> lp (S n) s i last = lp n (snd (read s)) (S i) (peek s)) /\
    (is_dig base (peek s) || (peek s =? 95) = false ->
       lp (S n) s i last = ((None, i, last), s) \/
       ((exists e, lp (S n) s i last = ((Some e, i, last), s)) /\ is_id_start U (peek s) = true /\ (peek s = 110 -> big = false))).

Lemma bin_radix : forall feat, radix_loop (sep_of feat) (has feat FEAT_BIGINT) 2 (fun n s i last => bin_loop U n feat s i last).
Proof using Type.
  intros feat n s i last. cbn [bin_loop]. rewrite dig2. unfold bad, sep_of. set (c := peek s).
  destruct ((c =? 48) || (c =? 49) || (c =? 95)) eqn:E.
  - split; [|split]; [intros _ Hb|intros _ Hb|discriminate].
    + destruct ((c =? 95) && negb (has feat FEAT_NUM_SEP)) eqn:E1; [eauto|]. destruct ((c =? 95) && Nat.eqb i 0) eqn:E2; [eauto|].
      destruct ((c =? 95) && (last =? 95)) eqn:E3; [eauto|]. destruct (has feat FEAT_NUM_SEP); lia.
    + destruct ((c =? 95) && negb (has feat FEAT_NUM_SEP)) eqn:E1; [destruct (has feat FEAT_NUM_SEP); lia|]. destruct ((c =? 95) && Nat.eqb i 0) eqn:E2; [lia|].
      destruct ((c =? 95) && (last =? 95)) eqn:E3; [lia|]. reflexivity.
  - split; [discriminate|split; [discriminate|intros _]]. destruct (is_id_start U c) eqn:Ei; [|auto].
    destruct ((c =? 110) && has feat FEAT_BIGINT) eqn:E1; [auto|]. right. split; [eauto|]. split; [reflexivity|]. intros Hc. destruct (has feat FEAT_BIGINT); [lia|reflexivity].
Qed.
Lemma oct_radix : forall feat legacy big, radix_loop (sep_of feat && negb legacy) big 8 (fun n s i last => oct_loop n feat legacy s i last).
Proof using Type.
  intros feat legacy big n s i last. cbn [oct_loop]. rewrite dig8. unfold bad, sep_of. set (c := peek s).
  destruct (is_octal c || (c =? 95)) eqn:E.
  - split; [|split]; [intros _ Hb|intros _ Hb|discriminate].
    + destruct ((c =? 95) && negb (has feat FEAT_NUM_SEP)) eqn:E1; [eauto|]. destruct ((c =? 95) && Nat.eqb i 0) eqn:E2; [eauto|].
      destruct ((c =? 95) && legacy) eqn:E4; [eauto|].
      destruct ((c =? 95) && (last =? 95)) eqn:E3; [eauto|]. destruct (has feat FEAT_NUM_SEP); lia.
    + destruct ((c =? 95) && negb (has feat FEAT_NUM_SEP)) eqn:E1; [destruct (has feat FEAT_NUM_SEP); lia|]. destruct ((c =? 95) && Nat.eqb i 0) eqn:E2; [lia|].
      destruct ((c =? 95) && legacy) eqn:E4; [lia|].
      destruct ((c =? 95) && (last =? 95)) eqn:E3; [lia|]. reflexivity.
  - split; [discriminate|split; [discriminate|intros _]]. auto.
Qed.
Lemma hex_radix : forall feat big, radix_loop (sep_of feat) big 16 (fun n s i last => hex_loop n feat s i last).
Proof using Type.
  intros feat big n s i last. cbn [hex_loop]. rewrite dig16. unfold bad, sep_of. set (c := peek s).
  destruct (is_hex c || (c =? 95)) eqn:E.
  - split; [|split]; [intros _ Hb|intros _ Hb|discriminate].
    + destruct ((c =? 95) && negb (has feat FEAT_NUM_SEP)) eqn:E1; [eauto|]. destruct ((c =? 95) && Nat.eqb i 0) eqn:E2; [eauto|].
      destruct ((c =? 95) && (last =? 95)) eqn:E3; [eauto|]. destruct (has feat FEAT_NUM_SEP); lia.
    + destruct ((c =? 95) && negb (has feat FEAT_NUM_SEP)) eqn:E1; [destruct (has feat FEAT_NUM_SEP); lia|]. destruct ((c =? 95) && Nat.eqb i 0) eqn:E2; [lia|].
      destruct ((c =? 95) && (last =? 95)) eqn:E3; [lia|]. reflexivity.
  - split; [discriminate|split; [discriminate|intros _]]. auto.
Qed.

Lemma dig_or_sep : forall base s, is_dig base (peek s) || (peek s =? 95) = true -> 48 <= peek s <= 122.
Proof using Type. intros base s H. destruct (is_dig base (peek s)) eqn:E; [apply dig_range in E; lia|lia]. Qed.

Lemma radix_sound : forall sep big base lp, radix_loop sep big base lp -> forall n s i last i' last' s', (lenraw s < n)%nat -> inv i last ->
  lp n s i last = ((None, i', last'), s') ->
  exists run, rest s = run ++ rest s' /\ stop base (rest s') /\ (i' <> 0%nat -> last' <> 95 -> run_ok sep base (prev_of i last) run = true).
Proof using Type.
  intros sep big base lp HL n. induction n as [|n IH]; intros s i last i' last' s' Hn Hi H; [lia|]. destruct (HL n s i last) as [L1 [L2 L3]].
  destruct (is_dig base (peek s) || (peek s =? 95)) eqn:E.
  - destruct (bad sep i last (peek s)) eqn:Eb; [destruct (L1 eq_refl eq_refl) as [e L]; congruence|]. rewrite (L2 eq_refl eq_refl) in H.
    destruct (read_dig s _ eq_refl) as [s1 [Er [Hr Ha]]]; [eapply dig_or_sep; exact E|]. rewrite Er in H. cbn [snd] in H.
    apply IH in H; [|pose proof (sadv_len _ _ Ha); lia|right; lia]. destruct H as [run [R1 [R2 R3]]].
    exists (peek s :: run). split; [rewrite Hr, R1; reflexivity|]. split; [exact R2|]. intros N1 N2. specialize (R3 N1 N2). unfold bad in Eb. cbn [run_ok].
    unfold prev_of in R3. cbn [Nat.eqb negb andb] in R3.
    destruct (is_dig base (peek s)) eqn:Ed.
    + replace (negb (peek s =? 95)) with true in R3 by (apply dig_range in Ed; lia). exact R3.
    + replace (negb (peek s =? 95)) with false in R3 by lia. rewrite R3. unfold prev_of. destruct sep; lia.
  - destruct (L3 eq_refl) as [L|[[e L] _]]; [|congruence]. rewrite L in H. injection H as <- <- <-. exists []. split; [reflexivity|].
    split; [apply stop_peek; lia|]. intros N1 N2. cbn [run_ok]. unfold prev_of. lia.
Qed.

Lemma radix_complete : forall sep big base lp, radix_loop sep big base lp -> forall after, stop base after ->
  (forall c r, after = c :: r -> is_id_start U c = true -> c = 110 /\ big = true) ->
  forall run n s i last, (lenraw s < n)%nat -> inv i last -> rest s = run ++ after -> run_ok sep base (prev_of i last) run = true ->
  exists i' last' s', lp n s i last = ((None, i', last'), s') /\ i' <> 0%nat /\ last' <> 95 /\ rest s' = after /\ adv s s'.
Proof using HU.
  intros sep big base lp HL after Hst Hid. induction run as [|c r IH]; intros n s i last Hn Hi Hr Hok; (destruct n as [|n]; [lia|]); destruct (HL n s i last) as [L1 [L2 L3]].
  - cbn [run_ok app] in *. assert (E : is_dig base (peek s) || (peek s =? 95) = false /\ (is_id_start U (peek s) = true -> peek s = 110 /\ big = true)).
    { destruct (peek s =? EOF) eqn:Ep.
      - replace (peek s) with EOF by lia. split; [unfold is_dig; reflexivity|]. intros Hx. apply id_start_iff in Hx. destruct Hx as [Hx|Hx]; [|discriminate].
        unfold i_start, ident_start in Hx. pose proof (HU EOF) as G. unfold EOF in *. destruct (u_start U (-1)); [specialize (G ltac:(tauto)); lia|]. destruct (u_lo U (-1)); [specialize (G ltac:(tauto)); lia|].
        exfalso. clear -Hx. intuition (try lia; try discriminate).
      - destruct (peek_inv s _ eq_refl) as [rs Hrs]; [lia|]. rewrite Hr in Hrs. destruct (Hst _ _ Hrs) as [S1 S2]. split; [lia|]. apply (Hid _ _ Hrs). }
    destruct E as [E E']. destruct (L3 E) as [L|[_ [L L']]].
    + exists i, last, s. split; [exact L|]. unfold prev_of in Hok. split; [lia|]. split; [lia|]. split; [exact Hr|apply adv_refl].
    + destruct (E' L) as [A B]. rewrite (L' A) in B. discriminate.
  - cbn [run_ok app] in Hok, Hr. pose proof (peek_cons _ _ _ Hr) as Ep. rewrite Ep in *.
    destruct (read_one s c _ Hr) as [s1 [Er [R1 R2]]]; [destruct (is_dig base c) eqn:Ed; [apply dig_range in Ed|]; lia|]. rewrite Er in *. cbn [snd] in *.
    assert (Hl := sadv_len _ _ R2).
    destruct (is_dig base c) eqn:Ed.
    + assert (Hc : (c =? 95) = false) by (apply dig_range in Ed; lia).
      rewrite L2; [|reflexivity|unfold bad; rewrite Hc; reflexivity].
      destruct (IH n s1 (S i) c) as [i' [last' [s' [A1 [A2 [A3 [A4 A5]]]]]]]; [lia|right; lia|exact R1|unfold prev_of; rewrite Hc; exact Hok|].
      exists i', last', s'. repeat split; try assumption. eapply adv_trans; [apply R2|exact A5].
    + unfold prev_of in Hok. assert (c = 95 /\ sep = true) by lia. destruct H as [-> Hsep]. rewrite L2; [|reflexivity|unfold bad; rewrite Hsep; lia].
      destruct (IH n s1 (S i) 95) as [i' [last' [s' [A1 [A2 [A3 [A4 A5]]]]]]]; [lia|right; lia|exact R1|unfold prev_of; change (negb (Nat.eqb (S i) 0) && negb (95 =? 95)) with false; lia|].
      exists i', last', s'. repeat split; try assumption. eapply adv_trans; [apply R2|exact A5].
Qed.

Definition no_ident (rs : list rune) : Prop := forall c r, rs = c :: r -> ~ i_start U c /\ c <> 92.
Lemma no_ident_peek : forall s, is_id_start U (peek s) = false -> no_ident (rest s).
Proof using Type.
  intros s H c r E. rewrite (peek_cons _ _ _ E) in H.
  split; intros G; (assert (K : is_id_start U c = true) by (apply id_start_iff; auto)); congruence.
Qed.
Lemma eof_not_id : is_id_start U EOF = false.
Proof using HU.
  destruct (is_id_start U EOF) eqn:Hx; [|reflexivity]. exfalso. apply id_start_iff in Hx. destruct Hx as [Hx|Hx]; [|discriminate].
  unfold i_start, ident_start in Hx. pose proof (HU EOF) as G. unfold EOF in *. destruct (u_start U (-1)); [specialize (G ltac:(tauto)); lia|]. destruct (u_lo U (-1)); [specialize (G ltac:(tauto)); lia|].
  clear -Hx. intuition (try lia; try discriminate).
Qed.
Lemma peek_no_ident : forall s, no_ident (rest s) -> is_id_start U (peek s) = false.
Proof using HU.
  intros s H. destruct (peek s =? EOF) eqn:Ep; [replace (peek s) with EOF by lia; apply eof_not_id|].
  destruct (peek_inv s _ eq_refl) as [rs Hrs]; [lia|]. destruct (H _ _ Hrs) as [A B]. destruct (is_id_start U (peek s)) eqn:E; [|reflexivity].
  apply id_start_iff in E. tauto.
Qed.

Lemma advance_if_yes : forall s c s1, advance_if s c = (true, s1) -> 0 <= c -> c <> 13 -> rest s = c :: rest s1.
Proof using Type.
  intros s c s1 H H0 H1. unfold advance_if in H. destruct (peek s =? c) eqn:E; [|discriminate]. injection H as <-.
  destruct (peek_inv s c) as [rs Hr]; [lia|unfold EOF; lia|]. destruct (read_one s c rs Hr H1) as [s1 [Er [R1 _]]]. rewrite Er. cbn [snd]. rewrite R1. exact Hr.
Qed.
Lemma advance_if_no : forall s c s1, advance_if s c = (false, s1) -> s1 = s /\ peek s <> c.
Proof using Type. intros s c s1 H. unfold advance_if in H. destruct (peek s =? c) eqn:E; [discriminate|]. injection H as <-. split; [reflexivity|lia]. Qed.

Definition big_of (feat : N) : bool := has feat FEAT_BIGINT.

Lemma num_end_sound : forall feat big s0 s t s', num_end U feat big s0 s = (t, s') -> t_val t = T_NUM ->
  exists sfx, rest s = sfx ++ rest s' /\ (sfx = [] \/ (sfx = [110] /\ big = true /\ big_of feat = true)) /\ no_ident (rest s').
Proof using Type.
  intros feat big s0 s t s' H Hv. unfold num_end in H.
  destruct (if big then bigint_suffix feat s else (None, s)) as [e s1] eqn:Eb. destruct e as [o|]; [inj; discriminate Hv|].
  destruct (is_id_start U (peek s1)) eqn:Ei; [inj; discriminate Hv|]. injection H as <- <-. apply no_ident_peek in Ei.
  destruct big; [|injection Eb as <-; exists []; auto].
  unfold bigint_suffix in Eb. destruct (advance_if s 110) as [b s2] eqn:Ea.
  destruct b; [|injection Eb as <-; apply advance_if_no in Ea; destruct Ea as [-> _]; exists []; auto].
  cbn [andb] in Eb. unfold big_of. destruct (has feat FEAT_BIGINT); [|discriminate]. injection Eb as <-.
  apply advance_if_yes in Ea; [|lia|lia]. exists [110]. split; [exact Ea|]. auto.
Qed.
Lemma num_end_complete : forall feat big s0 s sfx after, rest s = sfx ++ after -> (sfx = [] /\ (forall r, after <> 110 :: r)) \/ (sfx = [110] /\ big = true /\ big_of feat = true) -> no_ident after ->
  exists t s', num_end U feat big s0 s = (t, s') /\ t_val t = T_NUM /\ rest s' = after.
Proof using HU.
  intros feat big s0 s sfx after Hr Hs Hn. unfold num_end.
  assert (E : exists s1, (if big then bigint_suffix feat s else (None, s)) = (None, s1) /\ rest s1 = after).
  { destruct Hs as [[-> Hs]|[-> [-> Hb]]].
    - destruct big; [|exists s; auto]. unfold bigint_suffix. destruct (advance_if s 110) as [b s2] eqn:Ea. destruct b.
      + apply advance_if_yes in Ea; [|lia|lia]. rewrite Hr in Ea. exfalso. eapply Hs. exact Ea.
      + apply advance_if_no in Ea. destruct Ea as [-> _]. exists s. auto.
    - unfold bigint_suffix. destruct (advance_if s 110) as [b s2] eqn:Ea. destruct b.
      + apply advance_if_yes in Ea; [|lia|lia]. unfold big_of in Hb. rewrite Hb. exists s2. split; [reflexivity|]. rewrite Hr in Ea. injection Ea as ->. reflexivity.
      + apply advance_if_no in Ea. destruct Ea as [_ Ea]. rewrite (peek_cons _ _ _ Hr) in Ea. congruence. }
  destruct E as [s1 [E1 E2]]. rewrite E1. rewrite peek_no_ident by (rewrite E2; exact Hn). do 2 eexists. split; [reflexivity|]. split; [reflexivity|exact E2].
Qed.

Lemma dec_digits_sound : forall feat opt s s', read_dec_digits U feat opt s = (None, s') ->
  exists run, rest s = run ++ rest s' /\ stop 10 (rest s') /\ (digits (sep_of feat) 10 run \/ (run = [] /\ opt = true)).
Proof using Type.
  intros feat opt s s' H. unfold read_dec_digits in H. apply dec_loop_sound in H; [|unfold fuel, lenraw; lia|left; auto].
  destruct H as [run [R1 [R2 R3]]]. exists run. split; [exact R1|]. split; [exact R2|]. rewrite digits_iff. unfold prev_of in R3. cbn [Nat.eqb negb andb] in R3. tauto.
Qed.
Lemma dec_digits_complete : forall feat opt s run after, rest s = run ++ after -> stop 10 after -> (digits (sep_of feat) 10 run \/ (run = [] /\ opt = true)) ->
  exists s', read_dec_digits U feat opt s = (None, s') /\ rest s' = after.
Proof using Type.
  intros feat opt s run after Hr Hs Hd. destruct (dec_loop_complete feat opt after Hs run (fuel s) s 0%nat 0) as [s' [A [B _]]];
    [unfold fuel, lenraw; lia|left; auto|exact Hr|rewrite digits_iff in Hd; unfold prev_of; cbn [Nat.eqb negb andb]; tauto|]. exists s'. auto.
Qed.

Lemma ch_peek : forall s c, ahead_is_ch s c = (peek s =? c).
Proof using Type. reflexivity. Qed.
Lemma ch_or_peek : forall s c d, ahead_is_ch_or s c d = ((peek s =? c) || (peek s =? d))%bool.
Proof using Type. reflexivity. Qed.

Lemma dec_int_sound : forall feat first s s1, 49 <= first <= 57 -> dec_int U feat first s = (None, s1) ->
  exists run, rest s = run ++ rest s1 /\ stop 10 (rest s1) /\ digits (sep_of feat) 10 (first :: run).
Proof using Type.
  intros feat first s s1 Hf H. unfold dec_int in H. replace (negb (first =? 46) && negb (first =? 48)) with true in H by lia.
  match type of H with (if ?b then _ else _) = _ => destruct b; [discriminate|] end.
  destruct (read_dec_digits U feat true s) as [[e|] s2] eqn:E; [destruct e; discriminate|]. injection H as <-.
  apply dec_digits_sound in E. destruct E as [run [R1 [R2 R3]]]. exists run. split; [exact R1|]. split; [exact R2|].
  assert (is_dig 10 first = true) by (rewrite dig10; unfold is_digit; lia).
  destruct R3 as [R3|[-> _]]; [apply dg_more; assumption|apply dg_one; assumption].
Qed.
Lemma dec_frac_sound : forall feat first s dot s2, dec_frac U feat first s = (None, dot, s2) ->
  (dot = true /\ exists f, rest s = 46 :: f ++ rest s2 /\ opt_digits (sep_of feat) f /\ stop 10 (rest s2))
  \/ (dot = false /\ first = 46 /\ exists f, rest s = f ++ rest s2 /\ opt_digits (sep_of feat) f /\ stop 10 (rest s2))
  \/ (dot = false /\ first <> 46 /\ s2 = s /\ peek s <> 46).
Proof using Type.
  intros feat first s dot s2 H. unfold dec_frac in H. rewrite ch_peek in H. destruct (peek s =? 46) eqn:Ed; cbn [orb] in H.
  - left. destruct (read_dec_digits U feat true (snd (read s))) as [[e|] s3] eqn:E; [discriminate|]. injection H as <- <-. split; [reflexivity|].
    destruct (peek_inv s 46) as [rs Hr]; [lia|discriminate|]. destruct (read_one s 46 rs Hr) as [s1 [Er [R1 _]]]; [lia|]. rewrite Er in E. cbn [snd] in E.
    apply dec_digits_sound in E. destruct E as [f [F1 [F2 F3]]]. exists f. split; [rewrite Hr, <- R1, F1; reflexivity|]. split; [unfold opt_digits; tauto|exact F2].
  - right. destruct (first =? 46) eqn:Ef.
    + left. destruct (read_dec_digits U feat true s) as [[e|] s3] eqn:E; [discriminate|]. injection H as <- <-. split; [reflexivity|]. split; [lia|].
      apply dec_digits_sound in E. destruct E as [f [F1 [F2 F3]]]. exists f. split; [exact F1|]. split; [unfold opt_digits; tauto|exact F2].
    + right. injection H as <- <-. repeat split; lia.
Qed.
Lemma dec_exp_sound : forall feat s ex s3, dec_exp U feat s = (None, ex, s3) ->
  exists e, rest s = e ++ rest s3 /\ exp_part (sep_of feat) e /\ (if ex then e <> [] /\ stop 10 (rest s3) else e = []).
Proof using Type.
  intros feat s ex s3 H. unfold dec_exp in H. rewrite ch_or_peek in H. destruct ((peek s =? 101) || (peek s =? 69)) eqn:Ee.
  - destruct (read_exp_part U feat s) as [[e|] s1] eqn:E; [discriminate|]. injection H as <- <-. unfold read_exp_part in E. rewrite ch_or_peek in E.
    destruct (peek_inv s _ eq_refl) as [rs Hr]; [unfold EOF; lia|]. destruct (read_one s _ rs Hr) as [s2 [Er [R1 _]]]; [lia|]. rewrite Er in E. cbn [snd] in E.
    assert (Hsg : exists sg s4, (if (peek s2 =? 43) || (peek s2 =? 45) then snd (read s2) else s2) = s4 /\ rest s2 = sg ++ rest s4 /\ (sg = [] \/ sg = [43] \/ sg = [45])).
    { destruct ((peek s2 =? 43) || (peek s2 =? 45)) eqn:Es; [|exists [], s2; auto].
      destruct (peek_inv s2 _ eq_refl) as [rs2 Hr2]; [unfold EOF; lia|]. destruct (read_one s2 _ rs2 Hr2) as [s4 [Er2 [R2 _]]]; [lia|]. rewrite Er2. cbn [snd].
      exists [peek s2], s4. split; [reflexivity|]. split; [rewrite Hr2, R2; reflexivity|]. destruct (peek s2 =? 43) eqn:E43; [replace (peek s2) with 43 by lia|replace (peek s2) with 45 by lia]; auto. }
    destruct Hsg as [sg [s4 [G1 [G2 G3]]]]. rewrite G1 in E. apply dec_digits_sound in E. destruct E as [ds [D1 [D2 [D3|[_ D3]]]]]; [|discriminate].
    exists (peek s :: sg ++ ds). split; [rewrite Hr, <- R1, G2, D1; cbn [app]; rewrite app_assoc; reflexivity|]. split; [right; exists (peek s), sg, ds; repeat split; auto; lia|]. split; [discriminate|exact D2].
  - injection H as <- <-. exists []. split; [reflexivity|]. split; [left; reflexivity|reflexivity].
Qed.

Lemma digits_no46 : forall sep base ds, digits sep base ds -> forall c, In c ds -> is_dig base c = true \/ c = 95.
Proof using Type. clear. intros sep base ds H. induction H; cbn [In]; intros c Hc; intuition (subst; auto). Qed.
Lemma dec_int_no46 : forall sep i c, dec_int_lit sep i -> In c i -> (48 <= c <= 57) \/ c = 95.
Proof using Type.
  clear. intros sep i c [-> |[H _]] Hc; [cbn in Hc; intuition lia|]. apply (digits_no46 _ _ _ H) in Hc. rewrite dig10 in Hc. unfold is_digit in Hc. lia.
Qed.

(** What the reader of numbers accepts. *)
Definition num_follow (sep : bool) (txt after : list rune) : Prop :=
  no_ident after /\
  (dec_int_lit sep txt -> forall r, after <> 46 :: r) /\
  (forall c r, after = c :: r -> is_dig 10 c = true ->
     (exists base p ds, txt = 48 :: p :: ds /\ In p (radix_prefix base) /\ is_dig base c = false)
     \/ (exists ds, txt = 48 :: ds /\ digits false 8 ds /\ is_dig 8 c = false)
     \/ (exists i, txt = i ++ [110])).

Lemma read_decimal_sound : forall feat strict first s0 s t s', (49 <= first <= 57 \/ (first = 48 /\ is_digit (peek s) = false) \/ (first = 46 /\ is_digit (peek s) = true)) ->
  read_decimal_num U feat first s0 s = (t, s') -> t_val t = T_NUM ->
  exists txt, rest s = txt ++ rest s' /\ num_lit false (sep_of feat) (big_of feat) strict (first :: txt) /\ num_follow (sep_of feat) (first :: txt) (rest s').
Proof using Type.
  intros feat strict first s0 s t s' Hf H Hv. unfold read_decimal_num in H.
  destruct (dec_int U feat first s) as [[[e o]|] s1] eqn:E1; [inj; discriminate Hv|].
  destruct (dec_frac U feat first s1) as [[[[e o]|] fl] s2] eqn:E2; [inj; discriminate Hv|].
  destruct (dec_exp U feat s2) as [[[[e o]|] ex] s3] eqn:E3; [inj; discriminate Hv|].
  apply num_end_sound in H; [|exact Hv]. destruct H as [sfx [N1 [N2 N3]]].
  apply dec_exp_sound in E3. destruct E3 as [e [X1 [X2 X3]]]. apply dec_frac_sound in E2.
  set (sep := sep_of feat) in *. set (big := big_of feat) in *.
  assert (Hdig : forall rs, stop 10 rs -> forall c r, rs = c :: r -> is_dig 10 c = true -> False) by (intros rs Hs c r Er Hc; destruct (Hs _ _ Er); congruence).
  destruct (first =? 46) eqn:E46.
  - assert (first = 46) by lia. subst first. destruct Hf as [Hf|[[Hf _]|[_ Hp]]]; [lia|lia|]. unfold dec_int in E1. cbn [Z.eqb Pos.eqb negb andb] in E1. injection E1 as <-.
    destruct E2 as [[_ [f [F1 _]]]|[[-> [_ [f [F1 [F2 F3]]]]]|[_ [F0 _]]]]; [rewrite (peek_cons _ _ _ F1) in Hp; discriminate| |congruence].
    destruct (peek_inv s _ eq_refl) as [rs Hr]; [unfold EOF, is_digit in *; lia|].
    assert (Hfd : digits sep 10 f).
    { destruct F2 as [-> |F2]; [|exact F2]. exfalso. cbn [app] in F1. apply (Hdig _ F3 (peek s) rs); [congruence|rewrite dig10; exact Hp]. }
    cbn [negb andb] in N2. assert (sfx = []) by intuition discriminate. subst sfx. cbn [app] in N1. rewrite <- N1 in *.
    exists (f ++ e). rewrite <- app_assoc, <- X1. split; [exact F1|]. split; [apply nl_dot; assumption|].
    split; [exact N3|]. split; [intros Hi; exfalso; destruct (dec_int_no46 _ _ 46 Hi); [left; reflexivity|lia|lia]|].
    intros c r Ec Hc. exfalso. destruct ex; [apply (Hdig _ (proj2 X3) c r); [congruence|exact Hc]|]. subst e. cbn [app] in X1. apply (Hdig _ F3 c r); [congruence|exact Hc].
  - assert (HI : exists run, rest s = run ++ rest s1 /\ dec_int_lit sep (first :: run) /\ (stop 10 (rest s1))).
    { destruct Hf as [Hf|[[-> Hp]|[Hf _]]]; [| |lia].
      - apply dec_int_sound in E1; [|exact Hf]. destruct E1 as [run [R1 [R2 R3]]]. exists run. split; [exact R1|]. split; [right; split; [exact R3|cbn; lia]|exact R2].
      - unfold dec_int in E1. cbn [Z.eqb Pos.eqb negb andb] in E1. injection E1 as <-. exists []. split; [reflexivity|]. split; [left; reflexivity|].
        intros c r Ec. pose proof (peek_cons _ _ _ Ec) as Pc. subst c. rewrite dig10. split; [exact Hp|]. intros E95.
        (* an underscore after 0 is an identifier start *)
        assert (G : rest s = rest s').
        { destruct E2 as [[_ [f [F1 _]]]|[[_ [F0 _]]|[_ [_ [-> _]]]]]; [rewrite (peek_cons _ _ _ F1) in E95; discriminate|congruence|].
          destruct X2 as [-> |[c [sg [ds [-> [Hc _]]]]]]; [|rewrite (peek_cons _ _ _ X1) in E95; lia]. cbn [app] in X1.
          destruct N2 as [-> |[-> _]]; [cbn [app] in N1; congruence|]. rewrite X1, N1 in Ec. cbn [app] in Ec. injection Ec as Ec _. lia. }
        rewrite G in Ec. destruct (N3 _ _ Ec) as [K _]. apply K. unfold i_start, ident_start. rewrite E95. tauto. }
    destruct HI as [run [I1 [I2 I3]]].
    destruct E2 as [[-> [f [F1 [F2 F3]]]]|[[_ [F0 _]]|[-> [_ [-> F4]]]]]; [|lia|].
    + rewrite Bool.andb_false_r in N2. assert (sfx = []) by intuition discriminate. subst sfx. cbn [app] in N1. rewrite <- N1 in *.
      exists (run ++ 46 :: f ++ e). rewrite <- app_assoc. cbn [app]. rewrite <- app_assoc, <- X1, <- F1. split; [exact I1|].
      split; [apply (nl_frac _ _ _ _ (first :: run)); assumption|]. split; [exact N3|].
      split; [intros Hi; exfalso; destruct (dec_int_no46 _ _ 46 Hi); [right; apply in_or_app; right; left; reflexivity|lia|lia]|].
      intros c r Ec Hc. exfalso. destruct ex; [apply (Hdig _ (proj2 X3) c r); [congruence|exact Hc]|]. subst e. cbn [app] in X1. apply (Hdig _ F3 c r); [congruence|exact Hc].
    + destruct ex.
      * destruct X3 as [X3 X4]. rewrite Bool.andb_false_r in N2. assert (sfx = []) by intuition discriminate. subst sfx. cbn [app] in N1. rewrite <- N1 in *.
        exists (run ++ e). rewrite <- app_assoc, <- X1. split; [exact I1|]. split; [apply (nl_int _ _ _ _ (first :: run)); assumption|]. split; [exact N3|].
        split.
        { intros Hi. exfalso. destruct X2 as [-> |[c [sg [ds [-> [Hc _]]]]]]; [congruence|]. destruct (dec_int_no46 _ _ c Hi); [right; apply in_or_app; right; left; reflexivity|lia|lia]. }
        intros c r Ec Hc. exfalso. apply (Hdig _ X4 c r); [congruence|exact Hc].
      * subst e. cbn [app] in X1. destruct N2 as [-> |[-> [_ N2]]].
        -- cbn [app] in N1. exists run. rewrite <- N1, <- X1. split; [exact I1|]. split; [rewrite <- (app_nil_r (first :: run)); apply nl_int; [exact I2|left; reflexivity]|].
           split; [rewrite X1, N1; exact N3|]. split; [intros _ r Er; apply F4; apply (peek_cons _ _ _ Er)|]. intros c r Ec Hc. exfalso. apply (Hdig _ I3 c r); assumption.
        -- exists (run ++ [110]). rewrite <- app_assoc, <- N1, <- X1. split; [exact I1|]. split; [apply (nl_big _ _ _ _ (first :: run)); assumption|]. split; [exact N3|].
           split; [intros Hi; exfalso; destruct (dec_int_no46 _ _ 110 Hi); [right; apply in_or_app; right; left; reflexivity|lia|lia]|].
           intros c r Ec Hc. right. right. exists (first :: run). reflexivity.
Qed.

Lemma radix_lit : forall feat strict base p ds sfx, In p (radix_prefix base) -> digits (sep_of feat) base ds ->
  (sfx = [] \/ (sfx = [110] /\ true = true /\ big_of feat = true)) -> num_lit false (sep_of feat) (big_of feat) strict (48 :: p :: ds ++ sfx).
Proof using Type.
  intros feat strict base p ds sfx Hp Hd [-> |[-> [_ Hb]]]; [rewrite app_nil_r; eapply nl_radix; eassumption|eapply nl_radix_big; eassumption].
Qed.
Lemma radix_follow : forall sep base p ds sfx after, no_ident after -> In p (radix_prefix base) -> stop base (sfx ++ after) -> (sfx = [] \/ sfx = [110]) ->
  num_follow sep (48 :: p :: ds ++ sfx) after.
Proof using Type.
  intros sep base p ds sfx after H Hp Hs Hsx. split; [exact H|]. split; [intros [Hi|[Hi Hh]]; [discriminate|cbn in Hh; congruence]|].
  intros c r Ec Hc. destruct Hsx as [-> | ->].
  - left. exists base, p, (ds ++ []). split; [reflexivity|]. split; [exact Hp|]. destruct (Hs _ _ Ec). assumption.
  - right. right. exists (48 :: p :: ds). reflexivity.
Qed.

Lemma read_num_sound : forall feat strict s t s', (is_digit (peek s) = true \/ (peek s = 46 /\ is_dig 10 (nth 1 (rest s) 0) = true)) ->
  read_num U feat strict s = (t, s') -> t_val t = T_NUM ->
  exists txt, rest s = txt ++ rest s' /\ num_lit false (sep_of feat) (big_of feat) strict txt /\ num_follow (sep_of feat) txt (rest s').
Proof using Type.
  intros feat strict s t s' Hst H Hv. unfold read_num in H.
  destruct (peek_inv s _ eq_refl) as [rs Hr]; [unfold EOF, is_digit in *; lia|]. destruct (read_one s _ rs Hr) as [s1 [Er [R1 R2]]]; [unfold is_digit in *; lia|]. rewrite Er in H.
  assert (Hnth : nth 1 (rest s) 0 = hd 0 (rest s1)) by (rewrite Hr, R1; destruct rs; reflexivity). rewrite Hnth, dig10 in Hst.
  assert (Hdec : (peek s = 48 -> is_digit (peek s1) = false) -> read_decimal_num U feat (peek s) s s1 = (t, s') ->
    exists txt, rest s = txt ++ rest s' /\ num_lit false (sep_of feat) (big_of feat) strict txt /\ num_follow (sep_of feat) txt (rest s')).
  { intros H0 G. destruct (read_decimal_sound feat strict (peek s) s s1 t s') as [txt [A1 [A2 A3]]]; [|exact G|exact Hv|].
    - destruct (peek s =? 48) eqn:E48; [right; left; split; [lia|apply H0; lia]|]. destruct (peek s =? 46) eqn:E46; [|left; unfold is_digit in *; lia].
      right; right. split; [lia|]. destruct Hst as [Hst|[_ Hst]]; [unfold is_digit in Hst; lia|]. destruct (rest s1) as [|x r] eqn:Ex; [discriminate|]. rewrite (peek_cons _ _ _ Ex). exact Hst.
    - exists (peek s :: txt). split; [rewrite Hr, <- R1, A1; reflexivity|auto]. }
  destruct (peek s =? 48) eqn:E48; [|apply Hdec; [lia|exact H]].
  assert (P48 : peek s = 48) by lia. rewrite P48 in *. clear E48.
  assert (Hrad : forall p, peek s1 = p -> 48 <= p <= 122 -> exists s2, snd (read s1) = s2 /\ rest s = 48 :: p :: rest s2).
  { intros p Hp Hr0. destruct (read_dig s1 p Hp Hr0) as [s2 [E2 [G2 _]]]. exists s2. rewrite E2. split; [reflexivity|]. rewrite Hr, <- R1, G2. reflexivity. }
  destruct ((peek s1 =? 98) || (peek s1 =? 66)) eqn:Eb.
  { destruct (Hrad _ eq_refl) as [s2 [E2 G2]]; [lia|]. unfold read_binary_num in H. rewrite E2 in H. destruct (bin_loop U (fuel s2) feat s2 0 0) as [[[[e|] i] last] s3] eqn:El; [inj; discriminate Hv|].
    destruct (last =? 95) eqn:E95; [inj; discriminate Hv|]. destruct (Nat.eqb i 0) eqn:Ei; [inj; discriminate Hv|].
    apply (radix_sound _ _ _ _ (bin_radix feat)) in El; [|unfold fuel, lenraw; lia|left; auto]. destruct El as [run [L1 [L2 L3]]].
    specialize (L3 ltac:(lia) ltac:(lia)). apply digits_iff in L3. apply num_end_sound in H; [|exact Hv]. destruct H as [sfx [N1 [N2 N3]]].
    exists (48 :: peek s1 :: run ++ sfx). split; [rewrite G2, L1, N1; cbn [app]; rewrite <- app_assoc; reflexivity|].
    split; [apply radix_lit with (base := 2); [cbn; lia|exact L3|exact N2]|eapply radix_follow; [exact N3| |rewrite <- N1; exact L2|tauto]; cbn; lia]. }
  destruct ((peek s1 =? 111) || (peek s1 =? 79)) eqn:Eo.
  { destruct (Hrad _ eq_refl) as [s2 [E2 G2]]; [lia|]. unfold read_octal_num in H. rewrite E2 in H. destruct (oct_loop (fuel s2) feat false s2 0 0) as [[[[e|] i] last] s3] eqn:El; [inj; discriminate Hv|].
    destruct (last =? 95) eqn:E95; [inj; discriminate Hv|]. destruct (Nat.eqb i 0) eqn:Ei; [inj; discriminate Hv|].
    apply (radix_sound _ _ _ _ (oct_radix feat false true)) in El; [|unfold fuel, lenraw; lia|left; auto]. destruct El as [run [L1 [L2 L3]]].
    specialize (L3 ltac:(lia) ltac:(lia)). apply digits_iff in L3. cbn [negb] in L3. rewrite Bool.andb_true_r in L3. apply num_end_sound in H; [|exact Hv]. destruct H as [sfx [N1 [N2 N3]]].
    exists (48 :: peek s1 :: run ++ sfx). split; [rewrite G2, L1, N1; cbn [app]; rewrite <- app_assoc; reflexivity|].
    split; [apply radix_lit with (base := 8); [cbn; lia|exact L3|exact N2]|eapply radix_follow; [exact N3| |rewrite <- N1; exact L2|tauto]; cbn; lia]. }
  destruct ((peek s1 =? 120) || (peek s1 =? 88)) eqn:Ex.
  { destruct (Hrad _ eq_refl) as [s2 [E2 G2]]; [lia|]. unfold read_hex_num in H. rewrite E2 in H. destruct (hex_loop (fuel s2) feat s2 0 0) as [[[[e|] i] last] s3] eqn:El; [inj; discriminate Hv|].
    destruct (Nat.eqb i 0) eqn:Ei; [inj; discriminate Hv|]. destruct (last =? 95) eqn:E95; [inj; discriminate Hv|].
    apply (radix_sound _ _ _ _ (hex_radix feat true)) in El; [|unfold fuel, lenraw; lia|left; auto]. destruct El as [run [L1 [L2 L3]]].
    specialize (L3 ltac:(lia) ltac:(lia)). apply digits_iff in L3. apply num_end_sound in H; [|exact Hv]. destruct H as [sfx [N1 [N2 N3]]].
    exists (48 :: peek s1 :: run ++ sfx). split; [rewrite G2, L1, N1; cbn [app]; rewrite <- app_assoc; reflexivity|].
    split; [apply radix_lit with (base := 16); [cbn; lia|exact L3|exact N2]|eapply radix_follow; [exact N3| |rewrite <- N1; exact L2|tauto]; cbn; lia]. }
  destruct (is_digit (peek s1)) eqn:Ed; [|apply Hdec; [auto|exact H]].
  destruct (is_octal (peek s1)) eqn:Eoc; [|inj; discriminate Hv]. destruct strict; [inj; discriminate Hv|].
  destruct (Hrad _ eq_refl) as [s2 [E2 G2]]; [unfold is_digit in Ed; lia|]. unfold read_octal_num in H. rewrite E2 in H. destruct (oct_loop (fuel s2) feat true s2 1 0) as [[[[e|] i] last] s3] eqn:El; [inj; discriminate Hv|].
  destruct (last =? 95) eqn:E95; [inj; discriminate Hv|]. destruct (Nat.eqb i 0) eqn:Ei; [inj; discriminate Hv|].
  apply (radix_sound _ _ _ _ (oct_radix feat true true)) in El; [|unfold fuel, lenraw; lia|right; lia]. destruct El as [run [L1 [L2 L3]]].
  specialize (L3 ltac:(lia) ltac:(lia)). cbn [negb] in L3. rewrite Bool.andb_false_r in L3. change (prev_of 1 0) with true in L3.
  apply num_end_sound in H; [|exact Hv]. destruct H as [sfx [N1 [N2 N3]]]. assert (sfx = []) by intuition discriminate. subst sfx. cbn [app] in N1.
  exists (48 :: peek s1 :: run). split; [rewrite G2, L1, N1; reflexivity|].
  split; [apply nl_octal; [reflexivity|apply run_digits; [exact L3|rewrite dig8; exact Eoc]]|].
  split; [exact N3|]. split; [intros [Hi|[Hi Hh]]; [discriminate|cbn in Hh; congruence]|].
  intros c r Ec Hc. right. left. exists (peek s1 :: run). split; [reflexivity|]. split; [apply run_digits; [exact L3|rewrite dig8; exact Eoc]|]. rewrite <- N1 in Ec. destruct (L2 _ _ Ec). assumption.
Qed.

(** ** Completeness *)

Hypothesis HD : forall c, 48 <= c <= 57 -> u_start U c = false /\ u_lo U c = false.

Definition no_digit (rs : list rune) : Prop := forall c r, rs = c :: r -> is_dig 10 c = false.

Lemma letter_start : forall c, (97 <= c <= 122 \/ 65 <= c <= 90 \/ c = 95) -> i_start U c.
Proof using HU HD. intros c H. unfold i_start, ident_start. tauto. Qed.
Lemma stop_after : forall base after, no_ident after -> no_digit after -> stop base after.
Proof using HU HD.
  intros base after H1 H2 c r E. destruct (H1 _ _ E) as [A _]. specialize (H2 _ _ E). split.
  - destruct (is_dig base c) eqn:Ed; [|reflexivity]. exfalso. apply dig_range in Ed. rewrite dig10 in H2. unfold is_digit in H2. apply A. apply letter_start. lia.
  - intros ->. apply A. apply letter_start. auto.
Qed.
Lemma digit_not_start : forall c, 48 <= c <= 57 -> is_id_start U c = false.
Proof using HU HD.
  intros c H. destruct (HD c H) as [A B]. unfold is_id_start. rewrite A, B. cbn [andb].
  match goal with |- (if ?b then _ else _) = _ => replace b with false by lia end. reflexivity.
Qed.
Lemma dot_not_start : is_id_start U 46 = false.
Proof using HU HD.
  unfold is_id_start. pose proof (HU 46) as G. destruct (u_start U 46); [specialize (G eq_refl); lia|]. destruct (u_lo U 46); [specialize (G eq_refl); lia|]. reflexivity.
Qed.
Lemma hd_peek : forall s d, d <> EOF -> peek s = d -> exists rs, rest s = d :: rs.
Proof using HU HD. intros s d H E. apply peek_inv; assumption. Qed.

Lemma dec_int_complete : forall feat first run x s, 49 <= first <= 57 -> digits (sep_of feat) 10 (first :: run) -> hd 0 run <> 95 -> rest s = run ++ x -> stop 10 x ->
  (forall c r, x = c :: r -> is_id_start U c = true -> c = 101 \/ c = 69 \/ c = 110) ->
  exists s1, dec_int U feat first s = (None, s1) /\ rest s1 = x.
Proof using HU HD.
  intros feat first run x s Hf Hd Hh Hr Hs Hx. unfold dec_int. replace (negb (first =? 46) && negb (first =? 48)) with true by lia.
  assert (Hrun : run = [] \/ digits (sep_of feat) 10 run).
  { inversion Hd as [d Hd1 E1|d ds Hd1 Hd2 E1|d ds Hd0 Hd1 Hd2 E1]; subst; [left; reflexivity|right; assumption|cbn in Hh; congruence]. }
  assert (Hg : negb (peek s =? 101) && negb (peek s =? 69) && negb (peek s =? 110) && is_id_start U (peek s) = false).
  { destruct (is_id_start U (peek s)) eqn:Ei; [|apply Bool.andb_false_r].
    assert (Hne : peek s <> EOF) by (intros G; rewrite G, eof_not_id in Ei; discriminate). destruct (hd_peek s _ Hne eq_refl) as [rs Hrs].
    destruct run as [|c run].
    - cbn [app] in Hr. rewrite Hr in Hrs. specialize (Hx _ _ Hrs Ei). lia.
    - cbn [app] in Hr. rewrite Hr in Hrs. injection Hrs as Hc _. destruct Hrun as [Hrun|Hrun]; [discriminate|]. exfalso.
      assert (is_dig 10 c = true) by (inversion Hrun; subst; assumption). rewrite dig10 in H. unfold is_digit in H. rewrite digit_not_start in Ei; [discriminate|lia]. }
  rewrite Hg. destruct (dec_digits_complete feat true s run x Hr Hs) as [s1 [A B]]; [tauto|]. rewrite A. exists s1. auto.
Qed.

Lemma dec_frac_complete : forall feat first fr x s, rest s = fr ++ x -> stop 10 x ->
  (first <> 46 /\ ((fr = [] /\ (forall r, x <> 46 :: r)) \/ (exists f, fr = 46 :: f /\ opt_digits (sep_of feat) f)) \/ (first = 46 /\ digits (sep_of feat) 10 fr)) ->
  exists s2, dec_frac U feat first s = (None, match fr with c :: _ => c =? 46 | [] => false end, s2) /\ rest s2 = x.
Proof using HU HD.
  intros feat first fr x s Hr Hs Hf. unfold dec_frac. rewrite ch_peek.
  destruct Hf as [[Hf [[-> Hx]|[f [-> Hd]]]]|[-> Hd]].
  - replace (peek s =? 46) with false. 2:{ symmetry. apply Z.eqb_neq. intros E. destruct (hd_peek s 46 ltac:(discriminate) E) as [rs Hrs]. cbn [app] in Hr. rewrite Hr in Hrs. eapply Hx. exact Hrs. }
    replace (first =? 46) with false by lia. cbn [orb]. exists s. auto.
  - cbn [app] in Hr. rewrite (peek_cons _ _ _ Hr). cbn [Z.eqb Pos.eqb orb]. destruct (read_one s 46 _ Hr) as [s1 [Er [R1 _]]]; [lia|]. rewrite Er. cbn [snd].
    destruct (dec_digits_complete feat true s1 f x R1 Hs) as [s2 [A B]]; [unfold opt_digits in Hd; tauto|]. rewrite A. exists s2. auto.
  - assert (Hc : exists c r, fr = c :: r /\ is_dig 10 c = true) by (inversion Hd; subst; eauto). destruct Hc as [c [r [-> Hc]]]. rewrite dig10 in Hc. unfold is_digit in Hc.
    pose proof Hr as Hp. cbn [app] in Hp. rewrite (peek_cons _ _ _ Hp). replace (c =? 46) with false by lia. cbn [orb Z.eqb Pos.eqb].
    destruct (dec_digits_complete feat true s (c :: r) x Hr Hs) as [s2 [A B]]; [auto|]. rewrite A. exists s2. split; [|exact B].
    reflexivity.
Qed.

Lemma dec_exp_complete : forall feat e x s, rest s = e ++ x -> exp_part (sep_of feat) e -> (e <> [] -> stop 10 x) -> (e = [] -> forall c r, x = c :: r -> c <> 101 /\ c <> 69) ->
  exists s3, dec_exp U feat s = (None, match e with [] => false | _ => true end, s3) /\ rest s3 = x.
Proof using HU HD.
  intros feat e x s Hr He Hs Hx. unfold dec_exp. rewrite ch_or_peek. destruct He as [-> |[c [sg [ds [-> [Hc [Hsg Hd]]]]]]].
  - replace ((peek s =? 101) || (peek s =? 69)) with false; [exists s; auto|]. symmetry. cbn [app] in Hr.
    destruct (peek s =? EOF) eqn:Ep; [unfold EOF in Ep; lia|]. destruct (hd_peek s _ (proj1 (Z.eqb_neq _ _) Ep) eq_refl) as [rs Hrs]. rewrite Hr in Hrs. destruct (Hx eq_refl _ _ Hrs). lia.
  - cbn [app] in Hr. rewrite (peek_cons _ _ _ Hr). replace ((c =? 101) || (c =? 69)) with true by lia. unfold read_exp_part. rewrite ch_or_peek.
    destruct (read_one s c _ Hr) as [s1 [Er [R1 _]]]; [lia|]. rewrite Er. cbn [snd].
    assert (G : exists s4, (if (peek s1 =? 43) || (peek s1 =? 45) then snd (read s1) else s1) = s4 /\ rest s4 = ds ++ x).
    { rewrite <- app_assoc in R1. destruct Hsg as [-> | [-> | ->]].
      - cbn [app] in R1. exists s1. split; [|exact R1]. replace ((peek s1 =? 43) || (peek s1 =? 45)) with false; [reflexivity|].
        assert (Hc' : exists d r, ds = d :: r /\ is_dig 10 d = true) by (inversion Hd; subst; eauto). destruct Hc' as [d [r [-> Hd']]]. rewrite dig10 in Hd'. unfold is_digit in Hd'.
        cbn [app] in R1. rewrite (peek_cons _ _ _ R1). lia.
      - cbn [app] in R1. rewrite (peek_cons _ _ _ R1). cbn [Z.eqb Pos.eqb orb]. destruct (read_one s1 _ _ R1) as [s4 [E4 [R4 _]]]; [lia|]. rewrite E4. exists s4. auto.
      - cbn [app] in R1. rewrite (peek_cons _ _ _ R1). cbn [Z.eqb Pos.eqb orb]. destruct (read_one s1 _ _ R1) as [s4 [E4 [R4 _]]]; [lia|]. rewrite E4. exists s4. auto. }
    destruct G as [s4 [G1 G2]]. rewrite G1. destruct (dec_digits_complete feat false s4 ds x G2) as [s3 [A B]]; [apply Hs; discriminate|auto|]. rewrite A. exists s3. auto.
Qed.

Lemma no_ident_letter : forall after c r, no_ident after -> after = c :: r -> (97 <= c <= 122 \/ 65 <= c <= 90 \/ c = 95) -> False.
Proof using HU HD. intros after c r H E Hc. destruct (H _ _ E) as [A _]. apply A. apply letter_start. exact Hc. Qed.
Lemma not_ident_start : forall after c r, no_ident after -> after = c :: r -> is_id_start U c = true -> False.
Proof using HU HD. intros after c r H E Hc. destruct (H _ _ E) as [A B]. apply id_start_iff in Hc. tauto. Qed.
Lemma exp_hd : forall sep e, exp_part sep e -> e = [] \/ exists c r, e = c :: r /\ (c = 101 \/ c = 69).
Proof using HU HD. intros sep e [-> |[c [sg [ds [-> [Hc _]]]]]]; [auto|right; eauto]. Qed.

Lemma read_decimal_complete : forall feat first s0 s run fr e sfx after,
  rest s = run ++ fr ++ e ++ sfx ++ after ->
  ((first <> 46 /\ dec_int_lit (sep_of feat) (first :: run) /\ hd 0 run <> 95 /\ (fr = [] \/ exists f, fr = 46 :: f /\ opt_digits (sep_of feat) f))
   \/ (first = 46 /\ run = [] /\ digits (sep_of feat) 10 fr)) ->
  exp_part (sep_of feat) e -> (sfx = [] \/ (sfx = [110] /\ big_of feat = true /\ first <> 46 /\ fr = [] /\ e = [])) ->
  no_ident after -> no_digit after -> (first <> 46 -> fr = [] -> e = [] -> sfx = [] -> forall r, after <> 46 :: r) ->
  exists t s', read_decimal_num U feat first s0 s = (t, s') /\ t_val t = T_NUM /\ rest s' = after.
Proof using HU HD.
  intros feat first s0 s run fr e sfx after Hr Hi He Hsx Hni Hnd Hdot. unfold read_decimal_num.
  assert (Sa : forall b, stop b after) by (intros b; apply stop_after; assumption).
  assert (S1 : stop 10 (sfx ++ after)) by (destruct Hsx as [-> |[-> _]]; [apply Sa|intros c r E; cbn in E; injection E as <- _; split; [reflexivity|lia]]).
  assert (S2 : stop 10 (e ++ sfx ++ after)).
  { destruct (exp_hd _ _ He) as [-> |[c [r [-> Hc]]]]; [exact S1|]. intros c' r' E. cbn in E. injection E as <- _. rewrite dig10. unfold is_digit. lia. }
  assert (D1 : exists s1, dec_int U feat first s = (None, s1) /\ rest s1 = fr ++ e ++ sfx ++ after).
  { destruct Hi as [[Hf [Hi [Hh Hfr]]]|[-> [-> Hfr]]].
    - assert (S3 : stop 10 (fr ++ e ++ sfx ++ after)).
      { destruct Hfr as [-> |[f [-> _]]]; [exact S2|]. intros c r E. cbn in E. injection E as <- _. split; [reflexivity|lia]. }
      destruct Hi as [Hi|[Hi Hz]].
      + injection Hi as -> ->. unfold dec_int. cbn [Z.eqb Pos.eqb negb andb]. exists s. split; [reflexivity|exact Hr].
      + cbn [hd] in Hz. assert (Hfd : is_dig 10 first = true) by (inversion Hi; subst; assumption). rewrite dig10 in Hfd. unfold is_digit in Hfd.
        apply dec_int_complete with (run := run); try assumption; [lia|].
        intros c r E Hc. destruct Hfr as [-> |[f [-> _]]]; [|cbn in E; injection E as <- _; rewrite dot_not_start in Hc; discriminate].
        cbn [app] in E. destruct (exp_hd _ _ He) as [-> |[c' [r' [-> Hc']]]]; [|cbn in E; injection E as <- _; lia]. cbn [app] in E.
        destruct Hsx as [-> |[-> _]]; [|cbn in E; injection E as <- _; lia]. cbn [app] in E. exfalso. eapply not_ident_start; eassumption.
    - unfold dec_int. cbn [Z.eqb Pos.eqb negb andb]. exists s. split; [reflexivity|exact Hr]. }
  destruct D1 as [s1 [D1 R1]]. rewrite D1.
  destruct (dec_frac_complete feat first fr (e ++ sfx ++ after) s1 R1 S2) as [s2 [D2 R2]].
  { destruct Hi as [[Hf [_ [_ Hfr]]]|[-> [_ Hfr]]]; [|right; auto]. left. split; [exact Hf|]. destruct Hfr as [-> |Hfr]; [|right; exact Hfr]. left. split; [reflexivity|].
    intros r E. destruct (exp_hd _ _ He) as [-> |[c' [r' [-> Hc']]]]; [|cbn in E; injection E as E _; lia]. cbn [app] in E.
    destruct Hsx as [-> |[-> _]]; [|cbn in E; injection E as E _; lia]. cbn [app] in E. eapply (Hdot Hf); auto. exact E. }
  rewrite D2.
  destruct (dec_exp_complete feat e (sfx ++ after) s2 R2 He) as [s3 [D3 R3]]; [intros _; exact S1| |].
  { intros -> c r E. destruct Hsx as [-> |[-> _]]; [|cbn in E; injection E as <- _; lia]. cbn [app] in E. split; intros ->; eapply no_ident_letter; try eassumption; lia. }
  rewrite D3. apply num_end_complete with (sfx := sfx); [exact R3| |exact Hni].
  destruct Hsx as [-> |[-> [Hb [Hf [-> ->]]]]].
  - left. split; [reflexivity|]. intros r E. eapply no_ident_letter; [exact Hni|exact E|lia].
  - right. split; [reflexivity|]. split; [|exact Hb]. cbn [negb]. lia.
Qed.

Lemma read_radix_complete : forall feat strict base p ds sfx after s, rest s = 48 :: p :: ds ++ sfx ++ after -> In p (radix_prefix base) -> digits (sep_of feat) base ds ->
  (sfx = [] \/ (sfx = [110] /\ big_of feat = true)) -> no_ident after -> no_digit after ->
  exists t s', read_num U feat strict s = (t, s') /\ t_val t = T_NUM /\ rest s' = after.
Proof using HU HD.
  intros feat strict base p ds sfx after s Hr Hp Hd Hsx Hni Hnd. unfold read_num.
  destruct (read_one s 48 _ Hr) as [s1 [Er [R1 _]]]; [lia|]. rewrite Er, (peek_cons _ _ _ R1). cbn [Z.eqb Pos.eqb].
  assert (Hp' : (base = 2 /\ (p = 98 \/ p = 66)) \/ (base = 8 /\ (p = 111 \/ p = 79)) \/ (base = 16 /\ (p = 120 \/ p = 88))).
  { unfold radix_prefix in Hp. destruct (base =? 2) eqn:?; [cbn in Hp; lia|]. destruct (base =? 8) eqn:?; [cbn in Hp; lia|]. destruct (base =? 16) eqn:?; [cbn in Hp; lia|]. destruct Hp. }
  destruct (read_one s1 p _ R1) as [s2 [Er2 [R2 _]]]; [lia|].
  assert (Sx : stop base (sfx ++ after)).
  { destruct Hsx as [-> |[-> _]]; [apply stop_after; assumption|]. intros c r E. cbn in E. injection E as <- _. split; [reflexivity|lia]. }
  assert (Ix : forall big : bool, (sfx = [110] -> big = true) -> forall c r, sfx ++ after = c :: r -> is_id_start U c = true -> c = 110 /\ big = true).
  { intros big Hbig c r E Hc. destruct Hsx as [-> |[-> _]]; [exfalso; eapply not_ident_start; eassumption|]. cbn in E. injection E as <- _. auto. }
  assert (Fin : forall s3, rest s3 = sfx ++ after -> exists t s', num_end U feat true s s3 = (t, s') /\ t_val t = T_NUM /\ rest s' = after).
  { intros s3 R3. apply num_end_complete with (sfx := sfx); [exact R3| |exact Hni]. destruct Hsx as [-> |[-> Hb]]; [left; split; [reflexivity|]|right; auto].
    intros r E. eapply no_ident_letter; [exact Hni|exact E|lia]. }
  apply digits_iff in Hd.
  destruct Hp' as [[-> Hp']|[[-> Hp']|[-> Hp']]].
  - replace ((p =? 98) || (p =? 66)) with true by lia. unfold read_binary_num. rewrite Er2. cbn [snd].
    destruct (radix_complete _ _ _ _ (bin_radix feat) (sfx ++ after) Sx (Ix _ ltac:(intros; destruct Hsx as [Hsx|Hsx]; [congruence|apply Hsx])) ds (fuel s2) s2 0%nat 0) as [i' [la [s3 [A1 [A2 [A3 [A4 _]]]]]]];
      [unfold fuel, lenraw; lia|left; auto|exact R2|exact Hd|].
    rewrite A1. replace (la =? 95) with false by lia. replace (Nat.eqb i' 0) with false by lia. apply Fin. exact A4.
  - replace ((p =? 98) || (p =? 66)) with false by lia. replace ((p =? 111) || (p =? 79)) with true by lia. unfold read_octal_num. rewrite Er2. cbn [snd].
    destruct (radix_complete _ _ _ _ (oct_radix feat false true) (sfx ++ after) Sx (Ix _ ltac:(reflexivity)) ds (fuel s2) s2 0%nat 0) as [i' [la [s3 [A1 [A2 [A3 [A4 _]]]]]]];
      [unfold fuel, lenraw; lia|left; auto|exact R2|cbn [negb]; rewrite Bool.andb_true_r; exact Hd|].
    rewrite A1. replace (la =? 95) with false by lia. replace (Nat.eqb i' 0) with false by lia. apply Fin. exact A4.
  - replace ((p =? 98) || (p =? 66)) with false by lia. replace ((p =? 111) || (p =? 79)) with false by lia. replace ((p =? 120) || (p =? 88)) with true by lia. unfold read_hex_num. rewrite Er2. cbn [snd].
    destruct (radix_complete _ _ _ _ (hex_radix feat true) (sfx ++ after) Sx (Ix _ ltac:(reflexivity)) ds (fuel s2) s2 0%nat 0) as [i' [la [s3 [A1 [A2 [A3 [A4 _]]]]]]];
      [unfold fuel, lenraw; lia|left; auto|exact R2|exact Hd|].
    rewrite A1. replace (la =? 95) with false by lia. replace (Nat.eqb i' 0) with false by lia. apply Fin. exact A4.
Qed.

Lemma read_octal_complete : forall feat ds after s, rest s = 48 :: ds ++ after -> digits false 8 ds -> no_ident after -> no_digit after ->
  exists t s', read_num U feat false s = (t, s') /\ t_val t = T_NUM /\ rest s' = after.
Proof using HU HD.
  intros feat ds after s Hr Hd Hni Hnd. unfold read_num.
  assert (Hc : exists c r, ds = c :: r /\ is_dig 8 c = true /\ run_ok false 8 true r = true).
  { apply digits_iff in Hd. destruct ds as [|c r]; [discriminate|]. cbn [run_ok] in Hd. destruct (is_dig 8 c) eqn:E; [eauto|]. rewrite Bool.andb_false_r in Hd. discriminate. }
  destruct Hc as [c [r [-> [Hc Hrun]]]]. rewrite dig8 in Hc. pose proof Hc as Hc'. unfold is_octal in Hc'. cbn [app] in Hr.
  destruct (read_one s 48 _ Hr) as [s1 [Er [R1 _]]]; [lia|]. rewrite Er, (peek_cons _ _ _ R1). cbn [Z.eqb Pos.eqb].
  replace ((c =? 98) || (c =? 66)) with false by lia. replace ((c =? 111) || (c =? 79)) with false by lia. replace ((c =? 120) || (c =? 88)) with false by lia.
  replace (is_digit c) with true by (unfold is_digit; lia). rewrite Hc. unfold read_octal_num.
  destruct (read_one s1 c _ R1) as [s2 [Er2 [R2 _]]]; [lia|]. rewrite Er2. cbn [snd].
  destruct (radix_complete _ _ _ _ (oct_radix feat true false) after ltac:(apply stop_after; assumption) ltac:(intros; exfalso; eapply not_ident_start; eassumption) r (fuel s2) s2 1%nat 0) as [i' [la [s3 [A1 [A2 [A3 [A4 _]]]]]]];
    [unfold fuel, lenraw; lia|right; lia|exact R2|cbn [negb]; rewrite Bool.andb_false_r; exact Hrun|].
  rewrite A1. replace (la =? 95) with false by lia. replace (Nat.eqb i' 0) with false by lia. cbn [negb].
  apply num_end_complete with (sfx := []); [exact A4| |exact Hni]. left. split; [reflexivity|]. intros r' E. eapply no_ident_letter; [exact Hni|exact E|lia].
Qed.

Lemma dec_int_hd : forall sep i, dec_int_lit sep i -> exists c r, i = c :: r /\ 48 <= c <= 57.
Proof using HU HD.
  intros sep i [-> |[Hi _]]; [exists 48, []; split; [reflexivity|lia]|].
  assert (G : exists c r, i = c :: r /\ is_dig 10 c = true) by (inversion Hi; subst; eauto). destruct G as [c [r [-> G]]]. exists c, r. split; [reflexivity|].
  rewrite dig10 in G. unfold is_digit in G. lia.
Qed.

Lemma read_num_complete : forall feat strict txt after s, num_lit false (sep_of feat) (big_of feat) strict txt -> nth 1 txt 0 <> 95 ->
  rest s = txt ++ after -> no_ident after -> no_digit after -> (dec_int_lit (sep_of feat) txt -> forall r, after <> 46 :: r) ->
  exists t s', read_num U feat strict s = (t, s') /\ t_val t = T_NUM /\ rest s' = after.
Proof using HU HD.
  intros feat strict txt after s Hl H1 Hr Hni Hnd Hdot.
  assert (Hgo : forall first run fr e sfx, txt = first :: run ++ fr ++ e ++ sfx ->
    ((first <> 46 /\ dec_int_lit (sep_of feat) (first :: run) /\ hd 0 run <> 95 /\ (fr = [] \/ exists f, fr = 46 :: f /\ opt_digits (sep_of feat) f))
     \/ (first = 46 /\ run = [] /\ digits (sep_of feat) 10 fr)) ->
    exp_part (sep_of feat) e -> (sfx = [] \/ (sfx = [110] /\ big_of feat = true /\ first <> 46 /\ fr = [] /\ e = [])) ->
    exists t s', read_num U feat strict s = (t, s') /\ t_val t = T_NUM /\ rest s' = after).
  { intros first run fr e sfx -> Hi He Hsx. cbn [app] in Hr. unfold read_num.
    assert (Hfd : first = 46 \/ 48 <= first <= 57). { destruct Hi as [[_ [Hi _]]|[Hi _]]; [|auto]. destruct (dec_int_hd _ _ Hi) as [c [r [Ei Hc]]]. injection Ei as -> _. auto. }
    destruct (read_one s first _ Hr) as [s1 [Er [R1 _]]]; [lia|]. rewrite Er.
    assert (Hdec : exists t s', read_decimal_num U feat first s s1 = (t, s') /\ t_val t = T_NUM /\ rest s' = after).
    { apply read_decimal_complete with (run := run) (fr := fr) (e := e) (sfx := sfx); try assumption; [rewrite R1, <- !app_assoc; reflexivity|].
      intros Hf -> -> ->. destruct Hi as [[_ [Hi _]]|[Hi _]]; [|congruence]. rewrite !app_nil_r in Hdot. apply Hdot. exact Hi. }
    destruct (first =? 48) eqn:E48; [|exact Hdec]. assert (first = 48) by lia. subst first.
    assert (run = []). { destruct Hi as [[_ [[Hi|[_ Hi]] _]]|[Hi _]]; [congruence|cbn in Hi; congruence|congruence]. } subst run. cbn [app] in R1.
    assert (Hp : peek s1 = EOF \/ peek s1 = 46 \/ peek s1 = 101 \/ peek s1 = 69 \/ peek s1 = 110 \/ (exists r, after = peek s1 :: r)).
    { destruct (peek s1 =? EOF) eqn:Ep; [lia|]. destruct (hd_peek s1 _ (proj1 (Z.eqb_neq _ _) Ep) eq_refl) as [rs Hrs]. rewrite Hrs in R1.
      destruct Hi as [[_ [_ [_ Hfr]]]|[Hi _]]; [|discriminate]. destruct Hfr as [-> |[f [-> _]]]; [|cbn in R1; injection R1 as R1 _; lia]. cbn [app] in R1.
      destruct (exp_hd _ _ He) as [-> |[c' [r' [-> Hc']]]]; [|cbn in R1; injection R1 as R1 _; lia]. cbn [app] in R1.
      destruct Hsx as [-> |[-> _]]; [|cbn in R1; injection R1 as R1 _; lia]. cbn [app] in R1. eauto 8. }
    assert (Hno : forall c, (c = 98 \/ c = 66 \/ c = 111 \/ c = 79 \/ c = 120 \/ c = 88) -> peek s1 <> c).
    { intros c Hc E. destruct Hp as [Hp|[Hp|[Hp|[Hp|[Hp|[r Hp]]]]]]; try (unfold EOF in Hp; lia). eapply no_ident_letter; [exact Hni|exact Hp|lia]. }
    pose proof (Hno 98 ltac:(lia)) as Q1. pose proof (Hno 66 ltac:(lia)) as Q2. pose proof (Hno 111 ltac:(lia)) as Q3. pose proof (Hno 79 ltac:(lia)) as Q4.
    pose proof (Hno 120 ltac:(lia)) as Q5. pose proof (Hno 88 ltac:(lia)) as Q6. apply Z.eqb_neq in Q1, Q2, Q3, Q4, Q5, Q6. rewrite Q1, Q2, Q3, Q4, Q5, Q6. cbn [orb].
    replace (is_digit (peek s1)) with false; [exact Hdec|]. symmetry.
    destruct Hp as [Hp|[Hp|[Hp|[Hp|[Hp|[r Hp]]]]]]; try (rewrite Hp; reflexivity). rewrite <- dig10. apply (Hnd _ _ Hp). }
  assert (Hint : forall i, dec_int_lit (sep_of feat) i -> exists c r, i = c :: r /\ c <> 46).
  { intros i Hi. destruct (dec_int_hd _ _ Hi) as [c [r [-> Hc]]]. exists c, r. split; [reflexivity|lia]. }
  destruct Hl as [i e Hi He|i f e Hi Hf He|f e Hf He|i Hb Hi|base p ds Hp Hd|base p ds Hb Hp Hd|ds Hst Hd|ds f e Hb1 _ _ _ _ _].
  - destruct (Hint i Hi) as [c [r [-> Hc]]]. apply (Hgo c r [] e []); [rewrite app_nil_r; reflexivity| |exact He|auto]. left. split; [exact Hc|]. split; [exact Hi|].
    split; [|auto]. destruct r as [|x r]; [cbn; lia|exact H1].
  - destruct (Hint i Hi) as [c [r [-> Hc]]]. apply (Hgo c r (46 :: f) e []); [rewrite app_nil_r; reflexivity| |exact He|auto]. left. split; [exact Hc|]. split; [exact Hi|].
    split; [|eauto]. destruct r as [|x r]; [cbn; lia|exact H1].
  - apply (Hgo 46 [] f e []); [rewrite app_nil_r; reflexivity| |exact He|auto]. auto.
  - destruct (Hint i Hi) as [c [r [-> Hc]]]. apply (Hgo c r [] [] [110]); [reflexivity| |left; reflexivity|auto 10]. left. split; [exact Hc|]. split; [exact Hi|].
    split; [|auto]. destruct r as [|x r]; [cbn; lia|exact H1].
  - eapply (read_radix_complete feat strict base p ds [] after s); auto.
  - eapply (read_radix_complete feat strict base p ds [110] after s); auto. rewrite Hr. cbn [app]. rewrite <- app_assoc. reflexivity.
  - subst strict. eapply read_octal_complete; [exact Hr|assumption|assumption|assumption].
  - discriminate.
Qed.
End Num.
