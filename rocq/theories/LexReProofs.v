(** The scanner of regular expressions against its grammar. *)
From Verif Require Import Base Utf8Model Utf8Proofs SourceModel SourceSpec SourceProofs TokenModel LexModel LexSpec LexProofs LexGapProofs LexKindProofs LexStrProofs LexTokSpec LexNameSpec LexNameProofs LexReSpec.
From Coq Require Import ZifyBool ZifyNat ZifyN.
Local Open Scope Z_scope.

Lemma line_end_iff : forall c, is_line_term c = true <-> line_end c.
Proof. intros c. unfold is_line_term, line_end. cbn [In]. lia. Qed.
Lemma line_end_false : forall c, is_line_term c = false <-> ~ line_end c.
Proof. intros c. rewrite <- line_end_iff. destruct (is_line_term c); intuition congruence. Qed.
Lemma not_le_13 : forall c, is_line_term c = false -> c <> 13.
Proof. intros c H ->. discriminate. Qed.

Definition opens (d : nat) (cls : bool) : list rune := (if cls then [91] else []) ++ repeat 40 d.

Section Re.
Variable U : uni.

Lemma re_loop_sound : forall n s0 s d cls rl s', (cls = true -> rl = true) -> src_ok s ->
  re_loop U n s0 s (opens d cls) cls rl = Some (None, s') ->
  exists body r, rest s = body ++ 47 :: r /\ rest s' = 47 :: r /\ re_part true d cls body /\ adv s s'.
Proof.
  induction n as [|n IH]; intros s0 s d cls rl s' Hrl Hok H; cbn [re_loop] in H; [discriminate|].
  destruct (peek s =? RuneError) eqn:E1; [discriminate|]. destruct (is_line_term (peek s)) eqn:E2; [discriminate|].
  apply Z.eqb_neq in E1. unfold RuneError in E1.
  destruct (peek s =? 92) eqn:E3.
  - apply Z.eqb_eq in E3. destruct (peek_inv s 92 E3) as [rs Hr]; [discriminate|]. destruct (read_one s 92 rs Hr) as [s1 [Er [R1 R2]]]; [lia|]. rewrite Er in H. cbn [snd] in H.
    assert (Hok1 : src_ok s1) by (eapply adv_ok; [apply R2|assumption]).
    destruct (peek s1 =? 117) eqn:E4.
    + apply Z.eqb_eq in E4. destruct (peek_inv s1 117 E4) as [rs1 Hr1]; [discriminate|]. destruct (read_one s1 117 rs1 Hr1) as [s2 [Er2 [R3 R4]]]; [lia|]. rewrite Er2 in H. cbn [snd] in H.
      destruct (read_unicode_escape_seq U false (ofst s) s2) as [[r [[e eo]|]] s3] eqn:Eu; [discriminate|].
      pose proof (ues_adv U false (ofst s) s2) as Ha. rewrite Eu in Ha. cbn [snd] in Ha.
      assert (Ha3 : adv s s3) by (eapply adv_trans; [apply R2|]; eapply adv_trans; [apply R4|exact Ha]).
      apply IH in H; [|assumption|eapply adv_ok; eassumption]. destruct H as (body & q & B1 & B2 & B3 & B4).
      apply ues_sound in Eu. destruct Eu as [(ds & D1 & D2 & D3 & D4)|(ds & D1 & D2 & D3)].
      * exists (92 :: 117 :: 123 :: ds ++ 125 :: body), q. split; [|split; [assumption|split; [eapply rp_unib; eassumption|eapply adv_trans; eassumption]]].
        rewrite Hr, <- R1, Hr1, <- R3, D2, B1. cbn [app]. do 3 f_equal. rewrite <- app_assoc. reflexivity.
      * exists (92 :: 117 :: ds ++ body), q. split; [|split; [assumption|split; [eapply rp_uni; eassumption|eapply adv_trans; eassumption]]].
        rewrite Hr, <- R1, Hr1, <- R3, D2, B1. cbn [app]. do 2 f_equal. rewrite <- app_assoc. reflexivity.
    + apply Z.eqb_neq in E4. destruct (is_line_term (peek s1)) eqn:E5.
      { destruct n as [|n]; [discriminate|]. cbn [re_loop] in H. rewrite E5 in H. destruct (peek s1 =? RuneError); discriminate. }
      destruct (Z.eq_dec (peek s1) EOF) as [E6|E6].
      { exfalso. destruct n as [|n]; [discriminate|]. cbn [re_loop] in H. apply peek_eof_iff in E6. rewrite (read_eof _ E6) in H. cbn [snd] in H. apply peek_eof_iff in E6. rewrite E6 in H. cbn in H. destruct (opens d cls); discriminate. }
      destruct (peek_inv s1 (peek s1) eq_refl E6) as [rs1 Hr1]. destruct (read_one s1 _ rs1 Hr1 (not_le_13 _ E5)) as [s2 [Er2 [R3 R4]]]. rewrite Er2 in H. cbn [snd] in H.
      apply IH in H; [|assumption|eapply adv_ok; [apply R4|assumption]]. destruct H as (body & q & B1 & B2 & B3 & B4).
      exists (92 :: peek s1 :: body), q. split; [rewrite Hr, <- R1, Hr1, <- R3, B1; reflexivity|]. split; [assumption|]. split; [|eapply adv_trans; [apply R2|eapply adv_trans; [apply R4|exact B4]]].
      apply rp_esc; [apply line_end_false; assumption|assumption|assumption].
  - apply Z.eqb_neq in E3.
    assert (Hend : (peek s =? 47) && match opens d cls with [] => true | _ => false end = true -> s' = s -> exists body r, rest s = body ++ 47 :: r /\ rest s' = 47 :: r /\ re_part true d cls body /\ adv s s').
    { intros E <-. apply andb_prop in E as [Ea Eb]. destruct (peek_inv s' 47) as [rs Hr]; [lia|discriminate|]. exists [], rs. split; [exact Hr|]. split; [exact Hr|]. split; [|apply adv_refl].
      unfold opens in Eb. destruct cls; [discriminate|]. destruct d; [constructor|discriminate]. }
    assert (Hgo : forall d' cls' rl', peek s <> EOF -> (cls' = true -> rl' = true) -> re_loop U n s0 (snd (read s)) (opens d' cls') cls' rl' = Some (None, s') ->
       (forall body, re_part true d' cls' body -> re_part true d cls (peek s :: body)) -> exists body r, rest s = body ++ 47 :: r /\ rest s' = 47 :: r /\ re_part true d cls body /\ adv s s').
    { intros d' cls' rl' He Hr' G K. destruct (peek_inv s (peek s) eq_refl He) as [rs Hr]. destruct (read_one s _ rs Hr (not_le_13 _ E2)) as [s1 [Er [R1 R2]]]. rewrite Er in G. cbn [snd] in G.
      apply IH in G; [|assumption|eapply adv_ok; [apply R2|assumption]]. destruct G as (body & q & B1 & B2 & B3 & B4). exists (peek s :: body), q.
      split; [rewrite Hr at 1; rewrite <- R1, B1; reflexivity|]. split; [assumption|]. split; [apply K; assumption|]. eapply adv_trans; [apply R2|exact B4]. }
    apply line_end_false in E2.
    destruct cls.
    + (* inside a class *)
      specialize (Hrl eq_refl). subst rl. cbn [negb orb] in H. rewrite !Bool.andb_false_r in H. cbn [orb andb] in H.
      change (opens d true) with (91 :: repeat 40 d) in H. destruct (peek s =? 93) eqn:E5; cbn [andb] in H.
      * replace (peek s =? 41) with false in H by lia. cbn [andb orb Z.eqb Pos.eqb] in H. apply (Hgo d false true); [unfold EOF; lia|discriminate|exact H|].
        intros body B. replace (peek s) with 93 by lia. apply rp_unclass. assumption.
      * cbv iota in H. rewrite ?Bool.andb_false_r in H. destruct (peek s =? EOF) eqn:E6; [discriminate|]. change (91 :: repeat 40 d) with (opens d true) in H.
        apply (Hgo d true true); [apply Z.eqb_neq; exact E6|auto|exact H|]. intros body B. apply rp_char; auto. apply Z.eqb_neq. exact E5.
    + cbn [negb orb] in H. rewrite !Bool.andb_true_r in H. destruct ((peek s =? 40) || (peek s =? 91)) eqn:E5.
      * destruct (peek s =? 91) eqn:E6.
        -- apply (Hgo d true true); [unfold EOF; lia|auto| |].
           ++ rewrite Bool.orb_true_r in H. replace (peek s) with 91 in H by lia. exact H.
           ++ intros body B. replace (peek s) with 91 by lia. apply rp_class. assumption.
        -- apply (Hgo (S d) false (rl || false)); [unfold EOF; lia|discriminate| |].
           ++ replace (peek s) with 40 in H by lia. exact H.
           ++ intros body B. replace (peek s) with 40 by lia. apply rp_open. assumption.
      * assert (Hplain : peek s <> 41 -> peek s <> EOF -> (peek s = 47 -> d <> 0%nat) -> re_loop U n s0 (snd (read s)) (opens d false) false (rl || false) = Some (None, s') ->
           exists body r, rest s = body ++ 47 :: r /\ rest s' = 47 :: r /\ re_part true d false body /\ adv s s').
        { intros N1 N2 N3 G. apply (Hgo d false (rl || false)); [exact N2|discriminate|exact G|]. intros body B. apply rp_char; auto. repeat split; auto; lia. }
        destruct (peek s =? 41) eqn:E6; cbn [orb] in H.
        -- destruct d as [|d].
           { discriminate H. }
           change (opens (S d) false) with (40 :: opens d false) in H. replace (peek s =? 93) with false in H by lia. cbn [andb orb Z.eqb Pos.eqb] in H.
           apply (Hgo d false (rl || false)); [unfold EOF; lia|discriminate|exact H|]. intros body B. replace (peek s) with 41 by lia. apply rp_close. assumption.
        -- destruct ((peek s =? 93) && rl) eqn:E7.
           { destruct d as [|d].
             - apply Hplain; [lia|unfold EOF; lia|lia|exact H].
             - change (opens (S d) false) with (40 :: opens d false) in H. cbn [Z.eqb Pos.eqb] in H. rewrite Bool.andb_false_r in H. cbn [orb andb] in H. apply Hplain; [lia|unfold EOF; lia|lia|exact H]. }
           destruct ((peek s =? 47) && match opens d false with [] => true | _ => false end) eqn:E8.
           { injection H as <-. apply Hend; auto. }
           destruct (peek s =? EOF) eqn:E9; [discriminate|]. apply Hplain; [lia|apply Z.eqb_neq; exact E9| |exact H]. intros Ep ->. rewrite Ep in E8. discriminate.
Qed.

Lemma hex_chars : forall ds v, num_value 16 ds = Some v -> Forall (fun c => is_hex c = true) ds.
Proof. intros ds v H. apply num16_iff in H. apply H. Qed.

Lemma re_loop_complete : forall sl d cls body, re_part sl d cls body -> forall n s0 s rl after, (cls = true -> rl = true) -> src_ok s -> (lenraw s < n)%nat ->
  rest s = body ++ 47 :: after -> exists s', re_loop U n s0 s (opens d cls) cls rl = Some (None, s') /\ rest s' = 47 :: after /\ adv s s'.
Proof.
  assert (One : forall c n s0 s d cls rl d' cls' rl' body after, is_line_term c = false -> src_ok s -> (lenraw s < S n)%nat -> rest s = c :: body ++ 47 :: after ->
     (forall s0 s rl after, (cls' = true -> rl = true) -> src_ok s -> (lenraw s < n)%nat -> rest s = body ++ 47 :: after -> exists s', re_loop U n s0 s (opens d' cls') cls' rl = Some (None, s') /\ rest s' = 47 :: after /\ adv s s') ->
     (cls' = true -> rl' = true) -> re_loop U (S n) s0 s (opens d cls) cls rl = re_loop U n s0 (snd (read s)) (opens d' cls') cls' rl' ->
     exists s', re_loop U (S n) s0 s (opens d cls) cls rl = Some (None, s') /\ rest s' = 47 :: after /\ adv s s').
  { intros c n s0 s d cls rl d' cls' rl' body after Hl Hok Hn Hr IH Hrl ->. destruct (read_one s c _ Hr (not_le_13 _ Hl)) as [s1 [Er [R1 R2]]]. rewrite Er. cbn [snd].
    destruct (IH s0 s1 rl' after Hrl) as [s' [A [B C]]]; [eapply adv_ok; [apply R2|assumption]|destruct R2; lia|exact R1|]. exists s'. split; [exact A|]. split; [exact B|]. eapply adv_trans; [apply R2|exact C]. }
  intros sl d cls body H. induction H as [|d cls c r Hl H92 HF Hc H IH|d cls c r Hl Hu H IH|d cls ds v r Hd Hv H IH|d cls ds v r Hd Hv Hm H IH|d r H IH|d r H IH|d r H IH|d r H IH]; intros n s0 s rl after Hrl Hok Hn Hr; (destruct n as [|n]; [lia|]).
  - exists s. split; [|split; [exact Hr|apply adv_refl]]. cbn [re_loop]. cbn [app] in Hr. rewrite (peek_cons _ _ _ Hr). cbn. rewrite ?Bool.andb_false_r. reflexivity.
  - assert (He : c <> EOF) by (pose proof (rest_ge0 s) as G; rewrite Hr in G; inversion G; unfold EOF; lia). apply line_end_false in Hl.
    apply (One c n s0 s d cls rl d cls (rl || cls) r after Hl Hok Hn Hr); [intros; apply IH; assumption|intros ->; apply Bool.orb_true_r|].
    cbn [re_loop]. rewrite (peek_cons _ _ _ Hr). unfold RuneError. rewrite (proj2 (Z.eqb_neq _ _) HF), Hl, (proj2 (Z.eqb_neq _ _) H92). destruct cls.
    + specialize (Hrl eq_refl). subst rl. cbn [negb orb]. rewrite !Bool.andb_false_r. cbn [orb]. rewrite (proj2 (Z.eqb_neq _ _) Hc). cbn [andb]. change (opens d true) with (91 :: repeat 40 d). cbv iota. rewrite ?Bool.andb_false_r.
      rewrite (proj2 (Z.eqb_neq _ _) He). reflexivity.
    + destruct Hc as [C1 [C2 [C3 C4]]]. rewrite (proj2 (Z.eqb_neq _ _) C1), (proj2 (Z.eqb_neq _ _) C2), (proj2 (Z.eqb_neq _ _) C3), (proj2 (Z.eqb_neq _ _) He). cbn [orb andb].
      destruct (c =? 93) eqn:E93.
      * destruct rl; cbn [andb orb]; replace (c =? 47) with false by lia; [|reflexivity]. destruct d; reflexivity.
      * cbn [andb]. destruct (c =? 47) eqn:E47; [|reflexivity]. apply Z.eqb_eq in E47. destruct (C4 E47) as [_ Hd]. destruct d; [congruence|]. reflexivity.
  - cbn [app] in Hr. destruct (read_one s 92 _ Hr) as [s1 [Er [R1 R2]]]; [lia|]. apply line_end_false in Hl. destruct (read_one s1 c _ R1 (not_le_13 _ Hl)) as [s2 [Er2 [R3 R4]]].
    cbn [re_loop]. rewrite (peek_cons _ _ _ Hr). cbn [Z.eqb Pos.eqb RuneError is_line_term]. change (is_line_term 92) with false. cbv iota. rewrite Er. cbn [snd]. rewrite (peek_cons _ _ _ R1), (proj2 (Z.eqb_neq _ _) Hu), Hl, Er2. cbn [snd].
    destruct (IH n s0 s2 rl after Hrl) as [s' [A [B C]]]; [eapply adv_ok; [apply R4|eapply adv_ok; [apply R2|assumption]]|destruct R2, R4; lia|exact R3|].
    exists s'. split; [exact A|]. split; [exact B|]. eapply adv_trans; [apply R2|]. eapply adv_trans; [apply R4|exact C].
  - cbn [app] in Hr. rewrite <- app_assoc in Hr. destruct (read_one s 92 _ Hr) as [s1 [Er [R1 R2]]]; [lia|]. destruct (read_one s1 117 _ R1) as [s2 [Er2 [R3 R4]]]; [lia|].
    assert (Hok2 : src_ok s2) by (eapply adv_ok; [apply R4|eapply adv_ok; [apply R2|assumption]]).
    destruct (ues_complete U (ofst s) s2 v ds (r ++ 47 :: after) Hok2 Hv) as [s3 [Eu Ru]]; [right; split; [exact Hd|exact R3]|].
    pose proof (ues_adv U false (ofst s) s2) as Ha. rewrite Eu in Ha. cbn [snd] in Ha.
    cbn [re_loop]. rewrite (peek_cons _ _ _ Hr). change (92 =? RuneError) with false. change (is_line_term 92) with false. change (92 =? 92) with true. cbv iota zeta. rewrite Er. cbn [snd]. rewrite (peek_cons _ _ _ R1). change (117 =? 117) with true. cbv iota. rewrite Er2. cbn [snd]. rewrite Eu.
    destruct (IH n s0 s3 rl after Hrl) as [s' [A [B C]]]; [eapply adv_ok; eassumption|apply adv_len in Ha; destruct R2, R4; lia|exact Ru|].
    exists s'. split; [exact A|]. split; [exact B|]. eapply adv_trans; [apply R2|]. eapply adv_trans; [apply R4|]. eapply adv_trans; eassumption.
  - cbn [app] in Hr. rewrite <- app_assoc in Hr. destruct (read_one s 92 _ Hr) as [s1 [Er [R1 R2]]]; [lia|]. destruct (read_one s1 117 _ R1) as [s2 [Er2 [R3 R4]]]; [lia|].
    assert (Hok2 : src_ok s2) by (eapply adv_ok; [apply R4|eapply adv_ok; [apply R2|assumption]]).
    destruct (ues_complete U (ofst s) s2 v ds (r ++ 47 :: after) Hok2 Hv) as [s3 [Eu Ru]]; [left; split; [exact Hd|split; [exact Hm|exact R3]]|].
    pose proof (ues_adv U false (ofst s) s2) as Ha. rewrite Eu in Ha. cbn [snd] in Ha.
    cbn [re_loop]. rewrite (peek_cons _ _ _ Hr). change (92 =? RuneError) with false. change (is_line_term 92) with false. change (92 =? 92) with true. cbv iota zeta. rewrite Er. cbn [snd]. rewrite (peek_cons _ _ _ R1). change (117 =? 117) with true. cbv iota. rewrite Er2. cbn [snd]. rewrite Eu.
    destruct (IH n s0 s3 rl after Hrl) as [s' [A [B C]]]; [eapply adv_ok; eassumption|apply adv_len in Ha; destruct R2, R4; lia|exact Ru|].
    exists s'. split; [exact A|]. split; [exact B|]. eapply adv_trans; [apply R2|]. eapply adv_trans; [apply R4|]. eapply adv_trans; eassumption.
  - apply (One 40 n s0 s d false rl (S d) false (rl || false) r after eq_refl Hok Hn Hr); [intros; apply IH; assumption|discriminate|]. cbn [re_loop]. cbn [app] in Hr. rewrite (peek_cons _ _ _ Hr). reflexivity.
  - apply (One 41 n s0 s (S d) false rl d false (rl || false) r after eq_refl Hok Hn Hr); [intros; apply IH; assumption|discriminate|]. cbn [re_loop]. cbn [app] in Hr. rewrite (peek_cons _ _ _ Hr). reflexivity.
  - apply (One 91 n s0 s d false rl d true (rl || true) r after eq_refl Hok Hn Hr); [intros; apply IH; assumption|intros; apply Bool.orb_true_r|]. cbn [re_loop]. cbn [app] in Hr. rewrite (peek_cons _ _ _ Hr). reflexivity.
  - specialize (Hrl eq_refl). subst rl. apply (One 93 n s0 s d true true d false true r after eq_refl Hok Hn Hr); [intros; apply IH; assumption|discriminate|]. cbn [re_loop]. cbn [app] in Hr. rewrite (peek_cons _ _ _ Hr). reflexivity.
Qed.
End Re.

(** ** The grammars *)

Lemma hex_body : forall ds r, Forall (fun c => is_hex c = true) ds -> re_body r -> re_body (ds ++ r).
Proof.
  intros ds r H Hr. induction H as [|c ds Hc _ IH]; [exact Hr|]. unfold is_hex in Hc. apply rb_char; [unfold line_end; cbn [In]; lia|lia|lia|lia|exact IH].
Qed.
Lemma hex_class : forall ds r, Forall (fun c => is_hex c = true) ds -> re_class r -> re_class (ds ++ r).
Proof.
  intros ds r H Hr. induction H as [|c ds Hc _ IH]; [exact Hr|]. unfold is_hex in Hc. apply rc_char; [unfold line_end; cbn [In]; lia|lia|lia|exact IH].
Qed.
Lemma nle : forall c, is_line_term c = false -> ~ line_end c.
Proof. intros c. apply line_end_false. Qed.

(** A body without slashes inside its groups is a RegularExpressionBody. *)
Lemma re_part_body : forall d cls body, re_part false d cls body -> if cls then exists cs r, body = cs ++ 93 :: r /\ re_class cs /\ re_body r else re_body body.
Proof.
  intros d cls body H. induction H as [|d cls c r Hl H92 HF Hc H IH|d cls c r Hl Hu H IH|d cls ds v r Hd Hv H IH|d cls ds v r Hd Hv Hm H IH|d r H IH|d r H IH|d r H IH|d r H IH].
  - constructor.
  - destruct cls.
    + destruct IH as (cs & q & -> & I1 & I2). exists (c :: cs), q. split; [reflexivity|]. split; [|exact I2]. apply rc_char; auto.
    + destruct Hc as [C1 [C2 [C3 C4]]]. apply rb_char; auto. intros E. destruct (C4 E). discriminate.
  - destruct cls.
    + destruct IH as (cs & q & -> & I1 & I2). exists (92 :: c :: cs), q. split; [reflexivity|]. split; [|exact I2]. apply rc_esc; auto.
    + apply rb_esc; auto.
  - apply hex_chars in Hv. destruct cls.
    + destruct IH as (cs & q & -> & I1 & I2). exists (92 :: 117 :: ds ++ cs), q. split; [cbn [app]; rewrite <- app_assoc; reflexivity|]. split; [|exact I2]. apply rc_esc; [apply nle; reflexivity|]. apply hex_class; assumption.
    + apply rb_esc; [apply nle; reflexivity|]. apply hex_body; assumption.
  - apply hex_chars in Hv. destruct cls.
    + destruct IH as (cs & q & -> & I1 & I2). exists (92 :: 117 :: 123 :: ds ++ 125 :: cs), q. split; [cbn [app]; rewrite <- app_assoc; reflexivity|]. split; [|exact I2]. apply rc_esc; [apply nle; reflexivity|].
      apply rc_char; [apply nle; reflexivity|lia|lia|]. apply hex_class; [assumption|]. apply rc_char; [apply nle; reflexivity|lia|lia|exact I1].
    + apply rb_esc; [apply nle; reflexivity|]. apply rb_char; [apply nle; reflexivity|lia|lia|lia|]. apply hex_body; [assumption|]. apply rb_char; [apply nle; reflexivity|lia|lia|lia|exact IH].
  - apply rb_char; [apply nle; reflexivity|lia|lia|lia|exact IH].
  - apply rb_char; [apply nle; reflexivity|lia|lia|lia|exact IH].
  - destruct IH as (cs & q & -> & I1 & I2). apply rb_class; assumption.
  - exists [], r. split; [reflexivity|]. split; [constructor|exact IH].
Qed.
Lemma re_part_no_slash : forall d cls body, re_part true d cls body -> ~ In 47 body -> re_part false d cls body.
Proof.
  intros d cls body H. induction H as [|d cls c r Hl H92 HF Hc H IH|d cls c r Hl Hu H IH|d cls ds v r Hd Hv H IH|d cls ds v r Hd Hv Hm H IH|d r H IH|d r H IH|d r H IH|d r H IH]; intros N.
  - constructor.
  - apply rp_char; auto; [|apply IH; intros G; apply N; right; exact G]. destruct cls; [exact Hc|]. destruct Hc as [C1 [C2 [C3 C4]]]. repeat split; auto; exfalso; apply N; left; auto.
  - apply rp_esc; auto. apply IH. intros G. apply N. right. right. exact G.
  - eapply rp_uni; eauto. apply IH. intros G. apply N. right. right. apply in_or_app. right. exact G.
  - eapply rp_unib; eauto. apply IH. intros G. apply N. do 3 right. apply in_or_app. right. right. exact G.
  - apply rp_open. apply IH. intros G. apply N. right. exact G.
  - apply rp_close. apply IH. intros G. apply N. right. exact G.
  - apply rp_class. apply IH. intros G. apply N. right. exact G.
  - apply rp_unclass. apply IH. intros G. apply N. right. exact G.
Qed.

Lemma re_class_unique : forall cs, re_class cs -> forall cs' x x', re_class cs' -> cs ++ 93 :: x = cs' ++ 93 :: x' -> cs = cs' /\ x = x'.
Proof.
  induction 1 as [|c r Hl H93 H92 H IH|c r Hl H IH]; intros cs' x x' H' E.
  - destruct H' as [|c r Hl H93 H92 H|c r Hl H]; cbn in E; [injection E as <-; auto|injection E as E _; lia|injection E as E _; lia].
  - destruct H' as [|c' r' Hl' H93' H92' H'|c' r' Hl' H']; cbn in E; [injection E as E _; lia| |injection E as E _; lia]. injection E as -> E. destruct (IH _ _ _ H' E) as [-> ->]. auto.
  - destruct H' as [|c' r' Hl' H93' H92' H'|c' r' Hl' H']; cbn in E; [injection E as E _; lia|injection E as E _; lia|]. injection E as -> E. destruct (IH _ _ _ H' E) as [-> ->]. auto.
Qed.
(** A body ends at one slash only. *)
Lemma re_body_unique : forall b, re_body b -> forall b' x x', re_body b' -> b ++ 47 :: x = b' ++ 47 :: x' -> b = b' /\ x = x'.
Proof.
  induction 1 as [|c r Hl H92 H47 H91 H IH|c r Hl H IH|cs r Hc H IH]; intros b' x x' H' E.
  - destruct H' as [|c r Hl H92 H47 H91 H|c r Hl H|cs r Hc H]; cbn in E; [injection E as <-; auto|injection E as E _; lia|injection E as E _; lia|injection E as E _; lia].
  - destruct H' as [|c' r' Hl' H92' H47' H91' H'|c' r' Hl' H'|cs' r' Hc' H']; cbn in E; [injection E as E _; lia| |injection E as E _; lia|injection E as E _; lia]. injection E as -> E. destruct (IH _ _ _ H' E) as [-> ->]. auto.
  - destruct H' as [|c' r' Hl' H92' H47' H91' H'|c' r' Hl' H'|cs' r' Hc' H']; cbn in E; [injection E as E _; lia|injection E as E _; lia| |injection E as E _; lia]. injection E as -> E. destruct (IH _ _ _ H' E) as [-> ->]. auto.
  - destruct H' as [|c' r' Hl' H92' H47' H91' H'|c' r' Hl' H'|cs' r' Hc' H']; cbn in E; [injection E as E _; lia|injection E as E _; lia|injection E as E _; lia|]. injection E as E. rewrite <- !app_assoc in E. cbn [app] in E.
    destruct (re_class_unique _ Hc _ _ _ Hc' E) as [-> E']. destruct (IH _ _ _ H' E') as [-> ->]. auto.
Qed.
