(** Proofs about the text between JSX tags. *)
From Verif Require Import Base Utf8Model Utf8Proofs SourceModel SourceSpec SourceProofs TokenModel LexModel LexSpec LexProofs
  LexGapProofs LexStrProofs LexKindProofs LexJsxSpec.
From Coq Require Import ZifyBool ZifyNat ZifyN.
Local Open Scope Z_scope.

Lemma spell_app : forall a b, spell (a ++ b) = spell a ++ spell b.
Proof. intros a b. apply flat_map_app. Qed.

(** Bytes that decode to white space are its spelling. *)
Lemma spell_space : forall n X ws, (length X <= n)%nat -> decode_all X = ws -> Forall (fun r => is_space r = true) ws -> X = spell ws.
Proof.
  induction n as [|n IH]; intros [|b X] ws Hn H Hs; try (cbn in Hn; lia); try (subst ws; reflexivity).
  rewrite decode_all_cons in H. destruct (decode_rune (b :: X)) as [r k] eqn:E. cbn [fst snd] in H. subst ws. inversion Hs as [|? ? Hr1 Hs1]; subst.
  destruct (decode_prefix _ _ _ _ E) as [[-> _]|P]; [vm_compute in Hr1; discriminate|].
  pose proof (decode_size_pos b X) as Hp. rewrite E in Hp. cbn [snd] in Hp.
  assert (Hk : (length (skipn k (b :: X)) <= n)%nat) by (rewrite skipn_length; cbn [length] in *; lia).
  pose proof (IH _ _ Hk eq_refl Hs1) as Q.
  change (spell (r :: decode_all (skipn k (b :: X)))) with (encode_rune r ++ spell (decode_all (skipn k (b :: X)))).
  rewrite <- Q, <- P, firstn_skipn. reflexivity.
Qed.

(** The text between two places of the source, the second after white space. *)
Lemma text_space : forall s s1 ws, src_ok s -> src_ok s1 -> code s1 = code s -> (ofst s <= ofst s1)%nat ->
  rest s = ws ++ rest s1 -> Forall (fun r => is_space r = true) ws -> text s1 (ofst s) (ofst s1) = Some (spell ws).
Proof.
  intros s s1 ws [[B1 [R1 _]] _] [[B2 [R2 _]] _] Hc Hle Hr Hs. rewrite Hc in B2, R2.
  unfold text, ofst in *. rewrite Hc.
  pose proof (boundary_le _ _ B2) as L2.
  replace ((s_ofst (st s) <=? s_ofst (st s1))%nat && (s_ofst (st s1) <=? length (code s))%nat) with true by lia. f_equal.
  set (X := firstn _ _).
  pose proof (boundary_skipn _ _ _ B1 B2 Hle) as BB.
  pose proof (decode_all_split _ _ BB) as D. fold X in D.
  rewrite skipn_skipn_add in D. replace (s_ofst (st s) + (s_ofst (st s1) - s_ofst (st s)))%nat with (s_ofst (st s1)) in D by lia.
  unfold rest in Hr. rewrite R1, R2 in Hr. rewrite Hr in D. apply app_inv_tail in D.
  apply (spell_space _ X ws (le_n _)); congruence.
Qed.

Lemma name_char_encode : forall c, name_char c -> encode_rune c = [z2b c].
Proof. intros c H. unfold encode_rune. replace ((0 <=? c) && (c <=? 127)) with true by (unfold name_char in H; lia). reflexivity. Qed.
Lemma spell_name : forall l, Forall name_char l -> length (spell l) = length l.
Proof.
  intros l H. induction H as [|c l Hc _ IH]; [reflexivity|]. change (spell (c :: l)) with (encode_rune c ++ spell l).
  rewrite app_length, IH, (name_char_encode c Hc). reflexivity.
Qed.
Lemma name_no_semi : forall l, Forall name_char l -> ~ In 59 l.
Proof. intros l H I. rewrite Forall_forall in H. apply H in I. unfold name_char in I. lia. Qed.

Section Text.
Variable entity : bytes -> option bytes.

Lemma jsx_loop_txt : forall n s rs ent i v eof s', jsx_txt_loop entity n s rs ent i = Some ((v, eof, false), s') ->
  exists body, rest s = body ++ rest s' /\ Forall txt_char body /\ txt_end (rest s')
   /\ (i = O -> ~ In 38 body -> (eof = true <-> rest s' = []) /\ exists w, v = rs ++ w /\ txt_value entity body w)
   /\ (i = O -> ent = [] -> forall a name e b, body = a ++ reference name ++ b -> ~ In 38 a -> ~ In 38 b ->
        Forall name_char name -> entity (spell (reference name)) = Some e ->
        exists w, v = rs ++ w /\ txt_value entity body w)
   /\ (forall pre name e b, i = length ent -> ent = spell (38 :: pre) -> body = name ++ 59 :: b -> ~ In 38 b ->
        Forall name_char pre -> Forall name_char name -> entity (spell (reference (pre ++ name))) = Some e ->
        exists w, v = rs ++ e ++ w /\ txt_value entity b w).
Proof.
  induction n as [|n IH]; intros s rs ent i v eof s' H; cbn [jsx_txt_loop] in H; [discriminate|].
  destruct ((peek s =? 123) || (peek s =? 60) || (peek s =? EOF)) eqn:E0.
  { injection H as <- He <-. exists []. split; [reflexivity|]. split; [constructor|].
    split; [rewrite peek_rest in E0; destruct (rest s) as [|c k] eqn:Er; [exact I|]; cbn in E0 |- *;
      pose proof (rest_ge0 s) as G; rewrite Er in G; inversion G; subst; unfold EOF in *; lia|].
    split.
    { intros -> _. split; [|exists []; rewrite app_nil_r; split; [reflexivity|constructor]].
      rewrite peek_rest in He. subst eof. destruct (rest s) as [|c k] eqn:Er; [split; reflexivity|]. cbn.
      pose proof (rest_ge0 s) as G. rewrite Er in G. inversion G; subst. replace (c =? EOF) with false by (unfold EOF; lia).
      split; discriminate. }
    split; [intros _ _ a name e b Hb; destruct a; discriminate|].
    intros pre name e b _ _ Hb. destruct name; discriminate. }
  assert (Hne : rest s <> []) by (intros Q; rewrite peek_rest, Q in E0; cbn in E0; discriminate).
  assert (Hpk : exists k, rest s = peek s :: k)
    by (destruct (rest s) as [|c k] eqn:Er; [congruence|]; exists k; rewrite peek_rest, Er; reflexivity).
  destruct Hpk as [k Hk]. assert (Hok : txt_char (peek s)) by (unfold txt_char; lia).
  pose proof (read_cases s Hne) as RC.
  destruct ((peek s =? 38) || negb (Nat.eqb i 0)) eqn:E1.
  - (* in a reference *)
    unfold rd in H.
    assert (RB : exists h, rest s = (peek s :: h) ++ rest (snd (read s)) /\ Forall txt_char (peek s :: h) /\ (peek s <> 13 -> h = [])).
    { destruct RC as [[r [R1 R2]]|[R1 R2]].
      - exists []. rewrite Hk in R1. injection R1 as <- R. split; [rewrite Hk, R; reflexivity|]. split; [constructor; [assumption|constructor]|reflexivity].
      - exists [10]. assert (peek s = 13) by congruence. rewrite Hk in R1. split; [rewrite Hk; cbn [app]; congruence|].
        split; [constructor; [assumption|constructor; [unfold txt_char; lia|constructor]]|congruence]. }
    destruct RB as [h [RB1 [RB2 RB3]]].
    destruct (peek s =? 59) eqn:E59.
    + assert (P : peek s = 59) by lia. rewrite P in *. rewrite (RB3 ltac:(lia)) in *. cbn [app] in RB1.
      assert (Hi : i <> O) by lia.
      destruct (entity (firstn (S i) (ent ++ encode_rune 59))) as [eb|] eqn:Ee; [|discriminate].
      destruct (IH _ _ _ _ _ _ _ H) as [body [B1 [B2 [B3 [B4 _]]]]].
      exists (59 :: body). split; [rewrite RB1, B1; reflexivity|]. split; [constructor; assumption|]. split; [assumption|].
      split; [congruence|]. split; [congruence|].
      intros pre name e b Hl He Hb Hnb Hpre Hname Hent.
      destruct name as [|x name]; [|cbn in Hb; injection Hb as <- Hb; inversion Hname; subst; unfold name_char in *; lia].
      cbn in Hb. injection Hb as <-. destruct (B4 eq_refl Hnb) as [_ [w [W1 W2]]].
      exists w. split; [|assumption]. rewrite W1, <- app_assoc. do 2 f_equal.
      rewrite app_nil_r in Hent.
      assert (Q : firstn (S i) (ent ++ encode_rune 59) = spell (reference pre)).
      { rewrite firstn_all2 by (rewrite app_length; cbn; lia). rewrite He.
        change (reference pre) with ((38 :: pre) ++ [59]). rewrite spell_app. reflexivity. }
      congruence.
    + destruct (IH _ _ _ _ _ _ _ H) as [body [B1 [B2 [B3 [_ [_ B6]]]]]].
      exists ((peek s :: h) ++ body). split; [rewrite RB1, B1, app_assoc; reflexivity|].
      split; [apply Forall_app; split; assumption|]. split; [assumption|].
      split.
      { intros -> Hn. exfalso. apply Hn. left. lia. }
      split.
      { intros -> -> a name e b Hb Ha Hnb Hname Hent. assert (P : peek s = 38) by lia. rewrite P in *.
        rewrite (RB3 ltac:(lia)) in *. cbn [app] in Hb |- *.
        destruct a as [|x a]; [|exfalso; apply Ha; left; cbn in Hb; congruence].
        cbn [app] in Hb. unfold reference in Hb. cbn [app] in Hb. injection Hb as Hb. rewrite <- app_assoc in Hb. cbn [app] in Hb.
        destruct (B6 [] name e b eq_refl eq_refl Hb Hnb (Forall_nil _) Hname Hent) as [w [W1 W2]].
        exists (e ++ w). split; [exact W1|]. rewrite Hb.
        replace (38 :: name ++ 59 :: b) with (reference name ++ b) by (unfold reference; cbn [app]; rewrite <- app_assoc; reflexivity).
        apply TV_ref; [apply name_no_semi; assumption|assumption|assumption]. }
      intros pre name e b Hl He Hb Hnb Hpre Hname Hent.
      destruct name as [|x name]; [cbn in Hb; injection Hb as Hb _; lia|]. cbn [app] in Hb. injection Hb as <- Hb.
      inversion Hname as [|? ? Hx Hname']; subst.
      rewrite (RB3 ltac:(unfold name_char in Hx; lia)) in *. cbn [app] in Hb.
      destruct (B6 (pre ++ [peek s]) name e b) as [w [W1 W2]].
      * change (38 :: pre) with ([38] ++ pre) in *. rewrite !app_length. rewrite (name_char_encode _ Hx). cbn. lia.
      * change (38 :: pre ++ [peek s]) with ((38 :: pre) ++ [peek s]). rewrite spell_app. cbn [spell flat_map]. rewrite app_nil_r. reflexivity.
      * assumption.
      * assumption.
      * apply Forall_app. split; [assumption|constructor; [assumption|constructor]].
      * assumption.
      * rewrite <- app_assoc. exact Hent.
      * exists w. split; assumption.
  - assert (Hi : i = O) by lia. subst i. assert (P38 : peek s <> 38) by lia.
    destruct (read s) as [r s1] eqn:Er. cbn [fst snd] in RC.
    destruct (IH _ _ _ _ _ _ _ H) as [body [B1 [B2 [B3 [B4 [B5 _]]]]]].
    destruct RC as [[r0 [R1 R2]]|[R1 R2]].
    + rewrite Hk in R1. injection R1 as <- R1.
      assert (TV : forall w, txt_value entity body w -> hd 0 (body ++ rest s') <> 10 \/ peek s <> 13 ->
                   txt_value entity (peek s :: body) (encode_rune r ++ w)).
      { intros w W Hd. destruct (peek s =? 13) eqn:E13.
        - subst r. replace (peek s) with 13 by lia. apply TV_cr; [|assumption].
          destruct body as [|y body]; [cbn; lia|]. cbn in Hd |- *. lia.
        - subst r. apply TV_char; [assumption|lia|assumption]. }
      assert (Hd : hd 0 (body ++ rest s') <> 10 \/ peek s <> 13).
      { destruct (Z.eq_dec (peek s) 13) as [P|P]; [left|right; assumption]. intros Q.
        destruct (read_decode s (peek s) k Hk) as [s2 [E2 [D2 _]]]. rewrite Er in E2. injection E2 as _ <-.
        rewrite P in D2. cbn [Z.eqb Pos.eqb] in D2. fold (rest s1) in D2. rewrite B1 in D2.
        rewrite <- R1 in B1. rewrite B1 in D2.
        destruct (body ++ rest s') as [|y z] eqn:Eb; [cbn in Q; lia|]. cbn in Q. subst y. cbn [Z.eqb Pos.eqb] in D2.
        clear -D2. apply (f_equal (@length _)) in D2. cbn in D2. lia. }
      exists (peek s :: body). split; [rewrite Hk, R1, B1; reflexivity|]. split; [constructor; assumption|]. split; [assumption|].
      split.
      { intros _ Hn. destruct (B4 eq_refl) as [G [w [W1 W2]]]; [intros G; apply Hn; right; exact G|]. split; [exact G|].
        exists (encode_rune r ++ w). split; [rewrite W1, app_assoc; reflexivity|]. apply TV; assumption. }
      split.
      { intros _ -> a name e b Hb Ha Hnb Hname Hent.
        destruct a as [|x a]; [cbn in Hb; injection Hb as Hb _; congruence|]. cbn [app] in Hb. injection Hb as <- Hb.
        destruct (B5 eq_refl eq_refl a name e b Hb) as [w [W1 W2]]; try assumption; [intros G; apply Ha; right; exact G|].
        exists (encode_rune r ++ w). split; [rewrite W1, app_assoc; reflexivity|]. apply TV; assumption. }
      intros pre name e b Hl He. exfalso. subst ent. cbn in Hl. lia.
    + assert (P : peek s = 13) by congruence. subst r. exists (13 :: 10 :: body).
      split; [rewrite R1, B1; reflexivity|]. split; [constructor; [unfold txt_char; lia|constructor; [unfold txt_char; lia|assumption]]|].
      split; [assumption|]. split.
      { intros _ Hn. destruct (B4 eq_refl) as [G [w [W1 W2]]]; [intros G; apply Hn; right; right; exact G|]. split; [exact G|].
        exists (encode_rune 10 ++ w). split; [rewrite W1, app_assoc; reflexivity|]. apply TV_crlf; assumption. }
      split.
      { intros _ -> a name e b Hb Ha Hnb Hname Hent.
        destruct a as [|x a]; [cbn in Hb; discriminate|]. cbn [app] in Hb. injection Hb as <- Hb.
        destruct a as [|x a]; [cbn in Hb; discriminate|]. cbn [app] in Hb. injection Hb as <- Hb.
        destruct (B5 eq_refl eq_refl a name e b Hb) as [w [W1 W2]]; try assumption; [intros G; apply Ha; right; right; exact G|].
        exists (encode_rune 10 ++ w). split; [rewrite W1, app_assoc; reflexivity|]. apply TV_crlf; assumption. }
      intros pre name e b Hl He. exfalso. subst ent. cbn in Hl. lia.
Qed.

(** Text without [&] is read up to the brace or tag that ends it. *)
Lemma jsx_loop_reads : forall n s rs ent body k, rest s = body ++ k -> Forall txt_char body -> ~ In 38 body -> txt_end k ->
  (lenraw s < n)%nat -> exists v s', jsx_txt_loop entity n s rs ent 0 = Some ((v, match k with [] => true | _ => false end, false), s') /\ rest s' = k.
Proof.
  induction n as [|n IH]; intros s rs ent body k Hr Hb Hn Hk Hf; [lia|]. cbn [jsx_txt_loop].
  destruct body as [|c body].
  { cbn in Hr. rewrite peek_rest, Hr. exists rs, s. split; [|exact Hr]. destruct k as [|c k]; cbn; [reflexivity|].
    cbn in Hk. replace ((c =? 123) || (c =? 60) || (c =? EOF)) with true by lia. replace (c =? EOF) with false by (unfold EOF; lia). reflexivity. }
  inversion Hb as [|? ? Hc Hb']; subst. cbn [app] in Hr. pose proof (peek_cons _ _ _ Hr) as P.
  pose proof (rest_ge0 s) as G. rewrite Hr in G. inversion G as [|? ? G1 _]; clear G. subst c. assert (peek s <> 38) by (intros Q; apply Hn; left; exact Q).
  replace ((peek s =? 123) || (peek s =? 60) || (peek s =? EOF)) with false by (unfold txt_char, EOF in *; lia).
  replace ((peek s =? 38) || negb (Nat.eqb 0 0)) with false by (cbn; lia).
  assert (Hne : rest s <> []) by congruence.
  assert (HL : (lenraw (snd (read s)) < lenraw s)%nat) by (apply (read_peek_ne s); unfold EOF; lia).
  destruct (read_decode s _ _ Hr) as [s1 [E [D _]]]. rewrite E in HL. cbn [snd] in HL. rewrite E. fold (rest s1) in D.
  assert (D' : exists body', rest s1 = body' ++ k /\ Forall txt_char body' /\ ~ In 38 body').
  { assert (N : ~ In 38 body) by (intros Q; apply Hn; right; exact Q).
    destruct (peek s =? 13) eqn:E13; [|exists body; auto].
    destruct body as [|y body].
    - exists []. split; [|split; [constructor|intros []]]. cbn [app] in *. rewrite D. destruct k as [|y k]; [reflexivity|].
      cbn in Hk. replace (y =? 10) with false by lia. reflexivity.
    - cbn [app] in D. destruct (y =? 10) eqn:E10; [|exists (y :: body); auto].
      exists body. inversion Hb'; subst. split; [exact D|]. split; [assumption|]. intros Q. apply N. right. exact Q. }
  destruct D' as [body' [D1 [D2 D3]]]. apply (IH _ _ _ body' k D1 D2 D3 Hk). lia.
Qed.
End Text.

(** ** Attribute strings *)

Lemma skip_space_to : forall s ws k, rest s = ws ++ k -> Forall (fun r => is_space r = true) ws ->
  match k with [] => True | c :: _ => is_space c = false end -> rest (skip_space s) = k.
Proof.
  intros s ws k Hr Hw Hk. destruct (skip_space_spec s) as [S1 _]. fold (rest s) in S1. fold (rest (skip_space s)) in S1.
  rewrite S1, Hr. clear -Hw Hk. induction Hw as [|c ws Hc _ IH]; cbn [app drop_while].
  - destruct k as [|c k]; [reflexivity|]. cbn [drop_while]. rewrite Hk. reflexivity.
  - rewrite Hc. exact IH.
Qed.

Lemma jsx_str_loop_reads : forall n q s body after, (q = 34 \/ q = 39) -> rest s = body ++ q :: after -> ~ In q body -> (lenraw s < n)%nat ->
  exists s2, jsx_str_loop n q s = Some (true, snd (read s2)) /\ adv s s2 /\ rest s2 = q :: after.
Proof.
  induction n as [|n IH]; intros q s body after Hq Hr Hn Hf; [lia|]. cbn [jsx_str_loop].
  destruct body as [|c body].
  { cbn [app] in Hr. destruct (read_one s q after Hr) as [s1 [E [R1 R2]]]; [lia|]. exists s. split; [|split; [apply adv_refl|exact Hr]].
    rewrite E. cbn [snd]. replace (q =? EOF) with false by (unfold EOF; lia). rewrite Z.eqb_refl. reflexivity. }
  cbn [app] in Hr. assert (c <> q) by (intros ->; apply Hn; left; reflexivity).
  assert (Hn' : ~ In q body) by (intros Q; apply Hn; right; exact Q).
  pose proof (rest_ge0 s) as G. rewrite Hr in G. inversion G as [|? ? G1 _]; subst; clear G.
  assert (HL : (lenraw (snd (read s)) < lenraw s)%nat) by (apply (read_peek_ne s); rewrite (peek_cons _ _ _ Hr); unfold EOF; lia).
  pose proof (adv_read s) as Ha.
  destruct (read_decode s _ _ Hr) as [s1 [E [D _]]]. rewrite E in HL, Ha. cbn [snd] in HL, Ha. rewrite E. fold (rest s1) in D.
  set (r := if (c =? 13) || (c =? 10) then 10 else c).
  replace (r =? EOF) with false by (unfold r, EOF; destruct (_ || _); lia).
  replace (r =? q) with false by (unfold r; destruct (_ || _); lia).
  assert (D' : exists body', rest s1 = body' ++ q :: after /\ ~ In q body').
  { destruct (c =? 13) eqn:E13; [|exists body; auto].
    destruct body as [|y body]; cbn [app] in D.
    - exists []. split; [|intros []]. cbn [app]. rewrite D. replace (q =? 10) with false by lia. reflexivity.
    - destruct (y =? 10); [|exists (y :: body); auto]. exists body. split; [exact D|]. intros Q. apply Hn'. right. exact Q. }
  destruct D' as [body' [D1 D2]]. destruct (IH q s1 body' after Hq D1 D2) as [s2 [I1 [I2 I3]]]; [lia|].
  exists s2. split; [exact I1|]. split; [eapply adv_trans; eassumption|exact I3].
Qed.

Lemma read_jsx_str_reads : forall q s body after, (q = 34 \/ q = 39) -> src_ok s -> rest s = q :: body ++ q :: after -> ~ In q body ->
  exists t s', read_jsx_str s = Some (t, s') /\ t_val t = T_STRING /\ t_lo t = ofst s /\ t_hi t = ofst s' /\ rest s' = after
    /\ decode_all (tok_text t s') = body.
Proof.
  intros q s body after Hq Hok Hr Hn. unfold read_jsx_str.
  destruct (read_ascii s q _ Hr) as [s1 [E [R1 [R2 R3]]]]; [lia|lia|]. rewrite E.
  destruct (jsx_str_loop_reads (fuel s1) q s1 body after Hq R1 Hn) as [s2 [I1 [I2 I3]]]; [unfold fuel, lenraw; lia|].
  rewrite I1. destruct (read_ascii s2 q _ I3) as [s3 [E3 [Q1 [Q2 Q3]]]]; [lia|lia|]. rewrite E3. cbn [snd].
  eexists _, _. split; [reflexivity|]. split; [reflexivity|]. split; [reflexivity|]. split; [reflexivity|]. split; [exact Q1|].
  rewrite Q3. cbn [pred]. unfold tok_text. cbn [fin_tok t_text t_val t_txt fst snd].
  change (is_kw T_STRING) with false. change (tv_eqb T_STRING T_EOF) with false. cbn [r_lo r_hi].
  assert (Hz : rng_empty (mk_range (ofst s1) (ofst s2)) = false) by (unfold rng_empty; cbn [r_lo r_hi]; rewrite R3; reflexivity).
  rewrite Hz. cbn [negb]. assert (src_ok s1) as Hok1 by (eapply adv_ok; [apply R2|assumption]).
  assert (src_ok s2) as Hok2 by (eapply adv_ok; eassumption). pose proof (adv_ofst_le _ _ I2) as Hle.
  unfold text. rewrite (adv_code _ _ (sadv_adv _ _ Q2)), (adv_code _ _ I2).
  assert (ofst s2 <= length (code s1))%nat by (pose proof (src_ok_ofst _ Hok2) as L; rewrite (adv_code _ _ I2) in L; lia).
  replace ((ofst s1 <=? ofst s2)%nat && (ofst s2 <=? length (code s1))%nat) with true by lia.
  apply slice_text; try assumption; [apply (adv_code _ _ I2)|]. rewrite R1, I3. reflexivity.
Qed.
