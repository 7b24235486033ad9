(** C23: numeric literals. *)
From Verif Require Import Base Utf8Model Utf8Proofs SourceModel SourceSpec SourceProofs TokenModel LexModel LexSpec LexProofs LexGapProofs LexKindProofs LexStrProofs LexProps LexStrProps LexTokSpec LexPunctProofs LexPunctProps LexNameSpec LexNameProofs LexNumSpec LexNumProofs.
From Coq Require Import ZifyBool ZifyNat ZifyN.
Local Open Scope Z_scope.

(** ** No literal is longer *)

Lemma app_split : forall (l1 : list rune) l2 a c b, l1 ++ l2 = a ++ c :: b -> ~ In c l1 -> exists a2, a = l1 ++ a2 /\ l2 = a2 ++ c :: b.
Proof.
  induction l1 as [|x l1 IH]; intros l2 a c b E H; cbn [app] in E; [exists a; auto|].
  destruct a as [|y a]; cbn [app] in E; injection E as -> E; [exfalso; apply H; left; reflexivity|].
  destruct (IH _ _ _ _ E) as [a2 [-> ->]]; [intros K; apply H; right; exact K|]. exists a2. auto.
Qed.
Lemma digits_chars : forall sep base ds c, digits sep base ds -> In c ds -> is_dig base c = true \/ c = 95.
Proof. intros. eapply digits_no46; eassumption. Qed.
Lemma exp_chars : forall sep e c, exp_part sep e -> In c e -> 48 <= c <= 57 \/ c = 95 \/ c = 101 \/ c = 69 \/ c = 43 \/ c = 45.
Proof.
  intros sep e c [-> |[k [sg [ds [-> [Hk [Hsg Hd]]]]]]] Hc; [destruct Hc|]. destruct Hc as [<- |Hc]; [lia|]. apply in_app_or in Hc. destruct Hc as [Hc|Hc].
  - destruct Hsg as [-> |[-> | ->]]; cbn in Hc; lia.
  - apply (digits_chars _ _ _ _ Hd) in Hc. rewrite dig10 in Hc. unfold is_digit in Hc. lia.
Qed.
Lemma opt_chars : forall sep f c, opt_digits sep f -> In c f -> 48 <= c <= 57 \/ c = 95.
Proof. intros sep f c [-> |Hd] Hc; [destruct Hc|]. apply (digits_chars _ _ _ _ Hd) in Hc. rewrite dig10 in Hc. unfold is_digit in Hc. lia. Qed.
Lemma radix_chars : forall sep base ds c, digits sep base ds -> In c ds -> 48 <= c <= 57 \/ c = 95 \/ 97 <= c <= 102 \/ 65 <= c <= 70.
Proof. intros sep base ds c H Hc. apply (digits_chars _ _ _ _ H) in Hc. destruct Hc as [Hc|Hc]; [apply dig_range in Hc|]; lia. Qed.
Lemma prefix_cases : forall base p, In p (radix_prefix base) -> (base = 2 /\ (p = 98 \/ p = 66)) \/ (base = 8 /\ (p = 111 \/ p = 79)) \/ (base = 16 /\ (p = 120 \/ p = 88)).
Proof.
  intros base p Hp. unfold radix_prefix in Hp. destruct (base =? 2) eqn:?; [cbn in Hp; lia|]. destruct (base =? 8) eqn:?; [cbn in Hp; lia|]. destruct (base =? 16) eqn:?; [cbn in Hp; lia|]. destruct Hp.
Qed.

Section Longest.
Variables sep big strict : bool.
Notation lit := (num_lit false sep big strict).

Lemma lit_chars : forall txt c, lit txt -> In c txt -> 48 <= c <= 57 \/ c = 95 \/ 97 <= c <= 122 \/ 65 <= c <= 90 \/ c = 43 \/ c = 45 \/ c = 46.
Proof.
  intros txt c H Hc. destruct H as [i e Hi He|i f e Hi Hf He|f e Hf He|i Hb Hi|base p ds Hp Hd|base p ds Hb Hp Hd|ds Hst Hd|ds f e Hb1 _ _ _ _ _]; try discriminate.
  - apply in_app_or in Hc. destruct Hc as [Hc|Hc]; [apply (dec_int_no46 _ _ _ Hi) in Hc|apply (exp_chars _ _ _ He) in Hc]; lia.
  - apply in_app_or in Hc. destruct Hc as [Hc|[Hc|Hc]]; [apply (dec_int_no46 _ _ _ Hi) in Hc; lia|lia|]. apply in_app_or in Hc. destruct Hc as [Hc|Hc]; [apply (opt_chars _ _ _ Hf) in Hc|apply (exp_chars _ _ _ He) in Hc]; lia.
  - destruct Hc as [Hc|Hc]; [lia|]. apply in_app_or in Hc. destruct Hc as [Hc|Hc]; [apply (radix_chars _ _ _ _ Hf) in Hc|apply (exp_chars _ _ _ He) in Hc]; lia.
  - apply in_app_or in Hc. destruct Hc as [Hc|Hc]; [apply (dec_int_no46 _ _ _ Hi) in Hc|cbn in Hc]; lia.
  - apply prefix_cases in Hp. destruct Hc as [Hc|[Hc|Hc]]; [lia|lia|]. apply (radix_chars _ _ _ _ Hd) in Hc. lia.
  - apply prefix_cases in Hp. destruct Hc as [Hc|[Hc|Hc]]; [lia|lia|]. apply in_app_or in Hc. destruct Hc as [Hc|Hc]; [apply (radix_chars _ _ _ _ Hd) in Hc; lia|cbn in Hc; lia].
  - destruct Hc as [Hc|Hc]; [lia|]. apply (radix_chars _ _ _ _ Hd) in Hc. lia.
Qed.

(** A dot follows a whole decimal integer. *)
Lemma lit_dot : forall txt a b, lit txt -> txt = a ++ 46 :: b -> a = [] \/ dec_int_lit sep a.
Proof.
  intros txt a b H E. destruct H as [i e Hi He|i f e Hi Hf He|f e Hf He|i Hb Hi|base p ds Hp Hd|base p ds Hb Hp Hd|ds Hst Hd|ds f e Hb1 _ _ _ _ _]; try discriminate.
  - exfalso. assert (Hc : In 46 (i ++ e)) by (rewrite E; apply in_elt). apply in_app_or in Hc. destruct Hc as [Hc|Hc]; [apply (dec_int_no46 _ _ _ Hi) in Hc|apply (exp_chars _ _ _ He) in Hc]; lia.
  - right. apply app_split in E; [|intros K; apply (dec_int_no46 _ _ _ Hi) in K; lia]. destruct E as [a2 [-> E]]. destruct a2 as [|x a2]; [rewrite app_nil_r; exact Hi|]. exfalso. injection E as <- E.
    assert (Hc : In 46 (f ++ e)) by (rewrite E; apply in_elt). apply in_app_or in Hc. destruct Hc as [Hc|Hc]; [apply (opt_chars _ _ _ Hf) in Hc|apply (exp_chars _ _ _ He) in Hc]; lia.
  - left. destruct a as [|x a]; [reflexivity|]. exfalso. cbn [app] in E. injection E as <- E.
    assert (Hc : In 46 (f ++ e)) by (rewrite E; apply in_elt). apply in_app_or in Hc. destruct Hc as [Hc|Hc]; [apply (radix_chars _ _ _ _ Hf) in Hc|apply (exp_chars _ _ _ He) in Hc]; lia.
  - exfalso. assert (Hc : In 46 (i ++ [110])) by (rewrite E; apply in_elt). apply in_app_or in Hc. destruct Hc as [Hc|Hc]; [apply (dec_int_no46 _ _ _ Hi) in Hc; lia|cbn in Hc; lia].
  - exfalso. assert (Hc : In 46 (48 :: p :: ds)) by (rewrite E; apply in_elt). apply prefix_cases in Hp. destruct Hc as [Hc|[Hc|Hc]]; [lia|lia|apply (radix_chars _ _ _ _ Hd) in Hc; lia].
  - exfalso. assert (Hc : In 46 (48 :: p :: ds ++ [110])) by (rewrite E; apply in_elt). apply prefix_cases in Hp. destruct Hc as [Hc|[Hc|Hc]]; [lia|lia|]. apply in_app_or in Hc. destruct Hc as [Hc|Hc]; [apply (radix_chars _ _ _ _ Hd) in Hc; lia|cbn in Hc; lia].
  - exfalso. assert (Hc : In 46 (48 :: ds)) by (rewrite E; apply in_elt). destruct Hc as [Hc|Hc]; [lia|apply (radix_chars _ _ _ _ Hd) in Hc; lia].
Qed.

(** The suffix n is the last character. *)
Lemma lit_n : forall txt a b, lit txt -> txt = a ++ 110 :: b -> b = [].
Proof.
  intros txt a b H E. destruct H as [i e Hi He|i f e Hi Hf He|f e Hf He|i Hb Hi|base p ds Hp Hd|base p ds Hb Hp Hd|ds Hst Hd|ds f e Hb1 _ _ _ _ _]; try discriminate.
  - exfalso. assert (Hc : In 110 (i ++ e)) by (rewrite E; apply in_elt). apply in_app_or in Hc. destruct Hc as [Hc|Hc]; [apply (dec_int_no46 _ _ _ Hi) in Hc|apply (exp_chars _ _ _ He) in Hc]; lia.
  - exfalso. assert (Hc : In 110 (i ++ 46 :: f ++ e)) by (rewrite E; apply in_elt).
    apply in_app_or in Hc. destruct Hc as [Hc|[Hc|Hc]]; [apply (dec_int_no46 _ _ _ Hi) in Hc; lia|lia|]. apply in_app_or in Hc. destruct Hc as [Hc|Hc]; [apply (opt_chars _ _ _ Hf) in Hc|apply (exp_chars _ _ _ He) in Hc]; lia.
  - exfalso. assert (Hc : In 110 (46 :: f ++ e)) by (rewrite E; apply in_elt). destruct Hc as [Hc|Hc]; [lia|]. apply in_app_or in Hc. destruct Hc as [Hc|Hc]; [apply (radix_chars _ _ _ _ Hf) in Hc|apply (exp_chars _ _ _ He) in Hc]; lia.
  - apply app_split in E; [|intros K; apply (dec_int_no46 _ _ _ Hi) in K; lia]. destruct E as [[|x a2] [_ E]]; [injection E as <-; reflexivity|injection E as _ E; destruct a2; discriminate].
  - exfalso. assert (Hc : In 110 (48 :: p :: ds)) by (rewrite E; apply in_elt). apply prefix_cases in Hp. destruct Hc as [Hc|[Hc|Hc]]; [lia|lia|apply (radix_chars _ _ _ _ Hd) in Hc; lia].
  - change (48 :: p :: ds ++ [110]) with ((48 :: p :: ds) ++ [110]) in E. apply app_split in E.
    + destruct E as [[|x a2] [_ E]]; [injection E as <-; reflexivity|injection E as _ E; destruct a2; discriminate].
    + intros Hc. apply prefix_cases in Hp. destruct Hc as [Hc|[Hc|Hc]]; [lia|lia|apply (radix_chars _ _ _ _ Hd) in Hc; lia].
  - exfalso. assert (Hc : In 110 (48 :: ds)) by (rewrite E; apply in_elt). destruct Hc as [Hc|Hc]; [lia|apply (radix_chars _ _ _ _ Hd) in Hc; lia].
Qed.

(** Before a sign stands the e of an exponent, and what precedes is no literal. *)
Lemma exp_sign : forall e a c b, exp_part sep e -> (c = 43 \/ c = 45) -> e = a ++ c :: b -> exists k, a = [k] /\ (k = 101 \/ k = 69).
Proof.
  intros e a c b [-> |[k [sg [ds [-> [Hk [Hsg Hd]]]]]]] Hc E; [destruct a; discriminate|]. destruct a as [|x a]; cbn [app] in E; injection E as -> E; [lia|].
  exists x. split; [|exact Hk]. f_equal.
  assert (Hn : forall l, ds = l ++ c :: b -> False) by (intros l ->; assert (K := in_elt c l b); apply (radix_chars _ _ _ _ Hd) in K; lia).
  destruct Hsg as [-> |[-> | ->]]; cbn [app] in E; [exfalso; eapply Hn; exact E| |]; (destruct a as [|y a]; [reflexivity|]; cbn [app] in E; injection E as _ E; exfalso; eapply Hn; exact E).
Qed.
Lemma lit_last : forall txt x k, lit txt -> txt = x ++ [k] -> (k = 101 \/ k = 69) -> exists p ds, txt = 48 :: p :: ds /\ (p = 120 \/ p = 88).
Proof.
  intros txt x k H E Hk.
  assert (Hexp : forall pre e, exp_part sep e -> pre ++ e = x ++ [k] -> e = [] \/ False).
  { intros pre e [-> |[k' [sg [ds [-> [_ [_ Hd]]]]]]] Ee; [left; reflexivity|]. right.
    assert (Hl : exists d0 d, ds = d0 ++ [d] /\ is_dig 10 d = true).
    { clear -Hd. induction Hd as [d Hd|d ds Hd _ [d0 [d1 [-> G]]]|d ds _ Hd _ [d0 [d1 [-> G]]]]; [exists [], d; auto|exists (d :: d0), d1; auto|exists (d :: 95 :: d0), d1; auto]. }
    destruct Hl as [d0 [d [-> Hdd]]]. replace (pre ++ k' :: sg ++ d0 ++ [d]) with ((pre ++ k' :: sg ++ d0) ++ [d]) in Ee by (rewrite <- !app_assoc; cbn [app]; rewrite <- app_assoc; reflexivity).
    apply app_inj_tail in Ee. destruct Ee as [_ ->]. rewrite dig10 in Hdd. unfold is_digit in Hdd. lia. }
  destruct H as [i e Hi He|i f e Hi Hf He|f e Hf He|i Hb Hi|base p ds Hp Hd|base p ds Hb Hp Hd|ds Hst Hd|ds f e Hb1 _ _ _ _ _]; try discriminate.
  - exfalso. destruct (Hexp _ _ He E) as [-> |[]]. rewrite app_nil_r in E. assert (K : In k i) by (rewrite E; apply in_elt). apply (dec_int_no46 _ _ _ Hi) in K. lia.
  - exfalso. replace (i ++ 46 :: f ++ e) with ((i ++ 46 :: f) ++ e) in E by (rewrite <- app_assoc; reflexivity). destruct (Hexp _ _ He E) as [-> |[]]. rewrite app_nil_r in E.
    assert (K : In k (i ++ 46 :: f)) by (rewrite E; apply in_elt). apply in_app_or in K. destruct K as [K|[K|K]]; [apply (dec_int_no46 _ _ _ Hi) in K; lia|lia|apply (opt_chars _ _ _ Hf) in K; lia].
  - exfalso. change (46 :: f ++ e) with ((46 :: f) ++ e) in E. destruct (Hexp _ _ He E) as [-> |[]]. rewrite app_nil_r in E.
    assert (K : In k (46 :: f)) by (rewrite E; apply in_elt). destruct K as [K|K]; [lia|]. apply (digits_chars _ _ _ _ Hf) in K. rewrite dig10 in K. unfold is_digit in K. lia.
  - exfalso. apply app_inj_tail in E. lia.
  - exists p, ds. split; [reflexivity|]. pose proof (prefix_cases _ _ Hp) as Hp'. destruct Hp' as [[-> Hp']|[[-> Hp']|[-> Hp']]]; [exfalso|exfalso|exact Hp'].
    + assert (K : In k (48 :: p :: ds)) by (rewrite E; apply in_elt). destruct K as [K|[K|K]]; [lia|lia|]. apply (digits_chars _ _ _ _ Hd) in K. rewrite dig2 in K. lia.
    + assert (K : In k (48 :: p :: ds)) by (rewrite E; apply in_elt). destruct K as [K|[K|K]]; [lia|lia|]. apply (digits_chars _ _ _ _ Hd) in K. rewrite dig8 in K. unfold is_octal in K. lia.
  - exfalso. change (48 :: p :: ds ++ [110]) with ((48 :: p :: ds) ++ [110]) in E. apply app_inj_tail in E. lia.
  - exfalso. assert (K : In k (48 :: ds)) by (rewrite E; apply in_elt). destruct K as [K|K]; [lia|]. apply (digits_chars _ _ _ _ Hd) in K. rewrite dig8 in K. unfold is_octal in K. lia.
Qed.
Lemma lit_sign : forall txt a c b, lit txt -> (c = 43 \/ c = 45) -> txt = a ++ c :: b -> lit a -> False.
Proof.
  intros txt a c b H Hc E Ha.
  assert (Hx : exists x k, a = x ++ [k] /\ (k = 101 \/ k = 69) /\ (dec_int_lit sep x \/ (exists i f, x = i ++ 46 :: f /\ dec_int_lit sep i) \/ (exists f, x = 46 :: f))).
  { destruct H as [i e Hi He|i f e Hi Hf He|f e Hf He|i Hb Hi|base p ds Hp Hd|base p ds Hb Hp Hd|ds Hst Hd|ds f e Hb1 _ _ _ _ _]; try discriminate.
    - apply app_split in E; [|intros K; apply (dec_int_no46 _ _ _ Hi) in K; lia]. destruct E as [a2 [-> E]]. destruct (exp_sign _ _ _ _ He Hc E) as [k [-> Hk]]. exists i, k. auto.
    - replace (i ++ 46 :: f ++ e) with ((i ++ 46 :: f) ++ e) in E by (rewrite <- app_assoc; reflexivity).
      apply app_split in E; [|intros K; apply in_app_or in K; destruct K as [K|[K|K]]; [apply (dec_int_no46 _ _ _ Hi) in K; lia|lia|apply (opt_chars _ _ _ Hf) in K; lia]].
      destruct E as [a2 [-> E]]. destruct (exp_sign _ _ _ _ He Hc E) as [k [-> Hk]]. exists (i ++ 46 :: f), k. split; [reflexivity|]. split; [exact Hk|]. right. left. eauto.
    - change (46 :: f ++ e) with ((46 :: f) ++ e) in E.
      apply app_split in E; [|intros [K|K]; [lia|apply (radix_chars _ _ _ _ Hf) in K; lia]].
      destruct E as [a2 [-> E]]. destruct (exp_sign _ _ _ _ He Hc E) as [k [-> Hk]]. exists (46 :: f), k. split; [reflexivity|]. split; [exact Hk|]. eauto.
    - exfalso. assert (K : In c (i ++ [110])) by (rewrite E; apply in_elt). apply in_app_or in K. destruct K as [K|K]; [apply (dec_int_no46 _ _ _ Hi) in K; lia|cbn in K; lia].
    - exfalso. apply prefix_cases in Hp. assert (K : In c (48 :: p :: ds)) by (rewrite E; apply in_elt). destruct K as [K|[K|K]]; [lia|lia|apply (radix_chars _ _ _ _ Hd) in K; lia].
    - exfalso. apply prefix_cases in Hp. assert (K : In c (48 :: p :: ds ++ [110])) by (rewrite E; apply in_elt). destruct K as [K|[K|K]]; [lia|lia|]. apply in_app_or in K. destruct K as [K|K]; [apply (radix_chars _ _ _ _ Hd) in K; lia|cbn in K; lia].
    - exfalso. assert (K : In c (48 :: ds)) by (rewrite E; apply in_elt). destruct K as [K|K]; [lia|apply (radix_chars _ _ _ _ Hd) in K; lia]. }
  destruct Hx as [x [k [-> [Hk Hx]]]]. destruct (lit_last _ _ _ Ha eq_refl Hk) as [p [ds [Ep Hp]]].
  destruct Hx as [[-> |[Hx Hz]]|[[i [f [-> [-> |[Hx Hz]]]]]|[f ->]]].
  - cbn [app] in Ep. injection Ep as Ep _. lia.
  - destruct x as [|x0 x]; [inversion Hx|]. cbn [app hd] in *. injection Ep as Ep _. congruence.
  - cbn [app] in Ep. injection Ep as Ep _. lia.
  - destruct i as [|x0 x]; [inversion Hx|]. cbn [app hd] in *. injection Ep as Ep _. congruence.
  - discriminate.
Qed.

Lemma lit_nonempty : forall txt, lit txt -> txt <> [].
Proof.
  intros txt H. destruct H as [i e Hi He|i f e Hi Hf He|f e Hf He|i Hb Hi|base p ds Hp Hd|base p ds Hb Hp Hd|ds Hst Hd|ds f e Hb1 _ _ _ _ _]; try discriminate.
  - destruct Hi as [-> |[Hi _]]; [discriminate|inversion Hi; discriminate].
  - destruct i; discriminate.
  - destruct i; discriminate.
Qed.

Variable U : uni.
Lemma num_longest : forall txt after txt' after', lit txt -> num_follow U sep txt after -> lit txt' -> txt' ++ after' = txt ++ after -> (length txt' <= length txt)%nat.
Proof.
  intros txt after txt' after' Hl [F1 [F2 F3]] Hl' E. destruct (Nat.le_gt_cases (length txt') (length txt)) as [L|L]; [exact L|exfalso].
  assert (Hw : exists c w, txt' = txt ++ c :: w /\ after = c :: w ++ after').
  { assert (P : txt = firstn (length txt) txt'). { assert (G := f_equal (firstn (length txt)) E). rewrite !firstn_app, Nat.sub_diag in G. replace (length txt - length txt')%nat with 0%nat in G by lia. cbn [firstn] in G. rewrite !app_nil_r, (firstn_all txt) in G. symmetry. exact G. }
    destruct (skipn (length txt) txt') as [|c w] eqn:Es; [apply (f_equal (@length _)) in Es; rewrite skipn_length in Es; cbn in Es; lia|].
    exists c, w. assert (G : txt' = txt ++ c :: w) by (rewrite <- Es, P at 1; symmetry; rewrite P at 1 2; rewrite firstn_length, Nat.min_l by lia; apply firstn_skipn).
    split; [exact G|]. rewrite G, <- app_assoc in E. apply app_inv_head in E. symmetry. exact E. }
  destruct Hw as [c [w [-> ->]]]. destruct (F1 _ _ eq_refl) as [N1 N2].
  assert (Hc : In c (txt ++ c :: w)) by apply in_elt. apply (lit_chars _ _ Hl') in Hc.
  assert (NL : ~ (97 <= c <= 122 \/ 65 <= c <= 90 \/ c = 95)) by (intros K; apply N1; unfold i_start, ident_start; tauto).
  assert (Hc' : 48 <= c <= 57 \/ c = 43 \/ c = 45 \/ c = 46) by lia. clear Hc NL.
  destruct Hc' as [Hc|[Hc|[Hc|Hc]]].
  - assert (Hd : is_dig 10 c = true) by (rewrite dig10; unfold is_digit; lia).
    destruct (F3 _ _ eq_refl Hd) as [[base [p [ds [-> [Hp Hb]]]]]|[[ds [-> [Hds Hb]]]|[i ->]]].
    + cbn [app] in Hl'. match type of Hl' with num_lit _ _ _ _ ?f => remember f as full eqn:Ei end. destruct Hl' as [i e Hi He|i f e Hi Hf He|f e Hf He|i Hbg Hi|base' p' ds' Hp' Hd'|base' p' ds' Hbg Hp' Hd'|ds' Hst Hd'|ds' f e Hb1 _ _ _ _ _]; try discriminate.
      * destruct Hi as [-> |[Hi Hz]]; [|destruct i as [|x i]; [inversion Hi|]; cbn [app hd] in *; injection Ei as Ei _; congruence]. cbn [app] in Ei. injection Ei as ->.
        destruct He as [He|[k [sg [dd [He [Hk _]]]]]]; [discriminate|]. injection He as -> _. apply prefix_cases in Hp. lia.
      * destruct Hi as [-> |[Hi Hz]]; [|destruct i as [|x i]; [inversion Hi|]; cbn [app hd] in *; injection Ei as Ei _; congruence]. cbn [app] in Ei. injection Ei as <- _. apply prefix_cases in Hp. lia.
      * destruct Hi as [-> |[Hi Hz]]; [|destruct i as [|x i]; [inversion Hi|]; cbn [app hd] in *; injection Ei as Ei _; congruence]. cbn [app] in Ei. injection Ei as <- Ei. destruct ds; discriminate.
      * injection Ei as -> ->. assert (base' = base) by (apply prefix_cases in Hp; apply prefix_cases in Hp'; lia). subst base'. destruct (digits_chars _ _ _ c Hd' (in_elt c ds w)); [congruence|lia].
      * injection Ei as -> Ei. assert (base' = base) by (apply prefix_cases in Hp; apply prefix_cases in Hp'; lia). subst base'. destruct (list_eq_dec Z.eq_dec w []) as [-> |Hw].
        { apply app_inj_tail in Ei. lia. }
        destruct (exists_last Hw) as [w' [z ->]]. change (ds ++ c :: w' ++ [z]) with (ds ++ (c :: w') ++ [z]) in Ei. rewrite app_assoc in Ei. apply app_inj_tail in Ei. destruct Ei as [-> <-].
        destruct (digits_chars _ _ _ c Hd' (in_elt c ds w')); [congruence|lia].
      * injection Ei as ->. apply prefix_cases in Hp. assert (K := in_eq p (ds ++ c :: w)). apply (digits_chars _ _ _ _ Hd') in K. rewrite dig8 in K. unfold is_octal in K. lia.
    + cbn [app] in Hl'. match type of Hl' with num_lit _ _ _ _ ?f => remember f as full eqn:Ei end. destruct Hl' as [i e Hi He|i f e Hi Hf He|f e Hf He|i Hbg Hi|base' p' ds' Hp' Hd'|base' p' ds' Hbg Hp' Hd'|ds' Hst Hd'|ds' f e Hb1 _ _ _ _ _]; try discriminate.
      * destruct Hi as [-> |[Hi Hz]]; [|destruct i as [|x i]; [inversion Hi|]; cbn [app hd] in *; injection Ei as Ei _; congruence]. cbn [app] in Ei. injection Ei as ->.
        destruct He as [He|[k [sg [dd [He [Hk _]]]]]]; [destruct ds; discriminate|]. destruct ds as [|d ds]; [inversion Hds|]. cbn [app] in He. injection He as -> _. assert (K := in_eq k ds). apply (digits_chars _ _ _ _ Hds) in K. rewrite dig8 in K. unfold is_octal in K. lia.
      * destruct Hi as [-> |[Hi Hz]]; [|destruct i as [|x i]; [inversion Hi|]; cbn [app hd] in *; injection Ei as Ei _; congruence]. cbn [app] in Ei. destruct ds as [|d ds]; [inversion Hds|]. cbn [app] in Ei. injection Ei as <- _.
        assert (K := in_eq 46 ds). apply (digits_chars _ _ _ _ Hds) in K. rewrite dig8 in K. unfold is_octal in K. lia.
      * destruct Hi as [-> |[Hi Hz]]; [|destruct i as [|x i]; [inversion Hi|]; cbn [app hd] in *; injection Ei as Ei _; congruence]. cbn [app] in Ei. destruct ds as [|d ds]; [inversion Hds|]. cbn [app] in Ei. injection Ei as _ Ei. destruct ds; discriminate.
      * destruct ds as [|d ds]; [inversion Hds|]. cbn [app] in Ei. injection Ei as -> _. assert (K := in_eq d ds). apply (digits_chars _ _ _ _ Hds) in K. rewrite dig8 in K. unfold is_octal in K. apply prefix_cases in Hp'. lia.
      * destruct ds as [|d ds]; [inversion Hds|]. cbn [app] in Ei. injection Ei as -> _. assert (K := in_eq d ds). apply (digits_chars _ _ _ _ Hds) in K. rewrite dig8 in K. unfold is_octal in K. apply prefix_cases in Hp'. lia.
      * injection Ei as ->. destruct (digits_chars _ _ _ c Hd' (in_elt c ds w)); [congruence|lia].
    + rewrite <- app_assoc in Hl'. cbn [app] in Hl'. assert (G := lit_n _ _ _ Hl' eq_refl). discriminate.
  - eapply lit_sign; [exact Hl'|left; exact Hc|reflexivity|exact Hl].
  - eapply lit_sign; [exact Hl'|right; exact Hc|reflexivity|exact Hl].
  - subst c. destruct (lit_dot _ _ _ Hl' eq_refl) as [K|K]; [apply (lit_nonempty _ Hl K)|]. eapply F2; [exact K|reflexivity].
Qed.
End Longest.

(** A number token spans exactly what was read. *)
Lemma num_end_range : forall U feat big s0 s t s', num_end U feat big s0 s = (t, s') -> t_val t = T_NUM -> t = fin_tok s0 s' T_NUM [] (0%nat, 0%nat) XNone.
Proof.
  intros U feat big s0 s t s' H Hv. unfold num_end in H. destruct (if big then bigint_suffix feat s else (None, s)) as [[o|] s1]; [injection H as <- <-; discriminate Hv|].
  destruct (is_id_start U (peek s1)); injection H as <- <-; [discriminate Hv|reflexivity].
Qed.
Lemma read_num_range : forall U feat strict s t s', read_num U feat strict s = (t, s') -> t_val t = T_NUM -> t = fin_tok s s' T_NUM [] (0%nat, 0%nat) XNone.
Proof.
  intros U feat strict s t s' H Hv. unfold read_num in H. destruct (read s) as [c s1].
  assert (Hd : read_decimal_num U feat c s s1 = (t, s') -> t = fin_tok s s' T_NUM [] (0%nat, 0%nat) XNone).
  { unfold read_decimal_num. destruct (dec_int U feat c s1) as [[[e o]|] s2]; [intros G; injection G as <- <-; discriminate Hv|].
    destruct (dec_frac U feat c s2) as [[[[e o]|] fl] s3]; [intros G; injection G as <- <-; discriminate Hv|].
    destruct (dec_exp U feat s3) as [[[[e o]|] ex] s4]; [intros G; injection G as <- <-; discriminate Hv|]. intros G. eapply num_end_range; eassumption. }
  destruct (c =? 48); [|auto].
  destruct ((peek s1 =? 98) || (peek s1 =? 66)).
  { unfold read_binary_num in H. destruct (bin_loop U (fuel (snd (read s1))) feat (snd (read s1)) 0 0) as [[[[e|] i] la] s2]; [injection H as <- <-; discriminate Hv|].
    destruct (la =? 95); [injection H as <- <-; discriminate Hv|]. destruct (Nat.eqb i 0); [injection H as <- <-; discriminate Hv|]. eapply num_end_range; eassumption. }
  destruct ((peek s1 =? 111) || (peek s1 =? 79)).
  { unfold read_octal_num in H. destruct (oct_loop (fuel (snd (read s1))) feat false (snd (read s1)) 0 0) as [[[[e|] i] la] s2]; [injection H as <- <-; discriminate Hv|].
    destruct (la =? 95); [injection H as <- <-; discriminate Hv|]. destruct (Nat.eqb i 0); [injection H as <- <-; discriminate Hv|]. eapply num_end_range; eassumption. }
  destruct ((peek s1 =? 120) || (peek s1 =? 88)).
  { unfold read_hex_num in H. destruct (hex_loop (fuel (snd (read s1))) feat (snd (read s1)) 0 0) as [[[[e|] i] la] s2]; [injection H as <- <-; discriminate Hv|].
    destruct (Nat.eqb i 0); [injection H as <- <-; discriminate Hv|]. destruct (la =? 95); [injection H as <- <-; discriminate Hv|]. eapply num_end_range; eassumption. }
  destruct (is_digit (peek s1)); [|auto]. destruct (is_octal (peek s1)); [|injection H as <- <-; discriminate Hv]. destruct strict; [injection H as <- <-; discriminate Hv|].
  unfold read_octal_num in H. destruct (oct_loop (fuel (snd (read s1))) feat true (snd (read s1)) 1 0) as [[[[e|] i] la] s2]; [injection H as <- <-; discriminate Hv|].
  destruct (la =? 95); [injection H as <- <-; discriminate Hv|]. destruct (Nat.eqb i 0); [injection H as <- <-; discriminate Hv|]. eapply num_end_range; eassumption.
Qed.

(** ** C23 *)

(** A number token is, after white space and comments, a numeric literal, the longest one there; its
    text is that literal and no identifier start follows.  Missing from the full statement: a digit may
    follow a radix literal, a legacy octal or a BigInt, and integers like 018 are no literals (refuted below). *)
Theorem C23_number_partial : forall U entity feat c l t l', uni_ok U -> lexer_at feat c l -> no_jsx l ->
  lex_tok U entity l = Some (t, l') -> t_val t = T_NUM ->
  let lit := num_lit false (has feat FEAT_NUM_SEP) (has feat FEAT_BIGINT) (is_mode l LM_STRICT) in
  exists cs ws txt, ahead l = gap_text (cs, ws) ++ txt ++ ahead l' /\ gap_wf cs ws (txt ++ ahead l')
    /\ lit txt
    /\ (forall txt' after', txt ++ ahead l' = txt' ++ after' -> lit txt' -> (length txt' <= length txt)%nat)
    /\ decode_all (tok_text t (l_src l')) = txt
    /\ (forall x r, ahead l' = x :: r -> ~ i_start U x /\ x <> 92 /\
          (48 <= x <= 57 -> (exists p ds, txt = 48 :: p :: ds /\ p <> 46 /\ p <> 101 /\ p <> 69) \/ exists i, txt = i ++ [110])).
Proof.
  intros U entity feat c l t l' HU [H1 [H2 [H3 H4]]] HJ H Hv lit.
  apply lex_tok_delivers in H; try assumption. destruct H as [s [Hs [Hcode [[cs [ws [G1 G2]]] [l1 [t0 [M1 [M2 [_ [_ [_ [_ [Ht Hby]]]]]]]]]]]]].
  rewrite (same_tok_text _ _ _ Ht). destruct Ht as [E _]. rewrite E in Hv.
  unfold ahead. fold (rest (l_src l)) (rest (l_src l')). rewrite G1.
  assert (W : forall ks, kind_in t0 ks -> ~ In KNum ks -> False) by (intros ks K1 K2; unfold kind_in in K1; rewrite Hv in K1; contradiction).
  destruct Hby as [|? Hr|Hi Hst Hr Hm|? Hr|? ? ? ? ? Hr|? Hr|? ? ? ? ? ? ? ? ? ? ? ? ? ? ? ? Hr].
  { subst t0. discriminate. }
  { exfalso. eapply W; [eapply read_name_kind; eassumption|cbn; intuition discriminate]. }
  2:{ exfalso. eapply W; [eapply read_str_kind; eassumption|cbn; intuition discriminate]. }
  2:{ exfalso. eapply W; [eapply read_tpl_span_kind; eassumption|cbn; intuition discriminate]. }
  2:{ exfalso. eapply W; [eapply read_name_pvt_kind; eassumption|cbn; intuition discriminate]. }
  2:{ exfalso. eapply W; [eapply read_symbol_kind; eassumption|cbn; intuition discriminate]. }
  rewrite M2, H3, (is_mode_modes l1 l LM_STRICT M1) in Hr.
  assert (Hstart : is_digit (peek s) = true \/ (peek s = 46 /\ is_dig 10 (nth 1 (rest s) 0) = true)).
  { unfold ahead_is_num_start in Hst. destruct (is_digit (peek s)); [auto|]. right. cbn [orb] in Hst. apply andb_prop in Hst. destruct Hst as [S1 S2]. split; [lia|].
    rewrite dig10. rewrite ahead2nd_spec in S2. fold (rest s) in S2. destruct (rest s) as [|? [|]]; [discriminate|discriminate|exact S2]. }
  destruct (read_num_sound U feat (is_mode l LM_STRICT) s t0 (l_src l') Hstart Hr Hv) as [txt [A1 [A2 A3]]].
  exists cs, ws, txt. rewrite <- A1. split; [reflexivity|]. split; [exact G2|]. split; [exact A2|].
  split; [intros txt' after' Et Hl; rewrite A1 in Et; eapply num_longest; [exact A2|exact A3|exact Hl|symmetry; exact Et]|].
  split.
  - pose proof (read_num_range _ _ _ _ _ _ Hr Hv) as Et. pose proof (read_num_ok U feat (is_mode l LM_STRICT) s t0 (l_src l')) as Hok.
    assert (Hne : s_raw (st s) <> []) by (intros K; apply rest_nil_iff in K; rewrite K in A1; destruct txt; [apply (lit_nonempty _ _ _ _ A2 eq_refl)|discriminate]).
    specialize (Hok Hne Hr). destruct Hok as [Ha _]. rewrite Et. unfold tok_text. cbn [t_text t_val t_txt t_lo t_hi fin_tok fst snd is_kw].
    assert (Hok' : src_ok (l_src l')) by (eapply adv_ok; eassumption). pose proof (adv_ofst_le _ _ Ha) as O1. pose proof (src_ok_ofst _ Hok') as O2. rewrite (adv_code _ _ Ha) in O2.
    cbn. unfold text. rewrite (adv_code _ _ Ha). replace (ofst s <=? ofst (l_src l'))%nat with true by lia.
    replace (ofst (l_src l') <=? length (code s))%nat with true by lia. cbn [andb].
    apply (slice_text s (l_src l') txt Hs Hok' (adv_code _ _ Ha) O1 A1).
  - destruct A3 as [F1 [F2 F3]]. intros x r Er. destruct (F1 _ _ Er) as [N1 N2]. split; [exact N1|]. split; [exact N2|].
    intros Hx. destruct (F3 _ _ Er) as [[base [p [ds [-> [Hp _]]]]]|[[ds [-> [Hds _]]]|[i ->]]]; [rewrite dig10; unfold is_digit; lia| | |].
    + left. exists p, ds. apply prefix_cases in Hp. repeat split; lia.
    + left. destruct ds as [|d ds]; [inversion Hds|]. exists d, ds. assert (K := in_eq d ds). apply (digits_chars _ _ _ _ Hds) in K. rewrite dig8 in K. unfold is_octal in K. repeat split; lia.
    + right. exists i. reflexivity.
Qed.
Print Assumptions C23_number_partial.

(** Conversely every literal that does not have a separator as its second character is read in full,
    when neither an identifier start nor a digit follows, nor a dot that would continue an integer.
    [Hd]: the tables of letters do not hold the ASCII digits. *)
Theorem C23_recognised_partial : forall U entity feat c l txt after, uni_ok U -> (forall x, 48 <= x <= 57 -> u_start U x = false /\ u_lo U x = false) ->
  lexer_at feat c l -> no_jsx l ->
  num_lit false (has feat FEAT_NUM_SEP) (has feat FEAT_BIGINT) (is_mode l LM_STRICT) txt -> nth 1 txt 0 <> 95 -> ahead l = txt ++ after ->
  (forall x r, after = x :: r -> ~ i_start U x /\ x <> 92 /\ ~ (48 <= x <= 57) /\ (dec_int_lit (has feat FEAT_NUM_SEP) txt -> x <> 46)) ->
  exists t l', lex_tok U entity l = Some (t, l') /\ t_val t = T_NUM /\ ahead l' = after.
Proof.
  intros U entity feat c l txt after HU HD [H1 [H2 [H3 H4]]] [J1 [J2 J3]] Hl H95 Hr Haft.
  unfold ahead in Hr. fold (rest (l_src l)) in Hr.
  assert (Hx : exists x q, txt = x :: q /\ (48 <= x <= 57 \/ (x = 46 /\ exists y q', q = y :: q' /\ 48 <= y <= 57))).
  { assert (Hdig : forall sep base ds, digits sep base ds -> exists y r, ds = y :: r /\ is_dig base y = true) by (intros sep base ds Hd; inversion Hd; subst; eauto).
    destruct Hl as [i e Hi He|i f e Hi Hf He|f e Hf He|i Hb Hi|base p ds Hp Hd|base p ds Hb Hp Hd|ds Hst Hd|ds f e Hb1 _ _ _ _ _]; try discriminate;
      try (destruct (dec_int_hd U HU HD _ _ Hi) as [x [q [-> Hx]]]; cbn [app]; eauto); try (exists 48; eexists; split; [reflexivity|lia]).
    exists 46; eexists; split; [reflexivity|]. right. split; [reflexivity|]. destruct (Hdig _ _ _ Hf) as [y [r [-> Hy]]]. rewrite dig10 in Hy. unfold is_digit in Hy. cbn [app]. exists y; eexists; split; [reflexivity|lia]. }
  destruct Hx as [x [q [-> Hx]]]. cbn [app] in Hr.
  assert (Hsp : is_space x = false). { destruct (is_space x) eqn:E; [|reflexivity]. apply is_space_spec in E. cbn in E. lia. }
  destruct (skip_space_facts (l_src l)) as [_ [_ [_ [K4 _]]]]. specialize (K4 H1).
  assert (Hr' : rest (skip_space (l_src l)) = x :: q ++ after) by (rewrite (skip_space_start _ _ _ Hr Hsp); exact Hr).
  set (s := skip_space (l_src l)) in *.
  destruct (read_num_complete U HU HD feat (is_mode l LM_STRICT) (x :: q) after s Hl H95 Hr') as [t [s' [E1 [E2 E3]]]].
  { intros y r Ey. destruct (Haft _ _ Ey) as [A [B _]]. auto. }
  { intros y r Ey. destruct (Haft _ _ Ey) as [_ [_ [C _]]]. rewrite dig10. unfold is_digit. lia. }
  { intros Hi r Ey. destruct (Haft _ _ Ey) as [_ [_ [_ D]]]. apply (D Hi). reflexivity. }
  exists t, (set_src (lx_skip_space l) s'). split; [|split; [exact E2|exact E3]].
  apply lex_tok_first; [|rewrite E2; discriminate].
  unfold read_tok_cmt. destruct (lx_skip_space_src l) as [F1 [F2 [F3 [F4 F5]]]]. rewrite F1, F4, !lx_skip_space_mode, J1, J2. fold s. cbn [orb].
  assert (He : ahead_is_eof s = false).
  { destruct (ahead_is_eof s) eqn:E; [|reflexivity]. apply eof_raw in E; [|assumption]. apply rest_nil_iff in E. rewrite E in Hr'. discriminate. }
  assert (Hid : is_id_start U x = false).
  { destruct Hx as [Hx|[-> _]]; [apply (digit_not_start U HU HD); exact Hx|apply (dot_not_start U HU HD)]. }
  rewrite He, (peek_cons _ _ _ Hr'), Hid.
  assert (Hns : ahead_is_num_start s = true).
  { unfold ahead_is_num_start. rewrite (peek_cons _ _ _ Hr'). destruct Hx as [Hx|[-> [y [q' [-> Hy]]]]]; [unfold is_digit; lia|].
    rewrite ahead2nd_spec. fold (rest s). rewrite Hr'. cbn [app nth]. unfold is_digit. lia. }
  rewrite Hns, H3, E1. reflexivity.
Qed.
Print Assumptions C23_recognised_partial.

(** ** Cases *)

(** The texts of the number tokens of a source. *)
Definition texts (feat : N) (src : bytes) : list (tv * bytes) :=
  map (fun t => (t_val t, firstn (t_hi t - t_lo t) (skipn (t_lo t) src))) (lex_all 60 (new_lexer feat src)).
Example C23_number_case :
  texts (N.ones 70) (bs "0 12_345.6e-7 .5 1. 0xFFn 0b1_0 0o17 017 9007n 1e3.x") =
  [(T_NUM, bs "0"); (T_NUM, bs "12_345.6e-7"); (T_NUM, bs ".5"); (T_NUM, bs "1."); (T_NUM, bs "0xFFn"); (T_NUM, bs "0b1_0"); (T_NUM, bs "0o17");
   (T_NUM, bs "017"); (T_NUM, bs "9007n"); (T_NUM, bs "1e3"); (T_DOT, bs "."); (T_NAME, bs "x")].
Proof. vm_compute. reflexivity. Qed.
Example C23_recognised_case :
  num_lit false true true false (map b2z (bs "12_3.5e+4")) /\ (forall x, 48 <= x <= 57 -> u_start ascii_uni x = false /\ u_lo ascii_uni x = false).
Proof.
  split; [|intros x Hx; split; cbn; lia].
  apply (nl_frac _ _ _ _ [49; 50; 95; 51] [53] [101; 43; 52]).
  - right. split; [|cbn; lia]. apply dg_more; [reflexivity|]. apply dg_sep; [reflexivity|reflexivity|]. apply dg_one. reflexivity.
  - right. apply dg_one. reflexivity.
  - right. exists 101, [43], [52]. repeat split; auto. apply dg_one. reflexivity.
Qed.

(** A separator right after the first digit: 1_000 is a literal and is rejected. *)
Theorem C23_separator_refuted : num_lit false true true false (map b2z (bs "1_000")) /\
  hd T_EOF (vals (N.ones 70) (bs "1_000")) = T_ILLEGAL.
Proof.
  split; [|vm_compute; reflexivity]. apply (nl_int _ _ _ _ [49; 95; 48; 48; 48] []); [|left; reflexivity].
  right. split; [|cbn; lia]. apply dg_sep; [reflexivity|reflexivity|]. apply dg_more; [reflexivity|]. apply dg_more; [reflexivity|]. apply dg_one. reflexivity.
Qed.
Print Assumptions C23_separator_refuted.

(** Decimal integers with a leading zero: 018 is read as 01 and 8, 09 is rejected. *)
Theorem C23_leading_zero_refuted : num_lit true true true false (map b2z (bs "018")) /\
  texts (N.ones 70) (bs "018") = [(T_NUM, bs "01"); (T_NUM, bs "8")] /\
  num_lit true true true false (map b2z (bs "09")) /\ hd T_EOF (vals (N.ones 70) (bs "09")) = T_ILLEGAL.
Proof.
  split; [|split; [vm_compute; reflexivity|split; [|vm_compute; reflexivity]]].
  - apply (nl_leading_zero _ _ _ _ [49; 56] [] []); auto; [apply dg_more; [reflexivity|apply dg_one; reflexivity]|exists 56; cbn; auto|left; reflexivity].
  - apply (nl_leading_zero _ _ _ _ [57] [] []); auto; [apply dg_one; reflexivity|exists 57; cbn; auto|left; reflexivity].
Qed.
Print Assumptions C23_leading_zero_refuted.

(** A digit directly after a literal: 0b12 and 1n2 are no ECMAScript tokens, they are read as two numbers. *)
Theorem C23_digit_after_refuted :
  texts (N.ones 70) (bs "0b12") = [(T_NUM, bs "0b1"); (T_NUM, bs "2")] /\
  texts (N.ones 70) (bs "1n2") = [(T_NUM, bs "1n"); (T_NUM, bs "2")].
Proof. split; vm_compute; reflexivity. Qed.
Print Assumptions C23_digit_after_refuted.
