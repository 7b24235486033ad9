(** C24: the values of numeric literals. *)
From Verif Require Import Base Utf8Model SourceModel TokenModel LexModel LexSpec LexNumSpec LexNumProofs LexNumProps NumValModel NumValSpec.
From Coq Require Import ZifyBool ZifyNat ZifyN QArith Qpower.
Local Open Scope Z_scope.

Lemma digits_strip : forall sep base ds, digits sep base ds -> Forall (fun c => is_dig base c = true) (strip ds) /\ strip ds <> [].
Proof.
  assert (E : forall base d, is_dig base d = true -> (d =? 95) = false) by (intros base d Hd; apply dig_range in Hd; lia).
  intros sep base ds H. unfold strip. induction H as [d Hd|d ds Hd _ [IH1 IH2]|d ds _ Hd _ [IH1 IH2]]; cbn [filter]; rewrite (E _ _ Hd); cbn [negb filter Z.eqb Pos.eqb]; split; try discriminate; constructor; auto.
Qed.
Lemma strip_app : forall a b, strip (a ++ b) = strip a ++ strip b.
Proof. intros. apply filter_app. Qed.
Lemma dval_strip : forall base ds acc, dval_from base acc (strip ds) = dval_from base acc ds.
Proof.
  induction ds as [|c r IH]; intros acc; [reflexivity|]. unfold strip in *. cbn [filter dval_from]. destruct (c =? 95) eqn:E; cbn [negb].
  - assert (c = 95) by lia. subst c. cbn. apply IH.
  - cbn [dval_from]. destruct (digit_value c); apply IH.
Qed.
Lemma dcount_strip : forall ds, dcount (strip ds) = dcount ds.
Proof.
  induction ds as [|c r IH]; [reflexivity|]. unfold strip in *. cbn [filter dcount]. destruct (c =? 95) eqn:E; cbn [negb].
  - assert (c = 95) by lia. subst c. cbn. apply IH.
  - cbn [dcount]. destruct (digit_value c); rewrite IH; reflexivity.
Qed.
Lemma go_digit_value : forall base c, base <= 16 -> is_dig base c = true -> digit_value c = Some (go_digit c) /\ 0 <= go_digit c < base.
Proof.
  intros base c Hb H. unfold is_dig, digit_value, go_digit in *.
  destruct ((48 <=? c) && (c <=? 57)) eqn:E1; [split; [reflexivity|lia]|]. destruct ((97 <=? c) && (c <=? 102)) eqn:E2; [replace ((97 <=? c) && (c <=? 122)) with true by lia; split; [reflexivity|lia]|].
  destruct ((65 <=? c) && (c <=? 70)) eqn:E3; [|discriminate]. replace ((97 <=? c) && (c <=? 122)) with false by lia. replace ((65 <=? c) && (c <=? 90)) with true by lia. split; [reflexivity|lia].
Qed.

Lemma dval_ge : forall base ds acc, 1 <= base -> base <= 16 -> 0 <= acc -> Forall (fun c => is_dig base c = true) ds -> acc <= dval_from base acc ds.
Proof.
  intros base ds. induction ds as [|c r IH]; intros acc Hb Hb' Ha H; cbn [dval_from]; [lia|]. inversion H; subst. destruct (go_digit_value base c Hb' H2) as [-> Hg].
  specialize (IH (acc * base + go_digit c) Hb Hb'). assert (acc * base >= acc) by nia. specialize (IH ltac:(lia) H3). lia.
Qed.
Lemma uint_exact : forall base ds n, 2 <= base -> base <= 16 -> 0 <= n -> Forall (fun c => is_dig base c = true) ds -> dval_from base n ds <= 4294967295 -> uint_loop base n ds = dval_from base n ds.
Proof.
  intros base ds. induction ds as [|c r IH]; intros n Hb Hb' Hn H Hm; cbn [uint_loop dval_from] in *; [reflexivity|]. inversion H; subst. destruct (go_digit_value base c Hb' H2) as [Ev Hg]. rewrite Ev in *.
  replace (base <=? go_digit c) with false by lia. assert (G := dval_ge base r (n * base + go_digit c) ltac:(lia) Hb' ltac:(nia) H3).
  replace (4294967295 <? n * base + go_digit c) with false by lia. apply IH; auto. nia.
Qed.
Lemma big_exact : forall base ds n, base <= 16 -> Forall (fun c => is_dig base c = true) ds -> big_loop base n ds = dval_from base n ds.
Proof.
  intros base ds. induction ds as [|c r IH]; intros n Hb' H; cbn [big_loop dval_from] in *; [reflexivity|]. inversion H; subst. destruct (go_digit_value base c Hb' H2) as [Ev Hg]. rewrite Ev in *.
  replace (base <=? go_digit c) with false by lia. apply IH; auto.
Qed.
Lemma trim_dval : forall ds, dval_from 8 0 (trim0 ds) = dval_from 8 0 ds.
Proof.
  induction ds as [|c r IH]; [reflexivity|]. destruct (Z.eq_dec c 48) as [-> |N]; [cbn [trim0]; rewrite IH; reflexivity|].
  assert (E : trim0 (c :: r) = c :: r) by (destruct c as [|p|p]; try reflexivity; repeat (destruct p as [p|p|]; try reflexivity; try congruence)). rewrite E. reflexivity.
Qed.
Lemma trim_forall : forall (P : Z -> Prop) ds, Forall P ds -> Forall P (trim0 ds).
Proof.
  intros P. induction ds as [|c r IH]; intros H; [constructor|]. destruct (Z.eq_dec c 48) as [-> |N]; [cbn [trim0]; apply IH; inversion H; assumption|].
  assert (E : trim0 (c :: r) = c :: r) by (destruct c as [|p|p]; try reflexivity; repeat (destruct p as [p|p|]; try reflexivity; try congruence)). rewrite E. exact H.
Qed.

(** The first two characters, stripped. *)
Lemma strip_cons : forall c r, c <> 95 -> strip (c :: r) = c :: strip r.
Proof. intros c r H. unfold strip. cbn [filter]. replace (c =? 95) with false by lia. reflexivity. Qed.

Lemma parse_uint_exact : forall base ds, 2 <= base -> base <= 16 -> Forall (fun c => is_dig base c = true) ds -> dval_from base 0 ds <= 4294967295 -> parse_uint base ds = dval_from base 0 ds.
Proof. intros base ds H1 H2 H3 H4. unfold parse_uint. destruct ds as [|c r] eqn:E; [reflexivity|]. apply uint_exact; auto. lia. Qed.

(** Integers in another base are exact below 2^32 (see the refutation), a legacy octal too. *)
Theorem C24_radix_partial : forall sep txt v, radix_mv sep txt v -> v <= 4294967295 -> parse_float txt == inject_Z v.
Proof.
  intros sep txt v H Hv. unfold parse_float. destruct H as [base p ds Hp Hd|ds Hd].
  - apply prefix_cases in Hp. rewrite strip_cons by lia. rewrite strip_cons by lia. destruct (digits_strip _ _ _ Hd) as [D1 D2]. unfold dval in *. rewrite <- dval_strip in Hv |- *.
    unfold prefixed. cbn [skipn Z.eqb Pos.eqb andb]. destruct Hp as [[-> Hp]|[[-> Hp]|[-> Hp]]].
    + replace ((p =? 120) || (p =? 88)) with false by lia. replace ((p =? 111) || (p =? 79)) with false by lia. replace ((p =? 98) || (p =? 66)) with true by lia. rewrite parse_uint_exact; try lia; [reflexivity|assumption].
    + replace ((p =? 120) || (p =? 88)) with false by lia. replace ((p =? 111) || (p =? 79)) with true by lia. rewrite parse_uint_exact; try lia; [reflexivity|assumption].
    + replace ((p =? 120) || (p =? 88)) with true by lia. rewrite parse_uint_exact; try lia; [reflexivity|assumption].
  - rewrite strip_cons by lia. destruct (digits_strip _ _ _ Hd) as [D1 D2]. unfold dval in *. rewrite <- dval_strip in Hv |- *. destruct (strip ds) as [|c r]; [congruence|].
    assert (Hc : is_dig 8 c = true) by (inversion D1; assumption). rewrite dig8 in Hc. unfold is_octal in Hc. unfold prefixed. cbn [Z.eqb Pos.eqb andb].
    replace ((c =? 120) || (c =? 88)) with false by lia. replace ((c =? 111) || (c =? 79)) with false by lia. replace ((c =? 98) || (c =? 66)) with false by lia.
    rewrite parse_uint_exact; try lia; [|apply trim_forall; constructor; [reflexivity|exact D1]|].
    + rewrite trim_dval. reflexivity.
    + rewrite trim_dval. exact Hv.
Qed.
Print Assumptions C24_radix_partial.

(** BigInt literals are exact, whatever their size. *)
Lemma dec_strip : forall sep i, dec_int_lit sep i -> Forall (fun c => is_dig 10 c = true) (strip i) /\ (strip i = [48] \/ exists c r, strip i = c :: r /\ c <> 48).
Proof.
  intros sep i [-> | [H N]]; [split; [repeat constructor|left; reflexivity]|]. destruct (digits_strip _ _ _ H) as [D1 D2]. split; [assumption|right].
  assert (Hc : exists c r, i = c :: r /\ is_dig 10 c = true) by (destruct H; eauto). destruct Hc as (c & r & -> & Hc). apply dig_range in Hc. rewrite strip_cons by lia. exists c, (strip r). split; [reflexivity|exact N].
Qed.
Lemma dec_not_prefixed : forall s a b, s = [48] \/ (exists c r, s = c :: r /\ c <> 48) -> prefixed s a b = false.
Proof. intros s a b [-> | (c & r & -> & N)]; [reflexivity|]. unfold prefixed. destruct r; [reflexivity|]. replace (c =? 48) with false by lia. reflexivity. Qed.
Lemma dec_not_octal : forall (A : Type) s (x : list Z -> A) (y : A), s = [48] \/ (exists c r, s = c :: r /\ c <> 48) -> match s with 48 :: _ :: _ => x s | _ => y end = y.
Proof.
  intros A s x y [-> | (c & r & -> & N)]; [reflexivity|]. destruct c as [|p|p]; try reflexivity; repeat (destruct p as [p|p|]; try reflexivity; try congruence).
Qed.

Theorem C24_bigint : forall sep txt v, big_mv sep txt v -> parse_bigint txt = v.
Proof.
  intros sep txt v H. unfold parse_bigint. destruct H as [i Hi|base p ds Hp Hd].
  - rewrite removelast_last. destruct (dec_strip _ _ Hi) as [D1 D2]. rewrite !dec_not_prefixed by assumption.
    rewrite (dec_not_octal Z (strip i) (fun s => big_loop 8 0 (trim0 s)) _ D2). rewrite big_exact; [|lia|assumption]. apply dval_strip.
  - change (48 :: p :: ds ++ [110]) with ((48 :: p :: ds) ++ [110]). rewrite removelast_last. apply prefix_cases in Hp. rewrite strip_cons by lia. rewrite strip_cons by lia.
    destruct (digits_strip _ _ _ Hd) as [D1 D2]. unfold dval in *. rewrite <- dval_strip. unfold prefixed. cbn [skipn Z.eqb Pos.eqb andb]. destruct Hp as [[-> Hp]|[[-> Hp]|[-> Hp]]].
    + replace ((p =? 120) || (p =? 88)) with false by lia. replace ((p =? 111) || (p =? 79)) with false by lia. replace ((p =? 98) || (p =? 66)) with true by lia. apply big_exact; [lia|assumption].
    + replace ((p =? 120) || (p =? 88)) with false by lia. replace ((p =? 111) || (p =? 79)) with true by lia. apply big_exact; [lia|assumption].
    + replace ((p =? 120) || (p =? 88)) with true by lia. apply big_exact; [lia|assumption].
Qed.
Print Assumptions C24_bigint.

(** As an operand, a BigInt literal is exact up to 2^63; above 2^63 + 1024 it becomes 0. *)
Theorem C24_bigint_operand_partial : forall sep txt v, big_mv sep txt v -> v <= 9223372036854775808 -> node_to_float txt == inject_Z v.
Proof.
  intros sep txt v H Hv. unfold node_to_float. assert (E : last txt 0 = 110).
  { destruct H; [apply last_last|]. change (48 :: p :: ds ++ [110]) with ((48 :: p :: ds) ++ [110]). apply last_last. }
  rewrite E. cbn [Z.eqb Pos.eqb]. rewrite (C24_bigint _ _ _ H). replace (v <=? 9223372036854776832) with true by lia. reflexivity.
Qed.
Print Assumptions C24_bigint_operand_partial.

(** Decimal literals. *)
Definition dig10s (ds : list Z) : Prop := Forall (fun c => is_dig 10 c = true) ds.
Lemma dig10_val : forall c, is_dig 10 c = true -> 48 <= c <= 57 /\ digit_value c = Some (c - 48).
Proof. intros c H. rewrite dig10 in H. unfold is_digit in H. split; [lia|]. unfold digit_value. replace ((48 <=? c) && (c <=? 57)) with true by lia. reflexivity. Qed.
Lemma dcount_len : forall ds, dig10s ds -> dcount ds = Z.of_nat (length ds).
Proof. induction 1 as [|c r Hc Hr IH]; [reflexivity|]. cbn [dcount length]. destruct (dig10_val c Hc) as [_ ->]. lia. Qed.
Lemma dval_split : forall ds acc, dig10s ds -> dval_from 10 acc ds = acc * 10 ^ dcount ds + dval_from 10 0 ds.
Proof.
  induction ds as [|c r IH]; intros acc H; [cbn; lia|]. inversion H; subst. cbn [dval_from dcount]. destruct (dig10_val c H2) as [_ ->]. rewrite IH by assumption. rewrite (IH (0 * 10 + (c - 48))) by assumption.
  rewrite Z.pow_add_r; [|lia|rewrite dcount_len by assumption; lia]. ring.
Qed.
Lemma mant_digits : forall ds r dot m k nd, dig10s ds -> mant (ds ++ r) dot m k nd = mant r dot (dval_from 10 m ds) (if dot then k + dcount ds else k) (nd || match ds with [] => false | _ => true end).
Proof.
  induction ds as [|c ds IH]; intros r dot m k nd H; [cbn; rewrite orb_false_r; destruct dot; f_equal; lia|].
  inversion H; subst. destruct (dig10_val c H2) as [Hc Ev]. cbn [app mant dval_from dcount]. rewrite Ev. replace ((48 <=? c) && (c <=? 57)) with true by lia. rewrite IH by assumption.
  rewrite orb_true_r. f_equal. destruct dot; lia.
Qed.
Lemma exp_digits_val : forall ds x, dig10s ds -> exp_digits x ds = Some (dval_from 10 x ds).
Proof.
  induction ds as [|c r IH]; intros x H; [reflexivity|]. inversion H; subst. destruct (dig10_val c H2) as [Hc Ev]. cbn [exp_digits dval_from]. rewrite Ev. replace ((48 <=? c) && (c <=? 57)) with true by lia. apply IH. assumption.
Qed.
Lemma exp_ok : forall sep e x, exp_mv sep e x -> exp_of (strip e) = Some x.
Proof.
  intros sep e x H. destruct H as [|c sg ds Hc Hs Hd|c ds Hc Hd]; [reflexivity| |].
  - rewrite strip_cons by lia. rewrite strip_app. destruct (digits_strip _ _ _ Hd) as [D1 D2]. unfold exp_of. replace ((c =? 101) || (c =? 69)) with true by lia. unfold dval. rewrite <- dval_strip.
    destruct Hs as [-> | ->]; cbn [strip filter Z.eqb Pos.eqb negb app]; fold (strip ds).
    + destruct (strip ds) as [|d r] eqn:E; [congruence|]. assert (Hd1 : is_dig 10 d = true) by (inversion D1; assumption). destruct (dig10_val d Hd1) as [Hr _].
      assert (Em : match d :: r with 43 :: r1 => (1, r1) | 45 :: r1 => (-1, r1) | _ => (1, d :: r) end = (1, d :: r)).
      { destruct d as [|p|p]; try reflexivity; repeat (destruct p as [p|p|]; try reflexivity; try lia). }
      rewrite Em. rewrite exp_digits_val by assumption. rewrite Z.mul_1_l. reflexivity.
    + destruct (strip ds) as [|d r] eqn:E; [congruence|]. rewrite exp_digits_val by assumption. rewrite Z.mul_1_l. reflexivity.
  - rewrite strip_cons by lia. rewrite strip_cons by lia. destruct (digits_strip _ _ _ Hd) as [D1 D2]. unfold exp_of. replace ((c =? 101) || (c =? 69)) with true by lia. unfold dval. rewrite <- dval_strip.
    destruct (strip ds) as [|d r] eqn:E; [congruence|]. rewrite exp_digits_val by assumption. f_equal.
Qed.
Lemma exp_stops : forall sep e x, exp_mv sep e x -> strip e = [] \/ exists c r, strip e = c :: r /\ (c = 101 \/ c = 69).
Proof. intros sep e x H. destruct H as [|c sg ds Hc Hs Hd|c ds Hc Hd]; [left; reflexivity| |]; right; rewrite strip_cons by lia; eauto. Qed.
Lemma mant_stop : forall r dot m k nd, r = [] \/ (exists c s, r = c :: s /\ (c = 101 \/ c = 69)) -> mant r dot m k nd = (m, k, nd, r).
Proof. intros r dot m k nd [-> | (c & s & -> & Hc)]; [reflexivity|]. cbn [mant]. replace ((48 <=? c) && (c <=? 57)) with false by lia. replace ((c =? 46) && negb dot) with false by lia. reflexivity. Qed.
Lemma ten_pow : forall x y, Qpower 10 (x + y) == Qpower 10 x * Qpower 10 y.
Proof. intros. apply Qpower_plus. discriminate. Qed.
Lemma ten_pow_Z : forall n, 0 <= n -> inject_Z (10 ^ n) == Qpower 10 n.
Proof. intros n H. change (10#1)%Q with (inject_Z 10). rewrite Zpower_Qpower by assumption. reflexivity. Qed.

Lemma float_mant : forall sep i f e x (dot : list Z), dig10s i -> dig10s f -> exp_mv sep e x -> (i <> [] \/ f <> []) ->
  parse_float64 (i ++ 46 :: f ++ strip e) == (inject_Z (dval_from 10 0 i) + inject_Z (dval_from 10 0 f) * Qpower 10 (- dcount f)) * Qpower 10 x.
Proof.
  intros sep i f e x _ Hi Hf He N. unfold parse_float64. rewrite mant_digits by assumption. cbn [mant]. change ((48 <=? 46) && (46 <=? 57)) with false. change ((46 =? 46) && negb false) with true. cbv iota.
  rewrite mant_digits by assumption. rewrite mant_stop by (eapply exp_stops; eassumption). replace ((false || match i with [] => false | _ => true end) || match f with [] => false | _ => true end) with true by (destruct i, f; tauto).
  rewrite (exp_ok _ _ _ He). rewrite (dval_split f) by assumption. rewrite inject_Z_plus, inject_Z_mult.
  assert (Hn : 0 <= dcount f) by (rewrite dcount_len by assumption; lia). rewrite ten_pow_Z by assumption. rewrite Z.add_0_l. change (x - dcount f) with (x + - dcount f). rewrite ten_pow.
  rewrite Qpower_opp. field. apply Qpower_not_0. discriminate.
Qed.
Lemma float_int : forall sep i e x, dig10s i -> exp_mv sep e x -> i <> [] -> parse_float64 (i ++ strip e) == inject_Z (dval_from 10 0 i) * Qpower 10 x.
Proof.
  intros sep i e x Hi He N. unfold parse_float64. rewrite mant_digits by assumption. rewrite mant_stop by (eapply exp_stops; eassumption). destruct i as [|c i]; [congruence|]. cbn [orb]. rewrite (exp_ok _ _ _ He). rewrite Z.sub_0_r. reflexivity.
Qed.

(** A decimal literal whose text does not start with 0, or is just 0, has its mathematical value. *)
Theorem C24_decimal_partial : forall sep txt q, dec_mv sep txt q -> (hd 0 txt <> 48 \/ txt = [48]) -> parse_float txt == q.
Proof.
  intros sep txt q H H0.
  assert (G : parse_float64 (strip txt) == q).
  { destruct H as [i e x Hi He|i f e x Hi Hf He|f e x Hf He].
    - rewrite strip_app. destruct (dec_strip _ _ Hi) as [D1 D2]. unfold dval. rewrite <- dval_strip. eapply float_int; eauto. destruct D2 as [-> | (c & r & -> & _)]; discriminate.
    - rewrite strip_app. rewrite strip_cons by lia. rewrite strip_app. destruct (dec_strip _ _ Hi) as [D1 D2]. unfold dval. rewrite <- (dval_strip 10 i), <- (dval_strip 10 f), <- (dcount_strip f). eapply float_mant; eauto.
      + destruct Hf as [-> |Hf]; [constructor|apply (digits_strip _ _ _ Hf)].
      + left. destruct D2 as [-> | (c & r & -> & _)]; discriminate.
    - rewrite strip_cons by lia. rewrite strip_app. destruct (digits_strip _ _ _ Hf) as [D1 D2]. unfold dval. rewrite <- (dval_strip 10 f), <- (dcount_strip f).
      rewrite (float_mant sep [] (strip f) e x [] ltac:(constructor) D1 He ltac:(right; assumption)). cbn [dval_from]. ring. }
  assert (Hs : strip txt = [48] \/ exists c r, strip txt = c :: r /\ c <> 48).
  { destruct H0 as [H0| ->]; [|left; reflexivity]. right. destruct txt as [|c r].
    - exfalso. remember [] as t eqn:E in H. destruct H; [destruct H as [-> |[H _]]; [discriminate|destruct H; discriminate]|destruct i; discriminate|discriminate].
    - cbn [hd] in H0. assert (c <> 95).
      { intros ->. remember (95 :: r) as t eqn:E in H. destruct H as [i e x Hi He|i f e x Hi Hf He|f e x Hf He]; [| |discriminate].
        - destruct Hi as [-> |[Hi _]]; [discriminate|]. assert (Hd : exists d s, i = d :: s /\ is_dig 10 d = true) by (destruct Hi; eauto). destruct Hd as (d & s & -> & Hd). cbn [app] in E. injection E as -> _. discriminate.
        - destruct Hi as [-> |[Hi _]]; [discriminate|]. assert (Hd : exists d s, i = d :: s /\ is_dig 10 d = true) by (destruct Hi; eauto). destruct Hd as (d & s & -> & Hd). cbn [app] in E. injection E as -> _. discriminate. }
      rewrite strip_cons by assumption. eauto. }
  unfold parse_float. rewrite !dec_not_prefixed by assumption. rewrite (dec_not_octal Q (strip txt) (fun s => inject_Z (parse_uint 8 (trim0 s))) _ Hs). exact G.
Qed.
Print Assumptions C24_decimal_partial.

(** The rest of the decimal literals, those written 0. or 0e, all have the value 0. *)
Theorem C24_zero_point_refuted : forall sep f e x, opt_digits sep f -> exp_mv sep e x -> parse_float (48 :: 46 :: f ++ e) == 0 /\ dec_mv sep (48 :: 46 :: f ++ e) ((0 + inject_Z (dval 10 f) * Qpower 10 (- dcount f)) * Qpower 10 x)%Q.
Proof.
  intros sep f e x Hf He. split.
  - unfold parse_float. rewrite strip_cons by lia. rewrite strip_cons by lia. reflexivity.
  - apply (mv_frac sep [48] f e x); auto. left. reflexivity.
Qed.
Print Assumptions C24_zero_point_refuted.

Lemma digs : forall sep base ds, forallb (is_dig base) ds = true -> ds <> [] -> digits sep base ds.
Proof.
  induction ds as [|c r IH]; intros H N; [congruence|]. cbn [forallb] in H. apply andb_prop in H as [H1 H2]. destruct r; [constructor; assumption|]. apply dg_more; [assumption|]. apply IH; [assumption|discriminate].
Qed.
(** 0.5 is 0, 0xffffffffff is 2^32-1, and the BigInt 10000000000000000000n is 0 as an operand. *)
Theorem C24_value_refuted :
  (exists q, dec_mv true [48; 46; 53] q /\ ~ parse_float [48; 46; 53] == q) /\
  (exists v, radix_mv true ([48; 120] ++ repeat 102 10) v /\ ~ parse_float ([48; 120] ++ repeat 102 10) == inject_Z v) /\
  (exists v, big_mv true (49 :: repeat 48 19 ++ [110]) v /\ ~ node_to_float (49 :: repeat 48 19 ++ [110]) == inject_Z v).
Proof.
  repeat split.
  - eexists. split; [apply (mv_frac true [48] [53] [] 0); [left; reflexivity|right; apply digs; [reflexivity|discriminate]|constructor]|]. intro H. vm_compute in H. discriminate.
  - eexists. split; [apply (mv_radix true 16 120 (repeat 102 10)); [left; reflexivity|apply digs; [reflexivity|discriminate]]|]. intro H. vm_compute in H. discriminate.
  - eexists. split; [apply (mv_big true (49 :: repeat 48 19)); right; split; [apply digs; [reflexivity|discriminate]|discriminate]|]. intro H. vm_compute in H. discriminate.
Qed.
Print Assumptions C24_value_refuted.

(** Non-vacuity: 1_0.25e-1 = 1.025, 0xFF = 255, 017 = 15, 0b101n = 5. *)
Example C24_decimal_ex : exists q, dec_mv true [49; 95; 48; 46; 50; 53; 101; 45; 49] q /\ (q == 1025 # 1000)%Q /\ parse_float [49; 95; 48; 46; 50; 53; 101; 45; 49] == q.
Proof.
  eexists. split; [apply (mv_frac true [49; 95; 48] [50; 53] [101; 45; 49] (-1)); [right; split; [apply dg_sep; [reflexivity|reflexivity|apply digs; [reflexivity|discriminate]]|discriminate]|right; apply digs; [reflexivity|discriminate]|]|].
  - apply (ex_minus true 101 [49]); [left; reflexivity|apply digs; [reflexivity|discriminate]].
  - split; vm_compute; reflexivity.
Qed.
Example C24_radix_ex : radix_mv true [48; 120; 70; 70] 255 /\ radix_mv true [48; 49; 55] 15 /\ big_mv true [48; 98; 49; 48; 49; 110] 5.
Proof.
  split; [|split].
  - apply (mv_radix true 16 120 [70; 70]); [left; reflexivity|apply digs; [reflexivity|discriminate]].
  - apply (mv_octal true [49; 55]); apply digs; [reflexivity|discriminate].
  - apply (mv_radix_big true 2 98 [49; 48; 49]); [left; reflexivity|apply digs; [reflexivity|discriminate]].
Qed.

(** Every literal that the grammar of LexNumSpec admits has a value in the sense above. *)
Lemma every_literal_has_a_value : forall sep big strict txt, num_lit false sep big strict txt -> (exists q, dec_mv sep txt q) \/ (exists v, radix_mv sep txt v) \/ (exists v, big_mv sep txt v).
Proof.
  assert (E : forall sep e, exp_part sep e -> exists x, exp_mv sep e x).
  { intros sep e [-> | (c & sg & ds & -> & Hc & Hs & Hd)]; [eexists; constructor|]. destruct Hs as [-> |[-> | ->]]; eexists; [apply (ex_plus sep c []); eauto|apply (ex_plus sep c [43]); eauto|apply (ex_minus sep c); eauto]. }
  intros sep big strict txt H. destruct H.
  - left. destruct (E _ _ H0). eexists. apply mv_int; eauto.
  - left. destruct (E _ _ H1). eexists. apply mv_frac; eauto.
  - left. destruct (E _ _ H0). eexists. apply mv_dot; eauto.
  - right. right. eexists. apply mv_big. assumption.
  - right. left. eexists. eapply mv_radix; eauto.
  - right. right. eexists. eapply mv_radix_big; eauto.
  - right. left. eexists. apply mv_octal. assumption.
  - discriminate.
Qed.
