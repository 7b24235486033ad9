(** The punctuator scanner against the table of punctuators. *)
From Verif Require Import Base Utf8Model Utf8Proofs SourceModel SourceSpec SourceProofs TokenModel LexModel LexSpec LexProofs LexGapProofs LexKindProofs LexStrProofs LexTokSpec.
From Coq Require Import ZifyBool ZifyNat ZifyN.
Local Open Scope Z_scope.

Fixpoint starts (p rs : list rune) : bool :=
  match p, rs with
  | [], _ => true
  | a :: p', b :: rs' => (b =? a) && starts p' rs'
  | _, [] => false
  end.
Lemma starts_spec : forall p after rs, p ++ after = rs -> starts p rs = true.
Proof. induction p as [|a p IH]; intros after rs <-; [reflexivity|]. cbn. rewrite Z.eqb_refl. apply IH with after. reflexivity. Qed.

(** A computable form of [longest_punct]. *)
Definition longest_check (n : nat) (rs : list rune) : bool :=
  forallb (fun pv => implb (starts (fst pv) rs && negb (tv_eqb (snd pv) T_OPT_CHAIN && is_digit (nth 2 rs 0))) (length (fst pv) <=? n)%nat) punctuators.

Lemma longest_check_sound : forall p v after, punct_at p v after -> longest_check (length p) (p ++ after) = true -> longest_punct p v after.
Proof.
  intros p v after Hp H. split; [exact Hp|]. intros p' v' after' E [Hin Hd]. unfold longest_check in H.
  rewrite forallb_forall in H. specialize (H _ Hin). cbn [fst snd] in H. rewrite (starts_spec p' after' _ E) in H. cbn [andb] in H.
  destruct (tv_eqb v' T_OPT_CHAIN) eqn:Ev; cbn [andb negb implb] in H; [|lia].
  apply tv_eqb_spec in Ev. specialize (Hd Ev). subst v'.
  assert (Hp' : p' = [63; 46]).
  { clear -Hin. unfold punctuators in Hin. cbn in Hin. repeat (destruct Hin as [Hin|Hin]; [inversion Hin; reflexivity || discriminate Hin|]). contradiction. }
  subst p'. destruct (is_digit (nth 2 (p ++ after) 0)) eqn:Ed; cbn [negb implb] in H; [|lia].
  exfalso. apply Hd. rewrite <- E in Ed. cbn [app nth] in Ed. destruct after'; cbn in *; unfold is_digit, digit in *; lia.
Qed.

Lemma rd_rest : forall s r rs, rest s = r :: rs -> r <> 13 -> rest (rd s) = rs.
Proof. intros s r rs H Hr. destruct (read_one s r rs H Hr) as [s1 [E [E1 _]]]. unfold rd. rewrite E. exact E1. Qed.

Lemma ch_true : forall s k, ahead_is_ch s k = true -> 0 <= k -> k <> 13 -> exists rs, rest s = k :: rs /\ rest (rd s) = rs.
Proof.
  intros s k H Hk H13. unfold ahead_is_ch in H. destruct (peek_inv s k) as [rs Hrs]; [lia|unfold EOF; lia|].
  exists rs. split; [exact Hrs|]. eapply rd_rest; eassumption.
Qed.
Lemma ch_false : forall s k x rs, ahead_is_ch s k = false -> rest s = x :: rs -> (x =? k) = false.
Proof. intros s k x rs H E. unfold ahead_is_ch in H. rewrite (peek_cons _ _ _ E) in H. exact H. Qed.
Lemma chs2_eq : forall s a b, 0 <= b -> b <> RuneError -> ahead_is_chs2 s a b = (ahead_is_ch s a && (nth 1 (rest s) EOF =? b)).
Proof.
  intros s a b Hb Hr. unfold rest. rewrite <- ahead2nd_spec. unfold ahead_is_chs2, ahead_is_ch, ahead2nd, peek.
  destruct (runes_advance (s_raw (st s))) as [[r size] q] eqn:E. destruct (Nat.eqb size 0) eqn:Es; [|reflexivity].
  destruct (s_raw (st s)) as [|b0 t] eqn:Er.
  - rewrite runes_advance_nil in E. injection E as <- <- <-. cbv [RuneError EOF] in *.
    replace (-1 =? b) with false by lia. replace (65533 =? b) with false by lia. reflexivity.
  - rewrite runes_advance_cons in E. pose proof (decode_size_pos b0 t). inversion E; subst. lia.
Qed.

Ltac facts := repeat match goal with
  | H : ahead_is_ch ?s ?k = true |- _ => let rs := fresh "rs" in let A := fresh "A" in let B := fresh "B" in
      apply ch_true in H; [destruct H as [rs [A B]]|lia|lia]
  end.
Ltac leaf := facts;
  repeat match goal with
  | A : rest ?s = ?x, B : rest ?s = ?y |- _ => rewrite A in B; injection B as B; subst
  end.

Definition sym_ok (c : rune) (s : source) (v : tv) (s2 : source) : Prop :=
  exists p, rest s = p ++ rest s2 /\ longest_punct (c :: p) v (rest s2).

(** The punctuator [c :: p] has been read from [s]; [s2] follows. *)
Lemma sym_intro : forall c s v s2 p, rest s = p ++ rest s2 -> In (c :: p, v) punctuators ->
  (v = T_OPT_CHAIN -> ~ digit (hd 0 (rest s2))) -> longest_check (S (length p)) (c :: p ++ rest s2) = true -> sym_ok c s v s2.
Proof.
  intros c s v s2 p H1 H2 H3 H4. exists p. split; [exact H1|]. apply longest_check_sound; [split; assumption|exact H4].
Qed.


Ltac in_table := cbv; repeat (first [left; reflexivity|right]).
Local Arguments is_digit : simpl never.
Ltac fin_check := match goal with |- longest_check _ (_ :: ?p ++ rest ?s2) = true =>
  let x := fresh "x" in let xs := fresh "xs" in let E := fresh "E" in
  destruct (rest s2) as [|x xs] eqn:E; [vm_compute; reflexivity|];
  repeat match goal with H : ahead_is_ch s2 _ = false |- _ => apply (ch_false s2 _ x xs) in H; [|exact E] end;
  let t := eval vm_compute in punctuators in unfold longest_check; change punctuators with t;
  cbn; repeat match goal with H : (x =? _) = false |- _ => rewrite H; clear H end; cbn; rewrite ?Bool.andb_false_r; cbn; try reflexivity
end.
Ltac sym p := inj; facts; apply (sym_intro _ _ _ _ p); [cbn [app]; congruence|in_table|discriminate|fin_check].

Ltac try_ch k := match goal with |- context [ahead_is_ch ?s k] => idtac end.

Lemma chs2_true : forall s a b, ahead_is_chs2 s a b = true -> 0 <= a -> a <> 13 -> 0 <= b -> b <> 13 -> b <> RuneError ->
  exists rs, rest s = a :: b :: rs /\ rest (rd (rd s)) = rs.
Proof.
  intros s a b H Ha1 Ha2 Hb1 Hb2 Hb3. rewrite chs2_eq in H by assumption. apply andb_prop in H. destruct H as [H1 H2].
  apply ch_true in H1; [|assumption|assumption]. destruct H1 as [rs [E1 E2]]. rewrite E1 in H2. cbn [nth] in H2.
  destruct rs as [|y rs]; cbn [nth] in H2; [unfold EOF in H2; lia|]. assert (y = b) by lia. subst y. exists rs.
  split; [exact E1|]. eapply rd_rest; eassumption.
Qed.
Lemma chs2_false : forall s a b y z rs, ahead_is_chs2 s a b = false -> rest s = y :: z :: rs -> 0 <= b -> b <> RuneError -> (y =? a) && (z =? b) = false.
Proof.
  intros s a b y z rs H E Hb Hr. rewrite chs2_eq in H by assumption. unfold ahead_is_ch in H. rewrite (peek_cons _ _ _ E), E in H. exact H.
Qed.

Lemma sym_plain_sound : forall ts c s v s2, sym_plain ts false c s = Some (v, s2) -> sym_ok c s v s2.
Proof.
  intros ts c s v s2 H. unfold sym_plain in H. cbn [negb andb] in H. cbn zeta in H.
  destruct (c =? 123) eqn:C; [assert (c = 123) by lia; subst c; clear C; sym (@nil Z)|clear C].
  destruct (c =? 125) eqn:C; [assert (c = 125) by lia; subst c; clear C; sym (@nil Z)|clear C].
  destruct (c =? 40) eqn:C; [assert (c = 40) by lia; subst c; clear C; sym (@nil Z)|clear C].
  destruct (c =? 41) eqn:C; [assert (c = 41) by lia; subst c; clear C; sym (@nil Z)|clear C].
  destruct (c =? 91) eqn:C; [assert (c = 91) by lia; subst c; clear C; sym (@nil Z)|clear C].
  destruct (c =? 93) eqn:C; [assert (c = 93) by lia; subst c; clear C; sym (@nil Z)|clear C].
  destruct (c =? 59) eqn:C; [assert (c = 59) by lia; subst c; clear C; sym (@nil Z)|clear C].
  destruct (c =? 44) eqn:C; [assert (c = 44) by lia; subst c; clear C; sym (@nil Z)|clear C].
  destruct (c =? 58) eqn:C; [assert (c = 58) by lia; subst c; clear C; sym (@nil Z)|clear C].
  destruct (c =? 46) eqn:C; [assert (c = 46) by lia; subst c; clear C|clear C].
  { destruct (ahead_is_chs2 s 46 46) eqn:E1; injection H as <- <-.
    - apply chs2_true in E1; try (unfold RuneError; lia). destruct E1 as [rs [A B]].
      apply (sym_intro _ _ _ _ [46; 46]); [cbn; congruence|in_table|discriminate|fin_check].
    - apply (sym_intro _ _ _ _ []); [reflexivity|in_table|discriminate|].
      fin_check. destruct xs as [|y ys]; [destruct (x =? 46); reflexivity|].
      pose proof (chs2_false s 46 46 x y ys E1) as G. specialize (G ltac:(assumption) ltac:(lia) ltac:(unfold RuneError; lia)).
      destruct (x =? 46); [|reflexivity]. cbn in G. rewrite G. reflexivity. }
  destruct (c =? 63) eqn:C; [assert (c = 63) by lia; subst c; clear C|clear C].
  { destruct (ahead_is_ch s 46 && negb (is_digit (ahead2nd s))) eqn:E1.
    - apply andb_prop in E1. destruct E1 as [E1 E2]. rewrite ahead2nd_spec in E2. fold (rest s) in E2. facts. rewrite A in E2. cbn [nth] in E2.
      injection H as <- <-. apply (sym_intro _ _ _ _ [46]); [cbn; congruence|in_table| |].
      + intros _. rewrite B. destruct rs; cbn in *; unfold is_digit, digit in *; [lia|]. lia.
      + rewrite B. destruct rs as [|y ys]; [vm_compute; reflexivity|]. cbn in E2.
        let t := eval vm_compute in punctuators in unfold longest_check; change punctuators with t. cbn. rewrite E2. cbn. reflexivity.
    - destruct (ahead_is_ch s 63) eqn:E2.
      + destruct (ahead_is_ch (rd s) 61) eqn:E3; [sym [63; 61]|sym [63]].
      + injection H as <- <-. apply (sym_intro _ _ _ _ []); [reflexivity|in_table|discriminate|].
        fin_check. destruct (x =? 46) eqn:Ex; [|reflexivity]. unfold ahead_is_ch in E1. rewrite (peek_cons _ _ _ E), Ex in E1. cbn [andb] in E1.
        rewrite ahead2nd_spec in E1. fold (rest s) in E1. rewrite E in E1. cbn [nth] in E1.
        destruct xs as [|y ys]; cbn [nth] in E1; [discriminate E1|]. cbn. destruct (is_digit y); [reflexivity|discriminate E1]. }
  destruct (c =? 43) eqn:C; [assert (c = 43) by lia; subst c; clear C|clear C].
  { destruct (ahead_is_ch s 43) eqn:E1; [sym [43]|]. destruct (ahead_is_ch s 61) eqn:E2; [sym [61]|]. sym (@nil Z). }
  destruct (c =? 45) eqn:C; [assert (c = 45) by lia; subst c; clear C|clear C].
  { destruct (ahead_is_ch s 45) eqn:E1; [sym [45]|]. destruct (ahead_is_ch s 61) eqn:E2; [sym [61]|]. sym (@nil Z). }
  destruct (c =? 61) eqn:C; [assert (c = 61) by lia; subst c; clear C|clear C].
  { destruct (ahead_is_ch s 62) eqn:E1; [sym [62]|]. destruct (ahead_is_chs2 s 61 61) eqn:E2.
    - apply chs2_true in E2; try (unfold RuneError; lia). destruct E2 as [rs [A B]]. injection H as <- <-.
      apply (sym_intro _ _ _ _ [61; 61]); [cbn; congruence|in_table|discriminate|fin_check].
    - destruct (ahead_is_ch s 61) eqn:E3.
      + injection H as <- <-. facts. apply (sym_intro _ _ _ _ [61]); [cbn; congruence|in_table|discriminate|]. fin_check.
        assert (Hx : (x =? 61) = false). { pose proof (chs2_false s 61 61 61 x xs E2) as G. cbn in G. apply G; [congruence|lia|unfold RuneError; lia]. }
        rewrite Hx. reflexivity.
      + sym (@nil Z). }
  destruct (c =? 62) eqn:C; [assert (c = 62) by lia; subst c; clear C|clear C].
  { destruct (ahead_is_ch s 61) eqn:E1; [sym [61]|]. destruct (ahead_is_ch s 62) eqn:E2; [|sym (@nil Z)].
    destruct (ahead_is_ch (rd s) 62) eqn:E3.
    - destruct (ahead_is_ch (rd (rd s)) 61) eqn:E4; [sym [62; 62; 61]|sym [62; 62]].
    - destruct (ahead_is_ch (rd s) 61) eqn:E4; [sym [62; 61]|sym [62]]. }
  destruct (c =? 42) eqn:C; [assert (c = 42) by lia; subst c; clear C|clear C].
  { destruct (ahead_is_ch s 42) eqn:E1; [destruct (ahead_is_ch (rd s) 61) eqn:E2; [sym [42; 61]|sym [42]]|].
    destruct (ahead_is_ch s 61) eqn:E2; [sym [61]|sym (@nil Z)]. }
  destruct (c =? 124) eqn:C; [assert (c = 124) by lia; subst c; clear C|clear C].
  { destruct (ahead_is_ch s 124) eqn:E1; [destruct (ahead_is_ch (rd s) 61) eqn:E2; [sym [124; 61]|sym [124]]|].
    destruct (ahead_is_ch s 61) eqn:E2; [sym [61]|sym (@nil Z)]. }
  destruct (c =? 38) eqn:C; [assert (c = 38) by lia; subst c; clear C|clear C].
  { destruct (ahead_is_ch s 38) eqn:E1; [destruct (ahead_is_ch (rd s) 61) eqn:E2; [sym [38; 61]|sym [38]]|].
    destruct (ahead_is_ch s 61) eqn:E2; [sym [61]|sym (@nil Z)]. }
  destruct (c =? 37) eqn:C; [assert (c = 37) by lia; subst c; clear C|clear C].
  { destruct (ahead_is_ch s 61) eqn:E2; [sym [61]|sym (@nil Z)]. }
  destruct (c =? 33) eqn:C; [assert (c = 33) by lia; subst c; clear C|clear C].
  { destruct (ahead_is_ch s 61) eqn:E1; [destruct (ahead_is_ch (rd s) 61) eqn:E2; [sym [61; 61]|sym [61]]|sym (@nil Z)]. }
  destruct (c =? 126) eqn:C; [assert (c = 126) by lia; subst c; clear C; sym (@nil Z)|clear C].
  destruct (c =? 94) eqn:C; [assert (c = 94) by lia; subst c; clear C|clear C].
  { destruct (ahead_is_ch s 61) eqn:E2; [sym [61]|sym (@nil Z)]. }
  discriminate.
Qed.

Lemma sym_plain_none : forall ts ta c s, sym_plain ts ta c s = None -> c <> 60 -> c <> 47 -> c <> 64 ->
  forall p v, ~ In (c :: p, v) punctuators.
Proof.
  intros ts ta c s H H1 H2 H3 p v Hin. unfold sym_plain in H.
  assert (Hc : Forall (fun pv : list rune * tv => match fst pv with x :: _ => x = c -> False | [] => True end) punctuators).
  { repeat match type of H with (if ?b then _ else _) = None => destruct b eqn:?; [discriminate|] end.
    repeat (constructor; [cbv; lia|]). constructor. }
  rewrite Forall_forall in Hc. apply (Hc _ Hin). reflexivity.
Qed.

