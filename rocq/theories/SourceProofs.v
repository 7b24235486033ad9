From Verif Require Import Base Utf8Model Utf8Proofs SourceModel SourceSpec.
From Coq Require Import ZifyBool ZifyNat ZifyN.
From Coq Require Sorting.Sorted.

Arguments decode_rune : simpl never.

(** * Decoding a truncated text *)

Lemma decode_firstn : forall s m, (snd (decode_rune s) <= m)%nat -> (0 < m)%nat ->
  decode_rune (firstn m s) = decode_rune s.
Proof.
  intros s m Hk Hm. destruct s as [|b s]; [rewrite firstn_nil; reflexivity|].
  destruct m as [|m]; [lia|]. cbn [firstn].
  unfold decode_rune in *.
  destruct (b2z b <? 128)%Z; [reflexivity|].
  destruct (lead (b2z b)) as [[[sz lo] hi]|]; [|reflexivity].
  destruct s as [|c1 s]; [rewrite firstn_nil; reflexivity|].
  destruct (negb (in_rng lo hi (b2z c1))) eqn:E1.
  { destruct m; cbn [firstn]; [reflexivity|]. rewrite E1. reflexivity. }
  destruct (Nat.eqb sz 2) eqn:S2.
  { destruct m; [cbn in Hk; lia|]. cbn [firstn]. rewrite E1. reflexivity. }
  destruct s as [|c2 s].
  { destruct m; cbn [firstn]; [reflexivity|]. rewrite E1, firstn_nil. reflexivity. }
  destruct (negb (is_cont (b2z c2))) eqn:E2.
  { destruct m; cbn [firstn]; [reflexivity|]. rewrite E1.
    destruct m; cbn [firstn]; [reflexivity|]. rewrite E2. reflexivity. }
  destruct (Nat.eqb sz 3) eqn:S3.
  { destruct m; [cbn in Hk; lia|]. destruct m; [cbn in Hk; lia|].
    cbn [firstn]. rewrite E1, E2. reflexivity. }
  destruct s as [|c3 s].
  { destruct m; cbn [firstn]; [reflexivity|]. rewrite E1.
    destruct m; cbn [firstn]; [reflexivity|]. rewrite E2, firstn_nil. reflexivity. }
  destruct (negb (is_cont (b2z c3))) eqn:E3.
  { destruct m; cbn [firstn]; [reflexivity|]. rewrite E1.
    destruct m; cbn [firstn]; [reflexivity|]. rewrite E2.
    destruct m; cbn [firstn]; [reflexivity|]. rewrite E3. reflexivity. }
  destruct m; [cbn in Hk; lia|]. destruct m; [cbn in Hk; lia|]. destruct m; [cbn in Hk; lia|].
  cbn [firstn]. rewrite E1, E2, E3. reflexivity.
Qed.

(** * Cursor reachability relative to the text: the consumed part is a prefix that ends at
    a rune boundary. *)

Lemma boundary_le : forall c o, boundary c o -> o <= length c.
Proof.
  induction 1 as [|o Hb IH Hlt]; [lia|].
  pose proof (decode_size_le (skipn o c)). rewrite skipn_length in *. lia.
Qed.

Lemma skipn_skipn_add : forall A (l : list A) a b, skipn a (skipn b l) = skipn (b + a) l.
Proof.
  intros A l a b. revert l. induction b as [|b IH]; intros l; [reflexivity|].
  destruct l; [rewrite !skipn_nil; reflexivity|]. cbn. apply IH.
Qed.

Lemma firstn_add : forall A (l : list A) a b, firstn (a + b) l = firstn a l ++ firstn b (skipn a l).
Proof.
  intros A l a. revert l. induction a as [|a IH]; intros l b; [reflexivity|].
  destruct l; [cbn; rewrite firstn_nil; reflexivity|]. cbn. f_equal. apply IH.
Qed.

(** Boundaries in terms of the tail: the first rune is skipped. *)
Lemma boundary_cons : forall b s o, boundary (b :: s) o -> o = 0 \/
  exists o', o = snd (decode_rune (b :: s)) + o' /\ boundary (skipn (snd (decode_rune (b :: s))) (b :: s)) o'.
Proof.
  intros b s o H. induction H as [|o Hb IH Hlt]; [left; reflexivity|].
  right. set (k := snd (decode_rune (b :: s))) in *.
  destruct IH as [->|[o' [-> Hb']]].
  - exists 0. split; [|constructor]. cbn [skipn]. fold k. lia.
  - exists (o' + snd (decode_rune (skipn o' (skipn k (b :: s))))). split.
    + rewrite skipn_skipn_add. lia.
    + constructor; [assumption|]. rewrite skipn_length. lia.
Qed.

Lemma boundary_cons_inv : forall b s o',
  boundary (skipn (snd (decode_rune (b :: s))) (b :: s)) o' ->
  boundary (b :: s) (snd (decode_rune (b :: s)) + o').
Proof.
  intros b s o' H. set (k := snd (decode_rune (b :: s))) in *.
  induction H as [|o Hb IH Hlt].
  - replace (k + 0) with (0 + snd (decode_rune (skipn 0 (b :: s)))) by (cbn [skipn]; fold k; lia).
    constructor; [constructor|cbn; lia].
  - rewrite skipn_length in Hlt. rewrite skipn_skipn_add.
    rewrite Nat.add_assoc. constructor; [assumption|].
    lia.
Qed.

Lemma decode_all_split_aux : forall n c o, length c <= n -> boundary c o ->
  decode_all c = decode_all (firstn o c) ++ decode_all (skipn o c).
Proof.
  induction n as [|n IH]; intros c o Hn Hb.
  - destruct c; [|cbn in Hn; lia]. rewrite firstn_nil, skipn_nil. reflexivity.
  - destruct c as [|b s]; [rewrite firstn_nil, skipn_nil; reflexivity|].
    destruct (boundary_cons b s o Hb) as [->|[o' [-> Hb']]]; [reflexivity|].
    pose proof (decode_size_pos b s) as Hp.
    set (k := snd (decode_rune (b :: s))) in *.
    assert (HL : length (skipn k (b :: s)) <= n) by (rewrite skipn_length; cbn [length] in *; lia).
    rewrite decode_all_cons. fold k.
    rewrite (IH _ o' HL Hb'), skipn_skipn_add.
    rewrite (app_comm_cons _ _ (fst (decode_rune (b :: s)))). f_equal.
    assert (HD : decode_rune (firstn (k + o') (b :: s)) = decode_rune (b :: s))
      by (apply decode_firstn; lia).
    destruct (firstn (k + o') (b :: s)) as [|b2 t] eqn:E.
    { apply (f_equal (@length _)) in E. rewrite firstn_length in E. cbn in E. lia. }
    rewrite decode_all_cons, HD. fold k. f_equal. f_equal.
    rewrite <- E, firstn_add, skipn_app.
    pose proof (decode_size_le (b :: s)) as Hle. fold k in Hle.
    assert (HF : length (firstn k (b :: s)) = k) by (rewrite firstn_length; lia).
    rewrite HF, Nat.sub_diag. rewrite <- HF at 2. rewrite skipn_all. reflexivity.
Qed.

Lemma decode_all_split : forall c o, boundary c o ->
  decode_all c = decode_all (firstn o c) ++ decode_all (skipn o c).
Proof. intros c o H. apply (decode_all_split_aux (length c)); [lia|assumption]. Qed.

Lemma decode_all_length_pos : forall c, c <> [] -> 0 < length (decode_all c).
Proof. intros [|b s] H; [congruence|]. rewrite decode_all_cons. cbn. lia. Qed.

Lemma boundary_firstn : forall c o m, boundary c o -> o <= m -> boundary (firstn m c) o.
Proof.
  intros c o m H. induction H as [|o Hb IH Hlt]; intros Hm; [constructor|].
  pose proof (decode_size_le (skipn o c)) as Hle. rewrite skipn_length in Hle.
  assert (Hpos : 0 < snd (decode_rune (skipn o c))).
  { destruct (skipn o c) as [|b s] eqn:E.
    - apply (f_equal (@length _)) in E. rewrite skipn_length in E. cbn in E. lia.
    - pose proof (decode_size_pos b s). lia. }
  assert (HD : decode_rune (skipn o (firstn m c)) = decode_rune (skipn o c)).
  { rewrite skipn_firstn_comm. apply decode_firstn; lia. }
  rewrite <- HD. constructor; [apply IH; lia|].
  rewrite firstn_length. lia.
Qed.

Lemma boundary_next_prefix : forall c o, boundary c o -> o < length c ->
  decode_all (firstn (o + snd (decode_rune (skipn o c))) c)
  = decode_all (firstn o c) ++ [fst (decode_rune (skipn o c))].
Proof.
  intros c o Hb Hlt. set (k := snd (decode_rune (skipn o c))).
  pose proof (decode_size_le (skipn o c)) as Hle. fold k in Hle. rewrite skipn_length in Hle.
  assert (Hpos : 0 < k).
  { unfold k. destruct (skipn o c) as [|b s] eqn:E.
    - apply (f_equal (@length _)) in E. rewrite skipn_length in E. cbn in E. lia.
    - pose proof (decode_size_pos b s). lia. }
  assert (Hb' : boundary (firstn (o + k) c) o) by (apply boundary_firstn; [assumption|lia]).
  rewrite (decode_all_split _ _ Hb').
  rewrite firstn_firstn, Nat.min_l by lia. f_equal.
  rewrite skipn_firstn_comm. replace (o + k - o) with k by lia.
  assert (HD : decode_rune (firstn k (skipn o c)) = decode_rune (skipn o c))
    by (apply decode_firstn; fold k; lia).
  destruct (firstn k (skipn o c)) as [|b s] eqn:E.
  { apply (f_equal (@length _)) in E. rewrite firstn_length, skipn_length in E. cbn in E. lia. }
  rewrite decode_all_cons, HD. fold k.
  rewrite (skipn_all2 (b :: s)); [reflexivity|].
  rewrite <- E, firstn_length. lia.
Qed.

(** * Invariant of the cursor *)

Definition st_ok (c : bytes) (x : sstate) : Prop :=
  boundary c (s_ofst x) /\ s_raw x = skipn (s_ofst x) c
  /\ s_pos x = length (decode_all (firstn (s_ofst x) c)).

Definition src_ok (s : source) : Prop := st_ok (code s) (st s) /\ Forall (st_ok (code s)) (ss s).

Lemma new_source_ok : forall c, src_ok (new_source c).
Proof. intros c. repeat constructor. Qed.

Lemma runes_advance_nil : runes_advance [] = (EOF, 0, []).
Proof. reflexivity. Qed.

Lemma runes_advance_cons : forall b s, runes_advance (b :: s) =
  (fst (decode_rune (b :: s)), snd (decode_rune (b :: s)), skipn (snd (decode_rune (b :: s))) (b :: s)).
Proof.
  intros b s. unfold runes_advance. pose proof (decode_size_pos b s) as Hp.
  destruct (decode_rune (b :: s)) as [r k] eqn:E. cbn [fst snd] in *.
  replace (Nat.eqb k 0) with false by lia. rewrite andb_false_r. reflexivity.
Qed.

Lemma decode_ne_eof : forall b s, fst (decode_rune (b :: s)) <> EOF.
Proof. intros b s. pose proof (decode_rune_range (b :: s)). unfold EOF. lia. Qed.

(** Closed form of [src_advance]. *)
Lemma src_advance_nil : forall s, s_raw (st s) = [] -> src_advance s = (EOF, s).
Proof.
  intros [c [raw o p m] k] H. cbn in H. subst raw. reflexivity.
Qed.

Lemma src_advance_cons : forall s b t, s_raw (st s) = b :: t ->
  src_advance s = (fst (decode_rune (b :: t)),
    set_st s (mk_sstate (skipn (snd (decode_rune (b :: t))) (b :: t))
               (s_ofst (st s) + snd (decode_rune (b :: t))) (S (s_pos (st s))) (s_met (st s)))).
Proof.
  intros s b t H. unfold src_advance. rewrite H, runes_advance_cons.
  pose proof (decode_ne_eof b t).
  destruct (fst (decode_rune (b :: t)) =? EOF)%Z eqn:E; [lia|]. reflexivity.
Qed.

Lemma st_ok_next : forall c x b t, st_ok c x -> s_raw x = b :: t ->
  st_ok c (mk_sstate (skipn (snd (decode_rune (b :: t))) (b :: t))
               (s_ofst x + snd (decode_rune (b :: t))) (S (s_pos x)) (s_met x)).
Proof.
  intros c x b t [Hb [Hr Hp]] E. rewrite Hr in E.
  assert (Hlt : s_ofst x < length c).
  { apply (f_equal (@length _)) in E. rewrite skipn_length in E. cbn in E. lia. }
  pose proof (boundary_next_prefix c (s_ofst x) Hb Hlt) as HN.
  pose proof (bd_next c _ Hb Hlt) as HB.
  rewrite E in HN, HB. split; [exact HB|]. cbn [s_raw s_ofst s_pos]. split.
  - rewrite <- E, skipn_skipn_add. reflexivity.
  - rewrite HN, app_length, Hp. cbn. lia.
Qed.

Lemma src_advance_ok : forall s, src_ok s -> src_ok (snd (src_advance s)).
Proof.
  intros s [H1 H2]. destruct (s_raw (st s)) as [|b t] eqn:E.
  - rewrite src_advance_nil by assumption. split; assumption.
  - rewrite (src_advance_cons s b t E). split; [|assumption].
    cbn [snd set_st st code]. apply (st_ok_next _ (st s)); assumption.
Qed.

Lemma src_advance_ss : forall s, ss (snd (src_advance s)) = ss s /\ code (snd (src_advance s)) = code s
  /\ s_met (st (snd (src_advance s))) = s_met (st s).
Proof.
  intros s. destruct (s_raw (st s)) as [|b t] eqn:E.
  - rewrite src_advance_nil by assumption. repeat split.
  - rewrite (src_advance_cons s b t E). repeat split.
Qed.

Lemma read_snd : forall s, exists n, snd (read s) = Nat.iter n (fun x => snd (src_advance x)) s.
Proof.
  intros s. unfold read. destruct (src_advance s) as [r s1] eqn:E.
  cbn [snd]. destruct (is_line_term r); [destruct (r =? 13)%Z; [destruct (peek s1 =? 10)%Z|]|].
  - exists 2. cbn. rewrite E. reflexivity.
  - exists 1. cbn. rewrite E. reflexivity.
  - exists 1. cbn. rewrite E. reflexivity.
  - exists 1. cbn. rewrite E. reflexivity.
Qed.

Lemma iter_ind : forall (P : source -> Prop) f, (forall x, P x -> P (f x)) ->
  forall n s, P s -> P (Nat.iter n f s).
Proof. intros P f H n s Hs. induction n; cbn; auto. Qed.

Lemma read_ok : forall s, src_ok s -> src_ok (snd (read s)).
Proof.
  intros s H. destruct (read_snd s) as [n ->].
  apply iter_ind; [intros x Hx; apply src_advance_ok; assumption|assumption].
Qed.

Lemma read_ss : forall s, ss (snd (read s)) = ss s /\ code (snd (read s)) = code s
  /\ s_met (st (snd (read s))) = s_met (st s).
Proof.
  intros s. destruct (read_snd s) as [n ->].
  apply (iter_ind (fun x => ss x = ss s /\ code x = code s /\ s_met (st x) = s_met (st s)));
    [|auto]. intros x [H1 [H2 H3]]. destruct (src_advance_ss x) as [H4 [H5 H6]]. repeat split; congruence.
Qed.

Lemma set_met_ok : forall s b, src_ok s -> src_ok (set_met s b).
Proof. intros s b [[H1 [H2 H3]] H4]. split; [split; [|split]|]; assumption. Qed.

Lemma skip_space_loop_ok : forall n s, src_ok s -> src_ok (skip_space_loop n s).
Proof.
  induction n as [|n IH]; intros s H; [assumption|]. cbn [skip_space_loop].
  destruct (negb (is_space (peek s)) || (peek s =? EOF)%Z); [assumption|].
  apply IH, read_ok. destruct (is_line_term (peek s)); [apply set_met_ok|]; assumption.
Qed.

Lemma skip_space_loop_ss : forall n s, ss (skip_space_loop n s) = ss s /\ code (skip_space_loop n s) = code s.
Proof.
  induction n as [|n IH]; intros s; [split; reflexivity|]. cbn [skip_space_loop].
  destruct (negb (is_space (peek s)) || (peek s =? EOF)%Z); [split; reflexivity|].
  match goal with |- context [skip_space_loop n ?x] => destruct (IH x) as [-> ->] end.
  match goal with |- context [read ?x] => destruct (read_ss x) as [-> [-> _]] end.
  destruct (is_line_term (peek s)); split; reflexivity.
Qed.

Lemma sstep_ok : forall s o s', src_ok s -> sstep s o = Some s' -> src_ok s' /\ code s' = code s.
Proof.
  intros s o s' H E. destruct o; cbn [sstep] in E; try (injection E as <-); auto.
  - unfold advance_if. destruct (peek s =? c)%Z; [|auto]. cbn [snd].
    split; [apply read_ok; assumption|apply read_ss].
  - split; [apply read_ok; assumption|apply read_ss].
  - unfold skip_space. split; [apply skip_space_loop_ok, set_met_ok; assumption|].
    exact (proj2 (skip_space_loop_ss _ (set_met s false))).
  - destruct H as [H1 H2]. split; [split; [assumption|constructor; assumption]|reflexivity].
  - unfold pop_state in E. destruct (ss s) eqn:Es; [discriminate|]. injection E as <-.
    destruct H as [H1 H2]. rewrite Es in H2. inversion H2; subst. repeat split; try assumption; apply H3.
  - unfold discard_state in E. destruct (ss s) eqn:Es; [discriminate|]. injection E as <-.
    destruct H as [H1 H2]. rewrite Es in H2. inversion H2; subst. repeat split; try assumption; apply H1.
Qed.

Lemma srun_ok : forall ops s s', src_ok s -> srun s ops = Some s' -> src_ok s' /\ code s' = code s.
Proof.
  induction ops as [|o ops IH]; intros s s' H E; cbn in E.
  - injection E as <-. auto.
  - destruct (sstep s o) as [s1|] eqn:E1; [|discriminate].
    destruct (sstep_ok _ _ _ H E1) as [H1 H2]. destruct (IH _ _ H1 E) as [H3 H4].
    split; [assumption|congruence].
Qed.

(** * What Peek and Read return *)

Lemma peek_spec : forall s, peek s = hd EOF (decode_all (s_raw (st s))).
Proof.
  intros s. unfold peek. destruct (s_raw (st s)) as [|b t]; [reflexivity|].
  rewrite runes_advance_cons, decode_all_cons. reflexivity.
Qed.

Lemma ahead2nd_spec : forall s, ahead2nd s = nth 1 (decode_all (s_raw (st s))) EOF.
Proof.
  intros s. unfold ahead2nd. destruct (s_raw (st s)) as [|b t]; [reflexivity|].
  rewrite runes_advance_cons, decode_all_cons.
  pose proof (decode_size_pos b t) as Hp.
  replace (Nat.eqb (snd (decode_rune (b :: t))) 0) with false by lia.
  cbn [nth]. destruct (skipn (snd (decode_rune (b :: t))) (b :: t)) as [|b2 t2]; [reflexivity|].
  rewrite runes_advance_cons, decode_all_cons. reflexivity.
Qed.

Lemma read_eof : forall s, s_raw (st s) = [] -> read s = (EOF, s).
Proof. intros s H. unfold read. rewrite src_advance_nil by assumption. reflexivity. Qed.

(** One Read on a non-empty rest, in terms of decoded runes. *)
Lemma read_decode : forall s r rs, decode_all (s_raw (st s)) = r :: rs ->
  exists s', read s = ((if ((r =? 13) || (r =? 10))%Z then 10%Z else r), s')
  /\ decode_all (s_raw (st s')) = (if (r =? 13)%Z then match rs with
                                     | y :: rs' => if (y =? 10)%Z then rs' else rs
                                     | [] => [] end else rs)
  /\ length (s_raw (st s')) < length (s_raw (st s))
  /\ s_pos (st s') + length (decode_all (s_raw (st s'))) = s_pos (st s) + length (r :: rs)
  /\ s_ofst (st s') + length (s_raw (st s')) = s_ofst (st s) + length (s_raw (st s))
  /\ s_met (st s') = s_met (st s) /\ ss s' = ss s /\ code s' = code s.
Proof.
  intros s r rs H. destruct (s_raw (st s)) as [|b t] eqn:E; [discriminate|].
  rewrite decode_all_cons in H. injection H as Hr Hrs.
  pose proof (decode_size_pos b t) as Hp. pose proof (decode_size_le (b :: t)) as Hle.
  unfold read. rewrite (src_advance_cons s b t E). rewrite Hr.
  set (k := snd (decode_rune (b :: t))) in *.
  set (s1 := set_st s _).
  assert (Hraw1 : s_raw (st s1) = skipn k (b :: t)) by reflexivity.
  destruct (r =? 13)%Z eqn:E13.
  - replace (is_line_term r) with true by (unfold is_line_term; lia).
    rewrite peek_spec, Hraw1, Hrs.
    destruct rs as [|y rs'].
    + exists s1. cbn [hd]. split; [reflexivity|]. rewrite Hraw1, Hrs.
      split; [reflexivity|]. rewrite skipn_length. cbn [length s1 set_st st s_ofst s_pos s_met ss code] in *.
      repeat split; lia.
    + cbn [hd]. destruct (y =? 10)%Z eqn:E10.
      * destruct (skipn k (b :: t)) as [|b2 t2] eqn:E2; [discriminate|].
        rewrite decode_all_cons in Hrs. injection Hrs as Hy Hrs'.
        rewrite (src_advance_cons s1 b2 t2 Hraw1). cbn [snd].
        pose proof (decode_size_pos b2 t2) as Hp2. pose proof (decode_size_le (b2 :: t2)) as Hle2.
        eexists. split; [reflexivity|]. cbn [set_st st s_raw s_ofst s_pos s_met ss code].
        rewrite Hrs'. split; [reflexivity|]. rewrite skipn_length.
        apply (f_equal (@length _)) in E2. rewrite skipn_length in E2.
        cbn [length s1 set_st st s_ofst s_pos s_met ss code] in *.
        repeat split; lia.
      * exists s1. split; [reflexivity|]. rewrite Hraw1, Hrs.
        split; [reflexivity|]. rewrite skipn_length. cbn [length s1 set_st st s_ofst s_pos s_met ss code] in *.
        repeat split; lia.
  - exists s1. split.
    { destruct (is_line_term r); reflexivity. }
    rewrite Hraw1, Hrs. split; [reflexivity|].
    rewrite skipn_length. cbn [length s1 set_st st s_ofst s_pos s_met ss code] in *.
    repeat split; lia.
Qed.

Lemma decode_all_range : forall n s, length s <= n -> Forall (fun r => (0 <= r <= MaxRune)%Z) (decode_all s).
Proof.
  induction n as [|n IH]; intros s Hn; destruct s as [|b s]; try (cbn in Hn; lia); try constructor.
  rewrite decode_all_cons. constructor; [apply decode_rune_range|].
  apply IH. rewrite skipn_length. pose proof (decode_size_pos b s). cbn [length] in *. lia.
Qed.

Lemma decode_all_ge0 : forall s r rs, decode_all s = r :: rs -> (0 <= r)%Z.
Proof.
  intros s r rs H. pose proof (decode_all_range (length s) s (le_n _)) as HF.
  rewrite H in HF. inversion HF; lia.
Qed.

Lemma decode_all_nil_inv : forall s, decode_all s = [] -> s = [].
Proof. intros [|b s] H; [reflexivity|]. rewrite decode_all_cons in H. discriminate. Qed.

Lemma read_all_spec : forall n s, length (s_raw (st s)) < n ->
  fst (read_all n s) = crlf_norm (decode_all (s_raw (st s)))
  /\ s_raw (st (snd (read_all n s))) = []
  /\ s_pos (st (snd (read_all n s))) = s_pos (st s) + length (decode_all (s_raw (st s)))
  /\ s_ofst (st (snd (read_all n s))) = s_ofst (st s) + length (s_raw (st s))
  /\ code (snd (read_all n s)) = code s.
Proof.
  induction n as [|n IH]; intros s Hn; [lia|]. cbn [read_all].
  destruct (decode_all (s_raw (st s))) as [|r rs] eqn:E.
  - apply decode_all_nil_inv in E. rewrite (read_eof s E). cbn. rewrite E. repeat split; cbn; lia.
  - destruct (read_decode s r rs E) as [s' [HR [HD [HL [HP [HO [HM [HS HC]]]]]]]].
    rewrite HR.
    pose proof (decode_all_ge0 _ _ _ E) as Hge.
    assert (Hne : ((if ((r =? 13) || (r =? 10))%Z then 10%Z else r) =? EOF)%Z = false)
      by (unfold EOF; destruct ((r =? 13) || (r =? 10))%Z; lia).
    rewrite Hne.
    destruct (IH s') as [I1 [I2 [I3 [I4 I5]]]]; [lia|].
    destruct (read_all n s') as [rs2 s2] eqn:E2. cbn [fst snd] in *.
    split; [|split; [assumption|split; [|split]]].
    + rewrite I1, HD. cbn [crlf_norm]. destruct (r =? 13)%Z eqn:E13.
      * cbn [orb]. f_equal. destruct rs as [|y rs']; [reflexivity|].
        destruct (y =? 10)%Z; reflexivity.
      * cbn [orb]. destruct (r =? 10)%Z eqn:E10; [|reflexivity]. f_equal. lia.
    + rewrite I3. lia.
    + rewrite I4. lia.
    + congruence.
Qed.

(** * White space *)

Lemma skip_space_loop_spec : forall n s, length (s_raw (st s)) < n ->
  let rs := decode_all (s_raw (st s)) in
  let s' := skip_space_loop n s in
  decode_all (s_raw (st s')) = drop_while is_space rs
  /\ s_met (st s') = s_met (st s) || existsb is_line_term (take_while is_space rs)
  /\ s_pos (st s') = s_pos (st s) + length (take_while is_space rs)
  /\ s_ofst (st s') + length (s_raw (st s')) = s_ofst (st s) + length (s_raw (st s)).
Proof.
  induction n as [|n IH]; intros s Hn; [lia|]. cbn zeta. cbn [skip_space_loop].
  rewrite peek_spec.
  destruct (decode_all (s_raw (st s))) as [|r rs] eqn:E.
  - cbn [hd]. replace (negb (is_space EOF) || (EOF =? EOF)%Z) with true by reflexivity.
    rewrite E. cbn. rewrite orb_false_r. repeat split; lia.
  - cbn [hd]. pose proof (decode_all_ge0 _ _ _ E) as Hge.
    replace (r =? EOF)%Z with false by (unfold EOF; lia).
    rewrite orb_false_r. destruct (is_space r) eqn:ES.
    2:{ cbn [negb]. rewrite E. cbn. rewrite ES. cbn. rewrite orb_false_r. repeat split; lia. }
    cbn [negb].
    set (s1 := if is_line_term r then set_met s true else s).
    assert (E1 : decode_all (s_raw (st s1)) = r :: rs) by (unfold s1; destruct (is_line_term r); exact E).
    destruct (read_decode s1 r rs E1) as [s' [HR [HD [HL [HP [HO [HM [HS HC]]]]]]]].
    rewrite HR. cbn [snd].
    assert (HL1 : length (s_raw (st s1)) = length (s_raw (st s))) by (unfold s1; destruct (is_line_term r); reflexivity).
    assert (HP1 : s_pos (st s1) = s_pos (st s)) by (unfold s1; destruct (is_line_term r); reflexivity).
    assert (HO1 : s_ofst (st s1) = s_ofst (st s)) by (unfold s1; destruct (is_line_term r); reflexivity).
    assert (HM1 : s_met (st s1) = s_met (st s) || is_line_term r)
      by (unfold s1; destruct (is_line_term r); cbn; rewrite ?orb_true_r, ?orb_false_r; reflexivity).
    destruct (IH s') as [I1 [I2 [I3 I4]]]; [lia|].
    rewrite HD in *.
    cbn [drop_while take_while]. rewrite ES. cbn [existsb length].
    destruct (r =? 13)%Z eqn:E13; [destruct rs as [|y rs']; [|destruct (y =? 10)%Z eqn:E10]|].
    + rewrite I1, I2, I3, HM, HM1, I4. cbn in *. rewrite !orb_false_r. repeat split; lia.
    + assert (y = 10)%Z by lia. subst y.
      rewrite I1, I2, I3, HM, HM1, I4.
      cbn [drop_while take_while]. replace (is_space 10%Z) with true by reflexivity.
      cbn [existsb length].
      replace (is_line_term r) with true by (unfold is_line_term; lia).
      rewrite !orb_true_r. cbn [orb]. cbn [length] in HP. repeat split; lia.
    + rewrite I1, I2, I3, HM, HM1, I4. rewrite orb_assoc. cbn [length] in HP. repeat split; try reflexivity; lia.
    + rewrite I1, I2, I3, HM, HM1, I4. rewrite orb_assoc. cbn [length] in HP. repeat split; try reflexivity; lia.
Qed.

Lemma skip_space_spec : forall s,
  let rs := decode_all (s_raw (st s)) in
  let s' := skip_space s in
  decode_all (s_raw (st s')) = drop_while is_space rs
  /\ s_met (st s') = existsb is_line_term (take_while is_space rs)
  /\ s_pos (st s') = s_pos (st s) + length (take_while is_space rs)
  /\ s_ofst (st s') + length (s_raw (st s')) = s_ofst (st s) + length (s_raw (st s)).
Proof.
  intros s. unfold skip_space. exact (skip_space_loop_spec _ (set_met s false) (Nat.lt_succ_diag_r _)).
Qed.

(** * Checkpoints *)

Lemma srun_app : forall a b s, srun s (a ++ b) =
  match srun s a with Some s' => srun s' b | None => None end.
Proof.
  induction a as [|o a IH]; intros b s; [reflexivity|]. cbn [app srun].
  destruct (sstep s o); [apply IH|reflexivity].
Qed.

(** The checkpoint stack below is untouched and irrelevant. *)
Lemma simple_step : forall o s, plain_op o ->
  exists s', sstep s o = Some s' /\ ss s' = ss s /\ code s' = code s
  /\ forall k, sstep (mk_source (code s) (st s) k) o = Some (mk_source (code s) (st s') k).
Proof.
  assert (HA : forall s k, snd (src_advance (mk_source (code s) (st s) k))
                = mk_source (code s) (st (snd (src_advance s))) k).
  { intros s k. destruct (s_raw (st s)) as [|b t] eqn:E.
    - rewrite !src_advance_nil by assumption. destruct s; reflexivity.
    - rewrite (src_advance_cons s b t E), (src_advance_cons (mk_source (code s) (st s) k) b t E). reflexivity. }
  assert (HAf : forall s k, fst (src_advance (mk_source (code s) (st s) k)) = fst (src_advance s)).
  { intros s k. destruct (s_raw (st s)) as [|b t] eqn:E.
    - rewrite !src_advance_nil by assumption. reflexivity.
    - rewrite (src_advance_cons s b t E), (src_advance_cons (mk_source (code s) (st s) k) b t E). reflexivity. }
  assert (HR : forall s k, snd (read (mk_source (code s) (st s) k))
                = mk_source (code s) (st (snd (read s))) k).
  { intros s k. unfold read.
    pose proof (HA s k) as H1. pose proof (HAf s k) as H2. pose proof (src_advance_ss s) as H3.
    destruct (src_advance (mk_source (code s) (st s) k)) as [r1 s1].
    destruct (src_advance s) as [r2 s2]. cbn [fst snd] in *. subst r1 s1.
    destruct (is_line_term r2); [destruct (r2 =? 13)%Z|]; [|reflexivity|reflexivity].
    change (peek (mk_source (code s) (st s2) k)) with (peek s2).
    destruct (peek s2 =? 10)%Z; [|reflexivity].
    destruct H3 as [_ [<- _]]. rewrite HA. reflexivity. }
  assert (HL : forall n s k, skip_space_loop n (mk_source (code s) (st s) k)
                = mk_source (code s) (st (skip_space_loop n s)) k).
  { induction n as [|n IH]; intros s k; [reflexivity|]. cbn [skip_space_loop].
    change (peek (mk_source (code s) (st s) k)) with (peek s).
    destruct (negb (is_space (peek s)) || (peek s =? EOF)%Z); [reflexivity|].
    destruct (is_line_term (peek s)).
    - change (set_met (mk_source (code s) (st s) k) true)
        with (mk_source (code (set_met s true)) (st (set_met s true)) k).
      rewrite HR. destruct (read_ss (set_met s true)) as [_ [<- _]].
      rewrite IH. destruct (read_ss (set_met s true)) as [_ [-> _]]. reflexivity.
    - rewrite HR. destruct (read_ss s) as [_ [<- _]].
      rewrite IH. destruct (read_ss s) as [_ [-> _]]. reflexivity. }
  intros o s H.
  destruct o as [| |c|c1 c2|c| | | | |]; try contradiction; cbn [sstep].
  - exists s. auto.
  - exists s. auto.
  - exists s. auto.
  - exists s. auto.
  - exists (snd (advance_if s c)). unfold advance_if.
    destruct (peek s =? c)%Z eqn:EP.
    + cbn [snd]. destruct (read_ss s) as [? [? ?]]. split; [reflexivity|split; [assumption|split; [assumption|]]].
      intros k. change (peek (mk_source (code s) (st s) k)) with (peek s). rewrite EP. cbn [snd].
      rewrite HR. reflexivity.
    + split; [reflexivity|split; [reflexivity|split; [reflexivity|]]].
      intros k. change (peek (mk_source (code s) (st s) k)) with (peek s). rewrite EP. reflexivity.
  - exists (snd (read s)). destruct (read_ss s) as [? [? ?]].
    split; [reflexivity|split; [assumption|split; [assumption|]]].
    intros k. rewrite HR. reflexivity.
  - exists (skip_space s). unfold skip_space. destruct (skip_space_loop_ss (S (length (s_raw (st s)))) (set_met s false)).
    split; [reflexivity|split; [assumption|split; [assumption|]]].
    intros k. change (set_met (mk_source (code s) (st s) k) false)
        with (mk_source (code (set_met s false)) (st (set_met s false)) k).
    rewrite HL. reflexivity.
Qed.

Lemma balanced_run : forall ops, balanced ops -> forall s,
  exists s', srun s ops = Some s' /\ ss s' = ss s /\ code s' = code s
  /\ forall k, srun (mk_source (code s) (st s) k) ops = Some (mk_source (code s) (st s') k).
Proof.
  induction 1 as [|o ops Ho Hb IH|a b Ha IHa Hb IHb|a b Ha IHa Hb IHb]; intros s.
  - exists s. cbn. auto.
  - cbn [srun]. destruct (simple_step o s Ho) as [s1 [E1 [E2 [E3 E4]]]]. rewrite E1.
    destruct (IH s1) as [s2 [F1 [F2 [F3 F4]]]]. exists s2. rewrite F1.
    split; [reflexivity|split; [congruence|split; [congruence|]]].
    intros k. rewrite E4. rewrite <- E3. rewrite F4. reflexivity.
  - cbn [srun sstep]. 
    destruct (IHa (push_state s)) as [s1 [E1 [E2 [E3 E4]]]].
    destruct (IHb s) as [s2 [F1 [F2 [F3 F4]]]].
    exists s2. rewrite srun_app, E1. cbn [srun sstep]. unfold pop_state. rewrite E2. cbn [push_state ss].
    assert (Es : mk_source (code s1) (st s) (ss s) = s).
    { rewrite E3. destruct s; reflexivity. }
    rewrite Es, F1. split; [reflexivity|split; [assumption|split; [assumption|]]].
    intros k. rewrite srun_app.
    unfold push_state at 1. cbn [code st ss].
    pose proof (E4 (st s :: k)) as E4'. cbn [push_state code st] in E4'. rewrite E4'.
    cbn [srun sstep]. unfold pop_state. cbn [ss code]. apply F4.
  - cbn [srun sstep].
    destruct (IHa (push_state s)) as [s1 [E1 [E2 [E3 E4]]]].
    set (s1' := mk_source (code s1) (st s1) (ss s)).
    destruct (IHb s1') as [s2 [F1 [F2 [F3 F4]]]].
    exists s2. rewrite srun_app, E1. cbn [srun sstep]. unfold discard_state. rewrite E2. cbn [push_state ss].
    fold s1'. rewrite F1. split; [reflexivity|split; [assumption|split; [rewrite F3; exact E3|]]].
    intros k. rewrite srun_app.
    unfold push_state at 1. cbn [code st ss].
    pose proof (E4 (st s :: k)) as E4'. cbn [push_state code st] in E4'. rewrite E4'.
    cbn [srun sstep]. unfold discard_state. cbn [ss code st].
    specialize (F4 k). cbn [s1' code st] in F4. rewrite E3 in F4. exact F4.
Qed.

Lemma pop_restores : forall ops s, balanced ops -> srun s (OPush :: ops ++ [OPop]) = Some s.
Proof.
  intros ops s H. cbn [srun sstep]. rewrite srun_app.
  destruct (balanced_run ops H (push_state s)) as [s1 [E1 [E2 [E3 E4]]]]. rewrite E1.
  cbn [srun sstep]. unfold pop_state. rewrite E2. cbn [push_state ss]. rewrite E3. destruct s; reflexivity.
Qed.

Lemma discard_keeps : forall ops s, balanced ops -> srun s (OPush :: ops ++ [ODiscard]) = srun s ops.
Proof.
  intros ops s H. cbn [srun sstep]. rewrite srun_app.
  destruct (balanced_run ops H s) as [s0 [G1 [G2 [G3 G4]]]].
  pose proof (G4 (st s :: ss s)) as G4'.
  change (mk_source (code s) (st s) (st s :: ss s)) with (push_state s) in G4'. rewrite G4'.
  cbn [srun sstep]. unfold discard_state. cbn [ss code st].
  rewrite G1. rewrite <- G2, <- G3. destruct s0; reflexivity.
Qed.

(** * Lines and columns *)

Lemma nth_error_skipn : forall A (l : list A) a i, nth_error (skipn a l) i = nth_error l (a + i).
Proof.
  intros A l a. revert l. induction a as [|a IH]; intros l i; [reflexivity|].
  destruct l; [destruct i; reflexivity|]. cbn. apply IH.
Qed.

Lemma find_lf_shift : forall s i, find_lf i s = match find_lf 0 s with Some (a, e) => Some (i + a, i + e) | None => None end.
Proof.
  induction s as [|b r IH]; intros i; [reflexivity|]. cbn [find_lf].
  destruct (b2z b =? 13)%Z.
  { destruct r as [|b2 r']; [|destruct (b2z b2 =? 10)%Z]; do 2 f_equal; lia. }
  destruct (b2z b =? 10)%Z; [do 2 f_equal; lia|].
  rewrite (IH (S i)), (IH 1). destruct (find_lf 0 r) as [[a e]|]; [|reflexivity]. do 2 f_equal; lia.
Qed.

Lemma find_lf_spec : forall s, match find_lf 0 s with
  | Some (_, e) => 0 < e <= length s /\ break_end s e = true
                   /\ forall x, 0 < x < e -> break_end s x = false
  | None => forall x, break_end s x = false
  end.
Proof.
  induction s as [|b r IH]; cbn [find_lf].
  - intros [|x]; [reflexivity|]. cbn. destruct x; reflexivity.
  - assert (shift : forall x, 0 < x -> break_end (b :: r) (S x) = break_end r x)
      by (intros [|x] Hx; [lia|reflexivity]).
    destruct (b2z b =? 13)%Z eqn:E13.
    + destruct r as [|b2 r'].
      * cbn. split; [lia|]. split; [rewrite E13; destruct (b2z b =? 10)%Z; reflexivity|intros; lia].
      * destruct (b2z b2 =? 10)%Z eqn:E10.
        -- cbn. split; [lia|]. split; [rewrite E10; reflexivity|].
           intros x Hx. assert (x = 1) by lia. subst x. cbn. rewrite E13, E10.
           cbn. rewrite orb_false_r. lia.
        -- cbn. split; [lia|]. split; [rewrite E13, E10; cbn; apply orb_true_r|intros; lia].
    + destruct (b2z b =? 10)%Z eqn:E10.
      * cbn. split; [lia|]. split; [rewrite E10; reflexivity|intros; lia].
      * rewrite (find_lf_shift r 1). destruct (find_lf 0 r) as [[a e]|].
        -- destruct IH as [I1 [I2 I3]]. split; [cbn [length]; lia|]. cbn [Nat.add].
           split; [rewrite shift by lia; assumption|].
           intros x Hx. destruct x as [|[|x]]; [lia| |].
           ++ cbn. rewrite E10, E13. reflexivity.
           ++ rewrite shift by lia. apply I3. lia.
        -- intros [|[|x]]; [reflexivity| |].
           ++ cbn. rewrite E10, E13. reflexivity.
           ++ rewrite shift by lia. apply IH.
Qed.

Lemma break_end_skipn : forall c k x, 0 < x -> break_end (skipn k c) x = break_end c (k + x).
Proof.
  intros c k [|x] Hx; [lia|]. replace (k + S x) with (S (k + x)) by lia. unfold break_end.
  rewrite !nth_error_skipn. replace (k + S x) with (S (k + x)) by lia. reflexivity.
Qed.

Lemma filter_none : forall A (f : A -> bool) l, (forall x, In x l -> f x = false) -> filter f l = [].
Proof.
  induction l as [|x l IH]; intros H; [reflexivity|]. cbn. rewrite (H x) by (left; reflexivity).
  apply IH. intros y Hy. apply H. right. assumption.
Qed.

Lemma last_app_ne : forall A (l1 l2 : list A) d, last (l1 ++ l2) d = last l2 (last l1 d).
Proof.
  induction l1 as [|x l1 IH]; intros l2 d; [reflexivity|].
  cbn [app]. destruct l1 as [|y l1].
  - cbn. destruct l2 as [|z l2]; [reflexivity|].
    clear. revert z x d. induction l2 as [|w l2 IH]; intros; [reflexivity|]. cbn in *. apply (IH w).
  - change (last (x :: (y :: l1) ++ l2) d) with (last ((y :: l1) ++ l2) d).
    rewrite IH. reflexivity.
Qed.

Definition brk_between (c : bytes) (a o : nat) : list nat := filter (break_end c) (seq (S a) (o - a)).

Lemma brk_split : forall c a b o, a <= b <= o -> brk_between c a o = brk_between c a b ++ brk_between c b o.
Proof.
  intros c a b o H. unfold brk_between. replace (o - a) with ((b - a) + (o - b)) by lia.
  rewrite seq_app, filter_app. do 2 f_equal. f_equal. lia.
Qed.

Lemma break_end_le : forall c e, break_end c e = true -> 0 < e <= length c.
Proof.
  intros c [|e] H; [discriminate|]. cbn in H.
  destruct (nth_error c e) eqn:E; [|discriminate].
  assert (e < length c) by (apply nth_error_Some; congruence). lia.
Qed.

Lemma lc_loop_spec : forall n c o cur line, length c < n + cur -> cur <= length c -> cur <= o ->
  lc_loop n c o cur line = Some (last (brk_between c cur o) cur, line + length (brk_between c cur o)).
Proof.
  induction n as [|n IH]; intros c o cur line Hn Hc Ho; [lia|].
  cbn [lc_loop]. pose proof (find_lf_spec (skipn cur c)) as HF.
  destruct (find_lf 0 (skipn cur c)) as [[a e]|].
  - destruct HF as [F1 [F2 F3]]. rewrite skipn_length in F1.
    rewrite break_end_skipn in F2 by lia.
    destruct (cur + e <=? o)%nat eqn:EL.
    + rewrite IH by lia. rewrite (brk_split c cur (cur + e) o) by lia.
      assert (HB : brk_between c cur (cur + e) = [cur + e]).
      { unfold brk_between. replace (cur + e - cur) with ((e - 1) + 1) by lia.
        rewrite seq_app, filter_app. rewrite filter_none.
        - cbn [app seq filter]. replace (S cur + (e - 1)) with (cur + e) by lia. rewrite F2. reflexivity.
        - intros x Hx. apply in_seq in Hx.
          replace x with (cur + (x - cur)) by lia. rewrite <- break_end_skipn by lia. apply F3. lia. }
      rewrite HB. cbn [app]. f_equal. f_equal.
      * change ((cur + e) :: brk_between c (cur + e) o) with ([cur + e] ++ brk_between c (cur + e) o).
        rewrite last_app_ne. reflexivity.
      * cbn [length]. lia.
    + assert (HB : brk_between c cur o = []).
      { apply filter_none. intros x Hx. apply in_seq in Hx.
        replace x with (cur + (x - cur)) by lia. rewrite <- break_end_skipn by lia. apply F3. lia. }
      rewrite HB. cbn. f_equal. f_equal. lia.
  - assert (HB : brk_between c cur o = []).
    { apply filter_none. intros x Hx. apply in_seq in Hx.
      replace x with (cur + (x - cur)) by lia. rewrite <- break_end_skipn by lia. apply HF. }
    rewrite HB. cbn. f_equal. f_equal. lia.
Qed.

Lemma brk_between_0 : forall c o, brk_between c 0 o = breaks_upto c o.
Proof. intros. unfold brk_between, breaks_upto. rewrite Nat.sub_0_r. reflexivity. Qed.

Lemma last_in : forall A (l : list A) d, l <> [] -> In (last l d) l.
Proof.
  induction l as [|x l IH]; intros d H; [congruence|]. destruct l as [|y l]; [left; reflexivity|].
  right. apply IH. discriminate.
Qed.

Lemma last_brk_le : forall c a o, a <= o -> a <= last (brk_between c a o) a <= o.
Proof.
  intros c a o H. destruct (brk_between c a o) as [|x l] eqn:E; [cbn; lia|].
  assert (HI : In (last (x :: l) a) (brk_between c a o)) by (rewrite E; apply last_in; discriminate).
  unfold brk_between in HI. apply filter_In in HI. destruct HI as [HI _]. apply in_seq in HI. lia.
Qed.

Lemma ofst_line_col_spec : forall s o, o <= length (code s) ->
  ofst_line_col s o = Some (spec_line (code s) o, spec_col (code s) o).
Proof.
  intros s o H. unfold ofst_line_col. rewrite lc_loop_spec by lia. rewrite brk_between_0.
  pose proof (last_brk_le (code s) 0 o (Nat.le_0_l _)) as HL. rewrite brk_between_0 in HL.
  unfold col_of. replace ((last (breaks_upto (code s) o) 0 <=? o)%nat && (o <=? length (code s))%nat) with true by lia.
  reflexivity.
Qed.

Lemma line_col_spec : forall s lo hi, lo <= hi -> hi <= length (code s) ->
  line_col s lo hi = Some ((spec_line (code s) lo, spec_col (code s) lo),
                           (spec_line (code s) hi, spec_col (code s) hi)).
Proof.
  intros s lo hi H1 H2. unfold line_col. rewrite lc_loop_spec by lia. rewrite brk_between_0.
  pose proof (last_brk_le (code s) 0 lo (Nat.le_0_l _)) as HL. rewrite brk_between_0 in HL.
  set (cur := last (breaks_upto (code s) lo) 0) in *.
  unfold col_of at 1. replace ((cur <=? lo)%nat && (lo <=? length (code s))%nat) with true by lia.
  rewrite lc_loop_spec by lia.
  pose proof (last_brk_le (code s) cur hi ltac:(lia)) as HL2.
  unfold col_of. replace ((last (brk_between (code s) cur hi) cur <=? hi)%nat && (hi <=? length (code s))%nat) with true by lia.
  assert (Hcl : brk_between (code s) cur lo = []).
  { apply filter_none. intros x Hx. apply in_seq in Hx.
    destruct (break_end (code s) x) eqn:EB; [|reflexivity]. exfalso.
    assert (HI : In x (breaks_upto (code s) lo)) by (apply filter_In; split; [apply in_seq; lia|assumption]).
    (* every element of an increasing list is at most its last element *)
    assert (HM : forall l d, Sorted.StronglySorted lt l -> In x l -> x <= last l d).
    { clear. induction l as [|y l IH]; intros d HS HI; [contradiction|].
      inversion HS as [|? ? HS' HF]; subst. destruct l as [|z l].
      - destruct HI as [->|[]]. cbn. lia.
      - change (last (y :: z :: l) d) with (last (z :: l) d).
        destruct HI as [->|HI]; [|apply IH; assumption].
        rewrite Forall_forall in HF. specialize (HF (last (z :: l) d) (@last_in _ (z :: l) d ltac:(discriminate))). lia. }
    assert (HS : Sorted.StronglySorted lt (breaks_upto (code s) lo)).
    { unfold breaks_upto. generalize 1 as a. generalize lo as m. clear. induction m as [|m IH]; intros a; [constructor|].
      cbn [seq filter]. destruct (break_end (code s) a); [|apply IH]. constructor; [apply IH|].
      apply Forall_forall. intros x Hx. apply filter_In in Hx. destruct Hx as [Hx _]. apply in_seq in Hx. lia. }
    specialize (HM (breaks_upto (code s) lo) 0 HS HI). fold cur in HM. lia. }
  assert (Hch : brk_between (code s) cur hi = brk_between (code s) lo hi).
  { rewrite (brk_split (code s) cur lo hi) by lia. rewrite Hcl. reflexivity. }
  assert (Hup : breaks_upto (code s) hi = breaks_upto (code s) lo ++ brk_between (code s) cur hi).
  { rewrite Hch, <- !brk_between_0. apply brk_split. lia. }
  assert (Hlast : last (brk_between (code s) cur hi) cur = spec_start (code s) hi).
  { unfold spec_start. rewrite Hup, last_app_ne. reflexivity. }
  rewrite Hlast. do 2 f_equal. f_equal.
  unfold spec_line. rewrite Hup, app_length. lia.
Qed.

(** * Positions increase strictly along rune boundaries *)

Fixpoint bdn (c : bytes) (n : nat) : nat :=
  match n with O => 0 | S n' => bdn c n' + snd (decode_rune (skipn (bdn c n') c)) end.

Lemma boundary_bdn : forall c o, boundary c o -> exists n, o = bdn c n.
Proof.
  induction 1 as [|o Hb [n ->] Hlt]; [exists 0; reflexivity|]. exists (S n). reflexivity.
Qed.

Lemma bdn_mono : forall c i j, i <= j -> bdn c i <= bdn c j.
Proof. intros c i j H. induction H; [lia|]. cbn. lia. Qed.

Lemma boundary_gap : forall c a o, boundary c a -> boundary c o ->
  a <= o \/ o + snd (decode_rune (skipn o c)) <= a.
Proof.
  intros c a o Ha Ho. destruct (boundary_bdn _ _ Ha) as [i ->]. destruct (boundary_bdn _ _ Ho) as [j ->].
  destruct (le_lt_dec i j) as [H|H]; [left; apply bdn_mono; assumption|].
  right. apply (bdn_mono c (S j) i). lia.
Qed.

Lemma boundary_skipn : forall c a o, boundary c a -> boundary c o -> a <= o -> boundary (skipn a c) (o - a).
Proof.
  intros c a o Ha Ho. induction Ho as [|o Hb IH Hlt]; intros Hle.
  - replace (0 - a) with 0 by lia. constructor.
  - destruct (boundary_gap c a o Ha Hb) as [H|H].
    + replace (o + snd (decode_rune (skipn o c)) - a)
        with ((o - a) + snd (decode_rune (skipn (o - a) (skipn a c)))).
      * constructor; [apply IH; assumption|rewrite skipn_length; lia].
      * rewrite skipn_skipn_add. replace (a + (o - a)) with o by lia. lia.
    + replace (o + snd (decode_rune (skipn o c)) - a) with 0 by lia. constructor.
Qed.

Lemma decode_ascii : forall b s, (b2z b < 128)%Z -> decode_rune (b :: s) = (b2z b, 1).
Proof. intros b s H. unfold decode_rune. replace (b2z b <? 128)%Z with true by lia. reflexivity. Qed.

Lemma decode_tail_nonascii : forall s i b, 0 < i < snd (decode_rune s) -> nth_error s i = Some b -> (128 <= b2z b)%Z.
Proof.
  intros s i b Hi Hn. destruct s as [|b0 s]; [destruct i; discriminate|].
  unfold decode_rune in Hi.
  destruct (b2z b0 <? 128)%Z; [cbn in Hi; lia|].
  destruct (lead (b2z b0)) as [[[sz lo] hi]|] eqn:EL; [|cbn in Hi; lia].
  assert (Hlo : (128 <= lo)%Z).
  { unfold lead in EL.
    repeat match type of EL with
    | (if ?c then _ else _) = _ => destruct c; [injection EL as <- <- <-; lia|]
    end; discriminate. }
  destruct s as [|c1 s]; [cbn in Hi; lia|].
  destruct (negb (in_rng lo hi (b2z c1))) eqn:E1; [cbn in Hi; lia|].
  assert (128 <= b2z c1)%Z by (unfold in_rng in E1; lia).
  destruct (Nat.eqb sz 2).
  { cbn in Hi. assert (i = 1) by lia. subst i. cbn in Hn. injection Hn as <-. assumption. }
  destruct s as [|c2 s]; [cbn in Hi; lia|].
  destruct (negb (is_cont (b2z c2))) eqn:E2; [cbn in Hi; lia|].
  assert (128 <= b2z c2)%Z by (unfold is_cont, in_rng in E2; lia).
  destruct (Nat.eqb sz 3).
  { cbn in Hi. assert (i = 1 \/ i = 2) as [-> | ->] by lia; cbn in Hn; injection Hn as <-; assumption. }
  destruct s as [|c3 s]; [cbn in Hi; lia|].
  destruct (negb (is_cont (b2z c3))) eqn:E3; [cbn in Hi; lia|].
  assert (128 <= b2z c3)%Z by (unfold is_cont, in_rng in E3; lia).
  cbn in Hi. assert (i = 1 \/ i = 2 \/ i = 3) as [-> | [-> | ->]] by lia; cbn in Hn; injection Hn as <-; assumption.
Qed.

Lemma boundary_below : forall c e, e <= length c ->
  exists o, boundary c o /\ o <= e /\ (o = e \/ e < o + snd (decode_rune (skipn o c))).
Proof.
  intros c. induction e as [|e IH]; intros He; [exists 0; split; [constructor|lia]|].
  destruct IH as [o [Hb [Hle Hd]]]; [lia|].
  assert (Hlt : o < length c) by lia.
  pose proof (bd_next c o Hb Hlt) as Hb'. set (k := snd (decode_rune (skipn o c))) in *.
  assert (Hpos : 0 < k).
  { unfold k. destruct (skipn o c) as [|b s] eqn:E.
    - apply (f_equal (@length _)) in E. rewrite skipn_length in E. cbn in E. lia.
    - pose proof (decode_size_pos b s). lia. }
  destruct (Nat.eq_dec (o + k) (S e)) as [Heq|Hne].
  - exists (o + k). split; [assumption|lia].
  - exists o. split; [assumption|]. fold k. lia.
Qed.

Lemma break_end_boundary : forall c e, break_end c e = true -> boundary c e.
Proof.
  intros c e H. pose proof (break_end_le c e H) as He.
  destruct (boundary_below c e) as [o [Hb [Hle Hd]]]; [lia|].
  destruct Hd as [->|Hd]; [assumption|].
  destruct (Nat.eq_dec o e) as [->|Hne]; [assumption|]. exfalso.
  destruct e as [|i]; [lia|]. cbn in H.
  destruct (nth_error c i) as [b|] eqn:E; [|discriminate].
  assert (Hb10 : (b2z b < 128)%Z) by lia.
  destruct (Nat.eq_dec i o) as [->|Hio].
  - assert (ES : exists t, skipn o c = b :: t).
    { rewrite <- (Nat.add_0_r o), <- nth_error_skipn in E at 1.
      destruct (skipn o c) as [|b' t]; [discriminate|]. exists t. cbn in E. congruence. }
    destruct ES as [t ES]. rewrite ES, decode_ascii in Hd by assumption. cbn in Hd. lia.
  - assert (HN : (128 <= b2z b)%Z).
    { apply (decode_tail_nonascii (skipn o c) (i - o) b); [lia|].
      rewrite nth_error_skipn. replace (o + (i - o)) with i by lia. assumption. }
    lia.
Qed.

Lemma spec_start_boundary : forall c o, boundary c (spec_start c o).
Proof.
  intros c o. unfold spec_start. destruct (breaks_upto c o) as [|x l] eqn:E; [constructor|].
  assert (HI : In (last (x :: l) 0) (breaks_upto c o)) by (rewrite E; apply last_in; discriminate).
  apply filter_In in HI. apply break_end_boundary, HI.
Qed.

Lemma spec_start_le : forall c o, spec_start c o <= o.
Proof.
  intros c o. pose proof (last_brk_le c 0 o (Nat.le_0_l _)) as H. rewrite brk_between_0 in H.
  unfold spec_start. lia.
Qed.

Lemma pos_strict_mono : forall c o1 o2, boundary c o1 -> boundary c o2 -> o1 < o2 ->
  spec_line c o1 < spec_line c o2 \/ (spec_line c o1 = spec_line c o2 /\ spec_col c o1 < spec_col c o2).
Proof.
  intros c o1 o2 H1 H2 Hlt.
  assert (Hup : breaks_upto c o2 = breaks_upto c o1 ++ brk_between c o1 o2)
    by (rewrite <- !brk_between_0; apply brk_split; lia).
  unfold spec_line. rewrite Hup, app_length.
  destruct (brk_between c o1 o2) as [|x l] eqn:E; [|left; cbn; lia].
  right. split; [cbn; lia|]. rewrite app_nil_r in Hup.
  unfold spec_col. assert (Hst : spec_start c o2 = spec_start c o1) by (unfold spec_start; rewrite Hup; reflexivity).
  rewrite Hst. pose proof (spec_start_le c o1) as Hle.
  set (a := spec_start c o1) in *.
  assert (Ha : boundary c a) by apply spec_start_boundary.
  assert (HB : boundary (firstn (o2 - a) (skipn a c)) (o1 - a))
    by (apply boundary_firstn; [apply boundary_skipn; [assumption|assumption|lia]|lia]).
  unfold slice. rewrite (decode_all_split _ _ HB), app_length, firstn_firstn, Nat.min_l by lia.
  pose proof (boundary_le c o2 H2) as Hl2.
  assert (Hne : skipn (o1 - a) (firstn (o2 - a) (skipn a c)) <> []).
  { intros E0. apply (f_equal (@length _)) in E0. rewrite skipn_length, firstn_length, skipn_length in E0.
    cbn in E0. lia. }
  pose proof (decode_all_length_pos _ Hne). lia.
Qed.

(** * White space and the two standards *)

Lemma in_list_iff : forall r l, existsb (Z.eqb r) l = true <-> In r l.
Proof.
  intros r l. rewrite existsb_exists. split.
  - intros [x [H1 H2]]. apply Z.eqb_eq in H2. subst. assumption.
  - intros H. exists r. split; [assumption|apply Z.eqb_refl].
Qed.

Lemma is_space_spec : forall r, is_space r = true <-> In r white_space.
Proof.
  intros r. unfold white_space. cbn [In]. unfold is_space, in_rng. lia.
Qed.

Lemma is_space_eq : forall r, is_space r = existsb (Z.eqb r) white_space.
Proof.
  intros r. apply eq_true_iff_eq. rewrite in_list_iff. apply is_space_spec.
Qed.

Lemma space_vs_ecma : forall r,
  is_space r <> existsb (Z.eqb r) ecma_space <-> (r = 133 \/ r = 65279)%Z.
Proof.
  intros r. split.
  - intros H. rewrite is_space_eq in H.
    destruct (in_list_iff r white_space) as [W1 W2]. destruct (in_list_iff r ecma_space) as [C1 C2].
    assert (HW : In r white_space <-> (r = 133%Z \/ In r (removelast ecma_space))).
    { unfold white_space, ecma_space. cbn [In removelast]. lia. }
    assert (HE : In r ecma_space <-> (In r (removelast ecma_space) \/ r = 65279%Z)).
    { unfold ecma_space. cbn [In removelast]. lia. }
    destruct (existsb (Z.eqb r) white_space), (existsb (Z.eqb r) ecma_space); try congruence.
    + assert (In r white_space) by auto. assert (~ In r ecma_space) by (intros Hx; specialize (C2 Hx); discriminate).
      tauto.
    + assert (In r ecma_space) by auto. assert (~ In r white_space) by (intros Hx; specialize (W2 Hx); discriminate).
      tauto.
  - intros [->| ->]; vm_compute; discriminate.
Qed.

Lemma is_line_term_eq : forall r, is_line_term r = existsb (Z.eqb r) line_terminators.
Proof. intros r. unfold is_line_term, line_terminators. cbn [existsb]. rewrite orb_false_r, !orb_assoc. reflexivity. Qed.
