(** Proofs about the order of modifiers. *)
From Coq Require Import Lia PeanoNat.
From Verif Require Import Base TsModModel TsModSpec.

Lemma mod_eqb_spec : forall a b, mod_eqb a b = true <-> a = b.
Proof. intros [] []; cbn; split; congruence. Qed.
Definition mod_dec (a b : modifier) : {a = b} + {a <> b}.
Proof. decide equality. Defined.
Lemma spaced_in : forall l n m lo hi, spaced n l -> In (m, (lo, hi)) l -> n < lo /\ lo < hi.
Proof.
  induction l as [|[k [x z]] l IH]; cbn [spaced In]; intros n m lo hi H; [intros []|]. destruct H as (A & B & C). intros [E|I].
  - injection E as _ <- <-. auto.
  - destruct (IH _ _ _ _ C I). lia.
Qed.
Lemma spaced_app : forall l1 n l2, spaced n (l1 ++ l2) -> exists n', n <= n' /\ spaced n' l2.
Proof.
  induction l1 as [|[k [x z]] l IH]; cbn [spaced app]; intros n l2 H; [eauto|]. destruct H as (A & B & C).
  destruct (IH _ _ C) as (n' & L & S). exists n'. split; [lia|exact S].
Qed.
Lemma spaced_before : forall n l1 a ra l2 b rb l3, spaced n (l1 ++ (a, ra) :: l2 ++ (b, rb) :: l3) -> before ra rb = true.
Proof.
  intros n l1 a [x z] l2 b [u v] l3 H. destruct (spaced_app _ _ _ H) as (n' & _ & S). cbn [spaced] in S. destruct S as (_ & _ & S).
  assert (I : z < u) by (eapply (spaced_in _ z b u v S); apply in_app_iff; right; left; reflexivity).
  unfold before. cbn. apply Nat.ltb_lt. exact I.
Qed.
Lemma collected : forall l n f, spaced n l -> NoDup (map fst l) -> (forall m, In m (map fst l) -> empty (f m) = true) ->
  exists g, modifiers f l = (g, []) /\ (forall m r, In (m, r) l -> g m = r) /\ (forall m, ~ In m (map fst l) -> g m = f m).
Proof.
  induction l as [|[k [x z]] l IH]; intros n f S N E; cbn [modifiers map fst] in *.
  - exists f. split; [reflexivity|]. split; [intros m r []|reflexivity].
  - rewrite (E k) by (left; reflexivity). inversion N as [|k0 l0 N1 N2]; subst. cbn [spaced] in S. destruct S as (A & B & C).
    destruct (IH z (set f k (x, z)) C N2) as (g & G1 & G2 & G3).
    { intros m I. unfold set. destruct (mod_eqb m k) eqn:Q; [apply mod_eqb_spec in Q; subst; contradiction|]. apply E. right; exact I. }
    exists g. split; [exact G1|]. split.
    + intros m r [Q|I]; [|eauto]. injection Q as <- <-. rewrite G3 by assumption. unfold set. rewrite (proj2 (mod_eqb_spec k k) eq_refl). reflexivity.
    + intros m I. rewrite G3 by (intros J; apply I; right; exact J). unfold set. destruct (mod_eqb m k) eqn:Q; [apply mod_eqb_spec in Q; subst; destruct I; left; reflexivity|reflexivity].
Qed.

Section Order.
Variables (l : list (modifier * range)) (g : places).
Hypothesis (sp : spaced 0 l) (G1 : forall m r, In (m, r) l -> g m = r) (G2 : forall m, ~ In m (map fst l) -> g m = (0, 0)).
Notation ms := (map fst l).
Lemma present : forall m, empty (g m) = false <-> In m ms.
Proof using sp G1 G2.
  intros m. split.
  - intros E. destruct (in_dec mod_dec m ms) as [I|I]; [exact I|]. rewrite (G2 _ I) in E. discriminate.
  - intros I. apply in_map_iff in I. destruct I as ([k [x z]] & <- & I). cbn [fst]. rewrite (G1 _ _ I). destruct (spaced_in _ _ _ _ _ sp I).
    unfold empty. cbn. destruct x; [lia|reflexivity].
Qed.
Lemma wide : forall m, In m ms -> fst (g m) < snd (g m).
Proof using sp G1 G2.
  intros m I. apply in_map_iff in I. destruct I as ([k [x z]] & <- & I). cbn [fst]. rewrite (G1 _ _ I). destruct (spaced_in _ _ _ _ _ sp I). cbn. lia.
Qed.
Lemma split_two : forall a b, In a ms -> In b ms -> a <> b ->
  (exists l1 l2 l3, ms = l1 ++ a :: l2 ++ b :: l3) \/ (exists l1 l2 l3, ms = l1 ++ b :: l2 ++ a :: l3).
Proof using.
  intros a b Ia Ib D. apply in_split in Ia. destruct Ia as (l1 & l2 & E). rewrite E in Ib. apply in_app_iff in Ib. destruct Ib as [I|[I|I]].
  - apply in_split in I. destruct I as (x & z & ->). right. exists x, z, l2. rewrite E, <- app_assoc. reflexivity.
  - congruence.
  - apply in_split in I. destruct I as (x & z & ->). left. exists l1, x, z. exact E.
Qed.
Lemma pos : forall l1 a l2 b l3, ms = l1 ++ a :: l2 ++ b :: l3 -> before (g a) (g b) = true.
Proof using sp G1 G2.
  intros l1 a l2 b l3 E.
  apply map_eq_app in E. destruct E as (m1 & m & E0 & _ & E). apply map_eq_cons in E. destruct E as ([x rx] & m' & -> & <- & E).
  apply map_eq_app in E. destruct E as (m2 & m3 & -> & _ & E). apply map_eq_cons in E. destruct E as ([z rz] & m4 & -> & <- & _).
  cbn [fst]. rewrite (G1 x rx), (G1 z rz).
  - rewrite E0 in sp. eapply spaced_before; exact sp.
  - rewrite E0. apply in_app_iff. right. right. apply in_app_iff. right. left. reflexivity.
  - rewrite E0. apply in_app_iff. right. left. reflexivity.
Qed.
(** The order of the words is that of their places. *)
Lemma order_places : well_ordered ms <-> forall a b, must_precede a b -> In a ms -> In b ms -> before (g a) (g b) = true.
Proof using sp G1 G2.
  split.
  - intros W a b M Ia Ib. assert (D : a <> b) by (intros ->; destruct b; exact M).
    destruct (split_two a b Ia Ib D) as [(l1 & l2 & l3 & E)|(l1 & l2 & l3 & E)]; [eapply pos; exact E|]. exfalso. exact (W _ _ _ _ _ E M).
  - intros H l1 a l2 b l3 E M.
    assert (Ia : In a ms) by (rewrite E; apply in_app_iff; right; left; reflexivity).
    assert (Ib : In b ms) by (rewrite E; apply in_app_iff; right; right; apply in_app_iff; right; left; reflexivity).
    pose proof (H b a M Ib Ia) as P. pose proof (pos _ _ _ _ _ E) as Q. pose proof (wide a Ia). pose proof (wide b Ib).
    unfold before in P, Q. apply Nat.ltb_lt in P. apply Nat.ltb_lt in Q. lia.
Qed.
Lemma wide_at : forall m, empty (g m) = false -> fst (g m) < snd (g m).
Proof using sp G1 G2. intros m E. apply wide, present, E. Qed.
(** The rules in terms of places. *)
Lemma rules_places : forall brace, rules ms brace <->
  (forall a b, must_precede a b -> empty (g a) = false -> empty (g b) = false -> before (g a) (g b) = true) /\
  (forall a b, excluded a b -> empty (g a) = false -> empty (g b) = false -> False) /\
  (brace = true -> empty (g Static) = false -> forall m, empty (g m) = false -> m = Static).
Proof using sp G1 G2.
  intros brace. unfold rules. rewrite order_places. split; intros (H1 & H2 & H3); (split; [|split]).
  - intros a b M Ea Eb. apply H1; [exact M|apply present, Ea|apply present, Eb].
  - intros a b M Ea Eb. apply (H2 a b M); [apply present, Ea|apply present, Eb].
  - intros B E m Em. apply H3; [exact B|apply present, E|apply present, Em].
  - intros a b M Ea Eb. apply H1; [exact M|apply present, Ea|apply present, Eb].
  - intros a b M Ea Eb. apply (H2 a b M); [apply present, Ea|apply present, Eb].
  - intros B E m Em. apply H3; [exact B|apply present, E|apply present, Em].
Qed.
Ltac places_cases :=
  pose proof (wide_at Access) as WA; pose proof (wide_at Abstract) as WB; pose proof (wide_at Static) as WS;
  pose proof (wide_at Override) as WO; pose proof (wide_at Readonly) as WR;
  unfold modifier_order, check_order in *; cbn [filter fst snd] in *;
  destruct (empty (g Access)) eqn:EA, (empty (g Abstract)) eqn:EB, (empty (g Static)) eqn:ES, (empty (g Override)) eqn:EO, (empty (g Readonly)) eqn:ER,
    (empty (g Declare)) eqn:ED; cbn [negb andb orb ordered_from existsb mod_eqb] in *.
Lemma order_rules : forall brace, modifier_order g brace = true -> (empty (g Access) = false -> empty (g Abstract) = false -> empty (g Readonly) = false -> before (g Access) (g Readonly) = true) -> rules ms brace.
Proof using sp G1 G2.
  intros brace H N. apply rules_places. split; [|split].
  - assert (K : forall a b, must_precede a b -> empty (g a) = false -> empty (g b) = false -> fst (g a) < snd (g a) -> fst (g b) < snd (g b) -> before (g a) (g b) = true).
    2: { intros a b M Ea Eb. apply K; auto using wide_at. }
    places_cases; try discriminate; intros [] [] M Ea Eb Wa Wb; try (destruct M); try congruence;
      repeat match goal with
      | H : (false = false -> _) |- _ => specialize (H eq_refl)
      | H : (if ?c then false else _) = true |- _ => destruct c; [discriminate|]
      | H : _ && _ = true |- _ => apply andb_prop in H; destruct H
      | H : _ || false = true |- _ => rewrite orb_false_r in H
      end; try assumption; unfold before in *; rewrite Nat.ltb_lt in *; lia.
  - intros a b M Ea Eb. unfold modifier_order in H. destruct a, b; try (destruct M); rewrite Ea, Eb in H; cbn in H; try discriminate.
    destruct (negb _ && negb _); discriminate.
  - intros -> E m Em. unfold modifier_order in H. rewrite E in H. cbn [negb andb] in H.
    destruct m; rewrite ?Em in H; cbn [negb andb orb] in H; rewrite ?orb_true_r in H; cbn in H; try discriminate; try reflexivity;
      repeat match goal with H : (if ?c then false else _) = true |- _ => destruct c; [discriminate|] end; discriminate.
Qed.
Lemma rules_order : forall brace, rules ms brace -> modifier_order g brace = true.
Proof using sp G1 G2.
  intros brace R. apply rules_places in R. destruct R as (H1 & H2 & H3).
  pose proof (H1 Access Abstract I) as P1. pose proof (H1 Access Static I) as P2. pose proof (H1 Access Override I) as P3. pose proof (H1 Access Readonly I) as P4.
  pose proof (H1 Abstract Override I) as P5. pose proof (H1 Static Override I) as P6. pose proof (H1 Static Readonly I) as P7. pose proof (H1 Override Readonly I) as P8.
  pose proof (H2 Static Abstract I) as X1. pose proof (H2 Declare Override I) as X2.
  pose proof (fun B E => H3 B E Access) as Y1. pose proof (fun B E => H3 B E Override) as Y2. pose proof (fun B E => H3 B E Readonly) as Y3. pose proof (fun B E => H3 B E Declare) as Y4.
  clear H1 H2 H3. unfold modifier_order, check_order. cbn [filter fst snd].
  destruct (empty (g Access)) eqn:EA, (empty (g Abstract)) eqn:EB, (empty (g Static)) eqn:ES, (empty (g Override)) eqn:EO, (empty (g Readonly)) eqn:ER,
    (empty (g Declare)) eqn:ED; try (destruct (X1 eq_refl eq_refl)); try (destruct (X2 eq_refl eq_refl)); cbn [negb andb orb ordered_from existsb mod_eqb];
    destruct brace; cbn [andb];
    try (specialize (Y1 eq_refl eq_refl eq_refl); discriminate); try (specialize (Y2 eq_refl eq_refl eq_refl); discriminate);
    try (specialize (Y3 eq_refl eq_refl eq_refl); discriminate); try (specialize (Y4 eq_refl eq_refl eq_refl); discriminate);
    rewrite ?P1, ?P2, ?P3, ?P4, ?P5, ?P6, ?P7, ?P8 by reflexivity; rewrite ?orb_true_r; reflexivity.
Qed.
End Order.
