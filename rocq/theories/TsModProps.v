(** C63: the modifiers of a class member are accepted when they stand in the order of TypeScript. *)
From Coq Require Import Lia.
From Verif Require Import Base TsModModel TsModSpec TsModProofs.

(** Different modifiers in an order that obeys the rules are accepted, and all are read. *)
Theorem C63_ordered_accepted : forall l brace, spaced 0 l -> NoDup (map fst l) -> rules (map fst l) brace -> member_modifiers l brace = Some [].
Proof.
  intros l brace S N R. destruct (collected l 0 none S N (fun _ _ => eq_refl)) as (g & E & G1 & G2).
  unfold member_modifiers. rewrite E. cbn [fst snd]. rewrite (rules_order l g S G1 G2 brace R). reflexivity.
Qed.
(** Others are an error, unless readonly stands before an access modifier and abstract is there too. *)
Theorem C63_others_rejected_partial : forall l brace, spaced 0 l -> NoDup (map fst l) ->
  ~ (In Abstract (map fst l) /\ exists l1 l2 l3, map fst l = l1 ++ Readonly :: l2 ++ Access :: l3) ->
  ~ rules (map fst l) brace -> member_modifiers l brace = None.
Proof.
  intros l brace S N X R. destruct (collected l 0 none S N (fun _ _ => eq_refl)) as (g & E & G1 & G2).
  unfold member_modifiers. rewrite E. cbn [fst snd]. destruct (modifier_order g brace) eqn:O; [|reflexivity].
  destruct R. apply (order_rules l g S G1 G2 brace O). intros EA EB ER.
  assert (IA : In Access (map fst l)) by (apply (present l g S G1 G2), EA).
  assert (IB : In Abstract (map fst l)) by (apply (present l g S G1 G2), EB).
  assert (IR : In Readonly (map fst l)) by (apply (present l g S G1 G2), ER).
  destruct (split_two l Access Readonly IA IR ltac:(discriminate)) as [(l1 & l2 & l3 & Q)|Q]; [|destruct X; auto].
  exact (pos l g S G1 G2 _ _ _ _ _ Q).
Qed.
Print Assumptions C63_ordered_accepted.
Print Assumptions C63_others_rejected_partial.
(** [readonly public abstract x] is accepted. *)
Theorem C63_access_after_readonly_refuted : exists l, spaced 0 l /\ NoDup (map fst l) /\ ~ rules (map fst l) false /\ member_modifiers l false = Some [].
Proof.
  exists [(Readonly, (10, 18)); (Access, (19, 25)); (Abstract, (26, 34))]. cbn [spaced map fst]. split; [repeat split; lia|]. split.
  - repeat constructor; cbn; intuition discriminate.
  - split; [|reflexivity]. intros (W & _). apply (W [] Readonly [] Access [Abstract] eq_refl). exact Logic.I.
Qed.

(** [public static declare readonly x], and [static public x]. *)
Definition placed : list (modifier * range) := [(Access, (10, 16)); (Static, (17, 23)); (Declare, (24, 31)); (Readonly, (32, 40))].
Definition swapped : list (modifier * range) := [(Static, (10, 16)); (Access, (17, 23))].
Example placed_fits : spaced 0 placed /\ NoDup (map fst placed) /\ rules (map fst placed) false /\ ~ rules (map fst placed) true.
Proof.
  split; [cbn; repeat split; lia|]. split; [repeat constructor; cbn; intuition discriminate|]. split.
  - split; [|split; [|discriminate]].
    + intros l1 a l2 b l3 E M. cbn [placed map fst] in E.
      destruct l1 as [|x1 [|x2 [|x3 [|x4 [|]]]]]; cbn in E; injection E; intros; subst; try discriminate;
        destruct l2 as [|z1 [|z2 [|z3 [|]]]]; cbn in *; repeat match goal with H : _ :: _ = _ |- _ => injection H; clear H; intros; subst end; try discriminate; exact M.
    + intros a b X Ia Ib. cbn in Ia, Ib. destruct a, b; cbn in X; try contradiction; intuition discriminate.
  - intros (_ & _ & H). specialize (H eq_refl (or_intror (or_introl eq_refl)) Access (or_introl eq_refl)). discriminate.
Qed.
Example swapped_fits : spaced 0 swapped /\ NoDup (map fst swapped) /\ ~ (In Abstract (map fst swapped) /\ exists l1 l2 l3, map fst swapped = l1 ++ Readonly :: l2 ++ Access :: l3) /\
  ~ rules (map fst swapped) false.
Proof.
  split; [cbn; repeat split; lia|]. split; [repeat constructor; cbn; intuition discriminate|]. split; [cbn; intuition discriminate|].
  intros (W & _). apply (W [] Static [] Access [] eq_refl). exact Logic.I.
Qed.
