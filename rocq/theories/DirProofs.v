From Verif Require Import Base UtilModel UtilProofs DirModel DirSpec.
From Coq Require Import ZifyBool ZifyNat Permutation.

(** ** Sums over a list *)
Fixpoint sum {A} (f : A -> nat) (l : list A) : nat := match l with [] => 0 | x :: r => f x + sum f r end.
Lemma upd_cons : forall A (x : A) l i y, upd (x :: l) (S i) y = x :: upd l i y.
Proof. reflexivity. Qed.
Lemma sum_upd : forall A (f : A -> nat) l i w w', nth_error l i = Some w -> sum f (upd l i w') + f w = sum f l + f w'.
Proof.
  intros A f l. induction l as [|x l IH]; intros [|i] w w' H; try discriminate.
  - injection H as ->. cbn. lia.
  - rewrite upd_cons. cbn [sum]. pose proof (IH i w w' H). lia.
Qed.
Lemma sum_ge : forall A (f : A -> nat) l i w, nth_error l i = Some w -> f w <= sum f l.
Proof.
  intros A f l. induction l as [|x l IH]; intros [|i] w H; try discriminate.
  - injection H as ->. cbn. lia.
  - cbn [sum]. pose proof (IH i w H). lia.
Qed.
Lemma sum_app : forall A (f : A -> nat) l1 l2, sum f (l1 ++ l2) = sum f l1 + sum f l2.
Proof. intros A f l1 l2. induction l1 as [|x l1 IH]; cbn; [reflexivity|lia]. Qed.
Lemma sum_repeat : forall A (f : A -> nat) x n, f x = 0 -> sum f (repeat x n) = 0.
Proof. intros A f x n H. induction n; cbn; lia. Qed.
Lemma in_upd : forall A (l : list A) i x y, In y (upd l i x) -> y = x \/ In y l.
Proof.
  intros A l. induction l as [|z l IH]; intros [|i] x y H; cbn in H; try contradiction.
  - destruct H as [H|H]; [left; auto|right; right; exact H].
  - destruct H as [H|H]; [right; left; exact H|]. destruct (IH i x y H); [left; assumption|right; right; assumption].
Qed.

Definition event_dec : forall a b : event, {a = b} + {a <> b}.
Proof. intros a b. decide equality; [apply bool_dec|]. apply list_eq_dec. apply list_eq_dec. apply byte_eq_dec. Defined.
Definition cnt (x : event) (l : list event) : nat := count_occ event_dec l x.
Lemma cnt_app : forall x a b, cnt x (a ++ b) = cnt x a + cnt x b.
Proof. intros. apply count_occ_app. Qed.
Lemma cnt_cons : forall x a b, cnt x (a :: b) = cnt x [a] + cnt x b.
Proof. intros x a b. change (a :: b) with ([a] ++ b). apply cnt_app. Qed.

(** ** The shares of the components in the invariants *)
Definition tok (w : wk) : nat :=
  match w with WCheck | WTake => 1 | WKids ph _ (FDir _ _ _ _) => if 2 <=? ph then 1 else 0 | _ => 0 end.
Definition share (w : wk) : nat :=
  match w with
  | WRead _ | WStop _ _ | WErr _ | WDead _ => 1
  | WKids ph _ (FDir _ _ _ _) => if Nat.eqb ph 1 then 2 else 1
  | WKids _ _ _ => 1
  | _ => 0
  end.
Definition jobents (j : job) : list event := entries (j_path j) (j_sub j).
Definition pend (w : wk) : list event :=
  match w with
  | WRead j | WErr j | WDead j => jobents j
  | WStop p cs => below p cs
  | WKids ph p (FDir nm ok sub r) => if 2 <=? ph then below p r else below p (FDir nm ok sub r)
  | WKids _ p cs => below p cs
  | _ => []
  end.
Definition isend (w : wk) : nat := match w with WEnd => 1 | _ => 0 end.
Definition mj (m : mpc) : nat := match m with MJob => 1 | _ => 0 end.
Definition me (m : mpc) : nat := match m with MEnd => 1 | _ => 0 end.

Record inv (n : nat) (all : list event) (s : dw) : Prop := mk_inv {
  v_len : length (d_work s) = n;
  v_tok : length (d_queue s) = sum tok (d_work s) + d_senders s + mj (d_main s);
  v_wg : d_wg s = length (d_queue s) + sum share (d_work s);
  v_cnt : forall x, cnt x (d_events s) + sum (fun j => cnt x (jobents j)) (d_queue s) + sum (fun w => cnt x (pend w)) (d_work s) = cnt x all;
  v_panic : d_panic s = false;
  v_end : sum isend (d_work s) = me (d_main s);
  v_job : d_main s = MJob <-> d_wait s = TNone;
  v_zero : d_wait s = TSend \/ d_wait s = TEnd -> d_wg s = 0;
  v_tend : d_wait s = TEnd -> d_main s = MFin \/ d_main s = MEnd;
  v_fin : d_main s = MFin \/ d_main s = MEnd -> d_err s = false -> d_wait s = TEnd
}.

Lemma inv_init : forall n root ok sub, inv n (entries root sub) (dinit n root ok sub).
Proof.
  intros n root ok sub. constructor; unfold dinit; cbn [d_queue d_wg d_senders d_work d_main d_wait d_events d_err d_panic mj me length].
  - apply repeat_length.
  - rewrite sum_repeat by reflexivity. reflexivity.
  - rewrite sum_repeat by reflexivity. reflexivity.
  - intros x. rewrite sum_repeat by reflexivity. cbn [sum]. change (cnt x []) with 0. unfold jobents. cbn [j_path j_sub]. lia.
  - reflexivity.
  - apply sum_repeat. reflexivity.
  - split; reflexivity.
  - intros [H|H]; discriminate.
  - discriminate.
  - intros [H|H]; discriminate.
Qed.

Ltac sums Hw w' :=
  repeat match goal with
  | |- context [sum ?f (upd ?l ?i w')] =>
      let E := fresh "E" in let G := fresh "G" in
      pose proof (sum_upd _ f l i _ w' Hw) as E; pose proof (sum_ge _ f l i _ Hw) as G; cbn beta in E, G;
      generalize dependent (sum f (upd l i w')); intros
  end.

Section Stops.
Variable stops : event -> bool.

Ltac fin0 := first [assumption | reflexivity | discriminate | lia | tauto | congruence].

Lemma inv_step : forall n all s l s', inv n all s -> dstep stops s l = Some s' -> inv n all s'.
Proof.
  intros n all s l s' [Hlen Htok Hwg Hcnt Hp Hend Hjob Hzero Htend Hfin] H.
  assert (Hupd : forall i w w', nth_error (d_work s) i = Some w ->
    sum tok (upd (d_work s) i w') + tok w = sum tok (d_work s) + tok w'
    /\ sum share (upd (d_work s) i w') + share w = sum share (d_work s) + share w'
    /\ (forall x, sum (fun w => cnt x (pend w)) (upd (d_work s) i w') + cnt x (pend w) = sum (fun w => cnt x (pend w)) (d_work s) + cnt x (pend w'))
    /\ sum isend (upd (d_work s) i w') + isend w = sum isend (d_work s) + isend w'
    /\ tok w <= sum tok (d_work s) /\ share w <= sum share (d_work s) /\ length (upd (d_work s) i w') = n).
  { intros i w w' Hw. repeat split.
    - apply (sum_upd _ tok _ _ _ w' Hw).
    - apply (sum_upd _ share _ _ _ w' Hw).
    - intros x. apply (sum_upd _ (fun w => cnt x (pend w)) _ _ _ w' Hw).
    - apply (sum_upd _ isend _ _ _ w' Hw).
    - apply (sum_ge _ tok _ _ _ Hw).
    - apply (sum_ge _ share _ _ _ Hw).
    - rewrite upd_length. exact Hlen. }
  assert (Hz : d_wait s = TSend \/ d_wait s = TEnd -> forall i w, nth_error (d_work s) i = Some w -> share w = 0 /\ tok w = 0 /\ d_senders s = 0 /\ d_queue s = []).
  { intros Hs i w Hw. specialize (Hzero Hs). pose proof (sum_ge _ share _ _ _ Hw). pose proof (sum_ge _ tok _ _ _ Hw).
    destruct (d_queue s); [|cbn in *; lia]. cbn in *. repeat split; lia. }
  destruct l as [i|i|i|i|i| |]; cbn [dstep] in H.
  - (* local *)
    destruct (nth_error (d_work s) i) as [w|] eqn:Ew; [|discriminate].
    assert (Hcall : forall e p cs, share w = 1 -> tok w = 0 -> isend w = 0 -> (forall x, cnt x (pend w) = cnt x [e] + cnt x (below p cs)) ->
      inv n all (call stops s i e p cs)).
    { intros e p cs Hs1 Ht1 He1 Hp1. unfold call.
      set (w' := if stops e then WStop p cs else WKids 0 p cs).
      assert (W1 : tok w' = 0) by (unfold w'; destruct (stops e); [reflexivity|]; destruct cs; reflexivity).
      assert (W2 : share w' = 1) by (unfold w'; destruct (stops e); [reflexivity|]; destruct cs; reflexivity).
      assert (W3 : isend w' = 0) by (unfold w'; destruct (stops e); reflexivity).
      assert (W4 : forall x, cnt x (pend w') = cnt x (below p cs)) by (intros x; unfold w'; destruct (stops e); [reflexivity|]; destruct cs; reflexivity).
      destruct (Hupd i w w' Ew) as [U1 [U2 [U3 [U4 [U5 [U6 U7]]]]]].
      constructor; cbn [d_queue d_wg d_senders d_work d_main d_wait d_events d_err d_panic]; try fin0.
      intros x. specialize (Hcnt x). specialize (U3 x). specialize (Hp1 x). specialize (W4 x). rewrite cnt_app. lia. }
    destruct w as [| | |j|ph p cs|p cs|j|j|]; cbn [local] in H; try discriminate.
    + (* WCheck *)
      pose proof (sum_ge _ tok _ _ _ Ew) as Ht. cbn in Ht. destruct (d_queue s) as [|j q] eqn:Eq; [cbn in Htok; lia|].
      injection H as <-. unfold set_w. rewrite Eq.
      destruct (Hupd i _ WTake Ew) as [U1 [U2 [U3 [U4 [U5 [U6 U7]]]]]]. cbn in U1, U2, U4, U5, U6.
      constructor; cbn [d_queue d_wg d_senders d_work d_main d_wait d_events d_err d_panic]; try fin0.
      intros x. specialize (Hcnt x). specialize (U3 x). cbn [pend] in U3. lia.
    + (* WTake *)
      pose proof (sum_ge _ tok _ _ _ Ew) as Ht. cbn in Ht. destruct (d_queue s) as [|j q] eqn:Eq; [cbn in Htok; lia|].
      injection H as <-.
      destruct (Hupd i _ (WRead j) Ew) as [U1 [U2 [U3 [U4 [U5 [U6 U7]]]]]]. cbn in U1, U2, U4, U5, U6, Htok, Hwg.
      constructor; cbn [d_queue d_wg d_senders d_work d_main d_wait d_events d_err d_panic]; try fin0.
      intros x. specialize (Hcnt x). specialize (U3 x). cbn [pend] in U3. change (cnt x []) with 0 in U3. cbn [sum] in Hcnt. lia.
    + (* WRead *)
      destruct (j_ok j).
      * injection H as <-. apply Hcall; try reflexivity. intros x. cbn [pend]. unfold jobents, entries. apply cnt_cons.
      * injection H as <-. unfold set_w.
        destruct (Hupd i _ (WErr j) Ew) as [U1 [U2 [U3 [U4 [U5 [U6 U7]]]]]]. cbn in U1, U2, U4, U5, U6.
        constructor; cbn [d_queue d_wg d_senders d_work d_main d_wait d_events d_err d_panic]; try fin0.
        intros x. specialize (Hcnt x). specialize (U3 x). cbn [pend] in U3. lia.
    + (* WKids *)
      destruct cs as [|nm r|nm ok sub r].
      * pose proof (sum_ge _ share _ _ _ Ew) as Hs. cbn in Hs. destruct ph as [|[|ph]]; cbn in H; (destruct (d_wg s) as [|m] eqn:Em; [lia|]; injection H as <-;
        destruct (Hupd i _ WIdle Ew) as [U1 [U2 [U3 [U4 [U5 [U6 U7]]]]]]; cbn in U1, U2, U4, U5, U6;
        constructor; cbn [d_queue d_wg d_senders d_work d_main d_wait d_events d_err d_panic]; try fin0;
        intros x; specialize (Hcnt x); specialize (U3 x); cbn [pend below] in U3; lia).
      * destruct ph as [|[|ph]]; cbn in H; injection H as <-; (apply Hcall; try reflexivity; intros x; cbn [pend below]; apply cnt_cons).
      * destruct ph as [|[|ph]]; cbn in H; injection H as <-.
        -- destruct (Hupd i _ (WKids 1 p (FDir nm ok sub r)) Ew) as [U1 [U2 [U3 [U4 [U5 [U6 U7]]]]]]. cbn in U1, U2, U4, U5, U6.
           constructor; cbn [d_queue d_wg d_senders d_work d_main d_wait d_events d_err d_panic]; try fin0.
           intros x. specialize (Hcnt x). specialize (U3 x). cbn [pend Nat.leb] in U3. lia.
        -- destruct (Hupd i _ (WKids 2 p (FDir nm ok sub r)) Ew) as [U1 [U2 [U3 [U4 [U5 [U6 U7]]]]]]. cbn in U1, U2, U4, U5, U6.
           constructor; cbn [d_queue d_wg d_senders d_work d_main d_wait d_events d_err d_panic]; try rewrite app_length; cbn [length]; try fin0.
           intros x. specialize (Hcnt x). specialize (U3 x). rewrite sum_app. cbn [sum].
           change (cnt x (jobents (mk_job (p ++ [nm]) ok sub))) with (cnt x ((p ++ [nm], true) :: below (p ++ [nm]) sub)).
           cbn [pend Nat.leb] in U3. cbn [below] in U3. rewrite cnt_app in U3. lia.
        -- destruct (Hupd i _ (WKids 0 p r) Ew) as [U1 [U2 [U3 [U4 [U5 [U6 U7]]]]]].
           assert (W1 : tok (WKids 0 p r) = 0) by (destruct r; reflexivity).
           assert (W2 : share (WKids 0 p r) = 1) by (destruct r; reflexivity).
           assert (W4 : pend (WKids 0 p r) = below p r) by (destruct r; reflexivity).
           rewrite W1 in U1. rewrite W2 in U2. cbn in U1, U2, U4, U5, U6.
           constructor; cbn [d_queue d_wg d_senders d_work d_main d_wait d_events d_err d_panic]; try fin0.
           intros x. specialize (Hcnt x). specialize (U3 x). rewrite W4 in U3. cbn [pend Nat.leb] in U3. lia.
  - (* LMainJob *)
    destruct (nth_error (d_work s) i) as [w|] eqn:Ew; [|discriminate]. destruct w; try discriminate.
    destruct (d_main s) eqn:Em; try discriminate. injection H as <-.
    destruct (Hupd i _ WCheck Ew) as [U1 [U2 [U3 [U4 [U5 [U6 U7]]]]]]. cbn in U1, U2, U4, U5, U6, Htok, Hend.
    constructor; cbn [d_queue d_wg d_senders d_work d_main d_wait d_events d_err d_panic mj me]; try fin0; try solve [intros [X|X]; discriminate]; try solve [split; discriminate]; try solve [rewrite <- Hjob; split; discriminate].
    intros x. specialize (Hcnt x). specialize (U3 x). cbn [pend] in U3. lia.
  - (* LJob *)
    destruct (nth_error (d_work s) i) as [w|] eqn:Ew; [|discriminate]. destruct w; try discriminate.
    destruct (d_senders s) as [|m] eqn:Em; try discriminate. injection H as <-.
    destruct (Hupd i _ WCheck Ew) as [U1 [U2 [U3 [U4 [U5 [U6 U7]]]]]]. cbn in U1, U2, U4, U5, U6.
    constructor; cbn [d_queue d_wg d_senders d_work d_main d_wait d_events d_err d_panic]; try fin0; try solve [intros [X|X]; discriminate]; try solve [split; discriminate]; try solve [rewrite <- Hjob; split; discriminate].
    intros x. specialize (Hcnt x). specialize (U3 x). cbn [pend] in U3. lia.
  - (* LStop *)
    destruct (nth_error (d_work s) i) as [w|] eqn:Ew; [|discriminate]. destruct w as [| | |j|ph p cs|p cs|j|j|]; try discriminate;
    (destruct (d_main s) eqn:Em; try discriminate; injection H as <-).
    + destruct (Hupd i _ (WKids 0 p cs) Ew) as [U1 [U2 [U3 [U4 [U5 [U6 U7]]]]]].
      assert (W1 : tok (WKids 0 p cs) = 0) by (destruct cs; reflexivity).
      assert (W2 : share (WKids 0 p cs) = 1) by (destruct cs; reflexivity).
      assert (W4 : pend (WKids 0 p cs) = below p cs) by (destruct cs; reflexivity).
      rewrite W1 in U1. rewrite W2 in U2. cbn in U1, U2, U4, U5, U6, Htok, Hend.
      constructor; cbn [d_queue d_wg d_senders d_work d_main d_wait d_events d_err d_panic mj me]; try fin0; try solve [intros [X|X]; discriminate]; try solve [split; discriminate]; try solve [rewrite <- Hjob; split; discriminate].
      intros x. specialize (Hcnt x). specialize (U3 x). rewrite W4 in U3. cbn [pend Nat.leb] in U3. lia.
    + destruct (Hupd i _ (WDead j) Ew) as [U1 [U2 [U3 [U4 [U5 [U6 U7]]]]]]. cbn in U1, U2, U4, U5, U6, Htok, Hend.
      constructor; cbn [d_queue d_wg d_senders d_work d_main d_wait d_events d_err d_panic mj me]; try fin0; try solve [intros [X|X]; discriminate]; try solve [split; discriminate]; try solve [rewrite <- Hjob; split; discriminate].
      intros x. specialize (Hcnt x). specialize (U3 x). cbn [pend Nat.leb] in U3. lia.
  - (* LFin *)
    destruct (nth_error (d_work s) i) as [w|] eqn:Ew; [|discriminate]. destruct w; try discriminate.
    destruct (d_main s) eqn:Em; try discriminate. injection H as <-.
    destruct (Hupd i _ WEnd Ew) as [U1 [U2 [U3 [U4 [U5 [U6 U7]]]]]]. cbn in U1, U2, U4, U5, U6, Htok, Hend.
    constructor; cbn [d_queue d_wg d_senders d_work d_main d_wait d_events d_err d_panic mj me]; try fin0; try solve [intros [X|X]; discriminate]; try solve [split; discriminate]; try solve [rewrite <- Hjob; split; discriminate].
    intros x. specialize (Hcnt x). specialize (U3 x). cbn [pend] in U3. lia.
  - (* LWait *)
    destruct (d_wait s) eqn:Et; try discriminate. destruct (d_wg s) eqn:Eg; [|discriminate]. injection H as <-.
    constructor; cbn [d_queue d_wg d_senders d_work d_main d_wait d_events d_err d_panic]; try fin0; try solve [intros [X|X]; discriminate]; try solve [split; discriminate]; try solve [rewrite <- Hjob; split; discriminate].
    all: try (split; [intros X; apply Hjob in X; discriminate|discriminate]).
    all: try (intros X Y; specialize (Hfin X Y); discriminate).
  - (* LWgFin *)
    destruct (d_wait s) eqn:Et; try discriminate. destruct (d_main s) eqn:Em; try discriminate. injection H as <-.
    cbn in Htok, Hend.
    constructor; cbn [d_queue d_wg d_senders d_work d_main d_wait d_events d_err d_panic mj me]; try fin0; try solve [intros [X|X]; discriminate]; try solve [split; discriminate]; try solve [rewrite <- Hjob; split; discriminate].
Qed.

Lemma inv_reach : forall n root ok sub k s, dreach stops (dinit n root ok sub) k s -> inv n (entries root sub) s.
Proof. intros n root ok sub k s H. induction H as [|k s l s' _ IH Hst]; [apply inv_init|apply (inv_step _ _ s l s' IH Hst)]. Qed.

(** ** Order of the handler calls *)
Definition seen (root : path) (evs : list event) (p : path) : Prop := p = root \/ exists q nm, p = q ++ [nm] /\ In (q, true) evs.
Definition wseen (root : path) (evs : list event) (w : wk) : Prop :=
  match w with
  | WRead j | WErr j | WDead j => seen root evs (j_path j)
  | WKids _ p _ | WStop p _ => In (p, true) evs
  | _ => True
  end.
Definition oinv (root : path) (s : dw) : Prop :=
  parents_first root (d_events s)
  /\ (forall j, In j (d_queue s) -> seen root (d_events s) (j_path j))
  /\ (forall w, In w (d_work s) -> wseen root (d_events s) w).

Lemma seen_mono : forall root evs e p, seen root evs p -> seen root (evs ++ e) p.
Proof. intros root evs e p [H|[q [nm [H1 H2]]]]; [left; exact H|right; exists q, nm; split; [exact H1|apply in_or_app; left; exact H2]]. Qed.
Lemma wseen_mono : forall root evs e w, wseen root evs w -> wseen root (evs ++ e) w.
Proof. intros root evs e [| | |j|ph p cs|p cs|j|j|]; cbn; auto using seen_mono; intros H; apply in_or_app; left; exact H. Qed.
Lemma parents_first_snoc : forall root evs p b, parents_first root evs -> seen root evs p -> parents_first root (evs ++ [(p, b)]).
Proof.
  intros root evs p b H Hs l1 p' b' l2 E.
  destruct l2 as [|y l2] using rev_ind.
  - apply app_inj_tail in E. destruct E as [E1 E2]. injection E2 as <- <-. subst. exact Hs.
  - clear IHl2. change ((p', b') :: l2 ++ [y]) with (((p', b') :: l2) ++ [y]) in E. rewrite app_assoc in E.
    apply app_inj_tail in E. destruct E as [E1 _]. apply (H l1 p' b' l2 E1).
Qed.

Lemma oinv_step : forall root s l s', oinv root s -> dstep stops s l = Some s' -> oinv root s'.
Proof.
  intros root s l s' [H1 [H2 H3]] H.
  assert (Hin : forall i w, nth_error (d_work s) i = Some w -> wseen root (d_events s) w) by (intros i w Hw; apply H3; apply (nth_error_In _ i Hw)).
  assert (Hset : forall i w q wg sd m t e pn, wseen root (d_events s) w -> (forall j, In j q -> seen root (d_events s) (j_path j)) ->
     oinv root (mk_dw q wg sd (upd (d_work s) i w) m t (d_events s) e pn)).
  { intros i w q wg sd m t e pn Hw Hq. split; [exact H1|]. split; [exact Hq|]. cbn. intros w' Hi.
    apply in_upd in Hi. destruct Hi as [->|Hi]; [exact Hw|apply H3; exact Hi]. }
  assert (Hkeep : forall q wg sd m t e pn, (forall j, In j q -> seen root (d_events s) (j_path j)) ->
     oinv root (mk_dw q wg sd (d_work s) m t (d_events s) e pn)).
  { intros. split; [exact H1|]. split; assumption. }
  destruct l as [i|i|i|i|i| |]; cbn [dstep] in H.
  - destruct (nth_error (d_work s) i) as [w|] eqn:Ew; [|discriminate]. pose proof (Hin i w Ew) as Hw.
    assert (Hcall : forall p0 b p cs, seen root (d_events s) p0 -> In (p, true) (d_events s ++ [(p0, b)]) ->
       oinv root (call stops s i (p0, b) p cs)).
    { intros p0 b p cs Hs Hi. unfold call. split; [|split]; cbn [d_events d_queue d_work].
      - apply parents_first_snoc; assumption.
      - intros j Hj. apply seen_mono. apply H2. exact Hj.
      - intros w' Hw'. apply in_upd in Hw'. destruct Hw' as [->|Hw'].
        + destruct (stops (p0, b)); exact Hi.
        + apply wseen_mono. apply H3. exact Hw'. }
    destruct w as [| | |j|ph p cs|p cs|j|j|]; cbn [local] in H; try discriminate.
    + destruct (d_queue s) eqn:Eq; injection H as <-; apply Hset; try exact I; rewrite ?Eq in *; exact H2.
    + destruct (d_queue s) as [|j q] eqn:Eq; injection H as <-.
      * apply Hkeep. intros j [].
      * apply Hset; [apply H2; left; reflexivity|intros j' Hj'; apply H2; right; exact Hj'].
    + destruct (j_ok j); injection H as <-.
      * apply Hcall; [exact Hw|apply in_or_app; right; left; reflexivity].
      * apply Hset; assumption.
    + cbn in Hw. destruct cs as [|nm r|nm ok sub r].
      * destruct ph as [|[|ph]]; cbn in H; (destruct (d_wg s); injection H as <-; [apply Hkeep; exact H2|apply Hset; [exact I|exact H2]]).
      * destruct ph as [|[|ph]]; cbn in H; injection H as <-;
        (apply Hcall; [right; exists p, nm; split; [reflexivity|exact Hw]|apply in_or_app; left; exact Hw]).
      * destruct ph as [|[|ph]]; cbn in H; injection H as <-; apply Hset; try exact Hw; try exact H2.
        intros j Hj. apply in_app_or in Hj. destruct Hj as [Hj|[<-|[]]]; [apply H2; exact Hj|].
        right. exists p, nm. split; [reflexivity|exact Hw].
  - destruct (nth_error (d_work s) i) as [w|] eqn:Ew; [|discriminate]. destruct w; try discriminate.
    destruct (d_main s); try discriminate. injection H as <-. apply Hset; [exact I|exact H2].
  - destruct (nth_error (d_work s) i) as [w|] eqn:Ew; [|discriminate]. destruct w; try discriminate.
    destruct (d_senders s); try discriminate. injection H as <-. apply Hset; [exact I|exact H2].
  - destruct (nth_error (d_work s) i) as [w|] eqn:Ew; [|discriminate]. pose proof (Hin i w Ew) as Hw. destruct w; try discriminate;
    (destruct (d_main s); try discriminate; injection H as <-; apply Hset; [exact Hw|exact H2]).
  - destruct (nth_error (d_work s) i) as [w|] eqn:Ew; [|discriminate]. destruct w; try discriminate.
    destruct (d_main s); try discriminate. injection H as <-. apply Hset; [exact I|exact H2].
  - destruct (d_wait s); try discriminate. destruct (d_wg s); try discriminate. injection H as <-. apply Hkeep. exact H2.
  - destruct (d_wait s); try discriminate. destruct (d_main s); try discriminate. injection H as <-. apply Hkeep. exact H2.
Qed.

Lemma oinv_reach : forall n root ok sub k s, dreach stops (dinit n root ok sub) k s -> oinv root s.
Proof.
  intros n root ok sub k s H. induction H as [|k s l s' _ IH Hst]; [|apply (oinv_step _ s l s' IH Hst)].
  split; [|split]; cbn.
  - intros l1 p b l2 E. destruct l1; discriminate.
  - intros j [<-|[]]. left. reflexivity.
  - intros w Hw. apply repeat_spec in Hw. subst. exact I.
Qed.

(** ** Termination *)
Fixpoint fpot (f : forest) : nat :=
  match f with FNil => 0 | FFile _ r => 2 + fpot r | FDir _ _ sub r => 11 + fpot sub + fpot r end.
Definition jpot (j : job) : nat := 5 + fpot (j_sub j).
Definition wpot (w : wk) : nat :=
  match w with
  | WCheck => 2 | WTake => 1
  | WRead j => jpot j
  | WKids ph p (FDir nm ok sub r) => match ph with 0 => 12 + fpot sub + fpot r | 1 => 11 + fpot sub + fpot r | _ => 5 + fpot r end
  | WKids _ p cs => 1 + fpot cs
  | WStop p cs => 2 + fpot cs
  | WErr _ => 1
  | _ => 0
  end.
Definition mpot (m : mpc) : nat := match m with MJob => 7 | MSelect => 2 | MFin => 1 | MEnd => 0 end.
Definition tpot (t : tpc) : nat := match t with TNone => 0 | TWait => 2 | TSend => 1 | TEnd => 0 end.
Definition pot (s : dw) : nat :=
  sum jpot (d_queue s) + sum wpot (d_work s) + 3 * d_senders s + mpot (d_main s) + tpot (d_wait s).

Lemma wpot_kids0 : forall p cs, wpot (WKids 0 p cs) = 1 + fpot cs.
Proof. intros p [| |]; cbn; lia. Qed.

Lemma pot_step : forall n all s l s', inv n all s -> dstep stops s l = Some s' -> S (pot s') <= pot s.
Proof.
  intros n all s l s' HI H. unfold pot.
  assert (Hupd : forall i w w', nth_error (d_work s) i = Some w -> sum wpot (upd (d_work s) i w') + wpot w = sum wpot (d_work s) + wpot w').
  { intros. apply sum_upd. assumption. }
  destruct l as [i|i|i|i|i| |]; cbn [dstep] in H.
  - destruct (nth_error (d_work s) i) as [w|] eqn:Ew; [|discriminate].
    assert (Hcall : forall e p cs, 3 + fpot cs <= wpot w ->
       S (pot (call stops s i e p cs)) <= sum jpot (d_queue s) + sum wpot (d_work s) + 3 * d_senders s + mpot (d_main s) + tpot (d_wait s)).
    { intros e p cs Hp. unfold call, pot. cbn [d_queue d_wg d_senders d_work d_main d_wait].
      pose proof (Hupd i w (if stops e then WStop p cs else WKids 0 p cs) Ew) as U.
      assert (wpot (if stops e then WStop p cs else WKids 0 p cs) <= 2 + fpot cs) by (destruct (stops e); [cbn; lia|rewrite wpot_kids0; lia]). lia. }
    destruct w as [| | |j|ph p cs|p cs|j|j|]; cbn [local] in H; try discriminate.
    + destruct (d_queue s) as [|j q] eqn:Eq; injection H as <-; unfold set_w; cbn [d_queue d_wg d_senders d_work d_main d_wait]; rewrite ?Eq.
      * pose proof (Hupd i _ WIdle Ew) as U. cbn in U |- *. lia.
      * pose proof (Hupd i _ WTake Ew) as U. cbn in U |- *. lia.
    + pose proof (sum_ge _ tok _ _ _ Ew) as Ht. cbn in Ht. pose proof (v_tok _ _ _ HI) as Htok.
      destruct (d_queue s) as [|j q] eqn:Eq; [cbn in Htok; lia|].
      injection H as <-. cbn [d_queue d_wg d_senders d_work d_main d_wait sum]. pose proof (Hupd i _ (WRead j) Ew) as U. cbn [wpot] in U. lia.
    + destruct (j_ok j); injection H as <-.
      * apply Hcall. cbn. unfold jpot. lia.
      * unfold set_w. cbn [d_queue d_wg d_senders d_work d_main d_wait]. pose proof (Hupd i _ (WErr j) Ew) as U. cbn [wpot] in U. unfold jpot in U. lia.
    + destruct cs as [|nm r|nm ok sub r].
      * pose proof (sum_ge _ share _ _ _ Ew) as Hs. cbn in Hs. pose proof (v_wg _ _ _ HI) as Hwg.
        destruct ph as [|[|ph]]; cbn in H; (destruct (d_wg s) as [|m] eqn:Em; [lia|]; injection H as <-;
        cbn [d_queue d_wg d_senders d_work d_main d_wait]; pose proof (Hupd i _ WIdle Ew) as U; cbn in U; lia).
      * destruct ph as [|[|ph]]; cbn in H; injection H as <-; apply Hcall; cbn; lia.
      * destruct ph as [|[|ph]]; cbn in H; injection H as <-; cbn [d_queue d_wg d_senders d_work d_main d_wait].
        -- pose proof (Hupd i _ (WKids 1 p (FDir nm ok sub r)) Ew) as U. cbn [wpot] in U. lia.
        -- pose proof (Hupd i _ (WKids 2 p (FDir nm ok sub r)) Ew) as U. cbn [wpot] in U. rewrite sum_app. cbn [sum jpot]. unfold jpot at 2. cbn [j_sub]. lia.
        -- pose proof (Hupd i _ (WKids 0 p r) Ew) as U. rewrite wpot_kids0 in U. cbn [wpot] in U. lia.
  - destruct (nth_error (d_work s) i) as [w|] eqn:Ew; [|discriminate]. destruct w; try discriminate.
    destruct (d_main s) eqn:Em; try discriminate. injection H as <-. cbn [d_queue d_wg d_senders d_work d_main d_wait mpot tpot].
    pose proof (Hupd i _ WCheck Ew) as U. cbn [wpot] in U. lia.
  - destruct (nth_error (d_work s) i) as [w|] eqn:Ew; [|discriminate]. destruct w; try discriminate.
    destruct (d_senders s) eqn:Em; try discriminate. injection H as <-. cbn [d_queue d_wg d_senders d_work d_main d_wait mpot tpot].
    pose proof (Hupd i _ WCheck Ew) as U. cbn [wpot] in U. lia.
  - destruct (nth_error (d_work s) i) as [w|] eqn:Ew; [|discriminate]. destruct w as [| | |j|ph p cs|p cs|j|j|]; try discriminate;
    (destruct (d_main s) eqn:Em; try discriminate; injection H as <-; cbn [d_queue d_wg d_senders d_work d_main d_wait mpot tpot]).
    + pose proof (Hupd i _ (WKids 0 p cs) Ew) as U. rewrite wpot_kids0 in U. cbn [wpot] in U. lia.
    + pose proof (Hupd i _ (WDead j) Ew) as U. cbn [wpot] in U. lia.
  - destruct (nth_error (d_work s) i) as [w|] eqn:Ew; [|discriminate]. destruct w; try discriminate.
    destruct (d_main s) eqn:Em; try discriminate. injection H as <-. cbn [d_queue d_wg d_senders d_work d_main d_wait mpot tpot].
    pose proof (Hupd i _ WEnd Ew) as U. cbn [wpot] in U. lia.
  - destruct (d_wait s) eqn:Et; try discriminate. destruct (d_wg s); try discriminate. injection H as <-.
    cbn [d_queue d_wg d_senders d_work d_main d_wait mpot tpot]. lia.
  - destruct (d_wait s) eqn:Et; try discriminate. destruct (d_main s) eqn:Em; try discriminate. injection H as <-.
    cbn [d_queue d_wg d_senders d_work d_main d_wait mpot tpot]. lia.
Qed.

Lemma fpot_size : forall f, fpot f <= 11 * size f.
Proof. induction f; cbn; lia. Qed.

Lemma dreach_bound : forall n root ok sub k s, dreach stops (dinit n root ok sub) k s -> k + pot s <= 12 + 11 * size sub.
Proof.
  intros n root ok sub k s H. induction H as [|k s l s' Hr IH Hst].
  - unfold pot. cbn. rewrite sum_repeat by reflexivity. unfold jpot. cbn. pose proof (fpot_size sub). lia.
  - pose proof (pot_step _ _ s l s' (inv_reach _ _ _ _ _ _ Hr) Hst). lia.
Qed.

(** ** Visits *)
Lemma visits : forall n root ok sub k s, dreach stops (dinit n root ok sub) k s ->
  exists rest, Permutation (entries root sub) (d_events s ++ rest).
Proof.
  intros n root ok sub k s H. pose proof (inv_reach _ _ _ _ _ _ H) as HI.
  exists (flat_map jobents (d_queue s) ++ flat_map pend (d_work s)).
  apply (Permutation_count_occ event_dec). intros x. pose proof (v_cnt _ _ _ HI x) as Hc.
  assert (F1 : forall l, cnt x (flat_map jobents l) = sum (fun j => cnt x (jobents j)) l)
    by (induction l as [|a l IH]; [reflexivity|cbn [flat_map sum]; rewrite cnt_app, IH; reflexivity]).
  assert (F2 : forall l, cnt x (flat_map pend l) = sum (fun j => cnt x (pend j)) l)
    by (induction l as [|a l IH]; [reflexivity|cbn [flat_map sum]; rewrite cnt_app, IH; reflexivity]).
  fold (cnt x (entries root sub)). fold (cnt x (d_events s ++ flat_map jobents (d_queue s) ++ flat_map pend (d_work s))).
  rewrite !cnt_app, F1, F2. lia.
Qed.

Lemma share_pend : forall w, share w = 0 -> pend w = [].
Proof. intros [| | |j|ph p [| |]|p cs|j|j|]; cbn; try discriminate; try reflexivity. destruct (Nat.eqb ph 1); discriminate. Qed.
Lemma sum_zero : forall A (f : A -> nat) l, sum f l = 0 -> forall w, In w l -> f w = 0.
Proof. intros A f l. induction l as [|x l IH]; intros H w []; cbn in H; [subst; lia|apply IH; [lia|assumption]]. Qed.

Lemma complete : forall n root ok sub k s, dreach stops (dinit n root ok sub) k s ->
  (d_main s = MFin \/ d_main s = MEnd) -> d_err s = false ->
  Permutation (entries root sub) (d_events s).
Proof.
  intros n root ok sub k s H Hm He. pose proof (inv_reach _ _ _ _ _ _ H) as HI.
  pose proof (v_fin _ _ _ HI Hm He) as Ht. pose proof (v_zero _ _ _ HI (or_intror Ht)) as Hz.
  pose proof (v_wg _ _ _ HI) as Hwg. destruct (d_queue s) as [|j q] eqn:Eq; [|cbn in Hwg; lia].
  apply (Permutation_count_occ event_dec). intros x. pose proof (v_cnt _ _ _ HI x) as Hc. rewrite Eq in Hc. cbn [sum] in Hc.
  assert (Hs : forall l, sum share l = 0 -> sum (fun w => cnt x (pend w)) l = 0).
  { induction l as [|w l IH]; intros E; [reflexivity|]. cbn in E |- *. rewrite share_pend by lia. cbn. apply IH. lia. }
  rewrite Hs in Hc by (cbn in Hwg; lia). unfold cnt in Hc. lia.
Qed.
End Stops.

(** ** Without failures *)
Definition nostop (e : event) : bool := false.
Definition wclean (w : wk) : bool :=
  match w with
  | WRead j => j_ok j && readable (j_sub j)
  | WKids _ p cs => readable cs
  | WStop _ _ | WErr _ | WDead _ => false
  | _ => true
  end.
Definition clean (s : dw) : Prop :=
  forallb wclean (d_work s) = true /\ forallb (fun j => j_ok j && readable (j_sub j)) (d_queue s) = true /\ d_err s = false.

Lemma forallb_upd : forall A (f : A -> bool) l i x, forallb f l = true -> f x = true -> forallb f (upd l i x) = true.
Proof. intros A f l i x H Hx. apply forallb_forall. intros y Hy. apply in_upd in Hy. destruct Hy as [->|Hy]; [exact Hx|]. apply (proj1 (forallb_forall f l) H y Hy). Qed.

Lemma clean_step : forall s l s', clean s -> dstep nostop s l = Some s' -> clean s'.
Proof.
  intros s l s' [H1 [H2 H3]] H.
  assert (Hin : forall i w, nth_error (d_work s) i = Some w -> wclean w = true) by (intros i w Hw; apply (proj1 (forallb_forall wclean _) H1); apply (nth_error_In _ i Hw)).
  assert (Hset : forall i w q wg sd m t ev pn, wclean w = true -> forallb (fun j => j_ok j && readable (j_sub j)) q = true ->
     clean (mk_dw q wg sd (upd (d_work s) i w) m t ev (d_err s) pn)).
  { intros. split; [|split]; cbn; [apply forallb_upd; assumption|assumption|exact H3]. }
  assert (Hkeep : forall q wg sd m t ev pn, forallb (fun j => j_ok j && readable (j_sub j)) q = true ->
     clean (mk_dw q wg sd (d_work s) m t ev (d_err s) pn)).
  { intros. split; [|split]; assumption. }
  destruct l as [i|i|i|i|i| |]; cbn [dstep] in H.
  - destruct (nth_error (d_work s) i) as [w|] eqn:Ew; [|discriminate]. pose proof (Hin i w Ew) as Hw.
    destruct w as [| | |j|ph p cs|p cs|j|j|]; cbn [local] in H; try discriminate.
    + destruct (d_queue s) eqn:Eq; injection H as <-; apply Hset; rewrite ?Eq; try reflexivity; exact H2.
    + destruct (d_queue s) as [|j q] eqn:Eq; injection H as <-; [apply Hkeep; reflexivity|].
      cbn in H2. apply andb_true_iff in H2. destruct H2 as [H2a H2b]. apply Hset; assumption.
    + cbn in Hw. destruct (j_ok j); [|discriminate]. injection H as <-. unfold call. cbn [nostop]. apply Hset; [exact Hw|exact H2].
    + cbn in Hw. destruct cs as [|nm r|nm ok sub r].
      * destruct ph as [|[|ph]]; cbn in H; (destruct (d_wg s); injection H as <-; [apply Hkeep; exact H2|apply Hset; [reflexivity|exact H2]]).
      * destruct ph as [|[|ph]]; cbn in H; injection H as <-; unfold call; cbn [nostop]; (apply Hset; [exact Hw|exact H2]).
      * destruct ph as [|[|ph]]; cbn in H; injection H as <-; apply Hset; try exact Hw; try exact H2.
        -- rewrite forallb_app, H2. cbn [forallb j_ok j_sub andb]. cbn in Hw. apply andb_true_iff in Hw. destruct Hw as [Hw _]. rewrite Hw. reflexivity.
        -- cbn in Hw |- *. apply andb_true_iff in Hw. apply Hw.
  - destruct (nth_error (d_work s) i) as [w|] eqn:Ew; [|discriminate]. destruct w; try discriminate.
    destruct (d_main s); try discriminate. injection H as <-. apply Hset; [reflexivity|exact H2].
  - destruct (nth_error (d_work s) i) as [w|] eqn:Ew; [|discriminate]. destruct w; try discriminate.
    destruct (d_senders s); try discriminate. injection H as <-. apply Hset; [reflexivity|exact H2].
  - destruct (nth_error (d_work s) i) as [w|] eqn:Ew; [|discriminate]. pose proof (Hin i w Ew) as Hw. destruct w; discriminate.
  - destruct (nth_error (d_work s) i) as [w|] eqn:Ew; [|discriminate]. destruct w; try discriminate.
    destruct (d_main s); try discriminate. injection H as <-. apply Hset; [reflexivity|exact H2].
  - destruct (d_wait s); try discriminate. destruct (d_wg s); try discriminate. injection H as <-. apply Hkeep. exact H2.
  - destruct (d_wait s); try discriminate. destruct (d_main s); try discriminate. injection H as <-. apply Hkeep. exact H2.
Qed.

Lemma clean_reach : forall n root sub k s, readable sub = true -> dreach nostop (dinit n root true sub) k s -> clean s.
Proof.
  intros n root sub k s Hr H. induction H as [|k s l s' _ IH Hst]; [|apply (clean_step s l s' IH Hst)].
  split; [|split]; cbn; [|rewrite Hr; reflexivity|reflexivity].
  apply forallb_forall. intros w Hw. apply repeat_spec in Hw. subst. reflexivity.
Qed.

(** A worker that does not wait can move. *)
Lemma local_moves : forall stops s i w, nth_error (d_work s) i = Some w ->
  match w with WCheck | WTake | WRead _ | WKids _ _ _ => True | _ => False end -> exists s', dstep stops s (LLocal i) = Some s'.
Proof.
  intros stops s i w Hw Hk. cbn [dstep]. rewrite Hw. destruct w as [| | |j|ph p cs|p cs|j|j|]; try contradiction; cbn [local].
  - destruct (d_queue s); eexists; reflexivity.
  - destruct (d_queue s); eexists; reflexivity.
  - destruct (j_ok j); eexists; reflexivity.
  - destruct cs; destruct ph as [|[|ph]]; cbn; try (eexists; reflexivity); destruct (d_wg s); eexists; reflexivity.
Qed.

Lemma stuck_end : forall n root sub k s, 1 <= n -> readable sub = true -> dreach nostop (dinit n root true sub) k s ->
  (forall l, dstep nostop s l = None) ->
  d_main s = MEnd /\ d_wait s = TEnd /\ d_senders s = 0 /\ d_queue s = []
  /\ sum isend (d_work s) = 1 /\ (forall w, In w (d_work s) -> w = WIdle \/ w = WEnd).
Proof.
  intros n root sub k s Hn Hr H Hst. pose proof (inv_reach _ _ _ _ _ _ _ H) as [Hlen Htok Hwg _ _ Hend Hjob Hzero Htend Hfin].
  pose proof (clean_reach _ _ _ _ _ Hr H) as [C1 [_ C3]].
  assert (Hall : forall i w, nth_error (d_work s) i = Some w -> w = WIdle \/ w = WEnd).
  { intros i w Hw. pose proof (proj1 (forallb_forall wclean _) C1 w (nth_error_In _ i Hw)) as Hc.
    destruct w as [| | |j|ph p cs|p cs|j|j|]; try discriminate; auto;
    (exfalso; destruct (local_moves nostop s i _ Hw I) as [s' Hs']; rewrite Hst in Hs'; discriminate). }
  assert (HallIn : forall w, In w (d_work s) -> w = WIdle \/ w = WEnd).
  { intros w Hw. apply In_nth_error in Hw. destruct Hw as [i Hw]. apply (Hall i w Hw). }
  assert (Hs0 : forall l, (forall w, In w l -> w = WIdle \/ w = WEnd) -> sum share l = 0 /\ sum tok l = 0).
  { induction l as [|w l IH]; intros Hl; [split; reflexivity|]. cbn. destruct (IH (fun w Hw => Hl w (or_intror Hw))) as [I1 I2].
    destruct (Hl w (or_introl eq_refl)) as [->| ->]; cbn; split; assumption. }
  destruct (Hs0 (d_work s) HallIn) as [S1 S2]. rewrite S2 in Htok. rewrite S1 in Hwg.
  destruct (d_main s) eqn:Em.
  - (* MJob *) exfalso. destruct (d_work s) as [|w ws] eqn:Ews; [cbn in Hlen; lia|].
    destruct (Hall 0 w eq_refl) as [->| ->]; [|cbn in Hend; lia].
    specialize (Hst (LMainJob 0)). cbn [dstep] in Hst. rewrite Ews, Em in Hst. discriminate.
  - exfalso. destruct (d_work s) as [|w ws] eqn:Ews; [cbn in Hlen; lia|].
    destruct (Hall 0 w eq_refl) as [->| ->]; [|cbn in Hend; lia].
    destruct (d_senders s) as [|m] eqn:Esd.
    + cbn in Htok. assert (E0 : d_wg s = 0) by lia.
      destruct (d_wait s) eqn:Et.
      * destruct Hjob as [_ Hjob]. specialize (Hjob eq_refl). discriminate.
      * specialize (Hst LWait). cbn [dstep] in Hst. rewrite Et, E0 in Hst. discriminate.
      * specialize (Hst LWgFin). cbn [dstep] in Hst. rewrite Et, Em in Hst. discriminate.
      * destruct (Htend eq_refl); discriminate.
    + specialize (Hst (LJob 0)). cbn [dstep] in Hst. rewrite Ews, Esd in Hst. discriminate.
  - exfalso. destruct (d_work s) as [|w ws] eqn:Ews; [cbn in Hlen; lia|].
    destruct (Hall 0 w eq_refl) as [->| ->]; [|cbn in Hend; lia].
    specialize (Hst (LFin 0)). cbn [dstep] in Hst. rewrite Ews, Em in Hst. discriminate.
  - pose proof (Hfin (or_intror eq_refl) C3) as Ht. pose proof (Hzero (or_intror Ht)) as Hz. cbn in Htok.
    split; [reflexivity|]. split; [exact Ht|]. assert (length (d_queue s) = 0) by lia. split; [lia|].
    split; [destruct (d_queue s); [reflexivity|discriminate]|]. split; [cbn in Hend; exact Hend|exact HallIn].
Qed.
