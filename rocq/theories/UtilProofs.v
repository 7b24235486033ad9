From Verif Require Import Base UtilModel UtilSpec.
From Coq Require Import ZifyBool ZifyNat Permutation.

Section OM.
Context {K V : Type} (keqb : K -> K -> bool).
Hypothesis keqb_spec : forall a b, keqb a b = true <-> a = b.

Lemma keqb_refl : forall k, keqb k k = true.
Proof. intros k. apply keqb_spec. reflexivity. Qed.
Lemma keqb_neq : forall a b, a <> b -> keqb a b = false.
Proof. intros a b H. destruct (keqb a b) eqn:E; [apply keqb_spec in E; congruence|reflexivity]. Qed.
Lemma keqb_sym : forall a b, keqb a b = keqb b a.
Proof.
  intros a b. destruct (keqb a b) eqn:E.
  - apply keqb_spec in E. subst. symmetry. apply keqb_refl.
  - symmetry. apply keqb_neq. intros ->. rewrite keqb_refl in E. discriminate.
Qed.

Lemma dict_get_del : forall A (d : list (K * A)) k k', dict_get keqb (dict_del keqb d k) k' =
  if keqb k' k then None else dict_get keqb d k'.
Proof.
  intros A d k k'. induction d as [|[k0 a] d IH]; [cbn; destruct (keqb k' k); reflexivity|].
  unfold dict_del in *. cbn [filter fst]. destruct (keqb k k0) eqn:E; cbn [negb].
  - apply keqb_spec in E. subst k0. rewrite IH. cbn. destruct (keqb k' k); reflexivity.
  - cbn. destruct (keqb k' k0) eqn:E2.
    + apply keqb_spec in E2. subst k0. rewrite keqb_sym in E. rewrite E. reflexivity.
    + apply IH.
Qed.

Lemma dict_get_put : forall A (d : list (K * A)) k k' a, dict_get keqb (dict_put keqb d k a) k' =
  if keqb k' k then Some a else dict_get keqb d k'.
Proof.
  intros A d k k' a. unfold dict_put. cbn. destruct (keqb k' k) eqn:E; [reflexivity|].
  rewrite dict_get_del, E. reflexivity.
Qed.

Notation omap := (@omap K V).

Record om_ok (m : omap) : Prop := {
  ok_key : forall k e, dict_get keqb (om_dict m) k = Some e -> fst (snd e) = k;
  ok_fresh : forall e, In e (om_list m) -> fst e < om_next m;
  ok_sound : forall e, In e (om_list m) -> dict_get keqb (om_dict m) (fst (snd e)) = Some e;
  ok_compl : forall k e, dict_get keqb (om_dict m) k = Some e -> In e (om_list m);
  ok_nodup : NoDup (map fst (om_list m)) }.

Lemma om_new_ok : om_ok om_new.
Proof. constructor; cbn; try (intros; contradiction); try (intros; discriminate). constructor. Qed.

Lemma list_remove_in : forall (l : list (@elem K V)) i e, In e (list_remove l i) <-> In e l /\ fst e <> i.
Proof.
  intros l i e. unfold list_remove. rewrite filter_In.
  rewrite negb_true_iff, Nat.eqb_neq. reflexivity.
Qed.

Lemma list_remove_app : forall (a b : list (@elem K V)) i, list_remove (a ++ b) i = list_remove a i ++ list_remove b i.
Proof. intros. apply filter_app. Qed.

Lemma nodup_remove : forall (l : list (@elem K V)) i, NoDup (map fst l) -> NoDup (map fst (list_remove l i)).
Proof.
  induction l as [|e l IH]; intros i H; [constructor|]. cbn in *. inversion H; subst.
  destruct (negb (Nat.eqb (fst e) i)); [|apply IH; assumption]. cbn. constructor; [|apply IH; assumption].
  intros HI. apply in_map_iff in HI. destruct HI as [x [Hx HI]]. apply filter_In in HI.
  apply H2. rewrite <- Hx. apply in_map. apply HI.
Qed.

Lemma nodup_snoc : forall A (l : list A) x, NoDup l -> ~ In x l -> NoDup (l ++ [x]).
Proof.
  intros A l x H Hn. apply Permutation_NoDup with (x :: l); [|constructor; assumption].
  apply Permutation_cons_append.
Qed.

Lemma nodup_app_r : forall A (a b : list A), NoDup (a ++ b) -> NoDup b.
Proof. induction a as [|x a IH]; intros b H; [assumption|]. apply IH. inversion H. assumption. Qed.

(** Unlinking the element of key [k] is dropping the pairs with key [k]. *)
Lemma remove_as_filter : forall m k old, om_ok m -> dict_get keqb (om_dict m) k = Some old ->
  map snd (list_remove (om_list m) (fst old)) = spec_without keqb (om_iter m) k.
Proof.
  intros m k old H Hd. unfold om_iter, spec_without, list_remove.
  assert (HE : forall e, In e (om_list m) -> Nat.eqb (fst e) (fst old) = keqb k (fst (snd e))).
  { intros e He. destruct (keqb k (fst (snd e))) eqn:E.
    - apply keqb_spec in E. pose proof (ok_sound m H e He) as HS. rewrite <- E, Hd in HS.
      injection HS as ->. apply Nat.eqb_refl.
    - apply Nat.eqb_neq. intros HF.
      assert (e = old).
      { pose proof (ok_compl m H _ _ Hd) as Ho. pose proof (ok_nodup m H) as HN. clear - HN He Ho HF.
        induction (om_list m) as [|x l IH]; [contradiction|]. cbn in HN. inversion HN; subst.
        destruct He as [->|He]; destruct Ho as [Ho|Ho].
        - congruence.
        - exfalso. apply H1. rewrite HF. apply in_map. assumption.
        - subst. exfalso. apply H1. rewrite <- HF. apply in_map. assumption.
        - apply IH; assumption. }
      subst e. rewrite (ok_key m H _ _ Hd), keqb_refl in E. discriminate. }
  induction (om_list m) as [|e l IH]; [reflexivity|]. cbn [filter map].
  rewrite HE by (left; reflexivity). destruct (negb (keqb k (fst (snd e)))); cbn [map];
    rewrite IH by (intros; apply HE; right; assumption); reflexivity.
Qed.

Lemma absent_filter : forall m k, om_ok m -> dict_get keqb (om_dict m) k = None ->
  spec_without keqb (om_iter m) k = om_iter m.
Proof.
  intros m k H Hd. unfold om_iter, spec_without.
  assert (HE : forall e, In e (om_list m) -> keqb k (fst (snd e)) = false).
  { intros e He. apply keqb_neq. intros ->. pose proof (ok_sound m H e He). congruence. }
  induction (om_list m) as [|e l IH]; [reflexivity|]. cbn [map filter].
  rewrite HE by (left; reflexivity). cbn. f_equal. apply IH. intros. apply HE. right. assumption.
Qed.

Lemma om_set_dict : forall (m : omap) k v, om_dict (snd (om_set keqb m k v))
  = dict_put keqb (om_dict m) k (om_next m, (k, v)).
Proof. intros. unfold om_set. destruct (dict_get keqb (om_dict m) k); reflexivity. Qed.

Lemma om_set_ok : forall m k v, om_ok m -> om_ok (snd (om_set keqb m k v)).
Proof.
  intros m k v H. pose proof (om_set_dict m k v) as HD.
  assert (HL : om_list (snd (om_set keqb m k v)) =
    match dict_get keqb (om_dict m) k with Some old => list_remove (om_list m) (fst old) | None => om_list m end
    ++ [(om_next m, (k, v))]).
  { unfold om_set. destruct (dict_get keqb (om_dict m) k) as [old|] eqn:E; [|reflexivity].
    cbn [snd om_list]. rewrite list_remove_app. f_equal. cbn.
    pose proof (ok_fresh m H _ (ok_compl m H _ _ E)). 
    replace (Nat.eqb (om_next m) (fst old)) with false by lia. reflexivity. }
  assert (HN : om_next (snd (om_set keqb m k v)) = S (om_next m))
    by (unfold om_set; destruct (dict_get keqb (om_dict m) k); reflexivity).
  set (base := match dict_get keqb (om_dict m) k with Some old => list_remove (om_list m) (fst old) | None => om_list m end) in *.
  assert (HB : forall e, In e base <-> In e (om_list m) /\ fst (snd e) <> k).
  { intros e. unfold base. destruct (dict_get keqb (om_dict m) k) as [old|] eqn:E.
    - rewrite list_remove_in. split; intros [H1 H2]; split; try assumption; intros H3.
      + apply H2. pose proof (ok_sound m H e H1) as HS. rewrite H3, E in HS. congruence.
      + assert (e = old).
        { pose proof (ok_compl m H _ _ E) as Ho. pose proof (ok_nodup m H) as HNd. clear - HNd H1 Ho H3.
          induction (om_list m) as [|x l IH]; [contradiction|]. cbn in HNd. inversion HNd; subst.
          destruct H1 as [->|He]; destruct Ho as [Ho|Ho].
          - congruence.
          - exfalso. apply H2. rewrite H3. apply in_map. assumption.
          - subst. exfalso. apply H2. rewrite <- H3. apply in_map. assumption.
          - apply IH; assumption. }
        subst e. apply H2. apply (ok_key m H _ _ E).
    - split; [|tauto]. intros H1. split; [assumption|]. intros H3.
      pose proof (ok_sound m H e H1). congruence. }
  constructor; rewrite ?HD, ?HL, ?HN.
  - intros k' e. rewrite dict_get_put. destruct (keqb k' k) eqn:E.
    + intros [= <-]. apply keqb_spec in E. subst. reflexivity.
    + apply (ok_key m H).
  - intros e He. apply in_app_iff in He. destruct He as [He|[<-|[]]]; [|cbn; lia].
    apply HB in He. pose proof (ok_fresh m H e (proj1 He)). lia.
  - intros e He. rewrite dict_get_put. apply in_app_iff in He. destruct He as [He|[<-|[]]].
    + apply HB in He. destruct He as [He Hne]. rewrite keqb_neq by assumption. apply (ok_sound m H); assumption.
    + cbn. rewrite keqb_refl. reflexivity.
  - intros k' e. rewrite dict_get_put. destruct (keqb k' k) eqn:E.
    + intros [= <-]. apply in_app_iff. right. left. reflexivity.
    + intros Hd. apply in_app_iff. left. apply HB. split; [apply (ok_compl m H) in Hd; assumption|].
      rewrite (ok_key m H _ _ Hd). intros ->. rewrite keqb_refl in E. discriminate.
  - rewrite map_app. cbn. apply nodup_snoc.
    + unfold base. destruct (dict_get keqb (om_dict m) k); [apply nodup_remove|]; apply (ok_nodup m H).
    + intros HI. apply in_map_iff in HI. destruct HI as [e [He HI]]. apply HB in HI.
      pose proof (ok_fresh m H e (proj1 HI)). lia.
Qed.

Lemma om_remove_ok : forall m k, om_ok m -> om_ok (om_remove keqb m k).
Proof.
  intros m k H. unfold om_remove. destruct (dict_get keqb (om_dict m) k) as [old|] eqn:E; [|assumption].
  constructor; cbn [om_dict om_list om_next].
  - intros k' e. rewrite dict_get_del. destruct (keqb k' k); [discriminate|]. apply (ok_key m H).
  - intros e He. apply list_remove_in in He. apply (ok_fresh m H). tauto.
  - intros e He. apply list_remove_in in He. destruct He as [He Hne].
    pose proof (ok_sound m H e He) as HS. rewrite dict_get_del, keqb_neq; [assumption|].
    intros Hk. rewrite Hk, E in HS. congruence.
  - intros k' e. rewrite dict_get_del. destruct (keqb k' k) eqn:Ek; [discriminate|]. intros Hd.
    apply list_remove_in. pose proof (ok_compl m H _ _ Hd) as Hin. split; [assumption|].
    intros Hf. assert (e = old).
    { pose proof (ok_compl m H _ _ E) as Ho. pose proof (ok_nodup m H) as HNd. clear - HNd Hin Ho Hf.
      induction (om_list m) as [|x l IH]; [contradiction|]. cbn in HNd. inversion HNd; subst.
      destruct Hin as [->|He]; destruct Ho as [Ho|Ho].
      - congruence.
      - exfalso. apply H1. rewrite Hf. apply in_map. assumption.
      - subst. exfalso. apply H1. rewrite <- Hf. apply in_map. assumption.
      - apply IH; assumption. }
    subst e. pose proof (ok_key m H _ _ Hd) as HK1. pose proof (ok_key m H _ _ E) as HK2.
    assert (HKK : k' = k) by congruence. rewrite HKK, keqb_refl in Ek. discriminate.
  - apply nodup_remove, (ok_nodup m H).
Qed.

Lemma omstep_ok : forall m o, om_ok m -> om_ok (omstep keqb m o).
Proof. intros m [k v|k] H; [apply om_set_ok|apply om_remove_ok]; assumption. Qed.

Lemma omstep_iter : forall m o, om_ok m -> om_iter (omstep keqb m o) = spec_step keqb (om_iter m) o.
Proof.
  intros m [k v|k] H; cbn [omstep spec_step].
  - unfold om_set. destruct (dict_get keqb (om_dict m) k) as [old|] eqn:E.
    + unfold om_iter at 1. cbn [snd om_list]. rewrite list_remove_app, map_app.
      apply (f_equal2 (@app _)); [exact (remove_as_filter m k old H E)|]. cbn.
      pose proof (ok_fresh m H _ (ok_compl m H _ _ E)).
      replace (Nat.eqb (om_next m) (fst old)) with false by lia. reflexivity.
    + rewrite (absent_filter m k H E). unfold om_iter. cbn [snd om_list]. rewrite map_app. reflexivity.
  - unfold om_remove. destruct (dict_get keqb (om_dict m) k) as [old|] eqn:E.
    + unfold om_iter at 1. cbn [om_list]. apply remove_as_filter; assumption.
    + symmetry. apply absent_filter; assumption.
Qed.

Lemma omstep_get : forall (m : omap) o k, om_get keqb (omstep keqb m o) k =
  match o with
  | OMSet k' v => if keqb k k' then Some v else om_get keqb m k
  | OMRemove k' => if keqb k k' then None else om_get keqb m k
  end.
Proof.
  intros m [k' v|k'] k; cbn [omstep]; unfold om_get.
  - rewrite om_set_dict, dict_get_put. destruct (keqb k k'); reflexivity.
  - unfold om_remove. destruct (dict_get keqb (om_dict m) k') as [old|] eqn:E.
    + cbn [om_dict]. rewrite dict_get_del. destruct (keqb k k'); reflexivity.
    + destruct (keqb k k') eqn:E2; [|reflexivity]. apply keqb_spec in E2. subst. rewrite E. reflexivity.
Qed.

Lemma omrun_ok : forall ops, om_ok (omrun keqb ops) /\ om_iter (omrun keqb ops) = spec_map keqb ops
  /\ forall k, om_get keqb (omrun keqb ops) k = last_write keqb ops k.
Proof.
  intros ops. unfold omrun, spec_map, last_write.
  assert (G : forall ops m l, om_ok m -> om_iter m = l ->
     om_ok (fold_left (omstep keqb) ops m) /\ om_iter (fold_left (omstep keqb) ops m) = fold_left (spec_step keqb) ops l
     /\ forall k, om_get keqb (fold_left (omstep keqb) ops m) k
        = fold_left (fun acc o => match o with
                          | OMSet k' v => if keqb k k' then Some v else acc
                          | OMRemove k' => if keqb k k' then None else acc
                          end) ops (om_get keqb m k)).
  { clear ops. induction ops as [|o ops IH]; intros m l H E; [cbn; auto|]. cbn [fold_left].
    destruct (IH (omstep keqb m o) (spec_step keqb l o)) as [I1 [I2 I3]].
    - apply omstep_ok. assumption.
    - rewrite <- E. apply omstep_iter. assumption.
    - split; [assumption|]. split; [assumption|]. intros k. rewrite I3, omstep_get. destruct o; reflexivity. }
  destruct (G ops om_new [] om_new_ok eq_refl) as [G1 [G2 G3]]. split; [assumption|]. split; [assumption|].
  intros k. rewrite G3. reflexivity.
Qed.

Lemma om_has_get : forall (m : omap) k, om_has keqb m k = match om_get keqb m k with Some _ => true | None => false end.
Proof. intros m k. unfold om_has, om_get. destruct (dict_get keqb (om_dict m) k); reflexivity. Qed.

Lemma spec_map_nodup : forall (ops : list (@omop K V)), NoDup (map fst (spec_map keqb ops)).
Proof.
  assert (G : forall (ops : list (@omop K V)) (l : list (K * V)), NoDup (map fst l) -> NoDup (map fst (fold_left (spec_step keqb) ops l))).
  { induction ops as [|o ops IH]; intros l H; [assumption|]. cbn. apply IH.
    assert (HF : forall k, NoDup (map fst (spec_without keqb l k)) /\ ~ In k (map fst (spec_without keqb l k))).
    { intros k. split.
      - unfold spec_without. clear IH. induction l as [|p l IHl]; [constructor|]. cbn in *. inversion H; subst.
        destruct (negb (keqb k (fst p))); [|apply IHl; assumption]. cbn. constructor; [|apply IHl; assumption].
        intros HI. apply in_map_iff in HI. destruct HI as [x [Hx HI]]. apply filter_In in HI. apply H2.
        rewrite <- Hx. apply in_map. apply HI.
      - intros HI. apply in_map_iff in HI. destruct HI as [x [Hx HI]]. apply filter_In in HI.
        destruct HI as [_ HI]. rewrite Hx, keqb_refl in HI. discriminate. }
    destruct o as [k v|k]; cbn; [|apply HF]. rewrite map_app. cbn. apply nodup_snoc; apply HF. }
  intros ops. apply G. constructor.
Qed.

(** * LRU *)

Lemma lru_body_get : forall (c : @lru K V) p k v k', lru_get keqb (lru_body keqb c p k v) k' =
  if keqb k' k then Some v else lru_get keqb c k'.
Proof.
  intros c p k v k'. unfold lru_get, lru_body, om_get. destruct p.
  - destruct (om_set keqb (l_store c) k v) as [e m] eqn:E. cbn [l_store om_dict].
    pose proof (om_set_dict (l_store c) k v) as HD. rewrite E in HD. cbn in HD. rewrite HD, dict_get_put.
    destruct (keqb k' k); reflexivity.
  - cbn [l_store]. rewrite om_set_dict. cbn [om_dict om_next]. rewrite dict_get_put.
    destruct (keqb k' k); reflexivity.
Qed.

Lemma lru_sched_get : forall bodies (c : @lru K V) k, (forall k, lru_get keqb c k = None) ->
  lru_get keqb (lru_sched keqb c bodies) k = last_set keqb (map snd bodies) k.
Proof.
  intros bodies c k H. unfold lru_sched, last_set. rewrite <- (H k). clear H.
  revert c. induction bodies as [|[p [k0 v]] bodies IH]; intros c; [reflexivity|].
  cbn [fold_left map fst snd]. rewrite IH, lru_body_get. reflexivity.
Qed.

Lemma lru_run_sched : forall ops (c : @lru K V), exists bodies, map snd bodies = ops /\ lru_run keqb c ops = lru_sched keqb c bodies.
Proof.
  induction ops as [|[k v] ops IH]; intros c; [exists []; auto|].
  destruct (IH (lru_set keqb c k v)) as [bs [H1 H2]].
  exists ((lru_has keqb c k, (k, v)) :: bs). split; [cbn; congruence|].
  unfold lru_run, lru_sched in *. cbn [fold_left fst snd]. exact H2.
Qed.

Lemma lru_new_empty : forall cap clear k, lru_get keqb (@lru_new K V cap clear) k = None.
Proof. reflexivity. Qed.

(** Capacity, when no evicted key is ever set again. *)
Definition live (c : @lru K V) (k : K) : Prop := In k (map (fun e : @elem K V => fst (snd e)) (om_list (l_store c))).

Definition lru_ok (c : @lru K V) : Prop :=
  (forall e, In e (om_list (l_store c)) -> dict_get keqb (om_dict (l_store c)) (fst (snd e)) = Some e)
  /\ (forall e, In e (om_list (l_store c)) -> fst e < om_next (l_store c))
  /\ (forall k e, dict_get keqb (om_dict (l_store c)) k = Some e -> fst e < om_next (l_store c))
  /\ NoDup (map fst (om_list (l_store c)))
  /\ length (om_list (l_store c)) <= l_cap c.

Lemma list_remove_len : forall (l : list (@elem K V)) i, length (list_remove l i) <= length l.
Proof.
  intros l i. unfold list_remove. induction l as [|e l IH]; [cbn; lia|]. cbn.
  destruct (negb (Nat.eqb (fst e) i)); cbn; lia.
Qed.

Lemma list_remove_len_in : forall (l : list (@elem K V)) i, In i (map fst l) -> length (list_remove l i) < length l.
Proof.
  induction l as [|e l IH]; intros i H; [contradiction|]. cbn in *.
  destruct (Nat.eqb (fst e) i) eqn:E; cbn.
  - pose proof (list_remove_len l i). unfold list_remove in *. lia.
  - destruct H as [H|H]; [lia|]. specialize (IH i H). unfold list_remove in *. lia.
Qed.

Lemma list_remove_head : forall (e : @elem K V) l, NoDup (map fst (e :: l)) -> list_remove (e :: l) (fst e) = l.
Proof.
  intros e l H. unfold list_remove. cbn. rewrite Nat.eqb_refl. cbn.
  cbn in H. inversion H; subst. clear H.
  induction l as [|x l IH]; [reflexivity|]. cbn in *.
  replace (Nat.eqb (fst x) (fst e)) with false by (symmetry; apply Nat.eqb_neq; intros HH; apply H2; left; assumption).
  cbn. f_equal. inversion H3; subst. apply IH; [|assumption]. intros HI. apply H2. right. assumption.
Qed.

Lemma drop_front_skipn : forall n (l : list (@elem K V)), NoDup (map fst l) -> drop_front n l = skipn n l.
Proof.
  induction n as [|n IH]; intros l H; [destruct l; reflexivity|]. cbn [drop_front].
  destruct l as [|e l]; [rewrite IH by constructor; destruct n; reflexivity|].
  rewrite list_remove_head by assumption. cbn [skipn]. apply IH. inversion H; assumption.
Qed.

Lemma lru_set_ok : forall c k v, lru_ok c -> 0 < l_clear c -> 0 < l_cap c ->
  (lru_has keqb c k = true -> live c k) -> lru_ok (lru_set keqb c k v).
Proof.
  intros c k v [H1 [H2 [H3 [H4 H5]]]] Hc Hcap Hl. unfold lru_set.
  unfold lru_has, om_has in *. destruct (dict_get keqb (om_dict (l_store c)) k) as [old|] eqn:E.
  - specialize (Hl eq_refl). unfold live in Hl. apply in_map_iff in Hl. destruct Hl as [e [Hk He]].
    assert (e = old) by (pose proof (H1 e He) as HS; rewrite Hk, E in HS; congruence). subst e.
    unfold lru_body, om_set. rewrite E.
    set (e := (om_next (l_store c), (k, v))).
    set (L := list_remove (om_list (l_store c) ++ [e]) (fst old)).
    assert (HL : L = list_remove (om_list (l_store c)) (fst old) ++ [e]).
    { unfold L. rewrite list_remove_app. f_equal. cbn. pose proof (H2 old He).
      replace (Nat.eqb (om_next (l_store c)) (fst old)) with false by lia. reflexivity. }
    assert (HM : list_move_to_back L e = L).
    { unfold list_move_to_back. match goal with |- (if ?b then _ else _) = _ => destruct b end; [|reflexivity]. rewrite HL, list_remove_app.
      replace (list_remove [e] (fst e)) with (@nil (@elem K V)) by (unfold list_remove; cbn; rewrite Nat.eqb_refl; reflexivity).
      rewrite app_nil_r. f_equal. unfold list_remove at 1.
      assert (HF : forall x, In x (list_remove (om_list (l_store c)) (fst old)) -> negb (Nat.eqb (fst x) (fst e)) = true).
      { intros x Hx. apply list_remove_in in Hx. pose proof (H2 x (proj1 Hx)). cbn. lia. }
      clear - HF. induction (list_remove (om_list (l_store c)) (fst old)) as [|x l IH]; [reflexivity|].
      cbn. rewrite HF by (left; reflexivity). f_equal. apply IH. intros. apply HF. right. assumption. }
    unfold lru_ok. cbn [l_store om_list om_dict om_next l_cap]. rewrite HM, HL.
    repeat split.
    + intros x Hx. rewrite dict_get_put. apply in_app_iff in Hx. destruct Hx as [Hx|[<-|[]]].
      * apply list_remove_in in Hx. destruct Hx as [Hx Hn]. rewrite keqb_neq; [apply H1; assumption|].
        intros Hkx. apply Hn. pose proof (H1 x Hx) as HS. rewrite Hkx, E in HS. congruence.
      * cbn. rewrite keqb_refl. reflexivity.
    + intros x Hx. apply in_app_iff in Hx. destruct Hx as [Hx|[<-|[]]]; [|cbn; lia].
      apply list_remove_in in Hx. specialize (H2 x (proj1 Hx)). lia.
    + intros k' x. rewrite dict_get_put. destruct (keqb k' k); [intros [= <-]; cbn; lia|]. intros Hd. specialize (H3 _ _ Hd). lia.
    + rewrite map_app. cbn. apply nodup_snoc; [apply nodup_remove; assumption|].
      intros HI. apply in_map_iff in HI. destruct HI as [x [Hx HI]]. apply list_remove_in in HI.
      pose proof (H2 x (proj1 HI)). lia.
    + rewrite app_length. cbn. pose proof (list_remove_len_in (om_list (l_store c)) (fst old) (in_map fst _ _ He)). lia.
  - unfold lru_body.
    set (L := if (l_cap c <? length (om_list (l_store c)) + 1) then drop_front (l_clear c) (om_list (l_store c)) else om_list (l_store c)).
    assert (HL : exists j, L = skipn j (om_list (l_store c)) /\ length L + 1 <= l_cap c).
    { unfold L. destruct (l_cap c <? length (om_list (l_store c)) + 1) eqn:EL.
      - exists (l_clear c). rewrite drop_front_skipn by assumption. split; [reflexivity|]. rewrite skipn_length. lia.
      - exists 0. split; [reflexivity|]. lia. }
    destruct HL as [j [HL HLen]].
    assert (Hin : forall x, In x L -> In x (om_list (l_store c))).
    { intros x Hx. rewrite HL in Hx. rewrite <- (firstn_skipn j). apply in_app_iff. right. assumption. }
    unfold om_set. cbn [om_dict]. rewrite E. unfold lru_ok. cbn [snd l_store om_list om_dict om_next l_cap].
    repeat split.
    + intros x Hx. rewrite dict_get_put. apply in_app_iff in Hx. destruct Hx as [Hx|[<-|[]]].
      * pose proof (H1 x (Hin x Hx)) as HS. rewrite keqb_neq; [assumption|]. intros Hk. rewrite Hk in HS. congruence.
      * cbn. rewrite keqb_refl. reflexivity.
    + intros x Hx. apply in_app_iff in Hx. destruct Hx as [Hx|[<-|[]]]; [|cbn; lia]. pose proof (H2 x (Hin x Hx)). lia.
    + intros k' x. rewrite dict_get_put. destruct (keqb k' k); [intros [= <-]; cbn; lia|]. intros Hd. specialize (H3 _ _ Hd). lia.
    + rewrite map_app. cbn. apply nodup_snoc.
      * rewrite HL. rewrite <- (firstn_skipn j (om_list (l_store c))), map_app in H4.
        apply nodup_app_r in H4. assumption.
      * intros HI. apply in_map_iff in HI. destruct HI as [x [Hx HI]]. pose proof (H2 x (Hin x HI)). lia.
    + rewrite app_length. cbn. lia.
Qed.

(** No key is set again after it was evicted. *)
Fixpoint no_reset (c : @lru K V) (ops : list (K * V)) : Prop :=
  match ops with
  | [] => True
  | (k, v) :: r => (lru_has keqb c k = true -> live c k) /\ no_reset (lru_set keqb c k v) r
  end.

Lemma lru_capacity : forall ops cap clear, 0 < cap -> 0 < l_clear (@lru_new K V cap clear) ->
  no_reset (lru_new cap clear) ops ->
  length (om_list (l_store (lru_run keqb (lru_new cap clear) ops))) <= cap.
Proof.
  intros ops cap clear Hcap Hcl H.
  assert (G : forall ops c, lru_ok c -> 0 < l_clear c -> 0 < l_cap c -> no_reset c ops ->
     length (om_list (l_store (lru_run keqb c ops))) <= l_cap c).
  { clear ops cap clear Hcap Hcl H. induction ops as [|[k v] ops IH]; intros c Hok Hc Hcap H.
    - cbn. apply Hok.
    - destruct H as [H1 H2]. unfold lru_run in *. cbn [fold_left fst snd].
      assert (HC : l_cap (lru_set keqb c k v) = l_cap c /\ l_clear (lru_set keqb c k v) = l_clear c).
      { unfold lru_set, lru_body. destruct (lru_has keqb c k); [destruct (om_set keqb (l_store c) k v)|]; split; reflexivity. }
      destruct HC as [HC1 HC2]. rewrite <- HC1. apply IH; rewrite ?HC1, ?HC2; try assumption.
      apply lru_set_ok; assumption. }
  apply (G ops (lru_new cap clear)); try assumption.
  unfold lru_ok. cbn. repeat split; try (intros; contradiction); try (intros; discriminate); try constructor; lia.
Qed.
End OM.

(** * Slices *)
Section SL.
Context {T : Type}.

Lemma upd_length : forall A (l : list A) i x, length (upd l i x) = length l.
Proof.
  intros A l i x. unfold upd. rewrite app_length, firstn_length.
  pose proof (skipn_length i l) as H. destruct (skipn i l); cbn in *; lia.
Qed.

Lemma nth_error_upd : forall A (l : list A) i j x, nth_error (upd l i x) j =
  if Nat.eqb i j then (if (i <? length l)%nat then Some x else None) else nth_error l j.
Proof.
  intros A l. induction l as [|a l IH]; intros i j x.
  - destruct i, j; cbn; try reflexivity; destruct (Nat.eqb i j); reflexivity.
  - destruct i as [|i]; [destruct j; reflexivity|].
    destruct j as [|j]; [reflexivity|]. unfold upd in *. cbn [firstn skipn app nth_error Nat.eqb length].
    rewrite IH. reflexivity.
Qed.

Lemma arr_at_upd : forall (h : @heap T) r r' a, arr_at (upd h r a) r' =
  if Nat.eqb r r' then (if (r <? length h)%nat then a else []) else arr_at h r'.
Proof.
  intros h r r' a. unfold arr_at. rewrite !nth_default_eq || idtac.
  assert (G : forall (l : list (list T)) i, nth i l [] = match nth_error l i with Some x => x | None => [] end).
  { induction l as [|x l IH]; intros [|i]; cbn; auto. }
  rewrite !G, nth_error_upd. destruct (Nat.eqb r r'); [|reflexivity]. destruct (r <? length h)%nat; reflexivity.
Qed.

Definition sl_wf (h : @heap T) (s : gslice) : Prop :=
  sl_ref s < length h /\ sl_off s + sl_len s <= length (arr_at h (sl_ref s)).

Lemma nth_error_firstn_lt : forall A (l : list A) n i, i < n -> nth_error (firstn n l) i = nth_error l i.
Proof.
  intros A l n. revert l. induction n as [|n IH]; intros l i H; [lia|].
  destruct l; [destruct i; reflexivity|]. destruct i; [reflexivity|]. cbn. apply IH. lia.
Qed.
Lemma nth_error_skipn' : forall A (l : list A) a i, nth_error (skipn a l) i = nth_error l (a + i).
Proof.
  intros A l a. revert l. induction a as [|a IH]; intros l i; [reflexivity|].
  destruct l; [destruct i; reflexivity|]. cbn. apply IH.
Qed.

Lemma sl_val_nth : forall (h : @heap T) s i, sl_wf h s -> nth_error (sl_val h s) i = if (i <? sl_len s)%nat then nth_error (arr_at h (sl_ref s)) (sl_off s + i) else None.
Proof.
  intros h s i [H1 H2]. unfold sl_val. destruct (i <? sl_len s)%nat eqn:E.
  - rewrite nth_error_firstn_lt by lia. apply nth_error_skipn'.
  - apply nth_error_None. rewrite firstn_length. lia.
Qed.

Lemma sl_val_len : forall (h : @heap T) s, sl_wf h s -> length (sl_val h s) = sl_len s.
Proof. intros h s [H1 H2]. unfold sl_val. rewrite firstn_length, skipn_length. lia. Qed.

Lemma list_ext : forall A (l1 l2 : list A), (forall i, nth_error l1 i = nth_error l2 i) -> l1 = l2.
Proof.
  induction l1 as [|x l1 IH]; intros [|y l2] H.
  - reflexivity.
  - specialize (H 0). discriminate.
  - specialize (H 0). discriminate.
  - f_equal; [specialize (H 0); cbn in H; congruence|]. apply IH. intros i. apply (H (S i)).
Qed.

Lemma sl_load_val : forall (h : @heap T) s i, sl_wf h s -> sl_load h s i = nth_error (sl_val h s) i.
Proof. intros h s i H. rewrite sl_val_nth by assumption. reflexivity. Qed.

Lemma sl_store_spec : forall (h : @heap T) s i x, sl_wf h s -> i < sl_len s ->
  exists h', sl_store h s i x = Some h' /\ sl_wf h' s /\ sl_val h' s = upd (sl_val h s) i x
  /\ length h' = length h /\ (forall r, r <> sl_ref s -> arr_at h' r = arr_at h r)
  /\ length (arr_at h' (sl_ref s)) = length (arr_at h (sl_ref s)).
Proof.
  intros h s i x Hw Hi. unfold sl_store. replace (i <? sl_len s)%nat with true by lia.
  set (h' := upd h (sl_ref s) (upd (arr_at h (sl_ref s)) (sl_off s + i) x)).
  assert (HA : arr_at h' (sl_ref s) = upd (arr_at h (sl_ref s)) (sl_off s + i) x).
  { unfold h'. rewrite arr_at_upd, Nat.eqb_refl. destruct Hw as [Hw _].
    replace (sl_ref s <? length h)%nat with true by lia. reflexivity. }
  assert (Hw' : sl_wf h' s).
  { split; [unfold h'; rewrite upd_length; apply Hw|rewrite HA, upd_length; apply Hw]. }
  exists h'. split; [reflexivity|]. split; [assumption|]. split; [|split; [|split]].
  - apply list_ext. intros j. rewrite sl_val_nth by assumption. rewrite nth_error_upd.
    rewrite sl_val_len by assumption. rewrite (sl_val_nth h s j Hw), HA, nth_error_upd. destruct Hw as [Hw1 Hw2].
    destruct (Nat.eqb i j) eqn:E.
    + assert (i = j) by lia. subst j. replace (i <? sl_len s)%nat with true by lia.
      rewrite Nat.eqb_refl. replace (sl_off s + i <? length (arr_at h (sl_ref s)))%nat with true by lia. reflexivity.
    + replace (Nat.eqb (sl_off s + i) (sl_off s + j)) with false by lia. reflexivity.
  - unfold h'. apply upd_length.
  - intros r Hr. unfold h'. rewrite arr_at_upd. replace (Nat.eqb (sl_ref s) r) with false by lia. reflexivity.
  - rewrite HA. apply upd_length.
Qed.

Lemma swap_spec : forall (h : @heap T) s i j, sl_wf h s -> i < sl_len s -> j < sl_len s ->
  exists h' x y, swap h s i j = Some h' /\ sl_wf h' s
  /\ nth_error (sl_val h s) i = Some y /\ nth_error (sl_val h s) j = Some x
  /\ sl_val h' s = upd (upd (sl_val h s) i x) j y
  /\ length h' = length h /\ (forall r, r <> sl_ref s -> arr_at h' r = arr_at h r)
  /\ length (arr_at h' (sl_ref s)) = length (arr_at h (sl_ref s)).
Proof.
  intros h s i j Hw Hi Hj. unfold swap. rewrite !sl_load_val by assumption.
  destruct (nth_error (sl_val h s) j) as [x|] eqn:Ex.
  2:{ apply nth_error_None in Ex. rewrite sl_val_len in Ex by assumption. lia. }
  destruct (nth_error (sl_val h s) i) as [y|] eqn:Ey.
  2:{ apply nth_error_None in Ey. rewrite sl_val_len in Ey by assumption. lia. }
  destruct (sl_store_spec h s i x Hw Hi) as [h1 [E1 [W1 [V1 [L1 [A1 B1]]]]]]. rewrite E1.
  destruct (sl_store_spec h1 s j y W1 Hj) as [h2 [E2 [W2 [V2 [L2 [A2 B2]]]]]].
  exists h2, x, y. rewrite E2, V2, V1. repeat split; try assumption; try congruence; try apply W2.
  intros r Hr. rewrite A2 by assumption. apply A1. assumption.
Qed.

Lemma swap_nth : forall (l : list T) i j x y k, nth_error l i = Some y -> nth_error l j = Some x ->
  nth_error (upd (upd l i x) j y) k =
  if Nat.eqb k j then Some y else if Nat.eqb k i then Some x else nth_error l k.
Proof.
  intros l i j x y k Hi Hj.
  assert (i < length l) by (apply nth_error_Some; congruence).
  assert (j < length l) by (apply nth_error_Some; congruence).
  rewrite !nth_error_upd, upd_length. rewrite (Nat.eqb_sym k j), (Nat.eqb_sym k i).
  replace (j <? length l)%nat with true by lia. replace (i <? length l)%nat with true by lia. reflexivity.
Qed.

Lemma upd_perm : forall (l : list T) i x y, nth_error l i = Some y -> Permutation (x :: l) (y :: upd l i x).
Proof.
  induction l as [|a l IH]; intros i x y H; [destruct i; discriminate|].
  destruct i as [|i]; cbn in *.
  - injection H as <-. unfold upd. cbn. apply perm_swap.
  - unfold upd in *. cbn [firstn skipn app]. specialize (IH i x y H).
    eapply Permutation_trans; [apply perm_swap|]. eapply Permutation_trans; [apply perm_skip, IH|]. apply perm_swap.
Qed.

Lemma swap_last_perm : forall (l : list T) i x y n, length l = S n -> nth_error l i = Some y -> nth_error l n = Some x ->
  Permutation l (y :: firstn n (upd (upd l i x) n y)).
Proof.
  intros l i x y n HL Hi Hn.
  destruct (Nat.eq_dec i n) as [->|Hne].
  - assert (x = y) by congruence. subst x.
    assert (HF : firstn n (upd (upd l n y) n y) = firstn n l).
    { apply list_ext. intros k. destruct (le_lt_dec n k) as [Hk|Hk].
      - rewrite !(proj2 (nth_error_None _ _)); [reflexivity| |]; rewrite firstn_length; lia.
      - rewrite !nth_error_firstn_lt by lia. rewrite swap_nth by assumption.
        replace (Nat.eqb k n) with false by lia. reflexivity. }
    rewrite HF.
    assert (HS : skipn n l = [y]).
    { apply list_ext. intros k. rewrite nth_error_skipn'. destruct k as [|k]; [rewrite Nat.add_0_r; assumption|].
      replace (nth_error [y] (S k)) with (@None T) by (destruct k; reflexivity). apply nth_error_None. lia. }
    rewrite <- (firstn_skipn n l) at 1. rewrite HS. symmetry. apply Permutation_cons_append.
  - assert (Hin : i < n) by (assert (i < length l) by (apply nth_error_Some; congruence); lia).
    assert (HF : firstn n (upd (upd l i x) n y) = upd (firstn n l) i x).
    { apply list_ext. intros k. rewrite nth_error_upd, firstn_length, HL. replace (i <? Nat.min n (S n))%nat with true by lia.
      destruct (le_lt_dec n k) as [Hk|Hk].
      - replace (Nat.eqb i k) with false by lia.
        rewrite !(proj2 (nth_error_None _ _)); [reflexivity| |]; rewrite firstn_length; lia.
      - rewrite !nth_error_firstn_lt by lia. rewrite swap_nth by assumption.
        replace (Nat.eqb k n) with false by lia. rewrite Nat.eqb_sym. reflexivity. }
    rewrite HF.
    assert (HS : skipn n l = [x]).
    { apply list_ext. intros k. rewrite nth_error_skipn'. destruct k as [|k]; [rewrite Nat.add_0_r; assumption|].
      replace (nth_error [x] (S k)) with (@None T) by (destruct k; reflexivity). apply nth_error_None. lia. }
    assert (HP : Permutation (x :: firstn n l) (y :: upd (firstn n l) i x)).
    { apply upd_perm. rewrite nth_error_firstn_lt by lia. assumption. }
    rewrite <- (firstn_skipn n l) at 1. rewrite HS.
    eapply Permutation_trans; [symmetry; apply Permutation_cons_append|]. assumption.
Qed.

Lemma includes_spec : forall (eqb : T -> T -> bool), (forall a b, eqb a b = true <-> a = b) ->
  forall l v, includes eqb l v = true <-> In v l.
Proof.
  intros eqb H l v. induction l as [|x l IH]; cbn; [split; [discriminate|contradiction]|].
  destruct (eqb x v) eqn:E.
  - apply H in E. tauto.
  - rewrite IH. split; [tauto|]. intros [->|?]; [|assumption]. assert (eqb v v = true) by (apply H; reflexivity). congruence.
Qed.

Lemma remove_at_spec : forall (h : @heap T) s i, sl_wf h s -> i < sl_len s ->
  exists h' s' x, remove_at h s i = Some (h', s') /\ nth_error (sl_val h s) i = Some x
  /\ Permutation (sl_val h s) (x :: sl_val h' s')
  /\ length (sl_val h' s') = length (sl_val h s) - 1
  /\ (forall k, k < sl_len s - 1 -> k <> i -> nth_error (sl_val h' s') k = nth_error (sl_val h s) k).
Proof.
  intros h s i Hw Hi. unfold remove_at. destruct (sl_len s) as [|n] eqn:En; [lia|].
  destruct (swap_spec h s i n Hw) as [h1 [x [y [E1 [W1 [Hy [Hx [V1 _]]]]]]]]; [lia|lia|].
  rewrite E1. set (s' := mk_slice (sl_ref s) (sl_off s) n).
  assert (HV : sl_val h1 s' = firstn n (sl_val h1 s)).
  { unfold sl_val. cbn [s' sl_ref sl_off sl_len]. rewrite En, firstn_firstn, Nat.min_l by lia. reflexivity. }
  exists h1, s', y. split; [reflexivity|]. split; [assumption|].
  assert (HL : length (sl_val h s) = S n) by (rewrite sl_val_len by assumption; assumption).
  split; [|split].
  - rewrite HV, V1. apply swap_last_perm; assumption.
  - rewrite HV, firstn_length, V1, !upd_length, HL. lia.
  - intros k Hk Hki. rewrite HV, V1. rewrite nth_error_firstn_lt by lia. rewrite swap_nth by assumption.
    replace (Nat.eqb k n) with false by lia. replace (Nat.eqb k i) with false by lia. reflexivity.
Qed.

Lemma swap_involutive : forall (h : @heap T) s i j h1 h2, sl_wf h s -> i < sl_len s -> j < sl_len s ->
  swap h s i j = Some h1 -> swap h1 s i j = Some h2 -> sl_val h2 s = sl_val h s.
Proof.
  intros h s i j h1 h2 Hw Hi Hj E1 E2.
  destruct (swap_spec h s i j Hw Hi Hj) as [h1' [x [y [F1 [W1 [Hy [Hx [V1 _]]]]]]]].
  rewrite F1 in E1. injection E1 as <-.
  destruct (swap_spec h1' s i j W1 Hi Hj) as [h2' [x2 [y2 [F2 [W2 [Hy2 [Hx2 [V2 _]]]]]]]].
  rewrite F2 in E2. injection E2 as <-.
  apply list_ext. intros k. rewrite V2, swap_nth by assumption.
  rewrite V1, swap_nth in Hy2, Hx2 by assumption. rewrite V1, swap_nth by assumption.
  rewrite Nat.eqb_refl in Hx2, Hy2.
  destruct (Nat.eqb k j) eqn:Ekj.
  - assert (k = j) by lia. subst k. destruct (Nat.eqb i j) eqn:Eij.
    + assert (i = j) by lia. subst. congruence.
    + congruence.
  - destruct (Nat.eqb k i) eqn:Eki; [|reflexivity].
    assert (k = i) by lia. subst k. congruence.
Qed.

Lemma copy_spec : forall (h : @heap T) s, sl_wf h s ->
  let (h1, c) := copy h s in
  sl_val h1 c = sl_val h s /\ sl_val h1 s = sl_val h s /\ sl_wf h1 c /\ sl_wf h1 s
  /\ sl_ref c <> sl_ref s /\ length h <= sl_ref c.
Proof.
  intros h s Hw. unfold copy.
  assert (HA : arr_at (h ++ [sl_val h s]) (length h) = sl_val h s) by (unfold arr_at; rewrite app_nth2, Nat.sub_diag by lia; reflexivity).
  assert (HB : arr_at (h ++ [sl_val h s]) (sl_ref s) = arr_at h (sl_ref s)) by (unfold arr_at; destruct Hw; rewrite app_nth1 by lia; reflexivity).
  repeat split.
  - unfold sl_val at 1. cbn [sl_ref sl_off sl_len]. rewrite HA. cbn [skipn]. apply firstn_all.
  - unfold sl_val at 1. rewrite HB. reflexivity.
  - cbn. rewrite app_length. cbn. lia.
  - cbn [sl_ref sl_off sl_len]. rewrite HA. lia.
  - rewrite app_length. destruct Hw. cbn. lia.
  - rewrite HB. apply Hw.
  - cbn. destruct Hw. lia.
  - cbn. lia.
Qed.

(** Stores through one slice do not show through a slice of another array. *)
Lemma store_frame : forall (h h' : @heap T) s s2 i x, sl_store h s i x = Some h' -> sl_ref s2 <> sl_ref s ->
  sl_val h' s2 = sl_val h s2.
Proof.
  intros h h' s s2 i x E Hne. unfold sl_store in E. destruct (i <? sl_len s)%nat; [|discriminate]. injection E as <-.
  unfold sl_val. rewrite arr_at_upd. replace (Nat.eqb (sl_ref s) (sl_ref s2)) with false by lia. reflexivity.
Qed.
End SL.
