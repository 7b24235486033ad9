(** C07-C09: OrderedMap, LruCache, slice helpers.  [keqb] is Go's == on the key type; the
    hypothesis says it decides equality (all comparable types except floats with NaN). *)
From Verif Require Import Base UtilModel UtilSpec UtilProofs.
From Coq Require Import Permutation.

(** C07.  After any history, iterating from Front gives exactly the specified insertion-ordered
    pairs (each key once, ordered by last Set), and Get/HasKey give the last write. *)
Theorem C07_ordered_map : forall (K V : Type) (keqb : K -> K -> bool),
  (forall a b, keqb a b = true <-> a = b) ->
  forall (ops : list (@omop K V)),
  om_iter (omrun keqb ops) = spec_map keqb ops
  /\ NoDup (map fst (om_iter (omrun keqb ops)))
  /\ (forall k, om_get keqb (omrun keqb ops) k = last_write keqb ops k)
  /\ (forall k, om_has keqb (omrun keqb ops) k = true <-> exists v, last_write keqb ops k = Some v)
  /\ (forall k v, In (k, v) (om_iter (omrun keqb ops)) <-> om_get keqb (omrun keqb ops) k = Some v).
Proof.
  intros K V keqb H ops. destruct (omrun_ok keqb H ops) as [H1 [H2 H3]].
  split; [exact H2|]. split; [rewrite H2; apply spec_map_nodup; exact H|]. split; [exact H3|]. split.
  - intros k. rewrite om_has_get, H3. destruct (last_write keqb ops k) as [v|].
    + split; [intros _; exists v; reflexivity|reflexivity].
    + split; [discriminate|intros [v Hv]; discriminate].
  - intros k v. unfold om_iter, om_get. split.
    + intros HI. apply in_map_iff in HI. destruct HI as [e [He HI]].
      pose proof (ok_sound keqb _ H1 e HI) as HS. rewrite He in HS. cbn in HS. rewrite HS, He. reflexivity.
    + destruct (dict_get keqb (om_dict (omrun keqb ops)) k) as [e|] eqn:E; [|discriminate].
      intros [= <-]. apply in_map_iff. exists e. split; [|apply (ok_compl keqb _ H1 _ _ E)].
      rewrite <- (ok_key keqb _ H1 _ _ E). destruct e as [i [a b]]. reflexivity.
Qed.
Print Assumptions C07_ordered_map.

Example C07_nonvacuous :
  om_iter (omrun Nat.eqb [OMSet 1 10; OMSet 2 20; OMSet 3 30; OMSet 1 11; OMRemove 2; OMSet 2 22])
  = [(3, 30); (1, 11); (2, 22)].
Proof. reflexivity. Qed.

(** C08, the part that holds.  Whatever the order in which the lock admits the critical
    sections of concurrent Set calls (and whatever HasKey answered before), Get returns the value
    of the last Set of the key. *)
Theorem C08_get_last_set_partial : forall (K V : Type) (keqb : K -> K -> bool),
  (forall a b, keqb a b = true <-> a = b) ->
  forall cap clear (bodies : list (bool * (K * V))) k,
  lru_get keqb (lru_sched keqb (lru_new cap clear) bodies) k = last_set keqb (map snd bodies) k.
Proof. intros K V keqb H cap clear bodies k. apply lru_sched_get; [exact H|]. intros k'. apply lru_new_empty. Qed.
Print Assumptions C08_get_last_set_partial.

(** Consequence: no key is ever forgotten, so nothing is ever evicted as far as Get and HasKey
    can tell. *)
Theorem C08_never_evicts_refuted : forall (K V : Type) (keqb : K -> K -> bool),
  (forall a b, keqb a b = true <-> a = b) ->
  forall cap clear (ops : list (K * V)) k v, In (k, v) ops ->
  lru_has keqb (lru_run keqb (lru_new cap clear) ops) k = true.
Proof.
  intros K V keqb H cap clear ops k v HI.
  destruct (lru_run_sched keqb ops (lru_new cap clear)) as [bodies [E1 ->]].
  pose proof (lru_sched_get keqb H bodies (lru_new cap clear) k (fun k' => lru_new_empty keqb cap clear k')) as HG.
  unfold lru_has. rewrite om_has_get. unfold lru_get in HG. rewrite HG, E1.
  assert (G : forall ops acc, In (k, v) ops \/ acc <> None ->
     fold_left (fun acc (p : K * V) => if keqb k (fst p) then Some (snd p) else acc) ops acc <> None).
  { clear - H. induction ops as [|[k0 v0] ops IH]; intros acc [HI|HI]; cbn; try contradiction; try assumption.
    - apply IH. destruct HI as [HI|HI]; [|left; exact HI]. right. injection HI as -> ->.
      assert (HR : keqb k k = true) by (apply H; reflexivity). rewrite HR. discriminate.
    - apply IH. right. destruct (keqb k k0); [discriminate|assumption]. }
  unfold last_set. specialize (G ops None (or_introl HI)).
  match goal with |- (match ?x with Some _ => _ | None => _ end) = _ => destruct x end; [reflexivity|congruence].
Qed.
Print Assumptions C08_never_evicts_refuted.

(** The list of entries also outgrows the capacity: concrete histories with the default clear
    (capacity below three) and with setting an evicted key again. *)
Theorem C08_capacity_refuted :
  (exists ops : list (nat * nat), length (om_list (l_store (lru_run Nat.eqb (lru_new 2 0) ops))) = 4)
  /\ (exists ops : list (nat * nat), length (om_list (l_store (lru_run Nat.eqb (lru_new 3 1) ops))) = 4).
Proof.
  split.
  - exists [(1, 1); (2, 2); (3, 3); (4, 4)]. reflexivity.
  - exists [(1, 1); (2, 2); (3, 3); (4, 4); (1, 5)]. reflexivity.
Qed.
Print Assumptions C08_capacity_refuted.

(** The capacity is respected when the number of entries to clear is positive and no key is set
    again after it was evicted. *)
Theorem C08_capacity_partial : forall (K V : Type) (keqb : K -> K -> bool),
  (forall a b, keqb a b = true <-> a = b) ->
  forall (ops : list (K * V)) cap clear, 0 < cap -> 0 < l_clear (@lru_new K V cap clear) ->
  no_reset keqb (lru_new cap clear) ops ->
  length (om_list (l_store (lru_run keqb (lru_new cap clear) ops))) <= cap.
Proof. intros K V keqb H ops cap clear. apply lru_capacity. exact H. Qed.
Print Assumptions C08_capacity_partial.

Example C08_nonvacuous :
  let ops := [(1, 1); (2, 2); (3, 3); (2, 4); (4, 5); (5, 6)] in
  no_reset Nat.eqb (lru_new 3 1) ops
  /\ om_iter (l_store (lru_run Nat.eqb (lru_new 3 1) ops)) = [(2, 4); (4, 5); (5, 6)].
Proof. cbn. unfold live. cbn. intuition (try discriminate). Qed.

(** C09. *)
Theorem C09_remove_at : forall (T : Type) (h : @heap T) s i, sl_wf h s -> i < sl_len s ->
  exists h' s' x, remove_at h s i = Some (h', s') /\ nth_error (sl_val h s) i = Some x
  /\ Permutation (sl_val h s) (x :: sl_val h' s')
  /\ length (sl_val h' s') = length (sl_val h s) - 1
  /\ (forall k, k < sl_len s - 1 -> k <> i -> nth_error (sl_val h' s') k = nth_error (sl_val h s) k).
Proof. intros T h s i. apply remove_at_spec. Qed.
Print Assumptions C09_remove_at.

Theorem C09_swap : forall (T : Type) (h : @heap T) s i j, sl_wf h s -> i < sl_len s -> j < sl_len s ->
  exists h', swap h s i j = Some h'
  /\ (forall k, nth_error (sl_val h' s) k =
        if Nat.eqb k j then nth_error (sl_val h s) i
        else if Nat.eqb k i then nth_error (sl_val h s) j else nth_error (sl_val h s) k)
  /\ (forall h2, swap h' s i j = Some h2 -> sl_val h2 s = sl_val h s)
  /\ (forall r, r <> sl_ref s -> arr_at h' r = arr_at h r).
Proof.
  intros T h s i j Hw Hi Hj.
  destruct (swap_spec h s i j Hw Hi Hj) as [h' [x [y [E [W [Hy [Hx [V [L [A B]]]]]]]]]].
  exists h'. split; [exact E|]. split; [|split; [|exact A]].
  - intros k. rewrite V, swap_nth, Hy, Hx by assumption. reflexivity.
  - intros h2 E2. apply (swap_involutive h s i j h' h2); assumption.
Qed.
Print Assumptions C09_swap.

Theorem C09_includes : forall (T : Type) (eqb : T -> T -> bool), (forall a b, eqb a b = true <-> a = b) ->
  forall l v, includes eqb l v = true <-> In v l.
Proof. intros T eqb H l v. apply includes_spec. exact H. Qed.
Print Assumptions C09_includes.

(** Copy equals the original, and a later store through either is invisible through the other. *)
Theorem C09_copy : forall (T : Type) (h : @heap T) s, sl_wf h s ->
  let (h1, c) := copy h s in
  sl_val h1 c = sl_val h s /\ sl_val h1 s = sl_val h s
  /\ (forall i x h2, sl_store h1 c i x = Some h2 -> sl_val h2 s = sl_val h s)
  /\ (forall i x h2, sl_store h1 s i x = Some h2 -> sl_val h2 c = sl_val h s).
Proof.
  intros T h s Hw. pose proof (copy_spec h s Hw) as HC. destruct (copy h s) as [h1 c].
  destruct HC as [H1 [H2 [H3 [H4 [H5 H6]]]]]. split; [exact H1|]. split; [exact H2|]. split.
  - intros i x h2 E. rewrite (store_frame h1 h2 c s i x E); [exact H2|congruence].
  - intros i x h2 E. rewrite (store_frame h1 h2 s c i x E); [exact H1|exact H5].
Qed.
Print Assumptions C09_copy.

Example C09_nonvacuous :
  let h := [[1; 2; 3; 4; 5]] in let s := mk_slice 0 1 3 in
  sl_wf h s /\ sl_val h s = [2; 3; 4]
  /\ remove_at h s 0 = Some ([[1; 4; 3; 2; 5]], mk_slice 0 1 2)
  /\ sl_val [[1; 4; 3; 2; 5]] (mk_slice 0 1 2) = [4; 3].
Proof. unfold sl_wf. cbn. repeat split; lia. Qed.
