(** C15: DirWalker under every schedule. *)
From Verif Require Import Base UtilModel DirModel DirSpec DirProofs.
From Coq Require Import Permutation.

(** Whatever the tree, the number of workers, the schedule, the errors and the calls of Stop: no entry
    is reported twice, nothing but entries is reported, a directory comes before its entries, and
    nothing panics. *)
Theorem C15_at_most_once : forall stops n root ok sub k s, dreach stops (dinit n root ok sub) k s ->
  (exists rest, Permutation (entries root sub) (d_events s ++ rest))
  /\ parents_first root (d_events s)
  /\ d_panic s = false.
Proof.
  intros stops n root ok sub k s H. split; [apply (visits _ _ _ _ _ _ _ H)|].
  split; [apply (oinv_reach _ _ _ _ _ _ _ H)|apply (v_panic _ _ _ (inv_reach _ _ _ _ _ _ _ H))].
Qed.
Print Assumptions C15_at_most_once.

(** If Walk has left its loop without an error, every entry has been reported exactly once. *)
Theorem C15_complete : forall stops n root ok sub k s, dreach stops (dinit n root ok sub) k s ->
  (d_main s = MFin \/ d_main s = MEnd) -> d_err s = false -> Permutation (entries root sub) (d_events s).
Proof. exact complete. Qed.
Print Assumptions C15_complete.

(** Every schedule comes to an end, also with errors and calls of Stop. *)
Theorem C15_terminates : forall stops n root ok sub k s, dreach stops (dinit n root ok sub) k s -> k <= 12 + 11 * size sub.
Proof. intros stops n root ok sub k s H. pose proof (dreach_bound _ _ _ _ _ _ _ H). lia. Qed.
Print Assumptions C15_terminates.

(** With readable directories, no call of Stop and at least one worker: when nothing can move any
    more Walk has returned and every entry has been reported exactly once; but exactly one worker has
    ended. *)
Theorem C15_walk_returns_partial : forall n root sub k s, 1 <= n -> readable sub = true ->
  dreach nostop (dinit n root true sub) k s -> (forall l, dstep nostop s l = None) ->
  d_main s = MEnd /\ Permutation (entries root sub) (d_events s)
  /\ (exists i, nth_error (d_work s) i = Some WEnd /\ forall j, j <> i -> j < n -> nth_error (d_work s) j = Some WIdle).
Proof.
  intros n root sub k s Hn Hr H Hst. destruct (stuck_end _ _ _ _ _ Hn Hr H Hst) as [H1 [H2 [H3 [H4 [H5 H6]]]]].
  split; [exact H1|]. split; [apply (complete _ _ _ _ _ _ _ H); [right; exact H1|apply (clean_reach _ _ _ _ _ Hr H)]|].
  rewrite <- (v_len _ _ _ (inv_reach _ _ _ _ _ _ _ H)). clear - H5 H6. induction (d_work s) as [|w l IH]; [discriminate|].
  destruct (H6 w (or_introl eq_refl)) as [->| ->].
  - destruct (IH H5 (fun w Hw => H6 w (or_intror Hw))) as [i [Hi Hj]]. exists (S i). split; [exact Hi|].
    intros [|j] Hne Hlt; [reflexivity|]. cbn. apply Hj; [congruence|cbn in Hlt; lia].
  - cbn in H5. exists 0. split; [reflexivity|]. intros [|j] Hne Hlt; [contradiction|]. cbn in Hlt |- *.
    destruct (nth_error l j) as [w|] eqn:E; [|apply nth_error_None in E; lia].
    destruct (H6 w (or_intror (nth_error_In _ _ E))) as [->| ->]; [reflexivity|].
    exfalso. pose proof (sum_ge _ isend _ _ _ E). cbn in *. lia.
Qed.
Print Assumptions C15_walk_returns_partial.

(** ** Concrete runs *)
Definition dfin (stops : event -> bool) (n : nat) (root : path) (ok : bool) (sub : forest) (sched : list label) : dw :=
  match drun stops (dinit n root ok sub) sched with Some s => s | None => dinit n root ok sub end.
Lemma drun_reach : forall stops s0 sched k s s', dreach stops s0 k s -> drun stops s sched = Some s' -> dreach stops s0 (k + length sched) s'.
Proof.
  intros stops s0 sched. induction sched as [|l sched IH]; intros k s s' H HR; cbn in *.
  - injection HR as <-. rewrite Nat.add_0_r. exact H.
  - destruct (dstep stops s l) as [s1|] eqn:E; [|discriminate]. rewrite <- Nat.add_succ_comm.
    apply (IH (S k) s1 s'); [|exact HR]. apply (dr_step _ _ k s l s1 H E).
Qed.
Lemma dfin_reach : forall stops n root ok sub sched,
  (match drun stops (dinit n root ok sub) sched with Some _ => true | None => false end) = true ->
  dreach stops (dinit n root ok sub) (length sched) (dfin stops n root ok sub sched).
Proof.
  intros stops n root ok sub sched H. unfold dfin. destruct (drun stops (dinit n root ok sub) sched) as [s|] eqn:E; [|discriminate].
  apply (drun_reach _ _ sched 0 _ s (dr_init _ _) E).
Qed.

(** A tree: r/{a, d/{b}, c}; two workers. *)
Definition tree1 : forest := FFile (bs "a") (FDir (bs "d") true (FFile (bs "b") FNil) (FFile (bs "c") FNil)).
Definition dsched1 : list label :=
  [LMainJob 0; LLocal 0; LLocal 0; LLocal 0; LLocal 0; LLocal 0; LLocal 0; LLocal 0; LJob 1; LLocal 1; LLocal 1; LLocal 1;
   LLocal 0; LLocal 1; LLocal 0; LLocal 1; LWait; LWgFin; LFin 1].
Example C15_nonvacuous : exists k s, dreach nostop (dinit 2 [bs "r"] true tree1) k s
  /\ d_main s = MEnd
  /\ d_events s = [([bs "r"], true); ([bs "r"; bs "a"], false); ([bs "r"; bs "d"], true); ([bs "r"; bs "c"], false); ([bs "r"; bs "d"; bs "b"], false)]
  /\ d_work s = [WIdle; WEnd].
Proof.
  exists (length dsched1), (dfin nostop 2 [bs "r"] true tree1 dsched1).
  split; [apply dfin_reach; vm_compute; reflexivity|]. repeat split; vm_compute; reflexivity.
Qed.

(** No worker but one ever ends: with two workers, in every completed walk one stays blocked. *)
Theorem C15_workers_leak_refuted : forall n root sub k s, 2 <= n -> readable sub = true ->
  dreach nostop (dinit n root true sub) k s -> (forall l, dstep nostop s l = None) ->
  exists i, nth_error (d_work s) i = Some WIdle.
Proof.
  intros n root sub k s Hn Hr H Hst. destruct (C15_walk_returns_partial n root sub k s) as [_ [_ [i [_ Hi]]]]; try assumption; [lia|].
  destruct i as [|i]; [exists 1; apply Hi; lia|exists 0; apply Hi; lia].
Qed.
Print Assumptions C15_workers_leak_refuted.

(** With a single worker an unreadable root directory blocks Walk for ever. *)
Theorem C15_unreadable_root_blocks_refuted : exists k s, dreach nostop (dinit 1 [bs "r"] false FNil) k s
  /\ d_main s = MFin /\ (forall l, dstep nostop s l = None).
Proof.
  exists 5, (mk_dw [] 1 0 [WDead (mk_job [bs "r"] false FNil)] MFin TWait [] true false).
  split; [|split; [reflexivity|]].
  - refine (drun_reach nostop _ [LMainJob 0; LLocal 0; LLocal 0; LLocal 0; LStop 0] 0 _ _ (dr_init _ _) _). vm_compute. reflexivity.
  - intros [i|i|i|i|i| |]; try reflexivity; destruct i as [|i]; try reflexivity; destruct i; reflexivity.
Qed.
Print Assumptions C15_unreadable_root_blocks_refuted.

(** With a single worker a handler that calls Stop twice blocks Walk for ever. *)
Definition stopall (e : event) : bool := true.
Theorem C15_second_stop_blocks_refuted : exists k s, dreach stopall (dinit 1 [bs "r"] true (FFile (bs "a") FNil)) k s
  /\ d_main s = MFin /\ (forall l, dstep stopall s l = None).
Proof.
  exists 6, (mk_dw [] 1 0 [WStop [bs "r"] FNil] MFin TWait [([bs "r"], true); ([bs "r"; bs "a"], false)] true false).
  split; [|split; [reflexivity|]].
  - refine (drun_reach stopall _ [LMainJob 0; LLocal 0; LLocal 0; LLocal 0; LStop 0; LLocal 0] 0 _ _ (dr_init _ _) _). vm_compute. reflexivity.
  - intros [i|i|i|i|i| |]; try reflexivity; destruct i as [|i]; try reflexivity; destruct i; reflexivity.
Qed.
Print Assumptions C15_second_stop_blocks_refuted.

(** After an error Walk returns while other workers go on calling the handler. *)
Definition tree2 : forest := FDir (bs "x") false FNil (FFile (bs "a") FNil).
Definition dsched2 : list label :=
  [LMainJob 0; LLocal 0; LLocal 0; LLocal 0; LLocal 0; LLocal 0; LLocal 0; LJob 1; LLocal 1; LLocal 1; LLocal 1; LStop 1; LFin 2].
Theorem C15_events_after_return_refuted : exists k s l s', dreach nostop (dinit 3 [bs "r"] true tree2) k s
  /\ d_main s = MEnd /\ dstep nostop s l = Some s' /\ d_events s = [([bs "r"], true)]
  /\ d_events s' = [([bs "r"], true); ([bs "r"; bs "a"], false)].
Proof.
  exists (length dsched2), (dfin nostop 3 [bs "r"] true tree2 dsched2), (LLocal 0).
  eexists. split; [apply dfin_reach; vm_compute; reflexivity|].
  split; [vm_compute; reflexivity|]. split; [vm_compute; reflexivity|]. split; vm_compute; reflexivity.
Qed.
Print Assumptions C15_events_after_return_refuted.
