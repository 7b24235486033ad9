(** C14: ParseCache under every schedule. *)
From Verif Require Import Base UtilModel CacheModel CacheSpec CacheProofs.

(** Whatever the callers, keys and schedule: what a call receives is a parse result of its own
    file. *)
Theorem C14_right_file_partial : forall (K V : Type) (keqb : K -> K -> bool), (forall a b, keqb a b = true <-> a = b) ->
  forall (kind : V -> rkind) (pres : K -> V -> Prop) ks n s i r v,
  preach keqb kind pres ks n s -> nth_error (c_reqs s) i = Some r -> rq_call r = CGot v ->
  nth_error ks i = Some (rq_key r) /\ pres (rq_key r) v.
Proof. intros K V keqb H. exact (got_right keqb H). Qed.
Print Assumptions C14_right_file_partial.

(** Every schedule comes to an end. *)
Theorem C14_terminates_partial : forall (K V : Type) (keqb : K -> K -> bool) (kind : V -> rkind) (pres : K -> V -> Prop) ks n s,
  preach keqb kind pres ks n s -> n <= 6 * length ks.
Proof. intros K V keqb kind pres ks n s H. pose proof (reach_bound _ _ _ ks n s H). lia. Qed.
Print Assumptions C14_terminates_partial.

(** If no key is requested twice: no call panics, every file is parsed at most once, and when the
    schedule has come to its end every call has its result. *)
Theorem C14_distinct_keys_partial : forall (K V : Type) (keqb : K -> K -> bool), (forall a b, keqb a b = true <-> a = b) ->
  forall (keq_dec : forall a b : K, {a = b} + {a <> b}) (kind : V -> rkind) (pres : K -> V -> Prop) ks n s,
  NoDup ks -> (forall k, exists v, pres k v) -> preach keqb kind pres ks n s ->
  (forall i r, nth_error (c_reqs s) i = Some r -> rq_call r <> CPanic)
  /\ (forall k, count_occ keq_dec (c_parses s) k <= 1)
  /\ ((forall s', ~ pstep keqb kind pres s s') ->
      forall i k, nth_error ks i = Some k -> exists r v, nth_error (c_reqs s) i = Some r /\ rq_call r = CGot v /\ pres k v).
Proof.
  intros K V keqb HK keq_dec kind pres ks n s HN Hp H.
  destruct (one_safe keqb HK kind pres keq_dec ks n s HN H) as [H1 H2]. split; [exact H1|]. split; [exact H2|].
  intros Hst i k Hi. pose proof (keys_kept _ _ _ ks n s H) as HM. rewrite <- HM, nth_error_map in Hi.
  destruct (nth_error (c_reqs s) i) as [r|] eqn:Er; [|discriminate]. injection Hi as <-.
  destruct (one_stuck keqb HK kind pres keq_dec ks n s HN Hp H Hst i r Er) as [v Hv].
  exists r, v. split; [reflexivity|]. split; [exact Hv|]. apply (got_right keqb HK kind pres ks n s i r v H Er Hv).
Qed.
Print Assumptions C14_distinct_keys_partial.

(** Runs of a concrete schedule are executions. *)
Lemma run_reach : forall (K V : Type) (keqb : K -> K -> bool) (kind : V -> rkind) (pres : K -> V -> Prop) ks sched n s s',
  (forall k v, pres k v) -> preach keqb kind pres ks n s -> run keqb kind s sched = Some s' ->
  preach keqb kind pres ks (n + length sched) s'.
Proof.
  intros K V keqb kind pres ks sched. induction sched as [|[i a] sched IH]; intros n s s' Hp H HR; cbn in *.
  - injection HR as <-. rewrite Nat.add_0_r. exact H.
  - destruct (stepf keqb kind s i a) as [s1|] eqn:E; [|discriminate].
    rewrite <- Nat.add_succ_comm. apply (IH (S n) s1 s' Hp); [|exact HR]. apply (pr_step _ _ _ _ n s s1 H).
    exists i, a. split; [exact E|]. destruct a; auto.
Qed.

Definition any (k v : nat) : Prop := True.
Definition other (v : nat) : rkind := KOther.

(** The end of a concrete schedule. *)
Definition fin (ks : list nat) (sched : list (nat * @action nat)) : @cache nat nat :=
  match run Nat.eqb other (cache_init ks) sched with Some s => s | None => cache_init [] end.
Lemma fin_reach : forall ks sched, (match run Nat.eqb other (cache_init ks) sched with Some _ => true | None => false end) = true ->
  preach Nat.eqb other any ks (length sched) (fin ks sched).
Proof.
  intros ks sched H. unfold fin. destruct (run Nat.eqb other (cache_init ks) sched) as [s|] eqn:E; [|discriminate].
  refine (run_reach nat nat Nat.eqb other any ks sched 0 (cache_init ks) s _ _ E); [intros; exact I|apply pr_init].
Qed.

Definition sched1 : list (nat * @action nat) :=
  [(0, ACall); (1, ACall); (1, ACall); (0, ACall); (1, AParse 50); (0, AParse 30); (0, AGo); (1, AGo); (1, AGo); (1, ACall); (0, AGo); (0, ACall)].
Example C14_nonvacuous : exists n s, preach Nat.eqb other any [3; 5] n s
  /\ map (fun r => rq_call r) (c_reqs s) = [CGot 30; CGot 50] /\ c_parses s = [5; 3].
Proof.
  exists (length sched1), (fin [3; 5] sched1). split; [apply fin_reach; vm_compute; reflexivity|].
  split; vm_compute; reflexivity.
Qed.

(** Two calls for one file: the second gets the channel of the first, on which a single value is
    sent, and can wait for ever. *)
Definition sched2 : list (nat * @action nat) :=
  [(0, ACall); (0, ACall); (1, ACall); (1, ACall); (0, AParse 1); (0, AGo); (0, AGo); (0, ACall)].
Theorem C14_lost_result_refuted : exists n s, preach Nat.eqb other any [7; 7] n s
  /\ (forall s', ~ pstep Nat.eqb other any s s')
  /\ map (fun r => rq_call r) (c_reqs s) = [CGot 1; CWait 0].
Proof.
  exists (length sched2), (fin [7; 7] sched2). split; [apply fin_reach; vm_compute; reflexivity|]. split.
  - intros s' [i [a [H _]]].
    assert (HR : c_reqs (fin [7; 7] sched2) = [mk_req 7 (CGot 1) GDone; mk_req 7 (CWait 0) GNone]) by (vm_compute; reflexivity).
    unfold stepf in H. rewrite HR in H. destruct i as [|[|i]]; cbn [nth_error] in H.
    + destruct a; cbn in H; discriminate.
    + destruct a; cbn [rq_call rq_go] in H; discriminate.
    + destruct i; discriminate.
  - vm_compute. reflexivity.
Qed.
Print Assumptions C14_lost_result_refuted.

(** The look-up and the store are two critical sections: a file can be parsed twice and two callers
    can receive different results. *)
Definition sched3 : list (nat * @action nat) :=
  [(0, ACall); (1, ACall); (0, ACall); (1, ACall); (0, AParse 1); (1, AParse 2); (0, AGo); (0, AGo); (0, ACall); (1, AGo); (1, AGo); (1, ACall)].
Theorem C14_parsed_twice_refuted : exists n s, preach Nat.eqb other any [7; 7] n s
  /\ c_parses s = [7; 7] /\ map (fun r => rq_call r) (c_reqs s) = [CGot 1; CGot 2].
Proof.
  exists (length sched3), (fin [7; 7] sched3). split; [apply fin_reach; vm_compute; reflexivity|].
  split; vm_compute; reflexivity.
Qed.
Print Assumptions C14_parsed_twice_refuted.

(** A call made after the parse has ended panics, unless the parser returned nil or a pointer to an
    interface. *)
Definition sched4 : list (nat * @action nat) :=
  [(0, ACall); (0, ACall); (0, AParse 1); (0, AGo); (0, AGo); (0, ACall); (1, ACall); (1, ACall)].
Theorem C14_panic_refuted : exists n s, preach Nat.eqb other any [7; 7] n s
  /\ map (fun r => rq_call r) (c_reqs s) = [CGot 1; CPanic].
Proof.
  exists (length sched4), (fin [7; 7] sched4). split; [apply fin_reach; vm_compute; reflexivity|].
  vm_compute. reflexivity.
Qed.
Print Assumptions C14_panic_refuted.
