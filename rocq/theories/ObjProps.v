(** C10, C11: merging and flattening decoded JSON maps.  A value lists the entries of each map in
    the order in which Go's range loop meets them, so a theorem about every value covers every
    iteration order. *)
From Verif Require Import Base UtilModel UtilSpec ObjModel ObjSpec ObjProofs.
From Coq Require Import Permutation.

(** C10.  At every key path the merged map is what the path-wise specification says, for every
    source value and hence every iteration order. *)
Theorem C10_merge_spec : forall (A : Type) (d es : list (bytes * jv A)) (p : list bytes),
  wf_jv (JMap es) ->
  at_path (Some (JMap (merge_map d (JMap es)))) p
  = spec_merge p (at_path (Some (JMap d))) (at_path (Some (JMap es))).
Proof. intros. apply merge_at. assumption. Qed.
Print Assumptions C10_merge_spec.

(** Two runs that meet the source's (nested) maps in different orders agree at every path. *)
Theorem C10_merge_order_independent : forall (A : Type) (d es es' : list (bytes * jv A)) (p : list bytes),
  wf_jv (JMap es) -> wf_jv (JMap es') -> reordered_maps (JMap es) (JMap es') ->
  at_path (Some (JMap (merge_map d (JMap es)))) p = at_path (Some (JMap (merge_map d (JMap es')))) p.
Proof.
  intros A d es es' p Hw Hw' Hr. rewrite !merge_at by assumption.
  apply spec_merge_ext; [reflexivity|]. intros q. apply reordered_at; assumption.
Qed.
Print Assumptions C10_merge_order_independent.

(** Several sources: merged one after the other, from the left; and the result is a map again. *)
Theorem C10_merge_maps : forall (A : Type) (d : list (bytes * jv A)) (srcs : list (list (bytes * jv A))) (p : list bytes),
  Forall (fun es => wf_jv (JMap es)) srcs ->
  at_path (Some (JMap (merge_maps d (map JMap srcs)))) p
  = fold_left (fun f es q => spec_merge q f (at_path (Some (JMap es)))) srcs (at_path (Some (JMap d))) p.
Proof.
  intros A d srcs p HF. rewrite merge_maps_at.
  - assert (G : forall f, fold_left (fun f s q => spec_merge q f (at_path (Some s))) (map JMap srcs) f p
      = fold_left (fun f es q => spec_merge q f (at_path (Some (JMap es)))) srcs f p).
    { clear. induction srcs as [|s srcs IH]; intros f; [reflexivity|]. cbn. apply IH. }
    apply G.
  - rewrite Forall_forall in *. intros s HI. apply in_map_iff in HI. destruct HI as [es [<- HI]].
    split; [apply HF; assumption|exists es; reflexivity].
Qed.
Print Assumptions C10_merge_maps.

Theorem C10_merge_idempotent : forall (A : Type) (d es : list (bytes * jv A)) (p : list bytes),
  wf_jv (JMap es) ->
  at_path (Some (JMap (merge_map (merge_map d (JMap es)) (JMap es)))) p
  = at_path (Some (JMap (merge_map d (JMap es)))) p.
Proof. intros. apply merge_idem. assumption. Qed.
Print Assumptions C10_merge_idempotent.

(** Each key is still held once, at every level. *)
Theorem C10_merge_wf : forall (A : Type) (d es : list (bytes * jv A)),
  wf_jv (JMap d) -> wf_jv (JMap es) -> wf_jv (JMap (merge_map d (JMap es))).
Proof. intros. apply wf_merge; assumption. Qed.
Print Assumptions C10_merge_wf.

(** util.Merge and CloneMap on any key type: existing keys win; a clone has the same entries. *)
Theorem C10_merge_keep : forall (K V : Type) (keqb : K -> K -> bool),
  (forall a b, keqb a b = true <-> a = b) ->
  forall (src stuff : list (K * V)) k,
  dict_get keqb (merge_keep keqb src stuff) k
  = match dict_get keqb src k with Some v => Some v | None => dict_get keqb stuff k end.
Proof. intros. apply merge_keep_get. assumption. Qed.
Print Assumptions C10_merge_keep.

Theorem C10_clone : forall (K V : Type) (keqb : K -> K -> bool),
  (forall a b, keqb a b = true <-> a = b) ->
  forall (m : list (K * V)) k, NoDup (map fst m) ->
  dict_get keqb (clone_map keqb m) k = dict_get keqb m k.
Proof. exact clone_get. Qed.
Print Assumptions C10_clone.

Definition ex_dst : list (bytes * jv nat) :=
  [(bs "a", JMap [(bs "x", JAtom 1); (bs "y", JAtom 2)]); (bs "b", JAtom 3)].
Definition ex_src : list (bytes * jv nat) :=
  [(bs "b", JMap [(bs "z", JAtom 4)]); (bs "a", JMap [(bs "y", JAtom 5); (bs "x", JNull)]); (bs "c", JNull)].
Example C10_nonvacuous_wf : wf_jv (JMap ex_src).
Proof.
  constructor; [repeat constructor; cbn; intuition discriminate|].
  intros k v [[= <- <-]|[[= <- <-]|[[= <- <-]|[]]]]; try constructor;
    try (repeat constructor; cbn; intuition discriminate);
    intros k' v' HI; cbn in HI; repeat (destruct HI as [[= <- <-]|HI]; [constructor|]); contradiction.
Qed.
Example C10_nonvacuous : let m := Some (JMap (merge_map ex_dst (JMap ex_src))) in
  at_path m [bs "a"; bs "x"] = Some (SAtom 1) /\ at_path m [bs "a"; bs "y"] = Some (SAtom 5)
  /\ at_path m [bs "b"; bs "z"] = Some (SAtom 4) /\ at_path m [bs "c"] = None.
Proof. repeat split. Qed.

(** C11, with no assumption on keys: every entry of the flattened map is a leaf under its joined
    path, and every leaf's joined path has an entry. *)
Theorem C11_flatten_sound_partial : forall (A : Type) (m : jv A) k x,
  dget (flatten_map m) k = Some x -> exists p, leaf_path m p x /\ dotted p = k.
Proof.
  intros A m k x H. destruct (flatten_sound _ _ _ H) as [p [H1 H2]]. exists p. rewrite <- join_dotted. auto.
Qed.
Print Assumptions C11_flatten_sound_partial.

Theorem C11_flatten_total_partial : forall (A : Type) (m : jv A) p x,
  leaf_path m p x -> exists y, dget (flatten_map m) (dotted p) = Some y.
Proof. intros A m p x H. rewrite <- join_dotted. eapply flatten_complete. exact H. Qed.
Print Assumptions C11_flatten_total_partial.

(** C11 in full for keys without dots: exactly the leaves. *)
Theorem C11_flatten_exact : forall (A : Type) (es : list (bytes * jv A)) k x,
  wf_jv (JMap es) -> dotless (JMap es) ->
  (dget (flatten_map (JMap es)) k = Some x <-> exists p, leaf_path (JMap es) p x /\ dotted p = k).
Proof.
  intros A es k x H1 H2. rewrite flatten_exact by assumption.
  split; intros [p [H3 H4]]; exists p; [rewrite <- join_dotted|rewrite join_dotted]; auto.
Qed.
Print Assumptions C11_flatten_exact.

(** Independent of the iteration orders, at every level and inside arrays. *)
Theorem C11_flatten_order_independent : forall (A : Type) (es es' : list (bytes * jv A)) k x,
  wf_jv (JMap es) -> dotless (JMap es) -> wf_jv (JMap es') -> dotless (JMap es') ->
  reordered (JMap es) (JMap es') ->
  dget (flatten_map (JMap es)) k = Some x -> dget (flatten_map (JMap es')) k = Some x.
Proof.
  intros A es es' k x Hw Hd Hw' Hd' Hr H. apply flatten_exact in H; [|assumption|assumption].
  destruct H as [p [HL Hj]]. apply flatten_exact; [assumption|assumption|].
  exists p. split; [|assumption]. eapply reordered_leaf; eassumption.
Qed.
Print Assumptions C11_flatten_order_independent.

(** With a dot in a key two leaves can share a joined path, and the result depends on the order in
    which the runtime iterates. *)
Theorem C11_dotted_keys_refuted : exists (es es' : list (bytes * jv nat)),
  wf_jv (JMap es) /\ Permutation es es' /\
  dget (flatten_map (JMap es)) (bs "a.b") <> dget (flatten_map (JMap es')) (bs "a.b").
Proof.
  exists [(bs "a.b", JAtom 1); (bs "a", JMap [(bs "b", JAtom 2)])],
         [(bs "a", JMap [(bs "b", JAtom 2)]); (bs "a.b", JAtom 1)].
  split; [|split; [apply perm_swap|discriminate]].
  constructor; [repeat constructor; cbn; intuition discriminate|].
  intros k v [[= <- <-]|[[= <- <-]|[]]]; try constructor; [repeat constructor; cbn; tauto|].
  intros k v [[= <- <-]|[]]. constructor.
Qed.
Print Assumptions C11_dotted_keys_refuted.

(** GetByPath finds exactly the non-null value at the key path. *)
Theorem C11_get_by_path : forall (A : Type) (p : list bytes) (es : list (bytes * jv A)) x,
  wf_jv (JMap es) -> p <> [] ->
  (get_by_path es p = Some x <-> value_at (JMap es) p x /\ x <> JNull).
Proof. intros A. exact get_by_path_ok. Qed.
Print Assumptions C11_get_by_path.

Definition ex_obj : list (bytes * jv nat) :=
  [(bs "a", JArr [JAtom 1; JMap [(bs "k", JNull)]]); (bs "b", JMap [(bs "c", JAtom 7)])].
Example C11_nonvacuous_hyps : wf_jv (JMap ex_obj) /\ dotless (JMap ex_obj).
Proof.
  split.
  - constructor; [repeat constructor; cbn; intuition discriminate|].
    intros k v [[= <- <-]|[[= <- <-]|[]]].
    + constructor. intros v [<-|[<-|[]]]; [constructor|]. constructor; [repeat constructor; cbn; tauto|].
      intros k v [[= <- <-]|[]]. constructor.
    + constructor; [repeat constructor; cbn; tauto|]. intros k v [[= <- <-]|[]]. constructor.
  - constructor. intros k v [[= <- <-]|[[= <- <-]|[]]]; (split; [cbn; intuition discriminate|]).
    + constructor. intros v [<-|[<-|[]]]; [constructor|]. constructor.
      intros k v [[= <- <-]|[]]. split; [cbn; intuition discriminate|constructor].
    + constructor. intros k v [[= <- <-]|[]]. split; [cbn; intuition discriminate|constructor].
Qed.
Example C11_nonvacuous : dget (flatten_map (JMap ex_obj)) (bs "a.1.k") = Some JNull
  /\ dget (flatten_map (JMap ex_obj)) (bs "b.c") = Some (JAtom 7)
  /\ dget (flatten_map (JMap ex_obj)) (bs "a") = None /\ length (flatten_map (JMap ex_obj)) = 3.
Proof. repeat split. Qed.
