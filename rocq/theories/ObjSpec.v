(** Specification for merging and flattening decoded JSON values. *)
From Verif Require Import Base UtilModel ObjModel.
From Coq Require Import Permutation.

Section Spec.
Context {A : Type}.

(** What a value looks like at its root; maps are looked into by path instead. *)
Inductive shape := SNull | SAtom (a : A) | SArr (l : list (jv A)) | SMap.
Definition root (v : jv A) : shape :=
  match v with JNull => SNull | JAtom a => SAtom a | JArr l => SArr l | JMap _ => SMap end.

(** The shape found by following map keys. *)
Fixpoint at_path (v : option (jv A)) (p : list bytes) : option shape :=
  match p, v with
  | _, None => None
  | [], Some x => Some (root x)
  | k :: r, Some (JMap es) => at_path (dget es k) r
  | _ :: _, Some _ => None
  end.

(** The merge, path by path: where both sides are maps look inside, a missing or null source keeps
    the destination, any other source value replaces it. *)
Fixpoint spec_merge (p : list bytes) (d s : list bytes -> option shape) : option shape :=
  match d [], s [] with
  | Some SMap, Some SMap =>
      match p with
      | [] => Some SMap
      | k :: r => spec_merge r (fun q => d (k :: q)) (fun q => s (k :: q))
      end
  | _, None | _, Some SNull => d p
  | _, Some _ => s p
  end.

(** A Go map holds a key once, at every level. *)
Inductive wf_jv : jv A -> Prop :=
| wf_null : wf_jv JNull
| wf_atom : forall a, wf_jv (JAtom a)
| wf_arr : forall l, (forall v, In v l -> wf_jv v) -> wf_jv (JArr l)
| wf_map : forall es, NoDup (map fst es) -> (forall k v, In (k, v) es -> wf_jv v) -> wf_jv (JMap es).

(** [leaf_path v p x]: following [p] (map keys and array indices) from [v] ends at the scalar or
    null [x]. *)
Inductive leaf_path : jv A -> list bytes -> jv A -> Prop :=
| lp_null : leaf_path JNull [] JNull
| lp_atom : forall a, leaf_path (JAtom a) [] (JAtom a)
| lp_map : forall es k v p x, In (k, v) es -> leaf_path v p x -> leaf_path (JMap es) (k :: p) x
| lp_arr : forall l i v p x, nth_error l i = Some v -> leaf_path v p x -> leaf_path (JArr l) (itoa i :: p) x.

(** No key contains a dot. *)
Inductive dotless : jv A -> Prop :=
| dl_null : dotless JNull
| dl_atom : forall a, dotless (JAtom a)
| dl_arr : forall l, (forall v, In v l -> dotless v) -> dotless (JArr l)
| dl_map : forall es, (forall k v, In (k, v) es -> ~ In x2e k /\ dotless v) -> dotless (JMap es).

(** The same value met in another iteration order. *)
Inductive reordered : jv A -> jv A -> Prop :=
| ro_null : reordered JNull JNull
| ro_atom : forall a, reordered (JAtom a) (JAtom a)
| ro_arr : forall l l', Forall2 reordered l l' -> reordered (JArr l) (JArr l')
| ro_map : forall es es' es'', Forall2 (fun a b => fst a = fst b /\ reordered (snd a) (snd b)) es es' ->
    Permutation es' es'' -> reordered (JMap es) (JMap es'').

(** As [reordered], but arrays, which merging does not look into, are the same. *)
Inductive reordered_maps : jv A -> jv A -> Prop :=
| rm_refl : forall v, reordered_maps v v
| rm_map : forall es es' es'', Forall2 (fun a b => fst a = fst b /\ reordered_maps (snd a) (snd b)) es es' ->
    Permutation es' es'' -> reordered_maps (JMap es) (JMap es'').

(** [value_at v p x]: following the map keys [p] from [v] ends at [x]. *)
Inductive value_at : jv A -> list bytes -> jv A -> Prop :=
| va_here : forall v, value_at v [] v
| va_key : forall es k v p x, In (k, v) es -> value_at v p x -> value_at (JMap es) (k :: p) x.

(** The keys of a path with a dot between each two. *)
Definition dotted (p : list bytes) : bytes := tl (flat_map (fun k => x2e :: k) p).
End Spec.
