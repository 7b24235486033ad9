(** Model of util/merge.go, util/sets.go and util/obj.go. *)
From Verif Require Import Base UtilModel.

Section Obj.
Context {A : Type}.

(** A decoded JSON value: nil, a scalar, []interface{} or map[string]interface{}.  The entries of
    a map are listed in the order in which the (single) range loop over it meets them, so
    quantifying over values quantifies over iteration orders. *)
Inductive jv := JNull | JAtom (a : A) | JArr (l : list jv) | JMap (es : list (bytes * jv)).

Definition dget (d : list (bytes * jv)) (k : bytes) : option jv := dict_get bytes_eqb d k.
Definition dput (d : list (bytes * jv)) (k : bytes) (v : jv) : list (bytes * jv) := dict_put bytes_eqb d k v.

(** util/merge.go:3-17 MergeMap, the loop body for one source entry is the innermost match.  The
    destination map is updated functionally; dst and src are assumed not to share maps. *)
Fixpoint merge_map (d : list (bytes * jv)) (s : jv) : list (bytes * jv) :=
  match s with
  | JMap es =>
      (fix go (d : list (bytes * jv)) (es : list (bytes * jv)) : list (bytes * jv) :=
         match es with
         | [] => d
         | (k, v) :: r =>
             go (match dget d k, v with
                 | Some (JMap dm), JMap _ => dput d k (JMap (merge_map dm v))
                 | _, JNull => d
                 | _, _ => dput d k v
                 end) r
         end) d es
  | _ => d
  end.

(** util/merge.go:19-23 MergeMaps. *)
Definition merge_maps (d : list (bytes * jv)) (srcs : list jv) : list (bytes * jv) :=
  fold_left merge_map srcs d.

(** util/sets.go:3-9 Merge (any key type, any value type). *)
Definition merge_keep {K V} (keqb : K -> K -> bool) (src stuff : list (K * V)) : list (K * V) :=
  fold_left (fun d p => match dict_get keqb d (fst p) with Some _ => d | None => dict_put keqb d (fst p) (snd p) end) stuff src.

(** util/sets.go:34-40 CloneMap. *)
Definition clone_map {K V} (keqb : K -> K -> bool) (m : list (K * V)) : list (K * V) :=
  fold_left (fun d p => dict_put keqb d (fst p) (snd p)) m [].

Definition is_leaf (v : jv) : bool := match v with JNull | JAtom _ => true | _ => false end.

(** Go's strconv.Itoa on a slice index. *)
Fixpoint uint_bytes (u : Decimal.uint) : bytes :=
  match u with
  | Decimal.Nil => []
  | Decimal.D0 u => x30 :: uint_bytes u | Decimal.D1 u => x31 :: uint_bytes u
  | Decimal.D2 u => x32 :: uint_bytes u | Decimal.D3 u => x33 :: uint_bytes u
  | Decimal.D4 u => x34 :: uint_bytes u | Decimal.D5 u => x35 :: uint_bytes u
  | Decimal.D6 u => x36 :: uint_bytes u | Decimal.D7 u => x37 :: uint_bytes u
  | Decimal.D8 u => x38 :: uint_bytes u | Decimal.D9 u => x39 :: uint_bytes u
  end.
Definition itoa (n : nat) : bytes := uint_bytes (Nat.to_uint n).

(** util/obj.go:70-77 the callback of FlattenMap: the write it makes, if any. *)
Definition flat_cb (path : list bytes) (v : jv) : list (list bytes * jv) :=
  if is_leaf v then [(path, v)] else [].

(** util/obj.go:11-45 WalkObj with that callback (which never stops the walk): the sequence of
    writes.  Both the parent's loop and the leaf itself call the callback. *)
Fixpoint walk_obj (v : jv) (path : list bytes) : list (list bytes * jv) :=
  match v with
  | JMap es =>
      (fix go es := match es with
                    | [] => []
                    | (k, x) :: r => flat_cb (path ++ [k]) x ++ walk_obj x (path ++ [k]) ++ go r
                    end) es
  | JArr l =>
      (fix go i l := match l with
                     | [] => []
                     | x :: r => flat_cb (path ++ [itoa i]) x ++ walk_obj x (path ++ [itoa i]) ++ go (S i) r
                     end) 0 l
  | _ => flat_cb path v
  end.

(** strings.Join(path, "."). *)
Fixpoint join_dot (p : list bytes) : bytes :=
  match p with
  | [] => []
  | [k] => k
  | k :: r => k ++ x2e :: join_dot r
  end.

(** util/obj.go:68-80 FlattenMap. *)
Definition flatten_map (m : jv) : list (bytes * jv) :=
  fold_left (fun d w => dput d (join_dot (fst w)) (snd w)) (walk_obj m []) [].

(** util/obj.go:47-66 GetByPath; [None] is nil. *)
Fixpoint get_by_path (obj : list (bytes * jv)) (path : list bytes) : option jv :=
  match path with
  | [] => Some (JMap obj)
  | k :: r =>
      match dget obj k with
      | None | Some JNull => None
      | Some v => match r with
                  | [] => Some v
                  | _ => match v with JMap o => get_by_path o r | _ => None end
                  end
      end
  end.
End Obj.
Arguments jv : clear implicits.
