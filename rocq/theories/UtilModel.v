(** Model of util/map.go, util/lru.go and util/slice.go. *)
From Verif Require Import Base.

Section OrderedMap.
Context {K V : Type} (keqb : K -> K -> bool).

(** A container/list element: its identity (the pointer) and the *KvPair it holds.  An
    element keeps its value after it left the list, as in Go. *)
Definition elem : Type := nat * (K * V).

(** util/map.go:10-13 OrderedMap.  [om_dict] is the Go map (at most one entry per key, kept by
    [dict_put]); [om_next] is the next fresh element identity. *)
Record omap := mk_om { om_dict : list (K * elem); om_list : list elem; om_next : nat }.

(** Go map operations on an association list. *)
Fixpoint dict_get {A} (d : list (K * A)) (k : K) : option A :=
  match d with
  | [] => None
  | (k', e) :: r => if keqb k k' then Some e else dict_get r k
  end.
Definition dict_del {A} (d : list (K * A)) (k : K) : list (K * A) :=
  filter (fun p => negb (keqb k (fst p))) d.
Definition dict_put {A} (d : list (K * A)) (k : K) (e : A) : list (K * A) := (k, e) :: dict_del d k.

(** container/list Remove: unlinks the element if it is in the list, otherwise does nothing. *)
Definition list_remove (l : list elem) (id : nat) : list elem :=
  filter (fun e => negb (Nat.eqb (fst e) id)) l.

(** container/list MoveToBack. *)
Definition list_move_to_back (l : list elem) (e : elem) : list elem :=
  if existsb (fun x => Nat.eqb (fst x) (fst e)) l then list_remove l (fst e) ++ [e] else l.

(** util/map.go:15-20 NewOrderedMap. *)
Definition om_new : omap := mk_om [] [] 0.

(** util/map.go:22-25 HasKey. *)
Definition om_has (m : omap) (k : K) : bool :=
  match dict_get (om_dict m) k with Some _ => true | None => false end.

(** util/map.go:27-34 Get; [None] is Go's zero value of V for an absent key. *)
Definition om_get (m : omap) (k : K) : option V :=
  match dict_get (om_dict m) k with Some e => Some (snd (snd e)) | None => None end.

(** util/map.go:36-49 Set; returns the new element. *)
Definition om_set (m : omap) (k : K) (v : V) : elem * omap :=
  let e := (om_next m, (k, v)) in
  match dict_get (om_dict m) k with
  | Some old =>
      (e, mk_om (dict_put (om_dict m) k e) (list_remove (om_list m ++ [e]) (fst old)) (S (om_next m)))
  | None => (e, mk_om (dict_put (om_dict m) k e) (om_list m ++ [e]) (S (om_next m)))
  end.

(** util/map.go:51-56 Remove. *)
Definition om_remove (m : omap) (k : K) : omap :=
  match dict_get (om_dict m) k with
  | Some old => mk_om (dict_del (om_dict m) k) (list_remove (om_list m) (fst old)) (om_next m)
  | None => m
  end.

(** util/map.go:58-60 Front, followed by Next until nil: the pairs in iteration order. *)
Definition om_iter (m : omap) : list (K * V) := map snd (om_list m).

Inductive omop := OMSet (k : K) (v : V) | OMRemove (k : K).
Definition omstep (m : omap) (o : omop) : omap :=
  match o with OMSet k v => snd (om_set m k v) | OMRemove k => om_remove m k end.
Definition omrun (ops : list omop) : omap := fold_left omstep ops om_new.

(** * util/lru.go *)

(** util/lru.go:5-11 LruCache; the lock is in the atomicity of [lru_body]. *)
Record lru := mk_lru { l_cap : nat; l_store : omap; l_clear : nat }.

(** util/lru.go:15-26 NewLruCache (non-negative arguments). *)
Definition lru_new (cap clear : nat) : lru :=
  mk_lru cap om_new (if Nat.eqb clear 0 || (cap <? clear)%nat then cap / 3 else clear).

(** util/lru.go:28-33, 35-40. *)
Definition lru_has (c : lru) (k : K) : bool := om_has (l_store c) k.
Definition lru_get (c : lru) (k : K) : option V := om_get (l_store c) k.

(** util/lru.go:57-62 the clear loop: drop the front element [n] times from the list.  The
    dict entry stays. *)
Fixpoint drop_front (n : nat) (l : list elem) : list elem :=
  match n with
  | O => l
  | S n' => drop_front n' (match l with [] => [] | e :: _ => list_remove l (fst e) end)
  end.

(** util/lru.go:42-65 the two critical sections of Set.  [present] is the answer HasKey gave
    before the write lock was taken; between the two another goroutine may run. *)
Definition lru_body (c : lru) (present : bool) (k : K) (v : V) : lru :=
  if present
  then let (e, m) := om_set (l_store c) k v in
       mk_lru (l_cap c) (mk_om (om_dict m) (list_move_to_back (om_list m) e) (om_next m)) (l_clear c)
  else let m0 := l_store c in
       let l := if (l_cap c <? length (om_list m0) + 1)%nat
                then drop_front (l_clear c) (om_list m0) else om_list m0 in
       mk_lru (l_cap c) (snd (om_set (mk_om (om_dict m0) l (om_next m0)) k v)) (l_clear c).

(** util/lru.go:42-65 Set without interference. *)
Definition lru_set (c : lru) (k : K) (v : V) : lru := lru_body c (lru_has c k) k v.

Definition lru_run (c : lru) (ops : list (K * V)) : lru :=
  fold_left (fun c p => lru_set c (fst p) (snd p)) ops c.

(** Critical sections in the order the lock admitted them, each with its earlier HasKey answer. *)
Definition lru_sched (c : lru) (bodies : list (bool * (K * V))) : lru :=
  fold_left (fun c b => lru_body c (fst b) (fst (snd b)) (snd (snd b))) bodies c.
End OrderedMap.

(** * util/slice.go: slices as views of heap arrays *)
Section Slices.
Context {T : Type}.

(** Arrays by address; a slice is an address, an offset and a length. *)
Definition heap : Type := list (list T).
Record gslice := mk_slice { sl_ref : nat; sl_off : nat; sl_len : nat }.

Definition arr_at (h : heap) (r : nat) : list T := nth r h [].
(** Content of a slice. *)
Definition sl_val (h : heap) (s : gslice) : list T := firstn (sl_len s) (skipn (sl_off s) (arr_at h (sl_ref s))).
Definition upd {A} (l : list A) (i : nat) (x : A) : list A := firstn i l ++ match skipn i l with [] => [] | _ :: r => x :: r end.
(** Store through a slice: s[i] = x; [None] is the index panic. *)
Definition sl_store (h : heap) (s : gslice) (i : nat) (x : T) : option heap :=
  if (i <? sl_len s)%nat
  then Some (upd h (sl_ref s) (upd (arr_at h (sl_ref s)) (sl_off s + i) x)) else None.
Definition sl_load (h : heap) (s : gslice) (i : nat) : option T :=
  if (i <? sl_len s)%nat then nth_error (arr_at h (sl_ref s)) (sl_off s + i) else None.

(** util/slice.go:4-6 Swap: both loads, then both stores. *)
Definition swap (h : heap) (s : gslice) (i j : nat) : option heap :=
  match sl_load h s j, sl_load h s i with
  | Some x, Some y =>
      match sl_store h s i x with Some h1 => sl_store h1 s j y | None => None end
  | _, _ => None
  end.

(** util/slice.go:10-13 RemoveAt; the index len-1 of an empty slice panics. *)
Definition remove_at (h : heap) (s : gslice) (i : nat) : option (heap * gslice) :=
  match sl_len s with
  | O => None
  | S n => match swap h s i n with
           | Some h1 => Some (h1, mk_slice (sl_ref s) (sl_off s) n)
           | None => None
           end
  end.

(** util/slice.go:15-22 Includes. *)
Fixpoint includes (eqb : T -> T -> bool) (l : list T) (v : T) : bool :=
  match l with [] => false | x :: r => if eqb x v then true else includes eqb r v end.

(** util/slice.go:24-28 Copy: a fresh array. *)
Definition copy (h : heap) (s : gslice) : heap * gslice :=
  (h ++ [sl_val h s], mk_slice (length h) 0 (length (sl_val h s))).
End Slices.
