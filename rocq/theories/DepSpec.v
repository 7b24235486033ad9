(** What a function depends on. *)
From Coq Require Import Relations.
From Verif Require Import Base DepModel.

(** All pointers of a graph point to something. *)
Definition pointers_ok (g : dgraph) : Prop :=
  (forall fn p, lookup fn (g_nodes g) = Some p -> p < List.length (g_heap g))
  /\ forall n p, In n (g_heap g) -> In p (dn_deps n) -> p < List.length (g_heap g).
(** A node of the graph depends directly on another; it captures a declaration. *)
Definition edge (g : dgraph) (p q : nat) : Prop := exists n, nth_error (g_heap g) p = Some n /\ In q (dn_deps n).
Definition captures (g : dgraph) (p : nat) (d : option nat) : Prop :=
  exists n, nth_error (g_heap g) p = Some n /\ In d (dn_caps n).
(** A function depends on a declaration when it captures it or depends, in any number of steps, on one that does. *)
Definition depends (g : dgraph) (fn : nat) (d : option nat) : Prop :=
  exists p q, lookup fn (g_nodes g) = Some p /\ clos_refl_trans nat (edge g) p q /\ captures g q d.
