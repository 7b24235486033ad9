(** ecma/astutil/astutil.go: the dependency graph of functions. *)
From Verif Require Import Base.

(** ecma/astutil/astutil.go:341-351 FnDepNode: the declarations of the references captured ([None]: the Dec of the
    reference is nil) and the nodes depended on.  Syntax nodes and *FnDepNode are numbers: the first are identities,
    the second places in [g_heap]. *)
Record dnode := mk_dn { dn_caps : list (option nat); dn_deps : list nat }.
(** ecma/astutil/astutil.go:337-339 FnDepGraph. *)
Record dgraph := mk_dg { g_nodes : list (nat * nat); g_heap : list dnode }.
Definition node_at (g : dgraph) (p : nat) : dnode := nth p (g_heap g) (mk_dn [] []).
Fixpoint lookup (k : nat) (l : list (nat * nat)) : option nat :=
  match l with [] => None | (k', v) :: r => if Nat.eqb k k' then Some v else lookup k r end.
Definition same_dec (a b : option nat) : bool :=
  match a, b with Some x, Some y => Nat.eqb x y | None, None => true | _, _ => false end.

(** ecma/astutil/astutil.go:468-499 IsFnDepsOnNode, the loop: [None] when the fuel does not suffice. *)
Fixpoint dep_loop (g : dgraph) (target : option nat) (fuel : nat) (nodes visited : list nat) : option bool :=
  match fuel with
  | O => None
  | S fuel =>
      match nodes with
      | [] => Some false
      | p :: rest =>
          if existsb (Nat.eqb p) visited then dep_loop g target fuel rest visited
          else if existsb (fun d => same_dec d target) (dn_caps (node_at g p)) then Some true
          else dep_loop g target fuel (rest ++ dn_deps (node_at g p)) (p :: visited)
      end
  end.
Definition is_fn_deps_on (g : dgraph) (fuel fn : nat) (target : option nat) : option bool :=
  match lookup fn (g_nodes g) with
  | None => Some false
  | Some f => dep_loop g target fuel [f] []
  end.
