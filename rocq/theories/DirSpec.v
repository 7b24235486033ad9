(** What a directory walk has to visit, and executions of the walker. *)
From Verif Require Import Base DirModel.

(** The entries below directory [p]. *)
Fixpoint below (p : path) (f : forest) : list event :=
  match f with
  | FNil => []
  | FFile nm r => (p ++ [nm], false) :: below p r
  | FDir nm _ sub r => ((p ++ [nm], true) :: below (p ++ [nm]) sub) ++ below p r
  end.

(** The directory itself and everything below it. *)
Definition entries (root : path) (f : forest) : list event := (root, true) :: below root f.

(** Every directory of the tree can be read. *)
Fixpoint readable (f : forest) : bool :=
  match f with FNil => true | FFile _ r => readable r | FDir _ ok sub r => ok && readable sub && readable r end.

Inductive dreach (stops : event -> bool) (s0 : dw) : nat -> dw -> Prop :=
| dr_init : dreach stops s0 0 s0
| dr_step : forall n s l s', dreach stops s0 n s -> dstep stops s l = Some s' -> dreach stops s0 (S n) s'.

(** A directory is reported before its entries. *)
Definition parents_first (root : path) (evs : list event) : Prop :=
  forall l1 p b l2, evs = l1 ++ (p, b) :: l2 ->
  p = root \/ exists q nm, p = q ++ [nm] /\ In (q, true) l1.

(** The number of nodes of a tree. *)
Fixpoint size (f : forest) : nat :=
  match f with FNil => 0 | FFile _ r => S (size r) | FDir _ _ sub r => S (size sub + size r) end.
