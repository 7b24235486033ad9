(** What it means for a node to be in a tree, and to be the nearest of some kinds above another. *)
From Coq Require Import String.
From Verif Require Import Base NodeModel WalkModel WalkSpec.

(** [m] is a child of [p]. *)
Definition child_of (p m : node) : Prop := exists k l, In (k, l) (n_kids p) /\ In (Some m) l.

(** [line r anc m]: going down from [r] one comes to [m]; [anc] are the nodes passed on the way, the last of them
    first, [r] included and [m] not. *)
Inductive line (r : node) : list node -> node -> Prop :=
| line_here : line r [] r
| line_down : forall anc p m, line r anc p -> child_of p m -> line r (p :: anc) m.

(** The tree below and with [r]. *)
Definition within (r m : node) : Prop := exists anc, line r anc m.

(** The trees the walk reaches all nodes of: no empty statement, no namespaced JSX name, no parentheses around
    parentheses. *)
Definition open_ty (ty : nt) (kids : list (string * list (option node))) : bool :=
  match ty, kids with
  | (N_STMT_EMPTY | N_JSX_NS), _ => false
  | N_EXPR_PAREN, [(_, [Some (Node N_EXPR_PAREN _ _)])] => false
  | _, _ => true
  end.

(** [p] is the first of the nodes [anc] that has a type in [target], no node before it having one in [target] or
    [barrier]. *)
Definition nearest (anc : list node) (target barrier : list nt) (p : node) : Prop :=
  exists near far, anc = near ++ p :: far /\ In (n_ty p) target /\
    forall q, In q near -> ~ In (n_ty q) target /\ ~ In (n_ty q) barrier.
