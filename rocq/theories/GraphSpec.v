(** Reachable blocks, and what linking is to do. *)
From Coq Require Import Relations Permutation.
From Verif Require Import Base GraphModel.

(** One block leads to another by an outgoing edge. *)
Definition leads (g : graph) (b d : nat) : Prop :=
  exists e, In e (b_out (block_at g b)) /\ e_dst (edge_at g e) = Some d.
Definition reachable (g : graph) : nat -> nat -> Prop := clos_refl_trans nat (leads g).
(** The edges of blocks lead to blocks. *)
Definition targets_ok (g : graph) : Prop := forall e d, e_dst (edge_at g e) = Some d -> d < List.length (g_blocks g).

(** An edge is one of those to be linked. *)
Definition linkable (fk : ekind) (ft : N) (x : edge) : Prop := e_kind x = fk /\ (ft = 0%N \/ N.land (e_tag x) ft <> 0%N).
(** Block [d] records that it can be entered from [b]. *)
Definition entered_from (g : graph) (d b : nat) : Prop :=
  exists i, In i (b_in (block_at g d)) /\ e_src (edge_at g i) = Some b.
(** Edges that leave a block and enter one are different ones, and exist. *)
Definition separate (g : graph) (l : list nat) (to : nat) : Prop :=
  NoDup l /\ to < List.length (g_blocks g)
  /\ (forall e, In e l -> e < List.length (g_edges g) /\ ~ In e (b_in (block_at g to)))
  /\ (forall i, In i (b_in (block_at g to)) -> i < List.length (g_edges g)).
