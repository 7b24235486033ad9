(** The order of modifiers in TypeScript. *)
From Verif Require Import Base TsModModel.

(** [a] must come before [b]. *)
Definition must_precede (a b : modifier) : Prop :=
  match a, b with
  | Access, (Abstract | Static | Override | Readonly) | Abstract, Override | Static, (Override | Readonly) | Override, Readonly => True
  | _, _ => False
  end.
(** [a] and [b] may not stand together. *)
Definition excluded (a b : modifier) : Prop :=
  match a, b with Static, Abstract | Declare, Override => True | _, _ => False end.
Definition well_ordered (ms : list modifier) : Prop :=
  forall l1 a l2 b l3, ms = l1 ++ a :: l2 ++ b :: l3 -> ~ must_precede b a.
(** The modifiers of a member; with a brace after them it is a block, whose only modifier is static. *)
Definition rules (ms : list modifier) (brace : bool) : Prop :=
  well_ordered ms /\ (forall a b, excluded a b -> In a ms -> In b ms -> False) /\
  (brace = true -> In Static ms -> forall m, In m ms -> m = Static).
(** Words in a source, from left to right with something between two. *)
Fixpoint spaced (from : nat) (l : list (modifier * range)) : Prop :=
  match l with [] => True | (_, (lo, hi)) :: l => from < lo /\ lo < hi /\ spaced hi l end.
