(** What a type written with | and & is. *)
From Verif Require Import Base TokenModel LexModel ParseBase ExprModel TsUnionModel.

Section Spec.
Variables (A : Type) (prim : pst -> pres A).
(** The grammar of TypeScript without a leading operator: [run] is a list of operands each after &, [union] is a list of
    intersections with | between them; both are as long as possible. *)
Inductive run : pst -> list A -> pst -> Prop :=
| R_end s : at_tok T_BIT_AND s = false -> run s [] s
| R_more s b s1 bs s' : at_tok T_BIT_AND s = true -> prim (next s) = POk b s1 -> run s1 bs s' -> run s (b :: bs) s'.
Inductive union : pst -> list (list A) -> pst -> Prop :=
| U_last s a s1 bs s' : prim s = POk a s1 -> run s1 bs s' -> at_tok T_BIT_OR s' = false -> union s [a :: bs] s'
| U_more s a s1 bs s2 gs s' : prim s = POk a s1 -> run s1 bs s2 -> at_tok T_BIT_OR s2 = true -> union (next s2) gs s' ->
    union s ((a :: bs) :: gs) s'.
End Spec.
Arguments run {A} _ _ _ _.
Arguments union {A} _ _ _ _.

Section Meaning.
Variables (A : Type) (holds : A -> Prop).
(** Which values belong to a type, given which belong to its operands. *)
Fixpoint belongs (t : typ A) : Prop :=
  match t with
  | TOne a => holds a
  | TUnion l => (fix any l := match l with [] => False | t :: l => belongs t \/ any l end) l
  | TInter l => (fix all l := match l with [] => True | t :: l => belongs t /\ all l end) l
  end.
End Meaning.
Arguments belongs {A} _ _.
(** The operands of a type from left to right. *)
Fixpoint operands {A} (t : typ A) : list A :=
  match t with
  | TOne a => [a]
  | TUnion l | TInter l => (fix go l := match l with [] => [] | t :: l => operands t ++ go l end) l
  end.
