(** ECMA-262 binary operators: 13.6 to 13.13. *)
From Verif Require Import Base TokenModel LexModel ParseBase BinModel.

(** The levels of the grammar, loosest first, and whether a level groups to the right.  Short-circuit operators
    first: LogicalORExpression and CoalesceExpression are one level, which may not be mixed (see [mixed]). *)
Definition levels : list (bool * list tv) :=
  [ (false, [T_OR; T_NULLISH]);
    (false, [T_AND]);
    (false, [T_BIT_OR]);
    (false, [T_BIT_XOR]);
    (false, [T_BIT_AND]);
    (false, [T_EQ; T_NE; T_EQ_S; T_NE_S]);
    (false, [T_LT; T_GT; T_LTE; T_GTE; T_INSTANCE_OF; T_IN; T_TS_AS]);
    (false, [T_LSH; T_RSH; T_RSH_U]);
    (false, [T_ADD; T_SUB]);
    (false, [T_MUL; T_DIV; T_MOD]);
    (true,  [T_POW]) ].

Definition at_level (op : tv) (n : nat) (right : bool) : Prop :=
  exists ops, nth_error levels n = Some (right, ops) /\ In op ops.

(** The expressions of level [n] and tighter: [Exp_n -> Exp_n op Exp_(n+1)], or [Exp_n -> Exp_(n+1) op Exp_n] for
    a level that groups to the right. *)
Inductive derives {A} : nat -> btree A -> Prop :=
| D_operand n a : derives n (Leaf a)
| D_left n m op o h l r : at_level op m false -> n <= m -> derives m l -> derives (S m) r -> derives n (Bin op o h l r)
| D_right n m op o h l r : at_level op m true -> n <= m -> derives (S m) l -> derives m r -> derives n (Bin op o h l r).

(** The in-order reading of a tree: the first operand, then operators with the operand that follows. *)
Fixpoint first {A} (t : btree A) : A := match t with Leaf a => a | Bin _ _ _ l _ => first l end.
Fixpoint following {A} (t : btree A) : list (tv * A) :=
  match t with
  | Leaf _ => []
  | Bin op _ _ l r => following l ++ (op, first r) :: following r
  end.

(** Operators and operands of an input from [s] to [s'], where the chain ends: at the first token that is no
    operator, or is [>] where that is not one. *)
Section Chain.
Context {A : Type}.
Variables (unary typ : pst -> pres A) (ts not_in not_gt : bool).
Definition operator_at (s : pst) : option tv :=
  match is_bin not_in ts (peek s) with
  | Some op => if tv_eqb op T_GT && not_gt then None else Some op
  | None => None
  end.
Inductive chain : pst -> list (tv * A) -> pst -> Prop :=
| Ch_end s : operator_at s = None -> chain s [] (peeked s)
| Ch_op s op a s1 l s2 : operator_at s = Some op ->
    (if tv_eqb op T_TS_AS then typ (next s) else unary (next s)) = POk a s1 ->
    chain s1 l s2 -> chain s ((op, a) :: l) s2.
End Chain.

(** The early errors of chains. *)
Definition mixed {A} (l : list (tv * A)) : Prop :=
  In T_NULLISH (map fst l) /\ (In T_AND (map fst l) \/ In T_OR (map fst l)).
Inductive unary_base {A} (is_unary : A -> bool) : A -> list (tv * A) -> Prop :=
| UB_here a b l : is_unary a = true -> unary_base is_unary a ((T_POW, b) :: l)
| UB_later a op b l : unary_base is_unary b l -> unary_base is_unary a ((op, b) :: l).

(** Grouping goes wrong where an operator is followed by one that binds tighter, and the group of that one is
    followed by one between the two. *)
Definition rank (op : tv) : nat :=
  (fix go (n : nat) (ls : list (bool * list tv)) :=
     match ls with [] => n | (_, ops) :: ls' => if existsb (tv_eqb op) ops then n else go (S n) ls' end) 0 levels.
Definition dented (ops : list tv) : Prop := exists pre a b mid c post,
  ops = pre ++ a :: b :: mid ++ c :: post /\ rank a < rank c < rank b /\ Forall (fun o => rank b <= rank o) mid.
