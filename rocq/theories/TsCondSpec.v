(** Conditional types. *)
From Verif Require Import Base TokenModel LexModel ParseBase ExprModel TsUnionModel TsUnionSpec TsCondModel.

Section Spec.
Variables (B : Type) (base : pst -> pres B).
(** What is written: intersections with | between them, or a conditional type of an operand and three types. *)
Inductive shape :=
| SUnion (gs : list (list B))
| SCond (chk : B) (ext yes no : shape).
(** A type is a union of intersections before a token that binds weaker than |, or (where [c] allows) an operand, extends, a
    type that is not conditional, ?, a type, : and a type; the last goes on as long as it can.  No type has a leading
    operator. *)
Inductive written : bool -> pst -> shape -> pst -> Prop :=
| W_union c s gs s1 : at_op s = false -> union base s gs s1 -> pcd s1 < 8 -> (c = true -> at_tok T_EXTENDS s1 = false) ->
    written c s (SUnion gs) s1
| W_cond s b s1 ext s2 yes s3 no s4 : at_op s = false -> base s = POk b s1 -> at_tok T_EXTENDS s1 = true -> written false (next s1) ext s2 ->
    at_tok T_HOOK s2 = true -> written true (next s2) yes s3 -> at_tok T_COLON s3 = true -> written true (next s3) no s4 ->
    written true s (SCond b ext yes no) s4.
(** A tree stands for what is written: the operands in order and the values that belong to it, given those of its
    operands; the four parts of a conditional type. *)
Inductive stands : typ (ctree B) -> shape -> Prop :=
| St_union t gs : operands t = map CBase (concat gs) ->
    (forall holds, belongs holds t <-> Exists (Forall (fun b => holds (CBase b))) gs) -> stands t (SUnion gs)
| St_cond b e e' y y' n n' : stands e e' -> stands y y' -> stands n n' -> stands (TOne (CCond b e y n)) (SCond b e' y' n').
End Spec.
Arguments SUnion {B} _.
Arguments SCond {B} _ _ _ _.
Arguments written {B} _ _ _ _ _.
Arguments stands {B} _ _.
