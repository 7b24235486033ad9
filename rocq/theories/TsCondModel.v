(** ecma/parser/ts.go: conditional types. *)
From Verif Require Import Base TokenModel LexModel ParseBase ExprModel TsUnionModel.

Section Cond.
Variables (B : Type) (base : pst -> pres B) (early is_fn : B -> bool).
(** An operand of a type: one without extends, or a conditional type. *)
Inductive ctree :=
| CBase (b : B)
| CCond (chk : B) (ext yes no : typ ctree).
Definition is_fn_tree (c : ctree) : bool := match c with CBase b => is_fn b | _ => false end.
(** ecma/parser/ts.go:2539-2565 tsConditional after its first type; [rec] is tsTyp with canCond. *)
Definition conditional (rec : bool -> pst -> pres (typ ctree)) (chk : B) (s : pst) : pres ctree :=
  pbind (must T_EXTENDS s) (fun _ s1 => pbind (rec false s1) (fun ext s2 =>
  pbind (must T_HOOK s2) (fun _ s3 => pbind (rec true s3) (fun yes s4 =>
  pbind (must T_COLON s4) (fun _ s5 => pbind (rec true s5) (fun no s6 => POk (CCond chk ext yes no) s6)))))).
(** ecma/parser/ts.go:891-1032 tsPrimary: [base] reads an operand up to line 1015 with the brackets after it; [early] tells
    the operands that are returned without a look at extends: types in parentheses (lines 895-916), literals (955-963,
    998-1013), types with brackets (1019-1024), readonly (932-946), import (995-997). *)
Definition primary (rec : bool -> pst -> pres (typ ctree)) (can_cond : bool) (s : pst) : pres ctree :=
  pbind (base s) (fun b s1 => if negb (early b) && at_tok T_EXTENDS s1 && can_cond then conditional rec b s1 else POk (CBase b) s1).
(** ecma/parser/ts.go:76-81 tsTyp, for types that do not begin with new. *)
Fixpoint cond_typ (fuel : nat) (can_cond : bool) (s : pst) : pres (typ ctree) :=
  match fuel with
  | O => PFuel
  | S fuel => ts_typ ctree (primary (cond_typ fuel) can_cond) is_fn_tree fuel s
  end.
End Cond.
Arguments CBase {B} _.
Arguments CCond {B} _ _ _ _.
