(** Binary expressions: precedence climbing. *)
From Verif Require Import Base TokenModel LexModel ParseBase.

(** Operands of type [A] joined by operators; the range of an operator and where the expression ends are kept. *)
Inductive btree (A : Type) :=
| Leaf (a : A)
| Bin (op : tv) (oprng : nat * nat) (hi : nat) (l r : btree A).
Arguments Leaf {A} _.
Arguments Bin {A} _ _ _ _ _.

Section Bin.
Context {A : Type}.
(** parser.go unaryExpr(nil, span.Range{}, false) and tsTyp(false, true, false); lhs.Type() == N_EXPR_UNARY and
    rhs.Type() == N_EXPR_ARROW, which are false for binary expressions; the features; p.ts, the flag SPK_NOT_IN
    of the scope and the argument notGT. *)
Variables (unary typ : pst -> pres A) (is_unary is_arrow : A -> bool) (feat : N) (ts not_in not_gt : bool).

Definition operand (op : tv) (s : pst) : pres A := if tv_eqb op T_TS_AS then typ s else unary s.

(** ecma/parser/parser.go:5455-5533 the loop of binExpr, and the loop inside it at 5501-5510. *)
Fixpoint bin_loop (fuel : nat) (lhs : btree A) (min : nat) (logic nullish : bool) (s : pst) : pres (btree A) :=
  match fuel with
  | O => PFuel
  | S fuel =>
      match is_bin not_in ts (peek s) with
      | None => POk lhs (peeked s)
      | Some op =>
          if Nat.ltb (tv_pcd op) min || tv_eqb op T_GT && not_gt then POk lhs (peeked s)
          else if logic && tv_eqb op T_NULLISH || nullish && (tv_eqb op T_AND || tv_eqb op T_OR) then PErr
          else
            let logic := logic || tv_eqb op T_AND || tv_eqb op T_OR in
            let nullish := nullish || tv_eqb op T_NULLISH in
            if tv_eqb (pval s) T_POW && negb (has feat FEAT_POW) then PErr
            else
              pbind (operand op (next s)) (fun a s1 =>
              pbind (rhs_loop fuel (Leaf a) (tv_pcd op) logic nullish s1) (fun rhs s2 =>
              if match lhs with Leaf x => is_unary x | _ => false end && tv_eqb op T_POW then PErr
              else if match rhs with Leaf x => is_arrow x | _ => false end then PErr
              else bin_loop fuel (Bin op (t_lo (peek s), t_hi (peek s)) (p_end s2) lhs rhs) min logic nullish s2))
      end
  end
with rhs_loop (fuel : nat) (rhs : btree A) (pcd : nat) (logic nullish : bool) (s : pst) : pres (btree A) :=
  match fuel with
  | O => PFuel
  | S fuel =>
      match is_bin not_in ts (peek s) with
      | None => POk rhs (peeked s)
      | Some op =>
          if Nat.ltb pcd (tv_pcd op) || Nat.eqb (tv_pcd op) pcd && tv_rassoc op then
            pbind (bin_loop fuel rhs (tv_pcd op) logic nullish (peeked s)) (fun rhs s1 =>
            rhs_loop fuel rhs (tv_pcd op) logic nullish s1)
          else POk rhs (peeked s)
      end
  end.

(** ecma/parser/parser.go:5446-5534 binExpr with minPcd 0 and no logic or nullish expression before. *)
Definition bin_expr (fuel : nat) (lhs : option A) (s : pst) : pres (btree A) :=
  match lhs with
  | Some a => bin_loop fuel (Leaf a) 0 false false s
  | None => pbind (unary s) (fun a s1 => bin_loop fuel (Leaf a) 0 false false s1)
  end.
End Bin.
