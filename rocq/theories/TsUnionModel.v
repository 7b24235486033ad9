(** ecma/parser/ts.go: union and intersection types. *)
From Verif Require Import Base TokenModel LexModel ParseBase ExprModel.

(** A type; its operands are of some type [A].  Ranges are left out. *)
Inductive typ (A : Type) :=
| TOne (a : A)
| TUnion (l : list (typ A))
| TInter (l : list (typ A)).
Arguments TOne {A} _.
Arguments TUnion {A} _.
Arguments TInter {A} _.

Section Union.
Variables (A : Type) (prim : pst -> pres A) (is_fn : A -> bool).
Definition at_op (s : pst) : bool := at_tok T_BIT_OR s || at_tok T_BIT_AND s.
(** ecma/parser/token.go:461-463 and the rest of TokenKinds: the precedence of the token ahead. *)
Definition pcd (s : pst) : nat := tv_pcd (t_val (peek s)).
(** ecma/parser/ts.go:83-176 tsUnionOrIntersectType.  [prim] is tsPrimary, [is_fn] tells function types.  [union_loop] is
    the outer loop: [lhs] and [rhs] may be nil, [nt] is whether a union is being collected, or nothing; [rhs_at] is the
    inner loop (lines 147-158), which gives the operand and the precedence it ends with. *)
Fixpoint union_at (fuel : nat) (can_fn : bool) (lhs : option (typ A)) (min : nat) (s : pst) {struct fuel} : pres (typ A) :=
  match fuel with
  | O => PFuel
  | S fuel =>
      pbind (match lhs with
             | Some t => POk (Some t) s
             | None => if at_op s then POk None s else pbind (prim s) (fun a s1 => POk (Some (TOne a)) s1)
             end) (fun lhs s1 =>
      match lhs with
      | Some (TOne a) => if is_fn a && negb can_fn then POk (TOne a) s1 else union_loop fuel lhs None None [] min s1
      | _ => union_loop fuel lhs None None [] min s1
      end)
  end
with union_loop (fuel : nat) (lhs rhs : option (typ A)) (nt : option bool) (elems : list (typ A)) (min : nat) (s : pst) {struct fuel} : pres (typ A) :=
  match fuel with
  | O => PFuel
  | S fuel =>
      if negb (at_op s) || Nat.ltb (pcd s) min then
        match lhs, rhs with Some t, _ => POk t s | None, Some t => POk t s | None, None => PPanic end
      else
        let ue := match nt with
                  | Some u => (u, elems)
                  | None => (at_tok T_BIT_OR s, match lhs with Some t => [t] | None => [] end)
                  end in
        pbind (prim (next s)) (fun a s1 =>
        pbind (rhs_at fuel (TOne a) (pcd s) s1) (fun x s2 =>
        let es := snd ue ++ [fst x] in
        match lhs with
        | Some _ =>
            if Nat.ltb (pcd s2) (snd x)
            then union_loop fuel (Some (if fst ue then TUnion es else TInter es)) (Some (fst x)) None es min s2
            else union_loop fuel lhs (Some (fst x)) (Some (fst ue)) es min s2
        | None => union_loop fuel None (Some (fst x)) (Some (fst ue)) es min s2
        end))
  end
with rhs_at (fuel : nat) (r : typ A) (p : nat) (s : pst) {struct fuel} : pres (typ A * nat) :=
  match fuel with
  | O => PFuel
  | S fuel =>
      if at_op s && Nat.ltb p (pcd s) then
        let p := pcd s in pbind (union_at fuel false (Some r) p s) (fun r s1 => rhs_at fuel r p s1)
      else POk (r, p) s
  end.
(** ecma/parser/ts.go:80 tsTyp, for types that do not begin with new. *)
Definition ts_typ (fuel : nat) (s : pst) : pres (typ A) := union_at fuel false None 0 s.
End Union.
