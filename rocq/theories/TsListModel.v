(** ecma/parser/ts.go: the lists of TypeScript: members of tuples and enums, type parameters and arguments, the types after extends and
    implements.  What an entry is, is a parameter in each case; ranges are left out. *)
From Verif Require Import Base TokenModel LexModel ParseBase ExprModel.

(** A comma ahead is skipped: ecma/parser/ts.go:807-809, 1968-1970, 2041-2043. *)
Definition skip_comma (s : pst) : pst := if at_tok T_COMMA s then next s else s.

Section Lists.
Variables (A : Type) (item : pst -> pres A).

(** ecma/parser/ts.go:2021-2044, the loop of tsEnumBody; an entry is a name with a value or without (lines 2028-2040). *)
Fixpoint enum_loop (fuel : nat) (mems : list A) (s : pst) : pres (list A) :=
  match fuel with
  | O => PFuel
  | S fuel =>
      if at_tok T_BRACE_R s then POk mems (next s)
      else pbind (item s) (fun a s1 => enum_loop fuel (mems ++ [a]) (skip_comma s1))
  end.
(** ecma/parser/ts.go:2016-2046 tsEnumBody. *)
Definition enum_body (fuel : nat) (s : pst) : pres (list A) := pbind (must T_BRACE_L s) (fun _ s1 => enum_loop fuel [] s1).

(** ecma/parser/ts.go:1552-1568, the loop of tsTypParams; an entry is tsTypParam. *)
Fixpoint params_loop (fuel : nat) (ps : list A) (s : pst) : pres (list A) :=
  match fuel with
  | O => PFuel
  | S fuel =>
      if at_tok T_GT s then POk ps (next s)
      else pbind (item (skip_comma s)) (fun a s1 => params_loop fuel (ps ++ [a]) s1)
  end.
(** ecma/parser/ts.go:1549-1573 tsTypParams; it is called with < ahead. *)
Definition typ_params (fuel : nat) (s : pst) : pres (list A) :=
  pbind (params_loop fuel [] (next s)) (fun ps s1 => match ps with [] => PErr | _ => POk ps s1 end).

(** ecma/parser/ts.go:1950-1972, the loop of tsItfExtClause; an entry is tsPredefOrRef with the check that it is a
    reference (lines 1951-1963). *)
Fixpoint ext_loop (fuel : nat) (ns : list A) (s : pst) : pres (list A) :=
  match fuel with
  | O => PFuel
  | S fuel =>
      pbind (item s) (fun a s1 =>
      if at_tok T_BRACE_L s1 then POk (ns ++ [a]) s1 else ext_loop fuel (ns ++ [a]) (skip_comma s1))
  end.
(** ecma/parser/ts.go:1937-1974 tsItfExtClause. *)
Definition ext_clause (fuel : nat) (s : pst) : pres (list A) :=
  if at_tok T_EXTENDS s then (if at_tok T_BRACE_L (next s) then PErr else ext_loop fuel [] (next s)) else POk [] s.

(** ecma/parser/ts.go:2521-2532, the loop of tsImplements; an entry is tsTyp. *)
Fixpoint impl_loop (fuel : nat) (impl : list A) (s : pst) : pres (list A) :=
  match fuel with
  | O => PFuel
  | S fuel =>
      if at_tok T_BRACE_L s then POk impl s
      else pbind (item s) (fun a s1 => impl_loop fuel (impl ++ [a]) s1)
  end.
(** ecma/parser/ts.go:2513-2537 tsImplements. *)
Definition implements (fuel : nat) (s : pst) : pres (list A) :=
  if at_tok T_IMPLEMENTS s
  then pbind (impl_loop fuel [] (next s)) (fun l s1 => match l with [] => PErr | _ => POk l s1 end)
  else POk [] s.

(** ecma/parser/token.go:26-36 IsLit and IsCtxKw, ts.go:1764: the tokens a type argument may begin with. *)
Definition arg_starts (v : tv) : bool :=
  existsb (tv_eqb v) [T_NAME; T_VOID; T_NULL; T_TRUE; T_FALSE; T_STRING; T_NUM; T_IN; T_LT; T_PAREN_L; T_BRACE_L] ||
  between T_CTX_KEYWORD_BEGIN T_CTX_KEYWORD_END v || between T_CTX_KEYWORD_STRICT_BEGIN T_CTX_KEYWORD_STRICT_END v.
(** ecma/parser/ts.go:1754-1808, the loop of tsTypArgs without JSX; an entry is tsTyp with what may follow after extends
    (lines 1770-1791). *)
Fixpoint args_loop (fuel : nat) (args : list A) (s : pst) : pres (list A) :=
  match fuel with
  | O => PFuel
  | S fuel =>
      if at_tok T_GT s then POk args (next s)
      else if negb (arg_starts (pval s)) then PErr
      else pbind (item s) (fun a s1 =>
      if at_tok T_COMMA s1 then args_loop fuel (args ++ [a]) (next s1)
      else if at_tok T_GT s1 then POk (args ++ [a]) (next s1) else PErr)
  end.
(** ecma/parser/ts.go:1745-1813 tsTypArgs; it is called with < ahead.  That the lexer reads >> as two tokens here is left
    out: the tokens are given. *)
Definition typ_args (fuel : nat) (s : pst) : pres (list A) :=
  pbind (args_loop fuel [] (next s)) (fun l s1 => match l with [] => PErr | _ => POk l s1 end).
End Lists.

(** ecma/parser/ts.go:674-796: what tsTuple asks about a member: a label (with ? or not), a type with ?, ... before a
    member with a label or without, any other type. *)
Inductive mkind := MNamed (opt : bool) | MOpt | MRest (named : bool) | MPlain.
Section Tuple.
Variables (A : Type) (item : pst -> pres A) (kind : A -> mkind).
(** ecma/parser/ts.go:811-823: with labels, all must have one. *)
Definition labelled (a : A) : bool := match kind a with MNamed _ => true | MRest n => n | _ => false end.
(** ecma/parser/ts.go:781-826, the loop of tsTuple; an entry is tsTupleMember. *)
Fixpoint tuple_loop (fuel : nat) (named opt : bool) (args : list A) (s : pst) : pres (list A) :=
  match fuel with
  | O => PFuel
  | S fuel =>
      if at_tok T_BRACKET_R s then POk args (next s)
      else pbind (item s) (fun a s1 =>
      let go named opt :=
        if named && negb (forallb labelled (args ++ [a])) then PErr
        else tuple_loop fuel named opt (args ++ [a]) (skip_comma s1) in
      match kind a with
      | MNamed o => if negb o && opt then PErr else go true o
      | MOpt => go named true
      | MRest _ => go named opt
      | MPlain => if opt then PErr else go named opt
      end)
  end.
(** ecma/parser/ts.go:772-827 tsTuple; it is called with [ ahead. *)
Definition tuple (fuel : nat) (s : pst) : pres (list A) := tuple_loop fuel false false [] (next s).
End Tuple.

Section Param.
Variables (N T : Type) (ident : pst -> pres N) (typ : pst -> pres T).
(** ecma/parser/ts.go:1508-1540 tsTypParam(nil, true, false), as tsTypParams calls it; [ident] is ident, [typ] is tsTyp. *)
Definition typ_param (s : pst) : pres (N * option T * option T) :=
  pbind (ident s) (fun id s1 =>
  if at_tok T_EXTENDS s1
  then pbind (typ (next s1)) (fun c s2 =>
       if at_tok T_ASSIGN s2 then pbind (typ (next s2)) (fun v s3 => POk (id, Some c, Some v) s3) else POk (id, Some c, None) s2)
  else POk (id, None, None) s1).
End Param.
