(** ecma/parser/ts.go: names with dots and what follows a type in brackets. *)
From Verif Require Import Base TokenModel LexModel ParseBase ExprModel.

Section Post.
Variables (I : Type) (ident : pst -> pres I).
(** TsNsName in ecma/parser/tsnode.go, without ranges. *)
Inductive tname := NOne (i : I) | NDot (ns : tname) (i : I).
(** ecma/parser/ts.go:602-613, the loop of tsTypName; [ident] is identWithKw. *)
Fixpoint name_loop (fuel : nat) (ns : tname) (s : pst) : pres tname :=
  match fuel with
  | O => PFuel
  | S fuel =>
      if at_tok T_DOT s then pbind (ident (next s)) (fun id s1 => name_loop fuel (NDot ns id) s1)
      else POk ns s
  end.
(** ecma/parser/ts.go:594-616 tsTypName; the first name is read by the caller or at lines 595-601. *)
Definition typ_name (fuel : nat) (s : pst) : pres tname := pbind (ident s) (fun id s1 => name_loop fuel (NOne id) s1).

Variables (B T : Type) (typ : pst -> pres T).
(** TsArr and TsIdxAccess, without ranges. *)
Inductive ptyp := POne (b : B) | PArr (t : ptyp) | PIdx (t : ptyp) (i : T).
(** ecma/parser/ts.go:674-696 tsArr; [typ] is tsTyp. *)
Fixpoint arr_loop (fuel : nat) (t : ptyp) (s : pst) : pres ptyp :=
  match fuel with
  | O => PFuel
  | S fuel =>
      if at_tok T_BRACKET_L s then
        if at_tok T_BRACKET_R (next s) then arr_loop fuel (PArr t) (next (next s))
        else pbind (typ (next s)) (fun i s1 => pbind (must T_BRACKET_R s1) (fun _ s2 => arr_loop fuel (PIdx t i) s2))
      else POk t s
  end.
(** ecma/parser/ts.go:1016-1024 at the end of tsPrimary, after an operand other than intrinsic; with [paren] lines 901-906,
    after a type in parentheses. *)
Definition with_brackets (paren : bool) (fuel : nat) (b : B) (s : pst) : pres ptyp :=
  if at_tok T_BRACKET_L s && (paren || negb (t_atl (peek s))) then arr_loop fuel (POne b) s else POk (POne b) s.
End Post.
Arguments NOne {I} _.
Arguments NDot {I} _ _.
Arguments POne {B T} _.
Arguments PArr {B T} _.
Arguments PIdx {B T} _ _.
