(** ecma/parser/ts.go: import a = b.c and import a = require("b"). *)
From Verif Require Import Base TokenModel LexModel ParseBase ExprModel TsPostModel.

(** What callExpr returns, as far as it matters here: a call with its arguments, or another expression. *)
Inductive rarg := AStr (text : bytes) | AExpr.
Inductive called := KCall (args : list rarg) | KOther.
Inductive alias := IRequire (args : list rarg) | IAlias (t : tname bytes).
Section Alias.
Variables (ident : pst -> pres bytes) (call : bytes -> pst -> pres called).
(** ecma/parser/ts.go:2108-2159 tsImportAliasRsh without the binding (lines 2151-2157); [ident] is identWithKw and [call] is
    callExpr for a given name; [typ]: the word type stands before the name. *)
Definition alias_rsh (fuel : nat) (typ : bool) (s : pst) : pres alias :=
  pbind (must T_ASSIGN s) (fun _ s1 =>
  pbind (typ_name bytes ident fuel s1) (fun t s2 =>
  let other := if typ then PErr else pbind (advance_if_semi true s2) (fun _ s3 => POk (IAlias t) s3) in
  match t with
  | NOne r =>
      if bytes_eqb r (bs "require")
      then pbind (call r s2) (fun k s3 =>
           match k with
           | KOther => PPanic
           | KCall (AStr b :: l) => pbind (advance_if_semi true s3) (fun _ s4 => POk (IRequire (AStr b :: l)) s4)
           | KCall _ => PErr
           end)
      else other
  | _ => other
  end)).
End Alias.
