(** Expressions that begin with import, inside the whole parser. *)
From Verif Require Import Base TokenModel LexModel ParseBase BinModel SymtabModel EarlyModel ExprModel StmtModel FnModel JsxModel.

Section Whole.
Variables (feat : N) (text : token -> bytes) (chk : pst -> bool).
Variables (params_ok : N -> list expr -> pst -> bool) (names_ok : N -> list expr -> pst -> bool)
  (jump_ok : N -> stmt -> pst -> bool) (use_strict : token -> bool)
  (fn_ok : N -> option expr -> list expr -> stmt -> pst -> bool) (class_ok : N -> expr -> pst -> bool).
Variables (rest_async : bool -> N -> pst -> pres rng) (rest_jsx : N -> pst -> option (pres rng)).
Definition expr_range (x : pres expr) : pres rng := pbind x (fun e s => POk (range e) s).
(** ecma/parser/parser.go:5761-5762 primaryExpr: the whole parser reads what is inside the import; [n] imports may be
    inside each other.  Only the range is kept. *)
Fixpoint import_other (n : nat) (k : N) (s : pst) : option (pres rng) :=
  if at_tok T_IMPORT s then
    Some match n with
         | O => PFuel
         | S n =>
             let w := world_at feat text chk params_ok names_ok jump_ok use_strict fn_ok class_ok rest_async (import_other n) n in
             expr_range (import_call feat text (w_calls feat text chk params_ok n w) k s)
         end
  else rest_jsx k s.
(** ecma/parser/parser.go:213-247 Prog: the whole parser, [depth] deep. *)
Definition parse_with_imports (depth : nat) : N -> pst -> pres (list stmt) :=
  FnModel.parse feat text chk params_ok names_ok jump_ok use_strict fn_ok class_ok rest_async (import_other depth) depth.
End Whole.
