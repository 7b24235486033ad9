(** ecma/astutil/astutil.go: the branches that run for given variables. *)
From Coq Require Import String SpecFloat.
From Verif Require Import Base TokenModel NodeModel WalkModel ExecModel.

(** ecma/astutil/astutil.go:126-130 SwitchBranch, [None] is nil. *)
Record branch := mk_br { br_neg : bool; br_test : option node; br_body : option node }.

(** ecma/astutil/astutil.go:148-160 BinExprToSwitchBranch. *)
Definition bin_branches (n : node) : list branch :=
  match n with
  | Node _ a [(_, [lhs]); (_, [rhs])] =>
      mk_br false None lhs
      :: match at_op a with
         | T_AND => [mk_br false lhs rhs]
         | T_OR => [mk_br true lhs rhs]
         | _ => [mk_br true None rhs]
         end
  | _ => []
  end.
(** ecma/astutil/astutil.go:162-167 CondExprToSwitchBranches. *)
Definition cond_branches (n : node) : list branch :=
  match n with
  | Node _ _ [(_, [test]); (_, [csq]); (_, [alt])] => [mk_br false test csq; mk_br true test alt]
  | _ => []
  end.
(** ecma/astutil/astutil.go:169-180 NodeToSwitchBranches of an expression. *)
Definition expr_branches (n : node) : list branch :=
  match n_ty n with N_EXPR_BIN => bin_branches n | N_EXPR_COND => cond_branches n | _ => [] end.
(** ecma/astutil/astutil.go:132-146 IfStmtToSwitchBranches; a test is an expression. *)
Fixpoint if_branches (n : node) : list branch :=
  match n with
  | Node _ _ [(_, [Some test]); (_, [csq]); (_, [alt])] =>
      expr_branches test ++ mk_br false (Some test) csq
      :: match alt with
         | Some m => if nt_eqb (n_ty m) N_STMT_IF then if_branches m else [mk_br true (Some test) (Some m)]
         | None => []
         end
  | _ => []
  end.
(** ecma/astutil/astutil.go:169-180 NodeToSwitchBranches. *)
Definition branches (n : node) : list branch :=
  match n_ty n with N_STMT_IF => if_branches n | _ => expr_branches n end.

Section Select.
Variable parse_float : bytes -> option spec_float.
Variable format_float : spec_float -> bytes.
Variable sprint : val -> bytes.
Variable vars : bytes -> val.

Definition body_of (b : branch) : list node := match br_body b with Some m => [m] | None => [] end.
(** ecma/astutil/astutil.go:185-197, one branch: a nil test is still evaluated, to nil; [None]: the evaluator panics.
    (A nil body would be appended with a nil test, but operands are never nil.) *)
Definition select_one (b : branch) : option (list node) :=
  match match br_test b with Some t => result parse_float format_float sprint vars t | None => Some VNil end with
  | None => None
  | Some v =>
      Some ((match br_test b with None => body_of b | Some _ => [] end)
            ++ (if negb (br_neg b) && to_bool v || br_neg b && negb (to_bool v) then body_of b else []))
  end.
Fixpoint select_all (l : list branch) : option (list node) :=
  match l with
  | [] => Some []
  | b :: r => match select_one b, select_all r with Some x, Some y => Some (x ++ y) | _, _ => None end
  end.
(** ecma/astutil/astutil.go:182-200 SelectTrueBranches. *)
Definition select_true (n : node) : option (list node) := select_all (branches n).
End Select.
