(** Which branches run. *)
From Coq Require Import String SpecFloat.
From Verif Require Import Base TokenModel NodeModel WalkModel WalkSpec ExecModel ExecSpec.

Section Branch.
Variable num_to_str : spec_float -> bytes.
Variable str_to_num : bytes -> spec_float.
Variable env : bytes -> option jval.

(** A condition holds. *)
Definition holds (t : node) : bool :=
  match js_eval num_to_str str_to_num env t with Some j => truthy j | None => false end.

(** The statement an if statement runs: that of the first condition that holds, else the one after the last else. *)
Fixpoint taken (n : node) : option node :=
  match n with
  | Node N_STMT_IF _ [(_, [Some test]); (_, [csq]); (_, [alt])] =>
      if holds test then csq
      else match alt with
           | Some m => if nt_eqb (n_ty m) N_STMT_IF then taken m else Some m
           | None => None
           end
  | _ => None
  end.
(** The conditions of an if statement. *)
Fixpoint tests (n : node) : list node :=
  match n with
  | Node N_STMT_IF _ [(_, [Some test]); (_, [_]); (_, [alt])] =>
      test :: match alt with Some m => tests m | None => [] end
  | _ => []
  end.
(** The operands of a condition whose evaluation is certain or decided by the first one. *)
Definition operands (t : node) : list node :=
  match t with
  | Node N_EXPR_BIN a [(_, [Some l]); (_, [Some r])] =>
      match at_op a with
      | T_AND => l :: if holds l then [r] else []
      | T_OR => l :: if holds l then [] else [r]
      | _ => [l; r]
      end
  | Node N_EXPR_COND _ [(_, [Some t]); (_, [Some c]); (_, [Some a])] => if holds t then [c] else [a]
  | _ => []
  end.
(** The conditions the choice of operands depends on. *)
Definition deciding (t : node) : list node :=
  match t with
  | Node N_EXPR_BIN a [(_, [Some l]); (_, [Some r])] => match at_op a with T_AND | T_OR => [l] | _ => [] end
  | Node N_EXPR_COND _ [(_, [Some t]); (_, [Some c]); (_, [Some a])] => [t]
  | _ => []
  end.
Definition whole (t : node) : bool :=
  match t with
  | Node N_EXPR_BIN _ [(_, [Some l]); (_, [Some r])] => true
  | Node N_EXPR_COND _ [(_, [Some t]); (_, [Some c]); (_, [Some a])] => true
  | Node (N_EXPR_BIN | N_EXPR_COND) _ _ => false
  | _ => true
  end.
End Branch.
