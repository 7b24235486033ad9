(** What makes the parser of expressions panic; C50. *)
From Verif Require Import Base TokenModel LexModel.

Definition has_tok (v : tv) (ts : list token) : Prop := exists t, In t ts /\ t_val t = v.
(** [[,] or [,,]: perhaps a hole of an array. *)
Definition hole (ts : list token) : Prop := exists x a b y, ts = x ++ a :: b :: y /\ (t_val a = T_BRACKET_L \/ t_val a = T_COMMA) /\ t_val b = T_COMMA.
(** [{1}], [{"a", b}] or [{b, 1}]: perhaps a property without value. *)
Definition lone_literal (ts : list token) : Prop := exists x a l b y, ts = x ++ a :: l :: b :: y /\
  (t_val a = T_BRACE_L \/ t_val a = T_COMMA /\ has_tok T_BRACE_L ts) /\ (t_val l = T_STRING \/ t_val l = T_NUM) /\ (t_val b = T_COMMA \/ t_val b = T_BRACE_R).
(** The lexer gives the tokens of templates their parts. *)
Definition templates_carry (ts : list token) : Prop := forall t, In t ts -> (t_val t = T_TPL_HEAD \/ t_val t = T_TPL_SPAN \/ t_val t = T_TPL_TAIL) ->
  match t_ext t with XTpl _ _ _ _ _ => True | _ => False end.
(** No default value has a hole or a lone literal in it, and no optional call is deleted. *)
Definition tame (ts : list token) : Prop :=
  ~ (has_tok T_ASSIGN ts /\ (hole ts \/ lone_literal ts)) /\ ~ (has_tok T_DELETE ts /\ has_tok T_OPT_CHAIN ts).
