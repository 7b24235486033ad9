(** Node types and the default visitors.  Generated by tools/gen_nodes.py from
    ecma/parser/nodetype.go and ecma/walk/visitor.go. *)
From Coq Require Import String.
From Verif Require Import Base.
Local Open Scope string_scope.

(** ecma/parser/nodetype.go:8-173 NodeType. *)
Inductive nt :=
| N_ILLEGAL
| N_PROG
| N_STMT_BEGIN
| N_STMT_EMPTY
| N_STMT_EXPR
| N_STMT_VAR_DEC
| N_STMT_FN
| N_STMT_BLOCK
| N_STMT_DO_WHILE
| N_STMT_WHILE
| N_STMT_FOR
| N_STMT_FOR_IN_OF
| N_STMT_IF
| N_STMT_SWITCH
| N_STMT_BRK
| N_STMT_CONT
| N_STMT_LABEL
| N_STMT_RET
| N_STMT_THROW
| N_STMT_TRY
| N_STMT_DEBUG
| N_STMT_WITH
| N_STMT_CLASS
| N_STMT_IMPORT
| N_STMT_EXPORT
| N_STMT_END
| N_EXPR_BEGIN
| N_LIT_BEGIN
| N_LIT_NULL
| N_LIT_BOOL
| N_LIT_NUM
| N_LIT_STR
| N_LIT_ARR
| N_LIT_OBJ
| N_LIT_REGEXP
| N_LIT_END
| N_EXPR_NEW
| N_EXPR_MEMBER
| N_EXPR_CALL
| N_EXPR_BIN
| N_EXPR_UNARY
| N_EXPR_UPDATE
| N_EXPR_COND
| N_EXPR_ASSIGN
| N_EXPR_FN
| N_EXPR_THIS
| N_EXPR_PAREN
| N_EXPR_ARROW
| N_EXPR_SEQ
| N_EXPR_CLASS
| N_EXPR_TPL
| N_EXPR_YIELD
| N_EXPR_CHAIN
| N_JSX_ELEM
| N_NAME
| N_IMPORT_CALL
| N_META_PROP
| N_DECORATOR
| N_SPREAD
| N_EXPR_END
| N_VAR_DEC
| N_PAT_REST
| N_PAT_ARRAY
| N_PAT_ASSIGN
| N_PAT_OBJ
| N_PROP
| N_SWITCH_CASE
| N_CATCH
| N_CLASS_BODY
| N_STATIC_BLOCK
| N_METHOD
| N_FIELD
| N_SUPER
| N_IMPORT_SPEC
| N_EXPORT_SPEC
| N_JSX_BEGIN
| N_JSX_ID
| N_JSX_MEMBER
| N_JSX_NS
| N_JSX_ATTR_SPREAD
| N_JSX_CHILD_SPREAD
| N_JSX_OPEN
| N_JSX_CLOSE
| N_JSX_EMPTY
| N_JSX_EXPR_SPAN
| N_JSX_TXT
| N_JSX_ATTR
| N_JSX_END
| N_TS_BEGIN
| N_TS_TYP_ANNOT
| N_TS_ANY
| N_TS_NUM
| N_TS_BOOL
| N_TS_STR
| N_TS_SYM
| N_TS_OBJ
| N_TS_VOID
| N_TS_NEVER
| N_TS_UNKNOWN
| N_TS_UNDEF
| N_TS_BIGINT
| N_TS_INTRINSIC
| N_TS_NULL
| N_TS_LIT
| N_TS_REF
| N_TS_LIT_OBJ
| N_TS_ARR
| N_TS_IDX_ACCESS
| N_TS_TUPLE
| N_TS_REST
| N_TS_TUPLE_NAMED_MEMBER
| N_TS_OPT
| N_TS_TYP_QUERY
| N_TS_COND
| N_TS_TYP_OP
| N_TS_MAPPED
| N_TS_TYP_INFER
| N_TS_PAREN
| N_TS_THIS
| N_TS_NS_NAME
| N_TS_PARAM
| N_TS_PARAM_DEC
| N_TS_PARAM_INST
| N_TS_PROP
| N_TS_CALL_SIG
| N_TS_NEW_SIG
| N_TS_IDX_SIG
| N_TS_FN_TYP
| N_TS_NEW
| N_TS_UNION_TYP
| N_TS_INTERSECT_TYP
| N_TS_ROUGH_PARAM
| N_TS_TYP_ASSERT
| N_TS_TYP_DEC
| N_TS_INTERFACE
| N_TS_INTERFACE_BODY
| N_TS_ENUM
| N_TS_ENUM_MEMBER
| N_TS_IMPORT_ALIAS
| N_TS_NAMESPACE
| N_TS_IMPORT_REQUIRE
| N_TS_IMPORT_TYP
| N_TS_EXPORT_ASSIGN
| N_TS_DEC_VAR_DEC
| N_TS_DEC_FN
| N_TS_DEC_ENUM
| N_TS_DEC_CLASS
| N_TS_DEC_NS
| N_TS_DEC_MODULE
| N_TS_DEC_GLOBAL
| N_TS_DEC_INTERFACE
| N_TS_DEC_TYP_DEC
| N_TS_TYP_PREDICATE
| N_TS_NO_NULL
| N_TS_END
| N_NODE_DEF_END
.

(** The integer value (iota) of a node type. *)
Definition nt_num (t : nt) : N :=
  match t with
  | N_ILLEGAL => 0
  | N_PROG => 1
  | N_STMT_BEGIN => 2
  | N_STMT_EMPTY => 3
  | N_STMT_EXPR => 4
  | N_STMT_VAR_DEC => 5
  | N_STMT_FN => 6
  | N_STMT_BLOCK => 7
  | N_STMT_DO_WHILE => 8
  | N_STMT_WHILE => 9
  | N_STMT_FOR => 10
  | N_STMT_FOR_IN_OF => 11
  | N_STMT_IF => 12
  | N_STMT_SWITCH => 13
  | N_STMT_BRK => 14
  | N_STMT_CONT => 15
  | N_STMT_LABEL => 16
  | N_STMT_RET => 17
  | N_STMT_THROW => 18
  | N_STMT_TRY => 19
  | N_STMT_DEBUG => 20
  | N_STMT_WITH => 21
  | N_STMT_CLASS => 22
  | N_STMT_IMPORT => 23
  | N_STMT_EXPORT => 24
  | N_STMT_END => 25
  | N_EXPR_BEGIN => 26
  | N_LIT_BEGIN => 27
  | N_LIT_NULL => 28
  | N_LIT_BOOL => 29
  | N_LIT_NUM => 30
  | N_LIT_STR => 31
  | N_LIT_ARR => 32
  | N_LIT_OBJ => 33
  | N_LIT_REGEXP => 34
  | N_LIT_END => 35
  | N_EXPR_NEW => 36
  | N_EXPR_MEMBER => 37
  | N_EXPR_CALL => 38
  | N_EXPR_BIN => 39
  | N_EXPR_UNARY => 40
  | N_EXPR_UPDATE => 41
  | N_EXPR_COND => 42
  | N_EXPR_ASSIGN => 43
  | N_EXPR_FN => 44
  | N_EXPR_THIS => 45
  | N_EXPR_PAREN => 46
  | N_EXPR_ARROW => 47
  | N_EXPR_SEQ => 48
  | N_EXPR_CLASS => 49
  | N_EXPR_TPL => 50
  | N_EXPR_YIELD => 51
  | N_EXPR_CHAIN => 52
  | N_JSX_ELEM => 53
  | N_NAME => 54
  | N_IMPORT_CALL => 55
  | N_META_PROP => 56
  | N_DECORATOR => 57
  | N_SPREAD => 58
  | N_EXPR_END => 59
  | N_VAR_DEC => 60
  | N_PAT_REST => 61
  | N_PAT_ARRAY => 62
  | N_PAT_ASSIGN => 63
  | N_PAT_OBJ => 64
  | N_PROP => 65
  | N_SWITCH_CASE => 66
  | N_CATCH => 67
  | N_CLASS_BODY => 68
  | N_STATIC_BLOCK => 69
  | N_METHOD => 70
  | N_FIELD => 71
  | N_SUPER => 72
  | N_IMPORT_SPEC => 73
  | N_EXPORT_SPEC => 74
  | N_JSX_BEGIN => 75
  | N_JSX_ID => 76
  | N_JSX_MEMBER => 77
  | N_JSX_NS => 78
  | N_JSX_ATTR_SPREAD => 79
  | N_JSX_CHILD_SPREAD => 80
  | N_JSX_OPEN => 81
  | N_JSX_CLOSE => 82
  | N_JSX_EMPTY => 83
  | N_JSX_EXPR_SPAN => 84
  | N_JSX_TXT => 85
  | N_JSX_ATTR => 86
  | N_JSX_END => 87
  | N_TS_BEGIN => 88
  | N_TS_TYP_ANNOT => 89
  | N_TS_ANY => 90
  | N_TS_NUM => 91
  | N_TS_BOOL => 92
  | N_TS_STR => 93
  | N_TS_SYM => 94
  | N_TS_OBJ => 95
  | N_TS_VOID => 96
  | N_TS_NEVER => 97
  | N_TS_UNKNOWN => 98
  | N_TS_UNDEF => 99
  | N_TS_BIGINT => 100
  | N_TS_INTRINSIC => 101
  | N_TS_NULL => 102
  | N_TS_LIT => 103
  | N_TS_REF => 104
  | N_TS_LIT_OBJ => 105
  | N_TS_ARR => 106
  | N_TS_IDX_ACCESS => 107
  | N_TS_TUPLE => 108
  | N_TS_REST => 109
  | N_TS_TUPLE_NAMED_MEMBER => 110
  | N_TS_OPT => 111
  | N_TS_TYP_QUERY => 112
  | N_TS_COND => 113
  | N_TS_TYP_OP => 114
  | N_TS_MAPPED => 115
  | N_TS_TYP_INFER => 116
  | N_TS_PAREN => 117
  | N_TS_THIS => 118
  | N_TS_NS_NAME => 119
  | N_TS_PARAM => 120
  | N_TS_PARAM_DEC => 121
  | N_TS_PARAM_INST => 122
  | N_TS_PROP => 123
  | N_TS_CALL_SIG => 124
  | N_TS_NEW_SIG => 125
  | N_TS_IDX_SIG => 126
  | N_TS_FN_TYP => 127
  | N_TS_NEW => 128
  | N_TS_UNION_TYP => 129
  | N_TS_INTERSECT_TYP => 130
  | N_TS_ROUGH_PARAM => 131
  | N_TS_TYP_ASSERT => 132
  | N_TS_TYP_DEC => 133
  | N_TS_INTERFACE => 134
  | N_TS_INTERFACE_BODY => 135
  | N_TS_ENUM => 136
  | N_TS_ENUM_MEMBER => 137
  | N_TS_IMPORT_ALIAS => 138
  | N_TS_NAMESPACE => 139
  | N_TS_IMPORT_REQUIRE => 140
  | N_TS_IMPORT_TYP => 141
  | N_TS_EXPORT_ASSIGN => 142
  | N_TS_DEC_VAR_DEC => 143
  | N_TS_DEC_FN => 144
  | N_TS_DEC_ENUM => 145
  | N_TS_DEC_CLASS => 146
  | N_TS_DEC_NS => 147
  | N_TS_DEC_MODULE => 148
  | N_TS_DEC_GLOBAL => 149
  | N_TS_DEC_INTERFACE => 150
  | N_TS_DEC_TYP_DEC => 151
  | N_TS_TYP_PREDICATE => 152
  | N_TS_NO_NULL => 153
  | N_TS_END => 154
  | N_NODE_DEF_END => 155
  end%N.
Definition nt_eqb (a b : nt) : bool := N.eqb (nt_num a) (nt_num b).

(** Every node type, and that [nt_eqb] is equality. *)
Definition all_nt : list nt :=
  [N_ILLEGAL; N_PROG; N_STMT_BEGIN; N_STMT_EMPTY; N_STMT_EXPR; N_STMT_VAR_DEC; N_STMT_FN; N_STMT_BLOCK; N_STMT_DO_WHILE; N_STMT_WHILE; N_STMT_FOR; N_STMT_FOR_IN_OF; N_STMT_IF; N_STMT_SWITCH; N_STMT_BRK; N_STMT_CONT; N_STMT_LABEL; N_STMT_RET; N_STMT_THROW; N_STMT_TRY; N_STMT_DEBUG; N_STMT_WITH; N_STMT_CLASS; N_STMT_IMPORT; N_STMT_EXPORT; N_STMT_END; N_EXPR_BEGIN; N_LIT_BEGIN; N_LIT_NULL; N_LIT_BOOL; N_LIT_NUM; N_LIT_STR; N_LIT_ARR; N_LIT_OBJ; N_LIT_REGEXP; N_LIT_END; N_EXPR_NEW; N_EXPR_MEMBER; N_EXPR_CALL; N_EXPR_BIN; N_EXPR_UNARY; N_EXPR_UPDATE; N_EXPR_COND; N_EXPR_ASSIGN; N_EXPR_FN; N_EXPR_THIS; N_EXPR_PAREN; N_EXPR_ARROW; N_EXPR_SEQ; N_EXPR_CLASS; N_EXPR_TPL; N_EXPR_YIELD; N_EXPR_CHAIN; N_JSX_ELEM; N_NAME; N_IMPORT_CALL; N_META_PROP; N_DECORATOR; N_SPREAD; N_EXPR_END; N_VAR_DEC; N_PAT_REST; N_PAT_ARRAY; N_PAT_ASSIGN; N_PAT_OBJ; N_PROP; N_SWITCH_CASE; N_CATCH; N_CLASS_BODY; N_STATIC_BLOCK; N_METHOD; N_FIELD; N_SUPER; N_IMPORT_SPEC; N_EXPORT_SPEC; N_JSX_BEGIN; N_JSX_ID; N_JSX_MEMBER; N_JSX_NS; N_JSX_ATTR_SPREAD; N_JSX_CHILD_SPREAD; N_JSX_OPEN; N_JSX_CLOSE; N_JSX_EMPTY; N_JSX_EXPR_SPAN; N_JSX_TXT; N_JSX_ATTR; N_JSX_END; N_TS_BEGIN; N_TS_TYP_ANNOT; N_TS_ANY; N_TS_NUM; N_TS_BOOL; N_TS_STR; N_TS_SYM; N_TS_OBJ; N_TS_VOID; N_TS_NEVER; N_TS_UNKNOWN; N_TS_UNDEF; N_TS_BIGINT; N_TS_INTRINSIC; N_TS_NULL; N_TS_LIT; N_TS_REF; N_TS_LIT_OBJ; N_TS_ARR; N_TS_IDX_ACCESS; N_TS_TUPLE; N_TS_REST; N_TS_TUPLE_NAMED_MEMBER; N_TS_OPT; N_TS_TYP_QUERY; N_TS_COND; N_TS_TYP_OP; N_TS_MAPPED; N_TS_TYP_INFER; N_TS_PAREN; N_TS_THIS; N_TS_NS_NAME; N_TS_PARAM; N_TS_PARAM_DEC; N_TS_PARAM_INST; N_TS_PROP; N_TS_CALL_SIG; N_TS_NEW_SIG; N_TS_IDX_SIG; N_TS_FN_TYP; N_TS_NEW; N_TS_UNION_TYP; N_TS_INTERSECT_TYP; N_TS_ROUGH_PARAM; N_TS_TYP_ASSERT; N_TS_TYP_DEC; N_TS_INTERFACE; N_TS_INTERFACE_BODY; N_TS_ENUM; N_TS_ENUM_MEMBER; N_TS_IMPORT_ALIAS; N_TS_NAMESPACE; N_TS_IMPORT_REQUIRE; N_TS_IMPORT_TYP; N_TS_EXPORT_ASSIGN; N_TS_DEC_VAR_DEC; N_TS_DEC_FN; N_TS_DEC_ENUM; N_TS_DEC_CLASS; N_TS_DEC_NS; N_TS_DEC_MODULE; N_TS_DEC_GLOBAL; N_TS_DEC_INTERFACE; N_TS_DEC_TYP_DEC; N_TS_TYP_PREDICATE; N_TS_NO_NULL; N_TS_END; N_NODE_DEF_END].
Lemma nt_eqb_spec : forall a b, nt_eqb a b = true <-> a = b.
Proof.
  intros a b. unfold nt_eqb. rewrite N.eqb_eq. split; [|intros ->; reflexivity].
  intro H. assert (K : forall x, nth_error all_nt (N.to_nat (nt_num x)) = Some x) by (intros []; reflexivity).
  pose proof (K a) as Ha. pose proof (K b) as Hb. rewrite H in Ha. congruence.
Qed.

(** What the body of a visitor does between the calls for the events of the node: ctx.WalkCtx.PushScope()
    with its deferred PopScope, VisitNode(n.K(), "K", ctx), VisitNodes(n, n.K(), "K", ctx); the last two are
    each followed by [if ctx.WalkCtx.Stopped() { return }]. *)
Inductive vstep := VScope | VOne (k : string) | VMany (k : string).
(** A visitor: the node type whose _BEFORE and _AFTER events it calls; [None]: CallListener for both and
    nothing else, the visitors of nodes without children. *)
Record vis := mk_vis { v_ev : nt; v_steps : option (list vstep) }.

(** ecma/walk/visitor.go:3596-3968 DefaultVisitors, with the visitors of lines 1010-3590. *)
Definition visitor (t : nt) : option vis :=
  match t with
  | N_PROG => Some (mk_vis N_PROG (Some [VMany "Body"])) (* VisitProg, 1200 *)
  | N_STMT_EXPR => Some (mk_vis N_STMT_EXPR (Some [VOne "Expr"])) (* VisitExprStmt, 2359 *)
  | N_STMT_VAR_DEC => Some (mk_vis N_STMT_VAR_DEC (Some [VMany "DecList"])) (* VisitVarDecStmt, 3462 *)
  | N_STMT_FN => Some (mk_vis N_EXPR_FN (Some [VOne "Id"; VScope; VMany "Params"; VOne "Body"])) (* VisitFnDec, 1428 *)
  | N_STMT_BLOCK => Some (mk_vis N_STMT_BLOCK (Some [VScope; VMany "Body"])) (* VisitBlockStmt, 3384 *)
  | N_STMT_DO_WHILE => Some (mk_vis N_STMT_DO_WHILE (Some [VScope; VOne "Body"; VOne "Test"])) (* VisitDoWhileStmt, 1400 *)
  | N_STMT_WHILE => Some (mk_vis N_STMT_WHILE (Some [VScope; VOne "Test"; VOne "Body"])) (* VisitWhileStmt, 2379 *)
  | N_STMT_FOR => Some (mk_vis N_STMT_FOR (Some [VScope; VOne "Init"; VOne "Test"; VOne "Update"; VOne "Body"])) (* VisitForStmt, 2487 *)
  | N_STMT_FOR_IN_OF => Some (mk_vis N_STMT_FOR_IN_OF (Some [VOne "Left"; VOne "Right"; VOne "Body"])) (* VisitForInOfStmt, 2071 *)
  | N_STMT_IF => Some (mk_vis N_STMT_IF (Some [VOne "Test"; VOne "Cons"; VOne "Alt"])) (* VisitIfStmt, 3507 *)
  | N_STMT_SWITCH => Some (mk_vis N_STMT_SWITCH (Some [VScope; VOne "Test"; VMany "Cases"])) (* VisitSwitchStmt, 2950 *)
  | N_STMT_BRK => Some (mk_vis N_STMT_BRK (Some [VOne "Label"])) (* VisitBrkStmt, 3407 *)
  | N_STMT_CONT => Some (mk_vis N_STMT_CONT (Some [VOne "Label"])) (* VisitContStmt, 2685 *)
  | N_STMT_LABEL => Some (mk_vis N_STMT_LABEL (Some [VOne "Label"; VOne "Body"])) (* VisitLabelStmt, 2800 *)
  | N_STMT_RET => Some (mk_vis N_STMT_RET (Some [VOne "Arg"])) (* VisitRetStmt, 1280 *)
  | N_STMT_THROW => Some (mk_vis N_STMT_THROW (Some [VOne "Arg"])) (* VisitThrowStmt, 2905 *)
  | N_STMT_TRY => Some (mk_vis N_STMT_TRY (Some [VOne "Try"; VOne "Catch"; VOne "Fin"])) (* VisitTryStmt, 3537 *)
  | N_STMT_DEBUG => Some (mk_vis N_STMT_DEBUG None) (* VisitDebugStmt, 1300 *)
  | N_STMT_WITH => Some (mk_vis N_STMT_WITH (Some [VOne "Expr"; VOne "Body"])) (* VisitWithStmt, 3567 *)
  | N_STMT_CLASS => Some (mk_vis N_EXPR_CLASS (Some [VOne "Id"; VOne "Super"; VOne "Body"])) (* VisitClassDec, 1611 *)
  | N_STMT_IMPORT => Some (mk_vis N_STMT_IMPORT (Some [VMany "Specs"; VOne "Src"])) (* VisitImportDec, 3286 *)
  | N_STMT_EXPORT => Some (mk_vis N_STMT_EXPORT (Some [VOne "Dec"; VMany "Specs"; VOne "Src"])) (* VisitExportDec, 3427 *)
  | N_LIT_NULL => Some (mk_vis N_LIT_NULL None) (* VisitNullLit, 2925 *)
  | N_LIT_BOOL => Some (mk_vis N_LIT_BOOL None) (* VisitBoolLit, 2630 *)
  | N_LIT_NUM => Some (mk_vis N_LIT_NUM None) (* VisitNumLit, 1926 *)
  | N_LIT_STR => Some (mk_vis N_LIT_STR None) (* VisitStrLit, 3063 *)
  | N_LIT_ARR => Some (mk_vis N_LIT_ARR (Some [VMany "Elems"])) (* VisitArrLit, 1681 *)
  | N_LIT_OBJ => Some (mk_vis N_LIT_OBJ (Some [VMany "Props"])) (* VisitObjLit, 2930 *)
  | N_LIT_REGEXP => Some (mk_vis N_LIT_REGEXP None) (* VisitRegLit, 3457 *)
  | N_EXPR_NEW => Some (mk_vis N_EXPR_NEW (Some [VOne "Callee"; VMany "Args"])) (* VisitNewExpr, 2525 *)
  | N_EXPR_MEMBER => Some (mk_vis N_EXPR_MEMBER (Some [VOne "Obj"; VOne "Prop"])) (* VisitMemberExpr, 1826 *)
  | N_EXPR_CALL => Some (mk_vis N_EXPR_CALL (Some [VOne "Callee"; VMany "Args"])) (* VisitCallExpr, 1851 *)
  | N_EXPR_BIN => Some (mk_vis N_EXPR_BIN (Some [VOne "Lhs"; VOne "Rhs"])) (* VisitBinExpr, 2274 *)
  | N_EXPR_UNARY => Some (mk_vis N_EXPR_UNARY (Some [VOne "Arg"])) (* VisitUnaryExpr, 1701 *)
  | N_EXPR_UPDATE => Some (mk_vis N_EXPR_UPDATE (Some [VOne "Arg"])) (* VisitUpdateExpr, 2101 *)
  | N_EXPR_COND => Some (mk_vis N_EXPR_COND (Some [VOne "Test"; VOne "Cons"; VOne "Alt"])) (* VisitCondExpr, 1556 *)
  | N_EXPR_ASSIGN => Some (mk_vis N_EXPR_ASSIGN (Some [VOne "Lhs"; VOne "Rhs"])) (* VisitAssignExpr, 1586 *)
  | N_EXPR_FN => Some (mk_vis N_EXPR_FN (Some [VOne "Id"; VScope; VMany "Params"; VOne "Body"])) (* VisitFnDec, 1428 *)
  | N_EXPR_THIS => Some (mk_vis N_EXPR_THIS None) (* VisitThisExpr, 3213 *)
  | N_EXPR_PAREN => Some (mk_vis N_EXPR_PAREN (Some [VOne "Expr"])) (* VisitParenExpr, 3218 *)
  | N_EXPR_ARROW => Some (mk_vis N_EXPR_ARROW (Some [VScope; VMany "Params"; VOne "Body"])) (* VisitArrowFn, 3238 *)
  | N_EXPR_SEQ => Some (mk_vis N_EXPR_SEQ (Some [VMany "Elems"])) (* VisitSeqExpr, 2299 *)
  | N_EXPR_CLASS => Some (mk_vis N_EXPR_CLASS (Some [VOne "Id"; VOne "Super"; VOne "Body"])) (* VisitClassDec, 1611 *)
  | N_EXPR_TPL => Some (mk_vis N_EXPR_TPL (Some [VOne "Tag"; VMany "Elems"])) (* VisitTplExpr, 2001 *)
  | N_EXPR_YIELD => Some (mk_vis N_EXPR_YIELD (Some [VOne "Arg"])) (* VisitYieldExpr, 2825 *)
  | N_EXPR_CHAIN => Some (mk_vis N_EXPR_CHAIN (Some [VOne "Expr"])) (* VisitChainExpr, 1466 *)
  | N_JSX_ELEM => Some (mk_vis N_JSX_ELEM (Some [VOne "Open"; VMany "Children"; VOne "Close"])) (* VisitJsxElem, 2550 *)
  | N_NAME => Some (mk_vis N_NAME None) (* VisitIdent, 1461 *)
  | N_IMPORT_CALL => Some (mk_vis N_IMPORT_CALL (Some [VOne "Src"])) (* VisitImportCall, 2161 *)
  | N_META_PROP => Some (mk_vis N_META_PROP (Some [VOne "Meta"; VOne "Prop"])) (* VisitMetaProp, 2705 *)
  | N_DECORATOR => Some (mk_vis N_DECORATOR (Some [VOne "Expr"])) (* VisitDecorator, 2234 *)
  | N_SPREAD => Some (mk_vis N_SPREAD (Some [VOne "Arg"])) (* VisitSpread, 3068 *)
  | N_VAR_DEC => Some (mk_vis N_VAR_DEC (Some [VOne "Id"; VOne "Init"])) (* VisitVarDec, 1325 *)
  | N_PAT_REST => Some (mk_vis N_PAT_REST (Some [VOne "Arg"])) (* VisitRestPat, 1486 *)
  | N_PAT_ARRAY => Some (mk_vis N_PAT_ARRAY (Some [VMany "Elems"])) (* VisitArrPat, 2319 *)
  | N_PAT_ASSIGN => Some (mk_vis N_PAT_ASSIGN (Some [VOne "Lhs"; VOne "Rhs"])) (* VisitAssignPat, 1931 *)
  | N_PAT_OBJ => Some (mk_vis N_PAT_OBJ (Some [VMany "Props"])) (* VisitObjPat, 1305 *)
  | N_PROP => Some (mk_vis N_PROP (Some [VOne "Key"; VOne "Val"])) (* VisitProp, 2181 *)
  | N_SWITCH_CASE => Some (mk_vis N_SWITCH_CASE (Some [VOne "Test"; VMany "Cons"])) (* VisitSwitchCase, 1721 *)
  | N_CATCH => Some (mk_vis N_CATCH (Some [VScope; VOne "Param"; VOne "Body"])) (* VisitCatch, 2206 *)
  | N_CLASS_BODY => Some (mk_vis N_CLASS_BODY (Some [VScope; VMany "Elems"])) (* VisitClassBody, 3336 *)
  | N_STATIC_BLOCK => Some (mk_vis N_STATIC_BLOCK (Some [VMany "Body"])) (* VisitStaticBlock, 1956 *)
  | N_METHOD => Some (mk_vis N_METHOD (Some [VOne "Key"; VOne "Val"])) (* VisitMethod, 1976 *)
  | N_FIELD => Some (mk_vis N_FIELD (Some [VOne "Key"; VOne "Val"])) (* VisitField, 2635 *)
  | N_SUPER => Some (mk_vis N_SUPER None) (* VisitSuper, 1110 *)
  | N_IMPORT_SPEC => Some (mk_vis N_IMPORT_SPEC (Some [VOne "Local"; VOne "Id"])) (* VisitImportSpec, 2407 *)
  | N_EXPORT_SPEC => Some (mk_vis N_EXPORT_SPEC (Some [VOne "Local"; VOne "Id"])) (* VisitExportSpec, 1220 *)
  | N_JSX_ID => Some (mk_vis N_JSX_ID None) (* VisitJsxIdent, 2026 *)
  | N_JSX_MEMBER => Some (mk_vis N_JSX_MEMBER (Some [VOne "Obj"; VOne "Prop"])) (* VisitJsxMember, 1115 *)
  | N_JSX_NS => Some (mk_vis N_JSX_NS None) (* VisitJsxNsName, 1771 *)
  | N_JSX_ATTR_SPREAD => Some (mk_vis N_JSX_ATTR_SPREAD (Some [VOne "Arg"])) (* VisitJsxSpreadAttr, 2141 *)
  | N_JSX_CHILD_SPREAD => Some (mk_vis N_JSX_CHILD_SPREAD (Some [VOne "Expr"])) (* VisitJsxSpreadChild, 1641 *)
  | N_JSX_OPEN => Some (mk_vis N_JSX_OPEN (Some [VOne "Name"; VMany "Attrs"])) (* VisitJsxOpen, 1506 *)
  | N_JSX_CLOSE => Some (mk_vis N_JSX_CLOSE (Some [VOne "Name"])) (* VisitJsxClose, 1350 *)
  | N_JSX_EMPTY => Some (mk_vis N_JSX_EMPTY None) (* VisitJsxEmpty, 1250 *)
  | N_JSX_EXPR_SPAN => Some (mk_vis N_JSX_EXPR_SPAN (Some [VOne "Expr"])) (* VisitJsxExprSpan, 3088 *)
  | N_JSX_TXT => Some (mk_vis N_JSX_TXT None) (* VisitJsxText, 3311 *)
  | N_JSX_ATTR => Some (mk_vis N_JSX_ATTR (Some [VOne "Name"; VOne "Val"])) (* VisitJsxAttr, 2432 *)
  | N_TS_TYP_ANNOT => Some (mk_vis N_TS_TYP_ANNOT (Some [VOne "TsTyp"])) (* VisitTsTypAnnot, 2121 *)
  | N_TS_ANY => Some (mk_vis N_TS_NULL None) (* VisitTsPredef, 1245 *)
  | N_TS_NUM => Some (mk_vis N_TS_NULL None) (* VisitTsPredef, 1245 *)
  | N_TS_BOOL => Some (mk_vis N_TS_NULL None) (* VisitTsPredef, 1245 *)
  | N_TS_STR => Some (mk_vis N_TS_NULL None) (* VisitTsPredef, 1245 *)
  | N_TS_SYM => Some (mk_vis N_TS_NULL None) (* VisitTsPredef, 1245 *)
  | N_TS_OBJ => Some (mk_vis N_TS_NULL None) (* VisitTsPredef, 1245 *)
  | N_TS_VOID => Some (mk_vis N_TS_NULL None) (* VisitTsPredef, 1245 *)
  | N_TS_NEVER => Some (mk_vis N_TS_NULL None) (* VisitTsPredef, 1245 *)
  | N_TS_UNKNOWN => Some (mk_vis N_TS_NULL None) (* VisitTsPredef, 1245 *)
  | N_TS_UNDEF => Some (mk_vis N_TS_NULL None) (* VisitTsPredef, 1245 *)
  | N_TS_BIGINT => Some (mk_vis N_TS_NULL None) (* VisitTsPredef, 1245 *)
  | N_TS_INTRINSIC => Some (mk_vis N_TS_NULL None) (* VisitTsPredef, 1245 *)
  | N_TS_NULL => Some (mk_vis N_TS_NULL None) (* VisitTsPredef, 1245 *)
  | N_TS_LIT => Some (mk_vis N_TS_LIT (Some [VOne "Lit"])) (* VisitTsLit, 1661 *)
  | N_TS_REF => Some (mk_vis N_TS_REF (Some [VOne "Name"; VMany "Args"])) (* VisitTsRef, 2845 *)
  | N_TS_LIT_OBJ => Some (mk_vis N_TS_LIT_OBJ (Some [VMany "Props"])) (* VisitTsObj, 1160 *)
  | N_TS_ARR => Some (mk_vis N_TS_ARR (Some [VOne "Arg"])) (* VisitTsArr, 1180 *)
  | N_TS_IDX_ACCESS => Some (mk_vis N_TS_IDX_ACCESS (Some [VOne "Obj"; VOne "Idx"])) (* VisitTsIdxAccess, 2660 *)
  | N_TS_TUPLE => Some (mk_vis N_TS_TUPLE (Some [VMany "Args"])) (* VisitTsTuple, 1140 *)
  | N_TS_REST => Some (mk_vis N_TS_REST (Some [VOne "Arg"])) (* VisitTsRest, 2031 *)
  | N_TS_TUPLE_NAMED_MEMBER => Some (mk_vis N_TS_TUPLE_NAMED_MEMBER (Some [VOne "Label"; VOne "Val"])) (* VisitTsTupleNamedMember, 1776 *)
  | N_TS_OPT => Some (mk_vis N_TS_OPT (Some [VOne "Arg"])) (* VisitTsOpt, 3108 *)
  | N_TS_TYP_QUERY => Some (mk_vis N_TS_TYP_QUERY (Some [VOne "Arg"])) (* VisitTsTypQuery, 2730 *)
  | N_TS_COND => Some (mk_vis N_TS_COND (Some [VOne "CheckTyp"; VOne "ExtTyp"; VOne "TrueTyp"; VOne "FalseTyp"])) (* VisitTsCondType, 3128 *)
  | N_TS_TYP_OP => Some (mk_vis N_TS_TYP_OP (Some [VOne "Arg"])) (* VisitTsTypOp, 2051 *)
  | N_TS_MAPPED => Some (mk_vis N_TS_MAPPED (Some [VOne "Name"; VOne "Key"; VOne "Val"])) (* VisitTsMapped, 2580 *)
  | N_TS_TYP_INFER => Some (mk_vis N_TS_TYP_INFER (Some [VOne "Arg"])) (* VisitTsTypInfer, 2254 *)
  | N_TS_PAREN => Some (mk_vis N_TS_PAREN (Some [VOne "Arg"])) (* VisitTsParen, 3043 *)
  | N_TS_THIS => Some (mk_vis N_TS_THIS None) (* VisitTsThis, 2978 *)
  | N_TS_NS_NAME => Some (mk_vis N_TS_NS_NAME (Some [VOne "Lhs"; VOne "Rhs"])) (* VisitTsNsName, 1010 *)
  | N_TS_PARAM => Some (mk_vis N_TS_PARAM (Some [VOne "Name"; VOne "Cons"; VOne "Default"])) (* VisitTsParam, 3163 *)
  | N_TS_PARAM_DEC => Some (mk_vis N_TS_PARAM_DEC (Some [VMany "Params"])) (* VisitTsParamsDec, 2750 *)
  | N_TS_PARAM_INST => Some (mk_vis N_TS_PARAM_INST (Some [VMany "Params"])) (* VisitTsParamsInst, 2610 *)
  | N_TS_PROP => Some (mk_vis N_TS_PROP (Some [VOne "Key"; VOne "Val"])) (* VisitTsProp, 3482 *)
  | N_TS_CALL_SIG => Some (mk_vis N_TS_CALL_SIG (Some [VOne "TypParams"; VMany "Params"; VOne "RetTyp"])) (* VisitTsCallSig, 2988 *)
  | N_TS_NEW_SIG => Some (mk_vis N_TS_NEW (Some [VOne "TypParams"; VMany "Params"; VOne "RetTyp"])) (* VisitTsNewSig, 2457 *)
  | N_TS_IDX_SIG => Some (mk_vis N_TS_IDX_SIG (Some [VOne "Key"; VOne "KeyType"; VOne "Val"])) (* VisitTsIdxSig, 1035 *)
  | N_TS_FN_TYP => Some (mk_vis N_TS_FN_TYP (Some [VOne "TypParams"; VMany "Params"; VOne "RetTyp"])) (* VisitTsFnTyp, 1370 *)
  | N_TS_NEW => Some (mk_vis N_TS_NEW (Some [VOne "TypParams"; VMany "Params"; VOne "RetTyp"])) (* VisitTsNewSig, 2457 *)
  | N_TS_UNION_TYP => Some (mk_vis N_TS_UNION_TYP (Some [VMany "Elems"])) (* VisitTsUnionTyp, 3193 *)
  | N_TS_INTERSECT_TYP => Some (mk_vis N_TS_INTERSECT_TYP (Some [VMany "Elems"])) (* VisitTsIntersectTyp, 3316 *)
  | N_TS_ROUGH_PARAM => Some (mk_vis N_TS_ROUGH_PARAM None) (* VisitTsRoughParam, 2983 *)
  | N_TS_TYP_ASSERT => Some (mk_vis N_TS_TYP_ASSERT (Some [VOne "Typ"; VOne "Expr"])) (* VisitTsTypAssert, 3359 *)
  | N_TS_TYP_DEC => Some (mk_vis N_TS_TYP_DEC (Some [VOne "Id"; VOne "TypParams"])) (* VisitTsTypDec, 1876 *)
  | N_TS_INTERFACE => Some (mk_vis N_TS_INTERFACE (Some [VOne "Id"; VOne "TypParams"; VMany "Supers"; VOne "Body"])) (* VisitTsInterface, 2870 *)
  | N_TS_INTERFACE_BODY => Some (mk_vis N_TS_INTERFACE_BODY (Some [VMany "Body"])) (* VisitTsInterfaceBody, 1065 *)
  | N_TS_ENUM => Some (mk_vis N_TS_ENUM (Some [VOne "Id"; VMany "Members"])) (* VisitTsEnum, 1801 *)
  | N_TS_ENUM_MEMBER => Some (mk_vis N_TS_ENUM_MEMBER (Some [VOne "Key"; VOne "Val"])) (* VisitTsEnumMember, 3018 *)
  | N_TS_IMPORT_ALIAS => Some (mk_vis N_TS_IMPORT_ALIAS (Some [VOne "Name"; VOne "Val"])) (* VisitTsImportAlias, 1531 *)
  | N_TS_NAMESPACE => Some (mk_vis N_TS_NAMESPACE (Some [VOne "Id"; VOne "Body"])) (* VisitTsNS, 1255 *)
  | N_TS_IMPORT_REQUIRE => Some (mk_vis N_TS_IMPORT_REQUIRE (Some [VOne "Name"; VOne "Expr"])) (* VisitTsImportRequire, 1746 *)
  | N_TS_IMPORT_TYP => Some (mk_vis N_TS_IMPORT_TYP (Some [VOne "Arg"; VOne "Qualifier"; VOne "TypArg"])) (* VisitTsImportType, 2770 *)
  | N_TS_EXPORT_ASSIGN => Some (mk_vis N_TS_EXPORT_ASSIGN (Some [VOne "Expr"])) (* VisitTsExportAssign, 3266 *)
  | N_TS_DEC_VAR_DEC => Some (mk_vis N_TS_DEC_TYP_DEC (Some [VOne "Name"; VOne "Inner"])) (* VisitTsDec, 1085 *)
  | N_TS_DEC_FN => Some (mk_vis N_TS_DEC_TYP_DEC (Some [VOne "Name"; VOne "Inner"])) (* VisitTsDec, 1085 *)
  | N_TS_DEC_ENUM => Some (mk_vis N_TS_DEC_TYP_DEC (Some [VOne "Name"; VOne "Inner"])) (* VisitTsDec, 1085 *)
  | N_TS_DEC_CLASS => Some (mk_vis N_TS_DEC_TYP_DEC (Some [VOne "Name"; VOne "Inner"])) (* VisitTsDec, 1085 *)
  | N_TS_DEC_NS => Some (mk_vis N_TS_DEC_TYP_DEC (Some [VOne "Name"; VOne "Inner"])) (* VisitTsDec, 1085 *)
  | N_TS_DEC_MODULE => Some (mk_vis N_TS_DEC_TYP_DEC (Some [VOne "Name"; VOne "Inner"])) (* VisitTsDec, 1085 *)
  | N_TS_DEC_GLOBAL => Some (mk_vis N_TS_DEC_TYP_DEC (Some [VOne "Name"; VOne "Inner"])) (* VisitTsDec, 1085 *)
  | N_TS_DEC_INTERFACE => Some (mk_vis N_TS_DEC_TYP_DEC (Some [VOne "Name"; VOne "Inner"])) (* VisitTsDec, 1085 *)
  | N_TS_DEC_TYP_DEC => Some (mk_vis N_TS_DEC_TYP_DEC (Some [VOne "Name"; VOne "Inner"])) (* VisitTsDec, 1085 *)
  | N_TS_TYP_PREDICATE => Some (mk_vis N_TS_TYP_PREDICATE (Some [VOne "Name"; VOne "Typ"])) (* VisitTsTypPredicate, 1901 *)
  | N_TS_NO_NULL => Some (mk_vis N_TS_NO_NULL (Some [VOne "Arg"])) (* VisitTsNoNull, 2339 *)
  | _ => None
  end.
