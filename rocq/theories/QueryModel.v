(** ecma/astutil: questions about the place of a node in a tree. *)
From Coq Require Import String.
From Verif Require Import Base NodeModel WalkModel.

(** ecma/walk/visitor.go:483-627 NodeTypes. *)
Definition node_types : list nt :=
  [N_CATCH; N_CLASS_BODY; N_DECORATOR; N_EXPORT_SPEC; N_EXPR_ARROW; N_EXPR_ASSIGN; N_EXPR_BIN; N_EXPR_CALL;
   N_EXPR_CHAIN; N_EXPR_CLASS; N_EXPR_COND; N_EXPR_FN; N_EXPR_MEMBER; N_EXPR_NEW; N_EXPR_PAREN; N_EXPR_SEQ;
   N_EXPR_THIS; N_EXPR_TPL; N_EXPR_UNARY; N_EXPR_UPDATE; N_EXPR_YIELD; N_FIELD; N_IMPORT_CALL; N_IMPORT_SPEC;
   N_JSX_ATTR; N_JSX_ATTR_SPREAD; N_JSX_CHILD_SPREAD; N_JSX_CLOSE; N_JSX_ELEM; N_JSX_EMPTY; N_JSX_EXPR_SPAN;
   N_JSX_ID; N_JSX_MEMBER; N_JSX_NS; N_JSX_OPEN; N_JSX_TXT; N_LIT_ARR; N_LIT_BOOL; N_LIT_NULL; N_LIT_NUM;
   N_LIT_OBJ; N_LIT_REGEXP; N_LIT_STR; N_META_PROP; N_METHOD; N_NAME; N_PAT_ARRAY; N_PAT_ASSIGN; N_PAT_OBJ;
   N_PAT_REST; N_PROG; N_PROP; N_SPREAD; N_STATIC_BLOCK; N_STMT_BLOCK; N_STMT_BRK; N_STMT_CLASS; N_STMT_CONT;
   N_STMT_DEBUG; N_STMT_DO_WHILE; N_STMT_EXPORT; N_STMT_EXPR; N_STMT_FN; N_STMT_FOR; N_STMT_FOR_IN_OF;
   N_STMT_IF; N_STMT_IMPORT; N_STMT_LABEL; N_STMT_RET; N_STMT_SWITCH; N_STMT_THROW; N_STMT_TRY; N_STMT_VAR_DEC;
   N_STMT_WHILE; N_STMT_WITH; N_SUPER; N_SWITCH_CASE; N_TS_ANY; N_TS_ARR; N_TS_BIGINT; N_TS_BOOL;
   N_TS_CALL_SIG; N_TS_COND; N_TS_DEC_CLASS; N_TS_DEC_ENUM; N_TS_DEC_FN; N_TS_DEC_GLOBAL; N_TS_DEC_INTERFACE;
   N_TS_DEC_MODULE; N_TS_DEC_NS; N_TS_DEC_TYP_DEC; N_TS_DEC_VAR_DEC; N_TS_ENUM; N_TS_ENUM_MEMBER;
   N_TS_EXPORT_ASSIGN; N_TS_FN_TYP; N_TS_IDX_ACCESS; N_TS_IDX_SIG; N_TS_IMPORT_ALIAS; N_TS_IMPORT_REQUIRE;
   N_TS_IMPORT_TYP; N_TS_INTERFACE; N_TS_INTERFACE_BODY; N_TS_INTERSECT_TYP; N_TS_INTRINSIC; N_TS_LIT;
   N_TS_LIT_OBJ; N_TS_MAPPED; N_TS_NAMESPACE; N_TS_NEVER; N_TS_NEW; N_TS_NEW_SIG; N_TS_NO_NULL; N_TS_NS_NAME;
   N_TS_NULL; N_TS_NUM; N_TS_OBJ; N_TS_OPT; N_TS_PARAM; N_TS_PARAM_DEC; N_TS_PARAM_INST; N_TS_PAREN; N_TS_PROP;
   N_TS_REF; N_TS_REST; N_TS_ROUGH_PARAM; N_TS_STR; N_TS_SYM; N_TS_THIS; N_TS_TUPLE; N_TS_TUPLE_NAMED_MEMBER;
   N_TS_TYP_ANNOT; N_TS_TYP_ASSERT; N_TS_TYP_DEC; N_TS_TYP_INFER; N_TS_TYP_OP; N_TS_TYP_PREDICATE;
   N_TS_TYP_QUERY; N_TS_UNDEF; N_TS_UNION_TYP; N_TS_UNKNOWN; N_TS_VOID; N_VAR_DEC].

(** ecma/walk/visitor.go:984-996 AddNodeBeforeListener, AddBeforeListener on listeners that are all nil: the
    handler is called for the events before the nodes of all these types. *)
Definition before_listeners {U} (h : handler U) (ev : N) : list (handler U) :=
  if existsb (fun t => N.eqb ev (before_event t)) node_types then [h] else [].

(** ecma/astutil/astutil.go:233-251 IsNodeContains: the handler compares pointers, here identities, sets [ok] and
    stops the walk. *)
Definition contains_handler (sub : node) : handler bool :=
  fun _ _ n _ ok => if Nat.eqb (n_id n) (n_id sub) then (true, true) else (ok, false).
Definition is_node_contains (parent sub : node) : bool :=
  w_u (walk (before_listeners (contains_handler sub)) (getters parent) false).

Definition includes (l : list nt) (t : nt) : bool := existsb (nt_eqb t) l.

(** ecma/astutil/astutil.go:253-271 GetParent.  A context is the list of the nodes of its chain, its own node
    first, the root of the walk last; the result is a node and the context whose parent that node is, [None] for
    the pair of nils. *)
Fixpoint get_parent (ctx : list node) (target barrier : list nt) : option (node * list node) :=
  match ctx with
  | [] => None
  | _ :: up =>
      match up with
      | [] => None
      | pn :: _ =>
          if includes target (n_ty pn) then Some (pn, ctx)
          else if includes barrier (n_ty pn) then None
          else get_parent up target barrier
      end
  end.
