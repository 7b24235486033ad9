(** What a walk over a syntax tree is: enter a node, walk its children in source order, leave it. *)
From Coq Require Import String.
From Verif Require Import Base NodeModel WalkModel.
Local Open Scope string_scope.

(** The children of the nodes of JavaScript and JSX in source order: one node that may be absent, or a list.
    TypeScript nodes, type annotations and decorators are left out. *)
Inductive child := Single (k : string) | Several (k : string).
Definition grammar (t : nt) : option (list child) :=
  match t with
  | N_PROG | N_STMT_BLOCK | N_STATIC_BLOCK => Some [Several "Body"]
  | N_STMT_EXPR | N_EXPR_PAREN | N_EXPR_CHAIN | N_DECORATOR | N_JSX_CHILD_SPREAD | N_JSX_EXPR_SPAN => Some [Single "Expr"]
  | N_STMT_VAR_DEC => Some [Several "DecList"]
  | N_STMT_FN | N_EXPR_FN => Some [Single "Id"; Several "Params"; Single "Body"]
  | N_EXPR_ARROW => Some [Several "Params"; Single "Body"]
  | N_STMT_DO_WHILE => Some [Single "Body"; Single "Test"]
  | N_STMT_WHILE => Some [Single "Test"; Single "Body"]
  | N_STMT_FOR => Some [Single "Init"; Single "Test"; Single "Update"; Single "Body"]
  | N_STMT_FOR_IN_OF => Some [Single "Left"; Single "Right"; Single "Body"]
  | N_STMT_IF | N_EXPR_COND => Some [Single "Test"; Single "Cons"; Single "Alt"]
  | N_STMT_SWITCH => Some [Single "Test"; Several "Cases"]
  | N_SWITCH_CASE => Some [Single "Test"; Several "Cons"]
  | N_STMT_BRK | N_STMT_CONT => Some [Single "Label"]
  | N_STMT_LABEL => Some [Single "Label"; Single "Body"]
  | N_STMT_RET | N_STMT_THROW | N_EXPR_UNARY | N_EXPR_UPDATE | N_EXPR_YIELD | N_SPREAD | N_PAT_REST
  | N_JSX_ATTR_SPREAD => Some [Single "Arg"]
  | N_STMT_TRY => Some [Single "Try"; Single "Catch"; Single "Fin"]
  | N_CATCH => Some [Single "Param"; Single "Body"]
  | N_STMT_WITH => Some [Single "Expr"; Single "Body"]
  | N_STMT_CLASS | N_EXPR_CLASS => Some [Single "Id"; Single "Super"; Single "Body"]
  | N_CLASS_BODY | N_LIT_ARR | N_PAT_ARRAY | N_EXPR_SEQ => Some [Several "Elems"]
  | N_METHOD | N_FIELD | N_PROP => Some [Single "Key"; Single "Val"]
  | N_STMT_IMPORT => Some [Several "Specs"; Single "Src"]
  | N_STMT_EXPORT => Some [Single "Dec"; Several "Specs"; Single "Src"]
  | N_IMPORT_SPEC => Some [Single "Id"; Single "Local"]
  | N_EXPORT_SPEC => Some [Single "Local"; Single "Id"]
  | N_LIT_OBJ | N_PAT_OBJ => Some [Several "Props"]
  | N_EXPR_NEW | N_EXPR_CALL => Some [Single "Callee"; Several "Args"]
  | N_EXPR_MEMBER | N_JSX_MEMBER => Some [Single "Obj"; Single "Prop"]
  | N_EXPR_BIN | N_EXPR_ASSIGN | N_PAT_ASSIGN => Some [Single "Lhs"; Single "Rhs"]
  | N_EXPR_TPL => Some [Single "Tag"; Several "Elems"]
  | N_IMPORT_CALL => Some [Single "Src"]
  | N_META_PROP => Some [Single "Meta"; Single "Prop"]
  | N_VAR_DEC => Some [Single "Id"; Single "Init"]
  | N_JSX_ELEM => Some [Single "Open"; Several "Children"; Single "Close"]
  | N_JSX_OPEN => Some [Single "Name"; Several "Attrs"]
  | N_JSX_CLOSE => Some [Single "Name"]
  | N_JSX_ATTR => Some [Single "Name"; Single "Val"]
  | N_JSX_NS => Some [Single "NS"; Single "Name"]
  | N_STMT_EMPTY | N_STMT_DEBUG | N_LIT_NULL | N_LIT_BOOL | N_LIT_NUM | N_LIT_STR | N_LIT_REGEXP | N_EXPR_THIS
  | N_NAME | N_SUPER | N_JSX_ID | N_JSX_EMPTY | N_JSX_TXT => Some []
  | _ => None
  end.
Local Close Scope string_scope.
Definition child_name (c : child) : string := match c with Single k | Several k => k end.

(** A tree whose nodes have the children of their type. *)
Fixpoint fits (g : list child) (kids : list (string * list (option node))) : bool :=
  match g, kids with
  | [], [] => true
  | c :: g, (k, l) :: r =>
      String.eqb (child_name c) k && match c with Single _ => Nat.eqb (List.length l) 1 | Several _ => true end && fits g r
  | _, _ => false
  end.
Fixpoint all_nodes (p : nt -> list (string * list (option node)) -> bool) (n : node) : bool :=
  match n with
  | Node ty _ kids =>
      p ty kids
      && forallb (fun q : string * list (option node) =>
                    let (_, l) := q in forallb (fun o => match o with Some m => all_nodes p m | None => true end) l) kids
  end.
Definition shaped : node -> bool :=
  all_nodes (fun ty kids => match grammar ty with Some g => fits g kids | None => false end).

(** Nodes the walk does not treat as such: empty statements, function and class declarations, import specifiers,
    namespaced JSX names, and parentheses around parentheses. *)
Definition regular (ty : nt) (kids : list (string * list (option node))) : bool :=
  match ty, kids with
  | (N_STMT_EMPTY | N_STMT_FN | N_STMT_CLASS | N_IMPORT_SPEC | N_JSX_NS), _ => false
  | N_EXPR_PAREN, [(_, [Some (Node N_EXPR_PAREN _ _)])] => false
  | _, _ => true
  end.

(** All the nodes of a tree, a node before its children, these from left to right. *)
Fixpoint nodes (n : node) : list node :=
  n :: match n with
       | Node _ _ kids =>
           flat_map (fun p : string * list (option node) =>
                       let (_, l) := p in flat_map (fun o => match o with Some m => nodes m | None => [] end) l) kids
       end.

(** An event: a listener is called for a node given with its key and the nodes above it, the innermost first. *)
Record wevent := mk_we { e_num : N; e_node : node; e_key : wkey; e_above : list node }.
Definition enters (e : wevent) : bool := N.eqb (e_num e) (before_event (n_ty (e_node e))).

(** The walk: the key of a child is its place in the parent, with an index in lists. *)
Definition indexed (t : nt) (k : string) : bool :=
  match grammar t with
  | Some g => existsb (fun c => match c with Several k' => String.eqb k k' | Single _ => false end) g
  | None => false
  end.
Fixpoint tour (above : list node) (n : node) (key : wkey) : list wevent :=
  match n with
  | Node ty _ kids =>
      mk_we (before_event ty) n key above
      :: flat_map (fun p : string * list (option node) =>
                     let (k, l) := p in
                     (fix go (i : nat) (l : list (option node)) : list wevent :=
                        match l with
                        | [] => []
                        | o :: r =>
                            match o with
                            | Some m => tour (n :: above) m (k, if indexed ty k then Some i else None)
                            | None => []
                            end ++ go (S i) r
                        end) 0%nat l) kids
      ++ [mk_we (after_event ty) n key above]
  end.

(** The first child, its first child and so on. *)
Fixpoint first_line (n : node) : list node :=
  match n with
  | Node _ _ ((_, Some m :: _) :: _) => m :: first_line m
  | _ => []
  end.

(** A listener that writes down what it is called with, and asks for a stop when [stop] says so. *)
Definition recorder (stop : list wevent -> bool) (ev : N) : handler (list wevent) :=
  fun above _ n k u => let u := u ++ [mk_we ev n k above] in (u, stop u).
Definition record_all (stop : list wevent -> bool) : N -> list (handler (list wevent)) := fun ev => [recorder stop ev].
Definition trace (stop : list wevent -> bool) (root : node) : list wevent :=
  w_u (walk (record_all stop) (getters root) []).
