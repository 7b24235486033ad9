(** ecma/estree/convert.go: from the parser's tree to ESTree.  The TypeScript half (ts_convert.go, and the branches
    taken when a node carries type information) is not modelled. *)
From Coq Require Import String SpecFloat.
From Verif Require Import Base TokenModel NodeModel SourceModel WalkModel.
Local Open Scope string_scope.

(** What an accessor that gives no node gives: a text, a flag, an operator, the number parser.NodeToFloat computes,
    nil, or (on the ESTree side) a small object of texts. *)
Inductive sv := SvT (b : bytes) | SvB (b : bool) | SvO (o : tv) | SvF (f : spec_float) | SvNil
  | SvObj (l : list (string * bytes)).

(** A node of the parser (ecma/parser/ast.go): its type, its range, its accessors giving scalars, and its accessors giving
    nodes, an accessor giving one node being a list of one element; [None] is nil.  parser.DecoratorsOf is the
    accessor "Decorators". *)
Inductive pn := Pn (t : nt) (lo hi : nat) (sc : list (string * sv)) (ks : list (string * list (option pn))).
Definition p_ty (n : pn) : nt := match n with Pn t _ _ _ _ => t end.
Definition p_lo (n : pn) : nat := match n with Pn _ lo _ _ _ => lo end.
Definition p_hi (n : pn) : nat := match n with Pn _ _ hi _ _ => hi end.
Definition p_sc (n : pn) : list (string * sv) := match n with Pn _ _ _ sc _ => sc end.
Definition p_ks (n : pn) : list (string * list (option pn)) := match n with Pn _ _ _ _ ks => ks end.

Definition sget (sc : list (string * sv)) (g : string) : sv := match assoc g sc with Some v => v | None => SvNil end.
Definition flag (sc : list (string * sv)) (g : string) : bool := match sget sc g with SvB b => b | _ => false end.
Definition kids {A} (ks : list (string * list A)) (g : string) : list A := match assoc g ks with Some l => l | None => [] end.
Definition kid {A} (ks : list (string * list (option A))) (g : string) : option A :=
  match kids ks g with o :: _ => o | [] => None end.

(** ecma/estree/node.go:7-15 Position and SrcLoc: start line and column, end line and column. *)
Definition sloc : Type := (nat * nat) * (nat * nat).

(** ecma/estree/node.go, jsx_node.go: a node of ESTree under the names of its JSON form: type, start, end, loc, the
    fields that hold no node, the fields that hold a node, nil or a list of nodes. *)
Inductive fld (A : Type) := FOne (o : option A) | FMany (l : list (option A)).
Arguments FOne {A}. Arguments FMany {A}.
Inductive en := En (ty : string) (lo hi : nat) (loc : option sloc) (sc : list (string * sv)) (ks : list (string * fld en)).
Definition e_ty (e : en) : string := match e with En t _ _ _ _ _ => t end.
Definition e_sc (e : en) : list (string * sv) := match e with En _ _ _ _ sc _ => sc end.
Definition e_ks (e : en) : list (string * fld en) := match e with En _ _ _ _ _ ks => ks end.

(** What a call of Convert does: panic, return nil, return a node. *)
Inductive cres := CPanic | CNil | COk (e : en).

(** The functions that turn one node of the parser into one of ESTree: Convert, the bodies of the loops of cases,
    declarations, importSpecs and exportSpecs, exportAll on its only specifier, and the two literals of a
    fragment. *)
Inductive how := HConvert | HCase | HDec | HImp | HExp | HExpAll | HOpen | HClose.
(** How a field is filled from an accessor: one node, or the elements of a list; [KAll] is exportAll. *)
Inductive kmode := KOne (h : how) | KMany (h : how) | KAll.
(** How a field that holds no node is filled. *)
Inductive ssrc :=
| Get (g : string)                   (* an accessor *)
| OpName (g : string)                (* TokenKinds[op].Name *)
| Raw                                (* RngText(node.Range()) *)
| NoInf (g : string)                 (* an infinite number becomes 0 *)
| Obj (l : list (string * string))   (* a struct of texts *)
| StrVal (g : string)                (* n.g().( *parser.StrLit).Val() *)
| Const (v : sv).
Record rule := mk_rule { r_type : string; r_dec : bool; r_sc : list (string * ssrc); r_kids : list (string * (kmode * string)) }.
Definition rl (t : string) (sc : list (string * ssrc)) (ks : list (string * (kmode * string))) : rule := mk_rule t false sc ks.
(** With locWithDecorator. *)
Definition rd (t : string) (sc : list (string * ssrc)) (ks : list (string * (kmode * string))) : rule := mk_rule t true sc ks.
Local Notation one f g := (f, (KOne HConvert, g)).
Local Notation many f g := (f, (KMany HConvert, g)).

Definition is_ty (o : option pn) (t : nt) : bool := match o with Some k => nt_eqb (p_ty k) t | None => false end.
Definition op_in (sc : list (string * sv)) (l : list tv) : bool :=
  match sget sc "Op" with SvO o => existsb (tv_eqb o) l | _ => false end.

Inductive picked := PNone | PPanic | PRule (r : rule).

(** ecma/estree/convert.go:480-1570, the switch of Convert without parentheses and templates.  The line numbers
    are those of the literal each row is read from; JSON names from node.go and jsx_node.go. *)
Definition pick_convert (t : nt) (sc : list (string * sv)) (ks : list (string * list (option pn))) : picked :=
  match t with
  | N_STMT_EXPR =>
      PRule (if flag sc "Dir"
             then rl "ExpressionStatement" [("directive", StrVal "Expr")] [one "expression" "Expr"]  (* 492-499 *)
             else rl "ExpressionStatement" [] [one "expression" "Expr"])  (* 501-507 *)
  | N_EXPR_NEW => PRule (rl "NewExpression" [] [one "callee" "Callee"; many "arguments" "Args"])  (* 521-528 *)
  | N_NAME =>  (* ident, 385-420 *)
      PRule (if flag sc "IsPrivate" then rl "PrivateIdentifier" [("name", Get "NodeText")] []
             else rl "Identifier" [("name", Get "NodeText")] [])
  | N_EXPR_THIS => PRule (rl "ThisExpression" [] [])  (* 532-537 *)
  | N_LIT_NULL => PRule (rl "Literal" [("value", Const SvNil); ("raw", Const (SvT []))] [])  (* 539-544 *)
  | N_LIT_NUM =>
      PRule (if flag sc "NodeIsBigint"
             then rl "Literal" [("value", NoInf "NodeToFloat"); ("raw", Raw); ("bigint", Get "ParseBigint")] []  (* 555-563 *)
             else rl "Literal" [("value", NoInf "NodeToFloat"); ("raw", Raw)] [])  (* 565-572 *)
  | N_LIT_STR => PRule (rl "Literal" [("value", Get "Val"); ("raw", Raw)] [])  (* 575-582 *)
  | N_LIT_REGEXP =>
      PRule (rl "Literal" [("value", Const SvNil); ("regexp", Obj [("pattern", "Pattern"); ("flags", "Flags")])] [])  (* 585-591 *)
  | N_EXPR_BIN =>
      PRule (if op_in sc [T_AND; T_OR; T_NULLISH]
             then rl "LogicalExpression" [("operator", OpName "Op")] [one "left" "Lhs"; one "right" "Rhs"]  (* 600-608 *)
             else rl "BinaryExpression" [("operator", OpName "Op")] [one "left" "Lhs"; one "right" "Rhs"])  (* 620-628 *)
  | N_EXPR_ASSIGN => PRule (rl "AssignmentExpression" [("operator", OpName "Op")] [one "left" "Lhs"; one "right" "Rhs"])  (* 634-642 *)
  | N_LIT_ARR => PRule (rl "ArrayExpression" [] [many "elements" "Elems"])  (* arrExpr, 45-58 *)
  | N_LIT_OBJ => PRule (rl "ObjectExpression" [] [many "properties" "Props"])  (* obj, 60-73 *)
  | N_PROP =>
      PRule (rl "Property" [("kind", Get "Kind"); ("computed", Get "Computed"); ("shorthand", Get "Shorthand"); ("method", Get "Method")]
                [one "key" "Key"; one "value" "Val"])  (* 649-660 *)
  | N_STMT_BLOCK => PRule (rl "BlockStatement" [] [many "body" "Body"])  (* blockStmt, 102-110 *)
  | N_EXPR_FN =>
      PRule (rl "FunctionExpression" [("generator", Get "Generator"); ("async", Get "Async"); ("expression", Const (SvB false))]
                [one "id" "Id"; many "params" "Params"; one "body" "Body"])  (* 682-693 *)
  | N_EXPR_ARROW =>
      PRule (rl "ArrowFunctionExpression"
                [("id", Const SvNil); ("generator", Const (SvB false)); ("async", Get "Async"); ("expression", Get "Expr")]
                [many "params" "Params"; one "body" "Body"])  (* 714-725 *)
  | N_STMT_FN =>
      PRule (rl "FunctionDeclaration" [("generator", Get "Generator"); ("async", Get "Async")]
                [one "id" "Id"; many "params" "Params"; one "body" "Body"])  (* 759-769 *)
  | N_EXPR_YIELD => PRule (rl "YieldExpression" [("delegate", Get "Delegate")] [one "argument" "Arg"])  (* 772-779 *)
  | N_STMT_RET => PRule (rl "ReturnStatement" [] [one "argument" "Arg"])  (* 782-788 *)
  | N_SPREAD => PRule (rl "SpreadElement" [] [one "argument" "Arg"])  (* 791-797 *)
  | N_PAT_ARRAY => PRule (rl "ArrayPattern" [] [many "elements" "Elems"])  (* 813-819 *)
  | N_PAT_ASSIGN => PRule (rl "AssignmentPattern" [] [one "left" "Lhs"; one "right" "Rhs"])  (* 822-829 *)
  | N_PAT_OBJ => PRule (rl "ObjectPattern" [] [many "properties" "Props"])  (* 844-850 *)
  | N_PAT_REST => PRule (rl "RestElement" [] [one "argument" "Arg"])  (* 864-870 *)
  | N_STMT_IF => PRule (rl "IfStatement" [] [one "test" "Test"; one "consequent" "Cons"; one "alternate" "Alt"])  (* 873-881 *)
  | N_EXPR_CALL =>
      PRule (rl "CallExpression" [("optional", Get "Optional")] [one "callee" "Callee"; many "arguments" "Args"])  (* 896-904 *)
  | N_STMT_SWITCH =>
      PRule (rl "SwitchStatement" [] [one "discriminant" "Test"; ("cases", (KMany HCase, "Cases"))])  (* 907-914 *)
  | N_STMT_VAR_DEC =>
      PRule (rl "VariableDeclaration" [("kind", Get "Kind")] [("declarations", (KMany HDec, "DecList"))])  (* 917-924 *)
  | N_EXPR_MEMBER =>
      PRule (rl "MemberExpression" [("computed", Get "Compute"); ("optional", Get "Optional")]
                [one "object" "Obj"; one "property" "Prop"])  (* 927-936 *)
  | N_EXPR_SEQ => PRule (rl "SequenceExpression" [] [many "expressions" "Elems"])  (* 939-945 *)
  | N_EXPR_UPDATE =>
      PRule (rl "UpdateExpression" [("operator", OpName "Op"); ("prefix", Get "Prefix")] [one "argument" "Arg"])  (* 948-956 *)
  | N_EXPR_UNARY =>  (* 959-971 *)
      PRule (rl (if op_in sc [T_AWAIT] then "AwaitExpression" else "UnaryExpression")
                [("operator", OpName "Op"); ("prefix", Const (SvB true))] [one "argument" "Arg"])
  | N_EXPR_COND =>
      PRule (rl "ConditionalExpression" [] [one "test" "Test"; one "consequent" "Cons"; one "alternate" "Alt"])  (* 974-982 *)
  | N_STMT_EMPTY => PRule (rl "EmptyStatement" [] [])  (* 984-989 *)
  | N_STMT_DO_WHILE => PRule (rl "DoWhileStatement" [] [one "test" "Test"; one "body" "Body"])  (* 992-999 *)
  | N_LIT_BOOL => PRule (rl "Literal" [("value", Get "Val"); ("raw", Const (SvT []))] [])  (* 1002-1008 *)
  | N_STMT_WHILE => PRule (rl "WhileStatement" [] [one "test" "Test"; one "body" "Body"])  (* 1011-1018 *)
  | N_STMT_FOR =>
      PRule (rl "ForStatement" [] [one "init" "Init"; one "test" "Test"; one "update" "Update"; one "body" "Body"])  (* 1021-1030 *)
  | N_STMT_FOR_IN_OF =>
      PRule (if flag sc "In"
             then rl "ForInStatement" [] [one "left" "Left"; one "right" "Right"; one "body" "Body"]  (* 1034-1042 *)
             else rl "ForOfStatement" [("await", Get "Await")] [one "left" "Left"; one "right" "Right"; one "body" "Body"])  (* 1044-1053 *)
  | N_STMT_CONT => PRule (rl "ContinueStatement" [] [one "label" "Label"])  (* 1056-1062 *)
  | N_STMT_BRK => PRule (rl "BreakStatement" [] [one "label" "Label"])  (* 1065-1071 *)
  | N_STMT_LABEL => PRule (rl "LabeledStatement" [] [one "label" "Label"; one "body" "Body"])  (* 1074-1081 *)
  | N_STMT_THROW => PRule (rl "ThrowStatement" [] [one "argument" "Arg"])  (* 1084-1090 *)
  | N_STMT_TRY => PRule (rl "TryStatement" [] [one "block" "Try"; one "handler" "Catch"; one "finalizer" "Fin"])  (* 1093-1101 *)
  | N_CATCH => PRule (rl "CatchClause" [] [one "param" "Param"; one "body" "Body"])  (* 1104-1111 *)
  | N_STMT_DEBUG => PRule (rl "DebuggerStatement" [] [])  (* 1113-1118 *)
  | N_STMT_WITH => PRule (rl "WithStatement" [] [one "object" "Expr"; one "body" "Body"])  (* 1121-1128 *)
  | N_IMPORT_CALL => PRule (rl "ImportExpression" [] [one "source" "Src"])  (* 1131-1137 *)
  | N_META_PROP => PRule (rl "MetaProperty" [] [one "meta" "Meta"; one "property" "Prop"])  (* 1140-1147 *)
  | N_STMT_CLASS =>
      PRule (rd "ClassDeclaration" [("abstract", Get "Abstract"); ("declare", Get "Declare")]
                [one "id" "Id"; one "superClass" "Super"; one "body" "Body"; many "decorators" "Decorators"])  (* 1171-1182 *)
  | N_EXPR_CLASS =>
      PRule (rl "ClassExpression" [("abstract", Get "Abstract")] [one "id" "Id"; one "superClass" "Super"; one "body" "Body"])  (* 1203-1212 *)
  | N_CLASS_BODY => PRule (rl "ClassBody" [] [many "body" "Elems"])  (* 1215-1221 *)
  | N_METHOD =>  (* 1224-1258; the cast of Val is a cast to FnDec, the struct of functions *)
      if is_ty (kid ks "Val") N_EXPR_FN || is_ty (kid ks "Val") N_STMT_FN
      then PRule (rd "MethodDefinition" [("kind", Get "Kind"); ("computed", Get "Computed"); ("static", Get "Static")]
                     [one "key" "Key"; one "value" "Val"; many "decorators" "Decorators"])
      else PPanic
  | N_FIELD =>
      PRule (rd "PropertyDefinition" [("computed", Get "Computed"); ("static", Get "Static")]
                [one "key" "Key"; one "value" "Val"; many "decorators" "Decorators"])  (* 1302-1312 *)
  | N_SUPER => PRule (rl "Super" [] [])  (* 1315-1320 *)
  | N_STMT_IMPORT =>
      PRule (rl "ImportDeclaration" [("importKind", Get "Kind")] [("specifiers", (KMany HImp, "Specs")); one "source" "Src"])  (* 1353-1361 *)
  | N_STMT_EXPORT =>  (* 1363-1388 *)
      PRule (if flag sc "All" then rl "ExportAllDeclaration" [] [one "source" "Src"; ("exported", (KAll, "Specs"))]  (* exportAll, 239-252 *)
             else if flag sc "Default" then rl "ExportDefaultDeclaration" [] [one "declaration" "Dec"]  (* exportDefault, 254-262 *)
             else rl "ExportNamedDeclaration" [("exportKind", Get "Kind")]
                     [one "declaration" "Dec"; ("specifiers", (KMany HExp, "Specs")); one "source" "Src"])  (* exportNamed, 281-291 *)
  | N_STATIC_BLOCK => PRule (rl "StaticBlock" [] [many "body" "Body"])  (* 1392-1398 *)
  | N_EXPR_CHAIN => PRule (rl "ChainExpression" [] [one "expression" "Expr"])  (* 1401-1407 *)
  | N_JSX_ID => PRule (rl "JSXIdentifier" [("name", Get "Val")] [])  (* 1410-1416 *)
  | N_JSX_NS => PRule (rl "JSXNamespacedName" [("namespace", Get "NS"); ("name", Get "Name")] [])  (* 1419-1426 *)
  | N_JSX_MEMBER => PRule (rl "JSXMemberExpression" [] [one "object" "Obj"; one "property" "Prop"])  (* 1429-1436 *)
  | N_JSX_ELEM =>  (* 1437-1470; IsFragment, ecma/parser/jsx_ast.go:273-275, casts the opening tag *)
      match kid ks "Open" with
      | Some o =>
          if nt_eqb (p_ty o) N_JSX_OPEN then
            match kid (p_ks o) "Name" with
            | None => PRule (rl "JSXFragment" []
                [("openingFragment", (KOne HOpen, "Open")); many "children" "Children"; ("closingFragment", (KOne HClose, "Close"))])
            | Some _ => PRule (rl "JSXElement" [] [one "openingElement" "Open"; many "children" "Children"; one "closingElement" "Close"])
            end
          else PPanic
      | None => PPanic
      end
  | N_JSX_OPEN => PRule (rl "JSXOpeningElement" [("selfClosing", Get "Closed")] [one "name" "Name"; many "attributes" "Attrs"])  (* 1488-1496 *)
  | N_JSX_CLOSE => PRule (rl "JSXClosingElement" [] [one "name" "Name"])  (* 1499-1505 *)
  | N_JSX_TXT => PRule (rl "JSXText" [("value", Get "Val"); ("raw", Raw)] [])  (* 1508-1515 *)
  | N_JSX_EXPR_SPAN => PRule (rl "JSXExpressionContainer" [] [one "expression" "Expr"])  (* 1518-1524 *)
  | N_JSX_ATTR => PRule (rl "JSXAttribute" [] [one "name" "Name"; one "value" "Val"])  (* 1527-1534 *)
  | N_JSX_ATTR_SPREAD => PRule (rl "JSXSpreadAttribute" [] [one "argument" "Arg"])  (* 1537-1543 *)
  | N_JSX_CHILD_SPREAD => PRule (rl "JSXSpreadChild" [] [one "expression" "Expr"])  (* 1546-1552 *)
  | N_JSX_EMPTY => PRule (rl "JSXEmptyExpression" [] [])  (* 1555-1560 *)
  | N_DECORATOR => PRule (rl "Decorator" [] [one "expression" "Expr"])  (* 1563-1569 *)
  | _ => PNone
  end.

(** The other literals; a node of another type fails the cast. *)
Definition pick (h : how) (t : nt) (sc : list (string * sv)) (ks : list (string * list (option pn))) : picked :=
  match h, t with
  | HConvert, _ => pick_convert t sc ks
  | HCase, N_SWITCH_CASE => PRule (rl "SwitchCase" [] [one "test" "Test"; many "consequent" "Cons"])  (* cases, 112-126 *)
  | HDec, N_VAR_DEC => PRule (rl "VariableDeclarator" [] [one "id" "Id"; one "init" "Init"])  (* declarations, 128-142 *)
  | HImp, N_IMPORT_SPEC =>  (* importSpec, 201-229 *)
      PRule (if flag sc "Default" then rl "ImportDefaultSpecifier" [] [one "local" "Local"]
             else if flag sc "NameSpace" then rl "ImportNamespaceSpecifier" [] [one "local" "Local"]
             else rl "ImportSpecifier" [("importKind", Get "Kind")] [one "local" "Local"; one "imported" "Id"])
  | HExp, N_EXPORT_SPEC =>  (* exportSpecs, 264-279 *)
      PRule (rl "ExportSpecifier" [("exportKind", Get "Kind")] [one "local" "Local"; one "exported" "Id"])
  | HOpen, N_JSX_OPEN => PRule (rl "JSXOpeningFragment" [] [])  (* 1447-1452 *)
  | HClose, N_JSX_CLOSE => PRule (rl "JSXClosingFragment" [] [])  (* 1454-1459 *)
  | _, _ => PPanic
  end.

Section Convert.
(** ConvertCtx: the source and LineCol. *)
Variable src : source.
Variable lcol : bool.

(** ecma/estree/convert.go:15-28 locOfRng, locOfNode; the outer [None] is a panic. *)
Definition loc_of_rng (lo hi : nat) : option (option sloc) :=
  if lcol then match line_col src lo hi with Some p => Some (Some p) | None => None end else Some None.

(** ecma/estree/convert.go:422-433 locWithDecorator; without LineCol and with decorators a nil pointer is followed. *)
Definition loc_with_decorator (lo hi : nat) (ds : list (option pn)) : option (nat * option sloc) :=
  match loc_of_rng lo hi with
  | None => None
  | Some l =>
      match ds with
      | [] => Some (lo, l)
      | Some d :: _ =>
          match l, loc_of_rng (p_lo d) (p_hi d) with
          | Some (_, e), Some (Some (s, _)) => Some (p_lo d, Some (s, e))
          | _, _ => None
          end
      | None :: _ => None
      end
  end.

(** The scalars of a literal. *)
Definition eval (lo hi : nat) (sc : list (string * sv)) (ks : list (string * list (option pn))) (s : ssrc) : option sv :=
  match s with
  | Get g => Some (sget sc g)
  | OpName g => match sget sc g with SvO o => Some (SvT (tv_name o)) | _ => None end
  | Raw => match text src lo hi with Some b => Some (SvT b) | None => None end
  | NoInf g => Some (match sget sc g with SvF (S754_infinity _) => SvF (S754_zero false) | v => v end)
  | Obj l => Some (SvObj (map (fun p => (fst p, match sget sc (snd p) with SvT b => b | _ => [] end)) l))
  | StrVal g => match kid ks g with
                | Some k => if nt_eqb (p_ty k) N_LIT_STR then Some (sget (p_sc k) "Val") else None
                | None => None
                end
  | Const v => Some v
  end.
Fixpoint evals (lo hi : nat) (sc : list (string * sv)) (ks : list (string * list (option pn))) (l : list (string * ssrc)) : option (list (string * sv)) :=
  match l with
  | [] => Some []
  | (f, s) :: r =>
      match eval lo hi sc ks s, evals lo hi sc ks r with Some v, Some vs => Some ((f, v) :: vs) | _, _ => None end
  end.

(** The children of a node with what calling a function on them does. *)
Definition ckids : Type := list (string * list (option (pn * (how -> cres)))).
(** Convert(nil) is nil; a cast of nil panics. *)
Definition call (h : how) (o : option (pn * (how -> cres))) : option (option en) :=
  match o with
  | None => match h with HConvert => Some None | _ => None end
  | Some (_, f) => match f h with CPanic => None | CNil => Some None | COk e => Some (Some e) end
  end.
Fixpoint calls (h : how) (l : list (option (pn * (how -> cres)))) : option (list (option en)) :=
  match l with
  | [] => Some []
  | o :: r => match call h o, calls h r with Some e, Some es => Some (e :: es) | _, _ => None end
  end.
Definition fill (cks : ckids) (m : kmode) (g : string) : option (fld en) :=
  match m with
  | KOne h => match call h (kid cks g) with Some o => Some (FOne o) | None => None end
  | KMany h => match calls h (kids cks g) with Some l => Some (FMany l) | None => None end
  | KAll => match kids cks g with
            | [o] => match call HExpAll o with Some o => Some (FOne o) | None => None end
            | _ => Some (FOne None)
            end
  end.
Fixpoint fills (cks : ckids) (l : list (string * (kmode * string))) : option (list (string * fld en)) :=
  match l with
  | [] => Some []
  | (f, (m, g)) :: r => match fill cks m g, fills cks r with Some v, Some vs => Some ((f, v) :: vs) | _, _ => None end
  end.

Definition apply_rule (r : rule) (lo hi : nat) (sc : list (string * sv)) (ks : list (string * list (option pn))) (cks : ckids) : cres :=
  match (if r_dec r then loc_with_decorator lo hi (kids ks "Decorators")
         else match loc_of_rng lo hi with Some l => Some (lo, l) | None => None end) with
  | None => CPanic
  | Some (lo1, l) =>
      match evals lo hi sc ks (r_sc r), fills cks (r_kids r) with
      | Some s, Some k => COk (En (r_type r) lo1 hi l s k)
      | _, _ => CPanic
      end
  end.

(** ecma/estree/convert.go:144-199 tplLiteral. *)
Definition quasi (lo hi : nat) (l : option sloc) (tail : bool) (cooked raw : bytes) : en :=
  En "TemplateElement" lo hi l [("tail", SvB tail); ("value", SvObj [("cooked", cooked); ("raw", raw)])] [].
Definition tpl_bound (lo hi : nat) (first last : bool) : option en :=
  match loc_of_rng lo hi with
  | Some (Some ((sl, sc), (el, ec))) =>
      Some (quasi lo hi (Some (if first then ((sl, sc), (el, sc)) else ((sl, ec), (el, ec)))) last [] [])
  | _ => None
  end.
Fixpoint tpl_elems (lo hi : nat) (first : bool) (l : list (option (pn * (how -> cres)))) : option (list (option en) * list (option en)) :=
  match l with
  | [] => Some ([], [])
  | None :: _ => None
  | Some (p, f) :: r =>
      let last := match r with [] => true | _ => false end in
      if nt_eqb (p_ty p) N_LIT_STR then
        match loc_of_rng (p_lo p) (p_hi p), text src (p_lo p) (p_hi p), tpl_elems lo hi false r with
        | Some l1, Some raw, Some (qs, es) =>
            let cooked := match sget (p_sc p) "Val" with SvT b => b | _ => [] end in
            Some (Some (quasi (p_lo p) (p_hi p) l1 last cooked raw) :: qs, es)
        | _, _, _ => None
        end
      else
        match (if first || last then match tpl_bound lo hi first last with Some q => Some [Some q] | None => None end else Some []),
              call HConvert (Some (p, f)), tpl_elems lo hi false r with
        | Some q, Some e, Some (qs, es) => Some ((q ++ qs)%list, e :: es)
        | _, _, _ => None
        end
  end.
Definition tpl_literal (lo hi : nat) (l : list (option (pn * (how -> cres)))) : option en :=
  match tpl_elems lo hi true l, loc_of_rng lo hi with
  | Some (qs, es), Some l => Some (En "TemplateLiteral" lo hi l [] [("quasis", FMany qs); ("expressions", FMany es)])
  | _, _ => None
  end.

Definition conv_node (h : how) (t : nt) (lo hi : nat) (sc : list (string * sv)) (ks : list (string * list (option pn))) (cks : ckids) : cres :=
  match h, t with
  | HConvert, N_EXPR_PAREN =>  (* 477-478 *)
      match kid cks "Expr" with Some (_, f) => f HConvert | None => CNil end
  | HConvert, N_EXPR_TPL =>  (* 1321-1350 *)
      match tpl_literal lo hi (kids cks "Elems") with
      | None => CPanic
      | Some q =>
          match kid cks "Tag" with
          | None => COk q
          | Some (g, f) =>
              match loc_of_rng (p_lo g) hi, call HConvert (Some (g, f)) with
              | Some l, Some tag => COk (En "TaggedTemplateExpression" (p_lo g) hi l [] [("tag", FOne tag); ("quasi", FOne (Some q))])
              | _, _ => CPanic
              end
          end
      end
  | HExpAll, N_EXPORT_SPEC =>  (* exportAll, 240-243 and 250 *)
      match kid cks "Local" with Some (_, f) => f HConvert | None => CNil end
  | _, _ =>
      match pick h t sc ks with
      | PNone => CNil
      | PPanic => CPanic
      | PRule r => apply_rule r lo hi sc ks cks
      end
  end.

(** ecma/estree/convert.go:472-1574 Convert and the functions of [how]. *)
Fixpoint conv (n : pn) (h : how) {struct n} : cres :=
  match n with
  | Pn t lo hi sc ks =>
      conv_node h t lo hi sc ks
        (map (fun kl => match kl with (k, l) => (k, map (fun o => match o with Some x => Some (x, conv x) | None => None end) l) end) ks)
  end.
Definition convert (n : pn) : cres := conv n HConvert.
Definition with_conv (ks : list (string * list (option pn))) : ckids :=
  map (fun kl => match kl with (k, l) => (k, map (fun o => match o with Some x => Some (x, conv x) | None => None end) l) end) ks.

(** ecma/estree/convert.go:30-43 ConvertProg. *)
Definition convert_prog (n : pn) : cres :=
  match n with
  | Pn _ lo hi sc ks => apply_rule (rl "Program" [("sourceType", Const (SvT []))] [many "body" "Body"]) lo hi sc ks (with_conv ks)
  end.
End Convert.
