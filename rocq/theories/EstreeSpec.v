(** What ESTree (estree.org, es5.md to es2022.md, and facebook/jsx AST.md) asks of a tree, what a tree of the parser is,
    and which ESTree stands for it.  Only the data types and the reading of a named field come from the model. *)
From Coq Require Import String SpecFloat.
From Verif Require Import Base TokenModel NodeModel SourceModel SourceSpec WalkModel EstreeModel.
Local Open Scope string_scope.

(** ** The interfaces of ESTree *)

Definition Expr : list string :=
  ["Identifier"; "ThisExpression"; "Literal"; "ArrayExpression"; "ObjectExpression"; "BinaryExpression";
   "LogicalExpression"; "AssignmentExpression"; "FunctionExpression"; "ArrowFunctionExpression"; "YieldExpression";
   "CallExpression"; "MemberExpression"; "SequenceExpression"; "UpdateExpression"; "UnaryExpression";
   "AwaitExpression"; "ConditionalExpression"; "NewExpression"; "TemplateLiteral"; "TaggedTemplateExpression";
   "ClassExpression"; "MetaProperty"; "ImportExpression"; "ChainExpression"; "JSXElement"; "JSXFragment"].
Definition Pat : list string :=
  ["Identifier"; "MemberExpression"; "ObjectPattern"; "ArrayPattern"; "AssignmentPattern"; "RestElement"].
Definition Stmt : list string :=
  ["ExpressionStatement"; "BlockStatement"; "EmptyStatement"; "DebuggerStatement"; "WithStatement"; "ReturnStatement";
   "LabeledStatement"; "BreakStatement"; "ContinueStatement"; "IfStatement"; "SwitchStatement"; "ThrowStatement";
   "TryStatement"; "WhileStatement"; "DoWhileStatement"; "ForStatement"; "ForInStatement"; "ForOfStatement";
   "FunctionDeclaration"; "VariableDeclaration"; "ClassDeclaration"].
Definition ModuleItem : list string :=
  (Stmt ++ ["ImportDeclaration"; "ExportAllDeclaration"; "ExportDefaultDeclaration"; "ExportNamedDeclaration"])%list.
Definition Block : list string := ["BlockStatement"].
Definition JsxName : list string := ["JSXIdentifier"; "JSXMemberExpression"; "JSXNamespacedName"].
Definition JsxChild : list string := ["JSXText"; "JSXExpressionContainer"; "JSXSpreadChild"; "JSXElement"; "JSXFragment"].

(** One node; one or nil; any number; any number or nil; a list of at most one (in ESTree one or nil). *)
Inductive arity := One | Opt | Many | ManyOpt | Few.
(** A field that holds nodes: its name; the accessor of the parser's node its nodes come from; how many; which
    nodes ESTree allows; which nodes the accessor gives, by the name of the ESTree node each stands for. *)
Record column := mk_col { c_field : string; c_acc : string; c_ar : arity; c_sort : list string; c_from : list string }.
Definition col (f g : string) (a : arity) (s : list string) : column := mk_col f g a s s.

(** What stands for the specifier of [export * as a from "b"]: no node. *)
Definition ns_spec : string := "(the a of export * as a)".

(** The fields of each interface that hold nodes, in the order in which they stand in the source. *)
Definition columns (t : string) : option (list column) := assoc t [
  ("Program", [col "body" "Body" Many ModuleItem]);
  ("ExpressionStatement", [col "expression" "Expr" One Expr]);
  ("BlockStatement", [col "body" "Body" Many Stmt]);
  ("StaticBlock", [col "body" "Body" Many Stmt]);
  ("EmptyStatement", []); ("DebuggerStatement", []);
  ("WithStatement", [col "object" "Expr" One Expr; col "body" "Body" One Stmt]);
  ("ReturnStatement", [col "argument" "Arg" Opt Expr]);
  ("LabeledStatement", [col "label" "Label" One ["Identifier"]; col "body" "Body" One Stmt]);
  ("BreakStatement", [col "label" "Label" Opt ["Identifier"]]);
  ("ContinueStatement", [col "label" "Label" Opt ["Identifier"]]);
  ("IfStatement", [col "test" "Test" One Expr; col "consequent" "Cons" One Stmt; col "alternate" "Alt" Opt Stmt]);
  ("SwitchStatement", [col "discriminant" "Test" One Expr; col "cases" "Cases" Many ["SwitchCase"]]);
  ("SwitchCase", [col "test" "Test" Opt Expr; col "consequent" "Cons" Many Stmt]);
  ("ThrowStatement", [col "argument" "Arg" One Expr]);
  ("TryStatement", [col "block" "Try" One Block; col "handler" "Catch" Opt ["CatchClause"]; col "finalizer" "Fin" Opt Block]);
  ("CatchClause", [col "param" "Param" Opt Pat; col "body" "Body" One Block]);
  ("WhileStatement", [col "test" "Test" One Expr; col "body" "Body" One Stmt]);
  ("DoWhileStatement", [col "body" "Body" One Stmt; col "test" "Test" One Expr]);
  ("ForStatement", [col "init" "Init" Opt ("VariableDeclaration" :: Expr); col "test" "Test" Opt Expr;
                    col "update" "Update" Opt Expr; col "body" "Body" One Stmt]);
  ("ForInStatement", [col "left" "Left" One ("VariableDeclaration" :: Pat); col "right" "Right" One Expr; col "body" "Body" One Stmt]);
  ("ForOfStatement", [col "left" "Left" One ("VariableDeclaration" :: Pat); col "right" "Right" One Expr; col "body" "Body" One Stmt]);
  ("FunctionDeclaration", [col "id" "Id" Opt ["Identifier"]; col "params" "Params" Many Pat; col "body" "Body" One Block]);
  ("FunctionExpression", [col "id" "Id" Opt ["Identifier"]; col "params" "Params" Many Pat; col "body" "Body" One Block]);
  ("ArrowFunctionExpression", [col "params" "Params" Many Pat; col "body" "Body" One (Block ++ Expr)%list]);
  ("VariableDeclaration", [col "declarations" "DecList" Many ["VariableDeclarator"]]);
  ("VariableDeclarator", [col "id" "Id" One Pat; col "init" "Init" Opt Expr]);
  ("Identifier", []); ("PrivateIdentifier", []); ("Literal", []); ("ThisExpression", []); ("Super", []);
  ("ArrayExpression", [col "elements" "Elems" ManyOpt ("SpreadElement" :: Expr)]);
  ("ObjectExpression", [col "properties" "Props" Many ["Property"; "SpreadElement"]]);
  ("Property", [col "key" "Key" One Expr; col "value" "Val" One (Expr ++ Pat)%list]);
  ("UnaryExpression", [col "argument" "Arg" One Expr]);
  ("AwaitExpression", [col "argument" "Arg" One Expr]);
  ("UpdateExpression", [col "argument" "Arg" One Expr]);
  ("BinaryExpression", [col "left" "Lhs" One ("PrivateIdentifier" :: Expr); col "right" "Rhs" One Expr]);
  ("LogicalExpression", [col "left" "Lhs" One Expr; col "right" "Rhs" One Expr]);
  ("AssignmentExpression", [col "left" "Lhs" One Pat; col "right" "Rhs" One Expr]);
  ("MemberExpression", [col "object" "Obj" One ("Super" :: Expr); col "property" "Prop" One ("PrivateIdentifier" :: Expr)]);
  ("ConditionalExpression", [col "test" "Test" One Expr; col "consequent" "Cons" One Expr; col "alternate" "Alt" One Expr]);
  ("CallExpression", [col "callee" "Callee" One ("Super" :: Expr); col "arguments" "Args" Many ("SpreadElement" :: Expr)]);
  ("NewExpression", [col "callee" "Callee" One Expr; col "arguments" "Args" Many ("SpreadElement" :: Expr)]);
  ("SequenceExpression", [col "expressions" "Elems" Many Expr]);
  ("SpreadElement", [col "argument" "Arg" One Expr]);
  ("YieldExpression", [col "argument" "Arg" Opt Expr]);
  ("ImportExpression", [col "source" "Src" One Expr]);
  ("ChainExpression", [col "expression" "Expr" One ["CallExpression"; "MemberExpression"]]);
  ("MetaProperty", [col "meta" "Meta" One ["Identifier"]; col "property" "Prop" One ["Identifier"]]);
  ("TaggedTemplateExpression", [col "tag" "Tag" One Expr; col "quasi" "" One ["TemplateLiteral"]]);
  ("TemplateLiteral", [col "quasis" "" Many ["TemplateElement"]; col "expressions" "" Many Expr]);
  ("TemplateElement", []);
  ("ArrayPattern", [col "elements" "Elems" ManyOpt Pat]);
  ("ObjectPattern", [col "properties" "Props" Many ["Property"; "RestElement"]]);
  ("AssignmentPattern", [col "left" "Lhs" One Pat; col "right" "Rhs" One Expr]);
  ("RestElement", [col "argument" "Arg" One Pat]);
  ("ClassDeclaration", [col "decorators" "Decorators" Many ["Decorator"]; col "id" "Id" Opt ["Identifier"];
                        col "superClass" "Super" Opt Expr; col "body" "Body" One ["ClassBody"]]);
  ("ClassExpression", [col "id" "Id" Opt ["Identifier"]; col "superClass" "Super" Opt Expr; col "body" "Body" One ["ClassBody"]]);
  ("ClassBody", [col "body" "Elems" Many ["MethodDefinition"; "PropertyDefinition"; "StaticBlock"]]);
  ("MethodDefinition", [col "decorators" "Decorators" Many ["Decorator"]; col "key" "Key" One ("PrivateIdentifier" :: Expr);
                        col "value" "Val" One ["FunctionExpression"]]);
  ("PropertyDefinition", [col "decorators" "Decorators" Many ["Decorator"]; col "key" "Key" One ("PrivateIdentifier" :: Expr);
                          col "value" "Val" Opt Expr]);
  ("Decorator", [col "expression" "Expr" One Expr]);
  ("ImportDeclaration", [col "specifiers" "Specs" Many ["ImportSpecifier"; "ImportDefaultSpecifier"; "ImportNamespaceSpecifier"];
                         col "source" "Src" One ["Literal"]]);
  ("ImportSpecifier", [col "imported" "Id" One ["Identifier"; "Literal"]; col "local" "Local" One ["Identifier"]]);
  ("ImportDefaultSpecifier", [col "local" "Local" One ["Identifier"]]);
  ("ImportNamespaceSpecifier", [col "local" "Local" One ["Identifier"]]);
  ("ExportAllDeclaration", [mk_col "exported" "Specs" Few ["Identifier"] [ns_spec]; col "source" "Src" One ["Literal"]]);
  ("ExportDefaultDeclaration", [col "declaration" "Dec" One ("FunctionDeclaration" :: "ClassDeclaration" :: Expr)]);
  ("ExportNamedDeclaration", [col "declaration" "Dec" Opt ["FunctionDeclaration"; "VariableDeclaration"; "ClassDeclaration"];
                              col "specifiers" "Specs" Many ["ExportSpecifier"]; col "source" "Src" Opt ["Literal"]]);
  ("ExportSpecifier", [col "local" "Local" One ["Identifier"; "Literal"]; col "exported" "Id" One ["Identifier"; "Literal"]]);
  ("JSXElement", [col "openingElement" "Open" One ["JSXOpeningElement"]; col "children" "Children" Many JsxChild;
                  col "closingElement" "Close" Opt ["JSXClosingElement"]]);
  ("JSXFragment", [col "openingFragment" "Open" One ["JSXOpeningFragment"]; col "children" "Children" Many JsxChild;
                   col "closingFragment" "Close" One ["JSXClosingFragment"]]);
  ("JSXOpeningElement", [col "name" "Name" One JsxName; col "attributes" "Attrs" Many ["JSXAttribute"; "JSXSpreadAttribute"]]);
  ("JSXClosingElement", [col "name" "Name" One JsxName]);
  ("JSXOpeningFragment", []); ("JSXClosingFragment", []); ("JSXIdentifier", []); ("JSXText", []); ("JSXEmptyExpression", []);
  ("JSXNamespacedName", [col "namespace" "" One ["JSXIdentifier"]; col "name" "" One ["JSXIdentifier"]]);
  ("JSXMemberExpression", [col "object" "Obj" One ["JSXIdentifier"; "JSXMemberExpression"]; col "property" "Prop" One ["JSXIdentifier"]]);
  ("JSXExpressionContainer", [col "expression" "Expr" One ("JSXEmptyExpression" :: Expr)]);
  ("JSXSpreadChild", [col "expression" "Expr" One Expr]);
  ("JSXAttribute", [col "name" "Name" One ["JSXIdentifier"; "JSXNamespacedName"];
                    col "value" "Val" Opt ["Literal"; "JSXExpressionContainer"; "JSXElement"; "JSXFragment"]]);
  ("JSXSpreadAttribute", [col "argument" "Arg" One Expr])].

(** The other fields: their names, where they come from and what they may be. *)
Inductive origin := Acc (g : string) | OpText | Source | LitValue | BigDigits | RegexParts | DirText | Yes | Untold.
Inductive sty := TStr | TBool | TEnum (l : list string) | TValue | TNilStr | TNilObj | TObj.
Definition attrs (t : string) : list (string * (origin * sty)) := match assoc t [
  ("Program", [("sourceType", (Untold, TEnum ["script"; "module"]))]);
  ("ExpressionStatement", [("directive", (DirText, TNilStr))]);
  ("Identifier", [("name", (Acc "NodeText", TStr))]);
  ("PrivateIdentifier", [("name", (Acc "NodeText", TStr))]);
  ("Literal", [("value", (LitValue, TValue)); ("bigint", (BigDigits, TNilStr)); ("regex", (RegexParts, TNilObj))]);
  ("UnaryExpression", [("operator", (OpText, TEnum ["-"; "+"; "!"; "~"; "typeof"; "void"; "delete"])); ("prefix", (Yes, TBool))]);
  ("UpdateExpression", [("operator", (OpText, TEnum ["++"; "--"])); ("prefix", (Acc "Prefix", TBool))]);
  ("BinaryExpression", [("operator", (OpText, TEnum ["=="; "!="; "==="; "!=="; "<"; "<="; ">"; ">="; "<<"; ">>"; ">>>";
     "+"; "-"; "*"; "/"; "%"; "|"; "^"; "&"; "in"; "instanceof"; "**"]))]);
  ("LogicalExpression", [("operator", (OpText, TEnum ["||"; "&&"; "??"]))]);
  ("AssignmentExpression", [("operator", (OpText, TEnum ["="; "+="; "-="; "*="; "/="; "%="; "<<="; ">>="; ">>>=";
     "|="; "^="; "&="; "**="; "||="; "&&="; "??="]))]);
  ("Property", [("kind", (Acc "Kind", TEnum ["init"; "get"; "set"])); ("method", (Acc "Method", TBool));
                ("shorthand", (Acc "Shorthand", TBool)); ("computed", (Acc "Computed", TBool))]);
  ("FunctionDeclaration", [("generator", (Acc "Generator", TBool)); ("async", (Acc "Async", TBool))]);
  ("FunctionExpression", [("generator", (Acc "Generator", TBool)); ("async", (Acc "Async", TBool))]);
  ("ArrowFunctionExpression", [("expression", (Acc "Expr", TBool)); ("async", (Acc "Async", TBool))]);
  ("YieldExpression", [("delegate", (Acc "Delegate", TBool))]);
  ("VariableDeclaration", [("kind", (Acc "Kind", TEnum ["var"; "let"; "const"]))]);
  ("MemberExpression", [("computed", (Acc "Compute", TBool)); ("optional", (Acc "Optional", TBool))]);
  ("CallExpression", [("optional", (Acc "Optional", TBool))]);
  ("ForOfStatement", [("await", (Acc "Await", TBool))]);
  ("MethodDefinition", [("kind", (Acc "Kind", TEnum ["constructor"; "method"; "get"; "set"]));
                        ("computed", (Acc "Computed", TBool)); ("static", (Acc "Static", TBool))]);
  ("PropertyDefinition", [("computed", (Acc "Computed", TBool)); ("static", (Acc "Static", TBool))]);
  ("TemplateElement", [("tail", (Untold, TBool)); ("value", (Untold, TObj))]);
  ("JSXIdentifier", [("name", (Acc "Val", TStr))]);
  ("JSXOpeningElement", [("selfClosing", (Acc "Closed", TBool))]);
  ("JSXText", [("value", (Acc "Val", TStr)); ("raw", (Source, TStr))])] with Some l => l | None => [] end.

Definition mem (s : string) (l : list string) : bool := existsb (String.eqb s) l.
Definition fits (t : sty) (v : sv) : bool :=
  match t, v with
  | TStr, SvT _ => true
  | TBool, SvB _ => true
  | TEnum l, SvT b => existsb (fun s => bytes_eqb b (bs s)) l
  | TValue, (SvT _ | SvB _ | SvF _ | SvNil) => true
  | TNilStr, (SvT _ | SvNil) => true
  | TNilObj, (SvObj _ | SvNil) => true
  | TObj, SvObj _ => true
  | _, _ => false
  end.

(** A field filled as its column asks. *)
Definition is_one (s : list string) (e : en) : bool := mem (e_ty e) s.
Definition filled (c : column) (o : option (fld en)) : bool :=
  match c_ar c, o with
  | One, Some (FOne (Some e)) => is_one (c_sort c) e
  | (Opt | Few), Some (FOne None) => true
  | (Opt | Few), Some (FOne (Some e)) => is_one (c_sort c) e
  | Many, Some (FMany l) => forallb (fun o => match o with Some e => is_one (c_sort c) e | None => false end) l
  | ManyOpt, Some (FMany l) => forallb (fun o => match o with Some e => is_one (c_sort c) e | None => true end) l
  | _, _ => false
  end.
Definition fld_all {A} (f : A -> bool) (x : fld A) : bool :=
  match x with
  | FOne (Some a) => f a
  | FOne None => true
  | FMany l => forallb (fun o => match o with Some a => f a | None => true end) l
  end.
(** A template has one text more than substitutions. *)
Definition balanced (ks : list (string * fld en)) : bool :=
  match assoc "quasis" ks, assoc "expressions" ks with
  | Some (FMany q), Some (FMany x) => Nat.eqb (length q) (S (length x))
  | _, _ => false
  end.
(** The tree is an ESTree: every node is of a known interface, with its fields. *)
Definition conf_here (skip : string -> bool) (t : string) (sc : list (string * sv)) (ks : list (string * fld en)) : bool :=
  match columns t with
  | Some cs =>
      forallb (fun c => filled c (assoc (c_field c) ks)) cs
      && forallb (fun a => skip (fst a) || fits (snd (snd a)) (sget sc (fst a))) (attrs t)
      && (if String.eqb t "TemplateLiteral" then balanced ks else true)
  | None => false
  end.
Fixpoint conf (e : en) : bool :=
  match e with
  | En t _ _ _ sc ks => conf_here (fun _ => false) t sc ks && forallb (fun kf => match kf with (_, f) => fld_all conf f end) ks
  end.

(** ** The trees of the parser *)

(** The name of the ESTree node a node stands for. *)
Definition has_kid (ks : list (string * list (option pn))) (g : string) : bool :=
  match kid ks g with Some _ => true | None => false end.
Definition es_type (n : pn) : string :=
  match n with
  | Pn t _ _ sc ks =>
      match t with
      | N_PROG => "Program"
      | N_STMT_EXPR => "ExpressionStatement" | N_STMT_EMPTY => "EmptyStatement" | N_STMT_BLOCK => "BlockStatement"
      | N_STMT_VAR_DEC => "VariableDeclaration" | N_VAR_DEC => "VariableDeclarator" | N_STMT_FN => "FunctionDeclaration"
      | N_STMT_DO_WHILE => "DoWhileStatement" | N_STMT_WHILE => "WhileStatement" | N_STMT_FOR => "ForStatement"
      | N_STMT_FOR_IN_OF => if flag sc "In" then "ForInStatement" else "ForOfStatement"
      | N_STMT_IF => "IfStatement" | N_STMT_SWITCH => "SwitchStatement" | N_SWITCH_CASE => "SwitchCase"
      | N_STMT_BRK => "BreakStatement" | N_STMT_CONT => "ContinueStatement" | N_STMT_LABEL => "LabeledStatement"
      | N_STMT_RET => "ReturnStatement" | N_STMT_THROW => "ThrowStatement" | N_STMT_TRY => "TryStatement"
      | N_CATCH => "CatchClause" | N_STMT_DEBUG => "DebuggerStatement" | N_STMT_WITH => "WithStatement"
      | N_STMT_CLASS => "ClassDeclaration" | N_EXPR_CLASS => "ClassExpression" | N_CLASS_BODY => "ClassBody"
      | N_STATIC_BLOCK => "StaticBlock" | N_METHOD => "MethodDefinition" | N_FIELD => "PropertyDefinition"
      | N_DECORATOR => "Decorator"
      | N_STMT_IMPORT => "ImportDeclaration"
      | N_IMPORT_SPEC => if flag sc "Default" then "ImportDefaultSpecifier"
                         else if flag sc "NameSpace" then "ImportNamespaceSpecifier" else "ImportSpecifier"
      | N_STMT_EXPORT => if flag sc "All" then "ExportAllDeclaration"
                         else if flag sc "Default" then "ExportDefaultDeclaration" else "ExportNamedDeclaration"
      | N_EXPORT_SPEC => if flag sc "NameSpace" then ns_spec else "ExportSpecifier"
      | N_LIT_NULL | N_LIT_BOOL | N_LIT_NUM | N_LIT_STR | N_LIT_REGEXP => "Literal"
      | N_LIT_ARR => "ArrayExpression" | N_LIT_OBJ => "ObjectExpression" | N_PROP => "Property"
      | N_EXPR_NEW => "NewExpression" | N_EXPR_MEMBER => "MemberExpression" | N_EXPR_CALL => "CallExpression"
      | N_EXPR_BIN => match sget sc "Op" with SvO (T_AND | T_OR | T_NULLISH) => "LogicalExpression" | _ => "BinaryExpression" end
      | N_EXPR_UNARY => match sget sc "Op" with SvO T_AWAIT => "AwaitExpression" | _ => "UnaryExpression" end
      | N_EXPR_UPDATE => "UpdateExpression" | N_EXPR_COND => "ConditionalExpression" | N_EXPR_ASSIGN => "AssignmentExpression"
      | N_EXPR_FN => "FunctionExpression" | N_EXPR_THIS => "ThisExpression" | N_EXPR_ARROW => "ArrowFunctionExpression"
      | N_EXPR_SEQ => "SequenceExpression" | N_EXPR_YIELD => "YieldExpression" | N_EXPR_CHAIN => "ChainExpression"
      | N_EXPR_TPL => if has_kid ks "Tag" then "TaggedTemplateExpression" else "TemplateLiteral"
      | N_NAME => if flag sc "IsPrivate" then "PrivateIdentifier" else "Identifier"
      | N_IMPORT_CALL => "ImportExpression" | N_META_PROP => "MetaProperty" | N_SPREAD => "SpreadElement" | N_SUPER => "Super"
      | N_PAT_REST => "RestElement" | N_PAT_ARRAY => "ArrayPattern" | N_PAT_ASSIGN => "AssignmentPattern" | N_PAT_OBJ => "ObjectPattern"
      | N_JSX_ELEM => match kid ks "Open" with
                      | Some o => if has_kid (p_ks o) "Name" then "JSXElement" else "JSXFragment"
                      | None => ""
                      end
      | N_JSX_OPEN => if has_kid ks "Name" then "JSXOpeningElement" else "JSXOpeningFragment"
      | N_JSX_CLOSE => if has_kid ks "Name" then "JSXClosingElement" else "JSXClosingFragment"
      | N_JSX_ID => "JSXIdentifier" | N_JSX_MEMBER => "JSXMemberExpression" | N_JSX_NS => "JSXNamespacedName"
      | N_JSX_ATTR => "JSXAttribute" | N_JSX_ATTR_SPREAD => "JSXSpreadAttribute" | N_JSX_CHILD_SPREAD => "JSXSpreadChild"
      | N_JSX_EMPTY => "JSXEmptyExpression" | N_JSX_EXPR_SPAN => "JSXExpressionContainer" | N_JSX_TXT => "JSXText"
      | _ => ""
      end
  end.
(** ESTree has no node for parentheses. *)
Fixpoint strip (n : pn) : pn :=
  match n with Pn N_EXPR_PAREN _ _ _ [(_, [Some k])] => strip k | _ => n end.
Definition stands_for (s : list string) (k : pn) : bool := mem (es_type (strip k)) s.

(** An accessor that gives what its column asks. *)
Definition given (c : column) (l : list (option pn)) : bool :=
  match c_ar c, l with
  | One, [Some k] => stands_for (c_from c) k
  | Opt, ([] | [None]) => true
  | Few, [] => true
  | Few, [Some k] => stands_for (c_from c) k
  | Opt, [Some k] => stands_for (c_from c) k
  | Many, l => forallb (fun o => match o with Some k => stands_for (c_from c) k | None => false end) l
  | ManyOpt, l => forallb (fun o => match o with Some k => stands_for (c_from c) k | None => true end) l
  | _, _ => false
  end.
(** The node has the accessors of its columns, in the order of the source. *)
Fixpoint shaped (cs : list column) (ks : list (string * list (option pn))) : bool :=
  match cs, ks with
  | [], [] => true
  | c :: cs', (g, l) :: ks' => String.eqb g (c_acc c) && given c l && shaped cs' ks'
  | _, _ => false
  end.

Section Source.
Variable c : bytes.
Variable lcol : bool.

Definition src_text (lo hi : nat) : bytes := firstn (hi - lo) (skipn lo c).
(** A field's value, from the node and the source. *)
Definition value_of (n : pn) (o : origin) : sv :=
  match o with
  | Acc g => sget (p_sc n) g
  | OpText => match sget (p_sc n) "Op" with SvO o => SvT (tv_name o) | _ => SvNil end
  | Source => SvT (src_text (p_lo n) (p_hi n))
  | LitValue => match p_ty n with
                | N_LIT_STR | N_LIT_BOOL => sget (p_sc n) "Val"
                | N_LIT_NUM => sget (p_sc n) "NodeToFloat"
                | _ => SvNil
                end
  | BigDigits => if nt_eqb (p_ty n) N_LIT_NUM && flag (p_sc n) "NodeIsBigint" then sget (p_sc n) "ParseBigint" else SvNil
  | RegexParts => if nt_eqb (p_ty n) N_LIT_REGEXP then
                    match sget (p_sc n) "Pattern", sget (p_sc n) "Flags" with
                    | SvT p, SvT f => SvObj [("pattern", p); ("flags", f)]
                    | _, _ => SvNil
                    end
                  else SvNil
  (* es5.md, Directive: the raw string source of the directive without quotes *)
  | DirText => if flag (p_sc n) "Dir" then
                 match kid (p_ks n) "Expr" with Some k => SvT (src_text (S (p_lo k)) (p_hi k - 1)) | None => SvNil end
               else SvNil
  | Yes => SvB true
  | Untold => SvNil
  end.

(** Texts and substitutions of a template in turn, texts first and last. *)
Fixpoint in_turn (l : list (option pn)) : bool :=
  match l with
  | [Some s] => nt_eqb (p_ty s) N_LIT_STR
  | Some s :: Some x :: r => nt_eqb (p_ty s) N_LIT_STR && stands_for Expr x && in_turn r
  | _ => false
  end.
Definition text_of (k : pn) : bytes := match sget (p_sc k) "Val" with SvT b => b | _ => [] end.

Definition well_here (n : pn) : bool :=
  Nat.leb (p_lo n) (p_hi n) && Nat.leb (p_hi n) (length c) &&
  match p_ty n with
  | N_EXPR_PAREN => shaped [col "" "Expr" One Expr] (p_ks n)
  | N_EXPORT_SPEC =>
      if flag (p_sc n) "NameSpace" then shaped [col "" "Local" One ["Identifier"]] (p_ks n)
      else match columns (es_type n) with Some cs => shaped cs (p_ks n) | None => false end
  | N_EXPR_TPL =>
      match p_ks n with
      | [(g, l); (g', l')] =>
          String.eqb g "Tag" && given (col "" "" Opt Expr) l && String.eqb g' "Elems" && in_turn l'
          && match l with [Some k] => Nat.leb (p_lo k) (p_hi n) | [None] => true | _ => false end
      | _ => false
      end
  | N_JSX_NS =>
      match p_ks n with [] => true | _ => false end && fits TStr (sget (p_sc n) "NS") && fits TStr (sget (p_sc n) "Name")
  | _ =>
      match columns (es_type n) with
      | Some cs => shaped cs (p_ks n)
          && forallb (fun a => fits (snd (snd a)) (value_of n (fst (snd a)))) (attrs (es_type n))
          (* the value of a method is a function, that of a directive a string, and decorators come first *)
          && (if nt_eqb (p_ty n) N_METHOD then match kid (p_ks n) "Val" with Some k => nt_eqb (p_ty k) N_EXPR_FN | None => false end else true)
          && (if flag (p_sc n) "Dir" then match kid (p_ks n) "Expr" with Some k => nt_eqb (p_ty k) N_LIT_STR | None => false end else true)
          && match kid (p_ks n) "Decorators" with Some d => Nat.leb (p_lo d) (p_hi n) | None => true end
      | None => false
      end
  end.
(** A tree as the parser builds it, of nodes inside the source. *)
Fixpoint well (n : pn) : bool :=
  match n with
  | Pn t lo hi sc ks =>
      well_here n && forallb (fun kl => match kl with (_, l) => forallb (fun o => match o with Some k => well k | None => true end) l end) ks
  end.

(** The same of a whole program. *)
Definition well_program (n : pn) : bool :=
  nt_eqb (p_ty n) N_PROG && Nat.leb (p_lo n) (p_hi n) && Nat.leb (p_hi n) (length c)
  && match columns "Program" with Some cs => shaped cs (p_ks n) | None => false end
  && forallb (fun kl => match kl with (_, l) => forallb (fun o => match o with Some k => well k | None => true end) l end) (p_ks n).

(** ** Which ESTree stands for a tree of the parser *)

(** A tree whose nodes carry the name, the range, the place, the fields without nodes and the fields with nodes
    of an ESTree node; a field that holds one node or nil is a list of one element. *)
Inductive rose := Ro (ty : string) (lo hi : nat) (loc : option sloc) (fs : list (string * sv)) (l : list (string * list (option rose))).

Definition place (lo hi : nat) : option sloc :=
  if lcol then Some ((spec_line c lo, spec_col c lo), (spec_line c hi, spec_col c hi)) else None.
Definition subs {A} (ks : list (string * list (option A))) : list A :=
  flat_map (fun kl => match kl with (_, l) => flat_map (fun o => match o with Some x => [x] | None => [] end) l end) ks.

(** The texts and the substitutions of a template. *)
Fixpoint texts (l : list (option (pn * rose))) : list (option rose) :=
  match l with
  | Some (x, _) :: r =>
      Some (Ro "TemplateElement" (p_lo x) (p_hi x) (place (p_lo x) (p_hi x))
               [("tail", SvB (match r with [] => true | _ => false end));
                ("value", SvObj [("cooked", text_of x); ("raw", src_text (p_lo x) (p_hi x))])] [])
      :: match r with _ :: r' => texts r' | [] => [] end
  | _ => []
  end.
Fixpoint substs (l : list (option (pn * rose))) : list (option rose) :=
  match l with _ :: Some (_, t) :: r => Some t :: substs r | _ => [] end.

(** What the accessors of the columns give; an accessor that may give nothing gives nil. *)
Definition in_columns (cs : list column) (ks : list (string * list (option (pn * rose)))) : list (string * list (option rose)) :=
  map (fun cl => (c_field cl, match c_ar cl, map (option_map snd) (kids ks (c_acc cl)) with
                              | (Opt | Few), [] => [None]
                              | _, l => l
                              end)) cs.

(** The nodes of the parser's tree, each in its field, without the parentheses. *)
Definition want_here (n : pn) (ks : list (string * list (option (pn * rose)))) : rose :=
  let only := match map snd (subs ks) with [r] => r | _ => Ro "" 0 0 None [] [] end in
  let fields := in_columns (match columns (es_type n) with Some cs => cs | None => [] end) ks in
  match p_ty n with
  | N_EXPR_PAREN => only
  | N_EXPR_TPL =>
      let lit := Ro "TemplateLiteral" (p_lo n) (p_hi n) (place (p_lo n) (p_hi n)) []
                    [("quasis", texts (kids ks "Elems")); ("expressions", substs (kids ks "Elems"))] in
      match kid ks "Tag" with
      | Some (k, r) => Ro "TaggedTemplateExpression" (p_lo k) (p_hi n) (place (p_lo k) (p_hi n)) [] [("tag", [Some r]); ("quasi", [Some lit])]
      | None => lit
      end
  | N_EXPORT_SPEC =>
      if flag (p_sc n) "NameSpace" then only
      else Ro (es_type n) (p_lo n) (p_hi n) (place (p_lo n) (p_hi n)) [] fields
  | _ =>
      let lo := match kid (p_ks n) "Decorators" with Some d => p_lo d | None => p_lo n end in
      Ro (es_type n) lo (p_hi n) (place lo (p_hi n))
         (map (fun a => (fst a, value_of n (fst (snd a)))) (attrs (es_type n))) fields
  end.
Fixpoint want (n : pn) : rose :=
  match n with
  | Pn t lo hi sc ks =>
      want_here n (map (fun kl => match kl with (k, l) => (k, map (fun o => match o with Some x => Some (x, want x) | None => None end) l) end) ks)
  end.
End Source.

(** The nodes of an ESTree by the fields of its interfaces. *)
Definition fld_map {A B} (f : A -> B) (x : fld A) : fld B :=
  match x with FOne o => FOne (option_map f o) | FMany l => FMany (map (option_map f) l) end.
Definition fld_list {A} (x : fld A) : list (option A) := match x with FOne o => [o] | FMany l => l end.
Definition children (t : string) (ks : list (string * fld rose)) : list (string * list (option rose)) :=
  match columns t with
  | Some cs => map (fun c => (c_field c, match assoc (c_field c) ks with Some x => fld_list x | None => [] end)) cs
  | None => []
  end.
Fixpoint got (e : en) : rose :=
  match e with
  | En t lo hi loc sc ks =>
      Ro t lo hi loc (map (fun a => (fst a, sget sc (fst a))) (attrs t))
         (children t (map (fun kf => match kf with (k, f) => (k, fld_map got f) end) ks))
  end.

(** ** What the code gets wrong, and the trees without it *)
Definition plain_number (v : sv) : bool := match v with SvF (S754_infinity _) => false | _ => true end.
Fixpoint no_bare_string (txt : bool) (l : list (option pn)) : bool :=
  match l with
  | [] => true
  | o :: r => (txt || match o with Some x => negb (nt_eqb (p_ty x) N_LIT_STR) | None => true end) && no_bare_string (negb txt) r
  end.
Definition supported_here (c : bytes) (lcol : bool) (n : pn) : bool :=
  match p_ty n with
  | N_LIT_REGEXP | N_JSX_NS => false
  | N_LIT_NUM => plain_number (sget (p_sc n) "NodeToFloat")
  | N_EXPR_TPL => no_bare_string true (kids (p_ks n) "Elems")
  | N_STMT_EXPR =>
      if flag (p_sc n) "Dir" then
        match kid (p_ks n) "Expr" with
        | Some k => match sget (p_sc k) "Val" with SvT b => bytes_eqb b (src_text c (S (p_lo k)) (p_hi k - 1)) | _ => false end
        | None => false
        end
      else true
  | N_STMT_CLASS | N_METHOD | N_FIELD => lcol || match kids (p_ks n) "Decorators" with [] => true | _ => false end
  | _ => true
  end.
Fixpoint supported (c : bytes) (lcol : bool) (n : pn) : bool :=
  match n with
  | Pn t lo hi sc ks =>
      supported_here c lcol n
      && forallb (fun kl => match kl with (_, l) => forallb (fun o => match o with Some k => supported c lcol k | None => true end) l end) ks
  end.
