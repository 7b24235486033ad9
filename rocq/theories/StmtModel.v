(** Statements: the recursive descent parser from Program to BindingIdentifier, on top of the one for
    expressions. *)
From Verif Require Import Base TokenModel LexModel ParseBase SymtabModel EarlyModel ExprModel.

(** ecma/parser/ast.go: the nodes of statements, with the nodes of declarators (VarDec), clauses (SwitchCase, Catch)
    and expressions as statements too.
    [SDecl] is a function, class, import or export declaration, whose parts are not modelled; a [SVar] carries
    T_VAR, T_LET or T_CONST.
    Simplified: the nodes that jumps lead to are not kept, see C30. *)
Inductive stmt :=
| SE (e : expr)
| SExpr (r : rng) (e : expr)
| SEmpty (r : rng)
| SBlock (r : rng) (l : list stmt)
| SVar (r : rng) (kind : tv) (decs : list stmt)
| SDec (r : rng) (id : expr) (init : option expr)
| SIf (r : rng) (t : expr) (c : stmt) (a : option stmt)
| SWhile (r : rng) (t : expr) (b : stmt)
| SDo (r : rng) (b : stmt) (t : expr)
| SFor (r : rng) (init : option stmt) (test upd : option expr) (b : stmt)
| SForIn (r : rng) (isin await : bool) (left : stmt) (right : expr) (b : stmt)
| SRet (r : rng) (e : option expr)
| SThrow (r : rng) (e : expr)
| SBrk (r : rng) (l : option expr)
| SCont (r : rng) (l : option expr)
| SDebug (r : rng)
| SLabel (r : rng) (l : expr) (b : stmt)
| SSwitch (r : rng) (e : expr) (cases : list stmt)
| SCase (r : rng) (e : option expr) (l : list stmt)
| STry (r : rng) (b : stmt) (c f : option stmt)
| SCatch (r : rng) (p : option expr) (b : stmt)
| SWith (r : rng) (e : expr) (b : stmt)
| SDecl (r : rng).
(** ecma/parser/ast.go Range. *)
Definition srange (s : stmt) : rng :=
  match s with
  | SE e => range e
  | SExpr r _ | SEmpty r | SBlock r _ | SVar r _ _ | SDec r _ _ | SIf r _ _ _ | SWhile r _ _ | SDo r _ _
  | SFor r _ _ _ _ | SForIn r _ _ _ _ _ | SRet r _ | SThrow r _ | SBrk r _ | SCont r _ | SDebug r | SLabel r _ _
  | SSwitch r _ _ | SCase r _ _ | STry r _ _ _ | SCatch r _ _ | SWith r _ _ | SDecl r => r
  end.
Definition is_rest (e : expr) : bool := match e with PRest _ _ => true | _ => false end.
Definition is_lit_pat (e : expr) : bool := match e with EArr _ _ | EObj _ _ => true | _ => false end.
Definition without (k m : N) : N := N.ldiff k m.

Section Stmt.
(** The features (FEAT_TS is off); TokText; p.checkName; the parsers of expressions ([ex]: expr, [asg]:
    assignExpr(true, ...)).
    What is not modelled: [decl] reads a function, class, import or export declaration, or a statement that
    begins with an async function, if one starts here, and makes the checks of stmt on it; [names_ok] are the
    checks of the names a declaration or a catch clause binds (see C35); [jump_ok] are those of labels and of
    the targets of break and continue (see C30); [use_strict] says whether a string is the directive.
    Every theorem holds whatever these are, under the conditions it states.
    Not modelled at all: TypeScript, decorators, comments. *)
Variables (feat : N) (text : token -> bytes) (chk : pst -> bool).
Variables (ex asg : N -> pst -> pres expr).
Variables (decl : N -> pst -> option (pres rng)) (names_ok : N -> list expr -> pst -> bool)
  (jump_ok : N -> stmt -> pst -> bool) (use_strict : token -> bool).

(** ecma/parser/parser.go:3287-3326 identStrict, ident. *)
Definition ident_tok (v : tv) : bool := tv_eqb v T_NAME || between T_CTX_KEYWORD_BEGIN T_CTX_KEYWORD_END v.
Definition let_or_const (n : bytes) : bool := bytes_eqb n (bs "let") || bytes_eqb n (bs "const").
Definition ident (k : N) (s : pst) : pres expr :=
  let t := peek s in
  if negb (ident_tok (t_val t)) then PErr
  else if prohibited k (text t) false then PErr
  else if negb (has k SPK_STRICT) && has k SPK_LEXICAL_DEC && negb (contains_escape t) && let_or_const (text t) then PErr
  else POk (EName (fin (t_lo t) (next s)) (text t) false (is_kw (t_val t))) (next s).

(** ecma/parser/parser.go:3755-3802 propName(false, true, false), the key, and whether it is computed (with the
    bracket's place as start). *)
Definition prop_name (k : N) (s : pst) : pres (expr * bool) :=
  let t := peek s in
  let l := t_lo t in
  if at_tok T_STRING s then
    if has k SPK_STRICT && match t_ext t with XStr _ b => b | _ => false end then PErr
    else POk (ELit (fin l (next s)) t, false) (next s)
  else if at_tok T_NUM s then POk (ELit (fin l (next s)) t, false) (next s)
  else if at_tok T_BRACKET_L s then
    pbind (asg (N.lor k SPK_PROP_NAME) (next s)) (fun e s1 =>
    pbind (must T_BRACKET_R s1) (fun _ s2 => POk (e, true) s2))
  else if can_be_key t then
    if negb (has k SPK_STRICT) && has k SPK_LEXICAL_DEC && negb (contains_escape t) && let_or_const (text t) then PErr
    else POk (EName (fin l (next s)) (text t) false (is_kw (t_val t) || prohibited k (text t) false), false) (next s)
  else PErr.
(** ecma/parser/parser.go:3720-3754 isField(false, getter); 3804-3827: what is not a field is read as a method,
    which patternObj rejects. *)
Definition is_field (getter : bool) (s : pst) : bool :=
  has feat FEAT_CLASS_PUB_FIELD &&
  (existsb (tv_eqb (pval s)) [T_COLON; T_ASSIGN; T_SEMI; T_COMMA; T_BRACE_R; T_PAREN_R] ||
   if getter then negb (tv_start_expr (pval s)) && negb (at_tok T_NAME_PVT s) && negb (at_tok T_BRACKET_L s) && negb (is_kw (pval s))
   else t_atl (peek s)).

(** ecma/parser/parser.go:3904-3930 patternAssign. *)
Definition pattern_default (k : N) (b : expr) (s : pst) : pres expr :=
  if at_tok T_ASSIGN s then
    pbind (asg k (next s)) (fun e s1 =>
    alift (check_arg k text true false e) (fun _ => POk (PAssign (fin (lo b) s1) b e) s1))
  else POk b (peeked s).

(** ecma/parser/parser.go:3589-3617 bindingPattern, 3619-3661 patternObj, 3663-3709 patternProp, 3830-3864
    patternArr, 3879-3902 bindingElem, 3933-3970 patternRest; [elem] is bindingElem(false) with the initializer. *)
Fixpoint bind (fuel : nat) (elem : bool) (k : N) (s : pst) {struct fuel} : pres expr :=
  match fuel with
  | O => PFuel
  | S fuel =>
      let s := peeked s in
      if negb elem && negb (has feat FEAT_BINDING_PATTERN) && (at_tok T_BRACE_L s || at_tok T_BRACKET_L s) then PErr
      else
        pbind (if at_tok T_BRACE_L s then bind_obj fuel k (here s) [] (next s)
               else if at_tok T_BRACKET_L s then bind_arr fuel k (here s) [] (next s)
               else if at_tok T_DOT_TRI s then bind_rest fuel (elem || has feat FEAT_BINDING_REST_ELEM_NESTED) k s
               else ident k s) (fun b s1 =>
        if elem then pattern_default k b s1 else POk b s1)
  end
with bind_rest (fuel : nat) (nested : bool) (k : N) (s : pst) {struct fuel} : pres expr :=
  match fuel with
  | O => PFuel
  | S fuel =>
      let s1 := peeked (next s) in
      if negb (has feat FEAT_BINDING_REST_ELEM) then PErr
      else if negb (at_tok T_NAME s1) && (negb nested || negb (at_tok T_BRACKET_L s1) && negb (at_tok T_BRACE_L s1)) then PErr
      else
        pbind (bind fuel false k s1) (fun b s2 =>
        if at_tok T_COMMA s2 then PErr else POk (PRest (fin (here s) s2) b) (peeked s2))
  end
with bind_obj (fuel : nat) (k : N) (l : nat) (acc : list expr) (s : pst) {struct fuel} : pres expr :=
  match fuel with
  | O => PFuel
  | S fuel =>
      if at_tok T_BRACE_R s then POk (PObj (fin l (next s)) acc) (next s)
      else
        pbind (bind_prop fuel k (peeked s)) (fun p s1 =>
        if is_rest p && negb (at_tok T_BRACE_R s1) then PErr
        else if at_tok T_COMMA s1 then bind_obj fuel k l (acc ++ [p]) (next s1)
        else if at_tok T_BRACE_R s1 then POk (PObj (fin l (next s1)) (acc ++ [p])) (next s1)
        else PErr)
  end
with bind_prop (fuel : nat) (k : N) (s : pst) {struct fuel} : pres expr :=
  match fuel with
  | O => PFuel
  | S fuel =>
      if at_tok T_DOT_TRI s then bind_rest fuel false k s
      else
        pbind (prop_name k s) (fun x s1 =>
        let '(key, computed) := x in
        if negb (is_field (bytes_eqb (text (peek s)) (bs "get") || bytes_eqb (text (peek s)) (bs "set")) s1) then PErr
        else if at_tok T_COLON s1 then
          pbind (bind fuel true k (next s1)) (fun v s2 =>
          POk (EProp (fin (t_lo (peek s)) s2) key (Some v) computed false false) s2)
        else if at_tok T_ASSIGN s1 then
          if is_name_e key then
            pbind (pattern_default k key (peeked s1)) (fun v s2 => POk (EProp (fin (lo key) s2) key (Some v) false true true) s2)
          else PErr
        else POk (EProp (fin (t_lo (peek s)) s1) key (Some key) computed true false) (peeked s1))
  end
with bind_arr (fuel : nat) (k : N) (l : nat) (acc : list (option expr)) (s : pst) {struct fuel} : pres expr :=
  match fuel with
  | O => PFuel
  | S fuel =>
      let '(holes, s0) := elision (S (length (p_toks s))) s in
      let acc := acc ++ holes in
      if at_tok T_BRACKET_R s0 then POk (PArr (fin l (next s0)) acc) (next s0)
      else
        pbind (bind fuel true k (peeked s0)) (fun e s1 =>
        if is_rest e && negb (at_tok T_BRACKET_R s1) then PErr
        else if at_tok T_COMMA s1 then bind_arr fuel k l (acc ++ [Some e]) (next s1)
        else if at_tok T_BRACKET_R s1 then POk (PArr (fin l (next s1)) (acc ++ [Some e])) (next s1)
        else PErr)
  end.

(** ecma/parser/parser.go:3097-3136 aheadIsVarDec. *)
Definition ahead_var (k : N) (s : pst) : option tv :=
  let t := peek s in
  if tv_eqb (t_val t) T_VAR then Some T_VAR
  else if negb (has feat FEAT_LET_CONST) then None
  else
    match (if tv_eqb (t_val t) T_LET || tv_eqb (t_val t) T_CONST then Some (t_val t)
           else if is_name t (bs "let") false then Some T_LET
           else if is_name t (bs "const") false then Some T_CONST else None) with
    | None => None
    | Some v =>
        let a := peek (next s) in
        if has k SPK_STRICT then Some v
        else if negb (t_atl a) && (ident_tok (t_val a) || tv_eqb (t_val a) T_BRACE_L || tv_eqb (t_val a) T_BRACKET_L)
        then Some v else None
    end.
(** ecma/parser/parser.go:3223-3256 varDec. *)
Definition var_dec (fuel : nat) (lexical : bool) (k : N) (s : pst) : pres stmt :=
  pbind (bind fuel false (if lexical then N.lor k SPK_LEXICAL_DEC else k) (peeked s)) (fun b s1 =>
  let k := without k SPK_LEXICAL_DEC in
  pbind (if at_tok T_ASSIGN s1 then pbind (asg k (next s1)) (fun e s2 => POk (Some e) s2) else POk None (peeked s1)) (fun init s2 =>
  if negb (is_name_e b) && match init with None => true | _ => false end && negb (has k SPK_NOT_IN) then PErr
  else POk (SDec (fin (lo b) s2) b init) s2)).
(** ecma/parser/parser.go:3173-3190 the loop of varDecStmt. *)
Fixpoint var_decs (fuel : nat) (kind : tv) (k : N) (acc : list stmt) (s : pst) : pres (list stmt) :=
  match fuel with
  | O => PFuel
  | S fuel =>
      pbind (var_dec fuel (negb (tv_eqb kind T_VAR)) k s) (fun d s1 =>
      if tv_eqb kind T_CONST && match d with SDec _ _ None => true | _ => false end && negb (has k SPK_NOT_IN) then PErr
      else if at_tok T_COMMA s1 then var_decs fuel kind k (acc ++ [d]) (next s1)
      else POk (acc ++ [d]) (peeked s1))
  end.
Definition dec_ids (decs : list stmt) : list expr := flat_map (fun d => match d with SDec _ b _ => [b] | _ => [] end) decs.
(** ecma/parser/parser.go:3153-3221 varDecStmt; [as_expr]: in the head of a for statement. *)
Definition var_stmt (fuel : nat) (kind : tv) (as_expr : bool) (k : N) (s : pst) : pres stmt :=
  pbind (var_decs fuel kind k [] (next s)) (fun decs s1 =>
  if negb (names_ok k (dec_ids decs) s1) then PErr
  else
    pbind (if as_expr then POk tt s1 else advance_if_semi true s1) (fun _ s2 =>
    POk (SVar (fin (here s) s2) kind decs) s2)).

(** The kinds of the scopes statements open. *)
Definition block_kind (k m : N) : N := N.lor (entered_kind k false false) m.
Definition sub_kind (k : N) : N := N.lor k SPK_INTERIM.

(** ecma/parser/parser.go:3971-3987 exprStmt, 1721-1725 emptyStmt, 1760-1769 debugStmt. *)
Definition expr_stmt (k : N) (s : pst) : pres stmt :=
  pbind (ex k s) (fun e s1 =>
  pbind (advance_if_semi true s1) (fun _ s2 => POk (SExpr (fin (here s) s2) e) s2)).
Definition empty_stmt (s : pst) : pres stmt := POk (SEmpty (fin (here s) (next s))) (next s).
Definition debug_stmt (s : pst) : pres stmt :=
  pbind (advance_if_semi true (next s)) (fun _ s1 => POk (SDebug (fin (here s) s1)) s1).
(** An expression between parentheses, as the heads of statements have it. *)
Definition head_expr (k : N) (s : pst) : pres expr :=
  pbind (must T_PAREN_L s) (fun _ s1 => pbind (ex k s1) (fun e s2 => pbind (must T_PAREN_R s2) (fun _ s3 => POk e (peeked s3)))).
(** ecma/parser/parser.go:1865-1893 throwStmt. *)
Definition throw_stmt (k : N) (s : pst) : pres stmt :=
  let s1 := peeked (next s) in
  if at_tok T_ILLEGAL s1 || at_tok T_EOF s1 || t_atl (peek s1) then PErr
  else
    pbind (ex k s1) (fun e s2 =>
    pbind (advance_if_semi true s2) (fun _ s3 => POk (SThrow (fin (here s) s3) e) s3)).
(** ecma/parser/parser.go:1896-1929 retStmt. *)
Definition ret_stmt (k : N) (s : pst) : pres stmt :=
  let s1 := peeked (next s) in
  pbind (if at_tok T_SEMI s1 then POk None (next s1)
         else if existsb (tv_eqb (pval s1)) [T_ILLEGAL; T_BRACE_R; T_PAREN_R; T_BRACKET_R; T_EOF] || t_atl (peek s1)
         then POk None s1
         else pbind (ex k s1) (fun e s2 => POk (Some e) s2)) (fun e s2 =>
  pbind (advance_if_semi (negb (at_tok T_SEMI s1)) s2) (fun _ s3 =>
  if negb (has k SPK_FUNC) && negb (has k SPK_FUNC_INDIRECT) then PErr
  else POk (SRet (fin (here s) s3) e) s3)).
(** ecma/parser/parser.go:1975-2012 brkStmt, 2015-2051 contStmt. *)
Definition jump_stmt (mk : rng -> option expr -> stmt) (k : N) (s : pst) : pres stmt :=
  let s1 := peeked (next s) in
  pbind (if at_tok T_NAME s1 && negb (t_atl (peek s1)) then pbind (ident k s1) (fun e s2 => POk (Some e) s2) else POk None s1)
    (fun l s2 =>
  pbind (advance_if_semi true s2) (fun _ s3 =>
  let st := mk (fin (here s) s3) l in
  if jump_ok k st s3 then POk st s3 else PErr)).

(** ecma/parser/parser.go:2968-2981 isDirective: the string. *)
Definition directive (st : stmt) : option token :=
  match st with
  | SExpr _ (ELit _ t) => if tv_eqb (t_val t) T_STRING then Some t else None
  | _ => None
  end.
Definition has_octal (st : stmt) : bool :=
  match directive st with Some t => match t_ext t with XStr _ b => b | _ => false end | None => false end.

(** What follows is given the parser of statements with less fuel. *)
Section Rec.
Variable rec : N -> pst -> pres stmt.

(** ecma/parser/parser.go:2989-3062 stmts: the statements and the kind of the scope after them; [term] is
    T_ILLEGAL for a program; [prologue] is -1 when [None]. *)
Fixpoint stmt_list (fuel : nat) (term : tv) (k : N) (prologue : option nat) (acc : list stmt) (s : pst) : pres (list stmt * N) :=
  match fuel with
  | O => PFuel
  | S fuel =>
      if negb (tv_eqb term T_ILLEGAL) && at_tok term s then POk (acc, k) (next s)
      else if at_tok T_EOF s then if tv_eqb term T_ILLEGAL then POk (acc, k) (peeked s) else PErr
      else
        pbind (rec k (peeked s)) (fun st s1 =>
        let s1 := peeked s1 in
        match prologue with
        | Some n =>
            if has k SPK_FUNC || has k SPK_GLOBAL then
              match directive st with
              | None => stmt_list fuel term k (match n with O => None | _ => prologue end) (acc ++ [st]) s1
              | Some t =>
                  if use_strict t then
                    if match n with O => false | _ => existsb has_octal (firstn n acc) end then PErr
                    else stmt_list fuel term (N.lor k (N.lor SPK_STRICT SPK_STRICT_DIR))
                           (match n with O => Some 1 | _ => Some 0 end) (acc ++ [st]) s1
                  else stmt_list fuel term k (Some (S n)) (acc ++ [st]) s1
              end
            else stmt_list fuel term k prologue (acc ++ [st]) s1
        | None => stmt_list fuel term k None (acc ++ [st]) s1
        end)
  end.
(** ecma/parser/parser.go:3064-3093 blockStmt; exports are checked elsewhere, see C34. *)
Definition block_stmt (fuel : nat) (k : N) (s : pst) : pres stmt :=
  pbind (must T_BRACE_L s) (fun _ s1 =>
  pbind (stmt_list fuel T_BRACE_R k (Some 0) [] s1) (fun x s2 => POk (SBlock (fin (t_lo (peek s)) s2) (fst x)) s2)).
(** ecma/parser/parser.go:2148-2194 ifStmt, 2247-2289 whileStmt, 1728-1757 withStmt, 2197-2244 doWhileStmt. *)
Definition if_stmt (k : N) (s : pst) : pres stmt :=
  pbind (head_expr k (next s)) (fun t s1 =>
  pbind (rec (sub_kind k) s1) (fun c s2 =>
  if at_tok T_ELSE s2 then
    pbind (rec (sub_kind k) (peeked (next s2))) (fun a s3 => POk (SIf (fin (here s) s3) t c (Some a)) s3)
  else POk (SIf (fin (here s) s2) t c None) (peeked s2))).
Definition while_stmt (k : N) (s : pst) : pres stmt :=
  pbind (head_expr k (next s)) (fun t s1 =>
  pbind (rec (sub_kind (block_kind k SPK_LOOP_DIRECT)) s1) (fun b s2 => POk (SWhile (fin (here s) s2) t b) s2)).
Definition with_stmt (k : N) (s : pst) : pres stmt :=
  pbind (head_expr k (next s)) (fun t s1 =>
  pbind (rec k s1) (fun b s2 =>
  if has k SPK_STRICT then PErr else POk (SWith (fin (here s) s2) t b) s2)).
Definition do_stmt (k : N) (s : pst) : pres stmt :=
  pbind (rec (sub_kind (block_kind k SPK_LOOP_DIRECT)) (peeked (next s))) (fun b s1 =>
  pbind (must T_WHILE s1) (fun _ s2 =>
  pbind (head_expr (block_kind k SPK_LOOP_DIRECT) s2) (fun t s3 =>
  pbind (advance_if_semi false s3) (fun _ s4 => POk (SDo (fin (here s) s4) b t) s4)))).
(** ecma/parser/parser.go:1940-1972 labelStmt; simplified: a label used twice is found after its statement. *)
Definition label_stmt (k : N) (s : pst) : pres stmt :=
  pbind (ident k s) (fun l s1 =>
  pbind (rec (sub_kind k) (next s1)) (fun b s2 =>
  let st := SLabel (fin (here s) s2) l b in
  if jump_ok k st s2 then POk st s2 else PErr)).
(** ecma/parser/parser.go:2112-2145 switchCase, the loop. *)
Fixpoint case_body (fuel : nat) (k : N) (acc : list stmt) (s : pst) : pres (list stmt) :=
  match fuel with
  | O => PFuel
  | S fuel =>
      if at_tok T_CASE s || at_tok T_DEFAULT s || at_tok T_BRACE_R s then POk acc (peeked s)
      else if at_tok T_EOF s then PErr
      else pbind (rec k (peeked s)) (fun st s1 => case_body fuel k (acc ++ [st]) s1)
  end.
(** ecma/parser/parser.go:2054-2109 switchStmt: the clauses, 2112-2145 switchCase. *)
Fixpoint cases (fuel : nat) (k : N) (met : bool) (acc : list stmt) (s : pst) : pres (list stmt) :=
  match fuel with
  | O => PFuel
  | S fuel =>
      if at_tok T_BRACE_R s then POk acc (next s)
      else if negb (at_tok T_CASE s) && negb (at_tok T_DEFAULT s) then PErr
      else if at_tok T_DEFAULT s && met then PErr
      else
        pbind (if at_tok T_CASE s then pbind (ex k (next s)) (fun e s1 => POk (Some e) s1) else POk None (next s)) (fun e s1 =>
        pbind (must T_COLON s1) (fun _ s2 =>
        pbind (case_body fuel k [] s2) (fun l s3 =>
        cases fuel k (match e with None => true | _ => false end) (acc ++ [SCase (fin (t_lo (peek s)) s3) e l]) s3)))
  end.
Definition switch_stmt (fuel : nat) (k : N) (s : pst) : pres stmt :=
  pbind (head_expr k (next s)) (fun e s1 =>
  pbind (must T_BRACE_L s1) (fun _ s2 =>
  pbind (cases fuel (block_kind k SPK_SWITCH) false [] s2) (fun l s3 => POk (SSwitch (fin (here s) s3) e l) s3))).
(** ecma/parser/parser.go:1772-1862 tryStmt. *)
Definition catch_clause (fuel : nat) (k : N) (s : pst) : pres stmt :=
  let s1 := peeked (next s) in
  let kc := block_kind k SPK_CATCH in
  pbind (if at_tok T_PAREN_L s1 then
           pbind (bind fuel false k (peeked (next s1))) (fun p s2 =>
           pbind (must T_PAREN_R s2) (fun _ s3 => if names_ok kc [p] s3 then POk (Some p) s3 else PErr))
         else if has feat FEAT_OPT_CATCH_PARAM then POk None s1 else PErr) (fun p s2 =>
  pbind (block_stmt fuel kc s2) (fun b s3 => POk (SCatch (fin (here s) s3) p b) s3)).
Definition try_stmt (fuel : nat) (k : N) (s : pst) : pres stmt :=
  pbind (block_stmt fuel (block_kind k SPK_TRY) (next s)) (fun b s1 =>
  let s1 := peeked s1 in
  if negb (at_tok T_CATCH s1) && negb (at_tok T_FINALLY s1) then PErr
  else
    pbind (if at_tok T_CATCH s1 then pbind (catch_clause fuel k s1) (fun c s2 => POk (Some c) (peeked s2)) else POk None s1) (fun c s2 =>
    pbind (if at_tok T_FINALLY s2 then pbind (block_stmt fuel (block_kind k 0) (next s2)) (fun f s3 => POk (Some f) s3)
           else POk None s2) (fun f s3 =>
    POk (STry (fin (here s) s3) b c f) s3))).
(** ecma/parser/parser.go:2361-2392, in forStmt: the left side of for-in and for-of; the scope is the one of the
    loop. *)
Definition for_left (k : N) (init : stmt) (s : pst) : ares stmt :=
  match init with
  | SVar _ _ decs =>
      if Nat.ltb 1 (length decs) then AErr
      else if has k SPK_STRICT && existsb (fun d => match d with SDec _ _ (Some _) => true | _ => false end) decs then AErr
      else AOk init
  | SE e =>
      if negb (is_simple k true true false e) then AErr
      else if is_lit_pat e then athen (snd (arg_to_param k feat (chk s) text true false true e)) (fun e' => AOk (SE e'))
      else AOk init
  | _ => AErr
  end.
Definition opt_expr (stop : tv) (k : N) (s : pst) : pres (option expr) :=
  if at_tok stop s then POk None (peeked s) else pbind (ex k (peeked s)) (fun e s1 => POk (Some e) s1).
(** ecma/parser/parser.go:2292-2483 forStmt. *)
Definition for_stmt (fuel : nat) (k : N) (s : pst) : pres stmt :=
  let s1 := peeked (next s) in
  let await := has k SPK_ASYNC && at_tok T_AWAIT s1 in
  if await && negb (has feat FEAT_ASYNC_ITERATION) then PErr
  else
    pbind (must T_PAREN_L (if await then next s1 else s1)) (fun _ s2 =>
    let kl := block_kind k SPK_LOOP_DIRECT in
    let ki := N.lor kl SPK_NOT_IN in
    let s2 := peeked s2 in
    pbind (match ahead_var ki s2 with
           | Some kind => pbind (var_stmt fuel kind true ki s2) (fun d s3 => POk (Some d) s3)
           | None => pbind (opt_expr T_SEMI ki s2) (fun e s3 => POk (option_map SE e) s3)
           end) (fun init s3 =>
    let s3 := peeked s3 in
    let isin := is_name (peek s3) (bs "in") false in
    let isof := is_name (peek s3) (bs "of") false in
    if await && negb isof then PErr
    else if isof && negb await && match init with Some (SE (EName _ n _ _)) => bytes_eqb n (bs "async") | _ => false end then PErr
    else if isin || isof then
      match init with
      | None => if isof then PPanic else PErr
      | Some init =>
          alift (for_left kl init s3) (fun left =>
          pbind (if isof then asg kl (next s3) else ex kl (next s3)) (fun right s4 =>
          pbind (must T_PAREN_R s4) (fun _ s5 =>
          pbind (rec (sub_kind kl) (peeked s5)) (fun b s6 => POk (SForIn (fin (here s) s6) isin await left right b) s6))))
      end
    else
      pbind (must T_SEMI s3) (fun _ s4 =>
      pbind (opt_expr T_SEMI kl s4) (fun test s5 =>
      pbind (must T_SEMI s5) (fun _ s6 =>
      pbind (opt_expr T_PAREN_R kl s6) (fun upd s7 =>
      pbind (must T_PAREN_R s7) (fun _ s8 =>
      pbind (rec (sub_kind kl) (peeked s8)) (fun b s9 => POk (SFor (fin (here s) s9) init test upd b) s9)))))))).

(** ecma/parser/parser.go:336-453 stmt, 800-812 importDec: where it goes on to exprStmt. *)
Definition stmt_b (fuel : nat) (k : N) (s : pst) : pres stmt :=
  let s := peeked s in
  let t := peek s in
  match decl k s with
  | Some x => pbind x (fun r s' => POk (SDecl r) s')
  | None =>
      if between T_KEYWORD_BEGIN T_KEYWORD_END (t_val t) then
        match t_val t with
        | T_VAR => var_stmt fuel T_VAR false k s
        | T_IF => if_stmt k s
        | T_FOR => for_stmt fuel k s
        | T_RETURN => ret_stmt k s
        | T_WHILE => while_stmt k s
        | T_BREAK => jump_stmt SBrk k s
        | T_CONTINUE => jump_stmt SCont k s
        | T_THROW => throw_stmt k s
        | T_TRY => try_stmt fuel k s
        | T_DO => do_stmt k s
        | T_SWITCH => switch_stmt fuel k s
        | T_DEBUGGER => debug_stmt s
        | T_WITH => with_stmt k s
        | T_NEW | T_THIS | T_SUPER => expr_stmt k s
        | T_IMPORT =>
            if (has feat FEAT_IMPORT_DEC || has feat FEAT_DYNAMIC_IMPORT) && (at_tok T_PAREN_L (next s) || at_tok T_DOT (next s))
            then expr_stmt k s else PErr
        | _ => PErr
        end
      else if at_tok T_BRACE_L s then block_stmt fuel (block_kind k 0) s
      else
        match ahead_var k s with
        | Some kind => if has k SPK_INTERIM then PErr else var_stmt fuel kind false k s
        | None =>
            if at_tok T_NAME s && at_tok T_COLON (next s) then label_stmt k s
            else if at_tok T_SEMI s then empty_stmt s
            else if at_tok T_EOF s then PErr
            else expr_stmt k s
        end
  end.
End Rec.

(** The recursion: every nested statement spends fuel. *)
Fixpoint stmt_at (fuel : nat) (k : N) (s : pst) : pres stmt :=
  match fuel with O => PFuel | S fuel => stmt_b (stmt_at fuel) fuel k s end.
(** ecma/parser/parser.go:191-247 Prog, the statements. *)
Definition program (fuel : nat) (k : N) (s : pst) : pres (list stmt) :=
  pbind (stmt_list (stmt_at fuel) fuel T_ILLEGAL k (Some 0) [] s) (fun x s' => POk (fst x) s').
End Stmt.
