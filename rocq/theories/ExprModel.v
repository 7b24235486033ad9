(** Expressions: the recursive descent parser from Expression to PrimaryExpression, and the checks that turn
    expressions into assignment targets and parameters. *)
From Verif Require Import Base TokenModel LexModel ParseBase BinModel SymtabModel EarlyModel.

Definition rng := (nat * nat)%type.

(** ecma/parser/ast.go: the nodes of expressions.
    [ELit] is NumLit, StrLit, NullLit, BoolLit, RegLit, ThisExpr, Super and the strings of a template: the token
    says which; [EOther] is a function, a class, a JSX element, or the block of an arrow function and [EMethod] a
    method, getter or setter of an object, whose parts are not modelled; [EMeta] is new.target; the patterns made
    from literals are [PArr], [PObj], [PAssign], [PRest].
    Simplified: OuterParen is not kept, the flags it decides are only read in TypeScript or never set where read. *)
Inductive expr :=
| ELit (r : rng) (t : token)
| EName (r : rng) (n : bytes) (pvt kw : bool)
| EParen (r : rng) (e : expr)
| EArr (r : rng) (es : list (option expr))
| EObj (r : rng) (ps : list expr)
| EProp (r : rng) (key : expr) (val : option expr) (computed shorthand assign : bool)
| EMethod (r : rng)
| ESpread (r : rng) (e : expr) (comma : bool)
| ESeq (r : rng) (es : list expr)
| EBin (r : rng) (op : tv) (o : rng) (l h : expr)
| EUnary (r : rng) (op : tv) (e : expr)
| EUpdate (r : rng) (op : tv) (prefix : bool) (e : expr)
| ECond (r : rng) (t c a : expr)
| EAssign (r : rng) (op : tv) (o : rng) (l h : expr)
| EYield (r : rng) (delegate : bool) (e : option expr)
| EMember (r : rng) (o p : expr) (computed opt : bool)
| ECall (r : rng) (c : expr) (args : list expr) (opt : bool)
| ENew (r : rng) (c : expr) (args : list expr)
| EChain (r : rng) (e : expr)
| EMeta (r : rng)
| ETpl (r : rng) (tag : option expr) (es : list expr)
| EArrow (r : rng) (params : list expr) (body : expr)
| EOther (r : rng)
| PArr (r : rng) (es : list (option expr))
| PObj (r : rng) (ps : list expr)
| PAssign (r : rng) (l h : expr)
| PRest (r : rng) (e : expr).

(** ecma/parser/ast.go Range. *)
Definition range (e : expr) : rng :=
  match e with
  | ELit r _ | EName r _ _ _ | EParen r _ | EArr r _ | EObj r _ | EProp r _ _ _ _ _ | EMethod r | ESpread r _ _
  | ESeq r _ | EBin r _ _ _ _ | EUnary r _ _ | EUpdate r _ _ _ | ECond r _ _ _ | EAssign r _ _ _ _ | EYield r _ _
  | EMember r _ _ _ _ | ECall r _ _ _ | ENew r _ _ | EChain r _ | EMeta r | ETpl r _ _ | EArrow r _ _ | EOther r
  | PArr r _ | PObj r _ | PAssign r _ _ | PRest r _ => r
  end.
Definition lo (e : expr) : nat := fst (range e).
Definition hi (e : expr) : nat := snd (range e).

(** Type() == N_NAME, N_EXPR_UNARY, N_EXPR_ARROW, N_SPREAD, N_EXPR_CHAIN, N_SUPER. *)
Definition is_name_e (e : expr) : bool := match e with EName _ _ _ _ => true | _ => false end.
Definition is_unary_e (e : expr) : bool := match e with EUnary _ _ _ => true | _ => false end.
Definition is_arrow_e (e : expr) : bool := match e with EArrow _ _ _ => true | _ => false end.
Definition is_spread_e (e : expr) : bool := match e with ESpread _ _ _ => true | _ => false end.
Definition is_chain_e (e : expr) : bool := match e with EChain _ _ => true | _ => false end.
Definition is_super_e (e : expr) : bool := match e with ELit _ t => tv_eqb (t_val t) T_SUPER | _ => false end.

(** A check returns, raises a syntax error, or panics (a method called on a nil Node). *)
Inductive ares (A : Type) := AOk (a : A) | AErr | APanic.
Arguments AOk {A} _.
Arguments AErr {A}.
Arguments APanic {A}.
Definition athen {A B} (x : ares A) (f : A -> ares B) : ares B :=
  match x with AOk a => f a | AErr => AErr | APanic => APanic end.
Definition alift {A B} (x : ares A) (f : A -> pres B) : pres B :=
  match x with AOk a => f a | AErr => PErr | APanic => PPanic end.
Definition aguard (b : bool) : ares unit := if b then AOk tt else AErr.
(** A loop over the elements that stops at the first error. *)
Definition each {A} (f : A -> ares unit) : list A -> ares unit :=
  fix go l := match l with [] => AOk tt | x :: l => athen (f x) (fun _ => go l) end.
(** The same with a result each: what the elements have become, and the results. *)
Definition stop_map {A B} (f : A -> A * ares B) : list A -> list A * ares (list B) :=
  fix go l :=
    match l with
    | [] => ([], AOk [])
    | x :: l =>
        match f x with
        | (x', AOk y) => let '(l', r) := go l in (x' :: l', athen r (fun ys => AOk (y :: ys)))
        | (x', AErr) => (x' :: l, AErr)
        | (x', APanic) => (x' :: l, APanic)
        end
    end.
Definition on_some {A B} (f : A -> A * ares B) (x : option A) : option A * ares (option B) :=
  match x with
  | Some a => let '(a', r) := f a in (Some a', athen r (fun b => AOk (Some b)))
  | None => (None, AOk None)
  end.

Section Checks.
(** The kind of the current scope, the features, p.checkName, TokText. *)
Variables (k feat : N) (checked : bool) (text : token -> bytes).
Definition prohibited (n : bytes) (lval : bool) : bool :=
  is_prohibited (has k SPK_STRICT) (has k SPK_ASYNC) n true lval false false.

(** ecma/parser/parser.go:4145-4177 isSimpleLVal; inParen does not change the result. *)
Fixpoint is_simple (pat member opt_assign : bool) (e : expr) : bool :=
  match e with
  | EName _ n _ _ =>
      if has k SPK_ASYNC && bytes_eqb n (bs "await") then false
      else if has k SPK_STRICT && (bytes_eqb n (bs "eval") || bytes_eqb n (bs "arguments")) then false
      else true
  | PObj _ _ | PArr _ _ | EArr _ _ | EObj _ _ => if opt_assign then false else pat
  | EMember _ _ _ _ _ => member
  | EParen _ e => is_simple pat false opt_assign e
  | _ => false
  end.

(** ecma/parser/parser.go:4849-4922 checkDefaultVal.  A hole of an array literal and a property
    without value are nil, and their Type() panics. *)
Fixpoint check_default (field yield destruct : bool) (e : expr) : ares unit :=
  match e with
  | EYield _ _ _ => aguard (yield && has k SPK_GENERATOR)
  | EBin _ _ _ l r => athen (check_default field yield destruct l) (fun _ => check_default field yield destruct r)
  | EParen _ e => check_default field yield destruct e
  | EUnary _ op e => if tv_eqb op T_AWAIT && negb destruct then AErr else check_default field yield destruct e
  | EUpdate _ _ _ e => check_default field yield destruct e
  | ECond _ t c a => athen (check_default field yield destruct t) (fun _ =>
      athen (check_default field yield destruct c) (fun _ => check_default field yield destruct a))
  | PAssign _ l r => athen (check_default field yield destruct l) (fun _ => check_default field yield destruct r)
  | EArr _ es => each (fun x => match x with Some e => check_default field yield destruct e | None => APanic end) es
  | EObj _ ps => each (check_default field yield destruct) ps
  | EProp _ _ v _ _ _ => match v with Some e => check_default field yield destruct e | None => APanic end
  | ESpread _ e _ => check_default field yield destruct e
  | EName _ n _ _ => aguard (negb (checked && is_prohibited (has k SPK_STRICT) (has k SPK_ASYNC) n true false field false))
  | _ => AOk tt
  end.

(** ecma/parser/parser.go:6399-6426 nameOfNode. *)
Definition name_of (e : expr) : bytes :=
  match e with
  | EName _ n pvt _ => if pvt then bs "#" ++ n else n
  | ELit _ t =>
      if tv_eqb (t_val t) T_STRING || tv_eqb (t_val t) T_NUM then text t
      else if tv_eqb (t_val t) T_NULL then bs "null"
      else if tv_eqb (t_val t) T_TRUE then bs "true"
      else if tv_eqb (t_val t) T_FALSE then bs "false" else []
  | _ => []
  end.
Definition is_proto (p : expr) : bool :=
  match p with
  | EProp _ key _ computed shorthand _ => negb computed && negb shorthand && bytes_eqb (name_of key) (bs "__proto__")
  | _ => false
  end.

(** ecma/parser/parser.go:5241-5318 checkArg. *)
Fixpoint check_arg (spread simplicity : bool) (e : expr) : ares unit :=
  match e with
  | EObj _ ps =>
      (fix go (proto : bool) (l : list expr) : ares unit :=
         match l with
         | [] => AOk tt
         | p :: l =>
             athen (check_arg true false p) (fun _ =>
             if is_proto p && proto then AErr else go (is_proto p || proto) l)
         end) false ps
  | EProp _ _ v _ shorthand assign =>
      if assign && shorthand && negb (has k SPK_NOT_IN) then AErr
      else match v with Some e => check_arg true false e | None => AOk tt end
  | PRest _ _ | ESpread _ _ _ => aguard spread
  | EAssign _ op _ l _ =>
      aguard (negb (simplicity && negb (tv_eqb op T_ASSIGN) && negb (is_simple false true false l)))
  | EParen _ e => check_arg spread simplicity e
  | EArr _ es => each (fun x => match x with Some e => check_arg true simplicity e | None => AOk tt end) es
  | EName _ _ _ kw => aguard (negb (kw && has k SPK_STRICT))
  | _ => AOk tt
  end.

(** ecma/parser/parser.go:4924-4931 isPrimitive. *)
Definition is_primitive (e : expr) : bool :=
  match e with
  | EName _ _ _ _ => true
  | ELit _ t => tv_eqb (t_val t) T_TRUE || tv_eqb (t_val t) T_FALSE || tv_eqb (t_val t) T_NUM || tv_eqb (t_val t) T_REGEXP
  | _ => false
  end.

(** ecma/parser/parser.go:4934-5216 argToParam: what the argument has become, for properties and spreads are
    changed in place, and the parameter.  [top] is depth == 0; TypeScript is left out, and with it inParen. *)
Fixpoint arg_to_param (top prop destruct : bool) (e : expr) {struct e} : expr * ares expr :=
  match e with
  | EArr r es =>
      let '(es', x) := stop_map (on_some (arg_to_param false false destruct)) es in
      (EArr r es', athen x (fun ps => AOk (PArr r ps)))
  | EObj r ps =>
      let '(ps', x) := stop_map (arg_to_param false true destruct) ps in
      (EObj r ps', athen x (fun qs => AOk (PObj r qs)))
  | PObj r ps =>
      let '(ps', x) := stop_map (arg_to_param false true destruct) ps in
      (PObj r ps', athen x (fun _ => AOk (PObj r ps')))
  | EProp r key v computed shorthand assign =>
      match v with
      | None => if is_name_e key then (e, if assign then APanic else AOk e) else (e, AErr)
      | Some v0 =>
          if assign then
            let '(key', x) := arg_to_param false prop destruct key in
            match x with
            | AErr => (EProp r key' v computed shorthand assign, AErr)
            | APanic => (EProp r key' v computed shorthand assign, APanic)
            | AOk key2 =>
                match check_default false destruct destruct v0 with
                | AErr => (EProp r key2 v computed shorthand assign, AErr)
                | APanic => (EProp r key2 v computed shorthand assign, APanic)
                | AOk _ =>
                    if negb prop && negb top then (EProp r key2 v computed shorthand assign, AErr)
                    else
                      let v1 := match v0 with PAssign _ _ _ => v0 | _ => PAssign r key2 v0 end in
                      let e' := EProp r key2 (Some v1) computed shorthand assign in (e', AOk e')
                end
            end
          else
            let '(v', x) := arg_to_param false prop destruct v0 in
            match x with
            | AErr => (EProp r key (Some v') computed shorthand assign, AErr)
            | APanic => (EProp r key (Some v') computed shorthand assign, APanic)
            | AOk v2 => let e' := EProp r key (Some v2) computed shorthand assign in (e', AOk e')
            end
      end
  | EMethod _ => (e, AErr)
  | EAssign r op o l h =>
      if negb (tv_eqb op T_ASSIGN) then (e, AErr)
      else
        let '(l', x) := arg_to_param false false destruct l in
        (EAssign r op o l' h,
         athen x (fun l2 => athen (check_default false destruct destruct h) (fun _ => athen (check_arg false false h) (fun _ =>
           AOk (PAssign r l2 h)))))
  | EName _ n _ _ => (e, if checked && prohibited n true then AErr else AOk e)
  | PRest _ _ => (e, AOk e)
  | ESpread r a comma =>
      if comma then (e, AErr)
      else
        match a with
        | EName _ _ _ _ =>
            let '(_, x) := arg_to_param top prop destruct a in (e, athen x (fun _ => AOk (PRest r a)))
        | EAssign _ _ _ _ _ => (e, AErr)
        | EParen _ _ =>
            if destruct then
              let '(a', x) := arg_to_param top prop destruct a in
              match x with
              | AOk a2 => (ESpread r a2 comma, AOk (PRest r a2))
              | AErr => (ESpread r a' comma, AErr)
              | APanic => (ESpread r a' comma, APanic)
              end
            else (e, AErr)
        | EArr _ _ | EObj _ _ =>
            if has feat FEAT_BINDING_REST_ELEM_NESTED then
              let '(a', x) := arg_to_param top prop destruct a in
              match x with
              | AOk a2 => if prop && negb (is_simple false true true a2) then (ESpread r a' comma, AErr)
                          else (ESpread r a2 comma, AOk (PRest r a2))
              | AErr => (ESpread r a' comma, AErr)
              | APanic => (ESpread r a' comma, APanic)
              end
            else (e, AErr)
        | _ => (e, AErr)
        end
  | EParen r sub =>
      if negb destruct || negb (is_primitive sub) then (e, AErr)
      else let '(sub', x) := arg_to_param top prop destruct sub in (EParen r sub', x)
  | _ => if top then (e, AErr) else (e, if is_simple true destruct false e then AOk e else AErr)
  end.
(** ecma/parser/parser.go:4834-4846 argsToParams. *)
Definition args_to_params (args : list expr) : list expr * ares (list expr) :=
  stop_map (arg_to_param true false false) args.
End Checks.

(** ecma/parser/lexer.go:229-240 Rng and 242-249 FinRng; an illegal token is never the previous one where a node
    is finished.
    Simplified: without a token in the buffer Rng counts the runes that were read (span/source.go:185 Pos), not their
    bytes as everywhere else; here it is bytes.  The two differ in sources that are not ASCII. *)
Definition here (s : pst) : nat := if p_buf s then t_lo (peek s) else p_end s.
Definition fin (l : nat) (s : pst) : rng := (l, p_end s).
Definition at_tok (v : tv) (s : pst) : bool := tv_eqb (pval s) v.
(** ecma/parser/token.go:78-80 IsUnary, parser.go:6487-6493 advanceIfTokIn of the assignment operators. *)
Definition between (a b v : tv) : bool := N.ltb (tv_num a) (tv_num v) && N.ltb (tv_num v) (tv_num b).
Definition is_unary_op (v : tv) : bool := between T_UNARY_OP_BEGIN T_UNARY_OP_END v.
Definition is_assign_op (v : tv) : bool := between T_ASSIGN_BEGIN T_ASSIGN_END v.
(** ecma/parser/parser.go:6428-6441 isExprOpening(true). *)
Definition may_end (t : token) : bool :=
  existsb (tv_eqb (t_val t)) [T_SEMI; T_BRACE_R; T_COMMA; T_PAREN_R; T_COLON; T_EOF] || t_atl t.
(** ecma/parser/parser.go:6443-6453 advanceIfSemi. *)
Definition advance_if_semi (raise : bool) (s : pst) : pres unit :=
  if raise && negb (may_end (peek s)) then PErr
  else if at_tok T_SEMI s then POk tt (next s) else POk tt (peeked s).
(** ecma/parser/parser.go:6455-6461 nextMustTok. *)
Definition must (v : tv) (s : pst) : pres unit := if at_tok v s then POk tt (next s) else PErr.

(** The tree of a binary expression; parser.go:5526-5531. *)
Fixpoint of_bt (t : btree expr) : expr :=
  match t with
  | Leaf a => a
  | Bin op o h l r => EBin (lo (of_bt l), h) op o (of_bt l) (of_bt r)
  end.
Definition other_expr (x : pres rng) : pres expr := pbind x (fun r s => POk (EOther r) s).
Definition method_expr (x : pres rng) : pres expr := pbind x (fun r s => POk (EMethod r) s).

Section Expr.
(** The features (FEAT_TS is off); TokText; p.checkName when the parser is at a state, a flag that parenExpr and
    objLit clear and set.
    What is not modelled: [other] reads a function, class or JSX element if one starts here, [method] a method,
    getter, setter or generator of an object literal if one starts here, [block] the body of an arrow function
    between braces; [params_ok] are the checks of the parameters of an arrow function (see C33) and the
    declarations of their names.  Every theorem holds whatever these are, under the conditions it states.
    Not modelled at all: import calls and import.meta, the arrow functions and calls of async functions unless
    [other] reads them, comments, error messages, and the private names a class must declare. *)
Variables (feat : N) (text : token -> bytes) (chk : pst -> bool).
Variables (other method : N -> pst -> option (pres rng)) (block : N -> pst -> pres rng)
  (params_ok : N -> list expr -> pst -> bool).

(** ecma/parser/parser.go:5861-5879 the scope parenExpr enters, 5798-5838 the one arrowFn enters. *)
Definition paren_kind (k : N) : N := N.lor (entered_kind k false false) SPK_PAREN.
Definition arrow_kind (k : N) : N := N.lor (entered_kind k true true) SPK_ARROW.

(** ecma/parser/parser.go:4031-4038 aheadIsYield. *)
Definition ahead_yield (k : N) (s : pst) : bool :=
  has k SPK_GENERATOR && (at_tok T_YIELD s || at_tok T_NAME s && bytes_eqb (text (peek s)) (bs "yield")).

(** ecma/parser/parser.go:4554-4573 checkCallee. *)
Fixpoint check_callee (k : N) (e : expr) : bool :=
  match e with
  | EArrow _ _ _ => has k SPK_PAREN
  | ELit _ t => negb (tv_eqb (t_val t) T_SUPER) || has k SPK_CTOR && has k SPK_CLASS_HAS_SUPER
  | EMember _ o _ _ _ => is_super_e o || check_callee k o
  | _ => true
  end.

(** ecma/parser/parser.go:4316-4332, in unaryExpr: the argument of delete. *)
Definition private_member (e : expr) : bool :=
  match e with EMember _ _ (EName _ _ true _) _ _ => true | _ => false end.
Definition check_delete (e : expr) : ares unit :=
  match e with
  | EMember _ _ _ _ _ => aguard (negb (private_member e))
  | EChain _ (EMember _ _ _ _ _ as m) => aguard (negb (private_member m))
  | EChain _ _ => APanic
  | _ => AOk tt
  end.
(** ecma/parser/parser.go:5590-5598, in memberExpr. *)
Definition super_private (e : expr) : bool :=
  match e with EMember _ o (EName _ _ true _) _ _ => is_super_e o | _ => false end.

(** ecma/parser/token.go:47-59 CanBePropKey. *)
Definition can_be_key (t : token) : bool := tv_eqb (t_val t) T_NAME || tv_eqb (t_val t) T_NUM || is_kw (t_val t).
(** ecma/parser/parser.go:5616-5661 the property of memberExprPropDot, with the private name not looked up. *)
Definition prop_dot (s : pst) : pres expr :=
  let t := peek s in
  if can_be_key t && negb (tv_eqb (t_val t) T_NUM) || tv_eqb (t_val t) T_NAME_PVT then
    POk (EName (fin (here s) (next s)) (text t) (tv_eqb (t_val t) T_NAME_PVT) (is_kw (t_val t))) (next s)
  else PErr.
(** ecma/parser/parser.go:4466-4470 in newExpr: new.target is allowed here. *)
Definition target_ok (k : N) : bool :=
  has k SPK_CLASS || has k SPK_CLASS_INDIRECT || has k SPK_ARROW && has k SPK_FUNC_INDIRECT ||
  negb (has k SPK_ARROW) && (has k SPK_FUNC || has k SPK_FUNC_INDIRECT).
(** ecma/parser/parser.go:3866-3877 elision. *)
Fixpoint elision (fuel : nat) (s : pst) : list (option expr) * pst :=
  match fuel with
  | O => ([], s)
  | S fuel => if at_tok T_COMMA s then let '(l, s') := elision fuel (next s) in (None :: l, s') else ([], peeked s)
  end.
Definition add_seq (r : rng) (args : list expr) : expr :=
  match args with [a] => EParen r a | _ => EParen r (ESeq (lo (hd (EOther r) args), hi (last args (EOther r))) args) end.

(** The functions of the parser with less fuel left, for the calls they make of one another. *)
Record calls := mk_calls {
  c_fuel : nat;
  c_seq : N -> pst -> pres expr;
  c_seq_loop : N -> nat -> list expr -> pst -> pres expr;
  c_assign : N -> bool -> pst -> pres expr;
  c_yield_expr : N -> pst -> pres expr;
  c_cond : N -> pst -> pres expr;
  c_unary : N -> pst -> pres expr;
  c_update : N -> pst -> pres expr;
  c_lhs : N -> pst -> pres expr;
  c_new_expr : N -> pst -> pres expr;
  c_new_loop : N -> expr -> bool -> option rng -> pst -> pres expr;
  c_call_expr : N -> option expr -> bool -> bool -> option rng -> pst -> pres (expr * option rng);
  c_call_loop : N -> nat -> expr -> bool -> bool -> option rng -> pst -> pres (expr * option rng);
  c_member_expr : N -> option expr -> bool -> bool -> option rng -> pst -> pres (expr * option rng);
  c_member_loop : N -> expr -> option rng -> pst -> pres (expr * option rng);
  c_subscript : N -> expr -> bool -> pst -> pres expr;
  c_arg_list : N -> bool -> bool -> pst -> pres (list expr * bool);
  c_arg_loop : N -> bool -> bool -> list expr -> bool -> pst -> pres (list expr * bool);
  c_spread : N -> pst -> pres expr;
  c_paren : N -> pst -> pres expr;
  c_arrow : N -> nat -> list expr -> pst -> pres expr;
  c_arr_lit : N -> nat -> list (option expr) -> pst -> pres expr;
  c_obj_lit : N -> nat -> list expr -> pst -> pres expr;
  c_obj_prop : N -> pst -> pres expr;
  c_tpl : N -> option expr -> pst -> pres expr;
  c_tpl_loop : N -> option expr -> nat -> list expr -> pst -> pres expr;
  c_primary : N -> pst -> pres expr }.

(** ecma/parser/parser.go:3989-4028 expr, seqExpr. *)
Definition seq_b (rc : calls) (k : N) (s : pst) : pres expr :=
  pbind (c_assign rc k true s) (fun e s1 =>
  alift (check_arg k text false true e) (fun _ =>
  if at_tok T_COMMA s1 then c_seq_loop rc k (lo e) [e] (peeked s1) else POk e (peeked s1))).
Definition seq_loop_b (rc : calls) (k : N) (l : nat) (acc : list expr) (s : pst) : pres expr :=
  if at_tok T_COMMA s then pbind (c_assign rc k true (next s)) (fun e s1 => c_seq_loop rc k l (acc ++ [e]) s1)
  else POk (ESeq (fin l s) acc) (peeked s).
(** ecma/parser/parser.go:4070-4138 assignExpr, with yieldExpr of 4041-4069. *)
Definition assign_b (rc : calls) (k : N) (check : bool) (s : pst) : pres expr :=
  if ahead_yield k s then c_yield_expr rc k (peeked s)
  else
    pbind (c_cond rc k (peeked s)) (fun l0 s1 =>
    pbind (if is_name_e l0 && at_tok T_ARROW s1 && negb (t_atl (peek s1))
           then alift (snd (args_to_params k feat (chk s1) text [l0])) (fun ps => c_arrow rc k (lo l0) ps (peeked s1))
           else POk l0 (peeked s1)) (fun l s2 =>
    if is_assign_op (pval s2) then
      pbind (c_assign rc k check (next s2)) (fun r s3 =>
      alift (snd (arg_to_param k feat (chk s3) text false false true l)) (fun l' =>
      if check && negb (is_simple k true true (negb (tv_eqb (pval s2) T_ASSIGN)) l') then PErr
      else
        alift (check_arg k text false false r) (fun _ =>
        POk (EAssign (fin (lo l0) s3) (pval s2) (t_lo (peek s2), t_hi (peek s2)) l' r) s3)))
    else POk l (peeked s2))).
Definition yield_expr_b (rc : calls) (k : N) (s : pst) : pres expr :=
  if has k SPK_FORMAL_PARAMS then PErr
  else
    let s1 := peeked (next s) in
    let t := peek s1 in
    if t_atl t || negb (tv_start_expr (t_val t) || has feat FEAT_JSX && tv_eqb (t_val t) T_LT) && negb (at_tok T_MUL s1)
    then POk (EYield (fin (here s) s1) false None) s1
    else
      let d := at_tok T_MUL s1 in
      pbind (c_assign rc k true (if d then next s1 else s1)) (fun e s2 =>
      POk (EYield (fin (here s) s2) d (Some e)) s2).
(** ecma/parser/parser.go:4197-4246 condExpr. *)
Definition cond_b (rc : calls) (k : N) (s : pst) : pres expr :=
  pbind (bin_expr (c_unary rc k) (fun _ => PErr) is_unary_e is_arrow_e feat false (has k SPK_NOT_IN) false (c_fuel rc) None s)
    (fun b s1 =>
  let t := of_bt b in
  if at_tok T_HOOK s1 then
    pbind (c_assign rc k true (next s1)) (fun c s2 =>
    pbind (must T_COLON s2) (fun _ s3 =>
    pbind (c_assign rc k true s3) (fun a s4 => POk (ECond (fin (lo t) s4) t c a) s4)))
  else POk t (peeked s1)).
(** ecma/parser/parser.go:4281-4357 unaryExpr, with awaitExpr of 4249-4279. *)
Definition unary_b (rc : calls) (k : N) (s : pst) : pres expr :=
  let t := peek s in
  if at_tok T_LT s then match other k (peeked s) with Some x => other_expr x | None => PErr end
  else if is_unary_op (t_val t) || at_tok T_ADD s || at_tok T_SUB s then
    pbind (c_unary rc k (next s)) (fun e s1 =>
    if is_arrow_e e then PErr
    else if has k SPK_STRICT && at_tok T_DELETE s && is_name_e e then PErr
    else
      alift (if at_tok T_DELETE s then check_delete e else AOk tt) (fun _ =>
      POk (EUnary (fin (t_lo t) s1) (t_val t) e) s1))
  else if at_tok T_AWAIT s then
    if negb (has feat FEAT_ASYNC_AWAIT) then PErr
    else
      let s1 := peeked (next s) in
      if negb (tv_start_expr (pval s1)) then
        if has feat FEAT_MODULE then PErr else POk (EName (fin (t_lo t) s1) (bs "await") false true) s1
      else if has k SPK_FORMAL_PARAMS || negb (has k SPK_ASYNC) then PErr
      else pbind (c_unary rc k s1) (fun e s2 => POk (EUnary (fin (t_lo t) s2) T_AWAIT e) s2)
  else c_update rc k (peeked s).
(** ecma/parser/parser.go:4360-4420 updateExpr. *)
Definition update_b (rc : calls) (k : N) (s : pst) : pres expr :=
  if at_tok T_INC s || at_tok T_DEC s then
    pbind (c_unary rc k (next s)) (fun e s1 =>
    if negb (is_simple k true true false e) then PErr
    else POk (EUpdate (fin (here s) s1) (pval s) true e) s1)
  else
    pbind (c_lhs rc k (peeked s)) (fun e s1 =>
    if negb (t_atl (peek s1)) && (at_tok T_INC s1 || at_tok T_DEC s1) then
      if negb (is_simple k true true false e) then PErr
      else POk (EUpdate (fin (here s) (next s1)) (pval s1) false e) (next s1)
    else POk e (peeked s1)).
(** ecma/parser/parser.go:4422-4442 lhs. *)
Definition lhs_b (rc : calls) (k : N) (s : pst) : pres expr :=
  pbind (if at_tok T_NEW s then c_new_expr rc k (peeked s)
         else pbind (c_call_expr rc k None true false None (peeked s)) (fun x s1 => POk (fst x) s1)) (fun e s1 =>
  if at_tok T_DOT s1 then pbind (c_call_expr rc k (Some e) true false None (peeked s1)) (fun x s2 => POk (fst x) s2)
  else POk e (peeked s1)).
(** ecma/parser/parser.go:4445-4551 newExpr. *)
Definition new_expr_b (rc : calls) (k : N) (s : pst) : pres expr :=
  let s1 := peeked (next s) in
  if at_tok T_DOT s1 && has feat FEAT_META_PROPERTY then
    let t := peek (next s1) in
    if negb (at_tok T_NAME (next s1) || between T_CTX_KEYWORD_BEGIN T_CTX_KEYWORD_END (t_val t)) then PErr
    else if prohibited k (text t) false || negb (bytes_eqb (text t) (bs "target")) || negb (target_ok k) then PErr
    else POk (EMeta (fin (here s) (next (next s1)))) (next (next s1))
  else
    pbind (c_member_expr rc k None false true None s1) (fun x s2 =>
    let '(c, o) := x in
    match o with
    | Some _ => PErr
    | None =>
        if at_tok T_PAREN_L s2 then
          pbind (c_arg_list rc k true true (peeked s2)) (fun a s3 =>
          pbind (match fst a with
                 | [] => if at_tok T_TPL_HEAD s3 then c_tpl rc k (Some c) (peeked s3) else POk c (peeked s3)
                 | _ :: _ => POk c s3
                 end) (fun c s4 => c_new_loop rc k (ENew (fin (here s) s4) c (fst a)) true None s4))
        else c_new_loop rc k (ENew (fin (here s) s2) c []) true None (peeked s2)
    end).
Definition new_loop_b (rc : calls) (k : N) (e : expr) (root : bool) (opt : option rng) (s : pst) : pres expr :=
  if at_tok T_PAREN_L s then
    pbind (c_call_expr rc k (Some e) root false None (peeked s)) (fun x s1 => c_new_loop rc k (fst x) false opt s1)
  else if at_tok T_BRACKET_L s || at_tok T_DOT s || at_tok T_OPT_CHAIN s then
    let opt := if at_tok T_OPT_CHAIN s then Some (t_lo (peek s), t_hi (peek s)) else opt in
    pbind (c_member_expr rc k (Some e) true root opt (peeked s)) (fun x s1 => c_new_loop rc k (fst x) false opt s1)
  else POk e (peeked s).
(** ecma/parser/parser.go:4606-4711 callExpr: the expression and where its first ?. is. *)
Definition call_expr_b (rc : calls) (k : N) (c : option expr) (root direct : bool) (opt : option rng) (s : pst) : pres (expr * option rng) :=
  match c with
  | None => pbind (c_primary rc k s) (fun e s1 => c_call_loop rc k (here s) e root direct opt s1)
  | Some e => c_call_loop rc k (lo e) e root direct opt s
  end.
Definition call_loop_b (rc : calls) (k : N) (l : nat) (c : expr) (root direct : bool) (opt : option rng) (s : pst) : pres (expr * option rng) :=
  if at_tok T_PAREN_L s then
    pbind (c_arg_list rc k true true (peeked s)) (fun a s1 =>
    if negb (check_callee k c) then PErr
    else c_call_loop rc k l (ECall (fin l s1) c (fst a) direct) root direct opt s1)
  else if at_tok T_BRACKET_L s || at_tok T_DOT s || at_tok T_OPT_CHAIN s then
    pbind (c_member_expr rc k (Some c) true root opt (peeked s)) (fun x s1 =>
    c_call_loop rc k l (fst x) root direct (match opt with None => snd x | _ => opt end) s1)
  else if at_tok T_TPL_HEAD s then
    pbind (c_tpl rc k (Some c) (peeked s)) (fun c s1 => c_call_loop rc k l c root direct opt s1)
  else
    match opt with
    | Some _ => if root && negb (is_name_e c) && negb (is_chain_e c) then POk (EChain (range c) c, opt) (peeked s)
                else POk (c, opt) (peeked s)
    | None => POk (c, opt) (peeked s)
    end.
(** ecma/parser/parser.go:5537-5612 memberExpr, memberExprObj, with memberExprPropSubscript of 5614-5630. *)
Definition member_expr_b (rc : calls) (k : N) (o : option expr) (call root : bool) (opt : option rng) (s : pst) : pres (expr * option rng) :=
  pbind (match o with
         | Some e => POk e s
         | None =>
             if at_tok T_NEW s then c_new_expr rc k (peeked s)
             else pbind (c_primary rc k (peeked s)) (fun e s1 =>
                  if at_tok T_TPL_HEAD s1 then c_tpl rc k (Some e) (peeked s1) else POk e (peeked s1))
         end) (fun e s1 =>
  pbind (c_member_loop rc k e opt s1) (fun x s2 =>
  let '(e, opt) := x in
  if super_private e then PErr
  else if call && at_tok T_PAREN_L s2 then c_call_expr rc k (Some e) root false opt (peeked s2)
  else
    match opt with
    | Some _ => if root && negb (is_name_e e) then POk (EChain (range e) e, opt) (peeked s2) else POk (e, opt) (peeked s2)
    | None => POk (e, opt) (peeked s2)
    end)).
Definition member_loop_b (rc : calls) (k : N) (e : expr) (opt : option rng) (s : pst) : pres (expr * option rng) :=
  if at_tok T_OPT_CHAIN s then
    let opt := match opt with None => Some (t_lo (peek s), t_hi (peek s)) | _ => opt end in
    let s1 := peeked (next s) in
    if at_tok T_BRACKET_L s1 then pbind (c_subscript rc k e true s1) (fun e s2 => c_member_loop rc k e opt s2)
    else if at_tok T_PAREN_L s1 then
      pbind (c_call_expr rc k (Some e) false true opt s1) (fun x s2 => c_member_loop rc k (fst x) opt s2)
    else pbind (prop_dot s1) (fun p s2 => c_member_loop rc k (EMember (fin (lo e) s2) e p false true) opt s2)
  else if at_tok T_BRACKET_L s then
    pbind (c_subscript rc k e false (peeked s)) (fun e s2 => c_member_loop rc k e opt s2)
  else if at_tok T_DOT s then
    pbind (prop_dot (next s)) (fun p s2 => c_member_loop rc k (EMember (fin (lo e) s2) e p false false) opt s2)
  else POk (e, opt) (peeked s).
Definition subscript_b (rc : calls) (k : N) (e : expr) (opt : bool) (s : pst) : pres expr :=
  pbind (c_seq rc k (next s)) (fun p s1 =>
  pbind (must T_BRACKET_R s1) (fun _ s2 => POk (EMember (fin (lo e) s2) e p true opt) s2)).
(** ecma/parser/parser.go:5339-5418 argList: the arguments, and whether a comma follows the last. *)
Definition arg_list_b (rc : calls) (k : N) (check incall : bool) (s : pst) : pres (list expr * bool) :=
  pbind (must T_PAREN_L s) (fun _ s1 => c_arg_loop rc k check incall [] false s1).
Definition arg_loop_b (rc : calls) (k : N) (check incall : bool) (acc : list expr) (trail : bool) (s : pst) : pres (list expr * bool) :=
  if at_tok T_PAREN_R s then POk (acc, trail) (next s)
  else if at_tok T_EOF s then PErr
  else
    pbind (if at_tok T_DOT_TRI s then c_spread rc k (peeked s) else c_assign rc k false (peeked s)) (fun a s1 =>
    pbind (if at_tok T_COMMA s1 then
             let s2 := peeked (next s1) in
             if negb incall && is_spread_e a then PErr else POk (trail || at_tok T_PAREN_R s2) s2
           else if at_tok T_PAREN_R s1 then POk trail (peeked s1) else PErr) (fun trail s2 =>
    alift (if check then check_arg k text true false a else AOk tt) (fun _ =>
    c_arg_loop rc k check incall (acc ++ [a]) trail s2))).
(** ecma/parser/parser.go:6015-6048 spread. *)
Definition spread_b (rc : calls) (k : N) (s : pst) : pres expr :=
  if negb (has feat FEAT_SPREAD) then PErr
  else pbind (c_assign rc k true (next s)) (fun e s1 =>
       POk (ESpread (fin (here s) s1) e (at_tok T_COMMA s1)) (peeked s1)).
(** ecma/parser/parser.go:5861-5954 parenExpr. *)
Definition paren_b (rc : calls) (k : N) (s : pst) : pres expr :=
  pbind (c_arg_list rc (paren_kind k) false false s) (fun a s1 =>
  let '(args, ps) := args_to_params k feat (chk s1) text (fst a) in
  match ps with
  | APanic => PPanic
  | _ =>
      if at_tok T_ARROW s1 && negb (t_atl (peek s1)) then alift ps (fun ps => c_arrow rc k (here s) ps (peeked s1))
      else if snd a then PErr
      else if match args with [] => true | _ => false end then PErr
      else alift (each (check_arg k text false true) args) (fun _ => POk (add_seq (fin (here s) s1) args) (peeked s1))
  end).
(** ecma/parser/parser.go:5788-5859 arrowFn, at the arrow. *)
Definition arrow_b (rc : calls) (k : N) (l : nat) (ps : list expr) (s : pst) : pres expr :=
  let s1 := peeked (next s) in
  pbind (if at_tok T_BRACE_L s1 then
           pbind (block (arrow_kind k) s1) (fun r s2 => if may_end (peek s2) then POk (EOther r) (peeked s2) else PErr)
         else c_assign rc (if has k SPK_NOT_IN then N.lor (arrow_kind k) SPK_NOT_IN else arrow_kind k) true s1) (fun b s2 =>
  if params_ok (arrow_kind k) ps s2 then POk (EArrow (fin l s2) ps b) s2 else PErr).
(** ecma/parser/parser.go:5972-6013 arrLit, arrElem. *)
Definition arr_lit_b (rc : calls) (k : N) (l : nat) (acc : list (option expr)) (s : pst) : pres expr :=
  let '(holes, s0) := elision (S (length (p_toks s))) s in
  let acc := acc ++ holes in
  if at_tok T_BRACKET_R s0 then POk (EArr (fin l (next s0)) acc) (next s0)
  else
    pbind (if at_tok T_DOT_TRI s0 then c_spread rc k (peeked s0) else c_assign rc k true (peeked s0)) (fun e s1 =>
    if at_tok T_COMMA s1 then c_arr_lit rc k l (acc ++ [Some e]) (next s1)
    else if at_tok T_BRACKET_R s1 then POk (EArr (fin l (next s1)) (acc ++ [Some e])) (next s1)
    else PErr).
(** ecma/parser/parser.go:6051-6083 objLit. *)
Definition obj_lit_b (rc : calls) (k : N) (l : nat) (acc : list expr) (s : pst) : pres expr :=
  if at_tok T_BRACE_R s then POk (EObj (fin l (next s)) acc) (next s)
  else
    pbind (c_obj_prop rc k (peeked s)) (fun e s1 =>
    if at_tok T_COMMA s1 then c_obj_lit rc k l (acc ++ [e]) (next s1)
    else if at_tok T_BRACE_R s1 then POk (EObj (fin l (next s1)) (acc ++ [e])) (next s1)
    else PErr).
(** ecma/parser/parser.go:6085-6144 objProp, propData and 3755-3807 propName. *)
Definition obj_prop_b (rc : calls) (k : N) (s : pst) : pres expr :=
  if at_tok T_DOT_TRI s then c_spread rc k (peeked s)
  else
    match method k s with
    | Some x => method_expr x
    | None =>
        let t := peek s in
        let l := t_lo t in
        pbind (if at_tok T_STRING s then
                 if has k SPK_STRICT && match t_ext t with XStr _ b => b | _ => false end then PErr
                 else POk (ELit (fin l (next s)) t, false) (next s)
               else if at_tok T_NUM s then POk (ELit (fin l (next s)) t, false) (next s)
               else if at_tok T_BRACKET_L s then
                 pbind (c_assign rc (N.lor k SPK_PROP_NAME) true (next s)) (fun e s1 =>
                 pbind (must T_BRACKET_R s1) (fun _ s2 => POk (e, true) s2))
               else if can_be_key t then
                 if negb (has k SPK_STRICT) && has k SPK_LEXICAL_DEC && negb (contains_escape t) &&
                    (bytes_eqb (text t) (bs "let") || bytes_eqb (text t) (bs "const")) then PErr
                 else POk (EName (fin l (next s)) (text t) false (is_kw (t_val t) || prohibited k (text t) false), false) (next s)
               else PErr) (fun x s1 =>
        let '(key, computed) := x in
        if at_tok T_COLON s1 || at_tok T_ASSIGN s1 then
          pbind (c_assign rc k true (next s1)) (fun v s2 =>
          POk (EProp (fin l s2) key (Some v) computed (at_tok T_ASSIGN s1) (at_tok T_ASSIGN s1)) s2)
        else if at_tok T_PAREN_L s1 || computed then PErr
        else
          match key with
          | EName _ n _ kw =>
              if kw && negb (bytes_eqb n (bs "eval")) && negb (bytes_eqb n (bs "arguments")) then PErr
              else POk (EProp (fin l s1) key (Some key) computed true false) (peeked s1)
          | _ => POk (EProp (fin l s1) key None computed false false) (peeked s1)
          end)
    end.
(** ecma/parser/parser.go:4776-4832 tplExpr. *)
Definition tpl_b (rc : calls) (k : N) (tag : option expr) (s : pst) : pres expr :=
  if match tag with Some e => is_chain_e e | None => false end then PErr
  else c_tpl_loop rc k tag (t_lo (peek s)) [] s.
Definition tpl_loop_b (rc : calls) (k : N) (tag : option expr) (l : nat) (acc : list expr) (s : pst) : pres expr :=
  let t := peek s in
  if at_tok T_TPL_HEAD s || at_tok T_TPL_SPAN s || at_tok T_TPL_TAIL s then
    match t_ext t with
    | XTpl _ a b plain bad =>
        if match bad with Some _ => match tag with None => true | _ => negb (has feat FEAT_BAD_ESCAPE_IN_TAGGED_TPL) end
           | None => false end then PErr
        else
          let acc := acc ++ [ELit (a, b) t] in
          if at_tok T_TPL_TAIL s || at_tok T_TPL_HEAD s && plain then POk (ETpl (fin l (next s)) tag acc) (next s)
          else pbind (c_seq rc k (next s)) (fun e s1 => c_tpl_loop rc k tag l (acc ++ [e]) (peeked s1))
    | _ => PPanic
    end
  else PErr.
(** ecma/parser/parser.go:5663-5786 primaryExpr, with 2829-2835 of fnDec: a call of a function on the spot. *)
Definition fn_word (s : pst) : bool :=
  at_tok T_FUNC s || is_name (peek s) (bs "async") true && at_tok T_FUNC (next s).
Definition primary_b (rc : calls) (k : N) (s : pst) : pres expr :=
  match other k s with
  | Some x =>
      pbind (other_expr x) (fun e s1 =>
      if fn_word s && at_tok T_PAREN_L s1
      then pbind (c_call_expr rc k (Some e) true false None (peeked s1)) (fun x s2 => POk (fst x) s2) else POk e s1)
  | None =>
      let t := peek s in
      let l := t_lo t in
      match t_val t with
      | T_NUM | T_NULL | T_TRUE | T_FALSE | T_THIS | T_REGEXP => POk (ELit (fin l (next s)) t) (next s)
      | T_STRING =>
          if has k SPK_STRICT && match t_ext t with XStr _ b => b | _ => false end then PErr
          else POk (ELit (fin l (next s)) t) (next s)
      | T_NAME =>
          let s1 := peeked (next s) in
          if chk s && negb (at_tok T_ARROW s1) && negb (t_atl (peek s1)) && prohibited k (text t) false then PErr
          else POk (EName (fin l s1) (text t) false (prohibited k (text t) false)) s1
      | T_PAREN_L => c_paren rc k s
      | T_BRACKET_L => c_arr_lit rc k (here s) [] (next s)
      | T_BRACE_L => c_obj_lit rc k (here s) [] (next s)
      | T_SUPER =>
          let s1 := peeked (next s) in
          if negb (has k SPK_CLASS) && negb (has k SPK_CLASS_INDIRECT) && negb (has k SPK_METHOD) || has k SPK_PROP_NAME
          then PErr
          else if negb (at_tok T_DOT s1) && negb (at_tok T_PAREN_L s1) then PErr
          else POk (ELit (fin l s1) t) s1
      | T_TPL_HEAD => c_tpl rc k None s
      | _ => PErr
      end
  end.
(** The recursion: every call spends fuel. *)
Fixpoint calls_at (fuel : nat) : calls :=
  match fuel with
  | O =>
      mk_calls 0
        (fun _ _ => PFuel)
        (fun _ _ _ _ => PFuel)
        (fun _ _ _ => PFuel)
        (fun _ _ => PFuel)
        (fun _ _ => PFuel)
        (fun _ _ => PFuel)
        (fun _ _ => PFuel)
        (fun _ _ => PFuel)
        (fun _ _ => PFuel)
        (fun _ _ _ _ _ => PFuel)
        (fun _ _ _ _ _ _ => PFuel)
        (fun _ _ _ _ _ _ _ => PFuel)
        (fun _ _ _ _ _ _ => PFuel)
        (fun _ _ _ _ => PFuel)
        (fun _ _ _ _ => PFuel)
        (fun _ _ _ _ => PFuel)
        (fun _ _ _ _ _ _ => PFuel)
        (fun _ _ => PFuel)
        (fun _ _ => PFuel)
        (fun _ _ _ _ => PFuel)
        (fun _ _ _ _ => PFuel)
        (fun _ _ _ _ => PFuel)
        (fun _ _ => PFuel)
        (fun _ _ _ => PFuel)
        (fun _ _ _ _ _ => PFuel)
        (fun _ _ => PFuel)
  | S fuel =>
      let c := calls_at fuel in
      mk_calls (S fuel) (seq_b c) (seq_loop_b c) (assign_b c) (yield_expr_b c) (cond_b c) (unary_b c) (update_b c) (lhs_b c) (new_expr_b c) (new_loop_b c) (call_expr_b c) (call_loop_b c) (member_expr_b c) (member_loop_b c) (subscript_b c) (arg_list_b c) (arg_loop_b c) (spread_b c) (paren_b c) (arrow_b c) (arr_lit_b c) (obj_lit_b c) (obj_prop_b c) (tpl_b c) (tpl_loop_b c) (primary_b c)
  end.
Definition seq (fuel : nat) := c_seq (calls_at fuel).
Definition seq_loop (fuel : nat) := c_seq_loop (calls_at fuel).
Definition assign (fuel : nat) := c_assign (calls_at fuel).
Definition yield_expr (fuel : nat) := c_yield_expr (calls_at fuel).
Definition cond (fuel : nat) := c_cond (calls_at fuel).
Definition unary (fuel : nat) := c_unary (calls_at fuel).
Definition update (fuel : nat) := c_update (calls_at fuel).
Definition lhs (fuel : nat) := c_lhs (calls_at fuel).
Definition new_expr (fuel : nat) := c_new_expr (calls_at fuel).
Definition new_loop (fuel : nat) := c_new_loop (calls_at fuel).
Definition call_expr (fuel : nat) := c_call_expr (calls_at fuel).
Definition call_loop (fuel : nat) := c_call_loop (calls_at fuel).
Definition member_expr (fuel : nat) := c_member_expr (calls_at fuel).
Definition member_loop (fuel : nat) := c_member_loop (calls_at fuel).
Definition subscript (fuel : nat) := c_subscript (calls_at fuel).
Definition arg_list (fuel : nat) := c_arg_list (calls_at fuel).
Definition arg_loop (fuel : nat) := c_arg_loop (calls_at fuel).
Definition spread (fuel : nat) := c_spread (calls_at fuel).
Definition paren (fuel : nat) := c_paren (calls_at fuel).
Definition arrow (fuel : nat) := c_arrow (calls_at fuel).
Definition arr_lit (fuel : nat) := c_arr_lit (calls_at fuel).
Definition obj_lit (fuel : nat) := c_obj_lit (calls_at fuel).
Definition obj_prop (fuel : nat) := c_obj_prop (calls_at fuel).
Definition tpl (fuel : nat) := c_tpl (calls_at fuel).
Definition tpl_loop (fuel : nat) := c_tpl_loop (calls_at fuel).
Definition primary (fuel : nat) := c_primary (calls_at fuel).
End Expr.
