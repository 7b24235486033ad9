(** How an expression is spelled: which tokens a tree stands for, and where its nodes begin and end.  The
    grammar is that of ECMA-262 13 and 15.3, with what the parser allows beyond it marked. *)
From Verif Require Import Base TokenModel LexModel ParseBase BinSpec ExprModel.

Definition first_lo (ts : list token) : nat := match ts with t :: _ => t_lo t | [] => 0 end.
Definition last_hi (ts : list token) : nat := match rev ts with t :: _ => t_hi t | [] => 0 end.
Definition place (t : token) : rng := (t_lo t, t_hi t).

(** Literals, prefix operators, binary operators, the word yield. *)
Definition literal (v : tv) : Prop := In v [T_NUM; T_STRING; T_NULL; T_TRUE; T_FALSE; T_THIS; T_REGEXP; T_SUPER].
Definition prefix_op (v : tv) : Prop :=
  In v [T_NOT; T_BIT_NOT; T_ADD; T_SUB; T_TYPE_OF; T_VOID; T_DELETE; T_AWAIT].
Definition assign_op (v : tv) : Prop :=
  In v [T_ASSIGN; T_ASSIGN_ADD; T_ASSIGN_SUB; T_ASSIGN_MUL; T_ASSIGN_DIV; T_ASSIGN_MOD; T_ASSIGN_POW;
        T_ASSIGN_BIT_LSH; T_ASSIGN_BIT_RSH; T_ASSIGN_BIT_RSH_U; T_ASSIGN_BIT_AND; T_ASSIGN_BIT_OR; T_ASSIGN_BIT_XOR;
        T_ASSIGN_AND; T_ASSIGN_OR; T_ASSIGN_NULLISH].
Definition binary_op (o : token) (op : tv) : Prop :=
  (exists n right, at_level op n right) /\ (op = t_val o \/ op = T_IN /\ t_val o = T_NAME /\ t_text o = bs "in").
Definition property_name (t : token) : Prop := can_be_key t = true /\ t_val t <> T_NUM \/ t_val t = T_NAME_PVT.

(** The words new and function, and async before function. *)
Definition leads (t : token) : Prop := In (t_val t) [T_NEW; T_FUNC] \/ t_val t = T_NAME /\ t_text t = bs "async".

(** A piece of a template is its last one, or an expression follows. *)
Definition quasi_ends (t : token) (plain : bool) : Prop := t_val t = T_TPL_TAIL \/ t_val t = T_TPL_HEAD /\ plain = true.
Definition quasi_goes (t : token) (plain : bool) : Prop := t_val t = T_TPL_SPAN \/ t_val t = T_TPL_HEAD /\ plain = false.

(** Targets of assignments. *)
Definition is_target (e : expr) : bool :=
  match e with EName _ _ _ _ | EMember _ _ _ _ _ | PArr _ _ | PObj _ _ => true | _ => false end.
(** The operand of ++ and --.  ECMA-262 only allows names and members; the parser also arrays and objects. *)
Fixpoint updatable (e : expr) : bool :=
  match e with
  | EName _ _ _ _ | EMember _ _ _ _ _ | EArr _ _ | EObj _ _ | PArr _ _ | PObj _ _ => true
  | EParen _ e => updatable e
  | _ => false
  end.

(** The levels of the grammar: 0 Expression, 1 AssignmentExpression, 2 ConditionalExpression, 3 binary operators
    (see BinSpec for their levels), 4 UnaryExpression, 5 UpdateExpression, 6 NewExpression and OptionalExpression,
    7 CallExpression, 8 MemberExpression, 9 PrimaryExpression; 10 is an optional chain that may go on. *)
Definition member_level (n : nat) : nat := match n with 7 => 7 | 10 => 10 | _ => 8 end.

(** The tokens [ts] are read between two states. *)
Definition read (s : pst) (ts : list token) (s' : pst) : Prop :=
  p_toks s = ts ++ p_toks s' /\ (ts = [] -> p_prev s' = p_prev s) /\ (ts <> [] -> p_end s' = last_hi ts).

(** Where the expressions begin that [e] begins with. *)
Fixpoint lefts (e : expr) : list nat :=
  lo e :: match e with
          | EMember _ o _ _ _ => lefts o
          | ECall _ c _ _ => lefts c
          | ETpl _ (Some c) _ => lefts c
          | EChain _ e => lefts e
          | _ => []
          end.

(** What is not modelled begins with its first token and ends with its last. *)
Definition framed (P : rng -> list token -> Prop) : Prop :=
  forall r ts, P r ts -> ts <> [] /\ r = (first_lo ts, last_hi ts).

(** Tokens from [a] to [b] in source order, with the strings of templates inside their tokens. *)
Fixpoint span (a b : nat) (ts : list token) : Prop :=
  match ts with
  | [] => a <= b
  | t :: ts => a <= t_lo t /\ t_lo t <= t_hi t /\
      match t_ext t with XTpl _ x y _ _ => t_lo t <= x <= y /\ y <= t_hi t | _ => True end /\ span (t_hi t) b ts
  end.
Definition ordered (ts : list token) : Prop := exists a b, span a b ts.

(** The children of a node in source order.  A template's tag is listed apart; a property written {a} or {a = b}
    has its name as key and as, or in, its value. *)
Definition kids (e : expr) : list expr :=
  match e with
  | ELit _ _ | EName _ _ _ _ | EMethod _ | EMeta _ | EOther _ => []
  | EParen _ e | ESpread _ e _ | EUnary _ _ e | EUpdate _ _ _ e | EChain _ e | PRest _ e => [e]
  | EArr _ es | PArr _ es => concat (map (fun o => match o with Some e => [e] | None => [] end) es)
  | EObj _ ps | PObj _ ps => ps
  | EProp _ key None _ _ _ => [key]
  | EProp _ key (Some v) _ shorthand assign =>
      if shorthand then if assign then match v with PAssign _ _ _ => [v] | _ => [key; v] end else [key] else [key; v]
  | ESeq _ es => es
  | EBin _ _ _ l h | EAssign _ _ _ l h | PAssign _ l h => [l; h]
  | ECond _ t c a => [t; c; a]
  | EYield _ _ None => []
  | EYield _ _ (Some e) => [e]
  | EMember _ o p _ _ => [o; p]
  | ECall _ c args _ | ENew _ c args => c :: args
  | ETpl _ _ es => es
  | EArrow _ ps b => ps ++ [b]
  end.
Definition tags (e : expr) : list expr := match e with ETpl _ (Some c) _ => [c] | _ => [] end.
(** Nodes from [a] to [b] in source order that do not overlap. *)
Fixpoint row (a b : nat) (es : list expr) : Prop :=
  match es with [] => a <= b | e :: es => a <= lo e /\ lo e <= hi e /\ row (hi e) b es end.
Definition string_of_template (e : expr) : Prop :=
  match e with ELit _ t => match t_ext t with XTpl _ _ _ _ _ => True | _ => False end | _ => False end.
(** The ranges of a tree nest, and begin and end [At] certain places. *)
Inductive nested (At : nat -> Prop) : expr -> Prop :=
| Nested e : row (lo e) (hi e) (kids e) -> Forall (fun c => lo c <= hi c <= lo e) (tags e) ->
    At (lo e) /\ At (hi e) \/ string_of_template e ->
    Forall (nested At) (kids e) -> Forall (nested At) (tags e) -> nested At e.

(** Every node of a tree. *)
Inductive every (P : expr -> Prop) : expr -> Prop :=
| Every e : P e -> Forall (every P) (kids e) -> Forall (every P) (tags e) -> every P e.
(** A target with or without default, also after dots; a property of a pattern: one written {a = b} need not
    have a name before its =, the parser also takes {[a] = b}. *)
Definition target_part (e : expr) : bool :=
  match e with PAssign _ l _ | PRest _ l => is_target l | e => is_target e end.
Definition target_prop (e : expr) : bool :=
  match e with
  | PRest _ e => is_target e
  | EProp _ _ (Some v) _ _ assign => assign || target_part v
  | _ => false
  end.
(** What is assigned to can be. *)
Definition assignable (e : expr) : Prop :=
  match e with
  | EAssign _ _ _ l _ => is_target l = true
  | EUpdate _ _ _ e => updatable e = true
  | PArr _ es => Forall (fun x => match x with Some e => target_part e = true | None => True end) es
  | PObj _ ps => Forall (fun p => target_prop p = true) ps
  | EArrow _ ps _ => Forall (fun p => target_part p = true) ps
  | _ => True
  end.

Section Spell.
(** What names stand for; what the parts that are not modelled look like: functions, classes and JSX elements,
    methods of objects, blocks; [lax] allows one misreading, see [S_new_tpl]. *)
Variables (text : token -> bytes) (Other Method Block : rng -> list token -> Prop) (lax : Prop).

Definition yield_word (y : token) : Prop := t_val y = T_YIELD \/ t_val y = T_NAME /\ text y = bs "yield".

(** [spell g n e ts]: the tokens [ts] read as [e], an expression of level [n].  With [g], names may be in
    parentheses that the tree does not show, as targets of an assignment are. *)
Inductive spell : bool -> nat -> expr -> list token -> Prop :=
| S_lit g t : literal (t_val t) -> spell g 9 (ELit (place t) t) [t]
| S_name g t kw : t_val t = T_NAME -> spell g 9 (EName (place t) (text t) false kw) [t]
| S_await_name g t kw : t_val t = T_AWAIT -> spell g 9 (EName (place t) (bs "await") false kw) [t]
| S_drop l n r x p kw ts h : t_val l = T_PAREN_L -> t_val h = T_PAREN_R ->
    spell true n (EName r x p kw) ts -> spell true 9 (EName r x p kw) (l :: ts ++ [h])
| S_paren g l n e ts h : t_val l = T_PAREN_L -> t_val h = T_PAREN_R ->
    spell false n e ts -> n <= 9 -> spell g 9 (EParen (t_lo l, t_hi h) e) (l :: ts ++ [h])
| S_arr g l es ts h : t_val l = T_BRACKET_L -> t_val h = T_BRACKET_R ->
    elems g es ts -> spell g 9 (EArr (t_lo l, t_hi h) es) (l :: ts ++ [h])
| S_parr g l es ts h : t_val l = T_BRACKET_L -> t_val h = T_BRACKET_R ->
    pelems es ts -> spell g 9 (PArr (t_lo l, t_hi h) es) (l :: ts ++ [h])
| S_obj g l ps ts h : t_val l = T_BRACE_L -> t_val h = T_BRACE_R ->
    props g ps ts -> spell g 9 (EObj (t_lo l, t_hi h) ps) (l :: ts ++ [h])
| S_pobj g l ps ts h : t_val l = T_BRACE_L -> t_val h = T_BRACE_R ->
    pprops ps ts -> spell g 9 (PObj (t_lo l, t_hi h) ps) (l :: ts ++ [h])
| S_seq g es ts : commas es ts -> 2 <= length es ->
    spell g 0 (ESeq (lo (hd (EOther (0, 0)) es), last_hi ts) es) ts
| S_bin g n l lts op o m h hts : binary_op o op ->
    spell false n l lts -> 3 <= n <= 9 -> spell false m h hts -> 3 <= m <= 9 ->
    spell g 3 (EBin (lo l, last_hi hts) op (place o) l h) (lts ++ o :: hts)
| S_unary g o n e ts : prefix_op (t_val o) ->
    spell false n e ts -> 4 <= n <= 9 -> spell g 4 (EUnary (t_lo o, last_hi ts) (t_val o) e) (o :: ts)
| S_prefix g o n e ts : t_val o = T_INC \/ t_val o = T_DEC -> updatable e = true ->
    spell false n e ts -> 4 <= n <= 9 -> spell g 5 (EUpdate (t_lo o, last_hi ts) (t_val o) true e) (o :: ts)
| S_postfix g o n e ts : t_val o = T_INC \/ t_val o = T_DEC -> t_atl o = false -> updatable e = true ->
    spell false n e ts -> 6 <= n <= 9 -> spell g 5 (EUpdate (first_lo ts, t_hi o) (t_val o) false e) (ts ++ [o])
| S_cond g nt t tts q nc c cts n na a ats : t_val q = T_HOOK -> t_val n = T_COLON ->
    spell false nt t tts -> 3 <= nt <= 9 -> spell false nc c cts -> 1 <= nc <= 9 -> spell false na a ats -> 1 <= na <= 9 ->
    spell g 2 (ECond (lo t, last_hi ats) t c a) (tts ++ q :: cts ++ n :: ats)
| S_assign g n l lts o m h hts x : assign_op (t_val o) -> is_target l = true ->
    spell true n l lts -> n <= 9 -> spell false m h hts -> 1 <= m <= 9 -> x = first_lo lts \/ x = lo l ->
    spell g 1 (EAssign (x, last_hi hts) (t_val o) (place o) l h) (lts ++ o :: hts)
| S_yield g y : yield_word y -> spell g 1 (EYield (place y) false None) [y]
| S_yield_arg g y n e ts : yield_word y -> spell false n e ts -> 1 <= n <= 9 -> t_atl (hd y ts) = false ->
    spell g 1 (EYield (t_lo y, last_hi ts) false (Some e)) (y :: ts)
| S_yield_all g y m n e ts : yield_word y -> t_val m = T_MUL -> t_atl m = false ->
    spell false n e ts -> 1 <= n <= 9 -> spell g 1 (EYield (t_lo y, last_hi ts) true (Some e)) (y :: m :: ts)
| S_dot g n o ots d p kw : t_val d = T_DOT -> property_name p ->
    spell false n o ots -> 7 <= n ->
    spell g (member_level n)
      (EMember (lo o, t_hi p) o (EName (t_hi d, t_hi p) (text p) (tv_eqb (t_val p) T_NAME_PVT) kw) false false)
      (ots ++ [d; p])
| S_opt_dot g n o ots d p kw : t_val d = T_OPT_CHAIN -> property_name p ->
    spell false n o ots -> 7 <= n ->
    spell g 10 (EMember (lo o, t_hi p) o (EName (place p) (text p) (tv_eqb (t_val p) T_NAME_PVT) kw) false true)
      (ots ++ [d; p])
| S_sub g n o ots l m p pts h : t_val l = T_BRACKET_L -> t_val h = T_BRACKET_R ->
    spell false n o ots -> 7 <= n -> spell false m p pts -> m <= 9 ->
    spell g (member_level n) (EMember (lo o, t_hi h) o p true false) (ots ++ l :: pts ++ [h])
| S_opt_sub g n o ots d l m p pts h : t_val d = T_OPT_CHAIN -> t_val l = T_BRACKET_L -> t_val h = T_BRACKET_R ->
    spell false n o ots -> 7 <= n -> spell false m p pts -> m <= 9 ->
    spell g 10 (EMember (lo o, t_hi h) o p true true) (ots ++ d :: l :: pts ++ [h])
(** not settled by the tokens: whether a call is marked optional, see C39_optional_refuted *)
| S_call g n c cts l args ats h x opt : t_val l = T_PAREN_L -> t_val h = T_PAREN_R ->
    spell false n c cts -> 7 <= n -> args_of args ats -> x = first_lo cts \/ In x (lefts c) -> (ordered cts -> x <= lo c) -> n < 10 -> opt = false ->
    spell g 7 (ECall (x, t_hi h) c args opt) (cts ++ l :: ats ++ [h])
| S_chain_call g c cts l args ats h x opt : t_val l = T_PAREN_L -> t_val h = T_PAREN_R ->
    spell false 10 c cts -> args_of args ats -> x = first_lo cts \/ In x (lefts c) -> (ordered cts -> x <= lo c) ->
    spell g 10 (ECall (x, t_hi h) c args opt) (cts ++ l :: ats ++ [h])
| S_opt_call g n c cts d l args ats h x : t_val d = T_OPT_CHAIN -> t_val l = T_PAREN_L -> t_val h = T_PAREN_R ->
    spell false n c cts -> 7 <= n -> args_of args ats -> x = first_lo cts \/ In x (lefts c) -> (ordered cts -> x <= lo c) ->
    spell g 10 (ECall (x, t_hi h) c args true) (cts ++ d :: l :: ats ++ [h])
(** the operand of new is a MemberExpression; one that itself begins with new or with a function may be any expression
    of level 6, see C39_nested_new_refuted and C39_new_function_refuted *)
| S_new g n m c cts : t_val n = T_NEW -> spell false m c cts -> 8 <= m <= 9 \/ 6 <= m <= 9 /\ leads (hd n cts) ->
    spell g 6 (ENew (t_lo n, last_hi cts) c []) (n :: cts)
| S_new_args g n m c cts l args ats h : t_val n = T_NEW -> t_val l = T_PAREN_L -> t_val h = T_PAREN_R ->
    spell false m c cts -> 8 <= m <= 9 \/ 6 <= m <= 9 /\ leads (hd n cts) -> args_of args ats ->
    spell g 8 (ENew (t_lo n, t_hi h) c args) (n :: cts ++ l :: ats ++ [h])
(** the misreading of [new c()`x`] as [new (c`x`)()] *)
| S_new_tpl g n m c cts l h es tts : lax -> t_val n = T_NEW -> t_val l = T_PAREN_L -> t_val h = T_PAREN_R ->
    t_val (hd n tts) = T_TPL_HEAD ->
    spell false m c cts -> 8 <= m <= 9 \/ 6 <= m <= 9 /\ leads (hd n cts) -> quasis es tts ->
    spell g 8 (ENew (t_lo n, last_hi tts) (ETpl (first_lo tts, last_hi tts) (Some c) es) []) (n :: cts ++ l :: h :: tts)
| S_meta g n d t : t_val n = T_NEW -> t_val d = T_DOT -> text t = bs "target" ->
    spell g 9 (EMeta (t_lo n, t_hi t)) [n; d; t]
| S_chain g e ts : spell false 10 e ts -> spell g 6 (EChain (range e) e) ts
| S_tpl g es ts : quasis es ts -> spell g 9 (ETpl (first_lo ts, last_hi ts) None es) ts
| S_tagged g n c cts es ts : t_val (hd (eof_tok 0) ts) = T_TPL_HEAD -> spell false n c cts -> 7 <= n -> quasis es ts ->
    spell g (member_level n) (ETpl (first_lo ts, last_hi ts) (Some c) es) (cts ++ ts)
(** an arrow function is an AssignmentExpression; the parser also takes it as operand, see C39_arrow_refuted *)
| S_arrow1 g p t a b bts n : spell false 9 p [t] -> is_name_e p = true -> t_val a = T_ARROW -> t_atl a = false ->
    body b bts -> n = 1 -> spell g n (EArrow (t_lo t, last_hi bts) [p] b) (t :: a :: bts)
| S_arrow g l ps ts h a b bts n : t_val l = T_PAREN_L -> t_val h = T_PAREN_R -> t_val a = T_ARROW -> t_atl a = false ->
    params_of ps ts -> body b bts -> n = 1 \/ n = 9 ->
    spell g n (EArrow (t_lo l, last_hi bts) ps b) (l :: ts ++ h :: a :: bts)
| S_other g r ts : Other r ts -> spell g 9 (EOther r) ts
(** an element of an array or argument of a call *)
with item : bool -> expr -> list token -> Prop :=
| I_one g n e ts : spell g n e ts -> 1 <= n <= 9 -> item g e ts
| I_spread g d n e ts comma : t_val d = T_DOT_TRI -> spell g n e ts -> 1 <= n <= 9 ->
    item g (ESpread (t_lo d, last_hi ts) e comma) (d :: ts)
(** a target with or without default; an element of an array pattern or parameter *)
with part : expr -> list token -> Prop :=
| R_one n e ts : spell true n e ts -> n <= 9 -> is_target e = true -> part e ts
| R_default n l lts o m h hts x : t_val o = T_ASSIGN -> is_target l = true ->
    spell true n l lts -> n <= 9 -> spell false m h hts -> 1 <= m <= 9 -> x = first_lo lts \/ x = lo l ->
    part (PAssign (x, last_hi hts) l h) (lts ++ o :: hts)
with param : expr -> list token -> Prop :=
| M_part e ts : part e ts -> param e ts
| M_rest d n e ts : t_val d = T_DOT_TRI -> spell true n e ts -> n <= 9 -> is_target e = true ->
    param (PRest (t_lo d, last_hi ts) e) (d :: ts)
(** the elements of an array between its brackets *)
with elems : bool -> list (option expr) -> list token -> Prop :=
| L_nil g : elems g [] []
| L_hole g c l ts : t_val c = T_COMMA -> elems g l ts -> elems g (None :: l) (c :: ts)
| L_last g e ts : item g e ts -> elems g [Some e] ts
| L_more g e ts c l ts' : t_val c = T_COMMA -> item g e ts -> elems g l ts' -> elems g (Some e :: l) (ts ++ c :: ts')
with pelems : list (option expr) -> list token -> Prop :=
| PL_nil : pelems [] []
| PL_hole c l ts : t_val c = T_COMMA -> pelems l ts -> pelems (None :: l) (c :: ts)
| PL_last e ts : param e ts -> pelems [Some e] ts
| PL_more e ts c l ts' : t_val c = T_COMMA -> param e ts -> pelems l ts' -> pelems (Some e :: l) (ts ++ c :: ts')
(** arguments and parameters between their parentheses *)
with args_of : list expr -> list token -> Prop :=
| A_nil : args_of [] []
| A_last e ts : item false e ts -> args_of [e] ts
| A_more e ts c l ts' : t_val c = T_COMMA -> item false e ts -> args_of l ts' -> args_of (e :: l) (ts ++ c :: ts')
with params_of : list expr -> list token -> Prop :=
| PA_nil : params_of [] []
| PA_last e ts : param e ts -> params_of [e] ts
| PA_more e ts c l ts' : t_val c = T_COMMA -> param e ts -> params_of l ts' -> params_of (e :: l) (ts ++ c :: ts')
(** expressions with commas in between *)
with commas : list expr -> list token -> Prop :=
| C_one n e ts : spell false n e ts -> 1 <= n <= 9 -> commas [e] ts
| C_more n e ts c l ts' : t_val c = T_COMMA -> spell false n e ts -> 1 <= n <= 9 -> commas l ts' -> commas (e :: l) (ts ++ c :: ts')
(** the properties of an object between its braces *)
with props : bool -> list expr -> list token -> Prop :=
| P_nil g : props g [] []
| P_last g p ts : prop_of g p ts -> props g [p] ts
| P_more g p ts c l ts' : t_val c = T_COMMA -> prop_of g p ts -> props g l ts' -> props g (p :: l) (ts ++ c :: ts')
with prop_of : bool -> expr -> list token -> Prop :=
| P_spread g d n e ts comma : t_val d = T_DOT_TRI -> spell g n e ts -> 1 <= n <= 9 ->
    prop_of g (ESpread (t_lo d, last_hi ts) e comma) (d :: ts)
| P_method g r ts : Method r ts -> prop_of g (EMethod r) ts
| P_value g key computed kts c n v vts : t_val c = T_COLON -> key_of g key computed kts -> spell g n v vts -> 1 <= n <= 9 ->
    prop_of g (EProp (first_lo kts, last_hi vts) key (Some v) computed false false) (kts ++ c :: vts)
(** patterns as values of an expression, left behind by the parser: C39_pattern_refuted *)
| P_pvalue g key computed kts c v vts : t_val c = T_COLON -> key_of g key computed kts -> part v vts ->
    prop_of g (EProp (first_lo kts, last_hi vts) key (Some v) computed false false) (kts ++ c :: vts)
| P_short g key kts : key_of g key false kts -> is_name_e key = true ->
    prop_of g (EProp (first_lo kts, last_hi kts) key (Some key) false true false) kts
(** a lone literal is no property, but the parser takes it as one: C39_lone_refuted *)
| P_lone g key kts : key_of g key false kts -> is_name_e key = false ->
    prop_of g (EProp (first_lo kts, last_hi kts) key None false false false) kts
| P_init g key computed kts c n v vts : t_val c = T_ASSIGN -> key_of g key computed kts -> spell false n v vts -> 1 <= n <= 9 ->
    prop_of g (EProp (first_lo kts, last_hi vts) key (Some v) computed true true) (kts ++ c :: vts)
| P_default g key key' computed kts c n v vts : t_val c = T_ASSIGN ->
    key_of g key computed kts -> key_of true key' computed kts -> spell false n v vts -> 1 <= n <= 9 ->
    prop_of g (EProp (first_lo kts, last_hi vts) key (Some (PAssign (first_lo kts, last_hi vts) key' v)) computed true true)
      (kts ++ c :: vts)
with pprops : list expr -> list token -> Prop :=
| PP_nil : pprops [] []
| PP_last p ts : pprop p ts -> pprops [p] ts
| PP_more p ts c l ts' : t_val c = T_COMMA -> pprop p ts -> pprops l ts' -> pprops (p :: l) (ts ++ c :: ts')
with pprop : expr -> list token -> Prop :=
| PP_rest d n e ts : t_val d = T_DOT_TRI -> spell true n e ts -> n <= 9 -> is_target e = true ->
    pprop (PRest (t_lo d, last_hi ts) e) (d :: ts)
| PP_value key computed kts c v vts : t_val c = T_COLON -> key_of true key computed kts -> part v vts ->
    pprop (EProp (first_lo kts, last_hi vts) key (Some v) computed false false) (kts ++ c :: vts)
| PP_short key kts : key_of true key false kts -> is_name_e key = true ->
    pprop (EProp (first_lo kts, last_hi kts) key (Some key) false true false) kts
| PP_default key key' computed kts c n v vts : t_val c = T_ASSIGN ->
    key_of true key computed kts -> key_of true key' computed kts -> spell false n v vts -> 1 <= n <= 9 ->
    pprop (EProp (first_lo kts, last_hi vts) key (Some (PAssign (first_lo kts, last_hi vts) key' v)) computed true true)
      (kts ++ c :: vts)
with key_of : bool -> expr -> bool -> list token -> Prop :=
| K_lit g t : t_val t = T_STRING \/ t_val t = T_NUM -> key_of g (ELit (place t) t) false [t]
| K_name g t kw : can_be_key t = true -> key_of g (EName (place t) (text t) false kw) false [t]
| K_computed g l n e ts h : t_val l = T_BRACKET_L -> t_val h = T_BRACKET_R -> spell g n e ts -> 1 <= n <= 9 ->
    key_of g e true (l :: ts ++ [h])
| K_pcomputed g l e ts h : t_val l = T_BRACKET_L -> t_val h = T_BRACKET_R -> part e ts -> key_of g e true (l :: ts ++ [h])
(** the strings and expressions of a template *)
with quasis : list expr -> list token -> Prop :=
| Q_last t s a b plain bad : t_ext t = XTpl s a b plain bad -> quasi_ends t plain -> quasis [ELit (a, b) t] [t]
| Q_more t s a b plain bad n e ts l ts' : t_ext t = XTpl s a b plain bad -> quasi_goes t plain ->
    spell false n e ts -> n <= 9 -> quasis l ts' -> quasis (ELit (a, b) t :: e :: l) (t :: ts ++ ts')
with body : expr -> list token -> Prop :=
| B_expr n e ts : spell false n e ts -> 1 <= n <= 9 -> body e ts
| B_block r ts : Block r ts -> body (EOther r) ts.
End Spell.
