(** Expressions written down: the expressions of ECMA-262 13 the round trip claim C39 is about, each with the tokens
    it is written with, parentheses where the grammar needs them. *)
From Verif Require Import Base TokenModel LexModel ParseBase BinModel BinSpec EarlyModel SymtabModel ExprModel ExprSpec.

(** Names that are reserved nowhere, and are not [async]. *)
Definition ordinary (n : bytes) : bool :=
  negb (existsb (bytes_eqb n) (prohibited_names ++ [bs "eval"; bs "arguments"; bs "await"; bs "yield"; bs "async"])).
Definition infix_ops : list tv :=
  [T_OR; T_NULLISH; T_AND; T_BIT_OR; T_BIT_XOR; T_BIT_AND; T_EQ; T_NE; T_EQ_S; T_NE_S; T_LT; T_GT; T_LTE; T_GTE; T_INSTANCE_OF; T_IN;
   T_LSH; T_RSH; T_RSH_U; T_ADD; T_SUB; T_MUL; T_DIV; T_MOD; T_POW].
Definition infix (o : token) (op : tv) : Prop :=
  In op infix_ops /\ t_val o = op \/ op = T_IN /\ t_val o = T_NAME /\ t_text o = bs "in" /\ contains_escape o = false.
Definition prefix_ops : list tv := [T_NOT; T_BIT_NOT; T_ADD; T_SUB; T_TYPE_OF; T_VOID; T_DELETE].
Definition assign_ops : list tv :=
  [T_ASSIGN; T_ASSIGN_ADD; T_ASSIGN_SUB; T_ASSIGN_MUL; T_ASSIGN_DIV; T_ASSIGN_MOD; T_ASSIGN_POW;
   T_ASSIGN_BIT_LSH; T_ASSIGN_BIT_RSH; T_ASSIGN_BIT_RSH_U; T_ASSIGN_BIT_AND; T_ASSIGN_BIT_OR; T_ASSIGN_BIT_XOR;
   T_ASSIGN_AND; T_ASSIGN_OR; T_ASSIGN_NULLISH].
(** The tokens that may go on with an expression of a level: 0 Expression, 1 AssignmentExpression, 2
    ConditionalExpression, 3 binary operators, 4 UnaryExpression, 5 UpdateExpression, 6 NewExpression without
    arguments, 7 CallExpression, 8 MemberExpression, 9 PrimaryExpression. *)
Definition goes_on (n : nat) (t : token) : Prop :=
  In (t_val t) [T_PAREN_L; T_BRACKET_L; T_DOT; T_OPT_CHAIN; T_TPL_HEAD; T_ARROW] \/
  n <= 5 /\ In (t_val t) [T_INC; T_DEC] \/
  n <= 3 /\ (exists op, infix t op) \/
  n <= 2 /\ t_val t = T_HOOK \/
  n <= 1 /\ In (t_val t) assign_ops \/
  n = 0 /\ t_val t = T_COMMA.

(** Properties that a computed or spelled key makes named __proto__: an object has one at most. *)
Definition named_proto (text : token -> bytes) (p : expr) : bool :=
  match p with
  | EProp _ (EName _ n _ _) _ false false _ => bytes_eqb n (bs "__proto__")
  | EProp _ (ELit _ t) _ false false _ => bytes_eqb (text t) (bs "__proto__")
  | _ => false
  end.
(** Between parentheses the parser tries to read parameters, and leaves patterns in objects and spreads behind
    (C39_pattern_refuted), or panics at holes (C50_hole_refuted): what is safe there. *)
Fixpoint no_holes (e : expr) : bool :=
  match e with
  | EArr _ es => forallb (fun x => match x with Some e => no_holes e | None => false end) es
  | EObj _ ps => forallb no_holes ps
  | EProp _ _ (Some v) _ _ _ => no_holes v
  | ESpread _ e _ | EParen _ e | EUnary _ _ e | EUpdate _ _ _ e => no_holes e
  | EBin _ _ _ l r => no_holes l && no_holes r
  | ECond _ t c a => no_holes t && no_holes c && no_holes a
  | _ => true
  end.
Definition is_literal_or_assign (e : expr) : bool := match e with EArr _ _ | EObj _ _ | EAssign _ _ _ _ _ => true | _ => false end.
Fixpoint calm (e : expr) : bool :=
  match e with
  | EArr _ es => forallb (fun x => match x with Some e => calm e | None => true end) es
  | EObj _ ps => forallb calm ps
  | EProp _ _ (Some v) _ _ _ => negb (is_literal_or_assign v)
  | ESpread _ e _ => negb (is_literal_or_assign e)
  | EAssign _ _ _ _ h => no_holes h
  | _ => true
  end.
(** An expression that can be assigned to, without patterns. *)
Definition place_like (e : expr) : bool := match e with EName _ _ _ _ | EMember _ _ _ _ _ => true | _ => false end.
Definition one_or_seq (es : list expr) (ts : list token) : expr :=
  match es with [e] => e | _ => ESeq (first_lo ts, last_hi ts) es end.

Section Written.
Variable text : token -> bytes.
Inductive written : nat -> expr -> list token -> Prop :=
| W_lit t : In (t_val t) [T_NUM; T_NULL; T_TRUE; T_FALSE; T_THIS; T_REGEXP] -> written 9 (ELit (place t) t) [t]
| W_string t s : t_val t = T_STRING -> t_ext t = XStr s false -> written 9 (ELit (place t) t) [t]
| W_name t : t_val t = T_NAME -> ordinary (text t) = true -> written 9 (EName (place t) (text t) false false) [t]
| W_paren l es ts h : t_val l = T_PAREN_L -> t_val h = T_PAREN_R -> listed es ts -> forallb calm es = true ->
    written 9 (EParen (t_lo l, t_hi h) (one_or_seq es ts)) (l :: ts ++ [h])
| W_arr l es ts h : t_val l = T_BRACKET_L -> t_val h = T_BRACKET_R -> elements es ts ->
    written 9 (EArr (t_lo l, t_hi h) es) (l :: ts ++ [h])
| W_obj l ps ts h : t_val l = T_BRACE_L -> t_val h = T_BRACE_R -> properties ps ts -> length (filter (named_proto text) ps) <= 1 ->
    written 9 (EObj (t_lo l, t_hi h) ps) (l :: ts ++ [h])
| W_tpl t es ts : t_val t = T_TPL_HEAD -> pieces es (t :: ts) -> written 9 (ETpl (t_lo t, last_hi (t :: ts)) None es) (t :: ts)
| W_dot n o ots d p : t_val d = T_DOT -> t_val p = T_NAME \/ is_kw (t_val p) = true -> written n o ots -> 7 <= n ->
    written (member_level n) (EMember (first_lo ots, t_hi p) o (EName (t_hi d, t_hi p) (text p) false (is_kw (t_val p))) false false) (ots ++ [d; p])
| W_sub n o ots l m p pts h : t_val l = T_BRACKET_L -> t_val h = T_BRACKET_R -> written n o ots -> 7 <= n -> written m p pts ->
    written (member_level n) (EMember (first_lo ots, t_hi h) o p true false) (ots ++ l :: pts ++ [h])
| W_call n c cts l args ats h : t_val l = T_PAREN_L -> t_val h = T_PAREN_R -> written n c cts -> 7 <= n -> arguments args ats ->
    written 7 (ECall (first_lo cts, t_hi h) c args false) (cts ++ l :: ats ++ [h])
(** the operand of new does not itself begin with new, see C39_nested_new_refuted *)
| W_new_args n m c cts l args ats h : t_val n = T_NEW -> t_val l = T_PAREN_L -> t_val h = T_PAREN_R ->
    written m c cts -> 8 <= m -> t_val (hd n cts) <> T_NEW -> arguments args ats -> written 8 (ENew (t_lo n, t_hi h) c args) (n :: cts ++ l :: ats ++ [h])
| W_new n m c cts : t_val n = T_NEW -> written m c cts -> 8 <= m -> t_val (hd n cts) <> T_NEW -> written 6 (ENew (t_lo n, last_hi cts) c []) (n :: cts)
| W_prefix o n e ts : In (t_val o) [T_INC; T_DEC] -> written n e ts -> 7 <= n -> place_like e = true ->
    written 5 (EUpdate (t_lo o, last_hi ts) (t_val o) true e) (o :: ts)
| W_postfix o n e ts : In (t_val o) [T_INC; T_DEC] -> t_atl o = false -> written n e ts -> 7 <= n -> place_like e = true ->
    written 5 (EUpdate (first_lo ts, t_hi o) (t_val o) false e) (ts ++ [o])
| W_unary o n e ts : In (t_val o) prefix_ops -> written n e ts -> 4 <= n -> (t_val o = T_DELETE -> is_name_e e = false) ->
    written 4 (EUnary (t_lo o, last_hi ts) (t_val o) e) (o :: ts)
(** a chain of binary operators, grouped as the grammar says (BinSpec), that is not one of those the parser groups
    wrongly (C28_grouping_refuted) *)
| W_bin t ts : joined t ts -> derives 0 t -> following t <> [] -> ~ dented (map fst (following t)) -> ~ mixed (following t) ->
    ~ unary_base is_unary_e (first t) (following t) -> written 3 (of_bt t) ts
| W_cond n t tts q m c cts l k a ats : t_val q = T_HOOK -> t_val l = T_COLON -> written n t tts -> 3 <= n -> written m c cts -> 1 <= m ->
    written k a ats -> 1 <= k -> written 2 (ECond (first_lo tts, last_hi ats) t c a) (tts ++ q :: cts ++ l :: ats)
| W_assign n l lts o m h hts : In (t_val o) assign_ops -> written n l lts -> 7 <= n -> place_like l = true -> written m h hts -> 1 <= m ->
    written 1 (EAssign (first_lo lts, last_hi hts) (t_val o) (place o) l h) (lts ++ o :: hts)
| W_seq es ts : listed es ts -> 2 <= length es -> written 0 (ESeq (first_lo ts, last_hi ts) es) ts
(** operands and operators *)
with joined : btree expr -> list token -> Prop :=
| J_leaf n e ts : written n e ts -> 4 <= n -> joined (Leaf e) ts
| J_bin op o l lts r rts : infix o op -> joined l lts -> joined r rts -> joined (Bin op (place o) (last_hi rts) l r) (lts ++ o :: rts)
(** expressions with commas in between *)
with listed : list expr -> list token -> Prop :=
| Li_one n e ts : written n e ts -> 1 <= n -> listed [e] ts
| Li_more n e ts c es us : written n e ts -> 1 <= n -> t_val c = T_COMMA -> listed es us -> listed (e :: es) (ts ++ c :: us)
(** the elements of an array, the arguments of a call, the properties of an object; [item b]: an element, which a comma
    follows or not *)
with item : bool -> expr -> list token -> Prop :=
| It_one b n e ts : written n e ts -> 1 <= n -> item b e ts
| It_spread b d n e ts : t_val d = T_DOT_TRI -> written n e ts -> 1 <= n -> item b (ESpread (t_lo d, last_hi ts) e b) (d :: ts)
with elements : list (option expr) -> list token -> Prop :=
| El_nil : elements [] []
| El_hole c es ts : t_val c = T_COMMA -> elements es ts -> elements (None :: es) (c :: ts)
| El_last e ts : item false e ts -> elements [Some e] ts
| El_more e ts c es us : item true e ts -> t_val c = T_COMMA -> elements es us -> elements (Some e :: es) (ts ++ c :: us)
with arguments : list expr -> list token -> Prop :=
| Ar_nil : arguments [] []
| Ar_last e ts : item false e ts -> arguments [e] ts
| Ar_more e ts c es us : item true e ts -> t_val c = T_COMMA -> arguments es us -> arguments (e :: es) (ts ++ c :: us)
with properties : list expr -> list token -> Prop :=
| Pr_nil : properties [] []
| Pr_last p ts : property false p ts -> properties [p] ts
| Pr_more p ts c ps us : property true p ts -> t_val c = T_COMMA -> properties ps us -> properties (p :: ps) (ts ++ c :: us)
with property : bool -> expr -> list token -> Prop :=
| Py_value b key computed kts c n v vts : key_written key computed kts -> t_val c = T_COLON -> written n v vts -> 1 <= n ->
    property b (EProp (first_lo kts, last_hi vts) key (Some v) computed false false) (kts ++ c :: vts)
| Py_short b t : t_val t = T_NAME -> ordinary (text t) = true ->
    property b (EProp (place t) (EName (place t) (text t) false false) (Some (EName (place t) (text t) false false)) false true false) [t]
| Py_spread b d n e ts : t_val d = T_DOT_TRI -> written n e ts -> 1 <= n -> property b (ESpread (t_lo d, last_hi ts) e b) (d :: ts)
with key_written : expr -> bool -> list token -> Prop :=
| Ky_string t s : t_val t = T_STRING -> t_ext t = XStr s false -> key_written (ELit (place t) t) false [t]
| Ky_num t : t_val t = T_NUM -> key_written (ELit (place t) t) false [t]
| Ky_name t : t_val t = T_NAME /\ ordinary (text t) = true -> key_written (EName (place t) (text t) false false) false [t]
| Ky_word t : is_kw (t_val t) = true -> bytes_eqb (text t) (bs "let") = false -> bytes_eqb (text t) (bs "const") = false ->
    key_written (EName (place t) (text t) false true) false [t]
| Ky_computed l n e ts h : t_val l = T_BRACKET_L -> t_val h = T_BRACKET_R -> written n e ts -> 1 <= n -> key_written e true (l :: ts ++ [h])
(** the strings and expressions of a template *)
with pieces : list expr -> list token -> Prop :=
| Pi_last t s a b plain : t_ext t = XTpl s a b plain None -> t_val t = T_TPL_TAIL \/ t_val t = T_TPL_HEAD /\ plain = true ->
    pieces [ELit (a, b) t] [t]
| Pi_more t s a b plain n e ts u es us : t_ext t = XTpl s a b plain None -> t_val t = T_TPL_SPAN \/ t_val t = T_TPL_HEAD /\ plain = false ->
    written n e ts -> t_val u = T_TPL_SPAN \/ t_val u = T_TPL_TAIL -> pieces es (u :: us) ->
    pieces (ELit (a, b) t :: e :: es) (t :: ts ++ u :: us).
End Written.
Scheme written_mut := Minimality for written Sort Prop
  with joined_mut := Minimality for joined Sort Prop
  with listed_mut := Minimality for listed Sort Prop
  with item_mut := Minimality for item Sort Prop
  with elements_mut := Minimality for elements Sort Prop
  with arguments_mut := Minimality for arguments Sort Prop
  with properties_mut := Minimality for properties Sort Prop
  with property_mut := Minimality for property Sort Prop
  with key_written_mut := Minimality for key_written Sort Prop
  with pieces_mut := Minimality for pieces Sort Prop.
Combined Scheme written_all from written_mut, joined_mut, listed_mut, item_mut, elements_mut, arguments_mut, properties_mut, property_mut,
  key_written_mut, pieces_mut.
