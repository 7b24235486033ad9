(** How statements are spelled, and where a semicolon may be left out: ECMA-262 12.10 and 14, with what the parser
    allows beyond it marked. *)
From Verif Require Import Base TokenModel LexModel ParseBase BinSpec ExprModel ExprSpec StmtModel.

(** The end of a statement: a semicolon, or none where the next token closes a block, is the end of the input or
    follows a line terminator.  If [loose], a comma, a parenthesis and a colon will also do. *)
Definition may_omit (nx : token) : Prop := t_val nx = T_BRACE_R \/ t_val nx = T_EOF \/ t_atl nx = true.
Definition stray (nx : token) : Prop := In (t_val nx) [T_COMMA; T_PAREN_R; T_COLON].
Inductive semi (loose : Prop) (nx : token) : list token -> Prop :=
| Semicolon t : t_val t = T_SEMI -> semi loose nx [t]
| Inserted : may_omit nx \/ loose /\ stray nx -> t_val nx <> T_SEMI -> semi loose nx [].
(** After do-while a semicolon may be left out everywhere. *)
Inductive maybe_semi (nx : token) : list token -> Prop :=
| M_semi t : t_val t = T_SEMI -> maybe_semi nx [t]
| M_none : t_val nx <> T_SEMI -> maybe_semi nx [].

Definition word (t : token) (n : bytes) : Prop := t_val t = T_NAME /\ t_text t = n.
(** The words that begin a declaration of variables; ([let] and [const] are names to the lexer). *)
Definition var_word (t : token) (kind : tv) : Prop :=
  t_val t = kind /\ In kind [T_VAR; T_LET; T_CONST] \/ kind = T_LET /\ word t (bs "let") \/ kind = T_CONST /\ word t (bs "const").
(** What an expression statement does not begin with; import may begin an expression. *)
Definition no_expr_stmt (v : tv) : Prop :=
  In v [T_BRACE_L; T_FUNC; T_CLASS; T_VAR; T_IF; T_FOR; T_WHILE; T_DO; T_SWITCH; T_TRY; T_RETURN; T_THROW; T_BREAK;
        T_CONTINUE; T_DEBUGGER; T_WITH; T_EXPORT; T_ELSE; T_CASE; T_DEFAULT; T_CATCH; T_FINALLY; T_SEMI; T_EOF].
(** The left side of for-in and for-of; the parser also takes a literal in parentheses: C38_for_refuted. *)
Definition for_target (e : expr) : Prop := is_target e = true \/ exists r i, e = EParen r i /\ updatable i = true.

(** Where a statement is; its children in source order, expressions among them; the ranges of a tree nest and
    begin and end [At] certain places. *)
Definition slo (s : stmt) : nat := fst (srange s).
Definition shi (s : stmt) : nat := snd (srange s).
Definition opt_expr_kid (o : option expr) : list stmt := match o with Some e => [SE e] | None => [] end.
Definition opt_kid (o : option stmt) : list stmt := match o with Some s => [s] | None => [] end.
Definition skids (s : stmt) : list stmt :=
  match s with
  | SE e => map SE (kids e)
  | SExpr _ e | SThrow _ e => [SE e]
  | SEmpty _ | SDebug _ | SDecl _ => []
  | SBlock _ l | SVar _ _ l => l
  | SDec _ b i => SE b :: opt_expr_kid i
  | SIf _ t c a => SE t :: c :: opt_kid a
  | SWhile _ t b | SWith _ t b => [SE t; b]
  | SDo _ b t => [b; SE t]
  | SFor _ i t u b => opt_kid i ++ opt_expr_kid t ++ opt_expr_kid u ++ [b]
  | SForIn _ _ _ l r b => [l; SE r; b]
  | SRet _ e | SBrk _ e | SCont _ e => opt_expr_kid e
  | SLabel _ l b => [SE l; b]
  | SSwitch _ e cs => SE e :: cs
  | SCase _ e l => opt_expr_kid e ++ l
  | STry _ b c f => b :: opt_kid c ++ opt_kid f
  | SCatch _ p b => opt_expr_kid p ++ [b]
  end.
Fixpoint srow (a b : nat) (l : list stmt) : Prop :=
  match l with [] => a <= b | s :: l => a <= slo s /\ slo s <= shi s /\ srow (shi s) b l end.
Definition is_expr (s : stmt) : bool := match s with SE _ => true | _ => false end.
Inductive snested (At : nat -> Prop) : stmt -> Prop :=
| Nested_expr e : nested At e -> snested At (SE e)
| Nested_stmt s : is_expr s = false -> srow (slo s) (shi s) (skids s) -> At (slo s) -> At (shi s) ->
    Forall (snested At) (skids s) -> snested At s.
(** Every statement of a tree, and every expression it is made of. *)
Inductive inside (x : stmt) : stmt -> Prop :=
| Inside_self : inside x x
| Inside_kid s c : In c (skids s) -> inside x c -> inside x s.
(** No default clause of a switch directly follows another. *)
Definition apart_defaults (cs : list stmt) : Prop := forall p q r1 l1 r2 l2, cs <> p ++ SCase r1 None l1 :: SCase r2 None l2 :: q.

Section Stat.
(** As for expressions; [Decl]: the declarations that are not modelled, and the token after each. *)
Variables (text : token -> bytes) (Other Method Block : rng -> list token -> Prop) (Decl : rng -> list token -> token -> Prop) (lax loose : Prop).
Notation spell := (spell text Other Method Block lax).
Notation key_of := (key_of text Other Method Block lax).
Definition full (e : expr) (ts : list token) : Prop := exists n, spell false n e ts /\ n <= 9.
Definition single (e : expr) (ts : list token) : Prop := exists n, spell false n e ts /\ 1 <= n <= 9.

(** Binding patterns. *)
Inductive binding : expr -> list token -> Prop :=
| B_name t kw : ident_tok (t_val t) = true -> binding (EName (place t) (text t) false kw) [t]
| B_arr l es ts h : t_val l = T_BRACKET_L -> t_val h = T_BRACKET_R -> belems es ts ->
    binding (PArr (t_lo l, t_hi h) es) (l :: ts ++ [h])
| B_obj l ps ts h : t_val l = T_BRACE_L -> t_val h = T_BRACE_R -> bprops ps ts ->
    binding (PObj (t_lo l, t_hi h) ps) (l :: ts ++ [h])
(** a rest element may stand where any binding does: C39_rest_refuted *)
| B_rest d e ts : t_val d = T_DOT_TRI -> binding e ts -> binding (PRest (t_lo d, last_hi ts) e) (d :: ts)
with belem : expr -> list token -> Prop :=
| BE_one e ts : binding e ts -> belem e ts
| BE_default l lts o h hts : t_val o = T_ASSIGN -> binding l lts -> single h hts ->
    belem (PAssign (lo l, last_hi hts) l h) (lts ++ o :: hts)
with belems : list (option expr) -> list token -> Prop :=
| BL_nil : belems [] []
| BL_hole c l ts : t_val c = T_COMMA -> belems l ts -> belems (None :: l) (c :: ts)
| BL_last e ts : belem e ts -> belems [Some e] ts
| BL_more e ts c l ts' : t_val c = T_COMMA -> is_rest e = false -> belem e ts -> belems l ts' ->
    belems (Some e :: l) (ts ++ c :: ts')
with bprops : list expr -> list token -> Prop :=
| BP_nil : bprops [] []
| BP_last p ts : bprop p ts -> bprops [p] ts
| BP_more p ts c l ts' : t_val c = T_COMMA -> is_rest p = false -> bprop p ts -> bprops l ts' ->
    bprops (p :: l) (ts ++ c :: ts')
with bprop : expr -> list token -> Prop :=
| BO_rest d e ts : t_val d = T_DOT_TRI -> binding e ts -> is_name_e e = true -> bprop (PRest (t_lo d, last_hi ts) e) (d :: ts)
| BO_value key computed kts c v vts : t_val c = T_COLON -> key_of false key computed kts -> belem v vts ->
    bprop (EProp (first_lo kts, last_hi vts) key (Some v) computed false false) (kts ++ c :: vts)
(** of these two the parser takes more than names: C39_binding_key_refuted *)
| BO_short key computed kts : key_of false key computed kts ->
    bprop (EProp (first_lo kts, last_hi kts) key (Some key) computed true false) kts
| BO_default key computed kts c v vts : t_val c = T_ASSIGN -> key_of false key computed kts -> is_name_e key = true -> single v vts ->
    bprop (EProp (lo key, last_hi vts) key (Some (PAssign (lo key, last_hi vts) key v)) false true true) (kts ++ c :: vts).

(** Declarators and what separates them. *)
Inductive dec : stmt -> list token -> Prop :=
| D_bare b ts : binding b ts -> dec (SDec (lo b, last_hi ts) b None) ts
| D_init b ts o e ets : t_val o = T_ASSIGN -> binding b ts -> single e ets ->
    dec (SDec (lo b, last_hi ets) b (Some e)) (ts ++ o :: ets).
Inductive decs : list stmt -> list token -> Prop :=
| DS_one d ts : dec d ts -> decs [d] ts
| DS_more d ts c l ts' : t_val c = T_COMMA -> dec d ts -> decs l ts' -> decs (d :: l) (ts ++ c :: ts').

(** [opt_full o ts]: an expression that may be missing. *)
Inductive opt_full : option expr -> list token -> Prop :=
| O_none : opt_full None []
| O_some e ts : full e ts -> opt_full (Some e) ts.
(** What for and for-in begin with. *)
Inductive init_of : option stmt -> list token -> Prop :=
| IN_none : init_of None []
| IN_expr e ts : full e ts -> init_of (Some (SE e)) ts
| IN_var v kind l ts : var_word v kind -> decs l ts -> init_of (Some (SVar (t_lo v, last_hi ts) kind l)) (v :: ts).
Inductive left_of : stmt -> list token -> Prop :=
| LE_target n e ts : spell true n e ts -> n <= 9 -> for_target e -> left_of (SE e) ts
| LE_var v kind d ts : var_word v kind -> dec d ts -> left_of (SVar (t_lo v, last_hi ts) kind [d]) (v :: ts).

(** [stat s ts nx]: the tokens [ts] read as [s] when the token [nx] follows. *)
Inductive stat : stmt -> list token -> token -> Prop :=
| T_expr e ts x nx : full e ts -> semi loose nx x -> ~ no_expr_stmt (t_val (hd nx ts)) ->
    stat (SExpr (first_lo ts, last_hi (ts ++ x)) e) (ts ++ x) nx
| T_empty t nx : t_val t = T_SEMI -> stat (SEmpty (place t)) [t] nx
| T_block b ts nx : block b ts -> stat b ts nx
| T_var v kind l ts x nx : var_word v kind -> decs l ts -> semi loose nx x ->
    stat (SVar (t_lo v, last_hi (ts ++ x)) kind l) (v :: ts ++ x) nx
| T_if i l e ets h c cts nx : t_val i = T_IF -> t_val l = T_PAREN_L -> t_val h = T_PAREN_R -> full e ets ->
    stat c cts nx -> t_val nx <> T_ELSE -> stat (SIf (t_lo i, last_hi cts) e c None) (i :: l :: ets ++ h :: cts) nx
| T_if_else i l e ets h c cts n a ats nx : t_val i = T_IF -> t_val l = T_PAREN_L -> t_val h = T_PAREN_R -> full e ets ->
    stat c cts n -> t_val n = T_ELSE -> stat a ats nx ->
    stat (SIf (t_lo i, last_hi ats) e c (Some a)) (i :: l :: ets ++ h :: cts ++ n :: ats) nx
| T_while w l e ets h b bts nx : t_val w = T_WHILE -> t_val l = T_PAREN_L -> t_val h = T_PAREN_R -> full e ets ->
    stat b bts nx -> stat (SWhile (t_lo w, last_hi bts) e b) (w :: l :: ets ++ h :: bts) nx
| T_with w l e ets h b bts nx : t_val w = T_WITH -> t_val l = T_PAREN_L -> t_val h = T_PAREN_R -> full e ets ->
    stat b bts nx -> stat (SWith (t_lo w, last_hi bts) e b) (w :: l :: ets ++ h :: bts) nx
| T_do d b bts w l e ets h x nx : t_val d = T_DO -> stat b bts w -> t_val w = T_WHILE -> t_val l = T_PAREN_L -> t_val h = T_PAREN_R ->
    full e ets -> maybe_semi nx x -> stat (SDo (t_lo d, last_hi (h :: x)) b e) (d :: bts ++ w :: l :: ets ++ h :: x) nx
| T_for f l i its s1 t tts s2 u uts h b bts nx : t_val f = T_FOR -> t_val l = T_PAREN_L -> t_val h = T_PAREN_R ->
    t_val s1 = T_SEMI -> t_val s2 = T_SEMI -> init_of i its -> opt_full t tts -> opt_full u uts -> stat b bts nx ->
    stat (SFor (t_lo f, last_hi bts) i t u b) (f :: l :: its ++ s1 :: tts ++ s2 :: uts ++ h :: bts) nx
| T_for_in f l i its o r rts h b bts nx : t_val f = T_FOR -> t_val l = T_PAREN_L -> t_val h = T_PAREN_R ->
    left_of i its -> word o (bs "in") -> full r rts -> stat b bts nx ->
    stat (SForIn (t_lo f, last_hi bts) true false i r b) (f :: l :: its ++ o :: rts ++ h :: bts) nx
| T_for_of f a await l i its o r rts h b bts nx : t_val f = T_FOR -> t_val l = T_PAREN_L -> t_val h = T_PAREN_R ->
    a = [] /\ await = false \/ (exists w, a = [w] /\ t_val w = T_AWAIT /\ await = true) ->
    left_of i its -> word o (bs "of") -> single r rts -> stat b bts nx ->
    stat (SForIn (t_lo f, last_hi bts) false await i r b) (f :: a ++ l :: its ++ o :: rts ++ h :: bts) nx
| T_return r x nx : t_val r = T_RETURN -> semi loose nx x -> stat (SRet (t_lo r, last_hi (r :: x)) None) (r :: x) nx
(** a second semicolon belongs to the next statement, but the parser takes it: C29_return_refuted *)
| T_return_twice r x y nx : t_val r = T_RETURN -> t_val x = T_SEMI -> t_val y = T_SEMI ->
    stat (SRet (t_lo r, t_hi y) None) [r; x; y] nx
| T_return_arg r e ts x nx : t_val r = T_RETURN -> full e ts -> t_atl (hd nx ts) = false -> semi loose nx x ->
    stat (SRet (t_lo r, last_hi (ts ++ x)) (Some e)) (r :: ts ++ x) nx
| T_throw r e ts x nx : t_val r = T_THROW -> full e ts -> t_atl (hd nx ts) = false -> semi loose nx x ->
    stat (SThrow (t_lo r, last_hi (ts ++ x)) e) (r :: ts ++ x) nx
| T_break b x nx : t_val b = T_BREAK -> semi loose nx x -> stat (SBrk (t_lo b, last_hi (b :: x)) None) (b :: x) nx
| T_break_to b t kw x nx : t_val b = T_BREAK -> t_val t = T_NAME -> t_atl t = false -> semi loose nx x ->
    stat (SBrk (t_lo b, last_hi (t :: x)) (Some (EName (place t) (text t) false kw))) (b :: t :: x) nx
| T_continue b x nx : t_val b = T_CONTINUE -> semi loose nx x -> stat (SCont (t_lo b, last_hi (b :: x)) None) (b :: x) nx
| T_continue_to b t kw x nx : t_val b = T_CONTINUE -> t_val t = T_NAME -> t_atl t = false -> semi loose nx x ->
    stat (SCont (t_lo b, last_hi (t :: x)) (Some (EName (place t) (text t) false kw))) (b :: t :: x) nx
| T_debugger b x nx : t_val b = T_DEBUGGER -> semi loose nx x -> stat (SDebug (t_lo b, last_hi (b :: x))) (b :: x) nx
| T_label t kw c b bts nx : t_val t = T_NAME -> t_val c = T_COLON -> stat b bts nx ->
    stat (SLabel (t_lo t, last_hi bts) (EName (place t) (text t) false kw) b) (t :: c :: bts) nx
| T_switch w l e ets h bl cs cts br nx : t_val w = T_SWITCH -> t_val l = T_PAREN_L -> t_val h = T_PAREN_R -> full e ets ->
    t_val bl = T_BRACE_L -> t_val br = T_BRACE_R -> clauses cs cts br -> apart_defaults cs ->
    stat (SSwitch (t_lo w, t_hi br) e cs) (w :: l :: ets ++ h :: bl :: cts ++ [br]) nx
| T_try w b bts c cts f fts nx : t_val w = T_TRY -> block b bts -> handler c cts -> final f fts -> cts ++ fts <> [] ->
    stat (STry (t_lo w, last_hi (bts ++ cts ++ fts)) b c f) (w :: bts ++ cts ++ fts) nx
| T_decl r ts nx : Decl r ts nx -> stat (SDecl r) ts nx
with block : stmt -> list token -> Prop :=
| K_block l b ts h : t_val l = T_BRACE_L -> t_val h = T_BRACE_R -> stats b ts h ->
    block (SBlock (t_lo l, t_hi h) b) (l :: ts ++ [h])
with stats : list stmt -> list token -> token -> Prop :=
| SS_nil nx : stats [] [] nx
| SS_cons s ts l us nx : stat s ts (hd nx us) -> stats l us nx -> stats (s :: l) (ts ++ us) nx
with clauses : list stmt -> list token -> token -> Prop :=
| CL_nil nx : clauses [] [] nx
| CL_cons s ts l us nx : clause s ts (hd nx us) -> clauses l us nx -> clauses (s :: l) (ts ++ us) nx
with clause : stmt -> list token -> token -> Prop :=
| CL_case w e ets c b bts nx : t_val w = T_CASE -> t_val c = T_COLON -> full e ets -> stats b bts nx ->
    clause (SCase (t_lo w, last_hi (c :: bts)) (Some e) b) (w :: ets ++ c :: bts) nx
| CL_default w c b bts nx : t_val w = T_DEFAULT -> t_val c = T_COLON -> stats b bts nx ->
    clause (SCase (t_lo w, last_hi (c :: bts)) None b) (w :: c :: bts) nx
with handler : option stmt -> list token -> Prop :=
| H_none : handler None []
| H_catch w b bts : t_val w = T_CATCH -> block b bts ->
    handler (Some (SCatch (t_lo w, last_hi bts) None b)) (w :: bts)
| H_catch_param w l p pts h b bts : t_val w = T_CATCH -> t_val l = T_PAREN_L -> t_val h = T_PAREN_R -> binding p pts -> block b bts ->
    handler (Some (SCatch (t_lo w, last_hi bts) (Some p) b)) (w :: l :: pts ++ h :: bts)
with final : option stmt -> list token -> Prop :=
| F_none : final None []
| F_finally w b bts : t_val w = T_FINALLY -> block b bts -> final (Some b) (w :: bts).
End Stat.
Scheme binding_mut := Minimality for binding Sort Prop
  with belem_mut := Minimality for belem Sort Prop
  with belems_mut := Minimality for belems Sort Prop
  with bprops_mut := Minimality for bprops Sort Prop
  with bprop_mut := Minimality for bprop Sort Prop.
Combined Scheme binding_all from binding_mut, belem_mut, belems_mut, bprops_mut, bprop_mut.
Scheme stat_mut := Minimality for stat Sort Prop
  with block_mut := Minimality for block Sort Prop
  with stats_mut := Minimality for stats Sort Prop
  with clauses_mut := Minimality for clauses Sort Prop
  with clause_mut := Minimality for clause Sort Prop
  with handler_mut := Minimality for handler Sort Prop
  with final_mut := Minimality for final Sort Prop.
Combined Scheme stat_all from stat_mut, block_mut, stats_mut, clauses_mut, clause_mut, handler_mut, final_mut.
