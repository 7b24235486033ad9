(** How functions, methods and classes are spelled: ECMA-262 15, with what the parser allows beyond it marked. *)
From Verif Require Import Base TokenModel LexModel ParseBase BinSpec ExprModel ExprSpec StmtModel StmtSpec FnModel.

(** Where a part may stand: among expressions, in an object literal, after an arrow, among statements, after export
    default. *)
Inductive sort := AFunction | AMethod | ABlock | ADecl | ADefault.

Definition async_word (t : token) : Prop := word t (bs "async") /\ contains_escape t = false.
(** [maybe v b ts]: the token [v], if [b]. *)
Inductive maybe (v : tv) : bool -> list token -> Prop :=
| Y_no : maybe v false []
| Y_yes t : t_val t = v -> maybe v true [t].
Inductive maybe_async : bool -> list token -> Prop :=
| YA_no : maybe_async false []
| YA_yes t : async_word t -> maybe_async true [t].
(** Whether the name in a key is written with an escape. *)
Definition key_escape (kts : list token) : bool :=
  match kts with [t] => contains_escape t | _ :: t :: _ => contains_escape t | [] => false end.

(** The early errors of ECMA-262 15.7.1 and 15.4.1. *)
Definition spelt (text : token -> bytes) (key : expr) (esc : bool) (n : bytes) : Prop :=
  match key with
  | EName _ m _ _ => m = n /\ esc = false
  | ELit _ t => t_val t = T_STRING /\ text t = n
  | _ => False
  end.
Definition method_ok (text : token -> bytes) (inclass : Prop) (m : meth) : Prop :=
  (m_kind m = KGet -> m_params m = []) /\
  (m_kind m = KSet -> exists p, m_params m = [p] /\ is_rest p = false) /\
  (spelt text (m_key m) (m_esc m) (bs "constructor") -> m_computed m = false ->
     m_kind m <> KGet /\ m_kind m <> KSet /\ m_async m = false /\ m_gen m = false) /\
  (inclass -> m_static m = true -> ~ spelt text (m_key m) (m_esc m) (bs "prototype")).
Definition member_ok (text : token -> bytes) (m : member) : Prop :=
  match m with
  | MMethod m => method_ok text True m
  | MField _ key _ esc static _ =>
      ~ spelt text key esc (bs "constructor") /\ (static = true -> ~ spelt text key esc (bs "prototype"))
  | MStatic _ _ => True
  end.
(** At most one method is called constructor. *)
Definition constructs (text : token -> bytes) (m : member) : Prop :=
  match m with MMethod m => spelt text (m_key m) (m_esc m) (bs "constructor") | _ => False end.
Definition one_constructor (text : token -> bytes) (ms : list member) : Prop :=
  forall a x b y c, ms = a ++ x :: b ++ y :: c -> constructs text x -> ~ constructs text y.
(** Two members of the same private name are a getter and a setter, both static or neither; if there are more, any
    two that follow each other: C52_private_refuted. *)
Definition private_key (m : member) (n : bytes) : Prop :=
  exists r kw, match m with MMethod m => m_key m = EName r n true kw | MField _ key _ _ _ _ => key = EName r n true kw | MStatic _ _ => False end.
Definition accessors (x y : member) : Prop :=
  exists a b, x = MMethod a /\ y = MMethod b /\ m_static a = m_static b /\
    (m_kind a = KGet /\ m_kind b = KSet \/ m_kind a = KSet /\ m_kind b = KGet).
Definition private_once (ms : list member) : Prop :=
  forall a x b y c n, ms = a ++ x :: b ++ y :: c -> private_key x n -> private_key y n ->
    (forall z, In z b -> ~ private_key z n) -> accessors x y.

(** Where the parts of functions and classes are.  [fits At r l]: the nodes [l] follow one another within [r]; ranges
    begin and end [At] certain places. *)
Definition fits (At : nat -> Prop) (r : rng) (l : list stmt) : Prop :=
  At (fst r) /\ At (snd r) /\ srow (fst r) (snd r) l /\ Forall (snested At) l.
Fixpoint ranges_row (a b : nat) (l : list rng) : Prop :=
  match l with [] => a <= b | r :: l => a <= fst r /\ fst r <= snd r /\ ranges_row (snd r) b l end.
(** A key stands before its function, unless there is none: C39_nameless_refuted. *)
Definition no_key (m : meth) : Prop := m_key m = EName (0, 0) [] false true.
Definition meth_placed (At : nat -> Prop) (m : meth) : Prop :=
  (no_key m \/ fits At (fst (m_rng m), fst (m_fn m)) [SE (m_key m)]) /\ fst (m_rng m) <= fst (m_fn m) /\ At (fst (m_rng m)) /\
  snd (m_fn m) = snd (m_rng m) /\ fits At (m_fn m) (map SE (m_params m) ++ [m_body m]).
Definition member_placed (At : nat -> Prop) (m : member) : Prop :=
  match m with
  | MMethod m => meth_placed At m
  | MField r key _ _ _ v => fits At r (SE key :: opt_expr_kid v)
  | MStatic r l => fits At r l
  end.
(** The names in a specifier. *)
Definition ispec_names (i : ispec) : list stmt :=
  match i with IDefault _ l | INamespace _ l => [SE l] | INamed _ id l => opt_expr_kid id ++ [SE l] end.
Definition espec_names (e : espec) : list stmt := SE (e_local e) :: opt_expr_kid (e_id e).
Fixpoint placed (At : nat -> Prop) (f : fnode) : Prop :=
  match f with
  | NFn r _ _ name ps b => fits At r (opt_expr_kid name ++ map SE ps ++ [b])
  | NArrow r ps b => fits At r (map SE ps ++ [b])
  | NArrowStmt r a ps b => fst a = fst r /\ snd a <= snd r /\ At (snd r) /\ fits At a (map SE ps ++ [b])
  | NMethod m => meth_placed At m
  | NBlock b => snested At b
  | NClass r name super b ms =>
      fits At (fst r, fst b) (opt_expr_kid name ++ opt_expr_kid super) /\ At (snd b) /\ snd b = snd r /\
      ranges_row (fst b) (snd b) (map member_range ms) /\ Forall (member_placed At) ms
  | NImport r l src =>
      At (fst r) /\ At (snd r) /\ ranges_row (fst r) (snd r) (map ispec_range l ++ [range src]) /\
      Forall (fun i => fits At (ispec_range i) (ispec_names i)) l /\ fits At r [SE src]
  | NExport r _ l src =>
      At (fst r) /\ At (snd r) /\ ranges_row (fst r) (snd r) (map e_rng l ++ map srange (opt_expr_kid src)) /\
      Forall (fun e => fits At (e_rng e) (espec_names e)) l /\ fits At r (opt_expr_kid src)
  | NExportVar r v => fits At r [v]
  | NExportFn r _ f => At (fst r) /\ fst r <= fst (nrange f) /\ snd (nrange f) = snd r /\ placed At f
  | NExportDefault r e => fits At r [SE e]
  | NRest r => At (fst r) /\ At (snd r) /\ fst r <= snd r
  end.

Section Fn.
(** As for statements. *)
Variables (text : token -> bytes) (Other Method Block : rng -> list token -> Prop) (Decl : rng -> list token -> token -> Prop)
  (Rest : sort -> rng -> list token -> Prop) (lax : Prop).
Notation spell := (spell text Other Method Block lax).
Notation params_of := (params_of text Other Method Block lax).
Notation key_of := (key_of text Other Method Block lax).
Notation full := (full text Other Method Block lax).
Notation single := (single text Other Method Block lax).
Notation binding := (binding text Other Method Block lax).
Notation block := (block text Other Method Block Decl lax False).

Inductive opt_name : option expr -> list token -> Prop :=
| ON_none : opt_name None []
| ON_some t kw : ident_tok (t_val t) = true -> opt_name (Some (EName (place t) (text t) false kw)) [t].

(** Parameters; in methods the parser also takes the word this for one: C39_this_refuted. *)
Inductive fparam (this : Prop) : expr -> list token -> Prop :=
| FP_bare e ts : binding e ts -> fparam this e ts
| FP_default l lts o h hts : t_val o = T_ASSIGN -> is_rest l = false -> binding l lts -> single h hts ->
    fparam this (PAssign (lo l, last_hi hts) l h) (lts ++ o :: hts)
| FP_this t : this -> t_val t = T_THIS -> fparam this (EName (place t) (bs "this") false true) [t].
Inductive fparams (this : Prop) : list expr -> list token -> Prop :=
| FS_nil : fparams this [] []
| FS_last e ts : fparam this e ts -> fparams this [e] ts
| FS_more e ts c l ts' : t_val c = T_COMMA -> is_rest e = false -> fparam this e ts -> fparams this l ts' ->
    fparams this (e :: l) (ts ++ c :: ts').
(** A body; that of a function expression may be an expression: C39_expression_body_refuted. *)
Inductive fbody (free : Prop) : stmt -> list token -> Prop :=
| FB_block b ts : block b ts -> fbody free b ts
| FB_expr e ts : free -> full e ts -> fbody free (SE e) ts.
(** The parameters of an async arrow function.  The parser takes and drops a name before the parenthesis, as it does
    with an asterisk after the word async: C39_async_arrow_refuted. *)
Inductive arrow_head : list expr -> list token -> Prop :=
| AH_name e ts : opt_name (Some e) ts -> arrow_head [e] ts
| AH_list name nts l ps pts h : opt_name name nts -> t_val l = T_PAREN_L -> t_val h = T_PAREN_R -> params_of ps pts ->
    arrow_head ps (nts ++ l :: pts ++ [h]).

(** What stands before the key of a method.  The words get and set may be strings: C39_accessor_refuted. *)
Inductive lead : bool -> bool -> mkind -> list token -> Prop :=
| LD_none kind : kind <> KGet -> kind <> KSet -> lead false false kind []
| LD_star t kind : t_val t = T_MUL -> lead false true kind [t]
| LD_async t kind : async_word t -> lead true false kind [t]
| LD_async_star t u kind : async_word t -> t_val u = T_MUL -> lead true true kind [t; u]
| LD_get t : can_be_key t = true \/ t_val t = T_STRING -> text t = bs "get" -> lead false false KGet [t]
| LD_set t : can_be_key t = true \/ t_val t = T_STRING -> text t = bs "set" -> lead false false KSet [t].
Inductive mkey (pvt : Prop) : expr -> bool -> list token -> Prop :=
| MK_key e computed ts : key_of false e computed ts -> mkey pvt e computed ts
| MK_private t : pvt -> t_val t = T_NAME_PVT -> mkey pvt (EName (place t) (text t) true false) false [t].
Definition mkind_ok (inclass : Prop) (kind : mkind) (key : expr) : Prop :=
  match kind with
  | KInit => ~ inclass
  | KMethod => inclass
  | KCtor => inclass /\ exists r, (exists kw, key = EName r (bs "constructor") false kw) \/ exists t, key = ELit r t /\ text t = bs "constructor"
  | KGet | KSet => True
  end.
Inductive method_of (inclass : Prop) : meth -> list token -> Prop :=
| ME_method static sts async gen kind ats key computed kts l ps pts h b bts :
    maybe T_STATIC static sts -> (static = true -> inclass) -> lead async gen kind ats -> mkey inclass key computed kts ->
    mkind_ok inclass kind key -> (async = true -> t_atl (hd l (tl ats ++ kts)) = false) ->
    t_val l = T_PAREN_L -> t_val h = T_PAREN_R -> fparams True ps pts -> block b bts ->
    method_of inclass
      (mk_meth (first_lo (sts ++ ats ++ kts), last_hi bts) (t_lo l, last_hi bts) kind static async gen key computed (key_escape kts) ps b)
      (sts ++ ats ++ kts ++ l :: pts ++ h :: bts)
(** in a class the parser also takes a method without a key: C39_nameless_refuted *)
| ME_nameless l ps pts h b bts : inclass -> t_val l = T_PAREN_L -> t_val h = T_PAREN_R -> fparams True ps pts -> block b bts ->
    method_of inclass (mk_meth (t_lo l, last_hi bts) (t_lo l, last_hi bts) KMethod false false false (EName (0, 0) [] false true) false false ps b)
      (l :: pts ++ h :: bts).

(** The members of a class.  The semicolon after a field may be missing anywhere: C39_field_refuted. *)
Inductive value_of : option expr -> list token -> Prop :=
| VA_none : value_of None []
| VA_some o e ts : t_val o = T_ASSIGN -> single e ts -> value_of (Some e) (o :: ts).
Definition semi_or_none (x : list token) : Prop := x = [] \/ exists t, x = [t] /\ t_val t = T_SEMI.
Inductive member_of : member -> list token -> Prop :=
| CE_method m ts : method_of True m ts -> member_of (MMethod m) ts
| CE_field static sts key computed kts v vts x :
    maybe T_STATIC static sts -> mkey True key computed kts -> value_of v vts -> semi_or_none x ->
    member_of (MField (first_lo (sts ++ kts), last_hi (kts ++ vts ++ x)) key computed (key_escape kts) static v)
      (sts ++ kts ++ vts ++ x)
| CE_static t r l bts : t_val t = T_STATIC -> block (SBlock r l) bts -> member_of (MStatic (t_lo t, last_hi bts) l) (t :: bts).
Inductive members : list member -> list token -> Prop :=
| CM_nil : members [] []
| CM_semi t ms ts : t_val t = T_SEMI -> members ms ts -> members ms (t :: ts)
| CM_cons m ts ms ts' : member_of m ts -> members ms ts' -> members (m :: ms) (ts ++ ts').
Inductive extends_of : option expr -> list token -> Prop :=
| EX_none : extends_of None []
| EX_some t n e ts : t_val t = T_EXTENDS -> spell false n e ts -> 6 <= n <= 9 -> extends_of (Some e) (t :: ts).

(** Imports.  A word for another module's name is any name or keyword. *)
Definition any_word (t : token) : Prop := t_val t = T_NAME \/ is_kw (t_val t) = true.
Definition from_word (t : token) : Prop := word t (bs "from") /\ contains_escape t = false.
Definition the_name (t : token) (kw : bool) : expr := EName (place t) (text t) false kw.
Inductive import_one : ispec -> list token -> Prop :=
| IO_same t : t_val t = T_NAME -> import_one (INamed (place t) None (the_name t false)) [t]
| IO_as t kw a u kw' : any_word t -> word a (bs "as") -> ident_tok (t_val u) = true ->
    import_one (INamed (t_lo t, t_hi u) (Some (the_name t kw)) (the_name u kw')) [t; a; u].
(** The parser does not ask for the comma: C53_comma_refuted. *)
Inductive import_list : list ispec -> list token -> Prop :=
| IL_nil : import_list [] []
| IL_more i ts c l ts' : import_one i ts -> c = [] \/ (exists t, c = [t] /\ t_val t = T_COMMA) -> import_list l ts' ->
    import_list (i :: l) (ts ++ c ++ ts').
Inductive import_part : list ispec -> list token -> Prop :=
| IP_named l is ts h : t_val l = T_BRACE_L -> t_val h = T_BRACE_R -> import_list is ts -> import_part is (l :: ts ++ [h])
| IP_namespace m a t kw : t_val m = T_MUL -> word a (bs "as") -> contains_escape a = false -> ident_tok (t_val t) = true ->
    import_part [INamespace (t_lo m, t_hi t) (the_name t kw)] [m; a; t].
Inductive import_head : list ispec -> list token -> Prop :=
| IH_default t : t_val t = T_NAME -> import_head [IDefault (place t) (the_name t false)] [t]
| IH_part l ts : import_part l ts -> import_head l ts.
(** Any two parts may stand beside each other: C53_parts_refuted. *)
Inductive import_clause : list ispec -> list token -> Prop :=
| IC_one l ts : import_head l ts -> import_clause l ts
| IC_two l ts c l' ts' : import_head l ts -> t_val c = T_COMMA -> import_part l' ts' -> import_clause (l ++ l') (ts ++ c :: ts').

(** Exports. *)
Inductive export_one : espec -> list token -> Prop :=
| EO_same t kw : any_word t -> export_one (mk_espec (place t) false (the_name t kw) None) [t]
| EO_as t kw a u kw' : any_word t -> word a (bs "as") -> contains_escape a = false -> any_word u ->
    export_one (mk_espec (t_lo t, t_hi u) false (the_name t kw) (Some (the_name u kw'))) [t; a; u].
Inductive export_list : list espec -> list token -> Prop :=
| EL_nil : export_list [] []
| EL_last e ts : export_one e ts -> export_list [e] ts
| EL_more e ts c l ts' : export_one e ts -> t_val c = T_COMMA -> export_list l ts' -> export_list (e :: l) (ts ++ c :: ts').
Inductive from_clause : expr -> list token -> Prop :=
| FC_from f s : from_word f -> t_val s = T_STRING -> from_clause (ELit (place s) s) [f; s].
(** What may be exported by its own name. *)
Definition exportable (f : fnode) : Prop :=
  match f with NFn _ _ _ _ _ _ | NClass _ _ _ _ _ | NArrowStmt _ _ _ _ | NRest _ => True | _ => False end.

(** [spelled loose q f ts nx]: the tokens [ts] read as [f] when the token [nx] follows; see [semi] for [loose]. *)
Inductive spelled (loose : Prop) : sort -> fnode -> list token -> token -> Prop :=
| F_fn q async ats f gen gts name nts l ps pts h b bts nx : q = AFunction \/ q = ADecl \/ q = ADefault ->
    maybe_async async ats -> t_val f = T_FUNC -> (async = true -> t_atl f = false) -> maybe T_MUL gen gts ->
    opt_name name nts -> (q = ADecl -> name <> None) -> t_val l = T_PAREN_L -> t_val h = T_PAREN_R -> fparams False ps pts ->
    fbody (q = AFunction) b bts ->
    spelled loose q (NFn (first_lo (ats ++ [f]), last_hi bts) async gen name ps b) (ats ++ f :: gts ++ nts ++ l :: pts ++ h :: bts) nx
| F_arrow a gen gts ps hts w b bts nx : async_word a -> maybe T_MUL gen gts -> arrow_head ps hts ->
    t_atl (hd w (gts ++ hts)) = false -> t_val w = T_ARROW -> t_atl w = false -> fbody True b bts ->
    spelled loose AFunction (NArrow (t_lo a, last_hi bts) ps b) (a :: gts ++ hts ++ w :: bts) nx
| F_arrow_stmt q a gen gts ps hts w b bts x nx : q = ADecl \/ q = ADefault -> async_word a -> maybe T_MUL gen gts -> arrow_head ps hts ->
    t_atl (hd w (gts ++ hts)) = false -> t_val w = T_ARROW -> t_atl w = false -> fbody True b bts -> semi loose nx x ->
    spelled loose q (NArrowStmt (t_lo a, last_hi (bts ++ x)) (t_lo a, last_hi bts) ps b) (a :: gts ++ hts ++ w :: bts ++ x) nx
| F_method m ts nx : method_of False m ts -> method_ok text False m -> spelled loose AMethod (NMethod m) ts nx
| F_block b ts nx : block b ts -> spelled loose ABlock (NBlock b) ts nx
| F_class q c name nts super ets l ms mts h nx : q = AFunction \/ q = ADecl \/ q = ADefault -> t_val c = T_CLASS -> opt_name name nts ->
    (q = ADecl -> name <> None) -> extends_of super ets -> t_val l = T_BRACE_L -> t_val h = T_BRACE_R -> members ms mts ->
    Forall (member_ok text) ms -> one_constructor text ms -> private_once ms ->
    spelled loose q (NClass (t_lo c, t_hi h) name super (t_lo l, t_hi h) ms) (c :: nts ++ ets ++ l :: mts ++ [h]) nx
| F_import i s x nx : t_val i = T_IMPORT -> t_val s = T_STRING -> semi loose nx x ->
    spelled loose ADecl (NImport (t_lo i, last_hi (s :: x)) [] (ELit (place s) s)) (i :: s :: x) nx
(** the word from may be missing: C53_from_refuted *)
| F_import_from i l ts f s x nx : t_val i = T_IMPORT -> import_clause l ts -> f = [] \/ (exists t, f = [t] /\ from_word t) ->
    t_val s = T_STRING -> semi loose nx x ->
    spelled loose ADecl (NImport (t_lo i, last_hi (s :: x)) l (ELit (place s) s)) (i :: ts ++ f ++ s :: x) nx
| F_export e l es ts h x nx : t_val e = T_EXPORT -> t_val l = T_BRACE_L -> t_val h = T_BRACE_R -> export_list es ts ->
    Forall (fun s => is_kw_e (e_local s) = false) es -> semi loose nx x ->
    spelled loose ADecl (NExport (t_lo e, last_hi (h :: x)) false es None) (e :: l :: ts ++ h :: x) nx
| F_export_from e l es ts h v fts x nx : t_val e = T_EXPORT -> t_val l = T_BRACE_L -> t_val h = T_BRACE_R -> export_list es ts ->
    from_clause v fts -> semi loose nx x ->
    spelled loose ADecl (NExport (t_lo e, last_hi (fts ++ x)) false es (Some v)) (e :: l :: ts ++ h :: fts ++ x) nx
| F_export_all e m v fts x nx : t_val e = T_EXPORT -> t_val m = T_MUL -> from_clause v fts -> semi loose nx x ->
    spelled loose ADecl (NExport (t_lo e, last_hi (fts ++ x)) true [] (Some v)) (e :: m :: fts ++ x) nx
| F_export_as e m a t kw v fts x nx : t_val e = T_EXPORT -> t_val m = T_MUL -> word a (bs "as") -> ident_tok (t_val t) = true ->
    from_clause v fts -> semi loose nx x ->
    spelled loose ADecl (NExport (t_lo e, last_hi (fts ++ x)) true [mk_espec (t_lo m, t_hi t) true (the_name t kw) None] (Some v))
      (e :: m :: a :: t :: fts ++ x) nx
| F_export_var e v kind l ts x nx : t_val e = T_EXPORT -> var_word v kind -> decs text Other Method Block lax l ts -> semi loose nx x ->
    spelled loose ADecl (NExportVar (t_lo e, last_hi (ts ++ x)) (SVar (t_lo v, last_hi (ts ++ x)) kind l)) (e :: v :: ts ++ x) nx
| F_export_fn e f ts nx : t_val e = T_EXPORT -> spelled loose ADecl f ts nx -> exportable f ->
    spelled loose ADecl (NExportFn (t_lo e, last_hi ts) false f) (e :: ts) nx
| F_export_default_fn e d f ts nx : t_val e = T_EXPORT -> t_val d = T_DEFAULT -> spelled loose ADefault f ts nx -> exportable f ->
    spelled loose ADecl (NExportFn (t_lo e, last_hi ts) true f) (e :: d :: ts) nx
(** the semicolon after the expression may be missing anywhere: C53_semicolon_refuted *)
| F_export_default e d v ts x nx : t_val e = T_EXPORT -> t_val d = T_DEFAULT -> single v ts ->
    ~ In (t_val (hd nx ts)) [T_FUNC; T_CLASS] -> maybe_semi nx x ->
    spelled loose ADecl (NExportDefault (t_lo e, last_hi (ts ++ x)) v) (e :: d :: ts ++ x) nx
| F_rest q r ts nx : Rest q r ts -> spelled loose q (NRest r) ts nx.
End Fn.

(** The parts of expressions and statements that are functions, methods, classes and blocks, [n] deep, with those
    that are not modelled in [Rest]; and what holds of each function in them, [P]. *)
Section Parts.
Variables (text : token -> bytes) (Rest : sort -> rng -> list token -> Prop) (lax : Prop) (P : fnode -> list token -> Prop).
Fixpoint part_of (n : nat) (loose : Prop) (q : sort) (r : rng) (ts : list token) (nx : token) : Prop :=
  match n with
  | O => False
  | S n =>
      exists f, nrange f = r /\ P f ts /\
        spelled text (fun r ts => part_of n False AFunction r ts (eof_tok 0)) (fun r ts => part_of n False AMethod r ts (eof_tok 0))
          (fun r ts => part_of n False ABlock r ts (eof_tok 0)) (part_of n False ADecl) Rest lax loose q f ts nx
  end.
Definition functions_of (n : nat) (r : rng) (ts : list token) : Prop := part_of n False AFunction r ts (eof_tok 0).
Definition methods_of (n : nat) (r : rng) (ts : list token) : Prop := part_of n False AMethod r ts (eof_tok 0).
Definition blocks_of (n : nat) (r : rng) (ts : list token) : Prop := part_of n False ABlock r ts (eof_tok 0).
Definition decls_of (n : nat) (loose : Prop) (r : rng) (ts : list token) (nx : token) : Prop := part_of n loose ADecl r ts nx.
End Parts.

(** What is not modelled begins with its first token, which cannot end a statement, and ends with its last. *)
Definition rest_framed (Rest : sort -> rng -> list token -> Prop) : Prop :=
  forall q r ts, Rest q r ts -> ts <> [] /\ r = (first_lo ts, last_hi ts) /\ ~ stray (hd (eof_tok 0) ts).
(** What is read by the parsers that are not modelled. *)
Definition rest_read (Rest : sort -> rng -> list token -> Prop) (rest_async : bool -> N -> pst -> pres rng)
  (rest_other : N -> pst -> option (pres rng)) : Prop :=
  (forall dec k s r s', rest_async dec k s = POk r s' ->
     exists ts, read s ts s' /\ forall q, q = AFunction /\ dec = false \/ (q = ADecl \/ q = ADefault) /\ dec = true -> Rest q r ts) /\
  (forall k s r s', rest_other k s = Some (POk r s') -> exists ts, read s ts s' /\ Rest AFunction r ts).
