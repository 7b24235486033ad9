(** Functions, methods and classes: their heads, parameters and members; and the whole parser, in which functions
    hold statements and statements hold functions. *)
From Verif Require Import Base TokenModel LexModel ParseBase SymtabModel EarlyModel ExprModel StmtModel.

(** ecma/parser/ast.go PropKind. *)
Inductive mkind := KInit | KMethod | KGet | KSet | KCtor.
Definition mkind_eqb (a b : mkind) : bool :=
  match a, b with KInit, KInit | KMethod, KMethod | KGet, KGet | KSet, KSet | KCtor, KCtor => true | _, _ => false end.
Definition accessor (k : mkind) : bool := match k with KGet | KSet => true | _ => false end.
(** ecma/parser/ast.go Method, and Prop with a function; the node of the function is kept as its range, parameters
    and body; [m_esc] is containsEscape of the key. *)
Record meth := mk_meth {
  m_rng : rng; m_fn : rng; m_kind : mkind; m_static : bool; m_async : bool; m_gen : bool;
  m_key : expr; m_computed : bool; m_esc : bool; m_params : list expr; m_body : stmt }.
(** ecma/parser/ast.go Method, Field, StaticBlock. *)
Inductive member :=
| MMethod (m : meth)
| MField (r : rng) (key : expr) (computed esc static : bool) (value : option expr)
| MStatic (r : rng) (l : list stmt).
(** ecma/parser/ast.go ImportSpec: def, ns, or neither; of the last the id, if it is another node than local. *)
Inductive ispec :=
| IDefault (r : rng) (local : expr)
| INamespace (r : rng) (local : expr)
| INamed (r : rng) (id : option expr) (local : expr).
Definition ispec_range (i : ispec) : rng := match i with IDefault r _ | INamespace r _ | INamed r _ _ => r end.
(** ecma/parser/ast.go ExportSpec; [e_id] if it is another node than local. *)
Record espec := mk_espec { e_rng : rng; e_ns : bool; e_local : expr; e_id : option expr }.
(** ecma/parser/ast.go FnDec, ArrowFn of an async arrow function, ExprStmt that holds one, Prop with a function,
    the BlockStmt of an arrow function, ClassDec with ClassBody, ImportDec, ExportDec of specifiers, of variables, of a
    function or class, of an expression; and what is not modelled.  The body of a function is a [SBlock] or, if it is
    an expression, a [SE]. *)
Inductive fnode :=
| NFn (r : rng) (async gen : bool) (name : option expr) (params : list expr) (body : stmt)
| NArrow (r : rng) (params : list expr) (body : stmt)
| NArrowStmt (r a : rng) (params : list expr) (body : stmt)
| NMethod (m : meth)
| NBlock (b : stmt)
| NClass (r : rng) (name super : option expr) (b : rng) (ms : list member)
| NImport (r : rng) (specs : list ispec) (src : expr)
| NExport (r : rng) (all : bool) (specs : list espec) (src : option expr)
| NExportVar (r : rng) (v : stmt)
| NExportFn (r : rng) (def : bool) (f : fnode)
| NExportDefault (r : rng) (e : expr)
| NRest (r : rng).
Definition nrange (f : fnode) : rng :=
  match f with
  | NFn r _ _ _ _ _ | NArrow r _ _ | NArrowStmt r _ _ _ | NClass r _ _ _ _ | NImport r _ _ | NExport r _ _ _ | NExportVar r _
  | NExportFn r _ _ | NExportDefault r _ | NRest r => r
  | NMethod m => m_rng m
  | NBlock b => srange b
  end.
Definition member_range (m : member) : rng := match m with MMethod m => m_rng m | MField r _ _ _ _ _ | MStatic r _ => r end.

(** ecma/parser/parser.go:1577-1597 isName(key, n, false, true). *)
Definition key_is (text : token -> bytes) (key : expr) (esc : bool) (n : bytes) : bool :=
  match key with
  | EName _ m _ _ => bytes_eqb m n && negb esc
  | ELit _ t => tv_eqb (t_val t) T_STRING && bytes_eqb (text t) n
  | _ => false
  end.
(** ecma/parser/parser.go:5222-5238 nameOfProp. *)
Definition private_name (m : member) : option bytes :=
  match m with
  | MMethod m => match m_key m with EName _ n true _ => Some n | _ => None end
  | MField _ (EName _ n true _) _ _ _ _ => Some n
  | _ => None
  end.
(** ecma/parser/parser.go:1230-1277, in classBody: the constructors and the private names, of which the last member
    that has one is kept. *)
Definition is_ctor (text : token -> bytes) (m : member) : bool :=
  match m with MMethod m => key_is text (m_key m) (m_esc m) (bs "constructor") | _ => false end.
Definition named (n : bytes) (m : member) : bool := match private_name m with Some p => bytes_eqb p n | None => false end.
Definition pair_ok (a b : member) : bool :=
  match a, b with
  | MMethod a, MMethod b =>
      accessor (m_kind a) && accessor (m_kind b) && Bool.eqb (m_static a) (m_static b) && negb (mkind_eqb (m_kind a) (m_kind b))
  | _, _ => false
  end.
Definition member_clash (text : token -> bytes) (before : list member) (m : member) : bool :=
  is_ctor text m && existsb (is_ctor text) before ||
  match private_name m with
  | Some n => match find (named n) (rev before) with Some p => negb (pair_ok m p) | None => false end
  | None => false
  end.

Section Fn.
(** As for statements; [lhs]: the parser of left hand sides, [args]: argList(false, false, ...), [body]: blockStmt
    without a scope of its own, [var]: varDecStmt(kind, false).
    What is not modelled: [fn_ok] are the checks of the names of a function, of its parameters and of what it
    declares (see C33), [class_ok] of the name of a class; [rest_async] reads what begins with async but is neither
    an async function nor an async arrow function; [rest_other] JSX elements and expressions that begin with import.
    Not modelled at all: TypeScript, decorators.
    Simplified: the name of a function is read in the current scope, not in that of the nearest function. *)
Variables (feat : N) (text : token -> bytes) (chk : pst -> bool).
Variables (ex asg lhs : N -> pst -> pres expr) (args : N -> pst -> pres (list expr * bool)) (body : N -> pst -> pres stmt)
  (var : tv -> N -> pst -> pres stmt).
Variables (fn_ok : N -> option expr -> list expr -> stmt -> pst -> bool) (class_ok : N -> expr -> pst -> bool).
Variables (rest_async : bool -> N -> pst -> pres rng) (rest_other : N -> pst -> option (pres rng)).
Variable fuel : nat.

(** ecma/parser/parser.go:2484-2509 aheadIsAsync. *)
Definition ahead_async (k : N) (prop pvt : bool) (s : pst) : bool :=
  has feat FEAT_ASYNC_AWAIT && is_name (peek s) (bs "async") true &&
  let a := peek (next s) in
  let v := t_val a in
  negb (t_atl a) &&
  (tv_eqb v T_FUNC || tv_eqb v T_PAREN_L && negb prop || tv_eqb v T_MUL ||
   prop && (tv_eqb v T_BRACKET_L || tv_eqb v T_NAME || tv_eqb v T_STRING || can_be_key a) ||
   pvt && tv_eqb v T_NAME_PVT ||
   tv_eqb v T_NAME && negb (has k SPK_NOT_IN && (is_name a (bs "in") false || is_name a (bs "of") false))).

(** ecma/parser/parser.go:2580-2588, in fnDec: the scope of a function; 3507 in paramList: that of its parameters. *)
Definition fn_kind (k : N) (async gen : bool) : N :=
  let k := entered_kind k true false in
  let k := if async then N.lor k SPK_ASYNC else k in
  if gen then N.lor k SPK_GENERATOR else k.
Definition param_kind (k : N) : N := N.lor k SPK_FORMAL_PARAMS.

(** ecma/parser/parser.go:3402-3500 param. *)
Definition param (kind : mkind) (k : N) (s : pst) : pres expr :=
  let s := peeked s in
  let t := peek s in
  if has k SPK_METHOD && at_tok T_THIS s then
    if accessor kind then PErr else POk (EName (fin (t_lo t) (next s)) (bs "this") false true) (next s)
  else
    pbind (bind feat text asg fuel false k s) (fun b s1 =>
    if at_tok T_ASSIGN s1 then
      pbind (asg k (next s1)) (fun e s2 =>
      alift (check_default k (chk s2) true false false e) (fun _ =>
      alift (check_arg k text false false e) (fun _ =>
      if is_rest b then PErr else POk (PAssign (fin (lo b) s2) b e) s2)))
    else POk b (peeked s1)).
(** ecma/parser/parser.go:3502-3587 paramList; nothing is a N_SPREAD here. *)
Fixpoint param_loop (n : nat) (kind : mkind) (k : N) (acc : list expr) (s : pst) : pres (list expr) :=
  match n with
  | O => PFuel
  | S n =>
      if at_tok T_PAREN_R s then POk acc (next s)
      else if at_tok T_EOF s then PErr
      else
        pbind (param kind k (peeked s)) (fun p s1 =>
        if at_tok T_COMMA s1 then param_loop n kind k (acc ++ [p]) (next s1)
        else if at_tok T_PAREN_R s1 then POk (acc ++ [p]) (next s1)
        else PErr)
  end.
Definition param_list (kind : mkind) (k : N) (s : pst) : pres (list expr) :=
  pbind (must T_PAREN_L s) (fun _ s1 => param_loop fuel kind (param_kind k) [] s1).

(** The body: a block, or an expression if that is allowed. *)
Definition fn_body (expr_ok : bool) (k : N) (s : pst) : pres stmt :=
  if at_tok T_BRACE_L s then body k (peeked s)
  else if expr_ok then pbind (ex k (peeked s)) (fun e s1 => POk (SE e) s1)
  else PErr.
(** ecma/parser/parser.go:2512-2842 fnDec, with the keyword function; [dec]: as a statement; [anon]: canNameOmitted. *)
Definition fn_dec (dec anon : bool) (k : N) (s : pst) : pres fnode :=
  let async := negb (at_tok T_FUNC s) in
  let s1 := if async then next s else s in
  let s2 := peeked (next s1) in
  let gen := at_tok T_MUL s2 in
  if gen && async && negb (has feat FEAT_ASYNC_GENERATOR) then PErr
  else
    let s3 := if gen then next s2 else s2 in
    pbind (if at_tok T_PAREN_L s3 then if dec && negb anon then PErr else POk None (peeked s3)
           else pbind (ident text k s3) (fun e s4 => POk (Some e) s4)) (fun name s4 =>
    let kf := fn_kind k async gen in
    pbind (param_list KInit kf (peeked s4)) (fun ps s5 =>
    if at_tok T_ARROW s5 && negb (t_atl (peek s5)) then PErr
    else
      pbind (fn_body (negb dec) kf s5) (fun b s6 =>
      if fn_ok kf name ps b s6 then POk (NFn (fin (t_lo (peek s)) s6) async gen name ps b) s6 else PErr))).
(** ... and without it: an async arrow function, or [None] if no arrow follows. *)
Definition async_arrow (dec : bool) (k : N) (s : pst) : pres (option fnode) :=
  let s1 := peeked (next s) in
  let gen := at_tok T_MUL s1 in
  if gen && negb (has feat FEAT_ASYNC_GENERATOR) then PErr
  else
    let s2 := if gen then next s1 else s1 in
    let kf := fn_kind k true gen in
    let list s := pbind (args (param_kind kf) s) (fun a s' => POk (fst a) s') in
    pbind (if at_tok T_PAREN_L s2 then pbind (list (peeked s2)) (fun a s3 => POk (None, a) s3)
           else
             pbind (ident text k s2) (fun e s3 =>
             pbind (if at_tok T_ARROW s3 && negb (t_atl (peek s3)) then POk [e] (peeked s3) else list (peeked s3)) (fun a s4 =>
             POk (Some e, a) s4))) (fun x s4 =>
    let '(name, a) := x in
    if at_tok T_ARROW s4 && negb (t_atl (peek s4)) then
      let s5 := peeked (next s4) in
      let ka := N.lor kf SPK_ARROW in
      alift (snd (args_to_params ka feat (chk s5) text a)) (fun ps =>
      pbind (fn_body true ka s5) (fun b s6 =>
      if fn_ok ka name ps b s6 then
        let r := fin (t_lo (peek s)) s6 in
        if dec then pbind (advance_if_semi true s6) (fun _ s7 => POk (Some (NArrowStmt (fin (t_lo (peek s)) s7) r ps b)) s7)
        else POk (Some (NArrow r ps b)) s6
      else PErr))
    else POk None s4).
Definition to_range (x : pres fnode) : pres rng := pbind x (fun f s => POk (nrange f) s).
Definition as_rest (x : pres rng) : pres fnode := pbind x (fun r s => POk (NRest r) s).
Definition async_node (dec anon : bool) (k : N) (s : pst) : pres fnode :=
  if contains_escape (peek s) then PErr
  else if at_tok T_FUNC (next s) then fn_dec dec anon k s
  else
    pbind (async_arrow dec k s) (fun o s1 => match o with Some f => POk f s1 | None => as_rest (rest_async dec k s) end).

(** ecma/parser/parser.go:3755-3802 propName(pvt, false, ...): the key, whether it is computed, and its containsEscape. *)
Definition key_tok (s : pst) : token := if at_tok T_BRACKET_L s then peek (next s) else peek s.
Definition key_at (pvt : bool) (k : N) (s : pst) : pres (expr * bool * bool) :=
  let t := peek s in
  if pvt && at_tok T_NAME_PVT s then POk (EName (fin (t_lo t) (next s)) (text t) true false, false, contains_escape t) (next s)
  else pbind (prop_name text asg k s) (fun x s1 => POk (x, contains_escape (key_tok s)) s1).

(** ecma/parser/parser.go:6146-6331 method: the scope; and what comes after the key. *)
Definition method_kind (k : N) (kind : mkind) (static async gen : bool) : N :=
  let k := N.lor (entered_kind k true false) SPK_METHOD in
  let k := if mkind_eqb kind KCtor && negb static then N.lor k SPK_CTOR else k in
  let k := if async then N.lor k SPK_ASYNC else k in
  if gen then N.lor k SPK_GENERATOR else k.
Definition count_ok (kind : mkind) (ps : list expr) : bool :=
  match kind, ps with
  | KGet, [] => true
  | KGet, _ => false
  | KSet, [p] => negb (is_rest p)
  | KSet, _ => false
  | _, _ => true
  end.
Definition method_rest (inclass static async gen : bool) (kind : mkind) (l : nat) (k : N) (key : expr) (computed esc : bool) (s : pst) : pres meth :=
  let km := method_kind k kind static async gen in
  if key_is text key esc (bs "constructor") && negb computed && (accessor kind || async || gen) then PErr
  else
    let s := peeked s in
    pbind (param_list kind km s) (fun ps s1 =>
    if negb (count_ok kind ps) then PErr
    else
      pbind (fn_body false km s1) (fun b s2 =>
      if negb (fn_ok km None ps b s2) then PErr
      else if inclass && static && key_is text key esc (bs "prototype") then PErr
      else POk (mk_meth (fin l s2) (fin (t_lo (peek s)) s2) kind static async gen key computed esc ps b) s2)).
(** ... with async, an asterisk and the key before it. *)
Definition method_new (inclass static async gen : bool) (kind : mkind) (l : nat) (k : N) (s : pst) : pres meth :=
  let s1 := if async then next s else s in
  let gen := if async then at_tok T_MUL s1 else gen in
  if async && gen && negb (has feat FEAT_ASYNC_GENERATOR) then PErr
  else
    let s2 := if gen then next s1 else s1 in
    pbind (key_at inclass (method_kind k kind static async gen) s2) (fun x s3 =>
    let '(key, computed, esc) := x in
    method_rest inclass static async gen kind l k key computed esc s3).

(** ecma/parser/parser.go:1599-1706 field: after the key. *)
Definition field_rest (static : bool) (l : nat) (k : N) (key : expr) (computed esc : bool) (s : pst) : pres member :=
  let make (v : option expr) (s : pst) :=
    if static && key_is text key esc (bs "prototype") then PErr
    else if key_is text key esc (bs "constructor") then PErr
    else POk (MField (fin l s) key computed esc static v) s in
  if at_tok T_ASSIGN s then
    pbind (asg k (next s)) (fun v s1 =>
    pbind (advance_if_semi false s1) (fun _ s2 =>
    alift (check_default k true true false false v) (fun _ => make (Some v) s2)))
  else if at_tok T_PAREN_L s then
    pbind (method_rest true static false false KMethod l k key computed esc s) (fun m s1 => POk (MMethod m) s1)
  else pbind (advance_if_semi false s) (fun _ s1 => make None s1).

(** ecma/parser/parser.go:1446-1575 classElem, after the modifier static if [static]; [l]: where the member begins. *)
Definition is_get (n : bytes) : bool := bytes_eqb n (bs "get").
Definition is_set (n : bytes) : bool := bytes_eqb n (bs "set").
Definition as_member (x : pres meth) : pres member := pbind x (fun m s => POk (MMethod m) s).
Definition elem_rest (static : bool) (l : nat) (k : N) (s : pst) : pres member :=
  let t := peek s in
  let n := text t in
  if ahead_async k true true s then
    if contains_escape t then PErr else as_member (method_new true static true false KMethod l k s)
  else if at_tok T_MUL s then
    if negb (has feat FEAT_ASYNC_GENERATOR) then PErr else as_member (method_new true static false true KMethod l k s)
  else if at_tok T_NAME s || at_tok T_STRING s || is_kw (t_val t) then
    let s1 := peeked (next s) in
    let key := if at_tok T_STRING s then ELit (fin (t_lo t) s1) t else EName (fin (t_lo t) s1) n false (is_kw (t_val t)) in
    let esc := contains_escape t in
    if is_field feat (is_get n || is_set n) s1 then field_rest static l k key false esc s1
    else if at_tok T_PAREN_L s1 then
      as_member (method_rest true static false false (if bytes_eqb n (bs "constructor") then KCtor else KMethod) l k key false esc s1)
    else if is_get n then as_member (method_new true static false false KGet l k s1)
    else if is_set n then as_member (method_new true static false false KSet l k s1)
    else PErr
  else
    pbind (key_at true k s) (fun x s1 =>
    let '(key, computed, esc) := x in field_rest static l k key computed esc (peeked s1)).
(** ecma/parser/parser.go:1333-1444 modifiers, 1446-1490 of classElem, 1712-1718 staticBlock; isField(true, false)
    looks at the token only. *)
Definition block_list (b : stmt) : list stmt := match b with SBlock _ l => l | _ => [] end.
Definition class_elem (k : N) (s : pst) : pres member :=
  let t := peek s in
  let l := t_lo t in
  if at_tok T_STATIC s then
    let s1 := peeked (next s) in
    let key := EName (t_lo t, t_hi t) (text t) false true in
    if has feat FEAT_CLASS_PUB_FIELD && existsb (tv_eqb (pval s1)) [T_COLON; T_ASSIGN; T_SEMI; T_COMMA; T_BRACE_R; T_PAREN_R]
    then field_rest false l k key false (contains_escape t) s1
    else if at_tok T_BRACE_L s1 then pbind (body (block_kind k 0) s1) (fun b s2 => POk (MStatic (fin l s2) (block_list b)) s2)
    else if at_tok T_PAREN_L s1 then as_member (method_rest true false false false KMethod l k key false (contains_escape t) s1)
    else elem_rest true l k s1
  else if at_tok T_PAREN_L s then
    as_member (method_rest true false false false KMethod l k (EName (0, 0) [] false true) false false s)
  else elem_rest false l k s.
(** ecma/parser/parser.go:1184-1331 classBody, after the brace. *)
Fixpoint class_loop (n : nat) (k : N) (acc : list member) (s : pst) : pres (list member) :=
  match n with
  | O => PFuel
  | S n =>
      if at_tok T_BRACE_R s then POk acc (next s)
      else if at_tok T_EOF s then PErr
      else if at_tok T_SEMI s then class_loop n k acc (next s)
      else
        pbind (class_elem k (peeked s)) (fun m s1 =>
        if member_clash text acc m then PErr else class_loop n k (acc ++ [m]) s1)
  end.
(** ecma/parser/parser.go:1059-1182 classDec; the name is read in strict mode. *)
Definition class_ident (k : N) (s : pst) : pres expr :=
  if is_prohibited (has k SPK_STRICT) (has k SPK_ASYNC) (text (peek s)) true false false true then PErr else ident text k s.
Definition class_kind (k : N) (super : bool) : N :=
  let k := N.lor (entered_kind k true false) (N.lor SPK_STRICT (N.lor SPK_STRICT_DIR SPK_CLASS)) in
  if super then N.lor k SPK_CLASS_HAS_SUPER else k.
Definition class_dec (dec anon : bool) (k : N) (s : pst) : pres fnode :=
  let s1 := peeked (next s) in
  pbind (if at_tok T_BRACE_L s1 || at_tok T_EXTENDS s1 then if dec && negb anon then PErr else POk None s1
         else pbind (class_ident k s1) (fun e s2 => if class_ok k e s2 then POk (Some e) (peeked s2) else PErr)) (fun name s2 =>
  pbind (if at_tok T_EXTENDS s2 then
           pbind (lhs (N.lor k SPK_CLASS_EXTEND_SUPER) (peeked (next s2))) (fun e s3 =>
           alift (check_default k (chk s3) false false false e) (fun _ => POk (Some e) (peeked s3)))
         else POk None s2) (fun super s3 =>
  pbind (must T_BRACE_L s3) (fun _ s4 =>
  pbind (class_loop fuel (class_kind k (match super with Some _ => true | None => false end)) [] s4) (fun ms s5 =>
  POk (NClass (fin (t_lo (peek s)) s5) name super (fin (t_lo (peek s3)) s5) ms) s5)))).

(** ecma/parser/parser.go:732-740 identWithKw; the text of a keyword is the name of its kind, as it has no escape. *)
Definition ident_kw (k : N) (s : pst) : pres expr :=
  let t := peek s in
  if is_kw (t_val t) then POk (EName (fin (t_lo t) (next s)) (text t) false true) (next s) else ident text k s.
Definition is_kw_e (e : expr) : bool := match e with EName _ _ _ kw => kw | _ => false end.
(** ecma/parser/parser.go:6474-6477 aheadIsName. *)
Definition ahead_name (n : bytes) (s : pst) : bool := is_name (peek s) n true.
(** ecma/parser/parser.go:952-1009 importSpec, 1011-1038 importNamed, 1040-1056 importNS, 941-950 importNamedOrNS. *)
Definition import_spec (k : N) (s : pst) : pres ispec :=
  let s := peeked s in
  pbind (ident_kw k s) (fun b s1 =>
  let s1 := peeked s1 in
  if ahead_name (bs "as") s1 then
    pbind (ident text k (next s1)) (fun l s2 => POk (INamed (fin (here s) s2) (Some b) l) s2)
  else if is_kw_e b then PErr
  else POk (INamed (fin (here s) s1) None b) s1).
Fixpoint import_named (n : nat) (k : N) (acc : list ispec) (s : pst) : pres (list ispec) :=
  match n with
  | O => PFuel
  | S n =>
      if at_tok T_BRACE_R s then POk acc (next s)
      else if at_tok T_EOF s then PErr
      else pbind (import_spec k s) (fun i s1 => import_named n k (acc ++ [i]) (if at_tok T_COMMA s1 then next s1 else peeked s1))
  end.
Definition import_group (k : N) (s : pst) : pres (list ispec) :=
  let s := peeked s in
  if at_tok T_BRACE_L s then import_named fuel k [] (next s)
  else if at_tok T_MUL s then
    let s1 := next s in
    if is_name (peek s1) (bs "as") false then
      pbind (ident text k (next s1)) (fun l s2 => POk [INamespace (fin (here s) s2) l] s2)
    else PErr
  else PErr.
(** ecma/parser/parser.go:800-939 importDec, the declaration; that a name is imported twice is not checked (931). *)
Definition import_dec (k : N) (s : pst) : pres fnode :=
  let s1 := peeked (next s) in
  pbind (if at_tok T_STRING s1 then POk [] s1
         else
           pbind (if at_tok T_NAME s1 then pbind (ident text k s1) (fun e s2 => POk [IDefault (fin (here s1) s2) e] s2)
                  else import_group k s1) (fun l s2 =>
           if at_tok T_COMMA s2 then pbind (import_group k (next s2)) (fun l' s3 => POk (l ++ l') s3) else POk l s2)) (fun l s2 =>
  let s2 := peeked s2 in
  let s3 := if is_name (peek s2) (bs "from") false then next s2 else s2 in
  if negb (at_tok T_STRING s3) then PErr
  else if has k SPK_STRICT && match t_ext (peek s3) with XStr _ b => b | _ => false end then PErr
  else
    let s4 := next s3 in
    pbind (advance_if_semi true s4) (fun _ s5 =>
    POk (NImport (fin (t_lo (peek s)) s5) l (ELit (fin (t_lo (peek s3)) s4) (peek s3))) s5)).

(** ecma/parser/parser.go:743-797 exportSpec, 699-730 exportNamed, 647-697 exportFrom. *)
Definition export_spec (k : N) (s : pst) : pres espec :=
  let s := peeked s in
  pbind (ident_kw k s) (fun l s1 =>
  let s1 := peeked s1 in
  if ahead_name (bs "as") s1 then
    if contains_escape (peek s1) then PErr
    else pbind (ident_kw k (next s1)) (fun e s2 => POk (mk_espec (fin (here s) s2) false l (Some e)) s2)
  else POk (mk_espec (fin (here s) s1) false l None) s1).
Fixpoint export_named (n : nat) (k : N) (acc : list espec) (s : pst) : pres (list espec) :=
  match n with
  | O => PFuel
  | S n =>
      if at_tok T_BRACE_R s then POk acc (next s)
      else if at_tok T_EOF s then PErr
      else
        pbind (export_spec k s) (fun e s1 =>
        if at_tok T_COMMA s1 then export_named n k (acc ++ [e]) (next s1)
        else if at_tok T_BRACE_R s1 then POk (acc ++ [e]) (next s1)
        else PErr)
  end.
Definition export_from (k : N) (s : pst) : pres (bool * list espec * option expr) :=
  let ns := at_tok T_MUL s in
  pbind (if ns then
           let s1 := peeked (next s) in
           if ahead_name (bs "as") s1 && has feat FEAT_EXPORT_ALL_AS_NS then
             pbind (ident text k (next s1)) (fun e s2 => POk [mk_espec (fin (t_lo (peek s)) s2) true e None] s2)
           else POk [] s1
         else export_named fuel k [] (next s)) (fun l s1 =>
  let s1 := peeked s1 in
  if is_name (peek s1) (bs "from") false then
    let s2 := next s1 in
    if at_tok T_STRING s2 then POk (ns, l, Some (ELit (fin (t_lo (peek s2)) (next s2)) (peek s2))) (next s2) else PErr
  else if ns || existsb (fun e => is_kw_e (e_local e)) l then PErr
  else POk (ns, l, None) s1).
(** ecma/parser/parser.go:459-624 exportDec; 629-645 addExp: the scope must be that of the program. *)
Definition export_fn (l : nat) (def : bool) (x : pres fnode) : pres fnode :=
  pbind x (fun f s => POk (NExportFn (fin l s) def f) s).
Definition export_any (k : N) (s : pst) : pres fnode :=
  let l := t_lo (peek s) in
  let s1 := peeked (next s) in
  if at_tok T_MUL s1 || at_tok T_BRACE_L s1 then
    pbind (export_from k s1) (fun x s2 =>
    let '(ns, specs, src) := x in
    pbind (advance_if_semi true s2) (fun _ s3 => POk (NExport (fin l s3) ns specs src) s3))
  else
    match ahead_var feat k s1 with
    | Some kind => pbind (var kind k s1) (fun v s2 => POk (NExportVar (fin l s2) v) s2)
    | None =>
        if at_tok T_FUNC s1 then export_fn l false (fn_dec true false k s1)
        else if ahead_async k false false s1 then export_fn l false (async_node true false k s1)
        else if at_tok T_CLASS s1 then export_fn l false (class_dec true false k s1)
        else if at_tok T_DEFAULT s1 then
          let s2 := peeked (next s1) in
          if at_tok T_FUNC s2 then export_fn l true (fn_dec true true k s2)
          else if ahead_async k false false s2 then export_fn l true (async_node true true k s2)
          else if at_tok T_CLASS s2 then export_fn l true (class_dec true true k s2)
          else
            pbind (asg k s2) (fun e s3 =>
            pbind (advance_if_semi false s3) (fun _ s4 => POk (NExportDefault (fin l s4) e) s4))
        else PErr
    end.
Definition export_dec (k : N) (s : pst) : pres fnode :=
  if negb (has feat FEAT_EXPORT_DEC) then PErr
  else pbind (export_any k s) (fun f s1 => if has k SPK_GLOBAL then POk f s1 else PErr).

(** ecma/parser/parser.go:5681-5705 of primaryExpr. *)
Definition other_at (k : N) (s : pst) : option (pres rng) :=
  if at_tok T_FUNC s then Some (to_range (fn_dec false false k s))
  else if at_tok T_CLASS s then Some (to_range (class_dec false false k s))
  else if ahead_async k false false s then Some (to_range (async_node false false k s))
  else rest_other k s.
(** ecma/parser/parser.go:336-453 stmt: the declarations, and the checks on what they are part of; a function is
    checked after it was read, as imports and exports are.  An import that begins an expression is none. *)
Definition sole (k : N) (x : pres rng) : pres rng :=
  pbind x (fun r s => if has k SPK_INTERIM && (has k SPK_STRICT || has k SPK_LOOP_DIRECT) then PErr else POk r s).
Definition top (k : N) (x : pres rng) : pres rng := pbind x (fun r s => if has k SPK_INTERIM then PErr else POk r s).
Definition decl_at (k : N) (s : pst) : option (pres rng) :=
  if at_tok T_FUNC s then Some (sole k (to_range (fn_dec true false k s)))
  else if at_tok T_CLASS s then Some (if has k SPK_INTERIM then PErr else to_range (class_dec true false k s))
  else if at_tok T_IMPORT s then
    if negb (has feat FEAT_IMPORT_DEC) && negb (has feat FEAT_DYNAMIC_IMPORT) then Some PErr
    else if at_tok T_PAREN_L (next s) || at_tok T_DOT (next s) then None
    else Some (top k (to_range (import_dec k s)))
  else if at_tok T_EXPORT s then Some (top k (to_range (export_dec k s)))
  else if ahead_async k false false s then
    Some (if at_tok T_FUNC (next s) then sole k (to_range (async_node true false k s)) else to_range (async_node true false k s))
  else None.
(** ecma/parser/parser.go:6082-6144 objProp, propData, 3803-3827 propName: the methods of an object literal.  A key
    that is not one is found again by the parser of properties.  (No bracket has the text get or set.) *)
Definition as_method (x : pres meth) : option (pres rng) := Some (pbind x (fun m s => POk (m_rng m) s)).
Definition method_at (k : N) (s : pst) : option (pres rng) :=
  let t := peek s in
  let l := t_lo t in
  let n := if at_tok T_BRACKET_L s then [] else text t in
  if at_tok T_MUL s then
    if negb (has feat FEAT_ASYNC_GENERATOR) then Some PErr else as_method (method_new false false false true KInit l k s)
  else if ahead_async k true false s then
    if contains_escape t then Some PErr else as_method (method_new false false true false KInit l k s)
  else
    match key_at false k s with
    | PFuel => Some PFuel
    | PErr | PPanic => None
    | POk (key, computed, esc) s1 =>
        let s1 := peeked s1 in
        if is_field feat (is_get n || is_set n) s1 then
          if at_tok T_PAREN_L s1 then as_method (method_rest false false false false KInit l k key computed esc s1) else None
        else if is_get n || is_set n then
          if contains_escape t then Some PErr
          else if at_tok T_PAREN_L s1 then as_method (method_rest false false false false KInit l k key computed esc s1)
          else as_method (method_new false false false false (if is_get n then KGet else KSet) l k s1)
        else as_method (method_rest false false false false KInit l k key computed esc s1)
    end.
(** ecma/parser/parser.go:2959-2961 fnBody. *)
Definition block_at (k : N) (s : pst) : pres rng := pbind (body k s) (fun b s1 => POk (srange b) s1).
End Fn.

(** The whole parser.  What [expression], [assignment], ... are given: the parsers of functions, methods and
    classes, each with its own fuel. *)
Record world := mk_world {
  w_other : N -> pst -> option (pres rng); w_method : N -> pst -> option (pres rng);
  w_block : N -> pst -> pres rng; w_decl : N -> pst -> option (pres rng) }.
Definition stuck : world := mk_world (fun _ _ => Some PFuel) (fun _ _ => Some PFuel) (fun _ _ => PFuel) (fun _ _ => Some PFuel).

Section World.
Variables (feat : N) (text : token -> bytes) (chk : pst -> bool).
Variables (params_ok : N -> list expr -> pst -> bool) (names_ok : N -> list expr -> pst -> bool)
  (jump_ok : N -> stmt -> pst -> bool) (use_strict : token -> bool)
  (fn_ok : N -> option expr -> list expr -> stmt -> pst -> bool) (class_ok : N -> expr -> pst -> bool).
Variables (rest_async : bool -> N -> pst -> pres rng) (rest_other : N -> pst -> option (pres rng)).

(** Expressions and statements, in which [w] reads the functions. *)
Definition w_calls (n : nat) (w : world) : calls := calls_at feat text chk (w_other w) (w_method w) (w_block w) params_ok n.
Definition w_asg (n : nat) (w : world) (k : N) (s : pst) : pres expr := c_assign (w_calls n w) k true s.
Definition w_args (n : nat) (w : world) (k : N) (s : pst) : pres (list expr * bool) := c_arg_list (w_calls n w) k false false s.
Definition w_stmt (n : nat) (w : world) : N -> pst -> pres stmt :=
  stmt_at feat text chk (c_seq (w_calls n w)) (w_asg n w) (w_decl w) names_ok jump_ok use_strict n.
Definition w_body (n : nat) (w : world) : N -> pst -> pres stmt := block_stmt use_strict (w_stmt n w) n.
Definition grow (n : nat) (w : world) : world :=
  let ex := c_seq (w_calls n w) in
  let asg := w_asg n w in
  let lhs := c_lhs (w_calls n w) in
  let args := w_args n w in
  let body := w_body n w in
  let var kind := var_stmt feat text asg names_ok n kind false in
  mk_world
    (other_at feat text chk ex asg lhs args body fn_ok class_ok rest_async rest_other n)
    (method_at feat text chk ex asg body fn_ok n)
    (block_at body)
    (decl_at feat text chk ex asg lhs args body var fn_ok class_ok rest_async n).
Fixpoint world_at (n : nat) : world := match n with O => stuck | S n => grow n (world_at n) end.
(** ecma/parser/parser.go:191-247 Prog, the statements. *)
Definition parse (n : nat) (k : N) (s : pst) : pres (list stmt) :=
  program feat text chk (c_seq (w_calls n (world_at n))) (w_asg n (world_at n)) (w_decl (world_at n)) names_ok jump_ok use_strict n k s.
Definition parse_expr (n : nat) (k : N) (s : pst) : pres expr := c_seq (w_calls n (world_at n)) k s.
End World.
