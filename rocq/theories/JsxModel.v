(** JSX: elements, their tags, attributes and contents. *)
From Verif Require Import Base TokenModel LexModel ParseBase SymtabModel EarlyModel ExprModel StmtModel.

(** ecma/parser/jsx_ast.go: JsxIdent, JsxMember, JsxNsName. *)
Inductive jname :=
| JId (r : rng) (n : bytes)
| JMember (r : rng) (o : jname) (p : expr)
| JNs (r : rng) (ns n : jname).
Definition jrange (n : jname) : rng := match n with JId r _ | JMember r _ _ | JNs r _ _ => r end.

(** What the braces hold, ecma/parser/jsx_ast.go JsxExprSpan, JsxEmpty, and a bare Spread. *)
Inductive jcont :=
| CSpread (r : rng) (e : expr)
| CExpr (r : rng) (e : expr)
| CEmpty (r inner : rng).
Definition crange (c : jcont) : rng := match c with CSpread r _ | CExpr r _ | CEmpty r _ => r end.

(** ecma/parser/jsx_ast.go JsxOpen, JsxClose: the range, and the name with its text; a fragment has none. *)
Record jopen := mk_open { o_rng : rng; o_name : option (jname * bytes); o_closed : bool }.
Record jclose := mk_close { c_rng : rng; c_name : option (jname * bytes) }.
(** nameStr. *)
Definition name_str (n : option (jname * bytes)) : bytes := match n with Some (_, p) => p | None => [] end.

(** ecma/parser/jsx_ast.go JsxElem (with the attributes of its JsxOpen), JsxAttr, JsxSpreadAttr, the children. *)
Inductive jelem :=
| JElem (r : rng) (o : jopen) (attrs : list jattr) (children : list jchild) (c : option jclose)
with jattr :=
| ASpread (r : rng) (c : jcont)
| AAttr (r : rng) (n : jname) (path : bytes) (v : jval)
with jval :=
| VNone
| VStr (r : rng) (t : token)
| VCont (c : jcont)
| VElem (e : jelem)
with jchild :=
| KText (r : rng) (t : token)
| KSpace (r : rng)
| KCont (c : jcont)
| KSpread (r : rng) (e : expr)
| KElem (e : jelem).
Definition erange (e : jelem) : rng := match e with JElem r _ _ _ _ => r end.
Definition krange (c : jchild) : rng :=
  match c with KText r _ | KSpace r | KSpread r _ => r | KCont c => crange c | KElem e => erange e end.

(** What jsx returns: an element or a closing tag. *)
Inductive jtag := TElem (e : jelem) | TClose (c : jclose).

Section Jsx.
(** The features (FEAT_JSX is on, FEAT_TS off); TokText; the parsers of expressions ([ex]: expr, [asg]:
    assignExpr(true, ...)).
    Simplified: the tokens are those the lexer hands over in its JSX modes, see C18 and C55 for these. *)
Variables (feat : N) (text : token -> bytes) (ex asg : N -> pst -> pres expr).

(** ecma/parser/jsx.go:39-48 jsxId. *)
Definition jsx_id (s : pst) : pres (jname * bytes) :=
  if at_tok T_NAME s then POk (JId (fin (t_lo (peek s)) (next s)) (text (peek s)), text (peek s)) (next s) else PErr.

(** ecma/parser/jsx.go:9-26 jsxMember. *)
Definition ident_val (e : expr) : bytes := match e with EName _ n _ _ => n | _ => [] end.
Fixpoint jsx_member (fuel : nat) (k : N) (o : jname) (path : bytes) (s : pst) : pres (jname * bytes) :=
  match fuel with
  | O => PFuel
  | S fuel =>
      if at_tok T_DOT s then
        pbind (ident text k (next s)) (fun p s1 =>
        jsx_member fuel k (JMember (fin (fst (jrange o)) s1) o p) (path ++ bs "." ++ ident_val p) s1)
      else POk (o, path) (peeked s)
  end.

(** ecma/parser/jsx.go:28-37 jsxNsExpr. *)
Definition jsx_ns (ns : jname) (path : bytes) (s : pst) : pres (jname * bytes) :=
  pbind (must T_COLON s) (fun _ s1 =>
  pbind (jsx_id s1) (fun np s2 =>
  POk (JNs (fin (fst (jrange ns)) s2) ns (fst np), path ++ bs ":" ++ snd np) s2)).

(** ecma/parser/jsx.go:50-74 jsxName, the name. *)
Definition is_ns (n : jname) : bool := match n with JNs _ _ _ => true | _ => false end.
Definition jsx_head (fuel : nat) (k : N) (s : pst) : pres (jname * bytes) :=
  pbind (jsx_id s) (fun np s1 =>
  let s1 := peeked s1 in
  if at_tok T_DOT s1 then jsx_member fuel k (fst np) (snd np) s1
  else if at_tok T_COLON s1 && has feat FEAT_JSX_NS then jsx_ns (fst np) (snd np) s1
  else POk np s1).

(** ecma/parser/jsx.go:185-222 jsxExpr after the brace that began at [l]; spread is parser.go:6015-6045.
    Simplified: where the inside of empty braces begins is counted in runes by Rng (lexer.go:229-239), the other
    places in bytes; here it is in bytes. *)
Definition jsx_cont (k : N) (l : nat) (s : pst) : pres jcont :=
  let b := here s in
  let s := peeked s in
  if at_tok T_DOT_TRI s then
    if negb (has feat FEAT_SPREAD) then PErr
    else
      pbind (asg k (next s)) (fun e s1 =>
      pbind (must T_BRACE_R s1) (fun _ s2 => POk (CSpread (fin (here s) s1) e) s2))
  else if at_tok T_BRACE_R s then POk (CEmpty (fin l (next s)) (b, t_lo (peek s))) (next s)
  else
    pbind (ex k s) (fun e s1 =>
    pbind (must T_BRACE_R s1) (fun _ s2 => POk (CExpr (fin l s2) e) s2)).

(** ecma/parser/jsx.go:256-267 jsxWsTxt: the white space the lexer skipped before the next token, if it was not
    taken yet. *)
Definition ws_txt (fresh : bool) (s : pst) : list jchild :=
  if fresh && Nat.ltb (p_end s) (t_lo (peek s)) then [KSpace (p_end s, t_lo (peek s))] else [].

(** ecma/parser/jsx.go:246-253 isCloseTag. *)
Definition closes (o : jopen) (c : jclose) : bool := bytes_eqb (name_str (o_name o)) (name_str (c_name c)).

(** ecma/parser/jsx.go:50-89 jsxName with tsTryTypArgs (ts.go:1604-1611), which without TypeScript reads an element
    that is then dropped: newTypInfo (ts.go:39-44) is nil.
    91-140 jsxAttr, 142-157 jsxAttrs, 159-183 jsxOpen, 224-244 jsxClose, 271-371 jsx, 294-358 its loop. *)
Fixpoint jsx_name (fuel : nat) (k : N) (s : pst) {struct fuel} : pres (jname * bytes) :=
  match fuel with
  | O => PFuel
  | S fuel =>
      pbind (jsx_head fuel k s) (fun np s1 =>
      if at_tok T_LT s1 then
        pbind (jsx fuel k true false (peeked s1)) (fun _ s2 => if is_ns (fst np) then PErr else POk np s2)
      else POk np (peeked s1))
  end
with jsx_attr (fuel : nat) (k : N) (s : pst) {struct fuel} : pres jattr :=
  match fuel with
  | O => PFuel
  | S fuel =>
      let l := t_lo (peek s) in
      if at_tok T_BRACE_L s then
        pbind (jsx_cont k l (next s)) (fun c s1 =>
        match c with CSpread _ _ => POk (ASpread (fin l s1) c) s1 | _ => PErr end)
      else
        pbind (jsx_name fuel k s) (fun np s1 =>
        let l := fst (jrange (fst np)) in
        if negb (at_tok T_ASSIGN s1) then POk (AAttr (fin l s1) (fst np) (snd np) VNone) (peeked s1)
        else
          let s2 := peeked (next s1) in
          pbind (if at_tok T_BRACE_L s2 then pbind (jsx_cont k (t_lo (peek s2)) (next s2)) (fun c s3 => POk (VCont c) s3)
                 else if at_tok T_STRING s2 then POk (VStr (fin (t_lo (peek s2)) (next s2)) (peek s2)) (next s2)
                 else if at_tok T_LT s2 then
                   pbind (jsx fuel k true false s2) (fun t s3 => match t with TElem e => POk (VElem e) s3 | TClose _ => PErr end)
                 else POk VNone s2) (fun v s3 =>
          POk (AAttr (fin l s3) (fst np) (snd np) v) s3))
  end
with jsx_attrs (fuel : nat) (k : N) (acc : list jattr) (s : pst) {struct fuel} : pres (list jattr) :=
  match fuel with
  | O => PFuel
  | S fuel =>
      if at_tok T_GT s || at_tok T_DIV s || at_tok T_EOF s then POk acc (peeked s)
      else pbind (jsx_attr fuel k (peeked s)) (fun a s1 => jsx_attrs fuel k (acc ++ [a]) s1)
  end
with jsx_open (fuel : nat) (k : N) (l : nat) (s : pst) {struct fuel} : pres (jopen * list jattr) :=
  match fuel with
  | O => PFuel
  | S fuel =>
      if at_tok T_GT s then POk (mk_open (fin l (next s)) None false, []) (next s)
      else
        pbind (jsx_name fuel k s) (fun np s1 =>
        pbind (jsx_attrs fuel k [] s1) (fun attrs s2 =>
        let closed := at_tok T_DIV s2 in
        pbind (must T_GT (if closed then next s2 else peeked s2)) (fun _ s3 =>
        POk (mk_open (fin l s3) (Some np) closed, attrs) s3)))
  end
with jsx_close (fuel : nat) (k : N) (l : nat) (s : pst) {struct fuel} : pres jclose :=
  match fuel with
  | O => PFuel
  | S fuel =>
      let s := peeked (next s) in
      if at_tok T_GT s then POk (mk_close (fin l (next s)) None) (next s)
      else
        pbind (jsx_name fuel k s) (fun np s1 =>
        pbind (must T_GT s1) (fun _ s2 => POk (mk_close (fin l s2) (Some np)) s2))
  end
with jsx (fuel : nat) (k : N) (root opening : bool) (s : pst) {struct fuel} : pres jtag :=
  match fuel with
  | O => PFuel
  | S fuel =>
      let l := t_lo (peek s) in
      let s := peeked (next s) in
      if at_tok T_DIV s then
        if opening then pbind (jsx_close fuel k l s) (fun c s1 => POk (TClose c) s1) else PErr
      else
        pbind (jsx_open fuel k l s) (fun oa s1 =>
        pbind (if o_closed (fst oa) then POk ([], None) s1
               else pbind (jsx_children fuel k (fst oa) true [] s1) (fun r s2 => POk (fst r, Some (snd r)) s2)) (fun r s2 =>
        if at_tok T_LT s2 && root then PErr
        else POk (TElem (JElem (fin (fst (o_rng (fst oa))) s2) (fst oa) (snd oa) (fst r) (snd r))) (peeked s2)))
  end
with jsx_children (fuel : nat) (k : N) (o : jopen) (fresh : bool) (acc : list jchild) (s : pst) {struct fuel}
  : pres (list jchild * jclose) :=
  match fuel with
  | O => PFuel
  | S fuel =>
      let s := peeked s in
      let after acc s :=
        if at_tok T_GT s || at_tok T_BRACE_L s
        then jsx_children fuel k o false (acc ++ ws_txt true s) s else jsx_children fuel k o true acc s in
      if at_tok T_BRACE_L s then
        let l := t_lo (peek s) in
        pbind (jsx_cont k l (next s)) (fun c s1 =>
        after (acc ++ ws_txt fresh s ++ [match c with CSpread _ e => KSpread (fin l s1) e | _ => KCont c end]) s1)
      else if at_tok T_LT s then
        pbind (jsx fuel k false true s) (fun t s1 =>
        match t with
        | TClose c => if closes o c then POk (acc ++ ws_txt fresh s, c) s1 else PErr
        | TElem e => after (acc ++ ws_txt fresh s ++ [KElem e]) s1
        end)
      else if at_tok T_JSX_TXT s then
        jsx_children fuel k o true (acc ++ [KText (fin (t_lo (peek s)) (next s)) (peek s)]) (next s)
      else if at_tok T_EOF s || at_tok T_ILLEGAL s then PErr
      else jsx_children fuel k o fresh acc s
  end.
End Jsx.

From Verif Require Import BinModel FnModel.
(** ecma/parser/parser.go:5765-5768 primaryExpr and 4280-4293 unaryExpr: JSX elements inside the whole parser, [n] of them
    inside each other; [rest_import] reads expressions that begin with import. *)
Section Whole.
Variables (feat : N) (text : token -> bytes) (chk : pst -> bool).
Variables (params_ok : N -> list expr -> pst -> bool) (names_ok : N -> list expr -> pst -> bool)
  (jump_ok : N -> stmt -> pst -> bool) (use_strict : token -> bool)
  (fn_ok : N -> option expr -> list expr -> stmt -> pst -> bool) (class_ok : N -> expr -> pst -> bool).
Variables (rest_async : bool -> N -> pst -> pres rng) (rest_import : N -> pst -> option (pres rng)).
Definition elem_range (x : pres jtag) : pres rng :=
  pbind x (fun t s => match t with TElem e => POk (erange e) s | TClose _ => PErr end).
Fixpoint jsx_other (n : nat) (k : N) (s : pst) : option (pres rng) :=
  if at_tok T_LT s && has feat FEAT_JSX then
    Some match n with
         | O => PFuel
         | S n =>
             let w := world_at feat text chk params_ok names_ok jump_ok use_strict fn_ok class_ok rest_async (jsx_other n) n in
             elem_range (jsx feat text (c_seq (w_calls feat text chk params_ok n w)) (w_asg feat text chk params_ok n w) n k true false s)
         end
  else rest_import k s.
End Whole.

(** ecma/parser/parser.go:4714-4773 importCall, with 4199-4244 condExpr on what was read.  The ImportCall is an
    [EOther]. *)
Section Import.
Variables (feat : N) (text : token -> bytes) (rc : calls).
Definition import_call (k : N) (s : pst) : pres expr :=
  let l := t_lo (peek s) in
  let s1 := peeked (next s) in
  if at_tok T_DOT s1 && has feat FEAT_META_PROPERTY then
    pbind (ident text k (next s1)) (fun p s2 =>
    if negb (bytes_eqb (ident_val p) (bs "meta")) || contains_escape (peek (next s1)) then PErr
    else
      let mp := EMeta (fin l s2) in
      let s2 := peeked s2 in
      if at_tok T_PAREN_L s2 then pbind (c_call_expr rc k (Some mp) true false None s2) (fun x s3 => POk (fst x) s3)
      else if at_tok T_BRACKET_L s2 || at_tok T_DOT s2 || at_tok T_OPT_CHAIN s2
      then pbind (c_member_expr rc k (Some mp) true true None s2) (fun x s3 => POk (fst x) s3)
      else POk mp s2)
  else if at_tok T_PAREN_L s1 && has feat FEAT_DYNAMIC_IMPORT then
    pbind (c_assign rc k true (next s1)) (fun _ s2 =>
    pbind (must T_PAREN_R s2) (fun _ s3 =>
    let call := EOther (fin l s3) in
    if at_tok T_SEMI s3 then POk call (next s3)
    else if t_atl (peek s3) then POk call (peeked s3)
    else
      pbind (bin_expr (c_unary rc k) (fun _ => PErr) is_unary_e is_arrow_e feat false false false (c_fuel rc) (Some call) (peeked s3)) (fun b s4 =>
      let t := of_bt b in
      if at_tok T_HOOK s4 then
        pbind (c_assign rc k true (next s4)) (fun c s5 =>
        pbind (must T_COLON s5) (fun _ s6 =>
        pbind (c_assign rc k true s6) (fun a s7 => POk (ECond (fin (lo t) s7) t c a) s7)))
      else POk t (peeked s4))))
  else PErr.
End Import.
