(** How a JSX element is spelled: which tokens a tree stands for and where its nodes begin and end.  The grammar is
    that of the JSX specification; what the parser allows beyond it is marked [lax]. *)
From Verif Require Import Base TokenModel LexModel ParseBase ExprModel ExprSpec StmtModel JsxModel.

Definition edges (ts : list token) : rng := (first_lo ts, last_hi ts).

Section Spell.
(** The text of a token; how an Expression and an AssignmentExpression are spelled; whether what is no JSX counts. *)
Variables (text : token -> bytes) (full single : expr -> list token -> Prop) (lax : Prop).

(** A name and its text: an identifier, identifiers with dots between, two with a colon between. *)
Inductive dotted : jname -> bytes -> list token -> Prop :=
| D_id t : t_val t = T_NAME -> dotted (JId (place t) (text t)) (text t) [t]
| D_member o p ts d t kw : dotted o p ts -> t_val d = T_DOT -> ident_tok (t_val t) = true ->
    dotted (JMember (edges (ts ++ [d; t])) o (EName (place t) (text t) false kw)) (p ++ bs "." ++ text t) (ts ++ [d; t]).
Inductive named : jname -> bytes -> list token -> Prop :=
| N_dotted n p ts : dotted n p ts -> named n p ts
| N_ns a c b : t_val a = T_NAME -> t_val c = T_COLON -> t_val b = T_NAME ->
    named (JNs (edges [a; c; b]) (JId (place a) (text a)) (JId (place b) (text b))) (text a ++ bs ":" ++ text b) [a; c; b].

(** Braces with an expression, with nothing, or with a spread one. *)
Inductive braced : jcont -> list token -> Prop :=
| B_expr l e ts r : t_val l = T_BRACE_L -> full e ts -> t_val r = T_BRACE_R -> braced (CExpr (edges (l :: ts ++ [r])) e) (l :: ts ++ [r])
| B_empty l r : t_val l = T_BRACE_L -> t_val r = T_BRACE_R -> braced (CEmpty (edges [l; r]) (t_hi l, t_lo r)) [l; r].
Inductive spread_in : rng -> expr -> list token -> Prop :=
| B_spread l d e ts r : t_val l = T_BRACE_L -> t_val d = T_DOT_TRI -> single e ts -> t_val r = T_BRACE_R ->
    spread_in (edges (d :: ts)) e (l :: d :: ts ++ [r]).

(** An element closes itself, or has a tag that opens it, contents, and a tag with the same name that closes it.
    [tag_name]: [lax] allows an element after a name, of which no node is kept.
    [value]: [lax] allows no value after = and a spread one in braces.
    [contents a l ts nx]: the children, when the token before them ends at [a], and [nx] is the token after them; what
    is skipped between two tokens is a child of its own. *)
Inductive element : jelem -> list token -> Prop :=
| E_closed l n p nts attrs ats d g : t_val l = T_LT -> tag_name n p nts -> attributes attrs ats -> t_val d = T_DIV -> t_val g = T_GT ->
    element (JElem (edges (l :: nts ++ ats ++ [d; g])) (mk_open (edges (l :: nts ++ ats ++ [d; g])) (Some (n, p)) true) attrs [] None)
      (l :: nts ++ ats ++ [d; g])
| E_pair o attrs ots l ts c cts : opening o attrs ots -> contents (last_hi ots) l ts (hd (eof_tok 0) cts) -> closing c cts ->
    name_str (o_name o) = name_str (c_name c) ->
    element (JElem (edges (ots ++ ts ++ cts)) o attrs l (Some c)) (ots ++ ts ++ cts)
with opening : jopen -> list jattr -> list token -> Prop :=
| O_fragment l g : t_val l = T_LT -> t_val g = T_GT -> opening (mk_open (edges [l; g]) None false) [] [l; g]
| O_named l n p nts attrs ats g : t_val l = T_LT -> tag_name n p nts -> attributes attrs ats -> t_val g = T_GT ->
    opening (mk_open (edges (l :: nts ++ ats ++ [g])) (Some (n, p)) false) attrs (l :: nts ++ ats ++ [g])
with closing : jclose -> list token -> Prop :=
| C_fragment l d g : t_val l = T_LT -> t_val d = T_DIV -> t_val g = T_GT -> closing (mk_close (edges [l; d; g]) None) [l; d; g]
| C_named l d n p nts g : t_val l = T_LT -> t_val d = T_DIV -> tag_name n p nts -> t_val g = T_GT ->
    closing (mk_close (edges (l :: d :: nts ++ [g])) (Some (n, p))) (l :: d :: nts ++ [g])
with tag_name : jname -> bytes -> list token -> Prop :=
| T_plain n p ts : named n p ts -> tag_name n p ts
| T_dropped n p ts e ets : lax -> dotted n p ts -> element e ets -> tag_name n p (ts ++ ets)
with attributes : list jattr -> list token -> Prop :=
| A_none : attributes [] []
| A_more a ts l ts' : attribute a ts -> attributes l ts' -> attributes (a :: l) (ts ++ ts')
with attribute : jattr -> list token -> Prop :=
| A_spread r e ts : spread_in r e ts -> attribute (ASpread (edges ts) (CSpread r e)) ts
| A_bare n p ts : tag_name n p ts -> attribute (AAttr (edges ts) n p VNone) ts
| A_value n p ts q v vts : tag_name n p ts -> t_val q = T_ASSIGN -> value v vts ->
    attribute (AAttr (edges (ts ++ q :: vts)) n p v) (ts ++ q :: vts)
with value : jval -> list token -> Prop :=
| V_str t : t_val t = T_STRING -> value (VStr (place t) t) [t]
| V_braced c ts : braced c ts -> value (VCont c) ts
| V_elem e ts : element e ts -> value (VElem e) ts
| V_none : lax -> value VNone []
| V_spread r e ts : lax -> spread_in r e ts -> value (VCont (CSpread r e)) ts
with contents : nat -> list jchild -> list token -> token -> Prop :=
| K_end a nx : t_lo nx <= a -> contents a [] [] nx
| K_space a l ts nx : a < first_lo (ts ++ [nx]) -> contents (first_lo (ts ++ [nx])) l ts nx -> contents a (KSpace (a, first_lo (ts ++ [nx])) :: l) ts nx
| K_text a t l ts nx : t_val t = T_JSX_TXT -> contents (t_hi t) l ts nx -> contents a (KText (place t) t :: l) (t :: ts) nx
| K_braced a c cts l ts nx : braced c cts -> first_lo cts <= a -> contents (last_hi cts) l ts nx -> contents a (KCont c :: l) (cts ++ ts) nx
| K_spread a r e cts l ts nx : spread_in r e cts -> first_lo cts <= a -> contents (last_hi cts) l ts nx ->
    contents a (KSpread (edges cts) e :: l) (cts ++ ts) nx
| K_elem a e ets l ts nx : element e ets -> first_lo ets <= a -> contents (last_hi ets) l ts nx -> contents a (KElem e :: l) (ets ++ ts) nx.
End Spell.

(** Ranges that begin at [a], each where the one before ends, and end at [z]. *)
Fixpoint tiles (a : nat) (l : list rng) (z : nat) : Prop :=
  match l with
  | [] => a = z
  | r :: l => fst r = a /\ fst r <= snd r /\ tiles (snd r) l z
  end.
(** From [a] on the tokens are in order, and a text begins where the token before it ends. *)
Fixpoint tight_from (a : nat) (ts : list token) : Prop :=
  match ts with
  | [] => True
  | t :: ts => a <= t_lo t /\ t_lo t <= t_hi t /\ (t_val t = T_JSX_TXT -> t_lo t = a) /\ tight_from (t_hi t) ts
  end.
