(** Specification of the lookahead operations: a queue of tokens between the scanner and the parser. *)
From Verif Require Import Base Utf8Model SourceModel TokenModel LexModel LexBufModel.

(** The tokens in the buffer, the next one to be delivered first. *)
Definition queue (q : lexer) : list token := map (fun k => cell (lb q) ((tb_r (lb q) + k) mod 5)) (seq 0 (tb_len (lb q))).
Definition not_eof (t : token) : bool := negb (tv_eqb (t_val t) T_EOF).

Section Spec.
Variable U : uni.
Variable entity : bytes -> option bytes.

(** [scanned l ts l']: the scanner, started in [l], read the tokens [ts]; in between, what it takes for the
    previous token and the start-of-statement mark may be set at will. *)
Inductive scanned : lx -> list token -> lx -> Prop :=
| sc_nil : forall l, scanned l [] l
| sc_tok : forall l t l1 ts l', lex_tok U entity l = Some (t, l1) -> scanned l1 ts l' -> scanned l (t :: ts) l'
| sc_prt : forall l v ts l', scanned (set_prt l v) ts l' -> scanned l ts l'
| sc_begin : forall l b ts l', scanned (set_begin l b) ts l' -> scanned l ts l'.

(** [plain l ts l']: the scanner read [ts] one after the other, without lookahead. *)
Inductive plain : lx -> list token -> lx -> Prop :=
| pl_nil : forall l, plain l [] l
| pl_tok : forall l t l1 ts l', next_tok U entity l = Some (t, l1) -> plain l1 ts l' -> plain l (t :: ts) l'.

(** A history: the operations with the tokens they returned. *)
Inductive history : lexer -> list (op * token) -> lexer -> Prop :=
| hi_nil : forall q, history q [] q
| hi_op : forall q o i t q1 h q', step U entity o q = Ok i t q1 -> history q1 h q' -> history q ((o, t) :: h) q'.
Definition delivered (h : list (op * token)) : list token := map snd (filter (fun x => takes (fst x)) h).

(** Lookahead that grows the buffer, if there is room, only while the scanner's previous token is the last
    one in the buffer. *)
Definition careful (o : op) (q : lexer) : Prop :=
  match o with
  | OPeek | ONext => True
  | OPeekGrow | OPeek2nd => length (queue q) < 5 /\ (queue q = [] \/ l_prt (lq q) = t_val (last (queue q) zero_tok))
  | _ => False
  end.
Inductive careful_history : lexer -> list (op * token) -> lexer -> Prop :=
| ch_nil : forall q, careful_history q [] q
| ch_op : forall q o i t q1 h q', careful o q -> step U entity o q = Ok i t q1 -> careful_history q1 h q' -> careful_history q ((o, t) :: h) q'.
End Spec.
