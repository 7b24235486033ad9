(** What the parser sees of the lexer: a list of tokens read one at a time. *)
From Verif Require Import Base TokenModel LexModel.

(** The tokens not read yet, whether the next one was already scanned (the buffer of lexer.go is not empty), and
    where the last one read ended (state.prtRng; [None] before the first one).
    Simplified: the tokens are a fixed list, see C16 for when lookahead leaves them the same; the end of input
    is where the last token ended. *)
Record pst := mk_pst { p_toks : list token; p_buf : bool; p_prev : option nat }.
Definition p_end (s : pst) : nat := match p_prev s with Some h => h | None => 0 end.
Definition eof_tok (h : nat) : token := mk_tok T_EOF h h [] (0, 0) 0 false XNone.

(** ecma/parser/lexer.go:120-150 Peek, PeekStmtBegin, PeekGrow. *)
Definition peek (s : pst) : token := match p_toks s with t :: _ => t | [] => eof_tok (p_end s) end.
Definition peeked (s : pst) : pst := mk_pst (p_toks s) true (p_prev s).
Definition pval (s : pst) : tv := t_val (peek s).
(** ecma/parser/lexer.go:171-199 Next. *)
Definition next (s : pst) : pst := mk_pst (tl (p_toks s)) false (Some (t_hi (peek s))).

(** The outcome of a parsing function. *)
Inductive pres (A : Type) :=
| POk (a : A) (s : pst)
| PErr
| PPanic
| PFuel.
Arguments POk {A} _ _.
Arguments PErr {A}.
Arguments PPanic {A}.
Arguments PFuel {A}.
Definition pbind {A B} (x : pres A) (f : A -> pst -> pres B) : pres B :=
  match x with POk a s => f a s | PErr => PErr | PPanic => PPanic | PFuel => PFuel end.

(** ecma/parser/token.go:104-109 ContainsEscape. *)
Definition contains_escape (t : token) : bool := match t_ext t with XIdent e => e | _ => false end.
(** ecma/parser/token.go:560-570 IsName. *)
Definition is_name (t : token) (n : bytes) (esc : bool) : bool :=
  tv_eqb (t_val t) T_NAME && bytes_eqb (t_text t) n && (esc || negb (contains_escape t)).
(** ecma/parser/token.go:65-76 IsBin; T_ILLEGAL is [None]. *)
Definition is_bin (not_in ts : bool) (t : token) : option tv :=
  if N.ltb (tv_num T_BIN_OP_BEGIN) (tv_num (t_val t)) && N.ltb (tv_num (t_val t)) (tv_num T_BIN_OP_END) then Some (t_val t)
  else if negb not_in && is_name t (bs "in") false then Some T_IN
  else if ts && is_name t (bs "as") false then Some T_TS_AS
  else None.
