(** ecma/parser/lexer.go: the tokens buffer and the lookahead operations.  A token is a cell of the ring;
    fields a cell keeps from its last use (ext of punctuators) are not modelled. *)
From Verif Require Import Base Utf8Model SourceModel TokenModel LexModel.

(** ecma/parser/lexer.go:40-47 TOKENS_BUF_LEN, TokensBuf. *)
Record tbuf := mk_tb { tb_buf : list token; tb_len : nat; tb_r : nat; tb_w : nat }.
Definition zero_tok : token := mk_tok T_ILLEGAL 0 0 [] (0, 0) 0 false XNone.
Definition new_tb : tbuf := mk_tb (repeat zero_tok 5) 0 0 0.
(** ecma/parser/lexer.go:49-63 incW, incR. *)
Definition inc (i : nat) : nat := if Nat.eqb (S i) 5 then 0 else S i.
Definition cell (b : tbuf) (i : nat) : token := nth i (tb_buf b) zero_tok.
Fixpoint set_cell (l : list token) (i : nat) (t : token) : list token :=
  match l, i with [], _ => [] | _ :: r, O => t :: r | x :: r, S i' => x :: set_cell r i' t end.
(** ecma/parser/lexer.go:84-86 newToken: the token being read is the cell at [w]. *)
Definition tb_fill (b : tbuf) (t : token) : tbuf := mk_tb (set_cell (tb_buf b) (tb_w b) t) (tb_len b) (tb_r b) (tb_w b).
(** ecma/parser/lexer.go:65-82 writable, readable, write; [None]: panic. *)
Definition tb_write (b : tbuf) : option tbuf := if tb_len b <? 5 then Some (mk_tb (tb_buf b) (S (tb_len b)) (tb_r b) (inc (tb_w b))) else None.
(** ecma/parser/lexer.go:88-96 read, 98-100 cur. *)
Definition tb_read (b : tbuf) : tbuf := mk_tb (tb_buf b) (pred (tb_len b)) (inc (tb_r b)) (tb_w b).
Definition tb_readable (b : tbuf) : bool := 0 <? tb_len b.

Record lexer := mk_lexer { lq : lx; lb : tbuf }.
Definition new_buf_lexer (feat : N) (c : bytes) : lexer := mk_lexer (new_lexer feat c) new_tb.

(** How an operation ends: with a token (the index of its cell, its value now), a panic, or never. *)
Inductive outcome := Ok (i : nat) (t : token) (q : lexer) | Panic | Hang.

Inductive op := OPeek | OPeekStmt | OPeekGrow | OPeek2nd | ONext | ORevise (v : tv).
Definition takes (o : op) : bool := match o with ONext | ORevise _ => true | _ => false end.

Section Ops.
Variable U : uni.
Variable entity : bytes -> option bytes.

(** ecma/parser/lexer.go:451-465 advance. *)
Definition advance (q : lexer) : outcome :=
  match lex_tok U entity (lq q) with
  | None => Hang
  | Some (t, l1) =>
      let b := tb_fill (lb q) t in
      let l2 := set_prt l1 (t_val t) in
      if tv_eqb (t_val t) T_EOF then Ok (tb_w b) t (mk_lexer l2 b)
      else match tb_write b with None => Panic | Some b' => Ok (tb_w b) t (mk_lexer l2 b') end
  end.

(** ecma/parser/lexer.go:195-200 Peek. *)
Definition do_peek (q : lexer) : outcome := if tb_readable (lb q) then Ok (tb_r (lb q)) (cell (lb q) (tb_r (lb q))) q else advance q.
(** ecma/parser/lexer.go:176-193, 467-472 Next and NextRevise, readTok; the range of the token read is
    not kept. *)
Definition do_take (rev : option tv) (q : lexer) : outcome :=
  let prt t := match rev with Some v => v | None => t_val t end in
  if tb_readable (lb q) then
    let t := cell (lb q) (tb_r (lb q)) in
    Ok (tb_r (lb q)) t (mk_lexer (set_prt (lq q) (prt t)) (tb_read (lb q)))
  else match lex_tok U entity (lq q) with
       | None => Hang
       | Some (t, l1) => let b := tb_fill (lb q) t in Ok (tb_w b) t (mk_lexer (set_prt l1 (prt t)) b)
       end.
(** ecma/parser/lexer.go:216-227 Peek2nd. *)
Definition grow2 (q : lexer) : outcome := if tb_len (lb q) <? 2 then advance q else Ok 0 zero_tok q.
Definition do_peek2 (q : lexer) : outcome :=
  match grow2 q with
  | Ok _ _ q1 =>
      match grow2 q1 with
      | Ok _ _ q2 =>
          if 2 <=? tb_len (lb q2) then Ok (inc (tb_r (lb q2))) (cell (lb q2) (inc (tb_r (lb q2)))) q2
          else let s := l_src (lq q2) in
               let t := fin_tok s s T_EOF [] (0, 0) XNone in
               let b := tb_fill (lb q2) t in Ok (tb_w b) t (mk_lexer (lq q2) b)
      | o => o
      end
  | o => o
  end.
(** ecma/parser/lexer.go:202-207 PeekStmtBegin. *)
Definition do_peek_stmt (q : lexer) : outcome :=
  match do_peek (mk_lexer (set_begin (lq q) true) (lb q)) with
  | Ok i t q1 => Ok i t (mk_lexer (set_begin (lq q1) false) (lb q1))
  | o => o
  end.
(** ecma/parser/lexer.go:209-211 PeekGrow. *)
Definition step (o : op) (q : lexer) : outcome :=
  match o with
  | OPeek => do_peek q
  | OPeekStmt => do_peek_stmt q
  | OPeekGrow => advance q
  | OPeek2nd => do_peek2 q
  | ONext => do_take None q
  | ORevise v => do_take (Some v) q
  end.
End Ops.
