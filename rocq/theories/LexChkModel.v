(** ecma/parser/lexer.go, parser.go: checkpoints.  The saved state and the live one share the array of the
    slice of modes, so that array is on a heap here; of a mode only its kind is kept (the paren, brace and
    bracket counters are written and never read). *)
From Verif Require Import Base Utf8Model SourceModel TokenModel LexModel LexBufModel.

(** The operations on the slice of modes: ecma/parser/lexer.go:275-310. *)
Inductive mact := MPush (k : N) (inherit : bool) | MPop | MAdd (k : N) | MErase (k : N).

Record mslice := mk_ms { ms_ref : nat; ms_len : nat }.
Definition mheap := list (list N).
Definition marr (h : mheap) (r : nat) : list N := nth r h [].
Definition content (h : mheap) (s : mslice) : list N := firstn (ms_len s) (marr h (ms_ref s)).
Fixpoint put {A} (l : list A) (i : nat) (x : A) : list A :=
  match l, i with [], _ => [] | _ :: r, O => x :: r | y :: r, S i' => y :: put r i' x end.
Definition store (h : mheap) (r i : nat) (x : N) : mheap := put h r (put (marr h r) i x).

Definition inherited (c : N) : N := N.lor (N.lor (N.land c LM_STRICT) (N.land c LM_ASYNC)) (N.land c LM_TS).
(** ecma/parser/lexer.go:298-300 CurMode. *)
Definition top (h : mheap) (s : mslice) : N := last (content h s) LM_NONE.

Section Growth.
(** The spare capacity an append that outgrows the array leaves: Go does not promise any. *)
Variable room : nat -> nat.

(** ecma/parser/lexer.go:275-285 PushMode, 287-296 PopMode, 302-310 AddMode and EraseMode. *)
Definition h_act (a : mact) (x : mheap * mslice) : mheap * mslice :=
  let (h, s) := x in
  match a with
  | MPush k inh =>
      let m := if inh then N.lor k (inherited (top h s)) else k in
      if ms_len s <? length (marr h (ms_ref s))
      then (store h (ms_ref s) (ms_len s) m, mk_ms (ms_ref s) (S (ms_len s)))
      else (h ++ [content h s ++ m :: repeat 0%N (room (S (ms_len s)))], mk_ms (length h) (S (ms_len s)))
  | MPop => if Nat.eqb (ms_len s) 1 then (store h (ms_ref s) 0 LM_NONE, s) else (h, mk_ms (ms_ref s) (pred (ms_len s)))
  | MAdd k => (store h (ms_ref s) (pred (ms_len s)) (N.lor (top h s) k), s)
  | MErase k => (store h (ms_ref s) (pred (ms_len s)) (N.ldiff (top h s) k), s)
  end.
Definition h_acts (l : list mact) (x : mheap * mslice) : mheap * mslice := fold_left (fun x a => h_act a x) l x.
End Growth.

(** The same operations on a stack, its top first, as in LexModel. *)
Definition v_act (a : mact) (ks : list N) : list N :=
  match a, ks with
  | MPush k inh, _ => (if inh then N.lor k (inherited (hd LM_NONE ks)) else k) :: ks
  | MPop, ([] | [_]) => [LM_NONE]
  | MPop, _ :: r => r
  | MAdd k, m :: r => N.lor m k :: r
  | MErase k, m :: r => N.ldiff m k :: r
  | _, [] => []
  end.
Definition v_acts (l : list mact) (ks : list N) : list N := fold_left (fun x a => v_act a x) l ks.
Definition kinds (l : lx) : list N := map m_kind (l_modes l).

(** ecma/parser/lexer.go:112-127 LexerState; prtRng is left out, pptVal is not used. *)
Record saved := mk_saved { v_sl : mslice; v_tb : tbuf; v_begin : bool; v_prt : tv; v_prevws : nat * nat * nat }.

(** A lexer with its checkpoints.  The modes in [k_lx] are not used: [view] has those of the slice. *)
Record chk := mk_chk { k_lx : lx; k_tb : tbuf; k_heap : mheap; k_sl : mslice; k_ss : list saved }.
Definition view (k : chk) : lx := set_modes (k_lx k) (map (fun m => mk_mode m 0) (rev (content (k_heap k) (k_sl k)))).
(** ecma/parser/lexer.go:129-133, 161-172 newLexerState, NewLexer. *)
Definition new_chk (feat : N) (c : bytes) : chk := mk_chk (new_lexer feat c) new_tb [[LM_NONE]] (mk_ms 0 1) [].

(** ecma/parser/parser.go:4588-4601 pushState, discardState, popState with lexer.go:259-273 PushState,
    DiscardState, PopState; [None]: panic. *)
Definition save (k : chk) : chk :=
  let l := k_lx k in
  mk_chk (set_src l (push_state (l_src l))) (k_tb k) (k_heap k) (k_sl k) (mk_saved (k_sl k) (k_tb k) (l_begin l) (l_prt l) (l_prevws l) :: k_ss k).
Definition discard (k : chk) : option chk :=
  match k_ss k, discard_state (l_src (k_lx k)) with
  | _ :: r, Some s => Some (mk_chk (set_src (k_lx k) s) (k_tb k) (k_heap k) (k_sl k) r)
  | _, _ => None
  end.
Definition restore (k : chk) : option chk :=
  match k_ss k, pop_state (l_src (k_lx k)) with
  | v :: r, Some s =>
      Some (mk_chk (set_prevws (set_prt (set_begin (set_src (k_lx k) s) (v_begin v)) (v_prt v)) (v_prevws v)) (v_tb v) (k_heap k) (v_sl v) r)
  | _, _ => None
  end.

(** What a parser does with the lexer: read and look ahead, change the modes, take the comments, save
    and restore.  Reading performs operations on the modes; which ones is left open, but for their result. *)
Inductive caction := COp (o : op) (t : token) (acts : list mact) | CMode (a : mact) | CTake | CSave | CDiscard | CRestore.

Section Run.
Variable U : uni.
Variable entity : bytes -> option bytes.
Variable room : nat -> nat.

(** ecma/parser/lexer.go:431-449 takeExprCmts, takeStmtCmts. *)
Definition drop_cmts (l : lx) : lx :=
  mk_lx (l_src l) (l_feat l) (l_modes l) (l_prt l) (l_begin l) (l_prevws l) [] [] (l_maybe_lsh l) (l_lsh l).

Inductive cstep : chk -> caction -> chk -> Prop :=
| cs_op : forall k o i t q acts h s, step U entity o (mk_lexer (view k) (k_tb k)) = Ok i t q ->
    v_acts acts (kinds (view k)) = kinds (lq q) -> h_acts room acts (k_heap k, k_sl k) = (h, s) ->
    cstep k (COp o t acts) (mk_chk (lq q) (lb q) h s (k_ss k))
| cs_mode : forall k a h s, h_act room a (k_heap k, k_sl k) = (h, s) -> cstep k (CMode a) (mk_chk (k_lx k) (k_tb k) h s (k_ss k))
| cs_take : forall k, cstep k CTake (mk_chk (drop_cmts (k_lx k)) (k_tb k) (k_heap k) (k_sl k) (k_ss k))
| cs_save : forall k, cstep k CSave (save k)
| cs_discard : forall k k', discard k = Some k' -> cstep k CDiscard k'
| cs_restore : forall k k', restore k = Some k' -> cstep k CRestore k'.
End Run.
