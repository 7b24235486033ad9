(** ecma/parser/parser.go: what statements do to scopes and labels, and the checks of break and continue. *)
From Verif Require Import Base SymtabModel.

(** Statements, as far as jumps go.  [SOther]: without statements inside.  [SFun]: the bodies of the functions,
    methods and arrow functions of an expression or a declaration, [SBlock], [SIf] (with has no second branch),
    [SLoop] (while, do, for, for in, for of), [SSwitch] (the statements of the clauses), [STry] (block, catch,
    finally).  Loops and labelled statements carry the identity of their node. *)
Inductive stm :=
| SOther
| SFun (bodies : list (list stm))
| SBlock (l : list stm)
| SIf (c : stm) (a : option stm)
| SLoop (id : nat) (body : stm)
| SSwitch (clauses : list (list stm))
| STry (b : list stm) (c f : option (list stm))
| SLabel (id : nat) (n : bytes) (body : stm)
| SBreak (n : option bytes)
| SCont (n : option bytes).

(** A scope: its flags and uniqueLabels (the nodes by name). *)
Record lscope := mk_ls { ls_kind : N; ls_labels : list (bytes * nat) }.
Inductive lerr :=
| LDup (n : bytes)       (* ERR_DUP_LABEL *)
| LUndef (n : bytes)     (* ERR_UNDEF_LABEL *)
| LBreak                 (* ERR_ILLEGAL_BREAK *)
| LCont                  (* ERR_ILLEGAL_CONTINUE *)
| LPanic.                (* an index out of range *)

(** ecma/parser/symtab.go:511-590 EnterScope, on the stack of scopes; [k]: flags the caller adds. *)
Definition l_enter (fn arrow : bool) (k : N) (fs : list lscope) : list lscope :=
  match fs with
  | [] => []
  | f :: _ => mk_ls (N.lor (entered_kind (ls_kind f) fn arrow) k) (if fn then [] else ls_labels f) :: fs
  end.
(** ecma/parser/symtab.go:469-472 HasLabel, 474-487 GetLabel. *)
Definition l_has (fs : list lscope) (n : bytes) : bool :=
  match fs with [] => false | f :: _ => match find_b n (ls_labels f) with Some _ => true | None => false end end.
Fixpoint l_get (fs : list lscope) (n : bytes) : option nat :=
  match fs with
  | [] => None
  | f :: r => match find_b n (ls_labels f) with
              | Some id => Some id
              | None => if has (ls_kind f) SPK_FUNC then None else l_get r n
              end
  end.
Definition l_put (n : bytes) (id : nat) (fs : list lscope) : list lscope :=
  match fs with [] => [] | f :: r => mk_ls (ls_kind f) ((n, id) :: ls_labels f) :: r end.
Definition l_reset (fs : list lscope) : list lscope :=
  match fs with [] => [] | f :: r => mk_ls (ls_kind f) [] :: r end.
Definition l_cur (fs : list lscope) : N := match fs with [] => 0%N | f :: _ => ls_kind f end.

(** The scopes after a statement and the targets its jumps were given, in source order (a break without label has
    none). *)
Definition lres := (lerr + (list lscope * list (option nat)))%type.
Definition l_then (r : lres) (k : list lscope -> lres) : lres :=
  match r with
  | inl e => inl e
  | inr (fs, a) => match k fs with inl e => inl e | inr (fs', b) => inr (fs', a ++ b) end
  end.
(** LeaveScope. *)
Definition l_leave (r : lres) : lres := match r with inl e => inl e | inr (fs, a) => inr (tl fs, a) end.

(** ecma/parser/parser.go:1977-2011 brkStmt, 2015-2050 contStmt, after the tokens. *)
Definition l_break (n : option bytes) (fs : list lscope) : lres :=
  match n with
  | Some n => match l_get fs n with Some id => inr (fs, [Some id]) | None => inl (LUndef n) end
  | None =>
      let k := l_cur fs in
      if negb (has k SPK_LOOP_DIRECT) && negb (has k SPK_LOOP_INDIRECT) && negb (has k SPK_SWITCH)
         && negb (has k SPK_SWITCH_INDIRECT)
      then inl LBreak else inr (fs, [None])
  end.
Definition l_cont (n : option bytes) (loops : list nat) (fs : list lscope) : lres :=
  match n with
  | Some n => match l_get fs n with Some id => inr (fs, [Some id]) | None => inl (LUndef n) end
  | None =>
      let k := l_cur fs in
      if negb (has k SPK_LOOP_DIRECT) && negb (has k SPK_LOOP_INDIRECT) then inl LCont
      else match loops with [] => inl LPanic | id :: _ => inr (fs, [Some id]) end
  end.

(** The statements of parser.go that open scopes: functions (2583, 5800, 6156: the body opens none of its own),
    blocks (388, 3064-3093), if (2146-2194), loops (2197-2480; [loops] is loopStk, newest first), switch (2075-2108),
    try (1772-1862), labels (1940-1972). *)
Fixpoint l_stm (s : stm) (loops : list nat) (fs : list lscope) {struct s} : lres :=
  let seq := fix seq (l : list stm) (fs : list lscope) {struct l} : lres :=
    match l with [] => inr (fs, []) | s :: r => l_then (l_stm s loops fs) (seq r) end in
  match s with
  | SOther => inr (fs, [])
  | SFun bodies =>
      (fix go (l : list (list stm)) (fs : list lscope) {struct l} : lres :=
         match l with
         | [] => inr (fs, [])
         | b :: r => l_then (l_leave (seq b (l_enter true false 0 fs))) (go r)
         end) bodies fs
  | SBlock l => l_leave (seq l (l_enter false false 0 fs))
  | SIf c a =>
      l_then (l_stm c loops fs) (fun fs => match a with Some s => l_stm s loops fs | None => inr (fs, []) end)
  | SLoop id body => l_leave (l_stm body (id :: loops) (l_enter false false SPK_LOOP_DIRECT fs))
  | SSwitch clauses =>
      l_leave ((fix go (l : list (list stm)) (fs : list lscope) {struct l} : lres :=
                  match l with [] => inr (fs, []) | b :: r => l_then (seq b fs) (go r) end)
                 clauses (l_enter false false SPK_SWITCH fs))
  | STry b c f =>
      l_then (l_leave (seq b (l_enter false false SPK_TRY fs)))
        (fun fs => l_then (match c with
                           | Some l => l_leave (seq l (l_enter false false SPK_CATCH fs))
                           | None => inr (fs, [])
                           end)
           (fun fs => match f with Some l => l_leave (seq l (l_enter false false 0 fs)) | None => inr (fs, []) end))
  | SLabel id n body =>
      if l_has fs n then inl (LDup n)
      else match l_stm body loops (l_put n id fs) with
           | inl e => inl e
           | inr (fs, a) => inr (l_reset fs, a)
           end
  | SBreak n => l_break n fs
  | SCont n => l_cont n loops fs
  end.
Fixpoint l_seq (l : list stm) (loops : list nat) (fs : list lscope) : lres :=
  match l with [] => inr (fs, []) | s :: r => l_then (l_stm s loops fs) (l_seq r loops) end.
(** ecma/parser/parser.go:211-233 Prog: the scope of a program is marked GLOBAL. *)
Definition l_prog (l : list stm) : lerr + list (option nat) :=
  match l_seq l [] [mk_ls SPK_GLOBAL []] with inl e => inl e | inr (_, a) => inr a end.
