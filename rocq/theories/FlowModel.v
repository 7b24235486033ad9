(** ecma/analysis/ctrlflow.go and ecma/analysis/graph.go: how the control flow graph of a program is built.  Modelled for
    expressions made of names and literals, operators, conditional expressions, assignments, calls, new, members,
    sequences, arrays, templates and spreads, and for expression statements, declarations, blocks, if, while, do-while
    and for.  Left out: functions, classes, switch, try, with, labels, jumps, for-in, optional chains and JSX. *)
From Verif Require Import Base GraphModel.

(** ** The memory *)

(** ecma/analysis/graph.go:31-41 EdgeTag: ET_JMP_T is 1 << 1 and so on. *)
Definition ET_JMP_T : N := 2.
Definition ET_JMP_F : N := 4.
Definition ET_JMP_P : N := 32.
Definition ET_LOOP : N := 128.
Definition ET_CUT : N := 256.
(** ecma/analysis/graph.go:118-125 BlockKind. *)
Inductive bkind := BK_BASIC | BK_GROUP | BK_START.
(** What a block holds: a name or literal (its number in the program), or the marks ecma/analysis/graph.go:813-821 InfoNode
    left on entering and leaving a node of the given type. *)
Inductive nkind := K_BIN | K_UNARY | K_COND | K_PAREN | K_ELEMS | K_ASSIGN | K_CALL | K_NEW | K_MEMBER | K_SPREAD | K_VAR_DEC
  | K_EXPR_STMT | K_VAR | K_BLOCK | K_IF | K_WHILE | K_DO | K_FOR | K_PROG.
Inductive item := ILeaf (n : nat) | IEnter (k : nkind) | IExit (k : nkind).
(** ecma/analysis/graph.go:127-135 Block: [im] and [om] are the places of the maps Inlets and Outlets, which blocks may
    share; its id and graph are left out. *)
Record blk := mk_blk { bk : bkind; items : list item; im : nat; om : nat }.
(** The memory: edges, maps and blocks stand at places below [nx], each place being used for one of them. *)
Record heap := mk_heap { nx : nat; ed : nat -> edge; mp : nat -> list nat; bl : nat -> blk }.
Definition empty_heap : heap := mk_heap 0 (fun _ => no_edge) (fun _ => []) (fun n => mk_blk BK_GROUP [] n n).

Definition upd {A} (f : nat -> A) (n : nat) (x : A) : nat -> A := fun m => if Nat.eqb m n then x else f m.
Definition set_ed (h : heap) (n : nat) (x : edge) : heap := mk_heap (nx h) (upd (ed h) n x) (mp h) (bl h).
Definition set_mp (h : heap) (n : nat) (x : list nat) : heap := mk_heap (nx h) (ed h) (upd (mp h) n x) (bl h).
Definition set_bl (h : heap) (n : nat) (x : blk) : heap := mk_heap (nx h) (ed h) (mp h) (upd (bl h) n x).
(** A new edge, a new empty map. *)
Definition new_edge (h : heap) (x : edge) : nat * heap := (nx h, mk_heap (S (nx h)) (upd (ed h) (nx h) x) (mp h) (bl h)).
(** Adding an edge to a map. *)
Definition add_to (h : heap) (m e : nat) : heap :=
  if existsb (Nat.eqb e) (mp h m) then h else set_mp h m (mp h m ++ [e]).

(** ecma/analysis/graph.go:692-708 newBasicBlk and 710-726 newStartBlk. *)
Definition new_blk (k : bkind) (l : list item) (h : heap) : nat * heap :=
  let b := nx h in
  (b, mk_heap (5 + b)
        (upd (upd (ed h) (3 + b) (mk_edge EK_SEQ 0 None (Some b))) (4 + b) (mk_edge EK_SEQ 0 (Some b) None))
        (upd (upd (mp h) (1 + b) [3 + b]) (2 + b) [4 + b])
        (upd (bl h) b (mk_blk k l (1 + b) (2 + b)))).
(** ecma/analysis/graph.go:728-738 newGroupBlk, with the Inlets it is given right after. *)
Definition new_grp (ins : nat) (h : heap) : nat * heap :=
  let b := nx h in
  (b, mk_heap (2 + b) (ed h) (upd (mp h) (1 + b) []) (upd (bl h) b (mk_blk BK_GROUP [] ins (1 + b)))).
(** ecma/analysis/ctrlflow.go:71-81 newEnter and newExit. *)
Definition new_enter (k : nkind) (h : heap) : nat * heap := new_blk BK_BASIC [IEnter k] h.
Definition new_exit (k : nkind) (h : heap) : nat * heap := new_blk BK_BASIC [IExit k] h.

Definition ins (h : heap) (b : nat) : list nat := mp h (im (bl h b)).
Definition outs (h : heap) (b : nat) : list nat := mp h (om (bl h b)).
Definition is_seq (x : edge) : bool := ekind_eqb (e_kind x) EK_SEQ.
Definition hanging (x : edge) : bool := match e_dst x with None => true | Some _ => false end.
(** [None] is a panic. *)
Notation "'do' x <- a ; b" := (match a with Some x => b | None => None end) (at level 200, x name, a at level 100, b at level 200).
(** Pointers that are certainly not nil afterwards: dereferencing nil panics. *)

Section Order.
(** The order in which Go runs through a map: any permutation, chosen anew in each state. *)
Variable order : heap -> list nat -> list nat.

(** ecma/analysis/graph.go:175-182 OutSeqEdge and the search in 408-415 seqOutEdge and 362-371 unwrapSeqOut. *)
Definition out_seq (h : heap) (b : nat) : option nat := find (fun x => is_seq (ed h x)) (order h (outs h b)).
(** ecma/analysis/graph.go:417-424 seqInEdge and 351-360 unwrapSeqIn. *)
Definition in_seq (h : heap) (b : nat) : option nat := find (fun x => is_seq (ed h x)) (order h (ins h b)).
(** ecma/analysis/graph.go:351-360 unwrapSeqIn, 362-371 unwrapSeqOut. *)
Definition unwrap_in (h : heap) (b : nat) : option nat := do e <- in_seq h b; e_dst (ed h e).
Definition unwrap_out (h : heap) (b : nat) : option nat := do e <- out_seq h b; e_src (ed h e).
(** ecma/analysis/graph.go:292-294 onlySeqIn. *)
Definition only_seq_in (h : heap) (b : nat) : bool :=
  match ins h b with [e] => is_seq (ed h e) | _ => false end.
(** ecma/analysis/graph.go:296-302 onlySeqOut; an edge without source in Outlets panics there and gives false here. *)
Definition only_seq_out (h : heap) (b : nat) : bool :=
  match outs h b with
  | [e] => match e_src (ed h e) with
           | Some s => match outs h s with [e'] => is_seq (ed h e') | _ => false end
           | None => false
           end
  | _ => false
  end.
(** ecma/analysis/graph.go:512-519 IsInCut. *)
Definition is_in_cut (h : heap) (b : nat) : bool := forallb (fun x => has_bit (e_tag (ed h x)) ET_CUT) (ins h b).
Definition or_tag (x : edge) (t : N) : edge := mk_edge (e_kind x) (N.lor (e_tag x) t) (e_src x) (e_dst x).

(** ecma/analysis/graph.go:373-386 join. *)
Definition join (h : heap) (b to : nat) : option heap :=
  do t <- unwrap_in h to;
  do f <- unwrap_out h b;
  let h := set_bl h f (mk_blk (bk (bl h f)) (items (bl h f) ++ items (bl h t)) (im (bl h f)) (om (bl h t))) in
  let cut := is_in_cut h f in
  Some (fold_left (fun h e =>
          let x := ed h e in
          let x := mk_edge (e_kind x) (e_tag x) (Some f) (e_dst x) in
          set_ed h e (if cut && hanging x then or_tag x ET_CUT else x)) (outs h f) h).

(** ecma/analysis/graph.go:388-396 xOutEdges and 398-406 xJmpOutEdges. *)
Definition x_out (h : heap) (b : nat) : list nat := filter (fun e => hanging (ed h e)) (outs h b).
Definition x_jmp (h : heap) (b : nat) : list nat := filter (fun e => negb (is_seq (ed h e)) && hanging (ed h e)) (outs h b).

(** ecma/analysis/graph.go:427-442 newJmpOut. *)
Definition new_jmp_out (h : heap) (b : nat) (t : N) : option heap :=
  do q <- out_seq h b;
  do s <- e_src (ed h q);
  let (e, h) := new_edge h (mk_edge EK_JMP t (Some s) None) in
  let h := add_to h (om (bl h s)) e in
  let h := if is_in_cut h s then set_ed h e (or_tag (ed h e) ET_CUT) else h in
  Some (if Nat.eqb s b then h else add_to h (om (bl h b)) e).
(** ecma/analysis/graph.go:454-462 newLoopIn. *)
Definition new_loop_in (h : heap) (b : nat) : option heap :=
  do q <- in_seq h b;
  do d <- e_dst (ed h q);
  let (e, h) := new_edge h (mk_edge EK_JMP ET_LOOP None (Some d)) in
  let h := add_to h (im (bl h d)) e in
  Some (if Nat.eqb d b then h else add_to h (im (bl h b)) e).
(** ecma/analysis/graph.go:479-487 mrkSeqOutAsJmp and mrkSeqOutAsLoop. *)
Definition mrk_seq_out_as_loop (h : heap) (b : nat) : option heap :=
  do q <- out_seq h b;
  let x := ed h q in
  Some (set_ed h q (mk_edge EK_JMP (N.lor (e_tag x) ET_LOOP) (e_src x) (e_dst x))).
(** ecma/analysis/graph.go:489-498 addCutOutEdge; util.PickOne takes any edge. *)
Definition add_cut_out (h : heap) (b : nat) : option heap :=
  match order h (outs h b) with
  | [] => None
  | q :: _ =>
      do s <- e_src (ed h q);
      let (e, h) := new_edge h (mk_edge EK_SEQ ET_CUT (Some s) None) in
      let h := add_to h (om (bl h s)) e in
      Some (if Nat.eqb s b then h else add_to h (om (bl h b)) e)
  end.
(** ecma/analysis/graph.go:500-506 mrkJmpOutAsLoop. *)
Definition mrk_jmp_out_as_loop (h : heap) (b : nat) (t : N) : heap :=
  fold_left (fun h e => let x := ed h e in
               if ekind_eqb (e_kind x) EK_JMP && has_bit (e_tag x) t then set_ed h e (or_tag x ET_LOOP) else h) (outs h b) h.

(** ecma/analysis/graph.go:220-229 FindEdge. *)
Definition find_edge_in (h : heap) (l : list nat) (k : ekind) (t : N) : option nat :=
  find (fun e => let x := ed h e in
                 ekind_eqb (e_kind x) k && (N.eqb (e_tag x) 0 || N.eqb t 0 || has_bit (e_tag x) t)) (order h l).
(** ecma/analysis/graph.go:266-276 FindHangingInEdge with create. *)
Definition hanging_in (h : heap) (b : nat) (src : option nat) (k : ekind) (t : N) : nat * heap :=
  let fresh := let (e, h) := new_edge h (mk_edge k t None (Some b)) in (e, add_to h (im (bl h b)) e) in
  match find_edge_in h (ins h b) k t with
  | None => fresh
  | Some e => match e_src (ed h e) with
              | Some s => if same_ptr (Some s) src then (e, h) else fresh
              | None => (e, h)
              end
  end.
(** ecma/analysis/graph.go:943-954 linkEdges, one edge that is not to be overwritten. *)
Definition matches (k : ekind) (t : N) (x : edge) : bool :=
  ekind_eqb (e_kind x) k && (N.eqb t 0 || has_bit (e_tag x) t).
Definition link_one (fk : ekind) (ft : N) (tk : ekind) (tt : N) (to : nat) (h : heap) (e : nat) : heap :=
  let x := ed h e in
  if matches fk ft x then
    let h := if hanging x then set_ed h e (mk_edge (e_kind x) (e_tag x) (e_src x) (Some to)) else h in
    let (i, h) := hanging_in h to (e_src x) tk tt in
    let y := ed h i in
    set_ed h i (mk_edge (e_kind y) (e_tag x) (e_src x) (e_dst y))
  else h.
Definition link_edges (fk : ekind) (ft : N) (tk : ekind) (tt : N) (to : nat) (h : heap) (l : list nat) : heap :=
  fold_left (link_one fk ft tk tt to) (order h l) h.

(** ecma/analysis/graph.go:521-543 IsInCutPair. *)
Definition is_in_cut_pair (h : heap) (b : nat) : bool * bool :=
  let uncut := filter (fun x => negb (has_bit (e_tag (ed h x)) ET_CUT)) (ins h b) in
  let pairs := filter (fun x => has_bit (e_tag (ed h x)) ET_JMP_P) uncut in
  if Nat.ltb (List.length pairs) (List.length uncut) then (false, false)
  else match pairs with
       | [] => (true, false)
       | _ => (Nat.eqb (List.length pairs) (List.length (filter (fun x => has_bit (e_tag (ed h x)) ET_JMP_P) (outs h b))), true)
       end.
(** ecma/analysis/graph.go:568-571 IsOutCut. *)
Definition is_out_cut (h : heap) (b to : nat) : bool :=
  match find (fun x => has_bit (e_tag (ed h x)) ET_CUT) (order h (outs h b)) with
  | Some e => same_ptr (e_dst (ed h e)) (Some to)
  | None => false
  end.
(** The end of ecma/analysis/graph.go:887-941 link: what follows a cut is cut. *)
Definition spread_cut (h : heap) (from : nat) (fromSeq : option nat) (to : nat) : heap :=
  if is_out_cut h from to then
    let h := fold_left (fun h e => if same_ptr (e_src (ed h e)) fromSeq then set_ed h e (or_tag (ed h e) ET_CUT) else h) (ins h to) h in
    let (cut, pair) := is_in_cut_pair h to in
    if cut then
      fold_left (fun h e => if pair && negb (is_seq (ed h e)) then h else set_ed h e (or_tag (ed h e) ET_CUT)) (outs h to) h
    else h
  else h.

(** ecma/analysis/graph.go:878-885 LinkFlag: at most one of these is ever given. *)
Inductive lflag := LF_NONE | LF_FORCE_SEP | LF_FORCE_JOIN.
Definition is_sep (f : lflag) : bool := match f with LF_FORCE_SEP => true | _ => false end.
Definition is_join (f : lflag) : bool := match f with LF_FORCE_JOIN => true | _ => false end.
Definition is_basic (b : blk) : bool := match bk b with BK_BASIC => true | _ => false end.
(** ecma/analysis/graph.go:887-941 link; nil blocks are [None]. *)
Definition link (h : heap) (from : option nat) (fk : ekind) (ft : N) (tk : ekind) (tt : N) (to : option nat) (flag : lflag) : option heap :=
  match from, to with
  | Some from, Some to =>
      let fromSeq := match out_seq h from with Some e => e_src (ed h e) | None => None end in
      let far :=
        do to <- unwrap_in h to;
        Some (spread_cut (link_edges fk ft tk tt to h (outs h from)) from fromSeq to) in
      if is_join flag || (ekind_eqb fk EK_SEQ && negb (is_sep flag) && only_seq_in h to) then
        if only_seq_out h from || is_join flag then join h from to
        else match fromSeq with
             | Some s =>
                 if is_basic (bl h s) && only_seq_out h s && ekind_eqb tk EK_SEQ && is_basic (bl h to)
                 then join h s to else far
             | None => far
             end
      else far
  | _, _ => Some h
  end.
(** The two links written most often. *)
Definition link_seq (h : heap) (a b : option nat) : option heap := link h a EK_SEQ 0 EK_SEQ 0 b LF_NONE.
Definition link_jmp (h : heap) (a b : option nat) : option heap := link h a EK_JMP 0 EK_JMP 0 b LF_NONE.

(** util.Merge into the Outlets of a block. *)
Definition add_outs (h : heap) (b : nat) (l : list nat) : heap := set_mp h (om (bl h b)) (merge_set (mp h (om (bl h b))) l).
(** ecma/analysis/graph.go:978-996 grpBlock. *)
Definition grp (h : heap) (from to : option nat) : option (option nat * heap) :=
  match to with
  | None => Some (from, h)
  | Some to =>
      match from with
      | None => None
      | Some from =>
          let x := x_jmp h from in
          let (v, h) :=
            match bk (bl h from) with
            | BK_GROUP =>
                let m := nx h in
                (from, mk_heap (S m) (ed h) (upd (mp h) m []) (upd (bl h) from (mk_blk BK_GROUP (items (bl h from)) (im (bl h from)) m)))
            | _ => new_grp (im (bl h from)) h
            end in
          Some (Some v, add_outs (add_outs h v (x_out h to)) v x)
      end
  end.

(** ** The visitors *)

(** The binary operators that matter: && , || , ?? and the others. *)
Inductive bop := B_and | B_or | B_nullish | B_other.
Inductive one_arg := W_unary | W_paren | W_spread.
(** Trees.  [Leaf] is a name or (with [true]) a literal; [Hole] is a missing element of an array; the child of a
    [W_paren] is what ParenExpr.Expr returns, never a [W_paren] itself. *)
Inductive expr :=
| Leaf (lit : bool) (n : nat)
| Hole
| Bin (op : bop) (l r : expr)
| One (w : one_arg) (x : expr)
| Cond (c a b : expr)
| Assign (l r : expr)
| Elems (l : list expr)
| Call (f : expr) (args : list expr)
| New (f : expr) (args : list expr)
| Member (o p : expr).
Inductive stmt :=
| Exp (e : expr)
| Empty
| Var (l : list (expr * option expr))
| Block (l : list stmt)
| If (c : expr) (a : stmt) (b : option stmt)
| While (c : expr) (a : stmt)
| Do (a : stmt) (c : expr)
| For (i : option expr) (c : option expr) (u : option expr) (a : stmt).

(** ecma/analysis/ctrlflow.go:14-22 AnalysisCtx: the stacks, the last pushed first. *)
Record world := mk_world { w_h : heap; w_st : list nat; w_xs : list nat }.
(** ecma/analysis/ctrlflow.go:87-95 popStmt and 101-109 popExpr: nil when the stack is empty. *)
Definition pop (l : list nat) : option nat * list nat := match l with x :: l => (Some x, l) | [] => (None, []) end.
Definition push (b : option nat) (l : list nat) : option (list nat) := match b with Some b => Some (b :: l) | None => None end.

(** ecma/analysis/ctrlflow.go:111-128 popExprsAndLink: head and tail. *)
Fixpoint pop_rest (n : nat) (h : heap) (tt : option nat) (xs : list nat) : option (option nat * heap * list nat) :=
  match n with
  | O => Some (tt, h, xs)
  | S n =>
      let (th, xs) := pop xs in
      do h <- link_jmp h th tt;
      do h <- link_seq h th tt;
      pop_rest n h th xs
  end.
Definition pop_link (n : nat) (h : heap) (xs : list nat) : option (option nat * option nat * heap * list nat) :=
  match n with
  | O => Some (None, None, h, xs)
  | S n =>
      let (tail, xs) := pop xs in
      do r <- pop_rest n h tail xs;
      let '(head, h, xs) := r in Some (head, tail, h, xs)
  end.

(** handleAfter of N_EXPR_BIN: ecma/analysis/ctrlflow.go:280-319; [es] tells whether the parent is an expression
    statement. *)
Definition after_bin (op : bop) (es : bool) (h : heap) (enter lhs rhs : option nat) : option (option nat * heap) :=
  do h <- link h enter EK_SEQ 0 EK_NONE 0 lhs LF_NONE;
  do r <- grp h enter lhs;
  let (lhs, h) := r in
  do lhs <- lhs;
  do h <- (match op with
           | B_and => new_jmp_out h lhs ET_JMP_F
           | B_or | B_nullish => new_jmp_out h lhs ET_JMP_T
           | B_other => Some h
           end);
  do h <- link_seq h (Some lhs) rhs;
  do h <- (match op with
           | B_or | B_nullish => link h (Some lhs) EK_JMP ET_JMP_F EK_SEQ 0 rhs LF_NONE
           | _ => Some h
           end);
  do rhs <- rhs;
  let (vn, h) := new_grp (im (bl h lhs)) h in
  let h := match op with
           | B_other => set_bl h vn (mk_blk BK_GROUP [] (im (bl h vn)) (om (bl h rhs)))
           | _ => add_outs (add_outs h vn (outs h rhs)) vn (x_out h lhs)
           end in
  let (exit, h) := new_exit K_BIN h in
  do h <- (match op with
           | B_other => Some h
           | _ => if es then link h (Some vn) EK_JMP (N.lor ET_JMP_T ET_JMP_F) EK_JMP 0 (Some exit) LF_NONE else Some h
           end);
  do h <- link_seq h (Some vn) (Some exit);
  grp h (Some vn) (Some exit).
(** N_EXPR_UNARY, ecma/analysis/ctrlflow.go:321-331; N_EXPR_UPDATE and N_EXPR_PAREN, 367-375; N_PAT_REST, N_SPREAD,
    N_EXPR_YIELD and N_EXPR_CHAIN, 612-623. *)
Definition after_unary (h : heap) (enter x : option nat) : option (option nat * heap) :=
  let (exit, h) := new_exit K_UNARY h in
  do h <- link_seq h enter x;
  do r <- grp h enter x;
  let (prev, h) := r in
  do h <- link_seq h prev (Some exit);
  grp h enter (Some exit).
Definition after_paren (h : heap) (enter x : option nat) : option (option nat * heap) :=
  do h <- link_seq h enter x;
  let (exit, h) := new_exit K_PAREN h in
  do h <- link_jmp h x (Some exit);
  do h <- link_seq h x (Some exit);
  grp h enter (Some exit).
Definition after_spread (h : heap) (enter x : option nat) : option (option nat * heap) :=
  let (exit, h) := new_exit K_SPREAD h in
  do h <- link_seq h enter x;
  do r <- grp h enter x;
  let (prev, h) := r in
  do h <- link_jmp h prev (Some exit);
  do h <- link_seq h prev (Some exit);
  grp h enter (Some exit).
Definition after_one (w : one_arg) : heap -> option nat -> option nat -> option (option nat * heap) :=
  match w with W_unary => after_unary | W_paren => after_paren | W_spread => after_spread end.
(** N_EXPR_COND, ecma/analysis/ctrlflow.go:333-353. *)
Definition after_cond (h : heap) (enter test cons alt : option nat) : option (option nat * heap) :=
  let (exit, h) := new_exit K_COND h in
  do t <- test;
  do h <- new_jmp_out h t ET_JMP_F;
  do h <- link_seq h enter test;
  do r <- grp h enter test;
  let (prev, h) := r in
  do h <- link_seq h prev cons;
  do h <- link h prev EK_JMP ET_JMP_T EK_SEQ 0 cons LF_NONE;
  do h <- link h prev EK_JMP ET_JMP_F EK_SEQ 0 alt LF_NONE;
  do r <- grp h prev cons;
  let (vn, h) := r in
  do v <- vn;
  do alt <- alt;
  let h := add_outs h v (x_out h alt) in
  do h <- link_jmp h vn (Some exit);
  do h <- link h vn EK_SEQ 0 EK_SEQ 0 (Some exit) LF_FORCE_SEP;
  grp h vn (Some exit).
(** N_EXPR_ASSIGN, ecma/analysis/ctrlflow.go:444-454. *)
Definition after_assign (h : heap) (enter lhs rhs : option nat) : option (option nat * heap) :=
  let (exit, h) := new_exit K_ASSIGN h in
  do h <- link_seq h enter lhs;
  do h <- link_seq h lhs rhs;
  do h <- link_jmp h rhs (Some exit);
  do h <- link_seq h rhs (Some exit);
  grp h enter (Some exit).
(** N_LIT_ARR, N_EXPR_SEQ and N_EXPR_TPL: ecma/analysis/ctrlflow.go:377-393, 536-553 and 625-645. *)
Definition after_elems (h : heap) (enter head tail : option nat) : option (option nat * heap) :=
  let (exit, h) := new_exit K_ELEMS h in
  do h <- (match head with
           | Some _ =>
               do h <- link_seq h enter head;
               do h <- link_jmp h tail (Some exit);
               link_seq h tail (Some exit)
           | None => link_seq h enter (Some exit)
           end);
  grp h enter (Some exit).
(** N_EXPR_CALL without ?. : ecma/analysis/ctrlflow.go:456-482. *)
Definition after_call (h : heap) (enter fn head tail : option nat) : option (option nat * heap) :=
  let (exit, h) := new_exit K_CALL h in
  do h <- link_seq h enter fn;
  do h <- (match head with
           | Some _ =>
               do h <- link_seq h fn head;
               do h <- link_jmp h tail (Some exit);
               link_seq h tail (Some exit)
           | None => link_seq h fn (Some exit)
           end);
  do r <- grp h enter (Some exit);
  let (vn, h) := r in
  do v <- vn;
  do fn <- fn;
  Some (vn, add_outs h v (x_jmp h fn)).
(** N_EXPR_NEW, ecma/analysis/ctrlflow.go:484-510. *)
Definition after_new (h : heap) (enter fn head tail : option nat) : option (option nat * heap) :=
  let (exit, h) := new_exit K_NEW h in
  do h <- link_seq h enter fn;
  do r <- grp h enter fn;
  let (prev, h) := r in
  do h <- (match head with
           | Some _ =>
               do h <- link_jmp h prev head;
               do h <- link_seq h prev head;
               do h <- link_jmp h tail (Some exit);
               link_seq h tail (Some exit)
           | None => do h <- link_jmp h prev (Some exit); link_seq h prev (Some exit)
           end);
  grp h enter (Some exit).
(** N_EXPR_MEMBER without ?. : ecma/analysis/ctrlflow.go:512-534. *)
Definition after_member (h : heap) (enter obj prop : option nat) : option (option nat * heap) :=
  let (exit, h) := new_exit K_MEMBER h in
  do h <- link_seq h enter obj;
  do h <- link h obj EK_JMP (N.lor ET_JMP_T ET_JMP_F) EK_JMP 0 prop LF_NONE;
  do h <- link_seq h obj prop;
  do h <- link h prop EK_JMP (N.lor ET_JMP_T ET_JMP_F) EK_JMP 0 (Some exit) LF_NONE;
  do h <- link_seq h prop (Some exit);
  do r <- grp h enter (Some exit);
  let (vn, h) := r in
  do v <- vn;
  do o <- obj;
  do p <- prop;
  Some (vn, add_outs (add_outs h v (x_jmp h o)) v (x_jmp h p)).

(** What handleBefore does for a node that is no atom and no statement: ecma/analysis/ctrlflow.go:185-189, 225-238. *)
Definition push_enter (k : nkind) (w : world) : world :=
  let (b, h) := new_enter k (w_h w) in mk_world h (w_st w) (b :: w_xs w).
(** Pushing what handleAfter made. *)
Definition done_x (r : option (option nat * heap)) (st xs : list nat) : option world :=
  do r <- r;
  let (b, h) := r in
  do xs <- push b xs;
  Some (mk_world h st xs).

(** ecma/analysis/ctrlflow.go:178-239 handleBefore, the children in the order of ecma/walk, 273-1676 handleAfter. *)
Fixpoint go_expr (es : bool) (e : expr) (w : world) : option world :=
  let go_list := fix go_list (l : list expr) (w : world) : option world :=
    match l with
    | [] => Some w
    | e :: l => do w <- go_expr false e w; go_list l w
    end in
  match e with
  | Leaf _ n => let (b, h) := new_blk BK_BASIC [ILeaf n] (w_h w) in Some (mk_world h (w_st w) (b :: w_xs w))
  | Hole => Some w
  | Bin op l r =>
      do w <- go_expr false l (push_enter K_BIN w);
      do w <- go_expr false r w;
      let (rhs, xs) := pop (w_xs w) in
      let (lhs, xs) := pop xs in
      let (enter, xs) := pop xs in
      done_x (after_bin op es (w_h w) enter lhs rhs) (w_st w) xs
  | One k x =>
      do w <- go_expr false x (push_enter (match k with W_unary => K_UNARY | W_paren => K_PAREN | W_spread => K_SPREAD end) w);
      let (x, xs) := pop (w_xs w) in
      let (enter, xs) := pop xs in
      done_x (after_one k (w_h w) enter x) (w_st w) xs
  | Cond c a b =>
      do w <- go_expr false c (push_enter K_COND w);
      do w <- go_expr false a w;
      do w <- go_expr false b w;
      let (alt, xs) := pop (w_xs w) in
      let (cons, xs) := pop xs in
      let (test, xs) := pop xs in
      let (enter, xs) := pop xs in
      done_x (after_cond (w_h w) enter test cons alt) (w_st w) xs
  | Assign l r =>
      do w <- go_expr false l (push_enter K_ASSIGN w);
      do w <- go_expr false r w;
      let (rhs, xs) := pop (w_xs w) in
      let (lhs, xs) := pop xs in
      let (enter, xs) := pop xs in
      done_x (after_assign (w_h w) enter lhs rhs) (w_st w) xs
  | Elems l =>
      do w <- go_list l (push_enter K_ELEMS w);
      do r <- pop_link (List.length l) (w_h w) (w_xs w);
      let '(head, tail, h, xs) := r in
      let (enter, xs) := pop xs in
      done_x (after_elems h enter head tail) (w_st w) xs
  | Call f l =>
      do w <- go_expr false f (push_enter K_CALL w);
      do w <- go_list l w;
      do r <- pop_link (List.length l) (w_h w) (w_xs w);
      let '(head, tail, h, xs) := r in
      let (fn, xs) := pop xs in
      let (enter, xs) := pop xs in
      done_x (after_call h enter fn head tail) (w_st w) xs
  | New f l =>
      do w <- go_expr false f (push_enter K_NEW w);
      do w <- go_list l w;
      do r <- pop_link (List.length l) (w_h w) (w_xs w);
      let '(head, tail, h, xs) := r in
      let (fn, xs) := pop xs in
      let (enter, xs) := pop xs in
      done_x (after_new h enter fn head tail) (w_st w) xs
  | Member o p =>
      do w <- go_expr false o (push_enter K_MEMBER w);
      do w <- go_expr false p w;
      let (prop, xs) := pop (w_xs w) in
      let (obj, xs) := pop xs in
      let (enter, xs) := pop xs in
      done_x (after_member (w_h w) enter obj prop) (w_st w) xs
  end.
(** ecma/walk/ctx.go:148-155 VisitNodes. *)
Fixpoint go_exprs (l : list expr) (w : world) : option world :=
  match l with
  | [] => Some w
  | e :: l => do w <- go_expr false e w; go_exprs l w
  end.

(** What handleBefore does for a statement: ecma/analysis/ctrlflow.go:200-224; [fork] tells whether the parent is an if
    or a loop. *)
Definition enter_stmt (k : nkind) (fork : bool) (w : world) : option world :=
  let (b, h) := new_enter k (w_h w) in
  if fork then Some (mk_world h (b :: w_st w) (w_xs w))
  else
    let (prev, st) := pop (w_st w) in
    do h <- link_seq h prev (Some b);
    do r <- grp h prev (Some b);
    let (v, h) := r in
    do st <- push v st;
    Some (mk_world h st (w_xs w)).
(** N_STMT_BLOCK and N_STMT_VAR_DEC: ecma/analysis/ctrlflow.go:840-844 and 820-824. *)
Definition leave_stmt (k : nkind) (w : world) : option world :=
  let (prev, st) := pop (w_st w) in
  let (exit, h) := new_exit k (w_h w) in
  do h <- link_seq h prev (Some exit);
  do r <- grp h prev (Some exit);
  let (v, h) := r in
  do st <- push v st;
  Some (mk_world h st (w_xs w)).
(** N_STMT_EXPR: ecma/analysis/ctrlflow.go:782-793. *)
Definition after_exp (h : heap) (enter x : option nat) : option (option nat * heap) :=
  do h <- link h enter EK_SEQ 0 EK_SEQ 0 x LF_FORCE_JOIN;
  do r <- grp h enter x;
  let (prev, h) := r in
  let (exit, h) := new_exit K_EXPR_STMT h in
  do h <- link h prev EK_JMP (N.lor ET_JMP_T ET_JMP_F) EK_JMP 0 (Some exit) LF_NONE;
  do h <- link_seq h prev (Some exit);
  grp h enter (Some exit).
(** N_VAR_DEC: ecma/analysis/ctrlflow.go:795-818. *)
Definition after_var_dec (h : heap) (prev enter id init : option nat) : option (option nat * heap) :=
  do h <- link_seq h enter id;
  let (exit, h) := new_exit K_VAR_DEC h in
  do h <- (match init with
           | Some _ =>
               do h <- link_seq h id init;
               do h <- link_jmp h init (Some exit);
               link_seq h init (Some exit)
           | None => link_seq h id (Some exit)
           end);
  do r <- grp h enter (Some exit);
  let (vn, h) := r in
  do h <- link_seq h prev vn;
  grp h prev vn.
(** N_STMT_IF: ecma/analysis/ctrlflow.go:846-883. *)
Definition after_if (h : heap) (enter test cons alt : option nat) : option (option nat * heap) :=
  do h <- link h enter EK_SEQ 0 EK_NONE 0 test LF_NONE;
  do r <- grp h enter test;
  let (test, h) := r in
  do t <- test;
  do h <- new_jmp_out h t ET_JMP_F;
  do h <- link_seq h test cons;
  do h <- link h test EK_JMP ET_JMP_T EK_SEQ 0 cons LF_NONE;
  do h <- (match alt with Some _ => link h test EK_JMP ET_JMP_F EK_SEQ 0 alt LF_NONE | None => Some h end);
  do enter <- enter;
  do cons <- cons;
  let (vn, h) := new_grp (im (bl h enter)) h in
  let h := add_outs (add_outs h vn (x_jmp h t)) vn (x_out h cons) in
  let h := match alt with Some alt => add_outs h vn (x_out h alt) | None => h end in
  let (exit, h) := new_exit K_IF h in
  do h <- link h (Some vn) EK_JMP (N.lor ET_JMP_T ET_JMP_F) EK_JMP 0 (Some exit) LF_NONE;
  do h <- link h (Some vn) EK_SEQ 0 EK_SEQ 0 (Some exit) (match alt with Some _ => LF_FORCE_SEP | None => LF_NONE end);
  grp h (Some vn) (Some exit).
(** The end of a loop: the exit of the group made of the jumps out of the test and out of the body; there are no breaks
    (ecma/analysis/ctrlflow.go:1666-1675). *)
Definition loop_exit (k : nkind) (jmp_from : option nat) (h : heap) (vn : nat) : option (option nat * heap) :=
  let (exit, h) := new_exit k h in
  do h <- link_jmp h (match jmp_from with Some b => Some b | None => Some vn end) (Some exit);
  do h <- link_seq h (Some vn) (Some exit);
  do r <- grp h (Some vn) (Some exit);
  let (v, h) := r in
  do b <- v;
  do q <- out_seq h b;
  do s <- e_src (ed h q);
  Some (v, h).
(** N_STMT_WHILE: ecma/analysis/ctrlflow.go:972-1008; [lit]: the test is a literal. *)
Definition after_while (lit : bool) (h : heap) (enter test body : option nat) : option (option nat * heap) :=
  do t <- test;
  do h <- (if lit then Some h else new_jmp_out h t ET_JMP_F);
  do h <- new_loop_in h t;
  do h <- link_seq h enter test;
  do h <- link_seq h test body;
  do h <- link h test EK_JMP ET_JMP_T EK_SEQ 0 body LF_NONE;
  do h <- link h body EK_JMP ET_LOOP EK_JMP ET_LOOP test LF_NONE;
  do h <- link_seq h body test;
  do b <- body;
  do h <- mrk_seq_out_as_loop h b;
  do h <- (if lit then add_cut_out h b else Some h);
  do enter <- enter;
  let (vn, h) := new_grp (im (bl h enter)) h in
  let h := add_outs (add_outs h vn (x_jmp h t)) vn (x_out h b) in
  loop_exit K_WHILE None h vn.
(** N_STMT_DO_WHILE: ecma/analysis/ctrlflow.go:1010-1049. *)
Definition after_do (lit : bool) (h : heap) (enter body test : option nat) : option (option nat * heap) :=
  do t <- test;
  do h <- new_jmp_out h t ET_JMP_F;
  do b <- body;
  do h <- new_loop_in h b;
  do h <- link h enter EK_SEQ 0 EK_NONE 0 body LF_NONE;
  do h <- link_seq h body test;
  do h <- link_seq h test body;
  do h <- mrk_seq_out_as_loop h t;
  do h <- link h test EK_JMP ET_JMP_T EK_JMP 0 body LF_NONE;
  let h := mrk_jmp_out_as_loop h t ET_JMP_T in
  do enter <- enter;
  let (vn, h) := new_grp (im (bl h enter)) h in
  let h := add_outs (add_outs h vn (x_jmp h t)) vn (x_out h b) in
  let (exit, h) := new_exit K_DO h in
  do h <- link_jmp h test (Some exit);
  do h <- link_seq h (Some vn) (Some exit);
  do h <- (if lit then
             do j <- find_edge_in h (outs h t) EK_JMP ET_JMP_F;
             let x := ed h j in Some (set_ed h j (mk_edge EK_SEQ ET_CUT (e_src x) (e_dst x)))
           else Some h);
  do r <- grp h (Some vn) (Some exit);
  let (v, h) := r in
  do b <- v;
  do q <- out_seq h b;
  do s <- e_src (ed h q);
  Some (v, h).
(** N_STMT_FOR: ecma/analysis/ctrlflow.go:885-970. *)
Definition after_for (lit : bool) (h : heap) (enter init test update body : option nat) : option (option nat * heap) :=
  do h <- (match test with
           | Some t => do h <- new_jmp_out h t ET_JMP_F; new_loop_in h t
           | None => Some h
           end);
  do h <- (match init with
           | Some _ => do h <- link h enter EK_SEQ 0 EK_NONE 0 init LF_NONE; link_seq h init test
           | None => Some h
           end);
  do b <- body;
  do h <- (match test with
           | Some _ =>
               do h <- (match init with None => link h enter EK_SEQ 0 EK_NONE 0 test LF_NONE | Some _ => Some h end);
               link_seq h test body
           | None =>
               do h <- new_loop_in h b;
               link_seq h (match init with None => enter | Some _ => init end) body
           end);
  do h <- (match update with
           | Some u =>
               do h <- link_seq h body update;
               do h <- link_seq h update (match test with Some _ => test | None => body end);
               mrk_seq_out_as_loop h u
           | None =>
               do h <- link_seq h body (match test with Some _ => test | None => body end);
               do h <- mrk_seq_out_as_loop h b;
               match test with None => add_cut_out h b | Some _ => Some h end
           end);
  do enter <- enter;
  let (vn, h) := new_grp (im (bl h enter)) h in
  let h := match test with Some t => add_outs h vn (x_jmp h t) | None => h end in
  let h := add_outs h vn (x_out h b) in
  let (exit, h) := new_exit K_FOR h in
  do h <- link_jmp h (Some vn) (Some exit);
  do h <- link_seq h (Some vn) (Some exit);
  do h <- (match test with
           | Some t => if lit then
                         do j <- find_edge_in h (outs h t) EK_JMP ET_JMP_F;
                         let x := ed h j in Some (set_ed h j (mk_edge EK_SEQ ET_CUT (e_src x) (e_dst x)))
                       else Some h
           | None => Some h
           end);
  do r <- grp h (Some vn) (Some exit);
  let (v, h) := r in
  do b <- v;
  do q <- out_seq h b;
  do s <- e_src (ed h q);
  Some (v, h).
Definition is_lit (e : expr) : bool := match e with Leaf b _ => b | _ => false end.

Definition done_s (r : option (option nat * heap)) (st xs : list nat) : option world :=
  do r <- r;
  let (b, h) := r in
  do st <- push b st;
  Some (mk_world h st xs).
Definition go_opt (e : option expr) (w : world) : option world := match e with Some e => go_expr false e w | None => Some w end.
Definition pop_opt (e : option expr) (l : list nat) : option nat * list nat := match e with Some _ => pop l | None => (None, l) end.
(** One declarator: ecma/walk/visitor.go:1325-1340 and N_VAR_DEC. *)
Definition go_dec (d : expr * option expr) (w : world) : option world :=
  do w <- go_expr false (fst d) (push_enter K_VAR_DEC w);
  do w <- go_opt (snd d) w;
  let (init, xs) := pop_opt (snd d) (w_xs w) in
  let (id, xs) := pop xs in
  let (enter, xs) := pop xs in
  let (prev, st) := pop (w_st w) in
  done_s (after_var_dec (w_h w) prev enter id init) st xs.
Fixpoint go_decs (l : list (expr * option expr)) (w : world) : option world :=
  match l with [] => Some w | d :: l => do w <- go_dec d w; go_decs l w end.
(** The statements; an empty statement has no visitor (ecma/walk/ctx.go:169-178). *)
Fixpoint go_stmt (fork : bool) (s : stmt) (w : world) : option world :=
  let go_list := fix go_list (l : list stmt) (w : world) : option world :=
    match l with
    | [] => Some w
    | s :: l => do w <- go_stmt false s w; go_list l w
    end in
  match s with
  | Empty => Some w
  | Exp e =>
      do w <- enter_stmt K_EXPR_STMT fork w;
      do w <- go_expr true e w;
      let (x, xs) := pop (w_xs w) in
      let (enter, st) := pop (w_st w) in
      done_s (after_exp (w_h w) enter x) st xs
  | Var l =>
      do w <- enter_stmt K_VAR fork w;
      do w <- go_decs l w;
      leave_stmt K_VAR w
  | Block l =>
      do w <- enter_stmt K_BLOCK fork w;
      do w <- go_list l w;
      leave_stmt K_BLOCK w
  | If c a b =>
      do w <- enter_stmt K_IF fork w;
      do w <- go_expr false c w;
      do w <- go_stmt true a w;
      do w <- (match b with Some b => go_stmt true b w | None => Some w end);
      let (alt, st) := match b with Some _ => pop (w_st w) | None => (None, w_st w) end in
      let (cons, st) := pop st in
      let (test, xs) := pop (w_xs w) in
      let (enter, st) := pop st in
      done_s (after_if (w_h w) enter test cons alt) st xs
  | While c a =>
      do w <- enter_stmt K_WHILE fork w;
      do w <- go_expr false c w;
      do w <- go_stmt true a w;
      let (body, st) := pop (w_st w) in
      let (test, xs) := pop (w_xs w) in
      let (enter, st) := pop st in
      done_s (after_while (is_lit c) (w_h w) enter test body) st xs
  | Do a c =>
      do w <- enter_stmt K_DO fork w;
      do w <- go_stmt true a w;
      do w <- go_expr false c w;
      let (test, xs) := pop (w_xs w) in
      let (body, st) := pop (w_st w) in
      let (enter, st) := pop st in
      done_s (after_do (is_lit c) (w_h w) enter body test) st xs
  | For i c u a =>
      do w <- enter_stmt K_FOR fork w;
      do w <- go_opt i w;
      do w <- go_opt c w;
      do w <- go_opt u w;
      do w <- go_stmt true a w;
      let (body, st) := pop (w_st w) in
      let (update, xs) := pop_opt u (w_xs w) in
      let (test, xs) := pop_opt c xs in
      let (init, xs) := pop_opt i xs in
      let (enter, st) := pop st in
      done_s (after_for (match c with Some c => is_lit c | None => false end) (w_h w) enter init test update body) st xs
  end.
Fixpoint go_stmts (l : list stmt) (w : world) : option world :=
  match l with [] => Some w | s :: l => do w <- go_stmt false s w; go_stmts l w end.

(** ecma/analysis/ctrlflow.go:24-36 newAnalysisCtx, with 637-650 newGraph of ecma/analysis/graph.go; 832-838 N_PROG of
    handleAfter; 1708-1710 Analyze.  The graph's Head is the block at 0. *)
Definition start : world := let (b, h) := new_blk BK_START [] empty_heap in mk_world h [b] [].
Definition analyze (l : list stmt) : option world :=
  do w <- enter_stmt K_PROG false start;
  do w <- go_stmts l w;
  let (prev, st) := pop (w_st w) in
  let (exit, h) := new_exit K_PROG (w_h w) in
  do h <- link_jmp h prev (Some exit);
  do h <- link_seq h prev (Some exit);
  done_s (grp h prev (Some exit)) st (w_xs w).
End Order.
