(** What it means for a control flow graph to allow what a program does. *)
From Verif Require Import Base GraphModel FlowModel.

(** ** What programs do *)

(** Values, as far as control flow depends on them. *)
Inductive val := V_true | V_false | V_null.
(** Whether an operator is done after its left operand. *)
Definition stops (op : bop) (v : val) : Prop :=
  match op with
  | B_and => v <> V_true
  | B_or => v = V_true
  | B_nullish => v <> V_null
  | B_other => False
  end.
Definition logical (op : bop) : bool := match op with B_other => false | _ => true end.
(** One after the other. *)
Definition then_ (a b : list nat -> Prop) (t : list nat) : Prop := exists t1 t2, t = t1 ++ t2 /\ a t1 /\ b t2.
Definition none (t : list nat) : Prop := t = [].
Definition all_of {A} (f : A -> list nat -> Prop) : list A -> list nat -> Prop :=
  fix all_of (l : list A) : list nat -> Prop := match l with [] => none | x :: l => then_ (f x) (all_of l) end.
(** [eval e t v]: evaluating [e] can evaluate the names and literals [t] in this order and give [v].  Nothing throws. *)
Fixpoint eval (e : expr) (t : list nat) (v : val) : Prop :=
  match e with
  | Leaf _ n => t = [n]
  | Hole => t = []
  | Bin op l r =>
      (exists v1, eval l t v1 /\ stops op v1 /\ v = v1)
      \/ (exists t1 v1 t2 v2, t = t1 ++ t2 /\ eval l t1 v1 /\ ~ stops op v1 /\ eval r t2 v2 /\ (logical op = true -> v = v2))
  | One W_paren x => eval x t v
  | One _ x => exists v1, eval x t v1
  | Cond c a b =>
      exists t1 t2 v1, t = t1 ++ t2 /\ eval c t1 v1 /\ (v1 = V_true /\ eval a t2 v \/ v1 <> V_true /\ eval b t2 v)
  | Assign l r => exists t1 t2 v1, t = t1 ++ t2 /\ eval l t1 v1 /\ eval r t2 v
  | Elems l => all_of (fun x t => exists v, eval x t v) l t
  | Call f l | New f l => then_ (fun t => exists v, eval f t v) (all_of (fun x t => exists v, eval x t v) l) t
  | Member o p => then_ (fun t => exists v, eval o t v) (fun t => exists v, eval p t v) t
  end.
Definition evals (e : expr) (t : list nat) : Prop := exists v, eval e t v.
Definition is_true (e : expr) (t : list nat) : Prop := eval e t V_true.
Definition is_not (e : expr) (t : list nat) : Prop := exists v, eval e t v /\ v <> V_true.
(** Any number of times. *)
Inductive often (a : list nat -> Prop) : list nat -> Prop :=
| often_no : often a []
| often_more t1 t2 : a t1 -> often a t2 -> often a (t1 ++ t2).
(** [exec s t]: executing [s] to its end can evaluate the names and literals [t] in this order. *)
Fixpoint exec (s : stmt) (t : list nat) : Prop :=
  match s with
  | Exp e => evals e t
  | Empty => t = []
  | Var l => all_of (fun d => then_ (evals (fst d)) (match snd d with Some e => evals e | None => none end)) l t
  | Block l => all_of exec l t
  | If c a b => then_ (is_true c) (exec a) t \/ then_ (is_not c) (match b with Some b => exec b | None => none end) t
  | While c a => then_ (often (then_ (is_true c) (exec a))) (is_not c) t
  | Do a c => then_ (often (then_ (exec a) (is_true c))) (then_ (exec a) (is_not c)) t
  | For i c u a =>
      then_ (match i with Some i => evals i | None => none end)
        (then_ (often (then_ (match c with Some c => is_true c | None => none end)
                         (then_ (exec a) (match u with Some u => evals u | None => none end))))
               (match c with Some c => is_not c | None => fun _ => False end)) t
  end.
Definition runs (l : list stmt) : list nat -> Prop := all_of exec l.

(** ** What graphs allow *)

(** The names and literals in a block. *)
Definition leaves (l : list item) : list nat := flat_map (fun i => match i with ILeaf n => [n] | _ => [] end) l.
(** Whether a block is reported as reached (its method IsInCut). *)
Definition live (h : heap) (b : nat) : Prop := is_in_cut h b = false.
(** [path h b t x]: from the beginning of block [b], along edges that are not cut, through blocks that are reported as
    reached, the names and literals [t] are met and the edge [x] is reached. *)
Inductive path (h : heap) : nat -> list nat -> nat -> Prop :=
| path_end b x : live h b -> In x (outs h b) -> path h b (leaves (items (bl h b))) x
| path_go b x b' t y : live h b -> In x (outs h b) -> e_dst (ed h x) = Some b' -> has_bit (e_tag (ed h x)) ET_CUT = false ->
    path h b' t y -> path h b (leaves (items (bl h b)) ++ t) y.
(** The edge that leaves the whole graph: its block ends with the mark of the end of the program. *)
Definition final (h : heap) (x : nat) : Prop :=
  e_dst (ed h x) = None /\ exists b l, e_src (ed h x) = Some b /\ items (bl h b) = l ++ [IExit K_PROG].

(** ** The trees *)

Definition root (e : expr) : option bop := match e with Bin op _ _ => Some op | _ => None end.
Definition is_hole (e : expr) : bool := match e with Hole => true | _ => false end.
(** Not an && , || or ?? expression outside parentheses. *)
Definition plain (e : expr) : bool :=
  negb (is_hole e) && match root e with Some op => negb (logical op) | None => true end.
(** Which operands stand without parentheses: the grammar of ECMAScript (13.13) for && , || and ?? , and operands of all
    others (callees, objects, targets) that are no such expressions. *)
Definition operand_ok (op : bop) (left : bool) (e : expr) : bool :=
  plain e ||
  match op, left, root e with
  | B_and, true, Some B_and | B_or, true, Some B_or | B_or, _, Some B_and | B_nullish, true, Some B_nullish => true
  | _, _, _ => false
  end.
Definition no_hole (e : expr) : bool := negb (is_hole e).
Fixpoint legal (e : expr) : bool :=
  match e with
  | Leaf _ _ => true
  | Hole => true
  | Bin op l r => legal l && legal r && operand_ok op true l && operand_ok op false r
  | One W_unary x => legal x && plain x
  | One _ x => legal x && no_hole x
  | Cond c a b => legal c && legal a && legal b && no_hole c && no_hole a && no_hole b
  | Assign l r => legal l && legal r && plain l && no_hole r
  | Elems l => forallb legal l
  | Call f l | New f l => legal f && plain f && forallb legal l && forallb no_hole l
  | Member o p => legal o && legal p && plain o && no_hole p
  end.
(** The trees whose graphs allow what they do: no missing array elements, no ?? as a test outside parentheses. *)
Definition test_ok (e : expr) : bool := match root e with Some B_nullish => false | _ => true end.
Fixpoint fine (e : expr) : bool :=
  match e with
  | Leaf _ _ | Hole => true
  | Bin _ l r | Assign l r | Member l r => fine l && fine r
  | One _ x => fine x
  | Cond c a b => fine c && fine a && fine b && test_ok c
  | Elems l => forallb fine l && forallb no_hole l
  | Call f l | New f l => fine f && forallb fine l
  end.
Definition good (e : expr) : bool := legal e && fine e && no_hole e.
Definition is_empty (s : stmt) : bool := match s with Empty => true | _ => false end.
Definition sound (e : expr) : bool := legal e && no_hole e.
(** The grammar of the statements. *)
Fixpoint legal_stmt (s : stmt) : bool :=
  let opt (e : option expr) := match e with Some e => sound e | None => true end in
  match s with
  | Exp e => sound e
  | Empty => true
  | Var l => forallb (fun d => sound (fst d) && plain (fst d) && opt (snd d)) l
  | Block l => forallb legal_stmt l
  | If c a b => sound c && legal_stmt a && match b with Some b => legal_stmt b | None => true end
  | While c a | Do a c => sound c && legal_stmt a
  | For i c u a => opt i && opt c && opt u && legal_stmt a
  end.
(** The statements whose graphs allow what they do: no empty statement as a branch or body, no literal as the test of a
    loop, a for loop with a test, and in its head no && , || and ?? outside parentheses. *)
Fixpoint good_stmt (s : stmt) : bool :=
  match s with
  | Exp e => good e
  | Empty => true
  | Var l => forallb (fun d => good (fst d) && plain (fst d) && match snd d with Some e => good e | None => true end) l
  | Block l => forallb good_stmt l
  | If c a b => good c && test_ok c && good_stmt a && negb (is_empty a)
                && match b with Some b => good_stmt b && negb (is_empty b) | None => true end
  | While c a => good c && test_ok c && negb (is_lit c) && good_stmt a && negb (is_empty a)
  | For i c u a =>
      match i with Some i => good i && plain i | None => true end
      && match c with Some c => good c && plain c && negb (is_lit c) | None => false end
      && match u with Some u => good u && plain u | None => true end
      && good_stmt a && negb (is_empty a)
  | Do a c => good c && test_ok c && negb (is_lit c) && good_stmt a && negb (is_empty a)
  end.
