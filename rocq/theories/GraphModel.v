(** ecma/analysis/graph.go: blocks and edges of a control flow graph. *)
From Verif Require Import Base.

(** ecma/analysis/graph.go:13-19 EdgeKind and 77-82 Edge; tags are bit sets; *Block is a number, [None] is nil. *)
Inductive ekind := EK_NONE | EK_SEQ | EK_JMP.
Definition ekind_eqb (a b : ekind) : bool :=
  match a, b with EK_NONE, EK_NONE | EK_SEQ, EK_SEQ | EK_JMP, EK_JMP => true | _, _ => false end.
Record edge := mk_edge { e_kind : ekind; e_tag : N; e_src : option nat; e_dst : option nat }.
(** ecma/analysis/graph.go:124-132 Block: the maps Inlets and Outlets are lists of *Edge without repetitions; nodes,
    kinds and ids are left out. *)
Record block := mk_block { b_in : list nat; b_out : list nat }.
(** The memory: an *Edge or *Block is a place in these lists. *)
Record graph := mk_graph { g_edges : list edge; g_blocks : list block }.
Definition no_edge : edge := mk_edge EK_NONE 0 None None.
Definition edge_at (g : graph) (e : nat) : edge := nth e (g_edges g) no_edge.
Definition block_at (g : graph) (b : nat) : block := nth b (g_blocks g) (mk_block [] []).
Fixpoint set_nth {A} (i : nat) (x : A) (l : list A) : list A :=
  match l, i with [], _ => [] | _ :: r, O => x :: r | y :: r, S i => y :: set_nth i x r end.
Definition put_edge (g : graph) (e : nat) (x : edge) : graph := mk_graph (set_nth e x (g_edges g)) (g_blocks g).
Definition put_block (g : graph) (b : nat) (x : block) : graph := mk_graph (g_edges g) (set_nth b x (g_blocks g)).

(** ecma/analysis/graph.go:690-706 newBasicBlk. *)
Definition new_basic (g : graph) : graph * nat :=
  let b := List.length (g_blocks g) in
  let i := List.length (g_edges g) in
  (mk_graph (g_edges g ++ [mk_edge EK_SEQ 0 None (Some b); mk_edge EK_SEQ 0 (Some b) None])
            (g_blocks g ++ [mk_block [i] [S i]]), b).

Section Order.
(** The order in which Go runs through a map: any permutation, chosen anew in each state. *)
Variable order : graph -> list nat -> list nat.

(** ecma/analysis/graph.go:217-227 FindEdge. *)
Definition has_bit (a b : N) : bool := negb (N.eqb (N.land a b) 0).
Definition find_edge (g : graph) (l : list nat) (k : ekind) (t : N) : option nat :=
  find (fun e => let x := edge_at g e in
                 ekind_eqb (e_kind x) k && (N.eqb (e_tag x) 0 || N.eqb t 0 || has_bit (e_tag x) t)) (order g l).
(** ecma/analysis/graph.go:271-281 FindHangingInEdge with create. *)
Definition same_ptr (a b : option nat) : bool :=
  match a, b with Some x, Some y => Nat.eqb x y | None, None => true | _, _ => false end.
Definition hanging_in (g : graph) (b : nat) (src : option nat) (k : ekind) (t : N) : graph * nat :=
  let fresh :=
    let e := List.length (g_edges g) in
    let x := block_at g b in
    (put_block (mk_graph (g_edges g ++ [mk_edge k t None (Some b)]) (g_blocks g)) b (mk_block (b_in x ++ [e]) (b_out x)), e) in
  match find_edge g (b_in (block_at g b)) k t with
  | None => fresh
  | Some e =>
      match e_src (edge_at g e) with
      | Some s => if same_ptr (Some s) src then (g, e) else fresh
      | None => (g, e)
      end
  end.
(** ecma/analysis/graph.go:942-953 linkEdges, one edge. *)
Definition link_one (fk : ekind) (ft : N) (tk : ekind) (tt : N) (to : nat) (over : bool) (g : graph) (e : nat) : graph :=
  let x := edge_at g e in
  if ekind_eqb (e_kind x) fk && (N.eqb ft 0 || has_bit (e_tag x) ft) then
    let g := match e_dst x with
             | None => put_edge g e (mk_edge (e_kind x) (e_tag x) (e_src x) (Some to))
             | Some _ => if over then put_edge g e (mk_edge (e_kind x) (e_tag x) (e_src x) (Some to)) else g
             end in
    let (g, i) := hanging_in g to (e_src x) tk tt in
    let y := edge_at g i in
    put_edge g i (mk_edge (e_kind y) (e_tag x) (e_src x) (e_dst y))
  else g.
(** ecma/analysis/graph.go:942-953 linkEdges. *)
Definition link_edges (fk : ekind) (ft : N) (tk : ekind) (tt : N) (to : nat) (over : bool) (g : graph) (l : list nat) : graph :=
  fold_left (link_one fk ft tk tt to over) (order g l) g.
End Order.

(** ecma/analysis/graph.go:374-387 join of two basic blocks: the map Outlets is taken over.  Marks of cut edges and the
    nodes are left out. *)
Definition join (g : graph) (from to : nat) : graph :=
  let outs := b_out (block_at g to) in
  let g1 := put_block g from (mk_block (b_in (block_at g from)) outs) in
  fold_left (fun g e => let x := edge_at g e in put_edge g e (mk_edge (e_kind x) (e_tag x) (Some from) (e_dst x))) outs g1.

(** util.Merge: what is there already stays. *)
Definition merge_set (a b : list nat) : list nat := a ++ filter (fun x => negb (existsb (Nat.eqb x) a)) b.
Fixpoint drop (i : nat) (l : list nat) : list nat :=
  match l, i with [], _ => [] | _ :: r, O => r | x :: r, S i => x :: drop i r end.

(** ecma/analysis/graph.go:958-976 IterBlock: the blocks the callback is called with, in order; [pick] is what
    util.TakeOne takes, which may be different each time (the fuel is a clock); [None] when the fuel does not
    suffice. *)
Fixpoint iter_loop (pick : nat -> list nat -> nat) (g : graph) (fuel : nat) (edges visited : list nat) : option (list nat) :=
  match fuel with
  | O => None
  | S fuel =>
      match edges with
      | [] => Some visited
      | e0 :: _ =>
          let e := nth (pick fuel edges) edges e0 in
          let rest := drop (if Nat.ltb (pick fuel edges) (List.length edges) then pick fuel edges else 0) edges in
          match e_dst (edge_at g e) with
          | Some d =>
              if existsb (Nat.eqb d) visited then iter_loop pick g fuel rest visited
              else iter_loop pick g fuel (merge_set rest (b_out (block_at g d))) (visited ++ [d])
          | None => iter_loop pick g fuel rest visited
          end
      end
  end.
Definition iter_block (pick : nat -> list nat -> nat) (g : graph) (fuel : nat) (b : nat) : option (list nat) :=
  iter_loop pick g fuel (b_out (block_at g b)) [b].
