(** ecma/walk: walking a syntax tree. *)
From Coq Require Import String SpecFloat.
From Verif Require Import Base TokenModel NodeModel.
Local Open Scope string_scope.

(** What the code modelled here reads of a node besides its children: an identity (the pointer), the text of
    names and strings, the operator, the value of numbers (parser.NodeToFloat) and of booleans ([at_bool], on member
    expressions Compute); [at_new] is newScope of BlockStmt. *)
Record attr := mk_at { at_id : nat; at_text : bytes; at_op : tv; at_num : spec_float; at_bool : bool; at_new : bool }.

(** A node: its type and what its getters return, a getter giving one node a list of one element; [None] is
    nil.  A node two getters give occurs twice. *)
Inductive node := Node (ty : nt) (a : attr) (kids : list (string * list (option node))).
Definition n_ty (n : node) : nt := match n with Node t _ _ => t end.
Definition n_at (n : node) : attr := match n with Node _ a _ => a end.
Definition n_kids (n : node) : list (string * list (option node)) := match n with Node _ _ k => k end.
Definition n_id (n : node) : nat := at_id (n_at n).

Fixpoint assoc {A} (k : string) (l : list (string * A)) : option A :=
  match l with [] => None | (k', v) :: r => if String.eqb k k' then Some v else assoc k r end.

(** ecma/walk/visitor.go:976-982 NodeBeforeEvent, NodeAfterEvent. *)
Definition before_event (t : nt) : N := nt_num N_NODE_DEF_END + (nt_num N_NODE_DEF_END - nt_num t) * 2 - 1.
Definition after_event (t : nt) : N := nt_num N_NODE_DEF_END + (nt_num N_NODE_DEF_END - nt_num t) * 2.

(** The key VisitNode and VisitNodes give (ecma/walk/ctx.go:145-151): the name of the getter, with an index for
    lists. *)
Definition wkey : Type := string * option nat.

Section Walk.
Context {U : Type}.
(** A listener: from the nodes above (VisitorCtx.Parent ..., innermost first), the scope id, the node, the key
    and the state of its owner to the new state and whether it calls Stop. *)
Definition handler : Type := list node -> nat -> node -> wkey -> U -> U * bool.

(** ecma/walk/ctx.go:11-40 WalkCtx with the VisitorCtx chain; Path is off. *)
Record wst := mk_w { w_u : U; w_stop : bool; w_vc : list node; w_scopes : list nat; w_seed : nat }.

Variable lst : N -> list handler.

(** ecma/walk/ctx.go:179-194 CallListener. *)
Fixpoint call_all (fs : list handler) (n : node) (k : wkey) (s : wst) : wst :=
  match fs with
  | [] => s
  | f :: r =>
      let (u, b) := f (tl (w_vc s)) (hd 0%nat (w_scopes s)) n k (w_u s) in
      let s1 := mk_w u (w_stop s || b) (w_vc s) (w_scopes s) (w_seed s) in
      if w_stop s1 then s1 else call_all r n k s1
  end.
Definition call_listener (ev : N) (n : node) (k : wkey) (s : wst) : wst := call_all (lst ev) n k s.

(** ecma/walk/ctx.go:56-76 PushScope, PopScope. *)
Definition new_scope (n : node) : bool := match n_ty n with N_STMT_BLOCK => at_new (n_at n) | _ => true end.
Definition push_scope (n : node) (s : wst) : wst :=
  if new_scope n then mk_w (w_u s) (w_stop s) (w_vc s) (w_seed s :: w_scopes s) (S (w_seed s)) else s.
Definition pop_scope (n : node) (s : wst) : wst :=
  if new_scope n then mk_w (w_u s) (w_stop s) (w_vc s) (tl (w_scopes s)) (w_seed s) else s.
(** ecma/walk/ctx.go:78-88 PushVisitorCtx, PopVisitorCtx. *)
Definition push_vc (n : node) (s : wst) : wst := mk_w (w_u s) (w_stop s) (n :: w_vc s) (w_scopes s) (w_seed s).
Definition pop_vc (s : wst) : wst := mk_w (w_u s) (w_stop s) (tl (w_vc s)) (w_scopes s) (w_seed s).

(** What visiting a child does, [None] for nil. *)
Definition kid : Type := option (wkey -> wst -> wst).

(** ecma/walk/ctx.go:145-152 VisitNodes; VisitNode of nil does nothing. *)
Fixpoint visit_list (k : string) (i : nat) (l : list kid) (s : wst) : wst :=
  match l with
  | [] => s
  | o :: r =>
      let s1 := match o with Some f => f (k, Some i) s | None => s end in
      if w_stop s1 then s1 else visit_list k (S i) r s1
  end.
(** The steps of a visitor; a scope pushed half way is popped on the way out. *)
Fixpoint visit_steps (n : node) (ks : list (string * list kid)) (vs : list vstep) (s : wst) : wst :=
  match vs with
  | [] => s
  | VScope :: r => pop_scope n (visit_steps n ks r (push_scope n s))
  | VOne k :: r =>
      let s1 := match assoc k ks with Some (Some f :: _) => f (k, None) s | _ => s end in
      if w_stop s1 then s1 else visit_steps n ks r s1
  | VMany k :: r =>
      let s1 := match assoc k ks with Some l => visit_list k 0 l s | None => s end in
      if w_stop s1 then s1 else visit_steps n ks r s1
  end.
(** ecma/walk/visitor.go:1010-3590, a visitor. *)
Definition run_visitor (n : node) (key : wkey) (v : vis) (ks : list (string * list kid)) (s : wst) : wst :=
  let before := call_listener (before_event (v_ev v)) n key in
  let after := call_listener (after_event (v_ev v)) n key in
  match v_steps v with
  | None => after (before s)
  | Some (VScope :: r) => pop_scope n (after (visit_steps n ks r (before (push_scope n s))))
  | Some vs => after (visit_steps n ks vs (before s))
  end.

(** ecma/walk/ctx.go:136-143 VisitNode, 167-177 CallVisitor: DefaultVisitors, RaiseNoImpl off. *)
Fixpoint visit (n : node) (key : wkey) (s : wst) {struct n} : wst :=
  match n with
  | Node ty a kids =>
      let ks := map (fun p : string * list (option node) =>
                       let (k, l) := p in (k, map (fun o => match o with Some m => Some (visit m) | None => None end) l)) kids in
      let s1 := push_vc (Node ty a kids) s in
      pop_vc (match visitor ty with Some v => run_visitor (Node ty a kids) key v ks s1 | None => s1 end)
  end.

(** ecma/walk/ctx.go:27-40 NewWalkCtx and VisitNode(root, "", ctx). *)
Definition new_walk (root : node) (u : U) : wst := mk_w u false [root] [0%nat] 1.
Definition walk (root : node) (u : U) : wst := visit root ("", None) (new_walk root u).
End Walk.
Arguments handler : clear implicits.
Arguments wst : clear implicits.

(** ecma/parser/ast.go:849-862: what the getters of a tree give, [Expr] of a parenthesised expression being the
    expression inside all the parentheses. *)
Fixpoint getters (n : node) : node :=
  match n with
  | Node ty a kids =>
      let kids1 := map (fun p : string * list (option node) =>
                          let (k, l) := p in (k, map (fun o => match o with Some m => Some (getters m) | None => None end) l)) kids in
      match ty, kids1 with
      | N_EXPR_PAREN, [(k, [Some (Node N_EXPR_PAREN _ [(_, [Some m])])])] => Node ty a [(k, [Some m])]
      | _, _ => Node ty a kids1
      end
  end.
