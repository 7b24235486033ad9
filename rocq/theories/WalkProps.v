(** Theorems about walking syntax trees: C43, C44. *)
From Coq Require Import String SpecFloat.
From Verif Require Import Base TokenModel NodeModel WalkModel WalkSpec WalkProofs.

Definition no_stop : list wevent -> bool := fun _ => false.
Definition at0 (i : nat) : attr := mk_at i [] T_ILLEGAL S754_nan false true.
Definition leaf (i : nat) (t : nt) : option node := Some (Node t (at0 i) []).
Local Open Scope string_scope.
(** [if (a) { f(b, (c)) }] *)
Definition sample : node :=
  Node N_PROG (at0 0) [("Body", [Some (Node N_STMT_IF (at0 1)
    [("Test", [leaf 2 N_NAME]);
     ("Cons", [Some (Node N_STMT_BLOCK (at0 3) [("Body", [Some (Node N_STMT_EXPR (at0 4)
        [("Expr", [Some (Node N_EXPR_CALL (at0 5)
           [("Callee", [leaf 6 N_NAME]);
            ("Args", [leaf 7 N_NAME; Some (Node N_EXPR_PAREN (at0 8) [("Expr", [leaf 9 N_NAME])])])])])])])])]);
     ("Alt", [None])])])].
(** [function f() {}] *)
Definition fn_dec : node :=
  Node N_PROG (at0 0) [("Body", [Some (Node N_STMT_FN (at0 1)
    [("Id", [leaf 2 N_NAME]); ("Params", []); ("Body", [Some (Node N_STMT_BLOCK (at0 3) [("Body", [])])])])])].
(** [import { a as b } from "c"] *)
Definition import_as : node :=
  Node N_PROG (at0 0) [("Body", [Some (Node N_STMT_IMPORT (at0 1)
    [("Specs", [Some (Node N_IMPORT_SPEC (at0 2) [("Id", [leaf 3 N_NAME]); ("Local", [leaf 4 N_NAME])])]); ("Src", [leaf 5 N_LIT_STR])])])].
(** [((a))] *)
Definition two_parens : node :=
  Node N_PROG (at0 0) [("Body", [Some (Node N_STMT_EXPR (at0 1) [("Expr", [Some (Node N_EXPR_PAREN (at0 2)
    [("Expr", [Some (Node N_EXPR_PAREN (at0 3) [("Expr", [leaf 4 N_NAME])])])])])])])].
(** [;] *)
Definition empty_stmt : node := Node N_PROG (at0 0) [("Body", [leaf 1 N_STMT_EMPTY])].
(** [({ a })]: Key and Value give the same node. *)
Definition shorthand : node :=
  Node N_PROG (at0 0) [("Body", [Some (Node N_STMT_EXPR (at0 1) [("Expr", [Some (Node N_EXPR_PAREN (at0 2)
    [("Expr", [Some (Node N_LIT_OBJ (at0 3) [("Props", [Some (Node N_PROP (at0 4) [("Key", [leaf 5 N_NAME]); ("Val", [leaf 5 N_NAME])])])])])])])])])].
Local Close Scope string_scope.

(** ** C43 *)

(** A walk enters and leaves the nodes as the tour of the tree does, and tells listeners the key of the node and
    the nodes above it (the root is its own parent). *)
Theorem C43_walk_is_the_tour_partial : forall n, shaped n = true -> all_nodes regular n = true ->
  trace no_stop n = tour [n] n (""%string, None).
Proof.
  intros n Hs Hr. unfold trace, walk. rewrite (getters_id _ Hr).
  destruct (visit_run no_stop n Hs Hr) as [H _]. destruct (H (""%string, None) (new_walk n []) eq_refl) as [_ [(A & _)|(a & b & c & D & _ & _ & _ & X & _)]].
  - exact A.
  - discriminate X.
Qed.
Print Assumptions C43_walk_is_the_tour_partial.
Example C43_walk_is_the_tour_ex : shaped sample = true /\ all_nodes regular sample = true /\
  map (fun e => (enters e, n_id (e_node e), e_key e, map n_id (e_above e))) (firstn 6 (trace no_stop sample)) =
  [(true, 0, ("", None), [0]); (true, 1, ("Body", Some 0), [0; 0]); (true, 2, ("Test", None), [1; 0; 0]);
   (false, 2, ("Test", None), [1; 0; 0]); (true, 3, ("Cons", None), [1; 0; 0]); (true, 4, ("Body", Some 0), [3; 1; 0; 0])]%string%nat.
Proof. vm_compute. auto. Qed.

(** Any set of listeners that call no Stop and ignore scopes ends up where calling them along the tour leads; the
    walk leaves the scope stack as it found it. *)
Theorem C43_every_listener_partial : forall U (lst : N -> list (handler U)) n u,
  shaped n = true -> all_nodes regular n = true ->
  (forall ev f above sc m k v, In f (lst ev) -> snd (f above sc m k v) = false) ->
  (forall ev f above sc sc' m k v, In f (lst ev) -> f above sc m k v = f above sc' m k v) ->
  let s := walk lst (getters n) u in
  w_u s = fold_left (fun v e => fold_left (fun v (f : handler U) => fst (f (e_above e) 0%nat (e_node e) (e_key e) v)) (lst (e_num e)) v)
            (tour [n] n (""%string, None)) u
  /\ w_stop s = false /\ w_vc s = [n] /\ w_scopes s = [0%nat].
Proof.
  intros U lst n u Hs Hr Hg Hb s. unfold s, walk. rewrite (getters_id _ Hr).
  exact (visit_good lst Hg Hb n Hs Hr (""%string, None) (new_walk n u) eq_refl).
Qed.
Print Assumptions C43_every_listener_partial.
Example C43_every_listener_ex :
  let lst := fun ev => if N.eqb ev (before_event N_NAME) then [(fun _ _ m _ v => (v ++ [n_id m], false)) : handler (list nat)] else [] in
  w_u (walk lst (getters sample) []) = [2; 6; 7; 9]%nat.
Proof. vm_compute. reflexivity. Qed.

(** Every node is entered exactly once, parents first, children from left to right; a listener for one type of
    node hears exactly the nodes of this type. *)
Theorem C43_each_node_once_partial : forall n, shaped n = true -> all_nodes regular n = true ->
  map e_node (filter enters (trace no_stop n)) = nodes n /\
  (NoDup (map n_id (nodes n)) -> NoDup (map (fun e => n_id (e_node e)) (filter enters (trace no_stop n)))) /\
  forall t, map e_node (filter (fun e => N.eqb (e_num e) (before_event t)) (trace no_stop n)) =
            filter (fun m => nt_eqb (n_ty m) t) (nodes n).
Proof.
  intros n Hs Hr. rewrite (C43_walk_is_the_tour_partial n Hs Hr).
  assert (E : map e_node (filter enters (tour [n] n (""%string, None))) = nodes n) by apply entered_tour.
  split; [exact E|]. split; [rewrite <- E, map_map; auto|].
  intros t. rewrite (heard t _ (tour_num n [n] (""%string, None))), <- E. clear.
  induction (filter enters _) as [|e l IH]; [reflexivity|]. cbn [filter map]. destruct (nt_eqb _ t); cbn [map]; rewrite IH; reflexivity.
Qed.
Print Assumptions C43_each_node_once_partial.
Example C43_each_node_once_ex : map n_id (nodes sample) = [0; 1; 2; 3; 4; 5; 6; 7; 8; 9]%nat.
Proof. vm_compute. reflexivity. Qed.

(** Enter and leave events of different types have different numbers, and all fit the table of listeners. *)
Theorem C43_events_distinct : forall t1 t2,
  (before_event t1 = before_event t2 -> t1 = t2) /\ (after_event t1 = after_event t2 -> t1 = t2) /\
  before_event t1 <> after_event t2 /\
  (nt_num N_ILLEGAL < nt_num t1 -> nt_num N_NODE_DEF_END <> nt_num t1 -> nt_num N_NODE_DEF_END < before_event t1 /\ after_event t1 < nt_num N_NODE_DEF_END * 3)%N.
Proof.
  intros t1 t2. destruct (event_inj t1 t2) as [A B]. split; [exact A|]. split; [exact B|]. split; [apply before_after|].
  intros H1 H2. destruct t1; vm_compute in H1 |- *; try discriminate; try (split; reflexivity).
  exfalso. apply H2. reflexivity.
Qed.
Print Assumptions C43_events_distinct.

(** Without the restrictions on the tree the claim is false. *)
Definition follows_tour (n : node) : Prop := trace no_stop n = tour [n] n (""%string, None).
(** Function declarations are announced as function expressions. *)
Theorem C43_walk_is_the_tour_refuted : exists n, shaped n = true /\ ~ follows_tour n /\
  exists e, nth_error (trace no_stop n) 1 = Some e /\ n_ty (e_node e) = N_STMT_FN /\ e_num e = before_event N_EXPR_FN.
Proof.
  exists fn_dec. split; [reflexivity|]. split.
  - intro H. apply (f_equal (map e_num)) in H. vm_compute in H. discriminate.
  - eexists. vm_compute. auto.
Qed.
Print Assumptions C43_walk_is_the_tour_refuted.
(** Both names of an import are visited in the wrong order; an empty statement and the inner one of two pairs of
    parentheses are not entered; the name of a shorthand property is entered twice. *)
Theorem C43_order_and_once_refuted :
  map (fun e => n_id (e_node e)) (filter enters (trace no_stop import_as)) = [0; 1; 2; 4; 3; 5]%nat
  /\ map n_id (nodes import_as) = [0; 1; 2; 3; 4; 5]%nat
  /\ map (fun e => n_id (e_node e)) (trace no_stop empty_stmt) = [0; 0]%nat
  /\ map (fun e => n_id (e_node e)) (filter enters (trace no_stop two_parens)) = [0; 1; 2; 4]%nat
  /\ map (fun e => n_id (e_node e)) (filter enters (trace no_stop shorthand)) = [0; 1; 2; 3; 4; 5; 5]%nat.
Proof. vm_compute. auto 10. Qed.
Print Assumptions C43_order_and_once_refuted.

(** ** C44 *)

(** When the first request to stop comes from a leave listener, no node is entered any more; when it comes from an
    enter listener, the nodes still entered are the first child, its first child and so on.  Up to the request
    the walk is the tour. *)
Theorem C44_stop_partial : forall stop n, shaped n = true -> all_nodes regular n = true ->
  let T := tour [n] n (""%string, None) in
  (trace stop n = T /\ forall a b c, T = a ++ b :: c -> stop (a ++ [b]) = false) \/
  (exists a b c rest, T = a ++ b :: c /\ trace stop n = a ++ b :: rest /\ stop (a ++ [b]) = true /\
     (forall a1 b1 c1, a = a1 ++ b1 :: c1 -> stop (a1 ++ [b1]) = false) /\
     map e_node (filter enters rest) = if enters b then first_line (e_node b) else []).
Proof.
  intros stop n Hs Hr T. unfold trace, walk. rewrite (getters_id _ Hr).
  destruct (visit_run stop n Hs Hr) as [H _].
  destruct (H (""%string, None) (new_walk n []) eq_refl) as [_ [(A & _ & C)|(a & b & c & D & E & A & _ & B & C & F)]].
  - left. split; [exact A|exact C].
  - right. exists a, b, c, D. repeat split; assumption.
Qed.
Print Assumptions C44_stop_partial.
(** Stopping on leaving the name [a] of the sample. *)
Example C44_stop_ex : map (fun e => (enters e, n_id (e_node e))) (trace (fun u => Nat.leb 4 (List.length u)) sample) =
  [(true, 0); (true, 1); (true, 2); (false, 2); (false, 1); (false, 0)]%nat.
Proof. vm_compute. reflexivity. Qed.

(** Entering a leaf is the last thing that is entered if it asks to stop. *)
Theorem C44_stop_at_leaf_partial : forall stop n, shaped n = true -> all_nodes regular n = true ->
  (forall u e, stop (u ++ [e]) = true -> enters e = true -> n_kids (e_node e) = []) ->
  forall a b rest, trace stop n = a ++ b :: rest -> stop (a ++ [b]) = true ->
  map e_node (filter enters rest) = [].
Proof.
  intros stop n Hs Hr Hl a b rest E St.
  destruct (C44_stop_partial stop n Hs Hr) as [[E2 No]|(a0 & b0 & c0 & r0 & E0 & E1 & S0 & First & Ent)].
  - exfalso. rewrite E2 in E. rewrite (No _ _ _ E) in St. discriminate.
  - assert (L0 : map e_node (filter enters r0) = []).
    { rewrite Ent. destruct (enters b0) eqn:Eb; [|reflexivity]. specialize (Hl _ _ S0 Eb).
      destruct (e_node b0) as [t x k]; cbn in Hl; subst k; reflexivity. }
    rewrite E1 in E. destruct (app_split (a0 ++ [b0]) r0 a b rest) as [(c1 & X & Y)|(a2 & X & Y)].
    { rewrite <- app_assoc. exact E. }
    + destruct c1 as [|z c1] using rev_ind; [|exfalso].
      * cbn in Y. subst r0. exact L0.
      * rewrite app_comm_cons, app_assoc in X. apply app_inj_tail in X as [X _]. rewrite (First _ _ _ X) in St. discriminate.
    + subst r0. rewrite filter_app, map_app in L0. apply app_eq_nil in L0 as [_ L0]. cbn [filter] in L0.
      destruct (enters b); [discriminate|exact L0].
Qed.
Print Assumptions C44_stop_at_leaf_partial.
Example C44_stop_at_leaf_ex : map (fun e => (enters e, n_id (e_node e))) (trace (fun u => Nat.eqb 3 (List.length u)) sample) =
  [(true, 0); (true, 1); (true, 2); (false, 2); (false, 1); (false, 0)]%nat.
Proof. vm_compute. reflexivity. Qed.

(** A stop asked for on entering the root of the sample does not keep two more nodes from being entered. *)
Theorem C44_stop_refuted : exists stop n a b rest, shaped n = true /\ all_nodes regular n = true /\
  trace stop n = a ++ b :: rest /\ stop (a ++ [b]) = true /\
  map (fun e => n_id (e_node e)) (filter enters rest) = [1; 2]%nat.
Proof.
  exists (fun u => Nat.eqb 1 (List.length u)), sample, [].
  eexists; eexists. split; [reflexivity|]. split; [reflexivity|]. split; [vm_compute; reflexivity|]. split; vm_compute; reflexivity.
Qed.
Print Assumptions C44_stop_refuted.

(** C44: the listeners of one event are called in order up to the first that asks for a stop, those behind it are
    not called. *)
Theorem C44_same_event : forall {U} (lst : N -> list (handler U)) ev n k (s : wst U) pre f post,
  lst ev = pre ++ f :: post -> w_stop s = false ->
  let call (u : U) (h : handler U) := h (tl (w_vc s)) (hd 0%nat (w_scopes s)) n k u in
  (forall h u, In h pre -> snd (call u h) = false) ->
  let u := fold_left (fun u h => fst (call u h)) pre (w_u s) in
  snd (call u f) = true ->
  w_u (call_listener lst ev n k s) = fst (call u f) /\ w_stop (call_listener lst ev n k s) = true.
Proof.
  intros U lst ev n k s pre f post E Hs call Hpre u Hf. unfold call_listener. rewrite E. clear E lst. unfold u in *. clear u.
  revert s Hs call Hpre Hf. induction pre as [|h pre IH]; intros s Hs call Hpre Hf; cbn [app call_all fold_left] in *.
  - unfold call in *. destruct (f (tl (w_vc s)) (hd 0%nat (w_scopes s)) n k (w_u s)) as [u b]. cbn [fst snd] in *. subst b.
    rewrite Hs. cbn [orb w_stop w_u]. split; reflexivity.
  - pose proof (Hpre h (w_u s) (or_introl eq_refl)) as H0. unfold call in *.
    destruct (h (tl (w_vc s)) (hd 0%nat (w_scopes s)) n k (w_u s)) as [u b]. cbn [fst snd] in *. subst b.
    rewrite Hs. cbn [orb w_stop].
    apply (IH (mk_w u false (w_vc s) (w_scopes s) (w_seed s)) eq_refl).
    + intros h' u' Hin. apply Hpre. right. exact Hin.
    + exact Hf.
Qed.
Print Assumptions C44_same_event.
Example same_event_ex :
  let add (i : nat) (stop : bool) : handler (list nat) := fun _ _ _ _ u => (u ++ [i], stop) in
  let lst (_ : N) := [add 1%nat false; add 2%nat true; add 3%nat false] in
  forall n k, w_u (call_listener lst 0 n k (new_walk n [])) = [1%nat; 2%nat].
Proof. reflexivity. Qed.
