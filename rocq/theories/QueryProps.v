(** Theorems about questions on the place of a node: C58. *)
From Coq Require Import String SpecFloat.
From Verif Require Import Base TokenModel NodeModel WalkModel WalkSpec WalkProofs WalkProps QueryModel QuerySpec QueryProofs.

(** ** C58 *)

(** If IsNodeContains says yes the node is the given one or below it, whatever the tree. *)
Theorem C58_contains_sound : forall parent sub, is_node_contains parent sub = true ->
  exists m, within parent m /\ n_id m = n_id sub.
Proof.
  intros parent sub H. rewrite contains_seen in H. apply existsb_exists in H as (m & Hm & E).
  apply Nat.eqb_eq in E. destruct (within_getters _ _ (seen_within _ _ Hm)) as (m' & A & B).
  exists m'. split; [exact A|congruence].
Qed.
Print Assumptions C58_contains_sound.

(** It says yes exactly for these nodes, in trees of JavaScript and JSX without empty statements, namespaced JSX names and
    parentheses around parentheses. *)
Theorem C58_contains_partial : forall parent sub, shaped parent = true -> all_nodes open_ty parent = true ->
  (is_node_contains parent sub = true <-> exists m, within parent m /\ n_id m = n_id sub).
Proof.
  intros parent sub Hs Ho. split; [apply C58_contains_sound|]. intros (m & W & E).
  rewrite contains_seen, (getters_open _ Ho). apply existsb_exists. exists m.
  split; [exact (within_seen _ Hs Ho m W)|]. apply Nat.eqb_eq. exact E.
Qed.
Print Assumptions C58_contains_partial.
(** [if (a) { f(b, (c)) }], a function declaration, and an import. *)
Local Open Scope string_scope.
Definition the_leaf (i : nat) (t : nt) : node := Node t (at0 i) [].
Example C58_contains_ex :
  forallb (fun n => shaped n && all_nodes open_ty n) [sample; fn_dec; import_as] = true
  /\ map (fun n => forallb (is_node_contains n) (nodes n)) [sample; fn_dec; import_as] = [true; true; true]
  /\ is_node_contains sample (the_leaf 100 N_NAME) = false
  /\ is_node_contains (Node N_EXPR_BIN (at0 1) [("Lhs", [leaf 2 N_NAME]); ("Rhs", [leaf 3 N_NAME])]) (the_leaf 4 N_NAME) = false.
Proof. vm_compute. auto. Qed.

(** An empty statement, what is in a namespaced JSX name, and the inner one of two pairs of parentheses are in the tree, and
    IsNodeContains says no: not even an empty statement contains itself. *)
Definition ns_name : node := Node N_JSX_NS (at0 0) [("NS", [leaf 1 N_JSX_ID]); ("Name", [leaf 2 N_JSX_ID])].
Local Close Scope string_scope.
Theorem C58_contains_refuted :
  shaped empty_stmt = true /\ shaped ns_name = true /\ shaped two_parens = true
  /\ (exists m, In m (nodes empty_stmt) /\ n_ty m = N_STMT_EMPTY /\ is_node_contains empty_stmt m = false /\ is_node_contains m m = false)
  /\ (exists m, In m (nodes ns_name) /\ n_ty m = N_JSX_ID /\ is_node_contains ns_name m = false)
  /\ (exists m, In m (nodes two_parens) /\ n_ty m = N_EXPR_PAREN /\ is_node_contains two_parens m = false).
Proof.
  split; [reflexivity|]. split; [reflexivity|]. split; [reflexivity|]. split; [|split].
  - exists (the_leaf 1 N_STMT_EMPTY). split; [right; left; reflexivity|]. vm_compute. auto.
  - exists (the_leaf 1 N_JSX_ID). split; [right; left; reflexivity|]. vm_compute. auto.
  - eexists. split; [do 3 right; left; reflexivity|]. vm_compute. auto.
Qed.
Print Assumptions C58_contains_refuted.

(** GetParent gives the nearest node of the wanted types above, none if one of the barrier types comes first; the context
    it gives is the one on the chain whose parent that node is. *)
Theorem C58_get_parent : forall n anc target barrier,
  (forall p, (exists c, get_parent (n :: anc) target barrier = Some (p, c)) <-> nearest anc target barrier p)
  /\ (forall p c, get_parent (n :: anc) target barrier = Some (p, c) ->
      exists below m far, n :: anc = below ++ c /\ c = m :: p :: far).
Proof. intros. split; [intro; apply get_parent_iff|intros p c; apply get_parent_ctx]. Qed.
Print Assumptions C58_get_parent.

(** Asked by a listener below the root of a walk: what GetParent gives is the nearest such node on the way from the root. *)
Theorem C58_get_parent_walk_partial : forall root e, shaped root = true -> all_nodes regular root = true ->
  In e (trace no_stop root) ->
  exists anc, line root anc (e_node e) /\ e_above e = anc ++ [root] /\
    (anc <> [] -> forall target barrier p,
       (exists c, get_parent (e_node e :: e_above e) target barrier = Some (p, c)) <-> nearest anc target barrier p).
Proof.
  intros root e Hs Hr He. rewrite (C43_walk_is_the_tour_partial _ Hs Hr) in He.
  destruct (tour_line _ _ _ _ He) as (anc & E & L). exists anc. split; [exact L|]. split; [exact E|].
  intros Ha target barrier p. rewrite get_parent_iff, E. destruct (line_last _ _ _ L Ha) as [l ->]. apply nearest_twice.
Qed.
Print Assumptions C58_get_parent_walk_partial.
(** From the name [c] in [if (a) { f(b, (c)) }] up to the call, to the block, and not over the call to the block. *)
Example C58_get_parent_walk_ex :
  let ask target barrier :=
    map (fun e => option_map (fun pc => n_ty (fst pc)) (get_parent (e_node e :: e_above e) target barrier))
        (filter (fun e => enters e && nt_eqb (n_ty (e_node e)) N_NAME) (trace no_stop sample)) in
  shaped sample = true /\ all_nodes regular sample = true
  /\ ask [N_EXPR_CALL] [] = [None; Some N_EXPR_CALL; Some N_EXPR_CALL; Some N_EXPR_CALL]
  /\ ask [N_STMT_BLOCK; N_STMT_IF] [] = [Some N_STMT_IF; Some N_STMT_BLOCK; Some N_STMT_BLOCK; Some N_STMT_BLOCK]
  /\ ask [N_STMT_BLOCK] [N_EXPR_PAREN] = [None; Some N_STMT_BLOCK; Some N_STMT_BLOCK; None].
Proof. vm_compute. auto. Qed.

(** At the root itself it gives the root, which is not above itself: the context a walk starts with already has the root. *)
Theorem C58_get_parent_root_refuted : forall root, shaped root = true -> all_nodes regular root = true ->
  exists e c, nth_error (trace no_stop root) 0 = Some e /\ e_node e = root
    /\ get_parent (e_node e :: e_above e) [n_ty root] [] = Some (root, c) /\ ~ nearest [] [n_ty root] [] root.
Proof.
  intros root Hs Hr. rewrite (C43_walk_is_the_tour_partial _ Hs Hr). destruct root as [ty a kids]. rewrite tour_eq.
  eexists. exists [Node ty a kids; Node ty a kids]. split; [reflexivity|]. split; [reflexivity|]. split.
  - cbn [e_node e_above get_parent n_ty]. unfold includes. cbn [existsb].
    replace (nt_eqb ty ty) with true by (symmetry; apply nt_eqb_spec; reflexivity). reflexivity.
  - intros (near & far & E & _). destruct near; discriminate.
Qed.
Print Assumptions C58_get_parent_root_refuted.
