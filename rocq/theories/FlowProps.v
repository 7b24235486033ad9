(** C57: control flow graphs allow what programs do. *)
From Coq Require Import Permutation.
From Verif Require Import Base GraphModel FlowModel FlowSpec FlowProg.

(** The full claim: for every program of the modelled statements ([legal_stmt]) the analysis ends with a graph, and every
    run of the program is a path of the graph from its start to its end, along edges that are not cut and through blocks
    that are not reported as unreachable.  It fails, see below. *)
Definition full (order : heap -> list nat -> list nat) : Prop :=
  forall l, forallb legal_stmt l = true ->
  exists w, analyze order l = Some w /\ forall t, runs l t -> exists x, final (w_h w) x /\ path (w_h w) 0 t x.

(** Whatever the order in which the edges of a block are visited (Go's maps), and for all programs of good statements:
    the analysis does not fail, and every run is a path to the end of the graph, so no code that runs is reported as
    unreachable.  Missing: the statements that are not [good_stmt]. *)
Theorem C57_every_run_is_a_path_partial : forall order l,
  (forall h l, Permutation (order h l) l) -> forallb good_stmt l = true ->
  exists w, analyze order l = Some w /\ forall t, runs l t -> exists x, final (w_h w) x /\ path (w_h w) 0 t x.
Proof. intros order l Hp Gd. exact (analyze_ok order Hp l Gd). Qed.
Print Assumptions C57_every_run_is_a_path_partial.

(** ** Where the full claim fails *)
Definition as_is (h : heap) (l : list nat) : list nat := l.
Lemma as_is_perm : forall h l, Permutation (as_is h l) l.
Proof. intros h l. apply Permutation_refl. Qed.
(** Whether a trace leads to an edge without target: Some false when it does not. *)
Fixpoint strip (l t : list nat) : option (list nat) :=
  match l, t with
  | [], _ => Some t
  | x :: l, y :: t => if Nat.eqb x y then strip l t else None
  | _ :: _, [] => None
  end.
Definition or_else (a b : option bool) : option bool :=
  match a, b with
  | Some true, _ | _, Some true => Some true
  | Some false, Some false => Some false
  | _, _ => None
  end.
Definition orall (l : list (option bool)) : option bool := fold_right or_else (Some false) l.
Definition nowhere (h : heap) (x : nat) : bool := match e_dst (ed h x) with None => true | Some _ => false end.
Fixpoint leads (fuel : nat) (h : heap) (b : nat) (t : list nat) : option bool :=
  match fuel with
  | O => None
  | S fuel =>
    if is_in_cut h b then Some false else
    match strip (leaves (items (bl h b))) t with
    | None => Some false
    | Some t' =>
        or_else (Some (match t' with [] => existsb (nowhere h) (outs h b) | _ => false end))
          (orall (map (fun x => match e_dst (ed h x) with
                                | None => Some false
                                | Some b' => if has_bit (e_tag (ed h x)) ET_CUT then Some false else leads fuel h b' t'
                                end) (outs h b)))
    end
  end.
Lemma strip_app : forall l t, strip l (l ++ t) = Some t.
Proof. induction l as [|x l IH]; intro t; cbn; [reflexivity|]. rewrite Nat.eqb_refl. apply IH. Qed.
Lemma or_false : forall a b, or_else a b = Some false -> a = Some false /\ b = Some false.
Proof. intros [[]|] [[]|]; cbn; intro E; try discriminate; auto. Qed.
Lemma orall_false : forall l a, orall l = Some false -> In a l -> a = Some false.
Proof. induction l as [|b l IH]; intros a E H; [destruct H|]. apply or_false in E as [E1 E2]. destruct H as [<-|H]; auto. Qed.
Lemma leads_no : forall h b t x, path h b t x -> e_dst (ed h x) = None -> forall n, leads n h b t <> Some false.
Proof.
  induction 1 as [b x L I|b x b' t y L I E C P IH]; intros N n Q; (destruct n as [|n]; [discriminate|]); cbn [leads] in Q; rewrite L in Q.
  - rewrite <- (app_nil_r (leaves _)) in Q at 2. rewrite strip_app in Q. apply or_false in Q as [Q _]. injection Q as Q.
    assert (Z : existsb (nowhere h) (outs h b) = true) by (apply existsb_exists; exists x; split; [exact I|]; unfold nowhere; rewrite N; reflexivity). congruence.
  - rewrite strip_app in Q. apply or_false in Q as [_ Q]. apply (IH N n). apply (orall_false _ _ Q). apply in_map_iff. exists x. rewrite E, C. auto.
Qed.
Lemma lost_run : forall l w t n, analyze as_is l = Some w -> leads n (w_h w) 0 t = Some false ->
  ~ exists x, final (w_h w) x /\ path (w_h w) 0 t x.
Proof. intros l w t n _ E (x & [N _] & P). exact (leads_no _ _ _ _ P N n E). Qed.

Definition nm (n : nat) : expr := Leaf false n.
(** An empty body: `if (a);` makes the analysis fail (a nil pointer). *)
Theorem C57_empty_body_refuted : exists l, forallb legal_stmt l = true /\ analyze as_is l = None.
Proof. exists [If (nm 1) Empty None]. vm_compute. auto. Qed.
Print Assumptions C57_empty_body_refuted.
(** A missing array element: `[, a]` makes the analysis fail. *)
Theorem C57_array_hole_refuted : exists l, forallb legal_stmt l = true /\ analyze as_is l = None.
Proof. exists [Exp (Elems [Hole; nm 1])]. vm_compute. auto. Qed.
Print Assumptions C57_array_hole_refuted.
(** `if (a ?? b) c`: when a is false, neither b nor c runs; the graph has no such path. *)
Theorem C57_nullish_test_refuted : exists l w, forallb legal_stmt l = true /\ analyze as_is l = Some w /\
  runs l [1] /\ ~ exists x, final (w_h w) x /\ path (w_h w) 0 [1] x.
Proof.
  set (l := [If (Bin B_nullish (nm 1) (nm 2)) (Exp (nm 3)) None]).
  destruct (analyze as_is l) as [w|] eqn:E; [|vm_compute in E; discriminate].
  exists l, w. split; [reflexivity|]. split; [exact E|]. split.
  - exists [1], []. split; [reflexivity|]. split; [|reflexivity]. right. exists [1], []. split; [reflexivity|]. split; [|reflexivity].
    exists V_false. split; [|discriminate]. left. exists V_false. split; [reflexivity|]. split; [discriminate|reflexivity].
  - apply (lost_run l w [1] 20 E). vm_compute in E. injection E as <-. vm_compute. reflexivity.
Qed.
Print Assumptions C57_nullish_test_refuted.
(** `for (; a || b;) c`: when a holds, c runs without b; the graph goes from a to the end of the loop. *)
Theorem C57_for_test_refuted : exists l w, forallb legal_stmt l = true /\ analyze as_is l = Some w /\
  runs l [1; 3; 1; 2] /\ ~ exists x, final (w_h w) x /\ path (w_h w) 0 [1; 3; 1; 2] x.
Proof.
  set (l := [For None (Some (Bin B_or (nm 1) (nm 2))) None (Exp (nm 3))]).
  destruct (analyze as_is l) as [w|] eqn:E; [|vm_compute in E; discriminate].
  exists l, w. split; [reflexivity|]. split; [exact E|]. split.
  - exists [1; 3; 1; 2], []. split; [reflexivity|]. split; [|reflexivity]. exists [], [1; 3; 1; 2]. split; [reflexivity|]. split; [reflexivity|].
    exists [1; 3], [1; 2]. split; [reflexivity|]. split.
    + apply (often_more _ [1; 3] []); [|constructor]. exists [1], [3]. split; [reflexivity|]. split.
      * left. exists V_true. split; [reflexivity|]. split; [reflexivity|reflexivity].
      * exists [3], []. split; [reflexivity|]. split; [exists V_true; reflexivity|reflexivity].
    + exists V_false. split; [|discriminate]. right. exists [1], V_false, [2], V_false. split; [reflexivity|]. split; [reflexivity|]. split; [discriminate|]. split; reflexivity.
  - apply (lost_run l w _ 30 E). vm_compute in E. injection E as <-. vm_compute. reflexivity.
Qed.
Print Assumptions C57_for_test_refuted.
(** `while (0) a; b`: the body never runs; the graph takes every literal for true, and reports b as never reached. *)
Theorem C57_literal_test_refuted : exists l w, forallb legal_stmt l = true /\ analyze as_is l = Some w /\
  runs l [1; 3] /\ ~ exists x, final (w_h w) x /\ path (w_h w) 0 [1; 3] x.
Proof.
  set (l := [While (Leaf true 1) (Exp (nm 2)); Exp (nm 3)]).
  destruct (analyze as_is l) as [w|] eqn:E; [|vm_compute in E; discriminate].
  exists l, w. split; [reflexivity|]. split; [exact E|]. split.
  - exists [1], [3]. split; [reflexivity|]. split.
    + exists [], [1]. split; [reflexivity|]. split; [constructor|]. exists V_false. split; [reflexivity|discriminate].
    + exists [3], []. split; [reflexivity|]. split; [exists V_true; reflexivity|reflexivity].
  - apply (lost_run l w _ 30 E). vm_compute in E. injection E as <-. vm_compute. reflexivity.
Qed.
Print Assumptions C57_literal_test_refuted.

(** ** The hypotheses can be met *)
(** `var x = f(a && b); if (c || d) { while (e) g; } else h ? i : j;` *)
Definition sample : list stmt :=
  [Var [(nm 1, Some (Call (nm 2) [Bin B_and (nm 3) (nm 4)]))];
   If (Bin B_or (nm 5) (nm 6)) (Block [While (nm 7) (Exp (nm 8))]) (Some (Exp (Cond (nm 9) (nm 10) (nm 11))))].
Example sample_good : forallb good_stmt sample = true.
Proof. reflexivity. Qed.
(** a and c hold, e holds twice. *)
Example sample_runs : runs sample [1; 2; 3; 5; 7; 8; 7; 8; 7].
Proof.
  exists [1; 2; 3], [5; 7; 8; 7; 8; 7]. split; [reflexivity|]. split.
  - exists [1; 2; 3], []. split; [reflexivity|]. split; [|reflexivity]. exists [1], [2; 3]. split; [reflexivity|]. split; [exists V_true; reflexivity|].
    exists V_true. exists [2], [3]. split; [reflexivity|]. split; [exists V_true; reflexivity|]. exists [3], []. split; [reflexivity|]. split; [|reflexivity].
    exists V_false. left. exists V_false. split; [reflexivity|]. split; [discriminate|reflexivity].
  - exists [5; 7; 8; 7; 8; 7], []. split; [reflexivity|]. split; [|reflexivity]. left. exists [5], [7; 8; 7; 8; 7]. split; [reflexivity|]. split.
    + left. exists V_true. repeat split.
    + exists [7; 8; 7; 8; 7], []. split; [reflexivity|]. split; [|reflexivity]. exists [7; 8; 7; 8], [7]. split; [reflexivity|]. split; [|exists V_false; split; [reflexivity|discriminate]].
      apply (often_more _ [7; 8] [7; 8]); [|apply (often_more _ [7; 8] []); [|constructor]]; exists [7], [8]; (split; [reflexivity|]); split; try reflexivity; exists V_true; reflexivity.
Qed.
Example sample_path : exists w x, analyze as_is sample = Some w /\ final (w_h w) x /\ path (w_h w) 0 [1; 2; 3; 5; 7; 8; 7; 8; 7] x.
Proof.
  destruct (C57_every_run_is_a_path_partial as_is sample as_is_perm sample_good) as (w & E & P).
  destruct (P _ sample_runs) as (x & F & Q). exists w, x. auto.
Qed.
(** `for (a = b; c; d) { if (e) f; }`, once around. *)
Definition sample_for : list stmt := [For (Some (Assign (nm 1) (nm 2))) (Some (nm 3)) (Some (nm 4)) (Block [If (nm 5) (Exp (nm 6)) None])].
Example sample_for_path : forallb good_stmt sample_for = true /\ runs sample_for [1; 2; 3; 5; 4; 3]
  /\ exists w x, analyze as_is sample_for = Some w /\ final (w_h w) x /\ path (w_h w) 0 [1; 2; 3; 5; 4; 3] x.
Proof.
  assert (R : runs sample_for [1; 2; 3; 5; 4; 3]).
  { exists [1; 2; 3; 5; 4; 3], []. split; [reflexivity|]. split; [|reflexivity]. exists [1; 2], [3; 5; 4; 3]. split; [reflexivity|]. split.
    - exists V_true. exists [1], [2], V_true. repeat split.
    - exists [3; 5; 4], [3]. split; [reflexivity|]. split; [|exists V_false; split; [reflexivity|discriminate]].
      apply (often_more _ [3; 5; 4] []); [|constructor]. exists [3], [5; 4]. split; [reflexivity|]. split; [reflexivity|]. exists [5], [4]. split; [reflexivity|]. split; [|exists V_true; reflexivity].
      exists [5], []. split; [reflexivity|]. split; [|reflexivity]. right. exists [5], []. split; [reflexivity|]. split; [|reflexivity]. exists V_false. split; [reflexivity|discriminate]. }
  split; [reflexivity|]. split; [exact R|]. destruct (C57_every_run_is_a_path_partial as_is sample_for as_is_perm eq_refl) as (w & E & P).
  destruct (P _ R) as (x & F & Q). exists w, x. auto.
Qed.
(** `do a; while (b || c)`: b holds after the first round, neither b nor c after the second. *)
Definition sample_do : list stmt := [Do (Exp (nm 1)) (Bin B_or (nm 2) (nm 3))].
Example sample_do_path : forallb good_stmt sample_do = true /\ runs sample_do [1; 2; 1; 2; 3]
  /\ exists w x, analyze as_is sample_do = Some w /\ final (w_h w) x /\ path (w_h w) 0 [1; 2; 1; 2; 3] x.
Proof.
  assert (R : runs sample_do [1; 2; 1; 2; 3]).
  { exists [1; 2; 1; 2; 3], []. split; [reflexivity|]. split; [|reflexivity]. exists [1; 2], [1; 2; 3]. split; [reflexivity|]. split.
    - apply (often_more _ [1; 2] []); [|constructor]. exists [1], [2]. split; [reflexivity|]. split; [exists V_true; reflexivity|]. left. exists V_true. repeat split.
    - exists [1], [2; 3]. split; [reflexivity|]. split; [exists V_true; reflexivity|]. exists V_false. split; [|discriminate].
      right. exists [2], V_false, [3], V_false. split; [reflexivity|]. split; [reflexivity|]. split; [discriminate|]. split; reflexivity. }
  split; [reflexivity|]. split; [exact R|]. destruct (C57_every_run_is_a_path_partial as_is sample_do as_is_perm eq_refl) as (w & E & P).
  destruct (P _ R) as (x & F & Q). exists w, x. auto.
Qed.
