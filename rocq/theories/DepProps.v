(** Theorems about dependency queries. *)
From Coq Require Import Relations ZifyBool ZifyNat.
From Verif Require Import Base DepModel DepSpec.

Section Loop.
Variable g : dgraph.
Variable target : option nat.
Hypothesis Hok : pointers_ok g.

Lemma node_at_edge : forall p q, p < List.length (g_heap g) -> edge g p q <-> In q (dn_deps (node_at g p)).
Proof using Type.
  intros p q Hp. unfold edge, node_at.
  destruct (nth_error (g_heap g) p) as [n|] eqn:E; [|apply nth_error_None in E; lia].
  rewrite (nth_error_nth _ _ _ E). split; [intros (m & Em & H); congruence|intro H; exists n; tauto].
Qed.
Lemma node_at_caps : forall p d, p < List.length (g_heap g) -> captures g p d <-> In d (dn_caps (node_at g p)).
Proof using Type.
  intros p d Hp. unfold captures, node_at.
  destruct (nth_error (g_heap g) p) as [n|] eqn:E; [|apply nth_error_None in E; lia].
  rewrite (nth_error_nth _ _ _ E). split; [intros (m & Em & H); congruence|intro H; exists n; tauto].
Qed.
Lemma deps_ok : forall p q, In q (dn_deps (node_at g p)) -> q < List.length (g_heap g).
Proof using Hok.
  intros p q H. unfold node_at in H. destruct (nth_in_or_default p (g_heap g) (mk_dn [] [])) as [Hin|E].
  - exact (proj2 Hok _ _ Hin H).
  - rewrite E in H. destruct H.
Qed.
Lemma same_dec_spec : forall a b, same_dec a b = true <-> a = b.
Proof using Type.
  intros [a|] [b|]; cbn; split; intro H; try discriminate; try reflexivity.
  - apply Nat.eqb_eq in H as ->. reflexivity.
  - apply Nat.eqb_eq. congruence.
Qed.
Lemma mem_spec : forall p l, existsb (Nat.eqb p) l = true <-> In p l.
Proof using Type.
  intros p l. rewrite existsb_exists. split.
  - intros (x & Hx & E). apply Nat.eqb_eq in E as ->. exact Hx.
  - intro H. exists p. rewrite Nat.eqb_refl. tauto.
Qed.

(** What the loop may still take from the queue: what waits there and the dependencies of nodes not visited. *)
Fixpoint unvisited (i : nat) (l : list dnode) (visited : list nat) : nat :=
  match l with
  | [] => 0
  | n :: r => (if existsb (Nat.eqb i) visited then 0 else List.length (dn_deps n)) + unvisited (S i) r visited
  end.
Lemma unvisited_lt : forall l i p visited, p < i -> unvisited i l (p :: visited) = unvisited i l visited.
Proof using Type.
  induction l as [|n l IH]; intros i p visited H; cbn [unvisited]; [reflexivity|].
  cbn [existsb]. destruct (Nat.eqb_spec i p) as [E|E]; [lia|]. cbn [orb]. rewrite (IH (S i) p visited) by lia. reflexivity.
Qed.
Lemma unvisited_visit : forall l i p visited, i <= p -> p < i + List.length l -> ~ In p visited ->
  unvisited i l (p :: visited) + List.length (dn_deps (nth (p - i) l (mk_dn [] []))) = unvisited i l visited.
Proof using Type.
  induction l as [|n l IH]; intros i p visited H1 H2 H3; cbn [List.length] in H2; [lia|].
  cbn [unvisited existsb]. destruct (Nat.eqb_spec i p) as [E|E].
  - subst i. replace (p - p) with 0 by lia. cbn [orb nth].
    destruct (existsb (Nat.eqb p) visited) eqn:M; [apply mem_spec in M; tauto|].
    rewrite unvisited_lt by lia. lia.
  - cbn [orb]. replace (p - i) with (S (p - S i)) by lia. cbn [nth].
    specialize (IH (S i) p visited ltac:(lia) ltac:(lia) H3). lia.
Qed.

Definition within (l : list nat) : Prop := forall p, In p l -> p < List.length (g_heap g).

Lemma loop_ends : forall fuel nodes visited, within nodes ->
  List.length nodes + unvisited 0 (g_heap g) visited < fuel ->
  exists b, dep_loop g target fuel nodes visited = Some b.
Proof using Hok.
  induction fuel as [|fuel IH]; intros nodes visited Hw Hf; [lia|].
  cbn [dep_loop]. destruct nodes as [|p rest]; [exists false; reflexivity|].
  cbn [List.length] in Hf.
  destruct (existsb (Nat.eqb p) visited) eqn:M.
  - apply IH; [intros q Hq; apply Hw; right; exact Hq|lia].
  - destruct (existsb _ (dn_caps (node_at g p))); [exists true; reflexivity|].
    assert (Hp : p < List.length (g_heap g)) by (apply Hw; left; reflexivity).
    apply IH.
    + intros q Hq. apply in_app_or in Hq as [Hq|Hq]; [apply Hw; right; exact Hq|exact (deps_ok p q Hq)].
    + rewrite app_length.
      assert (NM : ~ In p visited) by (intro X; apply mem_spec in X; congruence).
      pose proof (unvisited_visit (g_heap g) 0 p visited ltac:(lia) ltac:(lia) NM) as U.
      rewrite Nat.sub_0_r in U. fold (node_at g p) in U. lia.
Qed.
Lemma loop_true : forall fuel nodes visited, within nodes -> dep_loop g target fuel nodes visited = Some true ->
  exists p q, In p nodes /\ clos_refl_trans nat (edge g) p q /\ captures g q target.
Proof using Hok.
  induction fuel as [|fuel IH]; intros nodes visited Hw H; [discriminate|].
  cbn [dep_loop] in H. destruct nodes as [|p rest]; [discriminate|].
  assert (Hp : p < List.length (g_heap g)) by (apply Hw; left; reflexivity).
  destruct (existsb (Nat.eqb p) visited).
  - destruct (IH rest visited) as (a & b & Ha & R); [intros q Hq; apply Hw; right; exact Hq|exact H|].
    exists a, b. split; [right; exact Ha|exact R].
  - destruct (existsb _ (dn_caps (node_at g p))) eqn:C.
    + apply existsb_exists in C as (d & Hd & E). apply same_dec_spec in E as ->.
      exists p, p. split; [left; reflexivity|]. split; [apply rt_refl|]. apply node_at_caps; assumption.
    + destruct (IH (rest ++ dn_deps (node_at g p)) (p :: visited)) as (a & b & Ha & R & Q);
        [intros q Hq; apply in_app_or in Hq as [Hq|Hq]; [apply Hw; right; exact Hq|exact (deps_ok p q Hq)]|exact H|].
      apply in_app_or in Ha as [Ha|Ha].
      * exists a, b. split; [right; exact Ha|]. split; assumption.
      * exists p, b. split; [left; reflexivity|]. split; [|exact Q].
        apply rt_trans with a; [apply rt_step, node_at_edge; assumption|exact R].
Qed.
Definition inv (nodes visited : list nat) : Prop :=
  forall p, In p visited -> ~ captures g p target
                            /\ forall q, edge g p q -> In q visited \/ In q nodes.
Lemma loop_false : forall fuel nodes visited, within nodes -> inv nodes visited ->
  dep_loop g target fuel nodes visited = Some false ->
  exists all, (forall p, In p nodes \/ In p visited -> In p all) /\ inv [] all.
Proof using Hok.
  induction fuel as [|fuel IH]; intros nodes visited Hw Hi H; [discriminate|].
  cbn [dep_loop] in H. destruct nodes as [|p rest].
  - exists visited. split; [intros p [[]|Hp]; exact Hp|exact Hi].
  - assert (Hp : p < List.length (g_heap g)) by (apply Hw; left; reflexivity).
    assert (Hr : within rest) by (intros q Hq; apply Hw; right; exact Hq).
    destruct (existsb (Nat.eqb p) visited) eqn:M.
    + apply mem_spec in M. destruct (IH rest visited Hr) as (all & HA & HI); [|exact H|].
      * intros x Hx. destruct (Hi x Hx) as [A B]. split; [exact A|]. intros q Hq. destruct (B q Hq) as [|[<-|]]; tauto.
      * exists all. split; [|exact HI]. intros x [[<-|Hx]|Hx]; apply HA; tauto.
    + destruct (existsb _ (dn_caps (node_at g p))) eqn:C; [discriminate|].
      destruct (IH (rest ++ dn_deps (node_at g p)) (p :: visited)) as (all & HA & HI);
        [intros q Hq; apply in_app_or in Hq as [Hq|Hq]; [apply Hr; exact Hq|exact (deps_ok p q Hq)]| |exact H|].
      * intros x [<-|Hx].
        -- split.
           ++ intro Q. apply node_at_caps in Q; [|exact Hp].
              assert (X : existsb (fun d => same_dec d target) (dn_caps (node_at g p)) = true)
                by (apply existsb_exists; exists target; split; [exact Q|apply same_dec_spec; reflexivity]).
              congruence.
           ++ intros q Hq. apply node_at_edge in Hq; [|exact Hp]. right. apply in_or_app. right. exact Hq.
        -- destruct (Hi x Hx) as [A B]. split; [exact A|]. intros q Hq.
           destruct (B q Hq) as [Hv|[<-|Hv]]; [left; right; exact Hv|left; left; reflexivity|right; apply in_or_app; left; exact Hv].
      * exists all. split; [|exact HI].
        intros x [[<-|Hx]|Hx]; apply HA; [right; left; reflexivity|left; apply in_or_app; left; exact Hx|right; right; exact Hx].
Qed.
End Loop.

(** C45: on every graph, cyclic or not, the query ends, and it says true exactly when the declaration is reached. *)
Theorem C45_reachability : forall g fn target, pointers_ok g ->
  exists fuel b, is_fn_deps_on g fuel fn target = Some b
                 /\ (forall fuel' b', is_fn_deps_on g fuel' fn target = Some b' -> b' = b)
                 /\ (b = true <-> depends g fn target).
Proof.
  intros g fn target Hok. unfold is_fn_deps_on, depends.
  destruct (lookup fn (g_nodes g)) as [f|] eqn:L.
  - assert (Hf : within g [f]) by (intros p [<-|[]]; exact (proj1 Hok fn f L)).
    destruct (loop_ends g target Hok (S (1 + unvisited 0 (g_heap g) [])) [f] [] Hf) as [b Hb]; [cbn [List.length]; lia|].
    assert (T : forall fuel, dep_loop g target fuel [f] [] = Some true ->
                exists p q, Some f = Some p /\ clos_refl_trans nat (edge g) p q /\ captures g q target).
    { intros fuel H. destruct (loop_true g target Hok _ _ _ Hf H) as (p & q & [<-|[]] & R). exists f, q. tauto. }
    assert (F : forall fuel, dep_loop g target fuel [f] [] = Some false ->
                ~ exists p q, Some f = Some p /\ clos_refl_trans nat (edge g) p q /\ captures g q target).
    { intros fuel H (p & q & E & R & Q). injection E as <-.
      destruct (loop_false g target Hok _ _ _ Hf (fun x (X : In x []) => match X with end) H) as (all & HA & HI).
      assert (In q all).
      { assert (K : forall a b, clos_refl_trans nat (edge g) a b -> In a all -> In b all).
        { clear -HI. intros a b H. induction H as [a b E|a|a b c H1 IH1 H2 IH2]; intro Ha.
          - destruct (HI a Ha) as [_ X]. destruct (X b E) as [Y|Y]; [exact Y|destruct Y].
          - exact Ha.
          - exact (IH2 (IH1 Ha)). }
        apply (K f q R). apply HA. left. left. reflexivity. }
      exact (proj1 (HI q H0) Q). }
    exists (S (1 + unvisited 0 (g_heap g) [])), b. split; [exact Hb|]. split.
    + intros fuel' [|] H'; destruct b; try reflexivity.
      * elim (F _ Hb (T _ H')).
      * elim (F _ H' (T _ Hb)).
    + destruct b; split; intro H; try reflexivity; try discriminate.
      * exact (T _ Hb).
      * elim (F _ Hb H).
  - exists 0, false. split; [reflexivity|]. split; [intros _ b' H; injection H as <-; reflexivity|].
    split; [discriminate|]. intros (p & q & E & _). discriminate E.
Qed.
Print Assumptions C45_reachability.

(** Two functions that call each other, the second reading a declaration. *)
Definition cyclic : dgraph := mk_dg [(10, 0); (11, 1); (12, 2)] [mk_dn [] [1]; mk_dn [Some 7; None] [0; 1]; mk_dn [None] [2]].
Example reachability_witness :
  pointers_ok cyclic /\ is_fn_deps_on cyclic 9 10 (Some 7) = Some true
  /\ is_fn_deps_on cyclic 9 12 (Some 7) = Some false /\ depends cyclic 10 (Some 7) /\ ~ depends cyclic 12 (Some 7).
Proof.
  assert (OK : pointers_ok cyclic).
  { split.
    - intros fn p H. unfold cyclic, g_nodes, g_heap in *. cbn [lookup List.length] in *.
      repeat match type of H with context [if ?b then _ else _] => destruct b end; try discriminate; injection H as <-; lia.
    - intros n p H Hp. cbn in H. destruct H as [<-|[<-|[<-|[]]]]; cbn in *; lia. }
  split; [exact OK|]. split; [reflexivity|]. split; [reflexivity|]. split.
  - destruct (C45_reachability cyclic 10 (Some 7) OK) as (fuel & b & H & U & R).
    apply R. symmetry. exact (U 9 true eq_refl).
  - intro D. destruct (C45_reachability cyclic 12 (Some 7) OK) as (fuel & b & H & U & R).
    apply R in D. pose proof (U 9 false eq_refl). congruence.
Qed.
