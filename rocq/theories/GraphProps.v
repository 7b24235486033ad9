(** Theorems about control flow graphs. *)
From Coq Require Import Relations Permutation ZifyBool ZifyNat.
From Verif Require Import Base GraphModel GraphSpec.

(** ** Iterating *)
Lemma mem_spec : forall p l, existsb (Nat.eqb p) l = true <-> In p l.
Proof.
  intros p l. rewrite existsb_exists. split.
  - intros (x & Hx & E). apply Nat.eqb_eq in E as ->. exact Hx.
  - intro H. exists p. rewrite Nat.eqb_refl. tauto.
Qed.
Lemma merge_in : forall a b x, In x (merge_set a b) <-> In x a \/ In x b.
Proof.
  intros a b x. unfold merge_set. rewrite in_app_iff, filter_In. split; [tauto|].
  intros [H|H]; [tauto|]. destruct (existsb (Nat.eqb x) a) eqn:M; [apply mem_spec in M; tauto|tauto].
Qed.
Lemma filter_length_le : forall {A} (f : A -> bool) l, List.length (filter f l) <= List.length l.
Proof. induction l as [|x l IH]; cbn; [lia|]. destruct (f x); cbn; lia. Qed.
Lemma merge_length : forall a b, List.length (merge_set a b) <= List.length a + List.length b.
Proof. intros. unfold merge_set. rewrite app_length. pose proof (filter_length_le (fun x => negb (existsb (Nat.eqb x) a)) b). lia. Qed.
Lemma drop_in : forall l i x, i < List.length l -> In x l -> x = nth i l 0 \/ In x (drop i l).
Proof.
  induction l as [|y l IH]; intros i x Hi H; cbn in Hi; [lia|]. destruct i as [|i]; cbn.
  - destruct H as [<-|H]; tauto.
  - destruct H as [<-|H]; [tauto|]. destruct (IH i x ltac:(lia) H); tauto.
Qed.
Lemma drop_sub : forall l i x, In x (drop i l) -> In x l.
Proof. induction l as [|y l IH]; intros [|i] x H; cbn in *; try tauto. destruct H as [<-|H]; [tauto|right; exact (IH _ _ H)]. Qed.
Lemma drop_length : forall l i, i < List.length l -> S (List.length (drop i l)) = List.length l.
Proof. induction l as [|y l IH]; intros [|i] H; cbn in *; try lia. rewrite IH by lia. reflexivity. Qed.

Fixpoint unvisited (i : nat) (l : list block) (visited : list nat) : nat :=
  match l with
  | [] => 0
  | n :: r => (if existsb (Nat.eqb i) visited then 0 else List.length (b_out n)) + unvisited (S i) r visited
  end.
Lemma existsb_app_one : forall i v p, existsb (Nat.eqb i) (v ++ [p]) = existsb (Nat.eqb i) v || Nat.eqb i p.
Proof. intros. rewrite existsb_app. cbn. rewrite orb_false_r. reflexivity. Qed.
Lemma unvisited_lt : forall l i p visited, p < i -> unvisited i l (visited ++ [p]) = unvisited i l visited.
Proof.
  induction l as [|n l IH]; intros i p visited H; cbn [unvisited]; [reflexivity|].
  rewrite existsb_app_one. destruct (Nat.eqb_spec i p) as [E|E]; [lia|]. rewrite orb_false_r, (IH (S i) p visited) by lia. reflexivity.
Qed.
Lemma unvisited_visit : forall l i p visited, i <= p -> p < i + List.length l -> ~ In p visited ->
  unvisited i l (visited ++ [p]) + List.length (b_out (nth (p - i) l (mk_block [] []))) = unvisited i l visited.
Proof.
  induction l as [|n l IH]; intros i p visited H1 H2 H3; cbn [List.length] in H2; [lia|].
  cbn [unvisited]. rewrite existsb_app_one. destruct (Nat.eqb_spec i p) as [E|E].
  - subst i. replace (p - p) with 0 by lia. rewrite orb_true_r. cbn [nth].
    destruct (existsb (Nat.eqb p) visited) eqn:M; [apply mem_spec in M; tauto|].
    rewrite unvisited_lt by lia. lia.
  - rewrite orb_false_r. replace (p - i) with (S (p - S i)) by lia. cbn [nth].
    specialize (IH (S i) p visited ltac:(lia) ltac:(lia) H3). lia.
Qed.

Section Iter.
Variable pick : nat -> list nat -> nat.
Variable g : graph.
Variable start : nat.
Hypothesis Hok : targets_ok g.

(** What one turn of the loop takes. *)
Lemma taken : forall fuel e0 r, exists i, let edges := e0 :: r in
  i < List.length edges /\ nth (pick fuel edges) edges e0 = nth i edges 0
  /\ drop (if Nat.ltb (pick fuel edges) (List.length edges) then pick fuel edges else 0) edges = drop i edges.
Proof using pick.
  intros fuel e0 r. cbn zeta. set (edges := e0 :: r).
  destruct (Nat.ltb_spec (pick fuel edges) (List.length edges)) as [H|H].
  - exists (pick fuel edges). split; [exact H|]. split; [apply nth_indep; exact H|reflexivity].
  - exists 0. split; [cbn; lia|]. split; [rewrite nth_overflow by exact H; reflexivity|reflexivity].
Qed.

Definition inv (edges visited : list nat) : Prop :=
  NoDup visited /\ In start visited
  /\ (forall b, In b visited -> reachable g start b)
  /\ (forall e d, In e edges -> e_dst (edge_at g e) = Some d -> reachable g start d)
  /\ (forall b e d, In b visited -> In e (b_out (block_at g b)) -> e_dst (edge_at g e) = Some d -> In e edges \/ In d visited).

Lemma iter_loop_ok : forall fuel edges visited, inv edges visited ->
  List.length edges + unvisited 0 (g_blocks g) visited < fuel ->
  exists v, iter_loop pick g fuel edges visited = Some v /\ inv [] v.
Proof using Hok.
  induction fuel as [|fuel IH]; intros edges visited Hi Hf; [lia|].
  cbn [iter_loop]. destruct edges as [|e0 r]; [exists visited; tauto|].
  destruct (taken fuel e0 r) as (i & Hl & He & Hr). rewrite He, Hr. clear He Hr. set (edges := e0 :: r) in *.
  set (e := nth i edges 0). set (rest := drop i edges).
  pose proof (drop_length edges i Hl) as Ld. fold rest in Ld.
  assert (Hin : In e edges) by (apply nth_In; exact Hl).
  assert (Hrest : forall x, In x edges -> x = e \/ In x rest) by (intros x Hx; exact (drop_in edges i x Hl Hx)).
  destruct Hi as (N1 & N2 & N3 & N4 & N5).
  destruct (e_dst (edge_at g e)) as [d|] eqn:D.
  - destruct (existsb (Nat.eqb d) visited) eqn:M.
    + apply mem_spec in M. apply IH; [|lia]. split; [exact N1|]. split; [exact N2|]. split; [exact N3|]. split.
      * intros x y Hx. apply N4. exact (drop_sub _ _ _ Hx).
      * intros b x y Hb Hx Hy. destruct (N5 b x y Hb Hx Hy) as [H|H]; [|tauto].
        destruct (Hrest x H) as [->|H']; [right; congruence|tauto].
    + assert (NM : ~ In d visited) by (intro X; apply mem_spec in X; congruence).
      pose proof (N4 e d Hin D) as Rd. pose proof (Hok e d D) as Ld2.
      apply IH.
      * split; [apply Permutation_NoDup with (d :: visited); [apply Permutation_cons_append|constructor; assumption]|].
        split; [apply in_or_app; left; exact N2|]. split; [|split].
        -- intros b Hb. apply in_app_or in Hb as [Hb|[<-|[]]]; [exact (N3 b Hb)|exact Rd].
        -- intros x y Hx Hy. apply merge_in in Hx as [Hx|Hx].
           ++ exact (N4 x y (drop_sub _ _ _ Hx) Hy).
           ++ apply rt_trans with d; [exact Rd|]. apply rt_step. exists x. tauto.
        -- intros b x y Hb Hx Hy. apply in_app_or in Hb as [Hb|[<-|[]]].
           ++ destruct (N5 b x y Hb Hx Hy) as [H|H]; [|right; apply in_or_app; tauto].
              destruct (Hrest x H) as [->|H'].
              ** right. apply in_or_app. right. left. congruence.
              ** left. apply merge_in. tauto.
           ++ left. apply merge_in. tauto.
      * pose proof (merge_length rest (b_out (block_at g d))).
        pose proof (unvisited_visit (g_blocks g) 0 d visited ltac:(lia) ltac:(lia) NM) as U.
        rewrite Nat.sub_0_r in U. fold (block_at g d) in U. lia.
  - apply IH; [|lia]. split; [exact N1|]. split; [exact N2|]. split; [exact N3|]. split.
    * intros x y Hx. apply N4. exact (drop_sub _ _ _ Hx).
    * intros b x y Hb Hx Hy. destruct (N5 b x y Hb Hx Hy) as [H|H]; [|tauto].
      destruct (Hrest x H) as [->|H']; [congruence|tauto].
Qed.
End Iter.

(** C47: iterating from a block ends and calls back with exactly the blocks reachable from it, each once, in
    whatever order the edges are taken. *)
Theorem C47_iter : forall pick g b, targets_ok g ->
  exists fuel v, iter_block pick g fuel b = Some v /\ NoDup v /\ forall d, In d v <-> reachable g b d.
Proof.
  intros pick g b Hok.
  destruct (iter_loop_ok pick g b Hok (S (List.length (b_out (block_at g b)) + unvisited 0 (g_blocks g) [b]))
              (b_out (block_at g b)) [b]) as (v & E & N1 & N2 & N3 & _ & N5); [|lia|].
  - split; [constructor; [intros []|constructor]|]. split; [left; reflexivity|]. split; [|split].
    + intros x [<-|[]]. apply rt_refl.
    + intros e d He Hd. apply rt_step. exists e. tauto.
    + intros x e d [<-|[]] He Hd. left. exact He.
  - eexists. exists v. split; [exact E|]. split; [exact N1|]. intro d. split; [apply N3|].
    intro R. assert (K : forall x y, reachable g x y -> In x v -> In y v).
    { clear -N5. intros x y H. induction H as [x y (e & He & Hd)|x|x y z H1 IH1 H2 IH2]; intro Hx.
      - destruct (N5 x e y Hx He Hd) as [F|F]; [destruct F|exact F].
      - exact Hx.
      - exact (IH2 (IH1 Hx)). }
    exact (K b d R N2).
Qed.
Print Assumptions C47_iter.
(** Two blocks that lead to each other, with edges that lead nowhere. *)
Definition loop_graph : graph :=
  mk_graph [mk_edge EK_SEQ 0 None (Some 0); mk_edge EK_SEQ 0 (Some 0) (Some 1); mk_edge EK_JMP 2 (Some 1) (Some 0);
            mk_edge EK_SEQ 0 (Some 1) None; mk_edge EK_JMP 4 (Some 2) (Some 1)]
           [mk_block [0; 2] [1]; mk_block [1] [2; 3]; mk_block [] [4]].
Example iter_witness : targets_ok loop_graph /\ iter_block (fun _ _ => 1) loop_graph 9 0 = Some [0; 1].
Proof.
  split; [|reflexivity]. intros e d H. unfold edge_at, loop_graph, g_edges, g_blocks in *.
  do 5 (destruct e as [|e]; [cbn in H; try discriminate H; injection H as <-; cbn; lia|]).
  destruct e; discriminate H.
Qed.

(** ** Linking *)
Lemma set_nth_length : forall {A} (l : list A) i x, List.length (set_nth i x l) = List.length l.
Proof. induction l as [|y l IH]; intros [|i] x; cbn; try reflexivity. rewrite IH. reflexivity. Qed.
Lemma set_nth_same : forall {A} (l : list A) i x d, i < List.length l -> nth i (set_nth i x l) d = x.
Proof. induction l as [|y l IH]; intros [|i] x d H; cbn in *; try lia; [reflexivity|]. apply IH. lia. Qed.
Lemma set_nth_other : forall {A} (l : list A) i j x d, i <> j -> nth j (set_nth i x l) d = nth j l d.
Proof. induction l as [|y l IH]; intros [|i] [|j] x d H; cbn; try reflexivity; try lia. apply IH. lia. Qed.

Lemma put_edge_same : forall g e x, e < List.length (g_edges g) -> edge_at (put_edge g e x) e = x.
Proof. intros. unfold edge_at, put_edge. cbn. apply set_nth_same. assumption. Qed.
Lemma put_edge_other : forall g e i x, e <> i -> edge_at (put_edge g e x) i = edge_at g i.
Proof. intros. unfold edge_at, put_edge. cbn. apply set_nth_other. assumption. Qed.

Section Link.
Variable order : graph -> list nat -> list nat.
Hypothesis Hord : forall g l, Permutation (order g l) l.
Set Default Proof Using "All".

(** What changes in a graph when an in-edge of [to] is got for [src]. *)
Lemma hanging_spec : forall g to src k t g' i,
  to < List.length (g_blocks g) -> (forall j, In j (b_in (block_at g to)) -> j < List.length (g_edges g)) ->
  hanging_in order g to src k t = (g', i) ->
  List.length (g_edges g) <= List.length (g_edges g') /\ List.length (g_blocks g') = List.length (g_blocks g)
  /\ (forall b, b <> to -> block_at g' b = block_at g b) /\ b_out (block_at g' to) = b_out (block_at g to)
  /\ (forall x, x < List.length (g_edges g) -> edge_at g' x = edge_at g x)
  /\ (forall j, In j (b_in (block_at g' to)) <-> In j (b_in (block_at g to)) \/ j = i)
  /\ i < List.length (g_edges g')
  /\ (In i (b_in (block_at g to)) \/ i = List.length (g_edges g))
  /\ (e_src (edge_at g' i) = None \/ e_src (edge_at g' i) = src)
  /\ e_kind (edge_at g' i) = k /\ (In i (b_in (block_at g to)) \/ e_dst (edge_at g' i) = Some to).
Proof.
  intros g to src k t g' i Hto Hin H. unfold hanging_in in H.
  set (fresh := (put_block (mk_graph (g_edges g ++ [mk_edge k t None (Some to)]) (g_blocks g)) to
                   (mk_block (b_in (block_at g to) ++ [List.length (g_edges g)]) (b_out (block_at g to))), List.length (g_edges g))) in *.
  assert (F : fresh = (g', i) ->
    List.length (g_edges g) <= List.length (g_edges g') /\ List.length (g_blocks g') = List.length (g_blocks g)
    /\ (forall b, b <> to -> block_at g' b = block_at g b) /\ b_out (block_at g' to) = b_out (block_at g to)
    /\ (forall x, x < List.length (g_edges g) -> edge_at g' x = edge_at g x)
    /\ (forall j, In j (b_in (block_at g' to)) <-> In j (b_in (block_at g to)) \/ j = i)
    /\ i < List.length (g_edges g')
    /\ (In i (b_in (block_at g to)) \/ i = List.length (g_edges g))
    /\ (e_src (edge_at g' i) = None \/ e_src (edge_at g' i) = src)
    /\ e_kind (edge_at g' i) = k /\ (In i (b_in (block_at g to)) \/ e_dst (edge_at g' i) = Some to)).
  { intro E. unfold fresh in E. injection E as <- <-.
    unfold block_at, edge_at, put_block. cbn [g_edges g_blocks].
    rewrite app_length, set_nth_length, set_nth_same by exact Hto. cbn [List.length b_in b_out].
    split; [lia|]. split; [reflexivity|]. split; [intros b Hb; apply set_nth_other; congruence|].
    split; [reflexivity|]. split; [intros x Hx; apply app_nth1; exact Hx|].
    split; [intro j; rewrite in_app_iff; cbn; intuition congruence|].
    split; [lia|]. split; [tauto|]. rewrite app_nth2, Nat.sub_diag by lia. cbn. tauto. }
  destruct (find_edge order g (b_in (block_at g to)) k t) as [e|] eqn:E; [|exact (F H)].
  unfold find_edge in E. apply find_some in E as [Ein Em].
  apply (Permutation_in _ (Hord g _)) in Ein. apply andb_true_iff in Em as [Ek _].
  assert (K : e_kind (edge_at g e) = k) by (destruct (e_kind (edge_at g e)), k; try discriminate Ek; reflexivity).
  assert (Same : (g, e) = (g', i) -> (e_src (edge_at g e) = None \/ e_src (edge_at g e) = src) ->
    List.length (g_edges g) <= List.length (g_edges g') /\ List.length (g_blocks g') = List.length (g_blocks g)
    /\ (forall b, b <> to -> block_at g' b = block_at g b) /\ b_out (block_at g' to) = b_out (block_at g to)
    /\ (forall x, x < List.length (g_edges g) -> edge_at g' x = edge_at g x)
    /\ (forall j, In j (b_in (block_at g' to)) <-> In j (b_in (block_at g to)) \/ j = i)
    /\ i < List.length (g_edges g')
    /\ (In i (b_in (block_at g to)) \/ i = List.length (g_edges g))
    /\ (e_src (edge_at g' i) = None \/ e_src (edge_at g' i) = src)
    /\ e_kind (edge_at g' i) = k /\ (In i (b_in (block_at g to)) \/ e_dst (edge_at g' i) = Some to)).
  { intros X S0. injection X as <- <-. split; [lia|]. split; [reflexivity|]. split; [reflexivity|]. split; [reflexivity|].
    split; [reflexivity|]. split; [intro j; split; [tauto|intros [?| ->]; assumption]|].
    split; [exact (Hin e Ein)|]. tauto. }
  destruct (e_src (edge_at g e)) as [s|] eqn:S0.
  - destruct (same_ptr (Some s) src) eqn:P; [|exact (F H)].
    apply (Same H). right. unfold same_ptr in P. destruct src as [s'|]; [|discriminate P]. apply Nat.eqb_eq in P as ->. reflexivity.
  - apply (Same H). left. reflexivity.
Qed.

Variables (fk : ekind) (ft : N) (tk : ekind) (tt : N) (to : nat) (over : bool).
Definition matching (x : edge) : bool := ekind_eqb (e_kind x) fk && (N.eqb ft 0 || has_bit (e_tag x) ft).
Definition retarget (x : edge) : edge :=
  if matching x then
    mk_edge (e_kind x) (e_tag x) (e_src x)
            (match e_dst x with None => Some to | Some d => if over then Some to else Some d end)
  else x.
Definition ins_ok (g : graph) : Prop :=
  to < List.length (g_blocks g) /\ forall j, In j (b_in (block_at g to)) -> j < List.length (g_edges g).

Lemma link_one_spec : forall g e, ins_ok g -> e < List.length (g_edges g) -> ~ In e (b_in (block_at g to)) ->
  let g' := link_one order fk ft tk tt to over g e in
  ins_ok g' /\ List.length (g_edges g) <= List.length (g_edges g')
  /\ List.length (g_blocks g') = List.length (g_blocks g)
  /\ (forall b, b <> to -> block_at g' b = block_at g b) /\ b_out (block_at g' to) = b_out (block_at g to)
  /\ (forall x, x < List.length (g_edges g) -> x <> e -> ~ In x (b_in (block_at g to)) -> edge_at g' x = edge_at g x)
  /\ edge_at g' e = retarget (edge_at g e)
  /\ (forall j, In j (b_in (block_at g to)) -> In j (b_in (block_at g' to)))
  /\ (forall j, In j (b_in (block_at g' to)) -> In j (b_in (block_at g to)) \/ List.length (g_edges g) <= j)
  /\ (forall j s, In j (b_in (block_at g to)) -> e_src (edge_at g j) = Some s -> e_src (edge_at g' j) = Some s)
  /\ (matching (edge_at g e) = true -> forall s, e_src (edge_at g e) = Some s -> entered_from g' to s).
Proof.
  intros g e [Hto Hin] He Hne g'. unfold g', link_one, retarget, matching.
  destruct (ekind_eqb (e_kind (edge_at g e)) fk && (N.eqb ft 0 || has_bit (e_tag (edge_at g e)) ft)).
  2: { repeat split; try tauto; try lia; try discriminate. }
  set (x := edge_at g e) in *.
  set (x1 := mk_edge (e_kind x) (e_tag x) (e_src x) (match e_dst x with None => Some to | Some d => if over then Some to else Some d end)).
  set (g1 := match e_dst x with
             | None => put_edge g e (mk_edge (e_kind x) (e_tag x) (e_src x) (Some to))
             | Some _ => if over then put_edge g e (mk_edge (e_kind x) (e_tag x) (e_src x) (Some to)) else g
             end).
  assert (G1 : g1 = put_edge g e x1 \/ g1 = g /\ x1 = x).
  { unfold g1, x1. destruct (e_dst x) eqn:D; [destruct over; [left; reflexivity|right]|left; reflexivity].
    split; [reflexivity|]. rewrite <- D. destruct x; reflexivity. }
  assert (B1 : forall b, block_at g1 b = block_at g b) by (destruct G1 as [->|[-> _]]; reflexivity).
  assert (L1 : List.length (g_edges g1) = List.length (g_edges g)) by (destruct G1 as [->|[-> _]]; [apply set_nth_length|reflexivity]).
  assert (M1 : List.length (g_blocks g1) = List.length (g_blocks g)) by (destruct G1 as [->|[-> _]]; reflexivity).
  assert (E1 : edge_at g1 e = x1) by (destruct G1 as [->|[-> ->]]; [apply put_edge_same; exact He|reflexivity]).
  assert (O1 : forall i, i <> e -> edge_at g1 i = edge_at g i)
    by (intros i Hi; destruct G1 as [->|[-> _]]; [apply put_edge_other; congruence|reflexivity]).
  destruct (hanging_in order g1 to (e_src x) tk tt) as [g2 i] eqn:H2.
  apply hanging_spec in H2; [|rewrite M1; exact Hto|rewrite B1, L1; exact Hin].
  rewrite !B1, L1, M1 in H2. destruct H2 as (A1 & A2 & A3 & A4 & A5 & A6 & A7 & A8 & A9 & A10 & A11).
  set (y := edge_at g2 i) in *. set (g3 := put_edge g2 i (mk_edge (e_kind y) (e_tag x) (e_src x) (e_dst y))).
  assert (Ni : i <> e) by (intros ->; destruct A8 as [A8|A8]; [tauto|lia]).
  assert (B3 : forall b, block_at g3 b = block_at g2 b) by reflexivity.
  assert (L3 : List.length (g_edges g3) = List.length (g_edges g2)) by apply set_nth_length.
  assert (E3 : edge_at g3 i = mk_edge (e_kind y) (e_tag x) (e_src x) (e_dst y)) by (apply put_edge_same; exact A7).
  assert (O3 : forall j, j <> i -> edge_at g3 j = edge_at g2 j) by (intros j Hj; apply put_edge_other; congruence).
  split.
  { split; [change (g_blocks g3) with (g_blocks g2); lia|]. intros j Hj. rewrite B3 in Hj. rewrite L3.
    apply A6 in Hj as [Hj| ->]; [pose proof (Hin j Hj); lia|exact A7]. }
  split; [lia|]. split; [change (g_blocks g3) with (g_blocks g2); lia|].
  split; [intros b Hb; rewrite B3, A3 by exact Hb; apply B1|].
  split; [rewrite B3; exact A4|].
  split.
  { intros z Hz Hze Hzi. rewrite O3 by (intros ->; destruct A8 as [A8|A8]; [tauto|lia]).
    rewrite A5 by exact Hz. apply O1. exact Hze. }
  split; [rewrite O3 by congruence; rewrite A5 by exact He; exact E1|].
  split; [intros j Hj; rewrite B3; apply A6; tauto|].
  split.
  { intros j Hj. rewrite B3 in Hj. apply A6 in Hj as [Hj| ->]; [tauto|]. destruct A8 as [A8|A8]; [tauto|right; lia]. }
  split.
  { intros j s Hj Hs. pose proof (Hin j Hj) as Lj. assert (Nj : j <> e) by (intros ->; tauto).
    assert (E2 : edge_at g2 j = edge_at g j) by (rewrite A5 by exact Lj; apply O1; exact Nj).
    destruct (Nat.eq_dec j i) as [->|Nji].
    - rewrite E3. cbn [e_src]. unfold y in A9. rewrite E2, Hs in A9. destruct A9 as [A9|A9]; [discriminate A9|congruence].
    - rewrite O3 by exact Nji. rewrite E2. exact Hs. }
  intros _ s Hs. exists i. split; [rewrite B3; apply A6; tauto|]. rewrite E3. exact Hs.
Qed.

Lemma link_fold : forall l g, ins_ok g -> NoDup l ->
  (forall e, In e l -> e < List.length (g_edges g) /\ ~ In e (b_in (block_at g to))) ->
  let g' := fold_left (link_one order fk ft tk tt to over) l g in
  (forall b, b <> to -> block_at g' b = block_at g b) /\ b_out (block_at g' to) = b_out (block_at g to)
  /\ (forall x, x < List.length (g_edges g) -> ~ In x l -> ~ In x (b_in (block_at g to)) -> edge_at g' x = edge_at g x)
  /\ (forall e, In e l -> edge_at g' e = retarget (edge_at g e))
  /\ (forall j s, In j (b_in (block_at g to)) -> e_src (edge_at g j) = Some s ->
        In j (b_in (block_at g' to)) /\ e_src (edge_at g' j) = Some s)
  /\ (forall e s, In e l -> matching (edge_at g e) = true -> e_src (edge_at g e) = Some s -> entered_from g' to s).
Proof.
  induction l as [|e l IH]; intros g Hg Hn Hl g'.
  - unfold g'. cbn [fold_left]. split; [reflexivity|]. split; [reflexivity|]. split; [reflexivity|]. split; [intros e []|]. split; [tauto|intros e s []].
  - unfold g'. cbn [fold_left]. destruct (Hl e (or_introl eq_refl)) as [He Hne].
    destruct (link_one_spec g e Hg He Hne) as (S1 & S2 & S3 & S4 & S5 & S6 & S7 & S8 & S9 & S10 & S11).
    set (g1 := link_one order fk ft tk tt to over g e) in *.
    apply NoDup_cons_iff in Hn as [Hnot Hn].
    assert (Hl1 : forall x, In x l -> x < List.length (g_edges g1) /\ ~ In x (b_in (block_at g1 to))).
    { intros x Hx. destruct (Hl x (or_intror Hx)) as [A B]. split; [lia|]. intro C. destruct (S9 x C) as [D|D]; [tauto|lia]. }
    destruct (IH g1 S1 Hn Hl1) as (T1 & T2 & T3 & T4 & T5 & T6).
    split; [intros b Hb; rewrite T1, S4 by exact Hb; reflexivity|].
    split; [rewrite T2; exact S5|].
    split.
    { intros x Hx Hxl Hxi. assert (Nxe : x <> e) by (intros ->; apply Hxl; left; reflexivity).
      rewrite T3; [exact (S6 x Hx Nxe Hxi)|lia|intro C; apply Hxl; right; exact C|].
      intro C. destruct (S9 x C) as [D|D]; [tauto|lia]. }
    split.
    { intros x [<-|Hx].
      - rewrite T3; [exact S7|lia|exact Hnot|]. intro C. destruct (S9 e C) as [D|D]; [tauto|lia].
      - rewrite (T4 x Hx). destruct (Hl x (or_intror Hx)) as [A B]. rewrite S6; [reflexivity|exact A|intros ->; tauto|exact B]. }
    split.
    { intros j s Hj Hs. exact (T5 j s (S8 j Hj) (S10 j s Hj Hs)). }
    intros x s [<-|Hx] Hm Hs.
    + destruct (S11 Hm s Hs) as (i & Hi & Si). destruct (T5 i s Hi Si) as [A B]. exists i. tauto.
    + destruct (Hl x (or_intror Hx)) as [A B]. assert (X : edge_at g1 x = edge_at g x) by (apply S6; [exact A|intros ->; tauto|exact B]).
      apply (T6 x s Hx); rewrite X; assumption.
Qed.
End Link.

(** C47, partial: linking a block sends the edges asked for to the target, which then records that it is entered from
    their sources; edges that already led somewhere are kept unless they are to be overwritten, no other edge leaving
    a block changes, no other block changes, and the target forgets no source.  This holds in whatever order maps are
    run through. *)
Theorem C47_link_partial : forall order fk ft tk tt to over g l,
  (forall g l, Permutation (order g l) l) -> separate g l to ->
  let g' := link_edges order fk ft tk tt to over g l in
  (forall e s, In e l -> linkable fk ft (edge_at g e) -> e_src (edge_at g e) = Some s ->
     e_src (edge_at g' e) = Some s
     /\ e_dst (edge_at g' e) = (match e_dst (edge_at g e) with Some d => if over then Some to else Some d | None => Some to end)
     /\ entered_from g' to s)
  /\ (forall e, e < List.length (g_edges g) -> ~ In e (b_in (block_at g to)) -> ~ (In e l /\ linkable fk ft (edge_at g e)) ->
        edge_at g' e = edge_at g e)
  /\ (forall b, b <> to -> block_at g' b = block_at g b)
  /\ b_out (block_at g' to) = b_out (block_at g to)
  /\ (forall s, entered_from g to s -> entered_from g' to s).
Proof.
  intros order fk ft tk tt to over g l Hord (Hn & Hto & Hl & Hin) g'. unfold g', link_edges.
  assert (P : forall e, In e (order g l) <-> In e l)
    by (intro e; split; apply Permutation_in; [apply Hord|apply Permutation_sym, Hord]).
  destruct (link_fold order Hord fk ft tk tt to over (order g l) g) as (T1 & T2 & T3 & T4 & T5 & T6).
  - split; assumption.
  - apply Permutation_NoDup with l; [apply Permutation_sym, Hord|exact Hn].
  - intros e He. apply Hl, P, He.
  - assert (M : forall x, matching fk ft x = true <-> linkable fk ft x).
    { intro x. unfold matching, linkable, has_bit. rewrite andb_true_iff, orb_true_iff, negb_true_iff, N.eqb_eq, N.eqb_neq.
      assert (K : ekind_eqb (e_kind x) fk = true <-> e_kind x = fk) by (destruct (e_kind x), fk; cbn; split; congruence).
      rewrite K. reflexivity. }
    split; [|split; [|split; [exact T1|split; [exact T2|]]]].
    + intros e s He Hm Hs. rewrite (T4 e (proj2 (P e) He)). unfold retarget. rewrite (proj2 (M _) Hm). cbn [e_src e_dst].
      split; [exact Hs|]. split; [destruct (e_dst (edge_at g e)); reflexivity|]. exact (T6 e s (proj2 (P e) He) (proj2 (M _) Hm) Hs).
    + intros e He Hi Hne. destruct (in_dec Nat.eq_dec e l) as [H|H].
      * rewrite (T4 e (proj2 (P e) H)). unfold retarget.
        destruct (matching fk ft (edge_at g e)) eqn:X; [|reflexivity]. apply M in X. tauto.
      * apply T3; [exact He|rewrite P; exact H|exact Hi].
    + intros s (i & Hi & Hs). destruct (T5 i s Hi Hs) as [A B]. exists i. tauto.
Qed.
Print Assumptions C47_link_partial.
Definition ident_order (g : graph) (l : list nat) : list nat := l.
(** Two new blocks. *)
Definition two : graph := fst (new_basic (fst (new_basic (mk_graph [] [])))).
Example link_witness :
  separate two (b_out (block_at two 0)) 1
  /\ let g' := link_edges ident_order EK_SEQ 0 EK_SEQ 0 1 false two (b_out (block_at two 0)) in
     e_dst (edge_at g' 1) = Some 1 /\ entered_from g' 1 0.
Proof.
  split.
  - split; [repeat constructor; cbn; tauto|]. split; [cbn; lia|]. split.
    + intros e [<-|[]]. cbn. lia.
    + intros i [<-|[]]. cbn. lia.
  - split; [reflexivity|]. exists 2. split; [left; reflexivity|reflexivity].
Qed.

(** C47, full statement refuted.  Linking again to another block, without overwriting, leaves the edge where it was but
    the other block records that it is entered; linking twice makes a second in-edge when the map gives another one
    first; and joining a block that is linked already leaves its targets recording the block that is gone. *)
Theorem C47_consistent_refuted :
  (* a -> b, then a -> c without overwriting *)
  (let g3 := fst (new_basic two) in
   let g4 := link_edges ident_order EK_SEQ 0 EK_SEQ 0 1 false g3 (b_out (block_at g3 0)) in
   let g5 := link_edges ident_order EK_SEQ 0 EK_SEQ 0 2 false g4 (b_out (block_at g4 0)) in
   entered_from g5 2 0 /\ ~ leads g5 0 2)
  (* a -> c, b -> c, b -> c again *)
  /\ (let g3 := fst (new_basic two) in
      let g4 := link_edges ident_order EK_SEQ 0 EK_SEQ 0 2 false g3 (b_out (block_at g3 0)) in
      let g5 := link_edges ident_order EK_SEQ 0 EK_SEQ 0 2 false g4 (b_out (block_at g4 1)) in
      let g6 := link_edges ident_order EK_SEQ 0 EK_SEQ 0 2 false g5 (b_out (block_at g5 1)) in
      map (fun i => e_src (edge_at g6 i)) (b_in (block_at g6 2)) = [Some 0; Some 1; Some 1])
  (* b -> c, then a is joined with b *)
  /\ (let g3 := fst (new_basic two) in
      let g4 := link_edges ident_order EK_SEQ 0 EK_SEQ 0 2 false g3 (b_out (block_at g3 1)) in
      let g5 := join g4 0 1 in
      leads g5 0 2 /\ ~ entered_from g5 2 0 /\ entered_from g5 2 1).
Proof.
  split; [|split].
  - split.
    + exists 4. split; [left; reflexivity|reflexivity].
    + intros (e & [<-|[]] & H). discriminate H.
  - reflexivity.
  - split; [|split].
    + exists 3. split; [left; reflexivity|reflexivity].
    + intros (i & [<-|[]] & H). discriminate H.
    + exists 4. split; [left; reflexivity|reflexivity].
Qed.
Print Assumptions C47_consistent_refuted.
