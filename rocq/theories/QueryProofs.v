From Coq Require Import String.
From Verif Require Import Base TokenModel NodeModel WalkModel WalkSpec WalkProofs QueryModel QuerySpec.
Set Default Proof Using "Type".

(** ** The nodes a walk enters *)
Definition step_seen (ks : list (string * list (option (list node)))) (v : vstep) : list node :=
  match v with
  | VScope => []
  | VOne k => match assoc k ks with Some (Some l :: _) => l | _ => [] end
  | VMany k => match assoc k ks with
               | Some l => flat_map (fun o => match o with Some x => x | None => [] end) l
               | None => []
               end
  end.
Fixpoint seen (n : node) : list node :=
  match n with
  | Node ty a kids =>
      let ks := map (fun p : string * list (option node) =>
                       let (k, l) := p in (k, map (fun o => match o with Some m => Some (seen m) | None => None end) l)) kids in
      match visitor ty with
      | None => []
      | Some v => Node ty a kids :: match v_steps v with None => [] | Some vs => flat_map (step_seen ks) vs end
      end
  end.
Definition seens (kids : list (string * list (option node))) : list (string * list (option (list node))) :=
  map (fun p => (fst p, map (fun o => match o with Some m => Some (seen m) | None => None end) (snd p))) kids.
Lemma seen_eq : forall ty a kids, seen (Node ty a kids) =
  match visitor ty with
  | None => []
  | Some v => Node ty a kids :: match v_steps v with None => [] | Some vs => flat_map (step_seen (seens kids)) vs end
  end.
Proof.
  intros. cbn [seen]. replace (map _ kids) with (seens kids); [reflexivity|].
  unfold seens. apply map_ext. intros [k l]. reflexivity.
Qed.

Lemma visitor_heard : forall ty v, visitor ty = Some v ->
  existsb (fun t => N.eqb (before_event (v_ev v)) (before_event t)) node_types = true.
Proof. intros ty v H. destruct ty; cbn in H; try discriminate; injection H as <-; vm_compute; reflexivity. Qed.
Lemma after_unheard : forall ty, existsb (fun t => N.eqb (after_event ty) (before_event t)) node_types = false.
Proof. intros ty. destruct ty; vm_compute; reflexivity. Qed.

Section Contains.
Variable sub : node.
Notation lst := (before_listeners (contains_handler sub)).
Definition hit (m : node) : bool := Nat.eqb (n_id m) (n_id sub).

(** [s1] is [s] after entering the nodes [l]. *)
Definition after_nodes (s s1 : wst bool) (l : list node) : Prop :=
  w_u s1 = w_u s || existsb hit l /\ w_stop s1 = w_stop s || existsb hit l.
Lemma an_nil : forall s, after_nodes s s [].
Proof. intros s. split; cbn; rewrite orb_false_r; reflexivity. Qed.
Lemma an_trans : forall s s1 s2 l1 l2, after_nodes s s1 l1 -> after_nodes s1 s2 l2 -> after_nodes s s2 (l1 ++ l2).
Proof.
  intros s s1 s2 l1 l2 [A B] [C D]. split; rewrite existsb_app, orb_assoc; congruence.
Qed.
(** Once the walk is stopped the rest does not matter. *)
Lemma an_stop : forall s s1 l1 l2, w_u s = w_stop s -> after_nodes s s1 l1 -> w_stop s1 = true -> after_nodes s s1 (l1 ++ l2).
Proof.
  intros s s1 l1 l2 I [A B] H. rewrite H in B. split; rewrite existsb_app, orb_assoc.
  - rewrite A, I, <- B. reflexivity.
  - rewrite <- B. exact H.
Qed.
Lemma an_inv : forall s s1 l, w_u s = w_stop s -> after_nodes s s1 l -> w_u s1 = w_stop s1.
Proof. intros s s1 l I [A B]. congruence. Qed.

Lemma before_an : forall ty v n k s, visitor ty = Some v -> w_u s = w_stop s ->
  after_nodes s (call_listener lst (before_event (v_ev v)) n k s) [n].
Proof.
  intros ty v n k s Hv I. unfold call_listener, before_listeners. rewrite (visitor_heard _ _ Hv).
  cbn [call_all]. unfold contains_handler at 1. fold (hit n). unfold after_nodes. cbn [existsb].
  destruct (hit n); cbn; destruct (w_stop s) eqn:E; cbn; rewrite ?I, ?orb_true_r, ?orb_false_r; auto.
Qed.
Lemma after_an : forall ty n k s, call_listener lst (after_event ty) n k s = s.
Proof. intros. unfold call_listener, before_listeners. rewrite after_unheard. reflexivity. Qed.

Definition node_an (n : node) : Prop := forall key s, w_u s = w_stop s -> after_nodes s (visit lst n key s) (seen n).

Lemma list_an : forall k l i s, w_u s = w_stop s -> (forall m, In (Some m) l -> node_an m) ->
  after_nodes s (visit_list k i (map (clo lst) l) s)
    (flat_map (fun o => match o with Some x => x | None => [] end)
       (map (fun o => match o with Some m => Some (seen m) | None => None end) l)).
Proof.
  intros k l. induction l as [|o l IH]; intros i s I H; [apply an_nil|].
  cbn [map visit_list flat_map].
  assert (A : after_nodes s (match clo lst o with Some f => f (k, Some i) s | None => s end)
                (match match o with Some m => Some (seen m) | None => None end with Some x => x | None => [] end)).
  { destruct o as [m|]; cbn; [|apply an_nil]. apply H; [left; reflexivity|exact I]. }
  set (s1 := match clo lst o with Some f => f (k, Some i) s | None => s end) in *.
  destruct (w_stop s1) eqn:E; [exact (an_stop _ _ _ _ I A E)|].
  refine (an_trans _ _ _ _ _ A _). apply IH; [exact (an_inv _ _ _ I A)|]. intros m Hm. apply H. right. exact Hm.
Qed.

Lemma assoc_both : forall kids k,
  match assoc k kids with
  | None => assoc k (clos lst kids) = None /\ assoc k (seens kids) = None
  | Some l => assoc k (clos lst kids) = Some (map (clo lst) l) /\
      assoc k (seens kids) = Some (map (fun o => match o with Some m => Some (seen m) | None => None end) l) /\ In (k, l) kids
  end.
Proof.
  induction kids as [|[k' l'] r IH]; intros k; [split; reflexivity|].
  unfold clos, seens. cbn [map assoc fst snd]. fold (clos lst r) (seens r). destruct (String.eqb_spec k k') as [<-|N].
  - split; [reflexivity|]. split; [reflexivity|left; reflexivity].
  - specialize (IH k). destruct (assoc k r) as [l|]; [|exact IH].
    destruct IH as (A & B & C). split; [exact A|]. split; [exact B|right; exact C].
Qed.

Lemma push_an : forall n s s' l, after_nodes (push_scope n s) s' l -> after_nodes s (pop_scope n s') l.
Proof.
  intros n s s' l. unfold after_nodes, push_scope, pop_scope. destruct (new_scope n); cbn; auto.
Qed.
Lemma push_inv : forall n (s : wst bool), w_u s = w_stop s -> w_u (push_scope n s) = w_stop (push_scope n s).
Proof. intros n s. unfold push_scope. destruct (new_scope n); auto. Qed.

Lemma steps_an : forall n kids vs s, (forall p, In p kids -> kidP node_an p) -> w_u s = w_stop s ->
  after_nodes s (visit_steps n (clos lst kids) vs s) (flat_map (step_seen (seens kids)) vs).
Proof.
  intros n kids vs. induction vs as [|v vs IH]; intros s H I; [apply an_nil|].
  destruct v as [|k|k]; cbn [visit_steps flat_map step_seen].
  - apply push_an. apply IH; [exact H|]. apply push_inv; exact I.
  - pose proof (assoc_both kids k) as B. destruct (assoc k kids) as [l|].
    2:{ destruct B as [-> ->]. destruct (w_stop s) eqn:E.
        - refine (an_stop _ _ [] _ _ (an_nil s) E). congruence.
        - apply (an_trans _ s _ [] _ (an_nil s)). apply IH; [exact H|congruence]. }
    destruct B as (-> & -> & Hin).
    assert (A : after_nodes s (match Some (map (clo lst) l) with Some (Some f :: _) => f (k, None) s | _ => s end)
                  (match Some (map (fun o => match o with Some m => Some (seen m) | None => None end) l) with Some (Some x :: _) => x | _ => [] end)).
    { destruct l as [|[m|] l]; cbn; try apply an_nil. apply (H _ Hin m); [left; reflexivity|exact I]. }
    set (s1 := match Some (map (clo lst) l) with Some (Some f :: _) => f (k, None) s | _ => s end) in *.
    destruct (w_stop s1) eqn:E; [exact (an_stop _ _ _ _ I A E)|].
    refine (an_trans _ _ _ _ _ A _). apply IH; [exact H|exact (an_inv _ _ _ I A)].
  - pose proof (assoc_both kids k) as B. destruct (assoc k kids) as [l|].
    2:{ destruct B as [-> ->]. destruct (w_stop s) eqn:E.
        - refine (an_stop _ _ [] _ _ (an_nil s) E). congruence.
        - apply (an_trans _ s _ [] _ (an_nil s)). apply IH; [exact H|congruence]. }
    destruct B as (-> & -> & Hin).
    pose proof (list_an k l 0%nat s I (H _ Hin)) as A.
    destruct (w_stop (visit_list k 0 (map (clo lst) l) s)) eqn:E; [exact (an_stop _ _ _ _ I A E)|].
    refine (an_trans _ _ _ _ _ A _). apply IH; [exact H|exact (an_inv _ _ _ I A)].
Qed.

Lemma visit_an : forall n, node_an n.
Proof.
  induction n as [ty a kids IH] using node_ind'. intros key s I.
  rewrite visit_eq, seen_eq. set (n := Node ty a kids) in *.
  assert (P : forall s1 l, after_nodes (push_vc n s) s1 l -> after_nodes s (pop_vc s1) l) by (intros s1 l [A B]; split; [exact A|exact B]).
  apply P. clear P. assert (I1 : w_u (push_vc n s) = w_stop (push_vc n s)) by exact I.
  generalize dependent (push_vc n s). clear s I. intros s I.
  destruct (visitor ty) as [v|] eqn:Hv; [|apply an_nil].
  unfold run_visitor. rewrite !after_an.
  pose proof (fun s I => before_an ty v n key s Hv I) as B.
  destruct (v_steps v) as [vs|]; [|exact (B s I)].
  assert (G : forall vs s, w_u s = w_stop s ->
            after_nodes s (visit_steps n (clos lst kids) vs (call_listener lst (before_event (v_ev v)) n key s))
              (n :: flat_map (step_seen (seens kids)) vs)).
  { intros vs0 s0 I0. refine (an_trans _ _ _ [n] _ (B s0 I0) _). apply steps_an; [exact IH|exact (an_inv _ _ _ I0 (B s0 I0))]. }
  destruct vs as [|[|k|k] vs]; rewrite after_an; try exact (G _ s I).
  apply push_an. cbn [flat_map step_seen app]. apply G. apply push_inv. exact I.
Qed.

Lemma contains_seen : forall parent, is_node_contains parent sub = existsb hit (seen (getters parent)).
Proof.
  intros parent. unfold is_node_contains, walk. destruct (visit_an (getters parent) (""%string, None) (new_walk (getters parent) false) eq_refl) as [A _].
  exact A.
Qed.
End Contains.

(** ** What is seen is in the tree *)
Lemma assoc_seens : forall kids k ls, assoc k (seens kids) = Some ls ->
  exists l, In (k, l) kids /\ ls = map (fun o => match o with Some m => Some (seen m) | None => None end) l.
Proof.
  induction kids as [|[k' l'] r IH]; intros k ls H; [discriminate|].
  unfold seens in H. cbn [map assoc fst snd] in H. fold (seens r) in H. destruct (String.eqb_spec k k') as [<-|N].
  - injection H as <-. exists l'. split; [left; reflexivity|reflexivity].
  - destruct (IH _ _ H) as (l & A & B). exists l. split; [right; exact A|exact B].
Qed.
Lemma within_child : forall p m x, child_of p m -> within m x -> within p x.
Proof.
  intros p m x C [anc L]. induction L as [|anc q x L IH D].
  - exists [p]. constructor; [constructor|exact C].
  - destruct IH as [anc' L']. exists (q :: anc'). constructor; assumption.
Qed.
Lemma seen_within : forall n m, In m (seen n) -> within n m.
Proof.
  induction n as [ty a kids IH] using node_ind'. intros m Hm. rewrite seen_eq in Hm.
  destruct (visitor ty) as [v|]; [|destruct Hm].
  destruct Hm as [<-|Hm]; [exists []; constructor|].
  destruct (v_steps v) as [vs|]; [|destruct Hm].
  apply in_flat_map in Hm as (st & _ & Hm).
  assert (G : exists k l x, In (k, l) kids /\ In (Some x) l /\ In m (seen x)).
  { destruct st as [|k|k]; cbn [step_seen] in Hm; [destruct Hm| |];
      destruct (assoc k (seens kids)) as [ls|] eqn:E; try destruct Hm; destruct (assoc_seens _ _ _ E) as (l & A & ->).
    - destruct l as [|[x|] l]; cbn [map] in Hm; [destruct Hm| |destruct Hm]. exists k, (Some x :: l), x. split; [exact A|]. split; [left; reflexivity|exact Hm].
    - apply in_flat_map in Hm as (o & Ho & Hm). apply in_map_iff in Ho as (o' & <- & Ho). destruct o' as [x|]; [|destruct Hm].
      exists k, l, x. auto. }
  destruct G as (k & l & x & A & B & C). apply (within_child _ x); [exists k, l; split; [exact A|exact B]|]. exact (IH _ A x B m C).
Qed.

(** ** Nothing is missed *)
Lemma within_inv : forall r m, within r m -> m = r \/ exists x, child_of r x /\ within x m.
Proof.
  intros r m [anc L]. induction L as [|anc p m L IH D]; [left; reflexivity|].
  right. destruct IH as [->|(x & A & [anc' B])].
  - exists m. split; [exact D|exists []; constructor].
  - exists x. split; [exact A|]. exists (p :: anc'). constructor; assumption.
Qed.
Lemma open_steps : forall ty kids g, grammar ty = Some g -> open_ty ty kids = true ->
  exists v, visitor ty = Some v /\
    match v_steps v with None => g = [] | Some vs => forall c, In c g -> In (steps_of c) vs end.
Proof.
  intros ty kids g Hg Hr.
  destruct ty; cbn in Hg; try discriminate; injection Hg as <-; cbn in Hr; try discriminate;
    eexists; (split; [reflexivity|]); cbn; try reflexivity; intros c Hc; cbn; intuition (subst; cbn; auto).
Qed.
Lemma fits_in : forall g kids k l, fits g kids = true -> In (k, l) kids ->
  exists c, In c g /\ child_name c = k /\ match c with Single _ => List.length l = 1%nat | Several _ => True end.
Proof.
  induction g as [|c g IH]; intros [|[k' l'] kids] k l H Hin; try discriminate; try destruct Hin.
  - cbn [fits] in H. apply andb_prop in H as [H _]. apply andb_prop in H as [H1 H2]. injection H0 as -> ->.
    apply String.eqb_eq in H1. exists c. split; [left; reflexivity|]. split; [exact H1|].
    destruct c; [apply Nat.eqb_eq; exact H2|exact Logic.I].
  - cbn [fits] in H. apply andb_prop in H as [_ H]. destruct (IH _ _ _ H H0) as (c' & A & B). exists c'. split; [right; exact A|exact B].
Qed.
Lemma assoc_seens_in : forall kids k l, NoDup (map fst kids) -> In (k, l) kids ->
  assoc k (seens kids) = Some (map (fun o => match o with Some m => Some (seen m) | None => None end) l).
Proof.
  induction kids as [|[k' l'] r IH]; intros k l ND Hin; [destruct Hin|].
  unfold seens. cbn [map assoc fst snd]. fold (seens r). cbn in ND. apply NoDup_cons_iff in ND as [N1 N2].
  destruct Hin as [E|Hin]; [injection E as -> ->; rewrite String.eqb_refl; reflexivity|].
  destruct (String.eqb_spec k k') as [<-|N]; [|apply IH; assumption].
  exfalso. apply N1. apply in_map_iff. exists (k, l). auto.
Qed.
Lemma within_seen : forall n, shaped n = true -> all_nodes open_ty n = true -> forall m, within n m -> In m (seen n).
Proof.
  induction n as [ty a kids IH] using node_ind'. intros Hs Ho m Hm.
  apply all_nodes_eq in Hs as [Hg Hs]. apply all_nodes_eq in Ho as [Hr Ho].
  destruct (grammar ty) as [g|] eqn:Eg; [|discriminate].
  destruct (open_steps _ _ _ Eg Hr) as (v & Hv & Hvs). rewrite seen_eq, Hv.
  destruct (within_inv _ _ Hm) as [->|(x & (k & l & A & B) & W)]; [left; reflexivity|right].
  cbn [n_kids] in A. destruct (fits_in _ _ _ _ Hg A) as (c & Hc & Hk & Hl).
  destruct (v_steps v) as [vs|]; [|subst g; destruct Hc].
  apply in_flat_map. exists (steps_of c). split; [exact (Hvs c Hc)|].
  assert (ND : NoDup (map fst kids)) by (rewrite (fits_names _ _ Hg); exact (grammar_nodup _ _ Eg)).
  pose proof (assoc_seens_in _ _ _ ND A) as E.
  assert (K : In m (seen x)) by (apply (IH _ A x B); [exact (Hs _ x A B)|exact (Ho _ x A B)|exact W]).
  destruct c as [k'|k']; cbn [child_name] in Hk; subst k'; cbn [steps_of step_seen]; rewrite E.
  - destruct l as [|o [|]]; try discriminate. destruct B as [->|[]]. exact K.
  - apply in_flat_map. exists (Some (seen x)). split; [|exact K]. apply in_map_iff. exists (Some x). auto.
Qed.

(** ** Getters leave such trees as they are, and never add a node *)
Lemma getters_open : forall n, all_nodes open_ty n = true -> getters n = n.
Proof.
  induction n as [ty a kids IH] using node_ind'. intros H. apply all_nodes_eq in H as [Hr H].
  cbn [getters].
  assert (E : map (fun p : string * list (option node) =>
                let (k, l) := p in (k, map (fun o => match o with Some m => Some (getters m) | None => None end) l)) kids = kids).
  { rewrite <- (map_id kids) at 2. apply map_ext_in. intros [k l] Hp. f_equal.
    rewrite <- (map_id l) at 2. apply map_ext_in. intros [m|] Hm; [|reflexivity]. f_equal.
    exact (IH _ Hp m Hm (H _ m Hp Hm)). }
  rewrite E. destruct ty; try reflexivity.
  destruct kids as [|[k [|[[ty' a' kids']|] [|]]] [|]]; try reflexivity; destruct ty'; try reflexivity;
    try (destruct kids' as [|[? [|[?|] [|]]] [|]]; reflexivity). discriminate Hr.
Qed.

Definition gkids (kids : list (string * list (option node))) : list (string * list (option node)) :=
  map (fun p : string * list (option node) =>
         let (k, l) := p in (k, map (fun o => match o with Some m => Some (getters m) | None => None end) l)) kids.
Lemma getters_cases : forall ty a kids,
  getters (Node ty a kids) = Node ty a (gkids kids) \/
  exists k t' a' k' m, gkids kids = [(k, [Some (Node t' a' [(k', [Some m])])])] /\ getters (Node ty a kids) = Node ty a [(k, [Some m])].
Proof.
  intros ty a kids. cbn [getters]. fold (gkids kids). generalize (gkids kids). intros g.
  destruct ty; try (left; reflexivity).
  destruct g as [|[k [|[[ty' a' kids']|] [|]]] [|]]; try (left; reflexivity); destruct ty'; try (left; reflexivity).
  all: destruct kids' as [|[k' [|[m|] [|]]] [|]]; try (left; reflexivity).
  right. exists k, N_EXPR_PAREN, a', k', m. auto.
Qed.
Lemma getters_id_same : forall n, n_id (getters n) = n_id n.
Proof.
  intros [ty a kids]. destruct (getters_cases ty a kids) as [->|(k & t' & a' & k' & m & _ & ->)]; reflexivity.
Qed.
Lemma gkids_in : forall kids k l m, In (k, l) (gkids kids) -> In (Some m) l ->
  exists l' x, In (k, l') kids /\ In (Some x) l' /\ m = getters x.
Proof.
  intros kids k l m H Hm. unfold gkids in H. apply in_map_iff in H as ([k0 l0] & E & H). injection E as -> <-.
  apply in_map_iff in Hm as (o & E & Ho). destruct o as [x|]; [|discriminate]. injection E as <-. exists l0, x. auto.
Qed.
Lemma within_getters : forall n m, within (getters n) m -> exists m', within n m' /\ n_id m' = n_id m.
Proof.
  induction n as [ty a kids IH] using node_ind'. intros m Hm.
  destruct (within_inv _ _ Hm) as [->|(x & C & W)].
  - exists (Node ty a kids). split; [exists []; constructor|]. symmetry. apply getters_id_same.
  - assert (G : exists k l y, In (k, l) kids /\ In (Some y) l /\ within (getters y) m).
    { destruct (getters_cases ty a kids) as [E|(k & t' & a' & k' & y & Eg & E)]; rewrite E in C; destruct C as (k0 & l0 & A & B); cbn [n_kids] in A.
      - destruct (gkids_in _ _ _ _ A B) as (l' & y & A' & B' & ->). exists k0, l', y. auto.
      - destruct A as [A|[]]. injection A as <- <-. destruct B as [B|[]]. injection B as <-.
        destruct (gkids_in kids k [Some (Node t' a' [(k', [Some y])])] (Node t' a' [(k', [Some y])])) as (l' & z & A' & B' & Ez);
          [rewrite Eg; left; reflexivity|left; reflexivity|].
        exists k, l', z. split; [exact A'|]. split; [exact B'|]. rewrite <- Ez.
        apply (within_child _ y); [|exact W]. exists k', [Some y]. split; left; reflexivity. }
    destruct G as (k & l & y & A & B & Wy). destruct (IH _ A y B m Wy) as (m' & W' & E).
    exists m'. split; [|exact E]. apply (within_child _ y); [exists k, l; auto|exact W'].
Qed.

(** ** GetParent *)
Lemma includes_in : forall l t, includes l t = true <-> In t l.
Proof.
  intros l t. unfold includes. rewrite existsb_exists. split.
  - intros (x & A & B). apply nt_eqb_spec in B as ->. exact A.
  - intros A. exists t. split; [exact A|]. apply nt_eqb_spec. reflexivity.
Qed.
Lemma includes_not : forall l t, includes l t = false <-> ~ In t l.
Proof. intros l t. rewrite <- includes_in. destruct (includes l t); split; congruence. Qed.

Lemma get_parent_iff : forall anc n target barrier p,
  (exists c, get_parent (n :: anc) target barrier = Some (p, c)) <-> nearest anc target barrier p.
Proof.
  induction anc as [|q anc IH]; intros n target barrier p.
  - split; [intros [c H]; discriminate|]. intros (near & far & E & _). destruct near; discriminate.
  - change (get_parent (n :: q :: anc) target barrier) with
      (if includes target (n_ty q) then Some (q, n :: q :: anc)
       else if includes barrier (n_ty q) then None else get_parent (q :: anc) target barrier).
    destruct (includes target (n_ty q)) eqn:T; [|destruct (includes barrier (n_ty q)) eqn:B].
    + apply includes_in in T. split.
      * intros [c H]. injection H as <- _. exists [], anc. split; [reflexivity|]. split; [exact T|]. intros x [].
      * intros (near & far & E & Tp & N). destruct near as [|x near]; injection E as <- ->; [eexists; reflexivity|].
        exfalso. apply (proj1 (N q (or_introl eq_refl))). exact T.
    + apply includes_not in T. apply includes_in in B. split; [intros [c H]; discriminate|].
      intros (near & far & E & Tp & N). exfalso. destruct near as [|x near]; injection E as <- ->; [exact (T Tp)|].
      exact (proj2 (N q (or_introl eq_refl)) B).
    + apply includes_not in T, B. rewrite IH. split.
      * intros (near & far & -> & Tp & N). exists (q :: near), far. split; [reflexivity|]. split; [exact Tp|].
        intros x [<-|Hx]; [split; assumption|exact (N x Hx)].
      * intros (near & far & E & Tp & N). destruct near as [|x near]; injection E as <- ->; [destruct (T Tp)|].
        exists near, far. split; [reflexivity|]. split; [exact Tp|]. intros y Hy. apply N. right. exact Hy.
Qed.
Lemma get_parent_ctx : forall anc n target barrier p c, get_parent (n :: anc) target barrier = Some (p, c) ->
  exists below m far, n :: anc = below ++ c /\ c = m :: p :: far.
Proof.
  induction anc as [|q anc IH]; intros n target barrier p c H; [discriminate|].
  change (get_parent (n :: q :: anc) target barrier) with
      (if includes target (n_ty q) then Some (q, n :: q :: anc)
       else if includes barrier (n_ty q) then None else get_parent (q :: anc) target barrier) in H.
  destruct (includes target (n_ty q)); [|destruct (includes barrier (n_ty q)); [discriminate|]].
  - injection H as <- <-. exists [], n, anc. auto.
  - destruct (IH _ _ _ _ _ H) as (below & m & far & E & F). exists (n :: below), m, far. split; [cbn; rewrite E; reflexivity|exact F].
Qed.

(** A second root at the end of the chain changes nothing below the root. *)
Lemma line_last : forall r anc m, line r anc m -> anc <> [] -> exists l, anc = l ++ [r].
Proof.
  intros r anc m L. induction L as [|anc p m L IH D]; [congruence|]. intros _.
  destruct anc as [|q anc].
  - inversion L; subst. exists []. reflexivity.
  - destruct (IH ltac:(discriminate)) as [l ->]. exists (p :: l). reflexivity.
Qed.
Lemma nearest_twice : forall l r target barrier p,
  nearest ((l ++ [r]) ++ [r]) target barrier p <-> nearest (l ++ [r]) target barrier p.
Proof.
  intros l r target barrier p. split.
  - intros (near & far & E & T & N). destruct far as [|x far] using rev_ind.
    + apply app_inj_tail in E as [E <-]. exfalso. subst near. refine (proj1 (N r _) T). apply in_or_app. right. left. reflexivity.
    + clear IHfar. rewrite app_comm_cons, app_assoc in E. apply app_inj_tail in E as [E _]. exists near, far. auto.
  - intros (near & far & E & T & N). exists near, (far ++ [r]). split; [rewrite E, <- app_assoc; reflexivity|auto].
Qed.

Lemma tour_line : forall n above key e, In e (tour above n key) ->
  exists anc, e_above e = anc ++ above /\ line n anc (e_node e).
Proof.
  induction n as [ty a kids IH] using node_ind'. intros above key e H. rewrite tour_eq in H.
  destruct H as [<-|H]; [exists []; split; [reflexivity|constructor]|].
  apply in_app_or in H as [H|[<-|[]]]; [|exists []; split; [reflexivity|constructor]].
  unfold tour_kids in H. apply in_flat_map in H as ([k l] & Hp & H). cbn [fst snd] in H.
  assert (K : exists m key', In (Some m) l /\ In e (tour (Node ty a kids :: above) m key')).
  { revert H. clear. generalize 0%nat. induction l as [|o l IHl]; intros i H; [destruct H|]. cbn [tour_list] in H. apply in_app_or in H as [H|H].
    - destruct o as [m|]; [|destruct H]. exists m, (k, if indexed ty k then Some i else None). split; [left; reflexivity|exact H].
    - destruct (IHl _ H) as (m & key' & A & B). exists m, key'. split; [right; exact A|exact B]. }
  destruct K as (m & key' & Hm & He). destruct (IH _ Hp m Hm _ _ _ He) as (anc & E & L).
  exists (anc ++ [Node ty a kids]). split; [rewrite E, <- app_assoc; reflexivity|].
  assert (C : child_of (Node ty a kids) m) by (exists k, l; auto).
  revert L C. generalize (e_node e). generalize (Node ty a kids). clear. intros r x L C.
  induction L as [|anc p x L IH D]; [constructor; [constructor|exact C]|]. cbn [app]. constructor; [exact IH|exact D].
Qed.
