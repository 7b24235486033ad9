From Coq Require Import String.
From Verif Require Import Base TokenModel NodeModel WalkModel WalkSpec.
Set Default Proof Using "Type".

(** Induction over trees. *)
Definition kidP (P : node -> Prop) (p : string * list (option node)) : Prop :=
  forall m, In (Some m) (snd p) -> P m.
Lemma node_ind' : forall P : node -> Prop,
  (forall ty a kids, (forall p, In p kids -> kidP P p) -> P (Node ty a kids)) -> forall n, P n.
Proof.
  intros P H. fix IH 1. intros [ty a kids]. apply H.
  induction kids as [|[k l] r IHr]; intros p Hp; [destruct Hp|].
  destruct Hp as [<-|Hp]; [|exact (IHr p Hp)].
  unfold kidP. cbn [snd]. clear -IH. induction l as [|[x|] l IHl]; intros m Hm; [destruct Hm| |].
  - destruct Hm as [Hm|Hm]; [|exact (IHl m Hm)]. assert (E : x = m) by congruence. rewrite <- E. apply IH.
  - destruct Hm as [Hm|Hm]; [discriminate|exact (IHl m Hm)].
Qed.

Definition steps_of (c : child) : vstep := match c with Single k => VOne k | Several k => VMany k end.
Definition no_scope (l : list vstep) : list vstep := filter (fun v => match v with VScope => false | _ => true end) l.
(** What the visitor of a type does is what the grammar says. *)
Lemma faithful : forall ty kids g, grammar ty = Some g -> regular ty kids = true ->
  exists v, visitor ty = Some v /\ v_ev v = ty /\
    match v_steps v with None => g = [] | Some vs => no_scope vs = map steps_of g /\ g <> [] end.
Proof.
  intros ty kids g Hg Hr.
  destruct ty; cbn in Hg; try discriminate; injection Hg as <-; cbn in Hr; try discriminate;
    eexists; (split; [reflexivity|]); (split; [reflexivity|]); cbn; try reflexivity; (split; [reflexivity|discriminate]).
Qed.

Lemma grammar_nodup : forall ty g, grammar ty = Some g -> NoDup (map child_name g).
Proof.
  intros ty g Hg. destruct ty; cbn in Hg; try discriminate; injection Hg as <-; cbn;
    repeat (constructor; [cbn; intuition discriminate|]); constructor.
Qed.

Lemma fits_names : forall g kids, fits g kids = true -> map fst kids = map child_name g.
Proof.
  induction g as [|c g IH]; intros [|[k l] kids] H; cbn in H; try discriminate; [reflexivity|].
  apply andb_prop in H as [H H2]. apply andb_prop in H as [H _]. apply String.eqb_eq in H.
  cbn. rewrite (IH _ H2), H. reflexivity.
Qed.

Lemma indexed_several : forall ty g c, grammar ty = Some g -> In c g ->
  indexed ty (child_name c) = match c with Several _ => true | Single _ => false end.
Proof.
  intros ty g c Hg Hc. unfold indexed. rewrite Hg. pose proof (grammar_nodup _ _ Hg) as N. clear Hg.
  induction g as [|d g IH]; [destruct Hc|]. cbn in N. inversion N as [|x y Hx Hy]; subst.
  cbn [existsb]. destruct Hc as [->|Hc].
  - destruct c as [k|k]; cbn [child_name] in *.
    + apply not_true_is_false. intro E. apply existsb_exists in E as (d & Hd & E). destruct d as [k'|k']; [discriminate|].
      apply String.eqb_eq in E as ->. apply Hx. apply in_map_iff. exists (Several k'). tauto.
    + rewrite String.eqb_refl. reflexivity.
  - rewrite IH by assumption. destruct d as [k'|k']; cbn [child_name] in *; [reflexivity|].
    destruct (String.eqb_spec (child_name c) k') as [E|E]; [|reflexivity].
    exfalso. apply Hx. rewrite <- E. apply in_map. exact Hc.
Qed.

(** The part of a tour under a child. *)
Fixpoint tour_list (above : list node) (ix : bool) (k : string) (i : nat) (l : list (option node)) : list wevent :=
  match l with
  | [] => []
  | o :: r =>
      match o with Some m => tour above m (k, if ix then Some i else None) | None => [] end
      ++ tour_list above ix k (S i) r
  end.
Definition tour_kids (above : list node) (ty : nt) (kids : list (string * list (option node))) : list wevent :=
  flat_map (fun p => tour_list above (indexed ty (fst p)) (fst p) 0 (snd p)) kids.
Lemma tour_eq : forall above ty a kids key,
  tour above (Node ty a kids) key =
  mk_we (before_event ty) (Node ty a kids) key above
  :: tour_kids (Node ty a kids :: above) ty kids
  ++ [mk_we (after_event ty) (Node ty a kids) key above].
Proof.
  intros. cbn [tour]. f_equal. f_equal. apply flat_map_ext. intros [k l]. cbn [fst snd].
  generalize 0%nat. induction l as [|o l IH]; intros i; [reflexivity|]. cbn [tour_list]. rewrite <- IH. reflexivity.
Qed.

Section Run.
Context {U : Type}.
Variable lst : N -> list (handler U).

Definition clo (o : option node) : kid := match o with Some m => Some (visit lst m) | None => None end.
Definition clos (kids : list (string * list (option node))) : list (string * list kid) :=
  map (fun p => (fst p, map clo (snd p))) kids.
Lemma visit_eq : forall ty a kids key s,
  visit lst (Node ty a kids) key s =
  pop_vc (match visitor ty with
          | Some v => run_visitor lst (Node ty a kids) key v (clos kids) (push_vc (Node ty a kids) s)
          | None => push_vc (Node ty a kids) s
          end).
Proof.
  intros. cbn [visit].
  replace (map _ kids) with (clos kids); [reflexivity|].
  unfold clos. apply map_ext. intros [k l]. reflexivity.
Qed.

Lemma assoc_clos : forall kids k l, NoDup (map fst kids) -> In (k, l) kids -> assoc k (clos kids) = Some (map clo l).
Proof.
  induction kids as [|[k' l'] r IH]; intros k l N H; [destruct H|]. cbn in N. inversion N as [|x y Hx Hy]; subst.
  cbn. destruct H as [H|H].
  - injection H as -> ->. rewrite String.eqb_refl. reflexivity.
  - destruct (String.eqb_spec k k') as [->|_]; [|exact (IH _ _ Hy H)].
    exfalso. apply Hx. apply in_map_iff. exists (k', l). tauto.
Qed.
End Run.

Lemma all_nodes_eq : forall p ty a kids, all_nodes p (Node ty a kids) = true ->
  p ty kids = true /\ forall q m, In q kids -> In (Some m) (snd q) -> all_nodes p m = true.
Proof.
  intros p ty a kids H. cbn [all_nodes] in H. apply andb_prop in H as [H1 H2]. split; [exact H1|].
  intros [k l] m Hq Hm. rewrite forallb_forall in H2. specialize (H2 _ Hq). cbn in H2.
  rewrite forallb_forall in H2. exact (H2 _ Hm).
Qed.

(** ** Listeners that never stop *)
Section Full.
Context {U : Type}.
Variable lst : N -> list (handler U).
Hypothesis Hgo : forall ev f above sc n k u, In f (lst ev) -> snd (f above sc n k u) = false.
Hypothesis Hblind : forall ev f above sc sc' n k u, In f (lst ev) -> f above sc n k u = f above sc' n k u.

Definition fire (u : U) (e : wevent) : U :=
  fold_left (fun u (f : handler U) => fst (f (e_above e) 0%nat (e_node e) (e_key e) u)) (lst (e_num e)) u.

Lemma call_fire : forall ev n k s, w_stop s = false ->
  call_listener lst ev n k s = mk_w (fire (w_u s) (mk_we ev n k (tl (w_vc s)))) false (w_vc s) (w_scopes s) (w_seed s).
Proof using Hgo Hblind.
  intros ev n k s Hs. unfold call_listener, fire. cbn [e_above e_node e_key e_num].
  assert (K : forall f, In f (lst ev) -> In f (lst ev)) by auto. revert K. generalize (lst ev) at 1 3 4 as fs.
  intros fs. revert s Hs. induction fs as [|f fs IH]; intros s Hs K; cbn [call_all fold_left].
  - destruct s; cbn in *; rewrite Hs; reflexivity.
  - rewrite (Hblind ev f _ _ 0%nat) by (apply K; left; reflexivity).
    pose proof (Hgo ev f (tl (w_vc s)) 0%nat n k (w_u s) (K f (or_introl eq_refl))) as G.
    destruct (f (tl (w_vc s)) 0%nat n k (w_u s)) as [u b]. cbn [fst snd] in *. subst b. rewrite Hs. cbn [orb w_stop].
    rewrite IH; [reflexivity|reflexivity|]. intros g Hg. apply K. right. exact Hg.
Qed.

Definition good (s s' : wst U) (T : list wevent) : Prop :=
  w_u s' = fold_left fire T (w_u s) /\ w_stop s' = false /\ w_vc s' = w_vc s /\ w_scopes s' = w_scopes s.
Lemma good_trans : forall s s1 s2 T1 T2, good s s1 T1 -> good s1 s2 T2 -> good s s2 (T1 ++ T2).
Proof using Type.
  intros s s1 s2 T1 T2 (A1 & B1 & C1 & D1) (A2 & B2 & C2 & D2). unfold good.
  rewrite fold_left_app, <- A1. repeat split; congruence.
Qed.
Lemma good_nil : forall s, w_stop s = false -> good s s [].
Proof using Type. intros. repeat split; assumption. Qed.

Definition node_good (m : node) : Prop := forall key s, w_stop s = false -> good s (visit lst m key s) (tour (w_vc s) m key).

Lemma list_good : forall k l i s, w_stop s = false -> (forall m, In (Some m) l -> node_good m) ->
  good s (visit_list k i (map (clo lst) l) s) (tour_list (w_vc s) true k i l).
Proof using Type.
  induction l as [|o l IH]; intros i s Hs H; cbn [map visit_list tour_list]; [apply good_nil, Hs|].
  destruct o as [m|]; cbn [clo].
  - pose proof (H m (or_introl eq_refl) (k, Some i) s Hs) as G. destruct G as (A & B & C & D).
    rewrite B. apply good_trans with (s1 := visit lst m (k, Some i) s); [repeat split; assumption|].
    rewrite <- C. apply IH; [exact B|]. intros m' Hm'. apply H. right. exact Hm'.
  - rewrite Hs. cbn [app]. apply IH; [exact Hs|]. intros m' Hm'. apply H. right. exact Hm'.
Qed.

Lemma single_good : forall k l s, w_stop s = false -> List.length l = 1%nat -> (forall m, In (Some m) l -> node_good m) ->
  good s (match map (clo lst) l with Some f :: _ => f (k, None) s | _ => s end) (tour_list (w_vc s) false k 0 l).
Proof using Type.
  intros k [|o [|]] s Hs Hl H; try discriminate. cbn. destruct o as [m|]; cbn.
  - rewrite app_nil_r. apply H; [left; reflexivity|exact Hs].
  - apply good_nil, Hs.
Qed.

Lemma steps_good : forall n ty gg kids, grammar ty = Some gg -> fits gg kids = true ->
  (forall q m, In q kids -> In (Some m) (snd q) -> node_good m) ->
  forall vs g2 k2, no_scope vs = map steps_of g2 -> fits g2 k2 = true -> incl k2 kids -> incl g2 gg ->
  forall s, w_stop s = false -> good s (visit_steps n (clos lst kids) vs s) (tour_kids (w_vc s) ty k2).
Proof using Type.
  intros n ty gg kids Hgr Hf H. 
  assert (ND : NoDup (map fst kids)) by (rewrite (fits_names _ _ Hf); apply (grammar_nodup _ _ Hgr)).
  induction vs as [|v vs IH]; intros g2 k2 Hv Hf2 Hi Hg s Hs.
  - destruct g2 as [|c g2]; [|discriminate]. destruct k2 as [|[]]; [|discriminate]. apply good_nil, Hs.
  - destruct v as [|k|k]; cbn [visit_steps].
    + cbn in Hv. destruct (IH g2 k2 Hv Hf2 Hi Hg (push_scope n s)) as (A & B & C & D).
      { unfold push_scope. destruct (new_scope n); exact Hs. }
      unfold good, pop_scope, push_scope in *. destruct (new_scope n); cbn [w_u w_stop w_vc w_scopes tl] in *.
      * rewrite D. repeat split; assumption.
      * repeat split; assumption.
    + destruct g2 as [|c g2]; [discriminate|]. cbn in Hv. destruct c as [k'|k']; [|discriminate].
      cbn [steps_of] in Hv. injection Hv as -> Hv.
      destruct k2 as [|[k'' l] k2]; [discriminate|]. cbn in Hf2. apply andb_prop in Hf2 as [E Hf2].
      apply andb_prop in E as [E E2]. apply String.eqb_eq in E as <-. apply Nat.eqb_eq in E2.
      rewrite (assoc_clos _ _ _ _ ND (Hi _ (or_introl eq_refl))).
      pose proof (single_good k' l s Hs E2) as G.
      specialize (G (fun m => H (k', l) m (Hi _ (or_introl eq_refl)))).
      unfold tour_kids. cbn [flat_map fst snd].
      pose proof (indexed_several ty gg (Single k') Hgr (Hg _ (or_introl eq_refl))) as X. cbn [child_name] in X. rewrite X.
      set (s1 := match map (clo lst) l with Some f :: _ => f (k', None) s | _ => s end) in *.
      destruct G as (A & B & C & D). rewrite B.
      apply good_trans with (s1 := s1); [repeat split; assumption|]. rewrite <- C. apply IH with (g2 := g2); auto.
      * intros x Hx. apply Hi. right. exact Hx.
      * intros x Hx. apply Hg. right. exact Hx.
    + destruct g2 as [|c g2]; [discriminate|]. cbn in Hv. destruct c as [k'|k']; [discriminate|].
      cbn [steps_of] in Hv. injection Hv as -> Hv.
      destruct k2 as [|[k'' l] k2]; [discriminate|]. cbn in Hf2. apply andb_prop in Hf2 as [E Hf2].
      apply andb_prop in E as [E E2]. apply String.eqb_eq in E as <-.
      rewrite (assoc_clos _ _ _ _ ND (Hi _ (or_introl eq_refl))).
      pose proof (list_good k' l 0%nat s Hs) as G.
      specialize (G (fun m => H (k', l) m (Hi _ (or_introl eq_refl)))).
      unfold tour_kids. cbn [flat_map fst snd].
      pose proof (indexed_several ty gg (Several k') Hgr (Hg _ (or_introl eq_refl))) as X. cbn [child_name] in X. rewrite X.
      set (s1 := visit_list k' 0 (map (clo lst) l) s) in *.
      destruct G as (A & B & C & D). rewrite B.
      apply good_trans with (s1 := s1); [repeat split; assumption|]. rewrite <- C. apply IH with (g2 := g2); auto.
      * intros x Hx. apply Hi. right. exact Hx.
      * intros x Hx. apply Hg. right. exact Hx.
Qed.

Lemma call_good : forall ev n k s, w_stop s = false -> good s (call_listener lst ev n k s) [mk_we ev n k (tl (w_vc s))].
Proof using Hgo Hblind. intros. rewrite call_fire by assumption. repeat split. Qed.

Lemma visit_good : forall n, shaped n = true -> all_nodes regular n = true -> node_good n.
Proof using Hgo Hblind.
  induction n as [ty a kids IH] using node_ind'. intros Hsh Hre key s Hs.
  apply all_nodes_eq in Hsh as [Hf Hsh]. apply all_nodes_eq in Hre as [Hr Hre].
  destruct (grammar ty) as [g|] eqn:Hg; [|discriminate].
  assert (HK : forall q m, In q kids -> In (Some m) (snd q) -> node_good m).
  { intros q m Hq Hm. exact (IH q Hq m Hm (Hsh q m Hq Hm) (Hre q m Hq Hm)). }
  destruct (faithful ty kids g Hg Hr) as (v & Hv & He & Hst).
  rewrite visit_eq, Hv, tour_eq. set (n := Node ty a kids) in *.
  unfold run_visitor. rewrite He.
  destruct (v_steps v) as [vs|].
  - destruct Hst as [Hst Hne].
    assert (G : forall vs s, no_scope vs = map steps_of g -> w_stop s = false -> w_vc s = n :: tl (w_vc s) ->
      good s (call_listener lst (after_event ty) n key (visit_steps n (clos lst kids) vs (call_listener lst (before_event ty) n key s)))
        (mk_we (before_event ty) n key (tl (w_vc s)) :: tour_kids (w_vc s) ty kids ++ [mk_we (after_event ty) n key (tl (w_vc s))])).
    { clear s Hs. intros ws s Hw Hs Hvc.
      pose proof (call_good (before_event ty) n key s Hs) as G1. set (s1 := call_listener lst (before_event ty) n key s) in *.
      assert (B1 := proj1 (proj2 G1)). assert (C1 := proj1 (proj2 (proj2 G1))).
      pose proof (steps_good n ty g kids Hg Hf HK ws g kids Hw Hf (incl_refl _) (incl_refl _) s1 B1) as G2.
      set (s2 := visit_steps n (clos lst kids) ws s1) in *.
      assert (B2 := proj1 (proj2 G2)). assert (C2 := proj1 (proj2 (proj2 G2))).
      pose proof (call_good (after_event ty) n key s2 B2) as G3.
      rewrite C1 in G2. rewrite C2, C1 in G3.
      exact (good_trans _ _ _ _ _ G1 (good_trans _ _ _ _ _ G2 G3)). }
    destruct vs as [|[|k|k] r].
    + destruct (G [] (push_vc n s) Hst Hs eq_refl) as (A & B & C & D).
      unfold good, pop_vc in *. cbn [w_u w_stop w_vc w_scopes push_vc tl] in *. rewrite C. repeat split; assumption.
    + cbn in Hst. destruct (G r (push_scope n (push_vc n s)) Hst) as (A & B & C & D).
      * unfold push_scope. destruct (new_scope n); exact Hs.
      * unfold push_scope. destruct (new_scope n); reflexivity.
      * unfold good, pop_vc, pop_scope, push_scope in *.
        destruct (new_scope n); cbn [w_u w_stop w_vc w_scopes push_vc tl] in *; rewrite C; rewrite ?D; repeat split; assumption.
    + destruct (G (VOne k :: r) (push_vc n s) Hst Hs eq_refl) as (A & B & C & D).
      unfold good, pop_vc in *. cbn [w_u w_stop w_vc w_scopes push_vc tl] in *. rewrite C. repeat split; assumption.
    + destruct (G (VMany k :: r) (push_vc n s) Hst Hs eq_refl) as (A & B & C & D).
      unfold good, pop_vc in *. cbn [w_u w_stop w_vc w_scopes push_vc tl] in *. rewrite C. repeat split; assumption.
  - subst g. destruct kids as [|[]]; [|discriminate].
    pose proof (call_good (before_event ty) n key (push_vc n s) Hs) as G1.
    set (s1 := call_listener lst (before_event ty) n key (push_vc n s)) in *.
    assert (B1 := proj1 (proj2 G1)). assert (C1 := proj1 (proj2 (proj2 G1))).
    pose proof (call_good (after_event ty) n key s1 B1) as G3. rewrite C1 in G3.
    destruct (good_trans _ _ _ _ _ G1 G3) as (A & B & C & D).
    unfold good, pop_vc in *. cbn [w_u w_stop w_vc w_scopes push_vc tl] in *. rewrite C. repeat split; assumption.
Qed.
End Full.

(** ** Getters on trees without parentheses right inside parentheses *)
Lemma getters_id : forall n, all_nodes regular n = true -> getters n = n.
Proof.
  induction n as [ty a kids IH] using node_ind'. intros H. apply all_nodes_eq in H as [Hr H].
  cbn [getters].
  assert (E : map (fun p : string * list (option node) =>
                let (k, l) := p in (k, map (fun o => match o with Some m => Some (getters m) | None => None end) l)) kids = kids).
  { rewrite <- (map_id kids) at 2. apply map_ext_in. intros [k l] Hp. f_equal.
    rewrite <- (map_id l) at 2. apply map_ext_in. intros [m|] Hm; [|reflexivity]. f_equal.
    exact (IH _ Hp m Hm (H _ m Hp Hm)). }
  rewrite E. destruct ty; try reflexivity.
  destruct kids as [|[k [|[[ty' a' kids']|] [|]]] [|]]; try reflexivity; destruct ty'; try reflexivity;
    try (destruct kids' as [|[? [|[?|] [|]]] [|]]; reflexivity). discriminate Hr.
Qed.

(** ** A listener that may stop *)
Lemma all_nt_all : forall t, In t all_nt.
Proof.
  intros t. assert (E : existsb (nt_eqb t) all_nt = true) by (destruct t; vm_compute; reflexivity).
  apply existsb_exists in E as (x & Hx & E). apply nt_eqb_spec in E as ->; exact Hx.
Qed.
Lemma before_after : forall ty ty', before_event ty <> after_event ty'.
Proof.
  assert (E : forallb (fun a => forallb (fun b => negb (N.eqb (before_event a) (after_event b))) all_nt) all_nt = true) by (vm_compute; reflexivity).
  pose proof all_nt_all as A.
  intros ty ty' H. rewrite forallb_forall in E. specialize (E ty (A ty)). rewrite forallb_forall in E.
  specialize (E ty' (A ty')). rewrite H, N.eqb_refl in E. discriminate.
Qed.

Section Stop.
Variable stop : list wevent -> bool.
Notation rec := (record_all stop).

Definition entered (T : list wevent) : list node := map e_node (filter enters T).
Lemma entered_app : forall a b, entered (a ++ b) = entered a ++ entered b.
Proof using Type. intros. unfold entered. rewrite filter_app, map_app. reflexivity. Qed.
Lemma entered_after : forall n k ab, entered [mk_we (after_event (n_ty n)) n k ab] = [].
Proof using Type.
  intros. unfold entered. cbn [filter map]. unfold enters. cbn [e_num e_node].
  destruct (N.eqb_spec (after_event (n_ty n)) (before_event (n_ty n))) as [E|E]; [|reflexivity].
  symmetry in E. destruct (before_after _ _ E).
Qed.
Lemma entered_before : forall n k ab, entered [mk_we (before_event (n_ty n)) n k ab] = [n].
Proof using Type. intros. unfold entered. cbn [filter map]. unfold enters. cbn [e_num e_node]. rewrite N.eqb_refl. reflexivity. Qed.

Lemma call_rec : forall ev n k s,
  call_listener rec ev n k s =
  mk_w (w_u s ++ [mk_we ev n k (tl (w_vc s))]) (w_stop s || stop (w_u s ++ [mk_we ev n k (tl (w_vc s))]))%bool
       (w_vc s) (w_scopes s) (w_seed s).
Proof using Type.
  intros. unfold call_listener, record_all. cbn [call_all recorder]. destruct (w_stop s || _)%bool; reflexivity.
Qed.

Definition same (s s' : wst (list wevent)) : Prop := w_vc s' = w_vc s /\ w_scopes s' = w_scopes s.
(** Events that came after a stop was asked for. *)
Definition drained (s s' : wst (list wevent)) (l : list node) : Prop :=
  exists D, w_u s' = w_u s ++ D /\ w_stop s' = true /\ entered D = l /\ same s s'.
(** Events of a part [T] of the tour. *)
Definition run (s s' : wst (list wevent)) (T : list wevent) : Prop :=
  same s s' /\
  ((w_u s' = w_u s ++ T /\ w_stop s' = false /\ (forall a b c, T = a ++ b :: c -> stop (w_u s ++ a ++ [b]) = false)) \/
   (exists a b c D, T = a ++ b :: c /\ w_u s' = w_u s ++ a ++ b :: D /\ w_stop s' = true /\
      stop (w_u s ++ a ++ [b]) = true /\ (forall a1 b1 c1, a = a1 ++ b1 :: c1 -> stop (w_u s ++ a1 ++ [b1]) = false) /\
      entered D = if enters b then first_line (e_node b) else [])).

Lemma run_nil : forall s, w_stop s = false -> run s s [].
Proof using Type.
  intros s Hs. split; [split; reflexivity|]. left. rewrite app_nil_r. repeat split; [exact Hs|].
  intros [|] b c E; discriminate.
Qed.

Lemma app_split : forall {A} (T1 T2 a : list A) b c, T1 ++ T2 = a ++ b :: c ->
  (exists c1, T1 = a ++ b :: c1 /\ c = c1 ++ T2) \/ (exists a2, a = T1 ++ a2 /\ T2 = a2 ++ b :: c).
Proof.
  induction T1 as [|x T1 IH]; intros T2 a b c H.
  - right. exists a. split; [reflexivity|exact H].
  - destruct a as [|y a]; cbn in H.
    + injection H as <- <-. left. exists T1. split; reflexivity.
    + injection H as <- H. destruct (IH _ _ _ _ H) as [(c1 & -> & ->)|(a2 & -> & ->)].
      * left. exists c1. split; reflexivity.
      * right. exists a2. split; reflexivity.
Qed.

Lemma run_trans : forall s s1 s2 T1 T2, run s s1 T1 ->
  (w_stop s1 = false -> run s1 s2 T2) -> (w_stop s1 = true -> drained s1 s2 []) -> run s s2 (T1 ++ T2).
Proof using Type.
  intros s s1 s2 T1 T2 [Sm H] Hf Ht. destruct H as [(A & B & C)|(a & b & c & D & E & A & B & C & F & G)].
  - destruct (Hf B) as [Sm2 [(A2 & B2 & C2)|(a & b & c & D & E & A2 & B2 & C2 & F & G)]].
    + split; [unfold same in *; destruct Sm, Sm2; split; congruence|]. left.
      rewrite A2, A, <- app_assoc. repeat split; [exact B2|].
      intros x b c E. destruct (app_split _ _ _ _ _ E) as [(c1 & E1 & _)|(a2 & E1 & E2)].
      * exact (C _ _ _ E1).
      * rewrite E1, <- app_assoc, app_assoc, <- A. exact (C2 _ _ _ E2).
    + split; [unfold same in *; destruct Sm, Sm2; split; congruence|]. right.
      exists (T1 ++ a), b, c, D. rewrite E, A2, A, <- !app_assoc. repeat split; auto.
      * rewrite <- C2, A, <- app_assoc. reflexivity.
      * intros a1 b1 c1 E1. destruct (app_split _ _ _ _ _ E1) as [(c2 & E2 & _)|(a2 & E2 & E3)].
        -- exact (C _ _ _ E2).
        -- rewrite E2, <- app_assoc, app_assoc, <- A. exact (F _ _ _ E3).
  - destruct (Ht B) as (D2 & A2 & B2 & E2 & Sm2).
    split; [unfold same in *; destruct Sm, Sm2; split; congruence|]. right.
    exists a, b, (c ++ T2), (D ++ D2). rewrite E, A2, A, <- !app_assoc. cbn [app]. repeat split; auto.
    rewrite entered_app, E2, app_nil_r. exact G.
Qed.

Lemma drained_trans : forall s s1 s2 l1 l2, drained s s1 l1 -> drained s1 s2 l2 -> drained s s2 (l1 ++ l2).
Proof using Type.
  intros s s1 s2 l1 l2 (D & A & B & C & Sm) (D2 & A2 & B2 & C2 & Sm2). exists (D ++ D2).
  rewrite A2, A, <- app_assoc, entered_app. repeat split; try congruence; destruct Sm, Sm2; congruence.
Qed.
Lemma drained_nil : forall s, w_stop s = true -> drained s s [].
Proof using Type. intros s Hs. exists []. rewrite app_nil_r. repeat split; assumption. Qed.

Definition node_run (m : node) : Prop :=
  (forall key s, w_stop s = false -> run s (visit rec m key s) (tour (w_vc s) m key)) /\
  (forall key s, w_stop s = true -> drained s (visit rec m key s) (m :: first_line m)).

Lemma list_run : forall k l i s, w_stop s = false -> (forall m, In (Some m) l -> node_run m) ->
  run s (visit_list k i (map (clo rec) l) s) (tour_list (w_vc s) true k i l).
Proof using Type.
  induction l as [|o l IH]; intros i s Hs H; cbn [map visit_list tour_list]; [apply run_nil, Hs|].
  destruct o as [m|]; cbn [clo].
  - pose proof (proj1 (H m (or_introl eq_refl)) (k, Some i) s Hs) as G.
    apply run_trans with (s1 := visit rec m (k, Some i) s); [exact G| |]; intro E; rewrite E.
    + destruct G as [[C _] _]. rewrite <- C. apply IH; [exact E|]. intros m' Hm'. apply H. right. exact Hm'.
    + apply drained_nil, E.
  - rewrite Hs. cbn [app]. apply IH; [exact Hs|]. intros m' Hm'. apply H. right. exact Hm'.
Qed.
Lemma list_drain : forall k l i s, w_stop s = true -> (forall m, In (Some m) l -> node_run m) ->
  drained s (visit_list k i (map (clo rec) l) s) (match l with Some m :: _ => m :: first_line m | _ => [] end).
Proof using Type.
  intros k [|o l] i s Hs H; cbn [map visit_list]; [apply drained_nil, Hs|].
  destruct o as [m|]; cbn [clo].
  - pose proof (proj2 (H m (or_introl eq_refl)) (k, Some i) s Hs) as G.
    destruct G as (D & A & B & C). rewrite B. exists D. auto.
  - rewrite Hs. apply drained_nil, Hs.
Qed.

Lemma single_run : forall k l s, w_stop s = false -> List.length l = 1%nat -> (forall m, In (Some m) l -> node_run m) ->
  run s (match map (clo rec) l with Some f :: _ => f (k, None) s | _ => s end) (tour_list (w_vc s) false k 0 l).
Proof using Type.
  intros k [|o [|]] s Hs Hl H; try discriminate. cbn. destruct o as [m|]; cbn.
  - rewrite app_nil_r. apply (proj1 (H m (or_introl eq_refl))). exact Hs.
  - apply run_nil, Hs.
Qed.
Lemma single_drain : forall k l s, w_stop s = true -> (forall m, In (Some m) l -> node_run m) ->
  drained s (match map (clo rec) l with Some f :: _ => f (k, None) s | _ => s end)
    (match l with Some m :: _ => m :: first_line m | _ => [] end).
Proof using Type.
  intros k [|[m|] l] s Hs H; cbn; try (apply drained_nil, Hs). apply (proj2 (H m (or_introl eq_refl))). exact Hs.
Qed.

Definition first_of (kids : list (string * list (option node))) : list node :=
  match kids with (_, Some m :: _) :: _ => m :: first_line m | _ => [] end.

Lemma scope_same : forall n s s', same (push_scope n s) s' -> same s (pop_scope n s').
Proof using Type.
  intros n s s' [A B]. unfold same, push_scope, pop_scope in *. destruct (new_scope n); cbn in *; split; try assumption.
  rewrite B. reflexivity.
Qed.
Lemma scope_run : forall n s s' T, run (push_scope n s) s' T -> run s (pop_scope n s') T.
Proof using Type.
  intros n s s' T [Sm H]. split; [apply scope_same, Sm|].
  assert (E1 : w_u (push_scope n s) = w_u s) by (unfold push_scope; destruct (new_scope n); reflexivity).
  assert (E2 : w_u (pop_scope n s') = w_u s') by (unfold pop_scope; destruct (new_scope n); reflexivity).
  assert (E3 : w_stop (pop_scope n s') = w_stop s') by (unfold pop_scope; destruct (new_scope n); reflexivity).
  rewrite E1 in H. rewrite E2, E3. exact H.
Qed.
Lemma scope_drained : forall n s s' T, drained (push_scope n s) s' T -> drained s (pop_scope n s') T.
Proof using Type.
  intros n s s' T (D & A & B & C & Sm). exists D.
  assert (E1 : w_u (push_scope n s) = w_u s) by (unfold push_scope; destruct (new_scope n); reflexivity).
  assert (E2 : w_u (pop_scope n s') = w_u s') by (unfold pop_scope; destruct (new_scope n); reflexivity).
  assert (E3 : w_stop (pop_scope n s') = w_stop s') by (unfold pop_scope; destruct (new_scope n); reflexivity).
  rewrite E1 in A. rewrite E2, E3. repeat split; auto; apply (scope_same _ _ _ Sm).
Qed.
Lemma push_scope_stop : forall n (s : wst (list wevent)), w_stop (push_scope n s) = w_stop s.
Proof using Type. intros. unfold push_scope. destruct (new_scope n); reflexivity. Qed.
Lemma push_scope_vc : forall n (s : wst (list wevent)), w_vc (push_scope n s) = w_vc s.
Proof using Type. intros. unfold push_scope. destruct (new_scope n); reflexivity. Qed.

Lemma steps_run : forall n ty gg kids, grammar ty = Some gg -> fits gg kids = true ->
  (forall q m, In q kids -> In (Some m) (snd q) -> node_run m) ->
  forall vs g2 k2, no_scope vs = map steps_of g2 -> fits g2 k2 = true -> incl k2 kids -> incl g2 gg ->
  forall s, (w_stop s = false -> run s (visit_steps n (clos rec kids) vs s) (tour_kids (w_vc s) ty k2)) /\
            (w_stop s = true -> drained s (visit_steps n (clos rec kids) vs s) (first_of k2)).
Proof using Type.
  intros n ty gg kids Hgr Hf H.
  assert (ND : NoDup (map fst kids)) by (rewrite (fits_names _ _ Hf); apply (grammar_nodup _ _ Hgr)).
  induction vs as [|v vs IH]; intros g2 k2 Hv Hf2 Hi Hg s.
  - destruct g2 as [|c g2]; [|discriminate]. destruct k2 as [|[]]; [|discriminate].
    split; intro Hs; [apply run_nil, Hs|apply drained_nil, Hs].
  - destruct v as [|k|k]; cbn [visit_steps].
    + cbn in Hv. destruct (IH g2 k2 Hv Hf2 Hi Hg (push_scope n s)) as [I1 I2].
      rewrite push_scope_stop in I1, I2. rewrite push_scope_vc in I1.
      split; intro Hs; [apply scope_run, I1, Hs|apply scope_drained, I2, Hs].
    + destruct g2 as [|c g2]; [discriminate|]. cbn in Hv. destruct c as [k'|k']; [|discriminate].
      cbn [steps_of] in Hv. injection Hv as -> Hv.
      destruct k2 as [|[k'' l] k2]; [discriminate|]. cbn in Hf2. apply andb_prop in Hf2 as [E Hf2].
      apply andb_prop in E as [E E2]. apply String.eqb_eq in E as <-. apply Nat.eqb_eq in E2.
      rewrite (assoc_clos _ _ _ _ ND (Hi _ (or_introl eq_refl))).
      pose proof (fun Hs => single_run k' l s Hs E2 (fun m => H (k', l) m (Hi _ (or_introl eq_refl)))) as G1.
      pose proof (fun Hs => single_drain k' l s Hs (fun m => H (k', l) m (Hi _ (or_introl eq_refl)))) as G2.
      unfold tour_kids. cbn [flat_map fst snd first_of].
      pose proof (indexed_several ty gg (Single k') Hgr (Hg _ (or_introl eq_refl))) as X. cbn [child_name] in X. rewrite X.
      set (s1 := match map (clo rec) l with Some f :: _ => f (k', None) s | _ => s end) in *.
      split; intro Hs.
      * specialize (G1 Hs). apply run_trans with (s1 := s1); [exact G1| |]; intro Q; rewrite Q.
        -- destruct G1 as [[C _] _]. rewrite <- C.
           apply IH with (g2 := g2); auto; intros x Hx; [apply Hi|apply Hg]; right; exact Hx.
        -- apply drained_nil, Q.
      * specialize (G2 Hs). destruct G2 as (D & A & B & C). rewrite B. exists D. auto.
    + destruct g2 as [|c g2]; [discriminate|]. cbn in Hv. destruct c as [k'|k']; [discriminate|].
      cbn [steps_of] in Hv. injection Hv as -> Hv.
      destruct k2 as [|[k'' l] k2]; [discriminate|]. cbn in Hf2. apply andb_prop in Hf2 as [E Hf2].
      apply andb_prop in E as [E E2]. apply String.eqb_eq in E as <-.
      rewrite (assoc_clos _ _ _ _ ND (Hi _ (or_introl eq_refl))).
      pose proof (fun Hs => list_run k' l 0%nat s Hs (fun m => H (k', l) m (Hi _ (or_introl eq_refl)))) as G1.
      pose proof (fun Hs => list_drain k' l 0%nat s Hs (fun m => H (k', l) m (Hi _ (or_introl eq_refl)))) as G2.
      unfold tour_kids. cbn [flat_map fst snd first_of].
      pose proof (indexed_several ty gg (Several k') Hgr (Hg _ (or_introl eq_refl))) as X. cbn [child_name] in X. rewrite X.
      set (s1 := visit_list k' 0 (map (clo rec) l) s) in *.
      split; intro Hs.
      * specialize (G1 Hs). apply run_trans with (s1 := s1); [exact G1| |]; intro Q; rewrite Q.
        -- destruct G1 as [[C _] _]. rewrite <- C.
           apply IH with (g2 := g2); auto; intros x Hx; [apply Hi|apply Hg]; right; exact Hx.
        -- apply drained_nil, Q.
      * specialize (G2 Hs). destruct G2 as (D & A & B & C). rewrite B. exists D. auto.
Qed.

Lemma after_run : forall n k s, w_stop s = false -> run s (call_listener rec (after_event (n_ty n)) n k s) [mk_we (after_event (n_ty n)) n k (tl (w_vc s))].
Proof using Type.
  intros n k s Hs. rewrite call_rec, Hs. cbn [orb]. set (e := mk_we _ _ _ _). split; [split; reflexivity|].
  destruct (stop (w_u s ++ [e])) eqn:E; cbn [w_u w_stop].
  - right. exists [], e, [], []. repeat split; auto.
    + intros [|] b1 c1 Q; discriminate.
    + unfold e. pose proof (entered_after n k (tl (w_vc s))) as X. unfold entered in X. cbn [filter] in X.
      destruct (enters _); [discriminate|reflexivity].
  - left. repeat split. intros [|x a] b c Q; injection Q as Q1 Q2; [|destruct a; discriminate]. subst b. exact E.
Qed.
Lemma after_drain : forall n k s, w_stop s = true -> drained s (call_listener rec (after_event (n_ty n)) n k s) [].
Proof using Type.
  intros n k s Hs. rewrite call_rec, Hs. cbn [orb]. exists [mk_we (after_event (n_ty n)) n k (tl (w_vc s))].
  repeat split. apply entered_after.
Qed.
Lemma before_drain : forall n k s, w_stop s = true -> drained s (call_listener rec (before_event (n_ty n)) n k s) [n].
Proof using Type.
  intros n k s Hs. rewrite call_rec, Hs. cbn [orb]. exists [mk_we (before_event (n_ty n)) n k (tl (w_vc s))].
  repeat split. apply entered_before.
Qed.
(** Before the children: a stop asked for here still lets [l] be entered. *)
Lemma before_run : forall n k s s2 T, w_stop s = false ->
  let s1 := call_listener rec (before_event (n_ty n)) n k s in
  (w_stop s1 = false -> run s1 s2 T) -> (w_stop s1 = true -> drained s1 s2 (first_line n)) ->
  run s s2 (mk_we (before_event (n_ty n)) n k (tl (w_vc s)) :: T).
Proof using Type.
  intros n k s s2 T Hs. cbv zeta. rewrite call_rec, Hs. cbn [orb w_stop]. set (e := mk_we _ _ _ _). intros H1 H2.
  destruct (stop (w_u s ++ [e])) eqn:E.
  - destruct (H2 eq_refl) as (D & A & B & C & Sm). split; [exact Sm|]. right.
    exists [], e, T, D. cbn [w_u] in A. rewrite A, <- app_assoc. repeat split; auto.
    + intros [|] b1 c1 Q; discriminate.
    + pose proof (entered_before n k (tl (w_vc s))) as X. unfold entered in X at 1. cbn [filter] in X. fold e in X.
      destruct (enters e); [exact C|discriminate].
  - change (e :: T) with ([e] ++ T). eapply run_trans; [|intros _; exact (H1 eq_refl)|].
    + split; [split; reflexivity|]. left. cbn [w_u w_stop]. repeat split.
      intros [|x a] b c Q; injection Q as Q1 Q2; [|destruct a; discriminate]. subst b. exact E.
    + discriminate.
Qed.

Lemma first_of_line : forall ty a kids, first_of kids = first_line (Node ty a kids).
Proof using Type. intros. destruct kids as [|[k [|[m|] l]] r]; reflexivity. Qed.

Lemma visit_run : forall n, shaped n = true -> all_nodes regular n = true -> node_run n.
Proof using Type.
  induction n as [ty a kids IH] using node_ind'. intros Hsh Hre.
  apply all_nodes_eq in Hsh as [Hf Hsh]. apply all_nodes_eq in Hre as [Hr Hre].
  destruct (grammar ty) as [g|] eqn:Hg; [|discriminate].
  assert (HK : forall q m, In q kids -> In (Some m) (snd q) -> node_run m).
  { intros q m Hq Hm. exact (IH q Hq m Hm (Hsh q m Hq Hm) (Hre q m Hq Hm)). }
  destruct (faithful ty kids g Hg Hr) as (v & Hv & He & Hst).
  set (n := Node ty a kids) in *.
  (* the visitor under the pushed context *)
  assert (V : forall key s, w_vc s = n :: tl (w_vc s) ->
     (w_stop s = false -> run s (run_visitor rec n key v (clos rec kids) s) (tour (tl (w_vc s)) n key)) /\
     (w_stop s = true -> drained s (run_visitor rec n key v (clos rec kids) s) (n :: first_line n))).
  { intros key s Hvc.
    assert (G : forall vs s, no_scope vs = map steps_of g -> w_vc s = n :: tl (w_vc s) ->
      let s' := call_listener rec (after_event ty) n key (visit_steps n (clos rec kids) vs (call_listener rec (before_event ty) n key s)) in
      (w_stop s = false -> run s s' (tour (tl (w_vc s)) n key)) /\ (w_stop s = true -> drained s s' (n :: first_line n))).
    { clear s Hvc. intros ws s Hw Hvc s'.
      destruct (steps_run n ty g kids Hg Hf HK ws g kids Hw Hf (incl_refl _) (incl_refl _)
                  (call_listener rec (before_event ty) n key s)) as [I1 I2].
      rewrite (first_of_line ty a kids) in I2. fold n in I2.
      rewrite (eq_refl : tour (tl (w_vc s)) n key = tour (tl (w_vc s)) (Node ty a kids) key), tour_eq. fold n.
      change ty with (n_ty n) in s' |- *.
      split; intro Hs.
      - apply before_run; [exact Hs| |]; cbv zeta; intro Q.
        + specialize (I1 Q).
          apply run_trans with (s1 := visit_steps n (clos rec kids) ws (call_listener rec (before_event (n_ty n)) n key s)).
          * replace (w_vc (call_listener rec (before_event ty) n key s)) with (n :: tl (w_vc s)) in I1
              by (rewrite call_rec; cbn [w_vc]; symmetry; exact Hvc). exact I1.
          * intro Q2. destruct I1 as [[C _] _].
            assert (C1 : w_vc (visit_steps n (clos rec kids) ws (call_listener rec (before_event (n_ty n)) n key s)) = w_vc s)
              by (etransitivity; [exact C|rewrite call_rec; reflexivity]).
            pose proof (after_run n key _ Q2) as R. rewrite C1 in R. exact R.
          * intro Q2. apply after_drain, Q2.
        + specialize (I2 Q). rewrite <- (app_nil_r (first_line n)). eapply drained_trans; [exact I2|].
          apply after_drain. destruct I2 as (D & A & B & C). exact B.
      - change (n :: first_line n) with ([n] ++ first_line n). eapply drained_trans; [apply before_drain, Hs|].
        assert (Q : w_stop (call_listener rec (before_event (n_ty n)) n key s) = true) by (rewrite call_rec; cbn [w_stop]; rewrite Hs; reflexivity).
        specialize (I2 Q). rewrite <- (app_nil_r (first_line n)). eapply drained_trans; [exact I2|].
        apply after_drain. destruct I2 as (D & A & B & C). exact B. }
    unfold run_visitor. rewrite He. destruct (v_steps v) as [vs|].
    - destruct Hst as [Hst Hne]. destruct vs as [|[|k|k] r].
      + exact (G [] s Hst Hvc).
      + cbn in Hst. destruct (G r (push_scope n s) Hst) as [I1 I2].
        * rewrite push_scope_vc. exact Hvc.
        * rewrite push_scope_stop in I1, I2. rewrite push_scope_vc in I1.
          split; intro Hs; [apply scope_run, I1, Hs|apply scope_drained, I2, Hs].
      + exact (G (VOne k :: r) s Hst Hvc).
      + exact (G (VMany k :: r) s Hst Hvc).
    - subst g. exact (G [] s eq_refl Hvc). }
  assert (P : forall key s, let s' := visit rec n key s in
     w_u s' = w_u (run_visitor rec n key v (clos rec kids) (push_vc n s)) /\
     w_stop s' = w_stop (run_visitor rec n key v (clos rec kids) (push_vc n s)) /\
     (same (push_vc n s) (run_visitor rec n key v (clos rec kids) (push_vc n s)) -> same s s')).
  { intros key s s'. unfold s', n. rewrite visit_eq, Hv. repeat split; destruct H as [A B]; unfold pop_vc; cbn [w_vc w_scopes].
    - fold n. fold n in A. rewrite A. reflexivity.
    - exact B. }
  split; intros key s Hs; destruct (P key s) as (P1 & P2 & P3); destruct (V key (push_vc n s) eq_refl) as [V1 V2].
  - destruct (V1 Hs) as [Sm H]. split; [exact (P3 Sm)|]. rewrite P1, P2. exact H.
  - destruct (V2 Hs) as (D & A & B & C & Sm). exists D. rewrite P1, P2. auto.
Qed.
End Stop.

(** ** Nodes of a tour *)
Lemma nodes_eq : forall ty a kids, nodes (Node ty a kids) =
  Node ty a kids :: flat_map (fun p => flat_map (fun o => match o with Some m => nodes m | None => [] end) (snd p)) kids.
Proof. intros. cbn [nodes]. f_equal. apply flat_map_ext. intros []. reflexivity. Qed.
Lemma entered_tour : forall n above key, entered (tour above n key) = nodes n.
Proof.
  induction n as [ty a kids IH] using node_ind'. intros above key. rewrite tour_eq, nodes_eq.
  set (n := Node ty a kids) at 1 2 3 4.
  change (mk_we (before_event ty) n key above :: tour_kids (n :: above) ty kids ++ [mk_we (after_event ty) n key above])
    with ([mk_we (before_event (n_ty n)) n key above] ++ tour_kids (n :: above) ty kids ++ [mk_we (after_event (n_ty n)) n key above]).
  rewrite !entered_app, entered_before, entered_after, app_nil_r. cbn [app]. f_equal.
  generalize (n :: above). intros ab. unfold tour_kids. clear n.
  induction kids as [|[k l] r IHr]; [reflexivity|]. cbn [flat_map fst snd]. rewrite entered_app.
  f_equal; [|apply IHr; intros p Hp; apply IH; right; exact Hp].
  assert (K : forall m, In (Some m) l -> forall above key, entered (tour above m key) = nodes m)
    by (intros m Hm; exact (IH (k, l) (or_introl eq_refl) m Hm)).
  clear -K. generalize 0%nat. induction l as [|o l IHl]; intros i; [reflexivity|]. cbn [tour_list flat_map].
  rewrite entered_app, IHl by (intros m Hm; apply K; right; exact Hm). f_equal.
  destruct o as [m|]; [|reflexivity]. apply K. left. reflexivity.
Qed.

Lemma event_inj : forall t1 t2,
  (before_event t1 = before_event t2 -> t1 = t2) /\ (after_event t1 = after_event t2 -> t1 = t2).
Proof.
  assert (E : forallb (fun a => forallb (fun b => (nt_eqb a b || negb (N.eqb (before_event a) (before_event b)))
      && (nt_eqb a b || negb (N.eqb (after_event a) (after_event b))))%bool all_nt) all_nt = true) by (vm_compute; reflexivity).
  pose proof all_nt_all as A.
  intros a b. rewrite forallb_forall in E. specialize (E a (A a)). rewrite forallb_forall in E.
  specialize (E b (A b)). apply andb_prop in E as [E1 E2].
  split; intro H; [rewrite H, N.eqb_refl, orb_false_r in E1; apply nt_eqb_spec; assumption|].
  rewrite H, N.eqb_refl, orb_false_r in E2; apply nt_eqb_spec; assumption.
Qed.

Lemma tour_num : forall n above key e, In e (tour above n key) ->
  e_num e = before_event (n_ty (e_node e)) \/ e_num e = after_event (n_ty (e_node e)).
Proof.
  induction n as [ty a kids IH] using node_ind'. intros above key e. rewrite tour_eq.
  intros [<-|H]; [left; reflexivity|]. apply in_app_or in H as [H|[<-|[]]]; [|right; reflexivity].
  unfold tour_kids in H. apply in_flat_map in H as ([k l] & Hp & H). cbn [fst snd] in H.
  assert (K := fun m Hm => IH (k, l) Hp m Hm). revert H K. clear. generalize 0%nat.
  induction l as [|o l IHl]; intros i H K; [destruct H|]. cbn [tour_list] in H. apply in_app_or in H as [H|H].
  - destruct o as [m|]; [|destruct H]. exact (K m (or_introl eq_refl) _ _ _ H).
  - exact (IHl _ H (fun m Hm => K m (or_intror Hm))).
Qed.
Lemma heard : forall t l, (forall e, In e l -> e_num e = before_event (n_ty (e_node e)) \/ e_num e = after_event (n_ty (e_node e))) ->
  filter (fun e => N.eqb (e_num e) (before_event t)) l = filter (fun e => nt_eqb (n_ty (e_node e)) t) (filter enters l).
Proof.
  induction l as [|e l IH]; intros H; [reflexivity|]. cbn [filter]. specialize (IH (fun x Hx => H x (or_intror Hx))).
  change (enters e) with (N.eqb (e_num e) (before_event (n_ty (e_node e)))). destruct (H e (or_introl eq_refl)) as [E|E].
  - rewrite E, N.eqb_refl. cbn [filter].
    destruct (N.eqb_spec (before_event (n_ty (e_node e))) (before_event t)) as [Q|Q].
    + apply event_inj in Q. rewrite Q. rewrite (proj2 (nt_eqb_spec t t) eq_refl). f_equal. exact IH.
    + destruct (nt_eqb (n_ty (e_node e)) t) eqn:X; [|exact IH]. apply nt_eqb_spec in X. rewrite X in Q. contradiction.
  - rewrite E. destruct (N.eqb_spec (after_event (n_ty (e_node e))) (before_event t)) as [Q|_]; [symmetry in Q; destruct (before_after _ _ Q)|].
    destruct (N.eqb_spec (after_event (n_ty (e_node e))) (before_event (n_ty (e_node e)))) as [Q|_]; [symmetry in Q; destruct (before_after _ _ Q)|].
    exact IH.
Qed.
