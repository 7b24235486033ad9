(** Proofs about the table of scopes and the marks of scopes. *)
From Coq Require Import ZifyBool ZifyNat ZifyN.
From Verif Require Import Base SymtabModel SymtabSpec SymtabProofs.

(** * The table *)
(** What an operation leaves alone. *)
Lemma step_keeps : forall o t t' l, chain t (t_cur t) l -> step o t = Ok t' ->
  length (t_heap t) <= length (t_heap t') /\ t_seed t <= t_seed t' /\
  forall q, q < length (t_heap t) -> sc_id (sc t' q) = sc_id (sc t q) /\ sc_up (sc t' q) = sc_up (sc t q).
Proof.
  intros o t t' l C E. assert (L : t_cur t < length (t_heap t)) by (destruct C; assumption).
  assert (K : forall k q, q < length (t_heap t) ->
     sc_id (sc (upd t (t_cur t) (set_kind (sc t (t_cur t)) k)) q) = sc_id (sc t q)
     /\ sc_up (sc (upd t (t_cur t) (set_kind (sc t (t_cur t)) k)) q) = sc_up (sc t q)).
  { intros k q Q. destruct (Nat.eq_dec (t_cur t) q) as [<-|D].
    - rewrite sc_upd_same by exact L. split; reflexivity.
    - rewrite sc_upd_other by exact D. split; reflexivity. }
  destruct o as [fn ar se| |k|k|n b typ tag dup]; cbn [step] in E.
  - inversion E; subst t'; clear E. split; [cbn; rewrite app_length, put_at_length; lia|].
    split; [cbn; destruct se; lia|]. intros q Q. destruct (enter_sc t fn ar se q L Q) as [B _].
    apply bare_up in B. tauto.
  - destruct (leave_scope t) as [u|] eqn:V; [|discriminate]. inversion E; subst u; clear E.
    unfold leave_scope in V. destruct (sc_up (cur t)); [|discriminate]. inversion V; subst. cbn. repeat split; lia.
  - inversion E; subst t'; clear E. unfold add_kind. split; [cbn; rewrite put_at_length; lia|]. split; [cbn; lia|apply K].
  - inversion E; subst t'; clear E. unfold erase_kind. split; [cbn; rewrite put_at_length; lia|]. split; [cbn; lia|apply K].
  - destruct (add_local t (t_cur t) (mk_ref tag b typ None) n dup) as [[[] u]|] eqn:V; try discriminate.
    inversion E; subst u; clear E.
    destruct (add_local_effect _ _ _ _ _ _ C V) as (st' & _ & _ & _ & _ & _ & Sd & Ln & I).
    rewrite Sd, Ln. repeat split; try lia; apply I; assumption.
Qed.

Lemma run_keeps : forall ops t t' l, chain t (t_cur t) l -> run ops t = Ok t' ->
  length (t_heap t) <= length (t_heap t') /\ t_seed t <= t_seed t' /\
  forall q, q < length (t_heap t) -> sc_id (sc t' q) = sc_id (sc t q) /\ sc_up (sc t' q) = sc_up (sc t q).
Proof.
  induction ops as [|o ops IH]; intros t t' l C E; cbn [run] in E.
  - inversion E; subst. repeat split; lia.
  - destruct (step o t) as [u| |] eqn:S; try discriminate.
    destruct (step_keeps _ _ _ _ C S) as (A1 & A2 & A3). destruct (step_stack _ _ _ _ C S) as (l1 & C1 & _).
    destruct (IH _ _ _ C1 E) as (B1 & B2 & B3). split; [lia|]. split; [lia|].
    intros q Q. destruct (B3 q ltac:(lia)) as [X Y]. destruct (A3 q Q) as [Z W]. split; congruence.
Qed.

(** Ids are bounded by the seed. *)
Definition bounded (t : tab) : Prop := forall q, q < length (t_heap t) -> sc_id (sc t q) <= t_seed t.
Lemma bounded_step : forall o t t' l, chain t (t_cur t) l -> bounded t -> step o t = Ok t' -> bounded t'.
Proof.
  intros o t t' l C B E q Q. destruct (step_keeps _ _ _ _ C E) as (A1 & A2 & A3).
  destruct (Nat.lt_ge_cases q (length (t_heap t))) as [L|L].
  - destruct (A3 q L) as [-> _]. specialize (B q L). lia.
  - assert (X : exists fn ar se, o = SEnter fn ar se).
    { destruct o as [fn ar se| |k|k|n b typ tag dup]; [eauto|exfalso..]; cbn [step] in E.
      - destruct (leave_scope t) as [u|] eqn:V; [|discriminate]. inversion E; subst u; clear E.
        unfold leave_scope in V. destruct (sc_up (cur t)); [|discriminate]. inversion V; subst. cbn in *. lia.
      - inversion E; subst. cbn in Q. rewrite put_at_length in Q. lia.
      - inversion E; subst. cbn in Q. rewrite put_at_length in Q. lia.
      - destruct (add_local t (t_cur t) (mk_ref tag b typ None) n dup) as [[[] u]|] eqn:V; try discriminate.
        inversion E; subst u; clear E. destruct (add_local_effect _ _ _ _ _ _ C V) as (st' & _ & _ & _ & _ & _ & _ & Ln & _). lia. }
    destruct X as (fn & ar & se & ->). cbn [step] in E. inversion E; subst t'; clear E.
    assert (q = length (t_heap t)) by (cbn in Q; rewrite app_length, put_at_length in Q; cbn in Q; lia). subst q.
    rewrite enter_sc_new. cbn. lia.
Qed.

Lemma run_bounded : forall ops t t' l, chain t (t_cur t) l -> bounded t -> run ops t = Ok t' -> bounded t'.
Proof.
  induction ops as [|o ops IH]; intros t t' l C B E; cbn [run] in E; [inversion E; subst; assumption|].
  destruct (step o t) as [u| |] eqn:S; try discriminate.
  destruct (step_stack _ _ _ _ C S) as (l1 & C1 & _). eapply IH; [exact C1| |exact E].
  exact (bounded_step _ _ _ _ C B S).
Qed.
Lemma start_bounded : bounded start.
Proof. intros q Q. cbn in Q. destruct q; [cbn; lia|lia]. Qed.

(** The scopes inside the one a history began in. *)
Lemma chain_inj : forall t p l1 l2, chain t p l1 -> chain t p l2 -> l1 = l2.
Proof.
  intros t p l1 l2 H. revert l2. induction H as [p H L|p q l H L L' _ IH]; intros l2 K; inversion K; subst; try congruence.
  f_equal. apply IH. assert (q0 = q) by congruence. subst. assumption.
Qed.

Lemma depth_run : forall ops t t' l d inner outer, chain t (t_cur t) l -> l = inner ++ outer -> length inner = d ->
  outer <> [] -> balanced d ops -> run ops t = Ok t' -> chain t' (t_cur t') outer.
Proof.
  induction ops as [|o ops IH]; intros t t' l d inner outer C El D Ne B E; cbn [run balanced] in *.
  - inversion E; subst. destruct inner; [|discriminate]. exact C.
  - destruct (step o t) as [u| |] eqn:S; try discriminate.
    assert (Same : t_cur u = t_cur t -> chain u (t_cur u) l).
    { intro X. rewrite X. eapply chain_up_eq; [exact C|apply (step_keeps _ _ _ _ C S)|].
      intros q Q. apply (step_keeps _ _ _ _ C S); exact Q. }
    destruct o as [fn ar se| |k|k|n b typ tag dup]; cbn [step] in S.
    + inversion S; subst u. eapply (IH _ _ (length (t_heap t) :: l) (Datatypes.S d) (length (t_heap t) :: inner) outer);
        [| subst l; reflexivity | cbn; congruence | exact Ne | exact B | exact E].
      assert (L : t_cur t < length (t_heap t)) by (destruct C; assumption).
      change (t_cur (enter_scope t fn ar se)) with (length (t_heap t)). apply Ch_up with (q := t_cur t).
      * rewrite enter_sc_new. reflexivity.
      * exact L.
      * cbn. rewrite app_length, put_at_length. cbn. lia.
      * eapply chain_up_eq; [exact C|cbn; rewrite app_length, put_at_length; lia|].
        intros q Q. apply bare_up. apply enter_sc; assumption.
    + destruct d as [|d]; [destruct B|]. destruct inner as [|x inner]; [discriminate|].
      destruct (leave_scope t) as [v|] eqn:V; [|discriminate]. inversion S; subst v; clear S.
      unfold leave_scope in V. destruct (sc_up (cur t)) as [w|] eqn:Up; [|discriminate]. inversion V; subst u; clear V.
      inversion C as [p Up' L' E1 E2|p q l0 Up' L1 L2 C0 E1 E2]; [unfold cur in Up; congruence|].
      unfold cur in Up. assert (q = w) by congruence. subst q.
      assert (l0 = inner ++ outer) by (rewrite El in E2; cbn in E2; congruence).
      eapply (IH _ _ l0 d inner outer); [|assumption|cbn in D; lia|exact Ne|exact B|exact E].
      cbn [t_cur]. eapply chain_up_eq; [exact C0|cbn; lia|reflexivity].
    + inversion S; subst u. eapply IH; [apply Same; reflexivity|exact El|exact D|exact Ne|exact B|exact E].
    + inversion S; subst u. eapply IH; [apply Same; reflexivity|exact El|exact D|exact Ne|exact B|exact E].
    + assert (X : t_cur u = t_cur t).
      { destruct (add_local t (t_cur t) (mk_ref tag b typ None) n dup) as [[[] v]|] eqn:V; try discriminate.
        inversion S; subst v. destruct (add_local_effect _ _ _ _ _ _ C V) as (st' & _ & _ & _ & X & _). exact X. }
      eapply IH; [apply Same; exact X|exact El|exact D|exact Ne|exact B|exact E].
Qed.

Lemma balanced_cur : forall ops t t' l, chain t (t_cur t) l -> balanced 0 ops -> run ops t = Ok t' -> t_cur t' = t_cur t.
Proof.
  intros ops t t' l C B E.
  assert (Ne : l <> []) by (destruct C; discriminate).
  pose proof (depth_run ops t t' l 0 [] l C eq_refl eq_refl Ne B E) as C'.
  destruct (chain_hd _ _ _ C) as (a & ->). destruct (chain_hd _ _ _ C') as (b & Eb). congruence.
Qed.

(** Links lead to older scopes. *)
Definition ups (t : tab) : Prop :=
  forall q u, q < length (t_heap t) -> sc_up (sc t q) = Some u -> u < q.

Definition settled_ids (S : list nat) (t : tab) : Prop :=
  (forall p, In p S -> p < length (t_heap t)) /\
  (forall p q, In p S -> In q S -> sc_id (sc t p) = sc_id (sc t q) -> p = q).
Definition table_ok (S : list nat) (l : list nat) (t : tab) : Prop :=
  forall p, In p S -> exists q, find_n (sc_id (sc t p)) (t_table t) = Some q /\ sc_id (sc t q) = sc_id (sc t p)
    /\ q < length (t_heap t) /\ (q = p \/ (~ In q S /\ In q l)).
Definition temps_ok (S : list nat) (t : tab) : Prop :=
  forall q u, q < length (t_heap t) -> ~ In q S -> sc_up (sc t q) = Some u -> sc_id (sc t q) = sc_id (sc t u).
Definition settled_rel (S : list nat) (l : list nat) (fr : list frame) : Prop :=
  Forall2 (fun p f => In p S <-> fr_settled f = true) l fr.

Definition inv (S : list nat) (l : list nat) (t : tab) (fr : list frame) : Prop :=
  chain t (t_cur t) l /\ bounded t /\ ups t /\ settled_ids S t /\ table_ok S l t /\ temps_ok S t /\ settled_rel S l fr.

Lemma inv_same_shape : forall S l t t' fr fr',
  inv S l t fr -> chain t' (t_cur t') l -> t_table t' = t_table t -> t_seed t' = t_seed t ->
  length (t_heap t') = length (t_heap t) ->
  (forall q, q < length (t_heap t) -> sc_id (sc t' q) = sc_id (sc t q) /\ sc_up (sc t' q) = sc_up (sc t q)) ->
  map fr_settled fr' = map fr_settled fr -> inv S l t' fr'.
Proof.
  intros S l t t' fr fr' (C & B & W & (I1 & I2) & T & P & R) C' Tb Sd Ln K M.
  split; [|split; [|split; [|split; [split|split; [|split]]]]].
  - exact C'.
  - intros q Q. rewrite Ln in Q. destruct (K q Q) as [-> _]. rewrite Sd. apply B, Q.
  - intros q u Q U. rewrite Ln in Q. destruct (K q Q) as [_ K2]. rewrite K2 in U. exact (W q u Q U).
  - intros p Hp. rewrite Ln. apply I1, Hp.
  - intros p q Hp Hq. destruct (K p (I1 p Hp)) as [-> _]. destruct (K q (I1 q Hq)) as [-> _]. apply I2; assumption.
  - intros p Hp. destruct (T p Hp) as (q & Q1 & Q2 & Q3 & Q4). exists q.
    destruct (K p (I1 p Hp)) as [-> _]. destruct (K q Q3) as [-> _]. rewrite Tb, Ln. auto.
  - intros q u Q N U. rewrite Ln in Q. destruct (K q Q) as [K1 K2]. rewrite K2 in U. rewrite K1.
    pose proof (W q u Q U). destruct (K u ltac:(lia)) as [-> _]. apply P; assumption.
  - unfold settled_rel in *. clear -R M. revert fr' M.
    induction R as [|p f l fr A R IH]; intros [|f' fr'] M; cbn in M; try discriminate; constructor.
    + inversion M. rewrite H0. exact A.
    + apply IH. congruence.
Qed.

Lemma settled_on_current : forall g fr, (forall f, fr_settled (g f) = fr_settled f) ->
  map fr_settled (on_current g fr) = map fr_settled fr.
Proof. intros g [|f fr] H; cbn; [reflexivity|rewrite H; reflexivity]. Qed.
Lemma settled_on_function : forall g fr, (forall f, fr_settled (g f) = fr_settled f) ->
  map fr_settled (on_function g fr) = map fr_settled fr.
Proof.
  intros g fr H. induction fr as [|f fr IH]; [reflexivity|]. cbn.
  destruct (fr_fun f); cbn; [rewrite H; reflexivity|rewrite IH; reflexivity].
Qed.

Lemma inv_enter : forall S l t fr fn ar se, inv S l t fr ->
  (se = false -> sc_id (cur t) = t_seed t) ->
  inv (if se then length (t_heap t) :: S else S) (length (t_heap t) :: l) (enter_scope t fn ar se)
      (frame_step fr (SEnter fn ar se)).
Proof.
  intros S l t fr fn ar se (C & B & W & (I1 & I2) & T & P & R) H.
  assert (L : t_cur t < length (t_heap t)) by (destruct C; assumption).
  set (t' := enter_scope t fn ar se). set (S' := if se then length (t_heap t) :: S else S).
  assert (Ln : length (t_heap t') = Datatypes.S (length (t_heap t))).
  { unfold t'. cbn. rewrite app_length, put_at_length. cbn. lia. }
  assert (K : forall q, q < length (t_heap t) -> sc_id (sc t' q) = sc_id (sc t q) /\ sc_up (sc t' q) = sc_up (sc t q)).
  { intros q Q. destruct (enter_sc t fn ar se q L Q) as [X _]. apply bare_up in X. tauto. }
  assert (Kn : sc_id (sc t' (length (t_heap t))) = (if se then Datatypes.S (t_seed t) else t_seed t)
               /\ sc_up (sc t' (length (t_heap t))) = Some (t_cur t)).
  { unfold t'. rewrite enter_sc_new. split; reflexivity. }
  destruct Kn as [Kn1 Kn2].
  assert (C' : chain t' (t_cur t') (length (t_heap t) :: l)).
  { change (t_cur t') with (length (t_heap t)). apply Ch_up with (q := t_cur t); [exact Kn2|exact L|lia|].
    eapply chain_up_eq; [exact C|lia|]. intros q Q. apply K, Q. }
  assert (InS : forall q, In q S' <-> (In q S \/ (se = true /\ q = length (t_heap t)))).
  { intro q. unfold S'. destruct se; cbn; intuition congruence. }
  split; [|split; [|split; [|split; [split|split; [|split]]]]].
  - exact C'.
  - intros q Q. rewrite Ln in Q. change (t_seed t') with (if se then Datatypes.S (t_seed t) else t_seed t).
    destruct (Nat.eq_dec q (length (t_heap t))) as [->|D]; [lia|].
    destruct (K q ltac:(lia)) as [-> _]. specialize (B q ltac:(lia)). destruct se; lia.
  - intros q u Q U. rewrite Ln in Q. destruct (Nat.eq_dec q (length (t_heap t))) as [->|D].
    + rewrite Kn2 in U. inversion U. lia.
    + destruct (K q ltac:(lia)) as [_ K2]. rewrite K2 in U. apply (W q u); [lia|exact U].
  - intros p Hp. rewrite Ln. apply InS in Hp. destruct Hp as [Hp|[_ ->]]; [specialize (I1 p Hp); lia|lia].
  - intros p q Hp Hq. apply InS in Hp, Hq. destruct Hp as [Hp|[Sp ->]], Hq as [Hq|[Sq ->]].
    + destruct (K p (I1 p Hp)) as [-> _]. destruct (K q (I1 q Hq)) as [-> _]. apply I2; assumption.
    + destruct (K p (I1 p Hp)) as [-> _]. rewrite Kn1, Sq. pose proof (B p (I1 p Hp)). lia.
    + destruct (K q (I1 q Hq)) as [-> _]. rewrite Kn1, Sp. pose proof (B q (I1 q Hq)). lia.
    + reflexivity.
  - intros p Hp. rewrite InS in Hp.
    change (t_table t') with (((if se then Datatypes.S (t_seed t) else t_seed t), length (t_heap t)) :: t_table t).
    cbn [find_n]. destruct (Nat.eqb_spec (sc_id (sc t' p)) (if se then Datatypes.S (t_seed t) else t_seed t)) as [Eq|Eq].
    + exists (length (t_heap t)). split; [reflexivity|]. split; [lia|]. split; [lia|].
      destruct Hp as [Hp|[_ ->]]; [|left; reflexivity].
      destruct (K p (I1 p Hp)) as [Kp _]. pose proof (B p (I1 p Hp)).
      destruct se; [lia|]. right. split; [|left; reflexivity].
      unfold S'. intro X. apply I1 in X. lia.
    + destruct Hp as [Hp|[Sp ->]]; [|exfalso; rewrite Kn1 in Eq; destruct se; congruence].
      destruct (T p Hp) as (q & Q1 & Q2 & Q3 & Q4). exists q. destruct (K p (I1 p Hp)) as [-> _].
      destruct (K q Q3) as [-> _]. rewrite Ln. split; [exact Q1|]. split; [exact Q2|]. split; [lia|].
      destruct Q4 as [Q4|[Q4 Q5]]; [left; exact Q4|]. right. split; [|right; exact Q5].
      rewrite InS. intros [X|[_ X]]; [exact (Q4 X)|lia].
  - intros q u Q N U. rewrite Ln in Q. destruct (Nat.eq_dec q (length (t_heap t))) as [->|D].
    + rewrite Kn2 in U. inversion U; subst u. rewrite Kn1. destruct (K (t_cur t) L) as [-> _].
      rewrite InS in N. destruct se; [exfalso; apply N; right; auto|]. symmetry. apply H. reflexivity.
    + destruct (K q ltac:(lia)) as [K1 K2]. rewrite K2 in U. rewrite K1. pose proof (W q u ltac:(lia) U).
      destruct (K u ltac:(lia)) as [-> _]. apply P; [lia| |exact U]. rewrite InS in N. tauto.
  - cbn [frame_step]. constructor.
    + cbn [fr_settled]. rewrite InS. split; [|auto]. intros [X|[X _]]; [apply I1 in X; lia|exact X].
    + unfold settled_rel in R. assert (Lt : forall q, In q l -> q < length (t_heap t)).
      { intros q Q. apply (chain_lt _ _ _ C) in Q. lia. }
      clear -R Lt InS. induction R as [|p f l fr A R IH]; constructor.
      * rewrite InS, <- A. split; [|auto]. intros [X|[_ X]]; [exact X|]. specialize (Lt p (or_introl eq_refl)). lia.
      * apply IH. intros q Q. apply Lt. right. exact Q.
Qed.

Lemma inv_leave : forall S l t fr t', inv S l t fr -> leave_scope t = Some t' ->
  exists l', l = t_cur t :: l' /\ inv S l' t' (tl fr).
Proof.
  intros S l t fr t' (C & B & W & (I1 & I2) & T & P & R) E.
  unfold leave_scope in E. destruct (sc_up (cur t)) as [u|] eqn:U; [|discriminate]. inversion E; subst t'; clear E.
  unfold cur in U. inversion C as [p Up L E1 E2|p q l0 Up L1 L2 C0 E1 E2]; [congruence|].
  assert (q = u) by congruence. subst q l p. exists l0. split; [reflexivity|].
  assert (Lu : u < length (t_heap t)) by lia.
  set (t' := mk_tab _ _ _ _). assert (K : forall q, sc t' q = sc t q) by reflexivity.
  split; [|split; [|split; [|split; [split|split; [|split]]]]].
  - eapply chain_up_eq; [exact C0|cbn; lia|reflexivity].
  - exact B.
  - exact W.
  - exact I1.
  - exact I2.
  - intros p Hp. rewrite K. change (t_table t') with ((sc_id (sc t u), u) :: t_table t). cbn [find_n].
    destruct (Nat.eqb_spec (sc_id (sc t p)) (sc_id (sc t u))) as [Eq|Eq].
    + exists u. split; [reflexivity|]. rewrite K. split; [congruence|]. split; [exact Lu|].
      destruct (in_dec Nat.eq_dec u S) as [Iu|Iu]; [left; apply I2; congruence|].
      right. split; [exact Iu|]. destruct (chain_hd _ _ _ C0) as (r & ->). left. reflexivity.
    + destruct (T p Hp) as (q & Q1 & Q2 & Q3 & Q4). exists q. rewrite K. split; [exact Q1|]. split; [exact Q2|].
      split; [exact Q3|]. destruct Q4 as [Q4|[Q4 [Q5|Q5]]]; [left; exact Q4| |right; split; assumption].
      exfalso. subst q. pose proof (P _ _ L2 Q4 U). congruence.
  - exact P.
  - inversion R; subst. assumption.
Qed.

Lemma inv_step : forall S l t fr o t', inv S l t fr -> step o t = Ok t' ->
  match o with SEnter _ _ false => sc_id (cur t) = t_seed t | _ => True end ->
  exists S' l', inv S' l' t' (frame_step fr o) /\ (forall p, In p S -> In p S') /\
    match o with SEnter _ _ true => In (t_cur t') S' | _ => True end.
Proof.
  intros S l t fr o t' I E H. pose proof I as (C & _).
  assert (K : length (t_heap t') = length (t_heap t) -> t_cur t' = t_cur t -> t_table t' = t_table t ->
     t_seed t' = t_seed t -> map fr_settled (frame_step fr o) = map fr_settled fr ->
     inv S l t' (frame_step fr o)).
  { intros K1 K2 K3 K4 K5. destruct (step_keeps _ _ _ _ C E) as (A1 & A2 & A3).
    eapply inv_same_shape; [exact I| |exact K3|exact K4|exact K1|exact A3|exact K5].
    rewrite K2. eapply chain_up_eq; [exact C|lia|]. intros q Q. apply A3, Q. }
  destruct o as [fn ar se| |k|k|n b typ tag dup]; cbn [step] in E.
  - inversion E; subst t'. eexists _, _. split; [eapply inv_enter; [exact I|destruct se; [discriminate|auto]]|].
    split; [intros p Hp; destruct se; [right; exact Hp|exact Hp]|]. destruct se; [left; reflexivity|exact Logic.I].
  - destruct (leave_scope t) as [u|] eqn:V; [|discriminate]. inversion E; subst u.
    destruct (inv_leave _ _ _ _ _ I V) as (l' & _ & I'). exists S, l'. auto.
  - inversion E; subst t'. exists S, l. split; [|auto]. apply K; try reflexivity; [cbn; apply put_at_length|].
    apply settled_on_current. reflexivity.
  - inversion E; subst t'. exists S, l. split; [|auto]. apply K; try reflexivity; [cbn; apply put_at_length|].
    apply settled_on_current. reflexivity.
  - destruct (add_local t (t_cur t) (mk_ref tag b typ None) n dup) as [[[] u]|] eqn:V; try discriminate.
    inversion E; subst u. destruct (add_local_effect _ _ _ _ _ _ C V) as (st' & _ & _ & _ & X1 & X2 & X3 & X4 & _).
    exists S, l. split; [|auto]. apply K; auto. cbn [frame_step]. rewrite settled_on_current by reflexivity.
    destruct (bind_eqb b BK_VAR); [apply settled_on_function|]; reflexivity.
Qed.

Lemma inv_run : forall ops S l t fr t', inv S l t fr -> run ops t = Ok t' -> tame ops t ->
  exists S' l', inv S' l' t' (fold_left frame_step ops fr) /\ (forall p, In p S -> In p S').
Proof.
  induction ops as [|o ops IH]; intros S l t fr t' I E H; cbn [run tame fold_left] in *.
  - inversion E; subst. eauto.
  - destruct H as [H1 H2]. destruct (step o t) as [u| |] eqn:St; try discriminate.
    destruct (inv_step _ _ _ _ _ _ I St H1) as (S1 & l1 & I1 & M1 & _).
    destruct (IH _ _ _ _ _ I1 E H2) as (S2 & l2 & I2 & M2). exists S2, l2. auto.
Qed.

Lemma start_inv : inv [0] [0] start [program].
Proof.
  split; [exact start_chain|]. split; [exact start_bounded|]. split.
  { intros q u Q U. cbn in Q. destruct q; [discriminate|lia]. }
  split; [split|split; [|split]].
  - intros p [<-|[]]. cbn. lia.
  - intros p q [<-|[]] [<-|[]] _. reflexivity.
  - intros p [<-|[]]. exists 0. cbn. repeat split; auto.
  - intros q u Q U. cbn in Q. destruct q; [discriminate|lia].
  - constructor; [|constructor]. split; [reflexivity|left; reflexivity].
Qed.

Lemma run_app : forall a b t, run (a ++ b) t = match run a t with Ok t' => run b t' | Rejected => Rejected | Panic => Panic end.
Proof.
  induction a as [|o a IH]; intros b t; cbn; [reflexivity|]. destruct (step o t); auto.
Qed.
Lemma tame_app : forall a b t t', run a t = Ok t' -> tame (a ++ b) t -> tame a t /\ tame b t'.
Proof.
  induction a as [|o a IH]; intros b t t' E H; cbn in *.
  - inversion E; subst. auto.
  - destruct H as [H1 H2]. destruct (step o t) as [u| |]; try discriminate. destruct (IH _ _ _ E H2). auto.
Qed.

Lemma table_spec : forall ops1 ops2 fn ar t1 t2 t3,
  run ops1 start = Ok t1 -> step (SEnter fn ar true) t1 = Ok t2 -> run ops2 t2 = Ok t3 ->
  tame (ops1 ++ SEnter fn ar true :: ops2) start ->
  Forall (fun f => fr_settled f = true) (open_scopes (ops1 ++ SEnter fn ar true :: ops2)) ->
  find_n (sc_id (sc t3 (t_cur t2))) (t_table t3) = Some (t_cur t2).
Proof.
  intros ops1 ops2 fn ar t1 t2 t3 E1 E2 E3 H F.
  destruct (tame_app _ _ _ _ E1 H) as [H1 H2]. 
  destruct (inv_run _ _ _ _ _ _ start_inv E1 H1) as (S1 & l1 & I1 & _). cbn [tame] in H2. rewrite E2 in H2.
  destruct H2 as [_ H2]. destruct (inv_step _ _ _ _ _ _ I1 E2 Logic.I) as (S2 & l2 & I2 & _ & In2).
  destruct (inv_run _ _ _ _ _ _ I2 E3 H2) as (S3 & l3 & I3 & M3).
  destruct I3 as (C & _ & _ & _ & T & _ & R). destruct (T _ (M3 _ In2)) as (q & Q1 & _ & _ & [->|[Q4 Q5]]); [exact Q1|].
  exfalso. unfold open_scopes in F. rewrite fold_left_app in F. cbn [fold_left] in F.
  apply Q4. clear -R F Q5. unfold settled_rel in R. induction R as [|p f l fr A R IH]; [destruct Q5|].
  inversion F; subst. destruct Q5 as [<-|Q5]; [apply A; assumption|apply IH; assumption].
Qed.

(** * Marks *)
Definition intro_b (c : context) (f : frame) : bool :=
  match last_mark (c_intro c) (fr_marks f) with
  | Some on => on
  | None => N.eqb (c_intro c) SPK_FUNC && match fr_sort f with Function _ => true | _ => false end
  end.
Definition cancel_b (c : context) (f : frame) : bool :=
  match last_mark (c_inner c) (fr_marks f) with Some false => true | _ => false end.
Fixpoint inside_b (c : context) (fr : list frame) : bool :=
  match fr with
  | [] => false
  | f :: r => intro_b c f || (c_through c f && negb (cancel_b c f) && inside_b c r)
  end.

Lemma intro_spec : forall c f, introduces c f <-> intro_b c f = true.
Proof.
  intros c f. unfold introduces, intro_b. destruct (last_mark (c_intro c) (fr_marks f)) as [on|]; [reflexivity|].
  rewrite andb_true_iff, N.eqb_eq. split; intros [A B]; (split; [exact A|]).
  - destruct B as (ar & ->). reflexivity.
  - destruct (fr_sort f) as [|ar|]; try discriminate. eauto.
Qed.
Lemma cancel_spec : forall c f, cancels c f <-> cancel_b c f = true.
Proof.
  intros c f. unfold cancels, cancel_b. destruct (last_mark (c_inner c) (fr_marks f)) as [[]|]; split; congruence.
Qed.
Lemma inside_spec : forall c fr, inside c fr <-> inside_b c fr = true.
Proof.
  intros c fr. induction fr as [|f fr IH]; cbn [inside_b].
  - split; [|discriminate]. intros (pre & g & post & E & _). destruct pre; discriminate.
  - rewrite orb_true_iff, !andb_true_iff, negb_true_iff, <- IH, <- intro_spec. split.
    + intros (pre & g & post & E & I & H). destruct pre as [|h pre]; cbn in E; inversion E; subst.
      * left. exact I.
      * right. destruct (H h (or_introl eq_refl)) as [A B]. split.
        -- split; [exact A|]. destruct (cancel_b c h) eqn:X; [|reflexivity]. apply cancel_spec in X. contradiction.
        -- exists pre, g, post. split; [reflexivity|]. split; [exact I|]. intros x X. apply H. right. exact X.
    + intros [I|((A & B) & (pre & g & post & -> & I & H))].
      * exists [], f, fr. split; [reflexivity|]. split; [exact I|]. intros g [].
      * exists (f :: pre), g, post. split; [reflexivity|]. split; [exact I|].
        intros x [<-|X]; [|apply H, X]. split; [exact A|]. intro X. apply cancel_spec in X. congruence.
Qed.

Lemma has_if_same : forall m k x, has (N.lor k x) m = has k m || has x m.
Proof.
  intros m k x. unfold has. rewrite (N.land_comm (N.lor k x)), N.land_lor_distr_r, (N.land_comm m k), (N.land_comm m x).
  destruct (N.eqb_spec (N.lor (N.land k m) (N.land x m)) 0) as [H|H].
  - apply N.lor_eq_0_iff in H. destruct H as [-> ->]. reflexivity.
  - destruct (N.eqb_spec (N.land k m) 0) as [A|A]; [|reflexivity].
    destruct (N.eqb_spec (N.land x m) 0) as [B|B]; [|reflexivity]. exfalso. apply H. rewrite A, B. reflexivity.
Qed.
Lemma has_ldiff_bit : forall i k x, has (N.ldiff k x) (bit i) = has k (bit i) && negb (has x (bit i)).
Proof. intros. rewrite !has_bit. apply N.ldiff_spec. Qed.

Section Context.
Variable c : context.
Variables (a b : N) (thr : bool -> bool -> bool) (G : N -> Prop) (okop : sop -> Prop).
Let d := c_intro c.
Let i := c_inner c.
Hypothesis Ha : d = bit a.
Hypothesis Hb : i = bit b.
Hypothesis Hthr : forall (fn ar se : bool) m x, c_through c (mk_frame (if fn then Function ar else Block) se m x) = thr fn ar.
Hypothesis Hthr_marks : forall f m x, c_through c (mk_frame (fr_sort f) (fr_settled f) m x) = c_through c f.
Hypothesis Hinner : forall k fn ar, G k -> has (entered_kind k fn ar) i = thr fn ar && (has k d || has k i).
Hypothesis Hintro : d <> i -> forall k fn ar, has (entered_kind k fn ar) d = N.eqb d SPK_FUNC && fn.
Hypothesis Hsame : d = i -> d <> SPK_FUNC.
Hypothesis Hok : forall o k, okop o -> (o = SAdd k \/ o = SErase k) ->
  (d <> i -> has k i = false) /\ (d = SPK_FUNC -> has k d = false).
Hypothesis HGe : forall k fn ar, G k -> G (entered_kind k fn ar).
Hypothesis HGa : forall k m, okop (SAdd m) -> G k -> G (N.lor k m).
Hypothesis HGd : forall k m, okop (SErase m) -> G k -> G (N.ldiff k m).
Hypothesis HG0 : G SPK_GLOBAL.
Hypothesis Hroot : has SPK_GLOBAL d = false /\ has SPK_GLOBAL i = false.

(** The two bits of a scope, from its frame and from whether the scope around it is inside. *)
Definition bits_ok (k : N) (f : frame) (around : bool) : Prop :=
  has k d = intro_b c f || (N.eqb d i && c_through c f && negb (cancel_b c f) && around)
  /\ has k i = (N.eqb d i && intro_b c f) || (c_through c f && negb (cancel_b c f) && around).

Lemma bits_inside : forall k f fr, bits_ok k f (inside_b c fr) -> has k d || has k i = inside_b c (f :: fr).
Proof using Type.
  intros k f fr [A B]. cbn [inside_b]. rewrite A, B.
  destruct (N.eqb d i), (intro_b c f), (c_through c f), (cancel_b c f), (inside_b c fr); reflexivity.
Qed.

Fixpoint mrel (st : list (nat * scope)) (fr : list frame) : Prop :=
  match st, fr with
  | [], [] => True
  | (p, s) :: st', f :: fr' => G (sc_kind s) /\ bits_ok (sc_kind s) f (inside_b c fr') /\ mrel st' fr'
  | _, _ => False
  end.

Lemma mark_bits : forall s k f ar (on : bool), (forall k', k' = k -> (d <> i -> has k i = false) /\ (d = SPK_FUNC -> has k d = false)) ->
  bits_ok s f ar -> bits_ok (if on then N.lor s k else N.ldiff s k) (mark on k f) ar.
Proof using Ha Hb Hsame Hthr_marks.
  intros s k f ar on Ok [A B]. destruct (Ok k eq_refl) as [Ok1 Ok2].
  assert (H : forall x, x = d \/ x = i -> has (if on then N.lor s k else N.ldiff s k) x
      = if has k x then on else has s x).
  { intros x X. destruct on; [rewrite has_if_same|replace x with (bit (if N.eqb x d then a else b));
      [rewrite has_ldiff_bit|]].
    - destruct (has s x), (has k x); reflexivity.
    - generalize (bit (if (x =? d)%N then a else b)). intro z. destruct (has s z), (has k z); reflexivity.
    - destruct (N.eqb_spec x d) as [->|D]; [congruence|]. destruct X as [X|X]; [congruence|]. rewrite X, Hb. reflexivity. }
  assert (I : intro_b c (mark on k f) = if has k d then on else intro_b c f).
  { unfold intro_b. cbn [mark fr_marks last_mark fr_sort]. fold d. destruct (has k d); reflexivity. }
  assert (Cn : cancel_b c (mark on k f) = if has k i then negb on else cancel_b c f).
  { unfold cancel_b. cbn [mark fr_marks last_mark]. fold i. destruct (has k i); [destruct on; reflexivity|reflexivity]. }
  assert (Th : c_through c (mark on k f) = c_through c f) by apply Hthr_marks.
  unfold bits_ok. rewrite !H by auto. rewrite I, Cn, Th, A, B.
  destruct (N.eqb_spec d i) as [E|E].
  - rewrite <- E. destruct (has k d); [|split; reflexivity].
    destruct on, (intro_b c f), (c_through c f), (cancel_b c f), ar; cbn; split; reflexivity.
  - rewrite (Ok1 E). destruct (has k d); [|split; reflexivity].
    destruct on, (intro_b c f), (c_through c f), (cancel_b c f), ar; cbn; split; reflexivity.
Qed.

(** Declarations do not touch the marks. *)
Lemma inside_same_marks : forall fr fr',
  Forall2 (fun f f' => fr_sort f = fr_sort f' /\ fr_marks f = fr_marks f' /\ c_through c f = c_through c f') fr fr' ->
  inside_b c fr = inside_b c fr'.
Proof using Type.
  intros fr fr' H. induction H as [|f f' fr fr' (A & B & D) H IH]; [reflexivity|].
  cbn [inside_b]. unfold intro_b, cancel_b. rewrite A, B, D, IH. reflexivity.
Qed.
Lemma mrel_same : forall st st' fr fr', mrel st fr ->
  Forall2 (fun x y => sc_kind (snd x) = sc_kind (snd y)) st st' ->
  Forall2 (fun f f' => fr_sort f = fr_sort f' /\ fr_marks f = fr_marks f' /\ c_through c f = c_through c f') fr fr' ->
  mrel st' fr'.
Proof using Type.
  intros st st' fr fr' R Hs. revert fr fr' R. induction Hs as [|[p s] [p' s'] st st' K Hs IH]; intros fr fr' R Hf.
  - destruct Hf; [exact R|destruct R].
  - destruct Hf as [|f f' fr fr' F Hf]; [destruct R|]. cbn [mrel snd] in *. destruct R as (R0 & R1 & R2).
    rewrite <- K. split; [exact R0|]. split; [|eapply IH; eassumption].
    rewrite <- (inside_same_marks _ _ Hf). unfold bits_ok, intro_b, cancel_b in *.
    destruct F as (A & B & D). rewrite <- A, <- B, <- D. exact R1.
Qed.

Lemma mrel_step : forall seed o st st' fr, okop o -> mrel st fr -> sstep seed o st st' -> mrel st' (frame_step fr o).
Proof using Ha Hb Hthr Hthr_marks Hinner Hintro Hsame Hok HGe HGa HGd HG0 Hroot.
  intros seed o st st' fr O R S.
  destruct S as [fn ar se p q s rest|x y rest|k st|k st|m bd typ tag dup st st' D]; cbn [frame_step].
  - destruct fr as [|f fr]; [destruct R|]. pose proof R as R'. cbn [mrel] in R'. destruct R' as (R0 & R1 & R2).
    change (G (entered_kind (sc_kind s) fn ar) /\
      bits_ok (entered_kind (sc_kind s) fn ar) (mk_frame (if fn then Function ar else Block) se [] []) (inside_b c (f :: fr))
      /\ mrel ((q, s) :: rest) (f :: fr)).
    split; [apply HGe, R0|]. split; [|exact R]. rewrite <- (bits_inside _ _ _ R1).
    unfold bits_ok, intro_b, cancel_b. cbn [fr_marks last_mark fr_sort negb]. rewrite Hthr, (Hinner _ _ _ R0). fold d.
    rewrite !andb_true_r. destruct (N.eqb_spec d i) as [E|E].
    + replace (N.eqb d SPK_FUNC) with false by (symmetry; apply N.eqb_neq, Hsame, E).
      rewrite E, (Hinner _ _ _ R0), E. cbn. split; reflexivity.
    + rewrite (Hintro E). cbn [andb]. rewrite !orb_false_r. split; [destruct fn; reflexivity|reflexivity].
  - destruct fr as [|f fr]; [destruct x; destruct R|]. destruct x as [p s]. cbn [mrel tl] in *. apply R.
  - destruct st as [|[p s] st]; destruct fr as [|f fr]; cbn [mrel set_cur_kind on_current] in *; try tauto.
    destruct R as (R0 & R1 & R2). split; [apply HGa; assumption|]. split; [|exact R2].
    apply (mark_bits (sc_kind s) k f _ true); [|exact R1]. intros k' _. apply (Hok _ k O). left. reflexivity.
  - destruct st as [|[p s] st]; destruct fr as [|f fr]; cbn [mrel set_cur_kind on_current] in *; try tauto.
    destruct R as (R0 & R1 & R2). split; [apply HGd; assumption|]. split; [|exact R2].
    apply (mark_bits (sc_kind s) k f _ false); [|exact R1]. intros k' _. apply (Hok _ k O). right. reflexivity.
  - eapply mrel_same; [exact R| |].
    + assert (Rf : forall x : list (nat * scope), Forall2 (fun x y => sc_kind (snd x) = sc_kind (snd y)) x x)
        by (intro x; induction x; constructor; auto).
      assert (Pc : forall n r x, Forall2 (fun x y : nat * scope => sc_kind (snd x) = sc_kind (snd y)) x (put_cur n r x)).
      { intros n r [|[p s] x]; constructor; auto. }
      assert (Pf : forall n r x, Forall2 (fun x y : nat * scope => sc_kind (snd x) = sc_kind (snd y)) x (put_fn n r x)).
      { intros n r x. induction x as [|[p s] x IH]; [constructor|]. cbn [put_fn]. destruct (is_fn s); constructor; auto. }
      destruct D; auto.
      specialize (Pf m (done p (mk_ref tag bd typ None)) st).
      specialize (Pc m (done p (mk_ref tag bd typ None)) (put_fn m (done p (mk_ref tag bd typ None)) st)).
      revert Pf Pc. generalize (put_cur m (done p (mk_ref tag bd typ None)) (put_fn m (done p (mk_ref tag bd typ None)) st)).
      generalize (put_fn m (done p (mk_ref tag bd typ None)) st). clear. intros y z H. revert z.
      induction H as [|u v x y A H IH]; intros z K; inversion K; subst; constructor; [congruence|auto].
    + set (dc := mk_decl tag bd typ dup).
      set (Q := fun f f' : frame => fr_sort f = fr_sort f' /\ fr_marks f = fr_marks f' /\ c_through c f = c_through c f').
      assert (Q1 : forall f, Q f (declare_in m dc f)).
      { intro f. split; [reflexivity|]. split; [reflexivity|]. symmetry. apply Hthr_marks. }
      assert (Q0 : forall f, Q f f) by (intro f; repeat split).
      assert (Qr : forall x, Forall2 Q x x) by (intro x; induction x; constructor; auto).
      assert (Qc : forall x, Forall2 Q x (on_current (declare_in m dc) x)) by (intros [|f x]; constructor; auto).
      assert (Qf : forall x, Forall2 Q x (on_function (declare_in m dc) x)).
      { intro x. induction x as [|f x IH]; [constructor|]. cbn. destruct (fr_fun f); constructor; auto. }
      assert (Qt : forall x y z, Forall2 Q x y -> Forall2 Q y z -> Forall2 Q x z).
      { intros x y z H. revert z. induction H as [|u v x y A H IH]; intros z K; inversion K; subst; constructor; [|auto].
        destruct A as (A1 & A2 & A3). match goal with [X : Q v _ |- _] => destruct X as (B1 & B2 & B3) end.
        repeat split; congruence. }
      destruct (bind_eqb bd BK_VAR); [eapply Qt; [apply Qf|apply Qc]|apply Qc].
Qed.

Lemma mrel_run : forall ops t t' l fr, Forall okop ops -> chain t (t_cur t) l -> mrel (stack t l) fr ->
  run ops t = Ok t' -> exists l', chain t' (t_cur t') l' /\ mrel (stack t' l') (fold_left frame_step ops fr).
Proof using Ha Hb Hthr Hthr_marks Hinner Hintro Hsame Hok HGe HGa HGd HG0 Hroot.
  induction ops as [|o ops IH]; intros t t' l fr O C R E; cbn [run fold_left] in *.
  - inversion E; subst. eauto.
  - inversion O as [|? ? O1 O2]; subst. destruct (step o t) as [u| |] eqn:S; try discriminate.
    destruct (step_stack _ _ _ _ C S) as (l1 & C1 & S1).
    eapply IH; [exact O2|exact C1| |exact E]. eapply mrel_step; eassumption.
Qed.

Lemma marked_spec : forall ops t, Forall okop ops -> run ops start = Ok t ->
  (marked c (cur t) <-> inside c (open_scopes ops)).
Proof using Ha Hb Hthr Hthr_marks Hinner Hintro Hsame Hok HGe HGa HGd HG0 Hroot.
  intros ops t O E.
  assert (R0 : mrel (stack start [0]) [program]).
  { cbn [stack map mrel]. change (sc_kind (bare (sc start 0))) with SPK_GLOBAL. split; [exact HG0|]. split; [|exact Logic.I].
    destruct Hroot as [X Y]. unfold bits_ok, intro_b, cancel_b. cbn [program fr_marks last_mark fr_sort inside_b].
    fold d i. rewrite X, Y. cbn. rewrite ?andb_false_r. cbn. rewrite ?andb_false_r. split; reflexivity. }
  destruct (mrel_run _ _ _ _ _ O start_chain R0 E) as (l & C & R).
  fold (open_scopes ops) in R. destruct (chain_hd _ _ _ C) as (l' & ->).
  destruct (open_scopes ops) as [|f fr] eqn:F; [destruct R|].
  cbn [stack map mrel] in R. destruct R as (_ & R1 & _). rewrite inside_spec, <- (bits_inside _ _ _ R1).
  unfold marked, is_kind. rewrite has_lor. reflexivity.
Qed.
End Context.
