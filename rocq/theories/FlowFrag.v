(** Proofs about building control flow graphs: fragments with one entry and one sequential exit, and how they are put
    together. *)
From Coq Require Import Permutation ZifyBool ZifyNat.
From Verif Require Import Base GraphModel FlowModel FlowSpec FlowProofs.

(** ** Things that lie apart in memory *)
Record thing := mk_thing { tp : region; tq : heap -> Prop }.
Definition stable (t : thing) : Prop := forall h h', wf h (tp t) -> same (tp t) h h' -> tq t h -> tq t h'.
Definition good_thing (h : heap) (t : thing) : Prop := wf h (tp t) /\ tq t h /\ stable t.
Fixpoint apart (l : list thing) : Prop :=
  match l with [] => True | t :: l => (forall u, In u l -> disj (tp t) (tp u)) /\ apart l end.
Definition ok (h : heap) (l : list thing) : Prop := (forall t, In t l -> good_thing h t) /\ apart l.
Lemma disj_sym : forall p q, disj p q -> disj q p.
Proof. intros p q (A & B & C). repeat split; intros n H K; eauto. Qed.
Lemma apart_perm : forall l l', Permutation l l' -> apart l -> apart l'.
Proof.
  intros l l' P. induction P as [|x l l' P IH|x y l|l l' l'' P1 IH1 P2 IH2]; cbn; auto.
  - intros [A B]. split; [|auto]. intros u I. apply A. eapply Permutation_in; [apply Permutation_sym, P|exact I].
  - intros [A [B C]]. split; [|split; [|exact C]].
    + intros u [<-|I]; [apply disj_sym, A; left; reflexivity|auto].
    + intros u I. apply A. right. exact I.
Qed.
Lemma ok_perm : forall h l l', Permutation l l' -> ok h l -> ok h l'.
Proof.
  intros h l l' P [A B]. split; [|eapply apart_perm; eauto]. intros t I. apply A. eapply Permutation_in; [apply Permutation_sym, P|exact I].
Qed.
Lemma ok_tail : forall h t l, ok h (t :: l) -> ok h l.
Proof. intros h t l [A [B C]]. split; [|exact C]. intros u I. apply A. right. exact I. Qed.
Lemma ok_step : forall h h' t t' l, ok h (t :: l) -> chg (tp t) h h' -> grows h (tp t) (tp t') -> good_thing h' t' -> ok h' (t' :: l).
Proof.
  intros h h' t t' l [A [B C]] Ch G Gt. split.
  - intros u [<-|I]; [exact Gt|]. destruct (A u (or_intror I)) as (W & Q & S).
    assert (Sm : same (tp u) h h') by (eapply chg_same; [exact Ch|exact W|apply disj_sym, B, I]).
    split; [eapply wf_same; eauto|]. split; [eapply S; eauto|exact S].
  - split; [|exact C]. intros u I. destruct (B u I) as (D1 & D2 & D3). destruct (A u (or_intror I)) as (W & _ & _).
    split; [|split]; intros n H K.
    + destruct (g_b' _ _ _ G n H); [eauto|]. pose proof (w_b _ _ W n K). lia.
    + destruct (g_m' _ _ _ G n H); [eauto|]. pose proof (w_m _ _ W n K). lia.
    + destruct (g_e' _ _ _ G n H); [eauto|]. pose proof (w_e _ _ W n K). lia.
Qed.
Lemma same_union_l : forall p q h h', same (union p q) h h' -> same p h h'.
Proof. intros p q h h' [A B C D]. split; auto; intros n H; [apply B|apply C|apply D]; left; exact H. Qed.
Lemma same_union_r : forall p q h h', same (union p q) h h' -> same q h h'.
Proof. intros p q h h' [A B C D]. split; auto; intros n H; [apply B|apply C|apply D]; right; exact H. Qed.
(** Two things seen as one. *)
Definition pair (t u : thing) : thing := mk_thing (union (tp t) (tp u)) (fun h => wf h (tp t) /\ wf h (tp u) /\ disj (tp t) (tp u) /\ tq t h /\ tq u h).
Lemma ok_pair : forall h t u l, ok h (t :: u :: l) -> ok h (pair t u :: l).
Proof.
  intros h t u l [A [B [C D]]]. destruct (A t (or_introl eq_refl)) as (W1 & Q1 & S1).
  destruct (A u (or_intror (or_introl eq_refl))) as (W2 & Q2 & S2). pose proof (B u (or_introl eq_refl)) as Dj.
  split.
  - intros v [<-|I]; [|apply A; right; right; exact I]. split; [|split].
    + apply wf_union; auto.
    + cbn. auto.
    + intros h1 h2 W S (V1 & V2 & V3 & V4 & V5). cbn in S. cbn.
      pose proof (same_union_l _ _ _ _ S) as Sl. pose proof (same_union_r _ _ _ _ S) as Sr.
      split; [eapply wf_same; eauto|]. split; [eapply wf_same; eauto|]. split; [exact Dj|]. split; [eapply S1; eauto|eapply S2; eauto].
  - split; [|exact D]. intros v I. destruct (B v (or_intror I)) as (X1 & X2 & X3). destruct (C v I) as (Y1 & Y2 & Y3).
    repeat split; intros n [H|H] K; eauto.
Qed.
Definition nothing : thing := mk_thing (mk_reg (fun _ => False) (fun _ => False) (fun _ => False) (fun _ => False)) (fun _ => True).
Lemma ok_nothing : forall h l, ok h l -> ok h (nothing :: l).
Proof.
  intros h l [A B]. split.
  - intros t [<-|I]; [|auto]. split; [|split]; [|exact I|intros h1 h2 _ _ _; exact I]. split; cbn; tauto.
  - split; [|exact B]. intros u _. repeat split; cbn; tauto.
Qed.

(** ** Hanging edges, entries *)
(** [None] is a sequential edge, [Some true] a jump tagged ET_JMP_T, [Some false] one tagged ET_JMP_F. *)
Definition kof (k : option bool) : ekind := match k with None => EK_SEQ | Some _ => EK_JMP end.
Definition tagof (k : option bool) : N := match k with None => 0 | Some true => ET_JMP_T | Some false => ET_JMP_F end.
Definition hang (h : heap) (x : nat) (k : option bool) : Prop :=
  e_kind (ed h x) = kof k /\ e_tag (ed h x) = tagof k /\ e_dst (ed h x) = None.
Definition hits (fk : ekind) (ft : N) (k : option bool) : bool := ekind_eqb (kof k) fk && (N.eqb ft 0 || has_bit (tagof k) ft).
Lemma hang_matches : forall h x k fk ft, hang h x k -> matches fk ft (ed h x) = hits fk ft k.
Proof. intros h x k fk ft (A & B & C). unfold matches, hits. rewrite A, B. reflexivity. Qed.
Definition entry (h : heap) (i a : nat) : Prop :=
  (exists x, In x (ins h i) /\ is_seq (ed h x) = true) /\ (forall x, In x (ins h i) -> is_seq (ed h x) = true -> e_dst (ed h x) = Some a).
Lemma entry_eq : forall h i j a b, entry h i a -> entry h j b -> ins h i = ins h j -> a = b.
Proof. intros h i j a b [(x & I & Q) A] [_ B] E. specialize (A x I Q). rewrite E in I. specialize (B x I Q). congruence. Qed.

Record base (p : region) (I : list nat) (a : nat) (fl : bool) (J : nat -> option bool -> Prop) (h : heap) : Prop := {
  k_i : forall i, In i I -> rb p i /\ im (bl h i) = im (bl h a);
  k_a : rb p a; k_ga : ng h a; k_da : ~ rd p a;
  k_in : entry h a a;
  k_one : fl = true -> exists i0, ins h a = [i0];
  k_lone : fl = true -> forall c x, rb p c -> In x (outs h c) -> e_dst (ed h x) <> Some a;
  k_J : forall x k, J x k -> re p x /\ hang h x k;
  k_all : forall x, re p x -> is_seq (ed h x) = false -> e_dst (ed h x) = None -> exists k, J x k;
  k_u : exists l, I = l ++ [a] }.
(** One list ends with the other. *)
Definition suf (L M : list nat) : Prop := exists l, M = l ++ L.
Record endp (p : region) (e x : nat) (b : bool) (K : list nat) (h : heap) : Prop := {
  k_x : rb p x; k_gx : ng h x; k_dx : ~ rd p x; k_b : b = true -> is_basic (bl h x) = true;
  k_e : ed h e = mk_edge EK_SEQ 0 (Some x) None; k_xo : outs h x = e :: K;
  k_fe : forall c, rb p c -> ~ rd p c -> ng h c -> In e (outs h c) -> c = x }.

Lemma same_entry : forall p h h' i a, wf h p -> same p h h' -> rb p i -> entry h i a -> entry h' i a.
Proof.
  intros p h h' i a W S Hi [(x & I & Q) A].
  assert (E : forall y, In y (ins h i) -> ed h' y = ed h y).
  { intros y Iy. apply (s_e _ _ _ S). eapply w_mp; [exact W|eapply w_im; [exact W|exact Hi]|exact Iy]. }
  unfold entry. rewrite (same_ins p h h' i W S Hi). split.
  - exists x. rewrite E by auto. auto.
  - intros y Iy. rewrite E by auto. auto.
Qed.
Lemma base_same : forall p I a fl J h h', wf h p -> same p h h' -> base p I a fl J h -> base p I a fl J h'.
Proof.
  intros p I a fl J h h' W S [b1 b2 b3 b4 b5 b6 b6' b7 b8 b9]. split; auto.
  - intros i H. destruct (b1 i H) as [Q R]. rewrite (s_b _ _ _ S i Q), (s_b _ _ _ S a b2). auto.
  - unfold ng. rewrite (s_b _ _ _ S a b2). exact b3.
  - eapply same_entry; eauto.
  - intro Q. rewrite (same_ins p h h' a W S b2). auto.
  - intros Q c x Hc O. rewrite (same_outs p h h' c W S Hc) in O. rewrite (s_e _ _ _ S); [eauto|].
    eapply w_mp; [exact W|eapply w_om; [exact W|exact Hc]|exact O].
  - intros x k Q. destruct (b7 x k Q) as [R T]. unfold hang. rewrite (s_e _ _ _ S x R). auto.
  - intros x R. rewrite (s_e _ _ _ S x R). auto.
Qed.
Lemma endp_re : forall p e x b K h, wf h p -> endp p e x b K h -> re p e.
Proof. intros p e x b K h W E. eapply w_mp; [exact W|eapply w_om; [exact W|apply (k_x _ _ _ _ _ _ E)]|]. fold (outs h x). rewrite (k_xo _ _ _ _ _ _ E). left. reflexivity. Qed.
Lemma endp_same : forall p e x b K h h', wf h p -> same p h h' -> endp p e x b K h -> endp p e x b K h'.
Proof.
  intros p e x b K h h' W S E. pose proof (endp_re _ _ _ _ _ _ W E) as Re. destruct E as [b1 b2 b3 b4 b5 b6 b7]. split; auto.
  - unfold ng. rewrite (s_b _ _ _ S x b1). exact b2.
  - rewrite (s_b _ _ _ S x b1). exact b4.
  - rewrite (s_e _ _ _ S e Re). exact b5.
  - rewrite (same_outs p h h' x W S b1). exact b6.
  - intros c Hc Dc Gc O. apply b7; auto; [unfold ng in *; rewrite <- (s_b _ _ _ S c Hc); exact Gc|].
    rewrite (same_outs p h h' c W S Hc) in O. exact O.
Qed.

(** ** Fragments *)
Record frag := mk_frag { fP : region; fI : list nat; fo : nat; fa : nat; fe : nat; fx : nat; fb : bool; fK : list nat;
  fJ : nat -> option bool -> Prop; fR : list nat -> nat -> Prop }.
Definition exits (F : frag) (y : nat) : Prop := y = fe F \/ exists k, fJ F y k.
Record valid (F : frag) (h : heap) : Prop := {
  v_base : base (fP F) (fI F) (fa F) true (fJ F) h;
  v_end : endp (fP F) (fe F) (fx F) (fb F) (fK F) h;
  v_o : rb (fP F) (fo F);
  v_nd : NoDup (outs h (fo F));
  v_out : forall x, In x (outs h (fo F)) <-> exits F x;
  v_jmp : forall x k, fJ F x k -> k <> None;
  v_R : forall t y, fR F t y -> exits F y /\ path0 h (fa F) t y }.
Definition Fr (F : frag) : thing := mk_thing (fP F) (valid F).
Lemma valid_same : forall F h h', wf h (fP F) -> same (fP F) h h' -> valid F h -> valid F h'.
Proof.
  intros F h h' W S [b1 b2 b3 b4 b5 b6 b7]. pose proof (same_outs _ _ _ (fo F) W S b3) as Eo. split; auto.
  - eapply base_same; eauto.
  - eapply endp_same; eauto.
  - rewrite Eo. exact b4.
  - rewrite Eo. exact b5.
  - intros t y H. destruct (b7 t y H) as [A B]. split; [exact A|]. eapply path0_mono; [exact W|apply same_mono; eauto| | |exact B].
    + apply (k_a _ _ _ _ _ _ b1).
    + apply (k_ga _ _ _ _ _ _ b1).
Qed.
Lemma Fr_stable : forall F, stable (Fr F).
Proof. intros F h h' W S V. eapply valid_same; eauto. Qed.
Lemma ok_Fr : forall h F l, ok h (Fr F :: l) -> wf h (fP F) /\ valid F h.
Proof. intros h F l [A _]. destruct (A _ (or_introl eq_refl)) as (W & V & _). auto. Qed.

(** A new block. *)
Definition blkF (b : nat) (k : bkind) (l : list item) : frag :=
  mk_frag (mk_reg (fun n => n = b) (fun n => n = 1 + b \/ n = 2 + b) (fun n => n = 3 + b \/ n = 4 + b) (fun _ => False))
    [b] b b (4 + b) b (match k with BK_BASIC => true | _ => false end) [] (fun _ _ => False) (fun t y => t = leaves l /\ y = 4 + b).
Ltac upds := repeat (rewrite upd_same || rewrite upd_other by lia).
Lemma new_blk_facts : forall k l h, let h' := snd (new_blk k l h) in let b := nx h in
  fst (new_blk k l h) = b /\ nx h' = 5 + b /\ bl h' b = mk_blk k l (1 + b) (2 + b) /\ mp h' (1 + b) = [3 + b] /\ mp h' (2 + b) = [4 + b]
  /\ ed h' (3 + b) = mk_edge EK_SEQ 0 None (Some b) /\ ed h' (4 + b) = mk_edge EK_SEQ 0 (Some b) None.
Proof. intros k l h. cbn -[Nat.add]. repeat split; upds; reflexivity. Qed.
Lemma new_blk_ok : forall k l h rest, k <> BK_GROUP -> ok h rest ->
  fst (new_blk k l h) = nx h /\ ok (snd (new_blk k l h)) (Fr (blkF (nx h) k l) :: rest).
Proof.
  intros k l h rest Hk O. pose proof (new_blk_facts k l h) as F. cbn zeta in F. destruct F as (F0 & F1 & F2 & F3 & F4 & F5 & F6).
  split; [exact F0|]. set (h' := snd (new_blk k l h)) in *. set (b := nx h) in *.
  assert (Ei : ins h' b = [3 + b]) by (unfold ins; rewrite F2; exact F3).
  assert (Eo : outs h' b = [4 + b]) by (unfold outs; rewrite F2; exact F4).
  assert (G : ng h' b) by (unfold ng; rewrite F2; exact Hk).
  apply ok_nothing in O. eapply ok_step; [exact O|..].
  - split; [lia|..]; intros n Hn _; unfold h'; cbn -[Nat.add]; rewrite ?upd_other by lia; reflexivity.
  - split; cbn -[Nat.add]; intros n; lia.
  - clearbody h' b. assert (W : wf h' (fP (blkF b k l))).
    { split; cbn -[Nat.add].
      - intros c ->. lia.
      - lia.
      - lia.
      - intros c ->. rewrite F2. cbn -[Nat.add]. lia.
      - intros c ->. rewrite F2. cbn -[Nat.add]. lia.
      - intros m x [-> | ->] I; [rewrite F3 in I|rewrite F4 in I]; cbn -[Nat.add] in I; lia.
      - intros x c [-> | ->] E; [rewrite F5 in E|rewrite F6 in E]; cbn in E; [|discriminate]. injection E as <-. auto.
      - intros x c [-> | ->] E; [rewrite F5 in E|rewrite F6 in E]; cbn in E; [discriminate|]. injection E as <-. auto.
      - intros x [-> | ->]; [rewrite F5|rewrite F6]; reflexivity.
      - intros c ->. rewrite Ei. discriminate.
      - intros c d -> ->. rewrite F2. cbn -[Nat.add]. lia.
      - intros c x -> I. rewrite Ei in I. destruct I as [<-|[]]. rewrite F5. discriminate.
      - intros c d x -> -> I J. rewrite Ei in I. rewrite Eo in J. destruct I as [<-|[]]. destruct J as [J|[]]. lia.
      - intros c [].
      - intros c x d _ _ _ []. }
    split; [exact W|]. split; [|apply Fr_stable]. split; cbn -[Nat.add].
    + split; cbn -[Nat.add]; auto.
      * intros i [<-|[]]. auto.
      * split; [exists (3 + b); rewrite Ei, F5; split; [left; reflexivity|reflexivity]|]. intros x I _. rewrite Ei in I. destruct I as [<-|[]]. rewrite F5. reflexivity.
      * intros _. exists (3 + b). exact Ei.
      * intros _ c x -> I. rewrite Eo in I. destruct I as [<-|[]]. rewrite F6. discriminate.
      * intros x k0 [].
      * intros x [-> | ->]; [rewrite F5|rewrite F6]; cbn; intros; discriminate.
      * exists []. reflexivity.
    + split; cbn -[Nat.add]; auto. intro Hb. unfold is_basic. rewrite F2. cbn. destruct k; [reflexivity|discriminate..].
    + reflexivity.
    + rewrite Eo. repeat constructor. intros [].
    + intro x. rewrite Eo. unfold exits. cbn -[Nat.add]. split; [intros [<-|[]]; auto|]. intros [-> | (k0 & [])]. auto.
    + intros x k0 [].
    + intros t y [-> ->]. split; [left; reflexivity|]. apply path0_end'; [rewrite Eo; left; reflexivity|]. rewrite F2. reflexivity.
Qed.

Section Order.
Variable order : heap -> list nat -> list nat.
Hypothesis Hperm : forall h l, Permutation (order h l) l.

Lemma entry_unwrap : forall h i a, entry h i a -> unwrap_in order h i = Some a.
Proof using Hperm.
  intros h i a [(x & I & Q) A]. unfold unwrap_in, in_seq. destruct (find _ (order h (ins h i))) as [y|] eqn:F.
  - apply find_some in F as [F1 F2]. apply A; auto. eapply Permutation_in; [apply Hperm|exact F1].
  - pose proof (find_none _ _ F x) as N. cbn in N. rewrite Q in N. discriminate N. eapply Permutation_in; [apply Permutation_sym, Hperm|exact I].
Qed.
Lemma base_entry : forall p I a fl J h i, base p I a fl J h -> In i I -> entry h i a.
Proof. intros p I a fl J h i B H. pose proof (k_in _ _ _ _ _ _ B) as E. unfold entry, ins in *. destruct (k_i _ _ _ _ _ _ B i H) as [_ ->]. exact E. Qed.
Lemma entry_rb : forall p h i a, wf h p -> rb p i -> entry h i a -> rb p a /\ ng h a.
Proof.
  intros p h i a W Hi [(x & I & Q) A]. eapply w_dst; [exact W| |apply A; eauto]. eapply w_mp; [exact W|eapply w_im; [exact W|exact Hi]|exact I].
Qed.

(** ** Links that do not join *)
Definition no_join (h : heap) (o i : nat) (fk : ekind) (flag : lflag) : Prop :=
  is_join flag = false /\
  (fk = EK_JMP \/ is_sep flag = true \/ only_seq_in h i = false
   \/ (only_seq_out h o = false /\ forall e s, out_seq order h o = Some e -> e_src (ed h e) = Some s -> only_seq_out h s = false)).
Lemma link_far : forall p h o i a fk ft tk tt flag, wf h p -> rb p o -> rb p i -> entry h i a -> ~ rd p a -> NoDup (outs h o) ->
  no_join h o i fk flag ->
  exists h', link order h (Some o) fk ft tk tt (Some i) flag = Some h' /\ linked p fk ft tk a (outs h o) h h'
    /\ ((exists x, In x (outs h o) /\ matches fk ft (ed h x) = true) -> has_in h' tk a).
Proof using Hperm.
  intros p h o i a fk ft tk tt flag W Ho Hi En Da Nd [Nj Hj].
  destruct (entry_rb p h i a W Hi En) as [Ha Ga].
  assert (Q : forall x, In x (outs h o) -> re p x /\ ~ In x (ins h a)).
  { intros x I. split; [eapply w_mp; [exact W|eapply w_om; [exact W|exact Ho]|exact I]|]. intro K. exact (w_io _ _ W a o x Ha Ho K I). }
  destruct (link_edges_ok order Hperm p fk ft tk tt a (outs h o) h W Ha Nd Q) as [L R].
  exists (link_edges order fk ft tk tt a h (outs h o)). split; [|split; [exact L|exact R]].
  assert (Far : (do to <- unwrap_in order h i; Some (spread_cut order (link_edges order fk ft tk tt to h (outs h o)) o
                   (match out_seq order h o with Some e => e_src (ed h e) | None => None end) to))
                = Some (link_edges order fk ft tk tt a h (outs h o))).
  { rewrite (entry_unwrap h i a En). f_equal. apply spread_cut_id; [exact Hperm|]. intros x I.
    rewrite (linked_outs p fk ft tk a (outs h o) h _ o W Ha Ho L) in I. destruct (Q x I) as [Q1 Q2].
    apply (l_cut _ _ _ _ _ _ _ _ L x); [|left; exact Q1]. pose proof (w_e _ _ W x Q1). pose proof (l_nx _ _ _ _ _ _ _ _ L). lia. }
  unfold link. cbv zeta. rewrite Far, Nj. cbn [orb].
  destruct (ekind_eqb fk EK_SEQ && negb (is_sep flag) && only_seq_in h i) eqn:E; [|reflexivity].
  destruct Hj as [->|[Hs|[Hs|[Hs1 Hs2]]]]; [cbn in E; discriminate|rewrite Hs in E; cbn in E; rewrite andb_false_r in E; discriminate|rewrite Hs, andb_false_r in E; discriminate|].
  rewrite Hs1. cbn [orb]. destruct (out_seq order h o) as [e|] eqn:Eo; [|reflexivity].
  destruct (e_src (ed h e)) as [s|] eqn:Es; [|reflexivity]. rewrite (Hs2 e s eq_refl Es), andb_false_r. reflexivity.
Qed.
Lemma linked_entry : forall p fk ft tk a l h h' i c, wf h p -> rb p a -> linked p fk ft tk a l h h' -> entry h a a ->
  rb p i -> entry h i c -> entry h' i c.
Proof.
  intros p fk ft tk a l h h' i c W Ha L Ea Hi [(x & I & Q) A]. destruct (l_in _ _ _ _ _ _ _ _ L) as (new & En & Hn).
  assert (K : forall y, In y (ins h i) -> e_kind (ed h' y) = e_kind (ed h y) /\ e_dst (ed h' y) = e_dst (ed h y)).
  { intros y Iy. destruct (in_dec Nat.eq_dec y (ins h a)) as [Z|Z]; [apply (l_ins _ _ _ _ _ _ _ _ L y Z)|].
    assert (Ry : re p y) by (eapply w_mp; [exact W|eapply w_im; [exact W|exact Hi]|exact Iy]).
    rewrite (l_ed _ _ _ _ _ _ _ _ L y (w_e _ _ W y Ry) Z).
    pose proof (w_into _ _ W i y Hi Iy) as N. unfold hanging. destruct (e_dst (ed h y)) eqn:Ey; [rewrite andb_false_r; auto|congruence]. }
  assert (Ins : exists new', ins h' i = ins h i ++ new' /\ forall y, In y new' -> e_dst (ed h' y) = Some c).
  { unfold ins at 1. rewrite (l_bl _ _ _ _ _ _ _ _ L). destruct (Nat.eq_dec (im (bl h i)) (im (bl h a))) as [E|E].
    - exists new. split; [rewrite E, En; unfold ins; rewrite E; reflexivity|]. intros y Iy. specialize (Hn y Iy).
      rewrite (l_new _ _ _ _ _ _ _ _ L y Hn). f_equal. eapply (entry_eq h a i); [exact Ea|split; [eauto|exact A]|]. unfold ins. rewrite E. reflexivity.
    - exists []. rewrite app_nil_r. split; [apply (l_mp _ _ _ _ _ _ _ _ L); exact E|]. intros y []. }
  destruct Ins as (new' & E' & N'). split.
  - exists x. rewrite E'. split; [apply in_app_iff; left; exact I|]. unfold is_seq in *. destruct (K x I) as [-> _]. exact Q.
  - intros y Iy Qy. rewrite E' in Iy. apply in_app_iff in Iy as [Iy|Iy]; [|auto]. destruct (K y Iy) as [K1 K2]. rewrite K2. apply A; auto.
    unfold is_seq in *. rewrite <- K1. exact Qy.
Qed.
Lemma hang_not_in : forall p h x k b, wf h p -> rb p b -> hang h x k -> ~ In x (ins h b).
Proof. intros p h x k b W Hb (_ & _ & D) I. exact (w_into _ _ W b x Hb I D). Qed.
Lemma linked_hang : forall p fk ft tk a l h h' x k, wf h p -> rb p a -> linked p fk ft tk a l h h' -> re p x -> hang h x k ->
  (In x l /\ hits fk ft k = true /\ e_dst (ed h' x) = Some a) \/ (~ (In x l /\ hits fk ft k = true) /\ ed h' x = ed h x).
Proof.
  intros p fk ft tk a l h h' x k W Ha L Rx H.
  rewrite (l_ed _ _ _ _ _ _ _ _ L x (w_e _ _ W x Rx) (hang_not_in p h x k a W Ha H)), (hang_matches h x k fk ft H).
  destruct H as (H1 & H2 & H3). unfold hanging. rewrite H3, andb_true_r.
  destruct (existsb (Nat.eqb x) l) eqn:E; cbn [andb].
  - apply existsb_spec in E. destruct (hits fk ft k); [left; auto|right; split; [|reflexivity]]. intros [_ K]. discriminate.
  - right. split; [|reflexivity]. intros [K _]. apply existsb_spec in K. congruence.
Qed.
Lemma base_link : forall p fk ft tk a l h h' I c fl fl' J, wf h p -> rb p a -> entry h a a -> linked p fk ft tk a l h h' ->
  (fl' = true -> fl = true /\ im (bl h c) <> im (bl h a)) ->
  base p I c fl J h -> base (more_edges p (nx h) (nx h')) I c fl' (fun x k => J x k /\ ~ (In x l /\ hits fk ft k = true)) h'.
Proof.
  intros p fk ft tk a l h h' I c fl fl' J W Ha Ea L Hf [b1 b2 b3 b4 b5 b6 b6' b7 b8 b9]. split; cbn; auto.
  - intros i Hi. rewrite (l_bl _ _ _ _ _ _ _ _ L). auto.
  - unfold ng. rewrite (l_bl _ _ _ _ _ _ _ _ L). exact b3.
  - apply (linked_entry p fk ft tk a l h h' c c); auto.
  - intro E. destruct (Hf E) as [E1 E2]. unfold ins. rewrite (l_bl _ _ _ _ _ _ _ _ L), (l_mp _ _ _ _ _ _ _ _ L) by auto. apply b6, E1.
  - intros E d x Hd O. destruct (Hf E) as [E1 E2]. rewrite (linked_outs p fk ft tk a l h h' d W Ha Hd L) in O.
    assert (Rx : re p x) by (eapply w_mp; [exact W|eapply w_om; [exact W|exact Hd]|exact O]).
    pose proof (b6' E1 d x Hd O) as N.
    rewrite (l_ed _ _ _ _ _ _ _ _ L x (w_e _ _ W x Rx)) by (intro K; exact (w_io _ _ W a d x Ha Hd K O)).
    destruct (_ && _ && _); [|exact N]. unfold to_dst. cbn. intro Q. injection Q as ->. congruence.
  - intros x k [H1 H2]. destruct (b7 x k H1) as [R1 R2]. split; [left; exact R1|].
    destruct (linked_hang p fk ft tk a l h h' x k W Ha L R1 R2) as [(K1 & K2 & _)|[_ K]]; [tauto|]. unfold hang. rewrite K. exact R2.
  - intros x [Rx|Rx] S1 S2; [|rewrite (l_new _ _ _ _ _ _ _ _ L x Rx) in S2; discriminate].
    assert (Dn : e_dst (ed h x) = None).
    { destruct (e_dst (ed h x)) as [d|] eqn:E; [|reflexivity]. pose proof (m_dst _ _ _ (linked_mono p fk ft tk a l h h' W Ha L) x d Rx E). congruence. }
    assert (Ni : ~ In x (ins h a)) by (intro K; exact (w_into _ _ W a x Ha K Dn)).
    assert (Ex : ed h' x = ed h x).
    { rewrite (l_ed _ _ _ _ _ _ _ _ L x (w_e _ _ W x Rx) Ni) in S2 |- *. destruct (_ && _ && _); [discriminate S2|reflexivity]. }
    rewrite Ex in S1. destruct (b8 x Rx S1 Dn) as [k Hk]. exists k. split; [exact Hk|].
    destruct (b7 x k Hk) as [_ Hh]. destruct (linked_hang p fk ft tk a l h h' x k W Ha L Rx Hh) as [(_ & _ & K)|[K _]]; [congruence|exact K].
Qed.
Lemma endp_link : forall p fk ft tk a l h h' e x b K, wf h p -> rb p a -> linked p fk ft tk a l h h' ->
  (~ In e l \/ hits fk ft None = false) -> endp p e x b K h -> endp (more_edges p (nx h) (nx h')) e x b K h'.
Proof.
  intros p fk ft tk a l h h' e x b K W Ha L Hn E. pose proof (endp_re _ _ _ _ _ _ W E) as Re.
  destruct E as [b1 b2 b3 b4 b5 b6 b7]. pose proof (l_bl _ _ _ _ _ _ _ _ L) as Bl. split; cbn; auto.
  - unfold ng. rewrite Bl. exact b2.
  - rewrite Bl. exact b4.
  - assert (Hh : hang h e None) by (unfold hang; rewrite b5; auto).
    destruct (linked_hang p fk ft tk a l h h' e None W Ha L Re Hh) as [(K1 & K2 & _)|[_ K1]]; [|congruence].
    destruct Hn; [tauto|congruence].
  - rewrite (linked_outs p fk ft tk a l h h' x W Ha b1 L). exact b6.
  - intros c Hc Dc Gc O. rewrite (linked_outs p fk ft tk a l h h' c W Ha Hc L) in O. apply b7; auto. unfold ng in *. rewrite <- Bl. exact Gc.
Qed.
End Order.
