(** Proofs about building control flow graphs: joining blocks, grouping them, and new edges. *)
From Coq Require Import Permutation ZifyBool ZifyNat.
From Verif Require Import Base GraphModel FlowModel FlowSpec FlowProofs FlowFrag.

Lemma base_J : forall p I a fl J J' h, (forall x k, J x k <-> J' x k) -> base p I a fl J h -> base p I a fl J' h.
Proof.
  intros p I a fl J J' h E [b1 b2 b3 b4 b5 b6 b6' b7 b8 b9]. split; auto.
  - intros x k H. apply b7, E, H.
  - intros x A B C. destruct (b8 x A B C) as [k K]. exists k. apply E, K.
Qed.
Lemma out_re : forall h p b x, wf h p -> rb p b -> In x (outs h b) -> re p x.
Proof. intros h p b x W Hb I. eapply w_mp; [exact W|eapply w_om; [exact W|exact Hb]|exact I]. Qed.
Lemma in_re : forall h p b x, wf h p -> rb p b -> In x (ins h b) -> re p x.
Proof. intros h p b x W Hb I. eapply w_mp; [exact W|eapply w_im; [exact W|exact Hb]|exact I]. Qed.

(** ** Joining *)
Record joined (f t : nat) (h h' : heap) : Prop := {
  j_nx : nx h' = nx h; j_mp : mp h' = mp h;
  j_bl : forall n, bl h' n = if Nat.eqb n f then mk_blk (bk (bl h f)) (items (bl h f) ++ items (bl h t)) (im (bl h f)) (om (bl h t)) else bl h n;
  j_ed : forall n, ed h' n = if existsb (Nat.eqb n) (outs h t) then mk_edge (e_kind (ed h n)) (e_tag (ed h n)) (Some f) (e_dst (ed h n)) else ed h n }.
Lemma not_cut : forall h p b, wf h p -> rb p b -> is_in_cut h b = false.
Proof.
  intros h p b W Hb. unfold is_in_cut. pose proof (w_ins _ _ W b Hb) as N.
  assert (F : forall x, In x (ins h b) -> cutb (ed h x) = false) by (intros x I; apply (w_cut _ _ W), (in_re h p b x W Hb I)).
  destruct (ins h b) as [|x l]; [congruence|]. cbn. unfold cutb in F. rewrite (F x); [reflexivity|left; reflexivity].
Qed.
Lemma join_ok : forall order h p from i f t, wf h p -> rb p f -> unwrap_in order h i = Some t -> unwrap_out order h from = Some f ->
  exists h', join order h from i = Some h' /\ joined f t h h'.
Proof.
  intros order h p from i f t W Hf U1 U2. unfold join. rewrite U1, U2.
  set (h1 := set_bl h f _). cbv zeta.
  assert (C : is_in_cut h1 f = false).
  { rewrite <- (not_cut h p f W Hf). unfold is_in_cut, ins, h1. cbn. rewrite upd_same. reflexivity. }
  rewrite C. cbn [andb]. eexists. split; [reflexivity|].
  assert (O : outs h1 f = outs h t) by (unfold outs, h1; cbn; rewrite upd_same; reflexivity).
  rewrite O.
  assert (G : forall l h0, let h' := fold_left (fun h e => set_ed h e (mk_edge (e_kind (ed h e)) (e_tag (ed h e)) (Some f) (e_dst (ed h e)))) l h0 in
     nx h' = nx h0 /\ mp h' = mp h0 /\ bl h' = bl h0 /\
     forall n, ed h' n = if existsb (Nat.eqb n) l then mk_edge (e_kind (ed h0 n)) (e_tag (ed h0 n)) (Some f) (e_dst (ed h0 n)) else ed h0 n).
  { induction l as [|x l IH]; intros h0; cbn [fold_left existsb]; [repeat split|]. cbv zeta in *.
    destruct (IH (set_ed h0 x (mk_edge (e_kind (ed h0 x)) (e_tag (ed h0 x)) (Some f) (e_dst (ed h0 x))))) as (a & b & c & d).
    repeat split; [exact a|exact b|exact c|]. intro n. rewrite d. cbn. unfold upd. destruct (Nat.eqb_spec n x) as [->|Ne]; cbn; [|reflexivity].
    destruct (existsb _ l); reflexivity. }
  destruct (G (outs h t) h1) as (a & b & c & d). cbv zeta in *. split; [exact a|exact b| |exact d].
  intro n. rewrite c. unfold h1. cbn. unfold upd. reflexivity.
Qed.
Definition kill (p : region) (a : nat) : region := mk_reg (rb p) (rm p) (re p) (fun n => rd p n \/ n = a).
Lemma joined_edge : forall f t h h' n, joined f t h h' -> e_kind (ed h' n) = e_kind (ed h n) /\ e_tag (ed h' n) = e_tag (ed h n) /\ e_dst (ed h' n) = e_dst (ed h n).
Proof. intros f t h h' n H. rewrite (j_ed _ _ _ _ H). destruct (existsb _ _); auto. Qed.
Lemma joined_ins : forall f t h h' n, joined f t h h' -> ins h' n = ins h n.
Proof. intros f t h h' n H. unfold ins. rewrite (j_mp _ _ _ _ H), (j_bl _ _ _ _ H). destruct (Nat.eqb_spec n f) as [->|]; reflexivity. Qed.
Lemma joined_outs : forall f t h h' n, joined f t h h' -> n <> f -> outs h' n = outs h n.
Proof. intros f t h h' n H N. unfold outs. rewrite (j_mp _ _ _ _ H), (j_bl _ _ _ _ H). destruct (Nat.eqb_spec n f) as [->|]; [congruence|reflexivity]. Qed.
Lemma joined_outs_f : forall f t h h', joined f t h h' -> outs h' f = outs h t.
Proof. intros f t h h' H. unfold outs. rewrite (j_mp _ _ _ _ H), (j_bl _ _ _ _ H), Nat.eqb_refl. reflexivity. Qed.
Lemma joined_bk : forall f t h h' n, joined f t h h' -> bk (bl h' n) = bk (bl h n).
Proof. intros f t h h' n H. rewrite (j_bl _ _ _ _ H). destruct (Nat.eqb_spec n f) as [->|]; reflexivity. Qed.
Lemma joined_im : forall f t h h' n, joined f t h h' -> im (bl h' n) = im (bl h n).
Proof. intros f t h h' n H. rewrite (j_bl _ _ _ _ H). destruct (Nat.eqb_spec n f) as [->|]; reflexivity. Qed.
Lemma joined_out_of : forall f t h h' p c x, joined f t h h' -> rb p t -> rb p c -> In x (outs h' c) -> exists c', rb p c' /\ In x (outs h c').
Proof.
  intros f t h h' p c x H Ht Hc I. destruct (Nat.eq_dec c f) as [->|N]; [rewrite (joined_outs_f _ _ _ _ H) in I; eauto|].
  rewrite (joined_outs _ _ _ _ _ H N) in I. eauto.
Qed.
Lemma joined_wf : forall h h' p f t, wf h p -> rb p f -> rb p t -> joined f t h h' ->
  (forall c x, rb p c -> In x (outs h c) -> e_dst (ed h x) <> Some t) -> wf h' (kill p t).
Proof.
  intros h h' p f t W Hf Ht H Lone.
  assert (Om : forall c, rb p c -> exists c', rb p c' /\ om (bl h' c) = om (bl h c')).
  { intros c Hc. rewrite (j_bl _ _ _ _ H). destruct (Nat.eqb_spec c f); [exists t; auto|eauto]. }
  assert (Mp : forall m, mp h' m = mp h m) by (intro m; rewrite (j_mp _ _ _ _ H); reflexivity).
  split; cbn.
  - intros b Hb. rewrite (j_nx _ _ _ _ H). eapply w_b; eauto.
  - intros b Hb. rewrite (j_nx _ _ _ _ H). eapply w_m; eauto.
  - intros b Hb. rewrite (j_nx _ _ _ _ H). eapply w_e; eauto.
  - intros b Hb. rewrite (joined_im _ _ _ _ _ H). eapply w_im; eauto.
  - intros b Hb. destruct (Om b Hb) as (c & Hc & ->). eapply w_om; eauto.
  - intros m x Hm I. rewrite Mp in I. eapply w_mp; eauto.
  - intros x b Hx E. destruct (joined_edge _ _ _ _ x H) as (_ & _ & Q). rewrite Q in E. unfold ng. rewrite (joined_bk _ _ _ _ _ H). eapply w_dst; eauto.
  - intros x b Hx E. rewrite (j_ed _ _ _ _ H) in E. destruct (existsb _ _); [cbn in E; injection E as <-; exact Hf|eapply w_src; eauto].
  - intros x Hx. unfold cutb. destruct (joined_edge _ _ _ _ x H) as (_ & -> & _). apply (w_cut _ _ W x Hx).
  - intros b Hb. rewrite (joined_ins _ _ _ _ _ H). eapply w_ins; eauto.
  - intros b c Hb Hc. rewrite (joined_im _ _ _ _ _ H). destruct (Om c Hc) as (c' & Hc' & ->). eapply w_sep; eauto.
  - intros b x Hb I. rewrite (joined_ins _ _ _ _ _ H) in I. destruct (joined_edge _ _ _ _ x H) as (_ & _ & ->). eapply w_into; eauto.
  - intros b c x Hb Hc I O. rewrite (joined_ins _ _ _ _ _ H) in I. destruct (joined_out_of _ _ _ _ p c x H Ht Hc O) as (c' & Hc' & O').
    exact (w_io _ _ W b c' x Hb Hc' I O').
  - intros b [Hb| ->]; [eapply w_dead; eauto|exact Ht].
  - intros c x b Hc O E. destruct (joined_edge _ _ _ _ x H) as (_ & _ & Q). rewrite Q in E.
    destruct (joined_out_of _ _ _ _ p c x H Ht Hc O) as (c' & Hc' & O'). intros [K| ->]; [exact (w_alive _ _ W c' x b Hc' O' E K)|].
    exact (Lone c' x Hc' O' E).
Qed.
Lemma joined_chg : forall h h' p f t, wf h p -> rb p f -> rb p t -> joined f t h h' -> chg p h h'.
Proof.
  intros h h' p f t W Hf Ht H. split.
  - rewrite (j_nx _ _ _ _ H). lia.
  - intros n _ N. rewrite (j_bl _ _ _ _ H). destruct (Nat.eqb_spec n f) as [->|]; [tauto|reflexivity].
  - intros n _ _. rewrite (j_mp _ _ _ _ H). reflexivity.
  - intros n _ N. rewrite (j_ed _ _ _ _ H). destruct (existsb _ _) eqn:E; [|reflexivity]. apply existsb_spec in E. exfalso. apply N. eapply out_re; eauto.
Qed.

Section Join.
Variables (h h' : heap) (pA pB : region) (IA IB : list nat) (aA aB : nat) (flA : bool) (JA JB : nat -> option bool -> Prop)
  (eA xA eB xB : nat) (bA bB : bool) (KB : list nat).
Hypotheses (WA : wf h pA) (WB : wf h pB) (D : disj pA pB)
  (BA : base pA IA aA flA JA h) (BB : base pB IB aB true JB h) (EA : endp pA eA xA bA [] h) (EB : endp pB eB xB bB KB h)
  (H : joined xA aB h h').
Let p := union pA pB.
Let W : wf h p := wf_union h pA pB WA WB D.
Lemma jp_x : rb p xA.
Proof. left. apply (k_x _ _ _ _ _ _ EA). Qed.
Lemma jp_a : rb p aB.
Proof. right. apply (k_a _ _ _ _ _ _ BB). Qed.
Lemma jp_ne : xA <> aB.
Proof using D BB EA. intros E. pose proof D as (D1 & _). apply (D1 xA); [apply (k_x _ _ _ _ _ _ EA)|rewrite E; apply (k_a _ _ _ _ _ _ BB)]. Qed.
Lemma jp_dstA : forall c x b, rb pA c -> In x (outs h c) -> e_dst (ed h x) = Some b -> rb pA b /\ ng h b.
Proof using WA. intros c x b Hc O E. eapply w_dst; [exact WA|eapply out_re; eauto|exact E]. Qed.
Lemma jp_dstB : forall c x b, rb pB c -> In x (outs h c) -> e_dst (ed h x) = Some b -> rb pB b /\ ng h b /\ b <> aB.
Proof using WB BB.
  intros c x b Hc O E. destruct (w_dst _ _ WB x b (out_re _ _ _ _ WB Hc O) E). repeat split; auto. intros ->.
  exact (k_lone _ _ _ _ _ _ BB eq_refl c x Hc O E).
Qed.
Lemma jp_lone : forall c x, rb p c -> In x (outs h c) -> e_dst (ed h x) <> Some aB.
Proof using WA WB D BB.
  intros c x [Hc|Hc] O E.
  - pose proof D as (D1 & _). apply (D1 aB); [eapply jp_dstA; eauto|apply (k_a _ _ _ _ _ _ BB)].
  - destruct (jp_dstB c x aB Hc O E) as (_ & _ & N). congruence.
Qed.
Lemma joined_base : base (kill p aB) IA aA flA (fun x k => JA x k \/ JB x k) h'.
Proof using WA WB D BA BB EA H.
  pose proof D as (D1 & D2 & D3). split; cbn.
  - intros i Hi. rewrite !(joined_im _ _ _ _ _ H). destruct (k_i _ _ _ _ _ _ BA i Hi) as [Q1 Q2]. auto.
  - left. apply (k_a _ _ _ _ _ _ BA).
  - unfold ng. rewrite (joined_bk _ _ _ _ _ H). apply (k_ga _ _ _ _ _ _ BA).
  - intros [[K|K]|K].
    + exact (k_da _ _ _ _ _ _ BA K).
    + apply (D1 aA); [apply (k_a _ _ _ _ _ _ BA)|eapply w_dead; eauto].
    + apply (D1 aA); [apply (k_a _ _ _ _ _ _ BA)|rewrite K; apply (k_a _ _ _ _ _ _ BB)].
  - destruct (k_in _ _ _ _ _ _ BA) as [(x & I & Q) A]. unfold entry. rewrite (joined_ins _ _ _ _ _ H). split.
    + exists x. split; [exact I|]. unfold is_seq. destruct (joined_edge _ _ _ _ x H) as (-> & _ & _). exact Q.
    + intros y Iy. unfold is_seq. destruct (joined_edge _ _ _ _ y H) as (-> & _ & ->). apply A, Iy.
  - intro E. rewrite (joined_ins _ _ _ _ _ H). apply (k_one _ _ _ _ _ _ BA E).
  - intros E c x Hc O. destruct (joined_edge _ _ _ _ x H) as (_ & _ & ->).
    destruct (Nat.eq_dec c xA) as [->|N].
    + rewrite (joined_outs_f _ _ _ _ H) in O. intro Q. destruct (jp_dstB aB x aA (k_a _ _ _ _ _ _ BB) O Q) as (K & _).
      apply (D1 aA); [apply (k_a _ _ _ _ _ _ BA)|exact K].
    + rewrite (joined_outs _ _ _ _ _ H N) in O. destruct Hc as [Hc|Hc]; [apply (k_lone _ _ _ _ _ _ BA E c x Hc O)|].
      intro Q. destruct (jp_dstB c x aA Hc O Q) as (K & _). apply (D1 aA); [apply (k_a _ _ _ _ _ _ BA)|exact K].
  - intros x k K. unfold hang. destruct (joined_edge _ _ _ _ x H) as (-> & -> & ->).
    destruct K as [K|K]; [destruct (k_J _ _ _ _ _ _ BA x k K)|destruct (k_J _ _ _ _ _ _ BB x k K)]; auto.
  - intros x Rx. unfold is_seq. destruct (joined_edge _ _ _ _ x H) as (-> & _ & ->). intros S1 S2.
    destruct Rx as [Rx|Rx]; [destruct (k_all _ _ _ _ _ _ BA x Rx S1 S2) as [k K]|destruct (k_all _ _ _ _ _ _ BB x Rx S1 S2) as [k K]]; exists k; auto.
  - apply (k_u _ _ _ _ _ _ BA).
Qed.
Lemma joined_endp : exists x, endp (kill p aB) eB x (bA && bB) KB h'.
Proof using WA WB D BA BB EA EB H.
  pose proof D as (D1 & D2 & D3). pose proof (endp_re _ _ _ _ _ _ WB EB) as Re.
  destruct (in_dec Nat.eq_dec eB (outs h aB)) as [I|I].
  - pose proof (k_fe _ _ _ _ _ _ EB aB (k_a _ _ _ _ _ _ BB) (k_da _ _ _ _ _ _ BB) (k_ga _ _ _ _ _ _ BB) I) as Ex.
    exists xA. split; cbn.
    + left. apply (k_x _ _ _ _ _ _ EA).
    + unfold ng. rewrite (joined_bk _ _ _ _ _ H). apply (k_gx _ _ _ _ _ _ EA).
    + intros [[K|K]|K].
      * exact (k_dx _ _ _ _ _ _ EA K).
      * apply (D1 xA); [apply (k_x _ _ _ _ _ _ EA)|eapply w_dead; eauto].
      * exact (jp_ne K).
    + intro E. apply andb_true_iff in E as [E _]. unfold is_basic. rewrite (joined_bk _ _ _ _ _ H). apply (k_b _ _ _ _ _ _ EA E).
    + rewrite (j_ed _ _ _ _ H). apply existsb_spec in I. rewrite I, (k_e _ _ _ _ _ _ EB). reflexivity.
    + rewrite (joined_outs_f _ _ _ _ H), Ex. apply (k_xo _ _ _ _ _ _ EB).
    + intros c Hc Dc Gc O. destruct (Nat.eq_dec c xA) as [->|N]; [reflexivity|]. exfalso.
      rewrite (joined_outs _ _ _ _ _ H N) in O. unfold ng in Gc. rewrite (joined_bk _ _ _ _ _ H) in Gc. destruct Hc as [Hc|Hc].
      * apply (D3 eB); [eapply out_re; eauto|exact Re].
      * apply Dc. right. rewrite Ex. apply (k_fe _ _ _ _ _ _ EB); auto.
  - exists xB. split; cbn.
    + right. apply (k_x _ _ _ _ _ _ EB).
    + unfold ng. rewrite (joined_bk _ _ _ _ _ H). apply (k_gx _ _ _ _ _ _ EB).
    + intros [[K|K]|K].
      * apply (D1 xB); [eapply w_dead; eauto|apply (k_x _ _ _ _ _ _ EB)].
      * exact (k_dx _ _ _ _ _ _ EB K).
      * apply I. rewrite <- K, (k_xo _ _ _ _ _ _ EB). left. reflexivity.
    + intro E. apply andb_true_iff in E as [_ E]. unfold is_basic. rewrite (joined_bk _ _ _ _ _ H). apply (k_b _ _ _ _ _ _ EB E).
    + rewrite (j_ed _ _ _ _ H). destruct (existsb _ _) eqn:E; [apply existsb_spec in E; tauto|]. apply (k_e _ _ _ _ _ _ EB).
    + rewrite (joined_outs _ _ _ _ _ H); [apply (k_xo _ _ _ _ _ _ EB)|]. intros E. apply (D1 xB); [rewrite E; apply (k_x _ _ _ _ _ _ EA)|apply (k_x _ _ _ _ _ _ EB)].
    + intros c Hc Dc Gc O. unfold ng in Gc. rewrite (joined_bk _ _ _ _ _ H) in Gc. destruct (Nat.eq_dec c xA) as [->|N].
      { rewrite (joined_outs_f _ _ _ _ H) in O. tauto. }
      rewrite (joined_outs _ _ _ _ _ H N) in O. destruct Hc as [Hc|Hc].
      * exfalso. apply (D3 eB); [eapply out_re; eauto|exact Re].
      * apply (k_fe _ _ _ _ _ _ EB); auto.
Qed.
Lemma joined_pathB : forall b t y, rb pB b -> b <> aB -> path0 h b t y -> path0 h' b t y.
Proof using WA WB D BB EA H.
  intros b t y Hb Nb P. induction P as [b x I|b x b1 t z I Dx P IH].
  - assert (N : b <> xA) by (intros ->; pose proof D as (D1 & _); exact (D1 xA (k_x _ _ _ _ _ _ EA) Hb)).
    apply path0_end'; [rewrite (joined_outs _ _ _ _ _ H N); exact I|]. rewrite (j_bl _ _ _ _ H). destruct (Nat.eqb_spec b xA); [congruence|reflexivity].
  - assert (N : b <> xA) by (intros ->; pose proof D as (D1 & _); exact (D1 xA (k_x _ _ _ _ _ _ EA) Hb)).
    destruct (jp_dstB b x b1 Hb I Dx) as (K1 & K2 & K3).
    replace (items (bl h b)) with (items (bl h' b)) by (rewrite (j_bl _ _ _ _ H); destruct (Nat.eqb_spec b xA); [congruence|reflexivity]).
    eapply path0_go; [rewrite (joined_outs _ _ _ _ _ H N); exact I|destruct (joined_edge _ _ _ _ x H) as (_ & _ & ->); exact Dx|].
    apply IH; auto.
Qed.
Lemma leaves_app : forall a b, leaves (a ++ b) = leaves a ++ leaves b.
Proof. intros a b. unfold leaves. apply flat_map_app. Qed.
Lemma joined_pathX : forall t y, path0 h aB t y -> path0 h' xA (leaves (items (bl h xA)) ++ t) y.
Proof using WA WB D BB EA H.
  intros t y P.
  assert (Ei : leaves (items (bl h' xA)) = leaves (items (bl h xA)) ++ leaves (items (bl h aB))).
  { rewrite (j_bl _ _ _ _ H), Nat.eqb_refl. cbn. apply leaves_app. }
  inversion P as [b x I E1 E2|b x b1 t1 z I Dx P1 E1 E2 E3]; subst.
  - apply path0_end'; [rewrite (joined_outs_f _ _ _ _ H); exact I|]. rewrite Ei. reflexivity.
  - rewrite app_assoc, <- Ei. eapply path0_go; [rewrite (joined_outs_f _ _ _ _ H); exact I|destruct (joined_edge _ _ _ _ x H) as (_ & _ & ->); exact Dx|].
    destruct (jp_dstB aB x b1 (k_a _ _ _ _ _ _ BB) I Dx) as (K1 & K2 & K3). apply joined_pathB; auto.
Qed.
Lemma joined_path1 : forall b t t2 y, rb pA b -> ng h b -> ~ rd pA b -> path0 h b t eA -> path0 h aB t2 y -> path0 h' b (t ++ t2) y.
Proof using WA WB D BB EA H.
  intros b t t2 y Hb Gb Db P P2. remember eA as e eqn:Ee. induction P as [b x I|b x b1 t z I Dx P IH].
  - subst x. pose proof (k_fe _ _ _ _ _ _ EA b Hb Db Gb I) as ->. apply joined_pathX, P2.
  - assert (N : b <> xA).
    { intros ->. rewrite (k_xo _ _ _ _ _ _ EA) in I. destruct I as [<-|[]]. rewrite (k_e _ _ _ _ _ _ EA) in Dx. discriminate. }
    rewrite <- app_assoc. replace (items (bl h b)) with (items (bl h' b)) by (rewrite (j_bl _ _ _ _ H); destruct (Nat.eqb_spec b xA); [congruence|reflexivity]).
    destruct (jp_dstA b x b1 Hb I Dx) as [K1 K2].
    eapply path0_go; [rewrite (joined_outs _ _ _ _ _ H N); exact I|destruct (joined_edge _ _ _ _ x H) as (_ & _ & ->); exact Dx|].
    apply IH; auto. exact (w_alive _ _ WA b x b1 Hb I Dx).
Qed.
Lemma joined_path2 : forall b t y, rb pA b -> path0 h b t y -> y <> eA -> path0 h' b t y.
Proof using WA WB D BB EA H.
  intros b t y Hb P Ny. induction P as [b x I|b x b1 t z I Dx P IH].
  - assert (N : b <> xA) by (intros ->; rewrite (k_xo _ _ _ _ _ _ EA) in I; destruct I as [<-|[]]; congruence).
    apply path0_end'; [rewrite (joined_outs _ _ _ _ _ H N); exact I|]. rewrite (j_bl _ _ _ _ H). destruct (Nat.eqb_spec b xA); [congruence|reflexivity].
  - assert (N : b <> xA).
    { intros ->. rewrite (k_xo _ _ _ _ _ _ EA) in I. destruct I as [<-|[]]. rewrite (k_e _ _ _ _ _ _ EA) in Dx. discriminate. }
    replace (items (bl h b)) with (items (bl h' b)) by (rewrite (j_bl _ _ _ _ H); destruct (Nat.eqb_spec b xA); [congruence|reflexivity]).
    destruct (jp_dstA b x b1 Hb I Dx) as [K1 K2].
    eapply path0_go; [rewrite (joined_outs _ _ _ _ _ H N); exact I|destruct (joined_edge _ _ _ _ x H) as (_ & _ & ->); exact Dx|]. apply IH; auto.
Qed.
End Join.

(** ** Groups *)
Record grouped (p : region) (v i m : nat) (L : list nat) (h h' : heap) : Prop := {
  gr_nx : nx h <= nx h'; gr_v : v < nx h'; gr_m : m < nx h';
  gr_ed : ed h' = ed h;
  gr_mp : forall n, n < nx h -> n <> m -> mp h' n = mp h n;
  gr_L : mp h' m = L;
  gr_fm : nx h <= m \/ exists c, rb p c /\ m = om (bl h c) /\ L = mp h m;
  gr_bl : forall n, n <> v -> bl h' n = bl h n;
  gr_bv : exists its, bl h' v = mk_blk BK_GROUP its i m;
  gr_fv : nx h <= v \/ (rb p v /\ ~ ng h v /\ im (bl h v) = i);
  gr_i : exists c, rb p c /\ i = im (bl h c);
  gr_in : forall x, In x L -> exists c, rb p c /\ In x (outs h c) }.
Definition addg (p : region) (v m : nat) : region := mk_reg (fun n => rb p n \/ n = v) (fun n => rm p n \/ n = m) (re p) (rd p).
Section Grouped.
Variables (h h' : heap) (p : region) (v i m : nat) (L : list nat).
Hypotheses (W : wf h p) (G : grouped p v i m L h h').
Lemma gr_mp' : forall n, rm p n -> mp h' n = mp h n.
Proof using W G.
  intros n Hn. pose proof (w_m _ _ W n Hn). destruct (Nat.eq_dec n m) as [->|N]; [|apply (gr_mp _ _ _ _ _ _ _ G); auto].
  destruct (gr_fm _ _ _ _ _ _ _ G) as [K|(c & _ & _ & K)]; [lia|]. rewrite (gr_L _ _ _ _ _ _ _ G). exact K.
Qed.
Lemma gr_other : forall b, rb p b -> ng h b -> bl h' b = bl h b /\ b <> v.
Proof using W G.
  intros b Hb Gb. assert (b <> v). { intros ->. destruct (gr_fv _ _ _ _ _ _ _ G) as [K|(_ & K & _)]; [pose proof (w_b _ _ W v Hb); lia|tauto]. }
  split; [apply (gr_bl _ _ _ _ _ _ _ G); exact H|exact H].
Qed.
Lemma gr_im : forall b, rb p b -> im (bl h' b) = im (bl h b).
Proof using W G.
  intros b Hb. destruct (Nat.eq_dec b v) as [->|N]; [|rewrite (gr_bl _ _ _ _ _ _ _ G _ N); reflexivity].
  destruct (gr_bv _ _ _ _ _ _ _ G) as [its ->]. cbn. destruct (gr_fv _ _ _ _ _ _ _ G) as [K|(_ & _ & K)]; [pose proof (w_b _ _ W v Hb); lia|auto].
Qed.
Lemma gr_ins : forall b, rb p b -> ins h' b = ins h b.
Proof using W G. intros b Hb. unfold ins. rewrite gr_im by exact Hb. apply gr_mp'. eapply w_im; eauto. Qed.
Lemma gr_outs : forall b, rb p b -> b <> v -> outs h' b = outs h b.
Proof using W G. intros b Hb N. unfold outs. rewrite (gr_bl _ _ _ _ _ _ _ G _ N). apply gr_mp'. eapply w_om; eauto. Qed.
Lemma gr_outs_v : outs h' v = L.
Proof using G. unfold outs. destruct (gr_bv _ _ _ _ _ _ _ G) as [its ->]. apply (gr_L _ _ _ _ _ _ _ G). Qed.
Lemma gr_out_of : forall c x, rb (addg p v m) c -> In x (outs h' c) -> exists c', rb p c' /\ In x (outs h c').
Proof using W G.
  intros c x Hc I. destruct (Nat.eq_dec c v) as [->|N]; [rewrite gr_outs_v in I; apply (gr_in _ _ _ _ _ _ _ G x I)|].
  destruct Hc as [Hc|Hc]; [|congruence]. rewrite gr_outs in I by auto. eauto.
Qed.
Lemma gr_in_of : forall b, rb (addg p v m) b -> exists b', rb p b' /\ im (bl h' b) = im (bl h b').
Proof using W G.
  intros b [Hb| ->]; [exists b; split; [exact Hb|apply gr_im, Hb]|]. destruct (gr_bv _ _ _ _ _ _ _ G) as [its ->]. cbn.
  destruct (gr_i _ _ _ _ _ _ _ G) as (c & Hc & ->). eauto.
Qed.
Lemma gr_ins_of : forall b, rb (addg p v m) b -> exists b', rb p b' /\ ins h' b = ins h b'.
Proof using W G.
  intros b Hb. destruct (gr_in_of b Hb) as (b' & Hb' & E). exists b'. split; [exact Hb'|]. unfold ins. rewrite E. apply gr_mp'. eapply w_im; eauto.
Qed.
Lemma gr_om_of : forall c, rb (addg p v m) c -> (exists c', rb p c' /\ om (bl h' c) = om (bl h c')) \/ (nx h <= m /\ om (bl h' c) = m).
Proof using W G.
  intros c Hc. destruct (Nat.eq_dec c v) as [->|N].
  - destruct (gr_bv _ _ _ _ _ _ _ G) as [its ->]. cbn. destruct (gr_fm _ _ _ _ _ _ _ G) as [K|(c' & Hc' & -> & _)]; [right; auto|left; eauto].
  - destruct Hc as [Hc|Hc]; [|congruence]. left. exists c. rewrite (gr_bl _ _ _ _ _ _ _ G _ N). auto.
Qed.
Lemma grouped_wf : wf h' (addg p v m).
Proof using W G.
  pose proof (gr_nx _ _ _ _ _ _ _ G) as Ln. pose proof (gr_v _ _ _ _ _ _ _ G). pose proof (gr_m _ _ _ _ _ _ _ G).
  pose proof (gr_ed _ _ _ _ _ _ _ G) as Ed.
  split; cbn.
  - intros b [Hb| ->]; [pose proof (w_b _ _ W b Hb)|]; lia.
  - intros b [Hb| ->]; [pose proof (w_m _ _ W b Hb)|]; lia.
  - intros b Hb. pose proof (w_e _ _ W b Hb). lia.
  - intros b Hb. destruct (gr_in_of b Hb) as (b' & Hb' & ->). left. eapply w_im; eauto.
  - intros b Hb. destruct (gr_om_of b Hb) as [(c & Hc & ->)|[_ ->]]; [left; eapply w_om; eauto|auto].
  - intros n x Hn I. destruct (Nat.eq_dec n m) as [->|N].
    + rewrite (gr_L _ _ _ _ _ _ _ G) in I. destruct (gr_in _ _ _ _ _ _ _ G x I) as (c & Hc & O). eapply out_re; eauto.
    + destruct Hn as [Hn|Hn]; [|congruence]. rewrite gr_mp' in I by exact Hn. eapply w_mp; eauto.
  - intros x b Hx E. rewrite Ed in E. destruct (w_dst _ _ W x b Hx E) as [K1 K2]. split; [left; exact K1|]. unfold ng. destruct (gr_other b K1 K2) as [-> _]. exact K2.
  - intros x b Hx E. rewrite Ed in E. left. eapply w_src; eauto.
  - intros x Hx. rewrite Ed. eapply w_cut; eauto.
  - intros b Hb. destruct (gr_ins_of b Hb) as (b' & Hb' & ->). eapply w_ins; eauto.
  - intros b c Hb Hc. destruct (gr_in_of b Hb) as (b' & Hb' & ->). destruct (gr_om_of c Hc) as [(c' & Hc' & ->)|[K ->]]; [eapply w_sep; eauto|].
    pose proof (w_m _ _ W _ (w_im _ _ W b' Hb')). lia.
  - intros b x Hb I. rewrite Ed. destruct (gr_ins_of b Hb) as (b' & Hb' & E). rewrite E in I. eapply w_into; eauto.
  - intros b c x Hb Hc I O. destruct (gr_ins_of b Hb) as (b' & Hb' & E). rewrite E in I. destruct (gr_out_of c x Hc O) as (c' & Hc' & O').
    exact (w_io _ _ W b' c' x Hb' Hc' I O').
  - intros b Hb. left. eapply w_dead; eauto.
  - intros c x b Hc O E. rewrite Ed in E. destruct (gr_out_of c x Hc O) as (c' & Hc' & O'). exact (w_alive _ _ W c' x b Hc' O' E).
Qed.
Lemma grouped_chg : chg p h h'.
Proof using W G.
  split; [apply G|..].
  - intros n Hn N. apply (gr_bl _ _ _ _ _ _ _ G). intros ->. destruct (gr_fv _ _ _ _ _ _ _ G) as [K|(K & _)]; [lia|tauto].
  - intros n Hn N. destruct (Nat.eq_dec n m) as [->|Ne]; [|apply (gr_mp _ _ _ _ _ _ _ G); auto].
    destruct (gr_fm _ _ _ _ _ _ _ G) as [K|(c & _ & _ & K)]; [lia|]. rewrite (gr_L _ _ _ _ _ _ _ G). exact K.
  - intros n _ _. rewrite (gr_ed _ _ _ _ _ _ _ G). reflexivity.
Qed.
Lemma grouped_grows : grows h p (addg p v m).
Proof using W G.
  split; cbn; auto.
  - intros n [K| ->]; [auto|]. destruct (gr_fv _ _ _ _ _ _ _ G) as [K|(K & _)]; auto.
  - intros n [K| ->]; [auto|]. destruct (gr_fm _ _ _ _ _ _ _ G) as [K|(c & K & -> & _)]; [auto|]. left. eapply w_om; eauto.
Qed.
Lemma grouped_mono : mono p h h'.
Proof using W G.
  split.
  - intros b Hb Gb. unfold ng. destruct (gr_other b Hb Gb) as [-> _]. exact Gb.
  - intros b Hb Gb. destruct (gr_other b Hb Gb) as [-> _]. reflexivity.
  - intros b Hb Gb x I. destruct (gr_other b Hb Gb) as [_ N]. rewrite gr_outs by auto. exact I.
  - intros x d _ E. rewrite (gr_ed _ _ _ _ _ _ _ G). exact E.
Qed.
Lemma grouped_entry : forall b c, rb p b -> entry h b c -> entry h' b c.
Proof using W G. intros b c Hb E. unfold entry. rewrite (gr_ins b Hb), (gr_ed _ _ _ _ _ _ _ G). exact E. Qed.
Lemma grouped_base : forall I a fl J, base p I a fl J h -> base (addg p v m) I a fl J h'.
Proof using W G.
  intros I a fl J B. destruct B as [b1 b2 b3 b4 b5 b6 b6' b7 b8 b9]. split; cbn; auto.
  - intros j Hj. destruct (b1 j Hj) as [Q1 Q2]. split; [left; exact Q1|]. rewrite !gr_im by auto. exact Q2.
  - unfold ng. destruct (gr_other a b2 b3) as [-> _]. exact b3.
  - apply grouped_entry; auto.
  - intro E. rewrite gr_ins by auto. auto.
  - intros E c x Hc O. rewrite (gr_ed _ _ _ _ _ _ _ G). destruct (gr_out_of c x Hc O) as (c' & Hc' & O'). exact (b6' E c' x Hc' O').
  - unfold hang. rewrite (gr_ed _ _ _ _ _ _ _ G). exact b7.
  - rewrite (gr_ed _ _ _ _ _ _ _ G). exact b8.
Qed.
Lemma grouped_base_v : forall I a fl J, i = im (bl h a) -> base p I a fl J h -> base (addg p v m) (v :: I) a fl J h'.
Proof using W G.
  intros I a fl J Ei B. pose proof (grouped_base I a fl J B) as B'. destruct B' as [b1 b2 b3 b4 b5 b6 b6' b7 b8 b9]. split; auto.
  - intros j [<-|Hj]; [|auto]. split; [right; reflexivity|]. destruct (gr_bv _ _ _ _ _ _ _ G) as [its ->]. cbn. rewrite gr_im; [exact Ei|apply (k_a _ _ _ _ _ _ B)].
  - destruct b9 as [l ->]. exists (v :: l). reflexivity.
Qed.
Lemma grouped_endp : forall e x b K, endp p e x b K h -> endp (addg p v m) e x b K h'.
Proof using W G.
  intros e x b K [b1 b2 b3 b4 b5 b6 b7]. destruct (gr_other x b1 b2) as [Ex Nx]. split; cbn; auto.
  - unfold ng. rewrite Ex. exact b2.
  - rewrite Ex. exact b4.
  - rewrite (gr_ed _ _ _ _ _ _ _ G). exact b5.
  - rewrite gr_outs by auto. exact b6.
  - intros c Hc Dc Gc O. assert (N : c <> v).
    { intros ->. apply Gc. destruct (gr_bv _ _ _ _ _ _ _ G) as [its ->]. reflexivity. }
    destruct Hc as [Hc|Hc]; [|congruence]. rewrite gr_outs in O by auto. apply b7; auto. unfold ng in *. rewrite <- (gr_bl _ _ _ _ _ _ _ G c N). exact Gc.
Qed.
End Grouped.

Lemma grouped_add : forall p v i m L h h' l, grouped p v i m L h h' -> nx h <= m -> (forall x, In x l -> exists c, rb p c /\ In x (outs h c)) ->
  grouped p v i m (merge_set L l) h (add_outs h' v l).
Proof.
  intros p v i m L h h' l [a1 a2 a3 a4 a5 a6 a7 a8 (its & a9) a10 a11 a12] Hm Hl. unfold add_outs. rewrite a9. cbn [om]. rewrite a6. split; cbn; auto.
  - intros n Hn N. rewrite upd_other by auto. auto.
  - apply upd_same.
  - eauto.
  - intros x I. unfold merge_set in I. apply in_app_iff in I as [I|I]; [auto|]. apply filter_In in I as [I _]. auto.
Qed.
Lemma grouped_new : forall p h c, rb p c -> grouped p (nx h) (im (bl h c)) (1 + nx h) [] h (snd (new_grp (im (bl h c)) h)).
Proof.
  intros p h c Hc. split; cbn -[Nat.add]; try lia; eauto.
  - intros n Hn N. rewrite upd_other by lia. reflexivity.
  - rewrite upd_same. reflexivity.
  - intros n N. rewrite upd_other by auto. reflexivity.
  - exists []. rewrite upd_same. reflexivity.
Qed.
Lemma x_out_same : forall h h' b, ed h' = ed h -> outs h' b = outs h b -> x_out h' b = x_out h b.
Proof. intros h h' b E O. unfold x_out. rewrite E, O. reflexivity. Qed.
Lemma grp_spec : forall p h from to, wf h p -> rb p from -> rb p to -> to <> from ->
  exists v m h', grp h (Some from) (Some to) = Some (Some v, h') /\ nx h <= m /\
    grouped p v (im (bl h from)) m (merge_set (x_out h to) (x_jmp h from)) h h'.
Proof.
  intros p h from to W Hf Ht Ne. unfold grp.
  assert (Mt : forall l, merge_set [] l = l).
  { intro l. unfold merge_set. cbn. induction l as [|x l IH]; [reflexivity|]. cbn. rewrite IH. reflexivity. }
  assert (Ho : forall x, In x (x_out h to) -> exists c, rb p c /\ In x (outs h c)).
  { intros x I. unfold x_out in I. apply filter_In in I as [I _]. eauto. }
  assert (Hj : forall x, In x (x_jmp h from) -> exists c, rb p c /\ In x (outs h c)).
  { intros x I. unfold x_jmp in I. apply filter_In in I as [I _]. eauto. }
  destruct (bk (bl h from)) eqn:Bk.
  - exists (nx h), (1 + nx h). eexists. split; [reflexivity|]. split; [lia|].
    pose proof (grouped_new p h from Hf) as G. set (h1 := snd (new_grp (im (bl h from)) h)) in *.
    assert (E : x_out h1 to = x_out h to) by (apply x_out_same; [reflexivity|apply (gr_outs h h1 p _ _ _ _ W G to Ht); pose proof (w_b _ _ W to Ht); lia]).
    rewrite <- (Mt (x_out h to)). rewrite <- E in Ho. rewrite <- E at 1. apply grouped_add; [apply grouped_add; auto; lia|lia|auto].
  - exists from, (nx h). eexists. split; [reflexivity|]. split; [lia|].
    set (h1 := mk_heap _ _ _ _).
    assert (G : grouped p from (im (bl h from)) (nx h) [] h h1).
    { pose proof (w_b _ _ W from Hf). split; cbn; try lia; eauto.
      - intros n Hn N. rewrite upd_other by lia. reflexivity.
      - rewrite upd_same. reflexivity.
      - intros n N. rewrite upd_other by auto. reflexivity.
      - exists (items (bl h from)). rewrite upd_same. reflexivity.
      - right. split; [exact Hf|]. split; [unfold ng; rewrite Bk; tauto|reflexivity]. }
    assert (E : x_out h1 to = x_out h to) by (apply x_out_same; [reflexivity|apply (gr_outs h h1 p _ _ _ _ W G to Ht); exact Ne]).
    rewrite <- (Mt (x_out h to)). rewrite <- E in Ho. rewrite <- E at 1. apply grouped_add; [apply grouped_add; auto|lia|auto].
  - exists (nx h), (1 + nx h). eexists. split; [reflexivity|]. split; [lia|].
    pose proof (grouped_new p h from Hf) as G. set (h1 := snd (new_grp (im (bl h from)) h)) in *.
    assert (E : x_out h1 to = x_out h to) by (apply x_out_same; [reflexivity|apply (gr_outs h h1 p _ _ _ _ W G to Ht); pose proof (w_b _ _ W to Ht); lia]).
    rewrite <- (Mt (x_out h to)). rewrite <- E in Ho. rewrite <- E at 1. apply grouped_add; [apply grouped_add; auto; lia|lia|auto].
Qed.
