(** Proofs about building control flow graphs: what one link, one group, one new edge does. *)
From Coq Require Import Permutation ZifyBool ZifyNat.
From Verif Require Import Base GraphModel FlowModel FlowSpec.

(** ** Regions of memory *)
(** Blocks, maps, edges; and the blocks no edge leads to any more. *)
Record region := mk_reg { rb : nat -> Prop; rm : nat -> Prop; re : nat -> Prop; rd : nat -> Prop }.
Definition union (p q : region) : region :=
  mk_reg (fun n => rb p n \/ rb q n) (fun n => rm p n \/ rm q n) (fun n => re p n \/ re q n) (fun n => rd p n \/ rd q n).
Definition disj (p q : region) : Prop :=
  (forall n, rb p n -> rb q n -> False) /\ (forall n, rm p n -> rm q n -> False) /\ (forall n, re p n -> re q n -> False).
Definition ng (h : heap) (b : nat) : Prop := bk (bl h b) <> BK_GROUP.
Definition cutb (x : edge) : bool := has_bit (e_tag x) ET_CUT.
Record wf (h : heap) (p : region) : Prop := {
  w_b : forall b, rb p b -> b < nx h;
  w_m : forall m, rm p m -> m < nx h;
  w_e : forall x, re p x -> x < nx h;
  w_im : forall b, rb p b -> rm p (im (bl h b));
  w_om : forall b, rb p b -> rm p (om (bl h b));
  w_mp : forall m x, rm p m -> In x (mp h m) -> re p x;
  w_dst : forall x b, re p x -> e_dst (ed h x) = Some b -> rb p b /\ ng h b;
  w_src : forall x b, re p x -> e_src (ed h x) = Some b -> rb p b;
  w_cut : forall x, re p x -> cutb (ed h x) = false;
  w_ins : forall b, rb p b -> ins h b <> [];
  w_sep : forall b c, rb p b -> rb p c -> om (bl h c) <> im (bl h b);
  w_into : forall b x, rb p b -> In x (ins h b) -> e_dst (ed h x) <> None;
  w_io : forall b c x, rb p b -> rb p c -> In x (ins h b) -> In x (outs h c) -> False;
  w_dead : forall b, rd p b -> rb p b;
  w_alive : forall c x b, rb p c -> In x (outs h c) -> e_dst (ed h x) = Some b -> ~ rd p b }.
(** Only places in the region, or new ones, change. *)
Record chg (p : region) (h h' : heap) : Prop := {
  c_nx : nx h <= nx h';
  c_b : forall n, n < nx h -> ~ rb p n -> bl h' n = bl h n;
  c_m : forall n, n < nx h -> ~ rm p n -> mp h' n = mp h n;
  c_e : forall n, n < nx h -> ~ re p n -> ed h' n = ed h n }.
(** A region grows by new places only. *)
Record grows (h : heap) (p p' : region) : Prop := {
  g_b : forall n, rb p n -> rb p' n; g_b' : forall n, rb p' n -> rb p n \/ nx h <= n;
  g_m : forall n, rm p n -> rm p' n; g_m' : forall n, rm p' n -> rm p n \/ nx h <= n;
  g_e : forall n, re p n -> re p' n; g_e' : forall n, re p' n -> re p n \/ nx h <= n }.

Lemma chg_refl : forall p h, chg p h h.
Proof. intros p h. split; auto. Qed.
Lemma grows_refl : forall h p, grows h p p.
Proof. intros h p. split; auto. Qed.
Lemma chg_trans : forall p p' h h1 h2, chg p h h1 -> grows h p p' -> chg p' h1 h2 -> chg p h h2.
Proof.
  intros p p' h h1 h2 H1 G H2. split.
  - pose proof (c_nx _ _ _ H1). pose proof (c_nx _ _ _ H2). lia.
  - intros n L N. rewrite (c_b _ _ _ H2), (c_b _ _ _ H1); auto; [pose proof (c_nx _ _ _ H1); lia|].
    intro K. destruct (g_b' _ _ _ G n K); [auto|lia].
  - intros n L N. rewrite (c_m _ _ _ H2), (c_m _ _ _ H1); auto; [pose proof (c_nx _ _ _ H1); lia|].
    intro K. destruct (g_m' _ _ _ G n K); [auto|lia].
  - intros n L N. rewrite (c_e _ _ _ H2), (c_e _ _ _ H1); auto; [pose proof (c_nx _ _ _ H1); lia|].
    intro K. destruct (g_e' _ _ _ G n K); [auto|lia].
Qed.
Lemma grows_trans : forall h h1 p p1 p2, nx h <= nx h1 -> grows h p p1 -> grows h1 p1 p2 -> grows h p p2.
Proof.
  intros h h1 p p1 p2 L G1 G2. split; intros n H.
  - apply (g_b _ _ _ G2), (g_b _ _ _ G1), H.
  - destruct (g_b' _ _ _ G2 n H) as [K|K]; [apply (g_b' _ _ _ G1 n K)|right; lia].
  - apply (g_m _ _ _ G2), (g_m _ _ _ G1), H.
  - destruct (g_m' _ _ _ G2 n H) as [K|K]; [apply (g_m' _ _ _ G1 n K)|right; lia].
  - apply (g_e _ _ _ G2), (g_e _ _ _ G1), H.
  - destruct (g_e' _ _ _ G2 n H) as [K|K]; [apply (g_e' _ _ _ G1 n K)|right; lia].
Qed.
Lemma chg_union_l : forall p q h h', chg p h h' -> chg (union p q) h h'.
Proof. intros p q h h' H. split; [apply H|..]; intros n L N; apply H; auto; intro K; apply N; left; exact K. Qed.

Lemma wf_union : forall h p q, wf h p -> wf h q -> disj p q -> wf h (union p q).
Proof.
  intros h p q A B (D1 & D2 & D3). split; unfold union; cbn.
  - intros b [H|H]; [eapply w_b; [exact A|exact H]|eapply w_b; [exact B|exact H]].
  - intros b [H|H]; [eapply w_m; [exact A|exact H]|eapply w_m; [exact B|exact H]].
  - intros b [H|H]; [eapply w_e; [exact A|exact H]|eapply w_e; [exact B|exact H]].
  - intros b [H|H]; [left; eapply w_im; eauto|right; eapply w_im; eauto].
  - intros b [H|H]; [left; eapply w_om; eauto|right; eapply w_om; eauto].
  - intros m x [H|H] I; [left; eapply w_mp; eauto|right; eapply w_mp; eauto].
  - intros x b [H|H] I; [destruct (w_dst _ _ A x b H I)|destruct (w_dst _ _ B x b H I)]; auto.
  - intros x b [H|H] I; [left; eapply w_src; eauto|right; eapply w_src; eauto].
  - intros x [H|H]; [eapply w_cut; [exact A|exact H]|eapply w_cut; [exact B|exact H]].
  - intros b [H|H]; [eapply w_ins; [exact A|exact H]|eapply w_ins; [exact B|exact H]].
  - intros b c [H|H] [K|K] E.
    + exact (w_sep _ _ A b c H K E).
    + apply (D2 (om (bl h c))); [rewrite E; eapply w_im; eauto|eapply w_om; eauto].
    + apply (D2 (om (bl h c))); [eapply w_om; eauto|rewrite E; eapply w_im; eauto].
    + exact (w_sep _ _ B b c H K E).
  - intros b x [H|H] I; [eapply (w_into _ _ A); eauto|eapply (w_into _ _ B); eauto].
  - intros b c x [H|H] [K|K] I O.
    + exact (w_io _ _ A b c x H K I O).
    + apply (D3 x); [eapply w_mp; [exact A|eapply w_im; [exact A|exact H]|exact I]|eapply w_mp; [exact B|eapply w_om; [exact B|exact K]|exact O]].
    + apply (D3 x); [eapply w_mp; [exact A|eapply w_om; [exact A|exact K]|exact O]|eapply w_mp; [exact B|eapply w_im; [exact B|exact H]|exact I]].
    + exact (w_io _ _ B b c x H K I O).
  - intros b [H|H]; [left; eapply w_dead; eauto|right; eapply w_dead; eauto].
  - intros c x b [H|H] O E [D|D].
    + exact (w_alive _ _ A c x b H O E D).
    + apply (D1 b); [|eapply w_dead; eauto].
      eapply w_dst; [exact A|eapply w_mp; [exact A|eapply w_om; [exact A|exact H]|exact O]|exact E].
    + apply (D1 b); [eapply w_dead; eauto|].
      eapply w_dst; [exact B|eapply w_mp; [exact B|eapply w_om; [exact B|exact H]|exact O]|exact E].
    + exact (w_alive _ _ B c x b H O E D).
Qed.
(** What a region holds is the same after changes elsewhere. *)
Record same (p : region) (h h' : heap) : Prop := {
  s_nx : nx h <= nx h';
  s_b : forall n, rb p n -> bl h' n = bl h n;
  s_m : forall n, rm p n -> mp h' n = mp h n;
  s_e : forall n, re p n -> ed h' n = ed h n }.
Lemma chg_same : forall p q h h', chg q h h' -> wf h p -> disj p q -> same p h h'.
Proof.
  intros p q h h' C W (D1 & D2 & D3). split; [apply C|..]; intros n H.
  - apply (c_b _ _ _ C); [eapply w_b; eauto|]. intro K. eapply D1; eauto.
  - apply (c_m _ _ _ C); [eapply w_m; eauto|]. intro K. eapply D2; eauto.
  - apply (c_e _ _ _ C); [eapply w_e; eauto|]. intro K. eapply D3; eauto.
Qed.
Lemma same_ins : forall p h h' b, wf h p -> same p h h' -> rb p b -> ins h' b = ins h b.
Proof. intros p h h' b W S H. unfold ins. rewrite (s_b _ _ _ S b H). apply (s_m _ _ _ S). eapply w_im; eauto. Qed.
Lemma same_outs : forall p h h' b, wf h p -> same p h h' -> rb p b -> outs h' b = outs h b.
Proof. intros p h h' b W S H. unfold outs. rewrite (s_b _ _ _ S b H). apply (s_m _ _ _ S). eapply w_om; eauto. Qed.
Lemma wf_same : forall p h h', wf h p -> same p h h' -> wf h' p.
Proof.
  intros p h h' W S. pose proof (s_nx _ _ _ S) as Hn. split.
  - intros b H. pose proof (w_b _ _ W b H). lia.
  - intros b H. pose proof (w_m _ _ W b H). lia.
  - intros b H. pose proof (w_e _ _ W b H). lia.
  - intros b H. rewrite (s_b _ _ _ S b H). eapply w_im; eauto.
  - intros b H. rewrite (s_b _ _ _ S b H). eapply w_om; eauto.
  - intros m x H I. rewrite (s_m _ _ _ S m H) in I. eapply w_mp; eauto.
  - intros x b H I. rewrite (s_e _ _ _ S x H) in I. destruct (w_dst _ _ W x b H I) as [K1 K2]. split; [exact K1|].
    unfold ng in *. rewrite (s_b _ _ _ S b K1). exact K2.
  - intros x b H I. rewrite (s_e _ _ _ S x H) in I. eapply w_src; eauto.
  - intros x H. rewrite (s_e _ _ _ S x H). eapply w_cut; eauto.
  - intros b H. rewrite (same_ins p h h' b W S H). eapply w_ins; eauto.
  - intros b c H K. rewrite (s_b _ _ _ S b H), (s_b _ _ _ S c K). eapply w_sep; eauto.
  - intros b x H I. rewrite (same_ins p h h' b W S H) in I.
    assert (re p x) by (eapply w_mp; [exact W|eapply w_im; [exact W|exact H]|exact I]).
    rewrite (s_e _ _ _ S x); auto. eapply w_into; eauto.
  - intros b c x H K I O. rewrite (same_ins p h h' b W S H) in I. rewrite (same_outs p h h' c W S K) in O. eapply w_io; [exact W|exact H|exact K|exact I|exact O].
  - intros b H. eapply w_dead; eauto.
  - intros c x b H O E. rewrite (same_outs p h h' c W S H) in O.
    rewrite (s_e _ _ _ S x) in E by (eapply w_mp; [exact W|eapply w_om; [exact W|exact H]|exact O]). exact (w_alive _ _ W c x b H O E).
Qed.

(** ** Paths, without the marks of what is cut *)
Inductive path0 (h : heap) : nat -> list nat -> nat -> Prop :=
| path0_end b x : In x (outs h b) -> path0 h b (leaves (items (bl h b))) x
| path0_go b x b' t y : In x (outs h b) -> e_dst (ed h x) = Some b' -> path0 h b' t y ->
    path0 h b (leaves (items (bl h b)) ++ t) y.
Lemma path0_end' : forall h b x t, In x (outs h b) -> t = leaves (items (bl h b)) -> path0 h b t x.
Proof. intros h b x t H ->. apply path0_end, H. Qed.
Lemma path0_app : forall h b t x b' t' y, path0 h b t x -> e_dst (ed h x) = Some b' -> path0 h b' t' y -> path0 h b (t ++ t') y.
Proof.
  intros h b t x b' t' y H. induction H as [b x I|b x b1 t z I D H IH]; intros E K.
  - eapply path0_go; eauto.
  - rewrite <- app_assoc. eapply path0_go; eauto.
Qed.
(** Changes that keep blocks, edges and where edges lead. *)
Record mono (p : region) (h h' : heap) : Prop := {
  m_ng : forall b, rb p b -> ng h b -> ng h' b;
  m_items : forall b, rb p b -> ng h b -> items (bl h' b) = items (bl h b);
  m_outs : forall b, rb p b -> ng h b -> incl (outs h b) (outs h' b);
  m_dst : forall x d, re p x -> e_dst (ed h x) = Some d -> e_dst (ed h' x) = Some d }.
Lemma path0_mono : forall p h h' b t y, wf h p -> mono p h h' -> rb p b -> ng h b -> path0 h b t y -> path0 h' b t y.
Proof.
  intros p h h' b t y W M Hb Gb H. induction H as [b x I|b x b1 t z I D H IH].
  - apply path0_end'; [apply (m_outs _ _ _ M b Hb Gb), I|]. rewrite (m_items _ _ _ M b Hb Gb). reflexivity.
  - rewrite <- (m_items _ _ _ M b Hb Gb).
    assert (Rx : re p x) by (eapply w_mp; [exact W|eapply w_om; [exact W|exact Hb]|exact I]).
    destruct (w_dst _ _ W x b1 Rx D) as [D1 D2].
    eapply path0_go; [apply (m_outs _ _ _ M b Hb Gb), I|apply (m_dst _ _ _ M); eauto|]. apply IH; auto.
Qed.
Lemma mono_refl : forall p h, mono p h h.
Proof. intros p h. split; auto. intros b H K x; auto. Qed.
Lemma mono_trans : forall p p' h h1 h2, (forall n, rb p n -> rb p' n) -> (forall n, re p n -> re p' n) ->
  mono p h h1 -> mono p' h1 h2 -> mono p h h2.
Proof.
  intros p p' h h1 h2 G1 G2 A B. split.
  - intros b H K. apply (m_ng _ _ _ B); auto. apply (m_ng _ _ _ A); auto.
  - intros b H K. rewrite (m_items _ _ _ B), (m_items _ _ _ A); auto. apply (m_ng _ _ _ A); auto.
  - intros b H K x I. apply (m_outs _ _ _ B); [auto|apply (m_ng _ _ _ A); auto|]. apply (m_outs _ _ _ A); auto.
  - intros x d H D. apply (m_dst _ _ _ B); auto. apply (m_dst _ _ _ A); auto.
Qed.
Lemma same_mono : forall p h h', wf h p -> same p h h' -> mono p h h'.
Proof.
  intros p h h' W S. split.
  - intros b H. unfold ng. rewrite (s_b _ _ _ S b H). auto.
  - intros b H _. rewrite (s_b _ _ _ S b H). reflexivity.
  - intros b H _ x I. rewrite (same_outs p h h' b W S H). exact I.
  - intros x d H D. rewrite (s_e _ _ _ S x H). exact D.
Qed.
Lemma path_of_path0 : forall p h b t y, wf h p -> rb p b -> path0 h b t y -> path h b t y.
Proof.
  intros p h b t y W Hb H.
  assert (L : forall b, rb p b -> live h b).
  { intros c Hc. unfold live, is_in_cut. pose proof (w_ins _ _ W c Hc) as N.
    assert (F : forall x, In x (ins h c) -> cutb (ed h x) = false).
    { intros x I. apply (w_cut _ _ W). eapply w_mp; [exact W|eapply w_im; [exact W|exact Hc]|exact I]. }
    destruct (ins h c) as [|x l]; [congruence|]. cbn. unfold cutb in F. rewrite (F x); [reflexivity|left; reflexivity]. }
  induction H as [b x I|b x b1 t z I D H IH].
  - apply path_end; auto.
  - assert (re p x) by (eapply w_mp; [exact W|eapply w_om; [exact W|exact Hb]|exact I]).
    eapply path_go; eauto; [apply (w_cut _ _ W); auto|]. apply IH. eapply w_dst; eauto.
Qed.

(** ** Searching maps *)
Lemma find_perm : forall (f : nat -> bool) l l' e, Permutation l' l -> In e l -> f e = true -> (forall x, In x l -> f x = true -> x = e) ->
  find f l' = Some e.
Proof.
  intros f l l' e P I E U. destruct (find f l') as [x|] eqn:F.
  - apply find_some in F as [F1 F2]. f_equal. apply U; auto. eapply Permutation_in; eauto.
  - pose proof (find_none _ _ F e). rewrite E in H. discriminate H. eapply Permutation_in; [apply Permutation_sym, P|exact I].
Qed.
Lemma find_perm_none : forall (f : nat -> bool) l l', Permutation l' l -> (forall x, In x l -> f x = false) -> find f l' = None.
Proof.
  intros f l l' P U. destruct (find f l') as [x|] eqn:F; [|reflexivity].
  apply find_some in F as [F1 F2]. rewrite U in F2; [discriminate|]. eapply Permutation_in; eauto.
Qed.

Section Order.
Variable order : heap -> list nat -> list nat.
Hypothesis Hperm : forall h l, Permutation (order h l) l.

Lemma spread_cut_id : forall h from fs to, (forall x, In x (outs h from) -> cutb (ed h x) = false) -> spread_cut order h from fs to = h.
Proof using Hperm.
  intros h from fs to H. unfold spread_cut, is_out_cut. rewrite (find_perm_none _ (outs h from)); auto.
Qed.

(** ** Linking edges without joining *)
Lemma existsb_spec : forall x l, existsb (Nat.eqb x) l = true <-> In x l.
Proof.
  intros x l. rewrite existsb_exists. split; [intros (y & H & E); apply Nat.eqb_eq in E as ->; exact H|].
  intro H. exists x. rewrite Nat.eqb_refl. auto.
Qed.
Definition to_dst (x : edge) (a : nat) : edge := mk_edge (e_kind x) (e_tag x) (e_src x) (Some a).
Record linked (p : region) (fk : ekind) (ft : N) (tk : ekind) (a : nat) (l : list nat) (h h' : heap) : Prop := {
  l_nx : nx h <= nx h';
  l_bl : bl h' = bl h;
  l_mp : forall m, m <> im (bl h a) -> mp h' m = mp h m;
  l_in : exists new, mp h' (im (bl h a)) = ins h a ++ new /\ (forall x, In x new -> nx h <= x < nx h');
  l_ed : forall x, x < nx h -> ~ In x (ins h a) ->
           ed h' x = if existsb (Nat.eqb x) l && matches fk ft (ed h x) && hanging (ed h x) then to_dst (ed h x) a else ed h x;
  l_ins : forall x, In x (ins h a) -> e_kind (ed h' x) = e_kind (ed h x) /\ e_dst (ed h' x) = e_dst (ed h x);
  l_new : forall x, nx h <= x < nx h' -> e_dst (ed h' x) = Some a;
  l_cut : forall x, x < nx h' -> re p x \/ nx h <= x -> cutb (ed h' x) = false;
  l_src : forall x b, x < nx h' -> re p x \/ nx h <= x -> e_src (ed h' x) = Some b -> rb p b }.

Lemma add_to_ed : forall h m e, ed (add_to h m e) = ed h.
Proof. intros h m e. unfold add_to. destruct existsb; reflexivity. Qed.
Lemma add_to_bl : forall h m e, bl (add_to h m e) = bl h.
Proof. intros h m e. unfold add_to. destruct existsb; reflexivity. Qed.
Lemma add_to_nx : forall h m e, nx (add_to h m e) = nx h.
Proof. intros h m e. unfold add_to. destruct existsb; reflexivity. Qed.
Lemma add_to_other : forall h m e n, n <> m -> mp (add_to h m e) n = mp h n.
Proof.
  intros h m e n H. unfold add_to. destruct existsb; [reflexivity|]. cbn. unfold upd.
  destruct (Nat.eqb_spec n m); [congruence|reflexivity].
Qed.
Lemma add_to_new : forall h m e, ~ In e (mp h m) -> mp (add_to h m e) m = mp h m ++ [e].
Proof.
  intros h m e H. unfold add_to. destruct (existsb (Nat.eqb e) (mp h m)) eqn:E.
  - apply existsb_spec in E. tauto.
  - cbn. unfold upd. rewrite Nat.eqb_refl. reflexivity.
Qed.
Lemma upd_same : forall A (f : nat -> A) n x, upd f n x n = x.
Proof. intros. unfold upd. rewrite Nat.eqb_refl. reflexivity. Qed.
Lemma upd_other : forall A (f : nat -> A) n x m, m <> n -> upd f n x m = f m.
Proof. intros A f n x m H. unfold upd. destruct (Nat.eqb_spec m n); congruence. Qed.

Lemma linked_refl : forall p fk ft tk a h, wf h p -> linked p fk ft tk a [] h h.
Proof.
  intros p fk ft tk a h W. split; auto.
  - exists []. split; [unfold ins; rewrite app_nil_r; reflexivity|intros x []].
  - intros x L. lia.
  - intros x L [K|K]; [eapply w_cut; eauto|lia].
  - intros x b L [K|K] E; [eapply w_src; eauto|lia].
Qed.

Lemma link_step : forall p fk ft tk tt a done x h0 h,
  wf h0 p -> rb p a -> re p x -> ~ In x (ins h0 a) -> ~ In x done ->
  linked p fk ft tk a done h0 h -> linked p fk ft tk a (done ++ [x]) h0 (link_one order fk ft tk tt a h x).
Proof using Hperm.
  intros p fk ft tk tt a done x h0 h W Ha Hx Nx Nd L. unfold link_one.
  pose proof (w_e _ _ W x Hx) as Lx. pose proof (l_nx _ _ _ _ _ _ _ _ L) as Ln.
  assert (Ex : ed h x = ed h0 x).
  { rewrite (l_ed _ _ _ _ _ _ _ _ L x Lx Nx). destruct (existsb (Nat.eqb x) done) eqn:E; [apply existsb_spec in E; tauto|reflexivity]. }
  rewrite Ex. set (X := ed h0 x) in *.
  assert (EX : forall y, existsb (Nat.eqb y) (done ++ [x]) = existsb (Nat.eqb y) done || Nat.eqb y x).
  { intro y. rewrite existsb_app. cbn. rewrite orb_false_r. reflexivity. }
  destruct (matches fk ft X) eqn:M.
  2: { destruct L as [a1 a2 a3 a4 a5 a6 a7 a8 a9]. split; auto.
       intros y Ly Ny. rewrite EX, a5 by auto. destruct (Nat.eqb_spec y x) as [->|Ne]; [|rewrite orb_false_r; reflexivity].
       destruct (existsb (Nat.eqb x) done) eqn:E; [apply existsb_spec in E; tauto|]. fold X. rewrite M. reflexivity. }
  assert (Lh : let h1 := if hanging X then set_ed h x (to_dst X a) else h in
               linked p fk ft tk a (done ++ [x]) h0 h1 /\ bl h1 = bl h0 /\ nx h1 = nx h).
  { cbn zeta. destruct L as [a1 a2 a3 a4 a5 a6 a7 a8 a9].
    assert (G : forall y, y <> x -> existsb (Nat.eqb y) (done ++ [x]) = existsb (Nat.eqb y) done).
    { intros y Ne. rewrite EX. destruct (Nat.eqb_spec y x); [congruence|]. apply orb_false_r. }
    destruct (hanging X) eqn:HX.
    - split; [|split; [exact a2|reflexivity]]. split; auto; cbn.
      + intros y Ly Ny. unfold upd. destruct (Nat.eqb_spec y x) as [->|Ne].
        * rewrite EX, Nat.eqb_refl, orb_true_r. fold X. rewrite M, HX. reflexivity.
        * rewrite G by auto. apply a5; auto.
      + intros y Iy. unfold upd. destruct (Nat.eqb_spec y x) as [->|Ne]; [tauto|apply a6; auto].
      + intros y Ly. rewrite upd_other by lia. apply a7. lia.
      + intros y Ly K. unfold upd. destruct (Nat.eqb_spec y x) as [->|Ne]; [|apply a8; auto].
        unfold cutb, to_dst. cbn. apply (w_cut _ _ W x Hx).
      + intros y b Ly K. unfold upd. destruct (Nat.eqb_spec y x) as [->|Ne]; [|apply a9; auto].
        unfold to_dst. cbn. apply (w_src _ _ W x b Hx).
    - split; [|split; [exact a2|reflexivity]]. split; auto.
      intros y Ly Ny. destruct (Nat.eq_dec y x) as [->|Ne]; [|rewrite G by auto; apply a5; auto].
      rewrite a5 by auto. fold X. rewrite HX, !andb_false_r. reflexivity. }
  cbn zeta in Lh. unfold to_dst in Lh. set (h1 := if hanging X then _ else h) in *. destruct Lh as (L1 & B1 & N1). clearbody h1.
  (* the edge into [a] *)
  unfold hanging_in.
  assert (Fresh : forall k t, linked p fk ft tk a (done ++ [x]) h0
     (let (i, h') := (let (e, h') := new_edge h1 (mk_edge k t None (Some a)) in (e, add_to h' (im (bl h' a)) e)) in
      set_ed h' i (mk_edge (e_kind (ed h' i)) (e_tag X) (e_src X) (e_dst (ed h' i))))).
  { intros k t. cbn. destruct L1 as [a1 a2 a3 (new & a4 & a4') a5 a6 a7 a8 a9].
    assert (Nin : ~ In (nx h1) (mp h1 (im (bl h1 a)))).
    { rewrite B1, a4, in_app_iff. intros [K|K]; [|specialize (a4' _ K); lia].
      assert (re p (nx h1)) by (eapply w_mp; [exact W|eapply w_im; [exact W|exact Ha]|exact K]).
      pose proof (w_e _ _ W _ H). lia. }
    set (h2 := mk_heap (S (nx h1)) (upd (ed h1) (nx h1) (mk_edge k t None (Some a))) (mp h1) (bl h1)).
    assert (K2 : forall m e, ed (add_to h2 m e) = upd (ed h1) (nx h1) (mk_edge k t None (Some a))) by (intros; rewrite add_to_ed; reflexivity).
    split; cbn.
    - rewrite add_to_nx. cbn. lia.
    - rewrite add_to_bl. cbn. congruence.
    - intros m Hm. rewrite add_to_other by (cbn; congruence). cbn. apply a3. exact Hm.
    - exists (new ++ [nx h1]). split.
      + rewrite <- B1. change (bl h1) with (bl h2). rewrite add_to_new by exact Nin. cbn. rewrite B1, a4, app_assoc. reflexivity.
      + intros y Iy. rewrite add_to_nx. cbn. apply in_app_iff in Iy as [Iy|[<-|[]]]; [apply a4' in Iy; lia|lia].
    - intros y Ly Ny. rewrite !K2. rewrite !upd_other by lia. apply a5; auto.
    - intros y Iy. rewrite !K2. assert (y < nx h0).
      { apply (w_e _ _ W). eapply w_mp; [exact W|eapply w_im; [exact W|exact Ha]|exact Iy]. }
      rewrite !upd_other by lia. apply a6; auto.
    - intros y. rewrite add_to_nx. cbn. intro Ly. rewrite !K2. unfold upd at 1. destruct (Nat.eqb_spec y (nx h1)) as [->|Ne].
      + cbn. rewrite upd_same. reflexivity.
      + rewrite upd_other by auto. apply a7. lia.
    - intros y. rewrite add_to_nx. cbn. intros Ly K. rewrite !K2. unfold upd at 1. destruct (Nat.eqb_spec y (nx h1)) as [->|Ne].
      + unfold cutb. cbn. apply (w_cut _ _ W x Hx).
      + rewrite upd_other by auto. apply a8; auto. lia.
    - intros y b. rewrite add_to_nx. cbn. intros Ly K. rewrite !K2. unfold upd at 1. destruct (Nat.eqb_spec y (nx h1)) as [->|Ne].
      + cbn. apply (w_src _ _ W x b Hx).
      + rewrite upd_other by auto. apply a9; auto. lia. }
  assert (Reuse : forall i, In i (ins h1 a) -> linked p fk ft tk a (done ++ [x]) h0
     (set_ed h1 i (mk_edge (e_kind (ed h1 i)) (e_tag X) (e_src X) (e_dst (ed h1 i))))).
  { intros i Ii. unfold ins in Ii. destruct L1 as [a1 a2 a3 (new & a4 & a4') a5 a6 a7 a8 a9]. rewrite B1, a4, in_app_iff in Ii.
    split; cbn; auto.
    - exists new. auto.
    - intros y Ly Ny. rewrite upd_other; [apply a5; auto|]. intros ->. destruct Ii as [Ii|Ii]; [tauto|]. specialize (a4' _ Ii). lia.
    - intros y Iy. unfold upd. destruct (Nat.eqb_spec y i) as [->|Ne]; [|apply a6; auto]. cbn. apply a6; auto.
    - intros y Ly. unfold upd. destruct (Nat.eqb_spec y i) as [->|Ne]; [|apply a7; auto]. cbn. apply a7; auto.
    - intros y Ly K. unfold upd. destruct (Nat.eqb_spec y i) as [->|Ne]; [|apply a8; auto]. unfold cutb. cbn. apply (w_cut _ _ W x Hx).
    - intros y b Ly K. unfold upd. destruct (Nat.eqb_spec y i) as [->|Ne]; [|apply a9; auto]. cbn. apply (w_src _ _ W x b Hx). }
  destruct (find_edge_in order h1 (ins h1 a) tk tt) as [i|] eqn:F; [|apply Fresh].
  assert (Ii : In i (ins h1 a)).
  { unfold find_edge_in in F. apply find_some in F as [F _]. eapply Permutation_in; [apply Hperm|exact F]. }
  destruct (e_src (ed h1 i)) as [s|]; [destruct (same_ptr (Some s) (e_src X))|].
  - apply Reuse, Ii.
  - apply Fresh.
  - apply Reuse, Ii.
Qed.

(** Some edge of the kind asked for leads into the block afterwards. *)
Definition has_in (h : heap) (tk : ekind) (a : nat) : Prop := exists i, In i (ins h a) /\ e_kind (ed h i) = tk.
Lemma ekind_eqb_true : forall a b, ekind_eqb a b = true -> a = b.
Proof. intros [] []; cbn; congruence. Qed.
Lemma link_has : forall p fk ft tk tt a done x h0 h,
  wf h0 p -> rb p a -> linked p fk ft tk a done h0 h -> has_in h tk a \/ matches fk ft (ed h x) = true ->
  has_in (link_one order fk ft tk tt a h x) tk a.
Proof using Hperm.
  intros p fk ft tk tt a done x h0 h W Ha L H. unfold link_one. destruct (matches fk ft (ed h x)) eqn:M; [|destruct H as [H|H]; [exact H|discriminate]].
  assert (LT : forall i, In i (ins h a) -> i < nx h).
  { intros i I. destruct (l_in _ _ _ _ _ _ _ _ L) as (new & E & K). unfold ins in I. rewrite (l_bl _ _ _ _ _ _ _ _ L), E in I.
    apply in_app_iff in I as [I|I]; [|apply K, I]. pose proof (l_nx _ _ _ _ _ _ _ _ L).
    assert (re p i) by (eapply w_mp; [exact W|eapply w_im; [exact W|exact Ha]|exact I]). pose proof (w_e _ _ W i H1). lia. }
  set (X := ed h x) in *.
  set (h1 := if hanging X then _ else h).
  assert (E1 : mp h1 = mp h /\ bl h1 = bl h /\ nx h1 = nx h /\ forall i, e_kind (ed h1 i) = e_kind (ed h i)).
  { unfold h1. destruct (hanging X); [|repeat split]. repeat split. intro i. cbn. unfold upd. destruct (Nat.eqb_spec i x) as [->|]; reflexivity. }
  clearbody h1. destruct E1 as (E1 & E2 & E3 & E4).
  assert (I1 : ins h1 a = ins h a) by (unfold ins; rewrite E1, E2; reflexivity).
  unfold hanging_in.
  assert (Fresh : forall k t, k = tk -> has_in
     (let (i, h') := (let (e, h') := new_edge h1 (mk_edge k t None (Some a)) in (e, add_to h' (im (bl h' a)) e)) in
      set_ed h' i (mk_edge (e_kind (ed h' i)) (e_tag X) (e_src X) (e_dst (ed h' i)))) tk a).
  { intros k t ->. cbn. exists (nx h1). unfold ins. cbn. rewrite add_to_bl. cbn. split.
    - unfold add_to. cbn. destruct (existsb _ _) eqn:E; [apply existsb_spec in E; exact E|]. cbn. rewrite upd_same. apply in_app_iff. right. left. reflexivity.
    - rewrite upd_same. cbn. rewrite add_to_ed. cbn. rewrite upd_same. reflexivity. }
  assert (Reuse : forall i, In i (ins h1 a) -> e_kind (ed h1 i) = tk -> has_in (set_ed h1 i (mk_edge (e_kind (ed h1 i)) (e_tag X) (e_src X) (e_dst (ed h1 i)))) tk a).
  { intros i Ii K. exists i. split; [exact Ii|]. cbn. rewrite upd_same. exact K. }
  destruct (find_edge_in order h1 (ins h1 a) tk tt) as [i|] eqn:F; [|apply Fresh; reflexivity].
  unfold find_edge_in in F. apply find_some in F as [F F'].
  assert (Ii : In i (ins h1 a)) by (eapply Permutation_in; [apply Hperm|exact F]).
  apply andb_true_iff in F' as [F' _]. apply ekind_eqb_true in F'.
  destruct (e_src (ed h1 i)) as [s|]; [destruct (same_ptr (Some s) (e_src X))|]; [apply Reuse; auto|apply Fresh; reflexivity|apply Reuse; auto].
Qed.

Lemma link_edges_ok : forall p fk ft tk tt a l h,
  wf h p -> rb p a -> NoDup l -> (forall x, In x l -> re p x /\ ~ In x (ins h a)) ->
  linked p fk ft tk a l h (link_edges order fk ft tk tt a h l)
  /\ ((exists x, In x l /\ matches fk ft (ed h x) = true) -> has_in (link_edges order fk ft tk tt a h l) tk a).
Proof using Hperm.
  intros p fk ft tk tt a l h W Ha N H. unfold link_edges.
  assert (G : forall todo done h', linked p fk ft tk a done h h' -> NoDup (done ++ todo) ->
     (forall x, In x todo -> re p x /\ ~ In x (ins h a)) ->
     linked p fk ft tk a (done ++ todo) h (fold_left (link_one order fk ft tk tt a) todo h')
     /\ (has_in h' tk a \/ (exists x, In x todo /\ matches fk ft (ed h x) = true) -> has_in (fold_left (link_one order fk ft tk tt a) todo h') tk a)).
  { induction todo as [|x todo IH]; intros done h' L ND Q; cbn [fold_left].
    { rewrite app_nil_r. split; [exact L|]. intros [K|(x & [] & _)]. exact K. }
    replace (done ++ x :: todo) with ((done ++ [x]) ++ todo) by (rewrite <- app_assoc; reflexivity).
    destruct (Q x (or_introl eq_refl)) as [Q1 Q2].
    assert (Nx : ~ In x done) by (intro K; apply NoDup_remove_2 in ND; apply ND, in_app_iff; left; exact K).
    destruct (IH (done ++ [x]) (link_one order fk ft tk tt a h' x)) as [A B];
      [apply link_step; auto|rewrite <- app_assoc; exact ND|intros y I; apply Q; right; exact I|].
    split; [exact A|]. intro K. apply B. destruct K as [K|(y & [<-|Iy] & My)].
    - left. eapply link_has; eauto.
    - left. eapply link_has; eauto. right.
      rewrite (l_ed _ _ _ _ _ _ _ _ L x (w_e _ _ W x Q1) Q2). destruct (existsb (Nat.eqb x) done) eqn:E; [apply existsb_spec in E; tauto|exact My].
    - right. exists y. auto. }
  pose proof (Hperm h l) as Pm.
  destruct (G (order h l) [] h (linked_refl p fk ft tk a h W)) as [L R].
  { cbn. eapply Permutation_NoDup; [apply Permutation_sym, Pm|exact N]. }
  { intros x I. apply H. eapply Permutation_in; eauto. }
  cbn [app] in L. split.
  - destruct L as [a1 a2 a3 a4 a5 a6 a7 a8 a9]. split; auto.
    intros x Lx Nx. rewrite a5 by auto. replace (existsb (Nat.eqb x) (order h l)) with (existsb (Nat.eqb x) l); [reflexivity|].
    apply eq_true_iff_eq. rewrite !existsb_spec. split; intro K; [eapply Permutation_in; [apply Permutation_sym, Pm|exact K]|eapply Permutation_in; eauto].
  - intros (x & Ix & Mx). apply R. right. exists x. split; [eapply Permutation_in; [apply Permutation_sym, Pm|exact Ix]|exact Mx].
Qed.

(** The region after it. *)
Definition more_edges (p : region) (lo hi : nat) : region := mk_reg (rb p) (rm p) (fun n => re p n \/ lo <= n < hi) (rd p).
Lemma linked_wf : forall p fk ft tk a l h h', wf h p -> rb p a -> ng h a -> ~ rd p a -> linked p fk ft tk a l h h' -> wf h' (more_edges p (nx h) (nx h')).
Proof.
  intros p fk ft tk a l h h' W Ha Ga Da L. pose proof (l_nx _ _ _ _ _ _ _ _ L) as Ln.
  destruct (l_in _ _ _ _ _ _ _ _ L) as (new & Ei & Hi).
  assert (Mp : forall m x, rm p m -> In x (mp h' m) -> re p x \/ nx h <= x < nx h').
  { intros m x Hm I. destruct (Nat.eq_dec m (im (bl h a))) as [->|Ne].
    - rewrite Ei in I. apply in_app_iff in I as [I|I]; [left; eapply w_mp; eauto|right; auto].
    - rewrite (l_mp _ _ _ _ _ _ _ _ L m Ne) in I. left. eapply w_mp; eauto. }
  assert (Dst : forall x d, re p x -> e_dst (ed h' x) = Some d -> d = a \/ e_dst (ed h x) = Some d).
  { intros x d Hx E. destruct (in_dec Nat.eq_dec x (ins h a)) as [I|I].
    - destruct (l_ins _ _ _ _ _ _ _ _ L x I) as [_ K]. rewrite K in E. right. exact E.
    - rewrite (l_ed _ _ _ _ _ _ _ _ L x (w_e _ _ W x Hx) I) in E. destruct (_ && _ && _); [|right; exact E].
      unfold to_dst in E. cbn in E. left. congruence. }
  split; cbn.
  - intros b H. pose proof (w_b _ _ W b H). lia.
  - intros b H. pose proof (w_m _ _ W b H). lia.
  - intros x [H|H]; [pose proof (w_e _ _ W x H)|]; lia.
  - intros b H. rewrite (l_bl _ _ _ _ _ _ _ _ L). eapply w_im; eauto.
  - intros b H. rewrite (l_bl _ _ _ _ _ _ _ _ L). eapply w_om; eauto.
  - intros m x H I. eapply Mp; eauto.
  - intros x b [H|H] E.
    + unfold ng. rewrite (l_bl _ _ _ _ _ _ _ _ L). destruct (Dst x b H E) as [->|K]; [split; [exact Ha|exact Ga]|eapply w_dst; eauto].
    + rewrite (l_new _ _ _ _ _ _ _ _ L x H) in E. injection E as <-. unfold ng. rewrite (l_bl _ _ _ _ _ _ _ _ L). auto.
  - intros x b K E. eapply (l_src _ _ _ _ _ _ _ _ L x b); [|tauto|exact E]. destruct K as [K|K]; [pose proof (w_e _ _ W x K)|]; lia.
  - intros x K. eapply (l_cut _ _ _ _ _ _ _ _ L x); [|tauto]. destruct K as [K|K]; [pose proof (w_e _ _ W x K)|]; lia.
  - intros b H E. pose proof (w_ins _ _ W b H) as N. apply N. unfold ins in *. rewrite (l_bl _ _ _ _ _ _ _ _ L) in E.
    destruct (Nat.eq_dec (im (bl h b)) (im (bl h a))) as [K|K].
    + rewrite K in E |- *. rewrite Ei in E. apply app_eq_nil in E as [E _]. exact E.
    + rewrite (l_mp _ _ _ _ _ _ _ _ L) in E by auto. exact E.
  - intros b c H K. rewrite (l_bl _ _ _ _ _ _ _ _ L). eapply w_sep; eauto.
  - intros b x H I E. unfold ins in I. rewrite (l_bl _ _ _ _ _ _ _ _ L) in I.
    destruct (Nat.eq_dec (im (bl h b)) (im (bl h a))) as [K|K].
    + rewrite K, Ei in I. apply in_app_iff in I as [I|I].
      * destruct (l_ins _ _ _ _ _ _ _ _ L x I) as [_ Q]. rewrite Q in E. eapply (w_into _ _ W a x); eauto.
      * rewrite (l_new _ _ _ _ _ _ _ _ L x) in E; [discriminate|]. apply Hi, I.
    + rewrite (l_mp _ _ _ _ _ _ _ _ L) in I by auto.
      pose proof (w_into _ _ W b x H I) as Q.
      assert (Rx : re p x) by (eapply w_mp; [exact W|eapply w_im; [exact W|exact H]|exact I]).
      destruct (in_dec Nat.eq_dec x (ins h a)) as [I'|I'].
      * destruct (l_ins _ _ _ _ _ _ _ _ L x I') as [_ Q']. congruence.
      * rewrite (l_ed _ _ _ _ _ _ _ _ L x (w_e _ _ W x Rx) I') in E. destruct (_ && _ && _); [discriminate E|tauto].
  - intros b c x H K I O. unfold ins, outs in I, O. rewrite (l_bl _ _ _ _ _ _ _ _ L) in I, O.
    rewrite (l_mp _ _ _ _ _ _ _ _ L) in O by (eapply w_sep; [exact W|exact Ha|exact K]).
    destruct (Nat.eq_dec (im (bl h b)) (im (bl h a))) as [Q|Q].
    + rewrite Q, Ei in I. apply in_app_iff in I as [I|I].
      * exact (w_io _ _ W a c x Ha K I O).
      * assert (Rx : re p x) by (eapply w_mp; [exact W|eapply w_om; [exact W|exact K]|exact O]).
        pose proof (w_e _ _ W x Rx). specialize (Hi _ I). lia.
    + rewrite (l_mp _ _ _ _ _ _ _ _ L) in I by auto. exact (w_io _ _ W b c x H K I O).
  - intros b H. eapply w_dead; eauto.
  - intros c x b H O E. unfold outs in O. rewrite (l_bl _ _ _ _ _ _ _ _ L) in O.
    rewrite (l_mp _ _ _ _ _ _ _ _ L) in O by (eapply w_sep; [exact W|exact Ha|exact H]).
    assert (Rx : re p x) by (eapply w_mp; [exact W|eapply w_om; [exact W|exact H]|exact O]).
    destruct (Dst x b Rx E) as [->|K]; [exact Da|]. exact (w_alive _ _ W c x b H O K).
Qed.
Lemma linked_chg : forall p fk ft tk a l h h', wf h p -> rb p a -> (forall x, In x l -> re p x) -> linked p fk ft tk a l h h' -> chg p h h'.
Proof.
  intros p fk ft tk a l h h' W Ha Hl L. split.
  - apply L.
  - intros n _ _. rewrite (l_bl _ _ _ _ _ _ _ _ L). reflexivity.
  - intros n _ N. apply (l_mp _ _ _ _ _ _ _ _ L). intros ->. apply N. eapply w_im; eauto.
  - intros n Ln N. rewrite (l_ed _ _ _ _ _ _ _ _ L n Ln).
    + destruct (existsb (Nat.eqb n) l) eqn:E; [apply existsb_spec in E; exfalso; auto|reflexivity].
    + intro I. apply N. eapply w_mp; [exact W|eapply w_im; [exact W|exact Ha]|exact I].
Qed.
Lemma linked_grows : forall p fk ft tk a l h h', linked p fk ft tk a l h h' -> grows h p (more_edges p (nx h) (nx h')).
Proof. intros. split; cbn; auto. intros n [K|K]; [left; exact K|right; lia]. Qed.
Lemma linked_outs : forall p fk ft tk a l h h' b, wf h p -> rb p a -> rb p b -> linked p fk ft tk a l h h' -> outs h' b = outs h b.
Proof.
  intros p fk ft tk a l h h' b W Ha Hb L. unfold outs. rewrite (l_bl _ _ _ _ _ _ _ _ L). apply (l_mp _ _ _ _ _ _ _ _ L). eapply w_sep; eauto.
Qed.
Lemma linked_mono : forall p fk ft tk a l h h', wf h p -> rb p a -> linked p fk ft tk a l h h' -> mono p h h'.
Proof.
  intros p fk ft tk a l h h' W Ha L. split.
  - intros b H. unfold ng. rewrite (l_bl _ _ _ _ _ _ _ _ L). auto.
  - intros b H _. rewrite (l_bl _ _ _ _ _ _ _ _ L). reflexivity.
  - intros b H _ x I. rewrite (linked_outs p fk ft tk a l h h' b); auto.
  - intros x d H D. destruct (in_dec Nat.eq_dec x (ins h a)) as [I|I].
    + destruct (l_ins _ _ _ _ _ _ _ _ L x I) as [_ K]. congruence.
    + rewrite (l_ed _ _ _ _ _ _ _ _ L x (w_e _ _ W x H) I). unfold hanging. rewrite D, andb_false_r. exact D.
Qed.
End Order.
