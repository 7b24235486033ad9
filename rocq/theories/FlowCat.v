(** Proofs about building control flow graphs: new jumps, loops, and fragments one after the other. *)
From Coq Require Import Permutation ZifyBool ZifyNat.
From Verif Require Import Base GraphModel FlowModel FlowSpec FlowProofs FlowFrag FlowSteps.

Definition adde (p : region) (j : nat) : region := mk_reg (rb p) (rm p) (fun n => re p n \/ n = j) (rd p).
(** An edge added to some maps. *)
Record added (p : region) (j : nat) (y : edge) (ms : nat -> Prop) (h h' : heap) : Prop := {
  ad_j : j = nx h; ad_nx : nx h' = S (nx h); ad_bl : bl h' = bl h;
  ad_ed : forall n, ed h' n = if Nat.eqb n j then y else ed h n;
  ad_mp : forall m, (ms m -> mp h' m = mp h m ++ [j]) /\ (~ ms m -> mp h' m = mp h m);
  ad_dec : forall m, ms m \/ ~ ms m }.
Section Added.
Variables (h h' : heap) (p : region) (j : nat) (y : edge) (ms : nat -> Prop).
Hypotheses (W : wf h p) (A : added p j y ms h h').
Lemma ad_old : forall x, re p x -> ed h' x = ed h x.
Proof using W A. intros x Hx. rewrite (ad_ed _ _ _ _ _ _ A). pose proof (w_e _ _ W x Hx). pose proof (ad_j _ _ _ _ _ _ A). destruct (Nat.eqb_spec x j); [lia|reflexivity]. Qed.
Lemma ad_in : forall m x, In x (mp h' m) -> In x (mp h m) \/ (x = j /\ ms m).
Proof using A.
  intros m x I. destruct (ad_mp _ _ _ _ _ _ A m) as [K1 K2]. destruct (ad_dec _ _ _ _ _ _ A m) as [Q|Q].
  - rewrite (K1 Q) in I. apply in_app_iff in I as [I|[<-|[]]]; auto.
  - rewrite (K2 Q) in I. auto.
Qed.
Lemma ad_sup : forall m x, In x (mp h m) -> In x (mp h' m).
Proof using A.
  intros m x I. destruct (ad_mp _ _ _ _ _ _ A m) as [K1 K2]. destruct (ad_dec _ _ _ _ _ _ A m) as [Q|Q]; [rewrite (K1 Q); apply in_app_iff; auto|rewrite (K2 Q); exact I].
Qed.
Lemma added_chg : (forall m, ms m -> rm p m) -> chg p h h'.
Proof using W A.
  intro Hm. split.
  - rewrite (ad_nx _ _ _ _ _ _ A). lia.
  - intros n _ _. rewrite (ad_bl _ _ _ _ _ _ A). reflexivity.
  - intros n _ N. apply (ad_mp _ _ _ _ _ _ A n). intro K. apply N, Hm, K.
  - intros n Hn _. rewrite (ad_ed _ _ _ _ _ _ A). pose proof (ad_j _ _ _ _ _ _ A). destruct (Nat.eqb_spec n j); [lia|reflexivity].
Qed.
Lemma added_grows : grows h p (adde p j).
Proof using A. split; cbn; auto. intros n [K| ->]; [auto|]. right. rewrite (ad_j _ _ _ _ _ _ A). lia. Qed.
Lemma added_mono : mono p h h'.
Proof using W A.
  split.
  - intros b _. unfold ng. rewrite (ad_bl _ _ _ _ _ _ A). auto.
  - intros b _ _. rewrite (ad_bl _ _ _ _ _ _ A). reflexivity.
  - intros b _ _ x I. unfold outs in *. rewrite (ad_bl _ _ _ _ _ _ A). apply ad_sup, I.
  - intros x d Hx E. rewrite ad_old by exact Hx. exact E.
Qed.
Lemma added_wf : cutb y = false -> (forall d, e_dst y = Some d -> rb p d /\ ng h d) -> (forall d, e_src y = Some d -> rb p d) ->
  (forall b, rb p b -> ms (im (bl h b)) -> e_dst y <> None) -> (forall b c, rb p b -> rb p c -> ms (im (bl h b)) -> ms (om (bl h c)) -> False) ->
  (forall c, rb p c -> ms (om (bl h c)) -> e_dst y = None) -> wf h' (adde p j).
Proof using W A.
  intros Hc Hd Hs Hi Hio Ho. pose proof (ad_j _ _ _ _ _ _ A) as Ej. pose proof (ad_nx _ _ _ _ _ _ A) as En. pose proof (ad_bl _ _ _ _ _ _ A) as Eb.
  assert (Ey : ed h' j = y) by (rewrite (ad_ed _ _ _ _ _ _ A), Nat.eqb_refl; reflexivity).
  split; cbn.
  - intros b H. pose proof (w_b _ _ W b H). lia.
  - intros b H. pose proof (w_m _ _ W b H). lia.
  - intros b [H| ->]; [pose proof (w_e _ _ W b H)|]; lia.
  - intros b H. rewrite Eb. eapply w_im; eauto.
  - intros b H. rewrite Eb. eapply w_om; eauto.
  - intros m x H I. destruct (ad_in m x I) as [K|[K _]]; [left; eapply w_mp; eauto|auto].
  - intros x b [H| ->] E; unfold ng; rewrite Eb; [rewrite ad_old in E by exact H; eapply w_dst; eauto|rewrite Ey in E; apply Hd, E].
  - intros x b [H| ->] E; [rewrite ad_old in E by exact H; eapply w_src; eauto|rewrite Ey in E; apply Hs, E].
  - intros x [H| ->]; [rewrite ad_old by exact H; eapply w_cut; eauto|rewrite Ey; exact Hc].
  - intros b H E. unfold ins in E. rewrite Eb in E. apply (w_ins _ _ W b H). unfold ins. destruct (mp h (im (bl h b))) as [|x l] eqn:Q; [reflexivity|].
    pose proof (ad_sup (im (bl h b)) x) as K. rewrite Q, E in K. destruct K. left. reflexivity.
  - intros b c H K. rewrite Eb. eapply w_sep; eauto.
  - intros b x H I. unfold ins in I. rewrite Eb in I. destruct (ad_in _ _ I) as [K|[-> K]].
    + rewrite ad_old; [eapply w_into; eauto|]. eapply in_re; eauto.
    + rewrite Ey. eapply Hi; eauto.
  - intros b c x H K I O. unfold ins, outs in I, O. rewrite Eb in I, O. destruct (ad_in _ _ I) as [I'|[-> I']]; destruct (ad_in _ _ O) as [O'|[E O']].
    + exact (w_io _ _ W b c x H K I' O').
    + subst x. pose proof (w_e _ _ W j (in_re _ _ _ _ W H I')). lia.
    + pose proof (w_e _ _ W j (out_re _ _ _ _ W K O')). lia.
    + exact (Hio b c H K I' O').
  - intros b H. eapply w_dead; eauto.
  - intros c x b H O E. unfold outs in O. rewrite Eb in O. destruct (ad_in _ _ O) as [O'|[-> O']].
    + rewrite ad_old in E by (eapply out_re; eauto). exact (w_alive _ _ W c x b H O' E).
    + rewrite Ey, (Ho c H O') in E. discriminate.
Qed.
Lemma added_entry : forall i c, rb p i -> (ms (im (bl h i)) -> is_seq y = false) -> entry h i c -> entry h' i c.
Proof using W A.
  intros i c Hi Hs [(x & I & Q) E]. unfold entry, ins. rewrite (ad_bl _ _ _ _ _ _ A). split.
  - exists x. split; [apply ad_sup, I|]. rewrite ad_old by (eapply in_re; eauto). exact Q.
  - intros z Iz Qz. destruct (ad_in _ _ Iz) as [K|[-> K]].
    + rewrite ad_old in Qz |- * by (eapply in_re; eauto). apply E; auto.
    + rewrite (ad_ed _ _ _ _ _ _ A), Nat.eqb_refl in Qz. rewrite (Hs K) in Qz. discriminate.
Qed.
End Added.

Lemma add_to_mp : forall h m e n, ~ In e (mp h m) -> mp (add_to h m e) n = if Nat.eqb n m then mp h m ++ [e] else mp h n.
Proof. intros h m e n N. destruct (Nat.eqb_spec n m) as [->|Ne]; [apply add_to_new, N|apply add_to_other, Ne]. Qed.
Lemma add_two : forall p h y m1 m2, wf h p -> rm p m1 -> rm p m2 ->
  let h1 := mk_heap (S (nx h)) (upd (ed h) (nx h) y) (mp h) (bl h) in
  added p (nx h) y (fun m => m = m1 \/ m = m2) h (add_to (add_to h1 m1 (nx h)) m2 (nx h))
  /\ added p (nx h) y (fun m => m = m1) h (add_to h1 m1 (nx h)).
Proof.
  intros p h y m1 m2 W H1 H2 h1.
  assert (N : forall m, rm p m -> ~ In (nx h) (mp h m)) by (intros m Hm I; pose proof (w_e _ _ W _ (w_mp _ _ W m _ Hm I)); lia).
  assert (B : forall m, mp (add_to h1 m1 (nx h)) m = if Nat.eqb m m1 then mp h m1 ++ [nx h] else mp h m) by (intro m; rewrite add_to_mp by (apply N, H1); reflexivity).
  split; split; rewrite ?add_to_nx, ?add_to_bl, ?add_to_ed; try reflexivity; try (intro n; lia).
  - intro m. destruct (Nat.eq_dec m1 m2) as [<-|Ne].
    + assert (E : add_to (add_to h1 m1 (nx h)) m1 (nx h) = add_to h1 m1 (nx h)).
      { unfold add_to at 1. rewrite B, Nat.eqb_refl. replace (existsb (Nat.eqb (nx h)) (mp h m1 ++ [nx h])) with true; [reflexivity|].
        symmetry. apply existsb_spec, in_app_iff. right. left. reflexivity. }
      rewrite E, B. destruct (Nat.eqb_spec m m1) as [->|Nm]; split; intro K; try reflexivity; lia.
    + rewrite add_to_mp; [|rewrite B; destruct (Nat.eqb_spec m2 m1); [congruence|apply N, H2]].
      rewrite !B. destruct (Nat.eqb_spec m m2) as [->|Nm].
      * destruct (Nat.eqb_spec m2 m1); [congruence|]. split; intro K; [reflexivity|lia].
      * destruct (Nat.eqb_spec m m1) as [->|Nm1]; split; intro K; try reflexivity; lia.
  - intro m. rewrite B. destruct (Nat.eqb_spec m m1) as [->|Nm]; split; intro K; try reflexivity; lia.
Qed.

(** ** An edge that leads somewhere gets another kind or tag *)
Lemma rekind : forall p h q k t, wf h p -> re p q -> e_dst (ed h q) <> None -> (forall b, rb p b -> ~ In q (ins h b)) -> has_bit t ET_CUT = false ->
  let h' := set_ed h q (mk_edge k t (e_src (ed h q)) (e_dst (ed h q))) in
  wf h' p /\ chg p h h' /\ mono p h h' /\ (forall I a fl J, base p I a fl J h -> base p I a fl J h')
  /\ (forall e x b K, endp p e x b K h -> endp p e x b K h').
Proof.
  intros p h q k t W Hq Dq Nq Ht h'.
  assert (Eo : forall x, x <> q -> ed h' x = ed h x) by (intros x N; unfold h'; cbn; apply upd_other, N).
  assert (Eq : ed h' q = mk_edge k t (e_src (ed h q)) (e_dst (ed h q))) by (unfold h'; cbn; apply upd_same).
  assert (Ed : forall x, e_dst (ed h' x) = e_dst (ed h x)) by (intro x; destruct (Nat.eq_dec x q) as [->|N]; [rewrite Eq|rewrite Eo by auto]; reflexivity).
  assert (Es : forall x, e_src (ed h' x) = e_src (ed h x)) by (intro x; destruct (Nat.eq_dec x q) as [->|N]; [rewrite Eq|rewrite Eo by auto]; reflexivity).
  split; [|split; [|split; [|split]]].
  - destruct W as [w1 w2 w3 w4 w5 w6 w7 w8 w9 w10 w11 w12 w13 w14 w15]. split; auto.
    + intros x b. rewrite Ed. apply w7.
    + intros x b. rewrite Es. apply w8.
    + intros x Hx. destruct (Nat.eq_dec x q) as [->|N]; [rewrite Eq; exact Ht|rewrite Eo by auto; auto].
    + intros b x. rewrite Ed. apply w12.
    + intros c x b. rewrite Ed. apply w15.
  - split; auto. intros n _ N. apply Eo. congruence.
  - split; auto; [intros b _ _ x I; exact I|]. intros x d _. rewrite Ed. auto.
  - intros I a fl J [b1 b2 b3 b4 b5 b6 b6' b7 b8 b9]. split; auto.
    + destruct b5 as [(x & Ix & Q) E].
      assert (Nx : forall y, In y (ins h a) -> y <> q) by (intros y Iy ->; exact (Nq a b2 Iy)).
      split; [exists x; rewrite Eo by (apply Nx, Ix); auto|]. intros y Iy. rewrite Eo by (apply Nx, Iy). apply E, Iy.
    + intros E c x. rewrite Ed. apply b6', E.
    + intros x kk Hk. destruct (b7 x kk Hk) as [R1 R2]. split; [exact R1|]. unfold hang. rewrite Eo; [exact R2|]. intros ->. destruct R2 as (_ & _ & R2). congruence.
    + intros x Hx S1. rewrite Ed. intro S2. rewrite Eo in S1 by congruence. auto.
  - intros e x b K [b1 b2 b3 b4 b5 b6 b7]. split; auto. rewrite Eo; [exact b5|]. intros ->. rewrite b5 in Dq. apply Dq. reflexivity.
Qed.

Section Order.
Variable order : heap -> list nat -> list nat.
Hypothesis Hperm : forall h l, Permutation (order h l) l.

Lemma out_seq_is : forall h o e, In e (outs h o) -> is_seq (ed h e) = true -> (forall y, In y (outs h o) -> is_seq (ed h y) = true -> y = e) ->
  out_seq order h o = Some e.
Proof using Hperm. intros h o e I Q U. unfold out_seq. eapply find_perm; [apply Hperm|exact I|exact Q|exact U]. Qed.

Lemma path_to_jump : forall p I a fl J e x b h h' j, wf h p -> base p I a fl J h -> endp p e x b [] h -> mono p h h' -> In j (outs h' x) ->
  forall c t, rb p c -> ~ rd p c -> ng h c -> path0 h c t e -> path0 h' c t j.
Proof.
  intros p I a fl J e x b h h' j W B E M O c t Hc Dc Gc P. remember e as e0 eqn:Ee. induction P as [c z Iz|c z c1 t w Iz Dz P IH].
  - subst z. pose proof (k_fe _ _ _ _ _ _ E c Hc Dc Gc Iz) as ->. apply path0_end'; [exact O|]. rewrite (m_items _ _ _ M x Hc Gc). reflexivity.
  - destruct (w_dst _ _ W z c1 (out_re _ _ _ _ W Hc Iz) Dz) as [K1 K2].
    rewrite <- (m_items _ _ _ M c Hc Gc). eapply path0_go; [apply (m_outs _ _ _ M c Hc Gc), Iz|apply (m_dst _ _ _ M z c1 (out_re _ _ _ _ W Hc Iz) Dz)|].
    apply IH; auto. exact (w_alive _ _ W c z c1 Hc Iz Dz).
Qed.

Lemma new_jmp_out_ok : forall h p I a fl J e x b o c, wf h p -> base p I a fl J h -> endp p e x b [] h -> rb p o -> In e (outs h o) ->
  (forall y, In y (outs h o) -> is_seq (ed h y) = true -> y = e) ->
  exists h', new_jmp_out order h o (tagof (Some c)) = Some h' /\ wf h' (adde p (nx h)) /\ chg p h h' /\ grows h p (adde p (nx h)) /\ mono p h h'
    /\ base (adde p (nx h)) I a fl (fun y k => J y k \/ (y = nx h /\ k = Some c)) h' /\ endp (adde p (nx h)) e x b [nx h] h'
    /\ outs h' o = outs h o ++ [nx h] /\ bl h' = bl h
    /\ (forall d t, rb p d -> ~ rd p d -> ng h d -> path0 h d t e -> path0 h' d t (nx h)).
Proof using Hperm.
  intros h p I a fl J e x b o c W B E Ho Oe U. set (j := nx h).
  assert (Se : is_seq (ed h e) = true) by (rewrite (k_e _ _ _ _ _ _ E); reflexivity).
  set (y := mk_edge EK_JMP (tagof (Some c)) (Some x) None).
  pose proof (k_x _ _ _ _ _ _ E) as Hx.
  set (h1 := mk_heap (S (nx h)) (upd (ed h) (nx h) y) (mp h) (bl h)).
  destruct (add_two p h y (om (bl h x)) (om (bl h o)) W (w_om _ _ W x Hx) (w_om _ _ W o Ho)) as [A2 A1]. cbv zeta in A1, A2. fold h1 j in A1, A2.
  set (h2 := add_to h1 (om (bl h x)) j) in *.
  set (h' := if Nat.eqb x o then h2 else add_to h2 (om (bl h o)) j).
  set (ms := fun m => m = om (bl h x) \/ m = om (bl h o)).
  assert (A : added p j y ms h h').
  { unfold h'. destruct (Nat.eqb_spec x o) as [<-|Ne]; [|exact A2]. destruct A1 as [a1 a2 a3 a4 a5 a6]. unfold ms. split; auto.
    - intro m. destruct (a5 m) as [q1 q2]. split; intro K; [apply q1; tauto|apply q2; tauto].
    - intro m. destruct (a6 m); tauto. }
  assert (Cut : is_in_cut h2 x = false).
  { assert (W2 : wf h2 (adde p j)).
    { apply (added_wf h h2 p j y (fun m => m = om (bl h x)) W A1).
      - unfold cutb, y. cbn. destruct c; reflexivity.
      - cbn. intros d Q. discriminate.
      - cbn. intros d Q. injection Q as <-. exact Hx.
      - intros b0 Hb Q. exfalso. exact (w_sep _ _ W b0 x Hb Hx (eq_sym Q)).
      - intros b0 c0 Hb _ Q _. exact (w_sep _ _ W b0 x Hb Hx (eq_sym Q)).
      - reflexivity. }
    apply (not_cut h2 (adde p j) x W2). exact Hx. }
  exists h'. split.
  { unfold new_jmp_out. rewrite (out_seq_is h o e Oe Se U), (k_e _ _ _ _ _ _ E). cbn [e_src]. fold y.
    change (new_edge h y) with (j, h1). cbv beta iota zeta. change (add_to h1 (om (bl h1 x)) j) with h2. rewrite Cut. unfold h'.
    destruct (Nat.eqb x o); [reflexivity|]. replace (bl h2) with (bl h); [reflexivity|]. unfold h2. rewrite add_to_bl. reflexivity. }
  assert (Sep : forall b0, rb p b0 -> ~ ms (im (bl h b0))).
  { intros b0 Hb [Q|Q]; [exact (w_sep _ _ W b0 x Hb Hx (eq_sym Q))|exact (w_sep _ _ W b0 o Hb Ho (eq_sym Q))]. }
  assert (W' : wf h' (adde p j)).
  { apply (added_wf h h' p j y ms W A).
    - unfold cutb, y. cbn. destruct c; reflexivity.
    - cbn. intros d Q. discriminate.
    - cbn. intros d Q. injection Q as <-. exact Hx.
    - intros b0 Hb Q. exfalso. exact (Sep b0 Hb Q).
    - intros b0 c0 Hb _ Q _. exact (Sep b0 Hb Q).
    - reflexivity. }
  pose proof (added_mono h h' p j y ms W A) as M.
  assert (Ch : chg p h h').
  { apply (added_chg h h' p j y ms W A). intros m [-> | ->]; [apply (w_om _ _ W x Hx)|apply (w_om _ _ W o Ho)]. }
  pose proof (ad_bl _ _ _ _ _ _ A) as Eb.
  assert (Ey : ed h' j = y) by (rewrite (ad_ed _ _ _ _ _ _ A), Nat.eqb_refl; reflexivity).
  assert (Oo : outs h' o = outs h o ++ [j]).
  { unfold outs. rewrite Eb. apply (ad_mp _ _ _ _ _ _ A). right. reflexivity. }
  assert (Ox : outs h' x = [e; j]).
  { unfold outs. rewrite Eb. destruct (ad_mp _ _ _ _ _ _ A (om (bl h x))) as [K _]. rewrite K by (left; reflexivity).
    pose proof (k_xo _ _ _ _ _ _ E) as Q. unfold outs in Q. rewrite Q. reflexivity. }
  split; [exact W'|]. split; [exact Ch|]. split; [apply (added_grows h h' p j y ms A)|]. split; [exact M|].
  assert (Ins : forall b0, rb p b0 -> ins h' b0 = ins h b0).
  { intros b0 Hb. unfold ins. rewrite Eb. apply (ad_mp _ _ _ _ _ _ A). apply Sep, Hb. }
  split; [|split; [|split; [exact Oo|split; [exact Eb|]]]].
  - destruct B as [b1 b2 b3 b4 b5 b6 b6' b7 b8 b9]. split; cbn; auto.
    + rewrite Eb. exact b1.
    + unfold ng. rewrite Eb. exact b3.
    + apply (added_entry h h' p j y ms W A); auto.
    + intro Q. rewrite Ins by auto. auto.
    + intros Q d z Hd O. unfold outs in O. rewrite Eb in O. destruct (ad_in h h' p j y ms A _ _ O) as [K|[-> _]].
      * rewrite (ad_old h h' p j y ms W A) by (eapply out_re; eauto). exact (b6' Q d z Hd K).
      * rewrite Ey. discriminate.
    + intros z k [K|[-> ->]]; [|split; [auto|]; unfold hang; rewrite Ey; auto].
      destruct (b7 z k K) as [R1 R2]. split; [auto|]. unfold hang. rewrite (ad_old h h' p j y ms W A z R1). exact R2.
    + intros z [Hz| ->]; [rewrite (ad_old h h' p j y ms W A z Hz); intros S1 S2; destruct (b8 z Hz S1 S2) as [k K]; eauto|]. intros _ _. exists (Some c). auto.
  - pose proof (endp_re _ _ _ _ _ _ W E) as Re. destruct E as [b1 b2 b3 b4 b5 b6 b7]. split; cbn; auto.
    + unfold ng. rewrite Eb. exact b2.
    + rewrite Eb. exact b4.
    + rewrite (ad_old h h' p j y ms W A e Re). exact b5.
    + intros d Hd Dd Gd O. unfold outs in O. rewrite Eb in O. destruct (ad_in h h' p j y ms A _ _ O) as [K|[K _]].
      * apply b7; auto. unfold ng in *. rewrite <- Eb. exact Gd.
      * pose proof (w_e _ _ W e Re). subst e. unfold j in *. lia.
  - intros d t Hd Dd Gd P. eapply (path_to_jump p I a fl J e x b h h' j W B E M); [rewrite Ox; right; left; reflexivity|..]; eauto.
Qed.

Lemma new_loop_in_ok : forall h p I a fl J i, wf h p -> base p I a fl J h -> In i I ->
  exists h', new_loop_in order h i = Some h' /\ wf h' (adde p (nx h)) /\ chg p h h' /\ grows h p (adde p (nx h)) /\ mono p h h'
    /\ base (adde p (nx h)) I a false J h' /\ (forall e x b K, endp p e x b K h -> endp (adde p (nx h)) e x b K h')
    /\ (forall d, rb p d -> outs h' d = outs h d) /\ bl h' = bl h /\ (forall d c, rb p d -> entry h d c -> entry h' d c)
    /\ (forall i', In i' I -> only_seq_in h' i' = false).
Proof using Hperm.
  intros h p I a fl J i W B Hi. set (j := nx h). pose proof (k_a _ _ _ _ _ _ B) as Ha. destruct (k_i _ _ _ _ _ _ B i Hi) as [Hri Em].
  set (y := mk_edge EK_JMP ET_LOOP None (Some a)).
  set (h1 := mk_heap (S (nx h)) (upd (ed h) (nx h) y) (mp h) (bl h)).
  destruct (add_two p h y (im (bl h a)) (im (bl h a)) W (w_im _ _ W a Ha) (w_im _ _ W a Ha)) as [A2 A1]. cbv zeta in A1, A2. fold h1 j in A1, A2.
  set (h2 := add_to h1 (im (bl h a)) j) in *.
  set (h' := if Nat.eqb a i then h2 else add_to h2 (im (bl h a)) j).
  set (ms := fun m => m = im (bl h a)).
  assert (A : added p j y ms h h').
  { unfold h'. destruct (Nat.eqb_spec a i) as [<-|Ne]; [exact A1|]. destruct A2 as [a1 a2 a3 a4 a5 a6]. unfold ms. split; auto.
    - intro m. destruct (a5 m) as [q1 q2]. split; intro K; [apply q1; tauto|apply q2; tauto].
    - intro m. destruct (a6 m); tauto. }
  exists h'. split.
  { pose proof (entry_unwrap order Hperm h i a (base_entry _ _ _ _ _ _ i B Hi)) as U. unfold unwrap_in in U.
    unfold new_loop_in. destruct (in_seq order h i) as [q|]; [|discriminate]. rewrite U. fold y.
    change (new_edge h y) with (j, h1). cbv beta iota zeta. change (add_to h1 (im (bl h1 a)) j) with h2. unfold h'.
    destruct (Nat.eqb a i); [reflexivity|]. replace (bl h2) with (bl h); [rewrite Em; reflexivity|]. unfold h2. rewrite add_to_bl. reflexivity. }
  assert (W' : wf h' (adde p j)).
  { apply (added_wf h h' p j y ms W A).
    - reflexivity.
    - cbn. intros d Q. injection Q as <-. split; [exact Ha|apply (k_ga _ _ _ _ _ _ B)].
    - cbn. intros d Q. discriminate.
    - cbn. discriminate.
    - intros b0 c0 Hb Hc Q1 Q2. exact (w_sep _ _ W a c0 Ha Hc Q2).
    - intros c0 Hc Q. exfalso. exact (w_sep _ _ W a c0 Ha Hc Q). }
  assert (Ch : chg p h h') by (apply (added_chg h h' p j y ms W A); intros m ->; apply (w_im _ _ W a Ha)).
  pose proof (ad_bl _ _ _ _ _ _ A) as Eb.
  assert (Ey : ed h' j = y) by (rewrite (ad_ed _ _ _ _ _ _ A), Nat.eqb_refl; reflexivity).
  assert (Outs : forall d, rb p d -> outs h' d = outs h d).
  { intros d Hd. unfold outs. rewrite Eb. apply (ad_mp _ _ _ _ _ _ A). intro Q. exact (w_sep _ _ W a d Ha Hd Q). }
  assert (Ent : forall d c, rb p d -> entry h d c -> entry h' d c) by (intros d c Hd Q; apply (added_entry h h' p j y ms W A); auto).
  split; [exact W'|]. split; [exact Ch|]. split; [apply (added_grows h h' p j y ms A)|]. split; [apply (added_mono h h' p j y ms W A)|].
  split; [|split; [|split; [exact Outs|split; [exact Eb|split; [exact Ent|]]]]].
  - destruct B as [b1 b2 b3 b4 b5 b6 b6' b7 b8 b9]. split; cbn; auto; try discriminate.
    + rewrite Eb. exact b1.
    + unfold ng. rewrite Eb. exact b3.
    + intros z k K. destruct (b7 z k K) as [R1 R2]. split; [auto|]. unfold hang. rewrite (ad_old h h' p j y ms W A z R1). exact R2.
    + intros z [Hz| ->]; [rewrite (ad_old h h' p j y ms W A z Hz); auto|]. rewrite Ey. discriminate.
  - intros e x b K E. pose proof (endp_re _ _ _ _ _ _ W E) as Re. destruct E as [b1 b2 b3 b4 b5 b6 b7]. split; cbn; auto.
    + unfold ng. rewrite Eb. exact b2.
    + rewrite Eb. exact b4.
    + rewrite (ad_old h h' p j y ms W A e Re). exact b5.
    + rewrite Outs by auto. exact b6.
    + intros d Hd Dd Gd O. rewrite Outs in O by auto. apply b7; auto. unfold ng in *. rewrite <- Eb. exact Gd.
  - intros i' Hi'. unfold only_seq_in, ins. rewrite Eb. destruct (k_i _ _ _ _ _ _ B i' Hi') as [_ ->].
    destruct (ad_mp _ _ _ _ _ _ A (im (bl h a))) as [K _]. rewrite K by reflexivity.
    pose proof (w_ins _ _ W a Ha) as N. unfold ins in N. destruct (mp h (im (bl h a))) as [|z [|z' l]]; [congruence|reflexivity..].
Qed.

(** ** One fragment after another *)
Definition seqR (A B : frag) (t : list nat) (y : nat) : Prop := exists t1 t2 m, t = t1 ++ t2 /\ fR A t1 m /\ fR B t2 y.
Definition noJ (F : frag) : Prop := forall x k, ~ fJ F x k.
Definition is_frag (F : frag) (I : list nat) (o : nat) (b : bool) (K : list nat) (J : nat -> option bool -> Prop) (R : list nat -> nat -> Prop) : Prop :=
  fI F = I /\ fo F = o /\ fb F = b /\ fK F = K /\ fJ F = J /\ fR F = R.

Lemma valid_seq_out : forall A h, valid A h -> out_seq order h (fo A) = Some (fe A).
Proof using Hperm.
  intros A h V. apply out_seq_is.
  - apply (v_out _ _ V). left. reflexivity.
  - rewrite (k_e _ _ _ _ _ _ (v_end _ _ V)). reflexivity.
  - intros y I Q. apply (v_out _ _ V) in I as [I|[k K]]; [exact I|]. exfalso. destruct (k_J _ _ _ _ _ _ (v_base _ _ V) y k K) as [_ (H1 & _ & _)].
    unfold is_seq in Q. rewrite H1 in Q. pose proof (v_jmp _ _ V y k K). destruct k; [discriminate Q|congruence].
Qed.
Lemma nodup_one : forall (l : list nat) e, NoDup l -> (forall x, In x l <-> x = e) -> l = [e].
Proof.
  intros l e N E. destruct l as [|x [|y l]].
  - destruct (proj2 (E e) eq_refl).
  - f_equal. apply E. left. reflexivity.
  - pose proof (proj1 (E x) (or_introl eq_refl)). pose proof (proj1 (E y) (or_intror (or_introl eq_refl))). inversion N; subst. exfalso. apply H3. left. reflexivity.
Qed.
Lemma valid_only_out : forall A h, valid A h -> noJ A -> fK A = [] -> only_seq_out h (fo A) = true.
Proof using Hperm.
  intros A h V N K. unfold only_seq_out. rewrite (nodup_one (outs h (fo A)) (fe A)).
  - pose proof (v_end _ _ V) as E. rewrite (k_e _ _ _ _ _ _ E). cbn. rewrite (k_xo _ _ _ _ _ _ E), K. unfold is_seq. rewrite (k_e _ _ _ _ _ _ E). reflexivity.
  - apply (v_nd _ _ V).
  - intro x. rewrite (v_out _ _ V). unfold exits. split; [intros [->|[k Q]]; [reflexivity|exfalso; exact (N x k Q)]|auto].
Qed.
Lemma lone_only_in : forall p I a J h i, base p I a true J h -> In i I -> only_seq_in h i = true.
Proof.
  intros p I a J h i B Hi. destruct (k_i _ _ _ _ _ _ B i Hi) as [_ Em]. destruct (k_one _ _ _ _ _ _ B eq_refl) as [i0 Ei].
  unfold only_seq_in, ins in *. rewrite Em, Ei. destruct (k_in _ _ _ _ _ _ B) as [(x & Ix & Q) _]. unfold ins in Ix. rewrite Ei in Ix. destruct Ix as [<-|[]]. exact Q.
Qed.

Lemma seq_into : forall h A B rest i ft tk tt flag, ok h (Fr A :: Fr B :: rest) -> noJ A -> fK A = [] -> In i (fI B) -> is_sep flag = false ->
  exists h' F, link order h (Some (fo A)) EK_SEQ ft tk tt (Some i) flag = Some h' /\ ok h' (Fr F :: rest)
    /\ is_frag F (fI A) (fo B) (fb A && fb B) (fK B) (fJ B) (seqR A B) /\ (forall n, rb (fP A) n \/ rb (fP B) n -> rb (fP F) n).
Proof using Hperm.
  intros h A B rest i ft tk tt flag O NA KA Hi Hf.
  destruct (ok_Fr _ _ _ O) as [WA VA]. destruct (ok_Fr _ _ _ (ok_tail _ _ _ O)) as [WB VB].
  assert (D : disj (fP A) (fP B)) by (destruct O as [_ [Q _]]; apply (Q (Fr B)); left; reflexivity).
  pose proof (v_base _ _ VA) as BA. pose proof (v_base _ _ VB) as BB. pose proof (v_end _ _ VA) as EA. pose proof (v_end _ _ VB) as EB. rewrite KA in EA.
  assert (W : wf h (union (fP A) (fP B))) by (apply wf_union; auto).
  assert (Ui : unwrap_in order h i = Some (fa B)) by (apply entry_unwrap; [exact Hperm|eapply base_entry; eauto]).
  assert (Uo : unwrap_out order h (fo A) = Some (fx A)) by (unfold unwrap_out; rewrite (valid_seq_out A h VA), (k_e _ _ _ _ _ _ EA); reflexivity).
  destruct (join_ok order h (union (fP A) (fP B)) (fo A) i (fx A) (fa B) W) as (h' & Ej & Jn); [left; apply (k_x _ _ _ _ _ _ EA)|exact Ui|exact Uo|].
  destruct (joined_endp h h' _ _ _ _ _ _ _ _ _ _ _ _ _ _ _ _ WA WB D BA BB EA EB Jn) as [x' Ex].
  pose proof (joined_base h h' _ _ _ _ _ _ _ _ _ _ _ _ WA WB D BA BB EA Jn) as Bx.
  exists h', (mk_frag (kill (union (fP A) (fP B)) (fa B)) (fI A) (fo B) (fa A) (fe B) x' (fb A && fb B) (fK B) (fJ B) (seqR A B)).
  split.
  { unfold link. cbv zeta. rewrite (valid_only_out A h VA NA KA), (lone_only_in _ _ _ _ _ _ BB Hi), Hf. cbn. destruct (is_join flag); exact Ej. }
  split; [|split; [repeat split|cbn; auto]].
  assert (Nx : fo B <> fx A) by (intro Q; destruct D as (D1 & _); apply (D1 (fx A)); [apply (k_x _ _ _ _ _ _ EA)|rewrite <- Q; apply (v_o _ _ VB)]).
  eapply ok_step; [apply ok_pair, O|..].
  - cbn. eapply joined_chg; [exact W|left; apply (k_x _ _ _ _ _ _ EA)|right; apply (k_a _ _ _ _ _ _ BB)|exact Jn].
  - cbn. split; cbn; auto.
  - split; [|split; [|apply Fr_stable]].
    + cbn. eapply joined_wf; [exact W|left; apply (k_x _ _ _ _ _ _ EA)|right; apply (k_a _ _ _ _ _ _ BB)|exact Jn|].
      eapply (jp_lone h (fP A) (fP B)); eauto.
    + split; cbn.
      * eapply base_J; [|exact Bx]. intros x k. split; [intros [Q|Q]; [exfalso; exact (NA x k Q)|exact Q]|auto].
      * exact Ex.
      * right. apply (v_o _ _ VB).
      * rewrite (joined_outs _ _ _ _ _ Jn Nx). apply (v_nd _ _ VB).
      * intro x. rewrite (joined_outs _ _ _ _ _ Jn Nx). apply (v_out _ _ VB).
      * apply (v_jmp _ _ VB).
      * intros t y (t1 & t2 & m & -> & R1 & R2). destruct (v_R _ _ VA t1 m R1) as [Xm P1]. destruct (v_R _ _ VB t2 y R2) as [Xy P2].
        split; [exact Xy|]. destruct Xm as [->|[k Q]]; [|exfalso; exact (NA m k Q)].
        eapply (joined_path1 h h' (fP A) (fP B)); eauto; [apply (k_a _ _ _ _ _ _ BA)|apply (k_ga _ _ _ _ _ _ BA)|apply (k_da _ _ _ _ _ _ BA)].
Qed.

(** Two fragments in one region. *)
Lemma both_base : forall h pA pB IA aA fl JA IB aB flB JB e x b K, wf h pA -> wf h pB -> disj pA pB -> base pA IA aA fl JA h -> base pB IB aB flB JB h ->
  endp pA e x b K h -> base (union pA pB) IA aA fl (fun y k => JA y k \/ JB y k \/ (y = e /\ k = None)) h.
Proof.
  intros h pA pB IA aA fl JA IB aB flB JB e x b K WA WB D BA BB E. pose proof (endp_re _ _ _ _ _ _ WA E) as Re. destruct D as (D1 & D2 & D3).
  destruct BA as [b1 b2 b3 b4 b5 b6 b6' b7 b8 b9]. split; cbn; auto.
  - intros i Hi. destruct (b1 i Hi). auto.
  - intros [Q|Q]; [tauto|]. apply (D1 aA b2). eapply w_dead; eauto.
  - intros E1 c z [Hc|Hc] O; [eauto|]. intro Q. apply (D1 aA b2). eapply w_dst; [exact WB|eapply out_re; eauto|exact Q].
  - intros z k [Q|[Q|[-> ->]]].
    + destruct (b7 z k Q). auto.
    + destruct (k_J _ _ _ _ _ _ BB z k Q). auto.
    + split; [auto|]. unfold hang. rewrite (k_e _ _ _ _ _ _ E). auto.
  - intros z [Hz|Hz] S1 S2; [destruct (b8 z Hz S1 S2) as [k Q]|destruct (k_all _ _ _ _ _ _ BB z Hz S1 S2) as [k Q]]; exists k; auto.
Qed.
Lemma endp_union_r : forall h pA pB e x b K, wf h pA -> wf h pB -> disj pA pB -> endp pB e x b K h -> endp (union pA pB) e x b K h.
Proof.
  intros h pA pB e x b K WA WB (D1 & D2 & D3) E. pose proof (endp_re _ _ _ _ _ _ WB E) as Re. destruct E as [b1 b2 b3 b4 b5 b6 b7]. split; cbn; auto.
  - intros [Q|Q]; [|tauto]. apply (D1 x); [eapply w_dead; eauto|exact b1].
  - intros c [Hc|Hc] Dc Gc O; [exfalso; apply (D3 e); [eapply out_re; eauto|exact Re]|apply b7; auto].
Qed.
Lemma endp_union_l : forall h pA pB e x b K, wf h pA -> wf h pB -> disj pA pB -> endp pA e x b K h -> endp (union pA pB) e x b K h.
Proof.
  intros h pA pB e x b K WA WB (D1 & D2 & D3) E. pose proof (endp_re _ _ _ _ _ _ WA E) as Re. destruct E as [b1 b2 b3 b4 b5 b6 b7]. split; cbn; auto.
  - intros [Q|Q]; [tauto|]. apply (D1 x); [exact b1|eapply w_dead; eauto].
  - intros c [Hc|Hc] Dc Gc O; [apply b7; auto|exfalso; apply (D3 e); [exact Re|eapply out_re; eauto]].
Qed.

(** Links that find nothing to link. *)
Lemma link_none : forall p h o i a fk ft tk tt flag, wf h p -> rb p o -> entry h i a -> no_join order h o i fk flag ->
  (forall x, In x (outs h o) -> matches fk ft (ed h x) = false) -> link order h (Some o) fk ft tk tt (Some i) flag = Some h.
Proof using Hperm.
  intros p h o i a fk ft tk tt flag W Ho En [Nj Hj] Hm.
  assert (E : forall to, link_edges order fk ft tk tt to h (outs h o) = h).
  { intro to. unfold link_edges.
    assert (G : forall l, (forall x, In x l -> matches fk ft (ed h x) = false) -> fold_left (link_one order fk ft tk tt to) l h = h).
    { induction l as [|x l IH]; intro Q; [reflexivity|]. cbn [fold_left]. unfold link_one at 2. rewrite (Q x) by (left; reflexivity). apply IH. intros y I. apply Q. right. exact I. }
    apply G. intros x I. apply Hm. eapply Permutation_in; [apply Hperm|exact I]. }
  assert (Far : (do to <- unwrap_in order h i; Some (spread_cut order (link_edges order fk ft tk tt to h (outs h o)) o
                   (match out_seq order h o with Some e => e_src (ed h e) | None => None end) to)) = Some h).
  { rewrite (entry_unwrap order Hperm h i a En), E. f_equal. apply spread_cut_id; [exact Hperm|]. intros x I. apply (w_cut _ _ W). eapply out_re; eauto. }
  unfold link. cbv zeta. rewrite Far, Nj. cbn [orb].
  destruct (ekind_eqb fk EK_SEQ && negb (is_sep flag) && only_seq_in h i) eqn:E2; [|reflexivity].
  destruct Hj as [->|[Hs|[Hs|[Hs1 Hs2]]]]; [cbn in E2; discriminate|rewrite Hs in E2; cbn in E2; rewrite andb_false_r in E2; discriminate|rewrite Hs, andb_false_r in E2; discriminate|].
  rewrite Hs1. cbn [orb]. destruct (out_seq order h o) as [e|] eqn:Eo; [|reflexivity].
  destruct (e_src (ed h e)) as [s|] eqn:Es; [|reflexivity]. rewrite (Hs2 e s eq_refl Es), andb_false_r. reflexivity.
Qed.
Lemma only_seq_in_jmp : forall h i a, has_in h EK_JMP a -> im (bl h i) = im (bl h a) -> only_seq_in h i = false.
Proof.
  intros h i a (j & Ij & Kj) Em. unfold only_seq_in, ins in *. rewrite Em. destruct (mp h (im (bl h a))) as [|z [|z' l]]; try reflexivity.
  destruct Ij as [<-|[]]. unfold is_seq. rewrite Kj. reflexivity.
Qed.
End Order.
