(** Proofs about building control flow graphs: [for] loops. *)
From Coq Require Import Permutation ZifyBool ZifyNat.
From Verif Require Import Base GraphModel FlowModel FlowSpec FlowProofs FlowFrag FlowSteps FlowCat FlowGlue FlowPool FlowFork FlowExprs FlowBin FlowGo FlowStmt FlowLoop FlowJoin.

(** ** Statements give groups *)
Definition grouped_by (r : option (option nat * heap)) : Prop := match r with Some (Some v, h) => bk (bl h v) = BK_GROUP | Some (None, _) => False | None => True end.
Lemma grp_grouped : forall h a b, grouped_by (grp h a (Some b)).
Proof.
  intros h [a|] b; cbn; [|exact I]. destruct (bk (bl h a)) eqn:E; cbn; rewrite upd_same; reflexivity.
Qed.
Definition top_grouped (r : option world) : Prop := forall w, r = Some w -> exists v st, w_st w = v :: st /\ bk (bl (w_h w) v) = BK_GROUP.
Lemma done_grouped : forall r st xs, grouped_by r -> top_grouped (done_s r st xs).
Proof. intros [[[v|] h]|] st xs H w E; cbn in *; try discriminate; try contradiction. injection E as <-. exists v, st. auto. Qed.
Section Order.
Variable order : heap -> list nat -> list nat.
Hypothesis Hperm : forall h l, Permutation (order h l) l.
Lemma ends_grouped : forall h a b, grouped_by (do r <- grp h a (Some b); let (v, h) := r in do b <- v; do q <- out_seq order h b; do s <- e_src (ed h q); Some (v, h)).
Proof.
  intros h a b. pose proof (grp_grouped h a b) as G. destruct (grp h a (Some b)) as [[[v|] h']|]; [|exact I|exact I]. destruct (out_seq order h' v) as [q|]; [|exact I]. destruct (e_src (ed h' q)); [exact G|exact I].
Qed.
Ltac peel := repeat first [apply ends_grouped | apply grp_grouped | match goal with
  | |- grouped_by (let _ := _ in _) => cbv zeta
  | |- grouped_by (match ?x with _ => _ end) => destruct x; try exact I
  end].
Lemma exp_grouped : forall h e x, grouped_by (after_exp order h e x).
Proof. intros. unfold after_exp. peel. Qed.
Lemma if_grouped : forall h e t a b, grouped_by (after_if order h e t a b).
Proof. intros. unfold after_if. peel. Qed.
Lemma while_grouped : forall l h e t b, grouped_by (after_while order l h e t b).
Proof. intros. unfold after_while, loop_exit. destruct t as [t|]; [|exact I]. peel. Qed.
Lemma do_grouped : forall l h e t b, grouped_by (after_do order l h e t b).
Proof. intros. unfold after_do. peel. Qed.
Lemma for_grouped : forall l h e i t u b, grouped_by (after_for order l h e i t u b).
Proof. intros. unfold after_for. peel. Qed.
Lemma leave_grouped : forall k w, top_grouped (leave_stmt order k w).
Proof.
  intros k w w' E. unfold leave_stmt in E. destruct (pop (w_st w)) as [p st]. destruct (new_exit k (w_h w)) as [e h]. destruct (link_seq order h p (Some e)) as [h1|]; [|discriminate].
  pose proof (grp_grouped h1 p e) as G. destruct (grp h1 p (Some e)) as [[[v|] h2]|]; cbn in *; try discriminate. injection E as <-. exists v, st. auto.
Qed.
Lemma top_bind : forall A (r : option A) f, (forall x, top_grouped (f x)) -> top_grouped (match r with Some x => f x | None => None end).
Proof. intros A [x|] f H; [apply H|intros w E; discriminate]. Qed.
Lemma top_pair : forall A B (r : A * B) f, (forall x y, top_grouped (f x y)) -> top_grouped (let (x, y) := r in f x y).
Proof. intros A B [x y] f H. apply H. Qed.
Lemma stmt_grouped : forall s fork w, is_empty s = false -> top_grouped (go_stmt order fork s w).
Proof.
  intros s fork w E. destruct s as [e| |l|l|c a b|c a|a c|i c u a]; try discriminate; cbn [go_stmt];
    repeat first [apply leave_grouped | apply done_grouped; first [apply exp_grouped|apply if_grouped|apply while_grouped|apply do_grouped|apply for_grouped] | apply top_bind; intros | apply top_pair; intros].
Qed.
(** ** The parts of a [for] loop *)
Definition opt_thing (U : option frag) : list thing := match U with Some U => [Fr U] | None => [] end.
Definition opt_reach (U : option frag) (t : list nat) : Prop := match U with Some U => reach U t | None => t = [] end.
Lemma for_core : forall h G T B U rest j K tk p lT, ok h (Pt (loopP T p lT) :: Fr B :: Fr G :: opt_thing U ++ rest) -> NoDup lT -> (forall y, In y lT <-> exits T y) -> (forall y k, fJ T y k -> k <> None) -> (forall k, ~ fJ T (fe T) k) ->
  fK G = [] -> noJ G -> seg B -> fo B <> fx B -> fK T = j :: K -> fJ T j (Some false) -> In (fo T) (fI T) -> (forall y, ~ fJ T y (Some true)) -> (forall F, U = Some F -> seg F) -> (forall t y, fR T t y -> exits T y) ->
  exists h' P lB, (do h <- link order h (Some (fo G)) EK_SEQ 0 tk 0 (Some (fo T)) LF_NONE;
      do h <- link_seq order h (Some (fo T)) (Some (fo B));
      match U with
      | Some F => do h <- link_seq order h (Some (fo B)) (Some (fo F)); do h <- link_seq order h (Some (fo F)) (Some (fo T)); mrk_seq_out_as_loop order h (fo F)
      | None => do h <- link_seq order h (Some (fo B)) (Some (fo T)); mrk_seq_out_as_loop order h (fo B)
      end) = Some h'
    /\ ok h' (Pt P :: rest) /\ pf P = true /\ pI P = fI G /\ pa P = fa G
    /\ NoDup lB /\ pO P (fo T) lT /\ pO P (fo B) lB
    /\ (forall x, In x lT -> (exists k, pJ P x k) \/ (exists b, pD P x b)) /\ (forall x, In x lB -> (exists k, pJ P x k) \/ (exists b, pD P x b))
    /\ (forall y k, pJ P y k -> (In y lT /\ k = Some false) \/ In y lB)
    /\ (forall y, fJ T y (Some false) -> pJ P y (Some false))
    /\ (forall t y, fR G t y -> pS P (fa G) t y /\ pD P y (fa T))
    /\ (forall t y, fR T t y -> pS P (fa T) t y)
    /\ pD P (fe T) (fa B)
    /\ (forall t1 t2, reach B t1 -> opt_reach U t2 -> exists y, pS P (fa B) (t1 ++ t2) y /\ pD P y (fa T)).
Proof using Hperm.
  intros h G T B U rest j K tk p lT O NdT OuT JmT NeT Gk Gn SB Nox Tk Tj To NT SU RT.
  destruct (ok_Fr _ _ _ (ok_tail _ _ _ O)) as [WB VB].
  assert (VG : valid G h) by (apply (ok_Fr h G (opt_thing U ++ rest)); exact (ok_tail _ _ _ (ok_tail _ _ _ O))).
  assert (GR : forall t y, fR G t y -> y = fe G) by (intros t y R; destruct (v_R _ _ VG _ _ R) as [[->|[k Q]] _]; [reflexivity|destruct (Gn _ _ Q)]).
  assert (BR : forall t y, fR B t y -> y = fe B) by (intros t y R; destruct (v_R _ _ VB _ _ R) as [[->|[k Q]] _]; [reflexivity|destruct SB as (_ & Bn & _); destruct (Bn _ _ Q)]).
  destruct (loop_links order Hperm h G T B _ j K false tk p lT O NdT OuT JmT NeT Gk Gn SB Tk Tj To (fun _ => NT)) as (h4 & Q & lB & L & O5 & Bl4 & NdB & HB & (P3 & P4 & P5 & P6 & P7 & P8 & P9 & P10 & P11 & P12) & NaTG & ApTB).
  assert (JF : forall y k, fJ T y k -> k = Some false). { intros y k Z. pose proof (JmT y k Z). destruct k as [[|]|]; [destruct (NT y Z)|reflexivity|congruence]. }
  assert (L' : forall f : heap -> option heap, (do h <- link order h (Some (fo G)) EK_SEQ 0 tk 0 (Some (fo T)) LF_NONE; do h <- link_seq order h (Some (fo T)) (Some (fo B)); f h) = f h4).
  { intro f. clear -L. destruct (link order h (Some (fo G)) EK_SEQ 0 tk 0 (Some (fo T)) LF_NONE) as [g1|]; [|discriminate L]. destruct (link_seq order g1 _ _) as [g2|]; [|discriminate L]. injection L as ->. reflexivity. }
  rewrite L'. clear L L'. destruct SB as (Bk & Bn & Bo). destruct U as [U|]; cbn [opt_thing app opt_reach] in *.
  - destruct (SU U eq_refl) as (Uk & Un & Uo). destruct (ok_Fr _ _ _ (ok_tail _ _ _ O5)) as [WU VU].
    assert (EB : lB = [fe B]) by (apply nodup_one; assumption).
    assert (D : disj (pP Q) (fP U)) by (destruct O5 as [_ [Z _]]; apply (Z (Fr U)); left; reflexivity).
    destruct (ok_Pt _ _ _ O5) as [WQ KQ].
    assert (NeU : forall y k, pJ Q y k -> y <> fe U). { intros y k Z ->. destruct D as (_ & _ & D3). apply (D3 (fe U)); [apply (k_J _ _ _ _ _ _ (n_base _ _ KQ) _ k Z)|apply (exit_re _ _ _ WU VU); left; reflexivity]. }
    assert (Pe : pE Q (fe B) (fx B) (fb B) []) by (rewrite P12, <- Bk; auto). assert (PoB : pO Q (fo B) [fe B]) by (rewrite P9, <- EB; auto).
    destruct (pool_join order Hperm h4 Q U rest (fo B) (fe B) (fx B) (fb B) (fo U) O5 Pe PoB Uo) as (h5 & q & x' & Lj & O6). rewrite Lj.
    assert (NoT : fo T <> fx B). { intro E. destruct (n_O _ _ KQ (fo T) lT) as [_ Z]; [rewrite P9; auto|]. pose proof (n_E _ _ KQ _ _ _ _ Pe) as Ep. rewrite E, (k_xo _ _ _ _ _ _ Ep) in Z. apply (ApTB (fe B)); [|left; reflexivity]. apply OuT. rewrite <- Z. left. reflexivity. }
    assert (HU : forall y, In y (outs h4 (fo U)) -> y = fe U). { intros y Iy. apply (v_out _ _ VU) in Iy as [->|[k Z]]; [reflexivity|destruct (Un _ _ Z)]. }
    set (R := joinP Q U q (fe B) (fx B) x' (outs h4 (fo U)) (fb B)) in *.
    destruct (loop_back order Hperm h5 R rest (fo U) (fe U) x' (fb B && fb U) (fK U) (outs h4 (fo U)) (fo T) (fa T) O6) as (h' & P & L' & OP & Bl & (R1 & R2 & R3 & R4 & R5 & R6 & R7 & R8 & R9 & R10)).
    { exact P5. } { cbn. auto. } { cbn. auto. } { apply (v_nd _ _ VU). } { apply (v_out _ _ VU). left. reflexivity. } { intros y Iy. left. apply HU, Iy. } { cbn. auto. } { cbn. rewrite P10. auto. } { cbn. rewrite P11. exact To. } { cbn. rewrite P4. exact NaTG. }
    rewrite L'. cbn in R1, R2. exists h', P, lB. split; [reflexivity|]. split; [exact OP|]. split; [exact R3|]. split; [congruence|]. split; [congruence|]. split; [exact NdB|].
    split; [rewrite R7; cbn; left; split; [rewrite P9; auto|exact NoT]|]. split; [rewrite R7; cbn; left; split; [rewrite P9; auto|exact Nox]|].
    split. { intros x Ix. apply OuT in Ix as [->|[k Z]]; [right; exists (fa B); rewrite R6; cbn; rewrite P8; auto|]. left. exists k. rewrite R4. cbn. assert (ZQ : pJ Q x k) by (rewrite P6, (JF x k Z); left; split; [|reflexivity]; rewrite <- (JF x k Z); exact Z). split; [auto|apply (NeU x k ZQ)]. }
    split. { intros x Ix. apply HB in Ix as ->. left. exists None. rewrite R4. cbn. assert (ZQ : pJ Q (fe B) None) by (rewrite P6; auto). split; [auto|apply (NeU _ None ZQ)]. }
    split. { intros y k Z. rewrite R4 in Z. cbn in Z. destruct Z as [[Z|[Z|[-> ->]]] Ny]; [|destruct (Un _ _ Z)|congruence]. rewrite P6 in Z. destruct Z as [[Z ->]|[-> ->]]; [left; split; [apply OuT; right; eauto|reflexivity]|right; apply HB; reflexivity]. }
    split. { intros y Z. rewrite R4. cbn. assert (ZQ : pJ Q y (Some false)) by (rewrite P6; auto). split; [auto|apply (NeU _ _ ZQ)]. }
    assert (NGB : fe G <> fe B). { intro E. destruct (n_D _ _ KQ (fe G) (fa T)) as [_ Z]; [rewrite P8; auto|]. destruct (k_J _ _ _ _ _ _ (n_base _ _ KQ) (fe B) None) as [_ (_ & _ & Z')]; [rewrite P6; auto|]. rewrite E in Z. congruence. }
    split. { intros t y Z. pose proof (GR t y Z) as ->. split; [rewrite R5; cbn; left; split; [rewrite P7; auto|exact NGB]|rewrite R6; cbn; rewrite P8; auto]. }
    split. { intros t y Z. rewrite R5. cbn. left. split; [rewrite P7; auto|]. intros ->. apply (ApTB (fe B)); [|left; reflexivity]. exact (RT _ _ Z). }
    split. { rewrite R6. cbn. rewrite P8. auto. }
    intros t1 t2 [y1 Z1] [y2 Z2]. pose proof (BR _ _ Z1) as ->. exists y2. split.
    + rewrite R5. cbn. right. split; [right; exists (fo B); rewrite P10; auto|]. exists t1, t2. split; [reflexivity|]. split; [rewrite P7; auto|exact Z2].
    + rewrite R6. destruct (v_R _ _ VU _ _ Z2) as [[->|[k Jk]] _]; [auto|destruct (Un _ _ Jk)].
  - destruct (loop_back order Hperm h4 Q rest (fo B) (fe B) (fx B) (fb B) (fK B) lB (fo T) (fa T) O5) as (h' & R & L' & OR & Bl & (R1 & R2 & R3 & R4 & R5 & R6 & R7 & R8 & R9 & R10)).
    { exact P5. } { rewrite P12. auto. } { rewrite P9. auto. } { exact NdB. } { apply HB. reflexivity. } { intros y Iy. left. apply HB, Iy. } { rewrite P6. auto. } { rewrite P10. auto. } { rewrite P11. exact To. } { rewrite P4. exact NaTG. }
    rewrite L'. exists h', R, lB. split; [reflexivity|]. split; [exact OR|]. split; [exact R3|]. split; [congruence|]. split; [congruence|]. split; [exact NdB|].
    split; [rewrite R7, P9; auto|]. split; [rewrite R7, P9; auto|].
    assert (JB : forall y, fJ T y (Some false) -> pJ R y (Some false)). { intros y Z. rewrite R4, P6. split; [auto|]. intros ->. apply (ApTB (fe B)); [right; eauto|left; reflexivity]. }
    split. { intros x Ix. apply OuT in Ix as [->|[k Z]]; [right; exists (fa B); rewrite R6, P8; auto|]. left. pose proof (JF x k Z) as ->. exists (Some false). apply JB, Z. }
    split. { intros x Ix. apply HB in Ix as ->. right. exists (fa T). rewrite R6. auto. }
    split. { intros y k Z. rewrite R4, P6 in Z. destruct Z as [[[Z ->]|[-> ->]] Ny]; [|congruence]. left. split; [apply OuT; right; eauto|reflexivity]. }
    split. { exact JB. }
    split. { intros t y Z. pose proof (GR t y Z) as ->. rewrite R5, P7, R6, P8. auto. }
    split. { intros t y Z. rewrite R5, P7. auto. }
    split. { rewrite R6, P8. auto. }
    intros t1 t2 [y1 Z1] ->. rewrite app_nil_r. exists y1. pose proof (BR _ _ Z1) as ->. rewrite R5, P7, R6. auto.
Qed.
Lemma for_ok : forall h G T B I U c (X XI XU : list nat -> Prop) rest, ok h (Fr B :: opt_thing U ++ Fr T :: opt_thing I ++ Fr G :: rest) -> seg G -> seg B -> fo B <> fx B -> xspec false c T -> plain c = true ->
  (forall F, I = Some F -> seg F) -> (forall F, U = Some F -> seg F) -> (forall t, X t -> reach B t) -> (forall t, XI t -> opt_reach I t) -> (forall t, XU t -> opt_reach U t) ->
  exists v h' F, after_for order false h (Some (fo G)) (option_map fo I) (Some (fo T)) (option_map fo U) (Some (fo B)) = Some (Some v, h') /\ ok h' (Fr F :: rest) /\ fo F = v /\ seg F
    /\ after_all G F (then_ XI (then_ (often (then_ (is_true c) (then_ X XU))) (is_not c))).
Proof using Hperm.
  intros h G T B I U c X XI XU rest O SG SB Nox XT Pc SI SU HX HI HU. pose proof XT as [xb xk xo xc xn].
  assert (Tk : test_ok c = true). { unfold plain in Pc. unfold test_ok. apply andb_true_iff in Pc as [_ Pc]. destruct (root c) as [[]|]; cbn in Pc; congruence. }
  assert (O0 : ok h (Fr T :: Fr B :: Fr G :: opt_thing I ++ opt_thing U ++ rest)) by (destruct I, U; cbn [opt_thing app] in *; arrange O). clear O.
  unfold after_for. destruct (jump_ok order Hperm h T _ false O0 xk) as (h1 & A & Ej & O1 & (A1 & A2 & A3 & A4 & A5 & A6) & A7 & _).
  change (tagof (Some false)) with ET_JMP_F in Ej. rewrite Ej.
  assert (Tst : tested c A).
  { destruct (ok_Fr _ _ _ O0) as [_ VT]. destruct (ok_Fr _ _ _ O1) as [_ VT']. eapply (test_cover c T A A h (nx h) h1 h1); eauto. }
  assert (NJ : forall y k, fJ A y k -> k = Some false). { intros y k Q. rewrite A5 in Q. destruct Q as [Q|[_ ->]]; [|reflexivity]. destruct (xn (or_intror Pc) _ _ Q). }
  destruct (ok_Fr _ _ _ O1) as [WA VA]. destruct (loop_facts h1 A VA) as (N1 & N2 & N3 & N4).
  assert (Ao : In (fo A) (fI A)) by (rewrite A1, A2; exact xo).
  destruct (loop_in order Hperm h1 A _ (fo A) O1 Ao) as (h2 & p & E2 & Bl2 & O2). rewrite A2 in *. rewrite E2.
  assert (Mid : exists h3 G' tk, (forall f : heap -> option (option nat * heap), (do h <- (match option_map fo I with Some _ => do h <- link order h2 (Some (fo G)) EK_SEQ 0 EK_NONE 0 (option_map fo I) LF_NONE; link_seq order h (option_map fo I) (Some (fo T)) | None => Some h2 end);
        do h <- (do h <- (match option_map fo I with None => link order h (Some (fo G)) EK_SEQ 0 EK_NONE 0 (Some (fo T)) LF_NONE | Some _ => Some h end); link_seq order h (Some (fo T)) (Some (fo B))); f h)
        = (do h <- link order h3 (Some (fo G')) EK_SEQ 0 tk 0 (Some (fo T)) LF_NONE; do h <- link_seq order h (Some (fo T)) (Some (fo B)); f h))
      /\ ok h3 (Pt (loopP A p (outs h1 (fo T))) :: Fr B :: Fr G' :: opt_thing U ++ rest) /\ fK G' = [] /\ noJ G' /\ fI G' = fI G /\ forall t t', reach G t -> opt_reach I t' -> reach G' (t ++ t')).
  { destruct SG as (Gk & Gn & Go). destruct I as [I|]; cbn [option_map opt_thing app opt_reach] in *.
    - destruct (SI I eq_refl) as (Ik & In & Io).
      assert (O3 : ok h2 (Fr G :: Fr I :: Pt (loopP A p (outs h1 (fo T))) :: Fr B :: opt_thing U ++ rest)) by (arrange O2).
      destruct (seq_into order Hperm h2 G I _ (fo I) 0 EK_NONE 0 LF_NONE O3 Gn Gk Io eq_refl) as (h3 & G' & L3 & O4 & (G1 & G2 & G3 & G4 & G5 & G6) & _).
      exists h3, G', EK_SEQ. split; [|split; [arrange O4|]].
      + intro f. rewrite L3, G2. unfold link_seq at 1. destruct (link order h3 (Some (fo I)) EK_SEQ 0 EK_SEQ 0 (Some (fo T)) LF_NONE); reflexivity.
      + split; [rewrite G4; exact Ik|]. split; [intros x k; rewrite G5; apply In|]. split; [exact G1|]. intros t t' R R'. eapply seqR_reach; [exact G6|exact R|exact R'].
    - exists h2, G, EK_NONE. split; [|split; [exact O2|]].
      + intro f. destruct (link order h2 (Some (fo G)) EK_SEQ 0 EK_NONE 0 (Some (fo T)) LF_NONE); reflexivity.
      + split; [exact Gk|]. split; [exact Gn|]. split; [reflexivity|]. intros t t' R ->. rewrite app_nil_r. exact R. }
  destruct Mid as (h3 & G' & tk & Lm & O3 & Gk & Gn & GI & GR).
  destruct (for_core h3 G' A B U rest (nx h) [] tk p _ O3 N1 N2 N3 N4 Gk Gn SB Nox) as (h4 & P & lB & L & O4 & Pf & PI & Pa & NB & OT & OB & HT & HB & HJ & JF & SGp & STp & DTB & SBp).
  { exact A4. } { rewrite A5. auto. } { rewrite A2. exact Ao. } { intros y Q. discriminate (NJ _ _ Q). } { exact SU. } { intros t y Q. apply (v_R _ _ VA _ _ Q). }
  rewrite A2 in *.
  destruct (loop_close order Hperm h4 P rest K_FOR (fo G) (fo T) (fo B) (outs h1 (fo T)) lB O4) as (v & h' & F & LE & O5 & Fo & SF & Inc & RF).
  { exact Pf. } { rewrite PI, GI. apply SG. } { exact OT. } { exact OB. } { exact N1. } { exact NB. } { exact HT. } { exact HB. } { exact HJ. } { exists (nx h). apply JF. rewrite A5. auto. }
  destruct (ok_Pt _ _ _ O4) as [W4 K4].
  assert (E1 : x_jmp (snd (new_grp (im (bl h4 (fo G))) h4)) (fo T) = x_jmp h4 (fo T)) by (apply (grown_x order Hperm P h4 (im (bl h4 (fo G))) [] (fo T) _ W4 K4 OT)).
  assert (E3 : x_out (grown h4 (im (bl h4 (fo G))) [x_jmp h4 (fo T)]) (fo B) = x_out h4 (fo B)) by (apply (grown_x order Hperm P h4 (im (bl h4 (fo G))) [x_jmp h4 (fo T)] (fo B) _ W4 K4 OB)).
  exists v, h', F. split.
  { rewrite <- LE. cbv beta iota. refine (eq_trans (Lm _) _). clear Lm.
    destruct (link order h3 (Some (fo G')) EK_SEQ 0 tk 0 (Some (fo T)) LF_NONE) as [g1|]; [|discriminate L]. destruct (link_seq order g1 (Some (fo T)) (Some (fo B))) as [g2|]; [|discriminate L].
    assert (LU : match option_map fo U with Some u => do h <- link_seq order g2 (Some (fo B)) (option_map fo U); do h <- link_seq order h (option_map fo U) (Some (fo T)); mrk_seq_out_as_loop order h u
       | None => do h <- link_seq order g2 (Some (fo B)) (Some (fo T)); do h <- mrk_seq_out_as_loop order h (fo B); Some h end = Some h4).
    { destruct U as [U|]; cbn [option_map]; [exact L|]. destruct (link_seq order g2 (Some (fo B)) (Some (fo T))) as [g3|]; [|discriminate L]. rewrite L. reflexivity. }
    rewrite LU. change (new_grp (im (bl h4 (fo G))) h4) with (nx h4, snd (new_grp (im (bl h4 (fo G))) h4)). cbv iota beta zeta. rewrite E1.
    change (add_outs (snd (new_grp (im (bl h4 (fo G))) h4)) (nx h4) (x_jmp h4 (fo T))) with (grown h4 (im (bl h4 (fo G))) [x_jmp h4 (fo T)]). rewrite E3. reflexivity. }
  split; [exact O5|]. split; [exact Fo|]. split; [exact SF|].
  assert (Lp : forall s, often (then_ (is_true c) (then_ X XU)) s -> forall s' m, paths P (fa A) s' m -> paths P (fa A) (s ++ s') m).
  { intros s Q. induction Q as [|t1 t2 (u1 & u2 & -> & Q1 & (u3 & u4 & -> & Q2 & Q3)) _ IH]; intros s' m Z; [exact Z|].
    destruct (Tst u1 V_true Q1) as [Ht _]. destruct (Ht eq_refl) as (y & Ry & Hy). destruct Hy as [->|Hy]; [|discriminate (NJ _ _ Hy)].
    destruct (SBp u3 u4 (HX _ Q2) (HU _ Q3)) as (z & Sz & Dz).
    replace (((u1 ++ u3 ++ u4) ++ t2) ++ s') with (u1 ++ (u3 ++ u4) ++ t2 ++ s') by (rewrite !app_assoc; reflexivity).
    apply (ps_more _ (fa A) u1 (fe A) (fa B)); [apply STp, Ry|exact DTB|]. apply (ps_more _ (fa B) (u3 ++ u4) z (fa A)); [exact Sz|exact Dz|apply IH, Z]. }
  split; [rewrite <- GI, <- PI; exact Inc|]. intros s s' R (si & s0 & -> & QI & (s1 & s2 & -> & Q1 & (u & Q2 & Nu))). destruct (Tst s2 u Q2) as [_ Hf]. destruct (Hf Nu) as (z & Rz & Hz).
  destruct (GR s si R (HI _ QI)) as [y Ry]. apply (RF _ z (Some false)); [|apply JF, Hz]. rewrite Pa, app_assoc.
  destruct (SGp _ _ Ry) as [Sy Dy]. apply (ps_more _ (fa G') (s ++ si) y (fa A)); [exact Sy|exact Dy|]. apply Lp; [exact Q1|apply ps_one, STp, Rz].
Qed.
End Order.
