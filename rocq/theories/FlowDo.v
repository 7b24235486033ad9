(** Proofs about building control flow graphs: do loops. *)
From Coq Require Import Permutation ZifyBool ZifyNat.
From Verif Require Import Base GraphModel FlowModel FlowSpec FlowProofs FlowFrag FlowSteps FlowCat FlowGlue FlowPool FlowFork FlowExprs FlowBin FlowGo FlowStmt FlowLoop FlowJoin FlowFor.

Section Order.
Variable order : heap -> list nat -> list nat.
Hypothesis Hperm : forall h l, Permutation (order h l) l.

(** Into the body. *)
Lemma do_front : forall h G B rest tk p lB, ok h (Pt (loopP B p lB) :: Fr G :: rest) -> fK G = [] -> noJ G -> seg B -> In (fe B) lB ->
  exists h' P, link order h (Some (fo G)) EK_SEQ 0 tk 0 (Some (fo B)) LF_NONE = Some h' /\ ok h' (Pt P :: rest)
    /\ is_pool P (fI G) (fa G) (fun y k => y = fe B /\ k = None) (fun b t y => (b = fa G /\ fR G t y) \/ (b = fa B /\ fR B t y))
         (fun x b => b = fa B /\ x = fe G) (fun o l => o = fo B /\ l = lB) (fun i b => In i (fI B) /\ b = fa B) (fun i => In i (fI B))
         (fun e x b K => e = fe B /\ x = fx B /\ b = fb B /\ K = fK B)
    /\ fa B <> fa G /\ fe B <> fe G.
Proof using Hperm.
  intros h G B rest tk p lB O Gk Gn (Bk & Bn & Bo) IB. destruct (ok_Pt _ _ _ O) as [WB KB]. destruct (ok_Fr _ _ _ (ok_tail _ _ _ O)) as [WG VG].
  assert (D : disj p (fP G)) by (destruct O as [_ [Q _]]; apply (Q (Fr G)); left; reflexivity). destruct D as (D1 & D2 & D3).
  assert (NaBG : fa B <> fa G). { intro E. apply (D1 (fa B)); [apply (k_a _ _ _ _ _ _ (n_base _ _ KB))|rewrite E; apply (k_a _ _ _ _ _ _ (v_base _ _ VG))]. }
  assert (NeBG : fe B <> fe G). { intro E. apply (D3 (fe B)); [apply (k_J _ _ _ _ _ _ (n_base _ _ KB) (fe B) None); right; auto|rewrite E; apply (exit_re _ _ _ WG VG); left; reflexivity]. }
  apply ok_swap in O. apply pool_of in O. set (lG := outs h (fo G)) in *.
  assert (HG : forall y, In y lG <-> y = fe G). { intro y. unfold lG. rewrite (v_out _ _ VG). split; [|intros ->; left; reflexivity]. intros [Q|[k Q]]; [exact Q|destruct (Gn _ _ Q)]. }
  assert (NdG : NoDup lG) by apply (v_nd _ _ VG). apply pool_both in O. match type of O with ok _ (Pt ?A :: _) => set (P0 := A) in * end.
  destruct (pool_link order Hperm h P0 rest (fo G) lG (fo B) (fa B) EK_SEQ 0 tk 0 LF_NONE O) as (h2 & p2 & L2 & O3 & _ & _).
  { left. split; reflexivity. } { exact NdG. } { right. split; [exact Bo|reflexivity]. } { exact NaBG. } { eapply nj_Z; [exact O| |reflexivity]. right. exact Bo. }
  exists h2. edestruct (pool_weaken h2 _ rest (fun y k => y = fe B /\ k = None) (fun b t y => (b = fa G /\ fR G t y) \/ (b = fa B /\ fR B t y))
         (fun x b => b = fa B /\ x = fe G) (fun o l => o = fo B /\ l = lB) (fun i b => In i (fI B) /\ b = fa B) (fun i => In i (fI B))
         (fun e x b K => e = fe B /\ x = fx B /\ b = fb B /\ K = fK B) O3) as (P & OP & Is).
  { reflexivity. }
  { intros y k. cbn. split.
    - intros [-> ->]. split; [tauto|]. intros [Q _]. apply HG in Q. congruence.
    - intros [[[Q|[-> ->]]|[Q|Q]] N]; [destruct (Gn _ _ Q)| |destruct (Bn _ _ Q)|exact Q]. exfalso. apply N. split; [apply HG; reflexivity|reflexivity]. }
  { cbn. tauto. }
  { cbn. intros x b [-> ->]. right. split; [reflexivity|]. split; [apply HG; reflexivity|]. exists None. split; [left; right; auto|reflexivity]. }
  { cbn. tauto. } { cbn. tauto. } { cbn. tauto. }
  { cbn. intros e x b K (-> & -> & -> & ->). split; [tauto|]. left. intro Q. apply HG in Q. congruence. }
  exists P. split; [exact L2|]. split; [exact OP|]. split; [exact Is|]. auto.
Qed.

(** The jumps back. *)
Lemma mrk_ok : forall l h P rest, ok h (Pt P :: rest) -> (forall y, In y l -> (exists a, pD P y a) \/ pJ P y (Some false)) -> (forall y, In y l -> exists c, rb (pP P) c /\ In y (outs h c)) ->
  exists h', fold_left (fun h e => let x := ed h e in if ekind_eqb (e_kind x) EK_JMP && has_bit (e_tag x) ET_JMP_T then set_ed h e (or_tag x ET_LOOP) else h) l h = h'
    /\ ok h' (Pt P :: rest).
Proof.
  induction l as [|y l IH]; intros h P rest O HD HC; [exists h; auto|]. cbn [fold_left]. cbv zeta.
  destruct (ok_Pt _ _ _ O) as [W K].
  destruct (ekind_eqb (e_kind (ed h y)) EK_JMP && has_bit (e_tag (ed h y)) ET_JMP_T) eqn:E.
  - apply IH; [| intros; apply HD; right; assumption|intros; apply HC; right; assumption].
    destruct (HD y (or_introl eq_refl)) as [[a Da]|J].
    + apply (pool_rekind h P rest y a _ _ O Da (HC y (or_introl eq_refl))). apply lor_cut; [|reflexivity]. apply (w_cut _ _ W). apply (n_D _ _ K _ _ Da).
    + exfalso. destruct (k_J _ _ _ _ _ _ (n_base _ _ K) y _ J) as [_ (H1 & H2 & _)]. rewrite H1, H2 in E. discriminate E.
  - apply IH; [exact O|intros; apply HD; right; assumption|intros; apply HC; right; assumption].
Qed.

(** The way out. *)
Lemma do_close : forall h P rest k c t b lT lB, ok h (Pt P :: rest) -> pf P = true -> In c (pI P) -> pO P t lT -> pO P b lB -> NoDup lT -> NoDup lB ->
  (forall x, In x lT -> (exists k, pJ P x k) \/ (exists b, pD P x b)) -> (forall x, In x lB -> (exists k, pJ P x k) \/ (exists b, pD P x b)) ->
  (forall y b, pJ P y (Some b) -> In y lT) -> (forall y, pJ P y None -> In y lB) -> (exists y, pJ P y (Some false)) ->
  exists n h0 h1 h2 v h' F, new_exit k (grown h (im (bl h c)) [x_jmp h t; x_out h b]) = (n, h0) /\ link_jmp order h0 (Some t) (Some n) = Some h1 /\ link_seq order h1 (Some (nx h)) (Some n) = Some h2
    /\ grp h2 (Some (nx h)) (Some n) = Some (Some v, h') /\ ok h' (Fr F :: rest) /\ fo F = v /\ seg F /\ suf (pI P) (fI F)
    /\ forall s m k, paths P (pa P) s m -> pJ P m k -> reach F s.
Proof using Hperm.
  intros h P rest k c t b lT lB O Pf Ic OT OB NT NB HT HB HJ HN [j Hj]. destruct (ok_Pt _ _ _ O) as [W K].
  destruct (k_i _ _ _ _ _ _ (n_base _ _ K) c Ic) as [Rc Im].
  destruct (group_over h P rest c [x_jmp h t; x_out h b] O Rc Im) as (p & OG & _).
  { intros l [<-|[<-|[]]] x Ix; [apply (x_from P h t _ x K OT)|apply (x_from P h b _ x K OB)]; auto. }
  apply ok_withS in OG. destruct (new_exit_ok k _ _ OG) as (n & h0 & E0 & O1). set (L := fold_left merge_set [x_jmp h t; x_out h b] []) in *.
  apply ok_swap in O1. match type of O1 with ok _ (Pt ?A :: _) => set (P1 := A) in * end. set (X := blkF n BK_BASIC [IExit k]) in *.
  destruct (pool_close order Hperm h0 P1 X rest t lT (nx h) L n 0 0 LF_NONE O1) as (h1 & h2 & F & L5 & L6 & O11 & (D1 & D2 & D3 & D4 & D5 & D6) & _).
  { exact Pf. } { left. reflexivity. } { left. reflexivity. } { right. split; [exact OT|]. pose proof (w_b _ _ W t (proj1 (n_O _ _ K t lT OT))). lia. } { exact NT. } { left. split; reflexivity. }
  { unfold L. cbn [fold_left]. apply merge_nd; [apply merge_nd; [constructor|]|]; [apply (x_nd P h t _ K OT NT)|apply (x_nd P h b _ K OB NB)]. }
  { exact HJ. }
  { intros y Q. cbn in Q. unfold L. cbn [fold_left]. rewrite !merge_in, (x_out_in P h b _ y W K OB HB). eauto 7. }
  { reflexivity. } { right. exists j, false. exact Hj. }
  destruct (grp_ok h2 F rest (nx h) O11) as (w & h3 & F' & G3 & O12 & (E1 & E2 & E3 & E4 & E5 & E6) & _ & _).
  { rewrite D1. left. reflexivity. }
  { rewrite D2. intro Q. destruct (ok_Pt _ _ _ O1) as [W8 K8]. destruct O1 as [_ [Qd _]]. destruct (Qd (Fr X) (or_introl eq_refl)) as (Dd & _). apply (Dd (nx h)); [apply (n_O _ _ K8 (nx h) L); left; split; reflexivity|symmetry; exact Q]. }
  rewrite D2 in G3. exists n, h0, h1, h2, w, h3, F'. split; [exact E0|]. split; [exact L5|]. split; [exact L6|]. split; [exact G3|]. split; [exact O12|]. split; [exact E2|]. split.
  - split; [rewrite E4, D4; reflexivity|]. split; [intros x c'; rewrite E5, D5; apply noJ_blk|rewrite E1, E2; left; reflexivity].
  - split; [rewrite E1, D1; eapply suf_tran; [|apply suf_cons, suf_refl]; cbn; apply suf_cons, suf_refl|]. intros s m c' Q J. exists (4 + n). rewrite E6, D6. exists s, [], m, c'. split; [rewrite app_nil_r; reflexivity|]. split; [|split; [exact J|split; reflexivity]].
    cbn. clear -Q. induction Q as [b0 t0 y Q|b0 t0 x b' t' y Q D Q' IH]; [apply ps_one; exact Q|]. eapply ps_more; [exact Q|exact D|exact IH].
Qed.

Lemma do_ok : forall h G T B c (X : list nat -> Prop) rest, ok h (Fr T :: Fr B :: Fr G :: rest) -> seg G -> seg B -> fo B <> fx B -> xspec false c T -> test_ok c = true -> (forall t, X t -> reach B t) ->
  exists v h' F, after_do order false h (Some (fo G)) (Some (fo B)) (Some (fo T)) = Some (Some v, h') /\ ok h' (Fr F :: rest) /\ fo F = v /\ seg F
    /\ after_all G F (then_ (often (then_ X (is_true c))) (then_ X (is_not c))).
Proof using Hperm.
  intros h G T B c X rest O0 SG SB Nox XT Tk HX. pose proof XT as [xb xk xo xc xn]. unfold after_do.
  destruct (jump_ok order Hperm h T _ false O0 xk) as (h1 & A & Ej & O1 & (A1 & A2 & A3 & A4 & A5 & A6) & A7 & _).
  change (tagof (Some false)) with ET_JMP_F in Ej. rewrite Ej.
  assert (Tst : tested c A).
  { destruct (ok_Fr _ _ _ O0) as [_ VT]. destruct (ok_Fr _ _ _ O1) as [_ VT']. eapply (test_cover c T A A h (nx h) h1 h1); eauto. }
  assert (Ao : In (fo A) (fI A)) by (rewrite A1, A2; exact xo). assert (AF : fJ A (nx h) (Some false)) by (rewrite A5; auto).
  clear O0 Ej. destruct SB as (Bk & Bn & Bo).
  assert (O2 : ok h1 (Fr B :: Fr G :: Fr A :: rest)) by (arrange O1). clear O1.
  destruct (ok_Fr _ _ _ O2) as [_ VB].
  assert (BR : forall t y, fR B t y -> y = fe B) by (intros t y R; destruct (v_R _ _ VB _ _ R) as [[->|[k Q]] _]; [reflexivity|destruct (Bn _ _ Q)]).
  assert (EB : outs h1 (fo B) = [fe B]).
  { apply nodup_one; [apply (v_nd _ _ VB)|]. intro y. rewrite (v_out _ _ VB). split; [|intros ->; left; reflexivity]. intros [Q|[k Q]]; [exact Q|destruct (Bn _ _ Q)]. }
  destruct (loop_in order Hperm h1 B _ (fo B) O2 Bo) as (h2 & p & E2 & Bl2 & O3). rewrite E2. rewrite EB in O3.
  assert (VG : valid G h2) by (apply (ok_Fr h2 G (Fr A :: rest)); exact (ok_tail _ _ _ O3)).
  assert (GR : forall t y, fR G t y -> y = fe G) by (intros t y R; destruct (v_R _ _ VG _ _ R) as [[->|[k Q]] _]; [reflexivity|destruct SG as (_ & Gn & _); destruct (Gn _ _ Q)]).
  destruct (do_front h2 G B (Fr A :: rest) EK_NONE p [fe B] O3) as (h3 & Q & L3 & O4 & (P3 & P4 & P5 & P6 & P7 & P8 & P9 & P10 & P11 & P12) & NaBG & NeBG); [apply SG|apply SG|split; auto|left; reflexivity|].
  rewrite L3. clear O2 O3. destruct (ok_Fr _ _ _ (ok_tail _ _ _ O4)) as [WA VA]. destruct (loop_facts h3 A VA) as (N1 & N2 & N3 & N4). destruct (ok_Pt _ _ _ O4) as [WQ KQ].
  assert (D : disj (pP Q) (fP A)) by (destruct O4 as [_ [Z _]]; apply (Z (Fr A)); left; reflexivity).
  assert (BA : ~ exits A (fe B)). { intro Z. destruct D as (_ & _ & D3). apply (D3 (fe B)); [apply (k_J _ _ _ _ _ _ (n_base _ _ KQ) _ None); rewrite P6; auto|exact (exit_re _ _ _ WA VA Z)]. }
  destruct (pool_join order Hperm h3 Q A rest (fo B) (fe B) (fx B) (fb B) (fo A) O4) as (h4 & q & x' & L4 & O5); [rewrite P12, <- Bk; auto|rewrite P9; auto|exact Ao|].
  rewrite A2 in *. rewrite L4. set (lT := outs h3 (fo T)) in *. set (R := joinP Q A q (fe B) (fx B) x' lT (fb B)) in *.
  assert (eA : In (fe A) lT) by (apply N2; left; reflexivity).
  destruct (loop_back order Hperm h4 R rest (fo T) (fe A) x' (fb B && fb A) (fK A) lT (fo B) (fa B) O5) as (h5 & P & L5 & O6 & Bl & (R1 & R2 & R3 & R4 & R5 & R6 & R7 & R8 & R9 & R10)).
  { exact P5. } { cbn. auto. } { cbn. auto. } { exact N1. } { exact eA. }
  { intros y Iy. apply N2 in Iy as [->|[k Z]]; [auto|]. right. pose proof (N3 y k Z). destruct k as [b|]; [exists b; cbn; auto|congruence]. }
  { cbn. auto. } { cbn. rewrite P10. auto. } { cbn. rewrite P11. exact Bo. } { cbn. rewrite P4. exact NaBG. }
  destruct (pool_link order Hperm h5 P rest (fo T) lT (fo B) (fa B) EK_JMP ET_JMP_T EK_JMP 0 LF_NONE O6) as (h6 & p6 & L6 & O7 & Bl6 & _).
  { rewrite R7. cbn. auto. } { exact N1. } { rewrite R8. cbn. rewrite P10. auto. } { rewrite R2. cbn. rewrite P4. exact NaBG. } { apply nj_jmp. }
  set (S := linkP P p6 EK_JMP ET_JMP_T lT (fa B)) in *.
  assert (SJ : forall y k, pJ S y k <-> (y = fe B /\ k = None) \/ (fJ A y k /\ k = Some false)).
  { intros y k. cbn. rewrite R4. cbn. rewrite P6. split.
    - intros [[[Z|[Z|[-> ->]]] Ny] N]; [auto| |congruence]. right. split; [exact Z|]. pose proof (N3 y k Z) as Nk. destruct k as [[|]|]; [|reflexivity|congruence]. exfalso. apply N. split; [apply N2; right; eauto|reflexivity].
    - intros [[-> ->]|[Z ->]].
      + split; [split; [auto|]|intros [_ H]; discriminate H]. intro E. apply BA. left. exact E.
      + split; [split; [auto|]|intros [_ H]; discriminate H]. intros ->. exact (N4 _ Z). }
  assert (SD : forall y, y = fe G \/ y = fe A \/ fJ A y (Some true) -> pD S y (fa B)).
  { intros y Hy. cbn. rewrite R6, R4. cbn. rewrite P8, P6. destruct Hy as [->|[->|Z]]; [auto|auto|]. right. split; [reflexivity|]. split; [apply N2; right; eauto|]. exists (Some true). split; [|reflexivity]. split; [auto|]. intros ->. exact (N4 _ Z). }
  assert (SO : pO S (fo T) lT) by (cbn; rewrite R7; cbn; auto).
  assert (SB' : pO S (fo B) [fe B]) by (cbn; rewrite R7; cbn; rewrite P9; auto).
  assert (HlT : forall y, In y lT -> pJ S y (Some false) \/ pD S y (fa B)).
  { intros y Iy. apply N2 in Iy as [->|[k Z]]; [right; apply SD; auto|]. pose proof (N3 y k Z) as Nk. destruct k as [[|]|]; [right; apply SD; auto|left; apply SJ; auto|congruence]. }
  destruct (ok_Pt _ _ _ O7) as [W7 K7]. destruct (n_O _ _ K7 _ _ SO) as [RoT OuT].
  destruct (mrk_ok (outs h6 (fo T)) h6 S rest O7) as (h7 & M7 & O8).
  { intros y Iy. rewrite OuT in Iy. destruct (HlT y Iy); eauto. } { intros y Iy. exists (fo T). auto. }
  assert (M7' : mrk_jmp_out_as_loop h6 (fo T) ET_JMP_T = h7) by exact M7.
  destruct (do_close h7 S rest K_DO (fo G) (fo T) (fo B) lT [fe B] O8) as (n & g0 & g1 & g2 & v & h' & F & X0 & X1 & X2 & X3 & O9 & Fo & SF & Inc & RF).
  { exact R3. } { cbn. rewrite R1. cbn. rewrite P3. apply SG. } { exact SO. } { exact SB'. } { exact N1. } { constructor; [intros []|constructor]. }
  { intros y Iy. destruct (HlT y Iy); eauto. } { intros y [<-|[]]. left. exists None. apply SJ. auto. }
  { intros y b Z. apply SJ in Z as [[_ Z]|[Z _]]; [discriminate|]. apply N2. right. eauto. } { intros y Z. apply SJ in Z as [[-> _]|[_ Z]]; [left; reflexivity|discriminate]. } { exists (nx h). apply SJ. auto. }
  destruct (ok_Pt _ _ _ O8) as [W8 K8].
  assert (E1 : x_jmp (snd (new_grp (im (bl h7 (fo G))) h7)) (fo T) = x_jmp h7 (fo T)) by (apply (grown_x order Hperm S h7 (im (bl h7 (fo G))) [] (fo T) _ W8 K8 SO)).
  assert (E3 : x_out (snd (new_grp (im (bl h7 (fo G))) h7)) (fo B) = x_out h7 (fo B)) by (apply (grown_x order Hperm S h7 (im (bl h7 (fo G))) [] (fo B) _ W8 K8 SB')).
  exists v, h', F. split.
  { destruct (link_seq order h4 (Some (fo T)) (Some (fo B))) as [g|]; [|discriminate L5]. rewrite L5, L6. cbv zeta. rewrite M7'.
    change (new_grp (im (bl h7 (fo G))) h7) with (nx h7, snd (new_grp (im (bl h7 (fo G))) h7)). cbv iota beta. rewrite E1, E3.
    change (add_outs (add_outs (snd (new_grp (im (bl h7 (fo G))) h7)) (nx h7) (x_jmp h7 (fo T))) (nx h7) (x_out h7 (fo B))) with (grown h7 (im (bl h7 (fo G))) [x_jmp h7 (fo T); x_out h7 (fo B)]).
    rewrite X0, X1, X2, X3. destruct (ok_Fr _ _ _ O9) as [_ V]. pose proof (valid_seq_out order Hperm F h' V) as Sq. rewrite Fo in Sq. rewrite Sq, (k_e _ _ _ _ _ _ (v_end _ _ V)). reflexivity. }
  split; [exact O9|]. split; [exact Fo|]. split; [exact SF|].
  assert (Bd : forall t1 t2 y, X t1 -> fR A t2 y -> pS S (fa B) (t1 ++ t2) y).
  { intros t1 t2 y Q1 Q2. destruct (HX t1 Q1) as [z Rz]. pose proof (BR _ _ Rz) as ->. cbn. rewrite R5. cbn. right. split; [right; exists (fo B); rewrite P10; auto|]. exists t1, t2. rewrite P7. auto. }
  assert (Lp : forall s, often (then_ X (is_true c)) s -> forall s' m, paths S (fa B) s' m -> paths S (fa B) (s ++ s') m).
  { intros s Qs. induction Qs as [|t1 t2 (u1 & u2 & -> & Q1 & Q2) _ IH]; intros s' m Z; [exact Z|]. rewrite <- (app_assoc (u1 ++ u2)).
    destruct (Tst u2 V_true Q2) as [Ht _]. destruct (Ht eq_refl) as (y & Ry & Hy).
    apply (ps_more _ (fa B) (u1 ++ u2) y (fa B)); [apply Bd; assumption|apply SD; destruct Hy; auto|apply IH, Z]. }
  assert (PI : pI S = fI G) by (cbn; rewrite R1; exact P3). assert (Pa : pa S = fa G) by (cbn; rewrite R2; exact P4).
  split; [rewrite <- PI; exact Inc|]. intros s s' [y Ry] (s1 & s2 & -> & Q1 & (u1 & u2 & -> & Q2 & (u & Q3 & Nu))). destruct (Tst u2 u Q3) as [_ Hf]. destruct (Hf Nu) as (z & Rz & Hz).
  apply (RF _ z (Some false)); [|apply SJ; auto]. rewrite Pa. pose proof (GR _ _ Ry) as ->.
  apply (ps_more _ (fa G) s (fe G) (fa B)); [cbn; rewrite R5; cbn; left; rewrite P7; auto|apply SD; auto|]. apply Lp; [exact Q1|apply ps_one, Bd; assumption].
Qed.
End Order.
