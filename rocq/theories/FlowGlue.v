(** Proofs about building control flow graphs: closing jumps, grouping fragments, leaving blocks. *)
From Coq Require Import Permutation ZifyBool ZifyNat.
From Verif Require Import Base GraphModel FlowModel FlowSpec FlowProofs FlowFrag FlowSteps FlowCat.

Section Order.
Variable order : heap -> list nat -> list nat.
Hypothesis Hperm : forall h l, Permutation (order h l) l.

Lemma disj_im : forall h p q a b, wf h p -> wf h q -> disj p q -> rb p a -> rb q b -> im (bl h a) <> im (bl h b).
Proof. intros h p q a b W1 W2 (D1 & D2 & D3) Ha Hb E. apply (D2 (im (bl h a))); [eapply w_im; eauto|rewrite E; eapply w_im; eauto]. Qed.
Lemma ok_disj : forall h A B rest, ok h (Fr A :: Fr B :: rest) -> disj (fP A) (fP B).
Proof. intros h A B rest [_ [Q _]]. apply (Q (Fr B)). left. reflexivity. Qed.
Definition any_tag (ft : N) : Prop := ft = 0%N \/ ft = N.lor ET_JMP_T ET_JMP_F.
Lemma hits_any : forall ft b, any_tag ft -> hits EK_JMP ft (Some b) = true.
Proof. intros ft b [->| ->]; destruct b; reflexivity. Qed.

Lemma close_into : forall h A B rest i ft tt, ok h (Fr A :: Fr B :: rest) -> fK A = [] -> In i (fI B) -> any_tag ft ->
  exists h1 h2 F, link order h (Some (fo A)) EK_JMP ft EK_JMP tt (Some i) LF_NONE = Some h1 /\ link_seq order h1 (Some (fo A)) (Some i) = Some h2
    /\ ok h2 (Fr F :: rest) /\ is_frag F (fI A) (fo B) (fb A && fb B) (fK B) (fJ B) (seqR A B) /\ (forall n, rb (fP A) n \/ rb (fP B) n -> rb (fP F) n).
Proof using Hperm.
  intros h A B rest i ft tt O KA Hi Hft.
  destruct (ok_Fr _ _ _ O) as [WA VA]. destruct (ok_Fr _ _ _ (ok_tail _ _ _ O)) as [WB VB]. pose proof (ok_disj _ _ _ _ O) as D.
  pose proof (v_base _ _ VA) as BA. pose proof (v_base _ _ VB) as BB. pose proof (v_end _ _ VA) as EA. pose proof (v_end _ _ VB) as EB.
  destruct (existsb (fun x => negb (is_seq (ed h x))) (outs h (fo A))) eqn:Ex.
  2: { assert (NA : noJ A).
       { intros x k Q. assert (I : In x (outs h (fo A))) by (apply (v_out _ _ VA); right; eauto).
         rewrite <- not_true_iff_false in Ex. apply Ex, existsb_exists. exists x. split; [exact I|].
         destruct (k_J _ _ _ _ _ _ BA x k Q) as [_ (H1 & _ & _)]. unfold is_seq. rewrite H1. pose proof (v_jmp _ _ VA x k Q). destruct k; [reflexivity|congruence]. }
       destruct (seq_into order Hperm h A B rest i 0 EK_SEQ 0 LF_NONE O NA KA Hi eq_refl) as (h2 & F & L & Ok & Is).
       exists h, h2, F. split; [|split; [exact L|split; [exact Ok|exact Is]]].
       apply (link_none order Hperm (fP A) h (fo A) i (fa B)); [exact WA|apply (v_o _ _ VA)|eapply base_entry; eauto|split; [reflexivity|left; reflexivity]|].
       intros x I. unfold matches. replace (ekind_eqb (e_kind (ed h x)) EK_JMP) with false; [reflexivity|].
       assert (Q : is_seq (ed h x) = true).
       { destruct (is_seq (ed h x)) eqn:Q; [reflexivity|]. rewrite <- not_true_iff_false in Ex. exfalso. apply Ex, existsb_exists. exists x. rewrite Q. auto. }
       unfold is_seq in Q. destruct (e_kind (ed h x)); cbn in *; congruence. }
  set (p := union (fP A) (fP B)).
  assert (W : wf h p) by (apply wf_union; auto).
  pose proof (k_a _ _ _ _ _ _ BB) as HaB. pose proof (k_i _ _ _ _ _ _ BB i Hi) as [HiB EiB].
  assert (Ne : im (bl h (fa A)) <> im (bl h (fa B))) by (eapply (disj_im h (fP A) (fP B)); eauto; apply (k_a _ _ _ _ _ _ BA)).
  assert (NdB : ~ rd p (fa B)).
  { intros [Q|Q]; [|exact (k_da _ _ _ _ _ _ BB Q)]. destruct D as (D1 & _). apply (D1 (fa B)); [eapply w_dead; eauto|exact HaB]. }
  assert (Eb : entry h i (fa B)) by (eapply base_entry; eauto).
  assert (Eaa : entry h (fa B) (fa B)) by apply (k_in _ _ _ _ _ _ BB).
  assert (Rp : rb p (fa B)) by (right; exact HaB).
  assert (Ro : rb p (fo A)) by (left; apply (v_o _ _ VA)).
  assert (Ri : rb p i) by (right; exact HiB).
  destruct (link_far order Hperm p h (fo A) i (fa B) EK_JMP ft EK_JMP tt LF_NONE W Ro Ri Eb NdB (v_nd _ _ VA)) as (h1 & L1 & K1 & In1).
  { split; [reflexivity|left; reflexivity]. }
  assert (Has : has_in h1 EK_JMP (fa B)).
  { apply In1. apply existsb_exists in Ex as (x & Ix & Qx). exists x. split; [exact Ix|].
    apply (v_out _ _ VA) in Ix as [->|[k Q]].
    - unfold is_seq in Qx. rewrite (k_e _ _ _ _ _ _ EA) in Qx. discriminate.
    - destruct (k_J _ _ _ _ _ _ BA x k Q) as [_ Hh]. rewrite (hang_matches _ _ _ _ _ Hh). pose proof (v_jmp _ _ VA x k Q). destruct k as [b|]; [apply hits_any, Hft|congruence]. }
  assert (W1 : wf h1 (more_edges p (nx h) (nx h1))) by (eapply (linked_wf order Hperm); [exact W|exact Rp|apply (k_ga _ _ _ _ _ _ BB)|exact NdB|exact K1]).
  set (p1 := more_edges p (nx h) (nx h1)) in *.
  assert (Bl1 : bl h1 = bl h) by apply (l_bl _ _ _ _ _ _ _ _ K1).
  assert (Out1 : forall d, rb p d -> outs h1 d = outs h d) by (intros d Hd; exact (linked_outs p _ _ _ _ _ h h1 d W Rp Hd K1)).
  assert (Eb1 : entry h1 i (fa B)) by (eapply (linked_entry p _ _ _ (fa B) _ h h1); [exact W|exact Rp|exact K1|exact Eaa| |]; [exact Ri|exact Eb]).
  assert (Eaa1 : entry h1 (fa B) (fa B)) by (eapply (linked_entry p _ _ _ (fa B) _ h h1); [exact W|exact Rp|exact K1|exact Eaa|exact Rp|exact Eaa]).
  destruct (link_far order Hperm p1 h1 (fo A) i (fa B) EK_SEQ 0 EK_SEQ 0 LF_NONE W1 Ro Ri Eb1 NdB) as (h2 & L2 & K2 & _).
  { rewrite Out1 by exact Ro. apply (v_nd _ _ VA). }
  { split; [reflexivity|]. right. right. left. eapply only_seq_in_jmp; [exact Has|]. rewrite Bl1. exact EiB. }
  assert (G1 : ng h1 (fa B)) by (unfold ng; rewrite Bl1; apply (k_ga _ _ _ _ _ _ BB)).
  assert (W2 : wf h2 (more_edges p1 (nx h1) (nx h2))) by (eapply (linked_wf order Hperm); [exact W1|exact Rp|exact G1|exact NdB|exact K2]).
  set (p2 := more_edges p1 (nx h1) (nx h2)) in *.
  assert (Out2 : forall d, rb p d -> outs h2 d = outs h d) by (intros d Hd; rewrite <- Out1 by exact Hd; exact (linked_outs p1 _ _ _ _ _ h1 h2 d W1 Rp Hd K2)).
  assert (M1 : mono p h h1) by exact (linked_mono p _ _ _ _ _ h h1 W Rp K1).
  assert (M2 : mono p1 h1 h2) by exact (linked_mono p1 _ _ _ _ _ h1 h2 W1 Rp K2).
  assert (M : mono p h h2) by (eapply (mono_trans p p1); [auto|cbn; auto|exact M1|exact M2]).
  exists h1, h2, (mk_frag p2 (fI A) (fo B) (fa A) (fe B) (fx B) (fb B && fb A) (fK B) (fJ B) (seqR A B)).
  split; [exact L1|]. split; [exact L2|].
  split; [|split; [unfold is_frag; cbn; rewrite andb_comm; repeat split|cbn; auto]].
  assert (NoB : forall x, In x (outs h (fo A)) -> re (fP B) x -> False).
  { intros x I Q. destruct D as (_ & _ & D3). apply (D3 x); [eapply out_re; [exact WA|apply (v_o _ _ VA)|exact I]|exact Q]. }
  eapply ok_step; [apply ok_pair, O|..].
  - cbn. fold p. eapply chg_trans; [eapply linked_chg; [exact W|exact Rp| |exact K1]| |eapply (linked_chg p1); [exact W1|exact Rp| |exact K2]].
    + intros x I. exact (out_re h p (fo A) x W Ro I).
    + eapply (linked_grows order Hperm). exact K1.
    + intros x I. rewrite Out1 in I by exact Ro. left. exact (out_re h p (fo A) x W Ro I).
  - cbn. fold p. eapply grows_trans; [apply (l_nx _ _ _ _ _ _ _ _ K1)|eapply (linked_grows order Hperm); exact K1|eapply (linked_grows order Hperm); exact K2].
  - split; [exact W2|]. split; [|apply Fr_stable]. split; cbn [fP fI fa fe fx fb fK fJ fR fo].
    + eapply base_J; [|eapply (base_link p1 _ _ _ _ _ h1 h2); [exact W1|exact Rp|exact Eaa1|exact K2| |eapply (base_link p _ _ _ _ _ h h1); [exact W|exact Rp|exact Eaa|exact K1| |eapply both_base; [exact WA|exact WB|exact D|exact BA|exact BB|exact EA]]]].
      * intros x k. cbn beta. rewrite (Out1 _ Ro). split.
        { intros [[[Q|[Q|[-> ->]]] N1] N2]; [|exact Q|].
          - exfalso. apply N1. split; [apply (v_out _ _ VA); right; eauto|]. pose proof (v_jmp _ _ VA x k Q). destruct k; [apply hits_any, Hft|congruence].
          - exfalso. apply N2. split; [apply (v_out _ _ VA); left; reflexivity|reflexivity]. }
        { intro Q. destruct (k_J _ _ _ _ _ _ BB x k Q) as [R _]. split; [split; [auto|]|]; intros [I _]; exact (NoB x I R). }
      * rewrite Bl1. auto.
      * auto.
    + destruct (endp_union_r h (fP A) (fP B) (fe B) (fx B) (fb B) (fK B) WA WB D EB) as [b1 b2 b3 b4 b5 b6 b7].
      assert (Eu : endp p (fe B) (fx B) (fb B && fb A) (fK B) h) by (split; auto; intro Q; apply andb_true_iff in Q as [Q _]; auto).
      eapply (endp_link p1 _ _ _ _ _ h1 h2); [exact W1|exact Rp|exact K2| |eapply (endp_link p _ _ _ _ _ h h1); [exact W|exact Rp|exact K1| |exact Eu]].
      * left. rewrite Out1 by exact Ro. intro I. exact (NoB _ I (endp_re _ _ _ _ _ _ WB EB)).
      * right. reflexivity.
    + right. apply (v_o _ _ VB).
    + rewrite Out2 by (right; apply (v_o _ _ VB)). apply (v_nd _ _ VB).
    + intro x. rewrite Out2 by (right; apply (v_o _ _ VB)). apply (v_out _ _ VB).
    + apply (v_jmp _ _ VB).
    + intros t y (t1 & t2 & m & -> & R1 & R2). destruct (v_R _ _ VA t1 m R1) as [Xm P1]. destruct (v_R _ _ VB t2 y R2) as [Xy P2].
      split; [exact Xy|]. eapply path0_app; [eapply (path0_mono p h h2); [exact W|exact M|left; apply (k_a _ _ _ _ _ _ BA)|apply (k_ga _ _ _ _ _ _ BA)|exact P1]| |].
      * destruct Xm as [->|[k Q]].
        { assert (Hh : hang h1 (fe A) None).
          { pose proof (linked_hang p _ _ _ _ _ h h1 (fe A) None W Rp K1) as Z. destruct Z as [(_ & Z & _)|[_ Z]].
            - left. eapply endp_re; eauto.
            - unfold hang. rewrite (k_e _ _ _ _ _ _ EA). auto.
            - discriminate Z.
            - unfold hang. rewrite Z, (k_e _ _ _ _ _ _ EA). auto. }
          destruct (linked_hang p1 _ _ _ _ _ h1 h2 (fe A) None W1 Rp K2) as [(_ & _ & Z)|[Z _]]; [left; left; eapply endp_re; eauto|exact Hh|exact Z|].
          exfalso. apply Z. split; [|reflexivity]. rewrite Out1 by exact Ro. apply (v_out _ _ VA). left. reflexivity. }
        { destruct (k_J _ _ _ _ _ _ BA m k Q) as [R Hh].
          destruct (linked_hang p _ _ _ _ _ h h1 m k W Rp K1) as [(_ & _ & Z)|[Z _]]; [left; exact R|exact Hh| |].
          - apply (m_dst _ _ _ M2); [left; left; exact R|exact Z].
          - exfalso. apply Z. split; [apply (v_out _ _ VA); right; eauto|]. pose proof (v_jmp _ _ VA m k Q). destruct k; [apply hits_any, Hft|congruence]. }
      * eapply (path0_mono p h h2); [exact W|exact M|exact Rp|apply (k_ga _ _ _ _ _ _ BB)|exact P2].
Qed.

(** ** Grouping *)
Lemma grp_gen : forall h t I a J e x b K from to (R : list nat -> nat -> Prop) rest, ok h (t :: rest) -> base (tp t) I a true J h -> endp (tp t) e x b K h ->
  (forall y k, J y k -> k <> None) -> In from I -> rb (tp t) to -> to <> from -> NoDup (merge_set (x_out h to) (x_jmp h from)) ->
  (forall y, In y (merge_set (x_out h to) (x_jmp h from)) <-> y = e \/ exists k, J y k) ->
  (forall s y, R s y -> (y = e \/ exists k, J y k) /\ path0 h a s y) ->
  exists v h' F, grp h (Some from) (Some to) = Some (Some v, h') /\ ok h' (Fr F :: rest) /\ is_frag F (v :: I) v b K J R
    /\ fa F = a /\ fe F = e /\ fx F = x /\ ~ ng h' v /\ (forall n, rb (tp t) n -> rb (fP F) n).
Proof.
  intros h t I a J e x b K from to R rest O B E Jj Hf Ht Ne Nd Iff HR.
  assert (W : wf h (tp t)) by (destruct O as [Q _]; apply (Q t); left; reflexivity).
  destruct (k_i _ _ _ _ _ _ B from Hf) as [Hrf Em].
  destruct (grp_spec (tp t) h from to W Hrf Ht Ne) as (v & m & h' & Eg & Hm & G).
  exists v, h', (mk_frag (addg (tp t) v m) (v :: I) v a e x b K J R). split; [exact Eg|].
  split; [|split; [repeat split|split; [reflexivity|split; [reflexivity|split; [reflexivity|split; [|cbn; auto]]]]]].
  2: { unfold ng. destruct (gr_bv _ _ _ _ _ _ _ G) as [its ->]. cbn. tauto. }
  pose proof (gr_outs_v h h' _ _ _ _ _ G) as Ov.
  eapply ok_step; [exact O|eapply grouped_chg; eauto|cbn; eapply grouped_grows; eauto|].
  split; [cbn; eapply grouped_wf; eauto|]. split; [|apply Fr_stable]. split; cbn [fP fI fa fe fx fb fK fJ fR fo].
  - eapply grouped_base_v; eauto.
  - eapply grouped_endp; eauto.
  - right. reflexivity.
  - rewrite Ov. exact Nd.
  - intro y. rewrite Ov. apply Iff.
  - exact Jj.
  - intros s y Q. destruct (HR s y Q) as [Q1 Q2]. split; [exact Q1|].
    eapply (path0_mono (tp t)); [exact W|eapply grouped_mono; eauto|apply (k_a _ _ _ _ _ _ B)|apply (k_ga _ _ _ _ _ _ B)|exact Q2].
Qed.
Lemma merge_sub : forall l l', (forall x, In x l' -> In x l) -> merge_set l l' = l.
Proof.
  intros l l' H. unfold merge_set. replace (filter _ l') with (@nil nat); [apply app_nil_r|]. symmetry.
  induction l' as [|x l' IH]; [reflexivity|]. cbn. replace (existsb (Nat.eqb x) l) with true; [cbn; apply IH; intros y I; apply H; right; exact I|].
  symmetry. apply existsb_spec, H. left. reflexivity.
Qed.
Lemma filter_all : forall (f : nat -> bool) l, (forall x, In x l -> f x = true) -> filter f l = l.
Proof. intros f l. induction l as [|x l IH]; intro H; [reflexivity|]. cbn. rewrite (H x) by (left; reflexivity). f_equal. apply IH. intros y I. apply H. right. exact I. Qed.
Lemma valid_x_out : forall F h, valid F h -> x_out h (fo F) = outs h (fo F).
Proof.
  intros F h V. unfold x_out. apply filter_all. intros x I. apply (v_out _ _ V) in I as [->|[k Q]].
  - rewrite (k_e _ _ _ _ _ _ (v_end _ _ V)). reflexivity.
  - destruct (k_J _ _ _ _ _ _ (v_base _ _ V) x k Q) as [_ (_ & _ & H)]. unfold hanging. rewrite H. reflexivity.
Qed.
Lemma valid_x_jmp : forall F h from x, wf h (fP F) -> valid F h -> rb (fP F) from -> In x (x_jmp h from) -> exists k, fJ F x k.
Proof.
  intros F h from x W V Hf I. unfold x_jmp in I. apply filter_In in I as [I Q]. apply andb_true_iff in Q as [Q1 Q2].
  apply (k_all _ _ _ _ _ _ (v_base _ _ V)); [eapply out_re; eauto|destruct (is_seq (ed h x)); [discriminate|reflexivity]|].
  unfold hanging in Q2. destruct (e_dst (ed h x)); [discriminate|reflexivity].
Qed.
Lemma grp_ok : forall h F rest from, ok h (Fr F :: rest) -> In from (fI F) -> fo F <> from ->
  exists v h' F', grp h (Some from) (Some (fo F)) = Some (Some v, h') /\ ok h' (Fr F' :: rest)
    /\ is_frag F' (v :: fI F) v (fb F) (fK F) (fJ F) (fR F) /\ ~ ng h' v /\ (forall n, rb (fP F) n -> rb (fP F') n).
Proof.
  intros h F rest from O Hf Ne. destruct (ok_Fr _ _ _ O) as [W V].
  destruct (k_i _ _ _ _ _ _ (v_base _ _ V) from Hf) as [Hrf _].
  assert (E : merge_set (x_out h (fo F)) (x_jmp h from) = outs h (fo F)).
  { rewrite (valid_x_out F h V). apply merge_sub. intros x I. apply (v_out _ _ V). right. eapply valid_x_jmp; eauto. }
  destruct (grp_gen h (Fr F) (fI F) (fa F) (fJ F) (fe F) (fx F) (fb F) (fK F) from (fo F) (fR F) rest O) as (v & h' & F' & Eg & Ok & Is & _ & _ & _ & Gv & Sub).
  - apply (v_base _ _ V).
  - apply (v_end _ _ V).
  - apply (v_jmp _ _ V).
  - exact Hf.
  - apply (v_o _ _ V).
  - exact Ne.
  - rewrite E. apply (v_nd _ _ V).
  - rewrite E. apply (v_out _ _ V).
  - apply (v_R _ _ V).
  - exists v, h', F'. auto.
Qed.
(** A group whose map is that of another block. *)
Lemma alias_ok : forall h F rest c, ok h (Fr F :: rest) -> In c (fI F) ->
  let h1 := snd (new_grp (im (bl h c)) h) in
  let h' := set_bl h1 (nx h) (mk_blk BK_GROUP [] (im (bl h1 (nx h))) (om (bl h1 (fo F)))) in
  exists F', ok h' (Fr F' :: rest) /\ is_frag F' (nx h :: fI F) (nx h) (fb F) (fK F) (fJ F) (fR F) /\ ~ ng h' (nx h).
Proof.
  intros h F rest c O Hc h1 h'. destruct (ok_Fr _ _ _ O) as [W V]. destruct (k_i _ _ _ _ _ _ (v_base _ _ V) c Hc) as [Hrc Em].
  pose proof (w_b _ _ W _ (v_o _ _ V)) as Lo. pose proof (w_m _ _ W _ (w_om _ _ W _ (v_o _ _ V))) as Lm.
  assert (G : grouped (fP F) (nx h) (im (bl h c)) (om (bl h (fo F))) (outs h (fo F)) h h').
  { split; unfold h', h1; cbn -[Nat.add]; try lia; auto.
    - intros n Hn N. rewrite upd_other by lia. reflexivity.
    - rewrite upd_other by lia. reflexivity.
    - right. exists (fo F). split; [apply (v_o _ _ V)|]. split; [reflexivity|reflexivity].
    - intros n N. rewrite !upd_other by auto. reflexivity.
    - exists []. rewrite !upd_same. rewrite (upd_other _ (bl h) (nx h) _ (fo F)) by lia. reflexivity.
    - eauto.
    - intros x I. exists (fo F). split; [apply (v_o _ _ V)|exact I]. }
  pose proof (gr_outs_v h h' _ _ _ _ _ G) as Ov.
  exists (mk_frag (addg (fP F) (nx h) (om (bl h (fo F)))) (nx h :: fI F) (nx h) (fa F) (fe F) (fx F) (fb F) (fK F) (fJ F) (fR F)).
  split; [|split; [repeat split|]].
  2: { unfold ng. destruct (gr_bv _ _ _ _ _ _ _ G) as [its ->]. cbn. tauto. }
  eapply ok_step; [exact O|eapply grouped_chg; eauto|cbn; eapply grouped_grows; eauto|].
  split; [cbn; eapply grouped_wf; eauto|]. split; [|apply Fr_stable]. split; cbn [fP fI fa fe fx fb fK fJ fR fo].
  - eapply grouped_base_v; eauto. apply (v_base _ _ V).
  - eapply grouped_endp; eauto. apply (v_end _ _ V).
  - right. reflexivity.
  - rewrite Ov. apply (v_nd _ _ V).
  - intro y. rewrite Ov. apply (v_out _ _ V).
  - apply (v_jmp _ _ V).
  - intros s y Q. destruct (v_R _ _ V s y Q) as [Q1 Q2]. split; [exact Q1|].
    eapply (path0_mono (fP F)); [exact W|eapply grouped_mono; eauto|apply (k_a _ _ _ _ _ _ (v_base _ _ V))|apply (k_ga _ _ _ _ _ _ (v_base _ _ V))|exact Q2].
Qed.

(** ** A new jump out of a fragment *)
Lemma jump_ok : forall h F rest c, ok h (Fr F :: rest) -> fK F = [] ->
  exists h' F', new_jmp_out order h (fo F) (tagof (Some c)) = Some h' /\ ok h' (Fr F' :: rest)
    /\ is_frag F' (fI F) (fo F) (fb F) [nx h] (fun y k => fJ F y k \/ (y = nx h /\ k = Some c)) (fun t y => fR F t y \/ (y = nx h /\ fR F t (fe F)))
    /\ fe F' = fe F /\ fx F' = fx F /\ bl h' = bl h.
Proof using Hperm.
  intros h F rest c O KF. destruct (ok_Fr _ _ _ O) as [W V]. pose proof (v_base _ _ V) as B. pose proof (v_end _ _ V) as E. rewrite KF in E.
  destruct (new_jmp_out_ok order Hperm h (fP F) (fI F) (fa F) true (fJ F) (fe F) (fx F) (fb F) (fo F) c W B E (v_o _ _ V))
    as (h' & Ej & W' & Ch & Gr & M & B' & E' & Oo & Eb & Pj).
  - apply (v_out _ _ V). left. reflexivity.
  - intros y I Q. apply (v_out _ _ V) in I as [I|[k K]]; [exact I|]. exfalso. destruct (k_J _ _ _ _ _ _ B y k K) as [_ (H1 & _ & _)].
    unfold is_seq in Q. rewrite H1 in Q. pose proof (v_jmp _ _ V y k K). destruct k; [discriminate Q|congruence].
  - exists h', (mk_frag (adde (fP F) (nx h)) (fI F) (fo F) (fa F) (fe F) (fx F) (fb F) [nx h] (fun y k => fJ F y k \/ (y = nx h /\ k = Some c))
      (fun t y => fR F t y \/ (y = nx h /\ fR F t (fe F)))).
    split; [exact Ej|]. split; [|split; [repeat split|auto]].
    eapply ok_step; [exact O|exact Ch|exact Gr|]. split; [exact W'|]. split; [|apply Fr_stable]. split; cbn [fP fI fa fe fx fb fK fJ fR fo].
    + exact B'.
    + exact E'.
    + apply (v_o _ _ V).
    + rewrite Oo. pose proof (v_nd _ _ V) as N. apply NoDup_rev in N. rewrite <- (rev_involutive (outs h (fo F) ++ [nx h])). apply NoDup_rev.
      rewrite rev_app_distr. cbn. constructor; [|exact N]. intro I. apply in_rev in I. pose proof (w_e _ _ W _ (out_re _ _ _ _ W (v_o _ _ V) I)). lia.
    + intro y. rewrite Oo, in_app_iff. pose proof (v_out _ _ V y) as Q. unfold exits in *. cbn [fe fJ In]. split.
      * intros [I|[<-|[]]]; [apply Q in I as [I|[k K]]; eauto|right; exists (Some c); auto].
      * intros [I|[k [K|[-> _]]]]; [left; apply Q; auto|left; apply Q; eauto|auto].
    + intros y k [Q|[_ ->]]; [eapply (v_jmp _ _ V); eauto|discriminate].
    + intros t y [Q|[-> Q]].
      * destruct (v_R _ _ V t y Q) as [X P]. split; [destruct X as [X|[k X]]; [left; exact X|right; exists k; left; exact X]|].
        eapply path0_mono; [exact W|exact M|apply (k_a _ _ _ _ _ _ B)|apply (k_ga _ _ _ _ _ _ B)|exact P].
      * destruct (v_R _ _ V t _ Q) as [_ P]. split; [right; exists (Some c); right; auto|].
        apply Pj; auto; [apply (k_a _ _ _ _ _ _ B)|apply (k_da _ _ _ _ _ _ B)|apply (k_ga _ _ _ _ _ _ B)].
Qed.

(** ** The exit of a fragment that keeps its jumps *)
Lemma exit_grp : forall h C rest n l, ok h (Fr C :: Fr (blkF n BK_BASIC l) :: rest) -> bk (bl h n) = BK_BASIC -> fK C = [] -> fb C = true -> In (fo C) (fI C) -> ~ ng h (fo C) ->
  exists h1 v h2 F, link_seq order h (Some (fo C)) (Some n) = Some h1 /\ grp h1 (Some (fo C)) (Some n) = Some (Some v, h2) /\ ok h2 (Fr F :: rest)
    /\ is_frag F (v :: fI C) v true [] (fJ C) (fun t y => (y = 4 + n /\ exists t1, fR C t1 (fe C) /\ t = t1 ++ leaves l) \/ (y <> fe C /\ fR C t y))
    /\ ~ ng h2 v /\ fe F = 4 + n.
Proof using Hperm.
  intros h A rest n l O Bn KA FA Hio Hg. set (B := blkF n BK_BASIC l) in *.
  destruct (ok_Fr _ _ _ O) as [WA VA]. destruct (ok_Fr _ _ _ (ok_tail _ _ _ O)) as [WB VB]. pose proof (ok_disj _ _ _ _ O) as D.
  pose proof (v_base _ _ VA) as BA. pose proof (v_base _ _ VB) as BB. pose proof (v_end _ _ VA) as EA. pose proof (v_end _ _ VB) as EB. rewrite KA in EA.
  set (p := union (fP A) (fP B)). assert (W : wf h p) by (apply wf_union; auto).
  assert (Ui : unwrap_in order h n = Some n) by (apply entry_unwrap; [exact Hperm|apply (base_entry _ _ _ _ _ _ n BB); left; reflexivity]).
  assert (Uo : unwrap_out order h (fo A) = Some (fx A)) by (unfold unwrap_out; rewrite (valid_seq_out order Hperm A h VA), (k_e _ _ _ _ _ _ EA); reflexivity).
  assert (Uf : unwrap_out order h (fx A) = Some (fx A)).
  { unfold unwrap_out. rewrite (out_seq_is order Hperm h (fx A) (fe A)), (k_e _ _ _ _ _ _ EA); [reflexivity|rewrite (k_xo _ _ _ _ _ _ EA); left; reflexivity|rewrite (k_e _ _ _ _ _ _ EA); reflexivity|].
    intros y I _. rewrite (k_xo _ _ _ _ _ _ EA) in I. destruct I as [I|[]]. auto. }
  assert (Rx : rb p (fx A)) by (left; apply (k_x _ _ _ _ _ _ EA)).
  assert (Ra : rb p n) by (right; reflexivity).
  assert (LJ : exists h1, link_seq order h (Some (fo A)) (Some n) = Some h1 /\ joined (fx A) n h h1).
  { destruct (join_ok order h p (fo A) n (fx A) n W Rx Ui Uo) as (ha & Ja & Ka).
    destruct (join_ok order h p (fx A) n (fx A) n W Rx Ui Uf) as (hb & Jb & Kb).
    unfold link_seq, link. cbv zeta. rewrite (lone_only_in _ _ _ _ h n BB) by (left; reflexivity). cbn [is_join is_sep orb andb negb ekind_eqb].
    destruct (only_seq_out h (fo A)) eqn:Q; cbn [orb]; [exists ha; auto|].
    rewrite (valid_seq_out order Hperm A h VA), (k_e _ _ _ _ _ _ EA). cbn [e_src]. rewrite (k_b _ _ _ _ _ _ EA FA).
    assert (Q1 : only_seq_out h (fx A) = true).
    { unfold only_seq_out. rewrite (k_xo _ _ _ _ _ _ EA), (k_e _ _ _ _ _ _ EA). cbn. rewrite (k_xo _ _ _ _ _ _ EA), (k_e _ _ _ _ _ _ EA). reflexivity. }
    rewrite Q1. unfold is_basic. rewrite Bn. cbn [andb]. exists hb. auto. }
  destruct LJ as (h1 & L1 & Jn).
  destruct (joined_endp h h1 _ _ _ _ _ _ _ _ _ _ _ _ _ _ _ _ WA WB D BA BB EA EB Jn) as [x' Ex].
  pose proof (joined_base h h1 _ _ _ _ _ _ _ _ _ _ _ _ WA WB D BA BB EA Jn) as Bx.
  change (fa B) with n in *. change (fo B) with n in *. change (fe B) with (4 + n) in *. fold p in Ex, Bx.
  assert (Nxo : fo A <> fx A) by (intro Q; apply Hg; rewrite Q; apply (k_gx _ _ _ _ _ _ EA)).
  assert (Oo : outs h1 (fo A) = outs h (fo A)) by (apply (joined_outs _ _ _ _ _ Jn Nxo)).
  assert (Nn : n <> fx A) by (intro Q; destruct D as (D1 & _); apply (D1 n); [rewrite Q; apply (k_x _ _ _ _ _ _ EA)|reflexivity]).
  assert (On : outs h1 n = [4 + n]) by (rewrite (joined_outs _ _ _ _ _ Jn Nn); apply (k_xo _ _ _ _ _ _ EB)).
  set (R := fun t y => (y = 4 + n /\ exists t1, fR A t1 (fe A) /\ t = t1 ++ leaves l) \/ (y <> fe A /\ fR A t y)).
  set (t := mk_thing (kill p n) (base (kill p n) (fI A) (fa A) true (fun x k => fJ A x k))).
  assert (Ok1 : ok h1 (t :: rest)).
  { eapply ok_step; [apply ok_pair, O|..].
    - cbn. eapply joined_chg; [exact W|exact Rx|exact Ra|exact Jn].
    - cbn. split; cbn; auto.
    - split; [|split].
      + cbn. eapply joined_wf; [exact W|exact Rx|exact Ra|exact Jn|]. eapply (jp_lone h (fP A) (fP B)); eauto.
      + cbn. eapply base_J; [|exact Bx]. intros x k. cbn. tauto.
      + intros ha hb Wa Sa Qa. cbn in *. eapply base_same; eauto. }
  assert (Hfe : forall y k, fJ A y k -> y <> fe A).
  { intros y k Q ->. destruct (k_J _ _ _ _ _ _ BA _ k Q) as [_ (H1 & _)]. rewrite (k_e _ _ _ _ _ _ EA) in H1. pose proof (v_jmp _ _ VA _ k Q). destruct k; [discriminate H1|congruence]. }
  assert (Xn : x_out h1 n = [4 + n]).
  { unfold x_out. rewrite On. cbn [filter]. destruct (joined_edge _ _ _ _ (4 + n) Jn) as (_ & _ & Q). unfold hanging. rewrite Q.
    pose proof (k_e _ _ _ _ _ _ EB) as Q'. change (fe B) with (4 + n) in Q'. rewrite Q'. reflexivity. }
  assert (Xj : forall y, In y (x_jmp h1 (fo A)) <-> exists k, fJ A y k).
  { intro y. unfold x_jmp. rewrite filter_In, Oo, (v_out _ _ VA y). unfold is_seq, hanging. destruct (joined_edge _ _ _ _ y Jn) as (-> & _ & ->). split.
    - intros [[->|Q] Z]; [rewrite (k_e _ _ _ _ _ _ EA) in Z; discriminate Z|exact Q].
    - intros [k Q]. split; [right; eauto|]. destruct (k_J _ _ _ _ _ _ BA y k Q) as [_ (H1 & _ & H3)]. rewrite H1, H3. pose proof (v_jmp _ _ VA y k Q). destruct k; [reflexivity|congruence]. }
  assert (N4 : forall k, ~ fJ A (4 + n) k).
  { intros k Q. destruct (k_J _ _ _ _ _ _ BA _ k Q) as [R1 _]. destruct D as (_ & _ & D3). apply (D3 (4 + n) R1). cbn. lia. }
  assert (Mi : forall y, In y (merge_set (x_out h1 n) (x_jmp h1 (fo A))) <-> y = 4 + n \/ exists k, fJ A y k).
  { intro y. rewrite Xn. unfold merge_set. rewrite in_app_iff, filter_In, Xj. cbn [In existsb]. rewrite orb_false_r. split; [intros [[<-|[]]|[Q _]]; auto|].
    intros [->|[k Q]]; [auto|]. right. split; [eauto|]. destruct (Nat.eqb_spec y (4 + n)) as [->|]; [exfalso; exact (N4 k Q)|reflexivity]. }
  destruct (grp_gen h1 t (fI A) (fa A) (fJ A) (4 + n) x' (fb A && fb B) [] (fo A) n R rest Ok1) as (v & h2 & F & Eg & Ok2 & Is & _ & Fe & _ & Gv & _).
  - destruct (proj1 Ok1 t (or_introl eq_refl)) as (_ & Q & _). exact Q.
  - exact Ex.
  - apply (v_jmp _ _ VA).
  - exact Hio.
  - right. reflexivity.
  - intro Q. destruct D as (D1 & _). apply (D1 n); [rewrite Q; apply (v_o _ _ VA)|reflexivity].
  - rewrite Xn. unfold merge_set. cbn [app]. constructor.
    + rewrite filter_In. intros [_ Q]. cbn [existsb] in Q. rewrite Nat.eqb_refl in Q. discriminate Q.
    + apply NoDup_filter. unfold x_jmp. rewrite Oo. apply NoDup_filter, (v_nd _ _ VA).
  - exact Mi.
  - intros s y [[-> (t1 & Q & ->)]|[Ny Q]].
    + split; [left; reflexivity|]. destruct (v_R _ _ VA t1 _ Q) as [_ P1].
      eapply (joined_path1 h h1 (fP A) (fP B)); eauto; [apply (k_a _ _ _ _ _ _ BA)|apply (k_ga _ _ _ _ _ _ BA)|apply (k_da _ _ _ _ _ _ BA)|].
      apply (v_R _ _ VB). cbn. auto.
    + destruct (v_R _ _ VA s y Q) as [[X|X] P]; [congruence|]. split; [right; exact X|].
      eapply (joined_path2 h h1 (fP A) (fP B)); eauto. apply (k_a _ _ _ _ _ _ BA).
  - exists h1, v, h2, F. rewrite FA in Is. split; [exact L1|]. split; [exact Eg|]. split; [exact Ok2|]. split; [exact Is|auto].
Qed.
End Order.
