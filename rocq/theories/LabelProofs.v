(** Lemmas on break, continue and labels. *)
From Coq Require Import ZifyBool ZifyNat ZifyN.
From Verif Require Import Base SymtabModel SymtabProofs LabelModel LabelSpec.

Section StmInd.
  Variable P : stm -> Prop.
  Hypothesis H_other : P SOther.
  Hypothesis H_fun : forall l, Forall (Forall P) l -> P (SFun l).
  Hypothesis H_block : forall l, Forall P l -> P (SBlock l).
  Hypothesis H_if1 : forall c, P c -> P (SIf c None).
  Hypothesis H_if2 : forall c a, P c -> P a -> P (SIf c (Some a)).
  Hypothesis H_loop : forall id b, P b -> P (SLoop id b).
  Hypothesis H_switch : forall l, Forall (Forall P) l -> P (SSwitch l).
  Hypothesis H_try : forall b c f, Forall P b -> (forall l, c = Some l -> Forall P l) -> (forall l, f = Some l -> Forall P l) -> P (STry b c f).
  Hypothesis H_label : forall id n b, P b -> P (SLabel id n b).
  Hypothesis H_break : forall n, P (SBreak n).
  Hypothesis H_cont : forall n, P (SCont n).
  Fixpoint stm_ind2 (s : stm) : P s :=
    let lst := fix lst (l : list stm) : Forall P l :=
      match l with [] => Forall_nil P | x :: r => Forall_cons x (stm_ind2 x) (lst r) end in
    let lst2 := fix lst2 (l : list (list stm)) : Forall (Forall P) l :=
      match l with [] => Forall_nil _ | x :: r => Forall_cons x (lst x) (lst2 r) end in
    let opt := fun (o : option (list stm)) =>
      match o as o return forall l, o = Some l -> Forall P l with
      | Some x => fun l E => match E in _ = z return match z with Some l => Forall P l | None => True end with eq_refl => lst x end
      | None => fun l E => match E in _ = z return match z with Some l => Forall P l | None => True end with eq_refl => I end
      end in
    match s with
    | SOther => H_other
    | SFun l => H_fun l (lst2 l)
    | SBlock l => H_block l (lst l)
    | SIf c None => H_if1 c (stm_ind2 c)
    | SIf c (Some a) => H_if2 c a (stm_ind2 c) (stm_ind2 a)
    | SLoop id b => H_loop id b (stm_ind2 b)
    | SSwitch l => H_switch l (lst2 l)
    | STry b c f => H_try b c f (lst b) (opt c) (opt f)
    | SLabel id n b => H_label id n b (stm_ind2 b)
    | SBreak n => H_break n
    | SCont n => H_cont n
    end.
End StmInd.

(** The loops over bodies and clauses. *)
Fixpoint l_bodies (l : list (list stm)) (loops : list nat) (fs : list lscope) : lres :=
  match l with
  | [] => inr (fs, [])
  | b :: r => l_then (l_leave (l_seq b loops (l_enter true false 0 fs))) (l_bodies r loops)
  end.
Fixpoint l_clauses (l : list (list stm)) (loops : list nat) (fs : list lscope) : lres :=
  match l with [] => inr (fs, []) | b :: r => l_then (l_seq b loops fs) (l_clauses r loops) end.
Lemma l_then_ext : forall r k k', (forall fs, k fs = k' fs) -> l_then r k = l_then r k'.
Proof. intros [e|[fs a]] k k' H; simpl; [reflexivity|rewrite H; reflexivity]. Qed.
Definition inner_seq (loops : list nat) := fix seq (l : list stm) (fs : list lscope) {struct l} : lres :=
    match l with [] => inr (fs, []) | s :: r => l_then (l_stm s loops fs) (seq r) end.
Lemma inner_seq_eq : forall loops l fs, inner_seq loops l fs = l_seq l loops fs.
Proof.
  intros loops. induction l as [|s l IH]; intros fs; simpl; [reflexivity|]. apply l_then_ext. intros. apply IH.
Qed.
Lemma l_stm_fun : forall l loops fs, l_stm (SFun l) loops fs = l_bodies l loops fs.
Proof.
  intros l loops. change (forall fs, l_stm (SFun l) loops fs = l_bodies l loops fs). 
  induction l as [|b l IH]; intros fs; [reflexivity|].
  transitivity (l_then (l_leave (inner_seq loops b (l_enter true false 0 fs))) (fun fs => l_stm (SFun l) loops fs)); [reflexivity|].
  rewrite inner_seq_eq. simpl. apply l_then_ext. exact IH.
Qed.
Lemma l_stm_block : forall l loops fs, l_stm (SBlock l) loops fs = l_leave (l_seq l loops (l_enter false false 0 fs)).
Proof. intros. rewrite <- inner_seq_eq. reflexivity. Qed.
Lemma l_stm_switch : forall l loops fs,
  l_stm (SSwitch l) loops fs = l_leave (l_clauses l loops (l_enter false false SPK_SWITCH fs)).
Proof.
  intros l loops fs.
  transitivity (l_leave ((fix go (l : list (list stm)) (fs : list lscope) {struct l} : lres :=
                  match l with [] => inr (fs, []) | b :: r => l_then (inner_seq loops b fs) (go r) end)
                 l (l_enter false false SPK_SWITCH fs))); [reflexivity|].
  f_equal. generalize (l_enter false false SPK_SWITCH fs). induction l as [|b l IH]; intros g; [reflexivity|].
  simpl. rewrite inner_seq_eq. apply l_then_ext. exact IH.
Qed.
Lemma l_stm_try : forall b c f loops fs,
  l_stm (STry b c f) loops fs =
  l_then (l_leave (l_seq b loops (l_enter false false SPK_TRY fs)))
    (fun fs => l_then (match c with Some l => l_leave (l_seq l loops (l_enter false false SPK_CATCH fs)) | None => inr (fs, []) end)
       (fun fs => match f with Some l => l_leave (l_seq l loops (l_enter false false 0 fs)) | None => inr (fs, []) end)).
Proof.
  intros b c f loops fs. rewrite <- inner_seq_eq.
  transitivity (l_then (l_leave (inner_seq loops b (l_enter false false SPK_TRY fs)))
    (fun fs => l_then (match c with Some l => l_leave (inner_seq loops l (l_enter false false SPK_CATCH fs)) | None => inr (fs, []) end)
       (fun fs => match f with Some l => l_leave (inner_seq loops l (l_enter false false 0 fs)) | None => inr (fs, []) end)));
    [reflexivity|].
  apply l_then_ext. intros g. destruct c as [c|]; rewrite ?inner_seq_eq; apply l_then_ext; intros h; (destruct f; [rewrite inner_seq_eq|]; reflexivity).
Qed.

(** ** Flags *)
Definition loopy (k : N) : bool := has k SPK_LOOP_DIRECT || has k SPK_LOOP_INDIRECT.
Definition switchy (k : N) : bool := has k SPK_SWITCH || has k SPK_SWITCH_INDIRECT.
Definition tryish (k : N) : bool := has k SPK_TRY || has k SPK_TRY_INDIRECT.
Definition funny (k : N) : bool := has k SPK_FUNC.
Lemma has_lor : forall a b m, has (N.lor a b) m = has a m || has b m.
Proof.
  intros a b m. unfold has. rewrite N.land_lor_distr_l.
  destruct (N.land a m =? 0)%N eqn:A, (N.land b m =? 0)%N eqn:B; simpl.
  - apply N.eqb_eq in A, B. rewrite A, B. reflexivity.
  - apply N.eqb_eq in A. rewrite A, N.lor_0_l, B. reflexivity.
  - apply N.eqb_eq in B. rewrite B, N.lor_0_r, A. reflexivity.
  - destruct (N.lor (N.land a m) (N.land b m) =? 0)%N eqn:C; [|reflexivity].
    apply N.eqb_eq, N.lor_eq_0_l in C. rewrite C in A. discriminate.
Qed.
Lemma ent : forall k fn i v,
  N.testbit (entered_kind k fn false) i = v -> has (entered_kind k fn false) (bit i) = v.
Proof. intros k fn i v H. rewrite has_bit. exact H. Qed.
Ltac bits i := apply (ent _ _ i); rewrite entered_bit;
  cbv [SPK_FUNC SPK_BLOCK SPK_LOOP_INDIRECT SPK_SWITCH_INDIRECT SPK_FORMAL_PARAMS SPK_GENERATOR SPK_ASYNC
         SPK_FUNC_INDIRECT SPK_CLASS_INDIRECT SPK_CLASS_HAS_SUPER SPK_STRICT SPK_ABSTRACT_CLASS SPK_TS_DECLARE
         SPK_TS_MODULE_INDIRECT SPK_CTOR];
  repeat match goal with |- context [N.testbit (bit ?a) ?b] =>
      let v := eval vm_compute in (N.testbit (bit a) b) in change (N.testbit (bit a) b) with v end;
  rewrite ?andb_false_r, ?andb_true_r, ?orb_false_r, ?orb_false_l; cbn [negb andb orb]; try reflexivity.
Lemma block_flags : forall k x,
  loopy (N.lor (entered_kind k false false) x) = loopy k || loopy x
  /\ switchy (N.lor (entered_kind k false false) x) = switchy k || tryish k || switchy x
  /\ tryish (N.lor (entered_kind k false false) x) = tryish x
  /\ funny (N.lor (entered_kind k false false) x) = funny x.
Proof.
  intros k x. unfold loopy, switchy, tryish, funny. rewrite !has_lor.
  assert (A1 : has (entered_kind k false false) SPK_LOOP_DIRECT = false) by bits 1%N.
  assert (A2 : has (entered_kind k false false) SPK_LOOP_INDIRECT = has k SPK_LOOP_DIRECT || has k SPK_LOOP_INDIRECT) by bits 2%N.
  assert (A3 : has (entered_kind k false false) SPK_SWITCH = false) by bits 3%N.
  assert (A4 : has (entered_kind k false false) SPK_SWITCH_INDIRECT =
    has k SPK_SWITCH || has k SPK_SWITCH_INDIRECT || (has k SPK_TRY || has k SPK_TRY_INDIRECT)) by bits 4%N.
  assert (A5 : has (entered_kind k false false) SPK_TRY = false) by bits 7%N.
  assert (A6 : has (entered_kind k false false) SPK_TRY_INDIRECT = false) by bits 8%N.
  assert (A7 : has (entered_kind k false false) SPK_FUNC = false) by bits 13%N.
  rewrite A1, A2, A3, A4, A5, A6, A7. cbn [orb].
  repeat split.
  - destruct (has k SPK_LOOP_DIRECT), (has k SPK_LOOP_INDIRECT), (has x SPK_LOOP_DIRECT), (has x SPK_LOOP_INDIRECT); reflexivity.
  - destruct (has k SPK_SWITCH), (has k SPK_SWITCH_INDIRECT), (has k SPK_TRY), (has k SPK_TRY_INDIRECT),
      (has x SPK_SWITCH), (has x SPK_SWITCH_INDIRECT); reflexivity.
Qed.
Lemma fn_flags : forall k,
  let f := N.lor (entered_kind k true false) 0 in loopy f = false /\ switchy f = false /\ tryish f = false /\ funny f = true.
Proof.
  intros k. cbv zeta. rewrite N.lor_0_r. unfold loopy, switchy, tryish, funny.
  assert (A1 : has (entered_kind k true false) SPK_LOOP_DIRECT = false) by bits 1%N.
  assert (A2 : has (entered_kind k true false) SPK_LOOP_INDIRECT = false) by bits 2%N.
  assert (A3 : has (entered_kind k true false) SPK_SWITCH = false) by bits 3%N.
  assert (A4 : has (entered_kind k true false) SPK_SWITCH_INDIRECT = false) by bits 4%N.
  assert (A5 : has (entered_kind k true false) SPK_TRY = false) by bits 7%N.
  assert (A6 : has (entered_kind k true false) SPK_TRY_INDIRECT = false) by bits 8%N.
  assert (A7 : has (entered_kind k true false) SPK_FUNC = true) by bits 13%N.
  rewrite A1, A2, A3, A4, A5, A6, A7. repeat split.
Qed.

(** ** Soundness *)
(** The labels of the scopes up to that of the function. *)
Fixpoint visible (fs : list lscope) : list (bytes * nat) :=
  match fs with [] => [] | f :: r => ls_labels f ++ (if funny (ls_kind f) then [] else visible r) end.
Lemma find_b_In : forall {A} n (l : list (bytes * A)) t, find_b n l = Some t -> In (n, t) l.
Proof.
  induction l as [|[m u] l IH]; intros t H; simpl in H; [discriminate|].
  destruct (bytes_eqb n m) eqn:E; [|right; auto]. apply bytes_eqb_spec in E. injection H as ->. left. congruence.
Qed.
Lemma l_get_visible : forall fs n t, l_get fs n = Some t -> In (n, t) (visible fs).
Proof.
  induction fs as [|f fs IH]; intros n t H; simpl in *; [discriminate|]. apply in_or_app.
  destruct (find_b n (ls_labels f)) as [u|] eqn:E; [injection H as <-; left; apply find_b_In; exact E|].
  right. unfold funny. destruct (has (ls_kind f) SPK_FUNC); [discriminate|]. auto.
Qed.

(** What the scopes say about the statements around. *)
Record inv (loops : list nat) (fs : list lscope) (around : list encl) : Prop := {
  v_some : fs <> [];
  v_label : forall n t, In (n, t) (visible fs) -> In (E_label n t) around;
  v_loop : loopy (l_cur fs) = true <-> in_loop around;
  v_switch1 : switchy (l_cur fs) = true -> in_switch around \/ in_try around;
  v_switch2 : in_switch around -> switchy (l_cur fs) = true;
  v_try : tryish (l_cur fs) = true -> in_try around;
  v_stack : forall t, innermost_loop around = Some t -> exists r, loops = t :: r }.

Lemma inv_reset : forall loops fs around, inv loops fs around -> inv loops (l_reset fs) around.
Proof.
  intros loops fs around [V1 V2 V3 V4 V5 V6 V7].
  destruct fs as [|f fs]; [contradiction|]. constructor; try assumption; [discriminate|].
  intros n t H. apply V2. simpl in *. apply in_or_app. right. exact H.
Qed.
Lemma inv_put : forall loops fs around n id, inv loops fs around -> inv loops (l_put n id fs) (E_label n id :: around).
Proof.
  intros loops fs around n id [V1 V2 V3 V4 V5 V6 V7]. destruct fs as [|f fs]; [contradiction|].
  constructor; try assumption; [discriminate| | | | |].
  - intros m t [H|H]; [injection H as -> ->; left; reflexivity|]. right. apply V2. exact H.
  - rewrite V3. split; [intros [x H]; exists x; right; exact H|]. intros [x [H|H]]; [discriminate|exists x; exact H].
  - intros H. destruct (V4 H); [left|right]; right; assumption.
  - intros [H|H]; [discriminate|exact (V5 H)].
  - intros H. right. exact (V6 H).
Qed.
Lemma inv_block : forall loops fs around extra new, inv loops fs around ->
  (extra = 0%N /\ new = [] \/ extra = SPK_CATCH /\ new = [] \/ extra = SPK_SWITCH /\ new = [E_switch]
   \/ extra = SPK_TRY /\ new = [E_try]) ->
  inv loops (l_enter false false extra fs) (new ++ around).
Proof.
  intros loops fs around extra new [V1 V2 V3 V4 V5 V6 V7] X. destruct fs as [|f fs]; [contradiction|].
  destruct (block_flags (ls_kind f) extra) as [B1 [B2 [B3 B4]]]. simpl in V3, V4, V5, V6.
  assert (F : funny extra = false) by (destruct X as [[-> _]|[[-> _]|[[-> _]|[-> _]]]]; reflexivity).
  assert (L : loopy extra = false) by (destruct X as [[-> _]|[[-> _]|[[-> _]|[-> _]]]]; reflexivity).
  assert (N1 : forall e, In e new -> forall i, e <> E_loop i).
  { intros e He i ->. destruct X as [[_ ->]|[[_ ->]|[[_ ->]|[_ ->]]]]; simpl in He; intuition discriminate. }
  constructor.
  - discriminate.
  - intros n t H. simpl in H. rewrite B4, F in H. apply in_or_app. right. apply V2. simpl.
    apply in_app_or in H. destruct H as [H|H]; [apply in_or_app; left; exact H|exact H].
  - simpl. rewrite B1, L, orb_false_r, V3. split.
    + intros [x H]. exists x. apply in_or_app. auto.
    + intros [x H]. apply in_app_or in H. destruct H as [H|H]; [destruct (N1 _ H x eq_refl)|exists x; exact H].
  - simpl. rewrite B2, !orb_true_iff. unfold in_switch, in_try. rewrite !in_app_iff. intros [[H|H]|H].
    + destruct (V4 H); auto.
    + right. right. exact (V6 H).
    + destruct X as [[-> _]|[[-> _]|[[-> ->]|[-> _]]]]; try discriminate H. left. left. left. reflexivity.
  - simpl. rewrite B2, !orb_true_iff. intros H. apply in_app_or in H. destruct H as [H|H]; [|left; left; exact (V5 H)].
    destruct X as [[_ ->]|[[_ ->]|[[-> _]|[_ ->]]]]; simpl in H; try (destruct H as [H|H]; [discriminate|contradiction]); try contradiction.
    right. reflexivity.
  - simpl. rewrite B3. intros H. apply in_or_app.
    destruct X as [[-> _]|[[-> _]|[[-> _]|[-> ->]]]]; try discriminate H. left. left. reflexivity.
  - intros t H. apply V7. destruct X as [[_ ->]|[[_ ->]|[[_ ->]|[_ ->]]]]; exact H.
Qed.
Lemma inv_loop : forall loops fs around id, inv loops fs around ->
  inv (id :: loops) (l_enter false false SPK_LOOP_DIRECT fs) (E_loop id :: around).
Proof.
  intros loops fs around id [V1 V2 V3 V4 V5 V6 V7]. destruct fs as [|f fs]; [contradiction|].
  destruct (block_flags (ls_kind f) SPK_LOOP_DIRECT) as [B1 [B2 [B3 B4]]]. simpl in V3, V4, V5, V6.
  constructor.
  - discriminate.
  - intros n t H. simpl in H. rewrite B4 in H. right. apply V2. simpl.
    change (funny SPK_LOOP_DIRECT) with false in H.
    apply in_app_or in H. destruct H as [H|H]; [apply in_or_app; left; exact H|exact H].
  - simpl. rewrite B1. change (loopy SPK_LOOP_DIRECT) with true. rewrite orb_true_r. split; [|reflexivity].
    intros _. exists id. left. reflexivity.
  - simpl. rewrite B2. change (switchy SPK_LOOP_DIRECT) with false. rewrite orb_false_r, orb_true_iff. intros [H|H].
    + destruct (V4 H); [left|right]; right; assumption.
    + right. right. exact (V6 H).
  - simpl. rewrite B2, !orb_true_iff. intros [H|H]; [discriminate|]. left. left. exact (V5 H).
  - simpl. rewrite B3. discriminate.
  - intros t H. injection H as <-. eauto.
Qed.
Lemma inv_fun : forall loops fs around, inv loops fs around -> inv loops (l_enter true false 0 fs) [].
Proof.
  intros loops fs around [V1 V2 V3 V4 V5 V6 V7]. destruct fs as [|f fs]; [contradiction|].
  destruct (fn_flags (ls_kind f)) as [B1 [B2 [B3 B4]]].
  constructor; simpl; rewrite ?B1, ?B2, ?B3, ?B4; try discriminate.
  - intros n t H. destruct H.
  - split; [discriminate|]. intros [x []].
  - intros [].
Qed.

(** A jump was given its target. *)
Definition sound (j : jump * list encl) (t : option nat) : Prop :=
  match j with
  | (JBreak (Some n), a) | (JCont (Some n), a) => exists id, t = Some id /\ In (E_label n id) a
  | (JBreak None, a) => t = None /\ (in_loop a \/ in_switch a \/ in_try a)
  | (JCont None, a) => in_loop a /\ t = innermost_loop a
  end.
Definition post (r : lres) (fs : list lscope) (js : list (jump * list encl)) : Prop :=
  match r with
  | inl LPanic => False
  | inl LBreak => exists a, In (JBreak None, a) js /\ ~ in_loop a /\ ~ in_switch a
  | inl LCont => exists a, In (JCont None, a) js /\ ~ in_loop a
  | inl (LDup _) | inl (LUndef _) => True
  | inr (fs', ts) => (fs' = fs \/ fs' = l_reset fs) /\ Forall2 sound js ts
  end.
Lemma reset_reset : forall fs, l_reset (l_reset fs) = l_reset fs.
Proof. intros [|f fs]; reflexivity. Qed.
Lemma post_left : forall e fs fs' j1 j2, post (inl e) fs j1 -> post (inl e) fs' (j1 ++ j2).
Proof.
  intros e fs fs' j1 j2 H. destruct e; try exact H; destruct H as [a [H1 H2]]; exists a; (split; [apply in_or_app; left; exact H1|exact H2]).
Qed.
Lemma post_right : forall e fs fs' j1 j2, post (inl e) fs j2 -> post (inl e) fs' (j1 ++ j2).
Proof.
  intros e fs fs' j1 j2 H. destruct e; try exact H; destruct H as [a [H1 H2]]; exists a; (split; [apply in_or_app; right; exact H1|exact H2]).
Qed.
Lemma post_then : forall r k fs j1 j2, post r fs j1 ->
  (forall fs', fs' = fs \/ fs' = l_reset fs -> post (k fs') fs' j2) -> post (l_then r k) fs (j1 ++ j2).
Proof.
  intros [e|[fs1 a]] k fs j1 j2 H1 H2; simpl.
  - exact (post_left e fs fs j1 j2 H1).
  - destruct H1 as [E1 F1]. specialize (H2 fs1 E1). destruct (k fs1) as [e|[fs2 b]].
    + exact (post_right e fs1 fs j1 j2 H2).
    + destruct H2 as [E2 F2]. split; [|apply Forall2_app; assumption].
      destruct E1 as [-> | ->], E2 as [-> | ->]; auto. right. apply reset_reset.
Qed.
Lemma post_leave : forall r g fs js, post r (g :: fs) js -> post (l_leave r) fs js.
Proof.
  intros [e|[fs1 a]] g fs js H; simpl.
  - rewrite <- (app_nil_r js). exact (post_left e (g :: fs) fs js [] H).
  - destruct H as [H1 H2]. split; [|exact H2]. left. destruct H1 as [-> | ->]; reflexivity.
Qed.
Lemma inv_post : forall loops fs fs' around, inv loops fs around -> fs' = fs \/ fs' = l_reset fs -> inv loops fs' around.
Proof. intros loops fs fs' around V [-> | ->]; [exact V|apply inv_reset; exact V]. Qed.
Lemma enter_cons : forall fn x fs, fs <> [] -> exists g, l_enter fn false x fs = g :: fs.
Proof. intros fn x [|f fs] H; [contradiction|]. eexists. reflexivity. Qed.

Definition good (s : stm) : Prop := forall loops fs around, inv loops fs around -> post (l_stm s loops fs) fs (jumps s around).
Lemma good_seq : forall l, Forall good l -> forall loops fs around, inv loops fs around ->
  post (l_seq l loops fs) fs (flat_map (fun s => jumps s around) l).
Proof.
  intros l F. induction F as [|s l G F IH]; intros loops fs around V; simpl; [split; [auto|constructor]|].
  apply post_then; [apply G; exact V|]. intros fs' E. apply IH. exact (inv_post _ _ _ _ V E).
Qed.
Lemma good_in : forall l loops fs around around' fn x, Forall good l -> inv loops fs around ->
  (forall fs', inv loops fs' around -> inv loops (l_enter fn false x fs') around') ->
  post (l_leave (l_seq l loops (l_enter fn false x fs))) fs (flat_map (fun s => jumps s around') l).
Proof.
  intros l loops fs around around' fn x F V H. destruct (enter_cons fn x fs (v_some _ _ _ V)) as [g Eg].
  pose proof (good_seq l F loops (l_enter fn false x fs) around' (H fs V)) as P. rewrite Eg in *. eapply post_leave. exact P.
Qed.
Lemma stm_good : forall s, good s.
Proof.
  apply stm_ind2.
  - intros loops fs around V. split; [auto|constructor].
  - intros l F loops fs around V. rewrite l_stm_fun. simpl. revert fs V.
    induction F as [|b l G F IH]; intros fs V; simpl; [split; [auto|constructor]|].
    apply post_then.
    + exact (good_in b loops fs around [] true 0%N G V (fun fs' V' => inv_fun _ _ _ V')).
    + intros fs' E. apply IH. exact (inv_post _ _ _ _ V E).
  - intros l F loops fs around V. rewrite l_stm_block. simpl.
    apply (good_in l loops fs around around false 0%N F V). intros fs' V'. exact (inv_block _ _ _ 0%N [] V' (or_introl (conj eq_refl eq_refl))).
  - intros c G loops fs around V. simpl. apply post_then; [apply G; exact V|]. intros fs' E. split; [auto|constructor].
  - intros c a G1 G2 loops fs around V. simpl. apply post_then; [apply G1; exact V|]. intros fs' E. apply G2. exact (inv_post _ _ _ _ V E).
  - intros id b G loops fs around V. simpl. destruct (enter_cons false SPK_LOOP_DIRECT fs (v_some _ _ _ V)) as [g Eg].
    pose proof (G _ _ _ (inv_loop _ _ _ id V)) as P. rewrite Eg in *. eapply post_leave. exact P.
  - intros l F loops fs around V. rewrite l_stm_switch. destruct (enter_cons false SPK_SWITCH fs (v_some _ _ _ V)) as [g Eg].
    pose proof (inv_block _ _ _ SPK_SWITCH [E_switch] V (or_intror (or_intror (or_introl (conj eq_refl eq_refl))))) as V'.
    rewrite Eg in *. apply (post_leave _ g). simpl. revert V'. generalize (g :: fs). clear fs V Eg g.
    induction F as [|b l G F IH]; intros fs V; simpl; [split; [auto|constructor]|].
    apply post_then; [apply good_seq; assumption|]. intros fs' E. apply IH. exact (inv_post _ _ _ _ V E).
  - intros b c f G1 G2 G3 loops fs around V. rewrite l_stm_try. simpl.
    apply post_then.
    + apply (good_in b loops fs around _ false SPK_TRY G1 V). intros fs' V'.
      exact (inv_block _ _ _ SPK_TRY [E_try] V' (or_intror (or_intror (or_intror (conj eq_refl eq_refl))))).
    + intros fs' E'. pose proof (inv_post _ _ _ _ V E') as V'. apply post_then.
      * destruct c as [c|]; [|split; [auto|constructor]].
        apply (good_in c loops fs' around around false SPK_CATCH (G2 c eq_refl) V'). intros fs2 V2.
        exact (inv_block _ _ _ SPK_CATCH [] V2 (or_intror (or_introl (conj eq_refl eq_refl)))).
      * intros fs2 E2. pose proof (inv_post _ _ _ _ V' E2) as V2. destruct f as [f|]; [|split; [auto|constructor]].
        apply (good_in f loops fs2 around around false 0%N (G3 f eq_refl) V2). intros fs3 V3.
        exact (inv_block _ _ _ 0%N [] V3 (or_introl (conj eq_refl eq_refl))).
  - intros id n b G loops fs around V. simpl. destruct (l_has fs n); [exact I|].
    pose proof (G _ _ _ (inv_put _ _ _ n id V)) as P. destruct (l_stm b loops (l_put n id fs)) as [e|[fs1 a]]; [|].
    + rewrite <- (app_nil_r (jumps b _)). exact (post_left e fs fs _ [] P).
    + destruct P as [P1 P2]. split; [|exact P2]. right. destruct P1 as [-> | ->]; [|rewrite reset_reset]; destruct fs; reflexivity.
  - intros [n|] loops fs around V; simpl; unfold l_break.
    + destruct (l_get fs n) as [t|] eqn:E; [|exact I]. split; [auto|]. constructor; [|constructor].
      exists t. split; [reflexivity|]. exact (v_label _ _ _ V n t (l_get_visible _ _ _ E)).
    + pose proof (v_loop _ _ _ V) as H1. pose proof (v_switch1 _ _ _ V) as H2. pose proof (v_switch2 _ _ _ V) as H3.
      unfold loopy, switchy in *.
      destruct (has (l_cur fs) SPK_LOOP_DIRECT || has (l_cur fs) SPK_LOOP_INDIRECT) eqn:L.
      * apply orb_true_iff in L.
        assert (Q : negb (has (l_cur fs) SPK_LOOP_DIRECT) && negb (has (l_cur fs) SPK_LOOP_INDIRECT) = false).
        { destruct L as [-> | ->]; simpl; [reflexivity|apply andb_false_r]. }
        rewrite Q. simpl. split; [auto|]. constructor; [|constructor]. split; [reflexivity|]. left. apply H1. reflexivity.
      * apply orb_false_iff in L. destruct L as [-> ->]. simpl.
        destruct (has (l_cur fs) SPK_SWITCH), (has (l_cur fs) SPK_SWITCH_INDIRECT); simpl in *;
          try (split; [auto|]; constructor; [|constructor]; split; [reflexivity|]; right; apply H2; reflexivity).
        exists around. split; [left; reflexivity|]. split; [intros X; apply H1 in X; discriminate|intros X; specialize (H3 X); discriminate].
  - intros [n|] loops fs around V; simpl; unfold l_cont.
    + destruct (l_get fs n) as [t|] eqn:E; [|exact I]. split; [auto|]. constructor; [|constructor].
      exists t. split; [reflexivity|]. exact (v_label _ _ _ V n t (l_get_visible _ _ _ E)).
    + pose proof (v_loop _ _ _ V) as H1. unfold loopy in *.
      destruct (has (l_cur fs) SPK_LOOP_DIRECT || has (l_cur fs) SPK_LOOP_INDIRECT) eqn:L.
      * assert (Q : negb (has (l_cur fs) SPK_LOOP_DIRECT) && negb (has (l_cur fs) SPK_LOOP_INDIRECT) = false).
        { apply orb_true_iff in L. destruct L as [-> | ->]; simpl; [reflexivity|apply andb_false_r]. }
        rewrite Q. pose proof (proj1 H1 eq_refl) as IL.
        assert (X : exists t, innermost_loop around = Some t).
        { clear - IL. destruct IL as [id H]. induction around as [|e r IH]; [destruct H|].
          simpl. destruct e; eauto; destruct H as [H|H]; try discriminate; auto. }
        destruct X as [t X]. destruct (v_stack _ _ _ V t X) as [r ->]. split; [auto|]. constructor; [|constructor].
        split; [exact IL|]. congruence.
      * apply orb_false_iff in L. destruct L as [-> ->]. simpl. exists around. split; [left; reflexivity|].
        intros X. apply H1 in X. discriminate.
Qed.
Lemma inv_start : inv [] [mk_ls SPK_GLOBAL []] [].
Proof.
  constructor; simpl; try discriminate.
  - intros n t [].
  - split; [discriminate|]. intros [x []].
  - intros [].
Qed.
Lemma prog_good : forall l, post (l_seq l [] [mk_ls SPK_GLOBAL []]) [mk_ls SPK_GLOBAL []] (jumps_of l).
Proof.
  intros l. apply good_seq; [|apply inv_start]. apply Forall_forall. intros s _. apply stm_good.
Qed.

(** ** Label chains *)
(** The statement was parsed, inside a program that was. *)
Definition runs (t : stm) : Prop := exists loops fs around r, inv loops fs around /\ l_stm t loops fs = inr r.
Definition spreads (s : stm) : Prop := runs s -> forall t, In t (subs s) -> runs t.
Lemma seq_spreads : forall l, Forall spreads l -> forall loops fs around r, inv loops fs around -> l_seq l loops fs = inr r ->
  forall t, In t (flat_map subs l) -> runs t.
Proof.
  intros l F. induction F as [|s l G F IH]; intros loops fs around r V H t Ht; simpl in *; [destruct Ht|].
  pose proof (stm_good s loops fs around V) as P. destruct (l_stm s loops fs) as [e|[fs1 a]] eqn:E; [discriminate|]. simpl in H.
  destruct P as [P _]. apply in_app_or in Ht. destruct Ht as [Ht|Ht].
  - apply G; [|exact Ht]. exists loops, fs, around, (fs1, a). auto.
  - destruct (l_seq l loops fs1) as [e|r1] eqn:E1; [discriminate|].
    exact (IH loops fs1 around _ (inv_post _ _ _ _ V P) E1 t Ht).
Qed.
Lemma leave_inr : forall r x, l_leave r = inr x -> exists y, r = inr y.
Proof. intros [e|y] x H; [discriminate|eauto]. Qed.
Lemma then_inr : forall r k x, l_then r k = inr x -> exists fs a y, r = inr (fs, a) /\ k fs = inr y.
Proof.
  intros [e|[fs a]] k x H; simpl in H; [discriminate|]. destruct (k fs) as [e|y] eqn:E; [discriminate|]. eauto.
Qed.
Lemma in_spreads : forall l, Forall spreads l -> forall loops fs around around' fn x r, inv loops fs around ->
  (forall fs', inv loops fs' around -> inv loops (l_enter fn false x fs') around') ->
  l_leave (l_seq l loops (l_enter fn false x fs)) = inr r -> forall t, In t (flat_map subs l) -> runs t.
Proof.
  intros l F loops fs around around' fn x r V H E. apply leave_inr in E. destruct E as [y E].
  exact (seq_spreads l F loops _ around' y (H fs V) E).
Qed.
Lemma stm_spreads : forall s, spreads s.
Proof.
  apply stm_ind2.
  - intros R t [<-|[]]. exact R.
  - intros l F R t [<-|Ht]; [exact R|]. destruct R as (loops & fs & around & r & V & E). rewrite l_stm_fun in E.
    revert fs r V E Ht. induction F as [|b l G F IH]; intros fs r V E Ht; simpl in *; [destruct Ht|].
    apply then_inr in E. destruct E as (fs1 & a & y & E1 & E2).
    pose proof (good_in b loops fs around [] true 0%N (proj2 (Forall_forall _ _) (fun s _ => stm_good s)) V
      (fun fs' V' => inv_fun _ _ _ V')) as P. rewrite E1 in P. destruct P as [P _].
    apply in_app_or in Ht. destruct Ht as [Ht|Ht].
    + exact (in_spreads b G loops fs around [] true 0%N _ V (fun fs' V' => inv_fun _ _ _ V') E1 t Ht).
    + exact (IH fs1 _ (inv_post _ _ _ _ V P) E2 Ht).
  - intros l F R t [<-|Ht]; [exact R|]. destruct R as (loops & fs & around & r & V & E). rewrite l_stm_block in E.
    exact (in_spreads l F loops fs around around false 0%N _ V
      (fun fs' V' => inv_block _ _ _ 0%N [] V' (or_introl (conj eq_refl eq_refl))) E t Ht).
  - intros c G R t [<-|Ht]; [exact R|]. rewrite app_nil_r in Ht. apply G; [|exact Ht].
    destruct R as (loops & fs & around & r & V & E). simpl in E. apply then_inr in E. destruct E as (fs1 & a & y & E1 & E2).
    exists loops, fs, around, (fs1, a). auto.
  - intros c a G1 G2 R t [<-|Ht]; [exact R|]. destruct R as (loops & fs & around & r & V & E). simpl in E.
    apply then_inr in E. destruct E as (fs1 & x & y & E1 & E2). apply in_app_or in Ht. destruct Ht as [Ht|Ht].
    + apply G1; [|exact Ht]. exists loops, fs, around, (fs1, x). auto.
    + pose proof (stm_good c loops fs around V) as P. rewrite E1 in P. destruct P as [P _].
      apply G2; [|exact Ht]. exists loops, fs1, around, y. split; [exact (inv_post _ _ _ _ V P)|exact E2].
  - intros id b G R t [<-|Ht]; [exact R|]. destruct R as (loops & fs & around & r & V & E). simpl in E.
    apply leave_inr in E. destruct E as [y E]. apply G; [|exact Ht]. eexists _, _, _, _. split; [exact (inv_loop _ _ _ id V)|exact E].
  - intros l F R t [<-|Ht]; [exact R|]. destruct R as (loops & fs & around & r & V & E). rewrite l_stm_switch in E.
    apply leave_inr in E. destruct E as [y E].
    pose proof (inv_block _ _ _ SPK_SWITCH [E_switch] V (or_intror (or_intror (or_introl (conj eq_refl eq_refl))))) as V'.
    revert y V' E Ht. generalize (l_enter false false SPK_SWITCH fs) (([E_switch] ++ around)%list). clear fs around V r.
    induction F as [|b l G F IH]; intros fs around y V E Ht; simpl in *; [destruct Ht|].
    apply then_inr in E. destruct E as (fs1 & a & z & E1 & E2).
    pose proof (good_seq b (proj2 (Forall_forall _ _) (fun s _ => stm_good s)) loops fs around V) as P. rewrite E1 in P. destruct P as [P _].
    apply in_app_or in Ht. destruct Ht as [Ht|Ht].
    + exact (seq_spreads b G loops fs around _ V E1 t Ht).
    + exact (IH fs1 around _ (inv_post _ _ _ _ V P) E2 Ht).
  - intros b c f G1 G2 G3 R t [<-|Ht]; [exact R|]. destruct R as (loops & fs & around & r & V & E). rewrite l_stm_try in E.
    apply then_inr in E. destruct E as (fs1 & x & y & E1 & E2). apply then_inr in E2. destruct E2 as (fs2 & x2 & y2 & E2 & E3).
    assert (Gs : forall l, Forall good l) by (intros l; apply Forall_forall; intros s _; apply stm_good).
    assert (T : forall fs', inv loops fs' around -> inv loops (l_enter false false SPK_TRY fs') (E_try :: around)).
    { intros fs' V'. exact (inv_block _ _ _ SPK_TRY [E_try] V' (or_intror (or_intror (or_intror (conj eq_refl eq_refl))))). }
    assert (C : forall fs', inv loops fs' around -> inv loops (l_enter false false SPK_CATCH fs') around).
    { intros fs' V'. exact (inv_block _ _ _ SPK_CATCH [] V' (or_intror (or_introl (conj eq_refl eq_refl)))). }
    assert (D : forall fs', inv loops fs' around -> inv loops (l_enter false false 0 fs') around).
    { intros fs' V'. exact (inv_block _ _ _ 0%N [] V' (or_introl (conj eq_refl eq_refl))). }
    pose proof (good_in b loops fs around _ false SPK_TRY (Gs b) V T) as P. rewrite E1 in P. destruct P as [P _].
    pose proof (inv_post _ _ _ _ V P) as V1.
    assert (V2 : inv loops fs2 around).
    { destruct c as [c|]; [|injection E2 as <- _; exact V1].
      pose proof (good_in c loops fs1 around _ false SPK_CATCH (Gs c) V1 C) as P2. rewrite E2 in P2. destruct P2 as [P2 _].
      exact (inv_post _ _ _ _ V1 P2). }
    apply in_app_or in Ht. destruct Ht as [Ht|Ht]; [|apply in_app_or in Ht; destruct Ht as [Ht|Ht]].
    + exact (in_spreads b G1 loops fs around _ false SPK_TRY _ V T E1 t Ht).
    + destruct c as [c|]; [|destruct Ht]. exact (in_spreads c (G2 c eq_refl) loops fs1 around _ false SPK_CATCH _ V1 C E2 t Ht).
    + destruct f as [f|]; [|destruct Ht]. exact (in_spreads f (G3 f eq_refl) loops fs2 around _ false 0%N _ V2 D E3 t Ht).
  - intros id n b G R t [<-|Ht]; [exact R|]. destruct R as (loops & fs & around & r & V & E). simpl in E.
    destruct (l_has fs n); [discriminate|]. destruct (l_stm b loops (l_put n id fs)) as [e|y] eqn:E1; [discriminate|].
    apply G; [|exact Ht]. eexists _, _, _, _. split; [exact (inv_put _ _ _ n id V)|exact E1].
  - intros n R t [<-|[]]. exact R.
  - intros n R t [<-|[]]. exact R.
Qed.
Lemma chain_ok : forall s loops fs r, fs <> [] -> l_stm s loops fs = inr r ->
  NoDup (chain s) /\ forall n, In n (chain s) -> l_has fs n = false.
Proof.
  induction s as [| | | | | | |id n b IH| |]; intros loops fs r Hf E; try (solve [split; [constructor|intros m []]]).
  simpl in E. destruct (l_has fs n) eqn:L; [discriminate|].
  destruct (l_stm b loops (l_put n id fs)) as [e|y] eqn:E1; [discriminate|].
  assert (Hp : l_put n id fs <> []) by (destruct fs; [contradiction|discriminate]).
  destruct (IH _ _ _ Hp E1) as [I1 I2]. simpl.
  assert (K : forall m, l_has (l_put n id fs) m = false -> m <> n /\ l_has fs m = false).
  { intros m H. destruct fs as [|f fs]; [contradiction|]. simpl in *. destruct (bytes_eqb m n) eqn:Q; [discriminate|].
    split; [|exact H]. intros ->. assert (bytes_eqb n n = true) by (apply bytes_eqb_spec; reflexivity). congruence. }
  split.
  - constructor; [|exact I1]. intros H. apply I2 in H. apply K in H. destruct H as [H _]. contradiction.
  - intros m [<-|H]; [exact L|]. apply I2 in H. apply K in H. apply H.
Qed.

(** ** Completeness *)
Definition exact_labels (fs : list lscope) (around : list encl) : Prop := forall n, l_get fs n = innermost_label n around.
Definition fresh (fs : list lscope) : Prop := forall n, l_get (l_reset fs) n = l_get fs n.
Fixpoint names (around : list encl) : list bytes :=
  match around with [] => [] | E_label n _ :: r => n :: names r | _ :: r => names r end.
Lemma label_names : forall n around, innermost_label n around <> None -> In n (names around).
Proof.
  induction around as [|e r IH]; simpl; [congruence|]. destruct e as [m id|id| |]; auto.
  destruct (bytes_eqb n m) eqn:E; [|intros H; right; auto]. apply bytes_eqb_spec in E. left. congruence.
Qed.
Lemma has_get : forall fs n, l_has fs n = true -> l_get fs n <> None.
Proof. intros [|f fs] n H; simpl in *; [discriminate|]. destruct (find_b n (ls_labels f)); discriminate. Qed.
Lemma fresh_reset : forall fs, fresh (l_reset fs).
Proof. intros fs n. rewrite reset_reset. reflexivity. Qed.

Definition outcome (r : lres) (fs : list lscope) (bare : bool) (js : list (jump * list encl)) : Prop :=
  exists fs', r = inr (fs', map goal js) /\ (fs' = fs \/ (bare = true /\ fs' = l_reset fs)).
Definition comp (s : stm) : Prop := (forall t, In t (subs s) -> calm t) -> forall loops fs around,
  inv loops fs around -> exact_labels fs around -> Forall allowed (jumps s around) -> distinct s (names around) ->
  outcome (l_stm s loops fs) fs (bare_label s) (jumps s around).

Lemma block_exact : forall fs around x new, fs <> [] -> exact_labels fs around -> funny x = false ->
  (forall n, innermost_label n (new ++ around) = innermost_label n around) ->
  exact_labels (l_enter false false x fs) (new ++ around) /\ fresh (l_enter false false x fs).
Proof.
  intros fs around x new Hf E Fx Hn. destruct fs as [|f fs]; [contradiction|].
  destruct (block_flags (ls_kind f) x) as [_ [_ [_ B4]]]. rewrite Fx in B4. unfold funny in B4.
  assert (A : forall n, l_get (l_enter false false x (f :: fs)) n = l_get (f :: fs) n).
  { intros n. simpl. rewrite B4. destruct (find_b n (ls_labels f)); reflexivity. }
  split.
  - intros n. rewrite A, Hn. apply E.
  - intros n. rewrite A. simpl. rewrite B4. reflexivity.
Qed.
Lemma fun_exact : forall fs, fs <> [] -> exact_labels (l_enter true false 0 fs) [] /\ fresh (l_enter true false 0 fs).
Proof.
  intros fs Hf. destruct fs as [|f fs]; [contradiction|]. destruct (fn_flags (ls_kind f)) as [_ [_ [_ B4]]]. unfold funny in B4.
  split; intros n; simpl; rewrite B4; reflexivity.
Qed.
Lemma flat_forall : forall {A B} (P : B -> Prop) (f : A -> list B) l, Forall P (flat_map f l) <-> Forall (fun x => Forall P (f x)) l.
Proof.
  induction l as [|x l IH]; simpl; [split; constructor|]. rewrite Forall_app, IH. split; [intros [H1 H2]; constructor; assumption|].
  intros H. inversion H; auto.
Qed.
Lemma comp_seq : forall l, Forall comp l -> (forall t, In t (flat_map subs l) -> calm t) ->
  forall loops fs around, inv loops fs around -> exact_labels fs around -> fresh fs ->
  Forall allowed (flat_map (fun s => jumps s around) l) ->
  fold_right (fun s P => distinct s (names around) /\ P) True l ->
  exists fs', l_seq l loops fs = inr (fs', map goal (flat_map (fun s => jumps s around) l)) /\ (fs' = fs \/ fs' = l_reset fs).
Proof.
  intros l F. induction F as [|s l G F IH]; intros C loops fs around V X R A D; simpl in *; [exists fs; auto|].
  rewrite Forall_app in A. destruct A as [A1 A2], D as [D1 D2].
  destruct (G (fun t Ht => C t (in_or_app _ _ _ (or_introl Ht))) loops fs around V X A1 D1) as [fs1 [E1 P1]].
  assert (Q : fs1 = fs \/ fs1 = l_reset fs) by (destruct P1 as [->|[_ ->]]; auto).
  assert (X1 : exact_labels fs1 around) by (destruct Q as [-> | ->]; [exact X|intros n; rewrite R; apply X]).
  assert (R1 : fresh fs1) by (destruct Q as [-> | ->]; [exact R|apply fresh_reset]).
  destruct (IH (fun t Ht => C t (in_or_app _ _ _ (or_intror Ht))) loops fs1 around (inv_post _ _ _ _ V Q) X1 R1 A2 D2) as [fs2 [E2 P2]].
  exists fs2. rewrite E1. simpl. rewrite E2, map_app. split; [reflexivity|].
  destruct Q as [-> | ->], P2 as [-> | ->]; auto. right. apply reset_reset.
Qed.
Lemma comp_in : forall l loops fs around new fn x, Forall comp l -> (forall t, In t (flat_map subs l) -> calm t) ->
  inv loops fs around -> inv loops (l_enter fn false x fs) new ->
  exact_labels (l_enter fn false x fs) new -> fresh (l_enter fn false x fs) ->
  Forall allowed (flat_map (fun s => jumps s new) l) ->
  fold_right (fun s P => distinct s (names new) /\ P) True l ->
  l_leave (l_seq l loops (l_enter fn false x fs)) = inr (fs, map goal (flat_map (fun s => jumps s new) l)).
Proof.
  intros l loops fs around new fn x F C V V1 X R A D.
  destruct (comp_seq l F C loops _ new V1 X R A D) as [fs' [E P]]. rewrite E. simpl.
  destruct (enter_cons fn x fs (v_some _ _ _ V)) as [g Eg]. rewrite Eg in P. destruct P as [-> | ->]; reflexivity.
Qed.
Lemma fold2 : forall (D : stm -> Prop) l, fold_right (fun l P => fold_right (fun s Q => D s /\ Q) P l) True l ->
  Forall (fun b => fold_right (fun s P => D s /\ P) True b) l.
Proof.
  intros D. induction l as [|b l IH]; intros H; [constructor|]. simpl in H.
  assert (K : forall R, fold_right (fun s Q => D s /\ Q) R b -> fold_right (fun s P => D s /\ P) True b /\ R).
  { clear. induction b as [|s b IH]; simpl; intros R H; [auto|]. destruct H as [H1 H2]. apply IH in H2. tauto. }
  apply K in H. destruct H as [H1 H2]. constructor; auto.
Qed.
Lemma stm_comp : forall s, comp s.
Proof.
  apply stm_ind2.
  - intros C loops fs around V X A D. exists fs. auto.
  - intros l F C loops fs around V X A D. rewrite l_stm_fun. simpl in A, D |- *. exists fs. split; [|auto].
    apply fold2 in D. rewrite flat_forall in A. assert (C' : forall t, In t (flat_map (flat_map subs) l) -> calm t) by (intros t Ht; apply C; right; exact Ht).
    clear C. induction F as [|b l G F IH]; [reflexivity|]. inversion A as [|? ? A1 A2]; inversion D as [|? ? D1 D2]; subst. simpl.
    destruct (fun_exact fs (v_some _ _ _ V)) as [X1 R1].
    rewrite (comp_in b loops fs around [] true 0%N G (fun t Ht => C' t (in_or_app _ _ _ (or_introl Ht))) V (inv_fun _ _ _ V) X1 R1 A1 D1).
    simpl. rewrite IH; auto; [|intros t Ht; apply C'; apply in_or_app; right; exact Ht]. rewrite map_app. reflexivity.
  - intros l F C loops fs around V X A D. rewrite l_stm_block. exists fs. split; [|auto].
    destruct (block_exact fs around 0%N [] (v_some _ _ _ V) X eq_refl (fun n => eq_refl)) as [X1 R1].
    exact (comp_in l loops fs around around false 0%N F (fun t Ht => C t (or_intror Ht)) V
      (inv_block _ _ _ 0%N [] V (or_introl (conj eq_refl eq_refl))) X1 R1 A D).
  - intros c G C loops fs around V X A D. simpl in *. rewrite app_nil_r in *. destruct D as [D _].
    destruct (G (fun t Ht => C t (or_intror Ht)) loops fs around V X A D) as [fs1 [E P]].
    exists fs1. rewrite E. simpl. rewrite app_nil_r, orb_false_r. auto.
  - intros c a G1 G2 C loops fs around V X A D. simpl in *. rewrite Forall_app in A. destruct A as [A1 A2], D as [D1 D2].
    pose proof (C _ (or_introl eq_refl)) as Q. simpl in Q.
    destruct (G1 (fun t Ht => C t (or_intror (in_or_app _ _ _ (or_introl Ht)))) loops fs around V X A1 D1) as [fs1 [E P]].
    destruct P as [->|[P _]]; [|congruence].
    destruct (G2 (fun t Ht => C t (or_intror (in_or_app _ _ _ (or_intror Ht)))) loops fs around V X A2 D2) as [fs2 [E2 P2]].
    exists fs2. rewrite E. simpl. rewrite E2, map_app, Q. auto.
  - intros id b G C loops fs around V X A D. simpl in *.
    destruct (block_exact fs around SPK_LOOP_DIRECT [E_loop id] (v_some _ _ _ V) X eq_refl (fun n => eq_refl)) as [X1 R1].
    destruct (G (fun t Ht => C t (or_intror Ht)) _ _ _ (inv_loop _ _ _ id V) X1 A D) as [fs1 [E P]].
    exists fs. rewrite E. simpl. split; [|auto]. do 2 f_equal.
    destruct (enter_cons false SPK_LOOP_DIRECT fs (v_some _ _ _ V)) as [g Eg]. rewrite Eg in P. destruct P as [->|[_ ->]]; reflexivity.
  - intros l F C loops fs around V X A D. rewrite l_stm_switch. simpl in A, D |- *. exists fs. split; [|auto].
    apply fold2 in D. rewrite flat_forall in A. assert (C' : forall t, In t (flat_map (flat_map subs) l) -> calm t) by (intros t Ht; apply C; right; exact Ht).
    destruct (block_exact fs around SPK_SWITCH [E_switch] (v_some _ _ _ V) X eq_refl (fun n => eq_refl)) as [X1 R1].
    pose proof (inv_block _ _ _ SPK_SWITCH [E_switch] V (or_intror (or_intror (or_introl (conj eq_refl eq_refl))))) as V1.
    destruct (enter_cons false SPK_SWITCH fs (v_some _ _ _ V)) as [g Eg]. rewrite Eg in *.
    assert (K : forall gs, gs = g :: fs \/ gs = l_reset (g :: fs) -> exists gs', l_clauses l loops gs =
      inr (gs', map goal (flat_map (flat_map (fun s => jumps s (E_switch :: around))) l)) /\ (gs' = g :: fs \/ gs' = l_reset (g :: fs))).
    { clear C X V Eg. change (names around) with (names ([E_switch] ++ around)) in D.
      change (E_switch :: around) with ([E_switch] ++ around)%list in A |- *.
      induction F as [|b l G F IH]; intros gs Q; [exists gs; auto|]. inversion A as [|? ? A1 A2]; inversion D as [|? ? D1 D2]; subst. simpl.
      assert (X2 : exact_labels gs ([E_switch] ++ around)) by (destruct Q as [-> | ->]; [exact X1|intros n; rewrite R1; apply X1]).
      assert (R2 : fresh gs) by (destruct Q as [-> | ->]; [exact R1|apply fresh_reset]).
      destruct (comp_seq b G (fun t Ht => C' t (in_or_app _ _ _ (or_introl Ht))) loops gs _ (inv_post _ _ _ _ V1 Q) X2 R2 A1 D1) as [g1 [E1 P1]].
      assert (Q1 : g1 = g :: fs \/ g1 = l_reset (g :: fs)).
      { destruct Q as [-> | ->], P1 as [-> | ->]; auto. }
      destruct (IH A2 D2 (fun t Ht => C' t (in_or_app _ _ _ (or_intror Ht))) g1 Q1) as [g2 [E2 P2]].
      exists g2. rewrite E1. simpl. rewrite E2, map_app. auto. }
    destruct (K _ (or_introl eq_refl)) as [g2 [E2 P2]]. rewrite E2. simpl. do 2 f_equal. destruct P2 as [-> | ->]; reflexivity.
  - intros b c f G1 G2 G3 C loops fs around V X A D. rewrite l_stm_try. simpl in A, D |- *. rewrite !Forall_app in A.
    destruct A as [A1 [A2 A3]], D as [D1 [D2 D3]]. exists fs. split; [|auto].
    destruct (block_exact fs around SPK_TRY [E_try] (v_some _ _ _ V) X eq_refl (fun n => eq_refl)) as [X1 R1].
    destruct (block_exact fs around SPK_CATCH [] (v_some _ _ _ V) X eq_refl (fun n => eq_refl)) as [X2 R2].
    destruct (block_exact fs around 0%N [] (v_some _ _ _ V) X eq_refl (fun n => eq_refl)) as [X3 R3].
    assert (C' : forall t, In t (flat_map subs b) \/ In t (match c with Some l => flat_map subs l | None => [] end)
       \/ In t (match f with Some l => flat_map subs l | None => [] end) -> calm t).
    { intros t Ht. apply C. simpl. right. rewrite !in_app_iff. exact Ht. }
    rewrite (comp_in b loops fs around ([E_try] ++ around) false SPK_TRY G1 (fun t Ht => C' t (or_introl Ht)) V
      (inv_block _ _ _ SPK_TRY [E_try] V (or_intror (or_intror (or_intror (conj eq_refl eq_refl))))) X1 R1 A1 D1).
    cbn [l_then]. rewrite !map_app.
    assert (Ec : (match c with Some l => l_leave (l_seq l loops (l_enter false false SPK_CATCH fs)) | None => inr (fs, []) end)
      = inr (fs, map goal (match c with Some l => flat_map (fun s => jumps s around) l | None => [] end))).
    { destruct c as [c|]; [|reflexivity].
      exact (comp_in c loops fs around around false SPK_CATCH (G2 c eq_refl) (fun t Ht => C' t (or_intror (or_introl Ht))) V
        (inv_block _ _ _ SPK_CATCH [] V (or_intror (or_introl (conj eq_refl eq_refl)))) X2 R2 A2 D2). }
    assert (Ef : (match f with Some l => l_leave (l_seq l loops (l_enter false false 0 fs)) | None => inr (fs, []) end)
      = inr (fs, map goal (match f with Some l => flat_map (fun s => jumps s around) l | None => [] end))).
    { destruct f as [f|]; [|reflexivity].
      exact (comp_in f loops fs around around false 0%N (G3 f eq_refl) (fun t Ht => C' t (or_intror (or_intror Ht))) V
        (inv_block _ _ _ 0%N [] V (or_introl (conj eq_refl eq_refl))) X3 R3 A3 D3). }
    rewrite Ec. simpl. rewrite Ef. reflexivity.
  - intros id n b G C loops fs around V X A D. simpl in *. destruct D as [D1 D2].
    destruct (l_has fs n) eqn:L.
    { exfalso. apply D1. apply label_names. rewrite <- X. apply has_get. exact L. }
    assert (X1 : exact_labels (l_put n id fs) (E_label n id :: around)).
    { intros m. pose proof (v_some _ _ _ V) as Ne. specialize (X m). destruct fs as [|f fs]; [contradiction|]. simpl in *.
      destruct (bytes_eqb m n); [reflexivity|exact X]. }
    destruct (G (fun t Ht => C t (or_intror Ht)) _ _ _ (inv_put _ _ _ n id V) X1 A D2) as [fs1 [E P]].
    rewrite E. exists (l_reset fs1). split; [reflexivity|]. right. split; [reflexivity|].
    destruct P as [->|[_ ->]]; [|rewrite reset_reset]; destruct fs; reflexivity.
  - intros n C loops fs around V X A D. exists fs. split; [|auto]. simpl in A. inversion A as [|? ? A1 _]; subst. simpl. unfold l_break.
    destruct n as [n|]; simpl in A1.
    + rewrite X. destruct (innermost_label n around); [reflexivity|congruence].
    + assert (Q : loopy (l_cur fs) || switchy (l_cur fs) = true).
      { apply orb_true_iff. destruct A1 as [A1|A1]; [left; apply (v_loop _ _ _ V); exact A1|right; exact (v_switch2 _ _ _ V A1)]. }
      unfold loopy, switchy in Q.
      destruct (has (l_cur fs) SPK_LOOP_DIRECT), (has (l_cur fs) SPK_LOOP_INDIRECT), (has (l_cur fs) SPK_SWITCH),
        (has (l_cur fs) SPK_SWITCH_INDIRECT); try reflexivity. discriminate.
  - intros n C loops fs around V X A D. exists fs. split; [|auto]. simpl in A. inversion A as [|? ? A1 _]; subst.
    destruct n as [n|]; simpl in A1.
    + simpl. rewrite X. destruct (innermost_label n around); [reflexivity|congruence].
    + pose proof (stm_good (SCont None) loops fs around V) as P. cbn [l_stm jumps map goal] in P |- *.
      destruct (l_cont None loops fs) as [[m|m| | |]|[fs1 ts]] eqn:E; try (exfalso; exact P).
      * unfold l_cont in E. destruct (negb _ && negb _); [discriminate|]. destruct loops; discriminate.
      * unfold l_cont in E. destruct (negb _ && negb _); [discriminate|]. destruct loops; discriminate.
      * unfold l_cont in E. destruct (negb _ && negb _); [discriminate|]. destruct loops; discriminate.
      * destruct P as [a [[P1|[]] P2]]. injection P1 as <-. contradiction.
      * assert (E1 : fs1 = fs).
        { unfold l_cont in E. destruct (negb _ && negb _); [discriminate|]. destruct loops; [discriminate|]. congruence. }
        subst fs1. destruct P as [_ P]. inversion P as [|? t ? ? P1 P2]; subst. inversion P2; subst. destruct P1 as [_ ->]. reflexivity.
Qed.
