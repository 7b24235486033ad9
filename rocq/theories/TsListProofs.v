(** Proofs about the lists of TypeScript. *)
From Coq Require Import Lia.
From Verif Require Import Base TokenModel LexModel ParseBase ExprModel TsListModel TsListSpec.

(** Two different tokens are not ahead at once. *)
Lemma at_two : forall a b s, at_tok a s = true -> tv_eqb a b = false -> at_tok b s = false.
Proof. intros a b s H D. unfold at_tok in *. apply tv_eqb_spec in H. rewrite H. exact D. Qed.

Section Lists.
Variables (A : Type) (item : pst -> pres A).

Lemma enum_sound : forall fuel acc s l z, enum_loop A item fuel acc s = POk l z -> exists l' z', loose item T_BRACE_R s l' z' /\ l = acc ++ l' /\ z = next z'.
Proof.
  induction fuel as [|fuel IH]; intros acc s l z H; cbn [enum_loop] in H; [discriminate|].
  destruct (at_tok T_BRACE_R s) eqn:C.
  - injection H as <- <-. exists [], s. rewrite app_nil_r. split; [constructor; exact C|auto].
  - destruct (item s) as [a s1| | |] eqn:I; cbn [pbind] in H; try discriminate.
    destruct (IH _ _ _ _ H) as (l' & z' & L & -> & ->). unfold skip_comma in L.
    exists (a :: l'), z'. rewrite <- app_assoc. split; [|auto]. destruct (at_tok T_COMMA s1) eqn:K; [eapply L_comma|eapply L_plain]; eauto.
Qed.
Lemma enum_complete : forall s l z, loose item T_BRACE_R s l z -> forall acc fuel, length l < fuel -> enum_loop A item fuel acc s = POk (acc ++ l) (next z).
Proof.
  induction 1 as [s C|s a s1 l z C I K L IH|s a s1 l z C I K L IH]; intros acc [|fuel] Le; cbn [length] in Le; try lia; cbn [enum_loop]; rewrite C.
  - rewrite app_nil_r. reflexivity.
  - rewrite I. cbn [pbind]. unfold skip_comma. rewrite K, IH, <- app_assoc by lia. reflexivity.
  - rewrite I. cbn [pbind]. unfold skip_comma. rewrite K, IH, <- app_assoc by lia. reflexivity.
Qed.
Lemma commas_loose : forall close, tv_eqb close T_COMMA = false -> forall t s l z, commas item close t s l z -> loose item close s l z.
Proof.
  intros close D t s l z H. induction H as [s a s1 C I K|s a s1 C I K T K2|s a s1 l z C I K L IH].
  - eapply L_plain; eauto; [eapply at_two; eauto|constructor; exact K].
  - eapply L_comma; eauto. constructor; exact K2.
  - eapply L_comma; eauto.
Qed.

Lemma params_sound : forall fuel acc s l z, params_loop A item fuel acc s = POk l z -> exists l' z', leads item T_GT s l' z' /\ l = acc ++ l' /\ z = next z'.
Proof.
  induction fuel as [|fuel IH]; intros acc s l z H; cbn [params_loop] in H; [discriminate|].
  destruct (at_tok T_GT s) eqn:C.
  - injection H as <- <-. exists [], s. rewrite app_nil_r. split; [constructor; exact C|auto].
  - unfold skip_comma in H. destruct (at_tok T_COMMA s) eqn:K.
    + destruct (item (next s)) as [a s1| | |] eqn:I; cbn [pbind] in H; try discriminate.
      destruct (IH _ _ _ _ H) as (l' & z' & L & -> & ->). exists (a :: l'), z'. rewrite <- app_assoc. split; [eapply E_comma; eauto|auto].
    + destruct (item s) as [a s1| | |] eqn:I; cbn [pbind] in H; try discriminate.
      destruct (IH _ _ _ _ H) as (l' & z' & L & -> & ->). exists (a :: l'), z'. rewrite <- app_assoc. split; [eapply E_plain; eauto|auto].
Qed.
Lemma params_complete : forall s l z, leads item T_GT s l z -> forall acc fuel, length l < fuel -> params_loop A item fuel acc s = POk (acc ++ l) (next z).
Proof.
  induction 1 as [s C|s a s1 l z C K I L IH|s a s1 l z K I L IH]; intros acc [|fuel] Le; cbn [length] in Le; try lia; cbn [params_loop]; unfold skip_comma.
  - rewrite C, app_nil_r. reflexivity.
  - rewrite C, K, I. cbn [pbind]. rewrite IH, <- app_assoc by lia. reflexivity.
  - rewrite (at_two T_COMMA T_GT s K eq_refl), K, I. cbn [pbind]. rewrite IH, <- app_assoc by lia. reflexivity.
Qed.
(** After an entry a comma and the next. *)
Lemma commas_leads : (forall s a s1, item s = POk a s1 -> at_tok T_COMMA s = false) ->
  forall s l z, commas item T_GT false s l z -> leads item T_GT s l z /\ forall s0, at_tok T_COMMA s0 = true -> next s0 = s -> leads item T_GT s0 l z.
Proof.
  intros Ni s l z H. induction H as [s a s1 C I K|s a s1 C I K T K2|s a s1 l z C I K L [_ IH]]; try discriminate.
  - split; [eapply E_plain; eauto; constructor; exact K|]. intros s0 K0 <-. eapply E_comma; eauto. constructor; exact K.
  - split; [eapply E_plain; eauto|]. intros s0 K0 <-. eapply E_comma; eauto.
Qed.

Lemma ext_sound : forall fuel acc s l z, ext_loop A item fuel acc s = POk l z -> exists l', joined item T_BRACE_L s l' z /\ l = acc ++ l'.
Proof.
  induction fuel as [|fuel IH]; intros acc s l z H; cbn [ext_loop] in H; [discriminate|].
  destruct (item s) as [a s1| | |] eqn:I; cbn [pbind] in H; try discriminate.
  destruct (at_tok T_BRACE_L s1) eqn:C.
  - injection H as <- <-. exists [a]. split; [constructor; auto|reflexivity].
  - destruct (IH _ _ _ _ H) as (l' & L & ->). exists (a :: l'). rewrite <- app_assoc. split; [|reflexivity].
    unfold skip_comma in L. destruct (at_tok T_COMMA s1) eqn:K; [eapply J_comma|eapply J_plain]; eauto.
Qed.
Lemma ext_complete : forall s l z, joined item T_BRACE_L s l z -> forall acc fuel, length l <= fuel -> ext_loop A item fuel acc s = POk (acc ++ l) z.
Proof.
  induction 1 as [s a s1 I C|s a s1 l z I C K L IH|s a s1 l z I K L IH]; intros acc [|fuel] Le; cbn [length] in Le; try lia; cbn [ext_loop]; rewrite I; cbn [pbind].
  - rewrite C. reflexivity.
  - unfold skip_comma. rewrite C, K, IH, <- app_assoc by lia. reflexivity.
  - unfold skip_comma. rewrite (at_two T_COMMA T_BRACE_L s1 K eq_refl), K, IH, <- app_assoc by lia. reflexivity.
Qed.
Lemma commas_joined : forall close s l z, commas item close false s l z -> joined item close s l z.
Proof. intros close s l z H. induction H; try discriminate; [apply J_one|eapply J_comma]; eauto. Qed.

Lemma impl_sound : forall fuel acc s l z, impl_loop A item fuel acc s = POk l z -> exists l', plain item T_BRACE_L s l' z /\ l = acc ++ l'.
Proof.
  induction fuel as [|fuel IH]; intros acc s l z H; cbn [impl_loop] in H; [discriminate|].
  destruct (at_tok T_BRACE_L s) eqn:C.
  - injection H as <- <-. exists []. rewrite app_nil_r. split; [constructor; exact C|reflexivity].
  - destruct (item s) as [a s1| | |] eqn:I; cbn [pbind] in H; try discriminate.
    destruct (IH _ _ _ _ H) as (l' & L & ->). exists (a :: l'). rewrite <- app_assoc. split; [eapply P_more; eauto|reflexivity].
Qed.
Lemma impl_complete : forall s l z, plain item T_BRACE_L s l z -> forall acc fuel, length l < fuel -> impl_loop A item fuel acc s = POk (acc ++ l) z.
Proof.
  induction 1 as [s C|s a s1 l z C I L IH]; intros acc [|fuel] Le; cbn [length] in Le; try lia; cbn [impl_loop]; rewrite C.
  - rewrite app_nil_r. reflexivity.
  - rewrite I. cbn [pbind]. rewrite IH, <- app_assoc by lia. reflexivity.
Qed.
Definition starting (s : pst) : pres A := if arg_starts (pval s) then item s else PErr.
Lemma args_sound : forall fuel acc s l z, args_loop A item fuel acc s = POk l z ->
  (at_tok T_GT s = true /\ l = acc /\ z = next s) \/ exists l' z', commas starting T_GT true s l' z' /\ l = acc ++ l' /\ z = next z'.
Proof.
  induction fuel as [|fuel IH]; intros acc s l z H; cbn [args_loop] in H; [discriminate|].
  destruct (at_tok T_GT s) eqn:C; [injection H as <- <-; auto|]. right.
  destruct (arg_starts (pval s)) eqn:St; cbn [negb] in H; [|discriminate].
  destruct (item s) as [a s1| | |] eqn:I; cbn [pbind] in H; try discriminate.
  assert (I' : starting s = POk a s1) by (unfold starting; rewrite St; exact I).
  destruct (at_tok T_COMMA s1) eqn:K.
  - destruct (IH _ _ _ _ H) as [(G & -> & ->)|(l' & z' & L & -> & ->)].
    + exists [a], (next s1). split; [eapply C_trail; eauto|auto].
    + exists (a :: l'), z'. rewrite <- app_assoc. split; [eapply C_more; eauto|auto].
  - destruct (at_tok T_GT s1) eqn:G; [|discriminate]. injection H as <- <-. exists [a], s1. split; [apply C_one; auto|auto].
Qed.
Lemma args_complete : forall s l z, commas starting T_GT true s l z -> forall acc fuel, length l < fuel -> args_loop A item fuel acc s = POk (acc ++ l) (next z).
Proof.
  assert (Q : forall s a s1, starting s = POk a s1 -> arg_starts (pval s) = true /\ item s = POk a s1).
  { intros s a s1 H. unfold starting in H. destruct (arg_starts (pval s)); [auto|discriminate]. }
  induction 1 as [s a s1 C I K|s a s1 C I K T K2|s a s1 l z C I K L IH]; intros acc [|fuel] Le; cbn [length] in Le; try lia; cbn [args_loop];
    destruct (Q _ _ _ I) as [Q1 Q2]; rewrite C, Q1, Q2; cbn [negb pbind].
  - rewrite (at_two T_GT T_COMMA s1 K eq_refl), K. reflexivity.
  - rewrite K. destruct fuel as [|fuel]; [lia|]. cbn [args_loop]. rewrite K2. reflexivity.
  - rewrite K, IH, <- app_assoc by lia. reflexivity.
Qed.
Lemma commas_starting : forall close t s l z, commas starting close t s l z -> commas item close t s l z.
Proof.
  assert (Q : forall s a s1, starting s = POk a s1 -> item s = POk a s1).
  { intros s a s1 H. unfold starting in H. destruct (arg_starts (pval s)); [exact H|discriminate]. }
  intros close t s l z H. induction H; [apply C_one|eapply C_trail|eapply C_more]; eauto.
Qed.
(** The reading is the only one. *)
Lemma plain_comma : (forall s a s1, item s = POk a s1 -> at_tok T_COMMA s = false) ->
  forall s a b l z, commas item T_BRACE_L false s (a :: b :: l) z -> forall l' z', ~ plain item T_BRACE_L s l' z'.
Proof.
  intros Ni s a b l z H l' z' P. inversion H as [| |s0 a0 s1 l0 z0 C I K L]; subst.
  inversion P as [s0 C'|s0 a0 s2 l0 z0 C' I' P']; subst; [congruence|]. assert (s2 = s1) by congruence. subst s2.
  inversion P' as [s0 C2|s0 a1 s3 l1 z1 C2 I2 P2]; subst.
  - pose proof (at_two T_COMMA T_BRACE_L _ K eq_refl). congruence.
  - apply Ni in I2. congruence.
Qed.
End Lists.

(** ** Tuples *)
Section Tuple.
Variables (A : Type) (item : pst -> pres A) (kind : A -> mkind).
Definition is_named (a : A) : bool := match kind a with MNamed _ => true | _ => false end.
Definition is_opt (a : A) : bool := match kind a with MNamed true | MOpt => true | _ => false end.
Definition is_req (a : A) : bool := match kind a with MNamed false | MPlain => true | _ => false end.
(** The rules as they are checked while members are read. *)
Fixpoint opts (opt : bool) (l : list A) : bool :=
  match l with [] => true | a :: l => negb (opt && is_req a) && opts (opt || is_opt a) l end.
Definition labels (l : list A) : bool := negb (existsb is_named l) || forallb (labelled A kind) l.
Lemma labels_app : forall l m, labels (l ++ m) = true -> labels l = true.
Proof.
  intros l m. unfold labels. rewrite existsb_app, forallb_app. destruct (existsb is_named l); [|reflexivity]. cbn.
  intros H. apply andb_prop in H. apply H.
Qed.
Lemma is_named_labelled : forall a, is_named a = true -> labelled A kind a = true.
Proof. intros a. unfold is_named, labelled. destruct (kind a); congruence. Qed.

Lemma tuple_sound : forall fuel named opt acc s l z, tuple_loop A item kind fuel named opt acc s = POk l z -> named = existsb is_named acc -> labels acc = true ->
  exists l' z', loose item T_BRACKET_R s l' z' /\ l = acc ++ l' /\ z = next z' /\ opts opt l' = true /\ labels l = true.
Proof.
  induction fuel as [|fuel IH]; intros named opt acc s l z H N La; cbn [tuple_loop] in H; [discriminate|].
  destruct (at_tok T_BRACKET_R s) eqn:C.
  - injection H as <- <-. exists [], s. rewrite app_nil_r. split; [constructor; exact C|auto].
  - destruct (item s) as [a s1| | |] eqn:I; cbn [pbind] in H; try discriminate. cbv zeta in H.
    assert (G : exists n' o', n' = existsb is_named (acc ++ [a]) /\ o' = opt || is_opt a /\ negb (opt && is_req a) = true /\
      (if n' && negb (forallb (labelled A kind) (acc ++ [a])) then PErr else tuple_loop A item kind fuel n' o' (acc ++ [a]) (skip_comma s1)) = POk l z).
    { rewrite existsb_app, <- N. unfold is_opt, is_req. cbn [existsb]. unfold is_named at 1. destruct (kind a) as [o| |r|] eqn:Ka.
      - destruct o, opt; cbn [negb andb] in H; try discriminate; (eexists; eexists; split; [reflexivity|split; [reflexivity|split; [reflexivity|]]]); cbn [orb]; rewrite ?orb_true_r; exact H.
      - (eexists; eexists; split; [reflexivity|split; [reflexivity|split; [destruct opt; reflexivity|]]]); cbn [orb]; rewrite ?orb_true_r, ?orb_false_r; exact H.
      - (eexists; eexists; split; [reflexivity|split; [reflexivity|split; [destruct opt; reflexivity|]]]); cbn [orb]; rewrite ?orb_false_r; exact H.
      - destruct opt; [discriminate|]. (eexists; eexists; split; [reflexivity|split; [reflexivity|split; [reflexivity|]]]); cbn [orb]; rewrite ?orb_false_r; exact H. }
    clear H. destruct G as (n' & o' & E1 & E2 & Q & H). destruct (n' && _) eqn:B; [discriminate|].
    assert (La' : labels (acc ++ [a]) = true).
    { unfold labels. rewrite <- E1. destruct n'; [|reflexivity]. cbn in B |- *. destruct (forallb _ _); [reflexivity|discriminate]. }
    destruct (IH _ _ _ _ _ _ H E1 La') as (l' & z' & L & -> & -> & O & La2). rewrite <- app_assoc in La2 |- *. exists (a :: l'), z'.
    split; [|cbn [opts]; rewrite Q, <- E2, O; auto]. unfold skip_comma in L.
    destruct (at_tok T_COMMA s1) eqn:K; [eapply L_comma|eapply L_plain]; eauto.
Qed.
Lemma tuple_complete : forall s l z, loose item T_BRACKET_R s l z -> forall named opt acc fuel, length l < fuel -> named = existsb is_named acc ->
  opts opt l = true -> labels (acc ++ l) = true -> tuple_loop A item kind fuel named opt acc s = POk (acc ++ l) (next z).
Proof.
  assert (St : forall named opt acc fuel s a s1 l z, at_tok T_BRACKET_R s = false -> item s = POk a s1 -> named = existsb is_named acc ->
    opts opt (a :: l) = true -> labels (acc ++ a :: l) = true ->
    tuple_loop A item kind fuel (existsb is_named (acc ++ [a])) (opt || is_opt a) (acc ++ [a]) (skip_comma s1) = POk (acc ++ a :: l) (next z) ->
    tuple_loop A item kind (S fuel) named opt acc s = POk (acc ++ a :: l) (next z)).
  { intros named opt acc fuel s a s1 l z C I N O La R. cbn [tuple_loop]. rewrite C, I. cbn [pbind]. cbv zeta.
    assert (La' : labels (acc ++ [a]) = true) by (apply (labels_app _ l); rewrite <- app_assoc; exact La).
    unfold labels in La'. assert (B : existsb is_named (acc ++ [a]) && negb (forallb (labelled A kind) (acc ++ [a])) = false) .
    { clear - La'. destruct (existsb is_named (acc ++ [a])); [|reflexivity]. cbn [negb orb andb] in *. rewrite La'. reflexivity. }
    cbn [opts] in O. apply andb_prop in O. destruct O as [O _].
    rewrite existsb_app in B, R. rewrite <- N in B, R. cbn [existsb] in B, R. unfold is_named at 1 in B. unfold is_named at 1 in R.
    unfold is_opt in R. unfold is_req in O.
    destruct (kind a) as [o| |r|] eqn:Ka; rewrite ?orb_false_r, ?orb_true_r in *.
    - destruct o, opt; cbn in O; try discriminate; cbn [negb andb orb] in *; rewrite ?orb_true_r in *; rewrite B; exact R.
    - rewrite B. exact R.
    - rewrite B. exact R.
    - destruct opt; [discriminate|]. rewrite B. exact R. }
  induction 1 as [s C|s a s1 l z C I K L IH|s a s1 l z C I K L IH]; intros named opt acc [|fuel] Le N O La; cbn [length] in Le; try lia.
  - cbn [tuple_loop]. rewrite C, app_nil_r. reflexivity.
  - eapply St; eauto. unfold skip_comma. rewrite K. rewrite IH; [rewrite <- app_assoc; reflexivity|lia|reflexivity| |rewrite <- app_assoc; exact La].
    cbn [opts] in O. apply andb_prop in O. apply O.
  - eapply St; eauto. unfold skip_comma. rewrite K. rewrite IH; [rewrite <- app_assoc; reflexivity|lia|reflexivity| |rewrite <- app_assoc; exact La].
    cbn [opts] in O. apply andb_prop in O. apply O.
Qed.

(** The rules as they are stated. *)
Lemma is_opt_spec : forall a, is_opt a = true <-> optional (kind a).
Proof. intros a. unfold is_opt, optional. destruct (kind a) as [[]| |[]|]; split; intros H; try discriminate; auto; destruct H; congruence. Qed.
Lemma is_req_spec : forall a, is_req a = true <-> required (kind a).
Proof. intros a. unfold is_req, required. destruct (kind a) as [[]| |[]|]; split; intros H; try discriminate; auto; destruct H; congruence. Qed.
Lemma opts_spec : forall l o, opts o l = true <->
  (o = true -> forall b, In b l -> is_req b = false) /\
  (forall l1 a l2 b l3, l = l1 ++ a :: l2 ++ b :: l3 -> is_opt a = true -> is_req b = false).
Proof.
  induction l as [|x l IH]; intros o; cbn [opts].
  - split; [|reflexivity]. intros _. split; [intros _ b []|]. intros [|] ? ? ? ? H; discriminate.
  - rewrite andb_true_iff, IH. split.
    + intros (H1 & H2 & H3). split.
      * intros -> b [->|Hb]; [destruct (is_req b); [discriminate|reflexivity]|apply H2; [reflexivity|exact Hb]].
      * intros [|y l1] a l2 b l3 E Oa; cbn in E; injection E as -> ->; [|eapply H3; eauto].
        apply H2; [rewrite Oa; apply orb_true_r|]. apply in_app_iff. right; left; reflexivity.
    + intros (H1 & H2). split; [destruct o; [rewrite (H1 eq_refl x) by (left; reflexivity); reflexivity|reflexivity]|]. split.
      * intros E b Hb. destruct o; [apply H1; [reflexivity|right; exact Hb]|]. cbn in E.
        apply in_split in Hb. destruct Hb as (l2 & l3 & ->). apply (H2 [] x l2 b l3 eq_refl E).
      * intros l1 a l2 b l3 -> Oa. apply (H2 (x :: l1) a l2 b l3 eq_refl Oa).
Qed.
Lemma labels_spec : forall l, labels l = true <-> ((exists o, In (MNamed o) (map kind l)) -> forall k, In k (map kind l) -> has_label k).
Proof.
  intros l. unfold labels. assert (E : existsb is_named l = true <-> exists o, In (MNamed o) (map kind l)).
  { rewrite existsb_exists. split.
    - intros (a & Ia & Na). unfold is_named in Na. destruct (kind a) as [o| | |] eqn:K; try discriminate. exists o. apply in_map_iff. eauto.
    - intros (o & Io). apply in_map_iff in Io. destruct Io as (a & K & Ia). exists a. unfold is_named. rewrite K. auto. }
  assert (F : forallb (labelled A kind) l = true <-> forall k, In k (map kind l) -> has_label k).
  { rewrite forallb_forall. split.
    - intros H k Ik. apply in_map_iff in Ik. destruct Ik as (a & <- & Ia). specialize (H a Ia). unfold labelled in H. unfold has_label.
      destruct (kind a) as [o| |[]|]; try discriminate; eauto.
    - intros H a Ia. specialize (H (kind a) (in_map kind l a Ia)). unfold labelled. destruct H as [[o ->]| ->]; reflexivity. }
  destruct (existsb is_named l) eqn:X; cbn.
  - rewrite F. split; [auto|]. intros H. apply H, E. reflexivity.
  - split; [|reflexivity]. intros _ H. apply E in H. congruence.
Qed.
Lemma rules_spec : forall l, opts false l = true /\ labels l = true <-> tuple_rules (map kind l).
Proof.
  intros l. unfold tuple_rules. rewrite opts_spec, labels_spec. split.
  - intros ((_ & H) & L). split; [|exact L]. intros l1 a l2 b l3 E Oa Rb.
    apply map_eq_app in E. destruct E as (m1 & m & -> & <- & E). apply map_eq_cons in E. destruct E as (x & m' & -> & <- & E).
    apply map_eq_app in E. destruct E as (m2 & m3 & -> & <- & E). apply map_eq_cons in E. destruct E as (y & m4 & -> & <- & _).
    apply is_req_spec in Rb. rewrite (H m1 x m2 y m4 eq_refl) in Rb; [discriminate|]. apply is_opt_spec, Oa.
  - intros (H & L). split; [|exact L]. split; [discriminate|]. intros l1 a l2 b l3 -> Oa. destruct (is_req b) eqn:R; [|reflexivity].
    exfalso. eapply (H (map kind l1) (kind a) (map kind l2) (kind b) (map kind l3)).
    + rewrite map_app. cbn. rewrite map_app. reflexivity.
    + apply is_opt_spec, Oa.
    + apply is_req_spec, R.
Qed.
End Tuple.
