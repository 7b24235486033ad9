(** Lemmas on bound names, parameter lists, exports, directives and switches. *)
From Coq Require Import String ZifyBool ZifyNat Permutation.
From Verif Require Import Base NodeModel WalkModel EarlyModel EarlySpec.

Definition kw_error (a : attr) : early :=
  if bytes_eqb (at_text a) (bs "eval") then E_Reserved (at_text a) else E_Keyword (at_text a).
Definition kw_check (ids : list attr) : early + list bytes :=
  match find at_bool ids with Some a => inl (kw_error a) | None => inr (map at_text ids) end.
Lemma kw_app : forall i j,
  kw_check (i ++ j) = match kw_check i with
                      | inl e => inl e
                      | inr a => match kw_check j with inl e => inl e | inr b => inr (a ++ b) end
                      end.
Proof.
  unfold kw_check. induction i as [|x i IH]; intros j; simpl.
  - destruct (find at_bool j); reflexivity.
  - destruct (at_bool x); [reflexivity|]. specialize (IH j).
    destruct (find at_bool (i ++ j)), (find at_bool i), (find at_bool j); try congruence.
    injection IH as IH. rewrite IH. reflexivity.
Qed.

(** The two inner loops of names_in_pattern. *)
Fixpoint names_many (l : list (option node)) : early + list bytes :=
  match l with
  | [] => inr []
  | o :: r =>
      match match o with Some m => names_in_pattern m | None => inr [] end with
      | inl e => inl e
      | inr a => match names_many r with inl e => inl e | inr b => inr (a ++ b) end
      end
  end.
Fixpoint names_props (l : list (option node)) : early + list bytes :=
  match l with
  | [] => inr []
  | o :: r =>
      match match o with
            | Some (Node N_PROP _ [_; (_, [Some m])]) => names_in_pattern m
            | Some (Node N_PROP _ _) => inr []
            | Some m => names_in_pattern m
            | None => inr []
            end with
      | inl e => inl e
      | inr a => match names_props r with inl e => inl e | inr b => inr (a ++ b) end
      end
  end.
Lemma names_array : forall a k l, names_in_pattern (Node N_PAT_ARRAY a [(k, l)]) = names_many l.
Proof. reflexivity. Qed.
Lemma names_object : forall a k l, names_in_pattern (Node N_PAT_OBJ a [(k, l)]) = names_props l.
Proof. reflexivity. Qed.

Scheme binds_m := Minimality for binds Sort Prop
  with binds_all_m := Minimality for binds_all Sort Prop
  with binds_props_m := Minimality for binds_props Sort Prop.
Combined Scheme binds_mut from binds_m, binds_all_m, binds_props_m.

Lemma names_binds :
  (forall n ids, binds n ids -> names_in_pattern n = kw_check ids)
  /\ (forall l ids, binds_all l ids -> names_many l = kw_check ids)
  /\ (forall l ids, binds_props l ids -> names_props l = kw_check ids).
Proof.
  apply binds_mut.
  - intros a k. unfold kw_check, kw_error. simpl. destruct (at_bool a); reflexivity.
  - intros a l ids _ IH. rewrite names_array. exact IH.
  - intros a l ids _ IH. rewrite names_object. exact IH.
  - intros a m d ids _ IH. exact IH.
  - intros a m ids _ IH. exact IH.
  - reflexivity.
  - intros l ids _ IH. simpl. rewrite IH. destruct (kw_check ids); reflexivity.
  - intros m l i j _ IHm _ IHl. simpl. rewrite IHm, IHl, kw_app. reflexivity.
  - reflexivity.
  - intros a key m l i j _ IHm _ IHl. simpl. rewrite IHm, IHl, kw_app. reflexivity.
  - intros m l i j Nt _ IHm _ IHl. simpl. rewrite IHl, kw_app, <- IHm.
    destruct m as [ty a k]. destruct ty; try reflexivity. destruct (Nt eq_refl).
Qed.

Lemma collect_binds : forall ps ids, binds_all (map Some ps) ids ->
  collect_names ps = match kw_check ids with
                     | inl e => inl e
                     | inr names => inr (names, existsb (fun p => negb (nt_eqb (n_ty p) N_NAME)) ps)
                     end.
Proof.
  induction ps as [|p ps IH]; intros ids H; inversion H as [| |m l i j Hm Hl]; subst; [reflexivity|].
  simpl. rewrite (proj1 names_binds _ _ Hm), (IH _ Hl), kw_app.
  destruct (kw_check i); [reflexivity|]. destruct (kw_check j); reflexivity.
Qed.

Lemma has_mem_In : forall n l, has_mem n l = true <-> In n l.
Proof.
  intros n l. unfold has_mem. rewrite existsb_exists. split.
  - intros [x [H1 H2]]. apply bytes_eqb_spec in H2. congruence.
  - intros H. exists n. split; [exact H|]. apply bytes_eqb_spec. reflexivity.
Qed.
Lemma has_mem_not : forall n l, has_mem n l = false <-> ~ In n l.
Proof. intros n l. rewrite <- has_mem_In. destruct (has_mem n l); split; congruence. Qed.

(** ** Parameters *)
Definition bad (strict async : bool) (n : bytes) : bool := is_prohibited strict async n strict true false false.
Lemma params_bad : forall strict async names u d n,
  params_loop strict async names u d = inl (E_Reserved n) -> In n names /\ bad strict async n = true.
Proof.
  intros strict async. induction names as [|x names IH]; intros u d n H; simpl in H; [discriminate|].
  destruct (is_prohibited strict async x strict true false false) eqn:E.
  - injection H as <-. split; [left; reflexivity|exact E].
  - destruct d; [|destruct (has_mem x u)]; apply IH in H; destruct H as [H1 H2]; (split; [right; exact H1|exact H2]).
Qed.
Lemma params_inl : forall strict async names u d e,
  params_loop strict async names u d = inl e -> exists n, e = E_Reserved n.
Proof.
  intros strict async. induction names as [|x names IH]; intros u d n H; simpl in H; [discriminate|].
  destruct (is_prohibited strict async x strict true false false); [injection H as <-; eauto|].
  destruct d; [|destruct (has_mem x u)]; eapply IH; exact H.
Qed.
Lemma params_good : forall strict async names u d b,
  params_loop strict async names u d = inr b ->
  (forall n, In n names -> bad strict async n = false)
  /\ (NoDup u -> b = true <-> (d = true \/ ~ NoDup (names ++ u))).
Proof.
  intros strict async. induction names as [|x names IH]; intros u d b H; simpl in H.
  - injection H as ->. split; [intros n []|]. simpl. intros U. split; [auto|]. intros [A|A]; [exact A|contradiction].
  - destruct (is_prohibited strict async x strict true false false) eqn:E; [discriminate|].
    assert (G : forall l, (forall n, In n l -> bad strict async n = false) -> forall n, In n (x :: l) -> bad strict async n = false).
    { intros l Hl n [<-|Hn]; [exact E|apply Hl; exact Hn]. }
    destruct d; [|destruct (has_mem x u) eqn:M].
    + destruct (IH _ _ _ H) as [I1 I2]. split; [apply G; exact I1|]. intros U. rewrite (I2 U). split; auto.
    + destruct (IH _ _ _ H) as [I1 I2]. split; [apply G; exact I1|]. intros U. rewrite (I2 U). split; [|auto].
      intros _. right. intros N. simpl in N. inversion N as [|a l N1 N2]; subst. apply N1. apply in_or_app. right.
      apply has_mem_In. exact M.
    + destruct (IH _ _ _ H) as [I1 I2]. split; [apply G; exact I1|]. intros U.
      apply has_mem_not in M. specialize (I2 (NoDup_cons x M U)). rewrite I2.
      assert (P : NoDup (names ++ x :: u) <-> NoDup ((x :: names) ++ u)).
      { simpl. split; intros N.
        - apply NoDup_remove in N. constructor; apply N.
        - inversion N; subst. apply NoDup_Add with (a := x) (l := names ++ u); [apply Add_app|split; assumption]. }
      rewrite P. reflexivity.
Qed.

Lemma bad_reserved : forall strict async n, n <> bs "private" -> (bad strict async n = true <-> reserved strict async n).
Proof.
  intros strict async n Np. unfold bad, is_prohibited, reserved. rewrite orb_false_r, andb_diag, andb_true_r, orb_false_r.
  assert (Q : has_mem n prohibited_names || (bytes_eqb n (bs "eval") || bytes_eqb n (bs "arguments")) = true <-> In n strict_reserved).
  { unfold strict_reserved, prohibited_names, has_mem. simpl map. simpl existsb. rewrite !orb_true_iff, !bytes_eqb_spec. simpl In.
    split; [intuition congruence|]. intros H.
    repeat (destruct H as [H|H]; [subst n; try congruence; tauto|]). destruct H. }
  pose proof (bytes_eqb_spec n (bs "await")) as W.
  destruct strict; cbn [andb].
  - destruct (has_mem n prohibited_names); cbn [orb] in Q; [tauto|].
    destruct (bytes_eqb n (bs "eval") || bytes_eqb n (bs "arguments")); [tauto|].
    destruct async; cbn [andb]; [|intuition congruence]. rewrite W. intuition congruence.
  - destruct async; cbn [andb]; [|intuition congruence]. rewrite W. intuition congruence.
Qed.

(** ** Exports *)
Lemma dup_result : forall l u, 
  match check_dup l u with
  | inl e => exists n, e = E_DupExport n /\ In n l /\ ~ NoDup (l ++ u)
  | inr v => v = rev l ++ u /\ (NoDup u -> NoDup (l ++ u))
  end.
Proof.
  induction l as [|x l IH]; intros u; simpl; [split; [reflexivity|auto]|].
  destruct (has_mem x u) eqn:M.
  - exists x. split; [reflexivity|]. split; [left; reflexivity|]. apply has_mem_In in M.
    intros N. inversion N as [|a b N1 N2]; subst. apply N1. apply in_or_app. auto.
  - apply has_mem_not in M.
    assert (P : NoDup (l ++ x :: u) <-> NoDup (x :: l ++ u)).
    { split; intros N.
      - apply NoDup_remove in N. constructor; apply N.
      - inversion N; subst. apply NoDup_Add with (a := x) (l := l ++ u); [apply Add_app|split; assumption]. }
    specialize (IH (x :: u)). destruct (check_dup l (x :: u)) as [e|v].
    + destruct IH as [n [H1 [H2 H3]]]. exists n. split; [exact H1|]. split; [right; exact H2|]. rewrite <- P. exact H3.
    + destruct IH as [H1 H2]. split; [rewrite H1, <- app_assoc; reflexivity|].
      intros U. apply P. apply H2. constructor; assumption.
Qed.

Lemma nodup_rev : forall {A} (l u m : list A), NoDup (m ++ rev l ++ u) <-> NoDup ((l ++ m) ++ u).
Proof.
  intros A l u m.
  assert (P : Permutation.Permutation (m ++ rev l ++ u) ((l ++ m) ++ u)).
  { rewrite app_assoc. apply Permutation.Permutation_app_tail.
    eapply Permutation.perm_trans; [apply Permutation.Permutation_app_comm|].
    apply Permutation.Permutation_app_tail. apply Permutation.Permutation_sym. apply Permutation.Permutation_rev. }
  split; apply Permutation.Permutation_NoDup; [exact P|apply Permutation.Permutation_sym; exact P].
Qed.
Lemma dups_result : forall exps u, NoDup u ->
  match check_dups exps u with
  | Some e => exists n, e = E_DupExport n /\ In n (flat_map exported exps) /\ ~ NoDup (flat_map exported exps ++ u)
  | None => NoDup (flat_map exported exps ++ u)
  end.
Proof.
  induction exps as [|e exps IH]; intros u U; simpl; [exact U|].
  pose proof (dup_result (exported e) u) as D. destruct (check_dup (exported e) u) as [x|v].
  - destruct D as [n [H1 [H2 H3]]]. exists n. split; [exact H1|]. split; [apply in_or_app; auto|].
    intros N. apply H3. clear - N. rewrite <- app_assoc in N.
    revert N. generalize (exported e) (flat_map exported exps). intros a b N.
    assert (P : Permutation.Permutation (a ++ b ++ u) (b ++ (a ++ u))).
    { rewrite !app_assoc. apply Permutation.Permutation_app_tail. apply Permutation.Permutation_app_comm. }
    apply (Permutation.Permutation_NoDup P) in N. clear P.
    induction b as [|y b IHb]; [exact N|]. inversion N; subst. auto.
  - destruct D as [-> D]. assert (V : NoDup (rev (exported e) ++ u)).
    { apply (proj2 (nodup_rev (exported e) u [])). rewrite app_nil_r. auto. }
    specialize (IH _ V). destruct (check_dups exps (rev (exported e) ++ u)) as [x|].
    + destruct IH as [n [H1 [H2 H3]]]. exists n. split; [exact H1|]. split; [apply in_or_app; auto|].
      rewrite <- nodup_rev. exact H3.
    + apply nodup_rev. exact IH.
Qed.

Lemma declares_names : forall d names, declares d names -> names_in_node d = names.
Proof.
  intros d names [a l ids B F K|a i ps b|a i s b]; try reflexivity.
  simpl.
  assert (E : map (fun d => match d with Some (Node _ _ ((_, [m]) :: _)) => m | _ => None end) l =
              map Some (flat_map (fun o => match o with Some (Node _ _ ((_, [Some m]) :: _)) => [m] | _ => [] end) l)).
  { clear - F. induction F as [|x l [b [i [v ->]]] F IH]; [reflexivity|]. simpl. rewrite IH. reflexivity. }
  rewrite E in B. rewrite (collect_binds _ _ B). unfold kw_check.
  destruct (find at_bool ids) eqn:Fd; [|reflexivity].
  apply find_some in Fd. destruct Fd as [I T]. rewrite Forall_forall in K. rewrite (K _ I) in T. discriminate.
Qed.
Lemma exports_names : forall e names, ~ star_as e -> exports e names -> exported e = names.
Proof.
  intros e names Ns H. revert Ns.
  destruct H as [d s src|d ns D|l src]; intros Ns; unfold exported; simpl; [reflexivity|apply declares_names; exact D|].
  assert (G : forall s, In s l -> es_id s <> None).
  { intros s Hs E. apply Ns. exists s. exact (conj Hs E). }
  clear Ns. induction l as [|s l IH]; [reflexivity|]. simpl.
  rewrite IH; [|intros x Hx; apply G; right; exact Hx].
  specialize (G s (or_introl eq_refl)). destruct (es_id s) eqn:Es; [|congruence]. destruct (es_type s); simpl; [reflexivity|].
  rewrite Es. reflexivity.
Qed.
Lemma all_exports_names : forall l names, Forall (fun e => ~ star_as e) l -> all_exports l names -> flat_map exported l = names.
Proof.
  intros l names F H. induction H as [|e l a b He Hl IH]; [reflexivity|].
  inversion F; subst. simpl. rewrite (exports_names e a); auto. rewrite IH; auto.
Qed.

Lemma defs_result : forall defined exps,
  match check_defs defined exps with
  | Some e => exists n x s, e = E_NotDefined n /\ In x exps /\ ed_src x = false /\ In s (ed_specs x) /\ es_local s = n /\ defined n = false
  | None => forall x s, In x exps -> ed_src x = false -> In s (ed_specs x) -> defined (es_local s) = true
  end.
Proof.
  intros defined. induction exps as [|e exps IH]; simpl; [intros x s []|].
  destruct (ed_src e) eqn:Src.
  - destruct (check_defs defined exps).
    + destruct IH as (n & x & s & IH). exists n, x, s. intuition.
    + intros x s [<-|Hx] X; [congruence|]. apply IH; assumption.
  - destruct (find (fun s => negb (defined (es_local s))) (ed_specs e)) as [s|] eqn:F.
    + apply find_some in F. destruct F as [F1 F2]. exists (es_local s), e, s.
      repeat split; auto. destruct (defined (es_local s)); [discriminate|reflexivity].
    + destruct (check_defs defined exps).
      * destruct IH as (n & x & s & IH). exists n, x, s. intuition.
      * intros x s [<-|Hx] X Hs; [|apply (IH x s); assumption].
        pose proof (find_none _ _ F s Hs) as Y. simpl in Y. destruct (defined (es_local s)); [reflexivity|discriminate].
Qed.
