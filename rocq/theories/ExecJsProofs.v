From Coq Require Import String SpecFloat Lia ZifyBool ZifyNat.
From Verif Require Import Base TokenModel NodeModel WalkModel WalkSpec WalkProofs ExecModel ExecSpec ExecProofs.
Set Default Proof Using "All".

Section Agree.
Variable num_to_str : spec_float -> bytes.
Variable str_to_num : bytes -> spec_float.
Variable env : bytes -> option jval.
Variable parse_float : bytes -> option spec_float.
Variable format_float : spec_float -> bytes.
Variable sprint : val -> bytes.
Hypothesis Hf : forall x, format_float x <> bs "includes".
Hypothesis Hp : parse_float (bs "includes") = None.
Notation ev := (js_eval num_to_str str_to_num env).
Notation sf := (safe num_to_str str_to_num env).
Notation gv := (gval parse_float format_float sprint (jvars env)).

Lemma truth : forall j, no_nan (Some j) = true -> to_bool (jrepr j) = truthy j.
Proof. intros [| |b|x|s|i l|i l] H; try reflexivity. cbn in *. destruct (is_nan x); [discriminate|]. reflexivity. Qed.

Lemma deep_strict : forall a b, (if nullish a && nullish b then strict_eq a b else if is_obj a && is_obj b then strict_eq a b else true) = true ->
  deep_equal (jrepr a) (jrepr b) = strict_eq a b.
Proof.
  intros [| |x|x|s|i l|i l] [| |y|y|t|j m|j m] H; cbn in *; try reflexivity; try discriminate.
  - rewrite H. reflexivity.
  - rewrite H. reflexivity.
Qed.

Lemma deep_loose : forall a b, safe_bin T_EQ a b = true -> loose_eq str_to_num a b = Some (deep_equal (jrepr a) (jrepr b)).
Proof.
  intros [| |x|x|s|i l|i l] [| |y|y|t|j m|j m] H; cbn in *; try reflexivity; try discriminate; unfold loose_eq; cbn in *; rewrite H; reflexivity.
Qed.

Lemma num_same : forall a, numeric a = true -> js_num str_to_num a = Some (to_num parse_float (jrepr a)).
Proof. intros [| |x|x|s|i l|i l] H; try discriminate; reflexivity. Qed.

Lemma bin_agree : forall op a b j, op <> T_AND -> op <> T_OR -> safe_bin op a b = true -> js_bin num_to_str str_to_num op a b = Some j ->
  go_bin parse_float format_float sprint op (jrepr a) (jrepr b) = Some (jrepr j).
Proof.
  intros op a b j N1 N2 H E. destruct op; try discriminate H; cbn [js_bin go_bin] in *; try contradiction.
  - change (safe_bin T_EQ a b = true) in H. rewrite (deep_loose _ _ H) in E. injection E as <-. reflexivity.
  - change (safe_bin T_EQ a b = true) in H. rewrite (deep_loose _ _ H) in E. injection E as <-. reflexivity.
  - injection E as <-. cbn [jrepr]. rewrite deep_strict by exact H. reflexivity.
  - injection E as <-. cbn [jrepr]. rewrite deep_strict by exact H. reflexivity.
  - destruct a as [| |x|x|s|i l|i l], b as [| |y|y|t|k m|k m]; try discriminate H; cbn in E; try (injection E as <-; reflexivity);
      destruct x || destruct y; injection E as <-; reflexivity.
  - cbn in H. apply andb_prop in H as [H1 H2]. unfold arith in E. rewrite (num_same _ H1), (num_same _ H2) in E. injection E as <-. reflexivity.
  - cbn in H. apply andb_prop in H as [H1 H2]. unfold arith in E. rewrite (num_same _ H1), (num_same _ H2) in E. injection E as <-. reflexivity.
Qed.

Lemma int_same : forall x, SFltb x f_zero = false -> is_int x = true -> (int_val x <? 2 ^ 63)%Z = true -> f_int x = int_val x /\ SFleb f_zero x = true /\ (0 <= int_val x)%Z.
Proof.
  intros [s|s| |s m e] H1 H2 H3; try discriminate; [repeat split; try lia; destruct s; reflexivity|].
  destruct s; [discriminate|]. split; [|split; [reflexivity|]].
  - unfold f_int, int_val in *. destruct e as [|p|p]; cbn [Z.opp].
    + replace (Zpos m / 2 ^ 0)%Z with (Zpos m * 2 ^ 0)%Z by (rewrite Z.div_1_r; lia). rewrite H3. reflexivity.
    + rewrite H3. reflexivity.
    + cbn [Z.opp] in H3. rewrite H3. reflexivity.
  - unfold int_val. destruct e as [|p|p]; [lia|apply Z.mul_nonneg_nonneg; [lia|apply Z.pow_nonneg; lia]|].
    apply Z.div_pos; [lia|apply Z.pow_pos_nonneg; lia].
Qed.

Lemma builtin_num : forall o x, builtin format_float sprint o (VNum x) = VNil.
Proof.
  intros o x. unfold builtin. destruct o; try reflexivity. cbn [to_str]. destruct (bytes_eqb (format_float x) _) eqn:E; [|reflexivity].
  apply bytes_eqb_spec in E. destruct (Hf x E).
Qed.
Lemma builtin_map : forall i l k, builtin format_float sprint (VMap i l) k = VNil.
Proof. intros. unfold builtin. destruct k; reflexivity. Qed.

Lemma find_map_repr : forall s (l : list (bytes * jval)),
  find (fun q : bytes * val => bytes_eqb s (fst q)) (map (fun p : bytes * jval => let (k, x) := p in (k, jrepr x)) l) =
  match find (fun q : bytes * jval => bytes_eqb s (fst q)) l with Some (k, x) => Some (k, jrepr x) | None => None end.
Proof. induction l as [|[k x] l IH]; [reflexivity|]. cbn. destruct (bytes_eqb s k); [reflexivity|exact IH]. Qed.

Lemma get_agree : forall o k j, safe_get o k = true -> js_get num_to_str o k = Some j ->
  go_member parse_float format_float sprint (jrepr o) (jrepr k) = Some (jrepr j).
Proof.
  intros o k j H E.
  destruct o as [| |b|y|t|i l|i l]; try discriminate H; destruct k as [| |c|x|s|u m|u m]; try discriminate H.
  - cbn [js_get] in E. injection E as <-. unfold go_member. cbn [jrepr get_prop]. unfold get_elem. cbn [to_num]. rewrite map_length.
    assert (G : forall v : jval, match Some (jrepr v) with None => None | Some VNil => Some (builtin format_float sprint (VArr i (map jrepr l)) (VNum x)) | Some v => Some v end = Some (jrepr v)).
    { intros v. rewrite builtin_num. destruct v; reflexivity. }
    destruct (is_nan x || SFltb x f_zero) eqn:N.
    + replace (is_int x && SFleb f_zero x) with false; [exact (G JUndef)|].
      destruct x as [[]|[]| |[] mm ee]; try discriminate; try reflexivity; symmetry; apply andb_false_r.
    + cbn [safe_get] in H. rewrite N in H. cbn [orb] in H. apply andb_prop in H as [H1 H2].
      apply orb_false_elim in N as [_ N]. destruct (int_same x N H1 H2) as (F1 & F2 & F3). rewrite F1, H1, F2. cbn [andb].
      destruct (int_val x <? Z.of_nat (List.length l))%Z eqn:L.
      * replace (Z.of_nat (List.length l) - 1 <? int_val x)%Z with false by lia. replace (int_val x <? 0)%Z with false by lia.
        pose proof (map_nth jrepr l JUndef (Z.to_nat (int_val x))) as Q. cbn [jrepr] in Q. rewrite Q. apply G.
      * replace (Z.of_nat (List.length l) - 1 <? int_val x)%Z with true by lia. exact (G JUndef).
  - cbn [js_get js_str] in E. unfold go_member. cbn [jrepr get_prop to_str]. rewrite find_map_repr.
    destruct (find _ l) as [[k v]|].
    + injection E as <-. rewrite builtin_map. destruct (jrepr v); reflexivity.
    + destruct (existsb _ _); [discriminate|]. injection E as <-. rewrite builtin_map. reflexivity.
Qed.

Lemma includes_agree : forall x v, negb (nullish v || is_obj v || match v with JNum x => is_nan x | _ => false end) = true ->
  deep_equal (jrepr x) (jrepr v) = same_value_zero x v.
Proof.
  intros [| |a|a|s|i l|i l] [| |b|b|t|j m|j m] H; try reflexivity; try discriminate. cbn in *. destruct (is_nan b); [discriminate|].
  rewrite andb_false_r. reflexivity.
Qed.

(** A claim about a node from the claims about its children and their children. *)
Lemma node_ind2 : forall P : node -> Prop,
  (forall ty a kids, (forall q m, In q kids -> In (Some m) (snd q) -> P m) ->
     (forall q m q' m', In q kids -> In (Some m) (snd q) -> In q' (n_kids m) -> In (Some m') (snd q') -> P m') -> P (Node ty a kids)) ->
  forall n, P n.
Proof.
  intros P H. assert (K : forall n, P n /\ forall q m, In q (n_kids n) -> In (Some m) (snd q) -> P m).
  { induction n as [ty a kids IH] using node_ind'. assert (C : forall q m, In q kids -> In (Some m) (snd q) -> P m) by (intros q m Hq Hm; apply (IH q Hq m Hm)).
    split; [|exact C]. apply H; [exact C|]. intros q m q' m' Hq Hm. apply (proj2 (IH q Hq m Hm)). }
  intros n. apply K.
Qed.

(** Safe expressions are supported. *)
Ltac kid1 := left; reflexivity.
Ltac kid2 := right; left; reflexivity.
Lemma safe_supported : forall n, sf n = true -> supported n = true.
Proof.
  induction n as [ty a kids K K2] using node_ind2. intro H.
  cbn [safe] in H. destruct ty; try discriminate H; try reflexivity; cbn [supported].
  - destruct kids as [|[k1 l1] [|]]; try discriminate. apply forallb_forall. intros o Ho. rewrite forallb_forall in H. specialize (H o Ho).
    destruct o as [m|]; [|discriminate]. exact (K _ m (or_introl eq_refl) Ho H).
  - destruct kids as [|[k1 [|[m1|] [|]]] [|[k2 [|[m2|] [|]]] [|]]]; try discriminate.
    apply andb_prop in H as [H _]. apply andb_prop in H as [H1 H2]. rewrite (K _ m1 (or_introl eq_refl) (or_introl eq_refl) H1). cbn [andb].
    destruct (at_bool a).
    + apply andb_prop in H2 as [H2 _]. exact (K _ m2 (or_intror (or_introl eq_refl)) (or_introl eq_refl) H2).
    + apply nt_eqb_spec in H2. destruct m2 as [t2 a2 kk2]. cbn in H2. subst t2. reflexivity.
  - destruct kids as [|[k1 [|[[t1 a1 kk1]|] [|]]] [|[k2 l2] [|]]]; try discriminate;
      destruct t1; try discriminate H; destruct kk1 as [|[k3 [|[m3|] [|]]] [|[k4 [|[[t4 a4 kk4]|] [|]]] [|]]]; try discriminate H;
      destruct t4; try discriminate H; destruct l2 as [|[m2|] [|]]; try discriminate H.
    apply andb_prop in H as [H _]. apply andb_prop in H as [H1 H2]. cbn [supported forallb].
    rewrite (K _ m2 (or_intror (or_introl eq_refl)) (or_introl eq_refl) H2).
    rewrite (K2 _ _ (k3, [Some m3]) m3 (or_introl eq_refl) (or_introl eq_refl) (or_introl eq_refl) (or_introl eq_refl) H1). reflexivity.
  - destruct kids as [|[k1 [|[m1|] [|]]] [|[k2 [|[m2|] [|]]] [|]]]; try discriminate.
    apply andb_prop in H as [H H3]. apply andb_prop in H as [H1 H2].
    rewrite (K _ m1 (or_introl eq_refl) (or_introl eq_refl) H1), (K _ m2 (or_intror (or_introl eq_refl)) (or_introl eq_refl) H2), !andb_true_r.
    destruct (ev m1); [|discriminate]. destruct (ev m2); [|discriminate]. destruct (at_op a); try discriminate H3; reflexivity.
  - destruct kids as [|[k1 [|[m1|] [|]]] [|]]; try discriminate. apply andb_prop in H as [H _]. apply andb_prop in H as [_ H].
    exact (K _ m1 (or_introl eq_refl) (or_introl eq_refl) H).
  - destruct kids as [|[k1 [|[m1|] [|]]] [|]]; try discriminate. exact (K _ m1 (or_introl eq_refl) (or_introl eq_refl) H).
Qed.

Lemma kid_shaped : forall ty a kids q m, shaped (Node ty a kids) = true -> In q kids -> In (Some m) (snd q) -> shaped m = true.
Proof. intros ty a kids q m H. apply all_nodes_eq in H as [_ H]. apply H. Qed.

Lemma gval_prop : forall p n, n_ty n <> N_NAME -> gv p n = gv false n.
Proof. intros p [ty a kids] H. destruct ty; try reflexivity. destruct (H eq_refl). Qed.

Lemma and_bool : forall a b, to_bool (VBool a) && to_bool (VBool b) = (if a then b else a).
Proof. intros [] []; reflexivity. Qed.

Theorem safe_agree : forall n j, sf n = true -> ev n = Some j -> gv false n = Some (jrepr j).
Proof.
  induction n as [ty a kids K K2] using node_ind2. intros j H E.
  cbn [safe] in H. cbn [js_eval] in E. destruct ty; try discriminate H; cbn [gval].
  - injection E as <-. reflexivity.
  - injection E as <-. reflexivity.
  - injection E as <-. reflexivity.
  - injection E as <-. reflexivity.
  - destruct kids as [|[k1 l1] [|]]; try discriminate.
    destruct (all_some (map (fun o => match o with Some m => ev m | None => None end) l1)) as [vs|] eqn:A; [|discriminate]. injection E as <-.
    apply all_some_spec in A.
    replace (all_some _) with (Some (map jrepr vs)); [reflexivity|]. symmetry. apply all_some_spec.
    assert (L : forall o, In o l1 -> forall v, match o with Some m => ev m | None => None end = Some v ->
       match o with Some m => gv false m | None => None end = Some (jrepr v)).
    { intros o Ho v Ev. rewrite forallb_forall in H. specialize (H o Ho). destruct o as [m|]; [|discriminate].
      exact (K _ m (or_introl eq_refl) Ho v H Ev). }
    clear -A L. revert vs A L. induction l1 as [|o l1 IH]; intros [|v vs] A L; cbn in A |- *; try discriminate; [reflexivity|].
    injection A as A1 A2. rewrite (L o (or_introl eq_refl) v A1). f_equal. apply IH; [exact A2|]. intros o' Ho'. apply L. right. exact Ho'.
  - destruct kids as [|[k1 [|[o|] [|]]] [|[k2 [|[p|] [|]]] [|]]]; try discriminate.
    apply andb_prop in H as [H H3]. apply andb_prop in H as [H1 H2].
    destruct (ev o) as [x|] eqn:Eo; [|discriminate]. rewrite (K _ o (or_introl eq_refl) (or_introl eq_refl) x H1 Eo).
    destruct (at_bool a).
    + apply andb_prop in H2 as [H2 H4]. destruct (ev p) as [k|] eqn:Ep; [|discriminate].
      rewrite gval_prop.
      2:{ intro Q. rewrite Q in H4. discriminate. }
      rewrite (K _ p (or_intror (or_introl eq_refl)) (or_introl eq_refl) k H2 Ep). apply get_agree; assumption.
    + apply nt_eqb_spec in H2. destruct p as [t2 a2 kk2]. cbn in H2. subst t2. cbn [gval name_val n_at] in *.
      exact (get_agree x (JStr (at_text a2)) j H3 E).
  - destruct kids as [|[k1 [|[[t1 a1 kk1]|] [|]]] [|[k2 l2] [|]]]; try discriminate;
      destruct t1; try discriminate H; destruct kk1 as [|[k3 [|[ob|] [|]]] [|[k4 [|[[t4 a4 kk4]|] [|]]] [|]]]; try discriminate H;
      destruct t4; try discriminate H; destruct l2 as [|[m2|] [|]]; try discriminate H.
    apply andb_prop in H as [H H3]. apply andb_prop in H as [H1 H2].
    destruct (negb (at_bool a1) && bytes_eqb (at_text a4) (bs "includes")) eqn:N; [|discriminate].
    apply andb_prop in N as [_ N]. apply bytes_eqb_spec in N.
    destruct (ev ob) as [x|] eqn:Eo; [|discriminate]. destruct x as [| | | | |i l|]; try discriminate.
    destruct (ev m2) as [v|] eqn:Em; [|discriminate]. injection E as <-.
    pose proof (K2 _ _ (k3, [Some ob]) ob (or_introl eq_refl) (or_introl eq_refl) (or_introl eq_refl) (or_introl eq_refl) _ H1 Eo) as G.
    pose proof (K _ m2 (or_intror (or_introl eq_refl)) (or_introl eq_refl) _ H2 Em) as G2.
    cbn [gval map all_some name_val]. rewrite G, G2, N.
    assert (M : go_member parse_float format_float sprint (jrepr (JArr i l)) (VStr (bs "includes")) = Some (VFn (jrepr (JArr i l)))).
    { unfold go_member. cbn [jrepr get_prop]. unfold get_elem. cbn [to_num]. rewrite Hp. reflexivity. }
    rewrite M. cbn [go_call jrepr nth]. do 2 f_equal. clear -H3 Hp Hf num_to_str str_to_num sprint env. induction l as [|x l IH]; [reflexivity|].
    cbn [map existsb]. rewrite includes_agree by exact H3. rewrite IH. reflexivity.
  - destruct kids as [|[k1 [|[m1|] [|]]] [|[k2 [|[m2|] [|]]] [|]]]; try discriminate.
    apply andb_prop in H as [H H3]. apply andb_prop in H as [H1 H2].
    destruct (ev m1) as [x|] eqn:E1; [|discriminate]. destruct (ev m2) as [y|] eqn:E2; [|discriminate].
    rewrite (K _ m1 (or_introl eq_refl) (or_introl eq_refl) _ H1 E1), (K _ m2 (or_intror (or_introl eq_refl)) (or_introl eq_refl) _ H2 E2).
    destruct (tv_eqb (at_op a) T_AND) eqn:A; [apply tv_eqb_spec in A; rewrite A in *|].
    { destruct x as [| |bx| | | |]; try discriminate H3. destruct y as [| |by_| | | |]; try discriminate H3.
      cbn [go_bin jrepr]. rewrite and_bool. destruct bx; cbn in E; injection E as <-; reflexivity. }
    destruct (tv_eqb (at_op a) T_OR) eqn:O; [apply tv_eqb_spec in O; rewrite O in *|].
    { destruct x as [| |bx| | | |]; try discriminate H3. destruct y as [| |by_| | | |]; try discriminate H3.
      cbn [go_bin jrepr]. destruct bx; cbn in E; injection E as <-; reflexivity. }
    apply bin_agree; [intro Q; rewrite Q in A; discriminate|intro Q; rewrite Q in O; discriminate|exact H3|].
    destruct (at_op a); try discriminate A; try discriminate O; exact E.
  - destruct kids as [|[k1 [|[m1|] [|]]] [|]]; try discriminate. apply andb_prop in H as [H H2]. apply andb_prop in H as [H0 H].
    apply tv_eqb_spec in H0. rewrite H0 in *. destruct (ev m1) as [x|] eqn:E1; [|discriminate].
    rewrite (K _ m1 (or_introl eq_refl) (or_introl eq_refl) _ H E1). cbn in E. injection E as <-. cbn [go_unary jrepr].
    rewrite truth by exact H2. reflexivity.
  - destruct kids as [|[k1 [|[m1|] [|]]] [|]]; try discriminate. exact (K _ m1 (or_introl eq_refl) (or_introl eq_refl) _ H E).
  - unfold name_val, jvars. destruct (bytes_eqb (at_text a) _); [injection E as <-; reflexivity|]. rewrite E. reflexivity.
Qed.

Theorem cond_agree : forall n j v, safe_cond num_to_str str_to_num env n = true -> ev n = Some j -> gv false n = Some v -> to_bool v = truthy j.
Proof.
  assert (B : forall n j v, sf n && no_nan (ev n) = true -> ev n = Some j -> gv false n = Some v -> to_bool v = truthy j).
  { intros n j v H E G. apply andb_prop in H as [H1 H2]. rewrite E in H2. rewrite (safe_agree n j H1 E) in G. injection G as <-. apply truth, H2. }
  induction n as [ty a kids K K2] using node_ind2. intros j v H E G.
  assert (B' := B (Node ty a kids) j v). destruct ty; try exact (B' H E G); clear B'.
  - destruct kids as [|[k1 [|[m1|] [|]]] [|[k2 [|[m2|] [|]]] [|]]]; try exact (B _ _ _ H E G).
    cbn [safe_cond] in H.
    destruct (tv_eqb (at_op a) T_AND) eqn:A; [apply tv_eqb_spec in A; rewrite A in H|].
    { apply andb_prop in H as [H1 H2]. cbn [js_eval] in E. destruct (ev m1) as [x|] eqn:E1; [|discriminate]. rewrite A in E.
      cbn [gval] in G. destruct (gv false m1) as [u|] eqn:G1; [|discriminate]. destruct (gv false m2) as [w|] eqn:G2; [|discriminate].
      rewrite A in G. cbn in G. injection G as <-. cbn [to_bool]. rewrite (K _ m1 (or_introl eq_refl) (or_introl eq_refl) x u H1 E1 G1).
      destruct (truthy x) eqn:T; cbn in *; [|injection E as <-; symmetry; exact T].
      exact (K _ m2 (or_intror (or_introl eq_refl)) (or_introl eq_refl) j w H2 E G2). }
    destruct (tv_eqb (at_op a) T_OR) eqn:O; [apply tv_eqb_spec in O; rewrite O in H|].
    { apply andb_prop in H as [H1 H2]. cbn [js_eval] in E. destruct (ev m1) as [x|] eqn:E1; [|discriminate]. rewrite O in E.
      cbn [gval] in G. destruct (gv false m1) as [u|] eqn:G1; [|discriminate]. destruct (gv false m2) as [w|] eqn:G2; [|discriminate].
      rewrite O in G. cbn in G. injection G as <-. cbn [to_bool]. rewrite (K _ m1 (or_introl eq_refl) (or_introl eq_refl) x u H1 E1 G1).
      destruct (truthy x) eqn:T; cbn in *; [injection E as <-; symmetry; exact T|].
      exact (K _ m2 (or_intror (or_introl eq_refl)) (or_introl eq_refl) j w H2 E G2). }
    apply (B (Node N_EXPR_BIN a [(k1, [Some m1]); (k2, [Some m2])])); [|exact E|exact G].
    destruct (at_op a); try exact H; discriminate.
  - destruct kids as [|[k1 [|[m1|] [|]]] [|]]; try exact (B _ _ _ H E G). cbn [safe_cond] in H.
    apply andb_prop in H as [H0 H]. apply tv_eqb_spec in H0. cbn [js_eval] in E. cbn [gval] in G. rewrite H0 in E, G.
    destruct (ev m1) as [x|] eqn:E1; [|discriminate]. destruct (gv false m1) as [u|] eqn:G1; [|discriminate].
    injection E as <-. injection G as <-. cbn [to_bool truthy]. f_equal. exact (K _ m1 (or_introl eq_refl) (or_introl eq_refl) x u H E1 G1).
  - destruct kids as [|[k1 [|[m1|] [|]]] [|]]; try exact (B _ _ _ H E G).
    exact (K _ m1 (or_introl eq_refl) (or_introl eq_refl) j v H E G).
Qed.
End Agree.
