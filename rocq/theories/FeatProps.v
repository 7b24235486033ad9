(** Theorems about feature options. *)
From Coq Require Import String.
From Verif Require Import Base FeatModel FeatSpec.

Lemma feat_eqb_spec : forall a b, feat_eqb a b = true <-> a = b.
Proof. intros a b. split; [|intros ->; destruct b; reflexivity]. destruct a, b; intro H; try reflexivity; discriminate H. Qed.

Lemma place_inj : forall x y, place x 1 all_feats = place y 1 all_feats -> x = y.
Proof.
  assert (K : forallb (fun x => forallb (fun y => Bool.eqb (N.eqb (place x 1 all_feats) (place y 1 all_feats)) (feat_eqb x y))
                                  all_feats) all_feats = true) by (vm_compute; reflexivity).
  assert (All : forall x, In x all_feats).
  { intro x. assert (E : existsb (feat_eqb x) all_feats = true) by (destruct x; reflexivity).
    apply existsb_exists in E as [z [Hz E]]. apply feat_eqb_spec in E as ->. exact Hz. }
  intros x y E.
  rewrite forallb_forall in K. specialize (K x (All x)). rewrite forallb_forall in K. specialize (K y (All y)).
  rewrite E, N.eqb_refl in K. apply feat_eqb_spec. destruct (feat_eqb x y); [reflexivity|discriminate K].
Qed.
Lemma flag_testbit : forall x i, N.testbit (flag x) i = N.eqb i (place x 1 all_feats).
Proof.
  intros x i. unfold flag. rewrite N.shiftl_1_l, N.pow2_bits_eqb. apply N.eqb_sym.
Qed.
Lemma is_on_testbit : forall f x, is_on f x = N.testbit f (place x 1 all_feats).
Proof.
  intros f x. unfold is_on. set (i := place x 1 all_feats).
  destruct (N.testbit f i) eqn:E.
  - destruct (N.eqb_spec (N.land f (flag x)) 0) as [Z|Z]; [|reflexivity].
    exfalso. assert (B : N.testbit (N.land f (flag x)) i = true).
    { rewrite N.land_spec, E, flag_testbit. fold i. rewrite N.eqb_refl. reflexivity. }
    rewrite Z, N.bits_0 in B. discriminate B.
  - destruct (N.eqb_spec (N.land f (flag x)) 0) as [Z|Z]; [reflexivity|].
    exfalso. apply Z, N.bits_inj_0. intro n. rewrite N.land_spec, flag_testbit. fold i.
    destruct (N.eqb_spec n i) as [->|]; [rewrite E; reflexivity|apply andb_false_r].
Qed.
Lemma is_on_on : forall f x y, is_on (on f (flag x)) y = is_on f y || feat_eqb y x.
Proof.
  intros. rewrite !is_on_testbit. unfold on. rewrite N.lor_spec, flag_testbit. f_equal.
  destruct (N.eqb_spec (place y 1 all_feats) (place x 1 all_feats)) as [E|E].
  - apply place_inj in E. symmetry. apply feat_eqb_spec. exact E.
  - destruct (feat_eqb y x) eqn:F; [|reflexivity]. apply feat_eqb_spec in F as ->. elim E. reflexivity.
Qed.
Lemma is_on_off : forall f x y, is_on (off f (flag x)) y = is_on f y && negb (feat_eqb y x).
Proof.
  intros. rewrite !is_on_testbit. unfold off. rewrite N.ldiff_spec, flag_testbit. f_equal. f_equal.
  destruct (N.eqb_spec (place y 1 all_feats) (place x 1 all_feats)) as [E|E].
  - apply place_inj in E. symmetry. apply feat_eqb_spec. exact E.
  - destruct (feat_eqb y x) eqn:F; [|reflexivity]. apply feat_eqb_spec in F as ->. elim E. reflexivity.
Qed.
Lemma is_on_turn : forall f x b y, is_on (turn f (flag x) b) y = if feat_eqb y x then b else is_on f y.
Proof.
  intros. destruct b; cbn [turn]; [rewrite is_on_on|rewrite is_on_off]; destruct (feat_eqb y x), (is_on f y); reflexivity.
Qed.
Lemma is_on_key : forall k x o f y,
  is_on (merge_key k x o f) y
  = if feat_eqb y x then match jlookup k o with Some v => is_true v | None => is_on f y end else is_on f y.
Proof.
  intros. unfold merge_key. destruct (jlookup k o); [apply is_on_turn|destruct (feat_eqb y x); reflexivity].
Qed.

(** C48: a feature is on in the parser exactly when the options say so, whatever was on before and whatever the
    object of options holds. *)
Theorem C48_options : forall f o x, is_on (setup (merge_json f o)) x = settled (merged (is_on f) o) x.
Proof.
  assert (M : forall f o x, is_on (merge_json f o) x = merged (is_on f) o x).
  { intros f o x. unfold merge_json. rewrite !is_on_key. unfold merged.
    assert (S0 : forall y, is_on (match jlookup "sourceType" o with
                            | Some v => if is_text "module" v then on f (flag FEAT_MODULE) else f
                            | None => f end) y
                 = is_on f y || (feat_eqb y FEAT_MODULE && match jlookup "sourceType" o with Some v => is_text "module" v | None => false end)).
    { intro y. destruct (jlookup "sourceType" o) as [v|].
      - destruct (is_text "module" v); [rewrite is_on_on, andb_true_r; reflexivity|rewrite andb_false_r, orb_false_r; reflexivity].
      - rewrite andb_false_r, orb_false_r. reflexivity. }
    rewrite !S0.
    destruct x; cbn [feat_eqb switch andb]; rewrite ?orb_false_r; reflexivity. }
  intros f o x. unfold setup.
  change (N.eqb (N.land (merge_json f o) (flag FEAT_ASYNC_AWAIT)) 0) with (N.eqb (N.land (merge_json f o) (flag FEAT_ASYNC_AWAIT)) 0).
  rewrite <- (negb_involutive (N.eqb (N.land (merge_json f o) (flag FEAT_ASYNC_AWAIT)) 0)).
  change (negb (N.eqb (N.land (merge_json f o) (flag FEAT_ASYNC_AWAIT)) 0)) with (is_on (merge_json f o) FEAT_ASYNC_AWAIT).
  set (g := if negb (is_on (merge_json f o) FEAT_ASYNC_AWAIT) then off (merge_json f o) (flag FEAT_GLOBAL_ASYNC) else merge_json f o).
  change (negb (N.eqb (N.land g (flag FEAT_MODULE)) 0)) with (is_on g FEAT_MODULE).
  assert (G : forall y, is_on g y = is_on (merge_json f o) y && negb (feat_eqb y FEAT_GLOBAL_ASYNC && negb (is_on (merge_json f o) FEAT_ASYNC_AWAIT))).
  { intro y. unfold g. destruct (is_on (merge_json f o) FEAT_ASYNC_AWAIT); cbn [negb].
    - rewrite andb_false_r, andb_true_r. reflexivity.
    - rewrite is_on_off, andb_true_r. reflexivity. }
  assert (R : is_on (if is_on g FEAT_MODULE then on (on g (flag FEAT_IMPORT_DEC)) (flag FEAT_EXPORT_DEC) else g) x
              = is_on g x || ((feat_eqb x FEAT_IMPORT_DEC || feat_eqb x FEAT_EXPORT_DEC) && is_on g FEAT_MODULE)).
  { destruct (is_on g FEAT_MODULE).
    - rewrite !is_on_on, andb_true_r, orb_assoc. reflexivity.
    - rewrite andb_false_r, orb_false_r. reflexivity. }
  rewrite R, !G, !M. unfold settled.
  destruct x; cbn [feat_eqb andb orb negb]; rewrite ?andb_true_r, ?orb_false_r, ?negb_involutive; reflexivity.
Qed.
Print Assumptions C48_options.
Example options_witness :
  let o := [("sourceType", JText "script"); ("jsx", JFalse); ("typescript", JTrue)]%string in
  is_on (setup (merge_json default_features o)) FEAT_TS = true
  /\ is_on (setup (merge_json default_features o)) FEAT_JSX = false
  /\ is_on (setup (merge_json default_features o)) FEAT_IMPORT_DEC = true
  /\ is_on default_features FEAT_IMPORT_DEC = false.
Proof. vm_compute. repeat split; reflexivity. Qed.

Lemma on_ext : forall f g, (forall i, N.testbit f i = N.testbit g i) -> f = g.
Proof. intros f g H. apply N.bits_inj. exact H. Qed.
Lemma bits_turn : forall f x b i,
  N.testbit (turn f (flag x) b) i = if N.eqb i (place x 1 all_feats) then b else N.testbit f i.
Proof.
  intros. destruct b; cbn [turn]; unfold on, off; rewrite ?N.lor_spec, ?N.ldiff_spec, flag_testbit;
    destruct (N.eqb i (place x 1 all_feats)), (N.testbit f i); reflexivity.
Qed.
Lemma bits_key : forall k x o f i,
  N.testbit (merge_key k x o f) i
  = match jlookup k o with
    | Some v => if N.eqb i (place x 1 all_feats) then is_true v else N.testbit f i
    | None => N.testbit f i
    end.
Proof. intros. unfold merge_key. destruct (jlookup k o); [apply bits_turn|reflexivity]. Qed.
Lemma bits_merge : forall f o i,
  N.testbit (merge_json f o) i
  = let sw k := match jlookup k o with Some v => is_true v | None => N.testbit f i end in
    if N.eqb i (place FEAT_STRICT 1 all_feats) then sw "strict"%string
    else if N.eqb i (place FEAT_DTS 1 all_feats) then sw "dts"%string
    else if N.eqb i (place FEAT_JSX 1 all_feats) then sw "jsx"%string
    else if N.eqb i (place FEAT_TS 1 all_feats) then sw "typescript"%string
    else N.testbit f i || (N.eqb i (place FEAT_MODULE 1 all_feats)
                           && match jlookup "sourceType" o with Some v => is_text "module" v | None => false end).
Proof.
  intros. unfold merge_json. rewrite !bits_key. cbn zeta.
  assert (S0 : N.testbit (match jlookup "sourceType" o with
                            | Some v => if is_text "module" v then on f (flag FEAT_MODULE) else f
                            | None => f end) i
               = N.testbit f i || (N.eqb i (place FEAT_MODULE 1 all_feats)
                           && match jlookup "sourceType" o with Some v => is_text "module" v | None => false end)).
  { destruct (jlookup "sourceType" o) as [v|]; [|rewrite andb_false_r, orb_false_r; reflexivity].
    destruct (is_text "module" v); [|rewrite andb_false_r, orb_false_r; reflexivity].
    unfold on. rewrite N.lor_spec, flag_testbit, andb_true_r. reflexivity. }
  rewrite S0.
  assert (P : forall x y, N.eqb (place x 1 all_feats) (place y 1 all_feats) = feat_eqb x y).
  { intros x y. destruct (N.eqb_spec (place x 1 all_feats) (place y 1 all_feats)) as [E|E].
    - apply place_inj in E as ->. symmetry. apply feat_eqb_spec. reflexivity.
    - destruct (feat_eqb x y) eqn:F; [|reflexivity]. apply feat_eqb_spec in F as ->. elim E. reflexivity. }
  destruct (N.eqb_spec i (place FEAT_STRICT 1 all_feats)) as [->|_].
  { rewrite !P. cbn [feat_eqb andb]. rewrite orb_false_r. destruct (jlookup "strict" o); [reflexivity|].
    destruct (jlookup "dts" o), (jlookup "jsx" o), (jlookup "typescript" o); reflexivity. }
  destruct (N.eqb_spec i (place FEAT_DTS 1 all_feats)) as [->|_].
  { rewrite !P. cbn [feat_eqb andb]. rewrite orb_false_r. destruct (jlookup "dts" o);
    destruct (jlookup "strict" o), (jlookup "jsx" o), (jlookup "typescript" o); reflexivity. }
  destruct (N.eqb_spec i (place FEAT_JSX 1 all_feats)) as [->|_].
  { rewrite !P. cbn [feat_eqb andb]. rewrite orb_false_r. destruct (jlookup "jsx" o);
    destruct (jlookup "strict" o), (jlookup "dts" o), (jlookup "typescript" o); reflexivity. }
  destruct (N.eqb_spec i (place FEAT_TS 1 all_feats)) as [->|_].
  { rewrite !P. cbn [feat_eqb andb]. rewrite orb_false_r. destruct (jlookup "typescript" o);
    destruct (jlookup "strict" o), (jlookup "dts" o), (jlookup "jsx" o); reflexivity. }
  destruct (jlookup "strict" o), (jlookup "dts" o), (jlookup "jsx" o), (jlookup "typescript" o); reflexivity.
Qed.

(** C48: options that do not contradict each other may be merged in any order: all the bits come out the same. *)
Theorem C48_any_order : forall f o p, compatible o p ->
  merge_json (merge_json f o) p = merge_json (merge_json f p) o.
Proof.
  intros f o p H. apply on_ext. intro i. rewrite !bits_merge. cbn zeta.
  assert (K : forall k, match jlookup k p with
                        | Some v => is_true v
                        | None => match jlookup k o with Some v => is_true v | None => N.testbit f i end
                        end
                      = match jlookup k o with
                        | Some v => is_true v
                        | None => match jlookup k p with Some v => is_true v | None => N.testbit f i end
                        end).
  { intro k. pose proof (H k) as E. destruct (jlookup k o) as [a|], (jlookup k p) as [b|]; try reflexivity.
    rewrite (E a b eq_refl eq_refl). reflexivity. }
  destruct (N.eqb i (place FEAT_STRICT 1 all_feats)); [apply K|].
  destruct (N.eqb i (place FEAT_DTS 1 all_feats)); [apply K|].
  destruct (N.eqb i (place FEAT_JSX 1 all_feats)); [apply K|].
  destruct (N.eqb i (place FEAT_TS 1 all_feats)); [apply K|].
  rewrite <- !orb_assoc. f_equal. apply orb_comm.
Qed.
Print Assumptions C48_any_order.
Example any_order_witness : compatible [("jsx", JFalse); ("strict", JTrue)]%string [("typescript", JTrue); ("strict", JTrue)]%string.
Proof.
  intros k v w H1 H2. cbn [jlookup] in *.
  destruct (String.eqb_spec k "jsx") as [->|]; [discriminate H2|].
  destruct (String.eqb_spec k "typescript") as [->|]; [discriminate H1|].
  destruct (String.eqb k "strict"); congruence.
Qed.

(** C48: giving the same options twice, or setting up a second parser with the options of the first, changes nothing. *)
Theorem C48_repeat : forall f o,
  merge_json (merge_json f o) o = merge_json f o /\ setup (setup f) = setup f.
Proof.
  intros f o. split.
  - apply on_ext. intro i. rewrite !bits_merge. cbn zeta.
    destruct (N.eqb i (place FEAT_STRICT 1 all_feats)); [destruct (jlookup "strict" o); reflexivity|].
    destruct (N.eqb i (place FEAT_DTS 1 all_feats)); [destruct (jlookup "dts" o); reflexivity|].
    destruct (N.eqb i (place FEAT_JSX 1 all_feats)); [destruct (jlookup "jsx" o); reflexivity|].
    destruct (N.eqb i (place FEAT_TS 1 all_feats)); [destruct (jlookup "typescript" o); reflexivity|].
    rewrite <- orb_assoc, orb_diag. reflexivity.
  - assert (B : forall f i, N.testbit (setup f) i
      = if N.eqb i (place FEAT_GLOBAL_ASYNC 1 all_feats) then N.testbit f i && N.testbit f (place FEAT_ASYNC_AWAIT 1 all_feats)
        else if N.eqb i (place FEAT_IMPORT_DEC 1 all_feats) || N.eqb i (place FEAT_EXPORT_DEC 1 all_feats)
             then N.testbit f i || N.testbit f (place FEAT_MODULE 1 all_feats) else N.testbit f i).
    { clear. intros f i. unfold setup.
      rewrite <- (negb_involutive (N.eqb (N.land f (flag FEAT_ASYNC_AWAIT)) 0)).
      change (negb (N.eqb (N.land f (flag FEAT_ASYNC_AWAIT)) 0)) with (is_on f FEAT_ASYNC_AWAIT).
      set (g := if negb (is_on f FEAT_ASYNC_AWAIT) then off f (flag FEAT_GLOBAL_ASYNC) else f).
      change (negb (N.eqb (N.land g (flag FEAT_MODULE)) 0)) with (is_on g FEAT_MODULE).
      assert (G : forall i, N.testbit g i = N.testbit f i && negb (N.eqb i (place FEAT_GLOBAL_ASYNC 1 all_feats) && negb (N.testbit f (place FEAT_ASYNC_AWAIT 1 all_feats)))).
      { intro j. unfold g. rewrite is_on_testbit. destruct (N.testbit f (place FEAT_ASYNC_AWAIT 1 all_feats)); cbn [negb].
        - rewrite andb_false_r, andb_true_r. reflexivity.
        - unfold off. rewrite N.ldiff_spec, flag_testbit, andb_true_r. reflexivity. }
      rewrite is_on_testbit, (G (place FEAT_MODULE 1 all_feats)).
      change (N.eqb (place FEAT_MODULE 1 all_feats) (place FEAT_GLOBAL_ASYNC 1 all_feats)) with false. cbn [andb negb]. rewrite andb_true_r.
      destruct (N.testbit f (place FEAT_MODULE 1 all_feats)).
      - unfold on. rewrite !N.lor_spec, !flag_testbit, G.
        destruct (N.eqb_spec i (place FEAT_GLOBAL_ASYNC 1 all_feats)) as [->|].
        + change (N.eqb (place FEAT_GLOBAL_ASYNC 1 all_feats) (place FEAT_IMPORT_DEC 1 all_feats)) with false.
          change (N.eqb (place FEAT_GLOBAL_ASYNC 1 all_feats) (place FEAT_EXPORT_DEC 1 all_feats)) with false.
          destruct (N.testbit f (place FEAT_GLOBAL_ASYNC 1 all_feats)), (N.testbit f (place FEAT_ASYNC_AWAIT 1 all_feats)); reflexivity.
        + cbn [andb negb]. rewrite andb_true_r.
          destruct (N.eqb i (place FEAT_IMPORT_DEC 1 all_feats)), (N.eqb i (place FEAT_EXPORT_DEC 1 all_feats)), (N.testbit f i); reflexivity.
      - rewrite G. destruct (N.eqb i (place FEAT_GLOBAL_ASYNC 1 all_feats)); cbn [andb negb]; [rewrite negb_involutive; reflexivity|].
        rewrite andb_true_r, orb_false_r. destruct (N.eqb i (place FEAT_IMPORT_DEC 1 all_feats) || N.eqb i (place FEAT_EXPORT_DEC 1 all_feats)); reflexivity. }
    apply on_ext. intro i. rewrite (B (setup f) i), !(B f).
    change (N.eqb (place FEAT_ASYNC_AWAIT 1 all_feats) (place FEAT_GLOBAL_ASYNC 1 all_feats)) with false.
    change (N.eqb (place FEAT_ASYNC_AWAIT 1 all_feats) (place FEAT_IMPORT_DEC 1 all_feats)) with false.
    change (N.eqb (place FEAT_ASYNC_AWAIT 1 all_feats) (place FEAT_EXPORT_DEC 1 all_feats)) with false.
    change (N.eqb (place FEAT_MODULE 1 all_feats) (place FEAT_GLOBAL_ASYNC 1 all_feats)) with false.
    change (N.eqb (place FEAT_MODULE 1 all_feats) (place FEAT_IMPORT_DEC 1 all_feats)) with false.
    change (N.eqb (place FEAT_MODULE 1 all_feats) (place FEAT_EXPORT_DEC 1 all_feats)) with false.
    cbn [orb].
    destruct (N.eqb i (place FEAT_GLOBAL_ASYNC 1 all_feats)), (N.eqb i (place FEAT_IMPORT_DEC 1 all_feats) || N.eqb i (place FEAT_EXPORT_DEC 1 all_feats)),
      (N.testbit f i), (N.testbit f (place FEAT_ASYNC_AWAIT 1 all_feats)), (N.testbit f (place FEAT_MODULE 1 all_feats)); reflexivity.
Qed.
Print Assumptions C48_repeat.
Example repeat_witness : setup default_features <> default_features.
Proof. vm_compute. discriminate. Qed.

(** C48, full statement refuted: a source type of script does not turn modules off. *)
Theorem C48_script_refuted :
  exists f, is_on (setup (merge_json f [("sourceType", JText "script")]%string)) FEAT_MODULE = true.
Proof. exists default_features. vm_compute. reflexivity. Qed.
Print Assumptions C48_script_refuted.
