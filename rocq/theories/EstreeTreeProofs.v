(** The conversion to ESTree on whole trees. *)
From Coq Require Import String SpecFloat.
From Verif Require Import Base TokenModel NodeModel SourceModel SourceSpec SourceProofs WalkModel EstreeModel EstreeSpec EstreeProofs.
Local Open Scope string_scope.

Section Tree.
Variable src : source.
Variable lcol : bool.
Notation c := (code src).
Notation good := (good src lcol).
Notation kidly := (kidly src lcol).

Lemma well_eq : forall n, well c n = true -> well_here c n = true /\ (forall k, In k (subs (p_ks n)) -> well c k = true).
Proof.
  intros [t lo hi sc ks] W. cbn [well] in W. apply andb_true_iff in W. destruct W as [W K]. split; [exact W|]. cbn [p_ks].
  intros k I. unfold subs in I. rewrite in_flat_map in I. destruct I as [[g l] [I1 I2]]. rewrite in_flat_map in I2.
  destruct I2 as [[x|] [I2 I3]]; [|destruct I3]. destruct I3 as [<-|[]]. rewrite forallb_forall in K. specialize (K _ I1). cbn in K.
  rewrite forallb_forall in K. exact (K _ I2).
Qed.
Lemma supported_eq : forall n, supported c lcol n = true ->
  supported_here c lcol n = true /\ (forall k, In k (subs (p_ks n)) -> supported c lcol k = true).
Proof.
  intros [t lo hi sc ks] W. cbn [supported] in W. apply andb_true_iff in W. destruct W as [W K]. split; [exact W|]. cbn [p_ks].
  intros k I. unfold subs in I. rewrite in_flat_map in I. destruct I as [[g l] [I1 I2]]. rewrite in_flat_map in I2.
  destruct I2 as [[x|] [I2 I3]]; [|destruct I3]. destruct I3 as [<-|[]]. rewrite forallb_forall in K. specialize (K _ I1). cbn in K.
  rewrite forallb_forall in K. exact (K _ I2).
Qed.
Lemma subs_In : forall ks k, In k (@subs pn ks) -> exists g l, In (g, l) ks /\ In (Some k) l.
Proof.
  intros ks k I. unfold subs in I. rewrite in_flat_map in I. destruct I as [[g l] [I1 I2]]. rewrite in_flat_map in I2.
  destruct I2 as [[x|] [I2 I3]]; [|destruct I3]. destruct I3 as [<-|[]]. eauto.
Qed.
Lemma well_rng : forall n, well_here c n = true -> (p_lo n <= p_hi n)%nat /\ (p_hi n <= length c)%nat.
Proof. intros n W. unfold well_here in W. rewrite !andb_true_iff in W. destruct W as [[A B] _]. apply Nat.leb_le in A, B. auto. Qed.

Lemma not_prog : forall s k, stands_for s k = true -> mem "Program" s = false -> p_ty k <> N_PROG.
Proof.
  intros s [t lo hi sc ks] S M E. cbn in E. subst t. unfold stands_for in S. cbn [strip es_type] in S. rewrite M in S. discriminate.
Qed.
Lemma given_from : forall cl l k, given cl l = true -> In (Some k) l -> stands_for (c_from cl) k = true.
Proof.
  intros cl l k G I. unfold given in G. destruct (c_ar cl).
  - destruct l as [|[x|] [|]]; try discriminate G. destruct I as [E|[]]. injection E as <-. exact G.
  - destruct l as [|[x|] [|]]; try discriminate G; try destruct I as [E|[]]; try discriminate E; [destruct I|]. injection E as <-. exact G.
  - rewrite forallb_forall in G. exact (G _ I).
  - rewrite forallb_forall in G. exact (G _ I).
  - destruct l as [|[x|] [|]]; try discriminate G; try destruct I as [E|[]]; try discriminate E; [destruct I|]. injection E as <-. exact G.
Qed.
Lemma shaped_from : forall cs ks, shaped cs ks = true -> forall k, In k (subs ks) ->
  exists cl, In cl cs /\ stands_for (c_from cl) k = true.
Proof.
  induction cs as [|cl cs IH]; intros ks S k I; destruct ks as [|[g l] ks]; try discriminate S; [destruct I|].
  cbn in S. apply andb_true_iff in S. destruct S as [S S2]. apply andb_true_iff in S. destruct S as [_ G].
  unfold subs in I. cbn [flat_map] in I. apply in_app_iff in I. destruct I as [I|I].
  - exists cl. split; [left; reflexivity|]. rewrite in_flat_map in I. destruct I as [[x|] [I1 I2]]; [|destruct I2].
    destruct I2 as [<-|[]]. exact (given_from _ _ _ G I1).
  - destruct (IH ks S2 k I) as [cl' [A B]]. exists cl'. split; [right; exact A|exact B].
Qed.

Lemma conv_generic : forall n, generic n = true ->
  conv src lcol n (how_of n) = match pick (how_of n) (p_ty n) (p_sc n) (p_ks n) with
    | PNone => CNil | PPanic => CPanic
    | PRule r => apply_rule src lcol r (p_lo n) (p_hi n) (p_sc n) (p_ks n) (with_conv src lcol (p_ks n)) end.
Proof.
  intros [t lo hi sc ks] G. rewrite conv_eq. cbn [p_ty p_lo p_hi p_sc p_ks]. unfold conv_node.
  destruct t; try discriminate G; try (destruct (how_of _); reflexivity).
  unfold generic in G. cbn in G. apply negb_true_iff in G. unfold how_of. cbn [es_type]. rewrite G. reflexivity.
Qed.

Lemma decorators_first : forall d r ks lo hi, kids ks "Decorators" = Some d :: r -> lcol = true ->
  (lo <= hi)%nat -> (hi <= length c)%nat -> (p_lo d <= p_hi d)%nat -> (p_hi d <= length c)%nat -> (p_lo d <= hi)%nat ->
  loc_with_decorator src lcol lo hi (kids ks "Decorators") = Some (p_lo d, place c lcol (p_lo d) hi).
Proof.
  intros d r ks lo hi E L A B A1 B1 D. rewrite E. unfold loc_with_decorator. rewrite (loc_ok src lcol _ _ A B), (loc_ok src lcol _ _ A1 B1).
  unfold place. rewrite L. reflexivity.
Qed.

Lemma strip_generic : forall n, p_ty n <> N_EXPR_PAREN -> strip n = n.
Proof. intros [t lo hi sc ks] H. destruct t; try reflexivity. contradiction H. reflexivity. Qed.

Lemma want_generic : forall n cs, generic n = true -> columns (es_type n) = Some cs ->
  want c lcol n = (let lo := match kid (p_ks n) "Decorators" with Some d => p_lo d | None => p_lo n end in
    Ro (es_type n) lo (p_hi n) (place c lcol lo (p_hi n))
       (map (fun a => (fst a, value_of c n (fst (snd a)))) (attrs (es_type n))) (in_columns cs (with_want src lcol (p_ks n))))
  \/ p_ty n = N_EXPORT_SPEC.
Proof.
  intros [t lo hi sc ks] cs G C. cbn [p_ty p_ks p_lo p_hi]. destruct (nt_eqb t N_EXPORT_SPEC) eqn:X.
  - right. destruct t; try discriminate X. reflexivity.
  - left. cbn [want]. unfold want_here. cbv zeta. rewrite C. cbn [p_ty p_ks p_lo p_hi].
    destruct t; try discriminate G; try discriminate X; reflexivity.
Qed.
Lemma want_spec : forall lo hi sc ks cs, flag sc "NameSpace" = false -> columns "ExportSpecifier" = Some cs ->
  want c lcol (Pn N_EXPORT_SPEC lo hi sc ks)
  = Ro "ExportSpecifier" lo hi (place c lcol lo hi) [] (in_columns cs (with_want src lcol ks)).
Proof.
  intros lo hi sc ks cs F C. cbn [want]. unfold want_here. cbv zeta. cbn [p_ty p_sc p_lo p_hi es_type]. rewrite F, C. reflexivity.
Qed.

Lemma good_generic : forall n, well c n = true -> supported c lcol n = true -> generic n = true ->
  (forall k, In k (subs (p_ks n)) -> well c k = true -> supported c lcol k = true -> p_ty k <> N_PROG -> good k) -> good n.
Proof.
  intros n W U G IH. destruct (well_eq n W) as [W0 Wk]. destruct (supported_eq n U) as [U0 Uk].
  destruct (pick_ok src lcol n W0 U0 G Wk) as [r [s [P [T [R [D [V A]]]]]]].
  destruct (generic_well src n W0 G) as [L1 [L2 [cs [C [S [F [_ [_ De]]]]]]]].
  assert (R' := R). unfold row_ok in R'. rewrite T, C in R'. rewrite !andb_true_iff in R'.
  destruct R' as [[[[[[N1 N2] _] _] R3] R4] R5].
  destruct (row_fields src lcol r cs (p_ks n) R ltac:(rewrite T; exact C) S) as [fs [F1 [F2 [F3 F4]]]].
  { intros k I. destruct (shaped_from cs _ S k I) as [cl [I1 I2]]. rewrite forallb_forall in R5. specialize (R5 cl I1).
    apply negb_true_iff in R5. split; [apply IH; auto; exact (not_prog _ _ I2 R5)|apply (how_strip src); auto]. }
  apply Bool.eqb_prop in R4. rewrite D in R4.
  assert (Q : (if r_dec r then loc_with_decorator src lcol (p_lo n) (p_hi n) (kids (p_ks n) "Decorators")
         else match loc_of_rng src lcol (p_lo n) (p_hi n) with Some l => Some (p_lo n, l) | None => None end)
     = let lo := match kid (p_ks n) "Decorators" with Some d => p_lo d | None => p_lo n end in
       Some (lo, place c lcol lo (p_hi n))).
  { rewrite D. cbv zeta. unfold kid in *. destruct (decorated (p_ty n)) eqn:Dt.
    - symmetry in R4. apply mem_In in R4. rewrite in_map_iff in R4. destruct R4 as [cl [E1 E2]].
      destruct (shaped_In cs _ S N1 cl E2) as [Gv I]. rewrite E1 in *.
      assert (Sm : forall o r, kids (p_ks n) "Decorators" = o :: r -> exists d, o = Some d /\ In d (subs (p_ks n)) /\ lcol = true).
      { intros o l E. rewrite E in Gv, I. assert (Lc : lcol = true).
        { unfold supported_here in U0. rewrite E in U0. destruct (p_ty n); try discriminate Dt; rewrite orb_false_r in U0; exact U0. }
        assert (cl_many : c_ar cl = Many).
        { clear - Dt C E1 E2. destruct n as [t lo hi sc ks]. cbn [p_ty] in Dt. destruct t; try discriminate Dt; cbn in C; injection C as <-;
            cbn in E2; intuition (subst cl; try reflexivity; discriminate E1). }
        unfold given in Gv. rewrite cl_many in Gv. cbn in Gv. apply andb_true_iff in Gv. destruct o as [d|]; [|destruct Gv; discriminate].
        exists d. split; [reflexivity|]. split; [|exact Lc]. unfold subs. rewrite in_flat_map. eexists. split; [exact I|]. cbn. left. reflexivity. }
      destruct (kids (p_ks n) "Decorators") as [|o l] eqn:E.
      + unfold loc_with_decorator. rewrite (loc_ok src lcol _ _ L1 L2). reflexivity.
      + destruct (Sm o l eq_refl) as [d [-> [Id Lc]]]. destruct (well_rng d (proj1 (well_eq d (Wk d Id)))) as [A1 B1].
        pose proof (decorators_first d l (p_ks n) (p_lo n) (p_hi n) E Lc L1 L2 A1 B1 De) as Z. rewrite E in Z. exact Z.
    - symmetry in R4. rewrite (shaped_none cs _ _ S R4), (loc_ok src lcol _ _ L1 L2). reflexivity. }
  exists (En (es_type n) (match kid (p_ks n) "Decorators" with Some d => p_lo d | None => p_lo n end) (p_hi n)
            (place c lcol (match kid (p_ks n) "Decorators" with Some d => p_lo d | None => p_lo n end) (p_hi n)) s fs).
  repeat split.
  - rewrite (conv_generic n G), P. unfold apply_rule. rewrite Q, V, F1, T. reflexivity.
  - cbn [conf]. rewrite F2, andb_true_r. unfold conf_here. rewrite C, F3. apply negb_true_iff in R3. rewrite R3, andb_true_r. cbn [andb].
    apply forallb_forall. intros a I. rewrite orb_false_l. rewrite forallb_forall in F. specialize (F a I).
    assert (Z := ext_in_map A a I). cbv beta in Z. injection Z as Z. rewrite Z. exact F.
  - cbn [e_ty]. rewrite strip_generic by (intro X; unfold generic in G; rewrite X in G; discriminate G).
    unfold out_of_type. destruct (String.eqb (es_type n) ns_spec) eqn:X; [|reflexivity]. apply String.eqb_eq in X. rewrite X in C. discriminate C.
  - cbn [got]. rewrite A. rewrite T in F4. rewrite F4. destruct (want_generic n cs G C) as [Z|Z]; [rewrite Z; reflexivity|].
    assert (R4' := R4). rewrite Z in R4'. cbn in R4'. symmetry in R4'. unfold kid. rewrite (shaped_none cs _ _ S R4').
    destruct n as [t lo hi sc ks]. cbn [p_ty p_ks p_lo p_hi] in *. subst t.
    assert (G' : flag sc "NameSpace" = false) by (apply negb_true_iff; exact G). cbn [es_type] in C |- *. rewrite G' in C |- *.
    rewrite (want_spec _ _ _ _ cs G' C). reflexivity.
Qed.

(** ** Templates *)
Notation gmap l := (map (option_map got) l).

Lemma turn_ind : forall (P : list (option pn) -> Prop),
  (forall s, nt_eqb (p_ty s) N_LIT_STR = true -> P [Some s]) ->
  (forall s x r, nt_eqb (p_ty s) N_LIT_STR = true -> stands_for Expr x = true -> in_turn r = true -> P r -> P (Some s :: Some x :: r)) ->
  forall l, in_turn l = true -> P l.
Proof.
  intros P A B l. remember (length l) as m eqn:E. assert (L : (length l <= m)%nat) by lia. clear E. revert l L.
  induction m as [|m IH]; intros l L H.
  - destruct l; [discriminate H|cbn in L; lia].
  - destruct l as [|[s|] [|[x|] r]]; try discriminate H; [apply A; exact H|]. cbn [in_turn] in H.
    rewrite !andb_true_iff in H. destruct H as [[H1 H2] H3]. apply B; auto. apply IH; [cbn in L; lia|exact H3].
Qed.

Lemma quasi_conf : forall lo hi l t a b, conf (quasi lo hi l t a b) = true.
Proof. reflexivity. Qed.

Lemma tpl_ok : forall lo hi l, in_turn l = true -> no_bare_string true l = true ->
  (forall k, In (Some k) l -> well c k = true /\ (p_ty k <> N_PROG -> good k)) -> forall b,
  exists qs es, tpl_elems src lcol lo hi b (map (wrap src lcol) l) = Some (qs, es)
    /\ length qs = S (length es)
    /\ forallb (fun o => match o with Some e => is_one ["TemplateElement"] e | None => false end) qs = true
    /\ forallb (fun o => match o with Some e => is_one Expr e | None => false end) es = true
    /\ forallb (fun o => match o with Some e => conf e | None => true end) qs = true
    /\ forallb (fun o => match o with Some e => conf e | None => true end) es = true
    /\ gmap qs = texts c lcol (map (both src lcol) l) /\ gmap es = substs (map (both src lcol) l).
Proof.
  intros lo hi. apply (turn_ind (fun l => no_bare_string true l = true ->
  (forall k, In (Some k) l -> well c k = true /\ (p_ty k <> N_PROG -> good k)) -> forall b,
  exists qs es, tpl_elems src lcol lo hi b (map (wrap src lcol) l) = Some (qs, es)
    /\ length qs = S (length es)
    /\ forallb (fun o => match o with Some e => is_one ["TemplateElement"] e | None => false end) qs = true
    /\ forallb (fun o => match o with Some e => is_one Expr e | None => false end) es = true
    /\ forallb (fun o => match o with Some e => conf e | None => true end) qs = true
    /\ forallb (fun o => match o with Some e => conf e | None => true end) es = true
    /\ gmap qs = texts c lcol (map (both src lcol) l) /\ gmap es = substs (map (both src lcol) l))).
  - intros s T B K b. destruct (K s (or_introl eq_refl)) as [W _]. destruct (well_rng s (proj1 (well_eq s W))) as [L1 L2].
    cbn [map wrap tpl_elems]. rewrite T, (loc_ok src lcol _ _ L1 L2), (text_ok src _ _ L1 L2).
    eexists. eexists. split; [reflexivity|]. repeat split; reflexivity.
  - intros s x r T X Tr IH B K b. destruct (K s (or_introl eq_refl)) as [W _]. destruct (well_rng s (proj1 (well_eq s W))) as [L1 L2].
    destruct (K x (or_intror (or_introl eq_refl))) as [Wx Gx].
    destruct (Gx (not_prog _ _ X eq_refl)) as [e [E1 [E2 [E3 E4]]]].
    rewrite (how_strip src x Wx) in E1.
    assert (Hx : how_of_type (es_type (strip x)) = HConvert /\ out_of_type (es_type (strip x)) = es_type (strip x)).
    { unfold stands_for in X. apply mem_In in X. clear - X. unfold Expr in X.
      repeat (destruct X as [<-|X]; [split; reflexivity|]). destruct X. }
    destruct Hx as [Hx Ox]. rewrite Hx in E1. rewrite Ox in E3.
    cbn [no_bare_string negb orb andb] in B. apply andb_true_iff in B. destruct B as [Bx Br]. apply negb_true_iff in Bx.
    destruct (IH Br (fun k I => K k (or_intror (or_intror I))) false) as [qs [es [I1 [I2 [I3 [I4 [I5 [I6 [I7 I8]]]]]]]]].
    cbn [map wrap tpl_elems]. rewrite T, Bx, (loc_ok src lcol _ _ L1 L2), (text_ok src _ _ L1 L2), I1.
    assert (Rn : exists o r', r = o :: r') by (destruct r as [|o r']; [discriminate Tr|eauto]).
    destruct Rn as [o [r' ->]]. cbn [map orb call]. rewrite E1.
    eexists. eexists. split; [reflexivity|]. cbn [app].
    split; [cbn [length]; rewrite I2; reflexivity|].
    split; [cbn [forallb is_one]; rewrite I3; reflexivity|].
    split; [cbn [forallb]; unfold is_one at 1; rewrite E3; unfold stands_for in X; rewrite X; exact I4|].
    split; [cbn [forallb]; rewrite quasi_conf; exact I5|].
    split; [cbn [forallb]; rewrite E2; exact I6|].
    cbn [map option_map both texts substs]. cbn [map option_map both texts] in I7. rewrite I7, E4. split; [reflexivity|].
    f_equal. exact I8.
Qed.

Lemma how_expr : forall k, well c k = true -> stands_for Expr k = true -> how_of k = HConvert /\ out_of_type (es_type (strip k)) = es_type (strip k).
Proof.
  intros k W X. rewrite (how_strip src k W). unfold stands_for in X. apply mem_In in X. clear - X. unfold Expr in X.
  repeat (destruct X as [<-|X]; [split; reflexivity|]). destruct X.
Qed.

Theorem good_all : forall n, well c n = true -> supported c lcol n = true -> p_ty n <> N_PROG -> good n.
Proof.
  induction n as [t lo hi sc ks IH] using pn_ind'. intros W U NP.
  destruct (generic (Pn t lo hi sc ks)) eqn:G.
  { apply good_generic; auto. cbn [p_ks]. intros k I Wk Uk Nk. destruct (subs_In ks k I) as [g [l [I1 I2]]]. exact (IH g l k I1 I2 Wk Uk Nk). }
  destruct (well_eq _ W) as [W0 Wk]. destruct (supported_eq _ U) as [U0 Uk]. cbn [p_ks] in Wk, Uk.
  assert (Kg : forall k, In k (subs ks) -> p_ty k <> N_PROG -> good k).
  { intros k I N. destruct (subs_In ks k I) as [g [l [I1 I2]]]. exact (IH g l k I1 I2 (Wk k I) (Uk k I) N). }
  destruct (well_rng _ W0) as [L1 L2]. cbn [p_lo p_hi] in L1, L2.
  unfold well_here in W0. cbn [p_lo p_hi p_ty p_sc p_ks] in W0. rewrite !andb_true_iff in W0. destruct W0 as [_ W0].
  destruct t; cbn [generic p_ty p_sc] in G; try discriminate G; try (contradiction NP; reflexivity); try discriminate U0.
  - (* parentheses *)
    destruct ks as [|[g l] [|]]; try discriminate W0; cbn [shaped] in W0; rewrite ?andb_true_r, ?andb_false_r in W0; try discriminate W0.
    apply andb_true_iff in W0. destruct W0 as [Eg Gv]. apply String.eqb_eq in Eg. cbn [c_acc col] in Eg. subst g.
    unfold given in Gv. cbn [c_ar col] in Gv. destruct l as [|[k|] [|]]; try discriminate Gv. cbn [c_from col] in Gv.
    assert (I : In k (subs [("Expr", [Some k])])) by (left; reflexivity).
    destruct (Kg k I (not_prog _ _ Gv eq_refl)) as [e [E1 [E2 [E3 E4]]]].
    destruct (how_expr k (Wk k I) Gv) as [Hk _]. rewrite Hk in E1. exists e. split; [exact E1|]. split; [exact E2|].
    split; [exact E3|]. rewrite E4. reflexivity.
  - (* template *)
    destruct ks as [|[g l] [|[g' l'] [|]]]; try discriminate W0. rewrite !andb_true_iff in W0.
    destruct W0 as [[[[Eg Gv] Eg'] Tn] Lt]. apply String.eqb_eq in Eg, Eg'. subst g g'.
    unfold supported_here in U0. cbn [p_ty p_ks] in U0. change (kids [("Tag", l); ("Elems", l')] "Elems") with l' in U0.
    destruct (tpl_ok lo hi l' Tn U0) with (b := true) as [qs [es [Q1 [Q2 [Q3 [Q4 [Q5 [Q6 [Q7 Q8]]]]]]]]].
    { intros k I. assert (J : In k (subs [("Tag", l); ("Elems", l')])).
      { unfold subs. cbn [flat_map]. apply in_or_app. right. rewrite app_nil_r, in_flat_map. exists (Some k). split; [exact I|left; reflexivity]. }
      split; [exact (Wk k J)|exact (Kg k J)]. }
    pose (q := En "TemplateLiteral" lo hi (place c lcol lo hi) [] [("quasis", FMany qs); ("expressions", FMany es)]).
    assert (Lq : tpl_literal src lcol lo hi (map (wrap src lcol) l') = Some q).
    { unfold tpl_literal. rewrite Q1, (loc_ok src lcol lo hi L1 L2). reflexivity. }
    assert (Cq : conf q = true).
    { unfold q. cbn [conf]. unfold conf_here. cbn [forallb fld_all]. rewrite Q5, Q6. cbn -[is_one Nat.eqb]. rewrite Q2, Nat.eqb_refl.
      unfold filled. cbn -[is_one]. rewrite Q3, Q4. reflexivity. }
    assert (Gq : got q = Ro "TemplateLiteral" lo hi (place c lcol lo hi) []
        [("quasis", texts c lcol (map (both src lcol) l')); ("expressions", substs (map (both src lcol) l'))]).
    { rewrite <- Q7, <- Q8. reflexivity. }
    destruct l as [|[k|] [|]]; try discriminate Lt.
    + apply Nat.leb_le in Lt. cbn [p_hi] in Lt. change (stands_for Expr k = true) in Gv.
      assert (I : In k (subs [("Tag", [Some k]); ("Elems", l')])) by (left; reflexivity).
      destruct (Kg k I (not_prog _ _ Gv eq_refl)) as [e [E1 [E2 [E3 E4]]]].
      destruct (how_expr k (Wk k I) Gv) as [Hk Ok]. rewrite Hk in E1. rewrite Ok in E3.
      exists (En "TaggedTemplateExpression" (p_lo k) hi (place c lcol (p_lo k) hi) [] [("tag", FOne (Some e)); ("quasi", FOne (Some q))]).
      split.
      { rewrite conv_eq. change (how_of _) with HConvert. cbn [conv_node]. rewrite kids_conv, kid_conv.
        change (kids [("Tag", [Some k]); ("Elems", l')] "Elems") with l'. rewrite Lq. change (kid [("Tag", [Some k]); ("Elems", l')] "Tag") with (Some k).
        cbn [wrap call]. rewrite E1, (loc_ok src lcol _ _ Lt L2). reflexivity. }
      split.
      { cbn [conf]. unfold conf_here. cbn [forallb fld_all]. rewrite E2. change (conf q) with (conf q). rewrite Cq. cbn -[is_one]. unfold filled. cbn -[is_one].
        unfold stands_for in Gv. unfold is_one. rewrite E3. fold Expr. rewrite Gv. reflexivity. }
      split; [reflexivity|]. cbn [got map fld_map option_map]. fold (got q). rewrite E4, Gq. reflexivity.
    + exists q. split.
      { rewrite conv_eq. change (how_of _) with HConvert. cbn [conv_node]. rewrite kids_conv, kid_conv.
        change (kids [("Tag", [None]); ("Elems", l')] "Elems") with l'. rewrite Lq. reflexivity. }
      split; [exact Cq|]. split; [reflexivity|]. rewrite Gq. reflexivity.
  - (* export * as *)
    apply negb_false_iff in G. rewrite G in W0.
    destruct ks as [|[g l] [|]]; try discriminate W0; cbn [shaped] in W0; rewrite ?andb_true_r, ?andb_false_r in W0; try discriminate W0.
    apply andb_true_iff in W0. destruct W0 as [Eg Gv]. apply String.eqb_eq in Eg. cbn [c_acc col] in Eg. subst g.
    unfold given in Gv. cbn [c_ar col] in Gv. destruct l as [|[k|] [|]]; try discriminate Gv. cbn [c_from col] in Gv.
    assert (I : In k (subs [("Local", [Some k])])) by (left; reflexivity).
    destruct (Kg k I (not_prog _ _ Gv eq_refl)) as [e [E1 [E2 [E3 E4]]]].
    assert (Tk : es_type (strip k) = "Identifier") by (unfold stands_for in Gv; apply mem_In in Gv; destruct Gv as [<-|[]]; reflexivity).
    assert (Hk : how_of k = HConvert) by (rewrite (how_strip src k (Wk k I)), Tk; reflexivity).
    rewrite Hk in E1. rewrite Tk in E3. exists e.
    assert (Hn : how_of (Pn N_EXPORT_SPEC lo hi sc [("Local", [Some k])]) = HExpAll) by (unfold how_of; cbn [es_type]; rewrite G; reflexivity).
    rewrite Hn. split; [exact E1|]. split; [exact E2|].
    split; [rewrite E3; cbn [strip es_type]; rewrite G; reflexivity|].
    rewrite E4. cbn [want]. unfold want_here. cbn [p_ty p_sc]. rewrite G. reflexivity.
Qed.

(** The whole program. *)
Lemma program_ok : forall n, well_program c n = true -> supported c lcol n = true ->
  exists e, convert_prog src lcol n = COk e
    /\ (exists sc ks, e = En "Program" (p_lo n) (p_hi n) (place c lcol (p_lo n) (p_hi n)) sc ks
         /\ conf_here (String.eqb "sourceType") "Program" sc ks = true
         /\ forallb (fun kf => match kf with (_, f) => fld_all conf f end) ks = true)
    /\ got e = Ro "Program" (p_lo n) (p_hi n) (place c lcol (p_lo n) (p_hi n)) [("sourceType", SvT [])]
                  [("body", map (option_map (want c lcol)) (kids (p_ks n) "Body"))].
Proof.
  intros [t lo hi sc ks] W U. unfold well_program in W. cbn [p_ty p_lo p_hi p_ks] in *. rewrite !andb_true_iff in W.
  destruct W as [[[[T L1] L2] S] K]. apply Nat.leb_le in L1, L2.
  destruct (supported_eq _ U) as [_ Uk]. cbn [p_ks] in Uk.
  assert (Wk : forall k, In k (subs ks) -> well c k = true).
  { intros k I. destruct (subs_In ks k I) as [g [l [I1 I2]]]. rewrite forallb_forall in K. specialize (K _ I1). cbn in K.
    rewrite forallb_forall in K. exact (K _ I2). }
  destruct (columns "Program") as [cs|] eqn:C; [|discriminate S].
  destruct (fills_row src lcol cs ks S) with (rk := [("body", (KMany HConvert, "Body"))]) as [fs [F1 [F2 [F3 F4]]]].
  - cbn in C. injection C as <-. reflexivity.
  - intros k I. destruct (shaped_from cs _ S k I) as [cl [I1 I2]].
    assert (Np : mem "Program" (c_from cl) = false) by (cbn in C; injection C as <-; destruct I1 as [<-|[]]; reflexivity).
    split; [apply good_all; auto; exact (not_prog _ _ I2 Np)|apply (how_strip src); auto].
  - cbn in C. injection C as <-. vm_compute. reflexivity.
  - destruct (assoc_fst _ "body" fs) as [v V]; [rewrite F3; left; reflexivity|].
    destruct (F4 _ _ V) as [cl [E1 [E2 E3]]].
    exists (En "Program" lo hi (place c lcol lo hi) [("sourceType", SvT [])] fs). split; [|split].
    + unfold convert_prog, apply_rule. cbn [r_dec rl r_sc r_kids r_type]. rewrite (loc_ok src lcol _ _ L1 L2), F1. reflexivity.
    + eexists. eexists. split; [reflexivity|]. split; [|exact F2]. unfold conf_here. rewrite C. cbn in C. injection C as <-.
      cbn in E1. injection E1 as <-. cbn [forallb c_field col]. rewrite V. rewrite E2. reflexivity.
    + cbn [got]. f_equal. unfold children. rewrite C. cbn in C. injection C as <-. cbn in E1. injection E1 as <-.
      cbn [map c_field col]. rewrite (assoc_map _ _ (fld_map got)), V. cbn [option_map]. rewrite E3. reflexivity.
Qed.
End Tree.
