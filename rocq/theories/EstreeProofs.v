(** Proofs about the conversion to ESTree. *)
From Coq Require Import String SpecFloat.
From Verif Require Import Base TokenModel NodeModel SourceModel SourceSpec SourceProofs WalkModel EstreeModel EstreeSpec.
Local Open Scope string_scope.

Section PnInd.
Variable P : pn -> Prop.
Hypothesis step : forall t lo hi sc ks,
  (forall g l k, In (g, l) ks -> In (Some k) l -> P k) -> P (Pn t lo hi sc ks).
Fixpoint pn_ind' (n : pn) : P n.
Proof.
  destruct n as [t lo hi sc ks]. apply step.
  induction ks as [|[g0 l0] r IH]; intros g l k H Hk; [destruct H|].
  destruct H as [E|H]; [|exact (IH g l k H Hk)].
  assert (Hk0 : In (Some k) l0) by (injection E as -> ->; exact Hk). clear - Hk0 pn_ind'.
  induction l0 as [|[x|] l0 IHl]; [destruct Hk0| |].
  - destruct Hk0 as [E|Hk0]; [|exact (IHl Hk0)]. injection E as <-. exact (pn_ind' x).
  - destruct Hk0 as [E|Hk0]; [discriminate E|exact (IHl Hk0)].
Defined.
End PnInd.

Definition how_of_type (t : string) : how :=
  match assoc t [("SwitchCase", HCase); ("VariableDeclarator", HDec); ("ImportSpecifier", HImp);
                 ("ImportDefaultSpecifier", HImp); ("ImportNamespaceSpecifier", HImp); ("ExportSpecifier", HExp);
                 (ns_spec, HExpAll); ("JSXOpeningFragment", HOpen); ("JSXClosingFragment", HClose)] with
  | Some h => h | None => HConvert end.
Definition how_of (n : pn) : how := how_of_type (es_type n).
Definition out_of_type (t : string) : string := if String.eqb t ns_spec then "Identifier" else t.

Definition how_eqb (a b : how) : bool :=
  match a, b with
  | HConvert, HConvert | HCase, HCase | HDec, HDec | HImp, HImp | HExp, HExp | HExpAll, HExpAll | HOpen, HOpen | HClose, HClose => true
  | _, _ => false end.
Lemma how_eqb_eq : forall a b, how_eqb a b = true -> a = b.
Proof. intros [] []; cbn; congruence. Qed.

Definition sorts_ok (h : how) (c : column) : bool :=
  forallb (fun t => how_eqb (how_of_type t) h && mem (out_of_type t) (c_sort c)) (c_from c).
Definition mode_ok (m : kmode) (c : column) : bool :=
  match m, c_ar c with
  | KOne h, One => sorts_ok h c
  | KOne h, Opt => how_eqb h HConvert && sorts_ok h c
  | KMany h, Many => sorts_ok h c
  | KMany h, ManyOpt => how_eqb h HConvert && sorts_ok h c
  | KAll, Few => sorts_ok HExpAll c
  | _, _ => false
  end.
Definition find_col (f : string) (cs : list column) : option column := find (fun c => String.eqb (c_field c) f) cs.
Fixpoint nodupb (l : list string) : bool :=
  match l with [] => true | x :: r => negb (mem x r) && nodupb r end.
Definition row_ok (r : rule) : bool :=
  match columns (r_type r) with
  | None => false
  | Some cs =>
      nodupb (map c_acc cs) && nodupb (map c_field cs)
      && forallb (fun e => match e with (f, (m, g)) =>
                   match find_col f cs with Some c => String.eqb g (c_acc c) && mode_ok m c | None => false end end) (r_kids r)
      && forallb (fun c => mem (c_field c) (map fst (r_kids r))) cs
      && negb (String.eqb (r_type r) "TemplateLiteral")
      && Bool.eqb (r_dec r) (mem "Decorators" (map c_acc cs))
      && forallb (fun c => negb (mem "Program" (c_from c))) cs
  end.

Lemma mem_In : forall s l, mem s l = true <-> In s l.
Proof.
  intros s l. unfold mem. rewrite existsb_exists. split.
  - intros [x [H E]]. apply String.eqb_eq in E. subst. exact H.
  - intro H. exists s. split; [exact H|apply String.eqb_refl].
Qed.

Section Main.
Variable src : source.
Variable lcol : bool.
Notation c := (code src).

Definition wrap (o : option pn) : option (pn * (how -> cres)) := match o with Some x => Some (x, conv src lcol x) | None => None end.
Lemma conv_eq : forall t lo hi sc ks h, conv src lcol (Pn t lo hi sc ks) h = conv_node src lcol h t lo hi sc ks (with_conv src lcol ks).
Proof. reflexivity. Qed.

Lemma kids_conv : forall ks g, kids (with_conv src lcol ks) g = map wrap (kids ks g).
Proof.
  intros ks g. unfold kids. induction ks as [|[k l] r IH]; [reflexivity|].
  cbn. destruct (String.eqb g k); [reflexivity|exact IH].
Qed.
Lemma kid_conv : forall ks g, kid (with_conv src lcol ks) g = wrap (kid ks g).
Proof. intros. unfold kid. rewrite kids_conv. destruct (kids ks g); reflexivity. Qed.

Definition good (k : pn) : Prop :=
  exists e, conv src lcol k (how_of k) = COk e /\ conf e = true
    /\ e_ty e = out_of_type (es_type (strip k)) /\ got e = want c lcol k.
Definition kidly (k : pn) : Prop := good k /\ how_of k = how_of_type (es_type (strip k)).

Definition norm {A} (a : arity) (l : list (option A)) : list (option A) :=
  match a, l with (Opt | Few), [] => [None] | _, l => l end.
Definition fillL (m : kmode) (l : list (option (pn * (how -> cres)))) : option (fld en) :=
  match m with
  | KOne h => match call h (match l with o :: _ => o | [] => None end) with Some o => Some (FOne o) | None => None end
  | KMany h => match calls h l with Some l => Some (FMany l) | None => None end
  | KAll => match l with
            | [o] => match call HExpAll o with Some o => Some (FOne o) | None => None end
            | _ => Some (FOne None)
            end
  end.
Lemma fill_L : forall cks m g, fill cks m g = fillL m (kids cks g).
Proof. intros cks [h|h|] g; reflexivity. Qed.

Lemma sort_kid : forall h cl k, sorts_ok h cl = true -> stands_for (c_from cl) k = true -> kidly k ->
  exists e, call h (wrap (Some k)) = Some (Some e) /\ is_one (c_sort cl) e = true /\ conf e = true /\ got e = want c lcol k.
Proof.
  intros h cl k S T [[e [A [B [C D]]]] H]. unfold sorts_ok in S. rewrite forallb_forall in S.
  unfold stands_for in T. apply mem_In in T. specialize (S _ T). apply andb_true_iff in S. destruct S as [S1 S2].
  apply how_eqb_eq in S1. exists e. cbn. rewrite H, S1 in A. rewrite A. unfold is_one. rewrite C. auto.
Qed.

Lemma field_ok : forall m cl l, mode_ok m cl = true -> given cl l = true -> (forall k, In (Some k) l -> kidly k) ->
  exists f, fillL m (map wrap l) = Some f /\ filled cl (Some f) = true /\ fld_all conf f = true
    /\ fld_list (fld_map got f) = norm (c_ar cl) (map (option_map (want c lcol)) l).
Proof.
  intros m cl l M G K. unfold mode_ok, given, filled in *. destruct m as [h|h|]; destruct (c_ar cl) eqn:A; try discriminate.
  - destruct l as [|[k|] [|]]; try discriminate. destruct (sort_kid h cl k M G (K k (or_introl eq_refl))) as [e [E1 [E2 [E3 E4]]]].
    cbn [map fillL]. rewrite E1. eexists. split; [reflexivity|]. cbn. rewrite E4. auto.
  - apply andb_true_iff in M. destruct M as [M1 M]. apply how_eqb_eq in M1. subst h.
    destruct l as [|[k|] [|]]; try discriminate.
    + exists (FOne None). auto.
    + destruct (sort_kid _ cl k M G (K k (or_introl eq_refl))) as [e [E1 [E2 [E3 E4]]]].
      cbn [map fillL]. rewrite E1. eexists. split; [reflexivity|]. cbn. rewrite E4. auto.
    + exists (FOne None). auto.
  - cbn [fillL]. enough (Q : exists es, calls h (map wrap l) = Some es
        /\ forallb (fun o => match o with Some e => is_one (c_sort cl) e | None => false end) es = true
        /\ forallb (fun o => match o with Some e => conf e | None => true end) es = true
        /\ fld_list (fld_map got (FMany es)) = map (option_map (want c lcol)) l).
    { destruct Q as [es [Q1 [Q2 [Q3 Q4]]]]. rewrite Q1. eexists. split; [reflexivity|]. auto. }
    induction l as [|o l IH]; [exists []; auto|]. cbn in G. apply andb_true_iff in G. destruct G as [G1 G2].
    destruct o as [k|]; [|discriminate].
    destruct (sort_kid h cl k M G1 (K k (or_introl eq_refl))) as [e [E1 [E2 [E3 E4]]]].
    destruct IH as [es [Q1 [Q2 [Q3 Q4]]]]; [exact G2|intros; apply K; right; assumption|].
    cbn [map calls]. rewrite E1, Q1. exists (Some e :: es). cbn in *. rewrite E2, E3, Q2, Q3, E4, Q4. auto.
  - cbn [fillL]. apply andb_true_iff in M. destruct M as [M1 M]. apply how_eqb_eq in M1. subst h.
    enough (Q : exists es, calls HConvert (map wrap l) = Some es
        /\ forallb (fun o => match o with Some e => is_one (c_sort cl) e | None => true end) es = true
        /\ forallb (fun o => match o with Some e => conf e | None => true end) es = true
        /\ fld_list (fld_map got (FMany es)) = map (option_map (want c lcol)) l).
    { destruct Q as [es [Q1 [Q2 [Q3 Q4]]]]. rewrite Q1. eexists. split; [reflexivity|]. auto. }
    induction l as [|o l IH]; [exists []; auto|]. cbn in G. apply andb_true_iff in G. destruct G as [G1 G2].
    destruct IH as [es [Q1 [Q2 [Q3 Q4]]]]; [exact G2|intros; apply K; right; assumption|].
    destruct o as [k|].
    + destruct (sort_kid _ cl k M G1 (K k (or_introl eq_refl))) as [e [E1 [E2 [E3 E4]]]].
      cbn [map calls]. rewrite E1, Q1. exists (Some e :: es). cbn in *. rewrite E2, E3, Q2, Q3, E4, Q4. auto.
    + cbn [map calls]. cbn [wrap call]. rewrite Q1. exists (None :: es). cbn in *. rewrite Q4. auto.
  - destruct l as [|[k|] [|]]; try discriminate.
    + exists (FOne None). auto.
    + destruct (sort_kid _ cl k M G (K k (or_introl eq_refl))) as [e [E1 [E2 [E3 E4]]]].
      cbn [map fillL]. rewrite E1. eexists. split; [reflexivity|]. cbn. rewrite E4. auto.
Qed.

Lemma nodupb_cons : forall x l, nodupb (x :: l) = true -> ~ In x l /\ nodupb l = true.
Proof.
  intros x l H. cbn in H. apply andb_true_iff in H. destruct H as [H1 H2]. split; [|exact H2].
  intro I. apply mem_In in I. rewrite I in H1. discriminate.
Qed.
Lemma kids_skip : forall (g : string) (l : list (option pn)) ks x, x <> g -> kids ((g, l) :: ks) x = kids ks x.
Proof. intros g l ks x H. unfold kids. cbn. apply String.eqb_neq in H. rewrite H. reflexivity. Qed.

Lemma shaped_In : forall cs ks, shaped cs ks = true -> nodupb (map c_acc cs) = true -> forall cl, In cl cs ->
  given cl (kids ks (c_acc cl)) = true /\ In (c_acc cl, kids ks (c_acc cl)) ks.
Proof.
  induction cs as [|c1 cs IH]; intros ks S N cl H; [destruct H|]. destruct ks as [|[g l] ks]; [discriminate S|].
  cbn in S. apply andb_true_iff in S. destruct S as [S S2]. apply andb_true_iff in S. destruct S as [S0 S1].
  apply String.eqb_eq in S0. cbn [map] in N. apply nodupb_cons in N. destruct N as [N1 N2].
  destruct H as [<-|H].
  - assert (E : kids ((g, l) :: ks) (c_acc c1) = l) by (unfold kids; cbn; rewrite S0, String.eqb_refl; reflexivity).
    rewrite E. split; [exact S1|left; congruence].
  - assert (D : c_acc cl <> g) by (intro E; apply N1; rewrite <- S0, <- E; apply in_map; exact H).
    rewrite (kids_skip g l ks _ D). destruct (IH ks S2 N2 cl H) as [A B]. split; [exact A|right; exact B].
Qed.

Lemma find_col_In : forall f cs cl, find_col f cs = Some cl -> In cl cs /\ c_field cl = f.
Proof. intros f cs cl H. apply find_some in H. destruct H as [H E]. apply String.eqb_eq in E. auto. Qed.
Lemma find_col_self : forall cs cl, nodupb (map c_field cs) = true -> In cl cs -> find_col (c_field cl) cs = Some cl.
Proof.
  induction cs as [|c1 cs IH]; intros cl N H; [destruct H|]. cbn [map] in N. apply nodupb_cons in N. destruct N as [N1 N2].
  unfold find_col. cbn [find]. destruct H as [<-|H].
  - rewrite String.eqb_refl. reflexivity.
  - destruct (String.eqb (c_field c1) (c_field cl)) eqn:E; [|apply IH; assumption].
    apply String.eqb_eq in E. exfalso. apply N1. rewrite E. apply in_map. exact H.
Qed.

Lemma fills_row : forall cs ks, shaped cs ks = true -> nodupb (map c_acc cs) = true ->
  (forall k, In k (subs ks) -> kidly k) -> forall rk,
  forallb (fun e => match e with (f, (m, g)) =>
     match find_col f cs with Some cl => String.eqb g (c_acc cl) && mode_ok m cl | None => false end end) rk = true ->
  exists fs, fills (with_conv src lcol ks) rk = Some fs
    /\ forallb (fun kf => match kf with (_, f) => fld_all conf f end) fs = true
    /\ map fst fs = map fst rk
    /\ (forall f v, assoc f fs = Some v -> exists cl, find_col f cs = Some cl /\ filled cl (Some v) = true
          /\ fld_list (fld_map got v) = norm (c_ar cl) (map (option_map (want c lcol)) (kids ks (c_acc cl)))).
Proof.
  intros cs ks S N K. induction rk as [|[f [m g]] rk IH]; intro H.
  - exists []. repeat split; try reflexivity. discriminate.
  - cbn [forallb] in H. apply andb_true_iff in H. destruct H as [H1 H2].
    destruct (find_col f cs) as [cl|] eqn:F; [|discriminate]. apply andb_true_iff in H1. destruct H1 as [G M].
    apply String.eqb_eq in G. subst g. destruct (find_col_In _ _ _ F) as [I _].
    destruct (shaped_In cs ks S N cl I) as [Gv In1].
    destruct (field_ok m cl _ M Gv) as [v [V1 [V2 [V3 V4]]]].
    { intros k Hk. apply K. unfold subs. rewrite in_flat_map. exists (c_acc cl, kids ks (c_acc cl)). split; [exact In1|].
      rewrite in_flat_map. exists (Some k). split; [exact Hk|left; reflexivity]. }
    destruct (IH H2) as [fs [A [B [C D]]]]. exists ((f, v) :: fs).
    cbn [fills]. rewrite fill_L, kids_conv, V1, A. repeat split.
    + cbn. rewrite V3. exact B.
    + cbn. f_equal. exact C.
    + intros f' v' E. cbn in E. destruct (String.eqb f' f) eqn:Ef.
      * apply String.eqb_eq in Ef. subst f'. injection E as <-. exists cl. auto.
      * apply D. exact E.
Qed.

Lemma assoc_fst : forall A f (fs : list (string * A)), In f (map fst fs) -> exists v, assoc f fs = Some v.
Proof.
  induction fs as [|[k v] fs IH]; intro H; [destruct H|]. cbn. destruct (String.eqb f k) eqn:E; [eauto|].
  destruct H as [<-|H]; [rewrite String.eqb_refl in E; discriminate|apply IH; exact H].
Qed.
Lemma assoc_map : forall A B (g : A -> B) f (fs : list (string * A)),
  assoc f (map (fun kf => match kf with (k, x) => (k, g x) end) fs) = option_map g (assoc f fs).
Proof. induction fs as [|[k v] fs IH]; [reflexivity|]. cbn. destruct (String.eqb f k); [reflexivity|exact IH]. Qed.

Definition both (o : option pn) : option (pn * rose) := match o with Some x => Some (x, want c lcol x) | None => None end.
Definition with_want (ks : list (string * list (option pn))) : list (string * list (option (pn * rose))) :=
  map (fun kl => match kl with (k, l) => (k, map both l) end) ks.
Lemma kids_want : forall ks g, kids (with_want ks) g = map both (kids ks g).
Proof.
  intros ks g. unfold kids. induction ks as [|[k l] r IH]; [reflexivity|].
  cbn. destruct (String.eqb g k); [reflexivity|exact IH].
Qed.
Lemma snd_both : forall l, map (option_map snd) (map both l) = map (option_map (want c lcol)) l.
Proof. intro l. rewrite map_map. apply map_ext. intros [x|]; reflexivity. Qed.

(** The fields of a row. *)
Lemma row_fields : forall r cs ks, row_ok r = true -> columns (r_type r) = Some cs -> shaped cs ks = true ->
  (forall k, In k (subs ks) -> kidly k) ->
  exists fs, fills (with_conv src lcol ks) (r_kids r) = Some fs
    /\ forallb (fun kf => match kf with (_, f) => fld_all conf f end) fs = true
    /\ forallb (fun cl => filled cl (assoc (c_field cl) fs)) cs = true
    /\ children (r_type r) (map (fun kf => match kf with (k, f) => (k, fld_map got f) end) fs) = in_columns cs (with_want ks).
Proof.
  intros r cs ks R C S K. unfold row_ok in R. rewrite C in R. rewrite !andb_true_iff in R.
  destruct R as [[[[[[N1 N2] R1] R2] R3] _] _]. destruct (fills_row cs ks S N1 K _ R1) as [fs [A [B [D E]]]].
  assert (Z : forall cl, In cl cs -> exists v, assoc (c_field cl) fs = Some v /\ filled cl (Some v) = true
            /\ fld_list (fld_map got v) = norm (c_ar cl) (map (option_map (want c lcol)) (kids ks (c_acc cl)))).
  { intros cl H. rewrite forallb_forall in R2. specialize (R2 cl H). apply mem_In in R2. rewrite <- D in R2.
    destruct (assoc_fst _ _ _ R2) as [v V]. exists v. destruct (E _ _ V) as [cl' [F [G1 G2]]].
    rewrite (find_col_self cs cl N2 H) in F. injection F as <-. auto. }
  exists fs. split; [exact A|]. split; [exact B|]. split.
  - apply forallb_forall. intros cl H. destruct (Z cl H) as [v [V1 [V2 _]]]. rewrite V1. exact V2.
  - unfold children, in_columns. rewrite C. apply map_ext_in. intros cl H.
    destruct (Z cl H) as [v [V1 [_ V3]]]. rewrite (assoc_map _ _ (fld_map got)), V1. cbn [option_map]. f_equal.
    rewrite V3, kids_want, snd_both. unfold norm. destruct (c_ar cl), (map (option_map (want c lcol)) (kids ks (c_acc cl))); reflexivity.
Qed.

Lemma loc_ok : forall lo hi, (lo <= hi)%nat -> (hi <= length c)%nat -> loc_of_rng src lcol lo hi = Some (place c lcol lo hi).
Proof.
  intros lo hi A B. unfold loc_of_rng, place. destruct lcol; [|reflexivity]. rewrite (line_col_spec src lo hi A B). reflexivity.
Qed.
Lemma text_ok : forall lo hi, (lo <= hi)%nat -> (hi <= length c)%nat -> text src lo hi = Some (src_text c lo hi).
Proof.
  intros lo hi A B. unfold text, src_text. apply Nat.leb_le in A, B. rewrite A, B. reflexivity.
Qed.

Lemma strip_expr : forall n, well c n = true -> strip n = n \/ mem (es_type (strip n)) Expr = true.
Proof.
  intros [t lo hi sc ks] W. destruct t; try (left; reflexivity). right. cbn [well] in W. apply andb_true_iff in W. destruct W as [W _].
  unfold well_here in W. cbn [p_ty p_ks] in W. rewrite !andb_true_iff in W. destruct W as [_ W].
  destruct ks as [|[g l] [|]]; try discriminate W; cbn in W; rewrite ?andb_true_r, ?andb_false_r in W; try discriminate W.
  apply andb_true_iff in W. destruct W as [_ W]. destruct l as [|[k|] [|]]; try discriminate W. exact W.
Qed.
Lemma strip_self : forall n t, well c n = true -> es_type (strip n) = t -> mem t Expr = false -> strip n = n.
Proof. intros n t W E M. destruct (strip_expr n W) as [S|S]; [exact S|]. rewrite E, M in S. discriminate. Qed.

Lemma how_strip : forall n, well c n = true -> how_of n = how_of_type (es_type (strip n)).
Proof.
  intros n W. destruct (strip_expr n W) as [S|S]; [rewrite S; reflexivity|].
  assert (Q : forall t, mem t Expr = true -> how_of_type t = HConvert).
  { intros t H. apply mem_In in H. unfold Expr in H. repeat (destruct H as [<-|H]; [reflexivity|]). destruct H. }
  rewrite (Q _ S). destruct n as [t lo hi sc ks]. destruct t; try (cbn [strip] in S; apply (Q _ S)). reflexivity.
Qed.

Definition generic (n : pn) : bool :=
  match p_ty n with
  | N_EXPR_PAREN | N_EXPR_TPL | N_JSX_NS | N_PROG => false
  | N_EXPORT_SPEC => negb (flag (p_sc n) "NameSpace")
  | _ => true
  end.

Lemma generic_well : forall n, well_here c n = true -> generic n = true ->
  (p_lo n <= p_hi n)%nat /\ (p_hi n <= length c)%nat /\
  exists cs, columns (es_type n) = Some cs /\ shaped cs (p_ks n) = true
    /\ forallb (fun a => fits (snd (snd a)) (value_of c n (fst (snd a)))) (attrs (es_type n)) = true
    /\ (p_ty n = N_METHOD -> is_ty (kid (p_ks n) "Val") N_EXPR_FN = true)
    /\ (p_ty n <> N_EXPORT_SPEC -> flag (p_sc n) "Dir" = true -> is_ty (kid (p_ks n) "Expr") N_LIT_STR = true)
    /\ match kid (p_ks n) "Decorators" with Some d => (p_lo d <= p_hi n)%nat | None => True end.
Proof.
  intros n W G. unfold well_here in W. rewrite !andb_true_iff in W. destruct W as [[W1 W2] W].
  apply Nat.leb_le in W1, W2. split; [exact W1|]. split; [exact W2|].
  destruct (nt_eqb (p_ty n) N_EXPORT_SPEC) eqn:X.
  - assert (T : p_ty n = N_EXPORT_SPEC) by (destruct (p_ty n); try discriminate X; reflexivity).
    unfold generic in G. rewrite T in G, W. apply negb_true_iff in G. rewrite G in W.
    assert (Et : es_type n = "ExportSpecifier") by (destruct n; cbn in *; subst t; rewrite G; reflexivity).
    rewrite Et in *. destruct (columns "ExportSpecifier") as [cs|] eqn:C; [|discriminate W]. exists cs.
    split; [reflexivity|]. split; [exact W|]. split; [reflexivity|]. split; [intro Q; rewrite T in Q; discriminate Q|].
    split; [intro Q; contradiction Q; exact T|]. clear - C W. cbn in C. injection C as <-. unfold kid, kids.
    destruct (p_ks n) as [|[g l] [|[g' l'] [|]]]; cbn in W; rewrite ?andb_true_r, ?andb_false_r in W; try discriminate W.
    rewrite !andb_true_iff in W. destruct W as [[E1 _] [E2 _]]. apply String.eqb_eq in E1, E2. subst. exact I.
  - assert (Q : match columns (es_type n) with
      | Some cs => shaped cs (p_ks n)
          && forallb (fun a => fits (snd (snd a)) (value_of c n (fst (snd a)))) (attrs (es_type n))
          && (if nt_eqb (p_ty n) N_METHOD then match kid (p_ks n) "Val" with Some k => nt_eqb (p_ty k) N_EXPR_FN | None => false end else true)
          && (if flag (p_sc n) "Dir" then match kid (p_ks n) "Expr" with Some k => nt_eqb (p_ty k) N_LIT_STR | None => false end else true)
          && match kid (p_ks n) "Decorators" with Some d => Nat.leb (p_lo d) (p_hi n) | None => true end
      | None => false
      end = true).
    { unfold generic in G. destruct (p_ty n); try discriminate G; try discriminate X; exact W. }
    clear W. destruct (columns (es_type n)) as [cs|]; [|discriminate Q]. exists cs. rewrite !andb_true_iff in Q.
    destruct Q as [[[[Q1 Q2] Q3] Q4] Q5]. split; [reflexivity|]. split; [exact Q1|]. split; [exact Q2|].
    split; [intro E; rewrite E in Q3; exact Q3|]. split; [intros _ E; rewrite E in Q4; exact Q4|].
    destruct (kid (p_ks n) "Decorators"); [apply Nat.leb_le; exact Q5|exact I].
Qed.

Lemma shaped_kid : forall cs ks cl k, shaped cs ks = true -> nodupb (map c_acc cs) = true -> In cl cs ->
  match c_ar cl with One | Opt => True | _ => False end ->
  kid ks (c_acc cl) = Some k -> stands_for (c_from cl) k = true /\ In k (subs ks).
Proof.
  intros cs ks cl k S N I A E. destruct (shaped_In cs ks S N cl I) as [G J]. unfold kid in E. unfold given in G.
  destruct (kids ks (c_acc cl)) as [|o r] eqn:K; [discriminate E|]. subst o.
  assert (stands_for (c_from cl) k = true /\ r = []) as [G1 ->].
  { destruct (c_ar cl); try contradiction; destruct r; try discriminate G; auto. }
  split; [exact G1|]. unfold subs. rewrite in_flat_map. eexists. split; [exact J|]. cbn. left. reflexivity.
Qed.
Lemma shaped_one : forall cs ks cl, shaped cs ks = true -> nodupb (map c_acc cs) = true -> In cl cs -> c_ar cl = One ->
  exists k, kid ks (c_acc cl) = Some k.
Proof.
  intros cs ks cl S N I A. destruct (shaped_In cs ks S N cl I) as [G J]. unfold given in G. rewrite A in G. unfold kid.
  destruct (kids ks (c_acc cl)) as [|[k|] r]; try discriminate G. eauto.
Qed.
Lemma shaped_none : forall cs ks g, shaped cs ks = true -> mem g (map c_acc cs) = false -> kids ks g = [].
Proof.
  induction cs as [|c1 cs IH]; intros ks g S M; destruct ks as [|[g' l] ks]; try discriminate S; [reflexivity|].
  cbn in S. apply andb_true_iff in S. destruct S as [S S2]. apply andb_true_iff in S. destruct S as [S0 _].
  apply String.eqb_eq in S0. subst g'. cbn in M. apply orb_false_iff in M. destruct M as [M1 M2].
  unfold kids. cbn. rewrite M1. apply (IH ks g S2 M2).
Qed.

Definition decorated (t : nt) : bool := match t with N_STMT_CLASS | N_METHOD | N_FIELD => true | _ => false end.
Definition picks (n : pn) : Prop :=
  exists r s, pick (how_of n) (p_ty n) (p_sc n) (p_ks n) = PRule r
    /\ r_type r = es_type n /\ row_ok r = true /\ r_dec r = decorated (p_ty n)
    /\ evals src (p_lo n) (p_hi n) (p_sc n) (p_ks n) (r_sc r) = Some s
    /\ map (fun a => (fst a, sget s (fst a))) (attrs (es_type n))
       = map (fun a => (fst a, value_of c n (fst (snd a)))) (attrs (es_type n)).

Ltac fin := eexists; eexists; (split; [reflexivity|]); (split; [reflexivity|]); (split; [vm_compute; reflexivity|]);
  (split; [reflexivity|]); (split; [reflexivity|]); try reflexivity.
Ltac finop O := eexists; eexists; (split; [reflexivity|]); (split; [reflexivity|]); (split; [vm_compute; reflexivity|]);
  (split; [reflexivity|]); (split; [cbn; rewrite O; reflexivity|]); cbn; rewrite ?O; reflexivity.
Lemma logical_name : forall o, match o with T_AND | T_OR | T_NULLISH => "LogicalExpression" | _ => "BinaryExpression" end
  = if existsb (tv_eqb o) [T_AND; T_OR; T_NULLISH] then "LogicalExpression" else "BinaryExpression".
Proof. intros []; reflexivity. Qed.
Lemma await_name : forall o, match o with T_AWAIT => "AwaitExpression" | _ => "UnaryExpression" end
  = if existsb (tv_eqb o) [T_AWAIT] then "AwaitExpression" else "UnaryExpression".
Proof. intros []; reflexivity. Qed.
Lemma opening_type : forall n t, es_type n = t -> t = "JSXOpeningElement" \/ t = "JSXOpeningFragment" -> p_ty n = N_JSX_OPEN.
Proof.
  intros [t lo hi sc ks] x E X. cbn [p_ty]. destruct t; try reflexivity; exfalso; cbn [es_type] in E.
  all: repeat match type of E with
       | (if ?b then _ else _) = _ => destruct b
       | match ?b with _ => _ end = _ => destruct b
       end; subst x; destruct X as [X|X]; discriminate X.
Qed.
Lemma pick_ok : forall n, well_here c n = true -> supported_here c lcol n = true -> generic n = true ->
  (forall k, In k (subs (p_ks n)) -> well c k = true) -> picks n.
Proof.
  intros n W U G K. destruct (generic_well n W G) as [L1 [L2 [cs [C [S [F [Mt [Dr _]]]]]]]].
  destruct n as [t lo hi sc ks]. unfold picks, how_of. cbn [p_ty p_lo p_hi p_sc p_ks] in *.
  pose proof (text_ok lo hi L1 L2) as TX.
  destruct t; try discriminate G; try discriminate C; try discriminate U.
  all: try (eexists; eexists; split; [reflexivity|]; split; [reflexivity|]; split; [vm_compute; reflexivity|]; split; [reflexivity|];
            split; [reflexivity|]; reflexivity).
  all: unfold pick; cbn [es_type p_ty how_of_type] in *.
  all: unfold pick_convert, op_in.
  - (* expression statement *)
    unfold supported_here in U. cbn [p_ty p_sc p_ks] in U. specialize (Dr ltac:(discriminate)).
    destruct (flag sc "Dir") eqn:D.
    + specialize (Dr eq_refl). destruct (kid ks "Expr") as [k|] eqn:E; [|discriminate U]. cbn in Dr.
      destruct (sget (p_sc k) "Val") as [b| | | | |] eqn:V; try discriminate U. apply bytes_eqb_spec in U.
      eexists. eexists. split; [reflexivity|]. split; [reflexivity|]. split; [vm_compute; reflexivity|]. split; [reflexivity|].
      split; [cbn; rewrite E, Dr, V; reflexivity|]. cbn. unfold sget. cbn [assoc]. cbn. rewrite D, E, U. reflexivity.
    + eexists. eexists. split; [reflexivity|]. split; [reflexivity|]. split; [vm_compute; reflexivity|]. split; [reflexivity|].
      split; [reflexivity|]. cbn. rewrite D. reflexivity.
  - destruct (flag sc "In") eqn:D; fin.
  - destruct (flag sc "All") eqn:D; [fin|]. destruct (flag sc "Default") eqn:D1; fin.
  - unfold supported_here in U. cbn [p_ty p_sc] in U.
    assert (V : match sget sc "NodeToFloat" with SvF (S754_infinity _) => SvF (S754_zero false) | v => v end = sget sc "NodeToFloat").
    { destruct (sget sc "NodeToFloat") as [| | |[]| |]; try reflexivity; discriminate U. }
    destruct (flag sc "NodeIsBigint") eqn:D; eexists; eexists; (split; [reflexivity|]); (split; [reflexivity|]);
      (split; [vm_compute; reflexivity|]); (split; [reflexivity|]); (split; [cbn; rewrite TX, V; reflexivity|]);
      cbn; rewrite D; reflexivity.
  - eexists; eexists; (split; [reflexivity|]); (split; [reflexivity|]); (split; [vm_compute; reflexivity|]); (split; [reflexivity|]);
      (split; [cbn; rewrite TX; reflexivity|]); reflexivity.
  - (* binary *)
    destruct (sget sc "Op") as [| |o| | |] eqn:O; try (cbn in F; rewrite O in F; discriminate F).
    pose proof (logical_name o) as LN. rewrite LN in *. destruct (existsb (tv_eqb o) [T_AND; T_OR; T_NULLISH]); finop O.
  - destruct (sget sc "Op") as [| |o| | |] eqn:O; try (cbn in F; rewrite O in F; discriminate F).
    pose proof (await_name o) as LN. rewrite LN in *. destruct (existsb (tv_eqb o) [T_AWAIT]); finop O.
  - destruct (sget sc "Op") as [| |o| | |] eqn:O; try (cbn in F; rewrite O in F; discriminate F). finop O.
  - destruct (sget sc "Op") as [| |o| | |] eqn:O; try (cbn in F; rewrite O in F; discriminate F). finop O.
  - (* JSX element *)
    destruct (kid ks "Open") as [o|] eqn:E; [|discriminate C].
    assert (P : p_ty o = N_JSX_OPEN).
    { unfold has_kid in C, S. destruct (kid (p_ks o) "Name"); cbn in C; injection C as <-.
      - destruct (shaped_kid _ _ (col "openingElement" "Open" One ["JSXOpeningElement"]) o S eq_refl (or_introl eq_refl) I E) as [T J].
        specialize (K o J). unfold stands_for in T. apply mem_In in T. destruct T as [T|[]]. symmetry in T.
        rewrite (strip_self o _ K T eq_refl) in T. destruct o as [t ? ? ? ?]. apply (opening_type _ _ T).
        left. reflexivity.
      - destruct (shaped_kid _ _ (col "openingFragment" "Open" One ["JSXOpeningFragment"]) o S eq_refl (or_introl eq_refl) I E) as [T J].
        specialize (K o J). unfold stands_for in T. apply mem_In in T. destruct T as [T|[]]. symmetry in T.
        rewrite (strip_self o _ K T eq_refl) in T. destruct o as [t ? ? ? ?]. apply (opening_type _ _ T).
        right. reflexivity. }
    rewrite P. unfold has_kid. destruct (kid (p_ks o) "Name"); fin.
  - destruct (flag sc "IsPrivate") eqn:D; fin.
  - (* method *)
    specialize (Mt eq_refl). rewrite Mt. fin.
  - destruct (flag sc "Default") eqn:D; [fin|]. destruct (flag sc "NameSpace") eqn:D1; fin.
  - unfold generic in G. cbn [p_ty p_sc] in G. apply negb_true_iff in G. rewrite G. fin.
  - destruct (has_kid ks "Name"); fin.
  - destruct (has_kid ks "Name"); fin.
  - eexists; eexists; (split; [reflexivity|]); (split; [reflexivity|]); (split; [vm_compute; reflexivity|]); (split; [reflexivity|]);
      (split; [cbn; rewrite TX; reflexivity|]); reflexivity.
Qed.
End Main.
