From Verif Require Import Base Utf8Model Utf8Proofs SourceModel SourceSpec SourceProofs JsonModel JsonSpec.
From Coq Require Import ZifyBool ZifyNat ZifyN.
Local Open Scope Z_scope.

Ltac zeq :=
  repeat match goal with
  | |- context [?a =? ?b] => first
      [ replace (a =? b) with true by (symmetry; apply Z.eqb_eq; first [assumption | lia])
      | replace (a =? b) with false by (symmetry; apply Z.eqb_neq; first [assumption | lia]) ]
  end.
Ltac zcase :=
  repeat match goal with
  | |- context [?a =? ?b] => destruct (Z.eqb_spec a b)
  end.

(** * One step *)
Lemma s_str : forall pr r l, r <> RuneError -> (r <> 34 \/ pr = 92) ->
  strip JStr pr (r :: l) = emit [r] (strip JStr r l).
Proof.
  intros pr r l Hr H. cbn [strip]. zeq. destruct (Z.eqb_spec r 34) as [->|].
  - destruct H as [H| ->]; [congruence|]. reflexivity.
  - zcase; reflexivity.
Qed.
Lemma s_str_end : forall pr l, pr <> 92 -> strip JStr pr (34 :: l) = emit [34] (strip JNorm 34 l).
Proof. intros pr l H. cbn [strip]. change (34 =? RuneError) with false. zeq. reflexivity. Qed.
Lemma s_line : forall pr r l, r <> RuneError -> r <> 10 -> r <> 13 ->
  strip JLine pr (r :: l) = emit [32] (strip JLine r l).
Proof. intros. cbn [strip]. zeq. zcase; reflexivity. Qed.
Lemma s_line_lf : forall pr l, strip JLine pr (10 :: l) = emit [10] (strip JNorm pr l).
Proof. reflexivity. Qed.
Lemma s_line_crlf : forall pr l, strip JLine pr (13 :: 10 :: l) = emit [10] (strip JNorm pr l).
Proof. reflexivity. Qed.
Lemma s_line_cr : forall pr l, ~ starts 10 l -> strip JLine pr (13 :: l) = emit [10] (strip JNorm pr l).
Proof.
  intros pr l H. destruct l as [|p l]; [reflexivity|]. cbn [strip]. cbn.
  destruct (Z.eqb_spec p 10) as [->|]; [|reflexivity]. exfalso. apply H. exists l. reflexivity.
Qed.
Lemma s_block : forall pr r l, r <> RuneError -> ~ (r = 42 /\ starts 47 l) ->
  strip JBlock pr (r :: l) = emit (fall_out JBlock r) (strip JBlock r l).
Proof.
  intros pr r l Hr H. cbn [strip]. zeq. zcase; try reflexivity.
  destruct l as [|p l]; [reflexivity|]. destruct (Z.eqb_spec p 47) as [->|]; [|reflexivity].
  exfalso. apply H. split; [assumption|exists l; reflexivity].
Qed.
Lemma s_block_end : forall pr l, strip JBlock pr (42 :: 47 :: l) = emit [32; 32] (strip JNorm pr l).
Proof. reflexivity. Qed.
Lemma s_text : forall pr r l, r <> RuneError -> r <> 34 -> r <> 44 -> (r = 47 -> ~ starts 47 l /\ ~ starts 42 l) ->
  strip JNorm pr (r :: l) = emit [r] (strip JNorm r l).
Proof.
  intros pr r l Hr H1 H2 H3. cbn [strip]. zeq. zcase; try reflexivity.
  destruct l as [|p l]; [reflexivity|]. destruct (H3 e) as [Ha Hb].
  destruct (Z.eqb_spec p 47) as [->|]; [exfalso; apply Ha; exists l; reflexivity|].
  destruct (Z.eqb_spec p 42) as [->|]; [exfalso; apply Hb; exists l; reflexivity|]. reflexivity.
Qed.
Lemma s_comma : forall pr l, strip JNorm pr (44 :: l)
  = if (peek_no_white l =? 125) || (peek_no_white l =? 93) then emit [32] (strip JNorm pr l) else emit [44] (strip JNorm 44 l).
Proof. reflexivity. Qed.
Lemma s_open : forall pr l, strip JNorm pr (34 :: l) = emit [34] (strip JStr 34 l).
Proof. reflexivity. Qed.
Lemma s_lopen : forall pr l, strip JNorm pr (47 :: 47 :: l) = emit [32; 32] (strip JLine pr l).
Proof. reflexivity. Qed.
Lemma s_bopen : forall pr l, strip JNorm pr (47 :: 42 :: l) = emit [32; 32] (strip JBlock pr l).
Proof. reflexivity. Qed.

Lemma emit_emit : forall a b k, emit a (emit b k) = emit (a ++ b) k.
Proof. intros a b [x|]; cbn; [rewrite app_assoc|]; reflexivity. Qed.

(** Outside strings the remembered rune does not matter. *)
Lemma pr_irrel : forall n l st pr pr', (length l <= n)%nat -> st <> JStr -> strip st pr l = strip st pr' l.
Proof.
  induction n as [|n IH]; intros [|r l] st pr pr' Hn Hs; try reflexivity; [cbn in Hn; lia|].
  cbn in Hn. cbn [strip].
  assert (I1 : forall st, st <> JStr -> strip st pr l = strip st pr' l) by (intros; apply IH; [lia|assumption]).
  assert (I2 : forall st p l2, l = p :: l2 -> st <> JStr -> strip st pr l2 = strip st pr' l2).
  { intros st0 p l2 -> H0. cbn in Hn. apply IH; [lia|assumption]. }
  destruct (r =? RuneError); [reflexivity|].
  destruct (r =? 34); [destruct st; congruence|].
  destruct (r =? 47).
  { destruct st, l as [|p l2]; try reflexivity. rewrite (I2 JLine p l2), (I2 JBlock p l2) by (reflexivity || discriminate). reflexivity. }
  destruct (r =? 13).
  { destruct st; try reflexivity. destruct l as [|p l2]; [reflexivity|].
    rewrite (I2 JNorm p l2) by (reflexivity || discriminate). rewrite (I1 JNorm) by discriminate. reflexivity. }
  destruct (r =? 10).
  { destruct st; try reflexivity. rewrite (I1 JNorm) by discriminate. reflexivity. }
  destruct (r =? 42).
  { destruct st, l as [|p l2]; try reflexivity. rewrite (I2 JNorm p l2) by (reflexivity || discriminate). reflexivity. }
  destruct (r =? 44); [|reflexivity].
  destruct st; try reflexivity. rewrite (I1 JNorm) by discriminate. reflexivity.
Qed.
Lemma norm_pr : forall l pr pr', strip JNorm pr l = strip JNorm pr' l.
Proof. intros. apply (pr_irrel (length l)); [lia|discriminate]. Qed.

(** * Errors *)
Lemma emit_none : forall o k, emit o k = None <-> k = None.
Proof. intros o [x|]; cbn; split; congruence. Qed.

Lemma strip_none : forall n l st pr, (length l <= n)%nat -> (strip st pr l = None <-> In RuneError l).
Proof.
  induction n as [|n IH]; intros [|r l] st pr Hn; try (cbn; split; [discriminate|tauto]); [cbn in Hn; lia|].
  cbn in Hn. cbn [strip In].
  assert (I1 : forall st pr o, emit o (strip st pr l) = None <-> In RuneError l) by (intros; rewrite emit_none; apply IH; lia).
  destruct (Z.eqb_spec r RuneError) as [E|E]; [split; [left; assumption|reflexivity]|].
  assert (G : forall k : option (list rune), (k = None <-> In RuneError l) -> (k = None <-> r = RuneError \/ In RuneError l))
    by (intros k H; rewrite H; intuition).
  apply G.
  destruct (r =? 34); [destruct st; try destruct (negb _); apply I1|].
  destruct (r =? 47).
  { destruct st, l as [|p l2]; try apply I1.
    assert (I2 : forall st pr o, p <> RuneError -> (emit o (strip st pr l2) = None <-> In RuneError (p :: l2))).
    { intros. rewrite emit_none, IH by (cbn in Hn; lia). cbn. intuition. }
    destruct (Z.eqb_spec p 47) as [->|]; [apply I2; discriminate|].
    destruct (Z.eqb_spec p 42) as [->|]; [apply I2; discriminate|]. apply I1. }
  destruct (r =? 13).
  { destruct st; try apply I1. destruct l as [|p l2]; try apply I1.
    destruct (Z.eqb_spec p 10) as [->|]; [|apply I1]. rewrite emit_none, IH by (cbn in Hn; lia). cbn. intuition discriminate. }
  destruct (r =? 10); [destruct st; apply I1|].
  destruct (r =? 42).
  { destruct st, l as [|p l2]; try apply I1.
    destruct (Z.eqb_spec p 47) as [->|]; [|apply I1]. rewrite emit_none, IH by (cbn in Hn; lia). cbn. intuition discriminate. }
  destruct (r =? 44); [|apply I1].
  destruct st; try apply I1. destruct (_ || _); apply I1.
Qed.

(** * Segments *)
Lemma str_items : forall it pr rest, Forall item_ok it -> ~ In RuneError (flat_map item_src it) ->
  strip JStr pr (flat_map item_src it ++ rest)
  = emit (flat_map item_src it) (strip JStr (last (flat_map item_src it) pr) rest).
Proof.
  induction it as [|i it IH]; intros pr rest HF HE.
  - cbn. destruct (strip JStr pr rest); reflexivity.
  - inversion HF as [|? ? Hi HF']; subst. destruct i as [c|c]; cbn [flat_map item_src] in HE |- *.
    + cbn [app] in HE |- *. destruct Hi as [H1 H2]. rewrite s_str; [|intros ->; apply HE; left; reflexivity|left; assumption].
      rewrite IH; [|assumption|intros HI; apply HE; right; assumption]. rewrite emit_emit. cbn [app].
      do 2 f_equal. destruct (flat_map item_src it) as [|a m]; [reflexivity|].
      cbn [last]. clear. revert a. induction m as [|b m IHm]; intros a; [reflexivity|]. apply IHm.
    + cbn [app] in HE |- *. rewrite s_str; [|discriminate|left; discriminate].
      rewrite s_str; [|intros ->; apply HE; right; left; reflexivity|right; reflexivity].
      rewrite IH; [|assumption|intros HI; apply HE; right; right; assumption]. rewrite !emit_emit. cbn [app].
      do 2 f_equal. destruct (flat_map item_src it) as [|a m]; [reflexivity|].
      cbn [last]. clear. revert a. induction m as [|b m IHm]; intros a; [reflexivity|]. apply IHm.
Qed.

Lemma exists_last_or : forall A (l : list A), l = [] \/ exists m x, l = m ++ [x].
Proof.
  intros A l. destruct l as [|a l]; [left; reflexivity|]. right.
  destruct (@exists_last A (a :: l)) as [m [x E]]; [discriminate|]. exists m, x. exact E.
Qed.

Lemma items_last : forall it pr, Forall item_ok it -> pr <> 92 -> (forall pre, it <> pre ++ [IEsc 92]) ->
  last (flat_map item_src it) pr <> 92.
Proof.
  intros it pr HF Hp HL. destruct (exists_last_or _ it) as [->|[l [x ->]]]; [assumption|].
  rewrite flat_map_app. cbn [flat_map]. rewrite app_nil_r.
  assert (Hx : Forall item_ok [x]) by (apply Forall_app in HF; apply HF).
  inversion Hx as [|? ? Hi _]; subst.
  assert (G : forall (l : list rune) c, last (l ++ [c]) pr = c) by (intros; apply last_last).
  destruct x as [c|c]; cbn [item_src].
  - rewrite G. apply Hi.
  - change [92; c] with ([92] ++ [c]). rewrite app_assoc, G. intros ->. apply (HL l). reflexivity.
Qed.

Lemma line_body : forall b pr rest, ~ In RuneError b -> ~ In 10 b -> ~ In 13 b ->
  exists pr', strip JLine pr (b ++ rest) = emit (map (fun _ => 32) b) (strip JLine pr' rest).
Proof.
  induction b as [|c b IH]; intros pr rest H1 H2 H3.
  - exists pr. cbn. destruct (strip JLine pr rest); reflexivity.
  - cbn [app map]. rewrite s_line by (intros ->; cbn in *; tauto).
    destruct (IH c rest) as [pr' E]; [cbn in *; tauto..|]. exists pr'. rewrite E, emit_emit. reflexivity.
Qed.

Lemma fall_block : forall c, fall_out JBlock c = if (c =? 10) || (c =? 13) then [10; 32] else [32].
Proof. intros c. cbn. rewrite orb_comm. reflexivity. Qed.

Lemma block_body : forall b pr rest, ~ In RuneError b -> no_pair 42 47 b ->
  (starts 42 rest \/ rest = []) ->
  exists pr', strip JBlock pr (b ++ rest) = emit (blank_block b) (strip JBlock pr' rest).
Proof.
  induction b as [|c b IH]; intros pr rest H1 H2 H3.
  - exists pr. cbn. destruct (strip JBlock pr rest); reflexivity.
  - cbn [app]. rewrite s_block; [|intros ->; cbn in *; tauto|].
    + destruct (IH c rest) as [pr' E]; [cbn in *; tauto| |assumption|].
      * intros x y Hxy. apply (H2 (c :: x) y). rewrite Hxy. reflexivity.
      * exists pr'. rewrite E, emit_emit. unfold blank_block. cbn [flat_map]. rewrite fall_block. reflexivity.
    + intros [-> [r Hr]]. destruct b as [|d b].
      * cbn in Hr. destruct H3 as [[r' H3]|H3]; congruence.
      * cbn in Hr. injection Hr as -> _. apply (H2 [] b). reflexivity.
Qed.

Lemma existsb_white : forall c, existsb (Z.eqb c) white_space = is_space c.
Proof. intros c. symmetry. apply is_space_eq. Qed.

Lemma first_visible_peek : forall l, peek_no_white l = match first_visible l with Some v => v | None => RuneError end.
Proof.
  unfold first_visible. induction l as [|c l IH]; [reflexivity|]. cbn [peek_no_white filter].
  rewrite existsb_white. destruct (is_space c); cbn; [exact IH|reflexivity].
Qed.

Lemma emit_some : forall a b k, k = Some b -> emit a k = Some (a ++ b).
Proof. intros a b k ->. reflexivity. Qed.

Lemma strip_doc : forall d pr, doc_ok d -> no_escaped_end d -> ~ In RuneError (doc_src d) ->
  strip JNorm pr (doc_src d) = Some (doc_out d).
Proof.
  induction d as [|g d IH]; intros pr Hok Hne HE; [reflexivity|].
  cbn [doc_ok] in Hok. destruct Hok as [Hg Hok].
  assert (Hne' : no_escaped_end d) by (intros it HI; apply Hne; right; assumption).
  change (doc_src (g :: d)) with (seg_src g ++ doc_src d) in *.
  rewrite in_app_iff in HE.
  assert (HE' : ~ In RuneError (doc_src d)) by tauto. assert (HEg : ~ In RuneError (seg_src g)) by tauto. clear HE.
  pose proof (fun pr => IH pr Hok Hne' HE') as IHd. clear IH.
  cbn [doc_out]. destruct g as [c|it|b t|b|it e|b]; cbn [seg_src] in *.
  - destruct Hg as [Hc Hs]. cbn [app]. destruct (Z.eqb_spec c 44) as [->|Hn].
    + rewrite s_comma, !IHd, first_visible_peek. cbn [andb].
      destruct (first_visible (doc_src d)) as [v|]; [|reflexivity]. destruct ((v =? 125) || (v =? 93)); reflexivity.
    + rewrite s_text; [rewrite IHd; reflexivity| | | |]; try assumption. intros ->. apply HEg. left. reflexivity.
  - cbn [app]. rewrite s_open, <- app_assoc. rewrite str_items; [|assumption|].
    2:{ intros HI. apply HEg. right. apply in_app_iff. left. assumption. }
    cbn [app]. rewrite s_str_end, IHd, !emit_emit; [reflexivity|].
    apply items_last; [assumption|discriminate|]. apply Hne. left. reflexivity.
  - cbn [app]. destruct Hg as [H1 [H2 [H3 H4]]]. rewrite s_lopen, <- app_assoc.
    destruct (line_body b pr (term_src t ++ doc_src d)) as [pr' E]; try assumption.
    { intros HI. apply HEg. do 2 right. apply in_app_iff. left. assumption. }
    rewrite E, emit_emit. destruct t; cbn [term_src app].
    + rewrite s_line_lf, IHd, emit_emit. cbn. rewrite <- !app_assoc. reflexivity.
    + rewrite s_line_crlf, IHd, emit_emit. cbn. rewrite <- !app_assoc. reflexivity.
    + rewrite s_line_cr, IHd, emit_emit; [|apply H4; reflexivity]. cbn. rewrite <- !app_assoc. reflexivity.
    + rewrite (H3 eq_refl). cbn. rewrite !app_nil_r. reflexivity.
  - cbn [app]. rewrite s_bopen, <- app_assoc. cbn [app].
    destruct (block_body b pr (42 :: 47 :: doc_src d)) as [pr' E]; try assumption.
    { intros HI. apply HEg. do 2 right. apply in_app_iff. left. assumption. }
    { left. eexists. reflexivity. }
    rewrite E. cbn [app]. rewrite s_block_end, IHd, !emit_emit. cbn. rewrite <- !app_assoc. reflexivity.
  - destruct Hg as [HF ->]. cbn [doc_src flat_map doc_out]. rewrite !app_nil_r. rewrite s_open.
    rewrite str_items; [|assumption|].
    2:{ intros HI. apply HEg. right. apply in_app_iff. left. assumption. }
    rewrite emit_emit. destruct e; cbn; rewrite ?app_nil_r; reflexivity.
  - destruct Hg as [HF ->]. cbn [doc_src flat_map doc_out]. rewrite !app_nil_r. cbn [app]. rewrite s_bopen.
    destruct (block_body b pr []) as [pr' E]; try assumption.
    { intros HI. apply HEg. do 2 right. assumption. }
    { right. reflexivity. }
    rewrite app_nil_r in E. rewrite E, emit_emit. cbn. rewrite ?app_nil_r. reflexivity.
Qed.

(** * Every input is a document *)
Lemma no_pair_nil : forall a b, no_pair a b [].
Proof. intros a b x y H. destruct x; discriminate. Qed.

Lemma no_pair_cons : forall a b c l, no_pair a b (c :: l) <-> (c = a -> ~ starts b l) /\ no_pair a b l.
Proof.
  intros a b c l. split.
  - intros H. split.
    + intros -> [r ->]. apply (H [] r). reflexivity.
    + intros x y E. apply (H (c :: x) y). rewrite E. reflexivity.
  - intros [H1 H2] [|d x] y E; cbn in E; injection E as -> E.
    + apply H1; [reflexivity|]. exists y. exact E.
    + apply (H2 x y). exact E.
Qed.

Lemma starts_dec : forall c l, {starts c l} + {~ starts c l}.
Proof.
  intros c [|x l]; [right; intros [r H]; discriminate|].
  destruct (Z.eq_dec x c) as [->|H]; [left; exists l; reflexivity|right; intros [r E]; congruence].
Qed.

Lemma scan_block : forall l, no_pair 42 47 l \/ exists b rest, l = b ++ 42 :: 47 :: rest /\ no_pair 42 47 b.
Proof.
  induction l as [|c l IH]; [left; apply no_pair_nil|].
  destruct (Z.eq_dec c 42) as [->|Hc].
  - destruct (starts_dec 47 l) as [[r ->]|Hs].
    + right. exists [], r. split; [reflexivity|apply no_pair_nil].
    + destruct IH as [H|[b [rest [-> H]]]].
      * left. apply no_pair_cons. auto.
      * right. exists (42 :: b), rest. split; [reflexivity|]. apply no_pair_cons. split; [|assumption].
        intros _ [r ->]. apply Hs. eexists. reflexivity.
  - destruct IH as [H|[b [rest [-> H]]]].
    + left. apply no_pair_cons. split; [congruence|assumption].
    + right. exists (c :: b), rest. split; [reflexivity|]. apply no_pair_cons. split; [congruence|assumption].
Qed.

Lemma scan_line : forall l, exists b t rest, l = b ++ term_src t ++ rest /\ ~ In 10 b /\ ~ In 13 b
  /\ (t = TEnd -> rest = []) /\ (t = TCR -> ~ starts 10 rest).
Proof.
  induction l as [|c l IH].
  - exists [], TEnd, []. repeat split; try tauto; discriminate.
  - destruct (Z.eq_dec c 10) as [->|H10]; [exists [], TLF, l; repeat split; try tauto; discriminate|].
    destruct (Z.eq_dec c 13) as [->|H13].
    + destruct (starts_dec 10 l) as [[r ->]|Hs].
      * exists [], TCRLF, r. repeat split; try tauto; discriminate.
      * exists [], TCR, l. repeat split; try tauto; discriminate.
    + destruct IH as [b [t [rest [-> [H1 [H2 [H3 H4]]]]]]]. exists (c :: b), t, rest.
      repeat split; try assumption; cbn; intuition congruence.
Qed.

Lemma scan_str : forall n l, (length l <= n)%nat ->
  (exists it rest, Forall item_ok it /\ l = flat_map item_src it ++ 34 :: rest)
  \/ (exists it (e : bool), Forall item_ok it /\ l = flat_map item_src it ++ (if e then [92] else [])).
Proof.
  induction n as [|n IH]; intros [|c l] Hn; try (cbn in Hn; lia);
    try (right; exists [], false; split; [constructor|reflexivity]).
  cbn in Hn. destruct (Z.eq_dec c 34) as [->|H34]; [left; exists [], l; split; [constructor|reflexivity]|].
  destruct (Z.eq_dec c 92) as [->|H92].
  - destruct l as [|d l]; [right; exists [], true; split; [constructor|reflexivity]|].
    destruct (IH l) as [[it [rest [HF ->]]]|[it [e [HF ->]]]]; [cbn in Hn; lia|left|right].
    + exists (IEsc d :: it), rest. split; [constructor; [exact I|assumption]|reflexivity].
    + exists (IEsc d :: it), e. split; [constructor; [exact I|assumption]|reflexivity].
  - destruct (IH l) as [[it [rest [HF ->]]]|[it [e [HF ->]]]]; [lia|left|right].
    + exists (IPlain c :: it), rest. split; [constructor; [split; assumption|assumption]|reflexivity].
    + exists (IPlain c :: it), e. split; [constructor; [split; assumption|assumption]|reflexivity].
Qed.

Lemma doc_exists : forall n l, (length l <= n)%nat -> exists d, doc_ok d /\ doc_src d = l.
Proof.
  induction n as [|n IH]; intros [|c l] Hn; try (cbn in Hn; lia); try (exists []; split; [exact I|reflexivity]).
  cbn in Hn.
  assert (IHs : forall p rest, l = p ++ rest -> exists d, doc_ok d /\ doc_src d = rest).
  { intros p rest E. apply IH. apply (f_equal (@length Z)) in E. rewrite app_length in E. lia. }
  destruct (Z.eq_dec c 34) as [->|H34].
  { destruct (scan_str (length l) l) as [[it [rest [HF E]]]|[it [e [HF E]]]]; [lia| |].
    - destruct (IHs (flat_map item_src it ++ [34]) rest) as [d [H1 H2]]; [rewrite <- app_assoc; exact E|].
      exists (GStr it :: d). split; [split; assumption|]. cbn. rewrite <- app_assoc. cbn. unfold doc_src in H2. rewrite H2, E. reflexivity.
    - exists [GStrOpen it e]. split; [cbn; auto|]. cbn. rewrite app_nil_r, E. reflexivity. }
  destruct (Z.eq_dec c 47) as [->|H47].
  { destruct (starts_dec 47 l) as [[l2 E]|Hs1].
    { destruct (scan_line l2) as [b [t [rest [E2 [H1 [H2 [H3 H4]]]]]]].
      destruct (IHs (47 :: b ++ term_src t) rest) as [d [D1 D2]].
      { rewrite E, E2. cbn. rewrite <- app_assoc. reflexivity. }
      destruct t eqn:Et; try (
        exists (GLine b t :: d); split; [cbn; rewrite Et, D2; repeat split; try assumption; intros; try discriminate; auto|];
        rewrite E, E2; cbn; unfold doc_src in D2; rewrite D2, Et, <- app_assoc; reflexivity).
      exists [GLine b TEnd]. rewrite (H3 eq_refl) in *. split; [cbn; repeat split; try assumption; try discriminate|].
      rewrite E, E2. cbn. rewrite !app_nil_r. reflexivity. }
    destruct (starts_dec 42 l) as [[l2 E]|Hs2].
    { destruct (scan_block l2) as [H|[b [rest [E2 H]]]].
      - exists [GBlockOpen l2]. split; [cbn; auto|]. cbn. rewrite app_nil_r, E. reflexivity.
      - destruct (IHs (42 :: b ++ [42; 47]) rest) as [d [D1 D2]].
        { rewrite E, E2. cbn. rewrite <- app_assoc. reflexivity. }
        exists (GBlock b :: d). split; [split; assumption|]. cbn. unfold doc_src in D2. rewrite D2, <- app_assoc, E, E2. reflexivity. }
    destruct (IHs [] l eq_refl) as [d [D1 D2]]. exists (GText 47 :: d). cbn. rewrite D2. unfold doc_src in D2. rewrite D2.
    repeat split; auto; discriminate. }
  destruct (IHs [] l eq_refl) as [d [D1 D2]]. exists (GText c :: d). cbn. rewrite D2. unfold doc_src in D2. rewrite D2.
  repeat split; auto; congruence.
Qed.

(** * Lines and columns *)
Fixpoint cn (f : bool) (l : list Z) : list Z :=
  match l with
  | [] => []
  | x :: r => if x =? 13 then 10 :: cn true r
              else if (x =? 10) && f then cn false r else x :: cn false r
  end.

Lemma cn_norm : forall n l, (length l <= n)%nat -> crlf_norm l = cn false l.
Proof.
  induction n as [|n IH]; intros [|x l] Hn; try reflexivity; [cbn in Hn; lia|]. cbn in Hn.
  cbn [crlf_norm cn]. destruct (x =? 13).
  - f_equal. destruct l as [|y l]; [reflexivity|]. cbn in Hn. cbn [cn]. destruct (Z.eqb_spec y 13) as [->|Hy].
    + change (13 =? 10) with false. cbv iota. rewrite IH by (cbn; lia). reflexivity.
    + destruct (y =? 10) eqn:E; cbn [andb]; [apply IH; lia|]. rewrite IH by (cbn; lia). cbn [cn].
      rewrite E. destruct (Z.eqb_spec y 13); [contradiction|]. reflexivity.
  - rewrite andb_false_r. f_equal. apply IH. lia.
Qed.

Lemma cn_switch : forall l, ~ starts 10 l -> cn true l = cn false l.
Proof.
  intros [|x l] H; [reflexivity|]. cbn [cn]. destruct (x =? 13); [reflexivity|].
  destruct (Z.eqb_spec x 10) as [->|]; [|reflexivity]. exfalso. apply H. exists l. reflexivity.
Qed.

Definition kept (x y : Z) : Prop := y = x \/ (y = 32 /\ x <> 10).

Lemma kept_same : forall f r l o, Forall2 kept (cn (r =? 13) l) (cn (r =? 13) o) ->
  Forall2 kept (cn f (r :: l)) (cn f (r :: o)).
Proof.
  intros f r l o H. cbn [cn]. destruct (r =? 13); [constructor; [left; reflexivity|assumption]|].
  destruct ((r =? 10) && f); [assumption|]. constructor; [left; reflexivity|assumption].
Qed.

Lemma kept_blank : forall f r l o, r <> 13 -> r <> 10 -> Forall2 kept (cn false l) (cn false o) ->
  Forall2 kept (cn f (r :: l)) (cn f (32 :: o)).
Proof.
  intros f r l o H1 H2 H. cbn [cn]. zeq. cbn. constructor; [right; split; [reflexivity|assumption]|assumption].
Qed.

Lemma emit_inv : forall o k x, emit o k = Some x -> exists y, k = Some y /\ x = o ++ y.
Proof. intros o [k|] x H; cbn in H; [|discriminate]. injection H as <-. exists k. auto. Qed.

Ltac ihs := try assumption; try discriminate; try (cbn in *; lia); auto;
  try (match goal with H : no_pair _ _ (_ :: _) |- no_pair _ _ _ => apply no_pair_cons in H; apply H end).

Lemma strip_kept : forall n l st pr f o, (length l <= n)%nat -> st <> JBlock -> no_pair 47 42 l ->
  (st = JLine -> f = false) -> strip st pr l = Some o -> Forall2 kept (cn f l) (cn f o).
Proof.
  induction n as [|n IH]; intros [|r l] st pr f o Hn Hb Hp Hf H; try (cbn in H; injection H as <-; constructor); [cbn in Hn; lia|].
  cbn in Hn. apply no_pair_cons in Hp. destruct Hp as [Hp1 Hp].
  assert (F : forall st', st' <> JBlock -> (st' = JLine -> r <> 10 /\ r <> 13) ->
    emit (fall_out st' r) (strip st' r l) = Some o -> Forall2 kept (cn f (r :: l)) (cn f o)).
  { intros st' H1 H2 H3. apply emit_inv in H3. destruct H3 as [y [Hy ->]]. destruct st'; try congruence; cbn [fall_out app].
    - apply kept_same. apply (IH l JNorm r); ihs.
    - apply kept_same. apply (IH l JStr r); ihs.
    - destruct (H2 eq_refl). apply kept_blank; try assumption. apply (IH l JLine r); ihs. }
  cbn [strip] in H. destruct (r =? RuneError) eqn:?; [discriminate|].
  destruct (Z.eqb_spec r 34) as [->|H34].
  { destruct st; try congruence; try (apply (F JStr); [discriminate|discriminate|exact H]).
    - destruct (negb (pr =? 92)); [apply (F JNorm)|apply (F JStr)]; try discriminate; exact H.
    - apply (F JLine); try discriminate; [split; discriminate|exact H]. }
  destruct (Z.eqb_spec r 47) as [->|H47].
  { destruct st; try congruence.
    - destruct l as [|p l2]; [apply (F JNorm); [discriminate|discriminate|exact H]|].
      destruct (Z.eqb_spec p 47) as [->|Hp47].
      { apply emit_inv in H. destruct H as [y [Hy ->]]. cbn [app].
        apply kept_blank; [discriminate|discriminate|]. apply kept_blank; [discriminate|discriminate|].
        apply (IH l2 JLine pr); ihs. }
      destruct (Z.eqb_spec p 42) as [->|Hp42]; [exfalso; apply Hp1; [reflexivity|eexists; reflexivity]|].
      apply (F JNorm); [discriminate|discriminate|exact H].
    - apply (F JStr); [discriminate|discriminate|exact H].
    - apply (F JLine); [discriminate|split; discriminate|exact H]. }
  destruct (Z.eqb_spec r 13) as [->|H13].
  { destruct st; try congruence; try (apply (F JNorm); [discriminate|discriminate|exact H]);
      try (apply (F JStr); [discriminate|discriminate|exact H]).
    rewrite (Hf eq_refl).
    assert (E : (exists l2, l = 10 :: l2 /\ emit [10] (strip JNorm pr l2) = Some o)
              \/ (~ starts 10 l /\ emit [10] (strip JNorm pr l) = Some o)).
    { destruct l as [|p l2]; [right; split; [intros [? ?]; discriminate|exact H]|].
      destruct (Z.eqb_spec p 10) as [->|Hp10]; [left; exists l2; auto|right; split; [intros [? ?]; congruence|exact H]]. }
    clear H. destruct E as [[l2 [-> H]]|[Hs H]]; apply emit_inv in H; destruct H as [y [Hy ->]].
    - cbn. constructor; [left; reflexivity|]. apply (IH l2 JNorm pr); ihs.
    - cbn. constructor; [left; reflexivity|]. rewrite cn_switch by assumption.
      apply (IH l JNorm pr); ihs. }
  destruct (Z.eqb_spec r 10) as [->|H10].
  { destruct st; try congruence; try (apply (F JNorm); [discriminate|discriminate|exact H]);
      try (apply (F JStr); [discriminate|discriminate|exact H]).
    apply emit_inv in H. destruct H as [y [Hy ->]]. cbn [app]. apply kept_same.
    apply (IH l JNorm pr); ihs. }
  destruct (Z.eqb_spec r 42) as [->|H42].
  { destruct st; try congruence; apply F in H; auto; split; discriminate. }
  destruct (Z.eqb_spec r 44) as [->|H44].
  { destruct st; try congruence; try (apply F in H; auto; split; discriminate).
    destruct (_ || _); [|apply F in H; auto; discriminate].
    apply emit_inv in H. destruct H as [y [Hy ->]]. cbn [app]. apply kept_blank; try discriminate.
    apply (IH l JNorm pr); ihs. }
  apply F in H; auto.
Qed.

(** Number of CR and LF characters. *)
Definition plain (l : list Z) : nat := length (filter (fun c => (c =? 10) || (c =? 13)) l).

Lemma plain_norm : forall l, no_pair 13 10 l -> line_breaks l = plain l.
Proof.
  intros l. unfold line_breaks. rewrite (cn_norm (length l)) by lia. 
  assert (G : forall l f, no_pair 13 10 l -> (f = true -> ~ starts 10 l) -> count_occ Z.eq_dec (cn f l) 10 = plain l).
  { clear l. induction l as [|x l IH]; intros f Hp Hf; [reflexivity|]. apply no_pair_cons in Hp. destruct Hp as [H1 Hp].
    unfold plain in *. cbn [cn filter]. destruct (Z.eqb_spec x 13) as [->|Hx].
    - cbn. f_equal. apply IH; [assumption|]. intros _. apply H1. reflexivity.
    - destruct (Z.eqb_spec x 10) as [->|Hx2].
      + destruct f; [exfalso; apply Hf; [reflexivity|exists l; reflexivity]|]. cbn. f_equal. apply IH; [assumption|discriminate].
      + cbn. destruct (Z.eq_dec x 10); [contradiction|]. apply IH; [assumption|discriminate]. }
  intros H. apply G; [assumption|discriminate].
Qed.

Lemma plain_app : forall a b, plain (a ++ b) = (plain a + plain b)%nat.
Proof. intros. unfold plain. rewrite filter_app, app_length. reflexivity. Qed.

Lemma strip_lines : forall n l st pr o, (length l <= n)%nat -> no_pair 13 10 l -> strip st pr l = Some o ->
  no_pair 13 10 o /\ plain o = plain l /\ (st = JNorm \/ st = JStr -> starts 10 o -> starts 10 l).
Proof.
  induction n as [|n IH]; intros [|r l] st pr o Hn Hp H;
    try (cbn in H; injection H as <-; split; [apply no_pair_nil|split; [reflexivity|tauto]]); [cbn in Hn; lia|].
  cbn in Hn. apply no_pair_cons in Hp. destruct Hp as [Hp1 Hp].
  assert (PC : forall x y, plain (x :: y) = (plain [x] + plain y)%nat) by (intros; change (x :: y) with ([x] ++ y); apply plain_app).
  assert (F : forall st', (st = JNorm \/ st = JStr -> st' = JNorm \/ st' = JStr) -> (st' = JLine -> r <> 10 /\ r <> 13) ->
    emit (fall_out st' r) (strip st' r l) = Some o ->
    no_pair 13 10 o /\ plain o = plain (r :: l) /\ (st = JNorm \/ st = JStr -> starts 10 o -> starts 10 (r :: l))).
  { intros st' H0 H1 H3. apply emit_inv in H3. destruct H3 as [y [Hy ->]].
    destruct (IH l st' r y) as [I1 [I2 I3]]; [lia|assumption|assumption|].
    destruct st'; cbn [fall_out].
    - cbn [app]. split; [|split].
      + apply no_pair_cons. split; [|assumption]. intros -> Hs. apply Hp1; [reflexivity|]. apply I3; auto.
      + rewrite PC, (PC r l), I2. reflexivity.
      + intros _ [z E]. injection E as -> _. exists l. reflexivity.
    - cbn [app]. split; [|split].
      + apply no_pair_cons. split; [|assumption]. intros -> Hs. apply Hp1; [reflexivity|]. apply I3; auto.
      + rewrite PC, (PC r l), I2. reflexivity.
      + intros _ [z E]. injection E as -> _. exists l. reflexivity.
    - destruct (H1 eq_refl) as [Ha Hb]. cbn [app]. split; [|split].
      + apply no_pair_cons. split; [discriminate|assumption].
      + rewrite PC, (PC r l), I2. f_equal. unfold plain. cbn. zeq. reflexivity.
      + intros Hs. destruct (H0 Hs); discriminate.
    - destruct ((r =? 13) || (r =? 10)) eqn:E; cbn [app]; (split; [|split]).
      + rewrite !no_pair_cons. split; [discriminate|]. split; [discriminate|assumption].
      + rewrite PC, (PC 32), (PC r l), I2. unfold plain at 1 2 4. cbn. rewrite orb_comm in E. rewrite E. reflexivity.
      + intros Hs. destruct (H0 Hs); discriminate.
      + apply no_pair_cons. split; [discriminate|assumption].
      + rewrite PC, (PC r l), I2. unfold plain at 1 3. cbn. rewrite orb_comm in E. rewrite E. reflexivity.
      + intros Hs. destruct (H0 Hs); discriminate. }
  assert (FS : (st = JLine -> r <> 10 /\ r <> 13) -> emit (fall_out st r) (strip st r l) = Some o ->
    no_pair 13 10 o /\ plain o = plain (r :: l) /\ (st = JNorm \/ st = JStr -> starts 10 o -> starts 10 (r :: l))).
  { intros HL HX. apply (F st); auto. }
  cbn [strip] in H. destruct (r =? RuneError) eqn:?; [discriminate|].
  destruct (Z.eqb_spec r 34) as [->|H34].
  { destruct st; try (apply FS in H; [exact H|split; discriminate]).
    - apply (F JStr) in H; auto; discriminate.
    - destruct (negb (pr =? 92)); [apply (F JNorm) in H|apply (F JStr) in H]; auto; discriminate. }
  assert (D : forall p l2 y, l = p :: l2 -> r <> 10 -> r <> 13 -> p <> 10 -> p <> 13 -> plain (32 :: 32 :: y) = plain y /\ plain (r :: p :: l2) = plain l2).
  { intros p l2 y _ A1 A2 A3 A4. unfold plain. cbn. zeq. cbn. auto. }
  destruct (Z.eqb_spec r 47) as [->|H47].
  { destruct st; try (apply FS in H; [exact H|split; discriminate]).
    destruct l as [|p l2]; [apply FS in H; [exact H|discriminate]|].
    destruct (Z.eqb_spec p 47) as [->|Hp47]; [|destruct (Z.eqb_spec p 42) as [->|Hp42]; [|apply FS in H; [exact H|discriminate]]].
    - apply emit_inv in H. destruct H as [y [Hy ->]]. apply no_pair_cons in Hp.
      destruct (IH l2 JLine pr y) as [I1 [I2 I3]]; [cbn in Hn; lia|apply Hp|assumption|]. cbn [app].
      split; [rewrite !no_pair_cons; repeat split; try discriminate; assumption|]. split.
      + destruct (D 47 l2 y) as [-> ->]; auto; discriminate.
      + intros _ [z E]. discriminate.
    - apply emit_inv in H. destruct H as [y [Hy ->]]. apply no_pair_cons in Hp.
      destruct (IH l2 JBlock pr y) as [I1 [I2 I3]]; [cbn in Hn; lia|apply Hp|assumption|]. cbn [app].
      split; [rewrite !no_pair_cons; repeat split; try discriminate; assumption|]. split.
      + destruct (D 42 l2 y) as [-> ->]; auto; discriminate.
      + intros _ [z E]. discriminate. }
  destruct (Z.eqb_spec r 13) as [->|H13].
  { destruct st; try (apply FS in H; [exact H|discriminate]).
    assert (E : emit [10] (strip JNorm pr l) = Some o).
    { destruct l as [|p l2]; [exact H|].
      destruct (Z.eqb_spec p 10) as [->|Hp10]; [exfalso; apply Hp1; [reflexivity|eexists; reflexivity]|exact H]. }
    apply emit_inv in E. destruct E as [y [Hy ->]]. cbn [app].
    destruct (IH l JNorm pr y) as [I1 [I2 I3]]; [lia|assumption|assumption|].
    split; [apply no_pair_cons; split; [discriminate|assumption]|]. split; [rewrite PC, (PC 13 l), I2; reflexivity|].
    intros [Hs|Hs]; discriminate. }
  destruct (Z.eqb_spec r 10) as [->|H10].
  { destruct st; try (apply FS in H; [exact H|discriminate]).
    apply emit_inv in H. destruct H as [y [Hy ->]]. cbn [app].
    destruct (IH l JNorm pr y) as [I1 [I2 I3]]; [lia|assumption|assumption|].
    split; [apply no_pair_cons; split; [discriminate|assumption]|]. split; [rewrite PC, (PC 10 l), I2; reflexivity|].
    intros [Hs|Hs]; discriminate. }
  destruct (Z.eqb_spec r 42) as [->|H42].
  { destruct st; try (apply FS in H; [exact H|split; discriminate]).
    destruct l as [|p l2]; [apply FS in H; [exact H|discriminate]|].
    destruct (Z.eqb_spec p 47) as [->|Hp47]; [|apply FS in H; [exact H|discriminate]].
    apply emit_inv in H. destruct H as [y [Hy ->]]. apply no_pair_cons in Hp.
    destruct (IH l2 JNorm pr y) as [I1 [I2 I3]]; [cbn in Hn; lia|apply Hp|assumption|]. cbn [app].
    split; [rewrite !no_pair_cons; repeat split; try discriminate; assumption|]. split.
    + destruct (D 47 l2 y) as [-> ->]; auto; discriminate.
    + intros [Hs|Hs]; discriminate. }
  destruct (Z.eqb_spec r 44) as [->|H44].
  { destruct st; try (apply FS in H; [exact H|split; discriminate]).
    destruct (_ || _); [|apply FS in H; [exact H|discriminate]].
    apply emit_inv in H. destruct H as [y [Hy ->]]. cbn [app].
    destruct (IH l JNorm pr y) as [I1 [I2 I3]]; [lia|assumption|assumption|].
    split; [apply no_pair_cons; split; [discriminate|assumption]|]. split; [rewrite PC, (PC 44 l), I2; reflexivity|].
    intros _ [z E]. discriminate. }
  apply FS in H; [exact H|]. intros _. split; assumption.
Qed.

(** * Bytes *)
Lemma decode_all_scalar : forall n s, (length s <= n)%nat -> Forall (fun r => is_scalar r = true) (decode_all s).
Proof.
  induction n as [|n IH]; intros [|b s] Hn; try constructor; [cbn in Hn; lia|].
  rewrite decode_all_cons. pose proof (decode_size_pos b s). constructor; [apply decode_rune_scalar|].
  apply IH. rewrite skipn_length. cbn [length] in *. lia.
Qed.

Lemma encode_decode_all : forall n s, (length s <= n)%nat -> ~ In RuneError (decode_all s) ->
  flat_map encode_rune (decode_all s) = s.
Proof.
  induction n as [|n IH]; intros [|b s] Hn HE; try reflexivity; [cbn in Hn; lia|].
  rewrite decode_all_cons in *. pose proof (decode_size_pos b s) as Hp.
  destruct (decode_rune (b :: s)) as [r k] eqn:E. cbn [fst snd flat_map] in *.
  rewrite IH; [|rewrite skipn_length; cbn [length] in *; lia|intros HI; apply HE; right; exact HI].
  destruct (decode_prefix b s r k E) as [[-> _]|<-]; [exfalso; apply HE; left; reflexivity|apply firstn_skipn].
Qed.

Lemma strip_out : forall n l st pr o c, (length l <= n)%nat -> strip st pr l = Some o -> In c o ->
  In c l \/ c = 32 \/ c = 10.
Proof.
  induction n as [|n IH]; intros [|r l] st pr o c Hn H HI; try (cbn in H; injection H as <-; contradiction); [cbn in Hn; lia|].
  cbn in Hn.
  assert (F : forall st', emit (fall_out st' r) (strip st' r l) = Some o -> In c (r :: l) \/ c = 32 \/ c = 10).
  { intros st' H3. apply emit_inv in H3. destruct H3 as [y [Hy ->]]. apply in_app_iff in HI. destruct HI as [HI|HI].
    - cbn [In]. destruct st'; cbn in HI; try destruct (_ || _); cbn in HI; intuition congruence.
    - destruct (IH l st' r y c) as [?|?]; [lia|assumption|assumption|left; right; assumption|right; assumption]. }
  assert (W : forall a k st' l', (length l' <= n)%nat -> incl l' l -> incl a [32; 10] -> emit a (strip st' k l') = Some o -> In c (r :: l) \/ c = 32 \/ c = 10).
  { intros a k st' l' Hl Hi Ha H3. apply emit_inv in H3. destruct H3 as [y [Hy ->]]. apply in_app_iff in HI. destruct HI as [HI|HI].
    - apply Ha in HI. cbn in HI. intuition congruence.
    - destruct (IH l' st' k y c) as [?|?]; [assumption|assumption|assumption|left; right; apply Hi; assumption|right; assumption]. }
  assert (T : forall p l2, l = p :: l2 -> (length l2 <= n)%nat /\ incl l2 l).
  { intros p l2 ->. cbn in Hn. split; [lia|]. intros x Hx. right. assumption. }
  assert (A : incl [32; 32] [32; 10] /\ incl [10] [32; 10] /\ incl [32] [32; 10]).
  { repeat split; intros x Hx; cbn in *; tauto. }
  destruct A as [A1 [A2 A3]].
  cbn [strip] in H. destruct (r =? RuneError); [discriminate|].
  destruct (r =? 34); [destruct st; try destruct (negb _); apply F in H; exact H|].
  destruct (r =? 47).
  { destruct st, l as [|p l2]; try (apply F in H; exact H). destruct (T p l2 eq_refl).
    destruct (p =? 47); [apply W in H; auto|]. destruct (p =? 42); [apply W in H; auto|apply F in H; exact H]. }
  destruct (r =? 13).
  { destruct st; try (apply F in H; exact H). destruct l as [|p l2]; [apply W in H; auto; [lia|apply incl_refl]|].
    destruct (T p l2 eq_refl). destruct (p =? 10); apply W in H; auto; [lia|apply incl_refl]. }
  destruct (r =? 10); [destruct st; try (apply F in H; exact H); apply W in H; auto; [lia|apply incl_refl]|].
  destruct (r =? 42).
  { destruct st, l as [|p l2]; try (apply F in H; exact H). destruct (T p l2 eq_refl).
    destruct (p =? 47); [apply W in H; auto|apply F in H; exact H]. }
  destruct (r =? 44); [|apply F in H; exact H].
  destruct st; try (apply F in H; exact H). destruct (_ || _); [apply W in H; auto; [lia|apply incl_refl]|apply F in H; exact H].
Qed.

Lemma remove_decode : forall s out, remove_json_comments s = Some out ->
  exists o, strip JNorm RuneError (decode_all s) = Some o /\ out = flat_map encode_rune o /\ decode_all out = o.
Proof.
  intros s out H. unfold remove_json_comments in H. destruct (strip JNorm RuneError (decode_all s)) as [o|] eqn:E; [|discriminate].
  injection H as <-. exists o. split; [reflexivity|]. split; [reflexivity|]. apply decode_all_encode.
  pose proof (decode_all_scalar (length s) s (Nat.le_refl _)) as HS. rewrite Forall_forall in *.
  intros c HI. destruct (strip_out _ _ _ _ _ _ (Nat.le_refl _) E HI) as [H|[->| ->]]; [apply HS; assumption| |]; reflexivity.
Qed.
