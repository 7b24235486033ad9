(** Where the nodes of statements begin and end. *)
From Coq Require Import Lia ZifyBool ZifyNat ZifyN.
From Verif Require Import Base TokenModel LexModel ParseBase BinModel BinSpec BinProofs SymtabModel EarlyModel ExprModel ExprSpec ExprProofs ExprPlaces
  StmtModel StmtSpec StmtReads.
Set Default Proof Using "All".

Lemma srow_app : forall x y a b, srow a b (x ++ y) <-> exists m, srow a m x /\ srow m b y.
Proof.
  induction x as [|e x IH]; intros y a b; cbn [app srow].
  - split; [intro H; exists a; auto|]. intros (m & H1 & H2). destruct y as [|u y]; cbn [srow] in *; [lia|]. intuition lia.
  - rewrite IH. firstorder.
Qed.
Lemma srow_wide : forall l a b a' b', srow a b l -> a' <= a -> b <= b' -> srow a' b' l.
Proof. induction l as [|e l IH]; cbn; intros a b a' b' H A B; [lia|]. destruct H as (H1 & H2 & H3). split; [lia|]. split; [lia|]. eapply IH; eauto. Qed.
Lemma srow_le : forall l a b, srow a b l -> a <= b.
Proof. induction l as [|e l IH]; cbn; intros a b H; [exact H|]. destruct H as (H1 & H2 & H3). apply IH in H3. lia. Qed.

Section Places.
Variables (text : token -> bytes) (Other Method Block : rng -> list token -> Prop) (Decl : rng -> list token -> token -> Prop).
Hypotheses (other_fr : framed Other) (method_fr : framed Method) (block_fr : framed Block) (decl_fr : forall nx, framed (fun r ts => Decl r ts nx)).
Variables (At : nat -> Prop) (loose : Prop).
Notation spell := (spell text Other Method Block True).
Notation key_of := (key_of text Other Method Block True).
Notation full := (full text Other Method Block True).
Notation single := (single text Other Method Block True).
Notation binding := (binding text Other Method Block True).
Notation belem := (belem text Other Method Block True).
Notation belems := (belems text Other Method Block True).
Notation bprops := (bprops text Other Method Block True).
Notation bprop := (bprop text Other Method Block True).
Notation dec := (dec text Other Method Block True).
Notation decs := (decs text Other Method Block True).
Notation opt_full := (opt_full text Other Method Block True).
Notation init_of := (init_of text Other Method Block True).
Notation left_of := (left_of text Other Method Block True).
Notation stat := (stat text Other Method Block Decl True loose).
Notation block := (block text Other Method Block Decl True loose).
Notation stats := (stats text Other Method Block Decl True loose).
Notation clauses := (clauses text Other Method Block Decl True loose).
Notation clause := (clause text Other Method Block Decl True loose).
Notation handler := (handler text Other Method Block Decl True loose).
Notation final := (final text Other Method Block Decl True loose).
Notation marks := (marks At).
Notation bounds := (bounds At).
Notation one := (one At).
Notation many := (many At).
Notation somes := (fun es => concat (map (fun o : option expr => match o with Some e => [e] | None => [] end) es)).

Local Definition pl := places text Other Method Block True other_fr method_fr block_fr At.
Lemma spell_one : forall g n e ts, spell g n e ts -> one e ts.
Proof. exact (proj1 pl). Qed.
Lemma key_one : forall g e c ts, key_of g e c ts -> one e ts.
Proof. destruct pl as (_ & _ & _ & _ & _ & _ & _ & _ & _ & _ & _ & _ & _ & H & _). exact H. Qed.
Lemma full_one : forall e ts, full e ts -> one e ts.
Proof. intros e ts (n & H & _). exact (spell_one _ _ _ _ H). Qed.
Lemma single_one : forall e ts, single e ts -> one e ts.
Proof. intros e ts (n & H & _). exact (spell_one _ _ _ _ H). Qed.
Local Definition f_ne := n_full_ne text Other Method Block Decl True loose other_fr method_fr block_fr decl_fr.
Local Definition g_ne := n_single_ne text Other Method Block Decl True loose other_fr method_fr block_fr decl_fr.
Local Definition k_ne := n_key_ne text Other Method Block Decl True loose other_fr method_fr block_fr decl_fr.
Local Definition b_ne := n_binding_ne text Other Method Block Decl True loose other_fr method_fr block_fr decl_fr.
Local Definition e_ne := n_belem_ne text Other Method Block Decl True loose other_fr method_fr block_fr decl_fr.
Local Definition d_ne := n_dec_ne text Other Method Block Decl True loose other_fr method_fr block_fr decl_fr.
Local Definition ds_ne := n_decs_ne text Other Method Block Decl True loose other_fr method_fr block_fr decl_fr.
Local Definition st_ne := n_stat_ne text Other Method Block Decl True loose other_fr method_fr block_fr decl_fr.
Local Definition bl_ne := n_block_ne text Other Method Block Decl True loose other_fr method_fr block_fr decl_fr.
Local Definition sp_ne := spell_ne text Other Method Block True other_fr method_fr block_fr.
Local Definition m_first := marks_first text Other Method Block True other_fr method_fr block_fr At.
Local Definition m_last := marks_last text Other Method Block True other_fr method_fr block_fr At.
Local Definition m_app := marks_app text Other Method Block True other_fr method_fr block_fr At.
Local Definition m_cons := marks_cons text Other Method Block True other_fr method_fr block_fr At.
Local Definition l_wide := lefts_wide text Other Method Block True other_fr method_fr block_fr At.
Local Definition leaf' := leaf text Other Method Block True other_fr method_fr block_fr At.
Local Definition node' := node text Other Method Block True other_fr method_fr block_fr At.

Definition sone (s : stmt) (ts : list token) : Prop := forall a b, span a b ts -> marks ts ->
  a <= slo s /\ slo s <= shi s /\ shi s <= b /\ At (slo s) /\ At (shi s) /\ snested At s.
Definition smany (l : list stmt) (ts : list token) : Prop := forall a b, span a b ts -> marks ts -> srow a b l /\ Forall (snested At) l.

Ltac know ts H := lazymatch goal with _ : ts <> [] |- _ => fail | _ => pose proof H end.
Ltac all_ne :=
  repeat match goal with
  | H : full _ ?ts |- _ => know ts (f_ne _ _ H)
  | H : single _ ?ts |- _ => know ts (g_ne _ _ H)
  | H : spell _ _ _ ?ts |- _ => know ts (sp_ne _ _ _ _ H)
  | H : key_of _ _ _ ?ts |- _ => know ts (k_ne _ _ _ _ H)
  | H : binding _ ?ts |- _ => know ts (b_ne _ _ H)
  | H : belem _ ?ts |- _ => know ts (e_ne _ _ H)
  | H : dec _ ?ts |- _ => know ts (d_ne _ _ H)
  | H : decs _ ?ts |- _ => know ts (ds_ne _ _ H)
  | H : stat _ ?ts _ |- _ => know ts (st_ne _ _ _ H)
  | H : block _ ?ts |- _ => know ts (bl_ne _ _ H)
  end.
Ltac parts :=
  repeat match goal with
  | H : span _ _ (_ ++ _) |- _ => apply span_app in H as (? & ? & ?)
  | H : span _ _ (_ :: _) |- _ => destruct H as (? & ? & ? & H)
  | H : span ?a ?b [] |- _ => change (a <= b) in H
  | H : marks (_ ++ _) |- _ => apply m_app in H as [? ?]
  | H : marks (_ :: _) |- _ => apply m_cons in H as (? & ? & H)
  | H : marks [] |- _ => clear H
  end.
Ltac tighten :=
  repeat match goal with
  | N : ?ts <> [], H : span ?a ?b ?ts |- _ =>
      lazymatch a with first_lo ts => fail | _ => idtac end;
      let T := fresh in pose proof (span_tight _ _ _ H N) as T; clear H; destruct T as (? & ? & ? & H)
  end.
Ltac ones :=
  repeat match goal with
  | H : full ?e ?ts |- _ => lazymatch goal with _ : one e ts |- _ => fail | _ => pose proof (full_one _ _ H) end
  | H : single ?e ?ts |- _ => lazymatch goal with _ : one e ts |- _ => fail | _ => pose proof (single_one _ _ H) end
  | H : key_of _ ?e _ ?ts |- _ => lazymatch goal with _ : one e ts |- _ => fail | _ => pose proof (key_one _ _ _ _ H) end
  | H : spell _ _ ?e ?ts |- _ => lazymatch goal with _ : one e ts |- _ => fail | _ => pose proof (spell_one _ _ _ _ H) end
  end.
Ltac feed :=
  repeat match goal with
  | J : one ?e ?ts, S : span ?a ?b ?ts, M : marks ?ts |- _ => specialize (J a b S M); destruct J as (? & ? & ? & ? & ? & ? & ?)
  | J : many ?e ?ts, S : span ?a ?b ?ts, M : marks ?ts |- _ => specialize (J a b S M); destruct J as (? & ?)
  | J : sone ?e ?ts, S : span ?a ?b ?ts, M : marks ?ts |- _ => specialize (J a b S M); destruct J as (? & ? & ? & ? & ? & ?)
  | J : smany ?e ?ts, S : span ?a ?b ?ts, M : marks ?ts |- _ => specialize (J a b S M); destruct J as (? & ?)
  end.
Ltac ends :=
  repeat match goal with
  | M : marks ?ts, N : ?ts <> [] |- _ =>
      lazymatch goal with _ : At (first_lo ts) |- _ => fail | _ => pose proof (m_first _ M N); pose proof (m_last _ M N) end
  end.
Ltac start := intros; red; intros; parts; all_ne; ones; tighten; feed; ends.
Ltac ranges := unfold slo, shi, lo, hi in *; cbn [srange range fst snd place] in *.
Ltac foralls := repeat first [apply Forall_nil | apply Forall_cons | apply Forall_app; split].
Ltac fin := first [exact Logic.I | reflexivity | assumption | lia | solve [auto] | eapply l_wide; [eassumption|lia] | eapply row_wide; [eassumption|lia|lia]
  | eapply srow_wide; [eassumption|lia|lia]].
Ltac fin2 := first [fin | split; fin | apply Nested; cbn [kids tags row]; ranges; foralls; fin | apply Nested_expr; first [fin | apply Nested; cbn [kids tags row]; ranges; foralls; solve [fin | left; split; fin]]].
Ltac mk := apply node'; cbn [kids tags row lefts app]; ranges; foralls; repeat match goal with |- _ /\ _ => split end; fin2.
Ltac lst := intros; red; intros; parts; feed; cbn [map concat app row srow]; split; [repeat match goal with |- _ /\ _ => split end; fin|foralls; fin].

Lemma binding_places :
  (forall e ts, binding e ts -> one e ts) /\
  (forall e ts, belem e ts -> one e ts) /\
  (forall l ts, belems l ts -> many (somes l) ts) /\
  (forall l ts, bprops l ts -> many l ts) /\
  (forall e ts, bprop e ts -> one e ts).
Proof.
  apply binding_all.
  all: try solve [intros; assumption].
  all: try solve [start; mk].
  all: try solve [start; apply leaf'; ranges; try reflexivity; try assumption; lia].
  all: try solve [lst].
Qed.
Local Definition binding_one := proj1 binding_places.
Lemma dec_one : forall d ts, dec d ts -> sone d ts.
Proof.
  destruct 1.
  - pose proof (binding_one _ _ H). red; intros; parts; all_ne; tighten; feed; ends. ranges. do 5 (split; [fin|]).
    apply Nested_stmt; cbn [skids opt_expr_kid srow]; ranges; foralls; repeat match goal with |- _ /\ _ => split end; fin2.
  - pose proof (binding_one _ _ H0). red; intros; parts; all_ne; ones; tighten; feed; ends. ranges. do 5 (split; [fin|]).
    apply Nested_stmt; cbn [skids opt_expr_kid srow]; ranges; foralls; repeat match goal with |- _ /\ _ => split end; fin2.
Qed.
Lemma decs_many : forall d ts, decs d ts -> smany d ts.
Proof. induction 1; pose proof (dec_one _ _ ltac:(eassumption)); lst. Qed.
Lemma last1 : forall t, last_hi [t] = t_hi t. Proof. reflexivity. Qed.
Lemma last2 : forall a t, last_hi [a; t] = t_hi t. Proof. reflexivity. Qed.
Ltac semis :=
  repeat match goal with
  | H : semi _ _ ?x |- _ => destruct H
  | H : maybe_semi _ ?x |- _ => destruct H
  end; rewrite ?app_nil_r in *; cbn [app] in *;
  repeat match goal with
  | |- context [last_hi (?x ++ [?t])] => rewrite (last_hi_snoc x t)
  end.
Ltac les := repeat match goal with
  | H : srow ?a ?b ?l |- _ => lazymatch goal with _ : a <= b |- _ => fail | _ => pose proof (srow_le _ _ _ H) end end.
Ltac more := repeat match goal with
  | H : decs ?l ?ts |- _ => lazymatch goal with _ : smany l ts |- _ => fail | _ => pose proof (decs_many _ _ H) end
  | H : binding ?l ?ts |- _ => lazymatch goal with _ : one l ts |- _ => fail | _ => pose proof (binding_one _ _ H) end
  end.
Ltac sstart := intros; semis; red; intros; parts; all_ne; ones; more; tighten; feed; les; ends.
Ltac smk := rewrite ?last1, ?last2;
  ranges; do 5 (split; [fin|]);
  apply Nested_stmt; cbn [skids opt_expr_kid opt_kid app srow]; ranges; foralls; repeat match goal with |- _ /\ _ => split end; fin2.
Lemma name_one : forall t kw, one (EName (place t) (text t) false kw) [t].
Proof. start; apply leaf'; ranges; try reflexivity; try assumption; lia. Qed.
Lemma opt_many : forall o ts, opt_full o ts -> smany (opt_expr_kid o) ts.
Proof.
  destruct 1; cbn [opt_expr_kid]; [lst|]. pose proof (full_one _ _ H). red; intros; feed. split; [cbn [srow]; ranges; repeat match goal with |- _ /\ _ => split end; fin|].
  foralls. fin2.
Qed.
Lemma var_one : forall v kind l ts, decs l ts -> sone (SVar (t_lo v, last_hi ts) kind l) (v :: ts).
Proof. sstart. smk. Qed.
Lemma init_many : forall o ts, init_of o ts -> smany (opt_kid o) ts.
Proof.
  destruct 1; cbn [opt_kid].
  - lst.
  - exact (opt_many _ _ (O_some _ _ _ _ _ _ _ H)).
  - pose proof (var_one v kind l ts H0). red; intros; feed. split; [cbn [srow]; ranges; repeat match goal with |- _ /\ _ => split end; fin|]. foralls. fin2.
Qed.
Lemma left_one : forall s ts, left_of s ts -> sone s ts.
Proof.
  destruct 1.
  - pose proof (spell_one _ _ _ _ H). red; intros; feed. ranges. do 5 (split; [fin|]). fin2.
  - exact (var_one _ _ _ _ (DS_one _ _ _ _ _ _ _ H0)).
Qed.
Lemma stat_places :
  (forall s ts nx, stat s ts nx -> sone s ts) /\
  (forall s ts, block s ts -> sone s ts) /\
  (forall l ts nx, stats l ts nx -> smany l ts) /\
  (forall l ts nx, clauses l ts nx -> smany l ts) /\
  (forall s ts nx, clause s ts nx -> sone s ts) /\
  (forall o ts, handler o ts -> smany (opt_kid o) ts) /\
  (forall o ts, final o ts -> smany (opt_kid o) ts).
Proof.
  apply stat_all.
  all: try solve [intros; assumption].
  all: try solve [sstart; smk].
  all: try solve [lst].
  - (* for *) intros. semis. red; intros. parts. all_ne; ones; more.
    match goal with H : init_of _ _ |- _ => pose proof (init_many _ _ H) end.
    match goal with H : opt_full t _ |- _ => pose proof (opt_many _ _ H) end.
    match goal with H : opt_full u _ |- _ => pose proof (opt_many _ _ H) end.
    tighten; feed; les; ends. ranges; do 5 (split; [fin|]). apply Nested_stmt; cbn [skids]; ranges; foralls; try fin2.
    apply srow_app. eexists; split; [eapply srow_wide; [eassumption|lia|apply le_n]|].
    apply srow_app. eexists; split; [eapply srow_wide; [eassumption|lia|apply le_n]|].
    apply srow_app. eexists; split; [eapply srow_wide; [eassumption|lia|apply le_n]|].
    cbn [srow]; ranges; repeat match goal with |- _ /\ _ => split end; fin.
  - intros. match goal with H : left_of _ _ |- _ => pose proof (left_one _ _ H) end. sstart. smk.
  - intros. match goal with H : left_of _ _ |- _ => pose proof (left_one _ _ H) end.
    match goal with H : _ \/ _ |- _ => destruct H as [[-> ->]|(? & -> & ? & ->)] end; sstart; smk.
  - (* try *) intros w b bts c cts f fts nx W B JB Hc Jc Hf Jf NE. red; intros a z S M.
    pose proof (bl_ne _ _ B) as N.
    assert (NE' : bts ++ cts ++ fts <> []) by (intro Q; apply app_eq_nil in Q as [Q _]; exact (N Q)).
    destruct S as (? & ? & ? & S). apply m_cons in M as (? & ? & M). destruct (span_tight _ _ _ S NE') as (S1 & S2 & S3 & S4).
    pose proof (m_last _ M NE'). parts. tighten. feed. les. ranges. do 5 (split; [fin|]).
    apply Nested_stmt; cbn [skids]; ranges; foralls; try fin2. cbn [srow]; ranges. split; [lia|]. split; [lia|].
    apply srow_app. eexists; split; [eapply srow_wide; [eassumption|lia|apply le_n]|eapply srow_wide; [eassumption|lia|lia]].
  - intros r ts nx D. destruct (decl_fr _ _ _ D) as [N ->]. sstart. smk.
  - (* case *) intros w e ets c b bts nx W C E B J. pose proof (full_one _ _ E). red; intros a z S M.
    destruct S as (? & ? & ? & S). apply m_cons in M as (? & ? & M). apply span_app in S as (m & ? & S). apply m_app in M as [? M].
    destruct (span_tight _ _ _ S ltac:(discriminate)) as (S1 & S2 & S3 & S4).
    pose proof (m_last _ M ltac:(discriminate)). cbn [first_lo] in *. parts. all_ne. tighten. feed. les. ranges. do 5 (split; [fin|]).
    apply Nested_stmt; cbn [skids opt_expr_kid app srow]; ranges; foralls; repeat match goal with |- _ /\ _ => split end; fin2.
  - (* default *) intros w c b bts nx W C B J. red; intros a z S M.
    destruct S as (? & ? & ? & S). apply m_cons in M as (? & ? & M).
    destruct (span_tight _ _ _ S ltac:(discriminate)) as (S1 & S2 & S3 & S4).
    pose proof (m_last _ M ltac:(discriminate)). cbn [first_lo] in *. parts. all_ne. tighten. feed. les. ranges. do 5 (split; [fin|]).
    apply Nested_stmt; cbn [skids opt_expr_kid app srow]; ranges; foralls; repeat match goal with |- _ /\ _ => split end; fin2.
  - intros. sstart. cbn [opt_kid]. split; [cbn [srow]; ranges; repeat match goal with |- _ /\ _ => split end; fin|foralls].
    apply Nested_stmt; cbn [skids opt_expr_kid app srow]; ranges; foralls; repeat match goal with |- _ /\ _ => split end; fin2.
  - intros. sstart. cbn [opt_kid]. split; [cbn [srow]; ranges; repeat match goal with |- _ /\ _ => split end; fin|foralls].
    apply Nested_stmt; cbn [skids opt_expr_kid app srow]; ranges; foralls; repeat match goal with |- _ /\ _ => split end; fin2.
  - intros. sstart. cbn [opt_kid]. split; [cbn [srow]; ranges; repeat match goal with |- _ /\ _ => split end; fin|foralls; fin].
Qed.
End Places.
