(** What the whole parser reads is what its tree spells, functions and classes included. *)
From Coq Require Import Lia ZifyBool ZifyNat ZifyN.
From Verif Require Import Base TokenModel LexModel ParseBase BinModel BinSpec SymtabModel EarlyModel ExprModel ExprSpec ExprProofs ExprPlaces ExprReads
  StmtModel StmtSpec StmtReads StmtEnds FnModel FnSpec FnReads.
Set Default Proof Using "All".

Ltac flat := repeat (cbn [app]; rewrite <- ?app_assoc); reflexivity.
Lemma first_app : forall a b, a <> [] -> first_lo (a ++ b) = first_lo a.
Proof. intros [|x a] b H; [contradiction|reflexivity]. Qed.
Lemma last_app : forall b a, b <> [] -> last_hi (a ++ b) = last_hi b.
Proof.
  intros b a H. unfold last_hi. rewrite rev_app_distr. destruct (rev b) eqn:E; [|reflexivity].
  apply (f_equal (@rev token)) in E. rewrite rev_involutive in E. contradiction.
Qed.
Lemma last_cons' : forall t b, b <> [] -> last_hi (t :: b) = last_hi b.
Proof. intros t b H. exact (last_app b [t] H). Qed.

(** Functions begin with their first token and end with their last. *)
Section Frames.
Variables (text : token -> bytes) (Other Method Block : rng -> list token -> Prop) (Decl : rng -> list token -> token -> Prop)
  (Rest : sort -> rng -> list token -> Prop) (loose : Prop).
Hypotheses (other_fr : framed Other) (method_fr : framed Method) (block_fr : framed Block) (decl_fr : forall nx, framed (fun r ts => Decl r ts nx)).
Hypothesis rest_fr : rest_framed Rest.
Notation spelled := (spelled text Other Method Block Decl Rest True loose).
Local Definition block_ne' := n_block_ne text Other Method Block Decl True False other_fr method_fr block_fr decl_fr.
Local Definition full_ne := n_full_ne text Other Method Block Decl True False other_fr method_fr block_fr decl_fr.
Local Definition decs_ne' := n_decs_ne text Other Method Block Decl True False other_fr method_fr block_fr decl_fr.
Local Definition single_ne' := n_single_ne text Other Method Block Decl True False other_fr method_fr block_fr decl_fr.
Local Definition key_ne' := n_key_ne text Other Method Block Decl True False other_fr method_fr block_fr decl_fr.
Lemma w_body_ne : forall free b ts, fbody text Other Method Block Decl True free b ts -> ts <> [].
Proof. destruct 1; [eapply block_ne'; eassumption|eapply full_ne; eassumption]. Qed.
Lemma w_mkey_ne : forall p e c ts, mkey text Other Method Block True p e c ts -> ts <> [].
Proof. destruct 1; [eapply key_ne'; eassumption|discriminate]. Qed.
Lemma method_frame : forall c m ts, method_of text Other Method Block Decl True c m ts -> ts <> [] /\ m_rng m = (first_lo ts, last_hi ts).
Proof.
  destruct 1 as [static sts async gen kind ats key computed kts l ps pts h b bts S1 _ L K _ _ _ _ _ B|l ps pts h b bts _ _ _ _ B]; cbn [m_rng].
  - pose proof (block_ne' _ _ B) as BN. pose proof (w_mkey_ne _ _ _ _ K) as KN.
    assert (N : sts ++ ats ++ kts <> []) by (intro Q; apply app_eq_nil in Q as [_ Q]; apply app_eq_nil in Q as [_ Q]; contradiction).
    replace (sts ++ ats ++ kts ++ l :: pts ++ h :: bts) with ((sts ++ ats ++ kts) ++ (l :: pts ++ h :: bts)) by flat.
    split; [intro Q; apply app_eq_nil in Q as [_ Q]; discriminate Q|].
    rewrite (first_app _ _ N). f_equal. rewrite last_app by discriminate.
    replace (l :: pts ++ h :: bts) with ((l :: pts ++ [h]) ++ bts) by (cbn; rewrite <- app_assoc; reflexivity). rewrite last_app by exact BN. reflexivity.
  - pose proof (block_ne' _ _ B) as BN. split; [discriminate|]. f_equal.
    replace (l :: pts ++ h :: bts) with ((l :: pts ++ [h]) ++ bts) by (cbn; rewrite <- app_assoc; reflexivity). rewrite last_app by exact BN. reflexivity.
Qed.
Lemma block_frame : forall b ts, StmtSpec.block text Other Method Block Decl True False b ts -> ts <> [] /\ srange b = (first_lo ts, last_hi ts).
Proof.
  destruct 1. split; [discriminate|]. cbn [srange first_lo]. f_equal. rewrite last_cons' by (intro Q; apply app_eq_nil in Q as [_ Q]; discriminate Q).
  rewrite last_hi_snoc. reflexivity.
Qed.
Ltac absurd_nil Z := first [discriminate Z|contradiction|
  let A := fresh in let B := fresh in apply app_eq_nil in Z as [A B]; first [absurd_nil A|absurd_nil B]].
Ltac not_empty := let Z := fresh in intro Z; absurd_nil Z.
Ltac tails := repeat match goal with
  | |- _ = last_hi (?t :: ?b) => rewrite (last_cons' t b) by not_empty
  | |- _ = last_hi (?a ++ ?b) => rewrite (last_app b a) by not_empty
  end.
Lemma spelled_frame : forall q f ts nx, spelled q f ts nx -> ts <> [] /\ nrange f = (first_lo ts, last_hi ts).
Proof.
  induction 1 as [q async ats fw gen gts name nts l ps pts h b bts nx Q A F _ G N _ _ _ P B
    |a gen gts ps hts w b bts nx A G H _ _ _ B|q a gen gts ps hts w b bts x nx _ A G H _ _ _ B X|m ts nx M _|b ts nx B
    |q c name nts super ets l ms mts h nx Q C N _ E L H M _ _ _|i s x nx I S X|i l ts f s x nx I C F S X|e l es ts h x nx E L H EL K X
    |e l es ts h v fts x nx E L H EL F X|e m v fts x nx E M F X|e m a t kw v fts x nx E M A T F X|e v kind l ts x nx E V D X
    |e f ts nx E H IH X|e d f ts nx E D H IH X|e d v ts x nx E D S _ X|q r ts nx H]; cbn [nrange];
    try match goal with F : from_clause _ ?f |- _ => assert (f <> []) by (destruct F; discriminate) end.
  - pose proof (w_body_ne _ _ _ B) as BN. split; [intro Z; apply app_eq_nil in Z as [_ Z]; discriminate Z|]. f_equal.
    + destruct A; reflexivity.
    + replace (ats ++ fw :: gts ++ nts ++ l :: pts ++ h :: bts) with ((ats ++ fw :: gts ++ nts ++ l :: pts ++ [h]) ++ bts)
        by flat. rewrite last_app by exact BN. reflexivity.
  - pose proof (w_body_ne _ _ _ B) as BN. split; [discriminate|]. f_equal.
    replace (a :: gts ++ hts ++ w :: bts) with ((a :: gts ++ hts ++ [w]) ++ bts)
      by flat. rewrite last_app by exact BN. reflexivity.
  - pose proof (w_body_ne _ _ _ B) as BN. assert (XN : bts ++ x <> []) by (intro Z; apply app_eq_nil in Z as [Z _]; contradiction).
    split; [discriminate|]. f_equal.
    replace (a :: gts ++ hts ++ w :: bts ++ x) with ((a :: gts ++ hts ++ [w]) ++ (bts ++ x))
      by flat. rewrite (last_app _ _ XN). reflexivity.
  - exact (method_frame _ _ _ M).
  - exact (block_frame _ _ B).
  - split; [discriminate|]. f_equal.
    replace (c :: nts ++ ets ++ l :: mts ++ [h]) with ((c :: nts ++ ets ++ l :: mts) ++ [h])
      by flat. rewrite last_hi_snoc. reflexivity.
  - split; [discriminate|]. f_equal. tails. reflexivity.
  - split; [discriminate|]. f_equal. tails. reflexivity.
  - split; [discriminate|]. f_equal. tails. reflexivity.
  - split; [discriminate|]. f_equal. tails. reflexivity.
  - split; [discriminate|]. f_equal. tails. reflexivity.
  - split; [discriminate|]. f_equal. tails. reflexivity.
  - pose proof (decs_ne' _ _ D). split; [discriminate|]. f_equal. tails. reflexivity.
  - destruct IH as [N _]. split; [discriminate|]. f_equal. tails. reflexivity.
  - destruct IH as [N _]. split; [discriminate|]. f_equal. tails. reflexivity.
  - pose proof (single_ne' _ _ S). split; [discriminate|]. f_equal. tails. reflexivity.
  - destruct (rest_fr _ _ _ H) as (A & -> & _). split; [exact A|reflexivity].
Qed.
Lemma spelled_starts : forall q f ts nx, spelled q f ts nx -> q = AFunction \/ q = ADecl -> starts ts.
Proof.
  destruct 1 as [q async ats fw gen gts name nts l ps pts h b bts nx Q A F _ G N _ _ _ P B
    |a gen gts ps hts w b bts nx A G H _ _ _ B|q a gen gts ps hts w b bts x nx _ A G H _ _ _ B X|m ts nx M _|b ts nx B
    |q c name nts super ets l ms mts h nx Q C N _ E L H M _ _ _|i s x nx E S X|i l ts f s x nx E C F S X|e l es ts h x nx E L H EL K X
    |e l es ts h v fts x nx E L H EL F X|e m v fts x nx E M F X|e m a t kw v fts x nx E M A T F X|e v kind l ts x nx E V D X
    |e f ts nx E H X|e d f ts nx E D H X|e d v ts x nx E D S _ X|q r ts nx H]; intro S0; try (destruct S0; discriminate);
    try (apply (starts_at _ _ _ E); cbn; intuition discriminate).
  - destruct A as [|t [[A _] _]]; cbn [app]; [apply (starts_at _ _ _ F)|apply (starts_at _ _ _ A)]; cbn; intuition discriminate.
  - destruct A as [[A _] _]. apply (starts_at _ _ _ A). cbn; intuition discriminate.
  - destruct A as [[A _] _]. apply (starts_at _ _ _ A). cbn; intuition discriminate.
  - apply (starts_at _ _ _ C). cbn; intuition discriminate.
  - destruct (rest_fr _ _ _ H) as (A & _ & B). destruct ts as [|t ts]; [contradiction|]. exists t, ts. split; [reflexivity|exact B].
Qed.
End Frames.

(** A statement that ends before a stray token ends otherwise before any other. *)
Lemma semi_tight : forall nx x, semi True nx x -> ~ stray nx -> semi False nx x.
Proof. intros nx x X N. destruct X as [t X|[X|[_ X]] Y]; [apply Semicolon; exact X|apply Inserted; auto|contradiction]. Qed.
Lemma spelled_tight : forall text Other Method Block Decl Rest q f ts nx, spelled text Other Method Block Decl Rest True True q f ts nx -> ~ stray nx ->
  spelled text Other Method Block Decl Rest True False q f ts nx.
Proof.
  intros text Other Method Block Decl Rest q f ts nx H N. induction H.
  - apply F_fn; assumption.
  - eapply F_arrow; eassumption.
  - eapply F_arrow_stmt; eauto using semi_tight.
  - apply F_method; assumption.
  - apply F_block; assumption.
  - apply F_class; assumption.
  - apply F_import; auto using semi_tight.
  - apply F_import_from; auto using semi_tight.
  - apply F_export; auto using semi_tight.
  - apply F_export_from; auto using semi_tight.
  - apply F_export_all; auto using semi_tight.
  - apply F_export_as; auto using semi_tight.
  - apply F_export_var; auto using semi_tight.
  - apply F_export_fn; auto.
  - apply F_export_default_fn; auto.
  - apply F_export_default; auto.
  - apply F_rest; assumption.
Qed.

Section World.
Variables (feat : N) (text : token -> bytes) (chk : pst -> bool).
Variables (params_ok : N -> list expr -> pst -> bool) (names_ok : N -> list expr -> pst -> bool)
  (jump_ok : N -> stmt -> pst -> bool) (use_strict : token -> bool)
  (fn_ok : N -> option expr -> list expr -> stmt -> pst -> bool) (class_ok : N -> expr -> pst -> bool).
Variables (rest_async : bool -> N -> pst -> pres rng) (rest_other : N -> pst -> option (pres rng)).
Variable Rest : sort -> rng -> list token -> Prop.
Hypotheses (rest_fr : rest_framed Rest) (rest_ok : rest_read Rest rest_async rest_other).
Variable P : fnode -> list token -> Prop.
Hypothesis P_ok : forall (Other Method Block : rng -> list token -> Prop) (Decl : rng -> list token -> token -> Prop) loose q f ts nx,
  framed Other -> framed Method -> framed Block -> (forall nx, framed (fun r ts => Decl r ts nx)) ->
  spelled text Other Method Block Decl Rest True loose q f ts nx -> P f ts.
Notation part_of := (part_of text Rest True P).
Notation functions_of := (functions_of text Rest True P).
Notation methods_of := (methods_of text Rest True P).
Notation blocks_of := (blocks_of text Rest True P).
Notation decls_of := (decls_of text Rest True P).
Notation world_at := (world_at feat text chk params_ok names_ok jump_ok use_strict fn_ok class_ok rest_async rest_other).
Notation w_calls := (w_calls feat text chk params_ok).

Lemma part_frame : forall n loose q nx, framed (fun r ts => part_of n loose q r ts nx).
Proof.
  induction n as [|n IH]; intros loose q nx r ts H; [destruct H|]. destruct H as (f & <- & _ & H).
  exact (spelled_frame text (functions_of n) (methods_of n) (blocks_of n) (decls_of n False) Rest loose (IH _ _ _) (IH _ _ _) (IH _ _ _) (fun nx => IH _ _ nx) rest_fr _ _ _ _ H).
Qed.
Lemma part_starts : forall n loose q r ts nx, part_of n loose q r ts nx -> q = AFunction \/ q = ADecl -> starts ts.
Proof.
  intros [|n] loose q r ts nx H Q; [destruct H|]. destruct H as (f & <- & _ & H).
  exact (spelled_starts text (functions_of n) (methods_of n) (blocks_of n) (decls_of n False) Rest loose (part_frame _ _ _ _) (part_frame _ _ _ _) (part_frame _ _ _ _) (fun nx => part_frame _ _ _ nx) rest_fr _ _ _ _ H Q).
Qed.
Lemma part_tight : forall n r ts nx, decls_of n True r ts nx -> ~ stray nx -> decls_of n False r ts nx.
Proof.
  intros [|n] r ts nx H N; [destruct H|]. destruct H as (f & E & Pf & H). exists f.
  split; [exact E|]. split; [exact Pf|]. exact (spelled_tight _ _ _ _ _ _ _ _ _ _ H N).
Qed.
Record reads_world (n : nat) (w : world) : Prop := {
  r_other : forall k s r s', w_other w k s = Some (POk r s') -> exists ts, read s ts s' /\ functions_of n r ts;
  r_method : forall k s r s', w_method w k s = Some (POk r s') -> exists ts, read s ts s' /\ methods_of n r ts;
  r_block : forall k s r s', w_block w k s = POk r s' -> exists ts, read s ts s' /\ blocks_of n r ts;
  r_decl : forall k s r s', w_decl w k s = Some (POk r s') -> exists ts, read s ts s' /\ decls_of n True r ts (peek s') }.

Section Step.
Variables (n : nat) (w : world) (W : reads_world n w) (d : nat).
Notation full := (full text (functions_of n) (methods_of n) (blocks_of n) True).
Notation single := (single text (functions_of n) (methods_of n) (blocks_of n) True).
Local Definition inv := inv_all feat text chk (w_other w) (w_method w) (w_block w) params_ok (functions_of n) (methods_of n) (blocks_of n)
  (part_frame _ _ _ _) (part_frame _ _ _ _) (part_frame _ _ _ _) (r_other _ _ W) (r_method _ _ W) (r_block _ _ W) d.
Lemma x_seq : forall k s e s', c_seq (w_calls d w) k s = POk e s' -> exists ts, read s ts s' /\ full e ts.
Proof. intros k s e s' H. destruct (v_seq _ _ _ _ _ inv _ _ _ _ H) as (m & ts & A & B & C). exists ts. split; [exact A|exists m; auto]. Qed.
Lemma x_asg : forall k s e s', w_asg feat text chk params_ok d w k s = POk e s' -> exists ts, read s ts s' /\ single e ts.
Proof. intros k s e s' H. destruct (v_assign _ _ _ _ _ inv _ _ _ _ _ H) as (m & ts & A & B & C). exists ts. split; [exact A|exists m; auto]. Qed.
Lemma x_lhs : forall k s e s', c_lhs (w_calls d w) k s = POk e s' ->
  exists m ts, read s ts s' /\ spell text (functions_of n) (methods_of n) (blocks_of n) True false m e ts /\ 6 <= m <= 9.
Proof. intros k s e s' H. exact (v_lhs _ _ _ _ _ inv _ _ _ _ H). Qed.
Lemma x_args : forall k s a tr s', w_args feat text chk params_ok d w k s = POk (a, tr) s' ->
  exists l ats h, read s (l :: ats ++ [h]) s' /\ t_val l = T_PAREN_L /\ t_val h = T_PAREN_R /\
    forall k' c ps, snd (args_to_params k' feat c text a) = AOk ps -> params_of text (functions_of n) (methods_of n) (blocks_of n) True ps ats.
Proof.
  intros k s a tr s' H. destruct (v_arg_list _ _ _ _ _ inv _ _ _ _ _ _ _ H) as (l & ats & h & A & B & C & D).
  exists l, ats, h. split; [exact A|]. split; [exact B|]. split; [exact C|]. intros k' c ps E.
  destruct (args_to_params k' feat c text a) as [a' x] eqn:F. cbn [snd] in E. subst x.
  destruct D as [[-> ->]|[D|(_ & ts1 & cm & -> & Cc & D)]].
  - unfold args_to_params in F. cbn in F. injection F as _ <-. constructor.
  - exact (proj1 (proj2 (cargs_conv feat text chk (w_other w) (w_method w) (w_block w) params_ok _ _ _ (part_frame _ _ _ _) (part_frame _ _ _ _) (part_frame _ _ _ _)
      (r_other _ _ W) (r_method _ _ W) (r_block _ _ W) _ _ _ _ D _ _ F) ps eq_refl)).
  - exact (proj2 (proj2 (cargs_conv feat text chk (w_other w) (w_method w) (w_block w) params_ok _ _ _ (part_frame _ _ _ _) (part_frame _ _ _ _) (part_frame _ _ _ _)
      (r_other _ _ W) (r_method _ _ W) (r_block _ _ W) _ _ _ _ D _ _ F) ps eq_refl) cm Cc).
Qed.
Local Definition tight := stat_tight text (functions_of n) (methods_of n) (blocks_of n) (decls_of n True) (decls_of n False)
  (fun r ts H => part_starts _ _ _ _ _ _ H (or_introl eq_refl)) (fun r ts nx H => part_starts _ _ _ _ _ _ H (or_intror eq_refl)) (part_tight n).
Lemma x_body : forall k s b s', w_body feat text chk params_ok names_ok jump_ok use_strict d w k s = POk b s' ->
  exists ts, read s ts s' /\ StmtSpec.block text (functions_of n) (methods_of n) (blocks_of n) (decls_of n False) True False b ts.
Proof.
  intros k s b s' H. unfold w_body in H.
  destruct (block_reads feat text chk (c_seq (w_calls d w)) (w_asg feat text chk params_ok d w) (w_decl w) names_ok jump_ok use_strict
    _ _ _ (decls_of n True) (part_frame _ _ _ _) (part_frame _ _ _ _) (part_frame _ _ _ _) (fun nx => part_frame _ _ _ nx) x_seq x_asg (r_decl _ _ W) _
    (stmt_reads feat text chk (c_seq (w_calls d w)) (w_asg feat text chk params_ok d w) (w_decl w) names_ok jump_ok use_strict
    _ _ _ (decls_of n True) (part_frame _ _ _ _) (part_frame _ _ _ _) (part_frame _ _ _ _) (fun nx => part_frame _ _ _ nx) x_seq x_asg (r_decl _ _ W) d)
    _ _ _ _ _ H) as (ts & A & B).
  exists ts. split; [exact A|]. exact (proj1 (proj2 tight) _ _ B).
Qed.
Lemma x_program : forall m k s l s', program feat text chk (c_seq (w_calls d w)) (w_asg feat text chk params_ok d w) (w_decl w) names_ok jump_ok use_strict m k s = POk l s' ->
  exists ts, read s ts s' /\ pval s' = T_EOF /\
    StmtSpec.stats text (functions_of n) (methods_of n) (blocks_of n) (decls_of n False) True False l ts (peek s').
Proof.
  intros m k s l s' H.
  destruct (program_reads feat text chk (c_seq (w_calls d w)) (w_asg feat text chk params_ok d w) (w_decl w) names_ok jump_ok use_strict
    _ _ _ (decls_of n True) (part_frame _ _ _ _) (part_frame _ _ _ _) (part_frame _ _ _ _) (fun nx => part_frame _ _ _ nx) x_seq x_asg (r_decl _ _ W) _ _ _ _ _ H) as (ts & A & B & C).
  exists ts. split; [exact A|]. split; [exact B|]. apply (proj1 (proj2 (proj2 tight)) _ _ _ C). unfold stray. unfold pval in B. rewrite B. cbn [In]. intuition discriminate.
Qed.
Lemma x_var : forall kind k s st s', var_stmt feat text (w_asg feat text chk params_ok d w) names_ok d kind false k s = POk st s' -> p_buf s = true -> pval s <> T_EOF ->
  exists l ts x, st = SVar (t_lo (peek s), last_hi (ts ++ x)) kind l /\ read s (peek s :: ts ++ x) s' /\
    StmtSpec.decs text (functions_of n) (methods_of n) (blocks_of n) True l ts /\ semi True (peek s') x.
Proof.
  intros kind k s st s' H B N.
  exact (var_stmt_reads feat text chk (c_seq (w_calls d w)) (w_asg feat text chk params_ok d w) (w_decl w) names_ok jump_ok use_strict
    _ _ _ (decls_of n True) (part_frame _ _ _ _) (part_frame _ _ _ _) (part_frame _ _ _ _) (fun nx => part_frame _ _ _ nx) x_seq x_asg (r_decl _ _ W) _ _ _ _ _ _ H B N).
Qed.
Notation is_part := (is_part text (functions_of n) (methods_of n) (blocks_of n) (decls_of n False) Rest).
Lemma part_up : forall q r ts nx, is_part q r ts nx -> part_of (S n) True q r ts nx.
Proof.
  intros q r ts nx (f & E & H). exists f. split; [exact E|]. split; [|exact H].
  exact (P_ok _ _ _ _ _ _ _ _ _ (part_frame _ _ _ _) (part_frame _ _ _ _) (part_frame _ _ _ _) (fun nx => part_frame _ _ _ nx) H).
Qed.
Lemma part_up_tight : forall q r ts, (forall nx, is_part q r ts nx) -> part_of (S n) False q r ts (eof_tok 0).
Proof.
  intros q r ts K. destruct (K (eof_tok 0)) as (f & E & H). exists f. split; [exact E|]. split.
  - exact (P_ok _ _ _ _ _ _ _ _ _ (part_frame _ _ _ _) (part_frame _ _ _ _) (part_frame _ _ _ _) (fun nx => part_frame _ _ _ nx) H).
  - apply (spelled_tight _ _ _ _ _ _ _ _ _ _ H). unfold stray. cbn. intuition discriminate.
Qed.
Lemma grow_reads : reads_world (S n) (grow feat text chk params_ok names_ok jump_ok use_strict fn_ok class_ok rest_async rest_other d w).
Proof.
  destruct rest_ok as (RA & RO). constructor; cbn [grow w_other w_method w_block w_decl]; intros k s r s' H.
  - destruct (other_at_reads feat text chk (c_seq (w_calls d w)) (w_asg feat text chk params_ok d w) (c_lhs (w_calls d w)) (w_args feat text chk params_ok d w)
      (w_body feat text chk params_ok names_ok jump_ok use_strict d w)
      (fun kind => var_stmt feat text (w_asg feat text chk params_ok d w) names_ok d kind false) fn_ok class_ok rest_async rest_other d
      (functions_of n) (methods_of n) (blocks_of n) (decls_of n False) Rest (part_frame _ _ _ _) (part_frame _ _ _ _) (part_frame _ _ _ _) (fun nx => part_frame _ _ _ nx) rest_fr
      x_seq x_asg x_lhs x_args x_body RA RO x_var _ _ _ _ H) as (ts & A & B). exists ts. split; [exact A|]. exact (part_up_tight _ _ _ B).
  - destruct (method_at_reads feat text chk (c_seq (w_calls d w)) (w_asg feat text chk params_ok d w) (c_lhs (w_calls d w)) (w_args feat text chk params_ok d w)
      (w_body feat text chk params_ok names_ok jump_ok use_strict d w)
      (fun kind => var_stmt feat text (w_asg feat text chk params_ok d w) names_ok d kind false) fn_ok class_ok rest_async rest_other d
      (functions_of n) (methods_of n) (blocks_of n) (decls_of n False) Rest (part_frame _ _ _ _) (part_frame _ _ _ _) (part_frame _ _ _ _) (fun nx => part_frame _ _ _ nx) rest_fr
      x_seq x_asg x_lhs x_args x_body RA RO x_var _ _ _ _ H) as (ts & A & B). exists ts. split; [exact A|]. exact (part_up_tight _ _ _ B).
  - destruct (block_at_reads feat text chk (c_seq (w_calls d w)) (w_asg feat text chk params_ok d w) (c_lhs (w_calls d w)) (w_args feat text chk params_ok d w)
      (w_body feat text chk params_ok names_ok jump_ok use_strict d w)
      (fun kind => var_stmt feat text (w_asg feat text chk params_ok d w) names_ok d kind false) fn_ok class_ok rest_async rest_other d
      (functions_of n) (methods_of n) (blocks_of n) (decls_of n False) Rest (part_frame _ _ _ _) (part_frame _ _ _ _) (part_frame _ _ _ _) (fun nx => part_frame _ _ _ nx) rest_fr
      x_seq x_asg x_lhs x_args x_body RA RO x_var _ _ _ _ H) as (ts & A & B). exists ts. split; [exact A|]. exact (part_up_tight _ _ _ B).
  - destruct (decl_at_reads feat text chk (c_seq (w_calls d w)) (w_asg feat text chk params_ok d w) (c_lhs (w_calls d w)) (w_args feat text chk params_ok d w)
      (w_body feat text chk params_ok names_ok jump_ok use_strict d w)
      (fun kind => var_stmt feat text (w_asg feat text chk params_ok d w) names_ok d kind false) fn_ok class_ok rest_async rest_other d
      (functions_of n) (methods_of n) (blocks_of n) (decls_of n False) Rest (part_frame _ _ _ _) (part_frame _ _ _ _) (part_frame _ _ _ _) (fun nx => part_frame _ _ _ nx) rest_fr
      x_seq x_asg x_lhs x_args x_body RA RO x_var _ _ _ _ H) as (ts & A & B). exists ts. split; [exact A|]. exact (part_up _ _ _ _ B).
Qed.
(** Imports and exports alone. *)
Lemma grow_import : forall k s f s', import_dec text d k s = POk f s' -> at_tok T_IMPORT s = true ->
  exists ts, read s ts s' /\ spelled text (functions_of n) (methods_of n) (blocks_of n) (decls_of n False) Rest True True ADecl f ts (peek s').
Proof.
  intros k s f s' H A.
  exact (import_reads feat text chk (c_seq (w_calls d w)) (w_asg feat text chk params_ok d w) (c_lhs (w_calls d w)) (w_args feat text chk params_ok d w)
      (w_body feat text chk params_ok names_ok jump_ok use_strict d w)
      (fun kind => var_stmt feat text (w_asg feat text chk params_ok d w) names_ok d kind false) fn_ok class_ok rest_async rest_other d
      (functions_of n) (methods_of n) (blocks_of n) (decls_of n False) Rest (part_frame _ _ _ _) (part_frame _ _ _ _) (part_frame _ _ _ _) (fun nx => part_frame _ _ _ nx) rest_fr
      x_seq x_asg x_lhs x_args x_body (proj1 rest_ok) (proj2 rest_ok) x_var _ _ _ _ H A).
Qed.
Lemma grow_export : forall k s f s', export_dec feat text chk (c_seq (w_calls d w)) (w_asg feat text chk params_ok d w) (c_lhs (w_calls d w)) (w_args feat text chk params_ok d w)
      (w_body feat text chk params_ok names_ok jump_ok use_strict d w)
      (fun kind => var_stmt feat text (w_asg feat text chk params_ok d w) names_ok d kind false) fn_ok class_ok rest_async d k s = POk f s' -> at_tok T_EXPORT s = true ->
  exists ts, read s ts s' /\ spelled text (functions_of n) (methods_of n) (blocks_of n) (decls_of n False) Rest True True ADecl f ts (peek s').
Proof.
  intros k s f s' H A.
  exact (export_reads feat text chk (c_seq (w_calls d w)) (w_asg feat text chk params_ok d w) (c_lhs (w_calls d w)) (w_args feat text chk params_ok d w)
      (w_body feat text chk params_ok names_ok jump_ok use_strict d w)
      (fun kind => var_stmt feat text (w_asg feat text chk params_ok d w) names_ok d kind false) fn_ok class_ok rest_async rest_other d
      (functions_of n) (methods_of n) (blocks_of n) (decls_of n False) Rest (part_frame _ _ _ _) (part_frame _ _ _ _) (part_frame _ _ _ _) (fun nx => part_frame _ _ _ nx) rest_fr
      x_seq x_asg x_lhs x_args x_body (proj1 rest_ok) (proj2 rest_ok) x_var _ _ _ _ H A).
Qed.
End Step.

Lemma world_reads : forall n, reads_world n (world_at n).
Proof.
  induction n as [|n IH]; [constructor; discriminate|]. exact (grow_reads n _ IH n).
Qed.
Theorem parse_reads : forall n k s l s',
  parse feat text chk params_ok names_ok jump_ok use_strict fn_ok class_ok rest_async rest_other n k s = POk l s' ->
  exists ts, read s ts s' /\ pval s' = T_EOF /\
    StmtSpec.stats text (functions_of n) (methods_of n) (blocks_of n) (decls_of n False) True False l ts (peek s').
Proof. intros n k s l s' H. exact (x_program n _ (world_reads n) n _ _ _ _ _ H). Qed.
Theorem parse_expr_reads : forall n k s e s',
  parse_expr feat text chk params_ok names_ok jump_ok use_strict fn_ok class_ok rest_async rest_other n k s = POk e s' ->
  exists ts, read s ts s' /\ StmtSpec.full text (functions_of n) (methods_of n) (blocks_of n) True e ts.
Proof. intros n k s e s' H. exact (x_seq n _ (world_reads n) n _ _ _ _ H). Qed.
End World.
