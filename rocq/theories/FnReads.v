(** What the parser of functions and classes reads is what its tree spells. *)
From Coq Require Import Lia ZifyBool ZifyNat ZifyN.
From Verif Require Import Base TokenModel LexModel ParseBase BinModel BinSpec SymtabModel EarlyModel ExprModel ExprSpec ExprProofs ExprPlaces ExprReads
  StmtModel StmtSpec StmtReads FnModel FnSpec.
Set Default Proof Using "All".

(** Scopes of functions do not inherit that they are methods. *)
Lemma has_or : forall a b m, has (N.lor a b) m = has a m || has b m.
Proof.
  intros a b m. unfold has. rewrite N.land_lor_distr_l. destruct (N.eqb_spec (N.land a m) 0) as [A|A]; cbn [negb orb].
  - rewrite A. rewrite N.lor_0_l. reflexivity.
  - destruct (N.eqb_spec (N.lor (N.land a m) (N.land b m)) 0) as [B|B]; [|reflexivity].
    apply N.lor_eq_0_iff in B as [B _]. contradiction.
Qed.
Lemma entered_method : forall k, has (entered_kind k true false) SPK_METHOD = false.
Proof.
  intro k. unfold entered_kind.
  repeat match goal with |- context [if ?c then N.lor ?x ?m else ?x] => replace (if c then N.lor x m else x) with (N.lor x (if c then m else 0)%N) by (destruct c; [reflexivity|apply N.lor_0_r]) end.
  rewrite ?has_or.
  repeat match goal with |- context [has (if ?c then ?m else 0)%N SPK_METHOD] => replace (has (if c then m else 0)%N SPK_METHOD) with false by (destruct c; reflexivity) end.
  reflexivity.
Qed.
Lemma fn_param_kind : forall k a g, has (param_kind (fn_kind k a g)) SPK_METHOD = false.
Proof.
  intros k a g. unfold param_kind, fn_kind. rewrite has_or. destruct a, g; rewrite ?has_or, entered_method; reflexivity.
Qed.

(** The checks of members. *)
Lemma key_is_spec : forall text key esc n, key_is text key esc n = true <-> spelt text key esc n.
Proof.
  intros text key esc n. destruct key; cbn [key_is spelt]; try (split; [discriminate|contradiction]).
  - rewrite Bool.andb_true_iff, bytes_eqb_spec, tv_eqb_spec. reflexivity.
  - rewrite Bool.andb_true_iff, bytes_eqb_spec, Bool.negb_true_iff. reflexivity.
Qed.
Lemma key_is_not : forall text key esc n, key_is text key esc n = false <-> ~ spelt text key esc n.
Proof. intros. rewrite <- key_is_spec. destruct (key_is text key esc n); split; congruence. Qed.
Lemma is_ctor_spec : forall text m, is_ctor text m = true <-> constructs text m.
Proof. intros text [m|r key c e st v|r l]; cbn [is_ctor constructs]; [apply key_is_spec|split; [discriminate|contradiction]..]. Qed.
Lemma private_spec : forall m n, private_name m = Some n <-> private_key m n.
Proof.
  intros [[]|r key c e st v|r l] n; unfold private_key; cbn.
  - destruct m_key; try (split; [discriminate|intros (? & ? & Q); discriminate Q]). destruct pvt.
    + split; [intro Q; injection Q as ->; eauto|intros (? & ? & Q); injection Q as -> -> ->; reflexivity].
    + split; [discriminate|intros (? & ? & Q); discriminate Q].
  - destruct key; try (split; [discriminate|intros (? & ? & Q); discriminate Q]). destruct pvt.
    + split; [intro Q; injection Q as ->; eauto|intros (? & ? & Q); injection Q as -> -> ->; reflexivity].
    + split; [discriminate|intros (? & ? & Q); discriminate Q].
  - split; [discriminate|intros (? & ? & [])].
Qed.
Lemma named_spec : forall n m, named n m = true <-> private_key m n.
Proof.
  intros n m. unfold named. rewrite <- private_spec. destruct (private_name m) as [p|]; [|split; discriminate].
  rewrite bytes_eqb_spec. split; [intros ->; reflexivity|intro Q; injection Q as ->; reflexivity].
Qed.
Lemma pair_spec : forall a b, pair_ok a b = true -> accessors b a.
Proof.
  intros [a| |] [b| |] H; try discriminate H. cbn in H. rewrite !Bool.andb_true_iff in H. destruct H as [[[A B] C] D].
  exists b, a. split; [reflexivity|]. split; [reflexivity|]. apply Bool.eqb_prop in C. split; [congruence|].
  destruct (m_kind a), (m_kind b); try discriminate; auto.
Qed.
Lemma exists_last' : forall A (l : list A), l = [] \/ exists l' x, l = l' ++ [x].
Proof. intros A l. induction l as [|x l _] using rev_ind; eauto. Qed.
Lemma split_last : forall A (l l' : list A) m a x b y c, l = l' ++ [m] -> l = a ++ x :: b ++ y :: c ->
  (exists c', c = c' ++ [m] /\ l' = a ++ x :: b ++ y :: c') \/ c = [] /\ y = m /\ l' = a ++ x :: b.
Proof.
  intros A l l' m a x b y c H1 H2. destruct (exists_last' _ c) as [->|(c' & z & ->)].
  - right. subst l. replace (a ++ x :: b ++ [y]) with ((a ++ x :: b) ++ [y]) in H2 by (rewrite <- app_assoc; reflexivity).
    apply app_inj_tail in H2 as [-> ->]. auto.
  - left. exists c'. subst l. replace (a ++ x :: b ++ y :: c' ++ [z]) with ((a ++ x :: b ++ y :: c') ++ [z]) in H2.
    + apply app_inj_tail in H2 as [-> ->]. auto.
    + rewrite <- !app_assoc. cbn [app]. rewrite <- !app_assoc. reflexivity.
Qed.
Lemma find_none_app : forall A (f : A -> bool) l l', (forall x, In x l -> f x = false) -> find f (l ++ l') = find f l'.
Proof.
  induction l as [|x l IH]; intros l' H; [reflexivity|]. cbn. rewrite (H x) by (left; reflexivity). apply IH. intros; apply H; right; assumption.
Qed.
Lemma clash_spec : forall text acc m, member_clash text acc m = false -> one_constructor text acc -> private_once acc ->
  one_constructor text (acc ++ [m]) /\ private_once (acc ++ [m]).
Proof.
  intros text acc m H O1 O2. unfold member_clash in H. apply Bool.orb_false_iff in H as [H1 H2]. split.
  - intros a x b y c Q X Y. destruct (split_last _ _ _ _ _ _ _ _ _ eq_refl Q) as [(c' & -> & Q')|(-> & -> & Q')].
    + exact (O1 _ _ _ _ _ Q' X Y).
    + apply is_ctor_spec in Y. rewrite Y in H1. cbn [andb] in H1. apply is_ctor_spec in X.
      assert (Z : existsb (is_ctor text) acc = true) by (apply existsb_exists; exists x; split; [subst acc; apply in_or_app; right; left; reflexivity|exact X]).
      congruence.
  - intros a x b y c n Q X Y N. destruct (split_last _ _ _ _ _ _ _ _ _ eq_refl Q) as [(c' & -> & Q')|(-> & -> & Q')].
    + exact (O2 _ _ _ _ _ _ Q' X Y N).
    + apply private_spec in Y. rewrite Y in H2. subst acc.
      assert (Z : find (named n) (rev (a ++ x :: b)) = Some x).
      { rewrite rev_app_distr. cbn [rev]. rewrite <- app_assoc, find_none_app.
        - cbn. rewrite (proj2 (named_spec n x) X). reflexivity.
        - intros z I. apply in_rev in I. destruct (named n z) eqn:E; [|reflexivity]. apply named_spec in E. destruct (N _ I E). }
      rewrite Z in H2. apply Bool.negb_false_iff in H2. exact (pair_spec _ _ H2).
Qed.

Section Reads.
Variables (feat : N) (text : token -> bytes) (chk : pst -> bool).
Variables (ex asg lhs : N -> pst -> pres expr) (args : N -> pst -> pres (list expr * bool)) (body : N -> pst -> pres stmt)
  (var : tv -> N -> pst -> pres stmt).
Variables (fn_ok : N -> option expr -> list expr -> stmt -> pst -> bool) (class_ok : N -> expr -> pst -> bool).
Variables (rest_async : bool -> N -> pst -> pres rng) (rest_other : N -> pst -> option (pres rng)).
Variable fuel : nat.
Variables (Other Method Block : rng -> list token -> Prop) (Decl : rng -> list token -> token -> Prop) (Rest : sort -> rng -> list token -> Prop).
Hypotheses (other_fr : framed Other) (method_fr : framed Method) (block_fr : framed Block) (decl_fr : forall nx, framed (fun r ts => Decl r ts nx)).
Notation spell := (spell text Other Method Block True).
Notation params_of := (params_of text Other Method Block True).
Notation key_of := (key_of text Other Method Block True).
Notation full := (full text Other Method Block True).
Notation single := (single text Other Method Block True).
Notation binding := (binding text Other Method Block True).
Notation block := (block text Other Method Block Decl True False).
Notation opt_name := (opt_name text).
Notation fparam := (fparam text Other Method Block True).
Notation fparams := (fparams text Other Method Block True).
Notation fbody := (fbody text Other Method Block Decl True).
Notation arrow_head := (arrow_head text Other Method Block True).
Notation lead := (lead text).
Notation mkey := (mkey text Other Method Block True).
Notation method_of := (method_of text Other Method Block Decl True).
Notation value_of := (value_of text Other Method Block True).
Notation member_of := (member_of text Other Method Block Decl True).
Notation members := (members text Other Method Block Decl True).
Notation extends_of := (extends_of text Other Method Block True).
Notation decs := (decs text Other Method Block True).
Notation the_name := (the_name text).
Notation import_one := (import_one text).
Notation import_list := (import_list text).
Notation import_part := (import_part text).
Notation import_head := (import_head text).
Notation import_clause := (import_clause text).
Notation export_one := (export_one text).
Notation export_list := (export_list text).
Notation spelled := (spelled text Other Method Block Decl Rest True True).
Hypothesis rest_fr : rest_framed Rest.
Hypothesis ex_reads : forall k s e s', ex k s = POk e s' -> exists ts, read s ts s' /\ full e ts.
Hypothesis asg_reads : forall k s e s', asg k s = POk e s' -> exists ts, read s ts s' /\ single e ts.
Hypothesis lhs_reads : forall k s e s', lhs k s = POk e s' -> exists n ts, read s ts s' /\ spell false n e ts /\ 6 <= n <= 9.
Hypothesis args_reads : forall k s a tr s', args k s = POk (a, tr) s' ->
  exists l ats h, read s (l :: ats ++ [h]) s' /\ t_val l = T_PAREN_L /\ t_val h = T_PAREN_R /\
    forall k' c ps, snd (args_to_params k' feat c text a) = AOk ps -> params_of ps ats.
Hypothesis body_reads : forall k s b s', body k s = POk b s' -> exists ts, read s ts s' /\ block b ts.
Hypothesis async_reads : forall dec k s r s', rest_async dec k s = POk r s' ->
  exists ts, read s ts s' /\ forall q, q = AFunction /\ dec = false \/ (q = ADecl \/ q = ADefault) /\ dec = true -> Rest q r ts.
Hypothesis other_reads : forall k s r s', rest_other k s = Some (POk r s') -> exists ts, read s ts s' /\ Rest AFunction r ts.
Hypothesis var_reads : forall kind k s st s', var kind k s = POk st s' -> p_buf s = true -> pval s <> T_EOF ->
  exists l ts x, st = SVar (t_lo (peek s), last_hi (ts ++ x)) kind l /\ read s (peek s :: ts ++ x) s' /\ decs l ts /\ semi True (peek s') x.

Local Definition full_ne := n_full_ne text Other Method Block Decl True False other_fr method_fr block_fr decl_fr.
Local Definition single_ne := n_single_ne text Other Method Block Decl True False other_fr method_fr block_fr decl_fr.
Local Definition key_ne' := n_key_ne text Other Method Block Decl True False other_fr method_fr block_fr decl_fr.
Local Definition binding_ne := n_binding_ne text Other Method Block Decl True False other_fr method_fr block_fr decl_fr.
Local Definition decs_ne' := n_decs_ne text Other Method Block Decl True False other_fr method_fr block_fr decl_fr.
Local Definition block_ne' := n_block_ne text Other Method Block Decl True False other_fr method_fr block_fr decl_fr.
Local Definition no_decl : forall (k : N) (s : pst) r s', (fun (_ : N) (_ : pst) => @None (pres rng)) k s = Some (POk r s') ->
  exists ts, read s ts s' /\ Decl r ts (peek s') := fun k s r s' H => match H with eq_refl => I end.
Local Definition always1 {A : Type} (_ : A) : bool := true.
Local Definition always3 {A B C : Type} (_ : A) (_ : B) (_ : C) : bool := true.
Local Definition bind_all := bind_reads feat text chk ex asg _ always3 always3 always1 Other Method Block Decl
  other_fr method_fr block_fr decl_fr ex_reads asg_reads no_decl.
Local Definition id_reads := ident_reads feat text chk ex asg _ always3 always3 always1 Other Method Block Decl
  other_fr method_fr block_fr decl_fr ex_reads asg_reads no_decl.
Local Definition var_ahead := ahead_word feat text chk ex asg _ always3 always3 always1 Other Method Block Decl
  other_fr method_fr block_fr decl_fr ex_reads asg_reads no_decl.
Local Definition name_reads := prop_name_reads feat text chk ex asg _ always3 always3 always1 Other Method Block Decl
  other_fr method_fr block_fr decl_fr ex_reads asg_reads no_decl.
Lemma tok_reads : forall s, pval s <> T_EOF -> read s [peek s] (next s).
Proof. intros s H. apply sp_next. exact H. Qed.

Lemma bind_comma : forall n k s b s', bind feat text asg n false k s = POk b s' ->
  (exists ts, read s ts s' /\ binding b ts) /\ (is_rest b = true -> at_tok T_COMMA s' = false).
Proof.
  intros n k s b s' H. split; [exact (proj1 (bind_all n) false _ _ _ _ H)|]. destruct n as [|n]; [discriminate|]. intro R.
  cbn [bind] in H. cbv zeta in H. match type of H with (if ?c then _ else _) = _ => destruct c; [discriminate|] end. okb H e s1 E. injection H as <- <-.
  destruct (bind_all n) as (I1 & I2 & I3 & I4 & I5).
  rewrite !at_peeked in E.
  destruct (at_tok T_BRACE_L s) eqn:A1; [|destruct (at_tok T_BRACKET_L s) eqn:A2; [|destruct (at_tok T_DOT_TRI s) eqn:A3]].
  - destruct (I3 _ _ _ _ _ _ (next s) [] E (sp_refl _) (fun l' us X => X)) as (ps & ts & h & -> & _). discriminate R.
  - destruct (I5 _ _ _ _ _ _ (next s) [] E (sp_refl _) (fun l' us X => X)) as (ps & ts & h & -> & _). discriminate R.
  - destruct n as [|n]; [discriminate|].
    match type of E with (if ?c then _ else _) = _ => destruct c; [discriminate|] end.
    match type of E with (if ?c then _ else _) = _ => destruct c; [discriminate|] end.
    okb E x s2 E0. destruct (at_tok T_COMMA s2) eqn:C; [discriminate|]. injection E as <- <-. exact C.
  - destruct (id_reads _ _ _ _ E) as (t & kw & -> & -> & _). discriminate R.
Qed.
Lemma fparam_ne : forall this e ts, fparam this e ts -> ts <> [].
Proof. destruct 1; [eapply binding_ne; eassumption|intro Q; apply app_eq_nil in Q as [_ Q]; discriminate Q|discriminate]. Qed.
Lemma param_reads : forall n kind k s p s', param feat text chk asg n kind k s = POk p s' ->
  exists ts, read s ts s' /\ fparam (has k SPK_METHOD = true) p ts /\ (is_rest p = true -> at_tok T_COMMA s' = false).
Proof.
  intros n kind k s p s' H. unfold param in H. cbv zeta in H. rewrite at_peeked in H.
  destruct (has k SPK_METHOD && at_tok T_THIS s) eqn:T.
  - apply Bool.andb_true_iff in T as [T1 T2]. destruct (accessor kind); [discriminate|]. injection H as <- <-.
    exists [peek s]. split; [exact (at_read _ _ T2 eq_refl)|]. split; [|discriminate]. apply FP_this; [exact T1|exact (at_val _ _ T2)].
  - okb H b s1 E. destruct (bind_comma _ _ _ _ _ E) as [(ts & Q1 & Q2) Q3]. destruct (at_tok T_ASSIGN s1) eqn:A.
    + okb H e s2 E0. oka H u E1. oka H u' E2. destruct (is_rest b) eqn:R; [discriminate|]. injection H as <- <-.
      destruct (asg_reads _ _ _ _ E0) as (us & J1 & J2). exists (ts ++ peek s1 :: us).
      split; [exact (sp_trans _ _ _ _ _ Q1 (sp_trans _ _ _ _ _ (at_read _ _ A eq_refl) J1))|]. split; [|discriminate].
      unfold fin. rewrite (sp_end _ _ _ J1 (single_ne _ _ J2)). apply FP_default; auto. exact (at_val _ _ A).
    + injection H as <- <-. exists ts. split; [exact Q1|]. split; [apply FP_bare; exact Q2|]. exact Q3.
Qed.
Lemma loop_reads : forall n kind k acc s l s' s0 ts0, param_loop feat text chk asg fuel n kind k acc s = POk l s' -> read s0 ts0 s ->
  (forall l' us, fparams (has k SPK_METHOD = true) l' us -> fparams (has k SPK_METHOD = true) (acc ++ l') (ts0 ++ us)) ->
  exists ts h, read s0 (ts ++ [h]) s' /\ t_val h = T_PAREN_R /\ fparams (has k SPK_METHOD = true) l ts.
Proof.
  induction n as [|n IH]; intros kind k acc s l s' s0 ts0 H S A; [discriminate|]. cbn [param_loop] in H.
  destruct (at_tok T_PAREN_R s) eqn:B.
  - injection H as <- <-. exists ts0, (peek s). split; [exact (read_snoc _ _ _ _ S B eq_refl)|]. split; [exact (at_val _ _ B)|].
    pose proof (A [] [] (FS_nil _ _ _ _ _ _)) as Z. rewrite !app_nil_r in Z. exact Z.
  - destruct (at_tok T_EOF s); [discriminate|]. okb H p s1 E. destruct (param_reads _ _ _ _ _ _ E) as (ts & Q1 & Q2 & Q3).
    pose proof (sp_trans _ _ _ _ _ S Q1) as S1. destruct (at_tok T_COMMA s1) eqn:C.
    + apply (IH _ _ _ _ _ _ s0 ((ts0 ++ ts) ++ [peek s1]) H (read_snoc _ _ _ _ S1 C eq_refl)).
      intros l' us L. rewrite <- !app_assoc. cbn [app]. apply A. apply FS_more; [exact (at_val _ _ C)| |exact Q2|exact L].
      destruct (is_rest p); [|reflexivity]. specialize (Q3 eq_refl). congruence.
    + destruct (at_tok T_PAREN_R s1) eqn:D; [|discriminate]. injection H as <- <-. exists (ts0 ++ ts), (peek s1).
      split; [exact (read_snoc _ _ _ _ S1 D eq_refl)|]. split; [exact (at_val _ _ D)|]. apply A. apply FS_last; exact Q2.
Qed.
Lemma fparam_imp : forall (P Q : Prop) e ts, (P -> Q) -> fparam P e ts -> fparam Q e ts.
Proof. intros P Q e ts H X. destruct X; [apply FP_bare|apply FP_default|apply FP_this]; auto. Qed.
Lemma fparams_imp : forall (P Q : Prop) l ts, (P -> Q) -> fparams P l ts -> fparams Q l ts.
Proof. intros P Q l ts H X. induction X; [apply FS_nil|apply FS_last|apply FS_more]; eauto using fparam_imp. Qed.
Lemma list_reads : forall kind k s ps s', param_list feat text chk asg fuel kind k s = POk ps s' ->
  exists l pts h, peek s = l /\ read s (l :: pts ++ [h]) s' /\ t_val l = T_PAREN_L /\ t_val h = T_PAREN_R /\ fparams True ps pts /\
    (has (param_kind k) SPK_METHOD = false -> fparams False ps pts).
Proof.
  intros kind k s ps s' H. unfold param_list in H. okb H u s1 E. apply must_ok in E as [E ->].
  destruct (loop_reads _ _ _ _ _ _ _ (next s) [] H (sp_refl _) (fun l' us X => X)) as (pts & h & Q1 & Q2 & Q3).
  exists (peek s), pts, h. split; [reflexivity|]. split; [exact (sp_trans _ _ _ _ _ (at_read _ _ E eq_refl) Q1)|].
  split; [exact (at_val _ _ E)|]. split; [exact Q2|]. split; [eapply fparams_imp; [|exact Q3]; trivial|].
  intro N. eapply fparams_imp; [|exact Q3]. congruence.
Qed.
Lemma fbody_reads : forall ok k s b s', fn_body ex body ok k s = POk b s' -> exists ts, read s ts s' /\ fbody (ok = true) b ts.
Proof.
  intros ok k s b s' H. unfold fn_body in H. destruct (at_tok T_BRACE_L s).
  - destruct (body_reads _ _ _ _ H) as (ts & Q1 & Q2). exists ts. split; [exact Q1|apply FB_block; exact Q2].
  - destruct ok; [|discriminate]. okb H e s1 E. injection H as <- <-. destruct (ex_reads _ _ _ _ E) as (ts & Q1 & Q2).
    exists ts. split; [exact Q1|apply FB_expr; auto].
Qed.
Lemma fbody_imp : forall (P Q : Prop) b ts, (P -> Q) -> fbody P b ts -> fbody Q b ts.
Proof. intros P Q b ts H X. destruct X; [apply FB_block|apply FB_expr]; auto. Qed.
Lemma fbody_ne : forall P b ts, fbody P b ts -> ts <> [].
Proof. destruct 1; [eapply block_ne'; eassumption|eapply full_ne; eassumption]. Qed.

Lemma star_reads : forall s, exists gts, read s gts (if at_tok T_MUL s then next s else s) /\ maybe T_MUL (at_tok T_MUL s) gts.
Proof.
  intro s. destruct (at_tok T_MUL s) eqn:A.
  - exists [peek s]. split; [exact (at_read _ _ A eq_refl)|apply Y_yes; exact (at_val _ _ A)].
  - exists []. split; [exact (sp_refl _)|apply Y_no].
Qed.
Lemma opt_ident : forall k s e s', ident text k s = POk e s' -> exists nts, nts <> [] /\ read s nts s' /\ opt_name (Some e) nts.
Proof.
  intros k s e s' H. destruct (id_reads _ _ _ _ H) as (t & kw & _ & -> & Q1 & -> & Q2). exists [t]. split; [discriminate|].
  split; [exact Q2|apply ON_some; exact Q1].
Qed.
Definition fn_sort (dec anon : bool) : sort := if dec then if anon then ADefault else ADecl else AFunction.
Lemma fn_sort_ok : forall dec anon, fn_sort dec anon = AFunction \/ fn_sort dec anon = ADecl \/ fn_sort dec anon = ADefault.
Proof. intros [] []; auto. Qed.
Definition at_async (s : pst) : Prop := async_word (peek s) /\ t_atl (peek (next s)) = false.
Lemma async_tok : forall s, at_async s -> read s [peek s] (next s).
Proof. intros s (((A & _) & _) & _). apply tok_reads. unfold pval. rewrite A. discriminate. Qed.
Lemma fn_dec_reads : forall dec anon k s f s', fn_dec feat text chk ex asg body fn_ok fuel dec anon k s = POk f s' ->
  at_tok T_FUNC s = true \/ at_async s /\ at_tok T_FUNC (next s) = true -> exists ts, read s ts s' /\ forall nx, spelled (fn_sort dec anon) f ts nx.
Proof.
  intros dec anon k s f s' H W. unfold fn_dec in H. cbv zeta in H.
  assert (J : exists ats fw, read s (ats ++ [fw]) (peeked (next (if negb (at_tok T_FUNC s) then next s else s))) /\
    maybe_async (negb (at_tok T_FUNC s)) ats /\ t_val fw = T_FUNC /\ (negb (at_tok T_FUNC s) = true -> t_atl fw = false) /\
    t_lo (peek s) = first_lo (ats ++ [fw])).
  { destruct (at_tok T_FUNC s) eqn:A; cbn [negb].
    - exists [], (peek s). split; [exact (at_read _ _ A eq_refl)|]. split; [apply YA_no|]. split; [exact (at_val _ _ A)|]. split; [discriminate|reflexivity].
    - destruct W as [W|[W F]]; [discriminate|]. exists [peek s], (peek (next s)).
      split; [exact (sp_trans _ _ _ _ _ (async_tok _ W) (at_read _ _ F eq_refl))|]. destruct W as [W1 W2].
      split; [apply YA_yes; exact W1|]. split; [exact (at_val _ _ F)|]. split; [intros _; exact W2|reflexivity]. }
  set (async := negb (at_tok T_FUNC s)) in *. set (s2 := peeked (next (if async then next s else s))) in *.
  destruct J as (ats & fw & J1 & J2 & J3 & J4 & J5).
  match type of H with (if ?b then _ else _) = _ => destruct b; [discriminate|] end.
  destruct (star_reads s2) as (gts & G1 & G2). set (s3 := if at_tok T_MUL s2 then next s2 else s2) in *.
  okb H name s4 E.
  assert (N : exists nts, read s3 nts s4 /\ opt_name name nts /\ (fn_sort dec anon = ADecl -> name <> None)).
  { destruct (at_tok T_PAREN_L s3).
    - destruct (dec && negb anon) eqn:D; [discriminate|]. injection E as <- <-. exists []. split; [exact (sp_refl _)|].
      split; [apply ON_none|]. destruct dec, anon; discriminate.
    - okb E e s5 E0. injection E as <- <-. destruct (opt_ident _ _ _ _ E0) as (nts & _ & N1 & N2). exists nts.
      split; [exact N1|]. split; [exact N2|discriminate]. }
  destruct N as (nts & N1 & N2 & N3). okb H ps s5 E1.
  match type of H with (if ?b then _ else _) = _ => destruct b; [discriminate|] end. okb H b s6 E2.
  match type of H with (if ?b then _ else _) = _ => destruct b; [|discriminate] end. injection H as <- <-.
  destruct (list_reads _ _ _ _ _ E1) as (l & pts & h & _ & P1 & P2 & P3 & _ & P4). specialize (P4 (fn_param_kind _ _ _)).
  destruct (fbody_reads _ _ _ _ _ E2) as (bts & B1 & B2).
  exists (ats ++ fw :: gts ++ nts ++ l :: pts ++ h :: bts). split.
  - pose proof (sp_trans _ _ _ _ _ J1 (sp_trans _ _ _ _ _ G1 (sp_trans _ _ _ _ _ N1 (sp_trans _ _ _ _ _ P1 B1)))) as Z.
    rewrite <- !app_assoc in Z. cbn [app] in Z. rewrite <- !app_assoc in Z. exact Z.
  - intro nx. unfold fin. rewrite J5, (sp_end _ _ _ B1 (fbody_ne _ _ _ B2)).
    apply F_fn; auto using fn_sort_ok. eapply fbody_imp; [|exact B2]. destruct dec; [discriminate|reflexivity].
Qed.
Lemma arrow_reads : forall dec anon k s o s', async_arrow feat text chk ex args body fn_ok dec k s = POk o s' -> at_async s ->
  match o with Some f => exists ts, read s ts s' /\ spelled (fn_sort dec anon) f ts (peek s') | None => True end.
Proof.
  intros dec anon k s o s' H W. unfold async_arrow in H. cbv zeta in H.
  match type of H with (if ?b then _ else _) = _ => destruct b; [discriminate|] end.
  destruct (star_reads (peeked (next s))) as (gts & G1 & G2). set (s2 := if at_tok T_MUL (peeked (next s)) then next (peeked (next s)) else peeked (next s)) in *.
  okb H x s4 E.
  assert (J : forall k' c ps, snd (args_to_params k' feat c text (snd x)) = AOk ps -> exists hts, hts <> [] /\ read s2 hts s4 /\ arrow_head ps hts).
  { intros k' c ps Q. destruct (at_tok T_PAREN_L s2).
    - okb E a s3 E0. injection E as <- <-. okb E0 a' s5 E1. injection E0 as <- <-. destruct a' as [a tr]. cbn [fst snd] in Q.
      destruct (args_reads _ _ _ _ _ E1) as (l & ats & h & P1 & P2 & P3 & P4). exists ([] ++ l :: ats ++ [h]). split; [discriminate|].
      split; [exact P1|]. eapply AH_list; eauto. apply ON_none.
    - okb E e s3 E0. okb E a s5 E1. injection E as <- <-. cbn [snd] in Q.
      destruct (opt_ident _ _ _ _ E0) as (nts & NN & N1 & N2).
      destruct (at_tok T_ARROW s3 && negb (t_atl (peek s3))).
      + injection E1 as <- <-. exists nts. split; [exact NN|]. split; [exact N1|]. inversion N2; subst.
        unfold args_to_params in Q. cbn [stop_map arg_to_param] in Q.
        match type of Q with context [if ?b then _ else _] => destruct b; cbn in Q; [discriminate|injection Q as <-] end. apply AH_name. exact N2.
      + okb E1 a' s6 E2. injection E1 as <- <-. destruct a' as [a tr]. cbn [fst] in *.
        destruct (args_reads _ _ _ _ _ E2) as (l & ats & h & P1 & P2 & P3 & P4). exists (nts ++ l :: ats ++ [h]).
        split; [intro Z; apply app_eq_nil in Z as [_ Z]; discriminate Z|].
        split; [exact (sp_trans _ _ _ _ _ N1 P1)|]. eapply AH_list; eauto. }
  destruct x as [name a]. cbn [snd] in J. destruct (at_tok T_ARROW s4 && negb (t_atl (peek s4))) eqn:A; [|injection H as <- <-; exact I].
  apply Bool.andb_true_iff in A as [A1 A2]. apply Bool.negb_true_iff in A2. oka H ps E1. okb H b s6 E2.
  match type of H with (if ?b then _ else _) = _ => destruct b; [|discriminate] end.
  destruct (J _ _ _ E1) as (hts & HN & H1 & H2). destruct (fbody_reads _ _ _ _ _ E2) as (bts & B1 & B2).
  pose proof (fbody_imp _ True _ _ (fun _ => I) B2) as B3.
  assert (R : read s (peek s :: gts ++ hts ++ peek s4 :: bts) s6).
  { pose proof (sp_trans _ _ _ _ _ (async_tok _ W) (sp_trans _ _ _ _ _ G1 (sp_trans _ _ _ _ _ H1 (sp_trans _ _ _ _ _ (at_read _ _ A1 eq_refl) B1)))) as Z. exact Z. }
  assert (T : t_atl (hd (peek s4) (gts ++ hts)) = false).
  { destruct W as [_ W]. pose proof (sp_trans _ _ _ _ _ G1 H1) as Z. rewrite (sp_hd _ _ _ (peek s4) Z); [exact W|].
    intro Q. apply app_eq_nil in Q as [_ Q]. contradiction. }
  destruct W as [W1 W2]. unfold fin in H. rewrite (sp_end _ _ _ B1 (fbody_ne _ _ _ B2)) in H.
  destruct dec.
  - okb H u s7 E3. injection H as <- <-. destruct (semi_read _ _ _ E3) as (y & X1 & X2).
    exists (peek s :: gts ++ hts ++ peek s4 :: bts ++ y). split.
    + pose proof (sp_trans _ _ _ _ _ R X1) as Z. cbn [app] in Z. rewrite <- !app_assoc in Z. cbn [app] in Z. exact Z.
    + rewrite (sp_end _ _ _ (sp_trans _ _ _ _ _ B1 X1)) by (intro Q; apply app_eq_nil in Q as [Q _]; exact (fbody_ne _ _ _ B2 Q)).
      eapply F_arrow_stmt; eauto; [destruct anon; auto|exact (at_val _ _ A1)].
  - injection H as <- <-. exists (peek s :: gts ++ hts ++ peek s4 :: bts). split; [exact R|].
    eapply F_arrow; eauto. exact (at_val _ _ A1).
Qed.
Lemma key_at_reads : forall pvt k s key computed esc s', key_at text asg pvt k s = POk (key, computed, esc) s' ->
  exists kts, kts <> [] /\ read s kts s' /\ mkey (pvt = true) key computed kts /\ esc = key_escape kts.
Proof.
  intros pvt k s key computed esc s' H. unfold key_at in H. cbv zeta in H. destruct (pvt && at_tok T_NAME_PVT s) eqn:A.
  - apply Bool.andb_true_iff in A as [A1 A2]. injection H as <- <- <- <-. exists [peek s]. split; [discriminate|].
    split; [exact (at_read _ _ A2 eq_refl)|]. split; [|reflexivity]. apply MK_private; [exact A1|exact (at_val _ _ A2)].
  - okb H x s1 E. injection H as -> <- <-. destruct (name_reads _ _ _ _ _ E) as (kts & Q1 & Q2).
    exists kts. split; [exact (key_ne' _ _ _ _ Q2)|]. split; [exact Q1|]. split; [apply MK_key; exact Q2|].
    unfold key_tok, prop_name in *. cbv zeta in E. destruct (at_tok T_BRACKET_L s) eqn:B.
    + assert (B' : forall v, v <> T_BRACKET_L -> at_tok v s = false).
      { intros v N. unfold at_tok in *. destruct (tv_eqb (pval s) v) eqn:Z; [|reflexivity].
        apply tv_eqb_spec in Z. apply tv_eqb_spec in B. congruence. }
      rewrite !B' in E by discriminate. okb E a s2 E0. okb E u s3 E1. injection E as <- <- <-. apply must_ok in E1 as [E1 ->].
      destruct (asg_reads _ _ _ _ E0) as (ts & J1 & J2). pose proof (single_ne _ _ J2) as NE.
      pose proof (sp_trans _ _ _ _ _ (at_read _ _ B eq_refl) (read_snoc _ _ _ _ J1 E1 eq_refl)) as Z.
      assert (kts = [peek s] ++ ts ++ [peek s2]) as ->.
      { destruct Q1 as (Q1 & _), Z as (Z & _). rewrite Q1 in Z. apply app_inv_tail in Z. exact Z. }
      rewrite <- (sp_hd _ _ _ (peek s) J1 NE). destruct ts; [contradiction|]. reflexivity.
    + assert (J : s1 = next s).
      { destruct (at_tok T_STRING s); [match type of E with (if ?b then _ else _) = _ => destruct b; [discriminate|] end; injection E as _ _ <-; reflexivity|].
        destruct (at_tok T_NUM s); [injection E as _ _ <-; reflexivity|].
        destruct (can_be_key (peek s)); [|discriminate].
        match type of E with (if ?b then _ else _) = _ => destruct b; [discriminate|] end. injection E as _ _ <-. reflexivity. }
      subst s1. assert (kts = [peek s]) as ->; [|reflexivity].
      destruct kts as [|t kts]; [destruct (key_ne' _ _ _ _ Q2 eq_refl)|]. destruct Q1 as (Q1 & _). unfold peek, next in *. cbn [p_toks] in Q1.
      destruct (p_toks s) as [|t0 r]; [discriminate Q1|]. cbn [tl app] in Q1. injection Q1 as -> Q1.
      destruct kts as [|t' kts]; [reflexivity|]. apply (f_equal (@length token)) in Q1. cbn in Q1. rewrite app_length in Q1. lia.
Qed.
(** After its key. *)
Definition has_rest (m : meth) (s : pst) (rts : list token) (s' : pst) : Prop :=
  exists l pts h bts, peek s = l /\ rts = l :: pts ++ h :: bts /\ read s rts s' /\ t_val l = T_PAREN_L /\ t_val h = T_PAREN_R /\
    fparams True (m_params m) pts /\ block (m_body m) bts /\ m_fn m = (t_lo l, last_hi bts) /\ snd (m_rng m) = last_hi bts.
Lemma rest_reads : forall inclass static async gen kind l k key computed esc s m s',
  method_rest feat text chk ex asg body fn_ok fuel inclass static async gen kind l k key computed esc s = POk m s' ->
  exists rts, has_rest m s rts s' /\ m = mk_meth (l, snd (m_rng m)) (m_fn m) kind static async gen key computed esc (m_params m) (m_body m) /\
    method_ok text (inclass = true) m.
Proof.
  intros inclass static async gen kind l k key computed esc s m s' H. unfold method_rest in H. cbv zeta in H.
  match type of H with (if ?b then _ else _) = _ => destruct b eqn:C1; [discriminate|] end. okb H ps s1 E.
  match type of H with (if ?b then _ else _) = _ => destruct b eqn:C2; [discriminate|] end. okb H b s2 E1.
  match type of H with (if ?b then _ else _) = _ => destruct b; [discriminate|] end.
  match type of H with (if ?b then _ else _) = _ => destruct b eqn:C3; [discriminate|] end. injection H as <- <-.
  apply Bool.negb_false_iff in C2.
  destruct (list_reads _ _ _ _ _ E) as (p & pts & h & P0 & P1 & P2 & P3 & P4 & _).
  destruct (fbody_reads _ _ _ _ _ E1) as (bts & B1 & B2).
  assert (B3 : block b bts) by (inversion B2; [assumption|discriminate]).
  exists (p :: pts ++ h :: bts). split; [|split; [reflexivity|]].
  - exists p, pts, h, bts. cbn [m_params m_body m_fn m_rng snd]. split; [exact P0|]. split; [reflexivity|].
    pose proof (sp_trans _ _ _ _ _ P1 B1) as Z. cbn [app] in Z. rewrite <- !app_assoc in Z. cbn [app] in Z. split; [exact Z|].
    split; [exact P2|]. split; [exact P3|]. split; [exact P4|]. split; [exact B3|]. unfold fin.
    rewrite (sp_end _ _ _ B1 (fbody_ne _ _ _ B2)). change (peek (peeked s)) with (peek s) in *. subst p. split; reflexivity.
  - unfold method_ok. cbn [m_kind m_params m_key m_esc m_computed m_async m_gen m_static]. split; [|split; [|split]].
    + intros ->. destruct ps; [reflexivity|discriminate C2].
    + intros ->. destruct ps as [|p0 [|]]; try discriminate C2. exists p0. split; [reflexivity|]. apply Bool.negb_true_iff in C2. exact C2.
    + intros K ->. apply key_is_spec in K. rewrite K in C1. cbn [andb negb] in C1.
      apply Bool.orb_false_iff in C1 as [C1 ->]. apply Bool.orb_false_iff in C1 as [C1 ->]. destruct kind; try discriminate C1; repeat split; discriminate.
    + intros -> ->. cbn [andb] in C3. apply key_is_not. exact C3.
Qed.
(** With its key. *)
Lemma new_reads : forall inclass static async gen kind l k s m s',
  method_new feat text chk ex asg body fn_ok fuel inclass static async gen kind l k s = POk m s' ->
  (async = true -> at_async s) -> (async = false -> gen = true -> at_tok T_MUL s = true) ->
  exists gen' ats key computed kts s1 rts, kts <> [] /\ read s (ats ++ kts) s1 /\ mkey (inclass = true) key computed kts /\ has_rest m s1 rts s' /\
    m = mk_meth (l, snd (m_rng m)) (m_fn m) kind static async gen' key computed (key_escape kts) (m_params m) (m_body m) /\
    method_ok text (inclass = true) m /\ (async || gen = true -> lead async gen' kind ats) /\ (async || gen = false -> gen' = false /\ ats = []) /\
    (async = true -> forall d, t_atl (hd d (tl ats ++ kts)) = false).
Proof.
  intros inclass static async gen kind l k s m s' H W1 W2. unfold method_new in H. cbv zeta in H.
  match type of H with (if ?b then _ else _) = _ => destruct b; [discriminate|] end.
  set (s1 := if async then next s else s) in *. set (gen' := if async then at_tok T_MUL s1 else gen) in *. set (s2 := if gen' then next s1 else s1) in *.
  okb H x s3 E. destruct x as [[key computed] esc].
  destruct (key_at_reads _ _ _ _ _ _ _ E) as (kts & K0 & K1 & K2 & ->).
  destruct (rest_reads _ _ _ _ _ _ _ _ _ _ _ _ _ H) as (rts & R1 & R2 & R3).
  assert (J : exists ats, read s ats s2 /\ (async || gen = true -> lead async gen' kind ats) /\ (async || gen = false -> gen' = false /\ ats = []) /\
    (async = true -> forall d, t_atl (hd d (tl ats ++ kts)) = false)).
  { destruct async; cbn [orb] in *.
    - specialize (W1 eq_refl). destruct (star_reads s1) as (gts & G1 & G2). exists ([peek s] ++ gts).
      split; [refine (sp_trans _ _ _ _ _ (async_tok _ W1) G1)|].
      split; [intros _|split; [discriminate|]].
      + destruct W1 as [W1 _]. subst gen'. destruct G2; [apply LD_async|apply LD_async_star]; assumption.
      + intros _ d. cbn [tl app]. rewrite (sp_hd s1 (gts ++ kts) s3).
        * exact (proj2 W1).
        * exact (sp_trans _ _ _ _ _ G1 K1).
        * intro Q. apply app_eq_nil in Q as [_ Q]. contradiction.
    - destruct gen.
      + specialize (W2 eq_refl eq_refl). exists [peek s]. split; [exact (at_read _ _ W2 eq_refl)|]. split; [|split; discriminate].
        intros _. apply LD_star. exact (at_val _ _ W2).
      + exists []. split; [exact (sp_refl _)|]. split; [discriminate|]. split; [auto|discriminate]. }
  destruct J as (ats & J1 & J2 & J3 & J4). exists gen', ats, key, computed, kts, s3, rts.
  split; [exact K0|]. split; [exact (sp_trans _ _ _ _ _ J1 K1)|]. auto 10.
Qed.
Lemma mkey_imp : forall (P Q : Prop) e c ts, (P -> Q) -> mkey P e c ts -> mkey Q e c ts.
Proof. intros P Q e c ts H X. destruct X; [apply MK_key|apply MK_private]; auto. Qed.
Lemma build : forall (inclass : Prop) m s0 sts static async gen kind ats key computed kts s rts s',
  read s0 (sts ++ ats ++ kts) s -> maybe T_STATIC static sts -> (static = true -> inclass) -> lead async gen kind ats ->
  mkey inclass key computed kts -> mkind_ok text inclass kind key -> (async = true -> forall d, t_atl (hd d (tl ats ++ kts)) = false) ->
  has_rest m s rts s' ->
  m = mk_meth (first_lo (sts ++ ats ++ kts), snd (m_rng m)) (m_fn m) kind static async gen key computed (key_escape kts) (m_params m) (m_body m) ->
  exists ts, read s0 ts s' /\ method_of inclass m ts.
Proof.
  intros inclass m s0 sts static async gen kind ats key computed kts s rts s' R S1 S2 L K KK A (l & pts & h & bts & _ & -> & H2 & H3 & H4 & H5 & H6 & H7 & H8) E.
  exists (sts ++ ats ++ kts ++ l :: pts ++ h :: bts). split.
  - pose proof (sp_trans _ _ _ _ _ R H2) as Z. rewrite <- !app_assoc in Z. exact Z.
  - rewrite E, H7, H8. apply ME_method; auto.
Qed.
Lemma field_reads : forall static l k key computed esc s m s' s0 sts kts,
  field_rest feat text chk ex asg body fn_ok fuel static l k key computed esc s = POk m s' -> read s0 (sts ++ kts) s ->
  maybe T_STATIC static sts -> mkey True key computed kts -> kts <> [] -> esc = key_escape kts -> l = first_lo (sts ++ kts) ->
  exists ts, read s0 ts s' /\ member_of m ts /\ member_ok text m.
Proof.
  intros static l k key computed esc s m s' s0 sts kts H R S1 K KN -> ->. unfold field_rest in H. cbv zeta in H.
  assert (F : forall v s2 m vts x s', (if static && key_is text key (key_escape kts) (bs "prototype") then PErr
      else if key_is text key (key_escape kts) (bs "constructor") then PErr
      else POk (MField (fin (first_lo (sts ++ kts)) s2) key computed (key_escape kts) static v) s2) = POk m s' ->
    read s (vts ++ x) s2 -> value_of v vts -> semi_or_none x -> exists ts, read s0 ts s' /\ member_of m ts /\ member_ok text m).
  { intros v s2 m0 vts x s2' Q R2 V X. destruct (static && key_is text key (key_escape kts) (bs "prototype")) eqn:C1; [discriminate|].
    destruct (key_is text key (key_escape kts) (bs "constructor")) eqn:C2; [discriminate|]. injection Q as <- <-.
    exists (sts ++ kts ++ vts ++ x). split; [|split].
    - pose proof (sp_trans _ _ _ _ _ R R2) as Z. rewrite <- !app_assoc in Z. exact Z.
    - unfold fin. replace (p_end s2) with (last_hi (kts ++ vts ++ x)); [apply CE_field; assumption|].
      assert (Z0 : kts ++ vts ++ x <> []) by (intro Z; apply app_eq_nil in Z as [Z _]; contradiction).
      pose proof (sp_trans _ _ _ _ _ R R2) as Z. rewrite <- app_assoc in Z. rewrite (sp_end _ _ _ Z).
      + destruct S1; [reflexivity|]. symmetry. apply last_hi_cons. exact Z0.
      + intro Q. apply app_eq_nil in Q as [_ Q]. contradiction.
    - split; [apply key_is_not; exact C2|]. intros ->. apply key_is_not. exact C1. }
  assert (SN : forall s2 u s3, advance_if_semi false s2 = POk u s3 -> exists x, read s2 x s3 /\ semi_or_none x).
  { intros s2 u s3 E. destruct (maybe_semi_read _ _ _ E) as (x & X1 & X2). exists x. split; [exact X1|].
    destruct X2; [right; eauto|left; reflexivity]. }
  destruct (at_tok T_ASSIGN s) eqn:A.
  - okb H v s1 E. okb H u s2 E1. oka H u' E2. destruct (asg_reads _ _ _ _ E) as (vts & V1 & V2).
    destruct (SN _ _ _ E1) as (x & X1 & X2). apply (F _ _ _ (peek s :: vts) x _ H); [|apply VA_some; [exact (at_val _ _ A)|exact V2]|exact X2].
    exact (sp_trans _ _ _ _ _ (sp_trans _ _ _ _ _ (at_read _ _ A eq_refl) V1) X1).
  - destruct (at_tok T_PAREN_L s) eqn:B.
    + okb H m0 s1 E. injection H as <- <-. destruct (rest_reads _ _ _ _ _ _ _ _ _ _ _ _ _ E) as (rts & R1 & R2 & R3).
      destruct (build True m0 s0 sts static false false KMethod [] key computed kts s rts s1) as (ts & T1 & T2); auto; try discriminate.
      * apply LD_none; discriminate.
      * exact I.
      * exists ts. split; [exact T1|]. split; [apply CE_method; exact T2|]. destruct R3 as (R3 & R4 & R5 & R6).
        split; [exact R3|]. split; [exact R4|]. split; [exact R5|]. intros _. exact (R6 eq_refl).
    + okb H u s1 E1. destruct (SN _ _ _ E1) as (x & X1 & X2). apply (F _ _ _ [] x _ H); [exact X1|apply VA_none|exact X2].
Qed.
Lemma async_ahead : forall k prop pvt s, ahead_async feat k prop pvt s = true -> contains_escape (peek s) = false -> at_async s.
Proof.
  intros k prop pvt s H E. unfold ahead_async in H. rewrite !Bool.andb_true_iff in H. destruct H as [[_ H1] [H2 _]].
  unfold is_name in H1. rewrite !Bool.andb_true_iff in H1. destruct H1 as [[H1 H3] _]. apply tv_eqb_spec in H1. apply bytes_eqb_spec in H3.
  apply Bool.negb_true_iff in H2. split; [|exact H2]. split; [split; assumption|exact E].
Qed.
Lemma first_of : forall s us s1 sts, read s us s1 -> us <> [] -> t_lo (hd (peek s) sts) = first_lo (sts ++ us).
Proof. intros s us s1 sts R N. destruct sts; [|reflexivity]. exact (sp_first _ _ _ R N). Qed.
Lemma method_ok_imp : forall (P Q : Prop) m, (Q -> P) -> method_ok text P m -> method_ok text Q m.
Proof. intros P Q m H (A & B & C & D). unfold method_ok. auto 6. Qed.
Lemma elem_reads : forall static k s m s' s0 sts,
  elem_rest feat text chk ex asg body fn_ok fuel static (t_lo (hd (peek s) sts)) k s = POk m s' -> read s0 sts s -> maybe T_STATIC static sts ->
  exists ts, read s0 ts s' /\ member_of m ts /\ member_ok text m.
Proof.
  intros static k s m s' s0 sts H R S1. unfold elem_rest in H. cbv zeta in H.
  assert (M : forall (m0 : meth), method_ok text (true = true) m0 -> forall ts, method_of True m0 ts -> member_of (MMethod m0) ts /\ member_ok text (MMethod m0)).
  { intros m0 R3 ts T. split; [apply CE_method; exact T|]. exact (method_ok_imp _ True _ (fun _ => eq_refl) R3). }
  destruct (ahead_async feat k true true s) eqn:A; [|destruct (at_tok T_MUL s) eqn:A1; [|
    destruct (at_tok T_NAME s || at_tok T_STRING s || is_kw (t_val (peek s))) eqn:A2]].
  - destruct (contains_escape (peek s)) eqn:C; [discriminate|]. pose proof (async_ahead _ _ _ _ A C) as AW.
    unfold as_member in H. okb H m0 s1 E. injection H as <- <-.
    destruct (new_reads _ _ _ _ _ _ _ _ _ _ E (fun _ => AW)) as (gen' & ats & key & computed & kts & s2 & rts & N0 & N1 & N2 & N3 & N4 & N5 & N6 & N7 & N8); [discriminate|].
    specialize (N6 eq_refl). rewrite (first_of _ _ _ sts N1) in N4 by (intro Q; apply app_eq_nil in Q as [_ Q]; contradiction).
    destruct (build True m0 s0 sts static true gen' KMethod ats key computed kts s2 rts s1) as (ts & T1 & T2); auto.
    + exact (sp_trans _ _ _ _ _ R N1).
    + eapply mkey_imp; [|exact N2]; trivial.
    + exact I.
    + exists ts. split; [exact T1|]. exact (M _ N5 _ T2).
  - match type of H with (if ?b then _ else _) = _ => destruct b; [discriminate|] end.
    unfold as_member in H. okb H m0 s1 E. injection H as <- <-.
    destruct (new_reads _ _ _ _ _ _ _ _ _ _ E) as (gen' & ats & key & computed & kts & s2 & rts & N0 & N1 & N2 & N3 & N4 & N5 & N6 & N7 & N8); [discriminate|auto|].
    specialize (N6 eq_refl). rewrite (first_of _ _ _ sts N1) in N4 by (intro Q; apply app_eq_nil in Q as [_ Q]; contradiction).
    destruct (build True m0 s0 sts static false gen' KMethod ats key computed kts s2 rts s1) as (ts & T1 & T2); auto.
    + exact (sp_trans _ _ _ _ _ R N1).
    + eapply mkey_imp; [|exact N2]; trivial.
    + exact I.
    + exists ts. split; [exact T1|]. exact (M _ N5 _ T2).
  - set (key := if at_tok T_STRING s then ELit _ _ else _) in *.
    assert (NE : pval s <> T_EOF).
    { intro Q. unfold at_tok in A2. unfold pval in *. rewrite Q in A2. discriminate A2. }
    assert (K : can_be_key (peek s) = true \/ t_val (peek s) = T_STRING).
    { apply Bool.orb_true_iff in A2 as [A2|A2]; [apply Bool.orb_true_iff in A2 as [A2|A2]; [left|right; exact (at_val _ _ A2)]|left]; unfold can_be_key.
      - rewrite (at_val _ _ A2). reflexivity.
      - rewrite A2. rewrite !Bool.orb_true_r. reflexivity. }
    assert (KK : key_of false key false [peek s]).
    { subst key. unfold fin. cbn [p_end peeked next p_prev]. destruct (at_tok T_STRING s) eqn:B.
      - apply K_lit. left. exact (at_val _ _ B).
      - apply K_name. destruct K as [K|K]; [exact K|]. unfold at_tok, pval in B. rewrite K in B. discriminate B. }
    pose proof (sp_trans _ _ _ _ _ R (tok_reads _ NE)) as R1.
    destruct (is_field feat _ _).
    + apply (field_reads _ _ _ _ _ _ _ _ _ s0 sts [peek s] H R1 S1); auto; [apply MK_key; exact KK|discriminate|].
      destruct sts; reflexivity.
    + destruct (at_tok T_PAREN_L (peeked (next s))) eqn:B.
      * unfold as_member in H. okb H m0 s1 E. injection H as <- <-. destruct (rest_reads _ _ _ _ _ _ _ _ _ _ _ _ _ E) as (rts & J1 & J2 & J3).
        rewrite (first_of _ _ _ sts (tok_reads _ NE)) in J2 by discriminate.
        match type of J2 with _ = mk_meth _ _ ?kd _ _ _ _ _ _ _ _ => set (kind := kd) in * end.
        destruct (build True m0 s0 sts static false false kind [] key false [peek s] (peeked (next s)) rts s1) as (ts & T1 & T2); auto; try discriminate.
        -- apply LD_none; subst kind; destruct (bytes_eqb (text (peek s)) (bs "constructor")); discriminate.
        -- apply MK_key; exact KK.
        -- subst kind key. destruct (bytes_eqb (text (peek s)) (bs "constructor")) eqn:Z; [|exact I]. apply bytes_eqb_spec in Z.
           split; [exact I|]. destruct (at_tok T_STRING s); eexists; [right; eauto|left; rewrite Z; eauto].
        -- exists ts. split; [exact T1|]. exact (M _ J3 _ T2).
      * assert (Acc : forall kind, lead false false kind [peek s] -> mkind_ok text True kind key -> (kind = KGet \/ kind = KSet) ->
          as_member (method_new feat text chk ex asg body fn_ok fuel true static false false kind (t_lo (hd (peek s) sts)) k (peeked (next s))) = POk m s' ->
          exists ts, read s0 ts s' /\ member_of m ts /\ member_ok text m).
        { clear H. intros kind LD MO KD H. unfold as_member in H. okb H m0 s1 E. injection H as <- <-.
          destruct (new_reads _ _ _ _ _ _ _ _ _ _ E) as (gen' & ats & key' & computed & kts & s2 & rts & N0 & N1 & N2 & N3 & N4 & N5 & _ & N7 & N8); [discriminate..|].
          destruct (N7 eq_refl) as [-> ->]. cbn [app] in N1.
          rewrite (first_of _ _ _ sts (sp_trans _ _ _ _ _ (tok_reads _ NE) N1)) in N4 by discriminate.
          destruct (build True m0 s0 sts static false false kind [peek s] key' computed kts s2 rts s1) as (ts & T1 & T2); auto; try discriminate.
          - exact (sp_trans _ _ _ _ _ R (sp_trans _ _ _ _ _ (tok_reads _ NE) N1)).
          - eapply mkey_imp; [|exact N2]; trivial.
          - destruct KD as [-> | ->]; exact I.
          - exists ts. split; [exact T1|]. exact (M _ N5 _ T2). }
        destruct (is_get (text (peek s))) eqn:G; [|destruct (is_set (text (peek s))) eqn:G2; [|discriminate]].
        -- apply bytes_eqb_spec in G. apply (Acc KGet); auto; [apply LD_get; auto|exact I].
        -- apply bytes_eqb_spec in G2. apply (Acc KSet); auto; [apply LD_set; auto|exact I].
  - okb H x s1 E. destruct x as [[key computed] esc]. destruct (key_at_reads _ _ _ _ _ _ _ E) as (kts & K0 & K1 & K2 & ->).
    apply (field_reads _ _ _ _ _ _ _ _ _ s0 sts kts H); auto.
    + exact (sp_trans _ _ _ _ _ R K1).
    + eapply mkey_imp; [|exact K2]; trivial.
    + exact (first_of _ _ _ sts K1 K0).
Qed.
Lemma class_elem_reads : forall k s m s', class_elem feat text chk ex asg body fn_ok fuel k s = POk m s' ->
  exists ts, read s ts s' /\ member_of m ts /\ member_ok text m.
Proof.
  intros k s m s' H. unfold class_elem in H. cbv zeta in H. destruct (at_tok T_STATIC s) eqn:A.
  - pose proof (at_read _ _ A eq_refl) as R. pose proof (at_val _ _ A) as V.
    assert (K : key_of false (EName (t_lo (peek s), t_hi (peek s)) (text (peek s)) false true) false [peek s]).
    { apply K_name. unfold can_be_key. rewrite V. reflexivity. }
    match type of H with (if ?b then _ else _) = _ => destruct b end.
    { apply (field_reads _ _ _ _ _ _ _ _ _ s [] [peek s] H R); auto; [apply Y_no|apply MK_key; exact K|discriminate]. }
    destruct (at_tok T_BRACE_L (peeked (next s))); [|destruct (at_tok T_PAREN_L (peeked (next s)))].
    + okb H b s1 E. injection H as <- <-. destruct (body_reads _ _ _ _ E) as (bts & B1 & B2).
      exists (peek s :: bts). split; [exact (sp_trans _ _ _ _ _ R B1)|]. split; [|exact I].
      unfold fin. rewrite (sp_end _ _ _ B1 (block_ne' _ _ B2)).
      assert (exists r l, b = SBlock r l) as (r & l & ->) by (inversion B2; eauto). eapply CE_static; eauto.
    + unfold as_member in H. okb H m0 s1 E. injection H as <- <-. destruct (rest_reads _ _ _ _ _ _ _ _ _ _ _ _ _ E) as (rts & J1 & J2 & J3).
      destruct (build True m0 s [] false false false KMethod [] (EName (t_lo (peek s), t_hi (peek s)) (text (peek s)) false true) false [peek s] (peeked (next s)) rts s1) as (ts & T1 & T2); auto; try discriminate.
      * apply Y_no.
      * apply LD_none; discriminate.
      * apply MK_key; exact K.
      * exact I.
      * exists ts. split; [exact T1|]. split; [apply CE_method; exact T2|]. exact (method_ok_imp _ True _ (fun _ => eq_refl) J3).
    + apply (elem_reads true k (peeked (next s)) m s' s [peek s] H R). apply Y_yes. exact V.
  - destruct (at_tok T_PAREN_L s).
    + unfold as_member in H. okb H m0 s1 E. injection H as <- <-. destruct (rest_reads _ _ _ _ _ _ _ _ _ _ _ _ _ E) as (rts & J1 & J2 & J3).
      exists rts. destruct J1 as (l & pts & h & bts & L & -> & H2 & H3 & H4 & H5 & H6 & H7 & H8). subst l. split; [exact H2|]. split.
      * apply CE_method. rewrite J2, H7, H8. apply ME_nameless; auto.
      * exact (method_ok_imp _ True _ (fun _ => eq_refl) J3).
    + apply (elem_reads false k s m s' s [] H (sp_refl _)). apply Y_no.
Qed.
Lemma class_loop_reads : forall n k acc s l s' s0 ts0, class_loop feat text chk ex asg body fn_ok fuel n k acc s = POk l s' -> read s0 ts0 s ->
  (forall l' us, members l' us -> members (acc ++ l') (ts0 ++ us)) -> Forall (member_ok text) acc -> one_constructor text acc -> private_once acc ->
  exists ts h, read s0 (ts ++ [h]) s' /\ t_val h = T_BRACE_R /\ members l ts /\ Forall (member_ok text) l /\ one_constructor text l /\ private_once l.
Proof.
  induction n as [|n IH]; intros k acc s l s' s0 ts0 H R A M1 M2 M3; [discriminate|]. cbn [class_loop] in H.
  destruct (at_tok T_BRACE_R s) eqn:B.
  - injection H as <- <-. exists ts0, (peek s). split; [exact (read_snoc _ _ _ _ R B eq_refl)|]. split; [exact (at_val _ _ B)|].
    pose proof (A [] [] (CM_nil _ _ _ _ _ _)) as Z. rewrite !app_nil_r in Z. auto.
  - destruct (at_tok T_EOF s); [discriminate|]. destruct (at_tok T_SEMI s) eqn:C.
    + apply (IH _ _ _ _ _ s0 (ts0 ++ [peek s]) H (read_snoc _ _ _ _ R C eq_refl)); auto.
      intros l' us L. rewrite <- app_assoc. cbn [app]. apply A. apply CM_semi; [exact (at_val _ _ C)|exact L].
    + okb H m s1 E. destruct (class_elem_reads _ _ _ _ E) as (ts & Q1 & Q2 & Q3).
      destruct (member_clash text acc m) eqn:D; [discriminate|]. destruct (clash_spec _ _ _ D M2 M3) as [M4 M5].
      apply (IH _ _ _ _ _ s0 (ts0 ++ ts) H (sp_trans _ _ _ _ _ R Q1)); auto.
      * intros l' us L. rewrite <- !app_assoc. cbn [app]. apply A. apply CM_cons; assumption.
      * apply Forall_app; auto.
Qed.
Lemma class_reads : forall dec anon k s f s', class_dec feat text chk ex asg lhs body fn_ok class_ok fuel dec anon k s = POk f s' -> at_tok T_CLASS s = true ->
  exists ts, read s ts s' /\ forall nx, spelled (fn_sort dec anon) f ts nx.
Proof.
  intros dec anon k s f s' H A. unfold class_dec in H. cbv zeta in H. pose proof (at_read _ _ A eq_refl) as R. okb H name s2 E.
  assert (N : exists nts, read (next s) nts s2 /\ opt_name name nts /\ (fn_sort dec anon = ADecl -> name <> None)).
  { match type of E with (if ?b then _ else _) = _ => destruct b end.
    - destruct (dec && negb anon) eqn:D; [discriminate|]. injection E as <- <-. exists []. split; [exact (sp_refl _)|].
      split; [apply ON_none|]. destruct dec, anon; discriminate.
    - okb E e s5 E0. match type of E with (if ?b then _ else _) = _ => destruct b; [|discriminate] end. injection E as <- <-.
      unfold class_ident in E0. match type of E0 with (if ?b then _ else _) = _ => destruct b; [discriminate|] end.
      destruct (opt_ident _ _ _ _ E0) as (nts & _ & N1 & N2). exists nts.
      split; [exact N1|]. split; [exact N2|discriminate]. }
  destruct N as (nts & N1 & N2 & N3). okb H super s3 E1.
  assert (X : exists ets, read s2 ets s3 /\ extends_of super ets).
  { destruct (at_tok T_EXTENDS s2) eqn:B.
    - okb E1 e s5 E0. oka E1 u E2. injection E1 as <- <-. destruct (lhs_reads _ _ _ _ E0) as (n & ts & Q1 & Q2 & Q3).
      exists (peek s2 :: ts). split; [exact (sp_trans _ _ _ _ _ (at_read _ _ B eq_refl) Q1)|]. eapply EX_some; eauto. exact (at_val _ _ B).
    - injection E1 as <- <-. exists []. split; [exact (sp_refl _)|apply EX_none]. }
  destruct X as (ets & X1 & X2). okb H u s4 E2. apply must_ok in E2 as [B ->]. okb H ms s5 E3. injection H as <- <-.
  assert (P1 : one_constructor text []) by (intros [|] ? ? ? ? Q; discriminate Q).
  assert (P2 : private_once []) by (intros [|] ? ? ? ? ? Q; discriminate Q).
  destruct (class_loop_reads _ _ _ _ _ _ (next s3) [] E3 (sp_refl _) (fun l' us X => X) (Forall_nil _) P1 P2) as (mts & h & M1 & M2 & M3 & M4 & M5 & M6).
  exists (peek s :: nts ++ ets ++ peek s3 :: mts ++ [h]). split.
  - exact (sp_trans _ _ _ _ _ R (sp_trans _ _ _ _ _ N1 (sp_trans _ _ _ _ _ X1 (sp_trans _ _ _ _ _ (at_read _ _ B eq_refl) M1)))).
  - intro nx. unfold fin. rewrite (sp_end _ _ _ M1) by (intro Q; apply app_eq_nil in Q as [_ Q]; discriminate Q). rewrite last_hi_snoc.
    apply F_class; auto using fn_sort_ok; [exact (at_val _ _ A)|exact (at_val _ _ B)].
Qed.

(** Imports. *)
Lemma ident_word : forall v, ident_tok v = true -> v = T_NAME \/ is_kw v = true.
Proof. intros []; cbv; auto; discriminate. Qed.
Lemma ident_name : forall k s e s', ident text k s = POk e s' -> e = the_name (peek s) (is_kw (t_val (peek s))) /\
  ident_tok (t_val (peek s)) = true /\ s' = next s /\ read s [peek s] s'.
Proof.
  intros k s e s' H. pose proof H as H'. destruct (id_reads _ _ _ _ H) as (t & kw & -> & -> & Q1 & -> & Q2).
  split; [|auto]. unfold ident in H'. cbv zeta in H'. rewrite Q1 in H'. cbn [negb] in H'.
  repeat match type of H' with (if ?b then _ else _) = _ => destruct b; [discriminate|] end. injection H' as <-. reflexivity.
Qed.
Lemma kw_reads : forall k s e s', ident_kw text k s = POk e s' -> exists kw, e = the_name (peek s) kw /\ any_word (peek s) /\ s' = next s /\
  read s [peek s] s' /\ (kw = false -> t_val (peek s) = T_NAME).
Proof.
  intros k s e s' H. unfold ident_kw in H. cbv zeta in H. destruct (is_kw (t_val (peek s))) eqn:K.
  - injection H as <- <-. exists true. split; [reflexivity|]. split; [right; exact K|]. split; [reflexivity|]. split; [|discriminate].
    apply tok_reads. intro Q. unfold pval in Q. rewrite Q in K. discriminate K.
  - destruct (ident_name _ _ _ _ H) as (-> & Q1 & -> & Q2). exists (is_kw (t_val (peek s))). split; [reflexivity|].
    destruct (ident_word _ Q1) as [W|W]; [|congruence]. split; [left; exact W|auto].
Qed.
Lemma is_word : forall t n esc, is_name t n esc = true -> word t n /\ (esc = false -> contains_escape t = false).
Proof.
  intros t n esc H. unfold is_name in H. rewrite !Bool.andb_true_iff in H. destruct H as [[H1 H2] H3]. apply tv_eqb_spec in H1. apply bytes_eqb_spec in H2.
  split; [split; assumption|]. intros ->. cbn [orb] in H3. apply Bool.negb_true_iff in H3. exact H3.
Qed.
Lemma word_reads : forall s n, word (peek s) n -> read s [peek s] (next s).
Proof. intros s n (H & _). apply tok_reads. unfold pval. rewrite H. discriminate. Qed.
Lemma import_spec_reads : forall k s i s', import_spec text k s = POk i s' -> exists ts, read s ts s' /\ import_one i ts.
Proof.
  intros k s i s' H. unfold import_spec in H. cbv zeta in H. okb H b s1 E. destruct (kw_reads _ _ _ _ E) as (kw & -> & Q1 & -> & Q2 & Q3).
  unfold ahead_name in H. destruct (is_name _ _ _) eqn:A.
  - apply is_word in A as [A _]. okb H l s2 E1. injection H as <- <-. destruct (ident_name _ _ _ _ E1) as (-> & R1 & -> & R2).
    eexists. split; [exact (sp_trans _ _ _ _ _ Q2 (sp_trans _ _ _ _ _ (word_reads _ _ A) R2))|]. cbn [app].
    unfold fin. rewrite (here_buf (peeked s) eq_refl), end_next. apply IO_as; assumption.
  - cbn [is_kw_e FnSpec.the_name] in H. destruct kw; [discriminate|]. injection H as <- <-. exists [peek s]. split; [exact Q2|].
    unfold fin. rewrite (here_buf (peeked s) eq_refl). apply IO_same. exact (Q3 eq_refl).
Qed.
Lemma import_named_reads : forall n k acc s l s' s0 ts0, import_named text n k acc s = POk l s' -> read s0 ts0 s ->
  (forall l' us, import_list l' us -> import_list (acc ++ l') (ts0 ++ us)) ->
  exists ts h, read s0 (ts ++ [h]) s' /\ t_val h = T_BRACE_R /\ import_list l ts.
Proof.
  induction n as [|n IH]; intros k acc s l s' s0 ts0 H R A; [discriminate|]. cbn [import_named] in H.
  destruct (at_tok T_BRACE_R s) eqn:B.
  - injection H as <- <-. exists ts0, (peek s). split; [exact (read_snoc _ _ _ _ R B eq_refl)|]. split; [exact (at_val _ _ B)|].
    pose proof (A [] [] (IL_nil _)) as Z. rewrite !app_nil_r in Z. exact Z.
  - destruct (at_tok T_EOF s); [discriminate|]. okb H i s1 E. destruct (import_spec_reads _ _ _ _ E) as (ts & Q1 & Q2).
    assert (C : exists c, read s1 c (if at_tok T_COMMA s1 then next s1 else peeked s1) /\ (c = [] \/ (exists t, c = [t] /\ t_val t = T_COMMA))).
    { destruct (at_tok T_COMMA s1) eqn:C; [exists [peek s1]; split; [exact (at_read _ _ C eq_refl)|right; eauto using at_val]|].
      exists []. split; [exact (sp_refl _)|auto]. }
    destruct C as (c & C1 & C2).
    apply (IH _ _ _ _ _ s0 (ts0 ++ ts ++ c) H (sp_trans _ _ _ _ _ R (sp_trans _ _ _ _ _ Q1 C1))).
    intros l' us L. rewrite <- !app_assoc. cbn [app]. apply A. apply IL_more; assumption.
Qed.
Lemma import_group_reads : forall k s l s', import_group text fuel k s = POk l s' -> exists ts, read s ts s' /\ import_part l ts.
Proof.
  intros k s l s' H. unfold import_group in H. cbv zeta in H. rewrite !at_peeked in H. destruct (at_tok T_BRACE_L s) eqn:A; [|destruct (at_tok T_MUL s) eqn:B; [|discriminate]].
  - destruct (import_named_reads _ _ _ _ _ _ (next s) [] H (sp_refl _) (fun l' us X => X)) as (ts & h & Q1 & Q2 & Q3).
    exists (peek s :: ts ++ [h]). split; [exact (sp_trans _ _ _ _ _ (at_read _ _ A eq_refl) Q1)|]. apply IP_named; auto. exact (at_val _ _ A).
  - destruct (is_name _ _ _) eqn:C; [|discriminate]. apply is_word in C as [C1 C2]. okb H e s2 E. injection H as <- <-.
    destruct (ident_name _ _ _ _ E) as (-> & R1 & -> & R2).
    eexists. split; [exact (sp_trans _ _ _ _ _ (at_read _ _ B eq_refl) (sp_trans _ _ _ _ _ (word_reads _ _ C1) R2))|]. cbn [app].
    unfold fin. rewrite (here_buf (peeked s) eq_refl), end_next. apply IP_namespace; auto. exact (at_val _ _ B).
Qed.
Lemma import_reads : forall k s f s', import_dec text fuel k s = POk f s' -> at_tok T_IMPORT s = true ->
  exists ts, read s ts s' /\ spelled ADecl f ts (peek s').
Proof.
  intros k s f s' H A. unfold import_dec in H. cbv zeta in H. pose proof (at_read _ _ A eq_refl) as R. pose proof (at_val _ _ A) as V. okb H l s2 E.
  assert (F : exists fts, read s2 fts (if is_name (peek (peeked s2)) (bs "from") false then next (peeked s2) else peeked s2) /\
    (fts = [] \/ (exists t, fts = [t] /\ from_word t)) /\ (is_name (peek (peeked s2)) (bs "from") false = false -> fts = [])).
  { destruct (is_name (peek (peeked s2)) (bs "from") false) eqn:C.
    - apply is_word in C as [C1 C2]. exists [peek s2]. split; [exact (word_reads s2 _ C1)|]. split; [|discriminate]. right. exists (peek s2). split; [reflexivity|split; auto].
    - exists []. split; [exact (sp_refl _)|auto]. }
  destruct F as (fts & F1 & F2 & F3).
  set (s3 := if is_name (peek (peeked s2)) (bs "from") false then next (peeked s2) else peeked s2) in *.
  destruct (at_tok T_STRING s3) eqn:B; [|discriminate]. cbn [negb] in H.
  match type of H with (if ?b then _ else _) = _ => destruct b; [discriminate|] end. okb H u s5 E1. injection H as <- <-.
  destruct (semi_read _ _ _ E1) as (x & X1 & X2).
  pose proof (sp_trans _ _ _ _ _ (at_read _ _ B eq_refl) X1) as R3. cbn [app] in R3.
  unfold fin. rewrite (sp_end _ _ _ R3) by discriminate. rewrite end_next.
  destruct (at_tok T_STRING (peeked (next s))) eqn:C.
  - injection E as <- <-. assert (fts = []) as ->.
    { apply at_val in C. destruct (is_name _ _ _) eqn:D in F3; [apply is_word in D as [[D _] _]; discriminate (eq_trans (eq_sym C) D)|auto]. }
    exists (peek s :: peek s3 :: x). split; [exact (sp_trans _ _ _ _ _ R (sp_trans _ _ _ _ _ F1 R3))|]. apply F_import; auto. exact (at_val _ _ B).
  - okb E h s4 E0.
    assert (Hd : exists ts, read (peeked (next s)) ts s4 /\ import_head h ts).
    { destruct (at_tok T_NAME (peeked (next s))) eqn:D.
      - okb E0 e s6 E2. injection E0 as <- <-. destruct (ident_name _ _ _ _ E2) as (-> & Q1 & -> & Q2).
        eexists. split; [exact Q2|]. apply at_val in D. unfold fin. rewrite (here_buf (peeked (next s)) eq_refl), end_next, D. apply IH_default. exact D.
      - destruct (import_group_reads _ _ _ _ E0) as (ts & Q1 & Q2). exists ts. split; [exact Q1|apply IH_part; exact Q2]. }
    destruct Hd as (hts & H1 & H2).
    assert (C' : exists ts, read (peeked (next s)) ts s2 /\ import_clause l ts).
    { destruct (at_tok T_COMMA s4) eqn:D.
      - okb E l' s6 E2. injection E as <- <-. destruct (import_group_reads _ _ _ _ E2) as (ts & Q1 & Q2).
        eexists. split; [exact (sp_trans _ _ _ _ _ H1 (sp_trans _ _ _ _ _ (at_read _ _ D eq_refl) Q1))|]. apply IC_two; auto. exact (at_val _ _ D).
      - injection E as <- <-. exists hts. split; [exact H1|apply IC_one; exact H2]. }
    destruct C' as (ts & C1 & C2). exists (peek s :: ts ++ fts ++ peek s3 :: x).
    split; [exact (sp_trans _ _ _ _ _ R (sp_trans _ _ _ _ _ C1 (sp_trans _ _ _ _ _ F1 R3)))|]. apply F_import_from; auto. exact (at_val _ _ B).
Qed.
(** Exports. *)
Lemma export_spec_reads : forall k s e s', export_spec text k s = POk e s' -> exists ts, read s ts s' /\ export_one e ts.
Proof.
  intros k s e s' H. unfold export_spec in H. cbv zeta in H. okb H b s1 E. destruct (kw_reads _ _ _ _ E) as (kw & -> & Q1 & -> & Q2 & Q3).
  unfold ahead_name in H. destruct (is_name _ _ _) eqn:A.
  - apply is_word in A as [A _]. match type of H with (if ?b then _ else _) = _ => destruct b eqn:X; [discriminate|] end.
    okb H l s2 E1. injection H as <- <-. destruct (kw_reads _ _ _ _ E1) as (kw' & -> & R1 & -> & R2 & _).
    eexists. split; [exact (sp_trans _ _ _ _ _ Q2 (sp_trans _ _ _ _ _ (word_reads _ _ A) R2))|]. cbn [app].
    unfold fin. rewrite (here_buf (peeked s) eq_refl), end_next. apply EO_as; assumption.
  - injection H as <- <-. exists [peek s]. split; [exact Q2|]. unfold fin. rewrite (here_buf (peeked s) eq_refl). apply EO_same. exact Q1.
Qed.
Lemma export_named_reads : forall n k acc s l s' s0 ts0, export_named text n k acc s = POk l s' -> read s0 ts0 s ->
  (forall l' us, export_list l' us -> export_list (acc ++ l') (ts0 ++ us)) ->
  exists ts h, read s0 (ts ++ [h]) s' /\ t_val h = T_BRACE_R /\ export_list l ts.
Proof.
  induction n as [|n IH]; intros k acc s l s' s0 ts0 H R A; [discriminate|]. cbn [export_named] in H.
  destruct (at_tok T_BRACE_R s) eqn:B.
  - injection H as <- <-. exists ts0, (peek s). split; [exact (read_snoc _ _ _ _ R B eq_refl)|]. split; [exact (at_val _ _ B)|].
    pose proof (A [] [] (EL_nil _)) as Z. rewrite !app_nil_r in Z. exact Z.
  - destruct (at_tok T_EOF s); [discriminate|]. okb H i s1 E. destruct (export_spec_reads _ _ _ _ E) as (ts & Q1 & Q2).
    pose proof (sp_trans _ _ _ _ _ R Q1) as R1. destruct (at_tok T_COMMA s1) eqn:C.
    + apply (IH _ _ _ _ _ s0 ((ts0 ++ ts) ++ [peek s1]) H (read_snoc _ _ _ _ R1 C eq_refl)).
      intros l' us L. rewrite <- !app_assoc. cbn [app]. apply A. apply EL_more; [exact Q2|exact (at_val _ _ C)|exact L].
    + destruct (at_tok T_BRACE_R s1) eqn:D; [|discriminate]. injection H as <- <-. exists (ts0 ++ ts), (peek s1).
      split; [exact (read_snoc _ _ _ _ R1 D eq_refl)|]. split; [exact (at_val _ _ D)|]. apply A. apply EL_last; exact Q2.
Qed.
Lemma fn_exportable : forall dec anon k s f s', fn_dec feat text chk ex asg body fn_ok fuel dec anon k s = POk f s' -> exportable f.
Proof.
  intros dec anon k s f s' H. unfold fn_dec in H. cbv zeta in H.
  match type of H with (if ?b then _ else _) = _ => destruct b; [discriminate|] end. okb H name s4 E. okb H ps s5 E1.
  match type of H with (if ?b then _ else _) = _ => destruct b; [discriminate|] end. okb H b s6 E2.
  match type of H with (if ?b then _ else _) = _ => destruct b; [|discriminate] end. injection H as <- <-. exact I.
Qed.
Lemma class_exportable : forall dec anon k s f s', class_dec feat text chk ex asg lhs body fn_ok class_ok fuel dec anon k s = POk f s' -> exportable f.
Proof.
  intros dec anon k s f s' H. unfold class_dec in H. cbv zeta in H. okb H name s2 E. okb H super s3 E1. okb H u s4 E2. okb H ms s5 E3.
  injection H as <- <-. exact I.
Qed.
Lemma async_exportable : forall anon k s f s', async_node feat text chk ex asg args body fn_ok rest_async fuel true anon k s = POk f s' -> exportable f.
Proof.
  intros anon k s f s' H. unfold async_node in H. destruct (contains_escape (peek s)); [discriminate|].
  destruct (at_tok T_FUNC (next s)); [exact (fn_exportable _ _ _ _ _ _ H)|]. okb H o s1 E. destruct o as [g|].
  - injection H as <- <-. unfold async_arrow in E. cbv zeta in E.
    match type of E with (if ?b then _ else _) = _ => destruct b; [discriminate|] end. okb E x s4 E0. destruct x as [name a].
    match type of E with (if ?b then _ else _) = _ => destruct b; [|discriminate] end. oka E ps E1. okb E b s6 E2.
    match type of E with (if ?b then _ else _) = _ => destruct b; [|discriminate] end. okb E u s7 E3. injection E as <- <-. exact I.
  - unfold as_rest in H. okb H r s2 E1. injection H as <- <-. exact I.
Qed.
Lemma async_reads' : forall dec anon k s f s', async_node feat text chk ex asg args body fn_ok rest_async fuel dec anon k s = POk f s' ->
  (contains_escape (peek s) = false -> at_async s) -> exists ts, read s ts s' /\ spelled (fn_sort dec anon) f ts (peek s').
Proof.
  intros dec anon k s f s' H A. unfold async_node in H. destruct (contains_escape (peek s)); [discriminate|]. specialize (A eq_refl).
  destruct (at_tok T_FUNC (next s)) eqn:F.
  - destruct (fn_dec_reads _ _ _ _ _ _ H (or_intror (conj A F))) as (ts & T1 & T2). exists ts. split; [exact T1|]. apply T2.
  - okb H o s1 E. pose proof (arrow_reads _ anon _ _ _ _ E A) as J. destruct o as [g|].
    + injection H as <- <-. exact J.
    + unfold as_rest in H. okb H r s2 E1. injection H as <- <-. destruct (async_reads _ _ _ _ _ E1) as (ts & T1 & T2). exists ts.
      split; [exact T1|]. apply F_rest. apply T2. destruct dec, anon; cbn; auto.
Qed.
Lemma export_from_reads : forall k s ns l src s', export_from feat text fuel k s = POk (ns, l, src) s' -> at_tok T_MUL s || at_tok T_BRACE_L s = true ->
  ns = at_tok T_MUL s /\
  ((exists o es h, read s (o :: es ++ [h]) s' /\ t_val o = T_BRACE_L /\ t_val h = T_BRACE_R /\ export_list l es /\ ns = false /\ src = None /\
      Forall (fun e => is_kw_e (e_local e) = false) l) \/
   (exists o es h v fts, read s (o :: es ++ h :: fts) s' /\ t_val o = T_BRACE_L /\ t_val h = T_BRACE_R /\ export_list l es /\ ns = false /\
      src = Some v /\ from_clause v fts) \/
   (exists m v fts, read s (m :: fts) s' /\ t_val m = T_MUL /\ l = [] /\ ns = true /\ src = Some v /\ from_clause v fts) \/
   (exists m a t kw v fts, read s (m :: a :: t :: fts) s' /\ t_val m = T_MUL /\ word a (bs "as") /\ ident_tok (t_val t) = true /\
      l = [mk_espec (t_lo m, t_hi t) true (the_name t kw) None] /\ ns = true /\ src = Some v /\ from_clause v fts)).
Proof.
  intros k s ns l src s' H A. unfold export_from in H. cbv zeta in H. okb H es s1 E.
  assert (Fr : forall X (s2 : pst), (if is_name (peek (peeked s1)) (bs "from") false then
      (if at_tok T_STRING (next (peeked s1)) then
        POk (at_tok T_MUL s, es, Some (ELit (fin (t_lo (peek (next (peeked s1)))) (next (next (peeked s1)))) (peek (next (peeked s1)))) ) (next (next (peeked s1))) else PErr)
      else X) = POk (ns, l, src) s' ->
    (ns = at_tok T_MUL s /\ l = es /\ exists v fts, read s1 fts s' /\ src = Some v /\ from_clause v fts) \/ X = POk (ns, l, src) s').
  { clear H. intros X s2 H. destruct (is_name _ _ _) eqn:F; [|right; exact H]. left. destruct (at_tok T_STRING _) eqn:B; [|discriminate].
    injection H as <- <- <- <-. split; [reflexivity|]. split; [reflexivity|]. apply is_word in F as [F1 F2]. eexists _, [peek s1; peek (next s1)].
    split; [exact (sp_trans _ _ _ _ _ (word_reads s1 _ F1) (at_read _ _ B eq_refl))|]. split; [reflexivity|].
    unfold fin. rewrite end_next. apply FC_from; [split; auto|exact (at_val _ _ B)]. }
  apply Fr in H; [|exact s]. destruct (at_tok T_MUL s) eqn:M.
  - destruct H as [(-> & -> & v & fts & F1 & -> & F2)|H]; [|discriminate]. split; [reflexivity|].
    match type of E with (if ?b then _ else _) = _ => destruct b eqn:C end.
    + right; right; right. apply Bool.andb_true_iff in C as [C _]. unfold ahead_name in C. apply is_word in C as [C _].
      okb E e s2 E0. injection E as <- <-. destruct (ident_name _ _ _ _ E0) as (-> & Q1 & -> & Q2).
      exists (peek s), (peek (next s)), (peek (next (next s))), (is_kw (t_val (peek (next (next s))))), v, fts.
      split; [exact (sp_trans _ _ _ _ _ (at_read _ _ M eq_refl) (sp_trans _ _ _ _ _ (word_reads (next s) _ C) (sp_trans _ _ _ _ _ Q2 F1)))|].
      split; [exact (at_val _ _ M)|]. split; [exact C|]. split; [exact Q1|]. unfold fin. rewrite end_next. auto.
    + right; right; left. injection E as <- <-. exists (peek s), v, fts.
      split; [exact (sp_trans _ _ _ _ _ (at_read _ _ M eq_refl) F1)|]. split; [exact (at_val _ _ M)|]. auto.
  - cbn [orb] in A. destruct (export_named_reads _ _ _ _ _ _ (next s) [] E (sp_refl _) (fun l' us X => X)) as (ts & h & Q1 & Q2 & Q3).
    pose proof (sp_trans _ _ _ _ _ (at_read _ _ A eq_refl) Q1) as R. cbn [app] in R.
    destruct H as [(-> & -> & v & fts & F1 & -> & F2)|H].
    + split; [reflexivity|]. right; left. exists (peek s), ts, h, v, fts. pose proof (sp_trans _ _ _ _ _ R F1) as Z. cbn [app] in Z. rewrite <- app_assoc in Z.
      split; [exact Z|]. split; [exact (at_val _ _ A)|]. auto 6.
    + cbn [orb] in H. destruct (existsb _ _) eqn:X; [discriminate|]. injection H as <- <- <- <-. split; [reflexivity|]. left.
      exists (peek s), ts, h. split; [exact R|]. split; [exact (at_val _ _ A)|]. split; [exact Q2|]. split; [exact Q3|]. split; [reflexivity|]. split; [reflexivity|].
      apply Forall_forall. intros e I. destruct (is_kw_e (e_local e)) eqn:K; [|reflexivity].
      assert (Z : existsb (fun e => is_kw_e (e_local e)) es = true) by (apply existsb_exists; eauto). congruence.
Qed.
Lemma spelled_ne : forall q f ts nx, spelled q f ts nx -> ts <> [].
Proof.
  intros q f ts nx H. destruct H; try discriminate; try (intro Q; apply app_eq_nil in Q as [_ Q]; discriminate Q).
  - match goal with H : method_of _ _ _ |- _ => destruct H end; [|discriminate]. intro Q. repeat (apply app_eq_nil in Q as [_ Q]). discriminate Q.
  - eapply block_ne'; eassumption.
  - destruct (rest_fr _ _ _ H) as (N & _). exact N.
Qed.
Lemma export_any_reads : forall k s f s', export_any feat text chk ex asg lhs args body var fn_ok class_ok rest_async fuel k s = POk f s' -> at_tok T_EXPORT s = true ->
  exists ts, read s ts s' /\ spelled ADecl f ts (peek s').
Proof.
  intros k s f s' H A. unfold export_any in H. cbv zeta in H. pose proof (at_read _ _ A eq_refl) as R. pose proof (at_val _ _ A) as V.
  set (s1 := peeked (next s)) in *. change (read s [peek s] s1) in R.
  assert (Fn : forall def ds x s2 (g : fnode), export_fn (t_lo (peek s)) def x = POk f s' ->
    (def = false /\ ds = [] \/ def = true /\ exists d, ds = [d] /\ t_val d = T_DEFAULT) -> read s1 ds s2 ->
    (forall g s3, x = POk g s3 -> exists ts, read s2 ts s3 /\ spelled (fn_sort true def) g ts (peek s3) /\ exportable g) ->
    exists ts, read s ts s' /\ spelled ADecl f ts (peek s')).
  { clear H. intros def ds x s2 _ H D RD X. unfold export_fn in H. okb H g s3 E. injection H as <- <-. destruct (X _ _ E) as (ts & T1 & T2 & T3).
    assert (NE : ts <> []) by exact (spelled_ne _ _ _ _ T2).
    exists (peek s :: ds ++ ts). split; [exact (sp_trans _ _ _ _ _ R (sp_trans _ _ _ _ _ RD T1))|]. unfold fin. rewrite (sp_end _ _ _ T1 NE).
    destruct D as [(-> & ->)|(-> & d & -> & D)]; cbn [app fn_sort] in *; [apply F_export_fn|apply F_export_default_fn]; auto. }
  destruct (at_tok T_MUL s1 || at_tok T_BRACE_L s1) eqn:A1.
  { okb H x s2 E. destruct x as [[ns l] src]. okb H u s3 E1. injection H as <- <-. destruct (semi_read _ _ _ E1) as (x & X1 & X2).
    destruct (export_from_reads _ _ _ _ _ _ E A1) as (_ & J).
    assert (Z : forall ts, read s1 ts s2 -> ts <> [] -> fin (t_lo (peek s)) s3 = (t_lo (peek s), last_hi (ts ++ x)) /\ read s (peek s :: ts ++ x) s3).
    { intros ts Q N. pose proof (sp_trans _ _ _ _ _ Q X1) as Z. split; [|exact (sp_trans _ _ _ _ _ R Z)]. unfold fin. rewrite (sp_end _ _ _ Z); [reflexivity|].
      intro W. apply app_eq_nil in W as [W _]. contradiction. }
    assert (L : forall (t : token) us, us <> [] -> last_hi (t :: us) = last_hi us) by (intros; apply last_hi_cons; assumption).
    assert (LA : forall (us vs : list token), vs <> [] -> last_hi (us ++ vs) = last_hi vs).
    { induction us as [|t us IH]; intros vs N; [reflexivity|]. cbn [app]. rewrite L; [apply IH; exact N|]. intro W. apply app_eq_nil in W as [_ W]. contradiction. }
    destruct J as [(o & es & h & Q & O & C & EL & -> & -> & FA)|[(o & es & h & v & fts & Q & O & C & EL & -> & -> & FC)|[(m & v & fts & Q & O & -> & -> & -> & FC)|(m & a & t & kw & v & fts & Q & O & W & I & -> & -> & -> & FC)]]];
      (destruct (Z _ Q) as [-> Z2]; [discriminate|]); try (assert (FN : fts <> []) by (destruct FC; discriminate)); try (assert (FX : fts ++ x <> []) by (intro W'; apply app_eq_nil in W' as [W' _]; contradiction)).
    - cbn [app] in *. rewrite <- app_assoc in *. cbn [app] in *. eexists. split; [exact Z2|].
      rewrite L, LA by (try (intro W'; apply app_eq_nil in W' as [_ W']); discriminate). apply F_export; auto.
    - cbn [app] in *. rewrite <- app_assoc in *. cbn [app] in *. eexists. split; [exact Z2|].
      rewrite L, LA, L by first [assumption|discriminate|intro W'; apply app_eq_nil in W' as [_ W']; discriminate]. apply F_export_from; auto.
    - cbn [app] in *. eexists. split; [exact Z2|]. rewrite L by assumption. apply F_export_all; auto.
    - cbn [app] in *. eexists. split; [exact Z2|]. rewrite !L by (try discriminate; assumption). eapply F_export_as; eauto. }
  destruct (ahead_var feat k s1) as [kind|] eqn:AV.
  { destruct (var_ahead _ _ _ AV) as [W1 W2]. okb H v s2 E. injection H as <- <-. destruct (var_reads _ _ _ _ _ E eq_refl W2) as (l & ts & x & -> & Q1 & Q2 & Q3).
    exists (peek s :: peek s1 :: ts ++ x). split; [exact (sp_trans _ _ _ _ _ R Q1)|]. unfold fin. rewrite (sp_end _ _ _ Q1) by discriminate.
    rewrite last_hi_cons. 2: { intro Q. apply app_eq_nil in Q as [Q _]. exact (decs_ne' _ _ Q2 Q). }
    eapply F_export_var; eauto. }
  destruct (at_tok T_FUNC s1) eqn:A2.
  { apply (Fn false [] _ s1 (NRest (0,0)) H); [auto|exact (sp_refl _)|]. intros g s3 E. destruct (fn_dec_reads _ _ _ _ _ _ E (or_introl A2)) as (ts & T1 & T2).
    exists ts. split; [exact T1|]. split; [apply T2|]. exact (fn_exportable _ _ _ _ _ _ E). }
  destruct (ahead_async feat k false false s1) eqn:A3.
  { apply (Fn false [] _ s1 (NRest (0,0)) H); [auto|exact (sp_refl _)|]. intros g s3 E. destruct (async_reads' _ _ _ _ _ _ E (async_ahead _ _ _ _ A3)) as (ts & T1 & T2).
    exists ts. split; [exact T1|]. split; [exact T2|]. exact (async_exportable _ _ _ _ _ E). }
  destruct (at_tok T_CLASS s1) eqn:A4.
  { apply (Fn false [] _ s1 (NRest (0,0)) H); [auto|exact (sp_refl _)|]. intros g s3 E. destruct (class_reads _ _ _ _ _ _ E A4) as (ts & T1 & T2).
    exists ts. split; [exact T1|]. split; [apply T2|]. exact (class_exportable _ _ _ _ _ _ E). }
  destruct (at_tok T_DEFAULT s1) eqn:A5; [|discriminate]. pose proof (at_val _ _ A5) as V5. pose proof (at_read _ _ A5 eq_refl) as R5.
  set (s2 := peeked (next s1)) in *. change (read s1 [peek s1] s2) in R5.
  destruct (at_tok T_FUNC s2) eqn:A6.
  { apply (Fn true [peek s1] _ s2 (NRest (0,0)) H); [eauto|exact R5|]. intros g s3 E. destruct (fn_dec_reads _ _ _ _ _ _ E (or_introl A6)) as (ts & T1 & T2).
    exists ts. split; [exact T1|]. split; [apply T2|]. exact (fn_exportable _ _ _ _ _ _ E). }
  destruct (ahead_async feat k false false s2) eqn:A7.
  { apply (Fn true [peek s1] _ s2 (NRest (0,0)) H); [eauto|exact R5|]. intros g s3 E. destruct (async_reads' _ _ _ _ _ _ E (async_ahead _ _ _ _ A7)) as (ts & T1 & T2).
    exists ts. split; [exact T1|]. split; [exact T2|]. exact (async_exportable _ _ _ _ _ E). }
  destruct (at_tok T_CLASS s2) eqn:A8.
  { apply (Fn true [peek s1] _ s2 (NRest (0,0)) H); [eauto|exact R5|]. intros g s3 E. destruct (class_reads _ _ _ _ _ _ E A8) as (ts & T1 & T2).
    exists ts. split; [exact T1|]. split; [apply T2|]. exact (class_exportable _ _ _ _ _ _ E). }
  okb H e s3 E. okb H u s4 E1. injection H as <- <-. destruct (asg_reads _ _ _ _ E) as (ts & T1 & T2). destruct (maybe_semi_read _ _ _ E1) as (x & X1 & X2).
  pose proof (sp_trans _ _ _ _ _ T1 X1) as Z. pose proof (single_ne _ _ T2) as NE.
  exists (peek s :: peek s1 :: ts ++ x). split; [exact (sp_trans _ _ _ _ _ R (sp_trans _ _ _ _ _ R5 Z))|].
  unfold fin. rewrite (sp_end _ _ _ Z) by (intro Q; apply app_eq_nil in Q as [Q _]; contradiction). apply F_export_default; auto.
  rewrite (sp_hd _ _ _ _ T1 NE). unfold at_tok, pval in A6, A8. cbn [In]. intros [Q|[Q|[]]]; rewrite <- Q in *; discriminate.
Qed.
Lemma export_reads : forall k s f s', export_dec feat text chk ex asg lhs args body var fn_ok class_ok rest_async fuel k s = POk f s' -> at_tok T_EXPORT s = true ->
  exists ts, read s ts s' /\ spelled ADecl f ts (peek s').
Proof.
  intros k s f s' H A. unfold export_dec in H. destruct (has feat FEAT_EXPORT_DEC); [|discriminate]. cbn [negb] in H. okb H g s1 E.
  destruct (has k SPK_GLOBAL); [|discriminate]. injection H as <- <-. exact (export_any_reads _ _ _ _ E A).
Qed.

(** The parts. *)
Definition is_part (q : sort) (r : rng) (ts : list token) (nx : token) : Prop := exists f, nrange f = r /\ spelled q f ts nx.
Lemma other_at_reads : forall k s r s', other_at feat text chk ex asg lhs args body fn_ok class_ok rest_async rest_other fuel k s = Some (POk r s') ->
  exists ts, read s ts s' /\ forall nx, is_part AFunction r ts nx.
Proof.
  intros k s r s' H. unfold other_at in H. destruct (at_tok T_FUNC s) eqn:A; [|destruct (at_tok T_CLASS s) eqn:A1; [|destruct (ahead_async feat k false false s) eqn:A2]].
  - injection H as H. unfold to_range in H. okb H f s1 E. injection H as <- <-. destruct (fn_dec_reads _ _ _ _ _ _ E (or_introl A)) as (ts & T1 & T2).
    exists ts. split; [exact T1|]. intro nx. exists f. split; [reflexivity|apply T2].
  - injection H as H. unfold to_range in H. okb H f s1 E. injection H as <- <-. destruct (class_reads _ _ _ _ _ _ E A1) as (ts & T1 & T2).
    exists ts. split; [exact T1|]. intro nx. exists f. split; [reflexivity|apply T2].
  - injection H as H. unfold to_range in H. okb H f s1 E. injection H as <- <-. destruct (async_reads' _ _ _ _ _ _ E (async_ahead _ _ _ _ A2)) as (ts & T1 & T3).
    exists ts. split; [exact T1|]. intro nx. exists f. split; [reflexivity|].
    cbn in T3. inversion T3; subst; try (match goal with H : _ = _ \/ _ = _ |- _ => destruct H; discriminate end).
    + eapply F_fn; eauto.
    + eapply F_arrow; eauto.
    + apply F_class; auto.
    + apply F_rest; assumption.
  - destruct (other_reads _ _ _ _ H) as (ts & T1 & T2). exists ts. split; [exact T1|]. intro nx. exists (NRest r). split; [reflexivity|apply F_rest; exact T2].
Qed.
Lemma sole_ok : forall k x r s', sole k x = POk r s' -> x = POk r s'.
Proof. intros k x r s' H. unfold sole in H. okb H a s1 E. destruct (_ && _); [discriminate|]. injection H as -> ->. exact E. Qed.
Lemma top_ok : forall k x r s', top k x = POk r s' -> x = POk r s'.
Proof. intros k x r s' H. unfold top in H. okb H a s1 E. destruct (has _ _); [discriminate|]. injection H as -> ->. exact E. Qed.
Lemma decl_at_reads : forall k s r s', decl_at feat text chk ex asg lhs args body var fn_ok class_ok rest_async fuel k s = Some (POk r s') ->
  exists ts, read s ts s' /\ is_part ADecl r ts (peek s').
Proof.
  intros k s r s' H. unfold decl_at in H. destruct (at_tok T_FUNC s) eqn:A; [|destruct (at_tok T_CLASS s) eqn:A1; [|destruct (at_tok T_IMPORT s) eqn:A3;
    [|destruct (at_tok T_EXPORT s) eqn:A4; [|destruct (ahead_async feat k false false s) eqn:A2; [|discriminate]]]]].
  - injection H as H. apply sole_ok in H. unfold to_range in H. okb H f s1 E. injection H as <- <-. destruct (fn_dec_reads _ _ _ _ _ _ E (or_introl A)) as (ts & T1 & T2).
    exists ts. split; [exact T1|]. exists f. split; [reflexivity|apply T2].
  - injection H as H. destruct (has k SPK_INTERIM); [discriminate|]. unfold to_range in H. okb H f s1 E. injection H as <- <-. destruct (class_reads _ _ _ _ _ _ E A1) as (ts & T1 & T2).
    exists ts. split; [exact T1|]. exists f. split; [reflexivity|apply T2].
  - match type of H with (if ?b then _ else _) = _ => destruct b; [discriminate|] end.
    match type of H with (if ?b then _ else _) = _ => destruct b; [discriminate|] end.
    injection H as H. apply top_ok in H. unfold to_range in H. okb H f s1 E. injection H as <- <-. destruct (import_reads _ _ _ _ E A3) as (ts & T1 & T2).
    exists ts. split; [exact T1|]. exists f. split; [reflexivity|exact T2].
  - injection H as H. apply top_ok in H. unfold to_range in H. okb H f s1 E. injection H as <- <-. destruct (export_reads _ _ _ _ E A4) as (ts & T1 & T2).
    exists ts. split; [exact T1|]. exists f. split; [reflexivity|exact T2].
  - injection H as H. assert (H' : to_range (async_node feat text chk ex asg args body fn_ok rest_async fuel true false k s) = POk r s') by (destruct (at_tok T_FUNC (next s)); [apply sole_ok in H|]; exact H).
    unfold to_range in H'. okb H' f s1 E. injection H' as <- <-. destruct (async_reads' _ _ _ _ _ _ E (async_ahead _ _ _ _ A2)) as (ts & T1 & T2).
    exists ts. split; [exact T1|]. exists f. split; [reflexivity|exact T2].
Qed.
Lemma method_at_reads : forall k s r s', method_at feat text chk ex asg body fn_ok fuel k s = Some (POk r s') ->
  exists ts, read s ts s' /\ forall nx, is_part AMethod r ts nx.
Proof.
  intros k s r s' H. unfold method_at in H. cbv zeta in H.
  assert (M : forall (m0 : meth) ts s1, read s ts s1 -> method_ok text (false = true) m0 -> method_of False m0 ts -> s1 = s' -> m_rng m0 = r ->
    exists ts, read s ts s' /\ forall nx, is_part AMethod r ts nx).
  { intros m0 ts s1 T1 T2 T3 -> <-. exists ts. split; [exact T1|]. intro nx. exists (NMethod m0). split; [reflexivity|].
    apply F_method; [exact T3|]. eapply method_ok_imp; [|exact T2]. contradiction. }
  assert (N : forall async gen s0 ats0 kind, (async = true -> at_async s0) -> (async = false -> gen = true -> at_tok T_MUL s0 = true) ->
    read s ats0 s0 -> (async || gen = true -> ats0 = [] /\ kind = KInit) -> (async || gen = false -> lead false false kind ats0 /\ (kind = KGet \/ kind = KSet)) ->
    as_method (method_new feat text chk ex asg body fn_ok fuel false false async gen kind (t_lo (peek s)) k s0) = Some (POk r s') ->
    exists ts, read s ts s' /\ forall nx, is_part AMethod r ts nx).
  { clear H. intros async gen s0 ats0 kind W1 W2 R W3 W4 H. unfold as_method in H. injection H as H. okb H m0 s1 E. injection H as <- <-.
    destruct (new_reads _ _ _ _ _ _ _ _ _ _ E W1 W2) as (gen' & ats & key & computed & kts & s2 & rts & N0 & N1 & N2 & N3 & N4 & N5 & N6 & N7 & N8).
    assert (K : mkey False key computed kts) by (eapply mkey_imp; [|exact N2]; discriminate).
    destruct (async || gen) eqn:B.
    - destruct (W3 eq_refl) as [-> ->]. specialize (N6 eq_refl). pose proof (sp_trans _ _ _ _ _ R N1) as R1. cbn [app] in R1.
      assert (F : t_lo (peek s) = first_lo (ats ++ kts)) by (apply (sp_first _ _ _ R1); intro Q; apply app_eq_nil in Q as [_ Q]; contradiction).
      rewrite F in N4.
      destruct (build False m0 s [] false async gen' KInit ats key computed kts s2 rts s1) as (ts & T1 & T2); auto; try discriminate; [apply Y_no|exact (fun f => f)|].
      exact (M _ _ _ T1 N5 T2 eq_refl eq_refl).
    - destruct (N7 eq_refl) as [-> ->]. destruct (W4 eq_refl) as [L KD]. cbn [app] in N1. pose proof (sp_trans _ _ _ _ _ R N1) as R1.
      assert (F : t_lo (peek s) = first_lo (ats0 ++ kts)) by (apply (sp_first _ _ _ R1); intro Q; apply app_eq_nil in Q as [_ Q]; contradiction).
      rewrite F in N4. apply Bool.orb_false_iff in B as [-> ->].
      destruct (build False m0 s [] false false false kind ats0 key computed kts s2 rts s1) as (ts & T1 & T2); auto; try discriminate.
      + apply Y_no.
      + destruct KD as [-> | ->]; exact I.
      + exact (M _ _ _ T1 N5 T2 eq_refl eq_refl). }
  destruct (at_tok T_MUL s) eqn:A; [|destruct (ahead_async feat k true false s) eqn:A1].
  - match type of H with (if ?b then _ else _) = _ => destruct b; [discriminate|] end.
    apply (N false true s [] KInit) with (6 := H); auto using sp_refl; discriminate.
  - destruct (contains_escape (peek s)) eqn:C; [discriminate|].
    apply (N true false s [] KInit) with (6 := H); auto using sp_refl; try discriminate. intros _. exact (async_ahead _ _ _ _ A1 C).
  - destruct (key_at text asg false k s) as [[[key computed] esc] s1| | | ] eqn:E; try discriminate H.
    destruct (key_at_reads _ _ _ _ _ _ _ E) as (kts & K0 & K1 & K2 & ->).
    assert (D : as_method (method_rest feat text chk ex asg body fn_ok fuel false false false false KInit (t_lo (peek s)) k key computed (key_escape kts) (peeked s1)) = Some (POk r s') ->
      exists ts, read s ts s' /\ forall nx, is_part AMethod r ts nx).
    { clear H. intro H. unfold as_method in H. injection H as H. okb H m0 s2 E1. injection H as <- <-.
      destruct (rest_reads _ _ _ _ _ _ _ _ _ _ _ _ _ E1) as (rts & J1 & J2 & J3). rewrite (sp_first _ _ _ K1 K0) in J2.
      destruct (build False m0 s [] false false false KInit [] key computed kts (peeked s1) rts s2) as (ts & T1 & T2); auto; try discriminate.
      - apply Y_no.
      - apply LD_none; discriminate.
      - eapply mkey_imp; [|exact K2]; discriminate.
      - exact (fun f => f).
      - exact (M _ _ _ T1 J3 T2 eq_refl eq_refl). }
    set (n := if at_tok T_BRACKET_L s then [] else text (peek s)) in *.
    destruct (is_field feat _ _).
    + destruct (at_tok T_PAREN_L (peeked s1)); [exact (D H)|discriminate].
    + destruct (is_get n || is_set n) eqn:G; [|exact (D H)]. destruct (contains_escape (peek s)); [discriminate|].
      destruct (at_tok T_PAREN_L (peeked s1)); [exact (D H)|].
      assert (NB : at_tok T_BRACKET_L s = false) by (subst n; destruct (at_tok T_BRACKET_L s); [discriminate G|reflexivity]).
      assert (J : can_be_key (peek s) = true \/ t_val (peek s) = T_STRING).
      { unfold key_at, prop_name in E. cbn [andb] in E. cbv zeta in E. rewrite NB in E. destruct (at_tok T_STRING s) eqn:Z1; [right; exact (at_val _ _ Z1)|].
        left. destruct (at_tok T_NUM s) eqn:Z2; [unfold can_be_key; rewrite (at_val _ _ Z2); reflexivity|].
        destruct (can_be_key (peek s)); [reflexivity|discriminate E]. }
      assert (s1 = next s) as ->.
      { unfold key_at, prop_name in E. cbn [andb] in E. cbv zeta in E. rewrite NB in E. destruct (at_tok T_STRING s).
        - destruct (_ && _); [discriminate|]. injection E as _ _ _ <-. reflexivity.
        - destruct (at_tok T_NUM s); [injection E as _ _ _ <-; reflexivity|]. destruct (can_be_key (peek s)); [|discriminate].
          match type of E with pbind (if ?b then _ else _) _ = _ => destruct b; [discriminate|] end. injection E as _ _ _ <-. reflexivity. }
      assert (NE : pval s <> T_EOF) by (intro Q; unfold pval in Q; destruct J as [J|J]; [unfold can_be_key in J; rewrite Q in J; discriminate J|congruence]).
      subst n. rewrite NB in *. apply (N false false (peeked (next s)) [peek s] (if is_get (text (peek s)) then KGet else KSet)) with (6 := H); try discriminate.
      * exact (tok_reads _ NE).
      * intros _. destruct (is_get (text (peek s))) eqn:G1; [apply bytes_eqb_spec in G1; split; [apply LD_get; auto|auto]|].
        cbn [orb] in G. apply bytes_eqb_spec in G. split; [apply LD_set; auto|auto].
Qed.
Lemma block_at_reads : forall k s r s', block_at body k s = POk r s' -> exists ts, read s ts s' /\ forall nx, is_part ABlock r ts nx.
Proof.
  intros k s r s' H. unfold block_at in H. okb H b s1 E. injection H as <- <-. destruct (body_reads _ _ _ _ E) as (ts & Q1 & Q2).
  exists ts. split; [exact Q1|]. intro nx. exists (NBlock b). split; [reflexivity|apply F_block; exact Q2].
Qed.
End Reads.
