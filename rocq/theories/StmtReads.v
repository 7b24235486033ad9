(** What the statement parser reads is what its tree spells. *)
From Coq Require Import Lia ZifyBool ZifyNat ZifyN.
From Verif Require Import Base TokenModel LexModel ParseBase BinModel BinSpec SymtabModel EarlyModel ExprModel ExprSpec ExprProofs ExprPlaces ExprReads
  StmtModel StmtSpec.
Set Default Proof Using "All".

Lemma read_snoc : forall s ts s' v, read s ts s' -> at_tok v s' = true -> tv_eqb v T_EOF = false -> read s (ts ++ [peek s']) (next s').
Proof. intros s ts s' v S A E. exact (sp_trans _ _ _ _ _ S (at_read _ _ A E)). Qed.
Lemma semi_read : forall s u s', advance_if_semi true s = POk u s' -> exists x, read s x s' /\ semi True (peek s') x.
Proof.
  intros s u s' H. unfold advance_if_semi in H. cbn [andb] in H. destruct (may_end (peek s)) eqn:M; [|discriminate]. cbn [negb] in H.
  destruct (at_tok T_SEMI s) eqn:A; injection H as <- <-.
  - exists [peek s]. split; [exact (at_read _ _ A eq_refl)|constructor; exact (at_val _ _ A)].
  - exists []. split; [exact (sp_refl _)|]. constructor.
    + unfold may_end in M. cbn [existsb] in M. rewrite !Bool.orb_true_iff in M. change (peek (peeked s)) with (peek s). unfold may_omit, stray.
      destruct M as [[M|[M|[M|[M|[M|[M|M]]]]]]|M]; try apply tv_eqb_spec in M; cbn [In]; auto 8; try discriminate.
      unfold at_tok, pval in A. rewrite M in A. discriminate A.
    + change (peek (peeked s)) with (peek s). intro Q. unfold at_tok, pval in A. rewrite Q in A. discriminate A.
Qed.
Lemma maybe_semi_read : forall s u s', advance_if_semi false s = POk u s' -> exists x, read s x s' /\ maybe_semi (peek s') x.
Proof.
  intros s u s' H. unfold advance_if_semi in H. cbn [andb] in H.
  destruct (at_tok T_SEMI s) eqn:A; injection H as <- <-.
  - exists [peek s]. split; [exact (at_read _ _ A eq_refl)|constructor; exact (at_val _ _ A)].
  - exists []. split; [exact (sp_refl _)|]. constructor.
    change (peek (peeked s)) with (peek s). intro Q. unfold at_tok, pval in A. rewrite Q in A. discriminate A.
Qed.

(** Nothing is spelled by no tokens. *)
Section Ne.
Variables (text : token -> bytes) (Other Method Block : rng -> list token -> Prop) (Decl : rng -> list token -> token -> Prop) (lax loose : Prop).
Hypotheses (other_fr : framed Other) (method_fr : framed Method) (block_fr : framed Block) (decl_fr : forall nx, framed (fun r ts => Decl r ts nx)).
Notation key_of := (key_of text Other Method Block lax).
Notation full := (full text Other Method Block lax).
Notation single := (single text Other Method Block lax).
Notation binding := (binding text Other Method Block lax).
Notation belem := (belem text Other Method Block lax).
Notation dec := (dec text Other Method Block lax).
Notation decs := (decs text Other Method Block lax).
Notation stat := (stat text Other Method Block Decl lax loose).
Notation block := (block text Other Method Block Decl lax loose).
Lemma n_full_ne : forall e ts, full e ts -> ts <> [].
Proof. intros e ts (n & H & _). exact (spell_ne text Other Method Block lax other_fr method_fr block_fr _ _ _ _ H). Qed.
Lemma n_single_ne : forall e ts, single e ts -> ts <> [].
Proof. intros e ts (n & H & _). exact (spell_ne text Other Method Block lax other_fr method_fr block_fr _ _ _ _ H). Qed.
Lemma n_key_ne : forall g e c ts, key_of g e c ts -> ts <> [].
Proof. exact (key_ne text Other Method Block lax other_fr method_fr block_fr). Qed.
Lemma n_binding_ne : forall e ts, binding e ts -> ts <> [].
Proof. destruct 1; discriminate. Qed.
Lemma n_belem_ne : forall e ts, belem e ts -> ts <> [].
Proof. destruct 1; [eapply n_binding_ne; eassumption|]. intro Q. apply app_eq_nil in Q as [_ Q]. discriminate Q. Qed.
Lemma n_block_ne : forall b ts, block b ts -> ts <> [].
Proof. destruct 1; discriminate. Qed.
Lemma n_stat_ne : forall st ts nx, stat st ts nx -> ts <> [].
Proof.
  destruct 1; try discriminate.
  - intro Q. apply app_eq_nil in Q as [Q _]. exact (n_full_ne _ _ H Q).
  - eapply n_block_ne; eassumption.
  - exact (proj1 (decl_fr _ _ _ H)).
Qed.
Lemma n_dec_ne : forall d ts, dec d ts -> ts <> [].
Proof. destruct 1; [eapply n_binding_ne; eassumption|]. intro Q. apply app_eq_nil in Q as [_ Q]. discriminate Q. Qed.
Lemma n_decs_ne : forall d ts, decs d ts -> ts <> [].
Proof. destruct 1; [eapply n_dec_ne; eassumption|]. intro Q. apply app_eq_nil in Q as [_ Q]. discriminate Q. Qed.

End Ne.

Section Reads.
Variables (feat : N) (text : token -> bytes) (chk : pst -> bool).
Variables (ex asg : N -> pst -> pres expr).
Variables (decl : N -> pst -> option (pres rng)) (names_ok : N -> list expr -> pst -> bool)
  (jump_ok : N -> stmt -> pst -> bool) (use_strict : token -> bool).
Variables (Other Method Block : rng -> list token -> Prop) (Decl : rng -> list token -> token -> Prop).
Hypotheses (other_fr : framed Other) (method_fr : framed Method) (block_fr : framed Block) (decl_fr : forall nx, framed (fun r ts => Decl r ts nx)).
Notation spell := (spell text Other Method Block True).
Notation key_of := (key_of text Other Method Block True).
Notation full := (full text Other Method Block True).
Notation single := (single text Other Method Block True).
Notation binding := (binding text Other Method Block True).
Notation belem := (belem text Other Method Block True).
Notation belems := (belems text Other Method Block True).
Notation bprops := (bprops text Other Method Block True).
Notation bprop := (bprop text Other Method Block True).
Notation dec := (dec text Other Method Block True).
Notation decs := (decs text Other Method Block True).
Notation opt_full := (opt_full text Other Method Block True).
Notation init_of := (init_of text Other Method Block True).
Notation left_of := (left_of text Other Method Block True).
Notation stat := (stat text Other Method Block Decl True True).
Notation block := (block text Other Method Block Decl True True).
Notation stats := (stats text Other Method Block Decl True True).
Notation clauses := (clauses text Other Method Block Decl True True).
Notation clause := (clause text Other Method Block Decl True True).
Notation handler := (handler text Other Method Block Decl True True).
Notation final := (final text Other Method Block Decl True True).
Hypothesis ex_reads : forall k s e s', ex k s = POk e s' -> exists ts, read s ts s' /\ full e ts.
Hypothesis asg_reads : forall k s e s', asg k s = POk e s' -> exists ts, read s ts s' /\ single e ts.
Hypothesis decl_reads : forall k s r s', decl k s = Some (POk r s') -> exists ts, read s ts s' /\ Decl r ts (peek s').

Local Definition full_ne := n_full_ne text Other Method Block Decl True True other_fr method_fr block_fr decl_fr.
Local Definition single_ne := n_single_ne text Other Method Block Decl True True other_fr method_fr block_fr decl_fr.
Local Definition key_ne' := n_key_ne text Other Method Block Decl True True other_fr method_fr block_fr decl_fr.
Local Definition binding_ne := n_binding_ne text Other Method Block Decl True True other_fr method_fr block_fr decl_fr.
Local Definition belem_ne := n_belem_ne text Other Method Block Decl True True other_fr method_fr block_fr decl_fr.
Local Definition block_ne' := n_block_ne text Other Method Block Decl True True other_fr method_fr block_fr decl_fr.
Local Definition stat_ne := n_stat_ne text Other Method Block Decl True True other_fr method_fr block_fr decl_fr.
Local Definition dec_ne := n_dec_ne text Other Method Block Decl True True other_fr method_fr block_fr decl_fr.
Local Definition decs_ne := n_decs_ne text Other Method Block Decl True True other_fr method_fr block_fr decl_fr.

Lemma ident_reads : forall k s e s', ident text k s = POk e s' ->
  exists t kw, t = peek s /\ e = EName (place t) (text t) false kw /\ ident_tok (t_val t) = true /\ s' = next s /\ read s [t] s'.
Proof.
  intros k s e s' H. unfold ident in H. cbv zeta in H. destruct (ident_tok (t_val (peek s))) eqn:A; [|discriminate]. cbn [negb] in H.
  repeat match type of H with (if ?b then _ else _) = _ => destruct b; [discriminate|] end. injection H as <- <-.
  exists (peek s), (is_kw (t_val (peek s))). repeat split; auto.
  all: apply sp_next; intro Q; unfold pval in Q; rewrite Q in A; discriminate A.
Qed.
Lemma prop_name_reads : forall k s key computed s', prop_name text asg k s = POk (key, computed) s' ->
  exists kts, read s kts s' /\ key_of false key computed kts.
Proof.
  intros k s key computed s' E. unfold prop_name in E. cbv zeta in E.
  destruct (at_tok T_STRING s) eqn:A1; [|destruct (at_tok T_NUM s) eqn:A2; [|destruct (at_tok T_BRACKET_L s) eqn:A3]].
  - match type of E with (if ?b then _ else _) = _ => destruct b; [discriminate|] end. injection E as <- <- <-.
    exists [peek s]. split; [exact (at_read _ _ A1 eq_refl)|]. constructor; left; exact (at_val _ _ A1).
  - injection E as <- <- <-.
    exists [peek s]. split; [exact (at_read _ _ A2 eq_refl)|]. constructor; right; exact (at_val _ _ A2).
  - okb E a s2 E0. okb E u s3 E1. injection E as <- <- <-. apply must_ok in E1 as [E1 ->].
    destruct (asg_reads _ _ _ _ E0) as (ts & Q1 & n & Q2 & Q3). exists (peek s :: ts ++ [peek s2]).
    split; [exact (sp_trans _ _ _ _ _ (at_read _ _ A3 eq_refl) (read_snoc _ _ _ _ Q1 E1 eq_refl))|].
    eapply K_computed; eauto; [exact (at_val _ _ A3)|exact (at_val _ _ E1)].
  - destruct (can_be_key (peek s)) eqn:K; [|discriminate]. match type of E with (if ?b then _ else _) = _ => destruct b; [discriminate|] end.
    injection E as <- <- <-. exists [peek s]. split; [|constructor; exact K].
    apply sp_next. intro Q. unfold can_be_key in K. unfold pval in Q. rewrite Q in K. discriminate K.
Qed.
Lemma default_reads : forall k b s e s' s0 ts0, pattern_default text asg k b s = POk e s' -> read s0 ts0 s -> binding b ts0 ->
  exists ts, read s0 ts s' /\ belem e ts.
Proof.
  intros k b s e s' s0 ts0 H S B. unfold pattern_default in H. destruct (at_tok T_ASSIGN s) eqn:A.
  - okb H h s1 E. oka H u E1. injection H as <- <-. destruct (asg_reads _ _ _ _ E) as (ts & Q1 & Q2).
    exists (ts0 ++ peek s :: ts). split; [exact (sp_trans _ _ _ _ _ S (sp_trans _ _ _ _ _ (at_read _ _ A eq_refl) Q1))|].
    unfold fin. rewrite (sp_end _ _ _ Q1 (single_ne _ _ Q2)). apply BE_default; auto. exact (at_val _ _ A).
  - injection H as <- <-. exists ts0. split; [exact S|constructor; exact B].
Qed.
Lemma holes_read : forall fuel s holes s0, elision fuel s = (holes, s0) -> exists hts, read s hts s0 /\
  forall l ts, belems l ts -> belems (holes ++ l) (hts ++ ts).
Proof.
  induction fuel as [|fuel IH]; intros s holes s0 H; cbn [elision] in H.
  - injection H as <- <-. exists []. split; [exact (sp_refl _)|auto].
  - destruct (at_tok T_COMMA s) eqn:C.
    + destruct (elision fuel (next s)) as [l1 s1] eqn:E. injection H as <- <-. destruct (IH _ _ _ E) as (hts & P1 & P2).
      exists (peek s :: hts). split; [exact (sp_trans _ _ _ _ _ (at_read _ _ C eq_refl) P1)|].
      intros l ts L. cbn [app]. constructor; [exact (at_val _ _ C)|auto].
    + injection H as <- <-. exists []. split; [exact (sp_refl _)|auto].
Qed.

Lemma bind_rest_S : forall fuel nested k s, bind_rest feat text asg (S fuel) nested k s =
  if negb (has feat FEAT_BINDING_REST_ELEM) then PErr
  else if negb (at_tok T_NAME (peeked (next s))) && (negb nested || negb (at_tok T_BRACKET_L (peeked (next s))) && negb (at_tok T_BRACE_L (peeked (next s)))) then PErr
  else pbind (bind feat text asg fuel false k (peeked (next s))) (fun b s2 =>
       if at_tok T_COMMA s2 then PErr else POk (PRest (fin (here s) s2) b) (peeked s2)).
Proof. reflexivity. Qed.
Definition bound (elem : bool) (e : expr) (ts : list token) : Prop := if elem then belem e ts else binding e ts.
Lemma bind_reads : forall fuel,
  (forall elem k s e s', bind feat text asg fuel elem k s = POk e s' -> exists ts, read s ts s' /\ bound elem e ts) /\
  (forall nested k s e s', bind_rest feat text asg fuel nested k s = POk e s' -> p_buf s = true -> at_tok T_DOT_TRI s = true ->
     exists d b ts, e = PRest (t_lo d, last_hi ts) b /\ read s (d :: ts) s' /\ t_val d = T_DOT_TRI /\ binding b ts /\
       (nested = false -> is_name_e b = true)) /\
  (forall k l acc s e s' s0 ts0, bind_obj feat text asg fuel k l acc s = POk e s' -> read s0 ts0 s ->
     (forall l' us, bprops l' us -> bprops (acc ++ l') (ts0 ++ us)) ->
     exists ps ts h, e = PObj (l, t_hi h) ps /\ read s0 (ts ++ [h]) s' /\ bprops ps ts /\ t_val h = T_BRACE_R) /\
  (forall k s e s', bind_prop feat text asg fuel k s = POk e s' -> p_buf s = true -> exists ts, read s ts s' /\ bprop e ts) /\
  (forall k l acc s e s' s0 ts0, bind_arr feat text asg fuel k l acc s = POk e s' -> read s0 ts0 s ->
     (forall l' us, belems l' us -> belems (acc ++ l') (ts0 ++ us)) ->
     exists es ts h, e = PArr (l, t_hi h) es /\ read s0 (ts ++ [h]) s' /\ belems es ts /\ t_val h = T_BRACKET_R).
Proof.
  induction fuel as [|fuel (I1 & I2 & I3 & I4 & I5)].
  { split; [|split; [|split; [|split]]]; intros; discriminate. }
  split; [|split; [|split; [|split]]].
  - intros elem k s e s' H. cbn [bind] in H. cbv zeta in H.
    match type of H with (if ?b then _ else _) = _ => destruct b; [discriminate|] end.
    okb H b s1 E.
    assert (J : exists ts, read s ts s1 /\ binding b ts).
    { change (here (peeked s)) with (t_lo (peek s)) in E. rewrite !at_peeked in E.
      destruct (at_tok T_BRACE_L s) eqn:A1; [|destruct (at_tok T_BRACKET_L s) eqn:A2; [|destruct (at_tok T_DOT_TRI s) eqn:A3]].
      - destruct (I3 _ _ _ _ _ _ (next s) [] E (sp_refl _) (fun l' us X => X)) as (ps & ts & h & -> & Q1 & Q2 & Q3).
        exists (peek s :: ts ++ [h]). split; [exact (sp_trans _ _ _ _ _ (at_read _ _ A1 eq_refl) Q1)|].
        apply B_obj; auto. exact (at_val _ _ A1).
      - destruct (I5 _ _ _ _ _ _ (next s) [] E (sp_refl _) (fun l' us X => X)) as (ps & ts & h & -> & Q1 & Q2 & Q3).
        exists (peek s :: ts ++ [h]). split; [exact (sp_trans _ _ _ _ _ (at_read _ _ A2 eq_refl) Q1)|].
        apply B_arr; auto. exact (at_val _ _ A2).
      - destruct (I2 _ _ _ _ _ E eq_refl A3) as (d & b' & ts & -> & Q1 & Q2 & Q3 & _).
        exists (d :: ts). split; [exact Q1|apply B_rest; auto].
      - destruct (ident_reads _ _ _ _ E) as (t & kw & -> & -> & Q1 & -> & Q2). exists [peek s]. split; [exact Q2|].
        apply B_name. exact Q1. }
    destruct J as (ts & J1 & J2). destruct elem.
    + destruct (default_reads _ _ _ _ _ s ts H J1 J2) as (us & X). exists us; exact X.
    + injection H as <- <-. exists ts; split; assumption.
  - intros nested k s e s' H B A. rewrite bind_rest_S in H.
    grd H (negb (has feat FEAT_BINDING_REST_ELEM)).
    match type of H with (if ?b then _ else _) = _ => destruct b eqn:Nm; [discriminate|] end.
    okb H b s1 E. destruct (at_tok T_COMMA s1); [discriminate|]. injection H as <- <-.
    pose proof E as E'. apply I1 in E as (ts & Q1 & Q2). cbn [bound] in Q2.
    exists (peek s), b, ts. unfold fin. rewrite (here_buf s B), (sp_end _ _ _ Q1 (binding_ne _ _ Q2)).
    split; [reflexivity|]. split; [exact (sp_trans _ _ _ _ _ (at_read _ _ A eq_refl) Q1)|]. split; [exact (at_val _ _ A)|].
    split; [exact Q2|]. intros ->. cbn [negb orb] in Nm. rewrite Bool.andb_true_r in Nm. apply Bool.negb_false_iff in Nm.
    pose proof (at_val _ _ Nm) as V. pose proof (sp_hd _ _ _ (peek s) Q1 (binding_ne _ _ Q2)) as Hd.
    destruct Q2; cbn [hd] in Hd; try reflexivity; exfalso; congruence.
  - intros k l acc s e s' s0 ts0 H S A. cbn [bind_obj] in H. destruct (at_tok T_BRACE_R s) eqn:B.
    + injection H as <- <-. exists acc, ts0, (peek s). split; [reflexivity|].
      split; [exact (read_snoc _ _ _ _ S B eq_refl)|]. split; [|exact (at_val _ _ B)].
      pose proof (A [] [] (BP_nil _ _ _ _ _)) as Z. rewrite !app_nil_r in Z. exact Z.
    + okb H a s2 E0. destruct (I4 _ _ _ _ E0 eq_refl) as (ts & J1 & J2). pose proof (sp_trans _ _ _ _ _ S J1) as S2.
      match type of H with (if ?b then _ else _) = _ => destruct b eqn:R; [discriminate|] end.
      destruct (at_tok T_COMMA s2) eqn:C.
      * apply (I3 _ _ _ _ _ _ s0 ((ts0 ++ ts) ++ [peek s2]) H (read_snoc _ _ _ _ S2 C eq_refl)).
        intros l' ts' L. rewrite <- !app_assoc. cbn [app]. apply A. apply BP_more; [exact (at_val _ _ C)| |exact J2|exact L].
        destruct (is_rest a); [|reflexivity]. cbn [andb] in R. apply Bool.negb_false_iff in R.
        pose proof (at_val _ _ R). pose proof (at_val _ _ C). congruence.
      * destruct (at_tok T_BRACE_R s2) eqn:D; [|discriminate]. injection H as <- <-.
        exists (acc ++ [a]), (ts0 ++ ts), (peek s2). split; [reflexivity|].
        split; [exact (read_snoc _ _ _ _ S2 D eq_refl)|]. split; [|exact (at_val _ _ D)].
        apply A. apply BP_last; exact J2.
  - intros k s e s' H B. cbn [bind_prop] in H. destruct (at_tok T_DOT_TRI s) eqn:D.
    { destruct (I2 _ _ _ _ _ H B D) as (d & b' & ts & -> & Q1 & Q2 & Q3 & Q4).
      exists (d :: ts). split; [exact Q1|apply BO_rest; auto]. }
    okb H x s1 E. destruct x as [key computed]. destruct (prop_name_reads _ _ _ _ _ E) as (kts & J1 & J2).
    match type of H with (if ?b then _ else _) = _ => destruct b; [discriminate|] end.
    pose proof (key_ne' _ _ _ _ J2) as KN. rewrite (sp_first _ _ _ J1 KN) in H.
    destruct (at_tok T_COLON s1) eqn:C; [|destruct (at_tok T_ASSIGN s1) eqn:C1].
    + okb H v s2 E0. injection H as <- <-. destruct (I1 _ _ _ _ _ E0) as (ts & Q1 & Q2). cbn [bound] in Q2.
      exists (kts ++ peek s1 :: ts).
      split; [exact (sp_trans _ _ _ _ _ J1 (sp_trans _ _ _ _ _ (at_read _ _ C eq_refl) Q1))|].
      unfold fin. rewrite (sp_end _ _ _ Q1 (belem_ne _ _ Q2)). apply BO_value; auto. exact (at_val _ _ C).
    + destruct (is_name_e key) eqn:Nk; [|discriminate]. okb H v s2 E0. injection H as <- <-.
      unfold pattern_default in E0. rewrite at_peeked, C1 in E0. okb E0 h s3 E1. oka E0 u E2. injection E0 as <- <-.
      destruct (asg_reads _ _ _ _ E1) as (ts & Q1 & Q2). exists (kts ++ peek s1 :: ts).
      split; [exact (sp_trans _ _ _ _ _ J1 (sp_trans _ _ _ _ _ (at_read _ _ C1 eq_refl) Q1))|].
      unfold fin. rewrite (sp_end _ _ _ Q1 (single_ne _ _ Q2)). eapply BO_default; eauto. exact (at_val _ _ C1).
    + injection H as <- <-. exists kts. split; [exact J1|].
      unfold fin. rewrite (sp_end _ _ _ J1 KN). apply BO_short; assumption.
  - intros k l acc s e s' s0 ts0 H S A. cbn [bind_arr] in H. match type of H with context [elision ?f s] => destruct (elision f s) as [holes s1] eqn:El end.
    destruct (holes_read _ _ _ _ El) as (hts & P1 & P2). cbv zeta in H.
    pose proof (sp_trans _ _ _ _ _ S P1) as S1. destruct (at_tok T_BRACKET_R s1) eqn:B.
    + injection H as <- <-. exists (acc ++ holes), (ts0 ++ hts), (peek s1). split; [reflexivity|].
      split; [exact (read_snoc _ _ _ _ S1 B eq_refl)|]. split; [|exact (at_val _ _ B)].
      apply A. pose proof (P2 [] [] (BL_nil _ _ _ _ _)) as Z. rewrite !app_nil_r in Z. exact Z.
    + okb H a s2 E0. destruct (I1 _ _ _ _ _ E0) as (ts & J1 & J2). cbn [bound] in J2. pose proof (sp_trans _ _ _ _ _ S1 J1) as S2.
      match type of H with (if ?b then _ else _) = _ => destruct b eqn:R; [discriminate|] end.
      destruct (at_tok T_COMMA s2) eqn:C.
      * apply (I5 _ _ _ _ _ _ s0 (((ts0 ++ hts) ++ ts) ++ [peek s2]) H (read_snoc _ _ _ _ S2 C eq_refl)).
        intros l' ts' L. rewrite <- !app_assoc. cbn [app]. apply A. apply P2. apply BL_more; [exact (at_val _ _ C)| |exact J2|exact L].
        destruct (is_rest a); [|reflexivity]. cbn [andb] in R. apply Bool.negb_false_iff in R.
        pose proof (at_val _ _ R). pose proof (at_val _ _ C). congruence.
      * destruct (at_tok T_BRACKET_R s2) eqn:D; [|discriminate]. injection H as <- <-.
        exists ((acc ++ holes) ++ [Some a]), ((ts0 ++ hts) ++ ts), (peek s2). split; [reflexivity|].
        split; [exact (read_snoc _ _ _ _ S2 D eq_refl)|]. split; [|exact (at_val _ _ D)].
        rewrite <- !app_assoc. apply A. apply P2. apply BL_last; exact J2.
Qed.

Lemma bind_one : forall fuel k s e s', bind feat text asg fuel false k s = POk e s' -> exists ts, read s ts s' /\ binding e ts.
Proof. intros fuel k s e s' H. exact (proj1 (bind_reads fuel) false _ _ _ _ H). Qed.
Lemma var_dec_reads : forall fuel lexical k s d s', var_dec feat text asg fuel lexical k s = POk d s' ->
  exists ts, read s ts s' /\ dec d ts.
Proof.
  intros fuel lexical k s d s' H. unfold var_dec in H. okb H b s1 E. okb H i s2 E1.
  destruct (bind_one _ _ _ _ _ E) as (ts & Q1 & Q2).
  match type of H with (if ?b then _ else _) = _ => destruct b; [discriminate|] end. injection H as <- <-.
  destruct (at_tok T_ASSIGN s1) eqn:A.
  - okb E1 e s3 E2. injection E1 as <- <-. destruct (asg_reads _ _ _ _ E2) as (us & J1 & J2). exists (ts ++ peek s1 :: us).
    split; [exact (sp_trans _ _ _ _ _ Q1 (sp_trans _ _ _ _ _ (at_read _ _ A eq_refl) J1))|].
    unfold fin. rewrite (sp_end _ _ _ J1 (single_ne _ _ J2)). apply D_init; auto. exact (at_val _ _ A).
  - injection E1 as <- <-. exists ts. split; [exact Q1|]. unfold fin. rewrite end_peeked, (sp_end _ _ _ Q1 (binding_ne _ _ Q2)).
    apply D_bare; exact Q2.
Qed.
Lemma var_decs_reads : forall fuel kind k acc s l s' s0 ts0, var_decs feat text asg fuel kind k acc s = POk l s' -> read s0 ts0 s ->
  (forall l' us, decs l' us -> decs (acc ++ l') (ts0 ++ us)) -> exists ts, read s0 ts s' /\ decs l ts.
Proof.
  induction fuel as [|fuel IH]; intros kind k acc s l s' s0 ts0 H S A; [discriminate|]. cbn [var_decs] in H.
  okb H d s1 E. destruct (var_dec_reads _ _ _ _ _ _ E) as (ts & Q1 & Q2). pose proof (sp_trans _ _ _ _ _ S Q1) as S1.
  match type of H with (if ?b then _ else _) = _ => destruct b; [discriminate|] end.
  destruct (at_tok T_COMMA s1) eqn:C.
  - apply (IH _ _ _ _ _ _ s0 ((ts0 ++ ts) ++ [peek s1]) H (read_snoc _ _ _ _ S1 C eq_refl)).
    intros l' us L. rewrite <- !app_assoc. cbn [app]. apply A. apply DS_more; [exact (at_val _ _ C)|exact Q2|exact L].
  - injection H as <- <-. exists (ts0 ++ ts). split; [exact S1|]. apply A. apply DS_one; exact Q2.
Qed.
Lemma tok_read : forall s, pval s <> T_EOF -> read s [peek s] (next s).
Proof. intros s H. apply sp_next. exact H. Qed.
(** A declaration without its end. *)
Lemma var_stmt_open : forall fuel kind k s st s', var_stmt feat text asg names_ok fuel kind true k s = POk st s' -> p_buf s = true -> pval s <> T_EOF ->
  exists l ts, st = SVar (t_lo (peek s), last_hi ts) kind l /\ read s (peek s :: ts) s' /\ decs l ts.
Proof.
  intros fuel kind k s st s' H B N. unfold var_stmt in H. okb H l s1 E.
  match type of H with (if ?b then _ else _) = _ => destruct b; [discriminate|] end. cbn [pbind] in H. injection H as <- <-.
  destruct (var_decs_reads _ _ _ _ _ _ _ (next s) [] E (sp_refl _) (fun l' us X => X)) as (ts & Q1 & Q2).
  exists l, ts. unfold fin. rewrite (here_buf s B), (sp_end _ _ _ Q1 (decs_ne _ _ Q2)). split; [reflexivity|].
  split; [exact (sp_trans _ _ _ _ _ (tok_read _ N) Q1)|exact Q2].
Qed.
Lemma var_stmt_reads : forall fuel kind k s st s', var_stmt feat text asg names_ok fuel kind false k s = POk st s' -> p_buf s = true -> pval s <> T_EOF ->
  exists l ts x, st = SVar (t_lo (peek s), last_hi (ts ++ x)) kind l /\ read s (peek s :: ts ++ x) s' /\ decs l ts /\ semi True (peek s') x.
Proof.
  intros fuel kind k s st s' H B N. unfold var_stmt in H. okb H l s1 E.
  match type of H with (if ?b then _ else _) = _ => destruct b; [discriminate|] end. okb H u s2 E1. injection H as <- <-.
  destruct (semi_read _ _ _ E1) as (x & X1 & X2).
  destruct (var_decs_reads _ _ _ _ _ _ _ (next s) [] E (sp_refl _) (fun l' us X => X)) as (ts & Q1 & Q2).
  pose proof (sp_trans _ _ _ _ _ Q1 X1) as Q3.
  exists l, ts, x. unfold fin. rewrite (here_buf s B), (sp_end _ _ _ Q3). 2: { intro Q. apply app_eq_nil in Q as [Q _]. exact (decs_ne _ _ Q2 Q). }
  split; [reflexivity|]. split; [exact (sp_trans _ _ _ _ _ (tok_read _ N) Q3)|]. split; assumption.
Qed.
Lemma ahead_word : forall k s kind, ahead_var feat k s = Some kind -> var_word (peek s) kind /\ pval s <> T_EOF.
Proof.
  intros k s kind H. unfold ahead_var in H. cbv zeta in H. unfold pval.
  destruct (tv_eqb (t_val (peek s)) T_VAR) eqn:A.
  { injection H as <-. apply tv_eqb_spec in A. rewrite A. split; [|discriminate]. left; split; [exact A|cbn; auto]. }
  destruct (has feat FEAT_LET_CONST); [|discriminate]. cbn [negb] in H.
  match type of H with match ?x with _ => _ end = _ => destruct x as [v|] eqn:V; [|discriminate] end.
  assert (K : kind = v).
  { destruct (has k SPK_STRICT); [congruence|]. match type of H with (if ?b then _ else _) = _ => destruct b; [congruence|discriminate] end. }
  subst kind. clear H.
  destruct (tv_eqb (t_val (peek s)) T_LET || tv_eqb (t_val (peek s)) T_CONST) eqn:L.
  { injection V as <-. apply Bool.orb_true_iff in L as [L|L]; apply tv_eqb_spec in L; rewrite L; (split; [|discriminate]); left; split; auto; cbn; auto. }
  unfold is_name in V.
  destruct (tv_eqb (t_val (peek s)) T_NAME) eqn:Nm; [|discriminate]. apply tv_eqb_spec in Nm. rewrite Nm. split; [|discriminate].
  destruct (bytes_eqb (t_text (peek s)) (bs "let")) eqn:B1.
  - apply bytes_eqb_spec in B1. cbn [andb] in V. destruct (false || negb (contains_escape (peek s))).
    + injection V as <-. right; left. split; [reflexivity|split; assumption].
    + destruct (bytes_eqb (t_text (peek s)) (bs "const")); discriminate.
  - cbn [andb] in V. destruct (bytes_eqb (t_text (peek s)) (bs "const")) eqn:B2; [|discriminate]. apply bytes_eqb_spec in B2.
    cbn [andb] in V. destruct (false || negb (contains_escape (peek s))); [|discriminate].
    injection V as <-. right; right. split; [reflexivity|split; assumption].
Qed.
Lemma head_reads : forall k s e s', head_expr ex k s = POk e s' ->
  exists l ts h, read s (l :: ts ++ [h]) s' /\ t_val l = T_PAREN_L /\ t_val h = T_PAREN_R /\ full e ts.
Proof.
  intros k s e s' H. unfold head_expr in H. okb H u s1 E1. okb H e1 s2 E2. okb H u3 s3 E3. injection H as <- <-.
  apply must_ok in E1 as [A1 ->]. apply must_ok in E3 as [A3 ->]. destruct (ex_reads _ _ _ _ E2) as (ts & Q1 & Q2).
  exists (peek s), ts, (peek s2). split; [exact (sp_trans _ _ _ _ _ (at_read _ _ A1 eq_refl) (read_snoc _ _ _ _ Q1 A3 eq_refl))|].
  split; [exact (at_val _ _ A1)|]. split; [exact (at_val _ _ A3)|exact Q2].
Qed.
Lemma last_semi : forall s a ts x s1 s2, read s (a :: ts) s1 -> read s1 x s2 -> p_end s2 = last_hi (a :: ts ++ x).
Proof. intros s a ts x s1 s2 H1 H2. apply (sp_end s (a :: ts ++ x) s2); [exact (sp_trans _ _ _ _ _ H1 H2)|discriminate]. Qed.

Definition spells (rec : N -> pst -> pres stmt) : Prop :=
  forall k s st s', rec k s = POk st s' -> exists ts, read s ts s' /\ stat st ts (peek s').

Lemma expr_stmt_reads : forall k s st s', expr_stmt ex k s = POk st s' -> p_buf s = true -> ~ no_expr_stmt (pval s) ->
  exists ts, read s ts s' /\ stat st ts (peek s').
Proof.
  intros k s st s' H B N. unfold expr_stmt in H. okb H e s1 E. okb H u s2 E1. injection H as <- <-.
  destruct (ex_reads _ _ _ _ E) as (ts & Q1 & Q2). destruct (semi_read _ _ _ E1) as (x & X1 & X2).
  pose proof (full_ne _ _ Q2) as NE. pose proof (sp_trans _ _ _ _ _ Q1 X1) as Q3.
  exists (ts ++ x). split; [exact Q3|]. unfold fin. rewrite (here_buf s B), (sp_first _ _ _ Q1 NE), (sp_end _ _ _ Q3).
  2: { intro Q. apply app_eq_nil in Q as [Q _]. exact (NE Q). }
  apply T_expr; auto. rewrite (sp_hd _ _ _ _ Q1 NE). exact N.
Qed.
Lemma throw_reads : forall k s st s', throw_stmt ex k s = POk st s' -> p_buf s = true -> pval s = T_THROW ->
  exists ts, read s ts s' /\ stat st ts (peek s').
Proof.
  intros k s st s' H B N. unfold throw_stmt in H. cbv zeta in H.
  match type of H with (if ?b then _ else _) = _ => destruct b eqn:G; [discriminate|] end.
  apply Bool.orb_false_iff in G as [_ G]. okb H e s1 E. okb H u s2 E1. injection H as <- <-.
  destruct (ex_reads _ _ _ _ E) as (ts & Q1 & Q2). destruct (semi_read _ _ _ E1) as (x & X1 & X2).
  pose proof (full_ne _ _ Q2) as NE. pose proof (sp_trans _ _ _ _ _ Q1 X1) as Q3.
  assert (N3 : ts ++ x <> []) by (intro Q; apply app_eq_nil in Q as [Q _]; exact (NE Q)).
  exists (peek s :: ts ++ x). split; [refine (sp_trans _ _ _ _ _ (tok_read s _) Q3); congruence|].
  unfold fin. rewrite (here_buf s B), (sp_end _ _ _ Q3 N3).
  apply T_throw; auto. rewrite (sp_hd _ _ _ _ Q1 NE). exact G.
Qed.
Lemma ret_reads : forall k s st s', ret_stmt ex k s = POk st s' -> p_buf s = true -> pval s = T_RETURN ->
  exists ts, read s ts s' /\ stat st ts (peek s').
Proof.
  intros k s st s' H B N. unfold ret_stmt in H. cbv zeta in H. okb H e s1 E. okb H u s2 E1.
  match type of H with (if ?b then _ else _) = _ => destruct b; [discriminate|] end. injection H as <- <-.
  assert (R : read s [peek s] (next s)) by (apply tok_read; congruence).
  unfold fin. rewrite (here_buf s B). destruct (at_tok T_SEMI (peeked (next s))) eqn:A.
  - injection E as <- <-. cbn [negb] in E1. destruct (maybe_semi_read _ _ _ E1) as (x & X1 & X2).
    pose proof (read_snoc _ _ _ _ R A eq_refl) as R2. pose proof (sp_trans _ _ _ _ _ R2 X1) as R3. cbn [app] in R3.
    exists (peek s :: peek (next s) :: x). split; [exact R3|]. rewrite (sp_end _ _ _ R3) by discriminate.
    destruct X2 as [t X2|X2].
    + apply T_return_twice; auto. exact (at_val _ _ A).
    + apply T_return; auto. apply Semicolon. exact (at_val _ _ A).
  - cbn [negb] in E1. match type of E with (if ?b then _ else _) = _ => destruct b eqn:G end.
    + injection E as <- <-. destruct (semi_read _ _ _ E1) as (x & X1 & X2). pose proof (sp_trans _ _ _ _ _ R X1) as R3.
      exists (peek s :: x). split; [exact R3|]. change ([peek s] ++ x) with (peek s :: x) in R3. rewrite (sp_end _ _ _ R3) by discriminate.
      apply T_return; auto.
    + okb E e1 s3 E2. injection E as <- <-. apply Bool.orb_false_iff in G as [_ G].
      destruct (ex_reads _ _ _ _ E2) as (ts & Q1 & Q2). destruct (semi_read _ _ _ E1) as (x & X1 & X2).
      pose proof (full_ne _ _ Q2) as NE. pose proof (sp_trans _ _ _ _ _ Q1 X1) as Q3.
      assert (N3 : ts ++ x <> []) by (intro Q; apply app_eq_nil in Q as [Q _]; exact (NE Q)).
      exists (peek s :: ts ++ x). split; [exact (sp_trans _ _ _ _ _ R Q3)|].
      rewrite (sp_end _ _ _ Q3 N3). apply T_return_arg; auto. rewrite (sp_hd _ _ _ _ Q1 NE). exact G.
Qed.
Lemma jump_reads : forall mk v k s st s', jump_stmt text jump_ok mk k s = POk st s' -> p_buf s = true -> pval s = v ->
  mk = SBrk /\ v = T_BREAK \/ mk = SCont /\ v = T_CONTINUE -> exists ts, read s ts s' /\ stat st ts (peek s').
Proof.
  intros mk v k s st s' H B N M. unfold jump_stmt in H. cbv zeta in H. okb H l s1 E. okb H u s2 E1.
  match type of H with (if ?b then _ else _) = _ => destruct b; [|discriminate] end. injection H as <- <-.
  assert (R : read s [peek s] (next s)) by (apply tok_read; destruct M as [[_ ->]|[_ ->]]; congruence).
  unfold fin. rewrite (here_buf s B). destruct (semi_read _ _ _ E1) as (x & X1 & X2).
  match type of E with (if ?b then _ else _) = _ => destruct b eqn:G end.
  - apply Bool.andb_true_iff in G as [G1 G2]. apply Bool.negb_true_iff in G2. okb E e s3 E2. injection E as <- <-.
    destruct (ident_reads _ _ _ _ E2) as (t & kw & -> & -> & _ & -> & Q2). pose proof (sp_trans _ _ _ _ _ Q2 X1) as Q3.
    pose proof (sp_trans _ _ _ _ _ R Q3) as Q4. cbn [app] in Q3, Q4.
    exists (peek s :: peek (next s) :: x). split; [exact Q4|]. rewrite (sp_end _ _ _ Q3) by discriminate.
    destruct M as [[-> ->]|[-> ->]]; [apply T_break_to|apply T_continue_to]; auto; exact (at_val _ _ G1).
  - injection E as <- <-. pose proof (sp_trans _ _ _ _ _ R X1) as Q4. cbn [app] in Q4.
    exists (peek s :: x). split; [exact Q4|]. rewrite (sp_end _ _ _ Q4) by discriminate.
    destruct M as [[-> ->]|[-> ->]]; [apply T_break|apply T_continue]; auto.
Qed.
Lemma debug_reads : forall s st s', debug_stmt s = POk st s' -> p_buf s = true -> pval s = T_DEBUGGER ->
  exists ts, read s ts s' /\ stat st ts (peek s').
Proof.
  intros s st s' H B N. unfold debug_stmt in H. okb H u s1 E. injection H as <- <-. destruct (semi_read _ _ _ E) as (x & X1 & X2).
  assert (R : read s [peek s] (next s)) by (apply tok_read; congruence). pose proof (sp_trans _ _ _ _ _ R X1) as Q4. cbn [app] in Q4.
  exists (peek s :: x). split; [exact Q4|]. unfold fin. rewrite (here_buf s B), (sp_end _ _ _ Q4) by discriminate. apply T_debugger; auto.
Qed.

Section Rec.
Variable rec : N -> pst -> pres stmt.
Hypothesis rec_ok : spells rec.

Lemma hd_next : forall s ts s', read s ts s' -> hd (peek s') ts = peek s.
Proof.
  intros s ts s' R. destruct ts as [|t ts]; [|apply (sp_hd _ _ _ _ R); discriminate]. cbn [hd].
  destruct R as (R1 & R2 & _). unfold peek, p_end. cbn [app] in R1. rewrite R1. rewrite R2 by reflexivity. reflexivity.
Qed.
Lemma list_reads : forall fuel term k pro acc s l k' s' s0 ts0, stmt_list use_strict rec fuel term k pro acc s = POk (l, k') s' -> read s0 ts0 s ->
  (forall l' us nx, stats l' us nx -> hd nx us = peek s -> stats (acc ++ l') (ts0 ++ us) nx) ->
  if tv_eqb term T_ILLEGAL then exists ts, read s0 ts s' /\ pval s' = T_EOF /\ stats l ts (peek s')
  else term <> T_EOF -> exists ts h, read s0 (ts ++ [h]) s' /\ t_val h = term /\ stats l ts h.
Proof.
  induction fuel as [|fuel IH]; intros term k pro acc s l k' s' s0 ts0 H S A; [discriminate|]. cbn [stmt_list] in H.
  destruct (tv_eqb term T_ILLEGAL) eqn:T; cbn [negb andb] in H.
  - apply tv_eqb_spec in T. subst term. destruct (at_tok T_EOF s) eqn:E.
    + injection H as <- <- <-. exists ts0. split; [exact S|]. split; [exact (at_val _ _ E)|].
      change (peek (peeked s)) with (peek s). pose proof (A [] [] (peek s) (SS_nil _ _ _ _ _ _ _ _) eq_refl) as Z. rewrite !app_nil_r in Z. exact Z.
    + okb H st s1 E1. destruct (rec_ok _ _ _ _ E1) as (ts & Q1 & Q2). pose proof (sp_trans _ _ _ _ _ S Q1) as S1.
      assert (A1 : forall l' us nx, stats l' us nx -> hd nx us = peek (peeked s1) -> stats ((acc ++ [st]) ++ l') ((ts0 ++ ts) ++ us) nx).
      { intros l' us nx L Hd. rewrite <- !app_assoc. cbn [app]. apply A; [apply SS_cons; [rewrite Hd; exact Q2|exact L]|].
        change (peek s) with (peek (peeked s)). rewrite <- (sp_hd _ _ _ nx Q1 (stat_ne _ _ _ Q2)). pose proof (stat_ne _ _ _ Q2). destruct ts; [congruence|reflexivity]. }
      destruct pro as [n|]; [|exact (IH T_ILLEGAL _ _ _ _ _ _ _ _ _ H S1 A1)].
      destruct (has k SPK_FUNC || has k SPK_GLOBAL); [|exact (IH T_ILLEGAL _ _ _ _ _ _ _ _ _ H S1 A1)].
      destruct (directive st) as [t|]; [|exact (IH T_ILLEGAL _ _ _ _ _ _ _ _ _ H S1 A1)].
      destruct (use_strict t); [|exact (IH T_ILLEGAL _ _ _ _ _ _ _ _ _ H S1 A1)].
      match type of H with (if ?b then _ else _) = _ => destruct b; [discriminate|] end. exact (IH T_ILLEGAL _ _ _ _ _ _ _ _ _ H S1 A1).
  - intro NE. destruct (at_tok term s) eqn:C.
    + injection H as <- <- <-. exists ts0, (peek s). split; [|split; [exact (at_val _ _ C)|]].
      * apply (read_snoc _ _ _ _ S C). destruct (tv_eqb term T_EOF) eqn:Q; [|reflexivity]. apply tv_eqb_spec in Q. congruence.
      * pose proof (A [] [] (peek s) (SS_nil _ _ _ _ _ _ _ _) eq_refl) as Z. rewrite !app_nil_r in Z. exact Z.
    + destruct (at_tok T_EOF s) eqn:E; [discriminate|].
      okb H st s1 E1. destruct (rec_ok _ _ _ _ E1) as (ts & Q1 & Q2). pose proof (sp_trans _ _ _ _ _ S Q1) as S1.
      assert (A1 : forall l' us nx, stats l' us nx -> hd nx us = peek (peeked s1) -> stats ((acc ++ [st]) ++ l') ((ts0 ++ ts) ++ us) nx).
      { intros l' us nx L Hd. rewrite <- !app_assoc. cbn [app]. apply A; [apply SS_cons; [rewrite Hd; exact Q2|exact L]|].
        change (peek s) with (peek (peeked s)). rewrite <- (sp_hd _ _ _ nx Q1 (stat_ne _ _ _ Q2)). pose proof (stat_ne _ _ _ Q2). destruct ts; [congruence|reflexivity]. }
      pose proof (fun k pro acc s => IH term k pro acc s l k' s' s0 (ts0 ++ ts)) as IH'. rewrite T in IH'.
      destruct pro as [n|]; [|exact (IH' _ _ _ _ H S1 A1 NE)].
      destruct (has k SPK_FUNC || has k SPK_GLOBAL); [|exact (IH' _ _ _ _ H S1 A1 NE)].
      destruct (directive st) as [t|]; [|exact (IH' _ _ _ _ H S1 A1 NE)].
      destruct (use_strict t); [|exact (IH' _ _ _ _ H S1 A1 NE)].
      match type of H with (if ?b then _ else _) = _ => destruct b; [discriminate|] end. exact (IH' _ _ _ _ H S1 A1 NE).
Qed.
Lemma block_reads : forall fuel k s st s', block_stmt use_strict rec fuel k s = POk st s' -> exists ts, read s ts s' /\ block st ts.
Proof.
  intros fuel k s st s' H. unfold block_stmt in H. okb H u s1 E. apply must_ok in E as [A ->]. okb H x s2 E1. injection H as <- <-.
  destruct x as [l k']. cbn [fst]. pose proof (list_reads _ _ _ _ _ _ _ _ _ (next s) [] E1 (sp_refl _) (fun l' us nx X _ => X)) as L.
  cbn in L. destruct L as (ts & h & Q1 & Q2 & Q3); [discriminate|]. exists (peek s :: ts ++ [h]).
  split; [exact (sp_trans _ _ _ _ _ (at_read _ _ A eq_refl) Q1)|]. unfold fin. rewrite (sp_end _ _ _ Q1) by (destruct ts; discriminate).
  rewrite last_hi_snoc. apply K_block; auto. exact (at_val _ _ A).
Qed.
Lemma if_reads : forall k s st s', if_stmt ex rec k s = POk st s' -> p_buf s = true -> pval s = T_IF -> exists ts, read s ts s' /\ stat st ts (peek s').
Proof.
  intros k s st s' H B N. unfold if_stmt in H. okb H e s1 E. okb H c s2 E1.
  destruct (head_reads _ _ _ _ E) as (l & ts & h & Q1 & Q2 & Q3 & Q4). destruct (rec_ok _ _ _ _ E1) as (cts & C1 & C2).
  assert (R : read s [peek s] (next s)) by (apply tok_read; congruence).
  pose proof (sp_trans _ _ _ _ _ R (sp_trans _ _ _ _ _ Q1 C1)) as R1. cbn [app] in R1. rewrite <- app_assoc in R1. cbn [app] in R1.
  destruct (at_tok T_ELSE s2) eqn:A.
  - okb H a s3 E2. injection H as <- <-. destruct (rec_ok _ _ _ _ E2) as (ats & A1 & A2).
    pose proof (sp_trans _ _ _ _ _ R1 (sp_trans _ _ _ _ _ (at_read _ _ A eq_refl) A1)) as R2.
    exists (peek s :: l :: ts ++ h :: cts ++ peek s2 :: ats). split.
    { replace (peek s :: l :: ts ++ h :: cts ++ peek s2 :: ats) with ((peek s :: l :: ts ++ h :: cts) ++ [peek s2] ++ ats); [exact R2|].
      cbn [app]. rewrite <- !app_assoc. cbn [app]. reflexivity. }
    unfold fin. rewrite (here_buf s B), (sp_end _ _ _ A1 (stat_ne _ _ _ A2)).
    eapply T_if_else; eauto. exact (at_val _ _ A).
  - injection H as <- <-. exists (peek s :: l :: ts ++ h :: cts). split; [exact R1|].
    unfold fin. rewrite (here_buf s B), end_peeked || rewrite (here_buf s B). rewrite (sp_end _ _ _ C1 (stat_ne _ _ _ C2)).
    apply T_if; auto. change (peek (peeked s2)) with (peek s2). intro Q. unfold at_tok, pval in A. rewrite Q in A. discriminate A.
Qed.
Lemma loop_reads : forall v mk k k' s st s', p_buf s = true -> pval s = v ->
  pbind (head_expr ex k (next s)) (fun t s1 => pbind (rec k' s1) (fun b s2 => POk (mk (fin (here s) s2) t b) s2)) = POk st s' ->
  mk = SWhile /\ v = T_WHILE \/ mk = SWith /\ v = T_WITH -> exists ts, read s ts s' /\ stat st ts (peek s').
Proof.
  intros v mk k k' s st s' B N H M. okb H e s1 E. okb H c s2 E1. injection H as <- <-.
  destruct (head_reads _ _ _ _ E) as (l & ts & h & Q1 & Q2 & Q3 & Q4). destruct (rec_ok _ _ _ _ E1) as (cts & C1 & C2).
  assert (R : read s [peek s] (next s)) by (apply tok_read; destruct M as [[_ ->]|[_ ->]]; congruence).
  pose proof (sp_trans _ _ _ _ _ R (sp_trans _ _ _ _ _ Q1 C1)) as R1. cbn [app] in R1. rewrite <- app_assoc in R1. cbn [app] in R1.
  exists (peek s :: l :: ts ++ h :: cts). split; [exact R1|]. unfold fin. rewrite (here_buf s B), (sp_end _ _ _ C1 (stat_ne _ _ _ C2)).
  destruct M as [[-> ->]|[-> ->]]; [apply T_while|apply T_with]; auto.
Qed.
Lemma while_reads : forall k s st s', while_stmt ex rec k s = POk st s' -> p_buf s = true -> pval s = T_WHILE -> exists ts, read s ts s' /\ stat st ts (peek s').
Proof. intros k s st s' H B N. exact (loop_reads _ SWhile _ _ _ _ _ B N H (or_introl (conj eq_refl eq_refl))). Qed.
Lemma with_reads : forall k s st s', with_stmt ex rec k s = POk st s' -> p_buf s = true -> pval s = T_WITH -> exists ts, read s ts s' /\ stat st ts (peek s').
Proof.
  intros k s st s' H B N. apply (loop_reads _ SWith k k _ _ _ B N); [|right; split; reflexivity]. unfold with_stmt in H.
  destruct (head_expr ex k (next s)) as [e s1| | | ]; try discriminate. cbn [pbind] in *. destruct (rec k s1) as [c s2| | | ]; try discriminate. cbn [pbind] in *.
  destruct (has k SPK_STRICT); [discriminate|exact H].
Qed.
Lemma do_reads : forall k s st s', do_stmt ex rec k s = POk st s' -> p_buf s = true -> pval s = T_DO -> exists ts, read s ts s' /\ stat st ts (peek s').
Proof.
  intros k s st s' H B N. unfold do_stmt in H. okb H c s1 E. okb H u s2 E1. apply must_ok in E1 as [A ->]. okb H e s3 E2. okb H u2 s4 E3. injection H as <- <-.
  destruct (rec_ok _ _ _ _ E) as (cts & C1 & C2). destruct (head_reads _ _ _ _ E2) as (l & ts & h & Q1 & Q2 & Q3 & Q4).
  destruct (maybe_semi_read _ _ _ E3) as (x & X1 & X2).
  assert (R : read s [peek s] (next s)) by (apply tok_read; congruence).
  pose proof (sp_trans _ _ _ _ _ R (sp_trans _ _ _ _ _ C1 (sp_trans _ _ _ _ _ (at_read _ _ A eq_refl) (sp_trans _ _ _ _ _ Q1 X1)))) as R1.
  cbn [app] in R1. rewrite <- app_assoc in R1. cbn [app] in R1.
  exists (peek s :: cts ++ peek s1 :: l :: ts ++ h :: x). split; [exact R1|].
  unfold fin. rewrite (here_buf s B), (sp_end _ _ _ R1) by discriminate.
  replace (last_hi (peek s :: cts ++ peek s1 :: l :: ts ++ h :: x)) with (last_hi (h :: x)).
  - apply T_do; auto. exact (at_val _ _ A).
  - replace (peek s :: cts ++ peek s1 :: l :: ts ++ h :: x) with ((peek s :: cts ++ peek s1 :: l :: ts) ++ h :: x)
      by (cbn [app]; rewrite <- !app_assoc; reflexivity).
    rewrite last_hi_app by discriminate. reflexivity.
Qed.
Lemma label_reads : forall k s st s', label_stmt text jump_ok rec k s = POk st s' -> p_buf s = true -> at_tok T_NAME s && at_tok T_COLON (next s) = true ->
  exists ts, read s ts s' /\ stat st ts (peek s').
Proof.
  intros k s st s' H B N. apply Bool.andb_true_iff in N as [N1 N2]. unfold label_stmt in H. okb H l s1 E. okb H b s2 E1.
  match type of H with (if ?b then _ else _) = _ => destruct b; [|discriminate] end. injection H as <- <-.
  destruct (ident_reads _ _ _ _ E) as (t & kw & -> & -> & _ & -> & Q2). destruct (rec_ok _ _ _ _ E1) as (cts & C1 & C2).
  exists (peek s :: peek (next s) :: cts). split; [exact (sp_trans _ _ _ _ _ Q2 (sp_trans _ _ _ _ _ (at_read _ _ N2 eq_refl) C1))|].
  unfold fin. rewrite (here_buf s B), (sp_end _ _ _ C1 (stat_ne _ _ _ C2)). apply T_label; auto; [exact (at_val _ _ N1)|exact (at_val _ _ N2)].
Qed.
Lemma case_body_reads : forall fuel k acc s l s' s0 ts0, case_body rec fuel k acc s = POk l s' -> read s0 ts0 s ->
  (forall l' us nx, stats l' us nx -> hd nx us = peek s -> stats (acc ++ l') (ts0 ++ us) nx) ->
  exists ts, read s0 ts s' /\ stats l ts (peek s') /\ In (pval s') [T_CASE; T_DEFAULT; T_BRACE_R].
Proof.
  induction fuel as [|fuel IH]; intros k acc s l s' s0 ts0 H S A; [discriminate|]. cbn [case_body] in H.
  destruct (at_tok T_CASE s || at_tok T_DEFAULT s || at_tok T_BRACE_R s) eqn:T.
  - injection H as <- <-. exists ts0. split; [exact S|]. split.
    + pose proof (A [] [] (peek s) (SS_nil _ _ _ _ _ _ _ _) eq_refl) as Z. rewrite !app_nil_r in Z. exact Z.
    + rewrite !Bool.orb_true_iff in T. change (pval (peeked s)) with (t_val (peek s)). cbn [In].
      destruct T as [[T|T]|T]; rewrite (at_val _ _ T); auto.
  - destruct (at_tok T_EOF s); [discriminate|]. okb H st s1 E1. destruct (rec_ok _ _ _ _ E1) as (ts & Q1 & Q2).
    apply (IH _ _ _ _ _ s0 (ts0 ++ ts) H (sp_trans _ _ _ _ _ S Q1)).
    intros l' us nx L Hd. rewrite <- !app_assoc. cbn [app]. apply A; [apply SS_cons; [rewrite Hd; exact Q2|exact L]|].
    change (peek s) with (peek (peeked s)). rewrite <- (sp_hd _ _ _ nx Q1 (stat_ne _ _ _ Q2)). pose proof (stat_ne _ _ _ Q2). destruct ts; [congruence|reflexivity].
Qed.
Lemma cases_reads : forall fuel k met acc s l s' s0 ts0, cases ex rec fuel k met acc s = POk l s' -> read s0 ts0 s ->
  (forall l' us nx, clauses l' us nx -> hd nx us = peek s -> clauses (acc ++ l') (ts0 ++ us) nx) ->
  exists ts h, read s0 (ts ++ [h]) s' /\ t_val h = T_BRACE_R /\ clauses l ts h.
Proof.
  induction fuel as [|fuel IH]; intros k met acc s l s' s0 ts0 H S A; [discriminate|]. cbn [cases] in H.
  destruct (at_tok T_BRACE_R s) eqn:C.
  - injection H as <- <-. exists ts0, (peek s). split; [exact (read_snoc _ _ _ _ S C eq_refl)|]. split; [exact (at_val _ _ C)|].
    pose proof (A [] [] (peek s) (CL_nil _ _ _ _ _ _ _ _) eq_refl) as Z. rewrite !app_nil_r in Z. exact Z.
  - match type of H with (if ?b then _ else _) = _ => destruct b eqn:G1; [discriminate|] end.
    match type of H with (if ?b then _ else _) = _ => destruct b; [discriminate|] end.
    okb H e s1 E. okb H u s2 E1. apply must_ok in E1 as [A1 ->]. okb H b s3 E2.
    destruct (case_body_reads _ _ _ _ _ _ (next s1) [] E2 (sp_refl _) (fun l' us nx X _ => X)) as (bts & Q1 & Q2 & Q3).
    assert (J : exists cts, read s cts s3 /\ clause (SCase (fin (t_lo (peek s)) s3) e b) cts (peek s3) /\ cts <> []).
    { pose proof (sp_trans _ _ _ _ _ (at_read _ _ A1 eq_refl) Q1) as R1. cbn [app] in R1. unfold fin. rewrite (sp_end _ _ _ R1) by discriminate.
      destruct (at_tok T_CASE s) eqn:T.
      - okb E e1 s4 E3. injection E as <- <-. destruct (ex_reads _ _ _ _ E3) as (ets & X1 & X2).
        exists (peek s :: ets ++ peek s4 :: bts). split; [exact (sp_trans _ _ _ _ _ (at_read _ _ T eq_refl) (sp_trans _ _ _ _ _ X1 R1))|].
        split; [|discriminate]. apply CL_case; auto; [exact (at_val _ _ T)|exact (at_val _ _ A1)].
      - injection E as <- <-. cbn [negb andb] in G1. apply Bool.negb_false_iff in G1. exists (peek s :: peek (next s) :: bts).
        split; [exact (sp_trans _ _ _ _ _ (at_read _ _ G1 eq_refl) R1)|].
        split; [|discriminate]. apply CL_default; auto; [exact (at_val _ _ G1)|exact (at_val _ _ A1)]. }
    destruct J as (cts & J1 & J2 & J3).
    apply (IH _ _ _ _ _ _ s0 (ts0 ++ cts) H (sp_trans _ _ _ _ _ S J1)).
    intros l' us nx L Hd. rewrite <- !app_assoc. cbn [app]. apply A; [apply CL_cons; [rewrite Hd; exact J2|exact L]|].
    rewrite <- (sp_hd _ _ _ nx J1 J3). destruct cts; [congruence|reflexivity].
Qed.
Lemma apart_snoc : forall l x, apart_defaults l -> (forall r b, x = SCase r None b -> forall p r' b', l <> p ++ [SCase r' None b']) -> apart_defaults (l ++ [x]).
Proof.
  intros l x A H p q r1 l1 r2 l2 E. destruct q as [|y q _] using rev_ind.
  - change (p ++ [SCase r1 None l1; SCase r2 None l2]) with (p ++ [SCase r1 None l1] ++ [SCase r2 None l2]) in E. rewrite app_assoc in E. apply app_inj_tail in E as [-> ->]. exact (H _ _ eq_refl _ _ _ eq_refl).
  - change (p ++ SCase r1 None l1 :: SCase r2 None l2 :: q ++ [y]) with (p ++ (SCase r1 None l1 :: SCase r2 None l2 :: q) ++ [y]) in E. rewrite app_assoc in E. apply app_inj_tail in E as [-> ->]. exact (A _ _ _ _ _ _ eq_refl).
Qed.
Lemma cases_apart : forall fuel k met acc s l s', cases ex rec fuel k met acc s = POk l s' -> apart_defaults acc ->
  (met = false -> forall p r b, acc <> p ++ [SCase r None b]) -> apart_defaults l.
Proof.
  induction fuel as [|fuel IH]; intros k met acc s l s' H A L; [discriminate|]. cbn [cases] in H. destruct (at_tok T_BRACE_R s); [injection H as <- <-; exact A|].
  match type of H with (if ?b then _ else _) = _ => destruct b eqn:G1; [discriminate|] end. match type of H with (if ?b then _ else _) = _ => destruct b eqn:G2; [discriminate|] end.
  okb H e s1 E. okb H u s2 E1. okb H b s3 E2. apply (IH _ _ _ _ _ _ H).
  - apply apart_snoc; [exact A|]. intros r b' Q. injection Q as _ -> _. apply L. destruct met; [|reflexivity]. destruct (at_tok T_CASE s) eqn:T; [okb E e1 s4 E3; discriminate|].
    cbn [negb andb] in G1. apply Bool.negb_false_iff in G1. rewrite G1 in G2. discriminate.
  - destruct e as [e|]; [|discriminate]. intros _ p r b' Q. apply app_inj_tail in Q as [_ Q]. discriminate.
Qed.
Lemma switch_reads : forall fuel k s st s', switch_stmt ex rec fuel k s = POk st s' -> p_buf s = true -> pval s = T_SWITCH ->
  exists ts, read s ts s' /\ stat st ts (peek s').
Proof.
  intros fuel k s st s' H B N. unfold switch_stmt in H. okb H e s1 E. okb H u s2 E1. apply must_ok in E1 as [A ->]. okb H cs s3 E2. injection H as <- <-.
  destruct (head_reads _ _ _ _ E) as (l & ts & h & Q1 & Q2 & Q3 & Q4).
  destruct (cases_reads _ _ _ _ _ _ _ (next s1) [] E2 (sp_refl _) (fun l' us nx X _ => X)) as (cts & br & C1 & C2 & C3).
  assert (R : read s [peek s] (next s)) by (apply tok_read; congruence).
  pose proof (sp_trans _ _ _ _ _ R (sp_trans _ _ _ _ _ Q1 (sp_trans _ _ _ _ _ (at_read _ _ A eq_refl) C1))) as R1.
  cbn [app] in R1. rewrite <- app_assoc in R1. cbn [app] in R1.
  exists (peek s :: l :: ts ++ h :: peek s1 :: cts ++ [br]). split; [exact R1|].
  unfold fin. rewrite (here_buf s B), (sp_end _ _ _ C1) by (destruct cts; discriminate). rewrite last_hi_snoc.
  apply T_switch; auto; [exact (at_val _ _ A)|]. apply (cases_apart _ _ _ _ _ _ _ E2); [intros [] q r1 l1 r2 l2; discriminate|intros _ [] r b; discriminate].
Qed.
Lemma catch_reads : forall fuel k s st s', catch_clause feat text asg names_ok use_strict rec fuel k s = POk st s' -> p_buf s = true -> at_tok T_CATCH s = true ->
  exists ts, read s ts s' /\ handler (Some st) ts.
Proof.
  intros fuel k s st s' H B A. unfold catch_clause in H. cbv zeta in H. okb H p s1 E. okb H b s2 E1. injection H as <- <-.
  destruct (block_reads _ _ _ _ _ E1) as (bts & Q1 & Q2). unfold fin. rewrite (here_buf s B), (sp_end _ _ _ Q1 (block_ne' _ _ Q2)).
  destruct (at_tok T_PAREN_L (peeked (next s))) eqn:P.
  - okb E p1 s3 E2. okb E u s4 E3. apply must_ok in E3 as [A3 ->].
    match type of E with (if ?b then _ else _) = _ => destruct b; [|discriminate] end. injection E as <- <-.
    destruct (bind_one _ _ _ _ _ E2) as (pts & P1 & P2).
    exists (peek s :: peek (next s) :: pts ++ peek s3 :: bts). split.
    + exact (sp_trans _ _ _ _ _ (at_read _ _ A eq_refl) (sp_trans _ _ _ _ _ (at_read _ (next s) P eq_refl)
        (sp_trans _ _ _ _ _ P1 (sp_trans _ _ _ _ _ (at_read _ _ A3 eq_refl) Q1)))).
    + apply H_catch_param; auto; [exact (at_val _ _ A)|exact (at_val _ _ P)|exact (at_val _ _ A3)].
  - destruct (has feat FEAT_OPT_CATCH_PARAM); [|discriminate]. injection E as <- <-.
    exists (peek s :: bts). split; [exact (sp_trans _ _ _ _ _ (at_read _ _ A eq_refl) Q1)|]. apply H_catch; auto. exact (at_val _ _ A).
Qed.
Lemma try_reads : forall fuel k s st s', try_stmt feat text asg names_ok use_strict rec fuel k s = POk st s' -> p_buf s = true -> pval s = T_TRY ->
  exists ts, read s ts s' /\ stat st ts (peek s').
Proof.
  intros fuel k s st s' H B N. unfold try_stmt in H. cbv zeta in H. okb H b s1 E.
  match type of H with (if ?b then _ else _) = _ => destruct b eqn:G; [discriminate|] end. okb H c s2 E1. okb H f s3 E2. injection H as <- <-.
  destruct (block_reads _ _ _ _ _ E) as (bts & Q1 & Q2).
  assert (J1 : exists cts, read s1 cts s2 /\ handler c cts /\ (at_tok T_CATCH s1 = true -> cts <> []) /\ (at_tok T_CATCH s1 = false -> peek s2 = peek s1)).
  { rewrite !at_peeked in E1. destruct (at_tok T_CATCH s1) eqn:A.
    - okb E1 c1 s4 E3. injection E1 as <- <-. destruct (catch_reads _ _ _ _ _ E3 eq_refl A) as (cts & C1 & C2). exists cts.
      split; [exact C1|]. split; [exact C2|]. split; [|discriminate]. intros _. inversion C2; discriminate.
    - injection E1 as <- <-. exists []. split; [exact (sp_refl _)|]. split; [constructor|]. split; [discriminate|reflexivity]. }
  destruct J1 as (cts & J1 & J2 & J3 & J4).
  assert (J5 : exists fts, read s2 fts s3 /\ final f fts /\ (at_tok T_FINALLY s2 = true -> fts <> [])).
  { destruct (at_tok T_FINALLY s2) eqn:A.
    - okb E2 f1 s4 E3. injection E2 as <- <-. destruct (block_reads _ _ _ _ _ E3) as (fts & F1 & F2). exists (peek s2 :: fts).
      split; [exact (sp_trans _ _ _ _ _ (at_read _ _ A eq_refl) F1)|]. split; [|discriminate]. apply F_finally; auto. exact (at_val _ _ A).
    - injection E2 as <- <-. exists []. split; [exact (sp_refl _)|]. split; [constructor|discriminate]. }
  destruct J5 as (fts & J5 & J6 & J7).
  assert (R : read s [peek s] (next s)) by (apply tok_read; congruence).
  pose proof (sp_trans _ _ _ _ _ Q1 (sp_trans _ _ _ _ _ J1 J5)) as R1.
  exists (peek s :: bts ++ cts ++ fts). split; [exact (sp_trans _ _ _ _ _ R R1)|].
  unfold fin. rewrite (here_buf s B), (sp_end _ _ _ R1) by (intro Q; apply app_eq_nil in Q as [Q _]; exact (block_ne' _ _ Q2 Q)).
  apply T_try; auto. intro Q. apply app_eq_nil in Q as [K1 K2]. rewrite !at_peeked in G.
  destruct (at_tok T_CATCH s1) eqn:A; [exact (J3 eq_refl K1)|]. cbn [negb andb] in G. apply Bool.negb_false_iff in G.
  apply J7; [|exact K2]. unfold at_tok, pval in *. rewrite J4; auto.
Qed.
Lemma opt_reads : forall stop k s e s', opt_expr ex stop k s = POk e s' -> exists ts, read s ts s' /\ opt_full e ts.
Proof.
  intros stop k s e s' H. unfold opt_expr in H. destruct (at_tok stop s).
  - injection H as <- <-. exists []. split; [exact (sp_refl _)|constructor].
  - okb H e1 s1 E. injection H as <- <-. destruct (ex_reads _ _ _ _ E) as (ts & Q1 & Q2). exists ts. split; [exact Q1|constructor; exact Q2].
Qed.
Lemma simple_upd : forall k e member, is_simple k true member false e = true -> updatable e = true.
Proof. intro k; induction e; intros member H; cbn [is_simple updatable] in *; try discriminate H; try reflexivity. eauto. Qed.
Lemma for_left_ok : forall k init s left its, for_left feat text chk k init s = AOk left -> init_of (Some init) its -> left_of left its.
Proof.
  intros k init s left its H I. inversion I; subst.
  - cbn [for_left] in H. destruct (is_simple k true true false e) eqn:U; [|discriminate]. cbn [negb] in H. destruct H1 as (n & S & L).
    destruct (is_lit_pat e) eqn:P.
    + destruct (arg_to_param k feat (chk s) text true false true e) as [m x] eqn:A. cbn [snd] in H. destruct x as [p| | ]; try discriminate. injection H as <-.
      destruct (proj1 (atp_all text Other Method Block True other_fr method_fr block_fr k feat (chk s)) _ _ _ _ S _ _ _ _ _ A L) as (_ & _ & _ & _ & J).
      destruct (J p eq_refl) as [(T & (n' & N' & S') & _)|(N1 & _)].
      * eapply LE_target; [exact S'|lia|left; exact T].
      * subst n. exfalso. inversion S; subst; discriminate P.
    + injection H as <-. eapply LE_target; [exact (spell_mono text Other Method Block True other_fr method_fr block_fr _ _ _ _ S)|exact L|].
      destruct e; try discriminate U; try discriminate P; try (left; reflexivity).
      right. cbn [is_simple] in U. eexists _, _. split; [reflexivity|]. exact (simple_upd _ _ _ U).
  - cbn [for_left] in H. inversion H2; subst.
    + cbn [length Nat.ltb Nat.leb] in H. match type of H with (if ?b then _ else _) = _ => destruct b; [discriminate|] end. injection H as <-.
      apply LE_var; assumption.
    + exfalso. match goal with X : decs ?l _ |- _ => match type of H with context [length (_ :: l)] => inversion X; subst; cbn in H; discriminate end end.
Qed.
Lemma for_reads : forall fuel k s st s', for_stmt feat text chk ex asg names_ok rec fuel k s = POk st s' -> p_buf s = true -> pval s = T_FOR ->
  exists ts, read s ts s' /\ stat st ts (peek s').
Proof.
  intros fuel k s st s' H B N. unfold for_stmt in H. cbv zeta in H.
  match type of H with (if ?b then _ else _) = _ => destruct b; [discriminate|] end.
  remember (has k SPK_ASYNC && at_tok T_AWAIT (peeked (next s))) as aw eqn:AW. okb H u s2 E0. apply must_ok in E0 as [A0 ->].
  okb H init s3 E1.
  assert (R : read s [peek s] (next s)) by (apply tok_read; congruence).
  assert (JA : exists a, (a = [] /\ aw = false \/ exists w, a = [w] /\ t_val w = T_AWAIT /\ aw = true) /\
    read (next s) a (if aw then next (peeked (next s)) else peeked (next s))).
  { destruct aw.
    - symmetry in AW. apply Bool.andb_true_iff in AW as [_ AW]. exists [peek (next s)]. split; [|exact (at_read _ (next s) AW eq_refl)].
      right. exists (peek (next s)). split; [reflexivity|]. split; [exact (at_val _ _ AW)|reflexivity].
    - exists []. split; [left; auto|exact (sp_refl _)]. }
  destruct JA as (a & JA1 & JA2). set (s1 := if aw then next (peeked (next s)) else peeked (next s)) in *.
  pose proof (read_snoc _ _ _ _ (sp_trans _ _ _ _ _ R JA2) A0 eq_refl) as R1. cbn [app] in R1.
  pose proof (at_val _ _ A0) as PL.
  assert (JI : exists its, read (next s1) its s3 /\ init_of init its).
  { match type of E1 with match ?x with _ => _ end = _ => destruct x as [kind|] eqn:V end.
    - okb E1 d s4 E2. injection E1 as <- <-. destruct (ahead_word _ _ _ V) as [W1 W2].
      destruct (var_stmt_open _ _ _ _ _ _ E2 eq_refl W2) as (l & ts & -> & Q1 & Q2). exists (peek (peeked (next s1)) :: ts).
      split; [exact Q1|]. apply IN_var; assumption.
    - okb E1 e s4 E2. injection E1 as <- <-. destruct (opt_reads _ _ _ _ _ E2) as (ts & Q1 & Q2). exists ts. split; [exact Q1|].
      inversion Q2; subst; cbn [option_map]; constructor; assumption. }
  destruct JI as (its & JI1 & JI2). pose proof (sp_trans _ _ _ _ _ R1 JI1) as R2.
  match type of H with (if ?b then _ else _) = _ => destruct b eqn:G1; [discriminate|] end.
  match type of H with (if ?b then _ else _) = _ => destruct b; [discriminate|] end.
  match type of H with (if ?b then _ else _) = _ => destruct b eqn:G2 end.
  - destruct init as [init|]; [|destruct (is_name (peek (peeked s3)) (bs "of") false); discriminate].
    oka H left E2. okb H r s4 E3. okb H u2 s5 E4. apply must_ok in E4 as [A4 ->]. okb H b s6 E5. injection H as <- <-.
    pose proof (for_left_ok _ _ _ _ _ E2 JI2) as L. destruct (rec_ok _ _ _ _ E5) as (bts & C1 & C2).
    change (peek (peeked s3)) with (peek s3) in *.
    assert (W : pval s3 <> T_EOF).
    { intro Q. unfold is_name in G2. unfold pval in Q. rewrite Q in G2. discriminate G2. }
    assert (WD : forall n, is_name (peek s3) n false = true -> word (peek s3) n).
    { intros n Q. unfold is_name in Q. rewrite !Bool.andb_true_iff in Q. destruct Q as [[Q1 Q2] _].
      apply tv_eqb_spec in Q1. apply bytes_eqb_spec in Q2. split; assumption. }
    assert (FIN : forall rts, read (next s3) rts s4 ->
      read s (peek s :: a ++ peek s1 :: its ++ peek s3 :: rts ++ peek s4 :: bts) s6).
    { intros rts X. pose proof (sp_trans _ _ _ _ _ R2 (sp_trans _ _ _ _ _ (tok_read _ W) (sp_trans _ _ _ _ _ X (sp_trans _ _ _ _ _ (at_read _ _ A4 eq_refl) C1)))) as Z.
      cbn [app] in Z. rewrite <- !app_assoc in Z. exact Z. }
    unfold fin. rewrite (here_buf s B), (sp_end _ _ _ C1 (stat_ne _ _ _ C2)).
    destruct (is_name (peek s3) (bs "of") false) eqn:OF.
    + assert (IN : is_name (peek s3) (bs "in") false = false).
      { destruct (is_name (peek s3) (bs "in") false) eqn:IN; [|reflexivity]. destruct (WD _ OF) as [_ X1]. destruct (WD _ IN) as [_ X2].
        rewrite X1 in X2. discriminate X2. }
      rewrite IN. destruct (asg_reads _ _ _ _ E3) as (rts & X1 & X2). exists (peek s :: a ++ peek s1 :: its ++ peek s3 :: rts ++ peek s4 :: bts).
      split; [exact (FIN _ X1)|]. apply T_for_of; auto. exact (at_val _ _ A4).
    + rewrite Bool.orb_false_r in G2. rewrite G2. cbn [negb] in G1. rewrite Bool.andb_true_r in G1. subst aw. 
      destruct JA1 as [[-> _]|(w & _ & _ & X)]; [|congruence].
      destruct (ex_reads _ _ _ _ E3) as (rts & X1 & X2). exists (peek s :: peek s1 :: its ++ peek s3 :: rts ++ peek s4 :: bts).
      split; [exact (FIN _ X1)|]. rewrite G1. apply T_for_in; auto. exact (at_val _ _ A4).
  - okb H u4 s4 E2. apply must_ok in E2 as [A2 ->]. okb H t s5 E3. okb H u6 s6 E4. apply must_ok in E4 as [A4 ->]. okb H up s7 E5.
    okb H u8 s8 E6. apply must_ok in E6 as [A6 ->]. okb H b s9 E7. injection H as <- <-.
    destruct (opt_reads _ _ _ _ _ E3) as (tts & T1 & T2). destruct (opt_reads _ _ _ _ _ E5) as (uts & U1 & U2).
    destruct (rec_ok _ _ _ _ E7) as (bts & C1 & C2).
    apply Bool.orb_false_iff in G2 as [_ G2]. rewrite G2 in G1. cbn [negb] in G1. rewrite Bool.andb_true_r in G1. 
    destruct JA1 as [[-> _]|(w & _ & _ & X)]; [|congruence].
    exists (peek s :: peek s1 :: its ++ peek s3 :: tts ++ peek s5 :: uts ++ peek s7 :: bts).
    split.
    { pose proof (sp_trans _ _ _ _ _ R2 (sp_trans _ _ _ _ _ (at_read _ s3 A2 eq_refl) (sp_trans _ _ _ _ _ T1 (sp_trans _ _ _ _ _ (at_read _ _ A4 eq_refl)
        (sp_trans _ _ _ _ _ U1 (sp_trans _ _ _ _ _ (at_read _ _ A6 eq_refl) C1)))))) as Z.
      cbn [app] in Z. rewrite <- ?app_assoc in Z. exact Z. }
    unfold fin. rewrite (here_buf s B), (sp_end _ _ _ C1 (stat_ne _ _ _ C2)).
    apply T_for; auto; [exact (at_val _ _ A6)|exact (at_val _ _ A2)|exact (at_val _ _ A4)].
Qed.
Lemma stmt_b_reads : forall fuel k s st s', stmt_b feat text chk ex asg decl names_ok jump_ok use_strict rec fuel k s = POk st s' ->
  exists ts, read s ts s' /\ stat st ts (peek s').
Proof.
  intros fuel k s st s' H. unfold stmt_b in H. cbv zeta in H.
  change (exists ts, read (peeked s) ts s' /\ stat st ts (peek s')).
  assert (B : p_buf (peeked s) = true) by reflexivity. generalize dependent (peeked s). clear s. intros s H B.
  destruct (decl k s) as [x|] eqn:D.
  { okb H r s1 E. injection H as <- <-. subst x. destruct (decl_reads _ _ _ _ D) as (ts & Q1 & Q2). exists ts.
    split; [exact Q1|apply T_decl; exact Q2]. }
  destruct (between T_KEYWORD_BEGIN T_KEYWORD_END (t_val (peek s))) eqn:K.
  - destruct (t_val (peek s)) eqn:V; try discriminate H;
      match type of V with
      | _ = T_IF => exact (if_reads _ _ _ _ H B V) | _ = T_FOR => exact (for_reads _ _ _ _ _ H B V) | _ = T_RETURN => exact (ret_reads _ _ _ _ H B V)
      | _ = T_WHILE => exact (while_reads _ _ _ _ H B V) | _ = T_THROW => exact (throw_reads _ _ _ _ H B V)
      | _ = T_TRY => exact (try_reads _ _ _ _ _ H B V) | _ = T_DO => exact (do_reads _ _ _ _ H B V)
      | _ = T_SWITCH => exact (switch_reads _ _ _ _ _ H B V) | _ = T_DEBUGGER => exact (debug_reads _ _ _ H B V)
      | _ = T_WITH => exact (with_reads _ _ _ _ H B V)
      | _ = T_BREAK => exact (jump_reads _ _ _ _ _ _ H B V (or_introl (conj eq_refl eq_refl)))
      | _ = T_CONTINUE => exact (jump_reads _ _ _ _ _ _ H B V (or_intror (conj eq_refl eq_refl)))
      | _ = T_VAR => idtac
      | _ = T_IMPORT => match type of H with (if ?b then _ else _) = _ => destruct b; [|discriminate] end;
          apply (expr_stmt_reads _ _ _ _ H B); unfold pval; rewrite V; cbn; intuition discriminate
      | _ => apply (expr_stmt_reads _ _ _ _ H B); unfold pval; rewrite V; cbn; intuition discriminate
      end.
    destruct (var_stmt_reads _ _ _ _ _ _ H B) as (l & ts & x & -> & Q1 & Q2 & Q3); [unfold pval; congruence|].
    exists (peek s :: ts ++ x). split; [exact Q1|]. apply T_var; auto. left. split; [exact V|cbn; auto].
  - destruct (at_tok T_BRACE_L s) eqn:A1.
    { destruct (block_reads _ _ _ _ _ H) as (ts & Q1 & Q2). exists ts. split; [exact Q1|apply T_block; exact Q2]. }
    destruct (ahead_var feat k s) as [kind|] eqn:V.
    { destruct (has k SPK_INTERIM); [discriminate|]. destruct (ahead_word _ _ _ V) as [W1 W2].
      destruct (var_stmt_reads _ _ _ _ _ _ H B W2) as (l & ts & x & -> & Q1 & Q2 & Q3).
      exists (peek s :: ts ++ x). split; [exact Q1|]. apply T_var; auto. }
    destruct (at_tok T_NAME s && at_tok T_COLON (next s)) eqn:L; [exact (label_reads _ _ _ _ H B L)|].
    destruct (at_tok T_SEMI s) eqn:A2.
    { unfold empty_stmt in H. injection H as <- <-. exists [peek s]. split; [exact (at_read _ _ A2 eq_refl)|].
      unfold fin. rewrite (here_buf s B), end_next. apply T_empty. exact (at_val _ _ A2). }
    destruct (at_tok T_EOF s) eqn:A3; [discriminate|].
    apply (expr_stmt_reads _ _ _ _ H B). unfold no_expr_stmt. intro Q. unfold at_tok, pval in *. cbn [In] in Q.
    repeat destruct Q as [Q|Q]; try (rewrite <- Q in K; discriminate K); try (rewrite <- Q in A1; discriminate A1);
      try (rewrite <- Q in A2; discriminate A2); try (rewrite <- Q in A3; discriminate A3). exact Q.
Qed.
End Rec.

Theorem stmt_reads : forall fuel, spells (stmt_at feat text chk ex asg decl names_ok jump_ok use_strict fuel).
Proof.
  induction fuel as [|fuel IH]; intros k s st s' H; [discriminate|]. cbn [stmt_at] in H. exact (stmt_b_reads _ IH _ _ _ _ _ H).
Qed.
Theorem program_reads : forall fuel k s l s', program feat text chk ex asg decl names_ok jump_ok use_strict fuel k s = POk l s' ->
  exists ts, read s ts s' /\ pval s' = T_EOF /\ stats l ts (peek s').
Proof.
  intros fuel k s l s' H. unfold program in H. okb H x s1 E. injection H as <- <-. destruct x as [l k']. cbn [fst].
  exact (list_reads _ (stmt_reads fuel) _ T_ILLEGAL _ _ _ _ _ _ _ s [] E (sp_refl _) (fun l' us nx X _ => X)).
Qed.
End Reads.
