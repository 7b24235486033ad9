(** What the parser of JSX reads is what its tree spells. *)
From Coq Require Import Lia ZifyBool ZifyNat ZifyN.
From Verif Require Import Base TokenModel LexModel ParseBase BinModel BinSpec SymtabModel EarlyModel ExprModel ExprSpec ExprProofs ExprPlaces ExprReads
  StmtModel StmtSpec StmtReads JsxModel JsxSpec.

Lemma read_end : forall s ts s', read s ts s' -> ts <> [] -> p_end s' = last_hi ts.
Proof. intros s ts s' R. exact (proj2 (proj2 R)). Qed.
Lemma read_lo : forall s ts s', read s ts s' -> ts <> [] -> t_lo (peek s) = first_lo ts.
Proof. exact sp_first. Qed.
Lemma fin_edges : forall s ts s', read s ts s' -> ts <> [] -> fin (t_lo (peek s)) s' = edges ts.
Proof. intros s ts s' R N. unfold fin, edges. rewrite (read_end _ _ _ R N), (read_lo _ _ _ R N). reflexivity. Qed.
Lemma read_nil : forall s, read s [] (peeked s).
Proof. intros s. split; [reflexivity|split; [reflexivity|congruence]]. Qed.

Section Reads.
Variables (feat : N) (text : token -> bytes) (ex asg : N -> pst -> pres expr).
Variables (full single : expr -> list token -> Prop).
Hypothesis ex_reads : forall k s e s', ex k s = POk e s' -> exists ts, read s ts s' /\ full e ts.
Hypothesis asg_reads : forall k s e s', asg k s = POk e s' -> exists ts, read s ts s' /\ single e ts.
Notation dotted := (dotted text).
Notation named := (named text).
Notation braced := (braced full).
Notation spread_in := (spread_in single).
Notation element := (element text full single True).
Notation opening := (opening text full single True).
Notation closing := (closing text full single True).
Notation tag_name := (tag_name text full single True).
Notation attributes := (attributes text full single True).
Notation attribute := (attribute text full single True).
Notation value := (value text full single True).
Notation contents := (contents text full single True).

Lemma jsx_id_reads : forall s n p s', jsx_id text s = POk (n, p) s' ->
  exists t, read s [t] s' /\ t_val t = T_NAME /\ n = JId (place t) (text t) /\ p = text t.
Proof.
  intros s n p s' H. unfold jsx_id in H. destruct (at_tok T_NAME s) eqn:A; [|discriminate]. injection H as <- <- <-.
  exists (peek s). split; [exact (at_read _ _ A eq_refl)|]. split; [exact (at_val _ _ A)|]. split; reflexivity.
Qed.
Lemma ident_reads : forall k s e s', ident text k s = POk e s' ->
  exists t kw, read s [t] s' /\ ident_tok (t_val t) = true /\ e = EName (place t) (text t) false kw.
Proof.
  intros k s e s' H. unfold ident in H. cbv zeta in H. destruct (ident_tok (t_val (peek s))) eqn:A; [|discriminate]. cbn [negb] in H.
  repeat match type of H with (if ?b then _ else _) = _ => destruct b; [discriminate|] end. injection H as <- <-.
  exists (peek s), (is_kw (t_val (peek s))). split; [|split; [exact A|reflexivity]].
  apply sp_next. intro Q; unfold pval in Q; rewrite Q in A; discriminate A.
Qed.
Lemma dotted_lo : forall n p ts, dotted n p ts -> ts <> [] /\ fst (jrange n) = first_lo ts.
Proof.
  destruct 1; [split; [discriminate|reflexivity]|]. split; [|reflexivity]. intro Q; apply app_eq_nil in Q as [_ Q]; discriminate Q.
Qed.
Lemma member_reads : forall fuel k o path s0 ts s n p s', dotted o path ts -> read s0 ts s -> jsx_member text fuel k o path s = POk (n, p) s' ->
  exists us, read s0 us s' /\ dotted n p us.
Proof.
  induction fuel as [|fuel IH]; intros k o path s0 ts s n p s' D R H; [discriminate H|]. cbn [jsx_member] in H.
  destruct (at_tok T_DOT s) eqn:A; [|injection H as <- <- <-; exists ts; split; [exact R|exact D]].
  okb H e s1 E. destruct (ident_reads _ _ _ _ E) as (t & kw & R1 & T & ->). cbn [ident_val] in H.
  pose proof (read_snoc _ _ _ _ R A eq_refl) as R2. pose proof (sp_trans _ _ _ _ _ R2 R1) as R3. rewrite <- app_assoc in R3. cbn [app] in R3.
  assert (F : fin (fst (jrange o)) s1 = edges (ts ++ [peek s; t])).
  { unfold fin, edges. rewrite (read_end _ _ _ R3) by (intro Q; apply app_eq_nil in Q as [_ Q]; discriminate Q). f_equal.
    destruct (dotted_lo _ _ _ D) as [N ->]. destruct ts; [congruence|reflexivity]. }
  rewrite F in H. eapply IH; [|exact R3|exact H]. constructor; [exact D|exact (at_val _ _ A)|exact T].
Qed.
Lemma head_reads : forall fuel k s n p s', jsx_head feat text fuel k s = POk (n, p) s' ->
  exists ts, read s ts s' /\ named n p ts /\ (is_ns n = false -> dotted n p ts).
Proof.
  intros fuel k s n p s' H. unfold jsx_head in H. okb H np s1 E. destruct np as [m q]. destruct (jsx_id_reads _ _ _ _ E) as (t & R & T & -> & ->).
  cbn [fst snd] in H. rewrite !at_peeked in H.
  pose proof (D_id text t T) as D. assert (R' : read s [t] (peeked s1)) by exact R.
  destruct (at_tok T_DOT s1) eqn:A1; [|destruct (at_tok T_COLON s1 && has feat FEAT_JSX_NS) eqn:A2].
  - destruct (member_reads _ _ _ _ _ _ _ _ _ _ D R' H) as (us & R1 & D1). exists us. split; [exact R1|]. split; [constructor; exact D1|auto].
  - apply Bool.andb_true_iff in A2 as [A2 _]. unfold jsx_ns in H. okb H u s2 E1. apply must_ok in E1 as [E1 ->]. okb H mq s3 E2. destruct mq as [m2 q2].
    destruct (jsx_id_reads _ _ _ _ E2) as (t2 & R2 & T2 & -> & ->). injection H as <- <- <-. cbn [fst snd].
    pose proof (sp_trans _ _ _ _ _ (read_snoc _ _ _ _ R' E1 eq_refl) R2) as R3. cbn [app] in R3. exists [t; peek (peeked s1); t2].
    split; [exact R3|]. split; [|discriminate]. cbn [jrange place fst]. 
    assert (F : fin (t_lo t) s3 = edges [t; peek (peeked s1); t2]) by (unfold fin; rewrite (read_end _ _ _ R3) by discriminate; reflexivity).
    rewrite F. constructor; [exact T|exact (at_val _ _ E1)|exact T2].
  - injection H as <- <- <-. exists [t]. split; [exact R'|]. split; [constructor; exact D|auto].
Qed.

Lemma cont_reads : forall k s c s', at_tok T_BRACE_L s = true -> jsx_cont feat ex asg k (t_lo (peek s)) (next s) = POk c s' ->
  exists ts, read s ts s' /\ (braced c ts \/ exists r e, c = CSpread r e /\ spread_in r e ts).
Proof.
  intros k s c s' A H. unfold jsx_cont in H. cbv zeta in H. rewrite !at_peeked in H. pose proof (at_read _ _ A eq_refl) as R0.
  destruct (at_tok T_DOT_TRI (next s)) eqn:A1; [|destruct (at_tok T_BRACE_R (next s)) eqn:A2].
  - destruct (negb _); [discriminate|]. okb H e s1 E. okb H u s2 E1. apply must_ok in E1 as [E1 ->]. injection H as <- <-.
    destruct (asg_reads _ _ _ _ E) as (ts & R & S). change (next (peeked (next s))) with (next (next s)) in R. set (d := peek (next s)) in *.
    assert (R1 : read (next s) (d :: ts) s1) by exact (sp_trans _ _ _ _ _ (at_read _ _ A1 eq_refl) R).
    exists (peek s :: d :: ts ++ [peek s1]). split; [exact (sp_trans _ _ _ _ _ R0 (read_snoc _ _ _ _ R1 E1 eq_refl))|].
    right. exists (edges (d :: ts)), e. split; [|constructor; [exact (at_val _ _ A)|exact (at_val _ _ A1)|exact S|exact (at_val _ _ E1)]].
    f_equal. exact (fin_edges _ _ _ R1 ltac:(discriminate)).
  - injection H as <- <-. exists [peek s; peek (next s)]. split; [exact (sp_trans _ _ _ _ _ R0 (at_read _ _ A2 eq_refl))|]. left.
    pose proof (B_empty full (peek s) (peek (next s)) (at_val _ _ A) (at_val _ _ A2)) as B. exact B.
  - okb H e s1 E. okb H u s2 E1. apply must_ok in E1 as [E1 ->]. injection H as <- <-.
    destruct (ex_reads _ _ _ _ E) as (ts & R & S). exists (peek s :: ts ++ [peek s1]).
    assert (R1 : read s (peek s :: ts ++ [peek s1]) (next s1)) by exact (sp_trans _ _ _ _ _ R0 (read_snoc _ _ _ _ R E1 eq_refl)).
    split; [exact R1|]. left. rewrite (fin_edges _ _ _ R1 ltac:(discriminate)). constructor; [exact (at_val _ _ A)|exact S|exact (at_val _ _ E1)].
Qed.
Lemma braced_ne : forall c ts, braced c ts -> ts <> [] /\ crange c = edges ts.
Proof. destruct 1; split; try discriminate; reflexivity. Qed.
Lemma spread_ne : forall r e ts, spread_in r e ts -> ts <> [].
Proof. destruct 1; discriminate. Qed.
Lemma named_lo : forall n p ts, named n p ts -> ts <> [] /\ fst (jrange n) = first_lo ts.
Proof. destruct 1; [eapply dotted_lo; eassumption|]. split; [discriminate|reflexivity]. Qed.
Lemma tag_lo : forall n p ts, tag_name n p ts -> ts <> [] /\ fst (jrange n) = first_lo ts.
Proof.
  destruct 1; [eapply named_lo; eassumption|]. destruct (dotted_lo _ _ _ H0) as [N E]. split.
  - intro Q; apply app_eq_nil in Q as [Q _]; contradiction.
  - rewrite E. destruct ts; [congruence|reflexivity].
Qed.
Lemma opening_ne : forall o a ts, opening o a ts -> ts <> [] /\ o_rng o = edges ts.
Proof. destruct 1; split; try discriminate; reflexivity. Qed.
Lemma closing_ne : forall c ts, closing c ts -> ts <> [] /\ c_rng c = edges ts.
Proof. destruct 1; split; try discriminate; reflexivity. Qed.
Lemma element_ne : forall e ts, element e ts -> ts <> [] /\ erange e = edges ts.
Proof.
  destruct 1; split; try discriminate; try reflexivity. intro Q; apply app_eq_nil in Q as [Q _].
  destruct (opening_ne _ _ _ H) as [N _]. contradiction.
Qed.
Lemma attributes_app : forall l ts, attributes l ts -> forall l' ts', attributes l' ts' -> attributes (l ++ l') (ts ++ ts').
Proof. induction 1; intros l2 ts2 H2; cbn [app]; rewrite <- ?app_assoc; [exact H2|constructor; auto]. Qed.

(** Where the children go on. *)
Definition goes_on (fresh : bool) (s : pst) (a : nat) : Prop := if fresh then a = p_end s else t_lo (peek s) <= a.
Lemma ws_reads : forall fresh s a l kts cts s', goes_on fresh s a -> read s (kts ++ cts) s' -> cts <> [] ->
  (forall m, t_lo (peek s) <= m -> contents m l kts (hd (eof_tok 0) cts)) -> contents a (ws_txt fresh s ++ l) kts (hd (eof_tok 0) cts).
Proof.
  intros fresh s a l kts cts s' G R N K. unfold ws_txt. destruct fresh; cbn [andb goes_on] in *.
  - subst a. destruct (Nat.ltb (p_end s) (t_lo (peek s))) eqn:L.
    + apply Nat.ltb_lt in L. assert (E : t_lo (peek s) = first_lo (kts ++ [hd (eof_tok 0) cts])).
      { destruct cts as [|c cts]; [congruence|]. rewrite (read_lo _ _ _ R) by (intro Q; apply app_eq_nil in Q as [_ Q]; discriminate Q). destruct kts; reflexivity. }
      cbn [app]. rewrite E in *. constructor; [exact L|apply K; auto].
    + apply Nat.ltb_ge in L. apply K; exact L.
  - apply K; exact G.
Qed.
Lemma at_some : forall v s, at_tok v s = true -> tv_eqb v T_EOF = false -> p_toks s <> [].
Proof. intros v s A E Q. unfold at_tok, pval, peek in A. rewrite Q in A. change (tv_eqb T_EOF v = true) in A. apply tv_eqb_spec in A. subst v. discriminate E. Qed.

Definition name_p (fuel : nat) : Prop := forall k s n p s', jsx_name feat text ex asg fuel k s = POk (n, p) s' ->
  exists ts, read s ts s' /\ tag_name n p ts.
Definition attr_p (fuel : nat) : Prop := forall k s a s', jsx_attr feat text ex asg fuel k s = POk a s' ->
  exists ts, read s ts s' /\ attribute a ts.
Definition attrs_p (fuel : nat) : Prop := forall k acc s l s', jsx_attrs feat text ex asg fuel k acc s = POk l s' ->
  exists l' ts, l = acc ++ l' /\ read s ts s' /\ attributes l' ts.
Definition open_p (fuel : nat) : Prop := forall k s0 s o a s', jsx_open feat text ex asg fuel k (t_lo (peek s0)) s = POk (o, a) s' ->
  read s0 [peek s0] s -> t_val (peek s0) = T_LT ->
  if o_closed o then exists nts ats n p d g, o = mk_open (edges (peek s0 :: nts ++ ats ++ [d; g])) (Some (n, p)) true /\
    read s0 (peek s0 :: nts ++ ats ++ [d; g]) s' /\ tag_name n p nts /\ attributes a ats /\ t_val d = T_DIV /\ t_val g = T_GT
  else exists ts, read s0 ts s' /\ opening o a ts.
Definition close_p (fuel : nat) : Prop := forall k s0 s c s', jsx_close feat text ex asg fuel k (t_lo (peek s0)) s = POk c s' ->
  read s0 [peek s0] s -> t_val (peek s0) = T_LT -> t_val (peek s) = T_DIV -> exists ts, read s0 ts s' /\ closing c ts.
Definition jsx_p (fuel : nat) : Prop := forall k root op s t s', jsx feat text ex asg fuel k root op s = POk t s' -> at_tok T_LT s = true ->
  exists ts, read s ts s' /\ match t with TElem e => element e ts | TClose c => closing c ts /\ op = true end.
Definition children_p (fuel : nat) : Prop := forall k o fresh acc s l c s', jsx_children feat text ex asg fuel k o fresh acc s = POk (l, c) s' ->
  exists l' kts cts, l = acc ++ l' /\ read s (kts ++ cts) s' /\ (forall a, goes_on fresh s a -> contents a l' kts (hd (eof_tok 0) cts)) /\ closing c cts /\
    name_str (o_name o) = name_str (c_name c).

Lemma all_reads : forall fuel, name_p fuel /\ attr_p fuel /\ attrs_p fuel /\ open_p fuel /\ close_p fuel /\ jsx_p fuel /\ children_p fuel.
Proof.
  induction fuel as [|fuel (IN & IA & IL & IO & IC & IJ & IK)].
  { unfold name_p, attr_p, attrs_p, open_p, close_p, jsx_p, children_p. repeat split; intros; discriminate. }
  split; [|split; [|split; [|split; [|split; [|split]]]]].
  - intros k s n p s' H. cbn [jsx_name] in H. okb H np s1 E. destruct np as [m q]. destruct (head_reads _ _ _ _ _ _ E) as (ts & R & D1 & D2).
    cbn [fst] in H. destruct (at_tok T_LT s1) eqn:A.
    + okb H t s2 E1. destruct (is_ns m) eqn:N; [discriminate H|]. injection H as <- <- <-.
      destruct (IJ _ _ _ _ _ _ E1 A) as (us & R1 & S1). destruct t as [e|c]; [|destruct S1; discriminate].
      exists (ts ++ us). split; [exact (sp_trans _ _ _ _ _ R R1)|]. apply T_dropped with (e := e); auto.
    + injection H as <- <- <-. exists ts. split; [exact R|]. constructor; exact D1.
  - intros k s a s' H. cbn [jsx_attr] in H. cbv zeta in H. destruct (at_tok T_BRACE_L s) eqn:A.
    + okb H c s1 E. destruct (cont_reads _ _ _ _ A E) as (ts & R & [B|(r & e & -> & B)]).
      * destruct B; discriminate H.
      * injection H as <- <-. exists ts. split; [exact R|]. rewrite (fin_edges _ _ _ R (spread_ne _ _ _ B)). constructor; exact B.
    + okb H np s1 E. destruct np as [n p]. destruct (IN _ _ _ _ _ E) as (ts & R & T). destruct (tag_lo _ _ _ T) as [NE LO]. cbn [fst snd] in H.
      destruct (at_tok T_ASSIGN s1) eqn:Q; cbn [negb] in H.
      * okb H v s3 E3. injection H as <- <-. rewrite !at_peeked in E3. pose proof (read_snoc _ _ _ _ R Q eq_refl) as R1.
        assert (V : exists vts, read (next s1) vts s3 /\ value v vts).
        { destruct (at_tok T_BRACE_L (next s1)) eqn:A1; [|destruct (at_tok T_STRING (next s1)) eqn:A2; [|destruct (at_tok T_LT (next s1)) eqn:A3]].
          - okb E3 c s4 E4. injection E3 as <- <-. destruct (cont_reads _ _ _ _ A1 E4) as (vts & R2 & [B|(r & e & -> & B)]).
            + exists vts. split; [exact R2|constructor; exact B].
            + exists vts. split; [exact R2|apply V_spread; [exact Logic.I|exact B]].
          - injection E3 as <- <-. exists [peek (next s1)]. split; [exact (at_read _ _ A2 eq_refl)|]. constructor. exact (at_val _ _ A2).
          - okb E3 t s4 E4. destruct t as [e|c]; [|discriminate E3]. injection E3 as <- <-.
            destruct (IJ _ _ _ _ _ _ E4 A3) as (vts & R2 & S2). exists vts. split; [exact R2|constructor; exact S2].
          - injection E3 as <- <-. exists []. split; [exact (read_nil _)|constructor; exact Logic.I]. }
        destruct V as (vts & R2 & V). exists (ts ++ peek s1 :: vts).
        pose proof (sp_trans _ _ _ _ _ R1 R2) as R3. rewrite <- app_assoc in R3. cbn [app] in R3. split; [exact R3|].
        assert (FE : fin (fst (jrange n)) s3 = edges (ts ++ peek s1 :: vts)).
        { unfold fin, edges. rewrite (read_end _ _ _ R3) by (intro Z; apply app_eq_nil in Z as [_ Z]; discriminate Z). f_equal. rewrite LO.
          destruct ts; [congruence|reflexivity]. }
        rewrite FE. constructor; [exact T|exact (at_val _ _ Q)|exact V].
      * injection H as <- <-. exists ts. split; [exact R|].
        assert (FE : fin (fst (jrange n)) s1 = edges ts) by (unfold fin, edges; rewrite (read_end _ _ _ R NE), LO; reflexivity).
        rewrite FE. constructor; exact T.
  - intros k acc s l s' H. cbn [jsx_attrs] in H. destruct (_ || _) eqn:A.
    + injection H as <- <-. exists [], []. rewrite app_nil_r. split; [reflexivity|]. split; [exact (read_nil _)|constructor].
    + okb H a s1 E. destruct (IA _ _ _ _ E) as (ts & R & S).
      destruct (IL _ _ _ _ _ H) as (l' & ts' & -> & R1 & S1).
      exists (a :: l'), (ts ++ ts'). rewrite <- app_assoc. split; [reflexivity|]. split; [exact (sp_trans _ _ _ _ _ R R1)|constructor; assumption].
  - intros k s0 s o a s' H R0 V0. cbn [jsx_open] in H. destruct (at_tok T_GT s) eqn:A.
    + injection H as <- <- <-. cbn [o_closed]. exists [peek s0; peek s]. pose proof (read_snoc _ _ _ _ R0 A eq_refl) as R. split; [exact R|].
      rewrite (fin_edges _ _ _ R ltac:(discriminate)). constructor; [exact V0|exact (at_val _ _ A)].
    + okb H np s1 E. destruct np as [n p]. destruct (IN _ _ _ _ _ E) as (nts & R1 & S1).
      pose proof (sp_trans _ _ _ _ _ R0 R1) as R01. okb H l s2 E1. destruct (IL _ _ _ _ _ E1) as (l' & ats & -> & R2 & S2).
      pose proof (sp_trans _ _ _ _ _ R01 R2) as R02. okb H u s3 E2. cbn [app] in *. destruct (at_tok T_DIV s2) eqn:D; apply must_ok in E2 as [E2 ->]; injection H as <- <- <-;
        cbn [o_closed].
      * pose proof (read_snoc _ _ _ _ (read_snoc _ _ _ _ R02 D eq_refl) E2 eq_refl) as R3. cbn [app] in R3. rewrite <- !app_assoc in R3. cbn [app] in R3.
        exists nts, ats, n, p, (peek s2), (peek (next s2)). rewrite (fin_edges _ _ _ R3 ltac:(discriminate)). split; [reflexivity|]. split; [exact R3|].
        split; [exact S1|]. split; [exact S2|]. split; [exact (at_val _ _ D)|exact (at_val _ _ E2)].
      * pose proof (read_snoc _ _ _ _ R02 E2 eq_refl) as R3. cbn [app] in R3. rewrite <- !app_assoc in R3.
        exists (peek s0 :: nts ++ ats ++ [peek (peeked s2)]). split; [exact R3|]. 
        match goal with |- opening (mk_open (fin _ ?z) _ _) _ _ => change z with (next s2) end. rewrite (fin_edges _ _ _ R3 ltac:(discriminate)).
        constructor; [exact V0|exact S1|exact S2|exact (at_val _ _ E2)].
  - intros k s0 s c s' H R0 V0 V1. cbn [jsx_close] in H. cbv zeta in H. rewrite at_peeked in H.
    assert (D : at_tok T_DIV s = true) by (unfold at_tok, pval; rewrite V1; reflexivity).
    pose proof (read_snoc _ _ _ _ R0 D eq_refl) as R1. cbn [app] in R1. destruct (at_tok T_GT (next s)) eqn:A.
    + injection H as <- <-. pose proof (read_snoc _ _ _ _ R1 A eq_refl) as R2. cbn [app] in R2. eexists. split; [exact R2|].
      match goal with |- closing (mk_close (fin _ ?z) _) _ => change z with (next (next s)) end. rewrite (fin_edges _ _ _ R2 ltac:(discriminate)).
      constructor; [exact V0|exact V1|exact (at_val _ _ A)].
    + okb H np s1 E. destruct np as [n p]. assert (E' : jsx_name feat text ex asg fuel k (peeked (next s)) = POk (n, p) s1) by exact E.
      destruct (IN _ _ _ _ _ E') as (nts & R2 & S2). okb H u s2 E2. apply must_ok in E2 as [E2 ->]. injection H as <- <-.
      pose proof (read_snoc _ _ _ _ (sp_trans _ _ _ _ _ R1 R2) E2 eq_refl) as R3. cbn [app] in R3. eexists. split; [exact R3|].
      rewrite (fin_edges _ _ _ R3 ltac:(discriminate)). constructor; [exact V0|exact V1|exact S2|exact (at_val _ _ E2)].
  - intros k root op s t s' H A0. cbn [jsx] in H. cbv zeta in H. rewrite at_peeked in H. pose proof (at_read _ _ A0 eq_refl) as R0.
    pose proof (at_val _ _ A0) as V0. assert (R0' : read s [peek s] (peeked (next s))) by exact R0.
    destruct (at_tok T_DIV (next s)) eqn:D.
    + destruct op; [|discriminate H]. okb H c s1 E. injection H as <- <-.
      destruct (IC _ _ _ _ _ E R0' V0 (at_val _ _ D)) as (ts & R & S). exists ts. auto.
    + okb H oa s1 E. destruct oa as [o a]. cbn [fst snd] in H. pose proof (IO _ _ _ _ _ _ E R0' V0) as O.
      okb H r s2 E1. destruct r as [l c]. destruct (at_tok T_LT s2 && root); [discriminate H|]. injection H as <- <-.
      destruct (o_closed o) eqn:OC.
      * injection E1 as <- <- <-. destruct O as (nts & ats & n & p & d & g & -> & R & S1 & S2 & D1 & G1). eexists. split; [exact R|]. cbn [o_rng fst snd].
        match goal with |- element (JElem ?r _ _ _ _) _ => replace r with (edges (peek s :: nts ++ ats ++ [d; g])) end.
        -- constructor; auto.
        -- unfold fin, edges. cbn [fst]. rewrite (read_end _ _ _ R) by discriminate. reflexivity.
      * okb E1 lc s3 E2. destruct lc as [l0 c0]. injection E1 as <- <- <-. cbn [fst snd]. destruct O as (ots & R & S).
        destruct (IK _ _ _ _ _ _ _ _ E2) as (l' & kts & cts & -> & R1 & S1 & S2 & S4). cbn [app].
        destruct (opening_ne _ _ _ S) as [ON OE]. pose proof (S1 _ eq_refl) as S1'. rewrite (read_end _ _ _ R ON) in S1'.
        exists (ots ++ kts ++ cts). pose proof (sp_trans _ _ _ _ _ R R1) as R2. split; [exact R2|].
        match goal with |- element (JElem ?r _ _ _ _) _ => replace r with (edges (ots ++ kts ++ cts)) end.
        -- econstructor; eassumption.
        -- unfold fin, edges. rewrite OE. cbn [edges fst]. rewrite (read_end _ _ _ R2) by (intro Q; apply app_eq_nil in Q as [Q _]; contradiction).
           f_equal. destruct ots; [congruence|reflexivity].
  - assert (AFTER : forall k o fresh acc s l c s' new ts s1,
      (if at_tok T_GT s1 || at_tok T_BRACE_L s1 then jsx_children feat text ex asg fuel k o false ((acc ++ ws_txt fresh s ++ [new]) ++ ws_txt true s1) s1
       else jsx_children feat text ex asg fuel k o true (acc ++ ws_txt fresh s ++ [new]) s1) = POk (l, c) s' ->
      read s ts s1 -> ts <> [] -> (forall a l ts' nx, first_lo ts <= a -> contents (last_hi ts) l ts' nx -> contents a (new :: l) (ts ++ ts') nx) ->
      exists l' kts cts, l = acc ++ l' /\ read s (kts ++ cts) s' /\ (forall a, goes_on fresh s a -> contents a l' kts (hd (eof_tok 0) cts)) /\ closing c cts /\
        name_str (o_name o) = name_str (c_name c)).
    { intros k o fresh acc s l c s' new ts s1 H R N K.
      assert (Z : exists l1 kts cts, l = (acc ++ ws_txt fresh s ++ [new]) ++ l1 /\ read s1 (kts ++ cts) s' /\ contents (last_hi ts) l1 kts (hd (eof_tok 0) cts) /\
        closing c cts /\ name_str (o_name o) = name_str (c_name c)).
      { destruct (at_tok T_GT s1 || at_tok T_BRACE_L s1) eqn:A.
        - destruct (IK _ _ _ _ _ _ _ _ H) as (l' & kts & cts & -> & R1 & S1 & S2 & S4).
          exists (ws_txt true s1 ++ l'), kts, cts. rewrite <- !app_assoc. split; [reflexivity|]. split; [exact R1|]. split; [|auto].
          rewrite <- (read_end _ _ _ R N). eapply ws_reads; [reflexivity|exact R1|exact (proj1 (closing_ne _ _ S2))|].
          intros m Lm. exact (S1 m Lm).
        - destruct (IK _ _ _ _ _ _ _ _ H) as (l' & kts & cts & -> & R1 & S1 & S2 & S4).
          exists l', kts, cts. rewrite <- (read_end _ _ _ R N). split; [reflexivity|]. split; [exact R1|]. split; [exact (S1 _ eq_refl)|auto]. }
      destruct Z as (l1 & kts & cts & -> & R1 & S1 & S2 & S4). exists (ws_txt fresh s ++ new :: l1), (ts ++ kts), cts.
      rewrite <- !app_assoc. split; [reflexivity|]. pose proof (sp_trans _ _ _ _ _ R R1) as R2. split; [exact R2|]. split; [|auto].
      intros a0 GO. eapply ws_reads; [exact GO| |exact (proj1 (closing_ne _ _ S2))|].
      - rewrite <- app_assoc. exact R2.
      - intros m Lm. apply K; [rewrite <- (read_lo _ _ _ R N); exact Lm|exact S1]. }
    intros k o fresh acc s l c s' H. cbn [jsx_children] in H. cbv zeta in H. rewrite !at_peeked in H.
    destruct (at_tok T_BRACE_L s) eqn:A1; [|destruct (at_tok T_LT s) eqn:A2; [|destruct (at_tok T_JSX_TXT s) eqn:A3; [|destruct (_ || _) eqn:A4; [discriminate H|]]]].
    + okb H d s1 E. destruct (cont_reads _ _ _ _ A1 E) as (ts & R & [B|(r & e & -> & B)]).
      * eapply AFTER; [ |exact R|exact (proj1 (braced_ne _ _ B))|intros; apply K_braced; eassumption]. destruct B; exact H.
      * eapply AFTER; [exact H|exact R|exact (spread_ne _ _ _ B)|]. intros. change (t_lo (peek (peeked s))) with (t_lo (peek s)).
        rewrite (fin_edges _ _ _ R (spread_ne _ _ _ B)). eapply K_spread; eassumption.
    + okb H t s1 E. destruct (IJ _ _ _ _ _ _ E A2) as (ts & R & S). destruct t as [e|d].
      * eapply AFTER; [exact H|exact R|exact (proj1 (element_ne _ _ S))|intros; apply K_elem; eassumption].
      * destruct S as [S _]. unfold closes in H. destruct (bytes_eqb _ _) eqn:Q; [|discriminate H]. injection H as <- <- <-.
        destruct (closing_ne _ _ S) as [N _]. exists (ws_txt fresh s), [], ts. split; [reflexivity|]. split; [exact R|]. split; [|split; [exact S|apply bytes_eqb_spec; exact Q]].
        intros a0 GO. rewrite <- (app_nil_r (ws_txt fresh s)). eapply ws_reads; [exact GO|exact R|exact N|]. intros m Lm. constructor.
        assert (Lm' : t_lo (peek s) <= m) by exact Lm. assert (LL : t_lo (peek s) = first_lo ts) by exact (read_lo _ _ _ R N). rewrite LL in Lm'. destruct ts; [congruence|]. exact Lm'.
    + pose proof (at_read _ _ A3 eq_refl) as R. destruct (IK _ _ _ _ _ _ _ _ H) as (l' & kts & cts & -> & R1 & S1 & S2 & S4).
      exists (KText (place (peek s)) (peek s) :: l'), (peek s :: kts), cts. rewrite <- app_assoc. split; [reflexivity|].
      split; [exact (sp_trans _ _ _ _ _ R R1)|]. split; [|auto]. intros a0 _. constructor; [exact (at_val _ _ A3)|exact (S1 _ eq_refl)].
    + exact (IK _ _ _ _ _ _ _ _ H).
Qed.
End Reads.
