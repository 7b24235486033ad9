(** The parser of JSX ends, except before a token that its loop over contents does not know. *)
From Coq Require Import Lia ZifyBool ZifyNat ZifyN.
From Verif Require Import Base TokenModel LexModel ParseBase BinModel BinSpec SymtabModel EarlyModel ExprModel ExprSpec ExprProofs ExprPlaces ExprReads
  StmtModel StmtSpec StmtReads JsxModel JsxSpec JsxReads.

(** A token contents may come after, a token that may be in contents or end them, and two tokens where this fails. *)
Definition before_content (t : token) : Prop := In (t_val t) [T_GT; T_BRACE_R; T_JSX_TXT].
Definition in_content (t : token) : Prop := In (t_val t) [T_LT; T_BRACE_L; T_JSX_TXT; T_EOF; T_ILLEGAL].
Definition trapped (ts : list token) : Prop := exists pre a t rest, ts = pre ++ a :: t :: rest /\ before_content a /\ ~ in_content t.

Definition ends_well (ts : list token) : Prop := exists pre a, ts = pre ++ [a] /\ before_content a.
Definition trapped_at (s : pst) : Prop := trapped (p_toks s) \/ exists t rest, p_toks s = t :: rest /\ ~ in_content t.
Lemma trapped_more : forall s ts s', read s ts s' -> trapped (p_toks s') -> trapped (p_toks s).
Proof. intros s ts s' (R & _) (pre & a & t & rest & E & H). exists (ts ++ pre), a, t, rest. rewrite R, E, app_assoc. auto. Qed.
Lemma trapped_from : forall s ts s', read s ts s' -> ends_well ts -> trapped_at s' -> trapped (p_toks s).
Proof.
  intros s ts s' R (pre & a & -> & H) [T|(t & rest & E & N)]; [exact (trapped_more _ _ _ R T)|]. destruct R as [R _].
  exists pre, a, t, rest. rewrite R, E, <- app_assoc. auto.
Qed.
Lemma ends_app : forall us ts, ends_well ts -> ends_well (us ++ ts).
Proof. intros us ts (pre & a & -> & H). exists (us ++ pre), a. rewrite app_assoc. auto. Qed.
Lemma ends_one : forall t, before_content t -> ends_well [t].
Proof. intros t H. exists [], t. auto. Qed.
Lemma read_less : forall s ts s', read s ts s' -> length (p_toks s') + length ts = length (p_toks s).
Proof. intros s ts s' (R & _). rewrite R, app_length. lia. Qed.
Lemma len_ne : forall (ts : list token), ts <> [] -> 1 <= length ts.
Proof. intros [|t ts] N; [congruence|cbn; lia]. Qed.
Lemma pbind_fuel : forall A B (x : pres A) (f : A -> pst -> pres B), pbind x f = PFuel -> x = PFuel \/ exists a s, x = POk a s /\ f a s = PFuel.
Proof. intros A B [a s| | | ] f H; try discriminate H; [right; exists a, s; auto|left; reflexivity]. Qed.
Tactic Notation "okf" hyp(H) ident(a) ident(s) ident(E) := apply pbind_fuel in H as [H|(a & s & E & H)]; [|cbv beta zeta in H].

Section Ends.
Variables (feat : N) (text : token -> bytes) (ex asg : N -> pst -> pres expr).
Variables (full single : expr -> list token -> Prop).
Hypothesis ex_reads : forall k s e s', ex k s = POk e s' -> exists ts, read s ts s' /\ full e ts.
Hypothesis asg_reads : forall k s e s', asg k s = POk e s' -> exists ts, read s ts s' /\ single e ts.
Hypotheses (ex_ends : forall k s, ex k s <> PFuel) (asg_ends : forall k s, asg k s <> PFuel).
Notation braced := (braced full).
Notation spread_in := (spread_in single).
Notation element := (element text full single True).
Notation opening := (opening text full single True).
Local Definition reads fuel := all_reads feat text ex asg full single ex_reads asg_reads fuel.

Lemma braced_ends : forall c ts, braced c ts -> ends_well ts.
Proof. destruct 1 as [l e ts r _ _ R|l r _ R]; [exists (l :: ts), r|exists [l], r]; (split; [reflexivity|]); unfold before_content; rewrite R; cbn; auto. Qed.
Lemma spread_ends : forall r e ts, spread_in r e ts -> ends_well ts.
Proof. destruct 1 as [l d e ts r _ _ _ R]. exists (l :: d :: ts), r. split; [reflexivity|]. unfold before_content; rewrite R; cbn; auto. Qed.
Lemma opening_ends : forall o a ts, opening o a ts -> ends_well ts.
Proof.
  destruct 1 as [l g _ G|l n p nts attrs ats g _ _ _ G]; [exists [l], g|exists (l :: nts ++ ats), g];
    (split; [cbn; rewrite <- ?app_assoc; reflexivity|]); unfold before_content; rewrite G; cbn; auto.
Qed.
Lemma closing_ends : forall c ts, closing text full single True c ts -> ends_well ts.
Proof.
  destruct 1 as [l d g _ _ G|l d n p nts g _ _ _ G]; [exists [l; d], g|exists (l :: d :: nts), g];
    (split; [cbn; rewrite <- ?app_assoc; reflexivity|]); unfold before_content; rewrite G; cbn; auto.
Qed.
Lemma element_ends : forall e ts, element e ts -> ends_well ts.
Proof.
  destruct 1 as [l n p nts attrs ats d g _ _ _ _ G|o attrs ots l ts c cts O K C N].
  - exists (l :: nts ++ ats ++ [d]), g. split; [cbn; rewrite <- !app_assoc; reflexivity|]. unfold before_content; rewrite G; cbn; auto.
  - do 2 apply ends_app. eapply closing_ends; eassumption.
Qed.

Lemma must_ends : forall v s, must v s <> PFuel.
Proof. intros v s. unfold must. destruct (at_tok v s); discriminate. Qed.
Lemma ident_ends : forall k s, ident text k s <> PFuel.
Proof. intros k s. unfold ident. cbv zeta. repeat match goal with |- (if ?b then _ else _) <> _ => destruct b end; discriminate. Qed.
Lemma member_ends : forall fuel k o p s, length (p_toks s) < fuel -> jsx_member text fuel k o p s <> PFuel.
Proof.
  induction fuel as [|fuel IH]; intros k o p s L H; [lia|]. cbn [jsx_member] in H. destruct (at_tok T_DOT s) eqn:A; [|discriminate H].
  okf H e s1 E; [exact (ident_ends _ _ H)|]. destruct (ident_reads text _ _ _ _ E) as (t & kw & R & _). apply read_less in R.
  pose proof (read_less _ _ _ (at_read _ _ A eq_refl)) as R0. cbn [length] in *. refine (IH _ _ _ _ _ H). lia.
Qed.
Lemma head_ends : forall fuel k s, length (p_toks s) < fuel -> jsx_head feat text fuel k s <> PFuel.
Proof.
  intros fuel k s L H. unfold jsx_head in H. okf H np s1 E; [unfold jsx_id in H; destruct (at_tok _ _); discriminate H|].
  destruct np as [n p]. destruct (jsx_id_reads text _ _ _ _ E) as (t & R & _). apply read_less in R. cbn [length] in R.
  destruct (at_tok T_DOT (peeked s1)); [|destruct (_ && _)].
  - refine (member_ends _ _ _ _ _ _ H). cbn [peeked p_toks]. lia.
  - unfold jsx_ns in H. okf H u s2 E1; [exact (must_ends _ _ H)|]. okf H nq s3 E2; [unfold jsx_id in H; destruct (at_tok _ _); discriminate H|discriminate H].
  - discriminate H.
Qed.
Lemma cont_ends : forall k l s, jsx_cont feat ex asg k l s <> PFuel.
Proof.
  intros k l s H. unfold jsx_cont in H. cbv zeta in H. destruct (at_tok _ _); [|destruct (at_tok _ _); [discriminate H|]].
  - destruct (negb _); [discriminate H|]. okf H e s1 E; [exact (asg_ends _ _ H)|]. okf H u s2 E1; [exact (must_ends _ _ H)|discriminate H].
  - okf H e s1 E; [exact (ex_ends _ _ H)|]. okf H u s2 E1; [exact (must_ends _ _ H)|discriminate H].
Qed.

Notation size s := (length (p_toks s)).
Definition name_e (fuel : nat) : Prop := forall k s, jsx_name feat text ex asg fuel k s = PFuel -> 8 * size s + 2 <= fuel -> trapped (p_toks s).
Definition attr_e (fuel : nat) : Prop := forall k s, jsx_attr feat text ex asg fuel k s = PFuel -> 8 * size s + 3 <= fuel -> trapped (p_toks s).
Definition attrs_e (fuel : nat) : Prop := forall k acc s, jsx_attrs feat text ex asg fuel k acc s = PFuel -> 8 * size s + 4 <= fuel -> trapped (p_toks s).
Definition open_e (fuel : nat) : Prop := forall k l s, jsx_open feat text ex asg fuel k l s = PFuel -> 8 * size s + 5 <= fuel -> trapped (p_toks s).
Definition close_e (fuel : nat) : Prop := forall k l s, jsx_close feat text ex asg fuel k l s = PFuel -> 8 * size s + 5 <= fuel -> at_tok T_DIV s = true -> trapped (p_toks s).
Definition jsx_e (fuel : nat) : Prop := forall k root op s, jsx feat text ex asg fuel k root op s = PFuel -> at_tok T_LT s = true -> 8 * size s <= fuel -> trapped (p_toks s).
Definition children_e (fuel : nat) : Prop := forall k o fresh acc s, jsx_children feat text ex asg fuel k o fresh acc s = PFuel -> 8 * size s + 1 <= fuel -> trapped_at s.

Lemma all_end : forall fuel, name_e fuel /\ attr_e fuel /\ attrs_e fuel /\ open_e fuel /\ close_e fuel /\ jsx_e fuel /\ children_e fuel.
Proof.
  induction fuel as [|fuel (IN & IA & IL & IO & IC & IJ & IK)].
  { unfold name_e, attr_e, attrs_e, open_e, close_e, jsx_e, children_e. repeat split; intros; try lia.
    pose proof (read_less _ _ _ (at_read _ _ H0 eq_refl)) as R. cbn [length] in R. lia. }
  destruct (reads fuel) as (RN & RA & RL & RO & RC & RJ & RK).
  split; [|split; [|split; [|split; [|split; [|split]]]]].
  - intros k s H L. cbn [jsx_name] in H. okf H np s1 E; [exfalso; revert H; apply head_ends; lia|]. destruct np as [n p].
    destruct (head_reads feat text _ _ _ _ _ _ E) as (ts & R & D & _). destruct (named_lo text _ _ _ D) as [N _]. pose proof (read_less _ _ _ R) as LL. apply len_ne in N.
    destruct (at_tok T_LT s1) eqn:A; [|discriminate H]. okf H t s2 E1.
    + refine (trapped_more _ _ _ R (IJ _ _ _ _ H A _)). cbn [peeked p_toks]. lia.
    + destruct (is_ns _); discriminate H.
  - intros k s H L. cbn [jsx_attr] in H. cbv zeta in H. destruct (at_tok T_BRACE_L s) eqn:A.
    + okf H c s1 E; [destruct (cont_ends _ _ _ H)|]. destruct c; discriminate H.
    + okf H np s1 E; [apply (IN _ _ H); lia|]. destruct np as [n p]. destruct (RN _ _ _ _ _ E) as (ts & R & T). destruct (tag_lo text full single _ _ _ T) as [NE _].
      destruct (at_tok T_ASSIGN s1) eqn:Q; cbn [negb] in H; [|discriminate H].
      pose proof (read_snoc _ _ _ _ R Q eq_refl) as R1. pose proof (read_less _ _ _ R1) as LL. rewrite app_length in LL. cbn [length] in LL.
      okf H v s3 E3; [|discriminate H]. rewrite !at_peeked in H.
      destruct (at_tok T_BRACE_L (next s1)) eqn:A1; [|destruct (at_tok T_STRING (next s1)) eqn:A2; [discriminate H|destruct (at_tok T_LT (next s1)) eqn:A3; [|discriminate H]]].
      * okf H c s4 E4; [destruct (cont_ends _ _ _ H)|discriminate H].
      * okf H t s4 E4; [|destruct t; discriminate H]. refine (trapped_more _ _ _ R1 (IJ _ _ _ _ H A3 _)). cbn [peeked p_toks]. lia.
  - intros k acc s H L. cbn [jsx_attrs] in H. destruct (_ || _) eqn:A; [discriminate H|].
    okf H a s1 E; [apply (IA _ _ H); cbn [peeked p_toks]; lia|]. destruct (RA _ _ _ _ E) as (ts & R & S).
    assert (N : ts <> []).
    { destruct S as [r e ts S|n p ts S|n p ts q v vts S Q V]; [eapply spread_ne; eassumption|eapply tag_lo; eassumption|].
      intro Z. apply app_eq_nil in Z as [_ Z]. discriminate Z. }
    apply len_ne in N. pose proof (read_less _ _ _ R) as LL. cbn [peeked p_toks] in LL.
    refine (trapped_more _ _ _ R (IL _ _ _ H _)). lia.
  - intros k l s H L. cbn [jsx_open] in H. destruct (at_tok T_GT s) eqn:A; [discriminate H|].
    okf H np s1 E; [apply (IN _ _ H); lia|]. destruct np as [n p]. destruct (RN _ _ _ _ _ E) as (nts & R1 & S1). destruct (tag_lo text full single _ _ _ S1) as [NE _].
    apply len_ne in NE. pose proof (read_less _ _ _ R1) as LL.
    okf H a s2 E1; [refine (trapped_more _ _ _ R1 (IL _ _ _ H _)); lia|]. okf H u s3 E2; [destruct (must_ends _ _ H)|discriminate H].
  - intros k l s H L D. cbn [jsx_close] in H. cbv zeta in H. destruct (at_tok T_GT _) eqn:A; [discriminate H|].
    pose proof (at_read _ _ D eq_refl) as R0. pose proof (read_less _ _ _ R0) as LL. cbn [length] in LL.
    okf H np s1 E; [refine (trapped_more _ _ _ R0 (IN _ _ H _)); cbn [peeked p_toks]; lia|]. okf H u s2 E2; [destruct (must_ends _ _ H)|discriminate H].
  - intros k root op s H A0 L. cbn [jsx] in H. cbv zeta in H. rewrite at_peeked in H. pose proof (at_read _ _ A0 eq_refl) as R0.
    pose proof (read_less _ _ _ R0) as LL. cbn [length] in LL.
    destruct (at_tok T_DIV (next s)) eqn:D.
    + destruct op; [|discriminate H]. okf H c s1 E; [|discriminate H].
      refine (trapped_more _ _ _ R0 (IC _ _ _ H _ D)). cbn [peeked p_toks]. lia.
    + okf H oa s1 E; [refine (trapped_more _ _ _ R0 (IO _ _ _ H _)); cbn [peeked p_toks]; lia|]. destruct oa as [o a]. cbn [fst snd] in H.
      okf H r s2 E1; [|destruct (_ && _); discriminate H]. destruct (o_closed o) eqn:OC; [discriminate H|].
      okf H lc s3 E2; [|discriminate H]. pose proof (RO k s (peeked (next s)) o a s1 E R0 (at_val _ _ A0)) as O. rewrite OC in O.
      destruct O as (ots & R & S). destruct (opening_ne text full single _ _ _ S) as [ON _]. apply len_ne in ON. pose proof (read_less _ _ _ R) as L2.
      refine (trapped_from _ _ _ R (opening_ends _ _ _ S) (IK _ _ _ _ _ H _)). lia.
  - intros k o fresh acc s H L. cbn [jsx_children] in H. cbv zeta in H. rewrite !at_peeked in H.
    assert (AFTER : forall acc1 acc2 ts s1, read s ts s1 -> ends_well ts ->
      (if at_tok T_GT s1 || at_tok T_BRACE_L s1 then jsx_children feat text ex asg fuel k o false acc1 s1
       else jsx_children feat text ex asg fuel k o true acc2 s1) = PFuel -> trapped_at s).
    { intros acc1 acc2 ts s1 R W G. left. pose proof (read_less _ _ _ R) as L1. destruct W as (pre & a & Z & B). assert (1 <= length ts) by (rewrite Z, app_length; cbn; lia).
      assert (W : ends_well ts) by (exists pre, a; auto). refine (trapped_from _ _ _ R W _). destruct (at_tok T_GT s1 || at_tok T_BRACE_L s1); refine (IK _ _ _ _ _ G _); lia. }
    destruct (at_tok T_BRACE_L s) eqn:A1; [|destruct (at_tok T_LT s) eqn:A2; [|destruct (at_tok T_JSX_TXT s) eqn:A3; [|destruct (_ || _) eqn:A4; [discriminate H|]]]].
    + okf H d s1 E; [destruct (cont_ends _ _ _ H)|]. destruct (cont_reads feat ex asg full single ex_reads asg_reads _ _ _ _ A1 E) as (ts & R & B).
      assert (W : ends_well ts) by (destruct B as [B|(r & e & -> & B)]; [eapply braced_ends|eapply spread_ends]; exact B). exact (AFTER _ _ _ _ R W H).
    + okf H t s1 E; [left; apply (IJ _ _ _ _ H A2); cbn [peeked p_toks]; lia|]. destruct (RJ _ _ _ _ _ _ E A2) as (ts & R & S). destruct t as [e|d].
      * exact (AFTER _ _ _ _ R (element_ends _ _ S) H).
      * destruct (closes _ _); discriminate H.
    + pose proof (at_read _ _ A3 eq_refl) as R. pose proof (read_less _ _ _ R) as L1. cbn [length] in L1. left. refine (trapped_from _ _ _ R _ (IK _ _ _ _ _ H _)); [|cbn [peeked next p_toks] in *; lia].
      apply ends_one. unfold before_content. rewrite (at_val _ _ A3). cbn. auto.
    + right. unfold at_tok, pval in A1, A2, A3, A4. unfold peek in *. destruct (p_toks s) as [|t rest] eqn:Z; [discriminate A4|]. exists t, rest. split; [reflexivity|].
      intro Q. cbn [In] in Q. destruct Q as [Q|[Q|[Q|[Q|[Q|[]]]]]]; rewrite <- Q in *; discriminate.
Qed.
End Ends.
