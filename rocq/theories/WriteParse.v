(** The parser reads a written expression as itself. *)
From Coq Require Import Lia ZifyBool ZifyNat ZifyN.
From Verif Require Import Base TokenModel LexModel ParseBase BinModel BinSpec BinProofs SymtabModel EarlyModel ExprModel ExprSpec ExprProofs
  WriteSpec WriteBin WriteFacts.
From Verif Require LabelProofs.

(** ** Tokens *)
Definition nxt (r : list token) : token := hd (eof_tok 0) r.
Definition after (ts : list token) (p : option nat) : option nat := match ts with [] => p | _ => Some (last_hi ts) end.
Lemma pval_st : forall r b p, pval (mk_pst r b p) = t_val (nxt r).
Proof. intros [|t r] b p; reflexivity. Qed.
Lemma peeked_st : forall r b p, peeked (mk_pst r b p) = mk_pst r true p.
Proof. reflexivity. Qed.
Lemma next_st : forall t r b p, next (mk_pst (t :: r) b p) = mk_pst r false (Some (t_hi t)).
Proof. reflexivity. Qed.
Lemma peek_st : forall t r b p, peek (mk_pst (t :: r) b p) = t.
Proof. reflexivity. Qed.
Lemma at_st : forall v r b p, at_tok v (mk_pst r b p) = tv_eqb (t_val (nxt r)) v.
Proof. intros v r b p. unfold at_tok. rewrite pval_st. reflexivity. Qed.
Lemma bin_st : forall r b p ni ts, is_bin ni ts (peek (mk_pst r b p)) = is_bin ni ts (nxt r).
Proof. intros [|t r] b p ni ts; reflexivity. Qed.
Lemma atl_st : forall r b p, t_atl (peek (mk_pst r b p)) = t_atl (nxt r).
Proof. intros [|t r] b p; reflexivity. Qed.
Lemma after_app : forall a b p, after (a ++ b) p = after b (after a p).
Proof.
  intros a b p. destruct b as [|y b]; [rewrite app_nil_r; reflexivity|]. destruct a as [|x a]; [reflexivity|].
  cbn [app after]. rewrite app_comm_cons, last_hi_mid. reflexivity.
Qed.
Lemma after_ne : forall ts p, ts <> [] -> after ts p = Some (last_hi ts).
Proof. intros [|t ts] p H; [congruence|reflexivity]. Qed.
Lemma after_cons : forall t ts p, after (t :: ts) p = after ts (Some (t_hi t)).
Proof. intros t ts p. exact (after_app [t] ts p). Qed.

Definition forbidden (n : nat) (v : tv) : bool :=
  existsb (tv_eqb v) [T_PAREN_L; T_BRACKET_L; T_DOT; T_OPT_CHAIN; T_TPL_HEAD; T_ARROW] ||
  Nat.leb n 5 && existsb (tv_eqb v) [T_INC; T_DEC] || Nat.leb n 3 && existsb (tv_eqb v) infix_ops ||
  Nat.leb n 2 && tv_eqb v T_HOOK || Nat.leb n 1 && existsb (tv_eqb v) assign_ops || Nat.eqb n 0 && tv_eqb v T_COMMA.
Lemma in_tvs : forall v l, existsb (tv_eqb v) l = true <-> In v l.
Proof.
  intros v l. rewrite existsb_exists. split; [intros (x & I & E); apply tv_eqb_spec in E; subst; exact I|].
  intro I. exists v. split; [exact I|]. apply tv_eqb_spec. reflexivity.
Qed.
Lemma forbidden_goes : forall n t, forbidden n (t_val t) = true -> goes_on n t.
Proof.
  intros n t H. unfold forbidden in H. rewrite !Bool.orb_true_iff, !Bool.andb_true_iff, !in_tvs, !tv_eqb_spec in H. unfold goes_on.
  destruct H as [[[[[H|[N H]]|[N H]]|[N H]]|[N H]]|[N H]]; [tauto|right..]; [left|right; left|right; right; left|do 3 right; left|do 4 right].
  - split; [lia|exact H].
  - split; [lia|]. exists (t_val t). left; auto.
  - split; [lia|exact H].
  - split; [lia|exact H].
  - split; [lia|exact H].
Qed.
Lemma not_goes : forall n t v, ~ goes_on n t -> forbidden n v = true -> tv_eqb (t_val t) v = false.
Proof.
  intros n t v H F. destruct (tv_eqb (t_val t) v) eqn:E; [|reflexivity]. apply tv_eqb_spec in E. exfalso. apply H, forbidden_goes. rewrite E. exact F.
Qed.
Lemma quiet : forall n t, forbidden n (t_val t) = false -> (n <= 3 -> t_val t <> T_NAME) -> ~ goes_on n t.
Proof.
  intros n t F N G. rewrite <- Bool.not_true_iff_false in F. apply F. unfold forbidden.
  rewrite !Bool.orb_true_iff, !Bool.andb_true_iff, !in_tvs, !tv_eqb_spec. unfold goes_on in G.
  destruct G as [G|[[L G]|[[L G]|[[L G]|[[L G]|[L G]]]]]].
  - tauto.
  - do 4 left. right. split; [lia|exact G].
  - destruct G as [op [[I E]|(-> & E & _)]]; [|destruct (N L E)]. do 3 left. right. split; [lia|]. rewrite E. exact I.
  - do 2 left. right. split; [lia|exact G].
  - left. right. split; [lia|exact G].
  - right. split; [lia|exact G].
Qed.
Lemma quiet_is : forall n t v, t_val t = v -> forbidden n v = false -> tv_eqb v T_NAME = false -> ~ goes_on n t.
Proof. intros n t v <- F N. apply quiet; [exact F|]. intros _ E. rewrite E in N. discriminate N. Qed.
Lemma goes_low : forall n m t, ~ goes_on n t -> n <= m -> ~ goes_on m t.
Proof. intros n m t H L G. apply H. unfold goes_on in *. destruct G as [G|[[A G]|[[A G]|[[A G]|[[A G]|[A G]]]]]]; [left; exact G|right; left|do 2 right; left|do 3 right; left|do 4 right; left|do 5 right]; (split; [lia|exact G]). Qed.
Lemma goes_45 : forall t, ~ goes_on 5 t -> ~ goes_on 4 t.
Proof. intros t H G. apply H. unfold goes_on in *. destruct G as [G|[[A G]|[[A G]|[[A G]|[[A G]|[A G]]]]]]; [left; exact G|right; left; split; [lia|exact G]|lia..]. Qed.
Lemma stop_bin : forall n t, ~ goes_on n t -> n <= 3 -> is_bin false false t = None.
Proof.
  intros n t H L. destruct (is_bin false false t) as [op|] eqn:E; [|reflexivity]. exfalso. apply H. right; right; left. split; [exact L|].
  unfold is_bin in E. destruct (_ && _) eqn:B in E.
  - injection E as <-. exists (t_val t). left. split; [|reflexivity]. destruct (t_val t); vm_compute in B; try discriminate B; cbn; tauto.
  - cbn [negb andb] in E. destruct (is_name t (bs "in") false) eqn:I; [|discriminate E]. exists T_IN. right. unfold is_name in I.
    apply Bool.andb_true_iff in I as [I J]. apply Bool.andb_true_iff in I as [I K]. apply tv_eqb_spec in I. apply bytes_eqb_spec in K. cbn [orb] in J.
    apply Bool.negb_true_iff in J. auto.
Qed.
Lemma infix_bin : forall t op, infix t op -> is_bin false false t = Some op.
Proof.
  intros t op [[I <-]|(-> & E & N & X)]; unfold is_bin.
  - unfold infix_ops in I. cbn in I. repeat (destruct I as [<-|I]; [reflexivity|]). destruct I.
  - rewrite E. cbn [negb]. unfold is_name. rewrite E, N, X. reflexivity.
Qed.
Lemma infix_stop : forall t op, infix t op -> ~ goes_on 4 t.
Proof.
  intros t op [[I <-]|(-> & E & N & X)]; apply quiet; try lia.
  - unfold infix_ops in I. cbn in I. repeat (destruct I as [<-|I]; [reflexivity|]). destruct I.
  - rewrite E. reflexivity.
Qed.
Lemma assign_list : forall v, is_assign_op v = existsb (tv_eqb v) assign_ops.
Proof. intro v. destruct v; reflexivity. Qed.
Lemma stop_assign : forall n t, ~ goes_on n t -> n <= 1 -> is_assign_op (t_val t) = false.
Proof.
  intros n t H L. rewrite assign_list. destruct (existsb (tv_eqb (t_val t)) assign_ops) eqn:E; [|reflexivity]. apply in_tvs in E.
  exfalso. apply H. do 4 right. left. auto.
Qed.
Lemma assign_stop : forall t, In (t_val t) assign_ops -> ~ goes_on 2 t.
Proof.
  intros t I. unfold assign_ops in I. cbn in I.
  repeat (destruct I as [E|I]; [symmetry in E; apply (quiet_is _ _ _ E); reflexivity|]). destruct I.
Qed.
Lemma update_stop : forall t, In (t_val t) [T_INC; T_DEC] -> ~ goes_on 6 t.
Proof. intros t I. cbn in I. destruct I as [E|[E|[]]]; symmetry in E; apply (quiet_is _ _ _ E); reflexivity. Qed.
Lemma start_not : forall text n t v, starts text n t -> existsb (tv_eqb v) start_toks = false -> tv_eqb (t_val t) v = false.
Proof.
  intros text n t v (I & _) E. destruct (tv_eqb (t_val t) v) eqn:Q; [|reflexivity]. apply tv_eqb_spec in Q. rewrite Q in I. apply in_tvs in I. congruence.
Qed.
Lemma list_not : forall (v w : tv) l, ~ In v l -> In w l -> tv_eqb v w = false.
Proof. intros v w l N I. destruct (tv_eqb v w) eqn:E; [|reflexivity]. apply tv_eqb_spec in E. subst. contradiction. Qed.

(** ** Scopes *)
Definition okk (k : N) : Prop := has k SPK_NOT_IN = false.
Lemma okk_paren : forall k, okk (paren_kind k).
Proof.
  intro k. unfold okk, paren_kind. rewrite LabelProofs.has_lor. unfold entered_kind. cbv zeta. cbn [negb orb].
  assert (F : forall (c : bool) m x, has m SPK_NOT_IN = false -> has x SPK_NOT_IN = false -> has (if c then N.lor x m else x) SPK_NOT_IN = false).
  { intros c m x E G. destruct c; [|exact G]. rewrite LabelProofs.has_lor, E, G. reflexivity. }
  apply Bool.orb_false_intro; [|reflexivity]. repeat (apply F; [reflexivity|]). reflexivity.
Qed.
Lemma okk_prop : forall k, okk k -> okk (N.lor k SPK_PROP_NAME).
Proof. intros k H. unfold okk in *. rewrite LabelProofs.has_lor, H. reflexivity. Qed.

Section Parse.
Variables (feat : N) (text : token -> bytes) (chk : pst -> bool).
Variables (other method : N -> pst -> option (pres rng)) (block : N -> pst -> pres rng)
  (params_ok : N -> list expr -> pst -> bool).
Notation written := (written text).
Notation joined := (joined text).
Notation listed := (listed text).
Notation item := (item text).
Notation elements := (elements text).
Notation arguments := (arguments text).
Notation properties := (properties text).
Notation property := (property text).
Notation key_written := (key_written text).
Notation pieces := (pieces text).
(** Nothing that is not modelled begins where a written expression does, or is a property with a colon. *)
Definition primary_starts : list tv :=
  [T_NUM; T_NULL; T_TRUE; T_FALSE; T_THIS; T_REGEXP; T_STRING; T_NAME; T_PAREN_L; T_BRACKET_L; T_BRACE_L; T_TPL_HEAD].
Hypothesis other_quiet : forall k s, In (pval s) primary_starts -> (pval s = T_NAME -> ordinary (text (peek s)) = true) -> other k s = None.
Hypothesis method_quiet : forall k s key c kts t rest, key_written key c kts -> p_toks s = kts ++ t :: rest ->
  t_val t = T_COLON \/ c = false /\ (t_val t = T_COMMA \/ t_val t = T_BRACE_R) -> method k s = None.
Hypotheses (feat_spread : has feat FEAT_SPREAD = true) (feat_pow : has feat FEAT_POW = true).
Notation C fuel := (calls_at feat text chk other method block params_ok fuel).

Definition gets {A} (buf : bool) (f : pst -> pres A) (a : A) (ts rest : list token) : Prop :=
  forall b p, (buf = true -> b = true) -> exists b', f (mk_pst (ts ++ rest) b p) = POk a (mk_pst rest b' (after ts p)).
Definition fact (lvl : nat) (buf : bool) (f : calls -> N -> pst -> pres expr) (e : expr) (ts : list token) : Prop :=
  exists F, forall fuel k rest, F <= fuel -> okk k -> ~ goes_on lvl (nxt rest) -> gets buf (f (C fuel) k) e ts rest.
Definition Flhs := fact 6 true c_lhs.
Definition Fupd := fact 5 true c_update.
Definition Fun := fact 4 false c_unary.
Definition Fbin (e : expr) (ts : list token) : Prop :=
  exists F, forall fuel k rest, F <= fuel -> okk k -> ~ goes_on 3 (nxt rest) -> forall b p, exists t b',
    bin_expr (c_unary (C fuel) k) (fun _ => PErr) is_unary_e is_arrow_e feat false (has k SPK_NOT_IN) false (c_fuel (C fuel)) None (mk_pst (ts ++ rest) b p)
      = POk t (mk_pst rest b' (after ts p)) /\ of_bt t = e.
Definition Fcond := fact 1 false c_cond.
Definition Fcond2 := fact 2 false c_cond.
Definition Fasg (e : expr) (ts : list token) := forall check, fact 1 false (fun rc k => c_assign rc k check) e ts.
Definition Fseq := fact 0 false c_seq.

Ltac st := cbn [pbind alift athen app fst snd]; rewrite ?peeked_st, ?next_st, ?peek_st, ?at_st, ?pval_st, ?atl_st, ?bin_st; cbn [pbind alift athen nxt hd app fst snd].
Ltac ev := repeat match goal with |- context [tv_eqb ?a ?b] =>
    let v := eval vm_compute in (tv_eqb a b) in first [constr_eq v true | constr_eq v false]; change (tv_eqb a b) with v end; cbn [orb andb negb].
Ltac stp H := repeat match goal with |- context [tv_eqb (t_val (nxt ?r)) ?v] => rewrite (not_goes _ (nxt r) v H eq_refl) end; cbn [orb andb negb].

Lemma Flhs_upd : forall n e ts, written n e ts -> 6 <= n -> Flhs e ts -> Fupd e ts.
Proof.
  intros n e ts W L (F & H). destruct (proj1 (all_begin text) _ _ _ W) as (_ & (t & us & -> & St) & _).
  exists (S F). intros fuel k rest Lf K G b p B. destruct fuel as [|fuel]; [lia|]. change (c_update (C (S fuel))) with (update_b (C fuel)). unfold update_b.
  st. destruct St as (_ & _ & _ & St & _). rewrite !(list_not _ _ _ (St L)) by (cbn; tauto). cbn [orb].
  destruct (H fuel k rest ltac:(lia) K (goes_low _ 6 _ G ltac:(lia)) true p) as (b' & E); [auto|].
  cbn [app] in E. st. rewrite E. st. stp G. rewrite Bool.andb_false_r. eexists; reflexivity.
Qed.
Lemma Fupd_un : forall n e ts, written n e ts -> 5 <= n -> Fupd e ts -> Fun e ts.
Proof.
  intros n e ts W L (F & H). destruct (proj1 (all_begin text) _ _ _ W) as (_ & (t & us & -> & St) & _).
  exists (S F). intros fuel k rest Lf K G b p B. destruct fuel as [|fuel]; [lia|]. change (c_unary (C (S fuel))) with (unary_b feat other (C fuel)). unfold unary_b.
  st. rewrite (start_not text n t T_LT St eq_refl), (start_not text n t T_AWAIT St eq_refl).
  assert (U : is_unary_op (t_val t) = false /\ tv_eqb (t_val t) T_ADD = false /\ tv_eqb (t_val t) T_SUB = false).
  { destruct St as (I & _ & St & _). specialize (St L). rewrite !(list_not _ _ _ St) by (cbn; tauto). split; [|auto].
    unfold start_toks in I. apply in_app_or in I as [I|I]; [|contradiction]. cbn in I. repeat (destruct I as [<-|I]; [reflexivity|]). destruct I. }
  destruct U as (-> & -> & ->). cbn [orb].
  destruct (H fuel k rest ltac:(lia) K (goes_low _ 5 _ G ltac:(lia)) true p) as (b' & E); [auto|].
  cbn [app] in E. rewrite E. eexists; reflexivity.
Qed.
Lemma Fun_bin : forall e ts, Fun e ts -> Fbin e ts.
Proof.
  intros e ts (F & H). exists (S (S F)). intros fuel k rest Lf K G b p.
  destruct (H fuel k rest ltac:(lia) K (goes_low _ 4 _ G ltac:(lia)) b p) as (b' & E); [discriminate|].
  exists (Leaf e), true. split; [|reflexivity]. unfold bin_expr. rewrite E. cbn [pbind].
  destruct fuel as [|fuel]; [lia|]. change (c_fuel (C (S fuel))) with (S fuel). cbn [bin_loop]. rewrite bin_st, K, (stop_bin _ _ G) by lia. reflexivity.
Qed.
Lemma Fbin_cond2 : forall e ts, Fbin e ts -> Fcond2 e ts.
Proof.
  intros e ts (F & H). exists (S F). intros fuel k rest Lf K G b p _. destruct fuel as [|fuel]; [lia|].
  change (c_cond (C (S fuel))) with (cond_b feat (C fuel)). unfold cond_b.
  destruct (H fuel k rest ltac:(lia) K (goes_low _ 3 _ G ltac:(lia)) b p) as (t & b' & E & Q). rewrite E. st. stp G. rewrite Q. eexists; reflexivity.
Qed.
Lemma Fbin_cond : forall e ts, Fbin e ts -> Fcond e ts.
Proof. intros e ts H. destruct (Fbin_cond2 _ _ H) as (F & H'). exists F. intros fuel k rest Lf K G. apply H'; [exact Lf|exact K|]. exact (goes_low _ 2 _ G ltac:(lia)). Qed.
Lemma no_yield : forall n ts rest k b p, begins text n ts -> ahead_yield text k (mk_pst (ts ++ rest) b p) = false.
Proof.
  intros n ts rest k b p (t & us & -> & St). unfold ahead_yield. st. rewrite (start_not text n t T_YIELD St eq_refl).
  destruct (tv_eqb (t_val t) T_NAME) eqn:N; [|apply Bool.andb_false_r]. apply tv_eqb_spec in N. destruct St as (_ & O & _).
  rewrite (ordinary_not _ _ (O N)) by (cbn; tauto). apply Bool.andb_false_r.
Qed.
Lemma Fcond_asg : forall n e ts, written n e ts -> Fcond e ts -> Fasg e ts.
Proof.
  intros n e ts W (F & H) check. destruct (proj1 (all_begin text) _ _ _ W) as (_ & B & _).
  exists (S F). intros fuel k rest Lf K G b p _. destruct fuel as [|fuel]; [lia|].
  change (c_assign (C (S fuel))) with (assign_b feat text chk (C fuel)). unfold assign_b. rewrite (no_yield _ _ _ _ _ _ B).
  destruct (H fuel k rest ltac:(lia) K G true p) as (b' & E); [discriminate|].
  st. rewrite E. st. stp G. rewrite Bool.andb_false_r. cbn [andb]. st. st. rewrite (stop_assign _ _ G) by lia. eexists; reflexivity.
Qed.
Lemma Fasg_seq : forall n e ts, written n e ts -> Fasg e ts -> Fseq e ts.
Proof.
  intros n e ts W H. destruct (H true) as (F & H'). pose proof (proj1 (all_check text) _ _ _ W) as CK.
  exists (S F). intros fuel k rest Lf K G b p _. destruct fuel as [|fuel]; [lia|].
  change (c_seq (C (S fuel))) with (seq_b text (C fuel)). unfold seq_b.
  destruct (H' fuel k rest ltac:(lia) K (goes_low _ 1 _ G ltac:(lia)) b p) as (b' & E); [discriminate|]. cbn beta in E.
  rewrite E. st. rewrite (ck_arg _ _ CK). st. stp G. eexists; reflexivity.
Qed.

(** ** Members and calls *)
Inductive sfx :=
| XDot (d p : token)
| XSub (l : token) (e : expr) (ts : list token) (h : token)
| XCall (l : token) (args : list expr) (ts : list token) (h : token).
Definition xtoks (x : sfx) : list token :=
  match x with XDot d p => [d; p] | XSub l _ ts h => l :: ts ++ [h] | XCall l _ ts h => l :: ts ++ [h] end.
Definition xapp (a : nat) (o : expr) (x : sfx) : expr :=
  match x with
  | XDot d p => EMember (a, t_hi p) o (EName (t_hi d, t_hi p) (text p) false (is_kw (t_val p))) false false
  | XSub _ e _ h => EMember (a, t_hi h) o e true false
  | XCall _ args _ h => ECall (a, t_hi h) o args false
  end.
Definition xmem (x : sfx) : bool := match x with XCall _ _ _ _ => false | _ => true end.
Definition xok (F : nat) (x : sfx) : Prop :=
  match x with
  | XDot d p => t_val d = T_DOT /\ (t_val p = T_NAME \/ is_kw (t_val p) = true)
  | XSub l e ts h => t_val l = T_BRACKET_L /\ t_val h = T_BRACKET_R /\
      forall fuel k rest, F <= fuel -> okk k -> gets false (c_seq (C fuel) k) e ts (h :: rest)
  | XCall l args ts h => t_val l = T_PAREN_L /\
      forall fuel k rest b p, F <= fuel -> okk k -> exists tr b', c_arg_list (C fuel) k true true (mk_pst (l :: ts ++ h :: rest) b p)
        = POk (args, tr) (mk_pst rest b' (Some (t_hi h)))
  end.
Definition xs_toks (xs : list sfx) : list token := concat (map xtoks xs).
Definition xs_app (a : nat) (o : expr) (xs : list sfx) : expr := fold_left (xapp a) xs o.
Lemma lo_xapp : forall a o x, lo (xapp a o x) = a.
Proof. intros a o []; reflexivity. Qed.
Lemma lo_xs : forall xs a o, lo o = a -> lo (xs_app a o xs) = a.
Proof. induction xs as [|x xs IH]; intros a o E; [exact E|]. apply IH, lo_xapp. Qed.
Definition okx (e : expr) : Prop := (forall k, check_callee k e = true) /\ is_super_e e = false /\ super_private e = false.
Lemma okx_app : forall a o x, okx o -> okx (xapp a o x).
Proof.
  intros a o x (A & B & D). destruct x; (split; [|split]); try reflexivity; cbn.
  - intro k. rewrite A. apply Bool.orb_true_r.
  - intro k. rewrite A. apply Bool.orb_true_r.
  - destruct e; try reflexivity. destruct pvt; [exact B|reflexivity].
Qed.
Lemma okx_xs : forall xs a o, okx o -> okx (xs_app a o xs).
Proof. induction xs as [|x xs IH]; intros a o E; [exact E|]. apply IH, okx_app, E. Qed.
Lemma xok_up : forall F G x, xok F x -> F <= G -> xok G x.
Proof.
  intros F G [d p|l e ts h|l args ts h] H L; cbn in *; [exact H|..].
  - destruct H as (A & B & H). split; [exact A|]. split; [exact B|]. intros. apply H; [lia|assumption].
  - destruct H as (A & H). split; [exact A|]. intros. apply H; [lia|assumption].
Qed.

Lemma member_run : forall ms F k e rest fuel b p, Forall (xok F) ms -> forallb xmem ms = true -> F + length ms + 2 <= fuel -> okk k ->
  ~ In (t_val (nxt rest)) [T_DOT; T_BRACKET_L; T_OPT_CHAIN] ->
  exists b', c_member_loop (C fuel) k e None (mk_pst (xs_toks ms ++ rest) b p) =
    POk (xs_app (lo e) e ms, None) (mk_pst rest b' (after (xs_toks ms) p)).
Proof.
  induction ms as [|x ms IH]; intros F k e rest fuel b p X M L K N; (destruct fuel as [|fuel]; [lia|]);
    change (c_member_loop (C (S fuel))) with (member_loop_b text (C fuel)); unfold member_loop_b.
  - change (xs_toks []) with (@nil token). st. rewrite !(list_not _ _ _ N) by (cbn; tauto). eexists; reflexivity.
  - inversion X as [|? ? Xx Xm]; subst. cbn [forallb] in M. apply Bool.andb_true_iff in M as [Mx M]. cbn [length] in L.
    assert (T : xs_toks (x :: ms) = xtoks x ++ xs_toks ms) by reflexivity.
    rewrite T, <- app_assoc, after_app. change (xs_app (lo e) e (x :: ms)) with (xs_app (lo e) (xapp (lo e) e x) ms).
    destruct x as [d q|l a ts h|]; [| |discriminate Mx]; cbn [xok xtoks] in *.
    + destruct Xx as (Ed & Q). cbn [app]. st. rewrite Ed. ev. 
      unfold prop_dot. st.
      assert (Ck : can_be_key q && negb (tv_eqb (t_val q) T_NUM) || tv_eqb (t_val q) T_NAME_PVT = true /\ tv_eqb (t_val q) T_NAME_PVT = false).
      { unfold can_be_key. destruct Q as [Q|Q]; [rewrite Q; auto|]. rewrite Q. destruct (t_val q); try discriminate Q; auto. }
      destruct Ck as [-> ->]. st. cbn [here p_buf fin p_end p_prev].
      destruct (IH F k (xapp (lo e) e (XDot d q)) rest fuel false (Some (t_hi q)) Xm M ltac:(lia) K N) as (b' & E). exists b'. exact E.
    + destruct Xx as (El & Eh & Hs). cbn [app]. st. rewrite El. ev.
      destruct fuel as [|fuel]; [lia|]. change (c_subscript (C (S fuel))) with (subscript_b (C fuel)). unfold subscript_b. st.
      rewrite <- app_assoc. cbn [app].
      destruct (Hs fuel k (xs_toks ms ++ rest) ltac:(lia) K false (Some (t_hi l))) as (b1 & E1); [discriminate|]. rewrite E1.
      unfold must. st. rewrite Eh. ev. st.
      destruct (IH F k (xapp (lo e) e (XSub l a ts h)) rest (S fuel) false (Some (t_hi h)) Xm M ltac:(lia) K N) as (b' & E). exists b'.
      rewrite app_comm_cons, after_app. exact E.
Qed.

Lemma split_members : forall xs, exists ms ys, xs = ms ++ ys /\ forallb xmem ms = true /\ (ys = [] \/ exists l a ts h ys', ys = XCall l a ts h :: ys').
Proof.
  induction xs as [|x xs (ms & ys & -> & M & Y)]; [exists [], []; auto|]. destruct (xmem x) eqn:E.
  - exists (x :: ms), ys. cbn [forallb app]. rewrite E, M. auto.
  - exists [], (x :: ms ++ ys). split; [reflexivity|]. split; [reflexivity|]. right. destruct x; try discriminate E. eauto 8.
Qed.
Lemma xs_toks_app : forall a b, xs_toks (a ++ b) = xs_toks a ++ xs_toks b.
Proof. intros a b. unfold xs_toks. rewrite map_app, concat_app. reflexivity. Qed.
Definition call_runs (xs : list sfx) : Prop := forall F fuel k e root rest b p, Forall (xok F) xs -> okx e ->
  F + 3 * length xs + 4 <= fuel -> okk k -> ~ goes_on 7 (nxt rest) ->
  exists b', c_call_loop (C fuel) k (lo e) e root false None (mk_pst (xs_toks xs ++ rest) b p) =
    POk (xs_app (lo e) e xs, None) (mk_pst rest b' (after (xs_toks xs) p)).
Lemma member_from : forall xs, (forall ys, length ys < length xs -> call_runs ys) -> match xs with XCall _ _ _ _ :: _ => False | _ => True end ->
  forall F fuel k e call root rest b p, Forall (xok F) xs -> okx e -> F + 3 * length xs + 3 <= fuel -> okk k -> ~ goes_on 7 (nxt rest) ->
  (call = true \/ forallb xmem xs = true) ->
  exists b', c_member_expr (C fuel) k (Some e) call root None (mk_pst (xs_toks xs ++ rest) b p) =
    POk (xs_app (lo e) e xs, None) (mk_pst rest b' (after (xs_toks xs) p)).
Proof.
  intros xs IH Hx F fuel k e call root rest b p X O L K G Cl. destruct (split_members xs) as (ms & ys & -> & M & Y).
  assert (Lm : ys <> [] -> 1 <= length ms).
  { intro N. destruct ms; [|cbn; lia]. destruct Y as [Y|(l & a & ts & h & ys' & ->)]; [congruence|destruct Hx]. }
  destruct fuel as [|fuel]; [lia|]. change (c_member_expr (C (S fuel))) with (member_expr_b (C fuel)). unfold member_expr_b. st.
  apply Forall_app in X as [Xm Xy]. rewrite app_length in L. rewrite xs_toks_app, <- app_assoc, after_app.
  unfold xs_app. rewrite fold_left_app. fold (xs_app (lo e) e ms).
  destruct (member_run ms F k e (xs_toks ys ++ rest) fuel b p Xm M ltac:(lia) K) as (b1 & E1).
  { destruct Y as [->|(l & a & ts & h & ys' & ->)].
    - change (xs_toks [] ++ rest) with rest. intro I. cbn in I. destruct I as [I|[I|[I|[]]]]; apply G, forbidden_goes; rewrite <- I; reflexivity.
    - inversion Xy as [|? ? Xc _]; subst. destruct Xc as (El & _). cbn. rewrite El. intros [I|[I|[I|[]]]]; discriminate I. }
  rewrite E1. st. destruct (okx_xs ms (lo e) e O) as (Oc & Os & ->). pose proof (okx_xs ms (lo e) e O) as O'.
  destruct Y as [->|(l & a & ts & h & ys' & ->)].
  - change (xs_toks [] ++ rest) with rest. st. stp G. rewrite Bool.andb_false_r. eexists; reflexivity.
  - destruct Cl as [->|Cl]; [|rewrite forallb_app in Cl; apply Bool.andb_true_iff in Cl as [_ Cl]; discriminate Cl].
    set (ys := XCall l a ts h :: ys') in *.
    assert (Nx : tv_eqb (t_val (nxt (xs_toks ys ++ rest))) T_PAREN_L = true).
    { inversion Xy as [|? ? Xc _]; subst. destruct Xc as (El & _). cbn. rewrite El. reflexivity. }
    rewrite Nx. cbn [andb]. st. destruct fuel as [|fuel]; [lia|].
    change (c_call_expr (C (S fuel))) with (call_expr_b (C fuel)). unfold call_expr_b.
    destruct (IH ys) with (F := F) (fuel := fuel) (k := k) (e := xs_app (lo e) e ms) (root := root) (rest := rest) (b := true) (p := after (xs_toks ms) p) as (b' & E); try assumption.
    + rewrite app_length. specialize (Lm ltac:(discriminate)). lia.
    + specialize (Lm ltac:(discriminate)). lia.
    + exists b'. rewrite E. rewrite lo_xs by reflexivity. reflexivity.
Qed.
Lemma call_run : forall n xs, length xs <= n -> call_runs xs.
Proof.
  induction n as [|n IH]; intros xs Ln F fuel k e root rest b p X O L K G; (destruct fuel as [|fuel]; [lia|]);
    change (c_call_loop (C (S fuel))) with (call_loop_b (C fuel)); unfold call_loop_b; (destruct xs as [|x xs]; [|cbn [length] in *]).
  - change (xs_toks [] ++ rest) with rest. st. stp G. eexists; reflexivity.
  - lia.
  - change (xs_toks [] ++ rest) with rest. st. stp G. eexists; reflexivity.
  - destruct (xmem x) eqn:M.
    + assert (V : tv_eqb (t_val (nxt (xs_toks (x :: xs) ++ rest))) T_PAREN_L = false /\
        (tv_eqb (t_val (nxt (xs_toks (x :: xs) ++ rest))) T_BRACKET_L || tv_eqb (t_val (nxt (xs_toks (x :: xs) ++ rest))) T_DOT) = true).
      { inversion X as [|? ? Xx _]; subst. destruct x; [| |discriminate M]; destruct Xx as (El & _); cbn; rewrite El; auto. }
      destruct V as [V1 V2]. st. rewrite V1, V2. cbn [orb].
      destruct (member_from (x :: xs)) with (F := F) (fuel := fuel) (k := k) (e := e) (call := true) (root := root) (rest := rest) (b := true) (p := p) as (b1 & E1); try assumption; auto.
      * intros ys Ly. apply IH. cbn [length] in Ly. lia.
      * destruct x; try discriminate M; exact Logic.I.
      * cbn [length]; lia.
      * rewrite E1. st. destruct fuel as [|fuel]; [lia|]. change (c_call_loop (C (S fuel))) with (call_loop_b (C fuel)). unfold call_loop_b.
        st. stp G. eexists; reflexivity.
    + destruct x as [|  |l a ts h]; try discriminate M. inversion X as [|? ? Xx Xs]; subst. destruct Xx as (El & Ha).
      assert (T : xs_toks (XCall l a ts h :: xs) = (l :: ts ++ [h]) ++ xs_toks xs) by reflexivity. rewrite T, <- app_assoc, after_app.
      cbn [app]. st. rewrite El. ev. st. rewrite <- app_assoc. cbn [app].
      destruct (Ha fuel k (xs_toks xs ++ rest) true p ltac:(lia) K) as (tr & b1 & E1). rewrite E1. st. rewrite (proj1 O). cbn [negb].
      destruct (IH xs) with (F := F) (fuel := fuel) (k := k) (e := xapp (lo e) e (XCall l a ts h)) (root := root) (rest := rest) (b := b1) (p := Some (t_hi h)) as (b' & E2); try assumption; try lia.
      * apply okx_app, O.
      * exists b'. rewrite app_comm_cons, after_app. exact E2.
Qed.

Lemma new_run : forall xs F fuel k e root rest b p, Forall (xok F) xs -> okx e ->
  F + 3 * length xs + 6 <= fuel -> okk k -> ~ goes_on 7 (nxt rest) ->
  exists b', c_new_loop (C fuel) k e root None (mk_pst (xs_toks xs ++ rest) b p) =
    POk (xs_app (lo e) e xs) (mk_pst rest b' (after (xs_toks xs) p)).
Proof.
  intros xs F fuel k e root rest b p X O L K G. destruct fuel as [|fuel]; [lia|].
  change (c_new_loop (C (S fuel))) with (new_loop_b (C fuel)); unfold new_loop_b.
  assert (Z : forall e root b p, exists b', c_new_loop (C fuel) k e root None (mk_pst rest b p) = POk e (mk_pst rest b' p)).
  { intros e0 r0 b0 p0. destruct fuel as [|fuel]; [lia|]. change (c_new_loop (C (S fuel))) with (new_loop_b (C fuel)); unfold new_loop_b.
    st. stp G. eexists; reflexivity. }
  destruct xs as [|x xs].
  - change (xs_toks [] ++ rest) with rest. st. stp G. eexists; reflexivity.
  - destruct (xmem x) eqn:M.
    + assert (V : tv_eqb (t_val (nxt (xs_toks (x :: xs) ++ rest))) T_PAREN_L = false /\ tv_eqb (t_val (nxt (xs_toks (x :: xs) ++ rest))) T_OPT_CHAIN = false /\
        (tv_eqb (t_val (nxt (xs_toks (x :: xs) ++ rest))) T_BRACKET_L || tv_eqb (t_val (nxt (xs_toks (x :: xs) ++ rest))) T_DOT) = true).
      { inversion X as [|? ? Xx _]; subst. destruct x; [| |discriminate M]; destruct Xx as (El & _); cbn; rewrite El; auto. }
      destruct V as (V1 & V2 & V3). st. rewrite V1, V2, V3. cbn [orb].
      destruct (member_from (x :: xs)) with (F := F) (fuel := fuel) (k := k) (e := e) (call := true) (root := root) (rest := rest) (b := true) (p := p) as (b1 & E1); try assumption; auto.
      * intros ys _. apply (call_run (length ys)). lia.
      * destruct x; try discriminate M; exact Logic.I.
      * cbn [length] in *; lia.
      * rewrite E1. st. apply Z.
    + assert (V : tv_eqb (t_val (nxt (xs_toks (x :: xs) ++ rest))) T_PAREN_L = true).
      { inversion X as [|? ? Xx _]; subst. destruct x; try discriminate M; destruct Xx as (El & _); cbn; rewrite El; auto. }
      st. rewrite V. destruct fuel as [|fuel]; [lia|]. change (c_call_expr (C (S fuel))) with (call_expr_b (C fuel)). unfold call_expr_b.
      destruct (call_run _ (x :: xs) (le_n _)) with (F := F) (fuel := fuel) (k := k) (e := e) (root := root) (rest := rest) (b := true) (p := p) as (b1 & E1); try assumption; try lia.
      rewrite E1. st. apply Z.
Qed.

Definition Fprim (e : expr) (ts : list token) : Prop :=
  exists F, forall fuel k rest, F <= fuel -> okk k -> t_val (nxt rest) <> T_ARROW -> gets true (c_primary (C fuel) k) e ts rest.
Definition Fnew (e : expr) (ts : list token) : Prop :=
  exists F, forall fuel k rest p, F <= fuel -> okk k -> t_val (nxt rest) <> T_TPL_HEAD ->
    exists b', c_new_expr (C (S fuel)) k (mk_pst (ts ++ rest) true p) = c_new_loop (C fuel) k e true None (mk_pst rest b' (after ts p)).
Definition chainf (n : nat) (e : expr) (ts : list token) : Prop := exists base t bts xs F,
  e = xs_app (t_lo t) base xs /\ ts = t :: bts ++ xs_toks xs /\ Forall (xok F) xs /\ okx base /\ lo base = t_lo t /\
  (8 <= n -> forallb xmem xs = true) /\ (t_val t <> T_NEW /\ Fprim base (t :: bts) \/ t_val t = T_NEW /\ Fnew base (t :: bts)).

Lemma nxt_xs : forall F xs rest, Forall (xok F) xs -> nxt (xs_toks xs ++ rest) = nxt rest \/ In (t_val (nxt (xs_toks xs ++ rest))) [T_DOT; T_BRACKET_L; T_PAREN_L].
Proof.
  intros F [|x xs] rest X; [left; reflexivity|]. right. inversion X as [|? ? Xx _]; subst. destruct x; destruct Xx as (El & _); cbn; rewrite El; auto.
Qed.
Lemma nxt_not : forall F xs rest v n, Forall (xok F) xs -> ~ goes_on n (nxt rest) -> forbidden n v = true -> existsb (tv_eqb v) [T_DOT; T_BRACKET_L; T_PAREN_L] = false ->
  t_val (nxt (xs_toks xs ++ rest)) <> v.
Proof.
  intros F xs rest v n X G Fb V Q. destruct (nxt_xs F xs rest X) as [E|I].
  - rewrite E in Q. apply G, forbidden_goes. rewrite Q. exact Fb.
  - rewrite Q in I. apply in_tvs in I. congruence.
Qed.
Lemma chain_lhs : forall n e ts, chainf n e ts -> Flhs e ts.
Proof.
  intros n e ts (base & t & bts & xs & F & -> & -> & X & O & Lo & _ & [[Nt (F1 & H1)]|[Nt (F1 & H1)]]).
  - exists (F + F1 + 3 * length xs + 8). intros fuel k rest Lf K G b p B. destruct fuel as [|fuel]; [lia|].
    change (c_lhs (C (S fuel))) with (lhs_b (C fuel)). unfold lhs_b. st.
    destruct (tv_eqb (t_val t) T_NEW) eqn:Q; [apply tv_eqb_spec in Q; congruence|]. destruct fuel as [|fuel]; [lia|].
    change (c_call_expr (C (S fuel))) with (call_expr_b (C fuel)). unfold call_expr_b. rewrite <- app_assoc.
    destruct (H1 fuel k (xs_toks xs ++ rest) ltac:(lia) K (nxt_not _ _ _ T_ARROW _ X G eq_refl eq_refl) true p ltac:(auto)) as (b1 & E1).
    cbn [app] in E1. rewrite E1. st. change (here (mk_pst (t :: bts ++ xs_toks xs ++ rest) true p)) with (t_lo t). rewrite <- Lo.
    destruct (call_run _ xs (le_n _)) with (F := F) (fuel := fuel) (k := k) (e := base) (root := true) (rest := rest) (b := b1) (p := after (t :: bts) p) as (b2 & E2); try assumption; try lia.
    { exact (goes_low _ 7 _ G ltac:(lia)). }
    rewrite E2. st. stp G. exists true. rewrite <- after_app. reflexivity.
  - exists (F + F1 + 3 * length xs + 8). intros fuel k rest Lf K G b p B. destruct fuel as [|fuel]; [lia|].
    change (c_lhs (C (S fuel))) with (lhs_b (C fuel)). unfold lhs_b. st. rewrite Nt. ev.
    destruct fuel as [|fuel]; [lia|]. rewrite <- app_assoc.
    destruct (H1 fuel k (xs_toks xs ++ rest) p ltac:(lia) K (nxt_not _ _ _ T_TPL_HEAD _ X G eq_refl eq_refl)) as (b1 & E1).
    cbn [app] in E1. rewrite E1.
    destruct (new_run xs) with (F := F) (fuel := fuel) (k := k) (e := base) (root := true) (rest := rest) (b := b1) (p := after (t :: bts) p) as (b2 & E2); try assumption; try lia.
    { exact (goes_low _ 7 _ G ltac:(lia)). }
    rewrite E2. st. stp G. exists true. rewrite <- Lo. rewrite <- after_app. reflexivity.
Qed.
Lemma chain_operand : forall n e ts d, chainf n e ts -> 8 <= n -> t_val (hd d ts) <> T_NEW ->
  exists F, forall fuel k rest p, F <= fuel -> okk k -> ~ In (t_val (nxt rest)) [T_DOT; T_BRACKET_L; T_OPT_CHAIN; T_TPL_HEAD; T_ARROW] ->
  exists b', c_member_expr (C fuel) k None false true None (mk_pst (ts ++ rest) true p) = POk (e, None) (mk_pst rest b' (after ts p)).
Proof.
  intros n e ts d (base & t & bts & xs & F & -> & -> & X & O & Lo & M & [[Nt (F1 & H1)]|[Nt _]]) L8 Nn; [|cbn in Nn; congruence]. specialize (M L8).
  exists (F + F1 + length xs + 4). intros fuel k rest p Lf K G. destruct fuel as [|fuel]; [lia|].
  change (c_member_expr (C (S fuel))) with (member_expr_b (C fuel)). unfold member_expr_b. st.
  destruct (tv_eqb (t_val t) T_NEW) eqn:Q; [apply tv_eqb_spec in Q; congruence|]. rewrite <- app_assoc.
  assert (V : forall v, In v [T_TPL_HEAD; T_ARROW] -> t_val (nxt (xs_toks xs ++ rest)) <> v).
  { intros v I Qv. destruct (nxt_xs F xs rest X) as [Ex|J].
    - rewrite Ex in Qv. apply G. rewrite Qv. cbn in *. tauto.
    - rewrite Qv in J. cbn in I, J. destruct I as [<-|[<-|[]]]; destruct J as [J|[J|[J|[]]]]; discriminate J. }
  destruct (H1 fuel k (xs_toks xs ++ rest) ltac:(lia) K (V T_ARROW ltac:(cbn; tauto)) true p ltac:(auto)) as (b1 & E1).
  cbn [app] in E1. rewrite E1. st.
  destruct (tv_eqb (t_val (nxt (xs_toks xs ++ rest))) T_TPL_HEAD) eqn:Qt; [apply tv_eqb_spec in Qt; destruct (V T_TPL_HEAD ltac:(cbn; tauto) Qt)|].
  st. rewrite <- Lo.
  destruct (member_run xs F k base rest fuel true (after (t :: bts) p) X M ltac:(lia) K) as (b2 & E2); [cbn in *; tauto|].
  rewrite E2. st. rewrite (proj2 (proj2 (okx_xs xs (lo base) base O))). cbn [andb]. exists true. rewrite <- after_app. reflexivity.
Qed.

(** ** Every form *)
Definition Pw (n : nat) (e : expr) (ts : list token) : Prop :=
  (7 <= n -> chainf n e ts) /\ (6 <= n -> Flhs e ts) /\ (5 <= n -> Fupd e ts) /\ (4 <= n -> Fun e ts) /\ (3 <= n -> Fbin e ts) /\
  (2 <= n -> Fcond e ts) /\ (1 <= n -> Fasg e ts) /\ Fseq e ts.
Lemma Pw_asg : forall n e ts, written n e ts -> n < 2 -> Fasg e ts -> Pw n e ts.
Proof. intros n e ts W L H. repeat split; intros; try lia; [exact H|]. exact (Fasg_seq _ _ _ W H). Qed.
Lemma Pw_cond : forall n e ts, written n e ts -> n < 3 -> Fcond e ts -> Pw n e ts.
Proof.
  intros n e ts W L H. pose proof (Fcond_asg _ _ _ W H) as A. repeat split; intros; try lia; [exact H|exact A|]. exact (Fasg_seq _ _ _ W A).
Qed.
Lemma Pw_bin : forall n e ts, written n e ts -> n < 4 -> Fbin e ts -> Pw n e ts.
Proof.
  intros n e ts W L H. pose proof (Fbin_cond _ _ H) as B. pose proof (Fcond_asg _ _ _ W B) as A. repeat split; intros; try lia; [exact H|exact B|exact A|].
  exact (Fasg_seq _ _ _ W A).
Qed.
Lemma Pw_un : forall n e ts, written n e ts -> n < 5 -> Fun e ts -> Pw n e ts.
Proof.
  intros n e ts W L H. pose proof (Fun_bin _ _ H) as D. pose proof (Fbin_cond _ _ D) as B. pose proof (Fcond_asg _ _ _ W B) as A.
  repeat split; intros; try lia; [exact H|exact D|exact B|exact A|]. exact (Fasg_seq _ _ _ W A).
Qed.
Lemma Pw_upd : forall n e ts, written n e ts -> n = 5 -> Fupd e ts -> Pw n e ts.
Proof.
  intros n e ts W L H. assert (L5 : 5 <= n) by lia. pose proof (Fupd_un _ _ _ W L5 H) as G. pose proof (Fun_bin _ _ G) as D. pose proof (Fbin_cond _ _ D) as B. pose proof (Fcond_asg _ _ _ W B) as A.
  repeat split; intros; try lia; [exact H|exact G|exact D|exact B|exact A|]. exact (Fasg_seq _ _ _ W A).
Qed.
Lemma Pw_lhs : forall n e ts, written n e ts -> 6 <= n -> (7 <= n -> chainf n e ts) -> Flhs e ts -> Pw n e ts.
Proof.
  intros n e ts W L Ch H. pose proof (Flhs_upd _ _ _ W L H) as U. assert (L5 : 5 <= n) by lia. pose proof (Fupd_un _ _ _ W L5 U) as G.
  pose proof (Fun_bin _ _ G) as D. pose proof (Fbin_cond _ _ D) as B. pose proof (Fcond_asg _ _ _ W B) as A.
  repeat split; intros; try lia; [apply Ch; lia|exact H|exact U|exact G|exact D|exact B|exact A|]. exact (Fasg_seq _ _ _ W A).
Qed.
Lemma Pw_chain : forall n e ts, written n e ts -> 7 <= n -> chainf n e ts -> Pw n e ts.
Proof. intros n e ts W L Ch. apply Pw_lhs; [exact W|lia|auto|]. exact (chain_lhs _ _ _ Ch). Qed.
Lemma chain_base : forall n e t ts, CK text e -> super_private e = false -> lo e = t_lo t ->
  (t_val t <> T_NEW /\ Fprim e (t :: ts) \/ t_val t = T_NEW /\ Fnew e (t :: ts)) -> chainf n e (t :: ts).
Proof.
  intros n e t ts Ck Sp Lo H. exists e, t, ts, [], 0. split; [reflexivity|]. split; [cbn; rewrite app_nil_r; reflexivity|]. split; [constructor|].
  split; [split; [exact (ck_callee _ _ Ck)|split; [exact (ck_super _ _ Ck)|exact Sp]]|]. split; [exact Lo|]. split; [reflexivity|exact H].
Qed.
Lemma chain_step : forall n m o ots x F, chainf n o ots -> xok F x -> (8 <= m -> 8 <= n /\ xmem x = true) ->
  chainf m (xapp (first_lo ots) o x) (ots ++ xtoks x).
Proof.
  intros n m o ots x F (base & t & bts & xs & G & -> & -> & X & O & Lo & M & H) Xx L.
  exists base, t, bts, (xs ++ [x]), (F + G). split; [unfold xs_app; rewrite fold_left_app; reflexivity|].
  split; [rewrite xs_toks_app; change (xs_toks [x]) with (xtoks x ++ []); rewrite app_nil_r; cbn [app]; rewrite <- app_assoc; reflexivity|].
  split; [apply Forall_app; split; [eapply Forall_impl; [|exact X]; intros y Y; eapply xok_up; [exact Y|lia]|constructor; [eapply xok_up; [exact Xx|lia]|constructor]]|].
  split; [exact O|]. split; [exact Lo|]. split; [|exact H].
  intro L8. destruct (L L8) as [A B]. rewrite forallb_app, (M A). cbn. rewrite B. reflexivity.
Qed.
Lemma quiet_other : forall k t rest b p, In (t_val t) primary_starts -> (t_val t = T_NAME -> ordinary (text t) = true) -> other k (mk_pst (t :: rest) b p) = None.
Proof. intros k t rest b p I O. apply other_quiet; assumption. Qed.
Lemma primary_S : forall fuel, c_primary (C (S fuel)) = primary_b text chk other (C fuel).
Proof. reflexivity. Qed.

Lemma P_lit : forall t, In (t_val t) [T_NUM; T_NULL; T_TRUE; T_FALSE; T_THIS; T_REGEXP] -> Fprim (ELit (place t) t) [t].
Proof.
  intros t I. exists 1. intros fuel k rest Lf K G b p B. destruct fuel as [|fuel]; [lia|]. rewrite primary_S. unfold primary_b. cbn [app]. rewrite quiet_other.
  - st. cbn in I. repeat (destruct I as [<-|I]; [exists false; reflexivity|]). destruct I.
  - cbn in *. tauto.
  - intro E. rewrite E in I. cbn in I. repeat (destruct I as [I|I]; [discriminate I|]). destruct I.
Qed.
Lemma P_string : forall t s, t_val t = T_STRING -> t_ext t = XStr s false -> Fprim (ELit (place t) t) [t].
Proof.
  intros t s E X. exists 1. intros fuel k rest Lf K G b p B. destruct fuel as [|fuel]; [lia|]. rewrite primary_S. unfold primary_b. cbn [app]. rewrite quiet_other; [|rewrite E; cbn; tauto|rewrite E; discriminate].
  st. rewrite E, X, Bool.andb_false_r. exists false. reflexivity.
Qed.
Lemma P_name : forall t, t_val t = T_NAME -> ordinary (text t) = true -> Fprim (EName (place t) (text t) false false) [t].
Proof.
  intros t E O. exists 1. intros fuel k rest Lf K G b p B. destruct fuel as [|fuel]; [lia|]. rewrite primary_S. unfold primary_b. cbn [app]. rewrite quiet_other; [|rewrite E; cbn; tauto|auto].
  st. rewrite E, ordinary_prohibited by exact O. rewrite Bool.andb_false_r. exists true. reflexivity.
Qed.

Definition Lseq (es : list expr) (ts : list token) : Prop :=
  exists F, forall fuel k rest, F <= fuel -> okk k -> ~ goes_on 0 (nxt rest) -> gets false (c_seq (C fuel) k) (one_or_seq es ts) ts rest.
Definition Lloop (es : list expr) (ts : list token) : Prop :=
  exists F, forall fuel k rest l acc c b p, F <= fuel -> okk k -> t_val c = T_COMMA -> ~ goes_on 0 (nxt rest) ->
    exists b', c_seq_loop (C fuel) k l acc (mk_pst (c :: ts ++ rest) b p) = POk (ESeq (l, last_hi ts) (acc ++ es)) (mk_pst rest b' (after ts p)).
Definition Largs (es : list expr) (ts : list token) : Prop :=
  exists F, forall fuel k acc h rest b p, F <= fuel -> okk k -> t_val h = T_PAREN_R ->
    exists b', c_arg_loop (C fuel) k false false acc false (mk_pst (ts ++ h :: rest) b p) = POk (acc ++ es, false) (mk_pst rest b' (Some (t_hi h))).
Definition Lf es ts := Lseq es ts /\ Lloop es ts /\ Largs es ts.

Lemma comma_stop : forall c n, t_val c = T_COMMA -> 1 <= n -> ~ goes_on n c.
Proof. intros c n E L. apply (quiet_is _ _ _ E); [|reflexivity]. unfold forbidden. destruct n; [lia|]. cbn [Nat.eqb existsb tv_eqb]. ev. rewrite !Bool.andb_false_r. reflexivity. Qed.
Lemma seq_stop : forall (es : list expr) rest l k fuel acc b p, 1 <= fuel -> ~ goes_on 0 (nxt rest) ->
  c_seq_loop (C fuel) k l acc (mk_pst rest b p) = POk (ESeq (fin l (mk_pst rest b p)) acc) (mk_pst rest true p).
Proof.
  intros es rest l k fuel acc b p L G. destruct fuel as [|fuel]; [lia|]. change (c_seq_loop (C (S fuel))) with (seq_loop_b (C fuel)). unfold seq_loop_b.
  st. stp G. reflexivity.
Qed.
Lemma L_one : forall n e ts, written n e ts -> 1 <= n -> Pw n e ts -> Lf [e] ts.
Proof.
  intros n e ts W L (_ & _ & _ & _ & _ & _ & A & Sq). specialize (A L). split; [|split].
  - exact Sq.
  - destruct (A true) as (F & H). exists (F + 2). intros fuel k rest l acc c b p Lf K Ec G. destruct fuel as [|fuel]; [lia|].
    change (c_seq_loop (C (S fuel))) with (seq_loop_b (C fuel)). unfold seq_loop_b. st. rewrite Ec. ev.
    destruct (H fuel k rest ltac:(lia) K (goes_low _ 1 _ G ltac:(lia)) false (Some (t_hi c))) as (b1 & E1); [discriminate|]. cbn beta in E1. rewrite E1. st.
    rewrite (seq_stop []) by (assumption || lia). destruct (proj1 (all_begin text) _ _ _ W) as (_ & Bg & _). pose proof (begins_ne _ _ _ Bg) as Ne.
    rewrite !after_ne by exact Ne. exists true. reflexivity.
  - destruct (A false) as (F & H). exists (F + 3). intros fuel k acc h rest b p Lf K Eh. destruct fuel as [|fuel]; [lia|].
    change (c_arg_loop (C (S fuel))) with (arg_loop_b text (C fuel)). unfold arg_loop_b.
    destruct (proj1 (all_begin text) _ _ _ W) as (_ & (t & us & -> & St) & _). cbn [app]. st.
    rewrite (start_not text n t T_PAREN_R St eq_refl), (start_not text n t T_EOF St eq_refl), (start_not text n t T_DOT_TRI St eq_refl).
    destruct (H fuel k (h :: rest) ltac:(lia) K (quiet_is 1 h _ Eh eq_refl eq_refl) true p) as (b1 & E1); [discriminate|]. cbn beta in E1. cbn [app] in E1. rewrite E1.
    st. rewrite Eh. ev. st. destruct fuel as [|fuel]; [lia|]. change (c_arg_loop (C (S fuel))) with (arg_loop_b text (C fuel)). unfold arg_loop_b. st. rewrite Eh. ev. st.
    exists false. reflexivity.
Qed.
Lemma one_more : forall e es ts, es <> [] -> one_or_seq (e :: es) ts = ESeq (first_lo ts, last_hi ts) (e :: es).
Proof. intros e [|x es] ts H; [congruence|reflexivity]. Qed.
Lemma L_more : forall n e ts c es us, written n e ts -> 1 <= n -> Pw n e ts -> t_val c = T_COMMA -> listed es us -> Lf es us -> Lf (e :: es) (ts ++ c :: us).
Proof.
  intros n e ts c es us W L (_ & _ & _ & _ & _ & _ & A & _) Ec Ls (_ & (F2 & H2) & (F3 & H3)). specialize (A L).
  destruct (proj1 (all_begin text) _ _ _ W) as (_ & Bg & Lo & _).
  destruct (proj1 (proj2 (proj2 (all_begin text))) _ _ Ls) as (Nes & Bus & _). pose proof (begins_ne _ _ _ Bus) as Nus.
  pose proof (proj1 (all_check text) _ _ _ W) as Ck.
  assert (Lh : last_hi (ts ++ c :: us) = last_hi us) by (rewrite last_hi_mid, last_hi_cons by exact Nus; reflexivity).
  destruct (A true) as (F1 & H1). split; [|split].
  - exists (F1 + F2 + 2). intros fuel k rest Lf K G b p _. destruct fuel as [|fuel]; [lia|].
    change (c_seq (C (S fuel))) with (seq_b text (C fuel)). unfold seq_b. rewrite <- app_assoc. cbn [app].
    destruct (H1 fuel k (c :: us ++ rest) ltac:(lia) K (comma_stop _ _ Ec (le_n _)) b p) as (b1 & E1); [discriminate|]. cbn beta in E1. rewrite E1. st.
    rewrite (ck_arg _ _ Ck). st. rewrite Ec. ev. st.
    destruct (H2 fuel k rest (lo e) [e] c true (after ts p) ltac:(lia) K Ec G) as (b2 & E2). rewrite E2.
    rewrite one_more by exact Nes. rewrite Lh, (first_app text n) by exact Bg. rewrite Lo. exists b2. f_equal. f_equal. rewrite after_app, after_cons, !after_ne by exact Nus. reflexivity.
  - exists (F1 + F2 + 2). intros fuel k rest l acc c0 b p Lf K Ec0 G. destruct fuel as [|fuel]; [lia|].
    change (c_seq_loop (C (S fuel))) with (seq_loop_b (C fuel)). unfold seq_loop_b. st. rewrite Ec0. ev. rewrite <- app_assoc. cbn [app].
    destruct (H1 fuel k (c :: us ++ rest) ltac:(lia) K (comma_stop _ _ Ec (le_n _)) false (Some (t_hi c0))) as (b1 & E1); [discriminate|]. cbn beta in E1. rewrite E1. st.
    destruct (H2 fuel k rest l (acc ++ [e]) c b1 (after ts (Some (t_hi c0))) ltac:(lia) K Ec G) as (b2 & E2). rewrite E2. rewrite Lh, <- app_assoc.
    exists b2. f_equal. f_equal. rewrite (after_app ts), after_cons, !after_ne by exact Nus. reflexivity.
  - destruct (A false) as (F & H). exists (F + F3 + 3). intros fuel k acc h rest b p Lf K Eh. destruct fuel as [|fuel]; [lia|].
    change (c_arg_loop (C (S fuel))) with (arg_loop_b text (C fuel)). unfold arg_loop_b. rewrite <- app_assoc.
    destruct Bg as (t & vs & -> & St). cbn [app]. st.
    rewrite (start_not text n t T_PAREN_R St eq_refl), (start_not text n t T_EOF St eq_refl), (start_not text n t T_DOT_TRI St eq_refl).
    destruct (H fuel k (c :: us ++ h :: rest) ltac:(lia) K (comma_stop _ _ Ec (le_n _)) true p) as (b1 & E1); [discriminate|]. cbn beta in E1. cbn [app] in E1. rewrite E1.
    st. rewrite Ec. ev. st. rewrite (ck_spread _ _ Ck). destruct Bus as (u & vs' & -> & Su). cbn [app]. st. rewrite (start_not text _ u T_PAREN_R Su eq_refl). st. cbn [orb].
    destruct (H3 fuel k (acc ++ [e]) h rest true (Some (t_hi c)) ltac:(lia) K Eh) as (b2 & E2). cbn [app] in E2. rewrite E2, <- app_assoc. exists b2. reflexivity.
Qed.
Lemma P_paren : forall l es ts h, t_val l = T_PAREN_L -> t_val h = T_PAREN_R -> listed es ts -> forallb calm es = true -> Lf es ts ->
  Fprim (EParen (t_lo l, t_hi h) (one_or_seq es ts)) (l :: ts ++ [h]).
Proof.
  intros l es ts h El Eh Ls Q (_ & _ & (F3 & H3)). exists (F3 + 4). intros fuel k rest Lf K G b p B. destruct fuel as [|fuel]; [lia|]. rewrite primary_S. unfold primary_b. cbn [app]. rewrite quiet_other; [|rewrite El; cbn; tauto|rewrite El; discriminate].
  st. rewrite El. destruct fuel as [|fuel]; [lia|]. change (c_paren (C (S fuel))) with (paren_b feat text chk (C fuel)). unfold paren_b.
  destruct fuel as [|fuel]; [lia|]. change (c_arg_list (C (S fuel))) with (arg_list_b (C fuel)). unfold arg_list_b, must. st. rewrite El. ev. st.
  rewrite <- app_assoc. cbn [app].
  destruct (H3 fuel (paren_kind k) [] h rest false (Some (t_hi l)) ltac:(lia) (okk_paren k) Eh) as (b1 & E1). rewrite E1. st.
  pose proof (proj1 (proj2 (proj2 (all_check text))) _ _ Ls) as Ck. unfold LB in Ck.
  destruct (proj1 (proj2 (proj2 (all_begin text))) _ _ Ls) as (Nes & Bus & Lh).
  destruct (stop_still (arg_to_param k feat (chk (mk_pst rest b1 (Some (t_hi h)))) text true false false) es) as (r & R & Nr).
  { rewrite forallb_forall in Q. rewrite Forall_forall in Ck |- *. intros e I. exact (ck_still _ _ (Ck e I) (Q e I) _ _ _ _ _). }
  unfold args_to_params. rewrite R.
  assert (Z : tv_eqb (t_val (nxt rest)) T_ARROW = false).
  { destruct (tv_eqb (t_val (nxt rest)) T_ARROW) eqn:Qa; [|reflexivity]. apply tv_eqb_spec in Qa. congruence. }
  rewrite Z. cbn [andb]. cbn [fst snd].
  rewrite each_ok by (eapply Forall_impl; [|exact Ck]; intros e X; exact (ck_arg _ _ X _ _ _)).
  assert (E : add_seq (fin (here (mk_pst (l :: ts ++ h :: rest) b p)) (mk_pst rest b1 (Some (t_hi h)))) es = EParen (t_lo l, t_hi h) (one_or_seq es ts)).
  { rewrite (B eq_refl). unfold add_seq, one_or_seq, here, fin. cbn [p_buf p_end p_prev]. rewrite peek_st.
    destruct es as [|x [|y es]]; [congruence|reflexivity|]. destruct (Lh (EOther (t_lo l, t_hi h))) as [-> ->]. reflexivity. }
  assert (Lst : after (l :: ts ++ [h]) p = Some (t_hi h)) by (rewrite app_comm_cons, after_app; reflexivity).
  rewrite Lst. exists true. destruct r; try congruence; (destruct es as [|x es]; [congruence|]); st; rewrite E; reflexivity.
Qed.

(** Elements and arguments. *)
Definition ends (b : bool) (v : tv) : Prop := if b then v = T_COMMA else In v [T_PAREN_R; T_BRACKET_R; T_BRACE_R].
Lemma ends_stop : forall b t, ends b (t_val t) -> ~ goes_on 1 t.
Proof.
  intros [|] t H; [exact (comma_stop _ _ H (le_n _))|]. cbn in H. destruct H as [H|[H|[H|[]]]]; symmetry in H; exact (quiet_is 1 t _ H eq_refl eq_refl).
Qed.
Lemma ends_comma : forall b t, ends b (t_val t) -> tv_eqb (t_val t) T_COMMA = b.
Proof. intros [|] t H; cbn in H; [rewrite H; reflexivity|]. destruct H as [<-|[<-|[<-|[]]]]; reflexivity. Qed.
Definition itemf (fuel : nat) (k : N) (check : bool) (s : pst) : pres expr :=
  if at_tok T_DOT_TRI s then c_spread (C fuel) k (peeked s) else c_assign (C fuel) k check (peeked s).
Definition It (b : bool) (e : expr) (ts : list token) : Prop :=
  exists F, forall fuel k check rest b0 p, F <= fuel -> okk k -> ends b (t_val (nxt rest)) ->
    exists b', itemf fuel k check (mk_pst (ts ++ rest) b0 p) = POk e (mk_pst rest b' (after ts p)).
Lemma I_one : forall b n e ts, written n e ts -> 1 <= n -> Pw n e ts -> It b e ts.
Proof.
  intros b n e ts W L (_ & _ & _ & _ & _ & _ & A & _). specialize (A L). destruct (A true) as (F1 & H1). destruct (A false) as (F2 & H2).
  destruct (proj1 (all_begin text) _ _ _ W) as (_ & (t & us & -> & St) & _).
  exists (F1 + F2). intros fuel k check rest b0 p Lf K G. unfold itemf. cbn [app]. st. rewrite (start_not text n t T_DOT_TRI St eq_refl).
  destruct check; [apply (H1 fuel k rest)|apply (H2 fuel k rest)]; try lia; try assumption; try discriminate; exact (ends_stop _ _ G).
Qed.
Lemma spread_reads : forall d n e ts b, t_val d = T_DOT_TRI -> written n e ts -> 1 <= n -> Pw n e ts ->
  exists F, forall fuel k rest p, F <= fuel -> okk k -> ends b (t_val (nxt rest)) ->
    exists b', c_spread (C fuel) k (mk_pst (d :: ts ++ rest) true p) = POk (ESpread (t_lo d, last_hi ts) e b) (mk_pst rest b' (after (d :: ts) p)).
Proof.
  intros d n e ts b Ed W L (_ & _ & _ & _ & _ & _ & A & _). destruct (A L true) as (F1 & H1).
  exists (F1 + 1). intros fuel k rest p Lf K G. destruct fuel as [|fuel]; [lia|]. change (c_spread (C (S fuel))) with (spread_b feat (C fuel)). unfold spread_b.
  rewrite feat_spread. cbn [negb]. st.
  destruct (H1 fuel k rest ltac:(lia) K (ends_stop _ _ G) false (Some (t_hi d))) as (b1 & E1); [discriminate|]. cbn beta in E1. rewrite E1. st.
  rewrite (ends_comma _ _ G). exists true. rewrite after_cons.
  destruct (proj1 (all_begin text) _ _ _ W) as (_ & Bg & _). rewrite after_ne by exact (begins_ne _ _ _ Bg). reflexivity.
Qed.
Lemma I_spread : forall b d n e ts, t_val d = T_DOT_TRI -> written n e ts -> 1 <= n -> Pw n e ts -> It b (ESpread (t_lo d, last_hi ts) e b) (d :: ts).
Proof.
  intros b d n e ts Ed W L P. destruct (spread_reads d n e ts b Ed W L P) as (F & H). exists F. intros fuel k check rest b0 p Lf K G.
  unfold itemf. cbn [app]. st. rewrite Ed. ev. apply H; assumption.
Qed.
Definition arr_body (rc : calls) (ef : nat) (k : N) (l : nat) (acc : list (option expr)) (s : pst) : pres expr :=
  let '(holes, s0) := elision ef s in
  let acc := acc ++ holes in
  if at_tok T_BRACKET_R s0 then POk (EArr (fin l (next s0)) acc) (next s0)
  else
    pbind (if at_tok T_DOT_TRI s0 then c_spread rc k (peeked s0) else c_assign rc k true (peeked s0)) (fun e s1 =>
    if at_tok T_COMMA s1 then c_arr_lit rc k l (acc ++ [Some e]) (next s1)
    else if at_tok T_BRACKET_R s1 then POk (EArr (fin l (next s1)) (acc ++ [Some e])) (next s1)
    else PErr).
Definition El (es : list (option expr)) (ts : list token) : Prop :=
  exists F, forall fuel ef k l acc h rest b p, F <= fuel -> length ts < ef -> okk k -> t_val h = T_BRACKET_R ->
    exists b', arr_body (C fuel) ef k l acc (mk_pst (ts ++ h :: rest) b p) = POk (EArr (l, t_hi h) (acc ++ es)) (mk_pst rest b' (Some (t_hi h))).
Lemma E_nil : El [] [].
Proof.
  exists 1. intros fuel ef k l acc h rest b p Lf Le K Eh. destruct ef as [|ef]; [lia|]. unfold arr_body. cbn [elision app]. st. rewrite Eh. ev. st. rewrite Eh. ev. st.
  exists false. reflexivity.
Qed.
Lemma E_hole : forall c es ts, t_val c = T_COMMA -> El es ts -> El (None :: es) (c :: ts).
Proof.
  intros c es ts Ec (F & H). exists (S F). intros fuel ef k l acc h rest b p Lf Le K Eh. destruct ef as [|ef]; [lia|].
  destruct (H fuel ef k l (acc ++ [None]) h rest false (Some (t_hi c)) ltac:(lia) ltac:(cbn in Le; lia) K Eh) as (b' & E). exists b'. rewrite <- app_assoc in E.
  cbn [app] in E. cbn [app]. rewrite <- E. unfold arr_body. cbn [elision app]. st. rewrite Ec. ev. st. destruct (elision ef (mk_pst (ts ++ h :: rest) false (Some (t_hi c)))) as [holes s0].
  rewrite <- !app_assoc. reflexivity.
Qed.
Lemma item_first : forall b e ts, item b e ts -> exists t us, ts = t :: us /\ forall v, v = T_COMMA \/ v = T_BRACKET_R \/ v = T_PAREN_R \/ v = T_EOF -> tv_eqb (t_val t) v = false.
Proof.
  intros b e ts I. destruct (proj1 (proj2 (proj2 (proj2 (all_begin text)))) _ _ _ I) as (t & us & -> & H). exists t, us. split; [reflexivity|].
  intros v V. destruct H as [H|H]; [|rewrite H; destruct V as [->|[->|[->| ->]]]; reflexivity].
  apply (start_not text 1); [exact H|]. destruct V as [->|[->|[->| ->]]]; reflexivity.
Qed.
Lemma E_item : forall b e ts, item b e ts -> It b e ts -> exists F, forall fuel ef k l acc rest b0 p, F <= fuel -> 0 < ef -> okk k -> ends b (t_val (nxt rest)) ->
  exists b', arr_body (C fuel) ef k l acc (mk_pst (ts ++ rest) b0 p) =
    (let s1 := mk_pst rest b' (after ts p) in
    if at_tok T_COMMA s1 then c_arr_lit (C fuel) k l (acc ++ [Some e]) (next s1)
    else if at_tok T_BRACKET_R s1 then POk (EArr (fin l (next s1)) (acc ++ [Some e])) (next s1)
    else PErr).
Proof.
  intros b e ts I (F & H). destruct (item_first _ _ _ I) as (t & us & -> & Q).
  exists (S F). intros fuel ef k l acc rest b0 p Lf Le K G. destruct ef as [|ef]; [lia|]. unfold arr_body. cbn [elision app]. st. rewrite (Q T_COMMA) by tauto. st.
  rewrite (Q T_BRACKET_R) by tauto. rewrite app_nil_r.
  destruct (H fuel k true rest true p ltac:(lia) K G) as (b1 & E1). unfold itemf in E1. cbn [app] in E1. rewrite at_st, peeked_st in E1. cbn [nxt hd] in E1. rewrite E1. cbn [pbind].
  exists b1. reflexivity.
Qed.
Lemma E_last : forall e ts, item false e ts -> It false e ts -> El [Some e] ts.
Proof.
  intros e ts I H. destruct (E_item _ _ _ I H) as (F & G). exists F. intros fuel ef k l acc h rest b p Lf Le K Eh.
  destruct (G fuel ef k l acc (h :: rest) b p Lf ltac:(lia) K) as (b1 & E1); [cbn; rewrite Eh; tauto|]. rewrite E1. cbv zeta. st. rewrite Eh. ev. st. exists false. reflexivity.
Qed.
Lemma arr_lit_S : forall fuel, c_arr_lit (C (S fuel)) = fun k l acc s => arr_body (C fuel) (S (length (p_toks s))) k l acc s.
Proof. reflexivity. Qed.
Lemma fuel_S : forall fuel, c_fuel (C fuel) = fuel.
Proof. intros [|fuel]; reflexivity. Qed.
Lemma E_more : forall e ts c es us, item true e ts -> It true e ts -> t_val c = T_COMMA -> El es us -> El (Some e :: es) (ts ++ c :: us).
Proof.
  intros e ts c es us I H Ec (F2 & H2). destruct (E_item _ _ _ I H) as (F & G). exists (F + F2 + 1). intros fuel ef k l acc h rest b p Lf Le K Eh.
  rewrite <- app_assoc. cbn [app].
  destruct (G fuel ef k l acc (c :: us ++ h :: rest) b p ltac:(lia) ltac:(lia) K) as (b1 & E1); [exact Ec|]. rewrite E1. cbv zeta. st. rewrite Ec. ev. st.
  destruct fuel as [|fuel]; [lia|]. rewrite arr_lit_S. cbn [p_toks].
  destruct (H2 fuel (S (length (us ++ h :: rest))) k l (acc ++ [Some e]) h rest false (Some (t_hi c)) ltac:(lia) ltac:(rewrite app_length; lia) K Eh) as (b2 & E2). rewrite E2, <- app_assoc. exists b2. reflexivity.
Qed.
Lemma snoc_after : forall l ts h p, after (l :: ts ++ [h]) p = Some (t_hi h).
Proof. intros l ts h p. rewrite app_comm_cons, after_app. reflexivity. Qed.
Lemma P_arr : forall l es ts h, t_val l = T_BRACKET_L -> t_val h = T_BRACKET_R -> El es ts -> Fprim (EArr (t_lo l, t_hi h) es) (l :: ts ++ [h]).
Proof.
  intros l es ts h El Eh (F & H). exists (F + 3). intros fuel k rest Lf K G b p B. destruct fuel as [|fuel]; [lia|]. rewrite primary_S. unfold primary_b. cbn [app].
  rewrite quiet_other; [|rewrite El; cbn; tauto|rewrite El; discriminate].
  st. rewrite El. destruct fuel as [|fuel]; [lia|]. rewrite arr_lit_S. rewrite <- app_assoc. cbn [app p_toks].
  destruct (H fuel (S (length (ts ++ h :: rest))) k (here (mk_pst (l :: ts ++ h :: rest) b p)) [] h rest false (Some (t_hi l)) ltac:(lia) ltac:(rewrite app_length; lia) K Eh) as (b1 & E1). rewrite E1.
  rewrite (B eq_refl). exists b1. rewrite snoc_after. reflexivity.
Qed.

Definition Ar (es : list expr) (ts : list token) : Prop :=
  exists F, forall fuel k acc tr h rest b p, F <= fuel -> okk k -> t_val h = T_PAREN_R ->
    exists tr' b', c_arg_loop (C fuel) k true true acc tr (mk_pst (ts ++ h :: rest) b p) = POk (acc ++ es, tr') (mk_pst rest b' (Some (t_hi h))).
Lemma A_nil : Ar [] [].
Proof.
  exists 1. intros fuel k acc tr h rest b p Lf K Eh. destruct fuel as [|fuel]; [lia|].
  change (c_arg_loop (C (S fuel))) with (arg_loop_b text (C fuel)). unfold arg_loop_b. cbn [app]. st. rewrite Eh. ev. st. rewrite app_nil_r. exists tr, false. reflexivity.
Qed.
Lemma A_item : forall b e ts, item b e ts -> It b e ts -> exists F, forall fuel k acc tr rest b0 p, F <= fuel -> okk k -> ends b (t_val (nxt rest)) -> (b = false -> t_val (nxt rest) = T_PAREN_R) ->
  exists b' tr', c_arg_loop (C (S fuel)) k true true acc tr (mk_pst (ts ++ rest) b0 p) =
    c_arg_loop (C fuel) k true true (acc ++ [e]) tr' (if b then peeked (next (mk_pst rest b' (after ts p))) else mk_pst rest b' (after ts p)).
Proof.
  intros b e ts I (F & H). destruct (item_first _ _ _ I) as (t & us & -> & Q).
  exists (S F). intros fuel k acc tr rest b0 p Lf K G Gp. change (c_arg_loop (C (S fuel))) with (arg_loop_b text (C fuel)). unfold arg_loop_b. cbn [app]. st.
  rewrite (Q T_PAREN_R), (Q T_EOF) by tauto.
  destruct (H fuel k false rest b0 p ltac:(lia) K G) as (b1 & E1). unfold itemf in E1. cbn [app] in E1. rewrite at_st, peeked_st in E1. cbn [nxt hd] in E1. rewrite E1. st.
  pose proof (proj1 (proj2 (proj2 (proj2 (all_check text)))) _ _ _ I) as Ck. unfold IB in Ck.
  rewrite (ends_comma _ _ G). destruct b.
  - cbn [negb andb]. st. rewrite (proj1 Ck). st. eexists b1, _. reflexivity.
  - rewrite (Gp eq_refl). ev. st. rewrite (proj1 Ck). st. exists true, tr. reflexivity.
Qed.
Lemma A_last : forall e ts, item false e ts -> It false e ts -> Ar [e] ts.
Proof.
  intros e ts I H. destruct (A_item _ _ _ I H) as (F & G). exists (F + 2). intros fuel k acc tr h rest b p Lf K Eh. destruct fuel as [|[|fuel]]; [lia|lia|].
  destruct (G (S fuel) k acc tr (h :: rest) b p ltac:(lia) K) as (b1 & tr1 & E1); [cbn; rewrite Eh; tauto|intros _; exact Eh|]. rewrite E1.
  change (c_arg_loop (C (S fuel))) with (arg_loop_b text (C fuel)). unfold arg_loop_b. st. rewrite Eh. ev. st. exists tr1, false. reflexivity.
Qed.
Lemma A_more : forall e ts c es us, item true e ts -> It true e ts -> t_val c = T_COMMA -> Ar es us -> Ar (e :: es) (ts ++ c :: us).
Proof.
  intros e ts c es us I H Ec (F2 & H2). destruct (A_item _ _ _ I H) as (F & G). exists (F + F2 + 1). intros fuel k acc tr h rest b p Lf K Eh.
  rewrite <- app_assoc. cbn [app]. destruct fuel as [|fuel]; [lia|].
  destruct (G fuel k acc tr (c :: us ++ h :: rest) b p ltac:(lia) K) as (b1 & tr1 & E1); [exact Ec|discriminate|]. rewrite E1. st. st.
  destruct (H2 fuel k (acc ++ [e]) tr1 h rest true (Some (t_hi c)) ltac:(lia) K Eh) as (tr2 & b2 & E2). rewrite E2, <- app_assoc. exists tr2, b2. reflexivity.
Qed.
Lemma args_list : forall l es ts, t_val l = T_PAREN_L -> Ar es ts -> exists F, forall fuel k h rest b p, F <= fuel -> okk k -> t_val h = T_PAREN_R ->
  exists tr b', c_arg_list (C fuel) k true true (mk_pst (l :: ts ++ h :: rest) b p) = POk (es, tr) (mk_pst rest b' (Some (t_hi h))).
Proof.
  intros l es ts El (F & H). exists (F + 1). intros fuel k h rest b p Lf K Eh. destruct fuel as [|fuel]; [lia|].
  change (c_arg_list (C (S fuel))) with (arg_list_b (C fuel)). unfold arg_list_b, must. st. rewrite El. ev. st. apply H; [lia|assumption..].
Qed.
Lemma xok_call : forall l es ts h, t_val l = T_PAREN_L -> t_val h = T_PAREN_R -> Ar es ts -> exists F, xok F (XCall l es ts h).
Proof.
  intros l es ts h El Eh A. destruct (args_list _ _ _ El A) as (F & H). exists F. split; [exact El|]. intros. apply H; assumption.
Qed.
Lemma xok_sub : forall l n e ts h, t_val l = T_BRACKET_L -> t_val h = T_BRACKET_R -> Pw n e ts -> exists F, xok F (XSub l e ts h).
Proof.
  intros l n e ts h El Eh (_ & _ & _ & _ & _ & _ & _ & (F & H)). exists F. split; [exact El|]. split; [exact Eh|]. intros. apply H; try assumption. exact (quiet_is 0 h _ Eh eq_refl eq_refl).
Qed.

(** new *)
Lemma P_new_args : forall n m c cts l es ats h, t_val n = T_NEW -> t_val l = T_PAREN_L -> t_val h = T_PAREN_R -> chainf m c cts -> 8 <= m -> t_val (hd n cts) <> T_NEW ->
  t_val (hd n cts) <> T_DOT -> Ar es ats -> Fnew (ENew (t_lo n, t_hi h) c es) (n :: cts ++ l :: ats ++ [h]).
Proof.
  intros n m c cts l es ats h En El Eh Ch Lm Nn Nd A. destruct (chain_operand _ _ _ n Ch Lm Nn) as (F1 & H1). destruct (args_list _ _ _ El A) as (F2 & H2).
  exists (F1 + F2). intros fuel k rest p Lf K G. change (c_new_expr (C (S fuel))) with (new_expr_b feat text (C fuel)). unfold new_expr_b. cbn [app]. cbv zeta. st. st.
  assert (D : tv_eqb (t_val (nxt ((cts ++ l :: ats ++ [h]) ++ rest))) T_DOT = false).
  { destruct Ch as (base & t & bts & xs & F & _ & -> & _). cbn in *. destruct (tv_eqb (t_val t) T_DOT) eqn:Q; [apply tv_eqb_spec in Q; congruence|reflexivity]. }
  rewrite D. cbn [andb]. rewrite <- !app_assoc. cbn [app]. rewrite <- !app_assoc. cbn [app].
  destruct (H1 fuel k (l :: ats ++ h :: rest) (Some (t_hi n)) ltac:(lia) K) as (b1 & E1); [cbn; rewrite El; intros [Q|[Q|[Q|[Q|[Q|[]]]]]]; discriminate Q|]. rewrite E1. st.
  rewrite El. ev. st. destruct (H2 fuel k h rest true (after cts (Some (t_hi n))) ltac:(lia) K Eh) as (tr & b2 & E2). rewrite E2. st.
  assert (Aft : after (n :: cts ++ l :: ats ++ [h]) p = Some (t_hi h)) by (rewrite app_comm_cons, after_app, snoc_after; reflexivity). rewrite Aft.
  destruct es as [|a es]; st.
  - destruct (tv_eqb (t_val (nxt rest)) T_TPL_HEAD) eqn:Q; [apply tv_eqb_spec in Q; congruence|]. st. exists true. reflexivity.
  - exists b2. reflexivity.
Qed.
Lemma P_new : forall n m c cts, t_val n = T_NEW -> chainf m c cts -> 8 <= m -> t_val (hd n cts) <> T_NEW -> t_val (hd n cts) <> T_DOT ->
  Flhs (ENew (t_lo n, last_hi cts) c []) (n :: cts).
Proof.
  intros n m c cts En Ch Lm Nn Nd. destruct (chain_operand _ _ _ n Ch Lm Nn) as (F1 & H1).
  assert (Nc : cts <> []) by (destruct Ch as (base & t & bts & xs & F & _ & -> & _); discriminate).
  exists (F1 + 8). intros fuel k rest Lf K G b p B. destruct fuel as [|fuel]; [lia|].
  change (c_lhs (C (S fuel))) with (lhs_b (C fuel)). unfold lhs_b. cbn [app]. st. rewrite En. ev. destruct fuel as [|fuel]; [lia|].
  change (c_new_expr (C (S fuel))) with (new_expr_b feat text (C fuel)). unfold new_expr_b. cbv zeta. st. st.
  assert (D : tv_eqb (t_val (nxt (cts ++ rest))) T_DOT = false).
  { destruct Ch as (base & t & bts & xs & F & _ & -> & _). cbn in *. destruct (tv_eqb (t_val t) T_DOT) eqn:Q; [apply tv_eqb_spec in Q; congruence|reflexivity]. }
  rewrite D. cbn [andb].
  destruct (H1 fuel k rest (Some (t_hi n)) ltac:(lia) K) as (b1 & E1).
  { intro I. apply G, forbidden_goes. cbn in I. destruct I as [<-|[<-|[<-|[<-|[<-|[]]]]]]; reflexivity. }
  rewrite E1. st. stp G.
  destruct (new_run [] 0 fuel k (ENew (fin (t_lo n) (mk_pst rest b1 (after cts (Some (t_hi n))))) c []) true rest true (after cts (Some (t_hi n)))) as (b2 & E2);
    [constructor|split; [|split]; reflexivity|cbn; lia|exact K|exact (goes_low _ 7 _ G ltac:(lia))|].
  change (xs_toks [] ++ rest) with rest in E2. change (here (mk_pst (n :: cts ++ rest) true p)) with (t_lo n). rewrite E2. st. stp G.
  rewrite after_cons. exists true. rewrite !after_ne by exact Nc. unfold fin. cbn [p_end p_prev xs_app fold_left]. reflexivity.
Qed.

(** Objects. *)
Definition keyf (fuel : nat) (k : N) (s : pst) : pres (expr * bool) :=
  let t := peek s in let l := t_lo t in
  if at_tok T_STRING s then
    if has k SPK_STRICT && match t_ext t with XStr _ b => b | _ => false end then PErr
    else POk (ELit (fin l (next s)) t, false) (next s)
  else if at_tok T_NUM s then POk (ELit (fin l (next s)) t, false) (next s)
  else if at_tok T_BRACKET_L s then
    pbind (c_assign (C fuel) (N.lor k SPK_PROP_NAME) true (next s)) (fun e s1 =>
    pbind (must T_BRACKET_R s1) (fun _ s2 => POk (e, true) s2))
  else if can_be_key t then
    if negb (has k SPK_STRICT) && has k SPK_LEXICAL_DEC && negb (contains_escape t) &&
       (bytes_eqb (text t) (bs "let") || bytes_eqb (text t) (bs "const")) then PErr
    else POk (EName (fin l (next s)) (text t) false (is_kw (t_val t) || prohibited k (text t) false), false) (next s)
  else PErr.
Definition Ky (key : expr) (c : bool) (ts : list token) : Prop :=
  exists F, forall fuel k rest b p, F <= fuel -> okk k -> exists b', keyf fuel k (mk_pst (ts ++ rest) b p) = POk (key, c) (mk_pst rest b' (after ts p)).
Lemma K_string : forall t s, t_val t = T_STRING -> t_ext t = XStr s false -> Ky (ELit (place t) t) false [t].
Proof.
  intros t s E X. exists 0. intros fuel k rest b p Lf K. unfold keyf. cbn [app]. cbv zeta. st. rewrite E, X. ev. rewrite Bool.andb_false_r. exists false. reflexivity.
Qed.
Lemma K_num : forall t, t_val t = T_NUM -> Ky (ELit (place t) t) false [t].
Proof. intros t E. exists 0. intros fuel k rest b p Lf K. unfold keyf. cbn [app]. cbv zeta. st. rewrite E. ev. exists false. reflexivity. Qed.
Lemma K_name : forall t, t_val t = T_NAME /\ ordinary (text t) = true -> Ky (EName (place t) (text t) false false) false [t].
Proof.
  intros t [E O]. exists 0. intros fuel k rest b p Lf K. unfold keyf, can_be_key. cbn [app]. cbv zeta. st. rewrite E. ev.
  rewrite ordinary_prohibited, !(ordinary_not (text t)) by (assumption || (cbn; tauto)). cbn [orb]. rewrite Bool.andb_false_r. exists false. reflexivity.
Qed.
Lemma K_word : forall t, is_kw (t_val t) = true -> bytes_eqb (text t) (bs "let") = false -> bytes_eqb (text t) (bs "const") = false ->
  Ky (EName (place t) (text t) false true) false [t].
Proof.
  intros t E L1 L2. exists 0. intros fuel k rest b p Lf K. unfold keyf, can_be_key. cbn [app]. cbv zeta. st. rewrite E, L1, L2. cbn [orb]. rewrite Bool.orb_true_r, Bool.andb_false_r.
  assert (Q : tv_eqb (t_val t) T_STRING = false /\ tv_eqb (t_val t) T_NUM = false /\ tv_eqb (t_val t) T_BRACKET_L = false) by (destruct (t_val t); try discriminate E; auto).
  destruct Q as (-> & -> & ->). exists false. reflexivity.
Qed.
Lemma K_computed : forall l n e ts h, t_val l = T_BRACKET_L -> t_val h = T_BRACKET_R -> 1 <= n -> Pw n e ts -> Ky e true (l :: ts ++ [h]).
Proof.
  intros l n e ts h El Eh L (_ & _ & _ & _ & _ & _ & A & _). destruct (A L true) as (F & H). exists F. intros fuel k rest b p Lf K.
  unfold keyf. cbn [app]. cbv zeta. st. rewrite El. ev. rewrite <- app_assoc. cbn [app].
  destruct (H fuel (N.lor k SPK_PROP_NAME) (h :: rest) Lf (okk_prop _ K) (quiet_is 1 h _ Eh eq_refl eq_refl) false (Some (t_hi l))) as (b1 & E1); [discriminate|].
  cbn beta in E1. rewrite E1. unfold must. st. rewrite Eh. ev. st. exists false. rewrite snoc_after. reflexivity.
Qed.
Definition Py (b : bool) (e : expr) (ts : list token) : Prop :=
  exists F, forall fuel k rest p, F <= fuel -> okk k -> t_val (nxt rest) = (if b then T_COMMA else T_BRACE_R) ->
    exists b', c_obj_prop (C fuel) k (mk_pst (ts ++ rest) true p) = POk e (mk_pst rest b' (after ts p)).
Lemma obj_prop_S : forall fuel k s, at_tok T_DOT_TRI s = false -> method k s = None -> c_obj_prop (C (S fuel)) k s =
  pbind (keyf fuel k s) (fun x s1 =>
        let '(key, computed) := x in
        if at_tok T_COLON s1 || at_tok T_ASSIGN s1 then
          pbind (c_assign (C fuel) k true (next s1)) (fun v s2 =>
          POk (EProp (fin (t_lo (peek s)) s2) key (Some v) computed (at_tok T_ASSIGN s1) (at_tok T_ASSIGN s1)) s2)
        else if at_tok T_PAREN_L s1 || computed then PErr
        else
          match key with
          | EName _ n _ kw =>
              if kw && negb (bytes_eqb n (bs "eval")) && negb (bytes_eqb n (bs "arguments")) then PErr
              else POk (EProp (fin (t_lo (peek s)) s1) key (Some key) computed true false) (peeked s1)
          | _ => POk (EProp (fin (t_lo (peek s)) s1) key None computed false false) (peeked s1)
          end).
Proof.
  intros fuel k s D M. change (c_obj_prop (C (S fuel))) with (obj_prop_b text method (C fuel)). unfold obj_prop_b. rewrite D, M. reflexivity.
Qed.
Lemma key_first : forall key c kts, key_written key c kts -> exists t us, kts = t :: us /\ tv_eqb (t_val t) T_DOT_TRI = false /\ tv_eqb (t_val t) T_BRACE_R = false.
Proof.
  intros key c kts H. destruct (proj1 (proj2 (proj2 (proj2 (proj2 (proj2 (proj2 (proj2 (proj2 (all_begin text))))))))) _ _ _ H) as (t & us & -> & Q).
  exists t, us. split; [reflexivity|]. destruct Q as [Q|[Q|[Q|[Q|Q]]]]; try (rewrite Q; split; reflexivity). destruct (t_val t); try discriminate Q; split; reflexivity.
Qed.
Lemma Y_value : forall b key computed kts c n v vts, key_written key computed kts -> Ky key computed kts -> t_val c = T_COLON -> written n v vts -> 1 <= n -> Pw n v vts ->
  Py b (EProp (first_lo kts, last_hi vts) key (Some v) computed false false) (kts ++ c :: vts).
Proof.
  intros b key computed kts c n v vts Kw (F1 & H1) Ec W L (_ & _ & _ & _ & _ & _ & A & _). destruct (A L true) as (F2 & H2).
  destruct (proj1 (all_begin text) _ _ _ W) as (_ & Bg & _). pose proof (begins_ne _ _ _ Bg) as Nv.
  exists (F1 + F2 + 1). intros fuel k rest p Lf K G. destruct fuel as [|fuel]; [lia|]. rewrite <- app_assoc. cbn [app].
  destruct (key_first _ _ _ Kw) as (t & us & Ek & Q1 & Q2).
  rewrite obj_prop_S; [|subst kts; cbn [app]; rewrite at_st; exact Q1|eapply method_quiet; [exact Kw|reflexivity|left; exact Ec]].
  destruct (H1 fuel k (c :: vts ++ rest) true p ltac:(lia) K) as (b1 & E1). rewrite E1. st. rewrite Ec. ev. st.
  destruct (H2 fuel k rest ltac:(lia) K) with (b := false) (p := Some (t_hi c)) as (b2 & E2); [|discriminate|].
  { destruct b; [exact (comma_stop _ _ G (le_n _))|exact (quiet_is 1 _ _ G eq_refl eq_refl)]. }
  cbn beta in E2. rewrite E2. st. exists b2. rewrite after_app, after_cons, !after_ne by exact Nv. subst kts. reflexivity.
Qed.
Lemma Y_short : forall b t, t_val t = T_NAME -> ordinary (text t) = true ->
  Py b (EProp (place t) (EName (place t) (text t) false false) (Some (EName (place t) (text t) false false)) false true false) [t].
Proof.
  intros b t E O. destruct (K_name t (conj E O)) as (F1 & H1). exists (F1 + 1). intros fuel k rest p Lf K G. destruct fuel as [|fuel]; [lia|].
  assert (M : method k (mk_pst ([t] ++ rest) true p) = None).
  { destruct rest as [|r rest]; [destruct b; discriminate G|]. eapply method_quiet; [exact (Ky_name text t (conj E O))|reflexivity|]. right. split; [reflexivity|]. cbn in G. destruct b; auto. }
  rewrite obj_prop_S; [|cbn [app]; rewrite at_st; cbn; rewrite E; reflexivity|exact M].
  destruct (H1 fuel k rest true p ltac:(lia) K) as (b1 & E1). rewrite E1. st. rewrite G.
  assert (Q : forall v, In v [T_COLON; T_ASSIGN; T_PAREN_L] -> tv_eqb (if b then T_COMMA else T_BRACE_R) v = false) by (intros v I; cbn in I; destruct I as [<-|[<-|[<-|[]]]]; destruct b; reflexivity).
  rewrite !Q by (cbn; tauto). cbn [orb andb]. exists true. reflexivity.
Qed.
Lemma Y_spread : forall b d n e ts, t_val d = T_DOT_TRI -> written n e ts -> 1 <= n -> Pw n e ts -> Py b (ESpread (t_lo d, last_hi ts) e b) (d :: ts).
Proof.
  intros b d n e ts Ed W L P. destruct (spread_reads d n e ts b Ed W L P) as (F & H). exists (F + 1). intros fuel k rest p Lf K G. destruct fuel as [|fuel]; [lia|].
  change (c_obj_prop (C (S fuel))) with (obj_prop_b text method (C fuel)). unfold obj_prop_b. cbn [app]. st. rewrite Ed. ev. apply H; [lia|exact K|]. rewrite G. destruct b; cbn; tauto.
Qed.
Definition Pr (ps : list expr) (ts : list token) : Prop :=
  exists F, forall fuel k l acc h rest b p, F <= fuel -> okk k -> t_val h = T_BRACE_R ->
    exists b', c_obj_lit (C fuel) k l acc (mk_pst (ts ++ h :: rest) b p) = POk (EObj (l, t_hi h) (acc ++ ps)) (mk_pst rest b' (Some (t_hi h))).
Lemma obj_lit_S : forall fuel, c_obj_lit (C (S fuel)) = obj_lit_b (C fuel).
Proof. reflexivity. Qed.
Lemma O_nil : Pr [] [].
Proof.
  exists 1. intros fuel k l acc h rest b p Lf K Eh. destruct fuel as [|fuel]; [lia|]. rewrite obj_lit_S. unfold obj_lit_b. cbn [app]. st. rewrite Eh. ev. st. rewrite app_nil_r.
  exists false. reflexivity.
Qed.
Lemma prop_first : forall b e ts, property b e ts -> exists t us, ts = t :: us /\ tv_eqb (t_val t) T_BRACE_R = false.
Proof.
  intros b e ts H. destruct (proj1 (proj2 (proj2 (proj2 (proj2 (proj2 (proj2 (proj2 (all_begin text)))))))) _ _ _ H) as (t & us & -> & Q).
  exists t, us. split; [reflexivity|]. destruct Q as [Q|[Q|[Q|[Q|[Q|Q]]]]]; try (rewrite Q; reflexivity). destruct (t_val t); try discriminate Q; reflexivity.
Qed.
Lemma O_last : forall e ts, property false e ts -> Py false e ts -> Pr [e] ts.
Proof.
  intros e ts I (F & H). destruct (prop_first _ _ _ I) as (t & us & -> & Q). exists (F + 1). intros fuel k l acc h rest b p Lf K Eh. destruct fuel as [|fuel]; [lia|].
  rewrite obj_lit_S. unfold obj_lit_b. cbn [app]. st. rewrite Q.
  destruct (H fuel k (h :: rest) p ltac:(lia) K Eh) as (b1 & E1). cbn [app] in E1. rewrite E1. st. rewrite Eh. ev. st. exists false. reflexivity.
Qed.
Lemma O_more : forall e ts c ps us, property true e ts -> Py true e ts -> t_val c = T_COMMA -> Pr ps us -> Pr (e :: ps) (ts ++ c :: us).
Proof.
  intros e ts c ps us I (F & H) Ec (F2 & H2). destruct (prop_first _ _ _ I) as (t & vs & -> & Q). exists (F + F2 + 1). intros fuel k l acc h rest b p Lf K Eh. destruct fuel as [|fuel]; [lia|].
  rewrite obj_lit_S. unfold obj_lit_b. rewrite <- app_assoc. cbn [app]. st. rewrite Q.
  destruct (H fuel k (c :: us ++ h :: rest) p ltac:(lia) K Ec) as (b1 & E1). cbn [app] in E1. rewrite E1. st. rewrite Ec. ev. st.
  destruct (H2 fuel k l (acc ++ [e]) h rest false (Some (t_hi c)) ltac:(lia) K Eh) as (b2 & E2). rewrite E2, <- app_assoc. exists b2. reflexivity.
Qed.
Lemma P_obj : forall l ps ts h, t_val l = T_BRACE_L -> t_val h = T_BRACE_R -> Pr ps ts -> Fprim (EObj (t_lo l, t_hi h) ps) (l :: ts ++ [h]).
Proof.
  intros l ps ts h El Eh (F & H). exists (F + 3). intros fuel k rest Lf K G b p B. destruct fuel as [|fuel]; [lia|]. rewrite primary_S. unfold primary_b. cbn [app].
  rewrite quiet_other; [|rewrite El; cbn; tauto|rewrite El; discriminate].
  st. rewrite El. rewrite <- app_assoc. cbn [app].
  destruct (H fuel k (here (mk_pst (l :: ts ++ h :: rest) b p)) [] h rest false (Some (t_hi l)) ltac:(lia) K Eh) as (b1 & E1). rewrite E1.
  rewrite (B eq_refl). exists b1. rewrite snoc_after. reflexivity.
Qed.

(** Templates. *)
Definition Pi (es : list expr) (ts : list token) : Prop :=
  exists F, forall fuel k l acc rest b p, F <= fuel -> okk k ->
    exists b', c_tpl_loop (C fuel) k None l acc (mk_pst (ts ++ rest) b p) = POk (ETpl (l, last_hi ts) None (acc ++ es)) (mk_pst rest b' (after ts p)).
Lemma tpl_loop_S : forall fuel, c_tpl_loop (C (S fuel)) = tpl_loop_b feat (C fuel).
Proof. reflexivity. Qed.
Lemma T_last : forall t s a b plain, t_ext t = XTpl s a b plain None -> t_val t = T_TPL_TAIL \/ t_val t = T_TPL_HEAD /\ plain = true -> Pi [ELit (a, b) t] [t].
Proof.
  intros t s a b plain X V. exists 1. intros fuel k l acc rest b0 p Lf K. destruct fuel as [|fuel]; [lia|]. rewrite tpl_loop_S. unfold tpl_loop_b. cbn [app]. st. rewrite X.
  destruct V as [V|[V ->]]; rewrite V; ev; exists false; reflexivity.
Qed.
Lemma T_more : forall t s a b plain n e ts u es us, t_ext t = XTpl s a b plain None -> t_val t = T_TPL_SPAN \/ t_val t = T_TPL_HEAD /\ plain = false ->
  Pw n e ts -> t_val u = T_TPL_SPAN \/ t_val u = T_TPL_TAIL -> Pi es (u :: us) -> Pi (ELit (a, b) t :: e :: es) (t :: ts ++ u :: us).
Proof.
  intros t s a b plain n e ts u es us X V (_ & _ & _ & _ & _ & _ & _ & (F1 & H1)) U (F2 & H2). exists (F1 + F2 + 1).
  intros fuel k l acc rest b0 p Lf K. destruct fuel as [|fuel]; [lia|]. rewrite tpl_loop_S. unfold tpl_loop_b. cbn [app]. st. rewrite X.
  assert (Q : tv_eqb (t_val t) T_TPL_HEAD || tv_eqb (t_val t) T_TPL_SPAN || tv_eqb (t_val t) T_TPL_TAIL = true /\ tv_eqb (t_val t) T_TPL_TAIL || tv_eqb (t_val t) T_TPL_HEAD && plain = false)
    by (destruct V as [V|[V ->]]; rewrite V; split; reflexivity).
  destruct Q as [-> ->]. rewrite <- app_assoc. cbn [app].
  destruct (H1 fuel k (u :: us ++ rest) ltac:(lia) K) with (b := false) (p := Some (t_hi t)) as (b1 & E1); [|discriminate|].
  { destruct U as [U|U]; exact (quiet_is 0 u _ U eq_refl eq_refl). }
  rewrite E1. st. destruct (H2 fuel k l ((acc ++ [ELit (a, b) t]) ++ [e]) rest true (after ts (Some (t_hi t))) ltac:(lia) K) as (b2 & E2). cbn [app] in E2. rewrite E2.
  exists b2. rewrite <- !app_assoc. cbn [app]. rewrite app_comm_cons, last_hi_mid, after_app. reflexivity.
Qed.
Lemma P_tpl : forall t es ts, t_val t = T_TPL_HEAD -> Pi es (t :: ts) -> Fprim (ETpl (t_lo t, last_hi (t :: ts)) None es) (t :: ts).
Proof.
  intros t es ts Et (F & H). exists (F + 3). intros fuel k rest Lf K G b p B. destruct fuel as [|fuel]; [lia|]. rewrite primary_S. unfold primary_b. cbn [app].
  rewrite quiet_other; [|rewrite Et; cbn; tauto|rewrite Et; discriminate].
  st. rewrite Et. destruct fuel as [|fuel]; [lia|]. change (c_tpl (C (S fuel))) with (tpl_b (C fuel)). unfold tpl_b. st.
  destruct (H fuel k (t_lo t) [] rest b p ltac:(lia) K) as (b1 & E1). cbn [app] in E1. rewrite E1. exists b1. reflexivity.
Qed.

(** Operators. *)
Lemma U_prefix : forall o n e ts, In (t_val o) [T_INC; T_DEC] -> written n e ts -> 7 <= n -> place_like e = true -> Pw n e ts ->
  Fupd (EUpdate (t_lo o, last_hi ts) (t_val o) true e) (o :: ts).
Proof.
  intros o n e ts I W L Pl (_ & _ & _ & U & _). destruct (U ltac:(lia)) as (F & H). destruct (proj1 (all_begin text) _ _ _ W) as (_ & Bg & _).
  pose proof (proj1 (all_check text) _ _ _ W) as Ck.
  exists (F + 1). intros fuel k rest Lf K G b p B. destruct fuel as [|fuel]; [lia|]. change (c_update (C (S fuel))) with (update_b (C fuel)). unfold update_b. cbn [app]. st.
  assert (Q : tv_eqb (t_val o) T_INC || tv_eqb (t_val o) T_DEC = true) by (cbn in I; destruct I as [<-|[<-|[]]]; reflexivity). rewrite Q.
  destruct (H fuel k rest ltac:(lia) K (goes_45 _ G) false (Some (t_hi o))) as (b1 & E1); [discriminate|]. rewrite E1. st.
  rewrite (proj2 (ck_place _ _ Ck Pl)). cbn [negb]. rewrite (B eq_refl). exists b1. rewrite after_cons, !after_ne by exact (begins_ne _ _ _ Bg). reflexivity.
Qed.
Lemma U_postfix : forall o n e ts, In (t_val o) [T_INC; T_DEC] -> t_atl o = false -> written n e ts -> 7 <= n -> place_like e = true -> Pw n e ts ->
  Fupd (EUpdate (first_lo ts, t_hi o) (t_val o) false e) (ts ++ [o]).
Proof.
  intros o n e ts I At W L Pl (_ & U & _). destruct (U ltac:(lia)) as (F & H). destruct (proj1 (all_begin text) _ _ _ W) as (_ & (t & us & -> & St) & _).
  pose proof (proj1 (all_check text) _ _ _ W) as Ck.
  exists (F + 1). intros fuel k rest Lf K G b p B. destruct fuel as [|fuel]; [lia|]. change (c_update (C (S fuel))) with (update_b (C fuel)). unfold update_b. rewrite <- app_assoc. cbn [app]. st.
  destruct St as (_ & _ & _ & St & _). rewrite !(list_not _ _ _ (St ltac:(lia))) by (cbn; tauto). cbn [orb].
  destruct (H fuel k (o :: rest) ltac:(lia) K (update_stop _ I) true p) as (b1 & E1); [auto|]. cbn [app] in E1. rewrite E1. st.
  assert (Q : tv_eqb (t_val o) T_INC || tv_eqb (t_val o) T_DEC = true) by (cbn in I; destruct I as [<-|[<-|[]]]; reflexivity). rewrite Q, At.
  rewrite (proj2 (ck_place _ _ Ck Pl)). cbn [negb andb]. rewrite (B eq_refl). exists false. cbn [app]. rewrite snoc_after. reflexivity.
Qed.
Lemma U_unary : forall o n e ts, In (t_val o) prefix_ops -> written n e ts -> 4 <= n -> (t_val o = T_DELETE -> is_name_e e = false) -> Pw n e ts ->
  Fun (EUnary (t_lo o, last_hi ts) (t_val o) e) (o :: ts).
Proof.
  intros o n e ts I W L Dl (_ & _ & _ & U & _). destruct (U ltac:(lia)) as (F & H). destruct (proj1 (all_begin text) _ _ _ W) as (_ & Bg & _).
  pose proof (proj1 (all_check text) _ _ _ W) as Ck.
  exists (F + 1). intros fuel k rest Lf K G b p B. destruct fuel as [|fuel]; [lia|]. change (c_unary (C (S fuel))) with (unary_b feat other (C fuel)). unfold unary_b. cbv zeta. cbn [app]. st.
  assert (Q : is_unary_op (t_val o) || tv_eqb (t_val o) T_ADD || tv_eqb (t_val o) T_SUB = true /\ tv_eqb (t_val o) T_LT = false) by (cbn in I; repeat (destruct I as [<-|I]; [split; reflexivity|]); destruct I).
  destruct Q as [-> ->].
  destruct (H fuel k rest ltac:(lia) K G false (Some (t_hi o))) as (b1 & E1); [discriminate|]. rewrite E1. st. rewrite (ck_arrow _ _ Ck).
  assert (D : has k SPK_STRICT && tv_eqb (t_val o) T_DELETE && is_name_e e = false).
  { destruct (tv_eqb (t_val o) T_DELETE) eqn:Q; [apply tv_eqb_spec in Q; rewrite (Dl Q)|]; rewrite !Bool.andb_false_r; reflexivity. }
  rewrite D, (ck_delete _ _ Ck). exists b1. rewrite after_cons, !after_ne by exact (begins_ne _ _ _ Bg). destruct (tv_eqb (t_val o) T_DELETE); reflexivity.
Qed.
Definition Jo (t : btree expr) (ts : list token) : Prop :=
  exists F, forall fuel k rest b p, F <= fuel -> okk k -> ~ goes_on 4 (nxt rest) ->
    exists b', laid (c_unary (C fuel) k) false (mk_pst (ts ++ rest) b p) t (mk_pst rest b' (after ts p)).
Lemma J_one : forall n e ts, 4 <= n -> Pw n e ts -> Jo (Leaf e) ts.
Proof.
  intros n e ts L (_ & _ & _ & U & _). destruct (U L) as (F & H). exists F. intros fuel k rest b p Lf K G.
  destruct (H fuel k rest Lf K G b p) as (b1 & E1); [discriminate|]. exists b1. constructor. exact E1.
Qed.
Lemma J_two : forall op o l lts r rts, infix o op -> Jo l lts -> joined r rts -> Jo r rts -> Jo (Bin op (place o) (last_hi rts) l r) (lts ++ o :: rts).
Proof.
  intros op o l lts r rts I (F1 & H1) J (F2 & H2). destruct (proj1 (proj2 (all_begin text)) _ _ J) as (Bg & _). exists (F1 + F2). intros fuel k rest b p Lf K G.
  rewrite <- app_assoc. cbn [app].
  destruct (H1 fuel k (o :: rts ++ rest) b p ltac:(lia) K (infix_stop _ _ I)) as (b1 & E1).
  destruct (H2 fuel k rest false (Some (t_hi o)) ltac:(lia) K G) as (b2 & E2). exists b2.
  pose proof (Laid_bin _ _ _ _ _ _ _ _ E1 (infix_bin _ _ I) E2) as X. rewrite after_app, after_cons.
  replace (p_end (mk_pst rest b2 (after rts (Some (t_hi o))))) with (last_hi rts) in X; [exact X|]. rewrite after_ne by exact (begins_ne _ _ _ Bg). reflexivity.
Qed.
Lemma joined_leaves : forall t ts, joined t ts -> CK text (first t) /\ Forall (fun x => CK text (snd x)) (following t).
Proof.
  induction t as [e|op o h l IHl r IHr]; intros ts J; inversion J; subst; cbn [first following].
  - split; [|constructor]. eapply (proj1 (all_check text)); eassumption.
  - match goal with A : WriteSpec.joined _ l _, B : WriteSpec.joined _ r _ |- _ => destruct (IHl _ A) as [X1 X2]; destruct (IHr _ B) as [Y1 Y2] end.
    split; [exact X1|]. apply Forall_app. split; [exact X2|]. constructor; assumption.
Qed.
Lemma B_bin : forall t ts, joined t ts -> derives 0 t -> ~ dented (map fst (following t)) -> ~ mixed (following t) ->
    ~ unary_base is_unary_e (first t) (following t) -> Jo t ts -> Fbin (of_bt t) ts.
Proof.
  intros t ts J D Nd Nm Nb (F & H). exists (F + 2 * length (following t) + 4). intros fuel k rest Lf K G b p.
  destruct (H fuel k rest b p ltac:(lia) K (goes_low _ 4 _ G ltac:(lia))) as (b1 & L1). exists t, true. split; [|reflexivity]. rewrite K, fuel_S.
  rewrite (laid_read _ _ is_unary_e is_arrow_e feat _ _ _ _ L1); [reflexivity|rewrite bin_st; exact (stop_bin _ _ G (le_n _))|assumption..| |lia].
  eapply Forall_impl; [|exact (proj2 (joined_leaves _ _ J))]. intros x X. exact (ck_arrow _ _ X).
Qed.
Lemma C_cond : forall n t tts q m c cts l k0 a ats, t_val q = T_HOOK -> t_val l = T_COLON -> written n t tts -> 3 <= n -> Pw n t tts -> 1 <= m -> Pw m c cts ->
  written k0 a ats -> 1 <= k0 -> Pw k0 a ats -> Fcond (ECond (first_lo tts, last_hi ats) t c a) (tts ++ q :: cts ++ l :: ats).
Proof.
  intros n t tts q m c cts l k0 a ats Eq El Wt Ln (_ & _ & _ & _ & Bt & _) Lm (_ & _ & _ & _ & _ & _ & Ac & _) Wa Lk (_ & _ & _ & _ & _ & _ & Aa & _).
  destruct (Bt Ln) as (F1 & H1). destruct (Ac Lm true) as (F2 & H2). destruct (Aa Lk true) as (F3 & H3).
  destruct (proj1 (all_begin text) _ _ _ Wt) as (_ & _ & Lo & _). destruct (proj1 (all_begin text) _ _ _ Wa) as (_ & Bg & _).
  exists (F1 + F2 + F3 + 1). intros fuel k rest Lf K G b p _. destruct fuel as [|fuel]; [lia|].
  change (c_cond (C (S fuel))) with (cond_b feat (C fuel)). unfold cond_b. rewrite <- app_assoc. cbn [app]. rewrite <- app_assoc. cbn [app].
  destruct (H1 fuel k (q :: cts ++ l :: ats ++ rest) ltac:(lia) K (quiet_is 3 q _ Eq eq_refl eq_refl) b p) as (t' & b1 & E1 & Et). rewrite E1. st. rewrite Eq. ev. st.
  destruct (H2 fuel k (l :: ats ++ rest) ltac:(lia) K (quiet_is 1 l _ El eq_refl eq_refl) false (Some (t_hi q))) as (b2 & E2); [discriminate|]. cbn beta in E2. rewrite E2. st.
  unfold must. st. rewrite El. ev. st.
  destruct (H3 fuel k rest ltac:(lia) K G false (Some (t_hi l))) as (b3 & E3); [discriminate|]. cbn beta in E3. rewrite E3. st.
  rewrite Et. unfold fin. cbn [p_end p_prev]. rewrite Lo. exists b3. rewrite after_app, after_cons, after_app, after_cons, !after_ne by exact (begins_ne _ _ _ Bg). reflexivity.
Qed.
Lemma assign_not_arrow : forall v, In v assign_ops -> tv_eqb v T_ARROW = false /\ is_assign_op v = true.
Proof. intros v I. cbn in I. repeat (destruct I as [<-|I]; [split; reflexivity|]). destruct I. Qed.
Lemma S_assign : forall n l lts o m h hts, In (t_val o) assign_ops -> written n l lts -> 7 <= n -> place_like l = true -> Pw n l lts -> written m h hts -> 1 <= m -> Pw m h hts ->
  Fasg (EAssign (first_lo lts, last_hi hts) (t_val o) (place o) l h) (lts ++ o :: hts).
Proof.
  intros n l lts o m h hts I Wl Ln Pl (_ & _ & _ & _ & Bl & _) Wh Lm (_ & _ & _ & _ & _ & _ & Ah & _) check.
  destruct (Fbin_cond2 _ _ (Bl ltac:(lia))) as (F1 & H1). destruct (Ah Lm check) as (F2 & H2).
  destruct (proj1 (all_begin text) _ _ _ Wl) as (_ & Bgl & Lo & _). destruct (proj1 (all_begin text) _ _ _ Wh) as (_ & Bg & _).
  pose proof (proj1 (all_check text) _ _ _ Wl) as Ckl. pose proof (proj1 (all_check text) _ _ _ Wh) as Ckh. destruct (ck_place _ _ Ckl Pl) as [P1 P2].
  destruct (assign_not_arrow _ I) as [Na Ia].
  exists (F1 + F2 + 1). intros fuel k rest Lf K G b p _. destruct fuel as [|fuel]; [lia|]. rewrite <- app_assoc. cbn [app].
  change (c_assign (C (S fuel))) with (assign_b feat text chk (C fuel)). unfold assign_b. rewrite (no_yield _ _ _ _ _ _ Bgl). st.
  destruct (H1 fuel k (o :: hts ++ rest) ltac:(lia) K (assign_stop _ I) true p) as (b1 & E1); [discriminate|]. rewrite E1. st. rewrite Na, Bool.andb_false_r. cbn [andb]. st. st. rewrite Ia. st.
  destruct (H2 fuel k rest ltac:(lia) K G false (Some (t_hi o))) as (b2 & E2); [discriminate|]. cbn beta in E2. rewrite E2. st. rewrite P1. cbn [snd]. st. rewrite P2.
  rewrite Bool.andb_false_r. rewrite (ck_arg _ _ Ckh). st. unfold fin. cbn [p_end p_prev]. rewrite Lo. exists b2. rewrite after_app, after_cons, !after_ne by exact (begins_ne _ _ _ Bg). reflexivity.
Qed.
Lemma S_seq : forall es ts, 2 <= length es -> Lf es ts -> Fseq (ESeq (first_lo ts, last_hi ts) es) ts.
Proof. intros [|a [|c es]] ts L (H & _); cbn in L; try lia. exact H. Qed.

Lemma not_dot : forall n t, starts text n t -> t_val t <> T_DOT.
Proof. intros n t H E. pose proof (start_not text n t T_DOT H eq_refl) as Q. rewrite E in Q. discriminate Q. Qed.
Lemma hd_not_dot : forall n d ts, begins text n ts -> t_val (hd d ts) <> T_DOT.
Proof. intros n d ts (t & us & -> & H). exact (not_dot _ _ H). Qed.
Lemma member_level_up : forall n, 8 <= member_level n -> 7 <= n -> 8 <= n.
Proof. intros n H L. destruct (Nat.eq_dec n 7) as [->|N]; [cbn in H; lia|lia]. Qed.

(** The parser reads what is written. *)
Theorem all_read :
  (forall n e ts, written n e ts -> Pw n e ts) /\ (forall t ts, joined t ts -> Jo t ts) /\ (forall es ts, listed es ts -> Lf es ts) /\
  (forall b e ts, item b e ts -> It b e ts) /\ (forall es ts, elements es ts -> El es ts) /\ (forall es ts, arguments es ts -> Ar es ts) /\
  (forall es ts, properties es ts -> Pr es ts) /\ (forall b e ts, property b e ts -> Py b e ts) /\ (forall e c ts, key_written e c ts -> Ky e c ts) /\
  (forall es ts, pieces es ts -> Pi es ts).
Proof.
  apply (written_all text Pw Jo Lf It El Ar Pr Py Ky Pi).
  - intros t I. pose proof (W_lit text t I) as W. apply Pw_chain; [exact W|lia|]. apply chain_base; [exact (proj1 (all_check text) _ _ _ W)|reflexivity|reflexivity|].
    left. split; [|exact (P_lit t I)]. intro E. rewrite E in I. cbn in I. repeat (destruct I as [I|I]; [discriminate I|]). destruct I.
  - intros t s E X. pose proof (W_string text t s E X) as W. apply Pw_chain; [exact W|lia|]. apply chain_base; [exact (proj1 (all_check text) _ _ _ W)|reflexivity|reflexivity|].
    left. split; [rewrite E; discriminate|exact (P_string t s E X)].
  - intros t E O. pose proof (W_name text t E O) as W. apply Pw_chain; [exact W|lia|]. apply chain_base; [exact (proj1 (all_check text) _ _ _ W)|reflexivity|reflexivity|].
    left. split; [rewrite E; discriminate|exact (P_name t E O)].
  - intros l es ts h El Eh Ls H Q. pose proof (W_paren text l es ts h El Eh Ls Q) as W. apply Pw_chain; [exact W|lia|].
    apply chain_base; [exact (proj1 (all_check text) _ _ _ W)|reflexivity|reflexivity|]. left. split; [rewrite El; discriminate|exact (P_paren l es ts h El Eh Ls Q H)].
  - intros l es ts h El Eh Ls H. pose proof (W_arr text l es ts h El Eh Ls) as W. apply Pw_chain; [exact W|lia|].
    apply chain_base; [exact (proj1 (all_check text) _ _ _ W)|reflexivity|reflexivity|]. left. split; [rewrite El; discriminate|exact (P_arr l es ts h El Eh H)].
  - intros l es ts h El Eh Ls H Q. pose proof (W_obj text l es ts h El Eh Ls Q) as W. apply Pw_chain; [exact W|lia|].
    apply chain_base; [exact (proj1 (all_check text) _ _ _ W)|reflexivity|reflexivity|]. left. split; [rewrite El; discriminate|exact (P_obj l es ts h El Eh H)].
  - intros t es ts Et Ps H. pose proof (W_tpl text t es ts Et Ps) as W. apply Pw_chain; [exact W|lia|].
    apply chain_base; [exact (proj1 (all_check text) _ _ _ W)|reflexivity|reflexivity|]. left. split; [rewrite Et; discriminate|exact (P_tpl t es ts Et H)].
  - intros n o ots d p Ed Ep Wo (Ch & _) L. pose proof (W_dot text n o ots d p Ed Ep Wo L) as W.
    destruct (proj1 (all_begin text) _ _ _ Wo) as (L9 & _). assert (L7 : 7 <= member_level n) by (destruct (level_member n L); lia).
    apply Pw_chain; [exact W|exact L7|]. refine (chain_step _ _ _ _ (XDot d p) 0 (Ch L) (conj Ed Ep) _). intro L8. split; [exact (member_level_up _ L8 L)|reflexivity].
  - intros n o ots l m p pts h El Eh Wo (Ch & _) L Wp Pp. pose proof (W_sub text n o ots l m p pts h El Eh Wo L Wp) as W.
    destruct (proj1 (all_begin text) _ _ _ Wo) as (L9 & _). assert (L7 : 7 <= member_level n) by (destruct (level_member n L); lia).
    destruct (xok_sub l m p pts h El Eh Pp) as (F & Xk).
    apply Pw_chain; [exact W|exact L7|]. refine (chain_step _ _ _ _ (XSub l p pts h) F (Ch L) Xk _). intro L8. split; [exact (member_level_up _ L8 L)|reflexivity].
  - intros n c cts l args ats h El Eh Wc (Ch & _) L Wa A. pose proof (W_call text n c cts l args ats h El Eh Wc L Wa) as W.
    destruct (xok_call l args ats h El Eh A) as (F & Xk).
    apply Pw_chain; [exact W|lia|]. refine (chain_step _ _ _ _ (XCall l args ats h) F (Ch L) Xk _). intro L8. lia.
  - intros n m c cts l args ats h En El Eh Wc (Ch & _) L Nn Wa A. pose proof (W_new_args text n m c cts l args ats h En El Eh Wc L Nn Wa) as W.
    destruct (proj1 (all_begin text) _ _ _ Wc) as (_ & Bg & _). apply Pw_chain; [exact W|lia|].
    apply chain_base; [exact (proj1 (all_check text) _ _ _ W)|reflexivity|reflexivity|]. right. split; [exact En|].
    exact (P_new_args n m c cts l args ats h En El Eh (Ch ltac:(lia)) L Nn (hd_not_dot _ _ _ Bg) A).
  - intros n m c cts En Wc (Ch & _) L Nn. pose proof (W_new text n m c cts En Wc L Nn) as W. destruct (proj1 (all_begin text) _ _ _ Wc) as (_ & Bg & _).
    apply Pw_lhs; [exact W|lia|lia|]. exact (P_new n m c cts En (Ch ltac:(lia)) L Nn (hd_not_dot _ _ _ Bg)).
  - intros o n e ts I We P L Pl. apply Pw_upd; [exact (W_prefix text o n e ts I We L Pl)|reflexivity|]. exact (U_prefix o n e ts I We L Pl P).
  - intros o n e ts I At We P L Pl. apply Pw_upd; [exact (W_postfix text o n e ts I At We L Pl)|reflexivity|]. exact (U_postfix o n e ts I At We L Pl P).
  - intros o n e ts I We P L D. apply Pw_un; [exact (W_unary text o n e ts I We L D)|lia|]. exact (U_unary o n e ts I We L D P).
  - intros t ts J H D Nf Nd Nm Nb. apply Pw_bin; [exact (W_bin text t ts J D Nf Nd Nm Nb)|lia|]. exact (B_bin t ts J D Nd Nm Nb H).
  - intros n t tts q m c cts l k a ats Eq El Wt Pt Ln Wc Pc Lm Wa Pa Lk. apply Pw_cond; [exact (W_cond text n t tts q m c cts l k a ats Eq El Wt Ln Wc Lm Wa Lk)|lia|].
    exact (C_cond n t tts q m c cts l k a ats Eq El Wt Ln Pt Lm Pc Wa Lk Pa).
  - intros n l lts o m h hts I Wl Hl Ln Pl Wh Hh Lm. apply Pw_asg; [exact (W_assign text n l lts o m h hts I Wl Ln Pl Wh Lm)|lia|].
    exact (S_assign n l lts o m h hts I Wl Ln Pl Hl Wh Lm Hh).
  - intros es ts Ls H L. repeat split; intros; try lia. exact (S_seq es ts L H).
  - intros n e ts We P L. exact (J_one n e ts L P).
  - intros op o l lts r rts I _ Hl Jr Hr. exact (J_two op o l lts r rts I Hl Jr Hr).
  - intros n e ts We P L. exact (L_one n e ts We L P).
  - intros n e ts c es us We P L Ec Ls H. exact (L_more n e ts c es us We L P Ec Ls H).
  - intros b n e ts We P L. exact (I_one b n e ts We L P).
  - intros b d n e ts Ed We P L. exact (I_spread b d n e ts Ed We L P).
  - exact E_nil.
  - intros c es ts Ec _ H. exact (E_hole c es ts Ec H).
  - exact E_last.
  - intros e ts c es us I H Ec _ H2. exact (E_more e ts c es us I H Ec H2).
  - exact A_nil.
  - exact A_last.
  - intros e ts c es us I H Ec _ H2. exact (A_more e ts c es us I H Ec H2).
  - exact O_nil.
  - exact O_last.
  - intros e ts c es us I H Ec _ H2. exact (O_more e ts c es us I H Ec H2).
  - intros b key computed kts c n v vts Kw H Ec W P L. exact (Y_value b key computed kts c n v vts Kw H Ec W L P).
  - exact Y_short.
  - intros b d n e ts Ed W P L. exact (Y_spread b d n e ts Ed W L P).
  - exact K_string.
  - exact K_num.
  - exact K_name.
  - exact K_word.
  - intros l n e ts h El Eh _ P L. exact (K_computed l n e ts h El Eh L P).
  - exact T_last.
  - intros t s a b plain n e ts u es us X V _ P U _ H. exact (T_more t s a b plain n e ts u es us X V P U H).
Qed.
End Parse.
