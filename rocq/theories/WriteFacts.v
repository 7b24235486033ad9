(** What written expressions begin with, where they are, and that no check refuses them. *)
From Coq Require Import Lia ZifyBool ZifyNat ZifyN.
From Verif Require Import Base TokenModel LexModel ParseBase BinModel BinSpec SymtabModel EarlyModel ExprModel ExprSpec ExprProofs WriteSpec.

Definition start_toks : list tv :=
  [T_NUM; T_NULL; T_TRUE; T_FALSE; T_THIS; T_REGEXP; T_STRING; T_NAME; T_PAREN_L; T_BRACKET_L; T_BRACE_L; T_TPL_HEAD; T_NEW; T_INC; T_DEC] ++ prefix_ops.

Section Facts.
Variable text : token -> bytes.
Notation written := (written text).
Notation joined := (joined text).
Notation listed := (listed text).
Notation item := (item text).
Notation elements := (elements text).
Notation arguments := (arguments text).
Notation properties := (properties text).
Notation property := (property text).
Notation key_written := (key_written text).
Notation pieces := (pieces text).

Definition starts (n : nat) (t : token) : Prop :=
  In (t_val t) start_toks /\ (t_val t = T_NAME -> ordinary (text t) = true) /\
  (5 <= n -> ~ In (t_val t) prefix_ops) /\ (6 <= n -> ~ In (t_val t) [T_INC; T_DEC]) /\ (n = 9 -> t_val t <> T_NEW).
Definition begins (n : nat) (ts : list token) : Prop := exists t us, ts = t :: us /\ starts n t.
Definition PA n (e : expr) ts := n <= 9 /\ begins n ts /\ lo e = first_lo ts /\ hi e = last_hi ts.
Definition JA t ts := begins 0 ts /\ lo (of_bt t) = first_lo ts /\ hi (of_bt t) = last_hi ts.
Definition LA (es : list expr) ts := es <> [] /\ begins 1 ts /\ forall d, lo (hd d es) = first_lo ts /\ hi (last es d) = last_hi ts.
Definition IA (b : bool) (e : expr) ts := exists t us, ts = t :: us /\ (starts 1 t \/ t_val t = T_DOT_TRI).
Definition YA (b : bool) (e : expr) ts :=
  exists t us, ts = t :: us /\ (t_val t = T_DOT_TRI \/ t_val t = T_STRING \/ t_val t = T_NUM \/ t_val t = T_NAME \/ t_val t = T_BRACKET_L \/ is_kw (t_val t) = true).
Definition KA (e : expr) (c : bool) ts :=
  exists t us, ts = t :: us /\ (t_val t = T_STRING \/ t_val t = T_NUM \/ t_val t = T_NAME \/ t_val t = T_BRACKET_L \/ is_kw (t_val t) = true).

Lemma starts_low : forall n m t, starts n t -> m <= n -> n <= 9 -> starts m t.
Proof. intros n m t (A & B & C & D & E) L M. repeat split; auto; intro; [apply C; lia|apply D; lia|apply E; lia]. Qed.
Lemma begins_app : forall n a b, begins n a -> begins n (a ++ b).
Proof. intros n a b (t & us & -> & S). exists t, (us ++ b). auto. Qed.
Lemma begins_low : forall n m ts, begins n ts -> m <= n -> n <= 9 -> begins m ts.
Proof. intros n m ts (t & us & -> & S) L M. exists t, us. split; [reflexivity|]. eapply starts_low; eauto. Qed.
Lemma first_app : forall n a b, begins n a -> first_lo (a ++ b) = first_lo a.
Proof. intros n a b (t & us & -> & _). reflexivity. Qed.
Lemma begins_ne : forall n a, begins n a -> a <> [].
Proof. intros n a (t & us & -> & _). discriminate. Qed.
Ltac tok E := unfold starts; rewrite ?E; repeat split; intros; try lia; try discriminate; cbn; try tauto;
  try (let Q := fresh in intro Q; repeat (destruct Q as [Q|Q]; try discriminate Q); destruct Q); try discriminate.
Lemma begins_sym : forall n t us, In (t_val t) [T_NUM; T_NULL; T_TRUE; T_FALSE; T_THIS; T_REGEXP; T_STRING; T_PAREN_L; T_BRACKET_L; T_BRACE_L; T_TPL_HEAD] ->
  begins n (t :: us).
Proof.
  intros n t us H. exists t, us. split; [reflexivity|]. cbn in H.
  repeat (destruct H as [H|H]; [symmetry in H; tok H|]). destruct H.
Qed.
Lemma level_member : forall n, 7 <= n -> 7 <= member_level n <= 8 \/ n = 10.
Proof. intros n H. unfold member_level. do 11 (destruct n as [|n]; [lia|]). lia. Qed.
Lemma begins_member : forall n a, begins n a -> 7 <= n <= 9 -> begins (member_level n) a.
Proof. intros n a B L. destruct (level_member n) as [H|H]; [lia| |lia]. destruct (Nat.le_gt_cases (member_level n) n) as [K|K]; [eapply begins_low; eauto; lia|].
  unfold member_level in K. do 7 (destruct n as [|n]; [lia|]). destruct n; [lia|]. destruct n; [lia|]. destruct n; [lia|lia].
Qed.

Theorem all_begin :
  (forall n e ts, written n e ts -> PA n e ts) /\ (forall t ts, joined t ts -> JA t ts) /\ (forall es ts, listed es ts -> LA es ts) /\
  (forall b e ts, item b e ts -> IA b e ts) /\ (forall es ts, elements es ts -> True) /\ (forall es ts, arguments es ts -> True) /\
  (forall es ts, properties es ts -> True) /\ (forall b e ts, property b e ts -> YA b e ts) /\ (forall e c ts, key_written e c ts -> KA e c ts) /\
  (forall es ts, pieces es ts -> True).
Proof.
  apply (written_all text PA JA LA IA (fun _ _ => True) (fun _ _ => True) (fun _ _ => True) YA KA (fun _ _ => True)); intros;
    repeat match goal with H : PA _ _ _ |- _ => destruct H as (? & ? & ? & ?) end;
    repeat match goal with H : JA _ _ |- _ => destruct H as (? & ? & ?) end;
    repeat match goal with H : LA _ _ |- _ => destruct H as (? & ? & ?) end; try exact Logic.I.
  - (* literal *) split; [lia|]. split; [apply begins_sym; cbn in *; tauto|split; reflexivity].
  - split; [lia|]. split; [apply begins_sym; cbn in *; rewrite H; tauto|split; reflexivity].
  - split; [lia|]. split; [|split; reflexivity]. exists t, []. split; [reflexivity|]. tok H.
  - split; [lia|]. split; [apply begins_sym; cbn in *; rewrite H; tauto|split; [reflexivity|]]. rewrite app_comm_cons, last_hi_snoc. reflexivity.
  - split; [lia|]. split; [apply begins_sym; cbn in *; rewrite H; tauto|split; [reflexivity|]]. rewrite app_comm_cons, last_hi_snoc. reflexivity.
  - split; [lia|]. split; [apply begins_sym; cbn in *; rewrite H; tauto|split; [reflexivity|]]. rewrite app_comm_cons, last_hi_snoc. reflexivity.
  - split; [lia|]. split; [apply begins_sym; cbn in *; rewrite H; tauto|split; reflexivity].
  - (* dot *) destruct (level_member n); [lia| |lia]. split; [lia|]. split; [apply begins_app, begins_member; auto|]. split; [symmetry; eapply first_app; eauto|].
    change [d; p] with ([d] ++ [p]). rewrite app_assoc, last_hi_snoc. reflexivity.
  - destruct (level_member n); [lia| |lia]. split; [lia|]. split; [apply begins_app, begins_member; auto|]. split; [symmetry; eapply first_app; eauto|].
    rewrite last_hi_mid, app_comm_cons, last_hi_snoc. reflexivity.
  - split; [lia|]. split; [apply begins_app; eapply begins_low; eauto; lia|]. split; [symmetry; eapply first_app; eauto|].
    rewrite last_hi_mid, app_comm_cons, last_hi_snoc. reflexivity.
  - split; [lia|]. split; [exists n, (cts ++ l :: ats ++ [h]); split; [reflexivity|tok H]|]. split; [reflexivity|].
    rewrite app_comm_cons, last_hi_mid, app_comm_cons, last_hi_snoc. reflexivity.
  - split; [lia|]. split; [exists n, cts; split; [reflexivity|tok H]|]. split; [reflexivity|]. rewrite last_hi_cons by (eapply begins_ne; eauto). reflexivity.
  - split; [lia|]. split; [|split; [reflexivity|rewrite last_hi_cons by (eapply begins_ne; eauto); reflexivity]].
    exists o, ts. split; [reflexivity|]. destruct H as [H|[H|[]]]; symmetry in H; tok H.
  - split; [lia|]. split; [apply begins_app; eapply begins_low; eauto; lia|]. split; [symmetry; eapply first_app; eauto|rewrite last_hi_snoc; reflexivity].
  - split; [lia|]. split; [|split; [reflexivity|rewrite last_hi_cons by (eapply begins_ne; eauto); reflexivity]].
    exists o, ts. split; [reflexivity|]. unfold prefix_ops in H. cbn in H. repeat (destruct H as [H|H]; [symmetry in H; tok H|]). destruct H.
  - (* bin *) split; [lia|]. split; [|split; assumption]. match goal with H : begins 0 _ |- _ => destruct H as (x & us & -> & S1 & S2 & _) end. exists x, us. split; [reflexivity|]. repeat split; auto; intro; lia.
  - split; [lia|]. split; [apply begins_app; destruct (Nat.le_gt_cases 2 n); [eapply begins_low; eauto; lia|lia]|]. split; [symmetry; eapply first_app; eauto|].
    rewrite last_hi_mid, app_comm_cons, last_hi_mid, last_hi_cons by (eapply begins_ne; eauto). reflexivity.
  - split; [lia|]. split; [apply begins_app; eapply begins_low; eauto; lia|]. split; [symmetry; eapply first_app; eauto|].
    rewrite last_hi_mid, last_hi_cons by (eapply begins_ne; eauto). reflexivity.
  - split; [lia|]. split; [eapply begins_low; eauto; lia|split; reflexivity].
  - (* joined *) split; [eapply begins_low; eauto; lia|]. split; assumption.
  - split; [apply begins_app; assumption|]. cbn [of_bt]. split; [unfold lo at 1; cbn [range fst]; match goal with H : lo (of_bt l) = _ |- _ => rewrite H end; symmetry; eapply first_app; eauto|].
    unfold hi; cbn [range snd]. rewrite last_hi_mid, last_hi_cons by (eapply begins_ne; eauto). reflexivity.
  - split; [discriminate|]. split; [eapply begins_low; eauto; lia|]. intro d; split; assumption.
  - split; [discriminate|]. split; [apply begins_app; eapply begins_low; eauto; lia|]. intro d. split; [cbn; rewrite (first_app n) by assumption; assumption|].
    destruct es as [|e' es]; [congruence|]. change (last (e :: e' :: es) d) with (last (e' :: es) d). rewrite last_hi_mid, last_hi_cons by (eapply begins_ne; eauto). apply H9.
  - match goal with H : begins _ _ |- _ => destruct H as (t & us & -> & S) end. exists t, us. split; [reflexivity|]. left. eapply starts_low; eauto; lia.
  - exists d, ts. split; [reflexivity|tauto].
  - destruct H0 as (t & us & -> & S). exists t, (us ++ c :: vts). split; [reflexivity|]. tauto.
  - exists t, []. split; [reflexivity|tauto].
  - exists d, ts. split; [reflexivity|tauto].
  - exists t, []. split; [reflexivity|tauto].
  - exists t, []. split; [reflexivity|tauto].
  - exists t, []. split; [reflexivity|]. tauto.
  - exists t, []. split; [reflexivity|tauto].
  - exists l, (ts ++ [h]). split; [reflexivity|tauto].
Qed.

(** ** Checks *)
Lemma ordinary_not : forall n m, ordinary n = true -> In m (prohibited_names ++ [bs "eval"; bs "arguments"; bs "await"; bs "yield"; bs "async"]) -> bytes_eqb n m = false.
Proof.
  intros n m O I. unfold ordinary in O. destruct (bytes_eqb n m) eqn:E; [|reflexivity]. exfalso.
  apply Bool.negb_true_iff in O. rewrite <- Bool.not_true_iff_false in O. apply O. apply existsb_exists. exists m. auto.
Qed.
Lemma ordinary_prohibited : forall k n l, ordinary n = true -> prohibited k n l = false.
Proof.
  intros k n l O. unfold prohibited, is_prohibited.
  assert (H : has_mem n prohibited_names = false).
  { destruct (has_mem n prohibited_names) eqn:E; [|reflexivity]. unfold has_mem in E. apply existsb_exists in E as (m & I & E).
    rewrite (ordinary_not n m O) in E by (apply in_or_app; left; exact I). discriminate E. }
  rewrite H, Bool.andb_false_r. rewrite !(ordinary_not n) by (assumption || (cbn; tauto)).
  cbn [orb]. rewrite !Bool.andb_false_r. reflexivity.
Qed.

Definition chk e := forall k sp si, check_arg k text sp si e = AOk tt.
Definition chkT e := forall k si, check_arg k text true si e = AOk tt.
Definition dfl e := forall k c y d, no_holes e = true -> check_default k c false y d e = AOk tt.
Definition still e := forall k f c top prop, exists r, arg_to_param k f c text top prop false e = (e, r) /\ r <> APanic.
Definition goal_like e := place_like e = true ->
  (forall k f c, arg_to_param k f c text false false true e = (e, AOk e)) /\ (forall k pat o, is_simple k pat true o e = true).
Definition kept e := forall k f c prop, exists r, arg_to_param k f c text false prop false e = (e, r) /\ (r = AErr \/ r = AOk e).
Record CK (e : expr) : Prop := mk_CK {
  ck_arg : chk e; ck_dfl : dfl e; ck_callee : forall k, check_callee k e = true; ck_arrow : is_arrow_e e = false;
  ck_super : is_super_e e = false; ck_spread : is_spread_e e = false; ck_chain : is_chain_e e = false; ck_delete : check_delete e = AOk tt; ck_pvt : match e with EName _ _ p _ => p = false | _ => True end;
  ck_place : goal_like e; ck_still : calm e = true -> still e;
  ck_value : is_literal_or_assign e = false -> kept e }.
Definition CI (e : expr) : Prop := chkT e /\ dfl e /\ (calm e = true -> still e).
Definition CP (e : expr) : Prop := CI e /\ is_proto text e = named_proto text e.
Definition CKey (e : expr) (c : bool) : Prop := forall r v a, is_proto text (EProp r e v c false a) = named_proto text (EProp r e v c false a).

Lemma CK_CI : forall e, CK e -> CI e.
Proof. intros e []. split; [intros k si; auto|auto]. Qed.
Lemma still_other : forall e, (forall k f c top prop, arg_to_param k f c text top prop false e =
  if top then (e, AErr) else (e, if is_simple k true false false e then AOk e else AErr)) -> still e.
Proof.
  intros e H k f c top prop. rewrite H. destruct top; [exists AErr; split; [reflexivity|discriminate]|].
  destruct (is_simple k true false false e); [exists (AOk e)|exists AErr]; (split; [reflexivity|discriminate]).
Qed.
Lemma stop_still : forall (f : expr -> expr * ares expr) es,
  Forall (fun e => exists r, f e = (e, r) /\ r <> APanic) es -> exists r, stop_map f es = (es, r) /\ r <> APanic.
Proof.
  intros f es H. induction H as [|e es (r & E & N) H (q & Q & M)]; cbn; [exists (AOk []); split; [reflexivity|discriminate]|].
  rewrite E. destruct r; [rewrite Q|exists AErr; split; [reflexivity|discriminate]|congruence].
  exists (athen q (fun ys => AOk (a :: ys))). split; [reflexivity|]. destruct q; [discriminate..|congruence].
Qed.
Lemma stop_some_still : forall (f : expr -> expr * ares expr) es,
  Forall (fun x => match x with Some e => exists r, f e = (e, r) /\ r <> APanic | None => True end) es ->
  exists r, stop_map (on_some f) es = (es, r) /\ r <> APanic.
Proof.
  intros f es H. induction H as [|x es X H (q & Q & M)]; cbn; [exists (AOk []); split; [reflexivity|discriminate]|].
  destruct x as [e|]; cbn.
  - destruct X as (r & E & N). rewrite E. destruct r; cbn; [rewrite Q|exists AErr; split; [reflexivity|discriminate]|congruence].
    exists (athen q (fun ys => AOk (Some a :: ys))). split; [reflexivity|]. destruct q; [discriminate..|congruence].
  - rewrite Q. exists (athen q (fun ys => AOk (None :: ys))). split; [reflexivity|]. destruct q; [discriminate..|congruence].
Qed.
Lemma each_ok : forall A (f : A -> ares unit) l, Forall (fun x => f x = AOk tt) l -> each f l = AOk tt.
Proof. intros A f l H. induction H as [|x l E H IH]; cbn; [reflexivity|]. rewrite E. exact IH. Qed.

(** An object. *)
Fixpoint obj_go (k : N) (proto : bool) (l : list expr) : ares unit :=
  match l with
  | [] => AOk tt
  | p :: l => athen (check_arg k text true false p) (fun _ => if is_proto text p && proto then AErr else obj_go k (is_proto text p || proto) l)
  end.
Lemma obj_check : forall k sp si r ps, check_arg k text sp si (EObj r ps) = obj_go k false ps.
Proof.
  intros k sp si r ps. cbn [check_arg].
  match goal with |- ?f ?b0 ps = obj_go k ?b0 ps => cut (forall b, f b ps = obj_go k b ps); [intro H; apply H|] end. induction ps as [|p ps IH]; intro b; cbn [obj_go]; [reflexivity|].
  destruct (check_arg k text true false p) as [[]| | ]; cbn [athen]; [|reflexivity..]. destruct (is_proto text p && b); [reflexivity|]. apply IH.
Qed.
Lemma obj_go_ok : forall k ps (b : bool), Forall CP ps -> length (filter (named_proto text) ps) + (if b then 1 else 0) <= 1 -> obj_go k b ps = AOk tt.
Proof.
  intros k ps b H. revert b. induction H as [|p ps ((C & _) & E) H IH]; intros b L; cbn [obj_go]; [reflexivity|].
  rewrite C. cbn [athen]. rewrite E. cbn [filter] in L. destruct (named_proto text p); cbn [length andb orb] in *.
  - destruct b; [lia|]. apply IH. lia.
  - apply IH. exact L.
Qed.
Lemma still_prop : forall r key v c sh, kept v -> still (EProp r key (Some v) c sh false).
Proof.
  intros r key v c sh K k f ch top prop. cbn [arg_to_param].
  destruct (K k f ch prop) as (x & -> & [->| ->]); eexists; (split; [reflexivity|discriminate]).
Qed.
Lemma kept_other : forall e, (forall k f c prop, arg_to_param k f c text false prop false e =
  (e, if is_simple k true false false e then AOk e else AErr)) -> kept e.
Proof.
  intros e H k f c prop. rewrite H. destruct (is_simple k true false false e); eexists; (split; [reflexivity|auto]).
Qed.
Lemma still_spread : forall r e b, CK e -> is_literal_or_assign e = false -> still (ESpread r e b).
Proof.
  intros r e b [] L k f c top prop. cbn [arg_to_param]. destruct b; [exists AErr; split; [reflexivity|discriminate]|].
  destruct e; try discriminate L; try (exists AErr; split; [reflexivity|discriminate]).
  cbn [arg_to_param]. eexists; split; [reflexivity|]. destruct (c && prohibited k n true); discriminate.
Qed.
(** Expressions of which nothing is checked. *)
Definition plain (e : expr) : bool :=
  match e with
  | ELit _ t => negb (tv_eqb (t_val t) T_SUPER)
  | ESeq _ _ | EBin _ _ _ _ _ | EUnary _ _ _ | EUpdate _ _ _ _ | ECond _ _ _ _ | ECall _ _ _ _ | ENew _ _ _ | ETpl _ None _ => true
  | _ => false
  end.
Lemma CK_plain : forall e, plain e = true -> dfl e -> CK e.
Proof.
  intros e P D.
  destruct e as [ | | | | | | | | | | | | | | | | | | | |r [tag|] es| | | | | | ]; try discriminate P; constructor; try assumption; try reflexivity; try exact Logic.I;
    try (intros k sp si; reflexivity); try discriminate;
    try (intros _; apply still_other; reflexivity); try (intros _; apply kept_other; reflexivity).
  - intro k. cbn in *. rewrite P. reflexivity.
  - cbn in *. apply Bool.negb_true_iff. exact P.
Qed.

Definition PB (n : nat) (e : expr) (ts : list token) := CK e.
Definition JB (t : btree expr) (ts : list token) := CK (of_bt t).
Definition LB (es : list expr) (ts : list token) := Forall CK es.
Definition IB (b : bool) (e : expr) (ts : list token) := CI e.
Definition EB (es : list (option expr)) (ts : list token) := Forall (fun x => match x with Some e => CI e | None => True end) es.
Definition AB (es : list expr) (ts : list token) := Forall CI es.
Definition OB (es : list expr) (ts : list token) := Forall CP es.
Definition YB (b : bool) (e : expr) (ts : list token) := CP e.
Definition KB (e : expr) (c : bool) (ts : list token) := CKey e c.

Lemma CI_spread : forall r e b, CK e -> CI (ESpread r e b).
Proof.
  intros r e b C. split; [intros k si; reflexivity|]. split; [intros k c y d N; exact (ck_dfl _ C k c y d N)|].
  intro Q. apply still_spread; [exact C|]. cbn in Q. apply Bool.negb_true_iff. exact Q.
Qed.
Lemma CK_name : forall r n, ordinary n = true -> CK (EName r n false false).
Proof.
  intros r n O. constructor; try reflexivity.
  - intros k sp si. reflexivity.
  - intros k c y d _. cbn [check_default]. change (is_prohibited (has k SPK_STRICT) (has k SPK_ASYNC) n true false false false) with (prohibited k n false).
    rewrite ordinary_prohibited by assumption. rewrite Bool.andb_false_r. reflexivity.
  - intros _. split; [intros k f c; cbn [arg_to_param]; rewrite ordinary_prohibited by assumption; rewrite Bool.andb_false_r; reflexivity|].
    intros k pat o. cbn [is_simple]. rewrite !(ordinary_not n) by (assumption || (cbn; tauto)). cbn [orb]. rewrite !Bool.andb_false_r. reflexivity.
  - intros _ k f c top prop. cbn [arg_to_param]. eexists; split; [reflexivity|]. destruct (c && prohibited k n true); discriminate.
  - intros _ k f c prop. cbn [arg_to_param]. eexists; split; [reflexivity|]. destruct (c && prohibited k n true); auto.
Qed.
Lemma CK_member : forall r o p c, CK o -> match p with EName _ _ pvt _ => pvt = false | _ => True end -> CK (EMember r o p c false).
Proof.
  intros r o p c C P. constructor; try reflexivity; try exact Logic.I.
  - intros k sp si; reflexivity.
  - intros k ch y d _; reflexivity.
  - intro k. cbn [check_callee]. rewrite (ck_callee _ C). apply Bool.orb_true_r.
  - cbn. destruct p; try reflexivity. rewrite P. reflexivity.
  - intros _. split; [intros k f ch|intros k pat a]; reflexivity.
  - intros _. apply still_other; reflexivity.
  - intros _. apply kept_other; reflexivity.
Qed.
Lemma CK_paren : forall r e, (forall k sp si, check_arg k text sp si e = AOk tt) -> dfl e -> CK (EParen r e).
Proof.
  intros r e C D. constructor; try reflexivity; try exact Logic.I; try exact C; try exact D; try discriminate.
  - intros _ k f ch top prop. exists AErr. split; [reflexivity|discriminate].
  - intros _ k f ch prop. exists AErr. split; [reflexivity|auto].
Qed.

Theorem all_check :
  (forall n e ts, written n e ts -> PB n e ts) /\ (forall t ts, joined t ts -> JB t ts) /\ (forall es ts, listed es ts -> LB es ts) /\
  (forall b e ts, item b e ts -> IB b e ts) /\ (forall es ts, elements es ts -> EB es ts) /\ (forall es ts, arguments es ts -> AB es ts) /\
  (forall es ts, properties es ts -> OB es ts) /\ (forall b e ts, property b e ts -> YB b e ts) /\ (forall e c ts, key_written e c ts -> KB e c ts) /\
  (forall es ts, pieces es ts -> True).
Proof.
  apply (written_all text PB JB LB IB EB AB OB YB KB (fun _ _ => True)); intros; try exact Logic.I;
    unfold PB, JB, LB, IB, EB, AB, OB, YB, KB in *.
  - apply CK_plain; [|intros k c y d _; reflexivity]. cbn in *. repeat (destruct H as [<-|H]; [reflexivity|]). destruct H.
  - apply CK_plain; [|intros k c y d _; reflexivity]. cbn in *. rewrite H. reflexivity.
  - apply CK_name; assumption.
  - (* paren *) unfold one_or_seq. destruct es as [|e [|e' es]].
    + apply CK_paren; [intros k sp si; reflexivity|intros k c y d _; reflexivity].
    + inversion H2; subst. apply CK_paren; [exact (ck_arg _ H6)|exact (ck_dfl _ H6)].
    + apply CK_paren; [intros k sp si; reflexivity|intros k c y d _; reflexivity].
  - (* array *) constructor; try reflexivity; try exact Logic.I; try discriminate.
    + intros k sp si. cbn [check_arg]. apply each_ok. eapply Forall_impl; [|exact H2]. intros [e|] X; [apply (proj1 X)|reflexivity].
    + intros k c y d N. cbn [check_default no_holes] in *. apply each_ok. rewrite forallb_forall in N. rewrite Forall_forall in H2 |- *.
      intros [e|] I; specialize (N _ I); specialize (H2 _ I); cbn in N, H2; [|discriminate N]. apply (proj1 (proj2 H2)), N.
    + intros Q k f c top prop. cbn [arg_to_param calm] in *.
      destruct (stop_some_still (arg_to_param k f c text false false false) es) as (r & R & N).
      { rewrite forallb_forall in Q. rewrite Forall_forall in H2 |- *. intros [e|] I; [|exact Logic.I]. specialize (Q _ I); specialize (H2 _ I); cbn in Q, H2.
        apply (proj2 (proj2 H2) Q). }
      rewrite R. eexists; split; [reflexivity|]. destruct r; [discriminate..|congruence].
  - (* object *) constructor; try reflexivity; try exact Logic.I; try discriminate.
    + intros k sp si. rewrite obj_check. apply obj_go_ok; [exact H2|lia].
    + intros k c y d N. cbn [check_default no_holes] in *. apply each_ok. rewrite forallb_forall in N. rewrite Forall_forall in H2 |- *.
      intros e I; specialize (N _ I); specialize (H2 _ I). apply (proj1 (proj2 (proj1 H2))), N.
    + intros Q k f c top prop. cbn [arg_to_param calm] in *.
      destruct (stop_still (arg_to_param k f c text false true false) ps) as (r & R & N).
      { rewrite forallb_forall in Q. rewrite Forall_forall in H2 |- *. intros e I. specialize (Q _ I); specialize (H2 _ I).
        apply (proj2 (proj2 (proj1 H2)) Q). }
      rewrite R. eexists; split; [reflexivity|]. destruct r; [discriminate..|congruence].
  - apply CK_plain; [reflexivity|intros k c y d _; reflexivity].
  - apply CK_member; [assumption|reflexivity].
  - apply CK_member; [assumption|]. destruct p; try exact Logic.I. exact (ck_pvt _ H5).
  - apply CK_plain; [reflexivity|intros k x y d _; reflexivity].
  - apply CK_plain; [reflexivity|intros k x y d _; reflexivity].
  - apply CK_plain; [reflexivity|intros k x y d _; reflexivity].
  - apply CK_plain; [reflexivity|]. intros k c y d N. exact (ck_dfl _ H1 k c y d N).
  - apply CK_plain; [reflexivity|]. intros k c y d N. exact (ck_dfl _ H2 k c y d N).
  - apply CK_plain; [reflexivity|]. intros k c y d N. cbn [check_default no_holes] in *.
    assert (E : tv_eqb (t_val o) T_AWAIT = false).
    { unfold prefix_ops in H. cbn in H. repeat (destruct H as [<-|H]; [reflexivity|]). destruct H. }
    rewrite E. cbn [andb]. exact (ck_dfl _ H1 k c y d N).
  - assumption.
  - apply CK_plain; [reflexivity|]. intros k0 x y d N. cbn [check_default no_holes] in *.
    apply Bool.andb_true_iff in N as [N N3]. apply Bool.andb_true_iff in N as [N1 N2].
    rewrite (ck_dfl _ H2 k0 x y d N1). cbn [athen]. rewrite (ck_dfl _ H5 k0 x y d N2). cbn [athen]. exact (ck_dfl _ H8 k0 x y d N3).
  - (* assign *) destruct (ck_place _ H1 H3) as [P1 P2]. constructor; try reflexivity; try exact Logic.I; try discriminate.
    + intros k sp si. cbn [check_arg]. rewrite P2. cbn [negb]. rewrite Bool.andb_false_r. reflexivity.
    + intros k c y d _. reflexivity.
    + intros Q k f c top prop. cbn [arg_to_param calm] in *. destruct (tv_eqb (t_val o) T_ASSIGN); cbn [negb]; [|exists AErr; split; [reflexivity|discriminate]].
      assert (X : exists r, arg_to_param k f c text false false false l = (l, r) /\ r <> APanic).
      { apply (ck_still _ H1). destruct l; try discriminate H3; reflexivity. }
      destruct X as (r & -> & N). eexists; split; [reflexivity|]. destruct r; cbn [athen]; [|discriminate|congruence].
      rewrite (ck_dfl _ H5 k c false false Q). cbn [athen]. rewrite (ck_arg _ H5). discriminate.
  - apply CK_plain; [reflexivity|intros k x y d _; reflexivity].
  - assumption.
  - apply CK_plain; [reflexivity|]. intros k x y d N. cbn [of_bt check_default no_holes] in *. apply Bool.andb_true_iff in N as [N1 N2].
    rewrite (ck_dfl _ H1 k x y d N1). cbn [athen]. exact (ck_dfl _ H3 k x y d N2).
  - constructor; [assumption|constructor].
  - constructor; assumption.
  - apply CK_CI; assumption.
  - apply CI_spread; assumption.
  - constructor.
  - constructor; [exact Logic.I|assumption].
  - constructor; [assumption|constructor].
  - constructor; assumption.
  - constructor.
  - constructor; [assumption|constructor].
  - constructor; assumption.
  - constructor.
  - constructor; [assumption|constructor].
  - constructor; assumption.
  - (* key: value *) split; [|apply H0]. split; [|split].
    + intros k si. cbn [check_arg andb]. apply (ck_arg _ H3).
    + intros k x y d N. exact (ck_dfl _ H3 k x y d N).
    + intro Q. apply still_prop. apply (ck_value _ H3). cbn in Q. apply Bool.negb_true_iff. exact Q.
  - pose proof (CK_name (place t) (text t) H0) as C. split; [|reflexivity]. split; [|split].
    + intros k si. reflexivity.
    + intros k x y d N. exact (ck_dfl _ C k x y d N).
    + intro Q. apply still_prop. apply (ck_value _ C). reflexivity.
  - split; [|reflexivity]. apply CI_spread; assumption.
  - intros r v a. cbn. rewrite H. reflexivity.
  - intros r v a. cbn. rewrite H. reflexivity.
  - intros r v a. reflexivity.
  - intros r v a. reflexivity.
  - intros r v a. cbn. destruct e; reflexivity.
Qed.
End Facts.
