(** Where the expression parser cannot panic. *)
From Coq Require Import Lia ZifyBool ZifyNat ZifyN.
From Verif Require Import Base TokenModel LexModel ParseBase BinModel SymtabModel EarlyModel ExprModel ExprFuel StmtModel StmtFuel PanicSpec.

Definition subs (e : expr) : list expr :=
  match e with
  | ELit _ _ | EName _ _ _ _ | EMethod _ | EMeta _ | EOther _ => []
  | EParen _ e | ESpread _ e _ | EUnary _ _ e | EUpdate _ _ _ e | EChain _ e | PRest _ e => [e]
  | EArr _ es | PArr _ es => concat (map (fun o => match o with Some e => [e] | None => [] end) es)
  | EObj _ ps | PObj _ ps => ps
  | EProp _ key None _ _ _ => [key]
  | EProp _ key (Some v) _ _ _ => [key; v]
  | ESeq _ es => es
  | EBin _ _ _ l h | EAssign _ _ _ l h | PAssign _ l h => [l; h]
  | ECond _ t c a => [t; c; a]
  | EYield _ _ None => []
  | EYield _ _ (Some e) => [e]
  | EMember _ o p _ _ => [o; p]
  | ECall _ c args _ | ENew _ c args => c :: args
  | ETpl _ None es => es
  | ETpl _ (Some c) es => c :: es
  | EArrow _ ps b => b :: ps
  end.
Lemma expr_deep : forall P : expr -> Prop, (forall e, Forall P (subs e) -> P e) -> forall e, P e.
Proof.
  intros P H. fix F 1. intros e. apply H. destruct e; cbn [subs]; repeat (constructor; [apply F|]); try constructor; try apply F.
  all: try (match goal with |- Forall _ (concat (map _ ?es)) => induction es as [|[x|] es IH]; cbn; [constructor|constructor; [apply F|exact IH]|exact IH] end).
  all: try (match goal with |- Forall _ ?l => induction l as [|x l IH]; constructor; [apply F|exact IH] end).
  - destruct val; repeat (constructor; [apply F|]); constructor.
  - destruct e; repeat (constructor; [apply F|]); constructor.
  - destruct tag; [constructor; [apply F|]|]; induction es as [|x es IH]; constructor; try apply F; exact IH.
Qed.

Section Safe.
(** [plain]: the source has no [=]; [unlinked]: it has no [?.]. *)
Variables (plain unlinked : bool).
(** Nothing that the checks of default values, of targets or of delete panic at. *)
Fixpoint safe (e : expr) : bool :=
  match e with
  | EArr _ es => forallb (fun x => match x with Some e => safe e | None => plain end) es
  | EObj _ ps | PObj _ ps => forallb safe ps
  | EProp _ key v _ _ assign => negb (plain && assign) && safe key && match v with Some v => safe v | None => plain && negb assign end
  | EParen _ e | EUnary _ _ e | EUpdate _ _ _ e | ESpread _ e _ => safe e
  | EBin _ _ _ l h | PAssign _ l h => safe l && safe h
  | ECond _ t c a => safe t && safe c && safe a
  | EAssign _ op _ l h => negb (plain && tv_eqb op T_ASSIGN) && safe l && safe h
  | EChain _ _ => negb unlinked
  | _ => true
  end.
Definition no_panic {A} (x : ares A) : Prop := match x with APanic => False | _ => True end.
Lemma no_then : forall A B (x : ares A) (f : A -> ares B), no_panic x -> (forall a, x = AOk a -> no_panic (f a)) -> no_panic (athen x f).
Proof. intros A B [a| | ] f H K; cbn in *; auto. Qed.
Lemma no_guard : forall b, no_panic (aguard b).
Proof. intros []; exact I. Qed.
Lemma no_each : forall A (f : A -> ares unit) l, Forall (fun x => no_panic (f x)) l -> no_panic (each f l).
Proof. intros A f l H. induction H; cbn; [exact I|]. apply no_then; auto. Qed.
Lemma each_safe : forall es, forallb (fun x => match x with Some e => safe e | None => plain end) es = true ->
  forall e, In (Some e) es -> safe e = true.
Proof. intros es H e K. rewrite forallb_forall in H. exact (H _ K). Qed.
Ltac split_and := repeat match goal with H : _ && _ = true |- _ => apply Bool.andb_true_iff in H; destruct H end.
Lemma in_subs_arr : forall es (e : expr), In (Some e) es -> In e (concat (map (fun o => match o with Some e => [e] | None => [] end) es)).
Proof.
  induction es as [|[x|] es IH]; intros e K; cbn in *; [contradiction|destruct K as [K|K]; [left; congruence|right; auto]|destruct K as [K|K]; [discriminate|auto]].
Qed.

Lemma check_default_safe : forall k checked field yield destruct, plain = false -> forall e, safe e = true -> no_panic (check_default k checked field yield destruct e).
Proof.
  intros k checked field yield destr P. induction e as [e IH] using expr_deep. intros S. rewrite Forall_forall in IH.
  destruct e; cbn [check_default safe subs] in *; split_and; try exact I; try apply no_guard;
    repeat (apply no_then; [|intros]); try (apply IH; [cbn; auto|assumption]).
  - apply no_each, Forall_forall. intros [x|] K.
    + apply IH; [apply in_subs_arr, K|]. rewrite forallb_forall in S. exact (S _ K).
    + rewrite forallb_forall in S. specialize (S _ K). cbn in S. congruence.
  - apply no_each, Forall_forall. intros x K. apply IH; [exact K|]. rewrite forallb_forall in S. exact (S _ K).
  - destruct val as [v|]; [apply IH; [cbn; auto|assumption]|]. rewrite P in *. discriminate.
  - destruct (tv_eqb op T_AWAIT && negb destr); [exact I|]. apply IH; [cbn; auto|assumption].
Qed.
Lemma check_arg_safe : forall k text e spread simplicity, no_panic (check_arg k text spread simplicity e).
Proof.
  intros k text. induction e as [e IH] using expr_deep. intros sp si. rewrite Forall_forall in IH.
  destruct e; cbn [check_arg subs] in *; try exact I; try apply no_guard; try (apply IH; cbn; auto).
  - apply no_each, Forall_forall. intros [x|] K; [|exact I]. apply IH, in_subs_arr, K.
  - assert (G : forall l proto, (forall x, In x l -> In x ps) ->
      no_panic ((fix go (proto : bool) (l : list expr) : ares unit := match l with [] => AOk tt
        | p :: l => athen (check_arg k text true false p) (fun _ => if is_proto text p && proto then AErr else go (is_proto text p || proto) l) end) proto l)).
    { induction l as [|p l IHl]; intros proto In0; [exact I|]. apply no_then; [apply IH, In0; left; reflexivity|]. intros _ _.
      destruct (is_proto text p && proto); [exact I|]. apply IHl. intros x K. apply In0. right. exact K. }
    apply G. auto.
  - destruct (assign && shorthand && negb (has k SPK_NOT_IN)); [exact I|]. destruct val; [apply IH; cbn; auto|exact I].
Qed.
Lemma check_args_safe : forall k text sp si l, no_panic (each (check_arg k text sp si) l).
Proof. intros. apply no_each, Forall_forall. intros. apply check_arg_safe. Qed.

(** What a check leaves is safe, and what it makes. *)
Definition kept (x : expr * ares expr) : Prop :=
  safe (fst x) = true /\ no_panic (snd x) /\ forall p, snd x = AOk p -> safe p = true.
Definition kept_all (x : list expr * ares (list expr)) : Prop :=
  forallb safe (fst x) = true /\ no_panic (snd x) /\ forall p, snd x = AOk p -> forallb safe p = true.
Lemma stop_map_kept : forall f l, Forall (fun x => kept (f x)) l -> forallb safe l = true -> kept_all (stop_map f l).
Proof.
  intros f l H. induction H as [|x l [K1 [K2 K3]] H IH]; intros S; [repeat split; intros p E; inversion E; reflexivity|].
  cbn [stop_map forallb] in *. split_and. destruct (f x) as [x' [y| | ]]; cbn [fst snd] in *.
  - destruct (IH H1) as (I1 & I2 & I3). fold (stop_map f) in *. destruct (stop_map f l) as [l' r]. cbn [fst snd] in *. repeat split.
    + cbn [fst forallb]. rewrite K1, I1. reflexivity.
    + apply no_then; [exact I2|intros; exact I].
    + cbn [snd]. intros p E. destruct r as [ys| | ]; cbn [athen] in E; inversion E. cbn [forallb]. rewrite (K3 y eq_refl), (I3 ys eq_refl). reflexivity.
  - repeat split; [|intros p E; discriminate E]. cbn [fst forallb]. rewrite K1, H1. reflexivity.
  - contradiction.
Qed.
Notation safe_elem := (fun x => match x with Some e => safe e | None => plain end).
Definition kept_elems (x : list (option expr) * ares (list (option expr))) : Prop :=
  forallb safe_elem (fst x) = true /\ no_panic (snd x).
Lemma stop_map_elems : forall f l, (forall e, In (Some e) l -> kept (f e)) -> forallb safe_elem l = true -> kept_elems (stop_map (on_some f) l).
Proof.
  intros f l. induction l as [|[x|] l IH]; intros H S; [split; [reflexivity|exact I]|..]; cbn [stop_map on_some forallb] in *; split_and.
  - destruct (H x (or_introl eq_refl)) as (K1 & K2 & K3). destruct (f x) as [x' [y| | ]]; cbn [fst snd athen] in *.
    + destruct (IH (fun e K => H e (or_intror K)) H1) as (I1 & I2). fold (stop_map (on_some f)) in *. destruct (stop_map (on_some f) l) as [l' r]. cbn [fst snd] in *.
      split; [cbn [fst forallb]; rewrite K1, I1; reflexivity|]. apply no_then; [exact I2|intros; exact I].
    + split; [cbn [fst forallb]; rewrite K1, H1; reflexivity|exact I].
    + contradiction.
  - destruct (IH (fun e K => H e (or_intror K)) H1) as (I1 & I2). fold (stop_map (on_some f)) in *. destruct (stop_map (on_some f) l) as [l' r]. cbn [fst snd] in *.
    split; [cbn [fst forallb]; rewrite I1, H0; reflexivity|]. apply no_then; [exact I2|intros; exact I].
Qed.
Lemma to_param_safe : forall k feat checked text e top prop destruct, safe e = true -> kept (arg_to_param k feat checked text top prop destruct e).
Proof.
  intros k feat checked text. induction e as [e IH] using expr_deep. intros top prop destr S. rewrite Forall_forall in IH.
  assert (Same : forall b, kept (e, if b : bool then AOk e else AErr)).
  { intros b. repeat split; [exact S|destruct b; exact I|]. intros p E. destruct b; inversion E. subst. exact S. }
  assert (Bad : kept (e, AErr)) by exact (Same false).
  destruct e; cbn [arg_to_param]; try (destruct top; [exact Bad|apply Same]).
  - (* name *) pose proof (Same (negb (checked && prohibited k n true))) as Z. destruct (checked && prohibited k n true); exact Z.
  - (* parentheses *) destruct (negb destr || negb (is_primitive e)); [exact Bad|]. pose proof (IH e (or_introl eq_refl) top prop destr S) as K.
    destruct (arg_to_param k feat checked text top prop destr e) as [e' x]. exact K.
  - (* array *)
    pose proof (stop_map_elems (arg_to_param k feat checked text false false destr) es) as Z. cbn [safe] in S.
    specialize (Z (fun e K => IH e (in_subs_arr es e K) false false destr (each_safe es S e K)) S).
    destruct (stop_map (on_some (arg_to_param k feat checked text false false destr)) es) as [es' x]. destruct Z as [Z1 Z2]. repeat split.
    + exact Z1.
    + apply no_then; [exact Z2|intros; exact I].
    + intros p E. destruct x; inversion E. reflexivity.
  - (* object *)
    pose proof (stop_map_kept (arg_to_param k feat checked text false true destr) ps) as Z. cbn [safe subs] in *.
    assert (F : Forall (fun x => kept (arg_to_param k feat checked text false true destr x)) ps).
    { apply Forall_forall. intros x K. apply IH; [exact K|]. rewrite forallb_forall in S. exact (S x K). }
    specialize (Z F S). destruct (stop_map (arg_to_param k feat checked text false true destr) ps) as [ps' x]. destruct Z as (Z1 & Z2 & Z3). repeat split.
    + exact Z1.
    + apply no_then; [exact Z2|intros; exact I].
    + intros p E. destruct x; inversion E. cbn [safe]. exact (Z3 a eq_refl).
  - (* property *)
    cbn [safe subs] in *. split_and. destruct val as [v0|].
    + destruct assign.
      * assert (P : plain = false) by (destruct plain; [discriminate|reflexivity]).
        pose proof (IH e (or_introl eq_refl) false prop destr H1) as (K1 & K2 & K3). destruct (arg_to_param k feat checked text false prop destr e) as [key' x]. cbn [fst snd] in *.
        assert (G : forall key' v', safe key' = true -> safe v' = true -> safe (EProp r key' (Some v') computed shorthand true) = true).
        { intros q v' A B. cbn [safe]. rewrite A, B, H. reflexivity. }
        destruct x as [key2| | ]; [|repeat split; [apply G; assumption|intros p E; discriminate E]|contradiction]. specialize (K3 key2 eq_refl).
        pose proof (check_default_safe k checked false destr destr P v0 H0) as D. destruct (check_default k checked false destr destr v0); [| |contradiction].
        -- destruct (negb prop && negb top); [repeat split; [apply G; assumption|intros p E; discriminate E]|].
           assert (V : safe (match v0 with PAssign _ _ _ => v0 | _ => PAssign r key2 v0 end) = true).
           { destruct v0; try exact H0; cbn [safe] in *; rewrite K3, ?H0; try reflexivity; rewrite ?Bool.andb_true_r; try exact H0. }
           repeat split; [apply G; assumption|]. intros p E. cbn [snd] in E. inversion E. subst. apply G; assumption.
        -- repeat split; [apply G; assumption|intros p E; discriminate E].
      * pose proof (IH v0 (or_intror (or_introl eq_refl)) false prop destr H0) as (K1 & K2 & K3). destruct (arg_to_param k feat checked text false prop destr v0) as [v' x]. cbn [fst snd] in *.
        assert (G : forall v', safe v' = true -> safe (EProp r e (Some v') computed shorthand false) = true).
        { intros v'' B. cbn [safe]. rewrite B, H1, H. reflexivity. }
        destruct x as [v2| | ]; [|repeat split; [apply G; assumption|intros p E; discriminate E]|contradiction]. specialize (K3 v2 eq_refl).
        repeat split; [apply G; assumption|]. intros p E. cbn [snd] in E. inversion E. subst. apply G; assumption.
    + split_and. destruct assign; [discriminate|]. destruct (is_name_e e); [apply (Same true)|exact Bad].
  - exact Bad.
  - (* spread *)
    destruct comma; [exact Bad|]. cbn [safe subs] in *. pose proof (IH e (or_introl eq_refl) top prop destr S) as (K1 & K2 & K3).
    destruct e; try exact Bad.
    + destruct (arg_to_param k feat checked text top prop destr (EName r0 n pvt kw)) as [a' x]. repeat split; [apply no_then; [exact K2|intros; exact I]|].
      intros p E. destruct x; inversion E. reflexivity.
    + destruct destr; [|exact Bad]. destruct (arg_to_param k feat checked text top prop true (EParen r0 e)) as [a' [a2| | ]]; cbn [fst snd] in *; [..|contradiction].
      * repeat split; [exact (K3 a2 eq_refl)|]. intros p E. inversion E. reflexivity.
      * repeat split; [exact K1|]. intros p E. inversion E.
    + destruct (has feat FEAT_BINDING_REST_ELEM_NESTED); [|exact Bad]. destruct (arg_to_param k feat checked text top prop destr (EArr r0 es)) as [a' [a2| | ]]; cbn [fst snd] in *; [..|contradiction].
      * destruct (prop && negb (is_simple k false true true a2)).
        -- repeat split; [exact K1|]. intros p E. inversion E.
        -- repeat split; [exact (K3 a2 eq_refl)|]. intros p E. inversion E. reflexivity.
      * repeat split; [exact K1|]. intros p E. inversion E.
    + destruct (has feat FEAT_BINDING_REST_ELEM_NESTED); [|exact Bad]. destruct (arg_to_param k feat checked text top prop destr (EObj r0 ps)) as [a' [a2| | ]]; cbn [fst snd] in *; [..|contradiction].
      * destruct (prop && negb (is_simple k false true true a2)).
        -- repeat split; [exact K1|]. intros p E. inversion E.
        -- repeat split; [exact (K3 a2 eq_refl)|]. intros p E. inversion E. reflexivity.
      * repeat split; [exact K1|]. intros p E. inversion E.
  - (* assignment *)
    destruct (negb (tv_eqb op T_ASSIGN)) eqn:N; [exact Bad|]. cbn [safe subs] in *. split_and.
    assert (P : plain = false) by (destruct plain; [destruct (tv_eqb op T_ASSIGN); discriminate|reflexivity]).
    pose proof (IH e1 (or_introl eq_refl) false false destr H1) as (K1 & K2 & K3). destruct (arg_to_param k feat checked text false false destr e1) as [l' x]. cbn [fst snd] in *.
    repeat split.
    + cbn [fst safe]. rewrite K1, H0, H. reflexivity.
    + apply no_then; [exact K2|intros]. apply no_then; [apply check_default_safe; assumption|intros]. apply no_then; [apply check_arg_safe|intros; exact I].
    + cbn [snd]. intros p E. destruct x as [l2| | ]; cbn [athen] in E; try discriminate. destruct (check_default k checked false destr destr e2); cbn [athen] in E; try discriminate.
      destruct (check_arg k text false false e2); cbn [athen] in E; inversion E. cbn [safe]. rewrite (K3 l2 eq_refl), H0. reflexivity.
  - (* object pattern *)
    pose proof (stop_map_kept (arg_to_param k feat checked text false true destr) ps) as Z. cbn [safe subs] in *.
    assert (F : Forall (fun x => kept (arg_to_param k feat checked text false true destr x)) ps).
    { apply Forall_forall. intros x K. apply IH; [exact K|]. rewrite forallb_forall in S. exact (S x K). }
    specialize (Z F S). destruct (stop_map (arg_to_param k feat checked text false true destr) ps) as [ps' x]. destruct Z as (Z1 & Z2 & Z3). repeat split.
    + exact Z1.
    + apply no_then; [exact Z2|intros; exact I].
    + intros p E. destruct x; inversion E. exact Z1.
  - (* rest *) apply (Same true).
Qed.
Lemma to_params_safe : forall k feat checked text l, forallb safe l = true -> kept_all (args_to_params k feat checked text l).
Proof.
  intros k feat checked text l S. apply stop_map_kept; [|exact S]. apply Forall_forall. intros x K. apply to_param_safe. rewrite forallb_forall in S. exact (S x K).
Qed.
Lemma delete_safe : forall e, unlinked = true -> safe e = true -> no_panic (check_delete e).
Proof. intros e U S. destruct e; cbn [check_delete] in *; try exact I; try apply no_guard. cbn [safe] in S. rewrite U in S. discriminate. Qed.

Section Calls.
Variable W : list token.
Hypotheses (plain_ok : plain = true -> ~ has_tok T_ASSIGN W) (full_ok : plain = false -> ~ hole W /\ ~ lone_literal W)
  (unlinked_ok : unlinked = true -> ~ has_tok T_OPT_CHAIN W) (linked_ok : unlinked = false -> ~ has_tok T_DELETE W) (tpl_ok : templates_carry W).
Definition suf (s : pst) : Prop := exists pre, W = pre ++ p_toks s.
Lemma bool_cases : forall b : bool, b = true \/ b = false.
Proof. intros []; auto. Qed.
Lemma suf_next : forall s, suf s -> suf (next s).
Proof.
  intros s [pre E]. unfold suf, next. cbn. destruct (p_toks s) as [|t ts]; [exists pre; exact E|]. exists (pre ++ [t]). rewrite <- app_assoc. exact E.
Qed.
Lemma suf_peeked : forall s, suf s -> suf (peeked s).
Proof. intros s H. exact H. Qed.
Lemma at_front : forall v s, at_tok v s = true -> v <> T_EOF -> p_toks s = peek s :: p_toks (next s) /\ t_val (peek s) = v.
Proof.
  intros v [[|t ts] b p] H N; unfold at_tok, pval in H; apply tv_eqb_spec in H; cbn in *; [congruence|auto].
Qed.
Lemma suf_front : forall v s, suf s -> at_tok v s = true -> v <> T_EOF -> exists pre, W = pre ++ peek s :: p_toks (next s).
Proof. intros v s [pre E] H N. exists pre. rewrite <- (proj1 (at_front v s H N)). exact E. Qed.
Lemma suf_has : forall v s, suf s -> at_tok v s = true -> v <> T_EOF -> has_tok v W.
Proof.
  intros v s S H N. destruct (suf_front v s S H N) as [pre E]. exists (peek s). split; [rewrite E; apply in_elt|exact (proj2 (at_front v s H N))].
Qed.
Definition arr_pre (s : pst) : Prop := exists pre t, W = pre ++ t :: p_toks s /\ (t_val t = T_BRACKET_L \/ t_val t = T_COMMA).
Definition obj_pre (s : pst) : Prop := exists pre t, W = pre ++ t :: p_toks s /\ (t_val t = T_BRACE_L \/ t_val t = T_COMMA) /\ has_tok T_BRACE_L W.
Lemma arr_suf : forall s, arr_pre s -> suf s.
Proof. intros s (pre & t & E & _). exists (pre ++ [t]). rewrite <- app_assoc. exact E. Qed.
Lemma obj_suf : forall s, obj_pre s -> suf s.
Proof. intros s (pre & t & E & _). exists (pre ++ [t]). rewrite <- app_assoc. exact E. Qed.
Lemma arr_open : forall v s, suf s -> at_tok v s = true -> v = T_BRACKET_L \/ v = T_COMMA -> arr_pre (next s).
Proof.
  intros v s S H V. assert (N : v <> T_EOF) by (destruct V; subst; discriminate). destruct (suf_front v s S H N) as [pre E].
  exists pre, (peek s). split; [exact E|]. rewrite (proj2 (at_front v s H N)). exact V.
Qed.
Lemma obj_open : forall s, suf s -> at_tok T_BRACE_L s = true -> obj_pre (next s).
Proof.
  intros s S H. assert (N : T_BRACE_L <> T_EOF) by discriminate. destruct (suf_front _ s S H N) as [pre E].
  exists pre, (peek s). split; [exact E|]. split; [left; exact (proj2 (at_front _ s H N))|exact (suf_has _ s S H N)].
Qed.
Lemma obj_comma : forall s, suf s -> at_tok T_COMMA s = true -> has_tok T_BRACE_L W -> obj_pre (next s).
Proof.
  intros s S H B. assert (N : T_COMMA <> T_EOF) by discriminate. destruct (suf_front _ s S H N) as [pre E].
  exists pre, (peek s). split; [exact E|]. split; [right; exact (proj2 (at_front _ s H N))|exact B].
Qed.
Lemma obj_has : forall s, obj_pre s -> has_tok T_BRACE_L W.
Proof. intros s (pre & t & _ & _ & H). exact H. Qed.
Lemma no_hole : forall s, arr_pre s -> plain = false -> at_tok T_COMMA s = false.
Proof.
  intros s (pre & t & E & V) P. destruct (at_tok T_COMMA s) eqn:C; [|reflexivity]. exfalso. destruct (at_front _ s C ltac:(discriminate)) as [F G].
  apply (proj1 (full_ok P)). exists pre, t, (peek s), (p_toks (next s)). rewrite <- F. auto.
Qed.
Lemma no_lone : forall s, obj_pre s -> plain = false -> at_tok T_STRING s = true \/ at_tok T_NUM s = true ->
  at_tok T_COMMA (next s) || at_tok T_BRACE_R (next s) = false.
Proof.
  intros s (pre & t & E & V & B) P L. destruct (at_tok T_COMMA (next s) || at_tok T_BRACE_R (next s)) eqn:C; [|reflexivity]. exfalso.
  assert (F : p_toks s = peek s :: p_toks (next s) /\ (t_val (peek s) = T_STRING \/ t_val (peek s) = T_NUM)).
  { destruct L as [L|L]; destruct (at_front _ s L ltac:(discriminate)); auto. }
  assert (G : p_toks (next s) = peek (next s) :: p_toks (next (next s)) /\ (t_val (peek (next s)) = T_COMMA \/ t_val (peek (next s)) = T_BRACE_R)).
  { apply Bool.orb_true_iff in C. destruct C as [C|C]; destruct (at_front _ (next s) C ltac:(discriminate)); auto. }
  destruct F as [F F2], G as [G G2]. apply (proj2 (full_ok P)). exists pre, t, (peek s), (peek (next s)), (p_toks (next (next s))).
  rewrite F, G in E. split; [exact E|]. split; [destruct V; [left; assumption|right; auto]|]. auto.
Qed.
Lemma elision_safe : forall f s l s', elision f s = (l, s') -> arr_pre s -> forallb (fun x => match x with Some e => safe e | None => plain end) l = true /\ suf s'.
Proof.
  induction f; intros s l s' H A; cbn [elision] in H; [inversion H; split; [reflexivity|apply arr_suf; subst; assumption]|]. destruct (at_tok T_COMMA s) eqn:C.
  - destruct (elision f (next s)) as [l1 s1] eqn:E. destruct (IHf _ _ _ E (arr_open _ s (arr_suf s A) C (or_intror eq_refl))) as [I1 I2]. inversion H. subst.
    split; [|exact I2]. cbn [forallb]. rewrite I1. destruct (bool_cases plain) as [P|P]; [rewrite P; reflexivity|]. rewrite (no_hole s A P) in C. discriminate C.
  - inversion H. subst. split; [reflexivity|apply suf_peeked, arr_suf, A].
Qed.

(** No panic, and what is returned is safe. *)
Definition sound {A} (P : A -> bool) (x : pres A) : Prop := match x with POk a s => P a = true /\ suf s | PPanic => False | _ => True end.
Lemma sound_bind : forall A B (P : A -> bool) (Q : B -> bool) x f, sound P x -> (forall a s, P a = true -> suf s -> sound Q (f a s)) -> sound Q (pbind x f).
Proof. intros A B P Q [a s| | | ] f H K; cbn in *; auto. destruct H; auto. Qed.
Lemma sound_lift : forall A B (Q : B -> bool) (x : ares A) f, no_panic x -> (forall a, x = AOk a -> sound Q (f a)) -> sound Q (alift x f).
Proof. intros A B Q [a| | ] f H K; cbn in *; auto. Qed.
Definition lk (o : option rng) : bool := negb unlinked || match o with None => true | Some _ => false end.
Definition safe2 (x : expr * option rng) : bool := safe (fst x) && lk (snd x).
Definition safes {A} (x : list expr * A) : bool := forallb safe (fst x).
Definition safe_opt (o : option expr) : bool := match o with Some e => safe e | None => true end.
Definition any {A} (x : A) : bool := true.
Lemma must_sound : forall v s, suf s -> sound any (must v s).
Proof. intros v s S. unfold must. destruct (at_tok v s); [split; [reflexivity|apply suf_next, S]|exact I]. Qed.
Lemma prop_dot_sound : forall text s, suf s -> sound safe (prop_dot text s).
Proof.
  intros text s S. unfold prop_dot. cbv zeta. match goal with |- sound _ (if ?b then _ else _) => destruct b end; [|exact I].
  split; [reflexivity|apply suf_next, S].
Qed.
Lemma lk_some : forall s o, suf s -> at_tok T_OPT_CHAIN s = true -> lk o = true.
Proof.
  intros s o S H. unfold lk. destruct (bool_cases unlinked) as [U|U]; [|rewrite U; reflexivity]. exfalso. apply (unlinked_ok U). apply (suf_has _ s S H). discriminate.
Qed.
Lemma chain_safe : forall r e o, lk (Some o) = true -> safe (EChain r e) = true.
Proof. intros r e o H. cbn [safe]. unfold lk in H. rewrite Bool.orb_false_r in H. exact H. Qed.

Record calm (rc : calls) : Prop := mk_calm {
  m_seq : forall k s, suf s -> sound safe (c_seq rc k s);
  m_seq_loop : forall k l acc s, suf s -> sound safe (c_seq_loop rc k l acc s);
  m_assign : forall k c s, suf s -> sound safe (c_assign rc k c s);
  m_yield_expr : forall k s, suf s -> sound safe (c_yield_expr rc k s);
  m_cond : forall k s, suf s -> sound safe (c_cond rc k s);
  m_unary : forall k s, suf s -> sound safe (c_unary rc k s);
  m_update : forall k s, suf s -> sound safe (c_update rc k s);
  m_lhs : forall k s, suf s -> sound safe (c_lhs rc k s);
  m_new_expr : forall k s, suf s -> sound safe (c_new_expr rc k s);
  m_new_loop : forall k e r o s, suf s -> safe e = true -> lk o = true -> sound safe (c_new_loop rc k e r o s);
  m_call_expr : forall k c r d o s, suf s -> safe_opt c = true -> lk o = true -> sound safe2 (c_call_expr rc k c r d o s);
  m_call_loop : forall k l c r d o s, suf s -> safe c = true -> lk o = true -> sound safe2 (c_call_loop rc k l c r d o s);
  m_member_expr : forall k o c r p s, suf s -> safe_opt o = true -> lk p = true -> sound safe2 (c_member_expr rc k o c r p s);
  m_member_loop : forall k e o s, suf s -> safe e = true -> lk o = true -> sound safe2 (c_member_loop rc k e o s);
  m_subscript : forall k e o s, suf s -> sound safe (c_subscript rc k e o s);
  m_arg_list : forall k c i s, suf s -> sound safes (c_arg_list rc k c i s);
  m_arg_loop : forall k c i acc t s, suf s -> forallb safe acc = true -> sound safes (c_arg_loop rc k c i acc t s);
  m_spread : forall k s, suf s -> sound safe (c_spread rc k s);
  m_paren : forall k s, suf s -> sound safe (c_paren rc k s);
  m_arrow : forall k l ps s, suf s -> sound safe (c_arrow rc k l ps s);
  m_arr_lit : forall k l acc s, arr_pre s -> forallb (fun x => match x with Some e => safe e | None => plain end) acc = true -> sound safe (c_arr_lit rc k l acc s);
  m_obj_lit : forall k l acc s, obj_pre s -> forallb safe acc = true -> sound safe (c_obj_lit rc k l acc s);
  m_obj_prop : forall k s, obj_pre s -> match c_obj_prop rc k s with
    | POk e s' => suf s' /\ (at_tok T_COMMA s' || at_tok T_BRACE_R s' = true -> safe e = true) | PPanic => False | _ => True end;
  m_tpl : forall k t s, suf s -> sound safe (c_tpl rc k t s);
  m_tpl_loop : forall k t l acc s, suf s -> sound safe (c_tpl_loop rc k t l acc s);
  m_primary : forall k s, suf s -> sound safe (c_primary rc k s) }.

Section BinSafe.
Variables (feat : N) (u typ : pst -> pres expr) (iu ia : expr -> bool) (ni : bool).
Hypotheses (u_ok : forall s, suf s -> sound safe (u s)) (typ_ok : forall s, suf s -> sound safe (typ s)).
Notation safe_bt := (fun t => safe (of_bt t)).
Lemma bin_safe : forall n,
  (forall lhs min l nu s, suf s -> safe_bt lhs = true -> sound safe_bt (bin_loop u typ iu ia feat false ni false n lhs min l nu s)) /\
  (forall rhs pcd l nu s, suf s -> safe_bt rhs = true -> sound safe_bt (rhs_loop u typ iu ia feat false ni false n rhs pcd l nu s)).
Proof.
  induction n as [|n [IB IR]]; [split; intros; exact I|]. split; intros t p l nu s S T; cbn [bin_loop rhs_loop].
  - destruct (is_bin ni false (peek s)) as [op|]; [|split; assumption].
    match goal with |- sound _ (if ?b then _ else _) => destruct b; [split; assumption|] end.
    match goal with |- sound _ (if ?b then _ else _) => destruct b; [exact I|] end. cbv zeta.
    match goal with |- sound _ (if ?b then _ else _) => destruct b; [exact I|] end.
    apply sound_bind with (P := safe).
    + unfold operand. destruct (tv_eqb op T_TS_AS); [apply typ_ok|apply u_ok]; apply suf_next, S.
    + intros a s1 A1 S1. apply sound_bind with (P := safe_bt); [apply IR; assumption|]. intros rhs s2 A2 S2.
      match goal with |- sound _ (if ?b then _ else _) => destruct b; [exact I|] end.
      match goal with |- sound _ (if ?b then _ else _) => destruct b; [exact I|] end.
      apply IB; [exact S2|]. cbn [of_bt safe]. rewrite T, A2. reflexivity.
  - destruct (is_bin ni false (peek s)) as [op|]; [|split; assumption].
    match goal with |- sound _ (if ?b then _ else _) => destruct b; [|split; assumption] end.
    apply sound_bind with (P := safe_bt); [apply IB; assumption|]. intros. apply IR; assumption.
Qed.
Lemma bin_expr_safe : forall n s, suf s -> sound safe_bt (bin_expr u typ iu ia feat false ni false n None s).
Proof. intros n s S. unfold bin_expr. apply sound_bind with (P := safe); [apply u_ok, S|]. intros. apply bin_safe; assumption. Qed.
End BinSafe.
Section Step.
Variables (feat : N) (text : token -> bytes) (chk : pst -> bool) (params_ok : N -> list expr -> pst -> bool).
Variables (other method : N -> pst -> option (pres rng)) (block : N -> pst -> pres rng).
Hypotheses (other_sound : forall k s x, suf s -> other k s = Some x -> sound any x)
  (method_sound : forall k s x, suf s -> method k s = Some x -> sound any x) (block_sound : forall k s, suf s -> sound any (block k s)).
Variable rc : calls.
Hypothesis M : calm rc.
Lemma bind_bind : forall A B D (x : pres A) (f : A -> pst -> pres B) (g : B -> pst -> pres D), pbind (pbind x f) g = pbind x (fun a s => pbind (f a s) g).
Proof using. intros A B D [a s| | | ] f g; reflexivity. Qed.
Lemma alift_bind : forall A B D (x : ares A) (f : A -> pres B) (g : B -> pst -> pres D), pbind (alift x f) g = alift x (fun a => pbind (f a) g).
Proof using. intros A B D [a| | ] f g; reflexivity. Qed.
Lemma lk_none : lk None = true.
Proof using. unfold lk. apply Bool.orb_true_r. Qed.
Ltac tidy := unfold safe2, safes, safe_opt in *; cbn [fst snd] in *; split_and.
Ltac sufs := solve [repeat match goal with |- suf (next _) => apply suf_next | |- suf (peeked _) => apply suf_peeked | |- suf (if ?b then _ else _) => destruct b | |- suf _ => assumption end].
Ltac val := tidy; cbn [safe]; rewrite ?forallb_app; cbn [forallb];
  repeat match goal with H : _ = true |- _ => rewrite H end; rewrite ?lk_none; cbn [negb andb orb];
  rewrite ?Bool.andb_true_r, ?Bool.andb_false_r; try reflexivity; try assumption.
Lemma op_ok : forall s, suf s -> negb (plain && tv_eqb (pval s) T_ASSIGN) = true.
Proof.
  intros s S. destruct (bool_cases plain) as [P|P]; rewrite P; [|reflexivity]. cbn [andb]. fold (at_tok T_ASSIGN s).
  destruct (bool_cases (at_tok T_ASSIGN s)) as [A|A]; rewrite A; [|reflexivity]. exfalso. apply (plain_ok P). apply (suf_has _ s S A). discriminate.
Qed.
Lemma delete_ok : forall s e, suf s -> safe e = true -> at_tok T_DELETE s = true -> no_panic (check_delete e).
Proof.
  intros s e S E D. destruct (bool_cases unlinked) as [U|U]; [apply delete_safe; assumption|]. exfalso. apply (linked_ok U). apply (suf_has _ s S D). discriminate.
Qed.
Ltac lifts := first
  [apply check_arg_safe|apply check_args_safe
  |match goal with |- no_panic (snd (arg_to_param ?k ?f ?c ?t ?a ?b ?d ?e)) =>
     let H := fresh "K" in assert (H : safe e = true) by (solve [val]); exact (proj1 (proj2 (to_param_safe k f c t e a b d H))) end
  |match goal with |- no_panic (snd (args_to_params ?k ?f ?c ?t ?l)) =>
     let H := fresh "K" in assert (H : forallb safe l = true) by (solve [val]); exact (proj1 (proj2 (to_params_safe k f c t l H))) end
  |solve [eapply delete_ok; [|val|eassumption]; sufs]|exact Logic.I|idtac].
Ltac learn := repeat match goal with
  | E : snd (arg_to_param ?k ?f ?c ?t ?a ?b ?d ?e) = AOk ?p |- _ =>
     let H := fresh "K" in assert (H : safe e = true) by (solve [val]); apply (proj2 (proj2 (to_param_safe k f c t e a b d H))) in E
  | E : snd (args_to_params ?k ?f ?c ?t ?l) = AOk ?p |- _ =>
     let H := fresh "K" in assert (H : forallb safe l = true) by (solve [val]); apply (proj2 (proj2 (to_params_safe k f c t l H))) in E
  end.
Ltac hd := match goal with
  | |- sound _ (c_seq _ _ _) => apply (m_seq _ M)
  | |- sound _ (c_seq_loop _ _ _ _ _) => apply (m_seq_loop _ M)
  | |- sound _ (c_assign _ _ _ _) => apply (m_assign _ M)
  | |- sound _ (c_yield_expr _ _ _) => apply (m_yield_expr _ M)
  | |- sound _ (c_cond _ _ _) => apply (m_cond _ M)
  | |- sound _ (c_unary _ _ _) => apply (m_unary _ M)
  | |- sound _ (c_update _ _ _) => apply (m_update _ M)
  | |- sound _ (c_lhs _ _ _) => apply (m_lhs _ M)
  | |- sound _ (c_new_expr _ _ _) => apply (m_new_expr _ M)
  | |- sound _ (c_new_loop _ _ _ _ _ _) => apply (m_new_loop _ M)
  | |- sound _ (c_call_expr _ _ _ _ _ _ _) => apply (m_call_expr _ M)
  | |- sound _ (c_call_loop _ _ _ _ _ _ _ _) => apply (m_call_loop _ M)
  | |- sound _ (c_member_expr _ _ _ _ _ _ _) => apply (m_member_expr _ M)
  | |- sound _ (c_member_loop _ _ _ _ _) => apply (m_member_loop _ M)
  | |- sound _ (c_subscript _ _ _ _ _) => apply (m_subscript _ M)
  | |- sound _ (c_arg_list _ _ _ _ _) => apply (m_arg_list _ M)
  | |- sound _ (c_arg_loop _ _ _ _ _ _ _) => apply (m_arg_loop _ M)
  | |- sound _ (c_spread _ _ _) => apply (m_spread _ M)
  | |- sound _ (c_paren _ _ _) => apply (m_paren _ M)
  | |- sound _ (c_arrow _ _ _ _ _) => apply (m_arrow _ M)
  | |- sound _ (c_arr_lit _ _ _ _ _) => apply (m_arr_lit _ M)
  | |- sound _ (c_obj_lit _ _ _ _ _) => apply (m_obj_lit _ M)
  | |- sound _ (c_tpl _ _ _ _) => apply (m_tpl _ M)
  | |- sound _ (c_tpl_loop _ _ _ _ _ _) => apply (m_tpl_loop _ M)
  | |- sound _ (c_primary _ _ _) => apply (m_primary _ M)
  | |- sound _ (must _ _) => apply must_sound
  | |- sound _ (prop_dot _ _) => apply prop_dot_sound
  | |- sound _ (block _ _) => apply block_sound
  end.
Ltac done := first [sufs|solve [val]|solve [eapply lk_some; [|eassumption]; sufs]
  |solve [match goal with |- lk (match ?o with _ => _ end) = true => destruct o eqn:? end; first [eapply lk_some; [|eassumption]; sufs|val]]|solve [tidy; match goal with H : lk (Some ?o) = true |- _ => rewrite (chain_safe _ _ o H), H end; reflexivity]|solve [cbn [safe]; rewrite op_ok by sufs; val]|idtac].
Ltac go := cbv zeta; match goal with
  | |- sound _ (POk _ _) => cbn [sound]; split; done
  | |- sound _ PErr => exact Logic.I
  | |- sound _ PPanic => exfalso
  | |- sound _ (pbind (POk _ _) _) => cbn [pbind]; go
  | |- sound _ (pbind PErr _) => exact Logic.I
  | |- sound _ (pbind (pbind _ _) _) => rewrite bind_bind; go
  | |- sound _ (pbind (alift _ _) _) => rewrite alift_bind; go
  | |- sound _ (pbind (match ?x with _ => _ end) _) => destruct x eqn:?; go
  | |- sound _ (pbind _ _) => eapply sound_bind; [hd; done|intros; go]
  | |- sound _ (alift (match ?x with _ => _ end) _) => destruct x eqn:?; go
  | |- sound _ (alift _ _) => apply sound_lift; [lifts|intros; learn; go]
  | |- sound _ (match ?x with _ => _ end) => destruct x eqn:?; go
  | |- sound _ (other_expr _) => unfold other_expr; eapply sound_bind; [eapply other_sound; [|eassumption]; sufs|intros; go]
  | |- sound _ _ => hd; done
  end.
Lemma seq_sf : forall k s, suf s -> sound safe (seq_b text rc k s). Proof. intros. unfold seq_b. go. Qed.
Lemma seq_loop_sf : forall k l acc s, suf s -> sound safe (seq_loop_b rc k l acc s). Proof. intros. unfold seq_loop_b. go. Qed.
Lemma yield_sf : forall k s, suf s -> sound safe (yield_expr_b feat rc k s). Proof. intros. unfold yield_expr_b. go. Qed.
Lemma cond_sf : forall k s, suf s -> sound safe (cond_b feat rc k s).
Proof.
  intros. unfold cond_b. eapply sound_bind; [apply bin_expr_safe; [apply (m_unary _ M)|intros; exact Logic.I|assumption]|intros; go].
Qed.
Lemma assign_sf : forall k c s, suf s -> sound safe (assign_b feat text chk rc k c s).
Proof. intros. unfold assign_b. go. Qed.
Lemma unary_sf : forall k s, suf s -> sound safe (unary_b feat other rc k s). Proof. intros. unfold unary_b. go. Qed.
Lemma update_sf : forall k s, suf s -> sound safe (update_b rc k s). Proof. intros. unfold update_b. go. Qed.
Lemma lhs_sf : forall k s, suf s -> sound safe (lhs_b rc k s). Proof. intros. unfold lhs_b. go. Qed.
Lemma new_expr_sf : forall k s, suf s -> sound safe (new_expr_b feat text rc k s). Proof. intros. unfold new_expr_b. go. Qed.
Lemma new_loop_sf : forall k e r o s, suf s -> safe e = true -> lk o = true -> sound safe (new_loop_b rc k e r o s). Proof. intros. unfold new_loop_b. go. Qed.
Lemma call_expr_sf : forall k c r d o s, suf s -> safe_opt c = true -> lk o = true -> sound safe2 (call_expr_b rc k c r d o s).
Proof. intros. unfold call_expr_b. go. Qed.
Lemma call_loop_sf : forall k l c r d o s, suf s -> safe c = true -> lk o = true -> sound safe2 (call_loop_b rc k l c r d o s).
Proof. intros. unfold call_loop_b. go. Qed.
Lemma member_expr_sf : forall k o c r p s, suf s -> safe_opt o = true -> lk p = true -> sound safe2 (member_expr_b rc k o c r p s).
Proof. intros. unfold member_expr_b. go. Qed.
Lemma member_loop_sf : forall k e o s, suf s -> safe e = true -> lk o = true -> sound safe2 (member_loop_b text rc k e o s).
Proof. intros. unfold member_loop_b. go. Qed.
Lemma subscript_sf : forall k e o s, suf s -> sound safe (subscript_b rc k e o s). Proof. intros. unfold subscript_b. go. Qed.
Lemma arg_list_sf : forall k c i s, suf s -> sound safes (arg_list_b rc k c i s). Proof. intros. unfold arg_list_b. go. Qed.
Lemma arg_loop_sf : forall k c i acc t s, suf s -> forallb safe acc = true -> sound safes (arg_loop_b text rc k c i acc t s). Proof. intros. unfold arg_loop_b. go. Qed.
Lemma spread_sf : forall k s, suf s -> sound safe (spread_b feat rc k s). Proof. intros. unfold spread_b. go. Qed.
Lemma arrow_sf : forall k l ps s, suf s -> sound safe (arrow_b block params_ok rc k l ps s). Proof. intros. unfold arrow_b. go. Qed.
Lemma tpl_sf : forall k t s, suf s -> sound safe (tpl_b rc k t s). Proof. intros. unfold tpl_b. go. Qed.
Lemma tpl_loop_sf : forall k t l acc s, suf s -> sound safe (tpl_loop_b feat rc k t l acc s). 
Proof.
  intros k t l acc s S. unfold tpl_loop_b. cbv zeta. destruct (at_tok T_TPL_HEAD s || at_tok T_TPL_SPAN s || at_tok T_TPL_TAIL s) eqn:E; [|exact Logic.I].
  assert (In (peek s) W /\ (t_val (peek s) = T_TPL_HEAD \/ t_val (peek s) = T_TPL_SPAN \/ t_val (peek s) = T_TPL_TAIL)) as [I1 I2].
  { apply Bool.orb_true_iff in E. destruct E as [E|E]; [apply Bool.orb_true_iff in E; destruct E as [E|E]|];
      destruct (suf_front _ s S E ltac:(discriminate)) as [pre F]; pose proof (proj2 (at_front _ s E ltac:(discriminate))) as G;
      (split; [rewrite F; apply in_elt|auto]). }
  pose proof (tpl_ok (peek s) I1 I2) as X. destruct (t_ext (peek s)) eqn:?; try contradiction. go.
Qed.
Lemma primary_sf : forall k s, suf s -> sound safe (primary_b text chk other rc k s).
Proof.
  intros k s S. unfold primary_b. destruct (other k s) as [x|] eqn:O.
  { unfold other_expr. apply sound_bind with (P := safe); [eapply sound_bind; [eapply other_sound; eassumption|intros; split; [reflexivity|assumption]]|].
    intros e s1 E S1. go. }
  go.
  - apply obj_open; [assumption|apply tv_eqb_spec; assumption].
  - apply (arr_open T_BRACKET_L); [assumption|apply tv_eqb_spec; assumption|auto].
Qed.
Lemma paren_sf : forall k s, suf s -> sound safe (paren_b feat text chk rc k s).
Proof.
  intros k s S. unfold paren_b. eapply sound_bind; [hd; sufs|]. intros a s1 A S1. cbv zeta. pose proof (to_params_safe k feat (chk s1) text (fst a) A) as (Z1 & Z2 & Z3).
  destruct (args_to_params k feat (chk s1) text (fst a)) as [args ps]. cbn [fst snd] in *.
  assert (G : forall r, safe (add_seq r args) = true).
  { intros r. destruct args as [|x [|y args]]; cbn [add_seq safe]; [reflexivity| |reflexivity]. cbn [forallb] in Z1. rewrite Bool.andb_true_r in Z1. exact Z1. }
  destruct ps; [..|contradiction]; go; try apply G.
Qed.
Lemma arr_lit_sf : forall k l acc s, arr_pre s -> forallb (fun x => match x with Some e => safe e | None => plain end) acc = true -> sound safe (arr_lit_b rc k l acc s).
Proof.
  intros k l acc s A H. unfold arr_lit_b. destruct (elision (S (length (p_toks s))) s) as [holes s0] eqn:E. destruct (elision_safe _ _ _ _ E A) as [E1 E2]. go.
  all: try (cbn [safe]; rewrite !forallb_app; cbn [forallb]; rewrite ?H, ?E1; cbn [andb]; rewrite ?Bool.andb_true_r; assumption || reflexivity).
  all: apply (arr_open T_COMMA); auto.
Qed.
Lemma obj_lit_sf : forall k l acc s, obj_pre s -> forallb safe acc = true -> sound safe (obj_lit_b rc k l acc s).
Proof.
  intros k l acc s A H. pose proof (obj_suf s A) as S. unfold obj_lit_b. destruct (at_tok T_BRACE_R s) eqn:B; [go|].
  pose proof (m_obj_prop _ M k (peeked s) A) as Z. destruct (c_obj_prop rc k (peeked s)) as [e s1| | | ]; cbn [pbind]; try exact Logic.I; [|contradiction].
  destruct Z as [Z1 Z2]. destruct (at_tok T_COMMA s1) eqn:C.
  - specialize (Z2 eq_refl). hd; [apply obj_comma; [exact Z1|exact C|exact (obj_has s A)]|]. val.
  - destruct (at_tok T_BRACE_R s1) eqn:D; [|exact Logic.I]. specialize (Z2 eq_refl). go.
Qed.
Lemma sound_prop : forall x : pres expr, sound safe x -> match x with POk e s' => suf s' /\ (at_tok T_COMMA s' || at_tok T_BRACE_R s' = true -> safe e = true) | PPanic => False | _ => True end.
Proof using. intros [e s| | | ] H; auto. destruct H; auto. Qed.
Definition key_ok (s : pst) (x : pres (expr * bool)) : Prop := match x with
  | POk (e, c) s' => suf s' /\ safe e = true /\
      (c = false -> match e with EName _ _ _ _ => True | _ => s' = next s /\ (at_tok T_STRING s = true \/ at_tok T_NUM s = true) end)
  | PPanic => False | _ => True end.
Lemma obj_prop_sf : forall k s, obj_pre s -> match obj_prop_b text method rc k s with
  | POk e s' => suf s' /\ (at_tok T_COMMA s' || at_tok T_BRACE_R s' = true -> safe e = true) | PPanic => False | _ => True end.
Proof.
  intros k s A. pose proof (obj_suf s A) as S. unfold obj_prop_b.
  destruct (at_tok T_DOT_TRI s); [apply sound_prop; go|]. destruct (method k s) as [x|] eqn:Mt.
  { apply sound_prop. unfold method_expr. eapply sound_bind; [eapply method_sound; [|eassumption]; sufs|intros; go]. }
  cbv zeta. match goal with |- context [pbind ?x ?f] => pose (X := x); assert (K : key_ok s X); [subst X|change x with X; generalize X K; clear X K] end.
  { destruct (at_tok T_STRING s) eqn:St; [match goal with |- key_ok _ (if ?b then _ else _) => destruct b end; [exact Logic.I|]; cbn [key_ok]; repeat split; [sufs|auto]|].
    destruct (at_tok T_NUM s) eqn:Nm; [cbn [key_ok]; repeat split; [sufs|auto]|]. destruct (at_tok T_BRACKET_L s).
    - match goal with |- key_ok _ (pbind ?x ?f) => assert (Z : sound (fun y => safe (fst y) && snd y) (pbind x f)) by go; destruct (pbind x f) as [[e c] s1| | | ] end;
        cbn [key_ok]; try exact Logic.I; [|contradiction]. cbn [sound fst snd] in Z. destruct Z as [Z1 Z2]. split_and. repeat split; try assumption. intros C. congruence.
    - destruct (can_be_key (peek s)); [|exact Logic.I]. match goal with |- key_ok _ (if ?b then _ else _) => destruct b end; [exact Logic.I|].
      cbn [key_ok]. repeat split. sufs. }
  intros X K. destruct X as [[e c] s1| | | ]; cbn [pbind key_ok] in *; try exact Logic.I; [|contradiction]. destruct K as (K1 & K2 & K3).
  destruct (at_tok T_COLON s1 || at_tok T_ASSIGN s1) eqn:V.
  { apply sound_prop. go. pose proof (op_ok s1 K1) as O. fold (at_tok T_ASSIGN s1) in O. val. }
  destruct (at_tok T_PAREN_L s1 || c) eqn:P; [exact Logic.I|]. apply Bool.orb_false_iff in P. destruct P as [_ P]. specialize (K3 P).
  assert (G : forall n, match e with EName _ _ _ _ => True | _ => s1 = next s /\ (at_tok T_STRING s = true \/ at_tok T_NUM s = true) end ->
     match e with EName _ _ _ _ => False | _ => True end -> at_tok T_COMMA s1 || at_tok T_BRACE_R s1 = true -> safe (EProp n e None c false false) = true).
  { intros n K N Q. assert (s1 = next s /\ (at_tok T_STRING s = true \/ at_tok T_NUM s = true)) as [L1 L2] by (destruct e; try contradiction; exact K). subst s1.
    cbn [safe]. rewrite K2, Bool.andb_false_r. destruct (bool_cases plain) as [Pl|Pl]; rewrite Pl; [reflexivity|]. rewrite (no_lone s A Pl L2) in Q. discriminate Q. }
  destruct e; try (split; [sufs|intros Q; apply G; auto]).
  destruct (kw && negb (bytes_eqb n (bs "eval")) && negb (bytes_eqb n (bs "arguments"))); [exact Logic.I|]. split; [sufs|]. intros _. cbn [safe]. rewrite Bool.andb_false_r. reflexivity.
Qed.
End Step.

Section Knot.
Variables (feat : N) (text : token -> bytes) (chk : pst -> bool) (params_ok : N -> list expr -> pst -> bool).
Variables (other method : N -> pst -> option (pres rng)) (block : N -> pst -> pres rng).
Hypotheses (other_sound : forall k s x, suf s -> other k s = Some x -> sound any x)
  (method_sound : forall k s x, suf s -> method k s = Some x -> sound any x) (block_sound : forall k s, suf s -> sound any (block k s)).
Theorem calls_calm : forall fuel, calm (calls_at feat text chk other method block params_ok fuel).
Proof.
  induction fuel as [|fuel IH].
  - constructor; intros; exact I.
  - constructor; intros; cbn [calls_at c_seq c_seq_loop c_assign c_yield_expr c_cond c_unary c_update c_lhs c_new_expr c_new_loop c_call_expr c_call_loop c_member_expr c_member_loop c_subscript c_arg_list c_arg_loop c_spread c_paren c_arrow c_arr_lit c_obj_lit c_obj_prop c_tpl c_tpl_loop c_primary].
    all: first [apply seq_sf|apply seq_loop_sf|apply assign_sf|apply yield_sf|apply cond_sf|apply unary_sf|apply update_sf|apply lhs_sf|apply new_expr_sf|apply new_loop_sf|apply call_expr_sf|apply call_loop_sf|apply member_expr_sf|apply member_loop_sf|apply subscript_sf|apply arg_list_sf|apply arg_loop_sf|apply spread_sf|apply paren_sf|apply arrow_sf|apply arr_lit_sf|apply obj_lit_sf|apply obj_prop_sf|apply tpl_sf|apply tpl_loop_sf|apply primary_sf]; assumption.
Qed.
End Knot.

Section Statements.
Variables (feat : N) (text : token -> bytes) (chk : pst -> bool).
Variables (ex asg : N -> pst -> pres expr).
Variables (decl : N -> pst -> option (pres rng)) (names_ok : N -> list expr -> pst -> bool)
  (jump_ok : N -> stmt -> pst -> bool) (use_strict : token -> bool).
Hypotheses (ex_ok : forall k s, suf s -> sound safe (ex k s)) (asg_ok : forall k s, suf s -> sound safe (asg k s))
  (decl_sound : forall k s x, suf s -> decl k s = Some x -> sound any x).
Definition safe_stmt (s : stmt) : bool := match s with SE e => safe e | _ => true end.
Lemma sound_any : forall A (P : A -> bool) x, sound P x -> sound any x.
Proof using. intros A P [a s| | | ] H; cbn in *; auto. destruct H; auto. Qed.
Lemma semi_sound : forall b s, suf s -> sound any (advance_if_semi b s).
Proof using.
  intros b s S. unfold advance_if_semi. destruct (b && negb (may_end (peek s))); [exact Logic.I|].
  destruct (at_tok T_SEMI s); (split; [reflexivity|]); [apply suf_next|]; exact S.
Qed.
Ltac sufs := solve [repeat match goal with |- suf (next _) => apply suf_next | |- suf (peeked _) => apply suf_peeked | |- suf (if ?b then _ else _) => destruct b | |- suf _ => assumption end].
Ltac fits L := solve [apply L; sufs|eapply sound_any; apply L; sufs].
Ltac go hd := cbv zeta; match goal with
  | |- sound _ (POk _ _) => cbn [sound]; split; [try reflexivity; try assumption|try sufs]
  | |- sound _ PErr => exact Logic.I
  | |- sound _ PFuel => exact Logic.I
  | |- sound _ PPanic => exfalso
  | |- sound _ (pbind (POk _ _) _) => cbn [pbind]; go hd
  | |- sound _ (pbind PErr _) => exact Logic.I
  | |- sound _ (pbind (pbind _ _) _) => rewrite bind_bind; go hd
  | |- sound _ (pbind (alift _ _) _) => rewrite alift_bind; go hd
  | |- sound _ (pbind (must _ _) _) => eapply sound_bind; [fits must_sound|intros; go hd]
  | |- sound _ (pbind (advance_if_semi _ _) _) => eapply sound_bind; [fits semi_sound|intros; go hd]
  | |- sound _ (pbind (match ?x with _ => _ end) _) => destruct x eqn:?; go hd
  | |- sound _ (pbind _ _) => eapply sound_bind; [hd|intros; go hd]
  | |- sound _ (alift _ _) => apply sound_lift; [try apply check_arg_safe|intros; go hd]
  | |- sound _ (match ?x with _ => _ end) => destruct x eqn:?; go hd
  | |- sound _ _ => hd
  end.
Ltac e_hd := first [fits ex_ok|fits asg_ok].
Lemma ident_sf : forall k s, suf s -> sound any (ident text k s).
Proof. intros. unfold ident. go idtac. Qed.
Lemma prop_name_sf : forall k s, suf s -> sound any (prop_name text asg k s).
Proof. intros. unfold prop_name. go e_hd. Qed.
Lemma default_sf : forall k b s, suf s -> sound any (pattern_default text asg k b s).
Proof. intros. unfold pattern_default. go e_hd. Qed.
Lemma elision_suf : forall f s l s', elision f s = (l, s') -> suf s -> suf s'.
Proof.
  induction f; intros s l s' H A; cbn [elision] in H; [inversion H; subst; exact A|]. destruct (at_tok T_COMMA s).
  - destruct (elision f (next s)) as [l1 s1] eqn:E. inversion H. subst. exact (IHf _ _ _ E (suf_next s A)).
  - inversion H. exact A.
Qed.
Lemma bind_sf : forall n,
  (forall e k s, suf s -> sound any (bind feat text asg n e k s)) /\ (forall e k s, suf s -> sound any (bind_rest feat text asg n e k s)) /\
  (forall k l acc s, suf s -> sound any (bind_obj feat text asg n k l acc s)) /\ (forall k s, suf s -> sound any (bind_prop feat text asg n k s)) /\
  (forall k l acc s, suf s -> sound any (bind_arr feat text asg n k l acc s)).
Proof.
  induction n as [|n IH]; [repeat split; intros; exact Logic.I|]. destruct IH as (I1 & I2 & I3 & I4 & I5).
  repeat split; intros; rewrite ?bind_rest_S; cbn [bind bind_obj bind_prop bind_arr].
  5: destruct (elision (S (length (p_toks s))) s) as [h s0] eqn:E; pose proof (elision_suf _ _ _ _ E H).
  all: go ltac:(first [fits I1|fits I2|fits I3|fits I4|fits I5|fits ident_sf|fits prop_name_sf|fits default_sf]).
Qed.
Lemma bind1_sf : forall n e k s, suf s -> sound any (bind feat text asg n e k s).
Proof. intros n. exact (proj1 (bind_sf n)). Qed.
Lemma var_dec_sf : forall n l k s, suf s -> sound any (var_dec feat text asg n l k s).
Proof. intros. unfold var_dec. go ltac:(first [fits bind1_sf|fits asg_ok]). Qed.
Lemma var_decs_sf : forall n kind k acc s, suf s -> sound any (var_decs feat text asg n kind k acc s).
Proof. induction n as [|n IH]; intros; [exact Logic.I|]. cbn [var_decs]. go ltac:(first [fits var_dec_sf|fits IH]). Qed.
Lemma var_stmt_sf : forall n kind e k s, suf s -> sound safe_stmt (var_stmt feat text asg names_ok n kind e k s).
Proof. intros. unfold var_stmt. go ltac:(first [fits var_decs_sf]). Qed.
Lemma expr_stmt_sf : forall k s, suf s -> sound any (expr_stmt ex k s).
Proof. intros. unfold expr_stmt. go e_hd. Qed.
Lemma head_expr_sf : forall k s, suf s -> sound any (head_expr ex k s).
Proof. intros. unfold head_expr. go e_hd. Qed.
Lemma throw_sf : forall k s, suf s -> sound any (throw_stmt ex k s).
Proof. intros. unfold throw_stmt. go e_hd. Qed.
Lemma ret_sf : forall k s, suf s -> sound any (ret_stmt ex k s).
Proof. intros. unfold ret_stmt. go e_hd. Qed.
Lemma opt_expr_sf : forall v k s, suf s -> sound safe_opt (opt_expr ex v k s).
Proof. intros. unfold opt_expr. go e_hd. Qed.
Lemma jump_sf : forall mk k s, suf s -> sound any (jump_stmt text jump_ok mk k s).
Proof. intros. unfold jump_stmt. go ltac:(fits ident_sf). Qed.
Lemma no_init : forall v k s s', opt_expr ex v k s = POk None s' -> s' = peeked s /\ at_tok v s = true.
Proof using.
  intros v k s s' H. unfold opt_expr in H. destruct (at_tok v s); [inversion H; auto|]. destruct (ex k (peeked s)); discriminate H.
Qed.
Lemma left_sf : forall k i s, safe_stmt i = true -> no_panic (for_left feat text chk k i s).
Proof using.
  intros k i s H. destruct i; cbn [for_left]; try exact Logic.I.
  - destruct (negb (is_simple k true true false e)); [exact Logic.I|]. destruct (is_lit_pat e); [|exact Logic.I].
    apply no_then; [|intros; exact Logic.I]. exact (proj1 (proj2 (to_param_safe k feat (chk s) text e true false true H))).
  - destruct (Nat.ltb 1 (length decs)); [exact Logic.I|]. match goal with |- no_panic (if ?b then _ else _) => destruct b end; exact Logic.I.
Qed.

Section Rec.
Variable rec : N -> pst -> pres stmt.
Hypothesis rec_ok : forall k s, suf s -> sound any (rec k s).
Ltac s_hd := first [fits rec_ok|fits head_expr_sf|fits opt_expr_sf|fits var_stmt_sf|fits ex_ok|fits asg_ok|fits ident_sf].
Lemma stmt_list_sf : forall n v k p acc s, suf s -> sound any (stmt_list use_strict rec n v k p acc s).
Proof. induction n as [|n IH]; intros; [exact Logic.I|]. cbn [stmt_list]. go ltac:(first [fits rec_ok|fits IH]). Qed.
Lemma block_stmt_sf : forall n k s, suf s -> sound any (block_stmt use_strict rec n k s).
Proof. intros. unfold block_stmt. go ltac:(fits stmt_list_sf). Qed.
Lemma case_body_sf : forall n k acc s, suf s -> sound any (case_body rec n k acc s).
Proof. induction n as [|n IH]; intros; [exact Logic.I|]. cbn [case_body]. go ltac:(first [fits rec_ok|fits IH]). Qed.
Lemma cases_sf : forall n k b acc s, suf s -> sound any (cases ex rec n k b acc s).
Proof. induction n as [|n IH]; intros; [exact Logic.I|]. cbn [cases]. go ltac:(first [fits case_body_sf|fits ex_ok|fits IH]). Qed.
Lemma catch_sf : forall n k s, suf s -> sound any (catch_clause feat text asg names_ok use_strict rec n k s).
Proof. intros. unfold catch_clause. go ltac:(first [fits bind1_sf|fits block_stmt_sf]). Qed.
Lemma for_sf : forall n k s, suf s -> sound any (for_stmt feat text chk ex asg names_ok rec n k s).
Proof.
  intros n k s H. unfold for_stmt. cbv zeta. match goal with |- sound _ (if ?b then _ else _) => destruct b end; [exact Logic.I|].
  eapply sound_bind; [fits must_sound|]. intros a s2 _ S2.
  set (kl := block_kind k SPK_LOOP_DIRECT). set (ki := N.lor kl SPK_NOT_IN).
  match goal with |- sound _ (pbind ?x ?f) => assert (I1 : match x with POk i s3 => (match i with Some i => safe_stmt i = true | None => is_name (peek s3) (bs "of") false = false end) /\ suf s3 | PPanic => False | _ => True end) end.
  { destruct (ahead_var feat ki (peeked s2)).
    - pose proof (var_stmt_sf n t true ki (peeked s2) S2) as V. destruct (var_stmt feat text asg names_ok n t true ki (peeked s2)); cbn [pbind sound] in *; auto.
    - pose proof (opt_expr_sf T_SEMI ki (peeked s2) S2) as V. pose proof (no_init T_SEMI ki (peeked s2)) as N.
      destruct (opt_expr ex T_SEMI ki (peeked s2)) as [[e|] s3| | | ]; cbn [pbind sound option_map safe_opt safe_stmt] in *; auto. split; [|exact (proj2 V)].
      destruct (N s3 eq_refl) as [-> N2]. unfold at_tok, pval in N2. apply tv_eqb_spec in N2. unfold is_name. change (peek (peeked (peeked s2))) with (peek (peeked s2)). rewrite N2. reflexivity. }
  match goal with |- sound _ (pbind ?x ?f) => destruct x as [i s3| | | ]; cbn [pbind]; try exact Logic.I; [|contradiction] end. destruct I1 as [I1 S3].
  change (peek (peeked s3)) with (peek s3).
  match goal with |- sound _ (if ?b then _ else _) => destruct b end; [exact Logic.I|].
  match goal with |- sound _ (if ?b then _ else _) => destruct b end; [exact Logic.I|].
  match goal with |- sound _ (if ?b then _ else _) => destruct b eqn:B end.
  - destruct i as [i|]; [|rewrite I1; exact Logic.I]. apply sound_lift; [apply left_sf; exact I1|]. intros. go ltac:(first [fits rec_ok|fits ex_ok|fits asg_ok]).
  - go ltac:(first [fits rec_ok|fits opt_expr_sf]).
Qed.
Lemma stmt_b_sf : forall n k s, suf s -> sound any (stmt_b feat text chk ex asg decl names_ok jump_ok use_strict rec n k s).
Proof.
  intros n k s H. unfold stmt_b. cbv zeta. destruct (decl k (peeked s)) as [x|] eqn:E.
  - eapply sound_bind; [exact (decl_sound k (peeked s) x H E)|]. intros. split; [reflexivity|assumption].
  - go ltac:(first [fits var_stmt_sf|fits for_sf|fits ret_sf|fits jump_sf|fits throw_sf|fits expr_stmt_sf|fits block_stmt_sf
      |unfold if_stmt; go s_hd|unfold while_stmt; go s_hd|unfold with_stmt; go s_hd|unfold do_stmt; go s_hd|unfold label_stmt; go s_hd
      |unfold switch_stmt; go ltac:(first [fits head_expr_sf|fits cases_sf])|unfold try_stmt; go ltac:(first [fits block_stmt_sf|fits catch_sf])
      |progress unfold debug_stmt; go idtac|progress unfold empty_stmt; go idtac]).
Qed.
End Rec.
Lemma stmt_at_sf : forall n k s, suf s -> sound any (stmt_at feat text chk ex asg decl names_ok jump_ok use_strict n k s).
Proof. induction n as [|n IH]; intros k s A; [exact Logic.I|]. cbn [stmt_at]. apply stmt_b_sf; [exact IH|exact A]. Qed.
Theorem program_calm : forall n k s, suf s -> sound any (program feat text chk ex asg decl names_ok jump_ok use_strict n k s).
Proof. intros n k s H. unfold program. eapply sound_bind; [apply stmt_list_sf; [apply stmt_at_sf|exact H]|]. intros. split; [reflexivity|assumption]. Qed.
End Statements.
End Calls.
End Safe.
