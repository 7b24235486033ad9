(** C29, C38, C39, C40 for the whole parser, functions and classes included; C52: what the members of classes and
    object literals must be. *)
From Coq Require Import Lia ZifyBool ZifyNat ZifyN.
From Verif Require Import Base TokenModel LexModel ParseBase BinModel BinSpec BinProofs SymtabModel EarlyModel ExprModel ExprSpec ExprProofs
  ExprPlaces ExprTargets ExprReads ExprProps StmtModel StmtReads StmtPlaces StmtEnds StmtSpec StmtTargets StmtProps FnModel FnSpec FnReads FnWorld FnPlaces.

(** What a function, method or class assigns to. *)
Definition body_sound (b : stmt) : Prop := match b with SE e => every assignable e | b => forall x, inside x b -> sound x end.
Definition targets_ok (ps : list expr) : Prop := Forall (every assignable) ps /\ Forall (fun p => target_part p = true) ps.
Definition meth_sound (m : meth) : Prop := every assignable (m_key m) /\ Forall (every assigned) (m_params m) /\ body_sound (m_body m).
Definition member_sound (m : member) : Prop :=
  match m with
  | MMethod m => meth_sound m
  | MField _ key _ _ _ v => every assignable key /\ Forall (every assignable) (opt_list v)
  | MStatic _ l => forall st x, In st l -> inside x st -> sound x
  end.
Fixpoint fn_sound (f : fnode) : Prop :=
  match f with
  | NFn _ _ _ _ ps b => Forall (every assigned) ps /\ body_sound b
  | NArrow _ ps b | NArrowStmt _ _ ps b => targets_ok ps /\ body_sound b
  | NMethod m => meth_sound m
  | NBlock b => body_sound b
  | NClass _ _ super _ ms => Forall (every assignable) (opt_list super) /\ Forall member_sound ms
  | NExportVar _ v => forall x, inside x v -> sound x
  | NExportFn _ _ f => fn_sound f
  | NExportDefault _ e => every assignable e
  | NImport _ _ _ | NExport _ _ _ _ | NRest _ => True
  end.
(** The early errors of methods and classes. *)
Fixpoint members_ok (text : token -> bytes) (f : fnode) : Prop :=
  match f with
  | NMethod m => method_ok text False m
  | NClass _ _ _ _ ms => Forall (member_ok text) ms /\ one_constructor text ms /\ private_once ms
  | NExportFn _ _ f => members_ok text f
  | _ => True
  end.

Section Sound.
Variables (text : token -> bytes) (Other Method Block : rng -> list token -> Prop) (Decl : rng -> list token -> token -> Prop)
  (Rest : sort -> rng -> list token -> Prop).
Hypotheses (other_fr : framed Other) (method_fr : framed Method) (block_fr : framed Block).
Local Definition ss := stat_sound text Other Method Block Decl False other_fr method_fr block_fr.
Local Definition tg := targets text Other Method Block True other_fr method_fr block_fr.
Local Definition fs := full_sound text Other Method Block Decl False other_fr method_fr block_fr.
Local Definition sgs := single_sound text Other Method Block Decl False other_fr method_fr block_fr.
Local Definition bis := bind_sound text Other Method Block Decl False other_fr method_fr block_fr.
Local Definition ew := every_weak text Other Method Block Decl False other_fr method_fr block_fr.
Lemma block_is_sound : forall b ts, StmtSpec.block text Other Method Block Decl True False b ts -> body_sound b.
Proof using All. intros b ts H. pose proof (proj1 (proj2 ss) _ _ H) as S. destruct H. exact S. Qed.
Lemma body_is_sound : forall free b ts, fbody text Other Method Block Decl True free b ts -> body_sound b.
Proof using All. destruct 1; [eapply block_is_sound; eassumption|]. cbn. eapply fs; eassumption. Qed.
Lemma leaf_every : forall (P : expr -> Prop) r n p kw, P (EName r n p kw) -> every P (EName r n p kw).
Proof. intros. constructor; [assumption|constructor|constructor]. Qed.
Lemma fparam_sound : forall this e ts, fparam text Other Method Block True this e ts -> every assigned e.
Proof using All.
  destruct 1 as [e ts B|l lts o h hts O _ B S|t _ T].
  - eapply bis; eassumption.
  - constructor; [exact I| |constructor]. cbn [kids]. constructor; [eapply bis; eassumption|]. constructor; [|constructor]. apply ew. eapply sgs; eassumption.
  - apply leaf_every. exact I.
Qed.
Lemma fparams_sound : forall this l ts, fparams text Other Method Block True this l ts -> Forall (every assigned) l.
Proof using All. induction 1; constructor; try (eapply fparam_sound; eassumption); [constructor|assumption]. Qed.
Lemma head_sound : forall l ts, arrow_head text Other Method Block True l ts -> targets_ok l.
Proof using All.
  destruct 1 as [e ts N|name nts l ps pts h _ _ _ P].
  - inversion N; subst. split; constructor; try constructor; try exact I; try constructor; reflexivity.
  - exact (proj1 (proj2 (proj2 (proj2 (proj2 (proj2 (proj2 (proj2 tg))))))) _ _ P).
Qed.
Lemma mkey_sound : forall p e c ts, mkey text Other Method Block True p e c ts -> every assignable e.
Proof using All.
  destruct 1 as [e c ts K|t _ T]; [|apply leaf_every; exact I].
  exact (proj1 (proj2 (proj2 (proj2 (proj2 (proj2 (proj2 (proj2 (proj2 (proj2 (proj2 (proj2 (proj2 (proj2 tg))))))))))))) _ _ _ _ K).
Qed.
Lemma method_sound : forall c m ts, method_of text Other Method Block Decl True c m ts -> meth_sound m.
Proof using All.
  destruct 1 as [static sts async gen kind ats key computed kts l ps pts h b bts _ _ _ K _ _ _ _ P B|l ps pts h b bts _ _ _ P B]; unfold meth_sound; cbn [m_key m_params m_body].
  - split; [eapply mkey_sound; eassumption|]. split; [eapply fparams_sound; eassumption|eapply block_is_sound; eassumption].
  - split; [apply leaf_every; exact I|]. split; [eapply fparams_sound; eassumption|eapply block_is_sound; eassumption].
Qed.
Lemma member_is_sound : forall m ts, member_of text Other Method Block Decl True m ts -> member_sound m.
Proof using All.
  destruct 1 as [m ts H|static sts key computed kts v vts x _ K V _|t r l bts T B]; cbn [member_sound].
  - eapply method_sound; eassumption.
  - split; [eapply mkey_sound; eassumption|]. destruct V; constructor; [eapply sgs; eassumption|constructor].
  - inversion B; subst. match goal with L : stats _ _ _ _ _ _ _ _ _ _ |- _ => exact (proj1 (proj2 (proj2 ss)) _ _ _ L) end.
Qed.
Lemma spelled_sound : forall loose q f ts nx, spelled text Other Method Block Decl Rest True loose q f ts nx -> fn_sound f.
Proof using All.
  induction 1 as [q async ats fw gen gts name nts l ps pts h b bts nx Q A F _ G N _ _ _ P B
    |a gen gts ps hts w b bts nx A G H _ _ _ B|q a gen gts ps hts w b bts x nx _ A G H _ _ _ B X|m ts nx M1 _|b ts nx B
    |q c name nts super ets l ms mts h nx Q C N _ E1 L H M1 _ _ _|i s x nx I S X|i l ts f s x nx I C F S X|e l es ts h x nx E0 L H EL K X
    |e l es ts h v fts x nx E0 L H EL F X|e m v fts x nx E0 M1 F X|e m a t kw v fts x nx E0 M1 A T F X|e v kind l ts x nx E0 V D X
    |e f ts nx E0 H IH X|e d f ts nx E0 D H IH X|e d v ts x nx E0 D S _ X|q r ts nx H]; cbn [fn_sound]; try exact Logic.I; try assumption.
  - split; [eapply fparams_sound; eassumption|eapply body_is_sound; eassumption].
  - split; [eapply head_sound; eassumption|eapply body_is_sound; eassumption].
  - split; [eapply head_sound; eassumption|eapply body_is_sound; eassumption].
  - eapply method_sound; eassumption.
  - eapply block_is_sound; eassumption.
  - split.
    + destruct E1 as [|t n e ts T E _]; constructor; [exact (proj1 tg _ _ _ _ E)|constructor].
    + clear -M1 other_fr method_fr block_fr Rest. induction M1; [constructor|assumption|constructor; [eapply member_is_sound; eassumption|assumption]].
  - exact (proj1 (stat_sound text Other Method Block Decl loose other_fr method_fr block_fr) _ _ _ (T_var _ _ _ _ _ _ _ _ _ _ _ _ _ V D X)).
  - eapply sgs; eassumption.
Qed.
End Sound.

Section Claims.
Variables (feat : N) (text : token -> bytes) (chk : pst -> bool).
Variables (params_ok : N -> list expr -> pst -> bool) (names_ok : N -> list expr -> pst -> bool)
  (jump_ok : N -> stmt -> pst -> bool) (use_strict : token -> bool)
  (fn_ok : N -> option expr -> list expr -> stmt -> pst -> bool) (class_ok : N -> expr -> pst -> bool).
Variables (rest_async : bool -> N -> pst -> pres rng) (rest_other : N -> pst -> option (pres rng)).
Variable Rest : sort -> rng -> list token -> Prop.
Hypotheses (rest_fr : rest_framed Rest) (rest_ok : rest_read Rest rest_async rest_other).
Notation parse := (parse feat text chk params_ok names_ok jump_ok use_strict fn_ok class_ok rest_async rest_other).
Notation parse_expr := (parse_expr feat text chk params_ok names_ok jump_ok use_strict fn_ok class_ok rest_async rest_other).
(** [l] is spelled [ts], and [P] holds of every function, method and class in it, however deep. *)
Notation program_of P n l ts nx := (stats text (functions_of text Rest True P n) (methods_of text Rest True P n) (blocks_of text Rest True P n)
  (decls_of text Rest True P n False) True False l ts nx).
Notation expression_of P n e ts := (full text (functions_of text Rest True P n) (methods_of text Rest True P n) (blocks_of text Rest True P n) True e ts).
Notation any := (fun (_ : fnode) (_ : list token) => True).

(** A program that is accepted is read to the end, no token is skipped or read twice, and its tokens are a spelling
    of the statements returned; wherever these hold a function, method, class or block, its tokens are a spelling of
    one, of its parameters, its body or its members, and so on to any depth.
    Partial: what the grammar allows beyond ECMA-262 is shown by the refuted claims here and those for expressions
    and statements; JSX, expressions that begin with import, and calls of a function called async are not modelled. *)
Theorem C39_functions_partial : forall n k s l s', parse n k s = POk l s' ->
  exists ts, p_toks s = ts ++ p_toks s' /\ pval s' = T_EOF /\ program_of any n l ts (peek s').
Proof using rest_fr rest_ok.
  intros n k s l s' H. destruct (parse_reads feat text chk params_ok names_ok jump_ok use_strict fn_ok class_ok rest_async rest_other Rest rest_fr rest_ok
    any (fun _ _ _ _ _ _ _ _ _ _ _ _ _ _ => I) _ _ _ _ _ H) as (ts & (R & _) & E & S). exists ts; auto.
Qed.
Theorem C39_expression_functions_partial : forall n k s e s', parse_expr n k s = POk e s' ->
  exists ts, p_toks s = ts ++ p_toks s' /\ expression_of any n e ts.
Proof using rest_fr rest_ok.
  intros n k s e s' H. destruct (parse_expr_reads feat text chk params_ok names_ok jump_ok use_strict fn_ok class_ok rest_async rest_other Rest rest_fr rest_ok
    any (fun _ _ _ _ _ _ _ _ _ _ _ _ _ _ => I) _ _ _ _ _ H) as (ts & (R & _) & S). exists ts; auto.
Qed.
(** In every function body, class and block, every statement that needs a semicolon has one, or stands before a
    closing brace, the end of the input or a line terminator; so does an async arrow function that is a statement.
    Here a statement is one of [stats] with [loose] False; see [semi].
    Partial: as C29_program_partial; fields of classes, C39_field_refuted. *)
Theorem C29_functions_partial : forall n k s l s', parse n k s = POk l s' ->
  exists ts, p_toks s = ts ++ p_toks s' /\ pval s' = T_EOF /\ program_of any n l ts (peek s').
Proof using rest_fr rest_ok. exact C39_functions_partial. Qed.
(** Wherever a function, method or class is, its name, parameters, body and members are within its range, in source
    order and without overlap, and so are the parts of these; ranges begin and end at edges of the tokens that spell it.
    Partial: as C39_functions_partial; a method without a name has no place for it. *)
Theorem C40_functions_partial : forall n k s l s', parse n k s = POk l s' -> ordered (p_toks s) ->
  exists ts a b, p_toks s = ts ++ p_toks s' /\ srow a b l /\ Forall (snested (edge ts)) l /\
    program_of (fun f us => ordered us -> placed (edge us) f) n l ts (peek s').
Proof using rest_fr rest_ok.
  intros n k s l s' H (a & b & O).
  assert (PO : forall (Other Method Block : rng -> list token -> Prop) (Decl : rng -> list token -> token -> Prop) loose q f ts nx,
    framed Other -> framed Method -> framed Block -> (forall nx, framed (fun r ts => Decl r ts nx)) ->
    spelled text Other Method Block Decl Rest True loose q f ts nx -> ordered ts -> placed (edge ts) f).
  { intros Ot M B D loose q f ts nx F1 F2 F3 F4 S Or. apply (spelled_placed text Ot M B D Rest F1 F2 F3 F4 rest_fr (edge ts) _ _ _ _ _ S Or).
    apply Forall_forall. intros t I. split; exists t; auto. }
  destruct (parse_reads feat text chk params_ok names_ok jump_ok use_strict fn_ok class_ok rest_async rest_other Rest rest_fr rest_ok
    _ PO _ _ _ _ _ H) as (ts & (R & _) & E & S). exists ts, a.
  rewrite R in O. apply span_app in O as (m & O & _). exists m. split; [exact R|].
  pose proof (part_frame feat text chk params_ok names_ok jump_ok use_strict fn_ok class_ok rest_async rest_other Rest rest_fr rest_ok _ PO n) as PF.
  destruct (stat_places text _ _ _ _ (PF False AFunction (eof_tok 0)) (PF False AMethod (eof_tok 0)) (PF False ABlock (eof_tok 0)) (fun nx => PF False ADecl nx) (edge ts) False) as (_ & _ & L & _).
  destruct (L _ _ _ S _ _ O) as [L1 L2]; [apply Forall_forall; intros t I; split; exists t; auto|]. auto.
Qed.
(** Whatever is assigned to in a function, method or class can be, wherever it is: the parameters of async
    arrow functions are names, members or patterns (here it is not shown that they are no members); the heads of for-in and for-of, assignments and updates
    are as in C38_program_partial.
    Partial: as C38_program_partial. *)
Theorem C38_functions_partial : forall n k s l s', parse n k s = POk l s' ->
  (forall st x, In st l -> inside x st -> sound x) /\
  exists ts, p_toks s = ts ++ p_toks s' /\ program_of (fun f _ => fn_sound f) n l ts (peek s').
Proof using rest_fr rest_ok.
  intros n k s l s' H.
  assert (PO : forall (Other Method Block : rng -> list token -> Prop) (Decl : rng -> list token -> token -> Prop) loose q f ts nx,
    framed Other -> framed Method -> framed Block -> (forall nx, framed (fun r ts => Decl r ts nx)) ->
    spelled text Other Method Block Decl Rest True loose q f ts nx -> fn_sound f).
  { intros Ot M B D loose q f ts nx F1 F2 F3 F4 S. exact (spelled_sound text Ot M B D Rest F1 F2 F3 _ _ _ _ _ S). }
  destruct (parse_reads feat text chk params_ok names_ok jump_ok use_strict fn_ok class_ok rest_async rest_other Rest rest_fr rest_ok
    (fun f _ => fn_sound f) PO _ _ _ _ _ H) as (ts & (R & _) & E & S).
  pose proof (part_frame feat text chk params_ok names_ok jump_ok use_strict fn_ok class_ok rest_async rest_other Rest rest_fr rest_ok (fun f _ => fn_sound f) PO n) as PF.
  split; [|exists ts; auto].
  exact (proj1 (proj2 (proj2 (stat_sound text _ _ _ _ False (PF False AFunction (eof_tok 0)) (PF False AMethod (eof_tok 0)) (PF False ABlock (eof_tok 0))))) _ _ _ S).
Qed.
(** In every class and object literal of an accepted program: a getter has no parameter, a setter one that is no rest
    parameter; a method called constructor is neither accessor nor async nor a generator; nothing static is called
    prototype, no field is called constructor; a class has at most one constructor; and members of the same private
    name are a getter and a setter, both static or neither.
    Partial: of three members of the same private name two may be the same, C52_private_refuted; escaped names are
    not counted, C52_escape_refuted. *)
Theorem C52_members_partial : forall n k s l s', parse n k s = POk l s' ->
  exists ts, p_toks s = ts ++ p_toks s' /\ program_of (fun f _ => members_ok text f) n l ts (peek s').
Proof using rest_fr rest_ok.
  intros n k s l s' H.
  assert (PO : forall (Other Method Block : rng -> list token -> Prop) (Decl : rng -> list token -> token -> Prop) loose q f ts nx,
    framed Other -> framed Method -> framed Block -> (forall nx, framed (fun r ts => Decl r ts nx)) ->
    spelled text Other Method Block Decl Rest True loose q f ts nx -> members_ok text f).
  { intros Ot M B D loose q f ts nx F1 F2 F3 F4 S. induction S; cbn [members_ok]; auto. }
  destruct (parse_reads feat text chk params_ok names_ok jump_ok use_strict fn_ok class_ok rest_async rest_other Rest rest_fr rest_ok
    (fun f _ => members_ok text f) PO _ _ _ _ _ H) as (ts & (R & _) & E & S). exists ts; auto.
Qed.
End Claims.
Print Assumptions C39_functions_partial.
Print Assumptions C39_expression_functions_partial.
Print Assumptions C29_functions_partial.
Print Assumptions C40_functions_partial.
Print Assumptions C38_functions_partial.
Print Assumptions C52_members_partial.

(** A world without JSX, calls of import and calls of async. *)
Definition no_rest (q : sort) (r : rng) (ts : list token) : Prop := False.
Lemma no_rest_framed : rest_framed no_rest.
Proof. intros q r ts []. Qed.
Lemma no_rest_read : rest_read no_rest (fun _ _ _ => PErr) no_parts.
Proof. split; intros; discriminate. Qed.
Definition earth (n : nat) : world :=
  world_at feats t_text (fun _ => true) (fun _ _ _ => true) (fun _ _ _ => true) (fun _ _ _ => true) (fun _ => false)
    (fun _ _ _ _ _ => true) (fun _ _ _ => true) (fun _ _ _ => PErr) no_parts n.
Definition all_of (n : nat) (k : N) (l : list (tv * bytes * ext * bool)) : pres (list stmt) :=
  FnModel.parse feats t_text (fun _ => true) (fun _ _ _ => true) (fun _ _ _ => true) (fun _ _ _ => true) (fun _ => false)
    (fun _ _ _ _ _ => true) (fun _ _ _ => true) (fun _ _ _ => PErr) no_parts n k (src l).
Definition expr_of (k : N) (l : list (tv * bytes * ext * bool)) : option shape :=
  shape_parsed (parse_expr feats t_text (fun _ => true) (fun _ _ _ => true) (fun _ _ _ => true) (fun _ _ _ => true) (fun _ => false)
    (fun _ _ _ _ _ => true) (fun _ _ _ => true) (fun _ _ _ => PErr) no_parts 40 k (src l)).
Definition accepted {A} (x : pres A) : bool := match x with POk _ s => at_tok T_EOF s | _ => false end.
(** The node of a function, class or async arrow function. *)
Notation in_earth f := (f feats t_text (fun _ => true) (c_seq (w_calls feats t_text (fun _ => true) (fun _ _ _ => true) 40 (earth 40)))
  (w_asg feats t_text (fun _ => true) (fun _ _ _ => true) 40 (earth 40))).
Definition earth_body := w_body feats t_text (fun _ => true) (fun _ _ _ => true) (fun _ _ _ => true) (fun _ _ _ => true) (fun _ => false) 40 (earth 40).
Definition function_of (dec : bool) (l : list (tv * bytes * ext * bool)) : pres fnode :=
  in_earth fn_dec earth_body (fun _ _ _ _ _ => true) 40 dec false SPK_GLOBAL (src l).
Definition class_of (l : list (tv * bytes * ext * bool)) : pres fnode :=
  in_earth class_dec (c_lhs (w_calls feats t_text (fun _ => true) (fun _ _ _ => true) 40 (earth 40))) earth_body
    (fun _ _ _ _ _ => true) (fun _ _ _ => true) 40 false false SPK_GLOBAL (src l).
Definition arrow_of (l : list (tv * bytes * ext * bool)) : pres (option fnode) :=
  async_arrow feats t_text (fun _ => true) (c_seq (w_calls feats t_text (fun _ => true) (fun _ _ _ => true) 40 (earth 40)))
    (w_args feats t_text (fun _ => true) (fun _ _ _ => true) 40 (earth 40)) earth_body (fun _ _ _ _ _ => true) false SPK_GLOBAL (src l).
Definition kind_shape (k : mkind) : shape :=
  match k with KInit => leaf "init" | KMethod => leaf "method" | KGet => leaf "get" | KSet => leaf "set" | KCtor => leaf "constructor" end.
Definition member_shape (m : member) : shape :=
  match m with
  | MMethod m => Sh (if m_static m then bs "static method" else bs "method") ([kind_shape (m_kind m); shape_of (m_key m)] ++ map shape_of (m_params m) ++ [sshape_of (m_body m)])
  | MField _ key _ _ static v => Sh (if static then bs "static field" else bs "field") [shape_of key; opt_expr_shape v]
  | MStatic _ l => Sh (bs "static") (map sshape_of l)
  end.
Definition ispec_shape (i : ispec) : shape :=
  match i with
  | IDefault _ l => Sh (bs "default") [shape_of l]
  | INamespace _ l => Sh (bs "*") [shape_of l]
  | INamed _ id l => Sh (bs "name") [opt_expr_shape id; shape_of l]
  end.
Definition espec_shape (e : espec) : shape := Sh (if e_ns e then bs "*" else bs "name") [shape_of (e_local e); opt_expr_shape (e_id e)].
Fixpoint fshape_of (f : fnode) : shape :=
  match f with
  | NFn _ _ _ name ps b => Sh (bs "function") (opt_expr_shape name :: map shape_of ps ++ [sshape_of b])
  | NArrow _ ps b | NArrowStmt _ _ ps b => Sh (bs "async =>") (map shape_of ps ++ [sshape_of b])
  | NMethod m => member_shape (MMethod m)
  | NBlock b => sshape_of b
  | NClass _ name super _ ms => Sh (bs "class") (opt_expr_shape name :: opt_expr_shape super :: map member_shape ms)
  | NImport _ l src => Sh (bs "import") (map ispec_shape l ++ [shape_of src])
  | NExport _ all l src => Sh (if all then bs "export *" else bs "export") (map espec_shape l ++ [opt_expr_shape src])
  | NExportVar _ v => Sh (bs "export") [sshape_of v]
  | NExportFn _ def f => Sh (if def then bs "export default" else bs "export") [fshape_of f]
  | NExportDefault _ e => Sh (bs "export default") [shape_of e]
  | NRest _ => leaf "rest"
  end.
Definition node_parsed (x : pres fnode) : option shape := match x with POk f _ => Some (fshape_of f) | _ => None end.
Definition arrow_parsed (x : pres (option fnode)) : option shape := match x with POk (Some f) _ => Some (fshape_of f) | _ => None end.
Notation braces := [y T_BRACE_L; y T_BRACE_R].
Notation parens := [y T_PAREN_L; y T_PAREN_R].
Notation empty := (Sh (bs "block") []).
Definition pvt (n : bytes) := (T_NAME_PVT, n, XNone, false).

(** [function a(b = [c], ...c) { return () => { class a {} } }]: programs meet the hypotheses, and nest. *)
Definition sample_program : list (tv * bytes * ext * bool) :=
  [y T_FUNC; A; y T_PAREN_L; B; y T_ASSIGN; y T_BRACKET_L; C; y T_BRACKET_R; y T_COMMA; y T_DOT_TRI; C; y T_PAREN_R; y T_BRACE_L;
   y T_RETURN] ++ parens ++ [y T_ARROW; y T_BRACE_L; y T_CLASS; A] ++ braces ++ [y T_BRACE_R; y T_BRACE_R].
Example functions_accepted : accepted (all_of 40 SPK_GLOBAL sample_program) = true.
Proof. vm_compute; reflexivity. Qed.
Example functions_ordered : ordered (p_toks (src sample_program)).
Proof. exists 0, 50. vm_compute. repeat split; repeat constructor. Qed.
Example functions_node : node_parsed (function_of true sample_program) =
  Some (Sh (bs "function") [leaf "a"; Sh (bs "default") [leaf "b"; Sh (bs "[]") [leaf "c"]]; Sh (bs "...") [leaf "c"];
    Sh (bs "block") [Sh (bs "return") [Sh (bs "=>") [leaf "other"]]]]).
Proof. vm_compute; reflexivity. Qed.
(** [class a extends b { constructor() {} get #a() {} set #a(b) {} static c = a; static { } }] *)
Example class_node : node_parsed (class_of ([y T_CLASS; A; y T_EXTENDS; B; y T_BRACE_L; w (bs "constructor")] ++ parens ++ braces ++
    [w (bs "get"); pvt (bs "a")] ++ parens ++ braces ++ [w (bs "set"); pvt (bs "a"); y T_PAREN_L; B; y T_PAREN_R] ++ braces ++
    [y T_STATIC; C; y T_ASSIGN; A; y T_SEMI; y T_STATIC] ++ braces ++ [y T_BRACE_R])) =
  Some (Sh (bs "class") [leaf "a"; leaf "b"; Sh (bs "method") [leaf "constructor"; leaf "constructor"; empty];
    Sh (bs "method") [leaf "get"; leaf "a"; empty]; Sh (bs "method") [leaf "set"; leaf "a"; leaf "b"; empty];
    Sh (bs "static field") [leaf "c"; leaf "a"]; Sh (bs "static") []]).
Proof. vm_compute; reflexivity. Qed.
(** Two constructors, a getter with a parameter, a field called constructor. *)
Example class_rejected :
  node_parsed (class_of ([y T_CLASS; y T_BRACE_L; w (bs "constructor")] ++ parens ++ braces ++ [w (bs "constructor")] ++ parens ++ braces ++ [y T_BRACE_R])) = None /\
  node_parsed (class_of ([y T_CLASS; y T_BRACE_L; w (bs "get"); A; y T_PAREN_L; B; y T_PAREN_R] ++ braces ++ [y T_BRACE_R])) = None /\
  node_parsed (class_of [y T_CLASS; y T_BRACE_L; w (bs "constructor"); y T_SEMI; y T_BRACE_R]) = None.
Proof. vm_compute; auto. Qed.

(** [new function() {}()] is read as [new (function() {}())]. *)
Theorem C39_new_function_refuted : expr_of SPK_GLOBAL ([y T_NEW; y T_FUNC] ++ parens ++ braces ++ parens) = Some (Sh (bs "new") [Sh (bs "call") [leaf "other"]]).
Proof. vm_compute; reflexivity. Qed.
(** [[async () => a, b]] has one element. *)
Theorem C39_async_body_refuted : expr_of SPK_GLOBAL ([y T_BRACKET_L; w (bs "async")] ++ parens ++ [y T_ARROW; A; y T_COMMA; B; y T_BRACKET_R]) =
  Some (Sh (bs "[]") [leaf "other"]).
Proof. vm_compute; reflexivity. Qed.
(** [class { a(this) {} }] *)
Theorem C39_this_refuted : node_parsed (class_of ([y T_CLASS; y T_BRACE_L; A; y T_PAREN_L; y T_THIS; y T_PAREN_R] ++ braces ++ [y T_BRACE_R])) =
  Some (Sh (bs "class") [leaf "none"; leaf "none"; Sh (bs "method") [leaf "method"; leaf "a"; leaf "this"; empty]]).
Proof. vm_compute; reflexivity. Qed.
(** [function () a] *)
Theorem C39_expression_body_refuted : node_parsed (function_of false ([y T_FUNC] ++ parens ++ [A])) = Some (Sh (bs "function") [leaf "none"; leaf "a"]).
Proof. vm_compute; reflexivity. Qed.
(** [async a (b) => c] and [async * (b) => c] *)
Theorem C39_async_arrow_refuted :
  arrow_parsed (arrow_of [w (bs "async"); A; y T_PAREN_L; B; y T_PAREN_R; y T_ARROW; C]) = Some (Sh (bs "async =>") [leaf "b"; leaf "c"]) /\
  arrow_parsed (arrow_of [w (bs "async"); y T_MUL; y T_PAREN_L; B; y T_PAREN_R; y T_ARROW; C]) = Some (Sh (bs "async =>") [leaf "b"; leaf "c"]).
Proof. vm_compute; auto. Qed.
(** [class { "get" a() {} }] *)
Theorem C39_accessor_refuted :
  node_parsed (class_of ([y T_CLASS; y T_BRACE_L; (T_STRING, bs "get", XNone, false); A] ++ parens ++ braces ++ [y T_BRACE_R])) =
  Some (Sh (bs "class") [leaf "none"; leaf "none"; Sh (bs "method") [leaf "get"; leaf "a"; empty]]).
Proof. vm_compute; reflexivity. Qed.
(** [class { () {} }] *)
Theorem C39_nameless_refuted : node_parsed (class_of ([y T_CLASS; y T_BRACE_L] ++ parens ++ braces ++ [y T_BRACE_R])) =
  Some (Sh (bs "class") [leaf "none"; leaf "none"; Sh (bs "method") [leaf "method"; leaf ""; empty]]).
Proof. vm_compute; reflexivity. Qed.
(** [class { a = b c }] on one line. *)
Theorem C39_field_refuted : node_parsed (class_of [y T_CLASS; y T_BRACE_L; A; y T_ASSIGN; B; C; y T_BRACE_R]) =
  Some (Sh (bs "class") [leaf "none"; leaf "none"; Sh (bs "field") [leaf "a"; leaf "b"]; Sh (bs "field") [leaf "c"; leaf "none"]]).
Proof. vm_compute; reflexivity. Qed.
(** [class { get #a() {} set #a(b) {} get #a() {} }] *)
Theorem C52_private_refuted : node_parsed (class_of ([y T_CLASS; y T_BRACE_L; w (bs "get"); pvt (bs "a")] ++ parens ++ braces ++
    [w (bs "set"); pvt (bs "a"); y T_PAREN_L; B; y T_PAREN_R] ++ braces ++ [w (bs "get"); pvt (bs "a")] ++ parens ++ braces ++ [y T_BRACE_R])) =
  Some (Sh (bs "class") [leaf "none"; leaf "none"; Sh (bs "method") [leaf "get"; leaf "a"; empty];
    Sh (bs "method") [leaf "set"; leaf "a"; leaf "b"; empty]; Sh (bs "method") [leaf "get"; leaf "a"; empty]]).
Proof. vm_compute; reflexivity. Qed.
(** Two constructors, the second with an escape in its name, are accepted. *)
Theorem C52_escape_refuted : node_parsed (class_of ([y T_CLASS; y T_BRACE_L; w (bs "constructor")] ++ parens ++ braces ++
    [(T_NAME, bs "constructor", XIdent true, false)] ++ parens ++ braces ++ [y T_BRACE_R])) =
  Some (Sh (bs "class") [leaf "none"; leaf "none"; Sh (bs "method") [leaf "constructor"; leaf "constructor"; empty];
    Sh (bs "method") [leaf "constructor"; leaf "constructor"; empty]]).
Proof. vm_compute; reflexivity. Qed.
(** Classes that are well formed and rejected: [class { static constructor() {} constructor() {} }] and
    [class { ["constructor"] = a }]. *)
Theorem C52_static_refuted :
  node_parsed (class_of ([y T_CLASS; y T_BRACE_L; y T_STATIC; w (bs "constructor")] ++ parens ++ braces ++ [w (bs "constructor")] ++ parens ++ braces ++ [y T_BRACE_R])) = None /\
  node_parsed (class_of [y T_CLASS; y T_BRACE_L; y T_BRACKET_L; (T_STRING, bs "constructor", XNone, false); y T_BRACKET_R; y T_ASSIGN; A; y T_BRACE_R]) = None.
Proof. vm_compute; auto. Qed.
