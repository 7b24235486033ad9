(** The conversion to ESTree: what is proved, and where the code departs from ESTree. *)
From Coq Require Import String SpecFloat.
From Verif Require Import Base TokenModel NodeModel SourceModel SourceSpec WalkModel EstreeModel EstreeSpec EstreeProofs EstreeTreeProofs.
Local Open Scope string_scope.

(** ** C56: Convert gives the ESTree that stands for the tree *)

(** Every node of the parser's tree except the program and what is only part of another node. *)
Definition whole (n : pn) : bool :=
  negb (mem (es_type (strip n)) ["Program"; "SwitchCase"; "VariableDeclarator"; "ImportSpecifier"; "ImportDefaultSpecifier";
    "ImportNamespaceSpecifier"; "ExportSpecifier"; ns_spec; "JSXOpeningFragment"; "JSXClosingFragment"]).

(** Missing: the trees [supported] leaves out, on which the code departs from ESTree (see the refutations below), and
    TypeScript. *)
Theorem C56_estree_partial : forall src lcol n,
  well (code src) n = true -> supported (code src) lcol n = true -> whole n = true ->
  exists e, convert src lcol n = COk e /\ conf e = true /\ e_ty e = es_type (strip n) /\ got e = want (code src) lcol n.
Proof.
  intros src lcol n W U H. apply negb_true_iff in H.
  assert (M : forall t, es_type (strip n) = t -> mem t ["Program"; "SwitchCase"; "VariableDeclarator"; "ImportSpecifier"; "ImportDefaultSpecifier";
    "ImportNamespaceSpecifier"; "ExportSpecifier"; ns_spec; "JSXOpeningFragment"; "JSXClosingFragment"] = false) by (intros t <-; exact H).
  assert (NP : p_ty n <> N_PROG).
  { intro E. destruct n as [t lo hi sc ks]. cbn in E. subst t. discriminate (M _ eq_refl). }
  destruct (good_all src lcol n W U NP) as [e [E1 [E2 [E3 E4]]]].
  assert (Hc : how_of n = HConvert).
  { rewrite (how_strip src n W). unfold how_of_type. cbn [assoc].
    repeat match goal with |- match (if String.eqb ?t ?s then _ else _) with _ => _ end = _ =>
      let X := fresh in destruct (String.eqb t s) eqn:X;
      [apply String.eqb_eq in X; discriminate (M _ X)|] end. reflexivity. }
  rewrite Hc in E1. exists e. split; [exact E1|]. split; [exact E2|]. split; [|exact E4].
  rewrite E3. unfold out_of_type. destruct (String.eqb (es_type (strip n)) ns_spec) eqn:X; [|reflexivity].
  apply String.eqb_eq in X. discriminate (M _ X).
Qed.
Print Assumptions C56_estree_partial.

(** Missing also: the program's sourceType, which is always empty. *)
Theorem C56_program_partial : forall src lcol n,
  well_program (code src) n = true -> supported (code src) lcol n = true ->
  exists e, convert_prog src lcol n = COk e
    /\ (exists sc ks, e = En "Program" (p_lo n) (p_hi n) (place (code src) lcol (p_lo n) (p_hi n)) sc ks
         /\ conf_here (String.eqb "sourceType") "Program" sc ks = true
         /\ forallb (fun kf => match kf with (_, f) => fld_all conf f end) ks = true)
    /\ got e = Ro "Program" (p_lo n) (p_hi n) (place (code src) lcol (p_lo n) (p_hi n)) [("sourceType", SvT [])]
                  [("body", map (option_map (want (code src) lcol)) (kids (p_ks n) "Body"))].
Proof. exact program_ok. Qed.
Print Assumptions C56_program_partial.

(** A program with a decorated class, parentheses, a loop without its outer parts and a template. *)
Definition name (lo hi : nat) (s : string) : pn := Pn N_NAME lo hi [("NodeText", SvT (bs s)); ("IsPrivate", SvB false)] [].
Definition txt (lo hi : nat) (s : string) : pn := Pn N_LIT_STR lo hi [("Val", SvT (bs s))] [].
Definition nl : string := String (Ascii.ascii_of_nat 10) EmptyString.
Definition ex_src : source := new_source (bs ("@d class A extends (B) {}" ++ nl ++ "for (;x;) `a${y}`;")).
Definition ex_class : pn :=
  Pn N_STMT_CLASS 3 25 [] [("Decorators", [Some (Pn N_DECORATOR 0 2 [] [("Expr", [Some (name 1 2 "d")])])]);
    ("Id", [Some (name 9 10 "A")]); ("Super", [Some (Pn N_EXPR_PAREN 19 22 [] [("Expr", [Some (name 20 21 "B")])])]);
    ("Body", [Some (Pn N_CLASS_BODY 23 25 [] [("Elems", [])])])].
Definition ex_tpl : pn := Pn N_EXPR_TPL 36 43 [] [("Tag", [None]); ("Elems", [Some (txt 37 38 "a"); Some (name 40 41 "y"); Some (txt 42 42 "")])].
Definition ex_for : pn :=
  Pn N_STMT_FOR 26 44 [] [("Init", [None]); ("Test", [Some (name 32 33 "x")]); ("Update", [None]);
    ("Body", [Some (Pn N_STMT_EXPR 36 44 [("Dir", SvB false)] [("Expr", [Some ex_tpl])])])].
Definition ex_prog : pn := Pn N_PROG 0 44 [] [("Body", [Some ex_class; Some ex_for])].
Example C56_some_tree :
  well_program (code ex_src) ex_prog = true /\ supported (code ex_src) true ex_prog = true
  /\ well (code ex_src) ex_class = true /\ supported (code ex_src) true ex_class = true /\ whole ex_class = true
  /\ want (code ex_src) true ex_tpl
     = Ro "TemplateLiteral" 36 43 (Some ((2, 10), (2, 17))) []
         [("quasis", [Some (Ro "TemplateElement" 37 38 (Some ((2, 11), (2, 12)))
                       [("tail", SvB false); ("value", SvObj [("cooked", bs "a"); ("raw", bs "a")])] []);
                      Some (Ro "TemplateElement" 42 42 (Some ((2, 16), (2, 16)))
                       [("tail", SvB true); ("value", SvObj [("cooked", []); ("raw", [])])] [])]);
          ("expressions", [Some (Ro "Identifier" 40 41 (Some ((2, 14), (2, 15))) [("name", SvT (bs "y"))] [])])].
Proof. vm_compute. auto 10. Qed.

(** A substitution that is a string literal is taken for a text of the template. *)
Theorem C56_template_refuted : exists src n e,
  well (code src) n = true /\ whole n = true /\ convert src true n = COk e /\ conf e = false /\ got e <> want (code src) true n.
Proof.
  exists (new_source (bs "`a${'b'}c`")).
  exists (Pn N_EXPR_TPL 0 10 [] [("Tag", [None]); ("Elems", [Some (txt 1 2 "a"); Some (txt 4 7 "b"); Some (txt 8 9 "c")])]).
  eexists. split; [vm_compute; reflexivity|]. split; [vm_compute; reflexivity|]. split; [vm_compute; reflexivity|].
  split; [vm_compute; reflexivity|]. vm_compute. discriminate.
Qed.
Print Assumptions C56_template_refuted.

(** A regular expression has no field regex. *)
Theorem C56_regex_refuted : exists src n e,
  well (code src) n = true /\ whole n = true /\ convert src true n = COk e /\ sget (e_sc e) "regex" = SvNil
  /\ got e <> want (code src) true n.
Proof.
  exists (new_source (bs "/a/g")). exists (Pn N_LIT_REGEXP 0 4 [("Pattern", SvT (bs "a")); ("Flags", SvT (bs "g"))] []).
  eexists. split; [vm_compute; reflexivity|]. split; [vm_compute; reflexivity|]. split; [vm_compute; reflexivity|].
  split; [vm_compute; reflexivity|]. vm_compute. discriminate.
Qed.
Print Assumptions C56_regex_refuted.

(** A directive is given by its value, so an escape can make it another directive. *)
Theorem C56_directive_refuted : exists src n e,
  well (code src) n = true /\ whole n = true /\ convert src true n = COk e
  /\ sget (e_sc e) "directive" = SvT (bs "use strict")
  /\ value_of (code src) n DirText = SvT (bs "use\x20strict").
Proof.
  exists (new_source (bs "'use\x20strict'")).
  exists (Pn N_STMT_EXPR 0 15 [("Dir", SvB true)] [("Expr", [Some (txt 0 15 "use strict")])]).
  eexists. split; [vm_compute; reflexivity|]. split; [vm_compute; reflexivity|]. split; [vm_compute; reflexivity|].
  split; vm_compute; reflexivity.
Qed.
Print Assumptions C56_directive_refuted.

(** A number too large for a double becomes 0. *)
Theorem C56_infinity_refuted : exists src n e,
  well (code src) n = true /\ whole n = true /\ value_of (code src) n LitValue = SvF (S754_infinity false)
  /\ convert src true n = COk e /\ sget (e_sc e) "value" = SvF (S754_zero false).
Proof.
  exists (new_source (bs "1e400")).
  exists (Pn N_LIT_NUM 0 5 [("NodeToFloat", SvF (S754_infinity false)); ("NodeIsBigint", SvB false)] []).
  eexists. split; [vm_compute; reflexivity|]. split; [vm_compute; reflexivity|]. split; [reflexivity|].
  split; vm_compute; reflexivity.
Qed.
Print Assumptions C56_infinity_refuted.

(** The parts of a namespaced JSX name are texts where ESTree has nodes. *)
Theorem C56_namespaced_refuted : forall src lcol n e,
  p_ty n = N_JSX_NS -> convert src lcol n = COk e -> conf e = false.
Proof.
  intros src lcol [t lo hi sc ks] e T C. cbn in T. subst t. unfold convert in C. rewrite conv_eq in C.
  cbn [conv_node pick pick_convert] in C. unfold apply_rule in C. cbn [r_dec rl r_sc r_kids r_type] in C.
  destruct (loc_of_rng src lcol lo hi) as [l|]; [|discriminate C]. cbn in C. injection C as <-. reflexivity.
Qed.
Print Assumptions C56_namespaced_refuted.
Example C56_namespaced_some : exists e, convert (new_source (bs "a:b")) true
  (Pn N_JSX_NS 0 3 [("NS", SvT (bs "a")); ("Name", SvT (bs "b"))] []) = COk e
  /\ well (bs "a:b") (Pn N_JSX_NS 0 3 [("NS", SvT (bs "a")); ("Name", SvT (bs "b"))] []) = true.
Proof. eexists. split; vm_compute; reflexivity. Qed.

(** No program is told to be a script or a module. *)
Theorem C56_source_type_refuted : forall src lcol n e, convert_prog src lcol n = COk e -> conf e = false.
Proof.
  intros src lcol [t lo hi sc ks] e C. unfold convert_prog, apply_rule in C. cbn [r_dec rl r_sc r_kids r_type] in C.
  destruct (loc_of_rng src lcol lo hi) as [l|]; [|discriminate C].
  destruct (fills _ _) as [fs|]; [|destruct (evals _ _ _ _ _ _); discriminate C].
  cbn in C. injection C as <-. cbn [conf]. apply andb_false_iff. left. unfold conf_here. cbn. rewrite !andb_false_r. reflexivity.
Qed.
Print Assumptions C56_source_type_refuted.
Example C56_source_type_some : exists e, convert_prog ex_src true ex_prog = COk e.
Proof. eexists. vm_compute. reflexivity. Qed.

(** Without LineCol a decorated class, method or field makes Convert panic. *)
Theorem C56_no_location_refuted : forall src lo hi sc ks t o r,
  t = N_STMT_CLASS \/ t = N_METHOD \/ t = N_FIELD -> kids ks "Decorators" = o :: r ->
  convert src false (Pn t lo hi sc ks) = CPanic.
Proof.
  intros src lo hi sc ks t o r T K. unfold convert. rewrite conv_eq.
  assert (D : loc_with_decorator src false lo hi (kids ks "Decorators") = None) by (rewrite K; destruct o; reflexivity).
  destruct T as [->|[->| ->]]; cbn [conv_node pick pick_convert].
  - unfold apply_rule. cbn [r_dec rd]. rewrite D. reflexivity.
  - destruct (is_ty (kid ks "Val") N_EXPR_FN || is_ty (kid ks "Val") N_STMT_FN); [|reflexivity].
    unfold apply_rule. cbn [r_dec rd]. rewrite D. reflexivity.
  - unfold apply_rule. cbn [r_dec rd]. rewrite D. reflexivity.
Qed.
Print Assumptions C56_no_location_refuted.
Example C56_no_location_some : well (code ex_src) ex_class = true /\ exists o r, kids (p_ks ex_class) "Decorators" = o :: r.
Proof. split; [vm_compute; reflexivity|]. eexists. eexists. reflexivity. Qed.
