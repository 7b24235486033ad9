(** C54: JSX elements are read as they are spelled, with tags that match and contents without gaps. *)
From Coq Require Import Lia ZifyBool ZifyNat ZifyN.
From Verif Require Import Base TokenModel LexModel ParseBase BinModel SymtabModel EarlyModel ExprModel ExprSpec ExprPlaces ExprReads ExprProps
  StmtModel StmtReads StmtSpec StmtTargets StmtProps FnModel FnSpec FnReads FnWorld FnPlaces FnProps ModProps JsxModel JsxSpec JsxReads JsxFuel.

(** The elements in an element: its own, its children, the values of its attributes. *)
Inductive within (e : jelem) : jelem -> Prop :=
| W_self : within e e
| W_child r o attrs l c e' : In (KElem e') l -> within e e' -> within e (JElem r o attrs l c)
| W_value r o attrs l c r' n p e' : In (AAttr r' n p (VElem e')) attrs -> within e e' -> within e (JElem r o attrs l c).
(** An element with two tags reaches from the first to the second, they have the same name, and its children fill the
    place between them; one with one tag has its place and no children. *)
Definition balanced (e : jelem) : Prop :=
  match e with
  | JElem r o _ l (Some c) => fst r = fst (o_rng o) /\ snd r = snd (c_rng c) /\ name_str (o_name o) = name_str (c_name c) /\
      tiles (snd (o_rng o)) (map krange l) (fst (c_rng c))
  | JElem r o _ l None => r = o_rng o /\ l = []
  end.

Section Balanced.
Variables (text : token -> bytes) (full single : expr -> list token -> Prop) (lax : Prop).
Notation braced := (braced full).
Notation spread_in := (spread_in single).
Notation element := (element text full single lax).
Notation opening := (opening text full single lax).
Notation closing := (closing text full single lax).
Notation tag_name := (tag_name text full single lax).
Notation attributes := (attributes text full single lax).
Notation attribute := (attribute text full single lax).
Notation value := (value text full single lax).
Notation contents := (contents text full single lax).
Scheme element_i := Minimality for JsxSpec.element Sort Prop
  with opening_i := Minimality for JsxSpec.opening Sort Prop
  with closing_i := Minimality for JsxSpec.closing Sort Prop
  with tag_name_i := Minimality for JsxSpec.tag_name Sort Prop
  with attributes_i := Minimality for JsxSpec.attributes Sort Prop
  with attribute_i := Minimality for JsxSpec.attribute Sort Prop
  with value_i := Minimality for JsxSpec.value Sort Prop
  with contents_i := Minimality for JsxSpec.contents Sort Prop.

Definition after (a : nat) (ts : list token) : nat := match ts with [] => a | _ => last_hi ts end.
Lemma tight_app : forall x a z, tight_from a (x ++ z) -> tight_from a x /\ tight_from (after a x) z.
Proof.
  induction x as [|t x IH]; intros a z H; [split; [exact I|exact H]|]. destruct H as (A & B & D & H).
  apply IH in H as [H1 H2]. split; [repeat split; assumption|]. destruct x as [|t' x]; [exact H2|].
  unfold after in *. rewrite (last_cons' t) by discriminate. exact H2.
Qed.
Lemma tight_order : forall ts a, tight_from a ts -> ts <> [] -> a <= first_lo ts /\ first_lo ts <= last_hi ts.
Proof.
  induction ts as [|t ts IH]; intros a H N; [contradiction|]. destruct H as (A & B & D & H). split; [exact A|].
  destruct ts as [|t' ts]; [exact B|]. rewrite (last_cons' t) by discriminate. destruct (IH _ H) as [P Q]; [discriminate|]. cbn [first_lo] in *. lia.
Qed.
Definition whole (e : jelem) : Prop := forall e', within e' e -> balanced e'.
Definition attr_whole (a : jattr) : Prop := forall r n p e, a = AAttr r n p (VElem e) -> whole e.
Definition child_whole (l : list jchild) : Prop := forall e, In (KElem e) l -> whole e.
Lemma whole_intro : forall r o attrs l c, balanced (JElem r o attrs l c) -> Forall attr_whole attrs -> child_whole l -> whole (JElem r o attrs l c).
Proof.
  intros r o attrs l c B HA HK e' W. inversion W; subst; [exact B|eapply HK; eassumption|].
  rewrite Forall_forall in HA. eapply HA; [eassumption|reflexivity|assumption].
Qed.
Lemma hd_closing : forall c cts, closing c cts -> fst (c_rng c) = t_lo (hd (eof_tok 0) cts) /\ cts <> [] /\ snd (c_rng c) = last_hi cts.
Proof. destruct 1; (split; [reflexivity|split; [discriminate|reflexivity]]). Qed.
Lemma opens : forall o a ts, opening o a ts -> ts <> [] /\ o_rng o = edges ts.
Proof. destruct 1; (split; [discriminate|reflexivity]). Qed.
Lemma e_ne : forall e ts, element e ts -> ts <> [] /\ erange e = edges ts.
Proof.
  destruct 1 as [|o attrs ots l ts c cts O K C N]; (split; [|reflexivity]); [discriminate|].
  destruct (opens _ _ _ O) as [Q _]. intro Z. apply app_eq_nil in Z as [Z _]. contradiction.
Qed.
Lemma b_ne : forall c ts, braced c ts -> ts <> [] /\ crange c = edges ts.
Proof. destruct 1; (split; [discriminate|reflexivity]). Qed.
Lemma s_ne : forall r e ts, spread_in r e ts -> ts <> [].
Proof. destruct 1; discriminate. Qed.
Ltac cut_tight H := repeat match type of H with
  | tight_from _ (_ ++ _) => let P := fresh "P" in apply tight_app in H as [P H]
  end.
Lemma element_balanced : forall e ts, element e ts -> forall a, tight_from a ts -> whole e.
Proof.
  apply (element_i text full single lax
    (fun e ts => forall a, tight_from a ts -> whole e)
    (fun o attrs ts => forall a, tight_from a ts -> Forall attr_whole attrs)
    (fun _ _ => True) (fun _ _ _ => True)
    (fun l ts => forall a, tight_from a ts -> Forall attr_whole l)
    (fun x ts => forall a, tight_from a ts -> attr_whole x)
    (fun v ts => forall a, tight_from a ts -> forall e, v = VElem e -> whole e)
    (fun a l ts nx => forall b, tight_from b (ts ++ [nx]) -> b <= a <= first_lo (ts ++ [nx]) ->
       tiles a (map krange l) (t_lo nx) /\ child_whole l)); intros.
  - (* closed *) apply whole_intro; [split; reflexivity| |intros e []].
    destruct H6 as (_ & _ & _ & H6). apply tight_app in H6 as [_ H6]. apply tight_app in H6 as [H6 _]. eauto.
  - (* pair *) destruct (opens _ _ _ H) as [ON OR]. destruct (hd_closing _ _ H3) as (CL & CN & CR).
    apply tight_app in H6 as [TO T]. destruct cts as [|c0 cts]; [contradiction|]. cbn [hd] in *.
    replace (ts ++ c0 :: cts) with ((ts ++ [c0]) ++ cts) in T by (rewrite <- app_assoc; reflexivity).
    pose proof (proj1 (tight_app _ _ _ T)) as TK.
    assert (Q : after a ots = last_hi ots) by (destruct ots; [contradiction|reflexivity]). rewrite Q in TK.
    assert (NE : ts ++ [c0] <> []) by (intro Z; apply app_eq_nil in Z as [_ Z]; discriminate Z).
    destruct (tight_order _ _ TK NE) as [Q1 _]. destruct (H2 _ TK (conj (le_n _) Q1)) as [TL KW].
    apply whole_intro; [|eapply H0; eassumption|exact KW].
    unfold balanced. rewrite OR, CL, CR. unfold edges; cbn [fst snd]. split; [rewrite first_app by exact ON; reflexivity|].
    split; [|split; [exact H5|exact TL]]. rewrite last_app by (intro Z; apply app_eq_nil in Z as [_ Z]; discriminate Z). rewrite last_app by discriminate. reflexivity.
  - constructor.
  - destruct H5 as (_ & _ & _ & H5). apply tight_app in H5 as [_ H5]. apply tight_app in H5 as [H5 _]. eauto.
  - exact I.
  - exact I.
  - exact I.
  - exact I.
  - constructor.
  - apply tight_app in H3 as [T1 T2]. constructor; eauto.
  - intros r0 n p e0 E; discriminate E.
  - intros r0 n0 p0 e0 E; discriminate E.
  - apply tight_app in H4 as [_ (_ & _ & _ & H4)]. intros r0 n0 p0 e0 E. injection E as _ _ _ E. eauto.
  - discriminate H1.
  - discriminate H1.
  - injection H2 as <-. eauto.
  - discriminate H1.
  - discriminate H2.
  - (* end *) cbn [app first_lo] in *. split; [|intros e []]. cbn. lia.
  - (* space *) destruct (H1 _ H2) as [TL KW]; [lia|]. split; [cbn [map tiles krange fst snd]; split; [reflexivity|split; [lia|exact TL]]|].
    intros e [E|E]; [discriminate E|auto].
  - (* text *) cbn [app] in *. destruct H2 as (L1 & L2 & L3 & T). specialize (L3 H). cbn [first_lo] in H3.
    assert (NE : ts ++ [nx] <> []) by (intro Z; apply app_eq_nil in Z as [_ Z]; discriminate Z).
    destruct (tight_order _ _ T NE) as [Q1 _]. destruct (H1 _ T (conj (le_n _) Q1)) as [TL KW].
    split; [cbn [map tiles krange place fst snd]; split; [lia|split; [exact L2|exact TL]]|]. intros e [E|E]; [discriminate E|auto].
  - (* braces *) destruct (b_ne _ _ H) as [CN CR]. rewrite <- app_assoc in *. apply tight_app in H3 as [T1 T].
    rewrite first_app in H4 by exact CN. destruct (tight_order _ _ T1 CN) as [_ O].
    assert (Q : after b cts = last_hi cts) by (destruct cts; [contradiction|reflexivity]). rewrite Q in T.
    assert (NE : ts ++ [nx] <> []) by (intro Z; apply app_eq_nil in Z as [_ Z]; discriminate Z).
    destruct (tight_order _ _ T NE) as [Q1 _]. destruct (H2 _ T (conj (le_n _) Q1)) as [TL KW].
    split; [cbn [map tiles krange]; rewrite CR; unfold edges; cbn [fst snd]; split; [lia|split; [exact O|exact TL]]|]. intros e [E|E]; [discriminate E|auto].
  - (* spread *) pose proof (s_ne _ _ _ H) as CN. rewrite <- app_assoc in *. apply tight_app in H3 as [T1 T].
    rewrite first_app in H4 by exact CN. destruct (tight_order _ _ T1 CN) as [_ O].
    assert (Q : after b cts = last_hi cts) by (destruct cts; [contradiction|reflexivity]). rewrite Q in T.
    assert (NE : ts ++ [nx] <> []) by (intro Z; apply app_eq_nil in Z as [_ Z]; discriminate Z).
    destruct (tight_order _ _ T NE) as [Q1 _]. destruct (H2 _ T (conj (le_n _) Q1)) as [TL KW].
    split; [cbn [map tiles krange]; unfold edges; cbn [fst snd]; split; [lia|split; [exact O|exact TL]]|]. intros e1 [E|E]; [discriminate E|auto].
  - (* element *) destruct (e_ne _ _ H) as [CN CR]. rewrite <- app_assoc in *. apply tight_app in H4 as [T1 T].
    rewrite first_app in H5 by exact CN. destruct (tight_order _ _ T1 CN) as [_ O].
    assert (Q : after b ets = last_hi ets) by (destruct ets; [contradiction|reflexivity]). rewrite Q in T.
    assert (NE : ts ++ [nx] <> []) by (intro Z; apply app_eq_nil in Z as [_ Z]; discriminate Z).
    destruct (tight_order _ _ T NE) as [Q1 _]. destruct (H3 _ T (conj (le_n _) Q1)) as [TL KW].
    split; [cbn [map tiles krange]; rewrite CR; unfold edges; cbn [fst snd]; split; [lia|split; [exact O|exact TL]]|].
    intros e1 [E|E]; [injection E as <-; eauto|auto].
Qed.
End Balanced.

Section Elements.
(** Any parsers of expressions that read what their trees spell. *)
Variables (feat : N) (text : token -> bytes) (ex asg : N -> pst -> pres expr) (full single : expr -> list token -> Prop).
Hypothesis ex_reads : forall k s e s', ex k s = POk e s' -> exists ts, read s ts s' /\ full e ts.
Hypothesis asg_reads : forall k s e s', asg k s = POk e s' -> exists ts, read s ts s' /\ single e ts.
(** The tokens read are those the element is spelled with, its place is theirs, and only a tag that closes an element
    that is open is returned in its place.
    Partial: the spelling is lax, as C54_value_refuted, C54_spread_refuted and C54_dropped_refuted need it. *)
Theorem C54_elements_partial : forall fuel k root opening s t s', at_tok T_LT s = true -> jsx feat text ex asg fuel k root opening s = POk t s' ->
  exists ts, p_toks s = ts ++ p_toks s' /\
    match t with TElem e => element text full single True e ts /\ erange e = edges ts | TClose c => closing text full single True c ts /\ opening = true end.
Proof using All.
  intros fuel k root opening s t s' A H. destruct (all_reads feat text ex asg full single ex_reads asg_reads fuel) as (_ & _ & _ & _ & _ & J & _).
  destruct (J _ _ _ _ _ _ H A) as (ts & (R & _) & S). exists ts. split; [exact R|]. destruct t as [e|c]; [|exact S].
  split; [exact S|]. exact (proj2 (e_ne _ _ _ _ _ _ S)).
Qed.
(** Tags match, and children fill the place between them, in every element of what is read. *)
Theorem C54_balanced : forall fuel k root opening s e s', at_tok T_LT s = true -> tight_from (p_end s) (p_toks s) ->
  jsx feat text ex asg fuel k root opening s = POk (TElem e) s' -> forall e', within e' e -> balanced e'.
Proof using All.
  intros fuel k root opening s e s' A T H. destruct (all_reads feat text ex asg full single ex_reads asg_reads fuel) as (_ & _ & _ & _ & _ & J & _).
  destruct (J _ _ _ _ _ _ H A) as (ts & (R & _) & S). rewrite R in T. apply tight_app in T as [T _]. exact (element_balanced text full single True e ts S _ T).
Qed.
(** The parser of elements ends when no token that cannot begin a child stands where one should.
    Partial: C54_hang_refuted. *)
Theorem C54_ends_partial : forall fuel k root opening s, (forall k s, ex k s <> PFuel) -> (forall k s, asg k s <> PFuel) ->
  at_tok T_LT s = true -> 8 * length (p_toks s) <= fuel -> ~ trapped (p_toks s) -> jsx feat text ex asg fuel k root opening s <> PFuel.
Proof using All.
  intros fuel k root opening s XE AE A L N H.
  destruct (all_end feat text ex asg full single ex_reads asg_reads XE AE fuel) as (_ & _ & _ & _ & _ & J & _). exact (N (J _ _ _ _ H A L)).
Qed.
End Elements.
Print Assumptions C54_elements_partial.
Print Assumptions C54_balanced.
Print Assumptions C54_ends_partial.

(** ** JSX in the whole parser *)
(** The elements in a program, [n] deep in each other's expressions; the rest is as [Rest] says. *)
Fixpoint elements_of (text : token -> bytes) (Rest : sort -> rng -> list token -> Prop) (n : nat) (q : sort) (r : rng) (ts : list token) : Prop :=
  Rest q r ts \/
  match n with
  | O => False
  | S n =>
      let R := elements_of text Rest n in
      let any := fun (_ : fnode) (_ : list token) => True in
      q = AFunction /\ exists e, erange e = r /\
        element text (full text (functions_of text R True any n) (methods_of text R True any n) (blocks_of text R True any n) True)
          (single text (functions_of text R True any n) (methods_of text R True any n) (blocks_of text R True any n) True) True e ts
  end.

Section Whole.
Variables (feat : N) (text : token -> bytes) (chk : pst -> bool).
Variables (params_ok : N -> list expr -> pst -> bool) (names_ok : N -> list expr -> pst -> bool)
  (jump_ok : N -> stmt -> pst -> bool) (use_strict : token -> bool)
  (fn_ok : N -> option expr -> list expr -> stmt -> pst -> bool) (class_ok : N -> expr -> pst -> bool).
Variables (rest_async : bool -> N -> pst -> pres rng) (rest_import : N -> pst -> option (pres rng)).
Variable Rest : sort -> rng -> list token -> Prop.
Hypotheses (rest_fr : rest_framed Rest) (rest_ok : rest_read Rest rest_async rest_import).
Notation jsx_other := (jsx_other feat text chk params_ok names_ok jump_ok use_strict fn_ok class_ok rest_async rest_import).
Notation parse n := (FnModel.parse feat text chk params_ok names_ok jump_ok use_strict fn_ok class_ok rest_async (jsx_other n)).
Notation elements_of := (elements_of text Rest).
Notation any := (fun (_ : fnode) (_ : list token) => True).
Lemma elements_framed : forall n, rest_framed (elements_of n).
Proof using All.
  intros n q r ts H. destruct n as [|n]; cbn [JsxProps.elements_of] in H; destruct H as [H|H]; try (exact (rest_fr _ _ _ H)); [contradiction|].
  destruct H as (_ & e & <- & H). destruct (e_ne _ _ _ _ _ _ H) as [N E]. split; [exact N|]. split; [exact E|].
  assert (L : t_val (hd (eof_tok 0) ts) = T_LT).
  { destruct H as [|o attrs ots l ts c cts O K C NM]; [assumption|]. destruct O; assumption. }
  unfold stray. rewrite L. cbn. intuition discriminate.
Qed.
Lemma elements_read : forall n, rest_read (elements_of n) rest_async (jsx_other n).
Proof using All.
  induction n as [|n IH].
  - destruct rest_ok as [RA RO]. split.
    + intros dec k s r s' H. destruct (RA _ _ _ _ _ H) as (ts & R & Q). exists ts. split; [exact R|]. intros q Z. left. auto.
    + intros k s r s' H. cbn [JsxModel.jsx_other] in H. destruct (_ && _); [discriminate H|]. destruct (RO _ _ _ _ H) as (ts & R & Q). exists ts. split; [exact R|left; exact Q].
  - destruct rest_ok as [RA RO]. split.
    + intros dec k s r s' H. destruct (RA _ _ _ _ _ H) as (ts & R & Q). exists ts. split; [exact R|]. intros q Z. left. auto.
    + intros k s r s' H. cbn [JsxModel.jsx_other] in H. destruct (at_tok T_LT s && has feat FEAT_JSX) eqn:A.
      2:{ destruct (RO _ _ _ _ H) as (ts & R & Q). exists ts. split; [exact R|left; exact Q]. }
      apply andb_prop in A as [A _]. injection H as H. unfold elem_range in H. okb H t s1 E. destruct t as [e|c]; [|discriminate H]. injection H as <- <-.
      pose proof (world_reads feat text chk params_ok names_ok jump_ok use_strict fn_ok class_ok rest_async (jsx_other n) (elements_of n) (elements_framed n) IH any
        (fun _ _ _ _ _ _ _ _ _ _ _ _ _ _ => I) n) as W.
      destruct (all_reads feat text _ _ _ _
        (x_seq feat text chk params_ok names_ok jump_ok use_strict fn_ok class_ok rest_async (jsx_other n) (elements_of n) (elements_framed n) IH any (fun _ _ _ _ _ _ _ _ _ _ _ _ _ _ => I) n _ W n)
        (x_asg feat text chk params_ok names_ok jump_ok use_strict fn_ok class_ok rest_async (jsx_other n) (elements_of n) (elements_framed n) IH any (fun _ _ _ _ _ _ _ _ _ _ _ _ _ _ => I) n _ W n) n)
        as (_ & _ & _ & _ & _ & J & _).
      destruct (J _ _ _ _ _ _ E A) as (ts & R & S). exists ts. split; [exact R|]. right. split; [reflexivity|]. exists e. split; [reflexivity|exact S].
Qed.
(** A program that is accepted is the spelling of its statements, and every element in it is spelled as one.
    Partial: what is not modelled (imports in expressions, calls of async) is assumed. *)
Theorem C54_program_partial : forall m n k s l s', parse m n k s = POk l s' ->
  exists ts, p_toks s = ts ++ p_toks s' /\
    stats text (functions_of text (elements_of m) True any n) (methods_of text (elements_of m) True any n) (blocks_of text (elements_of m) True any n)
      (decls_of text (elements_of m) True any n False) True False l ts (peek s').
Proof using All.
  intros m n k s l s' H.
  destruct (parse_reads feat text chk params_ok names_ok jump_ok use_strict fn_ok class_ok rest_async (jsx_other m) (elements_of m) (elements_framed m) (elements_read m)
    any (fun _ _ _ _ _ _ _ _ _ _ _ _ _ _ => I) _ _ _ _ _ H) as (ts & (R & _) & _ & S). exists ts. auto.
Qed.
End Whole.
Print Assumptions C54_program_partial.

(** ** Cases *)
Notation str x := (T_STRING, bs x, XStr 34 false, false).
Notation txt x := (T_JSX_TXT, [] : bytes, XJsx (bs x), false).
Definition sun (n : nat) : N -> pst -> option (pres rng) :=
  jsx_other feats t_text (fun _ => true) (fun _ _ _ => true) (fun _ _ _ => true) (fun _ _ _ => true) (fun _ => false)
    (fun _ _ _ _ _ => true) (fun _ _ _ => true) (fun _ _ _ => PErr) no_parts n.
Definition jsx_of (fuel : nat) (l : list (tv * bytes * ext * bool)) : pres jtag := in_earth (fun f t (_ : pst -> bool) => jsx f t) fuel SPK_GLOBAL true false (src l).
Definition jsx_in (l : list (tv * bytes * ext * bool)) : option shape :=
  shape_parsed (parse_expr feats t_text (fun _ => true) (fun _ _ _ => true) (fun _ _ _ => true) (fun _ _ _ => true) (fun _ => false)
    (fun _ _ _ _ _ => true) (fun _ _ _ => true) (fun _ _ _ => PErr) (sun 40) 40 SPK_GLOBAL (src l)).
Fixpoint jn_shape (n : jname) : shape :=
  match n with JId _ n => Sh n [] | JMember _ o p => Sh (bs ".") [jn_shape o; shape_of p] | JNs _ a b => Sh (bs ":") [jn_shape a; jn_shape b] end.
Definition cont_shape (c : jcont) : shape :=
  match c with CSpread _ e => Sh (bs "...") [shape_of e] | CExpr _ e => Sh (bs "{}") [shape_of e] | CEmpty _ _ => Sh (bs "{}") [] end.
Definition on_shape (n : option (jname * bytes)) : shape := match n with Some (n, _) => jn_shape n | None => leaf "fragment" end.
Fixpoint elem_shape (e : jelem) : shape :=
  match e with JElem _ o attrs l c => Sh (bs "<>") [on_shape (o_name o); Sh (bs "attributes") (map attr_shape attrs); Sh (bs "children") (map child_shape l)] end
with attr_shape (a : jattr) : shape :=
  match a with
  | ASpread _ c => cont_shape c
  | AAttr _ n _ VNone => Sh (bs "=") [jn_shape n]
  | AAttr _ n _ (VStr _ t) => Sh (bs "=") [jn_shape n; Sh (t_text t) []]
  | AAttr _ n _ (VCont c) => Sh (bs "=") [jn_shape n; cont_shape c]
  | AAttr _ n _ (VElem e) => Sh (bs "=") [jn_shape n; elem_shape e]
  end
with child_shape (c : jchild) : shape :=
  match c with
  | KText _ t => match t_ext t with XJsx b => Sh b [] | _ => leaf "?" end
  | KSpace _ => leaf "space"
  | KCont c => cont_shape c
  | KSpread _ e => Sh (bs "...") [shape_of e]
  | KElem e => elem_shape e
  end.
Definition tag_parsed (x : pres jtag) : option shape := match x with POk (TElem e) _ => Some (elem_shape e) | POk (TClose _) _ => Some (leaf "close") | _ => None end.
Notation elem n a l := (Sh (bs "<>") [n; Sh (bs "attributes") a; Sh (bs "children") l]).
Definition open_a := [y T_LT; A; y T_GT].
Definition close_a := [y T_LT; y T_DIV; A; y T_GT].
(** [<a.b c="x" a={b} {...c}> {a}<b /> x</a.b>] and [<></>], [<a></b>], [<a/><b/>] *)
Example element_trees :
  tag_parsed (jsx_of 60 ([y T_LT; A; y T_DOT; B; C; y T_ASSIGN; str "x"; A; y T_ASSIGN; y T_BRACE_L; B; y T_BRACE_R; y T_BRACE_L; y T_DOT_TRI; C; y T_BRACE_R; y T_GT;
    y T_BRACE_L; A; y T_BRACE_R; y T_LT; B; y T_DIV; y T_GT; txt "x"; y T_LT; y T_DIV; A; y T_DOT; B; y T_GT])) =
    Some (elem (Sh (bs ".") [leaf "a"; leaf "b"]) [Sh (bs "=") [leaf "c"; leaf "x"]; Sh (bs "=") [leaf "a"; Sh (bs "{}") [leaf "b"]]; Sh (bs "...") [leaf "c"]]
      [leaf "space"; Sh (bs "{}") [leaf "a"]; leaf "space"; elem (leaf "b") [] []; leaf "x"; leaf "space"]) /\
  tag_parsed (jsx_of 60 [y T_LT; y T_GT; y T_LT; y T_DIV; y T_GT]) = Some (elem (leaf "fragment") [] [leaf "space"]) /\
  tag_parsed (jsx_of 60 (open_a ++ [y T_LT; y T_DIV; B; y T_GT])) = None /\
  tag_parsed (jsx_of 60 [y T_LT; A; y T_DIV; y T_GT; y T_LT; B; y T_DIV; y T_GT]) = None.
Proof. vm_compute. auto. Qed.
(** [a = <b c={<a/>}>{b}</b>]: elements within expressions of the whole parser, that hold expressions with elements. *)
Example expression_tree :
  jsx_in [A; y T_ASSIGN; y T_LT; B; C; y T_ASSIGN; y T_BRACE_L; y T_LT; A; y T_DIV; y T_GT; y T_BRACE_R; y T_GT; y T_BRACE_L; B; y T_BRACE_R;
    y T_LT; y T_DIV; B; y T_GT] = Some (Sh (bs "=") [leaf "a"; leaf "other"]).
Proof. vm_compute. reflexivity. Qed.
(** The tokens of [<a> {b}x</a>]: they are in order, the text begins where the brace ends, and they meet the hypotheses. *)
Definition tight_sample : pst :=
  mk_pst (map (fun x => match x with (v, lo, hi) => mk_tok v lo hi (bs "a") (lo, hi) 1 false XNone end)
    [(T_LT, 0, 1); (T_NAME, 1, 2); (T_GT, 2, 3); (T_BRACE_L, 4, 5); (T_NAME, 5, 6); (T_BRACE_R, 6, 7); (T_JSX_TXT, 7, 8); (T_LT, 8, 9); (T_DIV, 9, 10); (T_NAME, 10, 11); (T_GT, 11, 12)]) false None.
Example tight_met : tight_from (p_end tight_sample) (p_toks tight_sample) /\
  match in_earth (fun f t (_ : pst -> bool) => jsx f t) 60 SPK_GLOBAL true false tight_sample with
  | POk (TElem (JElem r o _ l (Some c))) _ => r = (0, 12) /\ o_rng o = (0, 3) /\ map krange l = [(3, 4); (4, 7); (7, 8)] /\ c_rng c = (8, 12)
  | _ => False
  end.
Proof. vm_compute. repeat split; auto; intros; discriminate. Qed.

(** ** Where the claims fail *)
(** [<a b=c />]: b has no value. *)
Theorem C54_value_refuted : tag_parsed (jsx_of 60 [y T_LT; A; B; y T_ASSIGN; C; y T_DIV; y T_GT]) =
  Some (elem (leaf "a") [Sh (bs "=") [leaf "b"]; Sh (bs "=") [leaf "c"]] []).
Proof. vm_compute; reflexivity. Qed.
(** [<a b={...c} />] *)
Theorem C54_spread_refuted : tag_parsed (jsx_of 60 [y T_LT; A; B; y T_ASSIGN; y T_BRACE_L; y T_DOT_TRI; C; y T_BRACE_R; y T_DIV; y T_GT]) =
  Some (elem (leaf "a") [Sh (bs "=") [leaf "b"; Sh (bs "...") [leaf "c"]]] []).
Proof. vm_compute; reflexivity. Qed.
(** [<a <b/> />]: b is not in the tree. *)
Theorem C54_dropped_refuted : tag_parsed (jsx_of 60 [y T_LT; A; y T_LT; B; y T_DIV; y T_GT; y T_DIV; y T_GT]) = Some (elem (leaf "a") [] []).
Proof. vm_compute; reflexivity. Qed.
(** [<a>}</a>]: the parser never ends, whatever reads expressions. *)
Lemma stuck_here : forall feat text ex asg fuel k o fresh acc s, at_tok T_BRACE_R s = true -> jsx_children feat text ex asg fuel k o fresh acc s = PFuel.
Proof.
  induction fuel as [|fuel IH]; intros k o fresh acc s A; [reflexivity|]. cbn [jsx_children]. cbv zeta.
  assert (P : at_tok T_BRACE_R (peeked s) = true) by (destruct s; exact A).
  rewrite !(at_other _ _ _ P) by discriminate. cbn [orb]. apply IH. exact P.
Qed.
Lemma jsx_step : forall feat text ex asg fuel k s o s1, at_tok T_DIV (peeked (next s)) = false ->
  jsx_open feat text ex asg fuel k (t_lo (peek s)) (peeked (next s)) = POk (o, []) s1 -> o_closed o = false -> at_tok T_BRACE_R s1 = true ->
  jsx feat text ex asg (S fuel) k true false s = PFuel.
Proof. intros feat text ex asg fuel k s o s1 D O Q A.
  transitivity (let l := t_lo (peek s) in let s := peeked (next s) in
      if at_tok T_DIV s then PErr
      else
        pbind (jsx_open feat text ex asg fuel k l s) (fun oa s1 =>
        pbind (if o_closed (fst oa) then POk ([], None) s1
               else pbind (jsx_children feat text ex asg fuel k (fst oa) true [] s1) (fun r s2 => POk (fst r, Some (snd r)) s2)) (fun r s2 =>
        if at_tok T_LT s2 && true then PErr
        else POk (TElem (JElem (fin (fst (o_rng (fst oa))) s2) (fst oa) (snd oa) (fst r) (snd r))) (peeked s2)))); [reflexivity|].
  cbv zeta. rewrite D, O. cbn [pbind fst snd]. rewrite Q, stuck_here by exact A. reflexivity. Qed.
Theorem C54_hang_refuted : forall ex asg k fuel, jsx feats t_text ex asg fuel k true false (src (open_a ++ [y T_BRACE_R] ++ close_a)) = PFuel.
Proof.
  intros ex asg k fuel. do 3 (destruct fuel as [|fuel]; [reflexivity|]).
  eapply jsx_step; reflexivity.
Qed.
Print Assumptions C54_hang_refuted.

(** ** Imports in expressions *)
Definition with_import (k : N) (s : pst) : option (pres rng) :=
  if at_tok T_IMPORT s then
    Some (pbind (import_call feats t_text (w_calls feats t_text (fun _ => true) (fun _ _ _ => true) 40 (earth 40)) k s) (fun e s => POk (range e) s))
  else None.
Definition moon (l : list (tv * bytes * ext * bool)) : pres (list stmt) :=
  FnModel.parse feats t_text (fun _ => true) (fun _ _ _ => true) (fun _ _ _ => true) (fun _ _ _ => true) (fun _ => false)
    (fun _ _ _ _ _ => true) (fun _ _ _ => true) (fun _ _ _ => PErr) with_import 40 SPK_GLOBAL (src l).
Definition moon_shape (x : pres (list stmt)) : option (list shape) := match x with POk l _ => Some (map sshape_of l) | _ => None end.
Definition import_a := [y T_IMPORT; y T_PAREN_L; A; y T_PAREN_R].
(** [import(a)] and [b = import(a), c]. *)
Example import_trees :
  moon_shape (moon import_a) = Some [Sh (bs "expression") [leaf "other"]] /\
  moon_shape (moon ([B; y T_ASSIGN] ++ import_a ++ [y T_COMMA; C])) = Some [Sh (bs "expression") [Sh (bs ",") [Sh (bs "=") [leaf "b"; leaf "other"]; leaf "c"]]].
Proof. vm_compute. auto. Qed.
(** [b * import(a) + c] is read as [b * (import(a) + c)]. *)
Theorem C39_import_refuted : moon_shape (moon ([B; y T_MUL] ++ import_a ++ [y T_ADD; C])) = Some [Sh (bs "expression") [Sh (bs "binary") [leaf "b"; leaf "other"]]].
Proof. vm_compute; reflexivity. Qed.
(** [import(a); (b)] on one line is a call of what is imported, and [import(a); b] is rejected. *)
Theorem C39_import_semicolon_refuted :
  moon_shape (moon (import_a ++ [y T_SEMI; y T_PAREN_L; B; y T_PAREN_R])) = Some [Sh (bs "expression") [Sh (bs "call") [leaf "other"; leaf "b"]]] /\
  moon_shape (moon (import_a ++ [y T_SEMI; B])) = None.
Proof. vm_compute; auto. Qed.
(** [<a>}</a>] where an expression stands: parsing never ends. *)
Theorem C51_jsx_refuted : forall feat text chk params_ok names_ok jump_ok use_strict fn_ok class_ok rest_async rest_import m k,
  has feat FEAT_JSX = true ->
  jsx_other feat text chk params_ok names_ok jump_ok use_strict fn_ok class_ok rest_async rest_import m k (src (open_a ++ [y T_BRACE_R] ++ close_a)) = Some PFuel.
Proof.
  intros. destruct m as [|m]; cbn [jsx_other]; rewrite H; [reflexivity|]. cbn [andb at_tok]. 
  change (at_tok T_LT (src (open_a ++ [y T_BRACE_R] ++ close_a)) && true) with true. cbv iota.
  match goal with |- Some (elem_range ?x) = _ => assert (E : x = PFuel); [|rewrite E; reflexivity] end.
  do 3 (destruct m as [|m]; [reflexivity|]). eapply jsx_step; reflexivity.
Qed.
Print Assumptions C51_jsx_refuted.
