(** C38, C39, C40: assignment targets, what expressions are read from, and where their nodes are. *)
From Coq Require Import Lia ZifyBool ZifyNat ZifyN.
From Verif Require Import Base TokenModel LexModel ParseBase BinModel BinSpec BinProofs SymtabModel EarlyModel ExprModel ExprSpec ExprProofs
  ExprPlaces ExprTargets ExprReads.

(** What is not modelled reads some tokens and knows where they are. *)
Definition whole (r : rng) (ts : list token) : Prop := ts <> [] /\ r = (first_lo ts, last_hi ts).
Lemma whole_framed : framed whole.
Proof. intros r ts H; exact H. Qed.
Definition reads_whole (f : N -> pst -> option (pres rng)) : Prop :=
  forall k s r s', f k s = Some (POk r s') -> exists ts, read s ts s' /\ whole r ts.
Definition block_whole (f : N -> pst -> pres rng) : Prop :=
  forall k s r s', f k s = POk r s' -> exists ts, read s ts s' /\ whole r ts.

(** Somewhere a template follows a closing parenthesis. *)
Definition call_then_template (ts : list token) : Prop :=
  exists x h t y, ts = x ++ h :: t :: y /\ t_val h = T_PAREN_R /\ t_val t = T_TPL_HEAD.
(** An edge of a token. *)
Definition edge (ts : list token) (x : nat) : Prop := exists t, In t ts /\ (x = t_lo t \/ x = t_hi t).

Section Claims.
Variables (feat : N) (text : token -> bytes) (chk : pst -> bool).
Variables (other method : N -> pst -> option (pres rng)) (block : N -> pst -> pres rng)
  (params_ok : N -> list expr -> pst -> bool).
Hypotheses (other_ok : reads_whole other) (method_ok : reads_whole method) (block_ok : block_whole block).
Notation parse := (seq feat text chk other method block params_ok).
Notation spelled lax := (spell text whole whole whole lax).

Lemma parse_spelled : forall fuel k s e s', parse fuel k s = POk e s' ->
  exists n ts, read s ts s' /\ spelled True false n e ts /\ n <= 9.
Proof.
  intros fuel k s e s' H.
  exact (v_seq text whole whole whole _ (inv_all feat text chk other method block params_ok whole whole whole whole_framed whole_framed whole_framed
    other_ok method_ok block_ok fuel) k s e s' H).
Qed.

(** Whatever is accepted is a spelling of the tree that is returned: the tokens read are those of the tree, in
    the order of the tree, operands have the level the grammar asks for, and none is skipped or read twice.
    Partial: that binary operators group by precedence is C28; what the grammar of ExprSpec allows beyond
    ECMA-262 is shown by the refuted claims below. *)
Theorem C39_reads_partial : forall fuel k s e s', parse fuel k s = POk e s' ->
  exists n ts, p_toks s = ts ++ p_toks s' /\ n <= 9 /\ spelled (call_then_template ts) false n e ts.
Proof.
  intros fuel k s e s' H. destruct (parse_spelled _ _ _ _ _ H) as (n & ts & (R & _) & W & N). exists n, ts.
  split; [exact R|]. split; [exact N|].
  apply (proj1 (calm_all text whole whole whole (call_then_template ts)) _ _ _ _ W).
  intros x h t y E P T. exists x, h, t, y; auto.
Qed.

(** The ranges of the nodes of an accepted expression nest, siblings follow one another, and ranges begin and end
    at edges of tokens that were read.
    Partial: the tag of a template lies before the template, see C40_tag_refuted. *)
Theorem C40_nested_partial : forall fuel k s e s', parse fuel k s = POk e s' -> ordered (p_toks s) ->
  exists ts, p_toks s = ts ++ p_toks s' /\ nested (edge ts) e /\ first_lo ts <= lo e /\ hi e <= last_hi ts.
Proof.
  intros fuel k s e s' H (a & b & O). destruct (parse_spelled _ _ _ _ _ H) as (n & ts & (R & _) & W & N). exists ts.
  split; [exact R|]. rewrite R in O. apply span_app in O as (m & O & _).
  pose proof (spell_ne text whole whole whole True whole_framed whole_framed whole_framed _ _ _ _ W) as NE.
  destruct (span_tight _ _ _ O NE) as (_ & _ & _ & T).
  destruct (proj1 (places text whole whole whole True whole_framed whole_framed whole_framed (edge ts)) _ _ _ _ W _ _ T)
    as (B1 & B2 & B3 & _ & _ & _ & B4); [|auto].
  apply Forall_forall. intros t I. split; exists t; auto.
Qed.

(** Whatever is assigned to in an accepted expression is a name, a member or a pattern, patterns are made of such
    targets, and so are the parameters of arrow functions.
    Partial: operands of ++ and -- may also be array and object literals, see C38_update_refuted; the heads of
    for-in and for-of are not modelled. *)
Theorem C38_targets_partial : forall fuel k s e s', parse fuel k s = POk e s' -> every assignable e.
Proof.
  intros fuel k s e s' H. destruct (parse_spelled _ _ _ _ _ H) as (n & ts & _ & W & _).
  exact (proj1 (targets text whole whole whole True whole_framed whole_framed whole_framed) _ _ _ _ W).
Qed.

(** An assignment that is checked (every one but those directly between parentheses, see C38_strict_refuted and
    C38_compound_refuted): in strict code it does not assign to eval or arguments, and only = takes patterns. *)
Definition strict_word (e : expr) : bool :=
  match e with EName _ n _ _ => bytes_eqb n (bs "eval") || bytes_eqb n (bs "arguments") | _ => false end.
Definition is_pattern (e : expr) : bool := match e with PArr _ _ | PObj _ _ => true | _ => false end.
Fixpoint bare (e : expr) : expr := match e with EParen _ e => bare e | _ => e end.

Lemma inv : forall fuel, Inv text whole whole whole (calls_at feat text chk other method block params_ok fuel).
Proof using other_ok method_ok block_ok.
  exact (inv_all feat text chk other method block params_ok whole whole whole whole_framed whole_framed whole_framed other_ok method_ok block_ok).
Qed.
Theorem C38_checked_partial : forall fuel k s r op o l h s', assign feat text chk other method block params_ok fuel k true s = POk (EAssign r op o l h) s' ->
  (has k SPK_STRICT = true -> strict_word l = false) /\ (is_pattern l = true -> op = T_ASSIGN).
Proof using other_ok method_ok block_ok.
  intros [|fuel] k s r op o l h s' H; [discriminate H|]. unfold assign in H. cbn [calls_at c_assign] in H. unfold assign_b in H.
  destruct (ahead_yield text k s) eqn:Y.
  - destruct fuel as [|fuel]; [discriminate H|]. cbn [calls_at c_yield_expr] in H. unfold yield_expr_b in H.
    destruct (has k SPK_FORMAL_PARAMS); [discriminate H|]. cbv zeta in H.
    match type of H with (if ?b then _ else _) = _ => destruct b end; [discriminate H|]. okb H a s1 E. discriminate H.
  - okb H l0 s1 E. okb H l1 s2 E2. destruct (is_assign_op (pval s2)).
    + okb H h1 s3 E3. oka H l' E4. cbn [andb] in H. destruct (is_simple k true true (negb (tv_eqb (pval s2) T_ASSIGN)) l') eqn:Q; [|discriminate H].
      cbn [negb] in H. oka H u E5. injection H as <- <- <- <- <- <-. split.
      * intro St. destruct l'; cbn [strict_word]; try reflexivity. cbn [is_simple] in Q. rewrite St in Q. cbn [andb] in Q.
        destruct (has k SPK_ASYNC && bytes_eqb n (bs "await")); [discriminate|]. destruct (bytes_eqb n (bs "eval") || bytes_eqb n (bs "arguments")); [discriminate|reflexivity].
      * intro P. destruct (tv_eqb (pval s2) T_ASSIGN) eqn:Z; [apply tv_eqb_spec; exact Z|]. destruct l'; try discriminate P; discriminate Q.
    + injection H as -> <-. destruct (v_cond _ _ _ _ _ (inv fuel) _ _ _ _ E) as (n & ts & _ & W & N).
      destruct (is_name_e l0 && at_tok T_ARROW s1 && negb (t_atl (peek s1))) eqn:C.
      * oka E2 ps E3. destruct (v_arrow _ _ _ _ _ (inv fuel) _ _ _ _ _ _ E2) as (bts & b & Q & _); [|discriminate Q].
        apply Bool.andb_true_iff in C as [C _]. apply Bool.andb_true_iff in C as [_ C]. exact C.
      * injection E2 as -> <-. inversion W; subst; lia.
Qed.
Theorem C38_update_partial : forall fuel k s r op p e s', update feat text chk other method block params_ok fuel k (peeked s) = POk (EUpdate r op p e) s' ->
  has k SPK_STRICT = true -> strict_word (bare e) = false.
Proof using other_ok method_ok block_ok.
  assert (Z : forall k e, has k SPK_STRICT = true -> forall m, is_simple k true m false e = true -> strict_word (bare e) = false).
  { intros k e St. induction e; intros m Q; cbn [bare strict_word]; try reflexivity.
    - cbn [is_simple] in Q. rewrite St in Q. cbn [andb] in Q.
      destruct (has k SPK_ASYNC && bytes_eqb n (bs "await")); [discriminate|].
      destruct (bytes_eqb n (bs "eval") || bytes_eqb n (bs "arguments")); [discriminate|reflexivity].
    - exact (IHe _ Q). }
  intros [|fuel] k s r op p e s' H St; [discriminate H|]. unfold update in H. cbn [calls_at c_update] in H. unfold update_b in H.
  destruct (at_tok T_INC (peeked s) || at_tok T_DEC (peeked s)).
  - okb H e1 s1 E. destruct (is_simple k true true false e1) eqn:Q; [|discriminate H]. cbn [negb] in H. injection H as <- <- <- <- <-.
    exact (Z _ _ St _ Q).
  - okb H e1 s1 E. destruct (negb (t_atl (peek s1)) && (at_tok T_INC s1 || at_tok T_DEC s1)).
    + destruct (is_simple k true true false e1) eqn:Q; [|discriminate H]. cbn [negb] in H. injection H as <- <- <- <- <-.
      exact (Z _ _ St _ Q).
    + injection H as -> <-. destruct (v_lhs _ _ _ _ _ (inv fuel) _ _ _ _ E) as (n & ts & _ & W & N). inversion W; subst; lia.
Qed.
End Claims.
Print Assumptions C39_reads_partial.
Print Assumptions C40_nested_partial.
Print Assumptions C38_targets_partial.
Print Assumptions C38_checked_partial.
Print Assumptions C38_update_partial.

(** Sources for the examples: one token every two bytes, [nl] on a line of its own. *)
Fixpoint lay (p : nat) (l : list (tv * bytes * ext * bool)) : list token :=
  match l with
  | [] => []
  | (v, n, x, nl) :: l => mk_tok v p (p + 1) n (p, p + 1) 1 nl x :: lay (p + 2) l
  end.
Definition w (n : bytes) := (T_NAME, n, XNone, false).
Definition y (v : tv) := (v, [] : bytes, XNone, false).
Definition nl (v : tv) := (v, [] : bytes, XNone, true).
Definition num (n : bytes) := (T_NUM, n, XNone, false).
Definition quote := (T_TPL_HEAD, [] : bytes, XTpl [] 3 3 true None, false).
Definition src (l : list (tv * bytes * ext * bool)) : pst := mk_pst (lay 0 l) false None.
(** Every feature but TypeScript; nothing that is not modelled but blocks {}. *)
Definition feats : N := N.pred (N.shiftl 1 39) - FEAT_TS.
Definition no_parts (k : N) (s : pst) : option (pres rng) := None.
Definition empty_block (k : N) (s : pst) : pres rng :=
  match p_toks s with a :: b :: _ => POk (t_lo a, t_hi b) (next (next s)) | _ => PErr end.
Definition parse_at (chk : pst -> bool) := seq feats t_text chk no_parts no_parts empty_block (fun _ _ _ => true) 60.
Definition parse := parse_at (fun _ => true).
Lemma no_parts_whole : reads_whole no_parts.
Proof. intros k s r s' H; discriminate H. Qed.
Lemma empty_block_whole : block_whole empty_block.
Proof.
  intros k s r s' H. unfold empty_block in H. destruct (p_toks s) as [|a [|b l]] eqn:E; try discriminate H. injection H as <- <-.
  exists [a; b]. split; [|split; [discriminate|reflexivity]]. unfold read, next; cbn [p_toks tl peek p_end p_prev]. rewrite E. cbn [tl app].
  split; [reflexivity|]. split; [discriminate|reflexivity].
Qed.
Notation A := (w (bs "a")).
Notation B := (w (bs "b")).
Notation C := (w (bs "c")).

(** The tree without ranges, to show shapes. *)
Inductive shape := Sh (s : bytes) (l : list shape).
Definition opt_shape (f : expr -> shape) (o : option expr) : shape := match o with Some e => f e | None => Sh (bs "hole") [] end.
Fixpoint shape_of (e : expr) : shape :=
  match e with
  | ELit _ t => Sh (t_text t) []
  | EName _ n _ _ => Sh n []
  | EParen _ e => Sh (bs "()") [shape_of e]
  | EArr _ es => Sh (bs "[]") (map (opt_shape shape_of) es)
  | PArr _ es => Sh (bs "[pattern]") (map (opt_shape shape_of) es)
  | EObj _ ps => Sh (bs "{}") (map shape_of ps)
  | PObj _ ps => Sh (bs "{pattern}") (map shape_of ps)
  | EProp _ k v _ _ _ => Sh (bs ":") [shape_of k; opt_shape shape_of v]
  | EMethod _ => Sh (bs "method") []
  | ESpread _ e _ | PRest _ e => Sh (bs "...") [shape_of e]
  | ESeq _ es => Sh (bs ",") (map shape_of es)
  | EBin _ op _ l h => Sh (bs "binary") [shape_of l; shape_of h]
  | EUnary _ op e => Sh (bs "unary") [shape_of e]
  | EUpdate _ op p e => Sh (if p then bs "prefix" else bs "postfix") [shape_of e]
  | ECond _ t c a => Sh (bs "?:") [shape_of t; shape_of c; shape_of a]
  | EAssign _ op _ l h => Sh (if tv_eqb op T_ASSIGN then bs "=" else bs "op=") [shape_of l; shape_of h]
  | PAssign _ l h => Sh (bs "default") [shape_of l; shape_of h]
  | EYield _ _ e => Sh (bs "yield") [opt_shape shape_of e]
  | EMember _ o p _ opt => Sh (if opt then bs "?." else bs ".") [shape_of o; shape_of p]
  | ECall _ c args opt => Sh (if opt then bs "?.call" else bs "call") (shape_of c :: map shape_of args)
  | ENew _ c args => Sh (bs "new") (shape_of c :: map shape_of args)
  | EChain _ e => Sh (bs "chain") [shape_of e]
  | EMeta _ => Sh (bs "new.target") []
  | ETpl _ t es => Sh (bs "template") (match t with Some c => [shape_of c] | None => [] end ++ map shape_of es)
  | EArrow _ ps b => Sh (bs "=>") (map shape_of ps ++ [shape_of b])
  | EOther _ => Sh (bs "other") []
  end.
Definition shape_parsed (x : pres expr) : option shape := match x with POk e _ => Some (shape_of e) | _ => None end.
Notation leaf x := (Sh (bs x) []).

(** a + b * c.a(b, c), c = [a, , ...b]: an expression that meets the hypotheses, with its tree. *)
Definition sample : pst := src [A; y T_ADD; B; y T_MUL; C; y T_DOT; A; y T_PAREN_L; B; y T_COMMA; C; y T_PAREN_R;
  y T_COMMA; C; y T_ASSIGN; y T_BRACKET_L; A; y T_COMMA; y T_COMMA; y T_DOT_TRI; B; y T_BRACKET_R].
Example sample_tree : shape_parsed (parse 0 sample) =
  Some (Sh (bs ",") [
    Sh (bs "binary") [leaf "a"; Sh (bs "binary") [leaf "b"; Sh (bs "call") [Sh (bs ".") [leaf "c"; leaf "a"]; leaf "b"; leaf "c"]]];
    Sh (bs "=") [leaf "c"; Sh (bs "[]") [leaf "a"; leaf "hole"; Sh (bs "...") [leaf "b"]]]]).
Proof. vm_compute; reflexivity. Qed.
Example sample_ordered : ordered (p_toks sample).
Proof. exists 0, 43. vm_compute. repeat split; repeat constructor. Qed.
Example sample_pattern : shape_parsed (parse 0 (src [y T_BRACKET_L; A; y T_COMMA; y T_BRACE_L; B; y T_ASSIGN; num (bs "1"); y T_BRACE_R; y T_BRACKET_R; y T_ASSIGN; C])) =
  Some (Sh (bs "=") [Sh (bs "[pattern]") [leaf "a"; Sh (bs "{pattern}") [Sh (bs ":") [leaf "b"; Sh (bs "default") [leaf "b"; leaf "1"]]]]; leaf "c"]).
Proof. vm_compute; reflexivity. Qed.
Example sample_strict : shape_parsed (parse SPK_STRICT (src [A; y T_ASSIGN; B])) = Some (Sh (bs "=") [leaf "a"; leaf "b"]) /\
  parse SPK_STRICT (src [w (bs "eval"); y T_ASSIGN; B]) = PErr /\ parse SPK_STRICT (src [w (bs "eval"); y T_INC]) = PErr.
Proof. vm_compute; auto. Qed.

(** Not everything is as ECMA-262 says.
    [({a: [b]})]: the array is not a pattern, but the tree says so. *)
Theorem C39_pattern_refuted : shape_parsed (parse 0 (src [y T_PAREN_L; y T_BRACE_L; A; y T_COLON; y T_BRACKET_L; B; y T_BRACKET_R; y T_BRACE_R; y T_PAREN_R])) =
  Some (Sh (bs "()") [Sh (bs "{}") [Sh (bs ":") [leaf "a"; Sh (bs "[pattern]") [leaf "b"]]]]).
Proof. vm_compute; reflexivity. Qed.
(** [a?.()()]: the second call is not optional, but the tree says so. *)
Theorem C39_optional_refuted : shape_parsed (parse 0 (src [A; y T_OPT_CHAIN; y T_PAREN_L; y T_PAREN_R; y T_PAREN_L; y T_PAREN_R])) =
  Some (Sh (bs "chain") [Sh (bs "?.call") [Sh (bs "?.call") [leaf "a"]]]).
Proof. vm_compute; reflexivity. Qed.
(** [new a()`b`] calls the new object as a tag, but the tree says that a does. *)
Theorem C39_new_template_refuted : shape_parsed (parse 0 (src [y T_NEW; A; y T_PAREN_L; y T_PAREN_R; quote])) =
  Some (Sh (bs "new") [Sh (bs "template") [leaf "a"; Sh [] []]]).
Proof. vm_compute; reflexivity. Qed.
(** [new new a()()] is new (new a())(), not new ((new a())()). *)
Theorem C39_nested_new_refuted : shape_parsed (parse 0 (src [y T_NEW; y T_NEW; A; y T_PAREN_L; y T_PAREN_R; y T_PAREN_L; y T_PAREN_R])) =
  Some (Sh (bs "new") [Sh (bs "call") [Sh (bs "new") [leaf "a"]]]).
Proof. vm_compute; reflexivity. Qed.
(** An arrow function ends where its block ends: [() => {}], newline, [+ 1] are not one expression. *)
Theorem C39_arrow_refuted : shape_parsed (parse 0 (src [y T_PAREN_L; y T_PAREN_R; y T_ARROW; y T_BRACE_L; y T_BRACE_R; nl T_ADD; num (bs "1")])) =
  Some (Sh (bs "binary") [Sh (bs "=>") [leaf "other"]; leaf "1"]).
Proof. vm_compute; reflexivity. Qed.
(** [a = {1}] is no expression. *)
Theorem C39_lone_refuted : shape_parsed (parse 0 (src [A; y T_ASSIGN; y T_BRACE_L; num (bs "1"); y T_BRACE_R])) =
  Some (Sh (bs "=") [leaf "a"; Sh (bs "{}") [Sh (bs ":") [leaf "1"; leaf "hole"]]]).
Proof. vm_compute; reflexivity. Qed.
(** Nor is [a ? {b = 1} : c]. *)
Theorem C39_init_refuted : shape_parsed (parse 0 (src [A; y T_HOOK; y T_BRACE_L; B; y T_ASSIGN; num (bs "1"); y T_BRACE_R; y T_COLON; C])) =
  Some (Sh (bs "?:") [leaf "a"; Sh (bs "{}") [Sh (bs ":") [leaf "b"; leaf "1"]]; leaf "c"]).
Proof. vm_compute; reflexivity. Qed.

(** [a`b`]: the node of the template, whose child is the tag, begins after the tag. *)
Theorem C40_tag_refuted : exists t es s', parse 0 (src [A; quote]) = POk (ETpl (2, 3) (Some t) es) s' /\ range t = (0, 1).
Proof. do 3 eexists. split; [vm_compute; reflexivity|reflexivity]. Qed.

(** [[a]++] *)
Theorem C38_update_refuted : shape_parsed (parse 0 (src [y T_BRACKET_L; A; y T_BRACKET_R; y T_INC])) =
  Some (Sh (bs "postfix") [Sh (bs "[]") [leaf "a"]]).
Proof. vm_compute; reflexivity. Qed.
(** [a([b] += 1)] *)
Theorem C38_compound_refuted : shape_parsed (parse 0 (src [A; y T_PAREN_L; y T_BRACKET_L; B; y T_BRACKET_R; y T_ASSIGN_ADD; num (bs "1"); y T_PAREN_R])) =
  Some (Sh (bs "call") [leaf "a"; Sh (bs "op=") [Sh (bs "[pattern]") [leaf "b"]; leaf "1"]]).
Proof. vm_compute; reflexivity. Qed.
(** [(eval = 1)] in strict code; names are not checked between the parentheses. *)
Theorem C38_strict_refuted :
  shape_parsed (parse_at (fun s => match p_toks s with [] => true | _ => false end) SPK_STRICT
    (src [y T_PAREN_L; w (bs "eval"); y T_ASSIGN; num (bs "1"); y T_PAREN_R])) =
  Some (Sh (bs "()") [Sh (bs "=") [leaf "eval"; leaf "1"]]).
Proof. vm_compute; reflexivity. Qed.
(** [(a = [,])] and [delete a?.()]: the parser panics. *)
Theorem C50_hole_refuted : parse 0 (src [y T_PAREN_L; A; y T_ASSIGN; y T_BRACKET_L; y T_COMMA; y T_BRACKET_R; y T_PAREN_R]) = PPanic.
Proof. vm_compute; reflexivity. Qed.
Theorem C50_delete_refuted : parse 0 (src [y T_DELETE; A; y T_OPT_CHAIN; y T_PAREN_L; y T_PAREN_R]) = PPanic.
Proof. vm_compute; reflexivity. Qed.

