(** Printing: every expression, without positions, is written down by a function, with parentheses where they are needed. *)
From Coq Require Import Lia ZifyBool ZifyNat ZifyN.
From Verif Require Import Base TokenModel LexModel ParseBase BinModel BinSpec BinProofs SymtabModel EarlyModel ExprModel ExprSpec ExprProofs
  WriteSpec WriteFacts.

(** ** Expressions as a person thinks of them *)
Inductive sx :=
| SLit (v : tv) (n : bytes)
| SName (n : bytes)
| SArr (es : list (option sx))
| SObj (ps : list sx)
| SPair (key : sx) (computed : bool) (v : sx)
| SShort (n : bytes)
| SSpread (e : sx)
| SDot (o : sx) (n : bytes)
| SSub (o p : sx)
| SCall (c : sx) (args : list sx)
| SNew (c : sx) (args : list sx)
| SUpd (op : tv) (prefix : bool) (e : sx)
| SUn (op : tv) (e : sx)
| SBin (op : tv) (l r : sx)
| SCond (t c a : sx)
| SAsg (op : tv) (l r : sx)
| SSeq (es : list sx)
| SNone.

(** A token as it is spelled, without its place. *)
Definition sym := (tv * bytes)%type.
Definition has_text (v : tv) : bool := existsb (tv_eqb v) [T_NAME; T_NUM; T_STRING; T_REGEXP].
Definition sym_of (text : token -> bytes) (t : token) : sym := (t_val t, if has_text (t_val t) then text t else []).
Definition p (v : tv) : sym := (v, []).

Definition level (s : sx) : nat :=
  match s with
  | SDot _ _ | SSub _ _ | SCall _ _ => 7
  | SNew _ _ => 8
  | SUpd _ _ _ => 5
  | SUn _ _ => 4
  | SBin _ _ _ => 3
  | SCond _ _ _ => 2
  | SAsg _ _ _ => 1
  | SSeq _ => 0
  | _ => 9
  end.
Definition wrap (n : nat) (s : sx) (b : list sym) : list sym := if Nat.ltb (level s) n then p T_PAREN_L :: b ++ [p T_PAREN_R] else b.
Section Lists.
Variable body : sx -> list sym.
Fixpoint commas (l : list sx) : list sym :=
  match l with [] => [] | [x] => wrap 1 x (body x) | x :: l => wrap 1 x (body x) ++ p T_COMMA :: commas l end.
Fixpoint holes (l : list (option sx)) : list sym :=
  match l with
  | [] => []
  | None :: l => p T_COMMA :: holes l
  | [Some x] => wrap 1 x (body x)
  | Some x :: l => wrap 1 x (body x) ++ p T_COMMA :: holes l
  end.
End Lists.
Fixpoint body (s : sx) : list sym :=
  match s with
  | SLit v n => [(v, n)]
  | SName n | SShort n => [(T_NAME, n)]
  | SArr es => p T_BRACKET_L :: holes body es ++ [p T_BRACKET_R]
  | SObj ps => p T_BRACE_L :: commas body ps ++ [p T_BRACE_R]
  | SPair key c v => (if c then p T_BRACKET_L :: wrap 1 key (body key) ++ [p T_BRACKET_R] else body key) ++ p T_COLON :: wrap 1 v (body v)
  | SSpread e => p T_DOT_TRI :: wrap 1 e (body e)
  | SDot o n => wrap 7 o (body o) ++ [p T_DOT; (T_NAME, n)]
  | SSub o q => wrap 7 o (body o) ++ p T_BRACKET_L :: body q ++ [p T_BRACKET_R]
  | SCall c args => wrap 7 c (body c) ++ p T_PAREN_L :: commas body args ++ [p T_PAREN_R]
  | SNew c args => p T_NEW :: wrap 9 c (body c) ++ p T_PAREN_L :: commas body args ++ [p T_PAREN_R]
  | SUpd op true e => p op :: wrap 7 e (body e)
  | SUpd op false e => wrap 7 e (body e) ++ [p op]
  | SUn op e => p op :: wrap 4 e (body e)
  | SBin op l r => let n := if tv_eqb op T_POW then 5 else 4 in wrap n l (body l) ++ p op :: wrap 4 r (body r)
  | SCond t c a => wrap 3 t (body t) ++ p T_HOOK :: wrap 1 c (body c) ++ p T_COLON :: wrap 1 a (body a)
  | SAsg op l r => wrap 7 l (body l) ++ p op :: wrap 1 r (body r)
  | SSeq es => commas body es
  | SNone => []
  end.
Definition print (s : sx) : list sym := body s.

(** ** Which expressions there are *)
Inductive kind := KExpr | KItem | KProp.
Definition is_expr (k : kind) : bool := match k with KProp => false | _ => true end.
Definition sx_place (s : sx) : bool := match s with SName _ | SDot _ _ | SSub _ _ => true | _ => false end.
Definition sx_name (s : sx) : bool := match s with SName _ => true | _ => false end.
Definition sx_literal (s : sx) : bool := match s with SArr _ | SObj _ => true | _ => false end.
Definition not_proto (n : bytes) : bool := negb (bytes_eqb n (bs "__proto__")).
Definition key_like (s : sx) : bool :=
  match s with
  | SName n => ordinary n && not_proto n
  | SLit v n => existsb (tv_eqb v) [T_NUM; T_STRING] && not_proto n
  | _ => false
  end.
(** No array with a hole is where a default value would be looked for. *)
Fixpoint hole_free (s : sx) : bool :=
  match s with
  | SArr es => forallb (fun x => match x with Some e => hole_free e | None => false end) es
  | SObj ps => forallb hole_free ps
  | SPair _ _ v => hole_free v
  | SSpread e | SUn _ e | SUpd _ _ e => hole_free e
  | SBin _ l r => hole_free l && hole_free r
  | SCond t c a => hole_free t && hole_free c && hole_free a
  | SSeq es => true
  | _ => true
  end.
(** [good]: the operators are operators, targets are names and members, spreads are elements, arguments or properties,
    properties are in objects and none is named __proto__, delete does not apply to a name; what is assigned has no
    holes and no array or object literal stands among the operands of the comma operator, where the parser goes wrong
    between parentheses (C39_pattern_refuted, C50_hole_refuted). *)
Fixpoint good (k : kind) (s : sx) : bool :=
  match s with
  | SSpread e => match k with KExpr => false | _ => good KExpr e end
  | SPair key c v => match k with KProp => (if c then good KExpr key else key_like key) && good KExpr v | _ => false end
  | SShort n => match k with KProp => ordinary n | _ => false end
  | SNone => false
  | SLit v n => is_expr k && existsb (tv_eqb v) [T_NUM; T_NULL; T_TRUE; T_FALSE; T_THIS; T_REGEXP; T_STRING] &&
      (has_text v || match n with [] => true | _ => false end)
  | SName n => is_expr k && ordinary n
  | SArr es => is_expr k && forallb (fun x => match x with Some e => good KItem e | None => true end) es
  | SObj ps => is_expr k && forallb (good KProp) ps
  | SDot o n => is_expr k && good KExpr o
  | SSub o q => is_expr k && good KExpr o && good KExpr q
  | SCall c args | SNew c args => is_expr k && good KExpr c && forallb (good KItem) args
  | SUpd op _ e => is_expr k && existsb (tv_eqb op) [T_INC; T_DEC] && good KExpr e && sx_place e
  | SUn op e => is_expr k && existsb (tv_eqb op) prefix_ops && good KExpr e && negb (tv_eqb op T_DELETE && sx_name e)
  | SBin op l r => is_expr k && existsb (tv_eqb op) infix_ops && good KExpr l && good KExpr r
  | SCond t c a => is_expr k && good KExpr t && good KExpr c && good KExpr a
  | SAsg op l r => is_expr k && existsb (tv_eqb op) assign_ops && good KExpr l && sx_place l && good KExpr r && hole_free r
  | SSeq es => is_expr k && Nat.leb 2 (length es) && forallb (good KExpr) es && forallb (fun e => negb (sx_literal e)) es
  end.

(** ** The expression a tree is for: without positions and parentheses *)
Fixpoint bare (text : token -> bytes) (e : expr) : sx :=
  match e with
  | ELit _ t => SLit (t_val t) (if has_text (t_val t) then text t else [])
  | EName _ n _ _ => SName n
  | EParen _ e => bare text e
  | EArr _ es => SArr (map (option_map (bare text)) es)
  | EObj _ ps => SObj (map (bare text) ps)
  | EProp _ _ (Some (EName _ n _ _)) false true _ => SShort n
  | EProp _ key (Some v) c _ _ => SPair (bare text key) c (bare text v)
  | ESpread _ e _ => SSpread (bare text e)
  | ESeq _ es => SSeq (map (bare text) es)
  | EBin _ op _ l h => SBin op (bare text l) (bare text h)
  | EUnary _ op e => SUn op (bare text e)
  | EUpdate _ op pre e => SUpd op pre (bare text e)
  | ECond _ t c a => SCond (bare text t) (bare text c) (bare text a)
  | EAssign _ op _ l h => SAsg op (bare text l) (bare text h)
  | EMember _ o (EName _ n _ _) false false => SDot (bare text o) n
  | EMember _ o q true false => SSub (bare text o) (bare text q)
  | ECall _ c args false => SCall (bare text c) (map (bare text) args)
  | ENew _ c args => SNew (bare text c) (map (bare text) args)
  | _ => SNone
  end.

Section Ind.
Variable P : sx -> Prop.
Definition PO (x : option sx) : Prop := match x with Some e => P e | None => True end.
Hypotheses (H1 : forall v n, P (SLit v n)) (H2 : forall n, P (SName n)) (H3 : forall es, Forall PO es -> P (SArr es)) (H4 : forall ps, Forall P ps -> P (SObj ps))
  (H5 : forall key c v, P key -> P v -> P (SPair key c v)) (H6 : forall n, P (SShort n)) (H7 : forall e, P e -> P (SSpread e)) (H8 : forall o n, P o -> P (SDot o n))
  (H9 : forall o q, P o -> P q -> P (SSub o q)) (H10 : forall c args, P c -> Forall P args -> P (SCall c args)) (H11 : forall c args, P c -> Forall P args -> P (SNew c args))
  (H12 : forall op b e, P e -> P (SUpd op b e)) (H13 : forall op e, P e -> P (SUn op e)) (H14 : forall op l r, P l -> P r -> P (SBin op l r))
  (H15 : forall t c a, P t -> P c -> P a -> P (SCond t c a)) (H16 : forall op l r, P l -> P r -> P (SAsg op l r)) (H17 : forall es, Forall P es -> P (SSeq es)) (H18 : P SNone).
Fixpoint sx_all (s : sx) : P s :=
  let fix go l : Forall P l := match l with [] => Forall_nil _ | x :: l => Forall_cons _ (sx_all x) (go l) end in
  let fix gos l : Forall PO l := match l with [] => Forall_nil _ | x :: l => Forall_cons x (match x return PO x with Some e => sx_all e | None => Logic.I end) (gos l) end in
  match s with
  | SLit v n => H1 v n | SName n => H2 n | SArr es => H3 es (gos es) | SObj ps => H4 ps (go ps) | SPair key c v => H5 key c v (sx_all key) (sx_all v)
  | SShort n => H6 n | SSpread e => H7 e (sx_all e) | SDot o n => H8 o n (sx_all o) | SSub o q => H9 o q (sx_all o) (sx_all q)
  | SCall c args => H10 c args (sx_all c) (go args) | SNew c args => H11 c args (sx_all c) (go args) | SUpd op b e => H12 op b e (sx_all e) | SUn op e => H13 op e (sx_all e)
  | SBin op l r => H14 op l r (sx_all l) (sx_all r) | SCond t c a => H15 t c a (sx_all t) (sx_all c) (sx_all a) | SAsg op l r => H16 op l r (sx_all l) (sx_all r)
  | SSeq es => H17 es (go es) | SNone => H18
  end.
End Ind.

(** ** Every expression is written *)
Section Print.
Variable text : token -> bytes.
(** Tokens of which the form is not in their spelling: no line break comes before ++ and --, strings have no octal escapes. *)
Definition smooth (t : token) : Prop :=
  (In (t_val t) [T_INC; T_DEC] -> t_atl t = false) /\ (t_val t = T_STRING -> exists s, t_ext t = XStr s false).
Notation sy := (sym_of text).
Notation written := (written text).


Record like (s : sx) (e : expr) : Prop := mk_like {
  l_bare : bare text e = s; l_name : is_name_e e = sx_name s; l_place : place_like e = true -> sx_place s = true; l_hole : hole_free s = true -> no_holes e = true }.
Definition D (s : sx) : Prop := forall ts, map sy ts = body s -> Forall smooth ts -> exists m e, level s <= m <= 9 /\ written m e ts /\ like s e /\
  (sx_place s = true -> place_like e = true) /\ (sx_literal s = false -> level s > 0 -> calm e = true) /\
  (forall es, s = SSeq es -> exists fs, e = one_or_seq fs ts /\ listed text fs ts /\ forallb calm fs = true).
Definition Wr (n : nat) (s : sx) : Prop := forall ts, map sy ts = wrap n s (body s) -> Forall smooth ts -> exists m e, n <= m <= 9 /\ written m e ts /\ like s e /\
  (n <= 7 -> sx_place s = true -> place_like e = true) /\ (sx_literal s = false -> n > 0 -> calm e = true).
Definition It (s : sx) : Prop := forall b ts, map sy ts = wrap 1 s (body s) -> Forall smooth ts ->
  exists e, item text b e ts /\ bare text e = s /\ (hole_free s = true -> no_holes e = true).
Definition Pp (s : sx) : Prop := forall b ts, map sy ts = wrap 1 s (body s) -> Forall smooth ts ->
  exists e, property text b e ts /\ bare text e = s /\ (hole_free s = true -> no_holes e = true) /\ named_proto text e = false.

Lemma sy_val : forall t v n, sy t = (v, n) -> t_val t = v.
Proof. intros t v n H. injection H as <- _. reflexivity. Qed.
Lemma split_map : forall (ts : list token) a b, map sy ts = a ++ b -> exists us vs, ts = us ++ vs /\ map sy us = a /\ map sy vs = b.
Proof. intros ts a b H. apply map_eq_app in H as (us & vs & -> & A & B). eauto. Qed.
Lemma cons_map : forall (ts : list token) x a, map sy ts = x :: a -> exists t us, ts = t :: us /\ sy t = x /\ map sy us = a.
Proof. intros [|t ts] x a H; [discriminate|]. injection H as A B. eauto. Qed.
Lemma one_map : forall (ts : list token) x, map sy ts = [x] -> exists t, ts = [t] /\ sy t = x.
Proof. intros ts x H. apply cons_map in H as (t & us & -> & A & B). destruct us; [|discriminate B]. eauto. Qed.
Ltac splits := repeat match goal with
  | H : map sy _ = _ ++ _ |- _ => apply split_map in H as (? & ? & ? & ? & ?); subst
  | H : map sy _ = [_] |- _ => apply one_map in H as (? & ? & ?); subst
  | H : map sy _ = _ :: _ |- _ => apply cons_map in H as (? & ? & ? & ? & ?); subst
  | H : map sy _ = [] |- _ => apply map_eq_nil in H; subst
  | H : sy _ = p _ |- _ => apply sy_val in H
  | H : Forall smooth (_ ++ _) |- _ => apply Forall_app in H as [? ?]
  | H : Forall smooth (_ :: _) |- _ => apply Forall_cons_iff in H as [? ?]
  end.

Lemma D_W : forall n s, n <= 9 -> D s -> Wr n s.
Proof.
  intros n s L H ts E Sm. unfold wrap in E. destruct (Nat.ltb (level s) n) eqn:Q.
  - apply Nat.ltb_lt in Q. splits. match goal with A : map sy ?us = body s |- _ => destruct (H _ A) as (m & e & Lm & Wt & Lk & Pl & Cm & Sq); [assumption|] end.
    assert (X : exists fs, e = one_or_seq fs x1 /\ listed text fs x1 /\ forallb calm fs = true).
    { destruct (Nat.eq_dec (level s) 0) as [Z|Z]; [destruct s; try discriminate Z; eauto|]. exists [e]. split; [reflexivity|]. split; [apply (Li_one text m); [exact Wt|lia]|].
      cbn [forallb]. rewrite Cm; [reflexivity| |lia]. destruct s; try reflexivity; cbn in Q; lia. }
    destruct X as (fs & -> & Ls & Cf). eexists 9, _. split; [lia|]. split; [eapply W_paren; eassumption|]. split; [|split; [|intros _ _; reflexivity]].
    + constructor.
      * exact (l_bare _ _ Lk).
      * cbn. destruct s; try reflexivity. cbn in Q. lia.
      * discriminate.
      * exact (l_hole _ _ Lk).
    + intros L7 Pc. destruct s; try discriminate Pc; cbn in Q; lia.
  - apply Nat.ltb_ge in Q. destruct (H _ E Sm) as (m & e & Lm & Wt & Lk & Pl & Cm & _). exists m, e. split; [lia|]. split; [exact Wt|]. split; [exact Lk|]. split; [intros _ Pc; exact (Pl Pc)|].
    intros A B. apply Cm; [exact A|lia].
Qed.

Definition P (s : sx) : Prop := (good KExpr s = true -> D s) /\ (good KItem s = true -> It s) /\ (good KProp s = true -> Pp s).
Lemma D_It : forall s, D s -> It s.
Proof.
  intros s H b ts E Sm. destruct (D_W 1 s ltac:(lia) H ts E Sm) as (m & e & L & Wt & Lk & _). exists e. split; [apply (It_one text b m); [exact Wt|lia]|].
  split; [exact (l_bare _ _ Lk)|exact (l_hole _ _ Lk)].
Qed.
Lemma expr_P : forall s, good KItem s = good KExpr s -> good KProp s = false -> (good KExpr s = true -> D s) -> P s.
Proof. intros s A B H. split; [exact H|]. split; [rewrite A; intro G; apply D_It, H, G|]. rewrite B. discriminate. Qed.
Ltac ands := repeat match goal with H : _ && _ = true |- _ => apply Bool.andb_true_iff in H as [? ?] end.
Ltac wr n Hs e := match type of Hs with D ?s => match goal with
  | E : map sy ?ts = wrap n s (body s), Sm : Forall smooth ?ts |- _ =>
      let m := fresh "m" in let L := fresh "L" in let Wt := fresh "Wt" in let Lk := fresh "Lk" in let Pl := fresh "Pl" in let Cm := fresh "Cm" in
      destruct (D_W n s ltac:(lia) Hs ts E Sm) as (m & e & L & Wt & Lk & Pl & Cm) end end.

Lemma in_ops : forall v l, existsb (tv_eqb v) l = true -> In v l.
Proof. intros v l H. apply existsb_exists in H as (x & I & E). apply tv_eqb_spec in E. subst. exact I. Qed.
Lemma text_of : forall t v n, sy t = (v, n) -> has_text v = true -> text t = n.
Proof. intros t v n H T. unfold sym_of in H. injection H as <- <-. rewrite T. reflexivity. Qed.

Lemma D_lit : forall v n, good KExpr (SLit v n) = true -> D (SLit v n).
Proof.
  intros v n G ts E Sm. cbn [good is_expr andb] in G. ands. cbn [body] in E. splits. exists 9, (ELit (place x) x). split; [cbn; lia|].
  pose proof (sy_val _ _ _ H2) as V.
  assert (Wt : written 9 (ELit (place x) x) [x]).
  { apply in_ops in H. cbn in H. destruct (tv_eqb v T_STRING) eqn:Q.
    - apply tv_eqb_spec in Q. destruct (proj2 H1) as (s & X); [congruence|]. apply (W_string text x s); [congruence|exact X].
    - apply W_lit. rewrite V. clear V H0 H2. repeat (destruct H as [<-|H]; [first [discriminate Q|cbn; tauto]|]). destruct H. }
  split; [exact Wt|]. split; [|split; [discriminate|split; [reflexivity|discriminate]]].
  constructor; try reflexivity; try discriminate. cbn [bare]. unfold sym_of in H2. injection H2 as -> ->. reflexivity.
Qed.
Lemma D_name : forall n, good KExpr (SName n) = true -> D (SName n).
Proof.
  intros n G ts E Sm. cbn [good is_expr andb] in G. cbn [body] in E. splits. pose proof (text_of _ _ _ H0 eq_refl) as <-. apply sy_val in H0.
  exists 9, (EName (place x) (text x) false false). split; [cbn; lia|]. split; [apply W_name; assumption|]. split; [constructor; reflexivity|]. split; [reflexivity|].
  split; [reflexivity|discriminate].
Qed.
Ltac nm := match goal with H : sy ?t = (T_NAME, ?n) |- _ => pose proof (text_of _ _ _ H eq_refl); apply sy_val in H; subst n end.
Ltac done_like := constructor; try reflexivity; try discriminate.
Lemma D_dot : forall o n, D o -> D (SDot o n).
Proof.
  intros o n Ho ts E Sm. cbn [body] in E. splits. wr 7 Ho e. nm.
  match goal with A : t_val ?d = T_DOT, B : t_val ?q = T_NAME |- _ => pose proof (W_dot text _ _ _ _ _ A (or_introl B) Wt ltac:(lia)) as R end.
  eexists _, _. split; [|split; [exact R|]].
  { destruct (proj1 (all_begin text) _ _ _ R) as (R9 & _). destruct (level_member m ltac:(lia)); cbn; lia. }
  split; [|split; [reflexivity|split; [reflexivity|discriminate]]]. done_like. cbn. rewrite (l_bare _ _ Lk). reflexivity.
Qed.
Lemma D_sub : forall o q, D o -> D q -> D (SSub o q).
Proof.
  intros o q Ho Hq ts E Sm. cbn [body] in E. splits. wr 7 Ho e.
  match goal with A : map sy ?us = body q |- _ => destruct (Hq us A) as (m2 & f & L2 & Wf & Lf & _); [assumption|] end.
  match goal with A : t_val ?d = T_BRACKET_L, B : t_val ?q = T_BRACKET_R |- _ => pose proof (W_sub text _ _ _ _ _ _ _ _ A B Wt ltac:(lia) Wf) as R end.
  eexists _, _. split; [|split; [exact R|]].
  { destruct (proj1 (all_begin text) _ _ _ R) as (R9 & _). destruct (level_member m ltac:(lia)); cbn; lia. }
  split; [|split; [reflexivity|split; [reflexivity|discriminate]]]. done_like. cbn. rewrite (l_bare _ _ Lk), (l_bare _ _ Lf). destruct f; reflexivity.
Qed.
Lemma A_args : forall args, Forall P args -> forallb (good KItem) args = true -> forall ts, map sy ts = commas body args -> Forall smooth ts ->
  exists es, arguments text es ts /\ map (bare text) es = args.
Proof.
  induction args as [|a args IH]; intros F G ts E Sm.
  - cbn [commas] in E. splits. exists []. split; [constructor|reflexivity].
  - inversion F as [|? ? (_ & Hi & _) F']; subst. cbn [forallb] in G. ands. specialize (Hi ltac:(assumption)). cbn [commas] in E. destruct args as [|b args].
    + destruct (Hi false ts E Sm) as (e & It' & <- & _). exists [e]. split; [constructor; exact It'|reflexivity].
    + splits. match goal with A : map sy ?us = wrap 1 a (body a), B : Forall smooth ?us |- _ => destruct (Hi true us A B) as (e & It' & <- & _) end.
      match goal with A : map sy ?us = commas body (b :: args), B : Forall smooth ?us |- _ => destruct (IH F' ltac:(assumption) us A B) as (es & Ar' & Q) end.
      exists (e :: es). split; [apply Ar_more; assumption|]. cbn [map]. rewrite Q. reflexivity.
Qed.
Lemma D_call : forall c args, D c -> Forall P args -> forallb (good KItem) args = true -> D (SCall c args).
Proof.
  intros c args Hc F G ts E Sm. cbn [body] in E. splits. wr 7 Hc e.
  match goal with A : map sy ?us = commas body args, B : Forall smooth ?us |- _ => destruct (A_args args F G us A B) as (es & Ar' & Q) end.
  match goal with A : t_val ?d = T_PAREN_L, B : t_val ?q = T_PAREN_R |- _ => pose proof (W_call text _ _ _ _ _ _ _ A B Wt ltac:(lia) Ar') as R end.
  eexists 7, _. split; [cbn; lia|]. split; [exact R|]. split; [|split; [discriminate|split; [reflexivity|discriminate]]].
  done_like. cbn. rewrite (l_bare _ _ Lk), Q. reflexivity.
Qed.
Lemma new_first : forall m e ts d, written m e ts -> m = 9 -> t_val (hd d ts) <> T_NEW.
Proof. intros m e ts d Wt ->. destruct (proj1 (all_begin text) _ _ _ Wt) as (_ & (t & us & -> & St) & _). destruct St as (_ & _ & _ & _ & N). exact (N eq_refl). Qed.
Lemma D_new : forall c args, D c -> Forall P args -> forallb (good KItem) args = true -> D (SNew c args).
Proof.
  intros c args Hc F G ts E Sm. cbn [body] in E. splits. wr 9 Hc e.
  match goal with A : map sy ?us = commas body args, B : Forall smooth ?us |- _ => destruct (A_args args F G us A B) as (es & Ar' & Q) end.
  match goal with A : t_val ?n = T_NEW |- _ => pose proof (new_first _ _ _ n Wt ltac:(lia)) as N;
  match goal with B : t_val ?d = T_PAREN_L, B' : t_val ?q = T_PAREN_R |- _ => pose proof (W_new_args text _ _ _ _ _ _ _ _ A B B' Wt ltac:(lia) N Ar') as R end end.
  eexists 8, _. split; [cbn; lia|]. split; [exact R|]. split; [|split; [discriminate|split; [reflexivity|discriminate]]].
  done_like. cbn. rewrite (l_bare _ _ Lk), Q. reflexivity.
Qed.
Lemma D_upd : forall op b e, D e -> existsb (tv_eqb op) [T_INC; T_DEC] = true -> sx_place e = true -> D (SUpd op b e).
Proof.
  intros op b e He I Pc ts E Sm. apply in_ops in I. cbn [body] in E. destruct b; splits; wr 7 He f; specialize (Pl ltac:(lia) Pc);
    match goal with A : t_val ?o = op |- _ => subst op; rename o into o' end.
  - eexists 5, _. split; [cbn; lia|]. split; [apply (W_prefix text _ m); [exact I|exact Wt|lia|exact Pl]|].
    split; [|split; [discriminate|split; [reflexivity|discriminate]]]. done_like; [cbn; rewrite (l_bare _ _ Lk); reflexivity|exact (l_hole _ _ Lk)].
  - eexists 5, _. split; [cbn; lia|]. split; [apply (W_postfix text _ m); [exact I| |exact Wt|lia|exact Pl]|].
    { match goal with S : smooth o' |- _ => exact (proj1 S I) end. }
    split; [|split; [discriminate|split; [reflexivity|discriminate]]]. done_like; [cbn; rewrite (l_bare _ _ Lk); reflexivity|exact (l_hole _ _ Lk)].
Qed.
Lemma D_un : forall op e, D e -> existsb (tv_eqb op) prefix_ops = true -> negb (tv_eqb op T_DELETE && sx_name e) = true -> D (SUn op e).
Proof.
  intros op e He I Dl ts E Sm. apply in_ops in I. cbn [body] in E. splits. wr 4 He f. match goal with A : t_val ?o = op |- _ => subst op; rename o into o' end.
  eexists 4, _. split; [cbn; lia|]. split; [apply (W_unary text _ m); [exact I|exact Wt|lia|]|].
  { intro Q. rewrite Q in Dl. rewrite (l_name _ _ Lk). destruct (sx_name e); [discriminate Dl|reflexivity]. }
  split; [|split; [discriminate|split; [reflexivity|discriminate]]]. done_like; [cbn; rewrite (l_bare _ _ Lk); reflexivity|exact (l_hole _ _ Lk)].
Qed.
Lemma D_cond : forall t c a, D t -> D c -> D a -> D (SCond t c a).
Proof.
  intros t c a Ht Hc Ha ts E Sm. cbn [body] in E. splits. wr 3 Ht e1. wr 1 Hc e2. wr 1 Ha e3.
  match goal with A : t_val ?q = T_HOOK, B : t_val ?l = T_COLON |- _ => pose proof (W_cond text _ _ _ _ _ _ _ _ _ _ _ A B Wt ltac:(lia) Wt0 ltac:(lia) Wt1 ltac:(lia)) as R end.
  eexists 2, _. split; [cbn; lia|]. split; [exact R|]. split; [|split; [discriminate|split; [reflexivity|discriminate]]].
  done_like; [cbn; rewrite (l_bare _ _ Lk), (l_bare _ _ Lk0), (l_bare _ _ Lk1); reflexivity|].
  cbn. intro Q. ands. rewrite (l_hole _ _ Lk), (l_hole _ _ Lk0), (l_hole _ _ Lk1) by assumption. reflexivity.
Qed.
Lemma D_asg : forall op l r, D l -> D r -> existsb (tv_eqb op) assign_ops = true -> sx_place l = true -> hole_free r = true -> D (SAsg op l r).
Proof.
  intros op l r Hl Hr I Pc Hf ts E Sm. apply in_ops in I. cbn [body] in E. splits. wr 7 Hl e1. wr 1 Hr e2. specialize (Pl ltac:(lia) Pc).
  match goal with A : t_val ?o = op |- _ => subst op; rename o into o' end.
  eexists 1, _. split; [cbn; lia|]. split; [apply (W_assign text m e1 _ o' m0 e2); [exact I|exact Wt|lia|exact Pl|exact Wt0|lia]|].
  split; [|split; [discriminate|split; [intros _ _; exact (l_hole _ _ Lk0 Hf)|discriminate]]].
  done_like. cbn. rewrite (l_bare _ _ Lk), (l_bare _ _ Lk0). reflexivity.
Qed.
Lemma L_seq : forall es, Forall P es -> forallb (good KExpr) es = true -> forallb (fun e => negb (sx_literal e)) es = true -> es <> [] ->
  forall ts, map sy ts = commas body es -> Forall smooth ts -> exists fs, listed text fs ts /\ map (bare text) fs = es /\ forallb calm fs = true.
Proof.
  induction es as [|a es IH]; intros F G N Ne ts E Sm; [congruence|].
  inversion F as [|? ? (He & _) F']; subst. cbn [forallb] in G, N. ands. specialize (He ltac:(assumption)).
  match goal with A : negb (sx_literal a) = true |- _ => apply Bool.negb_true_iff in A; rename A into La end. cbn [commas] in E. destruct es as [|b es].
  - wr 1 He e. exists [e]. split; [apply (Li_one text m); [exact Wt|lia]|]. split; [cbn; rewrite (l_bare _ _ Lk); reflexivity|]. cbn. rewrite (Cm La) by lia. reflexivity.
  - splits. wr 1 He e.
    match goal with A : map sy ?us = commas body (b :: es), B : Forall smooth ?us |- _ => destruct (IH F' ltac:(assumption) ltac:(assumption) ltac:(discriminate) us A B) as (fs & Ls & Q & Cf) end.
    exists (e :: fs). split; [apply (Li_more text m); [exact Wt|lia|assumption|exact Ls]|]. split; [cbn [map]; rewrite Q, (l_bare _ _ Lk); reflexivity|].
    cbn [forallb]. rewrite (Cm La) by lia. exact Cf.
Qed.
Lemma D_seq : forall es, Forall P es -> forallb (good KExpr) es = true -> forallb (fun e => negb (sx_literal e)) es = true -> 2 <= length es -> D (SSeq es).
Proof.
  intros es F G N L ts E Sm. cbn [body] in E. destruct (L_seq es F G N ltac:(destruct es; cbn in L; [lia|discriminate]) ts E Sm) as (fs & Ls & Q & Cf).
  assert (Lf : 2 <= length fs) by (rewrite <- (map_length (bare text)), Q; exact L).
  assert (One : ESeq (first_lo ts, last_hi ts) fs = one_or_seq fs ts) by (destruct fs as [|x [|y fs]]; cbn in Lf; [lia|lia|reflexivity]).
  exists 0, (ESeq (first_lo ts, last_hi ts) fs). split; [cbn; lia|]. split; [apply W_seq; [exact Ls|lia]|].
  split; [done_like; cbn; rewrite Q; reflexivity|]. split; [discriminate|]. split; [cbn; lia|]. intros es' _. exists fs. auto.
Qed.
Lemma derives_one : forall op o h (a b : expr), In op infix_ops -> derives 0 (Bin op o h (Leaf a) (Leaf b)).
Proof.
  intros op o h a b I. unfold infix_ops in I. cbn in I.
  repeat (destruct I as [<-|I]; [match goal with |- derives 0 (Bin ?op _ _ _ _) =>
    first [apply (D_left 0 (rank op)); [eexists; split; [reflexivity|cbn; tauto]|lia|constructor..]
          |apply (D_right 0 (rank op)); [eexists; split; [reflexivity|cbn; tauto]|lia|constructor..]] end|]). destruct I.
Qed.
Lemma unary_level : forall m e ts, written m e ts -> 5 <= m -> is_unary_e e = false.
Proof. intros m e ts H L. inversion H; subst; try reflexivity; lia. Qed.
Lemma D_bin : forall op l r, D l -> D r -> existsb (tv_eqb op) infix_ops = true -> D (SBin op l r).
Proof.
  intros op l r Hl Hr I ts E Sm. apply in_ops in I. cbn [body] in E.
  assert (X : exists n, 4 <= n <= 5 /\ (op = T_POW -> n = 5) /\ map sy ts = wrap n l (body l) ++ p op :: wrap 4 r (body r)).
  { cbv zeta in E. destruct (tv_eqb op T_POW) eqn:Q; [exists 5|exists 4]; (split; [lia|]); (split; [|exact E]); intro Z; [reflexivity|subst; discriminate Q]. }
  clear E. destruct X as (n & Ln & Lp & E). splits.
  match goal with A : map sy ?us = wrap n l (body l), B : Forall smooth ?us |- _ => destruct (D_W n l ltac:(lia) Hl us A B) as (m1 & e1 & L1 & W1 & K1 & _); rename us into lts end.
  match goal with A : map sy ?us = wrap 4 r (body r), B : Forall smooth ?us |- _ => destruct (D_W 4 r ltac:(lia) Hr us A B) as (m2 & e2 & L2 & W2 & K2 & _); rename us into rts end.
  match goal with A : t_val ?o = op |- _ => rename o into o'; rename A into Ov end.
  assert (J : joined text (Bin op (place o') (last_hi rts) (Leaf e1) (Leaf e2)) (lts ++ o' :: rts)).
  { apply J_bin; [left; split; [exact I|exact Ov]|apply (J_leaf text m1); [exact W1|lia]|apply (J_leaf text m2); [exact W2|lia]]. }
  assert (Wb : written 3 (of_bt (Bin op (place o') (last_hi rts) (Leaf e1) (Leaf e2))) (lts ++ o' :: rts)).
  { apply W_bin; [exact J| | | | |].
    - apply derives_one. exact I.
    - discriminate.
    - intros (pre & a & b & mid & c & post & Q & _). cbn in Q. apply (f_equal (@length tv)) in Q. cbn in Q. rewrite app_length in Q. cbn in Q. rewrite app_length in Q. cbn in Q. lia.
    - intros [A B]. cbn in A, B. destruct A as [->|[]]. destruct B as [[B|[]]|[B|[]]]; discriminate B.
    - intro U. cbn [first following app] in U. inversion U as [a b l0 Ua Qa Qb|a o b l0 Ub Qa Qb]; subst.
      + rewrite (unary_level _ _ _ W1) in Ua; [discriminate Ua|]. rewrite <- (Lp ltac:(congruence)). lia.
      + inversion Ub. }
  eexists 3, _. split; [cbn; lia|]. split; [exact Wb|]. split; [|split; [discriminate|split; [reflexivity|discriminate]]].
  done_like; [cbn; rewrite (l_bare _ _ K1), (l_bare _ _ K2); reflexivity|]. cbn. intro Q. ands. rewrite (l_hole _ _ K1), (l_hole _ _ K2) by assumption. reflexivity.
Qed.
Lemma E_arr : forall es, Forall (PO P) es -> forallb (fun x => match x with Some e => good KItem e | None => true end) es = true ->
  forall ts, map sy ts = holes body es -> Forall smooth ts -> exists fs, elements text fs ts /\ map (option_map (bare text)) fs = es /\
  (forallb (fun x => match x with Some e => hole_free e | None => false end) es = true -> forallb (fun x => match x with Some e => no_holes e | None => false end) fs = true).
Proof.
  induction es as [|[a|] es IH]; intros F G ts E Sm; (try (inversion F as [|? ? Ha F']; subst)); cbn [forallb] in G; ands.
  - cbn [holes] in E. splits. exists []. split; [constructor|auto].
  - destruct Ha as (_ & Hi & _). specialize (Hi ltac:(assumption)). cbn [holes] in E. destruct es as [|b es].
    + destruct (Hi false ts E Sm) as (e & It' & <- & Hf). exists [Some e]. split; [constructor; exact It'|]. split; [reflexivity|]. cbn. intro Q. ands. rewrite Hf by assumption. reflexivity.
    + splits. match goal with A : map sy ?us = wrap 1 a (body a), B : Forall smooth ?us |- _ => destruct (Hi true us A B) as (e & It' & <- & Hf) end.
      match goal with A : map sy ?us = holes body (b :: es), B : Forall smooth ?us |- _ => destruct (IH F' ltac:(assumption) us A B) as (fs & El' & Q & Hfs) end.
      exists (Some e :: fs). split; [apply El_more; assumption|]. split; [cbn [map option_map]; rewrite Q; reflexivity|].
      intro Z. cbn [forallb] in Z. ands. cbn [forallb]. rewrite Hf by assumption. apply Hfs. cbn [forallb]. apply Bool.andb_true_iff. auto.
  - cbn [holes] in E. splits. match goal with A : map sy ?us = holes body es, B : Forall smooth ?us |- _ => destruct (IH F' ltac:(assumption) us A B) as (fs & El' & Q & Hfs) end.
    exists (None :: fs). split; [apply El_hole; assumption|]. split; [cbn [map option_map]; rewrite Q; reflexivity|]. cbn. discriminate.
Qed.
Lemma D_arr : forall es, Forall (PO P) es -> forallb (fun x => match x with Some e => good KItem e | None => true end) es = true -> D (SArr es).
Proof.
  intros es F G ts E Sm. cbn [body] in E. splits.
  match goal with A : map sy ?us = holes body es, B : Forall smooth ?us |- _ => destruct (E_arr es F G us A B) as (fs & El' & Q & Hfs) end.
  match goal with A : t_val ?d = T_BRACKET_L, B : t_val ?q = T_BRACKET_R |- _ => pose proof (W_arr text _ _ _ _ A B El') as R end.
  eexists 9, _. split; [cbn; lia|]. split; [exact R|]. split; [|split; [discriminate|split; [discriminate|discriminate]]]. done_like; [cbn; rewrite Q; reflexivity|]. exact Hfs.
Qed.
Lemma O_obj : forall ps, Forall P ps -> forallb (good KProp) ps = true -> forall ts, map sy ts = commas body ps -> Forall smooth ts ->
  exists es, properties text es ts /\ map (bare text) es = ps /\ (forallb hole_free ps = true -> forallb no_holes es = true) /\ filter (named_proto text) es = [].
Proof.
  induction ps as [|a ps IH]; intros F G ts E Sm.
  - cbn [commas] in E. splits. exists []. split; [constructor|auto].
  - inversion F as [|? ? (_ & _ & Hp) F']; subst. cbn [forallb] in G. ands. specialize (Hp ltac:(assumption)). cbn [commas] in E. destruct ps as [|b ps].
    + destruct (Hp false ts E Sm) as (e & Py' & <- & Hf & Np). exists [e]. split; [constructor; exact Py'|]. split; [reflexivity|]. cbn. rewrite Np. split; [|reflexivity].
      intro Q. ands. rewrite Hf by assumption. reflexivity.
    + splits. match goal with A : map sy ?us = wrap 1 a (body a), B : Forall smooth ?us |- _ => destruct (Hp true us A B) as (e & Py' & <- & Hf & Np) end.
      match goal with A : map sy ?us = commas body (b :: ps), B : Forall smooth ?us |- _ => destruct (IH F' ltac:(assumption) us A B) as (es & Pr' & Q & Hfs & Fl) end.
      exists (e :: es). split; [apply Pr_more; assumption|]. split; [cbn [map]; rewrite Q; reflexivity|]. split; [|cbn [filter]; rewrite Np; exact Fl].
      intro Z. cbn [forallb] in Z. ands. cbn [forallb]. rewrite Hf by assumption. apply Hfs. cbn [forallb]. apply Bool.andb_true_iff. auto.
Qed.
Lemma D_obj : forall ps, Forall P ps -> forallb (good KProp) ps = true -> D (SObj ps).
Proof.
  intros ps F G ts E Sm. cbn [body] in E. splits.
  match goal with A : map sy ?us = commas body ps, B : Forall smooth ?us |- _ => destruct (O_obj ps F G us A B) as (es & Pr' & Q & Hfs & Fl) end.
  match goal with A : t_val ?d = T_BRACE_L, B : t_val ?q = T_BRACE_R |- _ => pose proof (W_obj text _ _ _ _ A B Pr' ltac:(rewrite Fl; cbn; lia)) as R end.
  eexists 9, _. split; [cbn; lia|]. split; [exact R|]. split; [|split; [discriminate|split; [discriminate|discriminate]]]. done_like; [cbn; rewrite Q; reflexivity|]. exact Hfs.
Qed.
Lemma P_spread : forall e, P e -> P (SSpread e).
Proof.
  intros e (He & _). split; [discriminate|]. split; intro G; cbn [good] in G; specialize (He G); intros b ts E Sm; cbn in E; splits; wr 1 He f.
  - eexists. split; [apply (It_spread text b _ m); [eassumption|exact Wt|lia]|]. split; [cbn; rewrite (l_bare _ _ Lk); reflexivity|exact (l_hole _ _ Lk)].
  - eexists. split; [apply (Py_spread text b _ m); [eassumption|exact Wt|lia]|]. split; [cbn; rewrite (l_bare _ _ Lk); reflexivity|]. split; [exact (l_hole _ _ Lk)|reflexivity].
Qed.
Lemma P_short : forall n, P (SShort n).
Proof.
  intro n. split; [discriminate|]. split; [discriminate|]. intros G b ts E Sm. cbn in E. splits. nm. cbn [good] in G.
  eexists. split; [apply Py_short; assumption|]. split; [reflexivity|]. split; reflexivity.
Qed.
Lemma P_pair : forall key c v, P key -> P v -> P (SPair key c v).
Proof.
  intros key c v (Hk & _) (Hv & _). split; [discriminate|]. split; [discriminate|]. intros G b ts E Sm. cbn [good] in G. ands. specialize (Hv ltac:(assumption)).
  change (wrap 1 (SPair key c v) (body (SPair key c v))) with (body (SPair key c v)) in E. cbn [body] in E. splits. wr 1 Hv f.
  match goal with A : map sy ?us = (if c then _ else _) |- _ => rename us into kts; rename A into Ek end.
  assert (X : exists k, key_written text k c kts /\ bare text k = key /\ (c = false -> named_proto text (EProp (0, 0) k (Some f) false false false) = false)).
  { destruct c.
    - specialize (Hk ltac:(assumption)). splits. wr 1 Hk k. exists k. split; [eapply Ky_computed; try eassumption; lia|]. split; [exact (l_bare _ _ Lk0)|discriminate].
    - destruct key; try discriminate; cbn [key_like] in *; ands; cbn [body] in Ek; splits.
      + match goal with A : sy ?t = (v0, n), B : existsb _ _ = true, Nn : not_proto n = true |- _ => rename t into kt; pose proof (sy_val _ _ _ A) as V; apply in_ops in B; cbn in B;
          assert (T : text kt = n) by (apply (text_of _ _ _ A); destruct B as [<-|[<-|[]]]; reflexivity) end.
        exists (ELit (place kt) kt). split; [|split; [cbn; rewrite V, T; match goal with B : T_NUM = v0 \/ _ |- _ => destruct B as [<-|[<-|[]]]; reflexivity end|]].
        * match goal with B : T_NUM = v0 \/ _ |- _ => destruct B as [<-|[<-|[]]] end; [apply Ky_num; exact V|].
          match goal with S : smooth kt |- _ => destruct (proj2 S V) as (s & Xs) end. apply (Ky_string text kt s); assumption.
        * intros _. cbn. rewrite T. unfold not_proto in *. apply Bool.negb_true_iff. assumption.
      + nm. eexists. split; [apply Ky_name; split; eassumption|]. split; [reflexivity|]. intros _. cbn. unfold not_proto in *. apply Bool.negb_true_iff. assumption. }
  destruct X as (k & Kw & Bk & Np).
  eexists. split; [apply (Py_value text b k c kts x1 m f x2); [exact Kw|eassumption|exact Wt|lia]|]. split; [cbn; rewrite (l_bare _ _ Lk), Bk; destruct f; try reflexivity; destruct c; reflexivity|].
  split; [exact (l_hole _ _ Lk)|]. destruct c; [destruct k; reflexivity|]. specialize (Np eq_refl). destruct k; try reflexivity; exact Np.
Qed.
Theorem all_printed : forall s, P s.
Proof.
  apply sx_all.
  - intros v n. apply expr_P; [reflexivity|reflexivity|]. apply D_lit.
  - intros n. apply expr_P; [reflexivity|reflexivity|]. apply D_name.
  - intros es F. apply expr_P; [reflexivity|reflexivity|]. intro G. cbn [good is_expr andb] in G. apply D_arr; assumption.
  - intros ps F. apply expr_P; [reflexivity|reflexivity|]. intro G. cbn [good is_expr andb] in G. apply D_obj; assumption.
  - intros. apply P_pair; assumption.
  - apply P_short.
  - intros. apply P_spread; assumption.
  - intros o n (H & _). apply expr_P; [reflexivity|reflexivity|]. intro G. cbn [good is_expr andb] in G. apply D_dot. auto.
  - intros o q (H & _) (H' & _). apply expr_P; [reflexivity|reflexivity|]. intro G. cbn [good is_expr andb] in G. ands. apply D_sub; auto.
  - intros c args (H & _) F. apply expr_P; [reflexivity|reflexivity|]. intro G. cbn [good is_expr andb] in G. ands. apply D_call; auto.
  - intros c args (H & _) F. apply expr_P; [reflexivity|reflexivity|]. intro G. cbn [good is_expr andb] in G. ands. apply D_new; auto.
  - intros op b e (H & _). apply expr_P; [reflexivity|reflexivity|]. intro G. cbn [good is_expr andb] in G. ands. apply D_upd; auto.
  - intros op e (H & _). apply expr_P; [reflexivity|reflexivity|]. intro G. cbn [good is_expr andb] in G. ands. apply D_un; auto.
  - intros op l r (H & _) (H' & _). apply expr_P; [reflexivity|reflexivity|]. intro G. cbn [good is_expr andb] in G. ands. apply D_bin; auto.
  - intros t c a (H & _) (H' & _) (H'' & _). apply expr_P; [reflexivity|reflexivity|]. intro G. cbn [good is_expr andb] in G. ands. apply D_cond; auto.
  - intros op l r (H & _) (H' & _). apply expr_P; [reflexivity|reflexivity|]. intro G. cbn [good is_expr andb] in G. ands. apply D_asg; auto.
  - intros es F. apply expr_P; [reflexivity|reflexivity|]. intro G. cbn [good is_expr andb] in G. ands. apply D_seq; auto. apply Nat.leb_le. assumption.
  - split; [discriminate|split; discriminate].
Qed.
End Print.
