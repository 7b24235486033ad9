(** C66: import aliases are read as written. *)
From Coq Require Import Lia PeanoNat.
From Verif Require Import Base TokenModel LexModel ParseBase ExprModel ExprFuel ExprProps FuelProps TsListProps TsEndProps TsPostModel TsPostSpec TsPostProps TsAliasModel.

(** The end of a statement: a semicolon, which is read, or a place where one may be left out. *)
Inductive closed : pst -> pst -> Prop :=
| Closed_semi s : at_tok T_SEMI s = true -> closed s (next s)
| Closed_open s : at_tok T_SEMI s = false -> t_atl (peek s) = true \/ In (pval s) [T_BRACE_R; T_COMMA; T_PAREN_R; T_COLON; T_EOF] -> closed s (peeked s).
Lemma closed_semi : forall s z, closed s z <-> advance_if_semi true s = POk tt z.
Proof.
  intros s z. assert (M : at_tok T_SEMI s = true -> may_end (peek s) = true).
  { intros E. unfold may_end, at_tok, pval in *. cbn [existsb]. rewrite E. reflexivity. }
  unfold advance_if_semi. cbn [andb]. split.
  - intros H. destruct H as [s E|s E H]; [rewrite (M E), E; reflexivity|]. rewrite E.
    assert (K : may_end (peek s) = true).
    { unfold may_end. destruct H as [->|H]; [apply orb_true_r|]. unfold pval in H. cbn [In] in H.
      destruct H as [<-|[<-|[<-|[<-|[<-|[]]]]]]; reflexivity. }
    rewrite K. reflexivity.
  - destruct (may_end (peek s)) eqn:K; cbn [negb]; [|discriminate]. destruct (at_tok T_SEMI s) eqn:E; intros H; injection H as <-; constructor; auto.
    unfold may_end in K. apply orb_prop in K. destruct K as [K|K]; [right|left; exact K]. apply existsb_exists in K. destruct K as (v & I & Q).
    apply tv_eqb_spec in Q. unfold pval. rewrite Q. destruct I as [<-|I]; [|exact I].
    unfold at_tok, pval in E. rewrite Q in E. discriminate.
Qed.

Section Claims.
Variables (ident : pst -> pres bytes) (call : bytes -> pst -> pres called).
Notation req := (bs "require").
(** import a = and a name with dots, other than require alone, is an alias of that name. *)
Theorem C66_alias : forall s i s1 l s2 z, at_tok T_ASSIGN s = true -> ident (next s) = POk i s1 -> dots ident s1 l s2 ->
  l <> [] \/ i <> req -> closed s2 z ->
  exists n t, names_of t = i :: l /\ forall fuel, n <= fuel -> alias_rsh ident call fuel false s = POk (IAlias t) z.
Proof.
  intros s i s1 l s2 z A I D O C. destruct (C65_names _ _ _ _ _ _ _ I D) as (n & t & E & R). exists n, t. split; [exact E|].
  intros fuel Le. unfold alias_rsh, must. rewrite A. cbn [pbind]. rewrite (R fuel Le). cbn [pbind]. rewrite (proj1 (closed_semi _ _) C). cbn [pbind].
  destruct t as [r|t j]; [|reflexivity]. cbn [names_of] in E. injection E as -> <-. destruct (bytes_eqb i req) eqn:B; [|reflexivity].
  apply bytes_eqb_spec in B. destruct O as [O|O]; congruence.
Qed.
(** import a = require with a string in parentheses is a require. *)
Theorem C66_require : forall s s1 b s2 z typ, at_tok T_ASSIGN s = true -> ident (next s) = POk req s1 -> at_tok T_DOT s1 = false ->
  call req s1 = POk (KCall [AStr b]) s2 -> closed s2 z ->
  exists n, forall fuel, n <= fuel -> alias_rsh ident call fuel typ s = POk (IRequire [AStr b]) z.
Proof.
  intros s s1 b s2 z typ A I D K C. exists 1. intros [|fuel] Le; [lia|]. unfold alias_rsh, must. rewrite A. cbn [pbind].
  unfold typ_name. rewrite I. cbn [pbind name_loop]. rewrite D. cbn [pbind]. rewrite (proj2 (bytes_eqb_spec req req) eq_refl), K. cbn [pbind].
  rewrite (proj1 (closed_semi _ _) C). reflexivity.
Qed.
(** Nothing else is accepted, but for more arguments of require. *)
Theorem C66_only_partial : forall fuel typ s a z, alias_rsh ident call fuel typ s = POk a z ->
  at_tok T_ASSIGN s = true /\ exists i s1 l s2, ident (next s) = POk i s1 /\ dots ident s1 l s2 /\
  match a with
  | IAlias t => typ = false /\ names_of t = i :: l /\ (l <> [] \/ i <> req) /\ closed s2 z
  | IRequire args => i = req /\ l = [] /\ exists b more s3, args = AStr b :: more /\ call req s2 = POk (KCall args) s3 /\ closed s3 z
  end.
Proof.
  intros fuel typ s a z H. unfold alias_rsh, must in H. destruct (at_tok T_ASSIGN s); cbn [pbind] in H; [|discriminate]. split; [reflexivity|].
  destruct (typ_name bytes ident fuel (next s)) as [t s2| | |] eqn:N; cbn [pbind] in H; try discriminate.
  destruct (C65_names_only _ _ _ _ _ _ N) as (i & s1 & l & I & D & E). exists i, s1, l, s2. split; [exact I|split; [exact D|]]. cbv zeta in H.
  assert (O : (if typ then PErr else pbind (advance_if_semi true s2) (fun _ s3 => POk (IAlias t) s3)) = POk a z -> l <> [] \/ i <> req ->
    match a with IAlias t => typ = false /\ names_of t = i :: l /\ (l <> [] \/ i <> req) /\ closed s2 z
    | IRequire args => i = req /\ l = [] /\ exists b more s3, args = AStr b :: more /\ call req s2 = POk (KCall args) s3 /\ closed s3 z end).
  { intros X Y. destruct typ; [discriminate|]. destruct (advance_if_semi true s2) as [[] s3| | |] eqn:Se; cbn [pbind] in X; try discriminate.
    injection X as <- <-. split; [reflexivity|split; [exact E|split; [exact Y|]]]. apply closed_semi. exact Se. }
  destruct t as [r|t j].
  - cbn [names_of] in E. injection E as -> <-. destruct (bytes_eqb i req) eqn:B.
    + apply bytes_eqb_spec in B. subst i. destruct (call req s2) as [k s3| | |] eqn:K; cbn [pbind] in H; try discriminate.
      destruct k as [[|[b|] more]|]; try discriminate. destruct (advance_if_semi true s3) as [[] s4| | |] eqn:Se; cbn [pbind] in H; try discriminate.
      injection H as <- <-. split; [reflexivity|split; [reflexivity|]]. exists b, more, s3. split; [reflexivity|split; [first [exact K|reflexivity]|]]. apply closed_semi. exact Se.
    + apply O; [exact H|]. right. intros ->. rewrite (proj2 (bytes_eqb_spec req req) eq_refl) in B. discriminate.
  - apply O; [exact H|]. left. intros ->. destruct t; cbn [names_of app] in E; [discriminate|].
    apply (f_equal (@length bytes)) in E. rewrite !app_length in E. cbn in E. lia.
Qed.
(** The word type is an error before an alias that is no require. *)
Theorem C66_type_only_require : forall fuel s t z, alias_rsh ident call fuel true s <> POk (IAlias t) z.
Proof. intros fuel s t z H. destruct (C66_only_partial _ _ _ _ _ H) as (_ & i & s1 & l & s2 & _ & _ & F & _). discriminate. Qed.
(** There is no panic but where what follows require is no call. *)
Theorem C66_no_panic_partial : (forall s, ident s <> PPanic) -> (forall s, call req s <> PPanic) ->
  forall fuel typ s, alias_rsh ident call fuel typ s = PPanic ->
  exists s1 s2, ident (next s) = POk req s1 /\ at_tok T_DOT s1 = false /\ call req s1 = POk KOther s2.
Proof.
  intros Hi Hc fuel typ s H. unfold alias_rsh, must in H. destruct (at_tok T_ASSIGN s); cbn [pbind] in H; [|discriminate].
  destruct (typ_name bytes ident fuel (next s)) as [t s2| | |] eqn:N; cbn [pbind] in H; try discriminate.
  - cbv zeta in H. assert (O : (if typ then PErr else pbind (advance_if_semi true s2) (fun _ s3 => POk (IAlias t) s3)) <> PPanic).
    { destruct typ; [discriminate|]. unfold advance_if_semi. destruct (_ && _); [discriminate|]. destruct (at_tok _ _); discriminate. }
    destruct (C65_names_only _ _ _ _ _ _ N) as (i & s1 & l & I & D & E).
    destruct t as [r|]; [|contradiction]. destruct (bytes_eqb r req) eqn:B; [|contradiction]. apply bytes_eqb_spec in B. subst r.
    cbn [names_of] in E. injection E as <- <-. inversion D; subst. pose proof (Hc s2) as P. destruct (call req s2) as [k s3| | |] eqn:K; cbn [pbind] in H; try congruence.
    destruct k as [[|[b|] more]|]; try discriminate.
    + unfold advance_if_semi in H. destruct (_ && _); [discriminate|]. destruct (at_tok _ _); discriminate.
    + exists s2, s3. auto.
  - exfalso. unfold typ_name in N. pose proof (Hi (next s)) as P. destruct (ident (next s)) as [i s1| | |]; cbn [pbind] in N; try congruence.
    clear - N Hi. revert N. generalize (NOne i). revert s1. induction fuel as [|fuel IH]; intros s1 t N; [discriminate|]. cbn [name_loop] in N.
    destruct (at_tok T_DOT s1); [|discriminate]. pose proof (Hi (next s1)) as P. destruct (ident (next s1)) as [j s2| | |]; cbn [pbind] in N; try congruence.
Qed.
(** And there it does: callExpr returns the name when no argument list follows. *)
Theorem C66_panic_refuted : forall s s1 typ fuel, at_tok T_ASSIGN s = true -> ident (next s) = POk req s1 -> at_tok T_DOT s1 = false ->
  call req s1 = POk KOther s1 -> alias_rsh ident call (S fuel) typ s = PPanic.
Proof.
  intros s s1 typ fuel A I D K. unfold alias_rsh, must. rewrite A. cbn [pbind].
  unfold typ_name. rewrite I. cbn [pbind name_loop]. rewrite D. cbn [pbind]. rewrite (proj2 (bytes_eqb_spec req req) eq_refl), K. reflexivity.
Qed.
End Claims.
Print Assumptions C66_alias.
Print Assumptions C66_require.
Print Assumptions C66_only_partial.
Print Assumptions C66_type_only_require.
Print Assumptions C66_no_panic_partial.
Print Assumptions C66_panic_refuted.

(** ecma/parser/parser.go:4609-4712 callExpr for a name followed by a list of strings and names in parentheses, or by
    nothing of a call; one call only. *)
Fixpoint args_of (fuel : nat) (s : pst) : pres (list rarg) :=
  match fuel with
  | O => PFuel
  | S fuel =>
      if at_tok T_PAREN_R s then POk [] (next s)
      else let a := if at_tok T_STRING s then AStr (t_text (peek s)) else AExpr in
           let s1 := if at_tok T_COMMA (next s) then next (next s) else next s in
           pbind (args_of fuel s1) (fun l s2 => POk (a :: l) s2)
  end.
Definition one_call (_ : bytes) (s : pst) : pres called :=
  if at_tok T_PAREN_L s then pbind (args_of 9 (next s)) (fun l s1 => POk (KCall l) s1) else POk KOther s.
Local Notation a := (bs "a").
Local Notation b := (bs "b").
Local Notation req := (bs "require").
Definition str (x : bytes) := (T_STRING, x, XNone, false).
Example alias_read : got (alias_rsh one_name one_call 9 false (src [y T_ASSIGN; w a; y T_DOT; w b; y T_SEMI])) = Some (IAlias (NDot (NOne a) b)).
Proof. reflexivity. Qed.
Example require_read : got (alias_rsh one_name one_call 9 false (src [y T_ASSIGN; w req; y T_PAREN_L; str a; y T_PAREN_R; y T_SEMI])) = Some (IRequire [AStr a]).
Proof. reflexivity. Qed.
(** import a = require; panics. *)
Example require_panics : alias_rsh one_name one_call 9 false (src [y T_ASSIGN; w req; y T_SEMI]) = PPanic.
Proof. reflexivity. Qed.
(** import a = require("a", b) is accepted. *)
Theorem C66_two_arguments_refuted :
  got (alias_rsh one_name one_call 9 false (src [y T_ASSIGN; w req; y T_PAREN_L; str a; y T_COMMA; w b; y T_PAREN_R; y T_SEMI])) = Some (IRequire [AStr a; AExpr]).
Proof. reflexivity. Qed.
Print Assumptions C66_two_arguments_refuted.
