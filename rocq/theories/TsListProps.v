(** C62: lists of TypeScript have the entries written between the commas. *)
From Coq Require Import Lia.
From Verif Require Import Base TokenModel LexModel ParseBase ExprModel ExprProps TsListModel TsListSpec TsListProofs.

Section Claims.
Variables (A : Type) (item : pst -> pres A).
(** Enums: a list with commas, one at the end or not, is accepted with its entries in order, so is the empty one. *)
Theorem C62_enum_accepts : forall s l z, at_tok T_BRACE_L s = true ->
  (commas item T_BRACE_R true (next s) l z \/ l = [] /\ at_tok T_BRACE_R (next s) = true /\ z = next s) ->
  exists n, forall fuel, n <= fuel -> enum_body A item fuel s = POk l (next z).
Proof.
  intros s l z B H. exists (S (length l)). intros fuel Le. unfold enum_body, must. rewrite B. cbn [pbind].
  assert (L : loose item T_BRACE_R (next s) l z).
  { destruct H as [H|(-> & C & ->)]; [eapply commas_loose; [reflexivity|exact H]|constructor; exact C]. }
  rewrite (enum_complete A item _ _ _ L []) by lia. reflexivity.
Qed.
(** What is accepted has the entries written, in order and with nothing but a comma between two; the comma may be missing. *)
Theorem C62_enum_only_partial : forall fuel s l z, enum_body A item fuel s = POk l z ->
  at_tok T_BRACE_L s = true /\ exists z', loose item T_BRACE_R (next s) l z' /\ z = next z'.
Proof.
  intros fuel s l z H. unfold enum_body, must in H. destruct (at_tok T_BRACE_L s) eqn:B; [|discriminate]. cbn [pbind] in H.
  destruct (enum_sound A item _ _ _ _ _ H) as (l' & z' & L & -> & ->). eauto.
Qed.

(** Type parameters: a list with commas, none at the end. *)
Theorem C62_parameters_partial : (forall s a s1, item s = POk a s1 -> at_tok T_COMMA s = false) ->
  forall s l z, commas item T_GT false (next s) l z ->
  exists n, forall fuel, n <= fuel -> typ_params A item fuel s = POk l (next z).
Proof.
  intros Ni s l z H. exists (S (length l)). intros fuel Le. unfold typ_params.
  rewrite (params_complete A item _ _ _ (proj1 (commas_leads A item Ni _ _ _ H)) []) by lia. cbn [pbind app].
  inversion H; subst; reflexivity.
Qed.
Theorem C62_parameters_only_partial : forall fuel s l z, typ_params A item fuel s = POk l z ->
  l <> [] /\ exists z', leads item T_GT (next s) l z' /\ z = next z'.
Proof.
  intros fuel s l z H. unfold typ_params in H. destruct (params_loop A item fuel [] (next s)) as [ps s1| | |] eqn:P; try discriminate.
  cbn [pbind] in H. destruct (params_sound A item _ _ _ _ _ P) as (l' & z' & L & -> & ->). cbn [app] in H.
  destruct l' as [|a l']; [discriminate|]. injection H as <- <-. split; [discriminate|eauto].
Qed.

(** The types after extends. *)
Theorem C62_extends_accepts : forall s l z, at_tok T_EXTENDS s = true -> commas item T_BRACE_L false (next s) l z ->
  exists n, forall fuel, n <= fuel -> ext_clause A item fuel s = POk l z.
Proof.
  intros s l z B H. exists (length l). intros fuel Le. unfold ext_clause. rewrite B.
  assert (C : at_tok T_BRACE_L (next s) = false) by (inversion H; assumption). rewrite C.
  apply (ext_complete A item _ _ _ (commas_joined A item _ _ _ _ H) []). exact Le.
Qed.
Theorem C62_extends_only_partial : forall fuel s l z, ext_clause A item fuel s = POk l z -> at_tok T_EXTENDS s = true ->
  joined item T_BRACE_L (next s) l z.
Proof.
  intros fuel s l z H B. unfold ext_clause in H. rewrite B in H. destruct (at_tok T_BRACE_L (next s)); [discriminate|].
  destruct (ext_sound A item _ _ _ _ _ H) as (l' & L & ->). exact L.
Qed.

(** The types after implements: one is accepted. *)
Theorem C62_implements_partial : forall s a z, at_tok T_IMPLEMENTS s = true -> commas item T_BRACE_L false (next s) [a] z ->
  exists n, forall fuel, n <= fuel -> implements A item fuel s = POk [a] z.
Proof.
  intros s a z B H. exists 2. intros fuel Le. unfold implements. rewrite B.
  assert (P : plain item T_BRACE_L (next s) [a] z).
  { inversion H as [s0 a0 s1 C I K|s0 a0 s1 C I K T K2|s0 a0 s1 l z0 C I K L]; subst; [|discriminate|inversion L]. eapply P_more; eauto. constructor; exact K. }
  rewrite (impl_complete A item _ _ _ P []) by (cbn; lia). reflexivity.
Qed.
Theorem C62_implements_only_partial : forall fuel s l z, implements A item fuel s = POk l z -> at_tok T_IMPLEMENTS s = true ->
  l <> [] /\ plain item T_BRACE_L (next s) l z.
Proof.
  intros fuel s l z H B. unfold implements in H. rewrite B in H. destruct (impl_loop A item fuel [] (next s)) as [l0 s1| | |] eqn:P; try discriminate.
  cbn [pbind] in H. destruct (impl_sound A item _ _ _ _ _ P) as (l' & L & ->). cbn [app] in H.
  destruct l' as [|a l']; [discriminate|]. injection H as <- <-. split; [discriminate|exact L].
Qed.
(** Two or more with commas are never accepted. *)
Theorem C62_implements_refuted : (forall s a s1, item s = POk a s1 -> at_tok T_COMMA s = false) ->
  forall s a b l z, at_tok T_IMPLEMENTS s = true -> commas item T_BRACE_L false (next s) (a :: b :: l) z ->
  forall fuel l' z', implements A item fuel s <> POk l' z'.
Proof.
  intros Ni s a b l z B H fuel l' z' E. destruct (C62_implements_only_partial _ _ _ _ E B) as [_ P].
  exact (plain_comma A item Ni _ _ _ _ _ H _ _ P).
Qed.

(** Type arguments: nothing but a list with commas, one at the end or not, is accepted, and none is empty. *)
Theorem C62_arguments_only_partial : forall fuel s l z, typ_args A item fuel s = POk l z ->
  exists z', commas item T_GT true (next s) l z' /\ z = next z'.
Proof.
  intros fuel s l z H. unfold typ_args in H. destruct (args_loop A item fuel [] (next s)) as [l0 s1| | |] eqn:P; try discriminate. cbn [pbind] in H.
  destruct (args_sound A item _ _ _ _ _ P) as [(_ & -> & ->)|(l' & z' & L & -> & ->)]; [discriminate|]. cbn [app] in H.
  destruct l' as [|a l']; [discriminate|]. injection H as <- <-. exists z'. split; [apply commas_starting; exact L|reflexivity].
Qed.
(** All such lists are when each argument begins with a name, a literal, a word that is a keyword only in places, or one of
    < ( and {. *)
Theorem C62_arguments_partial : forall s l z, commas (fun s => if arg_starts (pval s) then item s else PErr) T_GT true (next s) l z ->
  exists n, forall fuel, n <= fuel -> typ_args A item fuel s = POk l (next z).
Proof.
  intros s l z H. exists (S (length l)). intros fuel Le. unfold typ_args.
  rewrite (args_complete A item _ _ _ H []) by lia. cbn [pbind app]. inversion H; subst; reflexivity.
Qed.

(** Tuples: a list with commas, one at the end or not, is accepted when its members obey the rules. *)
Theorem C62_tuple_accepts : forall kind s l z,
  (commas item T_BRACKET_R true (next s) l z \/ l = [] /\ at_tok T_BRACKET_R (next s) = true /\ z = next s) -> tuple_rules (map kind l) ->
  exists n, forall fuel, n <= fuel -> tuple A item kind fuel s = POk l (next z).
Proof.
  intros kind s l z H R. exists (S (length l)). intros fuel Le. apply rules_spec in R. destruct R as [R1 R2].
  assert (L : loose item T_BRACKET_R (next s) l z).
  { destruct H as [H|(-> & C & ->)]; [eapply commas_loose; [reflexivity|exact H]|constructor; exact C]. }
  unfold tuple. apply (tuple_complete A item kind _ _ _ L false false []); auto.
Qed.
Theorem C62_tuple_only_partial : forall kind fuel s l z, tuple A item kind fuel s = POk l z ->
  tuple_rules (map kind l) /\ exists z', loose item T_BRACKET_R (next s) l z' /\ z = next z'.
Proof.
  intros kind fuel s l z H. destruct (tuple_sound A item kind _ _ _ _ _ _ _ H eq_refl eq_refl) as (l' & z' & L & -> & -> & O & La).
  split; [apply rules_spec; auto|eauto].
Qed.
End Claims.
Print Assumptions C62_enum_accepts.
Print Assumptions C62_enum_only_partial.
Print Assumptions C62_parameters_partial.
Print Assumptions C62_parameters_only_partial.
Print Assumptions C62_extends_accepts.
Print Assumptions C62_extends_only_partial.
Print Assumptions C62_implements_partial.
Print Assumptions C62_implements_only_partial.
Print Assumptions C62_implements_refuted.
Print Assumptions C62_arguments_only_partial.
Print Assumptions C62_arguments_partial.
Print Assumptions C62_tuple_accepts.
Print Assumptions C62_tuple_only_partial.

(** Real cases with names for entries. *)
Definition one_name (s : pst) : pres bytes := if at_tok T_NAME s then POk (t_text (peek s)) (next s) else PErr.
Definition got {B} (r : pres B) : option B := match r with POk a _ => Some a | _ => None end.
Local Notation a := (bs "a").
Local Notation b := (bs "b").
Local Notation c := (bs "c").
Lemma names_no_comma : forall s x s1, one_name s = POk x s1 -> at_tok T_COMMA s = false.
Proof. intros s x s1 H. unfold one_name in H. destruct (at_tok T_NAME s) eqn:E; [|discriminate]. exact (at_two T_NAME T_COMMA s E eq_refl). Qed.
Example lists_read :
  got (enum_body _ one_name 9 (src [y T_BRACE_L; w a; y T_COMMA; w b; y T_COMMA; y T_BRACE_R])) = Some [a; b] /\
  got (typ_params _ one_name 9 (src [y T_LT; w a; y T_COMMA; w b; y T_GT])) = Some [a; b] /\
  got (ext_clause _ one_name 9 (src [y T_EXTENDS; w a; y T_COMMA; w b; y T_BRACE_L])) = Some [a; b] /\
  got (implements _ one_name 9 (src [y T_IMPLEMENTS; w a; y T_BRACE_L])) = Some [a] /\
  got (tuple _ one_name (fun _ => MPlain) 9 (src [y T_BRACKET_L; w a; y T_COMMA; w b; y T_BRACKET_R])) = Some [a; b].
Proof. vm_compute. repeat split. Qed.
Example commas_written : exists z, commas one_name T_BRACE_L false (next (src [y T_IMPLEMENTS; w a; y T_COMMA; w b; y T_BRACE_L])) [a; b] z /\
  at_tok T_IMPLEMENTS (src [y T_IMPLEMENTS; w a; y T_COMMA; w b; y T_BRACE_L]) = true.
Proof.
  eexists. split; [|reflexivity]. eapply C_more; [reflexivity|reflexivity|reflexivity|]. apply C_one; reflexivity.
Qed.
Example trailing_written : exists z, commas one_name T_BRACE_R true (next (src [y T_BRACE_L; w a; y T_COMMA; w b; y T_COMMA; y T_BRACE_R])) [a; b] z.
Proof. eexists. eapply C_more; [reflexivity|reflexivity|reflexivity|]. eapply C_trail; reflexivity. Qed.
Example rules_met : tuple_rules [MPlain; MOpt; MRest false] /\ ~ tuple_rules [MOpt; MPlain] /\ ~ tuple_rules [MNamed false; MPlain].
Proof.
  repeat split.
  - intros [|x [|x' [|x'' [|]]]] k1 [|v [|v' [|]]] k2 l3 E O R; cbn in E; injection E; intros; subst; try discriminate;
      destruct O, R; congruence.
  - intros [o [H|[H|[H|[]]]]]; discriminate.
  - intros [H _]. apply (H [] MOpt [] MPlain [] eq_refl); [right|right]; reflexivity.
  - intros [_ H]. destruct (H (ex_intro _ false (or_introl eq_refl)) MPlain (or_intror (or_introl eq_refl))) as [[o E]|E]; discriminate.
Qed.
Example arguments_read : got (typ_args _ one_name 9 (src [y T_LT; w a; y T_COMMA; w b; y T_GT])) = Some [a; b] /\
  exists z, commas (fun s => if arg_starts (pval s) then one_name s else PErr) T_GT true (next (src [y T_LT; w a; y T_COMMA; w b; y T_GT])) [a; b] z.
Proof. split; [vm_compute; reflexivity|]. eexists. eapply C_more; [reflexivity|reflexivity|reflexivity|]. apply C_one; reflexivity. Qed.
(** A tuple, this and typeof a as type arguments are errors although they are types; a comma at the end is not. *)
Definition some_typ (s : pst) : pres (list bytes) :=
  if at_tok T_BRACKET_L s then tuple _ one_name (fun _ => MPlain) 9 s
  else if at_tok T_TYPE_OF s then pbind (one_name (next s)) (fun n s1 => POk [n] s1)
  else if at_tok T_THIS s then POk [] (next s) else pbind (one_name s) (fun n s1 => POk [n] s1).
Theorem C62_arguments_refuted :
  got (typ_args _ some_typ 9 (src [y T_LT; y T_BRACKET_L; w a; y T_BRACKET_R; y T_GT])) = None /\
  got (typ_args _ some_typ 9 (src [y T_LT; y T_THIS; y T_GT])) = None /\
  got (typ_args _ some_typ 9 (src [y T_LT; y T_TYPE_OF; w a; y T_GT])) = None /\
  got (some_typ (src [y T_BRACKET_L; w a; y T_BRACKET_R; y T_GT])) = Some [a] /\
  got (typ_args _ some_typ 9 (src [y T_LT; w a; y T_COMMA; y T_GT])) = Some [[a]].
Proof. vm_compute; repeat split. Qed.
(** A list of two after implements is an error, [implements a b] is not. *)
Theorem C62_implements_commas_refuted :
  got (implements _ one_name 9 (src [y T_IMPLEMENTS; w a; y T_COMMA; w b; y T_BRACE_L])) = None /\
  got (implements _ one_name 9 (src [y T_IMPLEMENTS; w a; w b; y T_BRACE_L])) = Some [a; b].
Proof. vm_compute; auto. Qed.
(** Entries without a comma between them. *)
Theorem C62_no_comma_refuted :
  got (enum_body _ one_name 9 (src [y T_BRACE_L; w a; w b; y T_BRACE_R])) = Some [a; b] /\
  got (typ_params _ one_name 9 (src [y T_LT; w a; w b; y T_GT])) = Some [a; b] /\
  got (ext_clause _ one_name 9 (src [y T_EXTENDS; w a; w b; y T_BRACE_L])) = Some [a; b] /\
  got (tuple _ one_name (fun _ => MPlain) 9 (src [y T_BRACKET_L; w a; w b; y T_BRACKET_R])) = Some [a; b].
Proof. vm_compute; repeat split. Qed.
(** Type parameters: a comma at the end is an error, one at the beginning is not. *)
Theorem C62_trailing_refuted :
  got (typ_params _ one_name 9 (src [y T_LT; w a; y T_COMMA; y T_GT])) = None /\
  got (typ_params _ one_name 9 (src [y T_LT; y T_COMMA; w a; y T_GT])) = Some [a].
Proof. vm_compute; auto. Qed.
(** [<a = b>] is an error, [<a extends c = b>] is not. *)
Theorem C62_default_refuted :
  got (typ_params _ (typ_param _ _ one_name one_name) 9 (src [y T_LT; w a; y T_ASSIGN; w b; y T_GT])) = None /\
  got (typ_params _ (typ_param _ _ one_name one_name) 9 (src [y T_LT; w a; y T_EXTENDS; w c; y T_ASSIGN; w b; y T_GT])) = Some [(a, Some c, Some b)].
Proof. vm_compute; auto. Qed.
