(** C67: references to types and type predicates are read as written. *)
From Coq Require Import Lia PeanoNat.
From Verif Require Import Base TokenModel LexModel ParseBase ExprModel ExprFuel ExprProps FuelProps TsListProofs TsListProps TsEndProps TsPostModel TsPostSpec TsPostProps TsRefModel.

Notation asserts_ := (bs "asserts").
Section Claims.
Variables (T L : Type) (ident binding : pst -> pres bytes) (typ : pst -> pres T) (args : pst -> pres L).
(** The word is ahead. *)
Definition word_is (s : pst) : Prop := pval s = T_NAME /\ t_text (peek s) = bs "is".
Lemma is_word_iff : forall s, is_word s = true <-> word_is s.
Proof. intros s. unfold is_word, word_is, at_tok. rewrite andb_true_iff, tv_eqb_spec, bytes_eqb_spec. reflexivity. Qed.
Lemma name_of : forall s i l z, dots ident s l z -> exists t, names_of t = i :: l /\
  (t = NOne i /\ l = [] \/ (exists u j, t = NDot u j) /\ l <> []) /\ forall fuel, length l < fuel -> name_loop bytes ident fuel (NOne i) s = POk t z.
Proof.
  intros s i l z D. induction l as [|j l _] using rev_ind.
  - exists (NOne i). split; [reflexivity|split; [auto|]]. intros [|fuel] Le; [cbn in Le; lia|]. inversion D; subst. cbn [name_loop]. rewrite H. reflexivity.
  - destruct (name_complete _ _ _ _ _ D (NOne i) _ (le_n _)) as (t & _ & E). cbn [names_of app] in E.
    assert (X : exists u k, t = NDot u k). { destruct t as [r|u k]; [|eauto]. cbn [names_of] in E. injection E as _ E. destruct l; discriminate. }
    exists t. split; [exact E|split; [right; split; [exact X|destruct l; discriminate]|]]. intros fuel Le.
    destruct (name_complete _ _ _ _ _ D (NOne i) fuel Le) as (t' & R & E'). rewrite R. f_equal. cbn [names_of app] in E'. rewrite <- E in E'. clear - E'.
    revert t E'. induction t' as [a|ns IH a]; intros [k|ns' k] E; cbn [names_of] in E.
    + injection E as ->. reflexivity.
    + exfalso. destruct ns'; cbn [names_of app] in E; [discriminate|]. apply (f_equal (@length bytes)) in E. rewrite !app_length in E. cbn in E. lia.
    + exfalso. destruct ns; cbn [names_of app] in E; [discriminate|]. apply (f_equal (@length bytes)) in E. rewrite !app_length in E. cbn in E. lia.
    + apply app_inj_tail in E. destruct E as [E ->]. rewrite (IH _ E). reflexivity.
Qed.
Lemma not_asserts : forall t i l s, names_of t = i :: l -> (t = NOne i /\ l = [] \/ (exists u j, t = NDot u j) /\ l <> []) ->
  i :: l <> [asserts_] \/ pval s <> T_NAME /\ pval s <> T_THIS ->
  match t with NOne i => bytes_eqb i asserts_ | _ => false end && (at_tok T_NAME s || at_tok T_THIS s) = false.
Proof.
  intros t i l s E X O. destruct X as [[-> ->]|[(u & j & ->) _]]; [|reflexivity]. destruct (bytes_eqb i asserts_) eqn:B; [|reflexivity].
  apply bytes_eqb_spec in B. subst i. cbn [andb]. destruct O as [O|[O1 O2]]; [congruence|]. unfold at_tok.
  apply orb_false_iff. split; apply not_true_is_false; rewrite tv_eqb_spec; assumption.
Qed.
(** A name with dots, with type arguments or without, is a reference.  Missing: when a string that is the word is follows. *)
Theorem C67_reference_partial : forall i s l s1, dots ident s l s1 -> i :: l <> [asserts_] \/ pval s1 <> T_NAME /\ pval s1 <> T_THIS -> t_text (peek s1) <> bs "is" ->
  exists t, names_of t = i :: l /\ forall fuel, length l < fuel ->
  (pval s1 <> T_LT -> ref_typ T L ident binding typ args fuel (Some i) s = POk (RRef t None) s1) /\
  (forall a z, pval s1 = T_LT -> args s1 = POk a z -> ref_typ T L ident binding typ args fuel (Some i) s = POk (RRef t (Some a)) z).
Proof.
  intros i s l s1 D O N. destruct (name_of _ i _ _ D) as (t & E & X & R). exists t. split; [exact E|]. intros fuel Le.
  unfold ref_typ. rewrite (R fuel Le). cbn [pbind]. cbv zeta. rewrite (not_asserts t i l s1 E X O).
  assert (N' : bytes_eqb (t_text (peek s1)) (bs "is") = false) by (apply not_true_is_false; rewrite bytes_eqb_spec; exact N). rewrite N'. cbn [orb]. split.
  - intros G. assert (G' : at_tok T_LT s1 = false) by (unfold at_tok; apply not_true_is_false; rewrite tv_eqb_spec; exact G). rewrite G'. reflexivity.
  - intros a z G A. assert (G' : at_tok T_LT s1 = true) by (unfold at_tok; rewrite tv_eqb_spec; exact G). rewrite G', A. reflexivity.
Qed.
(** A name followed by is and a type is a predicate. *)
Theorem C67_predicate_partial : forall i s l s1 x z, dots ident s l s1 -> i :: l <> [asserts_] -> word_is s1 -> typ (next s1) = POk x z ->
  exists t, names_of t = i :: l /\ forall fuel, length l < fuel -> ref_typ T L ident binding typ args fuel (Some i) s = POk (RPred false (WName t) (Some x)) z.
Proof.
  intros i s l s1 x z D O W P. destruct (name_of _ i _ _ D) as (t & E & X & R). exists t. split; [exact E|]. intros fuel Le.
  unfold ref_typ. rewrite (R fuel Le). cbn [pbind]. cbv zeta. rewrite (not_asserts t i l s1 E X (or_introl O)).
  rewrite (proj2 (bytes_eqb_spec _ _) (proj2 W)). cbn [orb].
  assert (A : match t with NOne i => bytes_eqb i asserts_ | _ => false end = false).
  { destruct X as [[-> ->]|[(u & j & ->) _]]; [|reflexivity]. apply not_true_is_false. rewrite bytes_eqb_spec. congruence. }
  rewrite A. unfold predicate. cbn [pbind]. rewrite (proj2 (is_word_iff s1) W), P. reflexivity.
Qed.
(** asserts followed by a name or this, with is and a type or without, is an assertion. *)
Theorem C67_asserts : forall s w s1, at_tok T_DOT s = false ->
  (pval s = T_THIS /\ w = WThis /\ s1 = next s \/ pval s = T_NAME /\ exists i, binding s = POk i s1 /\ w = WName (NOne i)) ->
  forall fuel, 0 < fuel ->
  (~ word_is s1 -> ref_typ T L ident binding typ args fuel (Some asserts_) s = POk (RPred true w None) s1) /\
  (forall x z, word_is s1 -> typ (next s1) = POk x z -> ref_typ T L ident binding typ args fuel (Some asserts_) s = POk (RPred true w (Some x)) z).
Proof.
  intros s w s1 D W [|fuel] Le; [lia|]. unfold ref_typ. cbn [name_loop]. rewrite D. cbn [pbind]. cbv zeta. rewrite (proj2 (bytes_eqb_spec asserts_ asserts_) eq_refl).
  assert (G : at_tok T_NAME s || at_tok T_THIS s = true) by (unfold at_tok; destruct W as [(-> & _)|(-> & _)]; reflexivity). rewrite G. cbn [andb orb].
  unfold predicate. assert (Q : (if at_tok T_THIS s then POk WThis (next s) else pbind (binding s) (fun i s1 => POk (WName (NOne i)) s1)) = POk w s1).
  { unfold at_tok. destruct W as [(-> & -> & ->)|(-> & i & B & ->)]; [reflexivity|]. cbn. rewrite B. reflexivity. }
  rewrite Q. cbn [pbind]. split.
  - intros N. destruct (is_word s1) eqn:I; [apply is_word_iff in I; contradiction|reflexivity].
  - intros x z I P. rewrite (proj2 (is_word_iff s1) I), P. reflexivity.
Qed.
(** Nothing else is accepted, but for line breaks, and for a predicate without a type before a string that is the word is. *)
Theorem C67_only_partial : forall fuel i s r z, ref_typ T L ident binding typ args fuel (Some i) s = POk r z ->
  exists l s1, dots ident s l s1 /\
  match r with
  | RRef t None => names_of t = i :: l /\ z = s1 /\ pval s1 <> T_LT
  | RRef t (Some a) => names_of t = i :: l /\ pval s1 = T_LT /\ args s1 = POk a z
  | RPred false w x => exists t, w = WName t /\ names_of t = i :: l /\
      match x with Some x => word_is s1 /\ typ (next s1) = POk x z | None => z = s1 /\ pval s1 <> T_NAME /\ t_text (peek s1) = bs "is" end
  | RPred true w x => i = asserts_ /\ l = [] /\ exists s2,
      (pval s1 = T_THIS /\ w = WThis /\ s2 = next s1 \/ exists j, binding s1 = POk j s2 /\ w = WName (NOne j)) /\
      match x with Some x => word_is s2 /\ typ (next s2) = POk x z | None => z = s2 /\ ~ word_is s2 end
  end.
Proof.
  intros fuel i s r z H. unfold ref_typ in H. destruct (name_loop bytes ident fuel (NOne i) s) as [t s1| | |] eqn:N; cbn [pbind] in H; try discriminate.
  destruct (name_sound _ _ _ _ _ _ _ N) as (l & D & E). cbn [names_of app] in E. exists l, s1. split; [exact D|]. cbv zeta in H.
  set (as_ := match t with NOne i => bytes_eqb i asserts_ | _ => false end) in *.
  destruct (as_ && (at_tok T_NAME s1 || at_tok T_THIS s1) || bytes_eqb (t_text (peek s1)) (bs "is")) eqn:C.
  - unfold predicate in H. destruct as_ eqn:A.
    + assert (Q : i = asserts_ /\ l = []).
      { unfold as_ in A. destruct t as [k|]; [|discriminate]. cbn [names_of] in E. injection E as -> <-. apply bytes_eqb_spec in A. auto. }
      destruct Q as [-> ->].
      assert (K : exists w s2, (pval s1 = T_THIS /\ w = WThis /\ s2 = next s1 \/ exists j, binding s1 = POk j s2 /\ w = WName (NOne j)) /\
        (if is_word s2 then pbind (typ (next s2)) (fun x s3 => POk (@RPred T L true w (Some x)) s3) else POk (RPred true w None) s2) = POk r z).
      { destruct (at_tok T_THIS s1) eqn:Th; cbn [pbind] in H.
        - exists WThis, (next s1). split; [left; split; [unfold at_tok in Th; apply tv_eqb_spec; exact Th|auto]|exact H].
        - destruct (binding s1) as [j s2| | |]; cbn [pbind] in H; try discriminate. exists (WName (NOne j)), s2. split; [right; exists j; auto|exact H]. }
      destruct K as (w & s2 & W & K). destruct (is_word s2) eqn:I.
      * destruct (typ (next s2)) as [x s3| | |] eqn:P; cbn [pbind] in K; try discriminate. injection K as <- <-. split; [reflexivity|split; [reflexivity|]].
        exists s2. split; [exact W|split; [apply is_word_iff; exact I|exact P]].
      * injection K as <- <-. split; [reflexivity|split; [reflexivity|]]. exists s2. split; [exact W|split; [reflexivity|]].
        intros Q. apply is_word_iff in Q. congruence.
    + cbn [pbind andb orb] in *. destruct (is_word s1) eqn:I.
      * destruct (typ (next s1)) as [x s3| | |] eqn:P; cbn [pbind] in H; try discriminate. injection H as <- <-. exists t.
        split; [reflexivity|split; [exact E|split; [apply is_word_iff; exact I|first [exact P|reflexivity]]]].
      * injection H as <- <-. exists t. split; [reflexivity|split; [exact E|split; [reflexivity|]]]. apply bytes_eqb_spec in C.
        split; [|exact C]. intros V. assert (Q : word_is s1) by (split; assumption). apply is_word_iff in Q. congruence.
  - destruct (at_tok T_LT s1) eqn:G; cbn [negb] in H.
    + destruct (args s1) as [a s2| | |] eqn:P; cbn [pbind] in H; try discriminate. injection H as <- <-. split; [exact E|split; [|first [exact P|reflexivity]]].
      unfold at_tok in G. apply tv_eqb_spec. exact G.
    + injection H as <- <-. split; [exact E|split; [reflexivity|]]. intros V. unfold at_tok in G. rewrite V in G. discriminate.
Qed.
(** With a name read by the caller there is no panic. *)
Theorem C67_no_panic_partial : (forall s, ident s <> PPanic) -> (forall s, binding s <> PPanic) -> (forall s, typ s <> PPanic) -> (forall s, args s <> PPanic) ->
  forall fuel i s, ref_typ T L ident binding typ args fuel (Some i) s <> PPanic.
Proof.
  intros Hi Hb Ht Ha fuel i s. unfold ref_typ.
  assert (N : forall t s, name_loop bytes ident fuel t s <> PPanic).
  { clear - Hi. induction fuel as [|n IH]; intros t s; [discriminate|]. cbn [name_loop]. destruct (at_tok T_DOT s); [|discriminate].
    pose proof (Hi (next s)). destruct (ident (next s)); cbn [pbind]; first [congruence|apply IH]. }
  pose proof (N (NOne i) s) as N1. destruct (name_loop bytes ident fuel (NOne i) s) as [t s1| | |]; cbn [pbind]; try congruence. cbv zeta.
  assert (P : forall a th, predicate T L binding typ a th t s1 <> PPanic).
  { intros a th. unfold predicate. assert (K : forall w s2, (if is_word s2 then pbind (typ (next s2)) (fun x s3 => POk (@RPred T L a w (Some x)) s3) else POk (RPred a w None) s2) <> PPanic).
    { intros w s2. destruct (is_word s2); [|discriminate]. pose proof (Ht (next s2)). destruct (typ (next s2)); cbn [pbind]; congruence. }
    destruct a; [destruct th|]; cbn [pbind]; try apply K. pose proof (Hb s1). destruct (binding s1); cbn [pbind]; try congruence. apply K. }
  match goal with |- (if ?c then _ else _) <> _ => destruct c end; [apply P|]. destruct (negb _); [discriminate|]. pose proof (Ha s1). destruct (args s1); cbn [pbind]; congruence.
Qed.
(** Without one there is, at the type arguments of a keyword: interface a extends if<b> {}. *)
Theorem C67_panic_refuted : forall i s s1 a z fuel, ident s = POk i s1 -> i <> asserts_ -> at_tok T_LT s1 = true -> t_text (peek s1) <> bs "is" -> args s1 = POk a z ->
  ref_typ T L ident binding typ args (S fuel) None s = PPanic.
Proof.
  intros i s s1 a z fuel I Na G N A. unfold ref_typ, typ_name. rewrite I. cbn [pbind name_loop]. rewrite (at_two T_LT T_DOT s1 G eq_refl). cbn [pbind]. cbv zeta.
  assert (B : bytes_eqb i asserts_ = false) by (apply not_true_is_false; rewrite bytes_eqb_spec; exact Na).
  assert (N' : bytes_eqb (t_text (peek s1)) (bs "is") = false) by (apply not_true_is_false; rewrite bytes_eqb_spec; exact N).
  rewrite B, N', G. cbn [andb orb negb]. rewrite A. reflexivity.
Qed.
End Claims.
Print Assumptions C67_reference_partial.
Print Assumptions C67_predicate_partial.
Print Assumptions C67_asserts.
Print Assumptions C67_only_partial.
Print Assumptions C67_no_panic_partial.
Print Assumptions C67_panic_refuted.

Local Notation a := (bs "a").
Local Notation b := (bs "b").
Local Notation is_ := (bs "is").
Local Notation read := (ref_typ bytes bytes one_name one_name one_name (fun s => one_name (next s)) 9).
Example reference_read : got (read (Some a) (src [y T_DOT; w b; y T_SEMI])) = Some (RRef (NDot (NOne a) b) None).
Proof. reflexivity. Qed.
Example predicate_read : got (read (Some a) (src [w is_; w b; y T_SEMI])) = Some (RPred false (WName (NOne a)) (Some b)).
Proof. reflexivity. Qed.
Example asserts_read : got (read (Some asserts_) (src [w a; w is_; w b])) = Some (RPred true (WName (NOne a)) (Some b)) /\
  got (read (Some asserts_) (src [y T_THIS; y T_SEMI])) = Some (RPred true WThis None).
Proof. split; reflexivity. Qed.
(** interface a extends if<b> {}, with a function that reads any token as a name. *)
Example keyword_panics : ref_typ bytes bytes (fun s => POk a (next s)) one_name one_name (fun s => one_name (next s)) 9 None (src [y T_IF; y T_LT; w b; y T_GT]) = PPanic.
Proof. reflexivity. Qed.
(** A word on the next line should begin a new statement, but is and what follows asserts are taken; a string is on the next
    line makes a predicate without a type. *)
Theorem C67_new_line_refuted :
  got (read (Some a) (src [(T_NAME, is_, XNone, true); w b])) = Some (RPred false (WName (NOne a)) (Some b)) /\
  got (read (Some asserts_) (src [(T_NAME, b, XNone, true)])) = Some (RPred true (WName (NOne b)) None) /\
  got (read (Some a) (src [(T_STRING, is_, XNone, true)])) = Some (RPred false (WName (NOne a)) None).
Proof. repeat split; reflexivity. Qed.
(** A predicate about a parameter called asserts is read as an assertion about is. *)
Theorem C67_called_asserts_refuted : exists z, read (Some asserts_) (src [w is_; w b]) = POk (RPred true (WName (NOne is_)) None) z /\ at_tok T_NAME z = true.
Proof. eexists. split; reflexivity. Qed.
Print Assumptions C67_new_line_refuted.
Print Assumptions C67_called_asserts_refuted.
