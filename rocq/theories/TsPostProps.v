(** C65: names with dots and types followed by brackets are read as written. *)
From Coq Require Import Lia PeanoNat.
From Verif Require Import Base TokenModel LexModel ParseBase ExprModel ExprFuel ExprProps FuelProps TsListProps TsEndProps TsPostModel TsPostSpec.

Section Names.
Variables (I : Type) (ident : pst -> pres I).
Lemma name_complete : forall s l z, dots ident s l z -> forall ns fuel, length l < fuel ->
  exists t, name_loop I ident fuel ns s = POk t z /\ names_of t = names_of ns ++ l.
Proof.
  induction 1 as [s C|s i s1 l z C Hi D IH]; intros ns [|fuel] Le; cbn [length] in Le; try lia; cbn [name_loop]; rewrite C.
  - exists ns. rewrite app_nil_r. auto.
  - rewrite Hi. cbn [pbind]. destruct (IH (NDot ns i) fuel ltac:(lia)) as (t & -> & E). exists t. split; [reflexivity|].
    rewrite E. cbn [names_of]. rewrite <- app_assoc. reflexivity.
Qed.
Lemma name_sound : forall fuel ns s t z, name_loop I ident fuel ns s = POk t z -> exists l, dots ident s l z /\ names_of t = names_of ns ++ l.
Proof.
  induction fuel as [|fuel IH]; intros ns s t z H; cbn [name_loop] in H; [discriminate|]. destruct (at_tok T_DOT s) eqn:C.
  - destruct (ident (next s)) as [i s1| | |] eqn:Hi; cbn [pbind] in H; try discriminate. destruct (IH _ _ _ _ H) as (l & D & E).
    exists (i :: l). split; [econstructor; eassumption|]. rewrite E. cbn [names_of]. rewrite <- app_assoc. reflexivity.
  - injection H as <- <-. exists []. rewrite app_nil_r. split; [constructor; exact C|reflexivity].
Qed.
(** A name with any number of dots is accepted with its names in order. *)
Theorem C65_names : forall s i s1 l z, ident s = POk i s1 -> dots ident s1 l z ->
  exists n t, names_of t = i :: l /\ forall fuel, n <= fuel -> typ_name I ident fuel s = POk t z.
Proof.
  intros s i s1 l z Hi D. destruct (name_complete _ _ _ D (NOne i) (S (length l)) (le_n _)) as (t & _ & E).
  exists (S (length l)), t. split; [exact E|]. intros fuel Le. unfold typ_name. rewrite Hi. cbn [pbind].
  destruct (name_complete _ _ _ D (NOne i) fuel Le) as (t' & R & E'). rewrite R. f_equal.
  rewrite <- E in E'. clear - E'. revert t E'. induction t' as [j|ns IH j]; intros [k|ns' k] E; cbn [names_of] in E.
  - injection E as ->. reflexivity.
  - exfalso. destruct ns'; cbn [names_of app] in E; [discriminate|]. apply (f_equal (@length I)) in E. rewrite !app_length in E. cbn in E. lia.
  - exfalso. destruct ns; cbn [names_of app] in E; [discriminate|]. apply (f_equal (@length I)) in E. rewrite !app_length in E. cbn in E. lia.
  - apply app_inj_tail in E. destruct E as [E ->]. rewrite (IH _ E). reflexivity.
Qed.
(** Nothing else is accepted. *)
Theorem C65_names_only : forall fuel s t z, typ_name I ident fuel s = POk t z ->
  exists i s1 l, ident s = POk i s1 /\ dots ident s1 l z /\ names_of t = i :: l.
Proof.
  intros fuel s t z H. unfold typ_name in H. destruct (ident s) as [i s1| | |] eqn:Hi; cbn [pbind] in H; try discriminate.
  destruct (name_sound _ _ _ _ _ H) as (l & D & E). exists i, s1, l. auto.
Qed.
End Names.
Print Assumptions C65_names.
Print Assumptions C65_names_only.

Section Brackets.
Variables (B T : Type) (typ : pst -> pres T).
Lemma arr_complete : forall lines s l z, brackets typ lines s l z -> at_tok T_BRACKET_L z = false -> forall t fuel, length l < fuel ->
  exists u, arr_loop B T typ fuel t s = POk u z /\ root u = root t /\ brackets_of u = brackets_of t ++ l.
Proof.
  intros lines s l z H. induction H as [s C|s l z C N E D IH|s i s1 l z C N E P K D IH]; intros Z t [|fuel] Le; cbn [length] in Le; try lia; cbn [arr_loop].
  - rewrite Z. exists t. rewrite app_nil_r. auto.
  - rewrite C, E. destruct (IH Z (PArr t) fuel ltac:(lia)) as (u & -> & R & Q). exists u. split; [reflexivity|split; [exact R|]].
    rewrite Q. cbn [brackets_of]. rewrite <- app_assoc. reflexivity.
  - rewrite C, E, P. cbn [pbind]. unfold must. rewrite K. cbn [pbind]. destruct (IH Z (PIdx t i) fuel ltac:(lia)) as (u & -> & R & Q).
    exists u. split; [reflexivity|split; [exact R|]]. rewrite Q. cbn [brackets_of]. rewrite <- app_assoc. reflexivity.
Qed.
(** A type followed by brackets is accepted and read with all of them, in order, the first one innermost.  Missing: when a
    bracket follows on a new line after another one or after parentheses. *)
Theorem C65_brackets_partial : forall paren b s l z, brackets typ false s l z -> at_tok T_BRACKET_L z = false \/ l = [] /\ paren = false ->
  forall fuel, length l < fuel -> exists u, with_brackets B T typ paren fuel b s = POk u z /\ root u = b /\ brackets_of u = l.
Proof.
  intros paren b s l z H Z fuel Le. unfold with_brackets. destruct (at_tok T_BRACKET_L s && (paren || negb (t_atl (peek s)))) eqn:G.
  - apply andb_prop in G. destruct G as [G1 G2].
    apply (fun Q => arr_complete _ _ _ _ H Q (POne b) fuel Le). destruct Z as [Z|[-> ->]]; [exact Z|]. inversion H; subst.
    cbn [orb] in G2. apply negb_true_iff in G2. destruct H0 as [X|[_ X]]; congruence.
  - inversion H; subst; [exists (POne b); auto| |]; exfalso; destruct H1 as [X|X]; try discriminate; rewrite H0, X, orb_true_r in G; discriminate.
Qed.
Lemma arr_sound : forall fuel t s u z, arr_loop B T typ fuel t s = POk u z ->
  exists l, brackets typ true s l z /\ at_tok T_BRACKET_L z = false /\ root u = root t /\ brackets_of u = brackets_of t ++ l.
Proof.
  induction fuel as [|fuel IH]; intros t s u z H; cbn [arr_loop] in H; [discriminate|]. destruct (at_tok T_BRACKET_L s) eqn:C.
  - destruct (at_tok T_BRACKET_R (next s)) eqn:E.
    + destruct (IH _ _ _ _ H) as (l & D & Z & R & Q). exists (None :: l). split; [apply B_empty; auto|]. split; [exact Z|split; [exact R|]].
      rewrite Q. cbn [brackets_of]. rewrite <- app_assoc. reflexivity.
    + destruct (typ (next s)) as [i s1| | |] eqn:P; cbn [pbind] in H; try discriminate. unfold must in H.
      destruct (at_tok T_BRACKET_R s1) eqn:K; cbn [pbind] in H; [|discriminate]. destruct (IH _ _ _ _ H) as (l & D & Z & R & Q).
      exists (Some i :: l). split; [eapply B_type; eauto|]. split; [exact Z|split; [exact R|]]. rewrite Q. cbn [brackets_of]. rewrite <- app_assoc. reflexivity.
  - injection H as <- <-. exists []. rewrite app_nil_r. split; [constructor; left; exact C|auto].
Qed.
(** What is accepted is a type with its brackets, except that some may begin on a new line. *)
Theorem C65_brackets_only_partial : forall paren fuel b s u z, with_brackets B T typ paren fuel b s = POk u z ->
  root u = b /\ (brackets typ false s (brackets_of u) z \/ brackets typ true s (brackets_of u) z).
Proof.
  intros paren fuel b s u z H. unfold with_brackets in H. destruct (at_tok T_BRACKET_L s && (paren || negb (t_atl (peek s)))) eqn:G.
  - destruct (arr_sound _ _ _ _ _ H) as (l & D & _ & R & Q). cbn [brackets_of app] in Q. rewrite Q. auto.
  - injection H as <- <-. split; [reflexivity|left]. constructor. apply andb_false_iff in G. destruct G as [G|G]; [left; exact G|right].
    apply orb_false_iff in G. destruct G as [_ G]. apply negb_false_iff in G. auto.
Qed.
(** A bracket on a new line right after a type without parentheses is left alone. *)
Theorem C65_first_line : forall fuel b s, t_atl (peek s) = true -> with_brackets B T typ false fuel b s = POk (POne b) s.
Proof. intros fuel b s H. unfold with_brackets. rewrite H, andb_false_r. reflexivity. Qed.
End Brackets.
Print Assumptions C65_brackets_partial.
Print Assumptions C65_brackets_only_partial.
Print Assumptions C65_first_line.

(** Reading both ends. *)
Theorem C51_names_and_brackets : forall (I B T : Type) (ident : pst -> pres I) (typ : pst -> pres T),
  (forall s, ends s (ident s)) -> (forall s, ends s (typ s)) -> forall s depth, length (p_toks s) < depth ->
  typ_name I ident depth s <> PFuel /\ forall paren b, with_brackets B T typ paren depth b s <> PFuel.
Proof.
  intros I B T ident typ Hi Ht s depth Le. split.
  - unfold typ_name. pose proof (Hi s) as P. destruct (ident s) as [i s1| | |]; cbn [pbind ends] in *; try discriminate; try contradiction.
    assert (L : len s1 < depth) by (unfold len; lia). clear P Le. generalize (NOne i). revert s1 L. induction depth as [|n IH]; intros s1 L t; [lia|].
    cbn [name_loop]. destruct (at_tok T_DOT s1); [|discriminate]. pose proof (Hi (next s1)) as P. destruct (ident (next s1)) as [j s2| | |]; cbn [pbind ends] in *; try discriminate; try contradiction.
    apply IH. fold (len s2) in P. fold (len (next s1)) in P. rewrite len_next in P. lia.
  - intros paren b0. unfold with_brackets. destruct (_ && _); [|discriminate]. generalize (@POne B T b0). fold (len s) in Le. revert s Le. induction depth as [|n IH]; intros s Le b; [lia|]. cbn [arr_loop].
    destruct (at_tok T_BRACKET_L s) eqn:E; [|discriminate]. pose proof (at_len _ _ E eq_refl) as L.
    destruct (at_tok T_BRACKET_R (next s)); [apply IH; rewrite !len_next; lia|].
    pose proof (Ht (next s)) as P. destruct (typ (next s)) as [i s1| | |]; cbn [pbind ends] in *; try discriminate; try contradiction.
    fold (len s1) in P. fold (len (next s)) in P. rewrite len_next in P. pose proof (must_fin T_BRACKET_R s1 eq_refl) as M.
    destruct (must T_BRACKET_R s1) as [u s2| | |]; cbn [pbind]; try discriminate; try contradiction. apply IH. lia.
Qed.
Print Assumptions C51_names_and_brackets.

Local Notation a := (bs "a").
Local Notation b := (bs "b").
Local Notation c := (bs "c").
Example name_read : got (typ_name _ one_name 9 (src [w a; y T_DOT; w b; y T_DOT; w c; y T_COMMA])) = Some (NDot (NDot (NOne a) b) c).
Proof. reflexivity. Qed.
Example brackets_read : got (with_brackets bytes bytes one_name false 9 a (src [y T_BRACKET_L; y T_BRACKET_R; y T_BRACKET_L; w b; y T_BRACKET_R; y T_COMMA])) = Some (PIdx (PArr (POne a)) b).
Proof. reflexivity. Qed.
Example brackets_written : exists z, brackets one_name false (src [y T_BRACKET_L; y T_BRACKET_R; y T_BRACKET_L; w b; y T_BRACKET_R; y T_COMMA]) [None; Some b] z /\ at_tok T_BRACKET_L z = false.
Proof. eexists. split; [apply B_empty; [reflexivity|right; reflexivity|reflexivity|]; eapply B_type; [reflexivity|right; reflexivity|reflexivity|reflexivity|reflexivity|]; apply B_end; left; reflexivity|reflexivity]. Qed.
(** A bracket on the next line should begin a new statement: after type t = a[] or type t = (a), [b] on the next line is
    read as an index. *)
Theorem C65_new_line_refuted :
  (exists s z, brackets one_name false s [None] z /\ t_atl (peek z) = true /\
    got (with_brackets bytes bytes one_name false 9 a s) = Some (PIdx (PArr (POne a)) b)) /\
  (exists s, brackets one_name false s [] s /\ t_atl (peek s) = true /\
    got (with_brackets bytes bytes one_name true 9 a s) = Some (PIdx (POne a) b)).
Proof.
  split.
  - exists (src [y T_BRACKET_L; y T_BRACKET_R; nl T_BRACKET_L; w b; y T_BRACKET_R]). eexists.
    split; [apply B_empty; [reflexivity|right; reflexivity|reflexivity|]; apply B_end; right; split; reflexivity|split; reflexivity].
  - exists (src [nl T_BRACKET_L; w b; y T_BRACKET_R]). split; [apply B_end; right; split; reflexivity|split; reflexivity].
Qed.
Print Assumptions C65_new_line_refuted.
