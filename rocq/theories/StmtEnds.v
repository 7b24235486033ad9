(** No statement begins with a comma, a closing parenthesis or a colon, so that where the parser takes one of these
    for the end of a statement, nothing is accepted. *)
From Verif Require Import Base TokenModel LexModel ParseBase BinSpec ExprModel ExprSpec ExprProofs StmtModel StmtSpec StmtReads.

Definition starts (ts : list token) : Prop := exists t us, ts = t :: us /\ ~ stray t.
Lemma starts_app : forall a b, starts a -> starts (a ++ b).
Proof. intros a b (t & us & -> & H). exists t, (us ++ b). split; [reflexivity|exact H]. Qed.
Lemma starts_at : forall t us v, t_val t = v -> ~ In v [T_COMMA; T_PAREN_R; T_COLON] -> starts (t :: us).
Proof. intros t us v E H. exists t, us. split; [reflexivity|]. unfold stray. rewrite E. exact H. Qed.

Section Ends.
Variables (text : token -> bytes) (Other Method Block : rng -> list token -> Prop) (Decl : rng -> list token -> token -> Prop).
(** [Tight]: what the declarations are when no stray token follows. *)
Variable Tight : rng -> list token -> token -> Prop.
Hypotheses (other_st : forall r ts, Other r ts -> starts ts) (decl_st : forall r ts nx, Decl r ts nx -> starts ts)
  (decl_tight : forall r ts nx, Decl r ts nx -> ~ stray nx -> Tight r ts nx).
Notation spell := (spell text Other Method Block True).
Notation full := (full text Other Method Block True).
Notation stat := (stat text Other Method Block Decl True).
Notation block := (block text Other Method Block Decl True).
Notation stats := (stats text Other Method Block Decl True).
Notation clauses := (clauses text Other Method Block Decl True).
Notation clause := (clause text Other Method Block Decl True).
Notation handler := (handler text Other Method Block Decl True).
Notation final := (final text Other Method Block Decl True).

Ltac value :=
  match goal with
  | |- starts (?t :: _) => exists t; eexists; split; [reflexivity|]; unfold stray
  end;
  match goal with
  | H : t_val ?t = _ |- ~ In (t_val ?t) _ => rewrite H; cbn [In]; intuition discriminate
  | H : _ \/ _ |- _ => destruct H as [H|H]; rewrite H; cbn [In]; intuition discriminate
  end.
Lemma spell_starts :
  (forall g n e ts, spell g n e ts -> starts ts) /\
  (forall g e ts, item text Other Method Block True g e ts -> starts ts) /\
  (forall e ts, part text Other Method Block True e ts -> starts ts) /\
  (forall e ts, param text Other Method Block True e ts -> starts ts) /\
  (forall g l ts, elems text Other Method Block True g l ts -> True) /\
  (forall l ts, pelems text Other Method Block True l ts -> True) /\
  (forall l ts, args_of text Other Method Block True l ts -> True) /\
  (forall l ts, params_of text Other Method Block True l ts -> True) /\
  (forall l ts, commas text Other Method Block True l ts -> starts ts) /\
  (forall g l ts, props text Other Method Block True g l ts -> True) /\
  (forall g e ts, prop_of text Other Method Block True g e ts -> True) /\
  (forall l ts, pprops text Other Method Block True l ts -> True) /\
  (forall e ts, pprop text Other Method Block True e ts -> True) /\
  (forall g e c ts, key_of text Other Method Block True g e c ts -> True) /\
  (forall l ts, quasis text Other Method Block True l ts -> starts ts) /\
  (forall e ts, body text Other Method Block True e ts -> True).
Proof.
  apply spell_all; intros; try exact Logic.I; try assumption; try solve [apply starts_app; assumption]; try solve [value]; eauto.
  - match goal with H : literal _ |- _ => exists t, []; split; [reflexivity|]; unfold literal, stray in *; cbn [In] in *; intuition congruence end.
  - match goal with H : prefix_op _ |- _ => exists o, ts; split; [reflexivity|]; unfold prefix_op, stray in *; cbn [In] in *; intuition congruence end.
  - match goal with H : yield_word _ _ |- _ => exists y, []; split; [reflexivity|]; unfold yield_word, stray in *; cbn [In] in *; intuition congruence end.
  - match goal with H : yield_word _ _ |- _ => exists y, ts; split; [reflexivity|]; unfold yield_word, stray in *; cbn [In] in *; intuition congruence end.
  - match goal with H : yield_word _ _ |- _ => exists y, (m :: ts); split; [reflexivity|]; unfold yield_word, stray in *; cbn [In] in *; intuition congruence end.
  - match goal with H : starts [t] |- _ => exact (starts_app _ (a :: bts) H) end.
  - match goal with H : quasi_ends _ _ |- _ => exists t, []; split; [reflexivity|]; unfold quasi_ends, stray in *; cbn [In] in *; intuition congruence end.
  - match goal with H : quasi_goes _ _ |- _ => exists t, (ts ++ ts'); split; [reflexivity|]; unfold quasi_goes, stray in *; cbn [In] in *; intuition congruence end.
Qed.
Lemma full_starts : forall e ts, full e ts -> starts ts.
Proof. intros e ts (n & H & _). exact (proj1 spell_starts _ _ _ _ H). Qed.

Ltac opening := match goal with
  | H : t_val ?t = ?v |- starts (?t :: _) => apply (starts_at t _ v H); cbn [In]; intuition discriminate
  end.
Lemma stat_starts : forall loose,
  (forall s ts nx, stat loose s ts nx -> starts ts) /\
  (forall s ts, block loose s ts -> starts ts) /\
  (forall l ts nx, stats loose l ts nx -> ts = [] \/ starts ts) /\
  (forall l ts nx, clauses loose l ts nx -> ts = [] \/ starts ts) /\
  (forall s ts nx, clause loose s ts nx -> starts ts) /\
  (forall o ts, handler loose o ts -> True) /\
  (forall o ts, final loose o ts -> True).
Proof.
  intro loose. apply stat_all; intros; try exact Logic.I; try assumption; try solve [opening]; try solve [left; reflexivity];
    try solve [right; apply starts_app; assumption]; try solve [apply starts_app; eapply full_starts; eassumption]; eauto.
  match goal with H : var_word _ _ |- _ => exists v; eexists; split; [reflexivity|]; unfold var_word, word, stray in *; cbn [In] in *; intuition congruence end.
Qed.

Lemma tight_semi : forall nx x, semi True nx x -> ~ stray nx -> semi False nx x.
Proof. intros nx x [t H|[H|[_ H]] N] S; [constructor; exact H| |contradiction]. apply Inserted; [left; exact H|exact N]. Qed.
Lemma hd_calm : forall nx us, us = [] \/ starts us -> ~ stray nx -> ~ stray (hd nx us).
Proof. intros nx us [->|(t & vs & -> & H)] N; [exact N|exact H]. Qed.
Ltac calm := match goal with H : t_val ?t = _ |- ~ stray ?t => unfold stray; rewrite H; cbn [In]; intuition discriminate end.
Lemma stat_tight :
  (forall s ts nx, stat True s ts nx -> ~ stray nx -> StmtSpec.stat text Other Method Block Tight True False s ts nx) /\
  (forall s ts, block True s ts -> StmtSpec.block text Other Method Block Tight True False s ts) /\
  (forall l ts nx, stats True l ts nx -> ~ stray nx -> StmtSpec.stats text Other Method Block Tight True False l ts nx) /\
  (forall l ts nx, clauses True l ts nx -> ~ stray nx -> StmtSpec.clauses text Other Method Block Tight True False l ts nx) /\
  (forall s ts nx, clause True s ts nx -> ~ stray nx -> StmtSpec.clause text Other Method Block Tight True False s ts nx) /\
  (forall o ts, handler True o ts -> StmtSpec.handler text Other Method Block Tight True False o ts) /\
  (forall o ts, final True o ts -> StmtSpec.final text Other Method Block Tight True False o ts).
Proof.
  apply stat_all; intros;
    repeat match goal with
    | H : ~ stray ?nx -> _, K : ~ stray ?nx |- _ => specialize (H K)
    | H : ~ stray ?t -> _, E : t_val ?t = _ |- _ => specialize (H ltac:(calm))
    | H : semi True ?nx _, K : ~ stray ?nx |- _ => pose proof (tight_semi _ _ H K); clear H
    | H : ~ stray (hd ?nx ?us) -> _, K : ~ stray ?nx, S : StmtSpec.stats _ _ _ _ _ _ True _ ?us ?nx |- _ =>
        specialize (H (hd_calm _ _ (proj1 (proj2 (proj2 (stat_starts True))) _ _ _ S) K))
    | H : ~ stray (hd ?nx ?us) -> _, K : ~ stray ?nx, S : StmtSpec.clauses _ _ _ _ _ _ True _ ?us ?nx |- _ =>
        specialize (H (hd_calm _ _ (proj1 (proj2 (proj2 (proj2 (stat_starts True)))) _ _ _ S) K))
    end; try solve [econstructor; eassumption].
  apply T_decl, decl_tight; assumption.
Qed.
End Ends.
