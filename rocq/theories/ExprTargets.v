(** What is assigned to can be. *)
From Coq Require Import Lia ZifyBool ZifyNat ZifyN.
From Verif Require Import Base TokenModel LexModel ParseBase BinModel BinSpec BinProofs SymtabModel EarlyModel ExprModel ExprSpec ExprProofs.
Set Default Proof Using "All".

Section Targets.
Variables (text : token -> bytes) (Other Method Block : rng -> list token -> Prop) (lax : Prop).
Hypotheses (other_fr : framed Other) (method_fr : framed Method) (block_fr : framed Block).
Notation spell := (spell text Other Method Block lax).
Notation item := (item text Other Method Block lax).
Notation part := (part text Other Method Block lax).
Notation param := (param text Other Method Block lax).
Notation elems := (elems text Other Method Block lax).
Notation pelems := (pelems text Other Method Block lax).
Notation args_of := (args_of text Other Method Block lax).
Notation params_of := (params_of text Other Method Block lax).
Notation commas := (commas text Other Method Block lax).
Notation props := (props text Other Method Block lax).
Notation prop_of := (prop_of text Other Method Block lax).
Notation pprops := (pprops text Other Method Block lax).
Notation pprop := (pprop text Other Method Block lax).
Notation key_of := (key_of text Other Method Block lax).
Notation quasis := (quasis text Other Method Block lax).
Notation body := (body text Other Method Block lax).
Notation somes := (fun es => concat (map (fun o : option expr => match o with Some e => [e] | None => [] end) es)).
Notation ok := (every assignable).
Notation target_elem := (fun x : option expr => match x with Some e => target_part e = true | None => True end).

Ltac go :=
  repeat match goal with
  | |- _ => assumption
  | H : _ /\ _ |- _ => destruct H
  | |- Forall _ (_ ++ _) => apply Forall_app; split
  | |- Forall _ (_ :: _) => constructor
  | |- Forall _ [] => constructor
  | |- every _ _ => apply Every
  | |- _ /\ _ => split
  end; cbn [assignable kids tags map concat app target_part target_prop orb is_target] in *; try assumption; try exact Logic.I; try reflexivity.
Lemma targets :
  (forall g n e ts, spell g n e ts -> ok e) /\
  (forall g e ts, item g e ts -> ok e) /\
  (forall e ts, part e ts -> ok e /\ target_part e = true) /\
  (forall e ts, param e ts -> ok e /\ target_part e = true) /\
  (forall g l ts, elems g l ts -> Forall ok (somes l)) /\
  (forall l ts, pelems l ts -> Forall ok (somes l) /\ Forall target_elem l) /\
  (forall l ts, args_of l ts -> Forall ok l) /\
  (forall l ts, params_of l ts -> Forall ok l /\ Forall (fun p => target_part p = true) l) /\
  (forall l ts, commas l ts -> Forall ok l) /\
  (forall g l ts, props g l ts -> Forall ok l) /\
  (forall g e ts, prop_of g e ts -> ok e) /\
  (forall l ts, pprops l ts -> Forall ok l /\ Forall (fun p => target_prop p = true) l) /\
  (forall e ts, pprop e ts -> ok e /\ target_prop e = true) /\
  (forall g e c ts, key_of g e c ts -> ok e) /\
  (forall l ts, quasis l ts -> Forall ok l) /\
  (forall e ts, body e ts -> ok e).
Proof.
  apply spell_all; intros; try solve [do 6 go].
  - destruct p; try discriminate. do 6 go.
  - split; [assumption|]. destruct e; try discriminate; reflexivity.
  - apply Every; [exact Logic.I| |constructor]. cbn [kids]. destruct v; do 3 go.
  - destruct key; try discriminate. do 6 go.
Qed.
End Targets.

(** The misreading of a template after new needs a template after a parenthesis. *)
Section Calm.
Variables (text : token -> bytes) (Other Method Block : rng -> list token -> Prop) (lax : Prop).
Notation spell' := (spell text Other Method Block True).
Notation spell'' := (spell text Other Method Block lax).
Notation item' := (item text Other Method Block True).
Notation item'' := (item text Other Method Block lax).
Notation part' := (part text Other Method Block True).
Notation part'' := (part text Other Method Block lax).
Notation param' := (param text Other Method Block True).
Notation param'' := (param text Other Method Block lax).
Notation elems' := (elems text Other Method Block True).
Notation elems'' := (elems text Other Method Block lax).
Notation pelems' := (pelems text Other Method Block True).
Notation pelems'' := (pelems text Other Method Block lax).
Notation args_of' := (args_of text Other Method Block True).
Notation args_of'' := (args_of text Other Method Block lax).
Notation params_of' := (params_of text Other Method Block True).
Notation params_of'' := (params_of text Other Method Block lax).
Notation commas' := (commas text Other Method Block True).
Notation commas'' := (commas text Other Method Block lax).
Notation props' := (props text Other Method Block True).
Notation props'' := (props text Other Method Block lax).
Notation prop_of' := (prop_of text Other Method Block True).
Notation prop_of'' := (prop_of text Other Method Block lax).
Notation pprops' := (pprops text Other Method Block True).
Notation pprops'' := (pprops text Other Method Block lax).
Notation pprop' := (pprop text Other Method Block True).
Notation pprop'' := (pprop text Other Method Block lax).
Notation key_of' := (key_of text Other Method Block True).
Notation key_of'' := (key_of text Other Method Block lax).
Notation quasis' := (quasis text Other Method Block True).
Notation quasis'' := (quasis text Other Method Block lax).
Notation body' := (body text Other Method Block True).
Notation body'' := (body text Other Method Block lax).
Definition quiet (ts : list token) : Prop := forall x h t y, ts = x ++ h :: t :: y -> t_val h = T_PAREN_R -> t_val t = T_TPL_HEAD -> lax.
Lemma quiet_app : forall x y, quiet (x ++ y) -> quiet x /\ quiet y.
Proof.
  intros x y Q; split; intros a h t b E; [apply (Q a h t (b ++ y))|apply (Q (x ++ a) h t b)]; subst.
  - rewrite <- app_assoc; reflexivity.
  - rewrite <- app_assoc; reflexivity.
Qed.
Lemma quiet_cons : forall t y, quiet (t :: y) -> quiet y.
Proof. intros t y Q. exact (proj2 (quiet_app [t] y Q)). Qed.
Ltac calm := 
  repeat match goal with
  | H : quiet (_ ++ _) |- _ => apply quiet_app in H as [? ?]
  | H : quiet (_ :: _) |- _ => apply quiet_cons in H
  end;
  repeat match goal with J : quiet ?ts -> _, Q : quiet ?ts |- _ => specialize (J Q) end.
Lemma calm_all :
  (forall g n e ts, spell' g n e ts -> quiet ts -> spell'' g n e ts) /\
  (forall g e ts, item' g e ts -> quiet ts -> item'' g e ts) /\
  (forall e ts, part' e ts -> quiet ts -> part'' e ts) /\
  (forall e ts, param' e ts -> quiet ts -> param'' e ts) /\
  (forall g l ts, elems' g l ts -> quiet ts -> elems'' g l ts) /\
  (forall l ts, pelems' l ts -> quiet ts -> pelems'' l ts) /\
  (forall l ts, args_of' l ts -> quiet ts -> args_of'' l ts) /\
  (forall l ts, params_of' l ts -> quiet ts -> params_of'' l ts) /\
  (forall l ts, commas' l ts -> quiet ts -> commas'' l ts) /\
  (forall g l ts, props' g l ts -> quiet ts -> props'' g l ts) /\
  (forall g e ts, prop_of' g e ts -> quiet ts -> prop_of'' g e ts) /\
  (forall l ts, pprops' l ts -> quiet ts -> pprops'' l ts) /\
  (forall e ts, pprop' e ts -> quiet ts -> pprop'' e ts) /\
  (forall g e c ts, key_of' g e c ts -> quiet ts -> key_of'' g e c ts) /\
  (forall l ts, quasis' l ts -> quiet ts -> quasis'' l ts) /\
  (forall e ts, body' e ts -> quiet ts -> body'' e ts).
Proof.
  apply spell_all; intros.
  all: try solve [calm; econstructor; eauto].
  - destruct tts as [|u tts]; [cbn in *; congruence|]. cbn [hd] in *.
    assert (L : lax) by (match goal with Q : quiet _ |- _ => apply (Q (n :: cts ++ [l]) h u tts) end; [cbn; rewrite <- app_assoc; reflexivity|assumption..]).
    match goal with Q : quiet (_ :: _) |- _ => apply quiet_cons in Q; apply quiet_app in Q as [? Q]; do 2 apply quiet_cons in Q end.
    eapply S_new_tpl; eauto.
  - calm. eapply S_arrow1; eauto. match goal with J : quiet [t] -> _ |- _ => apply J end.
    intros [|x1 [|x2 x]] h u y E; discriminate E.
Qed.
End Calm.
