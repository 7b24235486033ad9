(** What is assigned to in statements can be. *)
From Coq Require Import Lia ZifyBool ZifyNat ZifyN.
From Verif Require Import Base TokenModel LexModel ParseBase BinModel BinSpec BinProofs SymtabModel EarlyModel ExprModel ExprSpec ExprProofs
  ExprTargets StmtModel StmtSpec StmtReads.
Set Default Proof Using "All".

(** What every head of for-in and for-of and every switch must be; the expressions a statement is made of, but for bindings, labels
    and such heads. *)
Definition head_ok (x : stmt) : Prop :=
  match x with
  | SForIn _ _ _ (SE e) _ _ => for_target e
  | SForIn _ _ _ (SVar _ _ ds) _ _ => length ds = 1
  | SForIn _ _ _ _ _ _ => False
  | SSwitch _ _ cs => apart_defaults cs
  | _ => True
  end.
Definition opt_list (o : option expr) : list expr := match o with Some e => [e] | None => [] end.
Definition exprs_of (x : stmt) : list expr :=
  match x with
  | SExpr _ e | SThrow _ e | SDec _ _ (Some e) | SIf _ e _ _ | SWhile _ e _ | SDo _ _ e | SWith _ e _ | SSwitch _ e _ | SForIn _ _ _ _ e _ => [e]
  | SFor _ i t u _ => match i with Some (SE e) => [e] | _ => [] end ++ opt_list t ++ opt_list u
  | SRet _ e | SCase _ e _ => opt_list e
  | _ => []
  end.
(** What binds names, and what the assignments, updates and arrow functions in it assign to. *)
Definition bindings_of (x : stmt) : list expr :=
  match x with SDec _ b _ => [b] | SCatch _ (Some p) _ => [p] | _ => [] end.
Definition assigned (e : expr) : Prop := match e with PArr _ _ | PObj _ _ => True | e => assignable e end.
Definition sound (x : stmt) : Prop :=
  head_ok x /\ Forall (every assigned) (bindings_of x) /\ Forall (every assignable) (exprs_of x).


Section Targets.
Variables (text : token -> bytes) (Other Method Block : rng -> list token -> Prop) (Decl : rng -> list token -> token -> Prop) (loose : Prop).
Hypotheses (other_fr : framed Other) (method_fr : framed Method) (block_fr : framed Block).
Notation spell := (spell text Other Method Block True).
Notation full := (full text Other Method Block True).
Notation single := (single text Other Method Block True).

Local Definition tg := targets text Other Method Block True other_fr method_fr block_fr.
Lemma full_sound : forall e ts, full e ts -> every assignable e.
Proof. intros e us (n & W & _). exact (proj1 tg _ _ _ _ W). Qed.
Lemma single_sound : forall e ts, single e ts -> every assignable e.
Proof. intros e us (n & W & N). apply (full_sound e us). exists n; split; [exact W|lia]. Qed.
Lemma every_mono : forall (P Q : expr -> Prop), (forall e, P e -> Q e) -> forall e, every P e -> every Q e.
Proof.
  intros P Q H. fix IH 2. intros e [x A B C]. constructor; [exact (H _ A)| |].
  - induction B; constructor; auto.
  - induction C; constructor; auto.
Qed.
Lemma every_weak : forall e, every assignable e -> every assigned e.
Proof. apply every_mono. intros []; cbn; auto. Qed.
Ltac bgo := repeat first [assumption | exact Logic.I | apply Forall_nil | apply Forall_cons | apply Forall_app; split
  | apply every_weak; first [eapply single_sound; eassumption | eapply (proj1 (proj2 (proj2 (proj2 (proj2 (proj2 (proj2 (proj2 (proj2 (proj2 (proj2 (proj2 (proj2 (proj2 tg)))))))))))))); eassumption] | apply Every; cbn [assigned assignable kids tags map concat app]].
Lemma binding_sound :
  (forall e ts, binding text Other Method Block True e ts -> every assigned e) /\
  (forall e ts, belem text Other Method Block True e ts -> every assigned e) /\
  (forall l ts, belems text Other Method Block True l ts -> Forall (every assigned) (concat (map (fun o : option expr => match o with Some e => [e] | None => [] end) l))) /\
  (forall l ts, bprops text Other Method Block True l ts -> Forall (every assigned) l) /\
  (forall e ts, bprop text Other Method Block True e ts -> every assigned e).
Proof.
  apply binding_all; intros; cbn [map concat app]; try solve [bgo].
Qed.
Lemma bind_sound : forall e ts, binding text Other Method Block True e ts -> every assigned e.
Proof. exact (proj1 binding_sound). Qed.
Ltac bnd := split; [cbn [bindings_of]; solve [repeat first [apply Forall_nil | apply Forall_cons]; eapply bind_sound; eassumption]|].
Lemma stat_sound :
    (forall st us nx, stat text Other Method Block Decl True loose st us nx -> forall x, inside x st -> sound x) /\
    (forall st us, block text Other Method Block Decl True loose st us -> forall x, inside x st -> sound x) /\
    (forall sts us nx, stats text Other Method Block Decl True loose sts us nx -> forall st x, In st sts -> inside x st -> sound x) /\
    (forall sts us nx, clauses text Other Method Block Decl True loose sts us nx -> forall st x, In st sts -> inside x st -> sound x) /\
    (forall st us nx, clause text Other Method Block Decl True loose st us nx -> forall x, inside x st -> sound x) /\
    (forall o us, handler text Other Method Block Decl True loose o us -> forall st x, In st (opt_kid o) -> inside x st -> sound x) /\
    (forall o us, final text Other Method Block Decl True loose o us -> forall st x, In st (opt_kid o) -> inside x st -> sound x).
Proof.
  pose proof full_sound as FF. pose proof single_sound as GG.
  assert (X : forall e x, inside x (SE e) -> sound x).
  { intros e x I. remember (SE e) as q eqn:Q. revert e Q. induction I as [|q c K I IH]; intros e ->; [split; [exact Logic.I|bnd; constructor]|].
    cbn [skids] in K. apply in_map_iff in K as (e' & <- & _). exact (IH e' eq_refl). }
  assert (XO : forall o c x, In c (opt_expr_kid o) -> inside x c -> sound x).
  { intros [e|] c x; cbn; [|tauto]. intros [<-|[]]. apply X. }
  assert (O : forall o ts, opt_full text Other Method Block True o ts -> Forall (every assignable) (opt_list o)).
  { intros o us [|e us' W]; constructor; [eapply full_sound; eassumption|constructor]. }
  assert (Dk : forall d ts, dec text Other Method Block True d ts -> forall x, inside x d -> sound x).
  { intros d us D x I. inversion D; subst; (inversion I; subst; [split; [exact Logic.I|bnd; cbn [exprs_of]; repeat (apply Forall_nil || apply Forall_cons); eauto]|]);
      cbn [skids] in *; match goal with K : In _ (_ :: _) |- _ => destruct K as [<-|K]; [eapply X; eassumption|eapply XO; eassumption] end. }
  assert (Ds : forall ds ts, decs text Other Method Block True ds ts -> forall d x, In d ds -> inside x d -> sound x).
  { induction 1; intros d0 x [<-|I] J; eauto; destruct I. }
  assert (V : forall r kind ds ts, decs text Other Method Block True ds ts -> forall x, inside x (SVar r kind ds) -> sound x).
  { intros r kind ds us D x I. inversion I; subst; [split; [exact Logic.I|bnd; constructor]|]. cbn [skids] in *. eapply Ds; eauto. }
  apply stat_all; cbn [In]; try tauto.
    all: try solve [intros; eauto].
    all: try solve [intros; match goal with I : inside ?x _ |- sound ?x => inversion I; subst; [split; [exact Logic.I|bnd; cbn [exprs_of]; repeat (apply Forall_nil || apply Forall_cons); eauto]|] end;
      cbn [skids opt_kid opt_expr_kid In] in *; repeat match goal with K : _ \/ _ |- _ => destruct K as [<-|K] | K : False |- _ => destruct K end; eauto].
    - (* for *) intros f l0 i its s1 t tts s2 u uts h b bts nx F1 F2 F3 F4 F5 I T U B J x Q. inversion Q as [|? c K Q2]; subst.
      + split; [exact Logic.I|bnd]. cbn [exprs_of]. rewrite !Forall_app. split; [|split; eapply O; eassumption].
        inversion I; subst; [constructor| |constructor]. constructor; [eapply full_sound; eassumption|constructor].
      + cbn [skids] in K. rewrite !in_app_iff in K. destruct K as [K|[K|[K|[<-|[]]]]]; [|exact (XO _ _ _ K Q2)|exact (XO _ _ _ K Q2)|exact (J _ Q2)].
        inversion I; subst; cbn in K; [tauto| |]; destruct K as [<-|[]]; [exact (X _ _ Q2)|eapply V; eassumption].
    - intros f l0 i its o r rts h b bts nx F1 F2 F3 L W R B J x Q. inversion Q as [|? c K Q2]; subst.
      + split; [inversion L; subst; [assumption|reflexivity]|bnd]. cbn [exprs_of]. constructor; [eapply full_sound; eassumption|constructor].
      + cbn [skids In] in K. destruct K as [<-|[<-|[<-|[]]]]; [|exact (X _ _ Q2)|exact (J _ Q2)].
        inversion L; subst; [exact (X _ _ Q2)|]. eapply V; [eapply DS_one; eassumption|exact Q2].
    - intros f a await l0 i its o r rts h b bts nx F1 F2 F3 Aw L W R B J x Q. inversion Q as [|? c K Q2]; subst.
      + split; [inversion L; subst; [assumption|reflexivity]|bnd]. cbn [exprs_of]. constructor; [eapply single_sound; eassumption|constructor].
      + cbn [skids In] in K. destruct K as [<-|[<-|[<-|[]]]]; [|exact (X _ _ Q2)|exact (J _ Q2)].
        inversion L; subst; [exact (X _ _ Q2)|]. eapply V; [eapply DS_one; eassumption|exact Q2].
    - intros w l0 e ets h bl cs cts br nx F1 F2 F3 E F4 F5 C J Ap x Q. inversion Q as [|? d K Q2]; subst.
      + split; [exact Ap|bnd]. cbn [exprs_of]. constructor; [eapply full_sound; eassumption|constructor].
      + cbn [skids In] in K. destruct K as [<-|K]; [exact (X _ _ Q2)|eauto].
    - intros w b bts c cts f fts _ F1 B J Hc Jc Hf Jf N x Q. inversion Q as [|? d K Q2]; subst; [split; [exact Logic.I|bnd; constructor]|].
      cbn [skids In] in K. rewrite in_app_iff in K. destruct K as [<-|[K|K]]; eauto.
    - intros s0 us l0 vs nx B J L IH st x [<-|I] Q; eauto.
    - intros s0 us l0 vs nx B J L IH st x [<-|I] Q; eauto.
    - intros w e ets c b bts nx F1 F2 E B J x Q. inversion Q as [|? d K Q2]; subst.
      + split; [exact Logic.I|bnd]. cbn [exprs_of opt_list]. constructor; [eapply full_sound; eassumption|constructor].
      + cbn [skids opt_expr_kid app In] in K. destruct K as [<-|K]; [exact (X _ _ Q2)|eauto].
    - intros st x [].
    - intros w b bts F1 B J st x [<-|[]] Q. inversion Q as [|? d K Q2]; subst; [split; [exact Logic.I|bnd; constructor]|].
      cbn [skids opt_expr_kid app In] in K. destruct K as [<-|[]]. eauto.
    - intros w l0 p pts h b bts F1 F2 F3 P B J st x [<-|[]] Q. inversion Q as [|? d K Q2]; subst; [split; [exact Logic.I|bnd; constructor]|].
      cbn [skids opt_expr_kid app In] in K. destruct K as [<-|[<-|[]]]; [exact (X _ _ Q2)|eauto].
    - intros st x [].
    - intros w b bts F1 B J st x [<-|[]] Q. eauto.
Qed.
End Targets.
