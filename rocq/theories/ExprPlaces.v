(** Where the nodes of a tree begin and end. *)
From Coq Require Import Lia ZifyBool ZifyNat ZifyN.
From Verif Require Import Base TokenModel LexModel ParseBase BinModel BinSpec BinProofs SymtabModel EarlyModel ExprModel ExprSpec ExprProofs.
Set Default Proof Using "All".

Lemma span_app : forall x y a b, span a b (x ++ y) <-> exists m, span a m x /\ span m b y.
Proof.
  induction x as [|t x IH]; intros y a b; cbn [app span].
  - split; [intro H; exists a; auto|]. intros (m & H1 & H2). destruct y as [|u y]; cbn [span] in *; [lia|]. intuition lia.
  - rewrite IH. firstorder.
Qed.
Lemma span_le : forall ts a b, span a b ts -> a <= b.
Proof. induction ts as [|t ts IH]; cbn; intros a b H; [exact H|]. destruct H as (H1 & H2 & _ & H3). apply IH in H3. lia. Qed.
Lemma span_tight : forall ts a b, span a b ts -> ts <> [] ->
  a <= first_lo ts /\ first_lo ts <= last_hi ts /\ last_hi ts <= b /\ span (first_lo ts) (last_hi ts) ts.
Proof.
  intros ts a b H N. destruct ts as [|t ts]; [congruence|]. clear N. revert t a b H.
  induction ts as [|u ts IH]; intros t a b H.
  - cbn [span app] in *. unfold first_lo, last_hi; cbn [rev app]. intuition lia.
  - destruct H as (H1 & H2 & H3 & H4). destruct (IH _ _ _ H4) as (J1 & J2 & J3 & J4).
    rewrite last_hi_cons by discriminate. cbn [first_lo] in *. split; [exact H1|]. split; [lia|]. split; [exact J3|].
    cbn [span]. split; [lia|]. split; [exact H2|]. split; [exact H3|]. destruct J4 as (_ & K2 & K3 & K4). auto.
Qed.
Lemma row_app : forall x y a b, row a b (x ++ y) <-> exists m, row a m x /\ row m b y.
Proof.
  induction x as [|e x IH]; intros y a b; cbn [app row].
  - split; [intro H; exists a; auto|]. intros (m & H1 & H2). destruct y as [|u y]; cbn [row] in *; [lia|]. intuition lia.
  - rewrite IH. firstorder.
Qed.
Lemma row_wide : forall l a b a' b', row a b l -> a' <= a -> b <= b' -> row a' b' l.
Proof. induction l as [|e l IH]; cbn; intros a b a' b' H A B; [lia|]. destruct H as (H1 & H2 & H3). split; [lia|]. split; [lia|]. eapply IH; eauto. Qed.
Lemma row_le : forall l a b, row a b l -> a <= b.
Proof. induction l as [|e l IH]; cbn; intros a b H; [exact H|]. destruct H as (H1 & H2 & H3). apply IH in H3. lia. Qed.

Section Places.
Variables (text : token -> bytes) (Other Method Block : rng -> list token -> Prop) (lax : Prop).
Hypotheses (other_fr : framed Other) (method_fr : framed Method) (block_fr : framed Block).
Variable At : nat -> Prop.
Notation spell := (spell text Other Method Block lax).
Notation item := (item text Other Method Block lax).
Notation part := (part text Other Method Block lax).
Notation param := (param text Other Method Block lax).
Notation elems := (elems text Other Method Block lax).
Notation pelems := (pelems text Other Method Block lax).
Notation args_of := (args_of text Other Method Block lax).
Notation params_of := (params_of text Other Method Block lax).
Notation commas := (commas text Other Method Block lax).
Notation props := (props text Other Method Block lax).
Notation prop_of := (prop_of text Other Method Block lax).
Notation pprops := (pprops text Other Method Block lax).
Notation pprop := (pprop text Other Method Block lax).
Notation key_of := (key_of text Other Method Block lax).
Notation quasis := (quasis text Other Method Block lax).
Notation body := (body text Other Method Block lax).
Notation somes := (fun es => concat (map (fun o : option expr => match o with Some e => [e] | None => [] end) es)).
Definition marks (ts : list token) : Prop := Forall (fun t => At (t_lo t) /\ At (t_hi t)) ts.
Definition bounds (a b : nat) (e : expr) : Prop := a <= lo e /\ lo e <= hi e /\ hi e <= b /\ At (lo e) /\ At (hi e) /\
  Forall (fun x => a <= x /\ At x) (lefts e) /\ nested At e.
Definition one (e : expr) (ts : list token) : Prop := forall a b, span a b ts -> marks ts -> bounds a b e.
Definition many (es : list expr) (ts : list token) : Prop := forall a b, span a b ts -> marks ts -> row a b es /\ Forall (nested At) es.

Local Definition s_ne := spell_ne text Other Method Block lax other_fr method_fr block_fr.
Local Definition i_ne := item_ne text Other Method Block lax other_fr method_fr block_fr.
Local Definition r_ne := part_ne text Other Method Block lax other_fr method_fr block_fr.
Local Definition c_ne := commas_ne text Other Method Block lax other_fr method_fr block_fr.
Local Definition k_ne := key_ne text Other Method Block lax other_fr method_fr block_fr.
Local Definition q_ne := quasis_ne text Other Method Block lax other_fr method_fr block_fr.
Local Definition b_ne := body_ne text Other Method Block lax other_fr method_fr block_fr.

Lemma marks_first : forall ts, marks ts -> ts <> [] -> At (first_lo ts).
Proof. intros [|t ts] H N; [congruence|]. inversion H; tauto. Qed.
Lemma marks_last : forall ts, marks ts -> ts <> [] -> At (last_hi ts).
Proof.
  intros ts H N. unfold last_hi. apply Forall_rev in H. destruct (rev ts) eqn:E; [apply (f_equal (@rev _)) in E; rewrite rev_involutive in E; cbn in E; congruence|].
  inversion H; tauto.
Qed.
Lemma marks_app : forall x y, marks (x ++ y) -> marks x /\ marks y.
Proof. intros x y H. apply Forall_app in H. exact H. Qed.
Lemma marks_cons : forall t y, marks (t :: y) -> At (t_lo t) /\ At (t_hi t) /\ marks y.
Proof. intros t y H. inversion H; subst. tauto. Qed.
Lemma nested_ends : forall e, nested At e -> string_of_template e \/ At (lo e) /\ At (hi e).
Proof. intros e H; inversion H; tauto. Qed.
Ltac know ts H := lazymatch goal with _ : ts <> [] |- _ => fail | _ => pose proof H end.
Ltac all_ne :=
  repeat match goal with
  | H : spell _ _ _ ?ts |- _ => know ts (s_ne _ _ _ _ H)
  | H : item _ _ ?ts |- _ => know ts (i_ne _ _ _ H)
  | H : part _ ?ts |- _ => know ts (r_ne _ _ H)
  | H : key_of _ _ _ ?ts |- _ => know ts (k_ne _ _ _ _ H)
  | H : commas _ ?ts |- _ => know ts (c_ne _ _ H)
  | H : quasis _ ?ts |- _ => know ts (q_ne _ _ H)
  | H : body _ ?ts |- _ => know ts (b_ne _ _ H)
  end.
(** Take the tokens of a node apart. *)
Ltac parts :=
  repeat match goal with
  | H : span _ _ (_ ++ _) |- _ => apply span_app in H as (? & ? & ?)
  | H : span _ _ (_ :: _) |- _ => destruct H as (? & ? & ? & H)
  | H : span ?a ?b [] |- _ => change (a <= b) in H
  | H : marks (_ ++ _) |- _ => apply marks_app in H as [? ?]
  | H : marks (_ :: _) |- _ => apply marks_cons in H as (? & ? & H)
  | H : marks [] |- _ => clear H
  end.
Ltac tighten :=
  repeat match goal with
  | N : ?ts <> [], H : span ?a ?b ?ts |- _ =>
      lazymatch a with first_lo ts => fail | _ => idtac end;
      let T := fresh in pose proof (span_tight _ _ _ H N) as T; clear H; destruct T as (? & ? & ? & H)
  end.
Ltac feed :=
  repeat match goal with
  | J : one ?e ?ts, S : span ?a ?b ?ts, M : marks ?ts |- _ => specialize (J a b S M); destruct J as (? & ? & ? & ? & ? & ? & ?)
  | J : many ?e ?ts, S : span ?a ?b ?ts, M : marks ?ts |- _ => specialize (J a b S M); destruct J as (? & ?)
  end.
Ltac ends :=
  repeat match goal with
  | M : marks ?ts, N : ?ts <> [] |- _ =>
      lazymatch goal with _ : At (first_lo ts) |- _ => fail | _ => pose proof (marks_first _ M N); pose proof (marks_last _ M N) end
  end.

Lemma lefts_wide : forall a b l, Forall (fun x => a <= x /\ At x) l -> b <= a -> Forall (fun x => b <= x /\ At x) l.
Proof. intros a b l H L. eapply Forall_impl; [|exact H]. cbn; intros; intuition lia. Qed.
Lemma leaf : forall a b e, kids e = [] -> tags e = [] -> lefts e = [lo e] -> a <= lo e -> lo e <= hi e -> hi e <= b -> At (lo e) -> At (hi e) -> bounds a b e.
Proof.
  intros a b e K T L A1 A2 A3 A4 A5. unfold bounds. rewrite L. do 5 (split; [assumption|]). split; [constructor; [auto|constructor]|].
  constructor; rewrite ?K, ?T; try constructor; auto.
Qed.
Lemma node : forall a b e, a <= lo e -> hi e <= b -> At (lo e) -> At (hi e) -> row (lo e) (hi e) (kids e) -> tags e = [] ->
  Forall (fun x => a <= x /\ At x) (lefts e) -> Forall (nested At) (kids e) -> bounds a b e.
Proof.
  intros a b e A1 A2 A3 A4 A5 T L F. unfold bounds. pose proof (row_le _ _ _ A5). do 5 (split; [assumption|]). split; [exact L|].
  constructor; rewrite ?T; auto.
Qed.
Lemma call_start : forall cts c x, span (first_lo cts) (last_hi cts) cts -> marks cts -> cts <> [] ->
  Forall (fun y => first_lo cts <= y /\ At y) (lefts c) -> x = first_lo cts \/ In x (lefts c) -> (ordered cts -> x <= lo c) ->
  first_lo cts <= x /\ x <= lo c /\ At x.
Proof.
  intros cts c x S M N L X O. assert (x <= lo c) by (apply O; do 2 eexists; exact S).
  destruct X as [-> |X]; [pose proof (marks_first _ M N); auto|]. rewrite Forall_forall in L. destruct (L _ X). auto.
Qed.
Lemma target_start : forall lts l x, marks lts -> lts <> [] -> first_lo lts <= lo l -> At (lo l) -> x = first_lo lts \/ x = lo l ->
  first_lo lts <= x /\ x <= lo l /\ At x.
Proof. intros lts l x M N A B [-> | ->]; [pose proof (marks_first _ M N)|]; auto. Qed.
Ltac start := intros; red; intros; parts; all_ne; tighten; feed; ends;
  try match goal with S : span _ _ ?cts, M : marks ?cts, N : ?cts <> [], L : Forall _ (lefts ?c), X : ?x = _ \/ In ?x (lefts ?c), O : ordered ?cts -> _ |- _ =>
    destruct (call_start _ _ _ S M N L X O) as (? & ? & ?) end;
  try match goal with M : marks ?lts, N : ?lts <> [], A : first_lo ?lts <= lo ?l, B : At (lo ?l), X : ?x = first_lo ?lts \/ ?x = lo ?l |- _ =>
    destruct (target_start _ _ _ M N A B X) as (? & ? & ?) end.
Ltac ranges := unfold lo, hi in *; cbn [range fst snd place] in *.
Ltac foralls := repeat first [apply Forall_nil | apply Forall_cons | apply Forall_app; split].
Ltac fin := first [exact Logic.I | reflexivity | assumption | lia | solve [auto] | eapply lefts_wide; [eassumption|lia] | eapply row_wide; [eassumption|lia|lia]].
Ltac fin2 := first [fin | split; fin | apply Nested; cbn [kids tags row]; ranges; foralls; fin].
Ltac mk := apply node; cbn [kids tags row lefts app]; ranges; foralls; repeat match goal with |- _ /\ _ => split end; fin2.
Ltac lst := intros; red; intros; parts; feed; cbn [map concat app row]; split; [repeat match goal with |- _ /\ _ => split end; fin|foralls; fin].

Lemma places :
  (forall g n e ts, spell g n e ts -> one e ts) /\
  (forall g e ts, item g e ts -> one e ts) /\
  (forall e ts, part e ts -> one e ts) /\
  (forall e ts, param e ts -> one e ts) /\
  (forall g l ts, elems g l ts -> many (somes l) ts) /\
  (forall l ts, pelems l ts -> many (somes l) ts) /\
  (forall l ts, args_of l ts -> many l ts) /\
  (forall l ts, params_of l ts -> many l ts) /\
  (forall l ts, commas l ts -> many l ts /\ forall a b, span a b ts -> marks ts -> At (lo (hd (EOther (0, 0)) l)) /\ a <= lo (hd (EOther (0, 0)) l)) /\
  (forall g l ts, props g l ts -> many l ts) /\
  (forall g e ts, prop_of g e ts -> one e ts) /\
  (forall l ts, pprops l ts -> many l ts) /\
  (forall e ts, pprop e ts -> one e ts) /\
  (forall g e c ts, key_of g e c ts -> one e ts) /\
  (forall l ts, quasis l ts -> many l ts) /\
  (forall e ts, body e ts -> one e ts).
Proof.
  apply spell_all.
  all: try solve [intros; assumption].
  all: try solve [start; mk].
  all: try solve [start; apply leaf; ranges; try reflexivity; try assumption; lia].
  all: try solve [lst].
  - (* ESeq *) intros g es ts C [IH1 IH2] L. red; intros. all_ne; tighten. specialize (IH1 _ _ H ltac:(assumption)).
    specialize (IH2 _ _ H ltac:(assumption)). destruct IH1 as [R F], IH2 as [A1 A2]. ends. apply node; cbn [kids tags lefts]; foralls; try fin2.
    + unfold lo at 1; cbn [range fst]. lia.
    + destruct es as [|e0 es]; [cbn in L; lia|]. unfold lo at 1, hi at 1; cbn [range fst snd hd row] in *. destruct R as (R1 & R2 & R3). split; [lia|auto].
    + unfold lo at 1; cbn [range fst]. split; [lia|assumption].
  - (* ETpl *) intros. red; intros. parts. all_ne. tighten. feed. ends. unfold bounds.
    assert (Q : first_lo ts <= last_hi ts) by assumption.
    split; [unfold lo; cbn [range fst]; ranges; lia|]. split; [ranges; lia|]. split; [ranges; lia|]. split; [ranges; assumption|]. split; [ranges; assumption|].
    split; [cbn [lefts]; foralls; ranges; fin2|]. apply Nested; cbn [kids tags]; foralls; ranges; fin2.
  - (* EArrow *) intros g p t a b bts n S9 J N A1 A2 B JB ->. red; intros. parts. all_ne. tighten.
    match goal with H : t_lo t <= t_hi t, At1 : At (t_lo t), At2 : At (t_hi t) |- _ => idtac end.
    assert (J' : bounds (t_lo t) (t_hi t) p).
    { apply J; [cbn; auto|]. constructor; [auto|constructor]. }
    destruct J' as (? & ? & ? & ? & ? & ? & ?). feed. ends. mk.
  - (* EArrow *) intros. red; intros. parts. all_ne. tighten. feed. ends. apply node; cbn [kids tags lefts]; ranges; foralls; try fin2.
    apply row_app. eexists; split; [eapply row_wide; [eassumption|lia|apply le_n]|]. cbn [row]; ranges; fin2.
  - intros g r ts O. red; intros. destruct (other_fr _ _ O) as [N ->]. tighten. ends. apply leaf; ranges; fin2.
  - intros n e ts S9 J N. split; [lst|]. intros a b Sp M. feed. auto.
  - intros n e ts c l ts' C S9 J N Cs [J1 J2]. split; [lst|]. intros a b Sp M. parts. feed. auto.
  - intros g r ts O. red; intros. destruct (method_fr _ _ O) as [N ->]. tighten. ends. apply leaf; ranges; fin2.
  - intros. red; intros. parts. all_ne. tighten. feed. ends.
    assert (K : kids (EProp (first_lo kts, last_hi vts) key (Some v) computed true true) = [key; v]).
    { destruct v; try reflexivity. match goal with H : spell _ _ (PAssign _ _ _) _ |- _ => inversion H end. }
    apply node; rewrite ?K; cbn [tags lefts row]; ranges; foralls; repeat match goal with |- _ /\ _ => split end; fin2.
  - intros. red; intros. parts. feed. unfold bounds. repeat match goal with |- _ /\ _ => split end; fin2.
  - intros. red; intros. parts. feed. unfold bounds. repeat match goal with |- _ /\ _ => split end; fin2.
  - intros t s a b plain bad X Q. red; intros. parts. rewrite X in *. split; [cbn [row]; ranges; lia|]. foralls.
    apply Nested; cbn [kids tags row]; foralls; ranges; try lia. right; cbn; rewrite X; exact Logic.I.
  - intros t s a b plain bad n e ts l ts' X Q Se J N Qs Jm. red; intros. parts. feed. rewrite X in *.
    split; [cbn [row]; ranges; repeat match goal with |- _ /\ _ => split end; fin2|]. foralls; try assumption.
    apply Nested; cbn [kids tags row]; foralls; ranges; try lia. right; cbn; rewrite X; exact Logic.I.
  - intros r ts O. red; intros. destruct (block_fr _ _ O) as [N ->]. tighten. ends. apply leaf; ranges; fin2.
Qed.
End Places.
