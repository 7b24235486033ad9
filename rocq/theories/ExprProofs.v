(** Proofs about expressions. *)
From Coq Require Import Lia ZifyBool ZifyNat ZifyN.
From Verif Require Import Base TokenModel LexModel ParseBase BinModel BinSpec BinProofs SymtabModel EarlyModel ExprModel ExprSpec.
Set Default Proof Using "All".

(** * Places *)
Lemma last_hi_app : forall a b, b <> [] -> last_hi (a ++ b) = last_hi b.
Proof. intros a b H; unfold last_hi; rewrite rev_app_distr. destruct (rev b) eqn:E; [|reflexivity]. exfalso; apply H; rewrite <- (rev_involutive b), E; reflexivity. Qed.
Lemma last_hi_cons : forall t b, b <> [] -> last_hi (t :: b) = last_hi b.
Proof. intros t b H; exact (last_hi_app [t] b H). Qed.
Lemma last_hi_snoc : forall a t, last_hi (a ++ [t]) = t_hi t.
Proof. intros; rewrite last_hi_app by discriminate; reflexivity. Qed.
Lemma last_hi_mid : forall a t b, last_hi (a ++ t :: b) = last_hi (t :: b).
Proof. intros; apply last_hi_app; discriminate. Qed.
Lemma first_lo_app : forall a b, a <> [] -> first_lo (a ++ b) = first_lo a.
Proof. intros [|t a] b H; [congruence|reflexivity]. Qed.

(** * States *)
Notation sp := read.
Lemma sp_refl : forall s, sp s [] s.
Proof. intros; repeat split; congruence. Qed.
Lemma sp_trans : forall a t b u c, sp a t b -> sp b u c -> sp a (t ++ u) c.
Proof.
  intros a t b u c (H1 & H2 & H3) (K1 & K2 & K3). split; [|split].
  - rewrite H1, K1, app_assoc; reflexivity.
  - intro E; apply app_eq_nil in E as [-> ->]. rewrite K2, H2; auto.
  - intro E. destruct u as [|x u].
    + rewrite app_nil_r in *. unfold p_end in *; rewrite K2 by reflexivity. apply H3; exact E.
    + rewrite last_hi_app by discriminate. apply K3; discriminate.
Qed.
Lemma sp_peeked : forall s t s', sp s t s' -> sp s t (peeked s').
Proof. intros s t s' H; exact H. Qed.
Lemma sp_peeked_l : forall s t s', sp (peeked s) t s' -> sp s t s'.
Proof. intros s t s' H; exact H. Qed.
Lemma sp_next : forall s, pval s <> T_EOF -> sp s [peek s] (next s).
Proof.
  intros s H. unfold pval, peek in H. destruct (p_toks s) as [|t l] eqn:E; [destruct H; reflexivity|].
  unfold read, next, peek, p_end; cbn; rewrite E; repeat split; congruence.
Qed.
Lemma at_tok_eq : forall v s, at_tok v s = true -> pval s = v.
Proof. intros v s H; unfold at_tok in H. exact (proj1 (tv_eqb_spec _ _) H). Qed.

Scheme spell_mind := Minimality for spell Sort Prop
with item_mind := Minimality for item Sort Prop
with part_mind := Minimality for part Sort Prop
with param_mind := Minimality for param Sort Prop
with elems_mind := Minimality for elems Sort Prop
with pelems_mind := Minimality for pelems Sort Prop
with args_mind := Minimality for args_of Sort Prop
with params_mind := Minimality for params_of Sort Prop
with commas_mind := Minimality for commas Sort Prop
with props_mind := Minimality for props Sort Prop
with prop_mind := Minimality for prop_of Sort Prop
with pprops_mind := Minimality for pprops Sort Prop
with pprop_mind := Minimality for pprop Sort Prop
with key_mind := Minimality for key_of Sort Prop
with quasis_mind := Minimality for quasis Sort Prop
with body_mind := Minimality for body Sort Prop.
Combined Scheme spell_all from spell_mind, item_mind, part_mind, param_mind, elems_mind, pelems_mind, args_mind,
  params_mind, commas_mind, props_mind, prop_mind, pprops_mind, pprop_mind, key_mind, quasis_mind, body_mind.

Lemma stop_map_cons : forall A B (f : A -> A * ares B) a l l' x, stop_map f (a :: l) = (l', x) ->
  exists a' y, f a = (a', y) /\
    ((exists l2 r b, stop_map f l = (l2, r) /\ y = AOk b /\ l' = a' :: l2 /\ x = athen r (fun ys => AOk (b :: ys))) \/
     (l' = a' :: l /\ forall p, x <> AOk p)).
Proof.
  intros A B f a l l' x E. cbn [stop_map] in E. destruct (f a) as [a' y]. exists a', y; split; [reflexivity|].
  destruct y as [b| | ].
  - left. change ((fix go (l : list A) : list A * ares (list B) := _) l) with (stop_map f l) in E.
    destruct (stop_map f l) as [l2 r]. injection E as <- <-. eauto 8.
  - right. injection E as <- <-. split; [reflexivity|discriminate].
  - right. injection E as <- <-. split; [reflexivity|discriminate].
Qed.

Section Spelled.
Variables (text : token -> bytes) (Other Method Block : rng -> list token -> Prop) (lax : Prop).
Hypotheses (other_fr : framed Other) (method_fr : framed Method) (block_fr : framed Block).
Lemma other_ne : forall r ts, Other r ts -> ts <> [].
Proof. intros r ts H; exact (proj1 (other_fr _ _ H)). Qed.
Lemma method_ne : forall r ts, Method r ts -> ts <> [].
Proof. intros r ts H; exact (proj1 (method_fr _ _ H)). Qed.
Lemma block_ne : forall r ts, Block r ts -> ts <> [].
Proof. intros r ts H; exact (proj1 (block_fr _ _ H)). Qed.
Notation spell := (spell text Other Method Block lax).
Notation item := (item text Other Method Block lax).
Notation part := (part text Other Method Block lax).
Notation param := (param text Other Method Block lax).
Notation elems := (elems text Other Method Block lax).
Notation pelems := (pelems text Other Method Block lax).
Notation args_of := (args_of text Other Method Block lax).
Notation params_of := (params_of text Other Method Block lax).
Notation commas := (commas text Other Method Block lax).
Notation props := (props text Other Method Block lax).
Notation prop_of := (prop_of text Other Method Block lax).
Notation pprops := (pprops text Other Method Block lax).
Notation pprop := (pprop text Other Method Block lax).
Notation key_of := (key_of text Other Method Block lax).
Notation quasis := (quasis text Other Method Block lax).
Notation body := (body text Other Method Block lax).

Ltac ne := let H := fresh in intro H; repeat (apply app_eq_nil in H as [H ?]); try congruence; try discriminate.
Ltac hi_simp := repeat first [rewrite last_hi_snoc | rewrite last_hi_mid | rewrite last_hi_cons by ne | rewrite last_hi_app by ne | rewrite app_nil_r].
Lemma nonempty :
  (forall g n e ts, spell g n e ts -> ts <> []) /\
  (forall g e ts, item g e ts -> ts <> []) /\
  (forall e ts, part e ts -> ts <> []) /\
  (forall e ts, param e ts -> ts <> []) /\
  (forall g l ts, elems g l ts -> True) /\
  (forall l ts, pelems l ts -> True) /\
  (forall l ts, args_of l ts -> True) /\
  (forall l ts, params_of l ts -> True) /\
  (forall l ts, commas l ts -> ts <> []) /\
  (forall g l ts, props g l ts -> True) /\
  (forall g e ts, prop_of g e ts -> ts <> []) /\
  (forall l ts, pprops l ts -> True) /\
  (forall e ts, pprop e ts -> ts <> []) /\
  (forall g e c ts, key_of g e c ts -> ts <> []) /\
  (forall l ts, quasis l ts -> ts <> []) /\
  (forall e ts, body e ts -> ts <> []).
Proof.
  apply spell_all; intros; try exact Logic.I; try assumption; try discriminate; try solve [ne]; eauto using other_ne, method_ne, block_ne.
Qed.
Lemma spell_ne : forall g n e ts, spell g n e ts -> ts <> [].
Proof. exact (proj1 nonempty). Qed.
Lemma item_ne : forall g e ts, item g e ts -> ts <> [].
Proof. apply nonempty. Qed.
Lemma part_ne : forall e ts, part e ts -> ts <> [].
Proof. apply nonempty. Qed.
Lemma commas_ne : forall e ts, commas e ts -> ts <> [].
Proof. apply nonempty. Qed.
Lemma key_ne : forall g e c ts, key_of g e c ts -> ts <> [].
Proof. apply nonempty. Qed.
Lemma quasis_ne : forall e ts, quasis e ts -> ts <> [].
Proof. apply nonempty. Qed.
Lemma body_ne : forall e ts, body e ts -> ts <> [].
Proof. apply nonempty. Qed.
Lemma prop_ne : forall g e ts, prop_of g e ts -> ts <> [].
Proof. apply nonempty. Qed.

Ltac cons1 := first [econstructor; solve [eauto] | eassumption].
Lemma mono :
  (forall g n e ts, spell g n e ts -> spell true n e ts) /\
  (forall g e ts, item g e ts -> item true e ts) /\
  (forall e ts, part e ts -> True) /\
  (forall e ts, param e ts -> True) /\
  (forall g l ts, elems g l ts -> elems true l ts) /\
  (forall l ts, pelems l ts -> True) /\
  (forall l ts, args_of l ts -> True) /\
  (forall l ts, params_of l ts -> True) /\
  (forall l ts, commas l ts -> True) /\
  (forall g l ts, props g l ts -> props true l ts) /\
  (forall g e ts, prop_of g e ts -> prop_of true e ts) /\
  (forall l ts, pprops l ts -> True) /\
  (forall e ts, pprop e ts -> True) /\
  (forall g e c ts, key_of g e c ts -> key_of true e c ts) /\
  (forall l ts, quasis l ts -> True) /\
  (forall e ts, body e ts -> True).
Proof.
  apply spell_all; intros; try exact Logic.I.
  all: try solve [econstructor; eauto].
Qed.
Lemma spell_mono : forall g n e ts, spell g n e ts -> spell true n e ts.
Proof. exact (proj1 mono). Qed.
Lemma spell_or : forall g d n e ts, spell g n e ts -> spell (g || d) n e ts.
Proof. intros [] d n e ts H; cbn; [exact H|]. destruct d; [exact (spell_mono _ _ _ _ H)|exact H]. Qed.
Lemma elems_or : forall g d e ts, elems g e ts -> elems (g || d) e ts.
Proof. intros [] d e ts H; cbn; [exact H|]. destruct d; [|exact H]. revert H; apply mono. Qed.
Lemma props_or : forall g d e ts, props g e ts -> props (g || d) e ts.
Proof. intros [] d e ts H; cbn; [exact H|]. destruct d; [|exact H]. revert H; apply mono. Qed.
Lemma key_mono : forall g e c ts, key_of g e c ts -> key_of true e c ts.
Proof. apply mono. Qed.
Lemma key_or : forall g d e c ts, key_of g e c ts -> key_of (g || d) e c ts.
Proof. intros [] d e c ts H; cbn; [exact H|]. destruct d; [exact (key_mono _ _ _ _ H)|exact H]. Qed.


(** Except for names in parentheses, an expression ends where its last token ends. *)
Ltac know ts H := lazymatch goal with _ : ts <> [] |- _ => fail | _ => pose proof H end.
Ltac all_ne :=
  repeat match goal with
  | H : spell _ _ _ ?ts |- _ => know ts (spell_ne _ _ _ _ H)
  | H : item _ _ ?ts |- _ => know ts (item_ne _ _ _ H)
  | H : part _ ?ts |- _ => know ts (part_ne _ _ H)
  | H : key_of _ _ _ ?ts |- _ => know ts (key_ne _ _ _ _ H)
  | H : commas _ ?ts |- _ => know ts (commas_ne _ _ H)
  | H : quasis _ ?ts |- _ => know ts (quasis_ne _ _ H)
  | H : body _ ?ts |- _ => know ts (body_ne _ _ H)
  end.
Lemma spell_hi : forall g n e ts, spell g n e ts -> g = false -> hi e = last_hi ts.
Proof.
  induction 1; intro G; subst; unfold hi; cbn [range snd fst place]; try discriminate; try reflexivity; all_ne.
  all: try (rewrite ?app_comm_cons, ?last_hi_snoc; reflexivity).
  all: try (hi_simp; reflexivity).
  - exact (IHspell eq_refl).
  - rewrite (proj2 (other_fr _ _ H)); reflexivity.
Qed.

(** * From arguments to parameters *)
Lemma spell_place : forall g n e ts, spell g n e ts -> match e with EName r _ _ _ => True | _ => hi e = last_hi ts end.
Proof.
  destruct 1; try exact Logic.I; unfold hi; cbn [range snd fst place]; try reflexivity; all_ne.
  all: try (rewrite ?app_comm_cons, ?last_hi_snoc; reflexivity).
  all: try (hi_simp; reflexivity).
  - exact (spell_hi _ _ _ _ H eq_refl).
  - rewrite (proj2 (other_fr _ _ H)); reflexivity.
Qed.
Section Atp.
Variables (k feat : N) (checked : bool).
Notation atp := (arg_to_param k feat checked text).
Definition P_spell g n e ts := forall top prop d m x, atp top prop d e = (m, x) -> n <= 9 ->
  spell (g || d) n m ts /\ range m = range e /\ (is_target e = true -> is_target m = true) /\ (is_name_e e = true -> m = e) /\
  (forall p, x = AOk p ->
     (is_target p = true /\ (exists n', 7 <= n' <= 9 /\ spell (g || d) n' p ts) /\ (lo p = lo e \/ lo e = first_lo ts) /\
      (is_target e = true -> lo p = lo e)) \/
     (n = 1 /\ is_target e = false /\ part p ts)).
Definition P_item g e ts := forall top prop d m x, atp top prop d e = (m, x) ->
  item (g || d) m ts /\ (forall p, x = AOk p -> param p ts).
Definition P_part e ts := forall top prop d m x, atp top prop d e = (m, x) ->
  part m ts /\ (forall p, x = AOk p -> part p ts).
Definition P_elems g l ts := forall d l' x, stop_map (on_some (atp false false d)) l = (l', x) ->
  elems (g || d) l' ts /\ (forall ps, x = AOk ps -> pelems ps ts).
Definition P_props g l ts := forall d l' x, stop_map (atp false true d) l = (l', x) ->
  props (g || d) l' ts /\ (forall ps, x = AOk ps -> pprops ps ts).
Definition P_prop g e ts := forall d m x, atp false true d e = (m, x) ->
  prop_of (g || d) m ts /\ (forall p, x = AOk p -> pprop p ts).
Definition P_pprops l ts := forall d l' x, stop_map (atp false true d) l = (l', x) -> pprops l' ts.
Definition P_pprop e ts := forall d m x, atp false true d e = (m, x) -> pprop m ts.
Definition P_key g e (c : bool) ts := forall prop d m x, atp false prop d e = (m, x) ->
  key_of (g || d) m c ts /\ (forall p, x = AOk p -> key_of (g || d) p c ts).

Lemma P_plain : forall g n e ts, spell g n e ts -> (forall top prop d, atp top prop d e = (e, AErr)) ->
  is_target e = false -> is_name_e e = false -> P_spell g n e ts.
Proof.
  intros g n e ts S A T N top prop d m x E L. rewrite A in E; injection E as <- <-.
  split; [exact (spell_or _ _ _ _ _ S)|]. split; [reflexivity|]. split; [congruence|]. split; [congruence|discriminate].
Qed.
(** What is left as it is, if allowed. *)
Lemma P_self : forall g n e ts, spell g n e ts -> is_target e = true -> (n <= 9 -> 7 <= n) ->
  (forall top prop d, atp top prop d e = (e, AErr) \/ atp top prop d e = (e, AOk e)) -> P_spell g n e ts.
Proof.
  intros g n e ts S T N A top prop d m x E L.
  assert (m = e /\ (x = AErr \/ x = AOk e)) as [-> X].
  { destruct (A top prop d) as [B|B]; rewrite B in E; injection E as <- <-; auto. }
  split; [exact (spell_or _ _ _ _ _ S)|]. split; [reflexivity|]. split; [congruence|]. split; [congruence|].
  intros p ->. destruct X as [X|X]; [discriminate|injection X as ->]. left. split; [exact T|]. split; [|split; [left; reflexivity|reflexivity]].
  exists n; split; [split; auto|exact (spell_or _ _ _ _ _ S)].
Qed.
Lemma level_member : forall n, 7 <= n -> member_level n <= 9 -> 7 <= member_level n <= 9.
Proof. intros n H. do 11 (destruct n as [|n]; [cbn; lia|]). cbn; lia. Qed.
Ltac plain := intros; apply P_plain; [econstructor; eauto|intros [] ? ?; reflexivity|reflexivity|reflexivity].
Ltac self := intros; apply P_self; [econstructor; eauto|reflexivity|try lia; try (intro; apply level_member; assumption)|
  intros top prop d; cbn [arg_to_param is_simple];
  repeat match goal with |- context [if ?b then _ else _] => destruct b; auto end].

Lemma spread_step : forall g n a ts r comma top prop d m x, spell g n a ts -> P_spell g n a ts -> 1 <= n <= 9 ->
  atp top prop d (ESpread r a comma) = (m, x) ->
  exists a' n', m = ESpread r a' comma /\ spell (g || d) n' a' ts /\ 1 <= n' <= 9 /\
    forall p, x = AOk p -> exists a2 n2, p = PRest r a2 /\ is_target a2 = true /\ n2 <= 9 /\ spell true n2 a2 ts.
Proof.
  intros g n a ts r comma top prop d m x S I N E.
  assert (SO : spell (g || d) n a ts) by exact (spell_or _ _ _ _ _ S).
  assert (Done : (m, x) = (ESpread r a comma, AErr) -> exists a' n', m = ESpread r a' comma /\ spell (g || d) n' a' ts /\
    1 <= n' <= 9 /\ forall p, x = AOk p -> exists a2 n2, p = PRest r a2 /\ is_target a2 = true /\ n2 <= 9 /\ spell true n2 a2 ts).
  { intro Q; injection Q as -> ->. exists a, n. split; [reflexivity|]. split; [exact SO|]. split; [exact N|discriminate]. }
  assert (Sub : forall a' y, atp top prop d a = (a', y) -> n <> 1 ->
    spell (g || d) n a' ts /\ forall a2, y = AOk a2 -> is_target a2 = true /\ exists n', 7 <= n' <= 9 /\ spell (g || d) n' a2 ts).
  { intros a' y F N1. destruct (I _ _ _ _ _ F (proj2 N)) as (I1 & _ & _ & _ & I2). split; [exact I1|].
    intros a2 Y. destruct (I2 a2 Y) as [(K1 & K2 & _)|(K & _)]; [|congruence]. split; assumption. }
  cbn [arg_to_param] in E. destruct comma; [symmetry in E; auto|].
  destruct a; try (symmetry in E; solve [auto]).
  - cbn [arg_to_param] in E. injection E as <- <-. exists (EName r0 n0 pvt kw), n. split; [reflexivity|]. split; [exact SO|]. split; [exact N|].
    intros p P. destruct (checked && prohibited k n0 true); [discriminate P|injection P as <-].
    exists (EName r0 n0 pvt kw), n. split; [reflexivity|]. split; [reflexivity|]. split; [lia|exact (spell_mono _ _ _ _ S)].
  - destruct d; [|symmetry in E; auto].
    destruct (atp top prop true (EParen r0 a)) as [a' y] eqn:F.
    destruct (Sub _ _ eq_refl) as [S1 S2]; [inversion S; lia|].
    destruct y as [a2| | ]; injection E as <- <-.
    + destruct (S2 a2 eq_refl) as (T & n' & L & W). exists a2, n'. split; [reflexivity|]. split; [exact W|]. split; [lia|].
      intros p P; injection P as <-. exists a2, n'. split; [reflexivity|]. split; [exact T|]. split; [lia|]. exact (spell_mono _ _ _ _ W).
    + exists a', n. split; [reflexivity|]. split; [exact S1|]. split; [exact N|discriminate].
    + exists a', n. split; [reflexivity|]. split; [exact S1|]. split; [exact N|discriminate].
  - destruct (has feat FEAT_BINDING_REST_ELEM_NESTED); [|symmetry in E; auto].
    destruct (atp top prop d (EArr r0 es)) as [a' y] eqn:F.
    destruct (Sub _ _ eq_refl) as [S1 S2]; [inversion S; lia|].
    destruct y as [a2| | ]; [destruct (prop && negb (is_simple k false true true a2))|..]; injection E as <- <-.
    + exists a', n. split; [reflexivity|]. split; [exact S1|]. split; [exact N|discriminate].
    + destruct (S2 a2 eq_refl) as (T & n' & L & W). exists a2, n'. split; [reflexivity|]. split; [exact W|]. split; [lia|].
      intros p P; injection P as <-. exists a2, n'. split; [reflexivity|]. split; [exact T|]. split; [lia|]. exact (spell_mono _ _ _ _ W).
    + exists a', n. split; [reflexivity|]. split; [exact S1|]. split; [exact N|discriminate].
    + exists a', n. split; [reflexivity|]. split; [exact S1|]. split; [exact N|discriminate].
  - destruct (has feat FEAT_BINDING_REST_ELEM_NESTED); [|symmetry in E; auto].
    destruct (atp top prop d (EObj r0 ps)) as [a' y] eqn:F.
    destruct (Sub _ _ eq_refl) as [S1 S2]; [inversion S; lia|].
    destruct y as [a2| | ]; [destruct (prop && negb (is_simple k false true true a2))|..]; injection E as <- <-.
    + exists a', n. split; [reflexivity|]. split; [exact S1|]. split; [exact N|discriminate].
    + destruct (S2 a2 eq_refl) as (T & n' & L & W). exists a2, n'. split; [reflexivity|]. split; [exact W|]. split; [lia|].
      intros p P; injection P as <-. exists a2, n'. split; [reflexivity|]. split; [exact T|]. split; [lia|]. exact (spell_mono _ _ _ _ W).
    + exists a', n. split; [reflexivity|]. split; [exact S1|]. split; [exact N|discriminate].
    + exists a', n. split; [reflexivity|]. split; [exact S1|]. split; [exact N|discriminate].
Qed.
Lemma atp_all :
  (forall g n e ts, spell g n e ts -> P_spell g n e ts) /\
  (forall g e ts, item g e ts -> P_item g e ts) /\
  (forall e ts, part e ts -> P_part e ts) /\
  (forall e ts, param e ts -> True) /\
  (forall g l ts, elems g l ts -> P_elems g l ts) /\
  (forall l ts, pelems l ts -> True) /\
  (forall l ts, args_of l ts -> True) /\
  (forall l ts, params_of l ts -> True) /\
  (forall l ts, commas l ts -> True) /\
  (forall g l ts, props g l ts -> P_props g l ts) /\
  (forall g e ts, prop_of g e ts -> P_prop g e ts) /\
  (forall l ts, pprops l ts -> P_pprops l ts) /\
  (forall e ts, pprop e ts -> P_pprop e ts) /\
  (forall g e c ts, key_of g e c ts -> P_key g e c ts) /\
  (forall l ts, quasis l ts -> True) /\
  (forall e ts, body e ts -> True).
Proof.
  apply spell_all; try (intros; exact Logic.I).
  all: try solve [plain]; try solve [self].
  - (* parentheses *) intros g l n e ts h L H S IH N top prop d m x E _. cbn [arg_to_param] in E.
    assert (W : spell (g || d) 9 (EParen (t_lo l, t_hi h) e) (l :: ts ++ [h])) by (econstructor; eauto).
    destruct (negb d || negb (is_primitive e)) eqn:D.
    { injection E as <- <-. split; [exact W|]. repeat split; discriminate. }
    apply Bool.orb_false_iff in D as [D P]. apply Bool.negb_false_iff in D, P. subst d.
    destruct e; try discriminate P; cbn [arg_to_param] in E.
    + assert (m = EParen (t_lo l, t_hi h) (ELit r t) /\ x = AErr) as [-> ->].
      { destruct top; injection E as <- <-; split; reflexivity. }
      split; [exact W|]. repeat split; discriminate.
    + injection E as <- <-. split; [exact W|]. split; [reflexivity|]. split; [discriminate|]. split; [discriminate|].
      intros p Q. destruct (checked && prohibited k n0 true); [discriminate|injection Q as <-]. left.
      split; [reflexivity|]. split; [|split; [right; reflexivity|discriminate]].
      exists 9; split; [lia|]. rewrite Bool.orb_true_r. econstructor; eauto using spell_mono.
  - (* array *) intros g l es ts h L H S IH top prop d m x E _. cbn [arg_to_param] in E.
    destruct (stop_map (on_some (atp false false d)) es) as [es' y] eqn:M. injection E as <- <-.
    destruct (IH d es' y M) as [I1 I2].
    split; [econstructor; eauto|]. split; [reflexivity|]. split; [discriminate|]. split; [discriminate|].
    intros p Q. destruct y as [ps| | ]; try discriminate Q. injection Q as <-. left.
    split; [reflexivity|]. split; [|split; [left; reflexivity|discriminate]].
    exists 9; split; [lia|]. econstructor; eauto.
  - (* object *) intros g l es ts h L H S IH top prop d m x E _. cbn [arg_to_param] in E.
    destruct (stop_map (atp false true d) es) as [es' y] eqn:M. injection E as <- <-.
    destruct (IH d es' y M) as [I1 I2].
    split; [econstructor; eauto|]. split; [reflexivity|]. split; [discriminate|]. split; [discriminate|].
    intros p Q. destruct y as [ps| | ]; try discriminate Q. injection Q as <-. left.
    split; [reflexivity|]. split; [|split; [left; reflexivity|discriminate]].
    exists 9; split; [lia|]. econstructor; eauto.
  - (* object pattern *) intros g l es ts h L H S IH top prop d m x E _. cbn [arg_to_param] in E.
    destruct (stop_map (atp false true d) es) as [es' y] eqn:M. injection E as <- <-.
    pose proof (IH d es' y M) as I1.
    split; [econstructor; eauto|]. split; [reflexivity|]. split; [reflexivity|]. split; [discriminate|].
    intros p Q. destruct y as [ps| | ]; try discriminate Q. injection Q as <-. left.
    split; [reflexivity|]. split; [|split; [left; reflexivity|reflexivity]].
    exists 9; split; [lia|]. econstructor; eauto.
  - (* assignment *) intros g n l lts o q h hts y A T S1 I1 N S2 I2 Q X top prop d m x E _. cbn [arg_to_param] in E.
    destruct (negb (tv_eqb (t_val o) T_ASSIGN)) eqn:O.
    { injection E as <- <-. split; [econstructor; eauto|]. repeat split; discriminate. }
    apply Bool.negb_false_iff in O. apply (proj1 (tv_eqb_spec _ _)) in O.
    destruct (atp false false d l) as [l' z] eqn:L. injection E as <- <-.
    destruct (I1 _ _ _ _ _ L N) as (J1 & J2 & J3 & J4 & J5). cbn [orb] in J1.
    assert (RL : lo l' = lo l) by (unfold lo; rewrite J2; reflexivity).
    split; [econstructor; eauto; rewrite RL; exact X|]. split; [reflexivity|]. split; [discriminate|]. split; [discriminate|].
    intros p P. destruct z as [l2| | ]; try discriminate P. cbn [athen] in P.
    destruct (check_default k checked false d d h) as [[]| | ]; try discriminate P. cbn [athen] in P.
    destruct (check_arg k text false false h) as [[]| | ]; try discriminate P. cbn [athen] in P. injection P as <-.
    right. split; [reflexivity|]. split; [reflexivity|].
    destruct (J5 l2 eq_refl) as [(K1 & (n' & K2 & K3) & K4 & K5)|(_ & K & _)]; [|congruence]. cbn [orb] in K3.
    econstructor; eauto; [lia|]. rewrite (K5 T); exact X.
  - (* members *) intros. apply P_self; [eapply S_dot; eauto|reflexivity|intro; apply level_member; assumption|].
    intros top prop d0; cbn [arg_to_param is_simple]. destruct top, d0; auto.
  - intros. apply P_self; [eapply S_opt_dot; eauto|reflexivity|intro; lia|].
    intros top prop d0; cbn [arg_to_param is_simple]. destruct top, d0; auto.
  - intros. apply P_self; [eapply S_opt_sub; eauto|reflexivity|intro; lia|].
    intros top prop d0; cbn [arg_to_param is_simple]. destruct top, d0; auto.
  - (* items *) intros g n e ts S I N top prop d m x E. destruct (I _ _ _ _ _ E (proj2 N)) as (J1 & J2 & J3 & J4 & J5).
    split; [econstructor; eauto|]. intros p P. constructor.
    destruct (J5 p P) as [(K1 & (n' & K2 & K3) & _)|(_ & _ & K)]; [|exact K].
    econstructor; [exact (spell_mono _ _ _ _ K3)|lia|exact K1].
  - intros g d n e ts comma D S I N top prop ds m x E.
    destruct (spread_step _ _ _ _ _ _ _ _ _ _ _ S I N E) as (a' & n' & -> & W & L & A).
    split; [eapply I_spread; eauto|]. intros p P. destruct (A p P) as (a2 & n2 & -> & T & L2 & W2). eapply M_rest; eauto.
  - (* parts *) intros n e ts S I N T top prop d m x E. destruct (I _ _ _ _ _ E N) as (J1 & J2 & J3 & J4 & J5).
    split; [econstructor; eauto|]. intros p P.
    destruct (J5 p P) as [(K1 & (n' & K2 & K3) & _)|(_ & _ & K)]; [|exact K].
    econstructor; [exact (spell_mono _ _ _ _ K3)|lia|exact K1].
  - intros n l lts o q h hts y A T S1 I1 N S2 I2 Q X top prop d m x E. cbn [arg_to_param is_simple] in E.
    assert (m = PAssign (y, last_hi hts) l h /\ x = AErr) as [-> ->].
    { destruct top; injection E as <- <-; split; reflexivity. }
    split; [eapply R_default; eauto|discriminate].
  - intros g d l' x E. cbn in E. injection E as <- <-. split; [constructor|]. intros ps P; injection P as <-; constructor.
  - intros g c l ts C S I d l' x E.
    apply stop_map_cons in E as (a' & y & E & [(l2 & r & b & M & -> & -> & ->)|[-> X]]); cbn in E; injection E as <- <-.
    + destruct (I d l2 r M) as [I1 I2]. split; [constructor; assumption|]. intros ps P.
      destruct r as [qs| | ]; try discriminate P. injection P as <-. constructor; auto.
    + split; [|intros ps P; destruct (X ps P)]. constructor; [assumption|]. exact (elems_or _ _ _ _ S).
  - intros g e ts S I d l' x E.
    apply stop_map_cons in E as (a' & y & E & [(l2 & r & b & M & -> & -> & ->)|[-> X]]); cbn [on_some] in E;
      destruct (atp false false d e) as [m z] eqn:F; injection E as <- E; destruct (I _ _ _ _ _ F) as [I1 I2].
    + cbn in M; injection M as <- <-. split; [constructor; assumption|]. intros ps P. injection P as <-.
      destruct z; try discriminate E. injection E as <-. constructor; auto.
    + split; [constructor; assumption|intros ps P; destruct (X ps P)].
  - intros g e ts c l ts' C S I S2 J d l' x E.
    apply stop_map_cons in E as (a' & y & E & [(l2 & r & b & M & -> & -> & ->)|[-> X]]); cbn [on_some] in E;
      destruct (atp false false d e) as [m z] eqn:F; injection E as <- E; destruct (I _ _ _ _ _ F) as [I1 I2].
    + destruct (J d l2 r M) as [J1 J2]. split; [constructor; assumption|]. intros ps P.
      destruct r as [qs| | ]; try discriminate P. injection P as <-.
      destruct z; try discriminate E. injection E as <-. constructor; auto.
    + split; [constructor; auto; exact (elems_or _ _ _ _ S2)|intros ps P; destruct (X ps P)].
  - intros g d l' x E. cbn in E. injection E as <- <-. split; [constructor|]. intros ps P; injection P as <-; constructor.
  - intros g e ts S I d l' x E.
    apply stop_map_cons in E as (a' & y & F & [(l2 & r & b & M & -> & -> & ->)|[-> X]]); destruct (I _ _ _ F) as [I1 I2].
    + cbn in M; injection M as <- <-. split; [constructor; assumption|]. intros ps P. injection P as <-. constructor; auto.
    + split; [constructor; assumption|intros ps P; destruct (X ps P)].
  - intros g e ts c l ts' C S I S2 J d l' x E.
    apply stop_map_cons in E as (a' & y & F & [(l2 & r & b & M & -> & -> & ->)|[-> X]]); destruct (I _ _ _ F) as [I1 I2].
    + destruct (J d l2 r M) as [J1 J2]. split; [constructor; assumption|]. intros ps P.
      destruct r as [qs| | ]; try discriminate P. injection P as <-. constructor; auto.
    + split; [constructor; auto; exact (props_or _ _ _ _ S2)|intros ps P; destruct (X ps P)].
  - intros g d n e ts comma D S I N ds m x E.
    destruct (spread_step _ _ _ _ _ _ _ _ _ _ _ S I N E) as (a' & n' & -> & W & L & A).
    split; [eapply P_spread; eauto|]. intros p P. destruct (A p P) as (a2 & n2 & -> & T & L2 & W2). eapply PP_rest; eauto.
  - intros g r ts M d m x E. cbn in E. injection E as <- <-. split; [constructor; assumption|discriminate].
  - intros g key computed kts c n v vts C K IK S I N d m x E. cbn [arg_to_param] in E.
    destruct (atp false true d v) as [v' y] eqn:F. destruct (I _ _ _ _ _ F (proj2 N)) as (I1 & _ & _ & _ & I2).
    assert (KO : key_of (g || d) key computed kts) by exact (key_or _ _ _ _ _ K).
    destruct y as [v2| | ]; injection E as <- <-.
    + assert (Pt : part v2 vts).
      { destruct (I2 v2 eq_refl) as [(K1 & (n' & K2 & K3) & _)|(_ & _ & K')]; [|exact K'].
        econstructor; [exact (spell_mono _ _ _ _ K3)|lia|exact K1]. }
      split; [eapply P_pvalue; eauto|]. intros p P; injection P as <-. eapply PP_value; eauto using key_mono.
    + split; [eapply P_value; eauto|discriminate].
    + split; [eapply P_value; eauto|discriminate].
  - intros g key computed kts c v vts C K IK S I d m x E. cbn [arg_to_param] in E.
    destruct (atp false true d v) as [v' y] eqn:F. destruct (I _ _ _ _ _ F) as (I1 & I2).
    assert (KO : key_of (g || d) key computed kts) by exact (key_or _ _ _ _ _ K).
    destruct y as [v2| | ]; injection E as <- <-.
    + split; [eapply P_pvalue; eauto|]. intros p P; injection P as <-. eapply PP_value; eauto using key_mono.
    + split; [eapply P_pvalue; eauto|discriminate].
    + split; [eapply P_pvalue; eauto|discriminate].
  - intros g key kts K IK N d m x E. destruct key; try discriminate N. cbn [arg_to_param] in E.
    assert (KO : key_of (g || d) (EName r n pvt kw) false kts) by exact (key_or _ _ _ _ _ K).
    destruct (checked && prohibited k n true); injection E as <- <-.
    + split; [eapply P_short; eauto|discriminate].
    + split; [eapply P_short; eauto|]. intros p P; injection P as <-. eapply PP_short; eauto using key_mono.
  - intros g key kts K IK N d m x E. cbn [arg_to_param] in E. rewrite N in E. injection E as <- <-.
    split; [eapply P_lone; eauto using key_or|discriminate].
  - intros g key computed kts c n v vts C K IK S I N d m x E. cbn [arg_to_param] in E.
    destruct (atp false true d key) as [key' y] eqn:F. destruct (IK _ _ _ _ F) as [I1 I2].
    destruct y as [key2| | ]; [|injection E as <- <-; split; [eapply P_init; eauto|discriminate]..].
    destruct (check_default k checked false d d v) as [[]| | ]; [|injection E as <- <-; split; [eapply P_init; eauto|discriminate]..].
    cbn [negb andb] in E.
    assert (NP : match v with PAssign _ _ _ => v | _ => PAssign (first_lo kts, last_hi vts) key2 v end = PAssign (first_lo kts, last_hi vts) key2 v).
    { destruct v; try reflexivity. inversion S. }
    rewrite NP in E. injection E as <- <-. specialize (I2 key2 eq_refl).
    split; [eapply P_default; eauto using key_mono|]. intros p P; injection P as <-. eapply PP_default; eauto using key_mono.
  - intros g key k2 computed kts c n v vts C K IK K' IK' S I N d m x E. cbn [arg_to_param] in E.
    destruct (atp false true d key) as [key' y] eqn:F. destruct (IK _ _ _ _ F) as [I1 I2].
    destruct y as [key2| | ]; [|injection E as <- <-; split; [eapply P_default; eauto|discriminate]..].
    specialize (I2 key2 eq_refl).
    match type of E with match ?z with _ => _ end = _ => destruct z as [[]| | ] end; [|injection E as <- <-; split; [eapply P_default; eauto|discriminate]..].
    cbn [negb andb] in E. injection E as <- <-.
    split; [eapply P_default; eauto using key_mono|]. intros p P; injection P as <-. eapply PP_default; eauto using key_mono.
  - intros d l' x E. cbn in E. injection E as <- <-. constructor.
  - intros e ts S I d l' x E.
    apply stop_map_cons in E as (a' & y & F & [(l2 & r & b & M & -> & -> & ->)|[-> X]]); pose proof (I _ _ _ F) as I1.
    + cbn in M; injection M as <- <-. constructor; assumption.
    + constructor; assumption.
  - intros e ts c l ts' C S I S2 J d l' x E.
    apply stop_map_cons in E as (a' & y & F & [(l2 & r & b & M & -> & -> & ->)|[-> X]]); pose proof (I _ _ _ F) as I1.
    + pose proof (J d l2 r M) as J1. constructor; assumption.
    + constructor; assumption.
  - intros d0 n e ts D S I N T d m x E. cbn in E. injection E as <- <-. econstructor; eauto.
  - intros key computed kts c v vts C K IK S I d m x E. cbn [arg_to_param] in E.
    destruct (atp false true d v) as [v' y] eqn:F. destruct (I _ _ _ _ _ F) as (I1 & I2).
    destruct y as [v2| | ]; injection E as <- <-; eapply PP_value; eauto.
  - intros key kts K IK N d m x E. destruct key; try discriminate N. cbn [arg_to_param] in E.
    destruct (checked && prohibited k n true); injection E as <- <-; eapply PP_short; eauto.
  - intros key k2 computed kts c n v vts C K IK K' IK' S I N d m x E. cbn [arg_to_param] in E.
    destruct (atp false true d key) as [key' y] eqn:F. destruct (IK _ _ _ _ F) as [I1 I2].
    destruct y as [key2| | ]; [|injection E as <- <-; eapply PP_default; eauto..].
    specialize (I2 key2 eq_refl).
    match type of E with match ?z with _ => _ end = _ => destruct z as [[]| | ] end; [|injection E as <- <-; eapply PP_default; eauto..].
    cbn [negb andb] in E. injection E as <- <-. eapply PP_default; eauto.
  - intros g t T prop d m x E. cbn [arg_to_param is_simple] in E. injection E as <- <-. split; [constructor; assumption|discriminate].
  - intros g t kw T prop d m x E. cbn [arg_to_param] in E. injection E as <- <-. split; [constructor; assumption|].
    intros p P. destruct (checked && prohibited k (text t) true); [discriminate|injection P as <-]. constructor; assumption.
  - intros g l n e ts h L H S I N prop d m x E. destruct (I _ _ _ _ _ E (proj2 N)) as (I1 & _ & _ & _ & I2).
    split; [econstructor; eauto|]. intros p P.
    destruct (I2 p P) as [(K1 & (n' & K2 & K3) & _)|(_ & _ & K)]; [|eapply K_pcomputed; eauto].
    eapply K_computed; eauto; lia.
  - intros g l e ts h L H S I prop d m x E. destruct (I _ _ _ _ _ E) as (I1 & I2).
    split; [eapply K_pcomputed; eauto|]. intros p P. eapply K_pcomputed; eauto.
Qed.
End Atp.
End Spelled.
