From Coq Require Import String SpecFloat Lia ZifyBool ZifyNat.
From Verif Require Import Base TokenModel NodeModel WalkModel WalkSpec WalkProofs ExecModel ExecSpec.
Set Default Proof Using "Type".

(** ** The shape of supported expressions *)
Definition ok (n : node) : Prop := shaped n = true /\ supported n = true.
Inductive view : node -> Prop :=
| v_atom : forall ty a, In ty [N_LIT_BOOL; N_LIT_NULL; N_LIT_NUM; N_LIT_STR; N_NAME] -> view (Node ty a [])
| v_arr : forall a ms, (forall m, In m ms -> ok m) -> view (Node N_LIT_ARR a [("Elems"%string, map Some ms)])
| v_paren : forall ty a m, In ty [N_EXPR_PAREN; N_EXPR_CHAIN] -> ok m -> view (Node ty a [("Expr"%string, [Some m])])
| v_unary : forall a m, ok m -> view (Node N_EXPR_UNARY a [("Arg"%string, [Some m])])
| v_member : forall a o p, ok o -> ok p -> view (Node N_EXPR_MEMBER a [("Obj"%string, [Some o]); ("Prop"%string, [Some p])])
| v_bin : forall a l r, existsb (tv_eqb (at_op a)) bin_ops = true -> ok l -> ok r ->
    view (Node N_EXPR_BIN a [("Lhs"%string, [Some l]); ("Rhs"%string, [Some r])])
| v_call : forall a m ms, ok m -> (forall x, In x ms -> ok x) ->
    view (Node N_EXPR_CALL a [("Callee"%string, [Some m]); ("Args"%string, map Some ms)]).

Lemma all_present : forall l : list (option node), forallb (fun o => match o with Some m => supported m | None => false end) l = true ->
  exists ms, l = map Some ms /\ forall m, In m ms -> supported m = true.
Proof.
  induction l as [|[m|] l IH]; intro H; cbn in H; [exists []; split; [reflexivity|intros m []]| |discriminate].
  apply andb_prop in H as [H1 H2]. destruct (IH H2) as (ms & -> & K). exists (m :: ms). split; [reflexivity|].
  intros x [<-|Hx]; [exact H1|exact (K x Hx)].
Qed.

Lemma fits_cons : forall c g k l r, fits (c :: g) ((k, l) :: r) = true ->
  k = child_name c /\ match c with Single _ => List.length l = 1%nat | _ => True end /\ fits g r = true.
Proof.
  intros c g k l r H. cbn in H. apply andb_prop in H as [H H2]. apply andb_prop in H as [H H3].
  apply String.eqb_eq in H. split; [symmetry; exact H|]. split; [|exact H2]. destruct c; [apply Nat.eqb_eq, H3|exact Logic.I].
Qed.

Ltac onekid := match goal with
  | H : context[match ?k with [] => _ | _ => _ end] |- _ => destruct k; try discriminate
  end.
Lemma sup_view : forall n, ok n -> view n.
Proof.
  intros [ty a kids] [Hs Hn]. apply all_nodes_eq in Hs as [Hf Hs]. cbn [supported] in Hn.
  assert (K : forall q m, In q kids -> In (Some m) (snd q) -> shaped m = true) by exact Hs. clear Hs.
  destruct ty; try discriminate Hn; cbn [grammar] in Hf.
  all: try (destruct kids; [|discriminate]; apply v_atom; cbn; tauto).
  - destruct kids as [|[k1 l1] [|]]; try discriminate. apply fits_cons in Hf as (-> & _ & _).
    apply all_present in Hn as (ms & -> & Hm). apply v_arr. intros m Hi. split; [|exact (Hm m Hi)].
    apply (K _ m (or_introl eq_refl)). apply in_map. exact Hi.
  - destruct kids as [|[k1 [|[m1|] [|]]] [|[k2 [|[m2|] [|]]] [|]]]; try discriminate. apply fits_cons in Hf as (-> & _ & Hf).
    apply fits_cons in Hf as (-> & _ & _). apply andb_prop in Hn as [Hn1 Hn2].
    apply v_member; (split; [|assumption]); [apply (K _ m1 (or_introl eq_refl))|apply (K _ m2 (or_intror (or_introl eq_refl)))]; left; reflexivity.
  - destruct kids as [|[k1 [|[m1|] [|]]] [|[k2 l2] [|]]]; try discriminate. apply fits_cons in Hf as (-> & _ & Hf).
    apply fits_cons in Hf as (-> & _ & _). apply andb_prop in Hn as [Hn1 Hn2].
    apply all_present in Hn2 as (ms & -> & Hm). apply v_call.
    + split; [|exact Hn1]. apply (K _ m1 (or_introl eq_refl)). left. reflexivity.
    + intros m Hi. split; [|exact (Hm m Hi)]. apply (K _ m (or_intror (or_introl eq_refl))). apply in_map. exact Hi.
  - destruct kids as [|[k1 [|[m1|] [|]]] [|[k2 [|[m2|] [|]]] [|]]]; try discriminate. apply fits_cons in Hf as (-> & _ & Hf).
    apply fits_cons in Hf as (-> & _ & _). apply andb_prop in Hn as [Hn Hn2]. apply andb_prop in Hn as [Hn Hn1].
    apply v_bin; [exact Hn|split; [|assumption]..]; [apply (K _ m1 (or_introl eq_refl))|apply (K _ m2 (or_intror (or_introl eq_refl)))]; left; reflexivity.
  - destruct kids as [|[k1 [|[m1|] [|]]] [|]]; try discriminate. apply fits_cons in Hf as (-> & _ & Hf).
    apply v_unary; (split; [|assumption]). apply (K _ m1 (or_introl eq_refl)). left. reflexivity.
  - destruct kids as [|[k1 [|[m1|] [|]]] [|]]; try discriminate. apply fits_cons in Hf as (-> & _ & Hf).
    apply v_paren; [cbn; tauto|]. split; [|assumption]. apply (K _ m1 (or_introl eq_refl)). left. reflexivity.
  - destruct kids as [|[k1 [|[m1|] [|]]] [|]]; try discriminate. apply fits_cons in Hf as (-> & _ & Hf).
    apply v_paren; [cbn; tauto|]. split; [|assumption]. apply (K _ m1 (or_introl eq_refl)). left. reflexivity.
Qed.

Lemma ok_getters : forall n, ok n -> ok (getters n) /\ all_nodes regular (getters n) = true /\
  (n_ty (getters n) = n_ty n /\ n_at (getters n) = n_at n).
Proof.
  induction n as [ty a kids IH] using node_ind'. intro H. apply sup_view in H.
  assert (L : forall q ms, In q kids -> snd q = map Some ms -> (forall m, In m ms -> ok m) ->
    (forall m, In m (map getters ms) -> ok m) /\ (forall m, In m (map getters ms) -> all_nodes regular m = true)).
  { intros q ms Hq E K. split; intros m Hm; apply in_map_iff in Hm as (x & <- & Hx);
      apply (IH q Hq x); auto; rewrite E; apply in_map; exact Hx. }
  assert (MM : forall ms, map (fun o => match o with Some m => Some (getters m) | None => None end) (map Some ms) = map Some (map getters ms))
    by (intros ms; rewrite !map_map; reflexivity).
  assert (F1 : forall p ms, (forall m, In m ms -> all_nodes p m = true) ->
     forallb (fun o => match o with Some m => all_nodes p m | None => true end) (map Some ms) = true).
  { intros p ms K. apply forallb_forall. intros o Ho. apply in_map_iff in Ho as (m & <- & Hm). exact (K m Hm). }
  assert (F2 : forall ms, (forall m, In m ms -> ok m) ->
     forallb (fun o => match o with Some m => supported m | None => false end) (map Some ms) = true).
  { intros ms K. apply forallb_forall. intros o Ho. apply in_map_iff in Ho as (m & <- & Hm). exact (proj2 (K m Hm)). }
  inversion H as [ty0 a0 Ty E0|a0 ms Ms E0|ty0 a0 m Ty Km E0|a0 m Km E0|a0 o p Ko Kp E0|a0 l r Op Kl Kr E0|a0 m ms Km Ms E0]; subst.
  - repeat split; cbn in Ty; repeat (destruct Ty as [<-|Ty]; [reflexivity|]); destruct Ty.
  - destruct (L _ ms (or_introl eq_refl) eq_refl Ms) as [L1 L2].
    cbn [getters map]. rewrite MM. unfold ok, shaped. cbn [all_nodes forallb grammar fits child_name supported n_ty n_at regular].
    rewrite !F1, F2 by (try assumption; intros m Hm; apply (proj1 (L1 m Hm))). repeat split; reflexivity.
  - destruct (IH _ (or_introl eq_refl) m (or_introl eq_refl) Km) as ([S1 S2] & S3 & S4 & S5).
    assert (G : ok (Node ty a [("Expr"%string, [Some (getters m)])])).
    { split; [|cbn in Ty; destruct Ty as [<-|[<-|[]]]; exact S2].
      unfold shaped in *. cbn [all_nodes forallb]. rewrite S1. destruct Ty as [<-|[<-|[]]]; reflexivity. }
    cbn [getters map]. destruct Ty as [<-|[<-|[]]].
    + destruct (getters m) as [ty' a' kids'] eqn:Em.
      destruct (nt_eqb ty' N_EXPR_PAREN) eqn:Et.
      * apply nt_eqb_spec in Et as ->. pose proof (sup_view _ (conj S1 S2)) as V. inversion V as [ty0 a0 Ty E0| |ty0 a0 m0 Ty Km0 E0| | | |]; subst; [cbn in Ty; intuition discriminate|].
        split; [|split; [|split; reflexivity]].
        -- destruct Km0 as [Q1 Q2]. split; [|exact Q2]. unfold shaped in *. cbn [all_nodes forallb]. rewrite Q1. reflexivity.
        -- apply all_nodes_eq in S3 as [S3 S6]. specialize (S6 _ m0 (or_introl eq_refl) (or_introl eq_refl)).
           cbn [all_nodes forallb]. rewrite S6. destruct m0 as [[] ? ?]; try reflexivity. discriminate S3.
      * assert (R : all_nodes regular (Node N_EXPR_PAREN a [("Expr"%string, [Some (Node ty' a' kids')])]) = true).
        { cbn [all_nodes forallb]. cbn [all_nodes] in S3. rewrite S3. destruct ty'; try reflexivity. discriminate Et. }
        destruct ty'; try (split; [exact G|]; split; [exact R|]; split; reflexivity). discriminate Et.
    + split; [exact G|]. split; [|split; reflexivity]. cbn [all_nodes forallb]. rewrite S3. reflexivity.
  - destruct (IH _ (or_introl eq_refl) m (or_introl eq_refl) Km) as ([S1 S2] & S3 & S4 & S5).
    cbn [getters map]. split; [|split; [|split; reflexivity]].
    + split; [|exact S2]. unfold shaped in *. cbn [all_nodes forallb]. rewrite S1. reflexivity.
    + cbn [all_nodes forallb]. rewrite S3. reflexivity.
  - destruct (IH _ (or_introl eq_refl) o (or_introl eq_refl) Ko) as ([S1 S2] & S3 & S4 & S5).
    destruct (IH _ (or_intror (or_introl eq_refl)) p (or_introl eq_refl) Kp) as ([R1 R2] & R3 & R4 & R5).
    cbn [getters map]. split; [|split; [|split; reflexivity]].
    + split; [unfold shaped in *; cbn [all_nodes forallb]; rewrite S1, R1; reflexivity|]. cbn [supported]. rewrite S2, R2. reflexivity.
    + cbn [all_nodes forallb]. rewrite S3, R3. reflexivity.
  - destruct (IH _ (or_introl eq_refl) l (or_introl eq_refl) Kl) as ([S1 S2] & S3 & S4 & S5).
    destruct (IH _ (or_intror (or_introl eq_refl)) r (or_introl eq_refl) Kr) as ([R1 R2] & R3 & R4 & R5).
    cbn [getters map]. split; [|split; [|split; reflexivity]].
    + split; [unfold shaped in *; cbn [all_nodes forallb]; rewrite S1, R1; reflexivity|]. cbn [supported]. rewrite S2, R2, Op. reflexivity.
    + cbn [all_nodes forallb]. rewrite S3, R3. reflexivity.
  - destruct (IH _ (or_introl eq_refl) m (or_introl eq_refl) Km) as ([S1 S2] & S3 & S4 & S5).
    destruct (L _ ms (or_intror (or_introl eq_refl)) eq_refl Ms) as [L1 L2].
    cbn [getters map]. rewrite MM. unfold ok, shaped in *. cbn [all_nodes forallb grammar fits child_name supported n_ty n_at regular].
    rewrite !F1, F2, S1, S2, S3 by (try assumption; intros x Hx; apply (proj1 (L1 x Hx))). repeat split; reflexivity.
Qed.

Section Machine.
Variable parse_float : bytes -> option spec_float.
Variable format_float : spec_float -> bytes.
Variable sprint : val -> bytes.
Variable vars : bytes -> val.
Notation lst := (eval_listeners parse_float format_float sprint vars).
Notation leave := (on_leave parse_float format_float sprint vars).
Notation gmember := (go_member parse_float format_float sprint).
Notation gbin := (go_bin parse_float format_float sprint).

(** The value the machine pushes for an expression; [p]: as the property of a member expression. *)
Definition name_val (p : bool) (name : bytes) : val :=
  if p then VStr name else if bytes_eqb name (bs "undefined") then VNil else vars name.
Fixpoint gval (p : bool) (n : node) : option val :=
  match n with
  | Node ty a kids =>
      match ty with
      | N_LIT_BOOL => Some (VBool (at_bool a))
      | N_LIT_NULL => Some VNil
      | N_LIT_NUM => Some (VNum (at_num a))
      | N_LIT_STR => Some (VStr (at_text a))
      | N_NAME => Some (name_val p (at_text a))
      | N_LIT_ARR =>
          match kids with
          | [(_, l)] => match all_some (map (fun o => match o with Some m => gval false m | None => None end) l) with
                        | Some vs => Some (VArr 0 vs) | None => None end
          | _ => None
          end
      | N_EXPR_PAREN | N_EXPR_CHAIN => match kids with [(_, [Some m])] => gval false m | _ => None end
      | N_EXPR_UNARY => match kids with [(_, [Some m])] => match gval false m with Some v => Some (go_unary (at_op a) v) | None => None end | _ => None end
      | N_EXPR_MEMBER =>
          match kids with
          | [(_, [Some o]); (_, [Some q])] =>
              match gval false o, gval true q with Some x, Some k => gmember x k | _, _ => None end
          | _ => None
          end
      | N_EXPR_BIN =>
          match kids with
          | [(_, [Some l]); (_, [Some r])] =>
              match gval false l, gval false r with Some x, Some y => gbin (at_op a) x y | _, _ => None end
          | _ => None
          end
      | N_EXPR_CALL =>
          match kids with
          | [(_, [Some m]); (_, l)] =>
              match gval false m, all_some (map (fun o => match o with Some m => gval false m | None => None end) l) with
              | Some f, Some vs => Some (go_call f vs) | _, _ => None end
          | _ => None
          end
      | _ => None
      end
  end.

Lemma lst_go : forall ev f above sc n k u, In f (lst ev) -> snd (f above sc n k u) = false.
Proof. intros ev f above sc n k u H. unfold eval_listeners in H. destruct (find _ _); [|destruct H]. destruct H as [<-|[]]. reflexivity. Qed.
Lemma lst_blind : forall ev f above sc sc' n k u, In f (lst ev) -> f above sc n k u = f above sc' n k u.
Proof. intros ev f above sc sc' n k u H. unfold eval_listeners in H. destruct (find _ _); [|destruct H]. destruct H as [<-|[]]. reflexivity. Qed.

Lemma fire_before : forall t n k ab u, fire lst u (mk_we (before_event t) n k ab) = u.
Proof.
  intros. unfold fire. cbn [e_num]. unfold eval_listeners.
  destruct (find (fun t0 => N.eqb (after_event t0) (before_event t)) listened) as [x|] eqn:E; [|reflexivity].
  apply find_some in E as [_ E]. apply N.eqb_eq in E. symmetry in E. destruct (before_after _ _ E).
Qed.
Lemma fire_after : forall t n k ab u, fire lst u (mk_we (after_event t) n k ab) =
  if existsb (nt_eqb t) listened then fst (leave t ab 0%nat n k u) else u.
Proof.
  intros. unfold fire. cbn [e_num e_above e_node e_key]. unfold eval_listeners.
  destruct (find (fun t0 => N.eqb (after_event t0) (after_event t)) listened) as [x|] eqn:E.
  - apply find_some in E as [I E]. apply N.eqb_eq in E. apply event_inj in E as ->.
    replace (existsb (nt_eqb t) listened) with true; [reflexivity|]. symmetry. apply existsb_exists. exists t. split; [exact I|apply nt_eqb_spec; reflexivity].
  - replace (existsb (nt_eqb t) listened) with false; [reflexivity|]. symmetry. apply not_true_is_false. intro H.
    apply existsb_exists in H as (x & I & H). apply nt_eqb_spec in H as <-. apply (find_none _ _ E) in I. rewrite N.eqb_refl in I. discriminate.
Qed.
Lemma fire_none : forall T, fold_left (fire lst) T None = None.
Proof.
  induction T as [|e T IH]; [reflexivity|]. cbn [fold_left]. replace (fire lst None e) with (@None (list val)); [exact IH|].
  unfold fire. unfold eval_listeners. destruct (find _ _) as [t|]; reflexivity.
Qed.

Definition push1 (r : option val) (s : list val) : stack := match r with Some v => Some (v :: s) | None => None end.
Definition as_prop (above : list node) (key : wkey) : bool :=
  match above with
  | Node N_EXPR_MEMBER _ _ :: _ => match key with (k, None) => String.eqb k "Prop" | _ => false end
  | _ => false
  end.

Lemma name_leave : forall above key a kids s, fst (leave N_NAME above 0%nat (Node N_NAME a kids) key (Some s)) = push1 (Some (name_val (as_prop above key) (at_text a))) s.
Proof.
  intros. unfold on_leave, push1, name_val, as_prop. cbn [fst n_at].
  destruct above as [|[[] b kk] r]; try reflexivity.
Qed.

Lemma all_some_spec : forall {A} (l : list (option A)) vs, all_some l = Some vs <-> l = map Some vs.
Proof.
  induction l as [|[x|] l IH]; intros vs; cbn.
  - split; [intros [= <-]; reflexivity|]. destruct vs; [reflexivity|discriminate].
  - destruct (all_some l) as [xs|] eqn:E.
    + split; [intros [= <-]; cbn; f_equal; apply IH; reflexivity|].
      destruct vs as [|v vs]; cbn; [discriminate|]. intros [= <- H]. apply IH in H. congruence.
    + split; [discriminate|]. destruct vs as [|v vs]; cbn; [discriminate|]. intros [= <- H]. apply IH in H. discriminate.
  - split; [discriminate|]. destruct vs; discriminate.
Qed.

Lemma pops_rev : forall vs s acc, pops (List.length vs) (rev vs ++ s) acc = (vs ++ acc, s).
Proof.
  induction vs as [|v vs IH] using rev_ind; intros s acc; [reflexivity|].
  rewrite app_length, rev_app_distr. cbn [List.length rev app]. rewrite Nat.add_1_r. cbn [pops tl hd_nil].
  rewrite IH, <- app_assoc. reflexivity.
Qed.

Definition node_val (m : node) : Prop := forall above key s,
  fold_left (fire lst) (tour above m key) (Some s) = push1 (gval (as_prop above key) m) s.

Lemma list_val : forall ms above ix k i s, (forall m, In m ms -> node_val m) -> String.eqb k "Prop" = false ->
  fold_left (fire lst) (tour_list above ix k i (map Some ms)) (Some s) =
  match all_some (map (gval false) ms) with Some vs => Some (rev vs ++ s) | None => None end.
Proof.
  induction ms as [|m ms IH]; intros above ix k i s H Hk; [reflexivity|]. cbn [map tour_list].
  rewrite fold_left_app, (H m (or_introl eq_refl)).
  assert (Q : as_prop above (k, if ix then Some i else None) = false).
  { unfold as_prop. destruct above as [|[[] b kk] r]; try reflexivity. destruct ix; [reflexivity|exact Hk]. }
  rewrite Q.
  cbn [all_some]. destruct (gval false m) as [v|]; cbn [push1]; [|apply fire_none].
  rewrite IH by (try assumption; intros x Hx; apply H; right; exact Hx).
  destruct (all_some _); [|reflexivity]. cbn [rev]. rewrite <- app_assoc. reflexivity.
Qed.

Ltac norm_tour := rewrite tour_eq; cbn [fold_left]; rewrite fire_before; rewrite fold_left_app; cbn [fold_left]; rewrite fire_after.

Lemma visit_val : forall n, ok n -> node_val n.
Proof.
  induction n as [ty a kids IH] using node_ind'. intros H above key s. apply sup_view in H.
  assert (MM : forall ms, map (fun o => match o with Some m => gval false m | None => None end) (map Some ms) = map (gval false) ms)
    by (intros ms; rewrite map_map; reflexivity).
  inversion H as [ty0 a0 Ty E0|a0 ms Ms E0|ty0 a0 m Ty Km E0|a0 m Km E0|a0 o p Ko Kp E0|a0 l r Op Kl Kr E0|a0 m ms Km Ms E0]; subst; norm_tour.
  - cbn [tour_kids flat_map fold_left]. cbn in Ty. repeat (destruct Ty as [<-|Ty]; [try reflexivity; apply name_leave|]). destruct Ty.
  - unfold tour_kids. cbn [flat_map fst snd]. rewrite app_nil_r, list_val; [|intros m Hm; apply (IH _ (or_introl eq_refl)); [apply in_map; exact Hm|apply Ms, Hm]|reflexivity].
    cbn [gval]. rewrite MM. destruct (all_some (map (gval false) ms)) as [vs|] eqn:E; [|reflexivity].
    apply all_some_spec in E. cbn. rewrite map_length.
    replace (List.length ms) with (List.length vs) by (rewrite <- (map_length Some vs), <- E, map_length; reflexivity).
    rewrite pops_rev, app_nil_r. reflexivity.
  - unfold tour_kids. cbn [flat_map fst snd tour_list]. rewrite !app_nil_r.
    rewrite (IH _ (or_introl eq_refl) m (or_introl eq_refl) Km).
    destruct Ty as [<-|[<-|[]]]; cbn [gval as_prop]; destruct (gval false m); reflexivity.
  - unfold tour_kids. cbn [flat_map fst snd tour_list]. rewrite !app_nil_r.
    rewrite (IH _ (or_introl eq_refl) m (or_introl eq_refl) Km). cbn [gval as_prop]. destruct (gval false m); reflexivity.
  - unfold tour_kids. cbn [flat_map fst snd tour_list]. rewrite !app_nil_r, fold_left_app.
    rewrite (IH _ (or_introl eq_refl) o (or_introl eq_refl) Ko). cbn [gval].
    replace (as_prop _ _) with false by reflexivity.
    destruct (gval false o) as [x|]; cbn [push1]; [|rewrite fire_none; reflexivity].
    rewrite (IH _ (or_intror (or_introl eq_refl)) p (or_introl eq_refl) Kp).
    replace (as_prop _ _) with true by reflexivity.
    destruct (gval true p) as [k|]; cbn [push1]; [|reflexivity]. cbn. destruct (gmember x k); reflexivity.
  - unfold tour_kids. cbn [flat_map fst snd tour_list]. rewrite !app_nil_r, fold_left_app.
    rewrite (IH _ (or_introl eq_refl) l (or_introl eq_refl) Kl). cbn [gval].
    replace (as_prop _ _) with false by reflexivity.
    destruct (gval false l) as [x|]; cbn [push1]; [|rewrite fire_none; reflexivity].
    rewrite (IH _ (or_intror (or_introl eq_refl)) r (or_introl eq_refl) Kr).
    replace (as_prop _ _) with false by reflexivity.
    destruct (gval false r) as [y|]; cbn [push1]; [|reflexivity]. cbn.
    assert (B : exists v, gbin (at_op a) x y = Some v).
    { cbn in Op. destruct (at_op a); try discriminate Op; eexists; reflexivity. }
    destruct B as [v B]. rewrite B. reflexivity.
  - unfold tour_kids. cbn [flat_map fst snd tour_list]. rewrite !app_nil_r, fold_left_app.
    rewrite (IH _ (or_introl eq_refl) m (or_introl eq_refl) Km). cbn [gval]. rewrite MM.
    replace (as_prop _ _) with false by reflexivity.
    destruct (gval false m) as [f|]; cbn [push1]; [|rewrite fire_none; reflexivity].
    rewrite list_val; [|intros x Hx; apply (IH _ (or_intror (or_introl eq_refl))); [apply in_map; exact Hx|apply Ms, Hx]|reflexivity].
    destruct (all_some (map (gval false) ms)) as [vs|] eqn:E; [|reflexivity].
    apply all_some_spec in E. cbn. rewrite map_length.
    replace (List.length ms) with (List.length vs) by (rewrite <- (map_length Some vs), <- E, map_length; reflexivity).
    rewrite pops_rev, app_nil_r. reflexivity.
Qed.

Lemma gval_getters : forall n p, ok n -> gval p (getters n) = gval p n.
Proof.
  induction n as [ty a kids IH] using node_ind'. intros p H. apply sup_view in H.
  assert (MM : forall q ms, In q kids -> snd q = map Some ms -> (forall m, In m ms -> ok m) ->
    map (fun o => match o with Some m => gval false m | None => None end) (map (fun o => match o with Some m => Some (getters m) | None => None end) (map Some ms)) =
    map (fun o => match o with Some m => gval false m | None => None end) (map Some ms)).
  { intros q ms Hq E K. rewrite !map_map. apply map_ext_in. intros m Hm. apply (IH q Hq m); [rewrite E; apply in_map; exact Hm|apply K, Hm]. }
  inversion H as [ty0 a0 Ty E0|a0 ms Ms E0|ty0 a0 m Ty Km E0|a0 m Km E0|a0 o q Ko Kp E0|a0 l r Op Kl Kr E0|a0 m ms Km Ms E0]; subst.
  - cbn in Ty. repeat (destruct Ty as [<-|Ty]; [reflexivity|]). destruct Ty.
  - cbn [getters map gval]. rewrite (MM _ _ (or_introl eq_refl) eq_refl Ms). reflexivity.
  - pose proof (IH _ (or_introl eq_refl) m (or_introl eq_refl) false Km) as E. pose proof (ok_getters m Km) as (G & _).
    destruct Ty as [<-|[<-|[]]]; cbn [getters map gval].
    + destruct (getters m) as [ty' a' kids'] eqn:Em.
      destruct (nt_eqb ty' N_EXPR_PAREN) eqn:Et.
      * apply nt_eqb_spec in Et as ->. pose proof (sup_view _ G) as V.
        inversion V as [ty0 a0 Ty E0| |ty0 a0 m0 Ty Km0 E0| | | |]; subst; [cbn in Ty; intuition discriminate|].
        cbn [gval]. rewrite <- E. reflexivity.
      * destruct ty'; try exact E. discriminate Et.
    + exact E.
  - cbn [getters map gval]. rewrite (IH _ (or_introl eq_refl) m (or_introl eq_refl) false Km). reflexivity.
  - cbn [getters map gval]. rewrite (IH _ (or_introl eq_refl) o (or_introl eq_refl) false Ko).
    rewrite (IH _ (or_intror (or_introl eq_refl)) q (or_introl eq_refl) true Kp). reflexivity.
  - cbn [getters map gval]. rewrite (IH _ (or_introl eq_refl) l (or_introl eq_refl) false Kl).
    rewrite (IH _ (or_intror (or_introl eq_refl)) r (or_introl eq_refl) false Kr). reflexivity.
  - cbn [getters map gval]. rewrite (IH _ (or_introl eq_refl) m (or_introl eq_refl) false Km).
    rewrite (MM _ _ (or_intror (or_introl eq_refl)) eq_refl Ms). reflexivity.
Qed.

Lemma exec_val : forall n s, ok n -> exec parse_float format_float sprint vars n s = push1 (gval false n) s.
Proof.
  intros n s H. unfold exec, walk. destruct (ok_getters n H) as (G & R & _).
  destruct (visit_good lst lst_go lst_blind (getters n) (proj1 G) R (""%string, None) (new_walk (getters n) (Some s)) eq_refl) as (A & _).
  etransitivity; [exact A|]. cbn [new_walk w_vc w_u]. rewrite (visit_val _ G), (gval_getters _ _ H).
  replace (as_prop [getters n] (""%string, None)) with false; [reflexivity|]. unfold as_prop. destruct (getters n) as [[] b kk]; reflexivity.
Qed.

End Machine.
