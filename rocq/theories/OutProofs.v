From Verif Require Import Base TarModel TarSpec TarProofs OutModel OutSpec.

(** ** Names *)
Lemma eqb_true : forall a b, Byte.eqb a b = true -> a = b.
Proof. intros a b H. apply Byte.byte_dec_bl. exact H. Qed.
Lemma eqb_refl : forall a, Byte.eqb a a = true.
Proof. intros a. apply Byte.byte_dec_lb. reflexivity. Qed.
Lemma starts_app : forall a b, starts a (a ++ b) = true.
Proof. induction a as [|x a IH]; intros b; [reflexivity|]. cbn. rewrite eqb_refl. apply IH. Qed.
Lemma starts_len : forall a s, starts a s = true -> (List.length a <= List.length s)%nat.
Proof.
  induction a as [|x a IH]; intros [|y s] H; cbn in *; try lia; try discriminate. apply andb_prop in H as [_ H]. specialize (IH s H). lia.
Qed.
Lemma ext_cut : forall s, (ext s = [] /\ no_dot s) \/ (exists a e, s = a ++ x2e :: e /\ no_dot e /\ ext s = x2e :: e).
Proof.
  induction s as [|c s IH]; [left; split; [reflexivity|intros []]|]. cbn [ext].
  destruct IH as [[E N]|(a & e & -> & N & E)].
  - rewrite E. destruct (Byte.eqb c x2e) eqn:C.
    + right. apply eqb_true in C as ->. exists [], s. auto.
    + left. split; [reflexivity|]. intros [->|H]; [discriminate C|exact (N H)].
  - rewrite E. right. exists (c :: a), e. auto.
Qed.
Lemma last_short : forall s sub, (List.length s < List.length sub)%nat -> last_index s sub = None.
Proof.
  induction s as [|c s IH]; intros sub H; cbn [last_index].
  - destruct sub; [cbn in H; lia|reflexivity].
  - rewrite IH by (cbn in H; lia). destruct (starts sub (c :: s)) eqn:E; [|reflexivity]. apply starts_len in E. lia.
Qed.
Lemma last_nil : forall s, last_index s [] = Some (List.length s).
Proof. induction s as [|c s IH]; [reflexivity|]. cbn. rewrite IH. reflexivity. Qed.
Lemma last_own : forall sub, sub <> [] -> last_index sub sub = Some 0%nat.
Proof.
  intros [|x sub] H; [congruence|]. cbn [last_index]. rewrite last_short by (cbn; lia). pose proof (starts_app (x :: sub) []) as E. rewrite app_nil_r in E. rewrite E. reflexivity.
Qed.
Lemma last_end : forall a sub, sub <> [] -> last_index (a ++ sub) sub = Some (List.length a).
Proof.
  induction a as [|c a IH]; intros sub H; [apply last_own, H|]. cbn [app last_index]. rewrite IH by exact H. reflexivity.
Qed.
(** The name the result gets. *)
Lemma new_name : forall f, exists i, last_index f (ext f) = Some i /\ named_after f (firstn i f ++ tag_ast ++ ext f).
Proof.
  intros f. destruct (ext_cut f) as [[E N]|(a & e & -> & N & E)]; rewrite E.
  - exists (List.length f). split; [apply last_nil|]. rewrite firstn_all, app_nil_r. apply na_plain, N.
  - exists (List.length a). split; [apply last_end; discriminate|]. rewrite firstn_app, firstn_all, Nat.sub_diag. cbn [firstn]. rewrite app_nil_r. apply na_ext, N.
Qed.
Lemma named_len : forall a b, named_after a b -> List.length b = (4 + List.length a)%nat.
Proof. intros a b [s N|s e N]; rewrite !app_length; cbn; lia. Qed.
Lemma named_other : forall a b, named_after a b -> a <> b.
Proof. intros a b H E. apply named_len in H. rewrite E in H. lia. Qed.
Lemma dot_cut : forall s e s' e', no_dot e -> no_dot e' -> s ++ x2e :: e = s' ++ x2e :: e' -> s = s' /\ e = e'.
Proof.
  induction s as [|x s IH]; intros e s' e' N N' E; destruct s' as [|x' s']; cbn in E.
  - injection E as ->. auto.
  - injection E as <- ->. destruct N. apply in_or_app. right. left. reflexivity.
  - injection E as -> <-. destruct N'. apply in_or_app. right. left. reflexivity.
  - injection E as -> E. destruct (IH e s' e' N N' E) as [-> ->]. auto.
Qed.
Lemma named_fun : forall a b c, named_after a b -> named_after a c -> b = c.
Proof.
  intros a b c H K. destruct H as [s N|s e N]; inversion K as [s' N' E1 E2|s' e' N' E1 E2]; subst; auto.
  - destruct N. apply in_or_app. right. left. reflexivity.
  - destruct N'. apply in_or_app. right. left. reflexivity.
  - destruct (dot_cut _ _ _ _ N' N E1) as [-> ->]. reflexivity.
Qed.
Lemma named_inj : forall a a' b, named_after a b -> named_after a' b -> a = a'.
Proof.
  assert (P : forall s, no_dot s -> no_dot (s ++ tag_ast)).
  { intros s N H. apply in_app_or in H as [H|H]; [exact (N H)|]. cbn in H. repeat destruct H as [H|H]; try discriminate H. destruct H. }
  intros a a' b H K. destruct H as [s N|s e N]; inversion K as [s' N' E1 E2|s' e' N' E1 E2]; subst.
  - apply app_inv_tail in E2. congruence.
  - exfalso. apply (P s N). unfold tag_ast. rewrite <- E2. apply in_or_app. right. do 4 right. left. reflexivity.
  - exfalso. apply (P a' N'). unfold tag_ast. rewrite E2. apply in_or_app. right. do 4 right. left. reflexivity.
  - change (s' ++ tag_ast ++ x2e :: e' = s ++ tag_ast ++ x2e :: e) in E2. rewrite !app_assoc in E2. destruct (dot_cut _ _ _ _ N' N E2) as [E ->]. apply app_inv_tail in E as ->. reflexivity.
Qed.
(** It is an ordinary name. *)
Lemma named_solid : forall p a b, named_after a b -> go_to p b = b :: p.
Proof.
  intros p a b H. pose proof (named_len a b H) as L. unfold go_to.
  destruct b as [|b0 [|b1 [|b2 b]]]; cbn in L; try lia. cbn. rewrite !andb_false_r. reflexivity.
Qed.

(** ** Paths *)
Definition no_slash (s : bytes) : Prop := ~ In x2f s.
Lemma split_one : forall s, no_slash s -> split_slash s = [s].
Proof.
  induction s as [|c s IH]; intros N; [reflexivity|]. cbn [split_slash]. destruct (Byte.eqb c x2f) eqn:E.
  - exfalso. apply N. left. apply eqb_true, E.
  - rewrite IH; [reflexivity|]. intro H. apply N. right. exact H.
Qed.
Lemma split_path_cut : forall s, no_slash (snd (split_path s)) /\ s = fst (split_path s) ++ snd (split_path s)
  /\ (fst (split_path s) = [] \/ exists d, fst (split_path s) = d ++ [x2f]).
Proof.
  induction s as [|c s (N & E & D)]; [split; [intros []|split; [reflexivity|left; reflexivity]]|]. cbn [split_path].
  destruct (split_path s) as [d b]. cbn [fst snd] in *. destruct d as [|x d].
  - destruct (Byte.eqb c x2f) eqn:C; cbn [fst snd app] in *.
    + apply eqb_true in C as ->. split; [exact N|]. split; [congruence|]. right. exists []. reflexivity.
    + split; [|split; [congruence|left; reflexivity]]. intros [->|H]; [discriminate C|exact (N H)].
  - split; [exact N|]. split; [cbn; rewrite E at 1; reflexivity|]. right. destruct D as [D|[d0 D]]; [discriminate D|]. exists (c :: d0). cbn. rewrite <- D. reflexivity.
Qed.
Lemma look_there : forall l f p i, look f p l = Some i -> f (fold_left go_to l p) = Some i.
Proof.
  induction l as [|c l IH]; intros f p i H; [exact H|]. cbn in *. destruct (f p) as [[|]|]; try discriminate. apply IH, H.
Qed.
Lemma look_split : forall l f p c i, look f p (l ++ [c]) = Some i -> f (fold_left go_to l p) = Some Dir.
Proof.
  induction l as [|x l IH]; intros f p c i H; cbn in *; destruct (f p) as [[|]|] eqn:E; try discriminate; [reflexivity|]. exact (IH _ _ _ _ H).
Qed.
(** The source is in a directory, under the last part of its path. *)
Lemma place_cut : forall cwd file, let (dir, b) := split_path file in
  place cwd file = go_to (place cwd dir) b /\ exists l, split_slash file = l ++ [b] /\ fold_left go_to l (if rooted file then [] else cwd) = place cwd dir.
Proof.
  intros cwd file. destruct (split_path_cut file) as (N & E & D). destruct (split_path file) as [dir b]. cbn [fst snd] in *.
  destruct D as [->|[d ->]].
  - cbn [app] in E. subst b. assert (R : rooted file = false). { destruct file as [|c r]; [reflexivity|]. cbn. destruct (Byte.eqb c x2f) eqn:C; [|reflexivity]. exfalso. apply N. left. apply eqb_true, C. }
    unfold place. cbn [split_slash fold_left rooted]. rewrite R, (split_one _ N). cbn [fold_left]. split; [reflexivity|]. exists []. split; reflexivity.
  - rewrite <- app_assoc in E. cbn [app] in E. subst file. unfold place. rewrite split_app, (split_one b N).
    assert (R : rooted (d ++ x2f :: b) = rooted (d ++ [x2f])) by (destruct d; reflexivity). rewrite R.
    rewrite (split_app d []). cbn [split_slash]. rewrite !fold_left_app. cbn [fold_left]. split; [reflexivity|].
    exists (split_slash d). split; reflexivity.
Qed.
Lemma source_name : forall f cwd file src, sound f -> read_file cwd file f = Some src ->
  exists d, let b := snd (split_path file) in place cwd file = b :: d /\ place cwd (fst (split_path file)) = d /\ f (b :: d) = Some (File src) /\ f d = Some Dir.
Proof.
  intros f cwd file src [S0 S] R. unfold read_file in R. destruct file as [|c0 r0]; [discriminate|]. set (file := c0 :: r0) in *.
  destruct (look f (if rooted file then [] else cwd) (split_slash file)) as [[|b0]|] eqn:L; try discriminate. injection R as ->.
  pose proof (place_cut cwd file) as C. destruct (split_path file) as [dir b]. destruct C as (Pl & l & Sl & Fl). cbn [fst snd].
  pose proof (look_there _ _ _ _ L) as T. fold (place cwd file) in T. rewrite Sl in L. apply look_split in L. rewrite Fl in L.
  exists (place cwd dir). rewrite Pl in T |- *. unfold go_to in T |- *.
  destruct (bytes_eqb b [] || bytes_eqb b dot); [congruence|]. destruct (bytes_eqb b dotdot); [|auto].
  exfalso. destruct (place cwd dir) as [|x up] eqn:E; cbn [tl] in T; [congruence|]. assert (f (x :: up) <> None) as Q by congruence. apply S in Q. congruence.
Qed.
Lemma out_place : forall cwd file, exists p o, out_file file tag_ast = Some (Some p) /\ named_after (snd (split_path file)) o
  /\ resolve cwd p = o :: place cwd (fst (split_path file)).
Proof.
  intros cwd file. unfold out_file. destruct (split_path_cut file) as (N & _ & _). destruct (split_path file) as [dir b]. cbn [fst snd] in *.
  destruct (new_name b) as (i & E & Na). rewrite E. set (o := firstn i b ++ tag_ast ++ ext b) in *.
  assert (No : no_slash o).
  { intro H. unfold o in H. apply in_app_or in H as [H|H]; [apply N; rewrite <- (firstn_skipn i b); apply in_or_app; left; exact H|].
    apply in_app_or in H as [H|H]; [cbn in H; repeat destruct H as [H|H]; try discriminate H; destruct H|].
    destruct (ext_cut b) as [[X _]|(a & e & X & _ & Y)]; [rewrite X in H; destruct H|]. rewrite Y in H. apply N. rewrite X. apply in_or_app. right. exact H. }
  assert (Pi : place_in (place cwd dir) o = o :: place cwd dir).
  { unfold place_in. rewrite (split_one o No). cbn [fold_left]. apply (named_solid _ b). exact Na. }
  destruct dir as [|c dir].
  - assert (Lo : o <> []) by (intro Z; apply named_len in Na; rewrite Z in Na; discriminate).
    exists (clean o), o. split; [|split; [exact Na|]].
    + cbn [join]. destruct o; [congruence|reflexivity].
    + etransitivity; [|exact Pi]. unfold place_in, resolve, clean. cbn [fst snd]. rewrite clean_go; [|intros ->; reflexivity|constructor]. cbn [rev fold_left].
      assert (R : rooted o = false). { destruct o as [|x o']; [congruence|]. cbn. destruct (Byte.eqb x x2f) eqn:X; [|reflexivity]. exfalso. apply No. left. apply eqb_true, X. }
      rewrite R. reflexivity.
  - destruct (join_place cwd (c :: dir) o) as (p & Ej & Er); [discriminate|]. exists p, o. rewrite Ej. split; [reflexivity|]. split; [exact Na|]. rewrite Er. exact Pi.
Qed.
