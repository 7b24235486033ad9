From Verif Require Import Base UtilModel UtilSpec UtilProofs ObjModel ObjSpec.
From Coq Require Import Permutation.
From Coq Require DecimalNat.

Section P.
Context {A : Type}.
Notation jv := (jv A).

Lemma dget_dput : forall (d : list (bytes * jv)) k k' v, dget (dput d k v) k' = if bytes_eqb k' k then Some v else dget d k'.
Proof. intros. apply dict_get_put. exact bytes_eqb_spec. Qed.

Lemma bytes_eqb_refl : forall k, bytes_eqb k k = true.
Proof. intros. apply bytes_eqb_spec. reflexivity. Qed.
Lemma bytes_eqb_neq : forall a b, a <> b -> bytes_eqb a b = false.
Proof. apply keqb_neq. exact bytes_eqb_spec. Qed.

(** Induction on values with hypotheses for the components. *)
Lemma jv_ind2 (P : jv -> Prop) : P JNull -> (forall a, P (JAtom a)) ->
  (forall l, (forall v, In v l -> P v) -> P (JArr l)) ->
  (forall es, (forall k v, In (k, v) es -> P v) -> P (JMap es)) -> forall v, P v.
Proof.
  intros Hn Ha Hr Hm. fix IH 1. intros [|a|l|es].
  - exact Hn.
  - apply Ha.
  - apply Hr. induction l as [|x l IHl]; intros v H; [destruct H|]. destruct H as [E|H].
    + rewrite <- E. apply IH.
    + apply IHl. assumption.
  - apply Hm. induction es as [|[k0 x] es IHl]; intros k v H; [destruct H|]. destruct H as [E|H].
    + injection E as <- <-. apply IH.
    + apply (IHl k v). assumption.
Qed.

Definition combine1 (o : option jv) (v : jv) : option jv :=
  match o, v with
  | Some (JMap dm), JMap _ => Some (JMap (merge_map dm v))
  | _, JNull => o
  | _, _ => Some v
  end.

Lemma dget_in : forall (es : list (bytes * jv)) k v, dget es k = Some v -> In (k, v) es.
Proof.
  induction es as [|[k0 v0] es IH]; intros k v H; [discriminate|]. unfold dget in *. cbn in H.
  destruct (bytes_eqb k k0) eqn:E; [|right; apply IH; exact H].
  apply bytes_eqb_spec in E. injection H as <-. subst. left. reflexivity.
Qed.

Lemma in_dget : forall (es : list (bytes * jv)) k v, NoDup (map fst es) -> In (k, v) es -> dget es k = Some v.
Proof.
  induction es as [|[k0 v0] es IH]; intros k v HN HI; [contradiction|]. unfold dget in *. cbn in *.
  inversion HN; subst. destruct HI as [[= -> ->]|HI]; [rewrite bytes_eqb_refl; reflexivity|].
  rewrite bytes_eqb_neq; [apply IH; assumption|]. intros ->. apply H1. apply (in_map fst _ _ HI).
Qed.

Lemma dget_notin : forall (es : list (bytes * jv)) k, ~ In k (map fst es) -> dget es k = None.
Proof.
  intros es k H. destruct (dget es k) as [v|] eqn:E; [|reflexivity].
  apply dget_in in E. exfalso. apply H. apply (in_map fst _ _ E).
Qed.

Lemma merge_get : forall es d k, NoDup (map fst es) ->
  dget (merge_map d (JMap es)) k = match dget es k with Some v => combine1 (dget d k) v | None => dget d k end.
Proof.
  induction es as [|[k0 v0] es IH]; intros d k HN; [reflexivity|].
  cbn in HN. inversion HN; subst.
  set (d1 := match dget d k0, v0 with
                 | Some (JMap dm), JMap _ => dput d k0 (JMap (merge_map dm v0))
                 | _, JNull => d
                 | _, _ => dput d k0 v0
                 end).
  change (merge_map d (JMap ((k0, v0) :: es))) with (merge_map d1 (JMap es)).
  rewrite IH by assumption.
  assert (Hd1 : forall k', dget d1 k' = if bytes_eqb k' k0 then combine1 (dget d k0) v0 else dget d k').
  { intros k'. unfold d1, combine1.
    destruct (dget d k0) as [[|a1|l1|dm]|] eqn:E, v0 as [|a|l|sm]; rewrite ?dget_dput;
      destruct (bytes_eqb k' k0) eqn:Ek; try reflexivity; apply bytes_eqb_spec in Ek; subst; assumption. }
  change (dget ((k0, v0) :: es) k) with (if bytes_eqb k k0 then Some v0 else dget es k). rewrite Hd1.
  destruct (bytes_eqb k k0) eqn:Ek; [|reflexivity].
  apply bytes_eqb_spec in Ek. subst k0. rewrite (dget_notin es k H1). reflexivity.
Qed.

Lemma merge_at : forall p (d es : list (bytes * jv)), wf_jv (JMap es) ->
  at_path (Some (JMap (merge_map d (JMap es)))) p
  = spec_merge p (at_path (Some (JMap d))) (at_path (Some (JMap es))).
Proof.
  induction p as [|k p IH]; intros d es Hw; [reflexivity|].
  cbn [at_path]. inversion Hw as [| | |? HN Hsub]; subst. rewrite merge_get by assumption.
  cbn [spec_merge at_path root].
  destruct (dget es k) as [v|] eqn:Ev.
  - unfold combine1. pose proof (Hsub k v (dget_in _ _ _ Ev)) as Hwv.
    destruct (dget d k) as [[|a|l|dm]|] eqn:Ed, v as [|a'|l'|sm];
      try (destruct p; reflexivity).
    rewrite IH by assumption. reflexivity.
  - destruct (dget d k) as [[|a|l|dm]|] eqn:Ed; destruct p; reflexivity.
Qed.

Lemma spec_merge_ext : forall p d d' s s', (forall q, d q = d' q) -> (forall q, s q = s' q) ->
  @spec_merge A p d s = spec_merge p d' s'.
Proof.
  induction p as [|k p IH]; intros d d' s s' Hd Hs; cbn; rewrite <- !Hd, <- !Hs.
  - reflexivity.
  - destruct (d []) as [[]|], (s []) as [[]|]; try reflexivity.
    apply IH; intros q; [apply Hd|apply Hs].
Qed.

Lemma spec_merge_refl : forall p f, @spec_merge A p f f = f p.
Proof.
  induction p as [|k p IH]; intros f; cbn.
  - destruct (f []) as [[]|]; reflexivity.
  - destruct (f []) as [[]|] eqn:Ef; try reflexivity. apply (IH (fun q => f (k :: q))).
Qed.

(** Merging the same source again changes nothing. *)
Lemma spec_merge_idem : forall p d s dd, (forall q, dd q = @spec_merge A q d s) ->
  spec_merge p dd s = spec_merge p d s.
Proof.
  induction p as [|k p IH]; intros d s dd H.
  - pose proof (H []) as H0. cbn in *. rewrite H0.
    destruct (d []) as [[]|], (s []) as [[]|]; try reflexivity.
  - destruct (s []) as [[|a|l|]|] eqn:Es.
    + assert (HD : forall q, dd q = d q).
      { intros q. rewrite H. destruct q; cbn; rewrite Es; destruct (d []) as [[]|]; reflexivity. }
      cbn. rewrite Es, !HD. destruct (d []) as [[]|]; reflexivity.
    + cbn. rewrite Es. destruct (dd []) as [[]|], (d []) as [[]|]; reflexivity.
    + cbn. rewrite Es. destruct (dd []) as [[]|], (d []) as [[]|]; reflexivity.
    + destruct (d []) as [[| | |]|] eqn:Ed.
      4:{ cbn. rewrite Es, Ed. replace (dd []) with (@Some (@shape A) SMap).
          - apply IH. intros q. rewrite H. cbn. rewrite Ed, Es. reflexivity.
          - rewrite H. cbn. rewrite Ed, Es. reflexivity. }
      all: assert (HD : forall q, dd q = s q)
             by (intros q; rewrite H; destruct q; cbn; rewrite Ed, Es; congruence);
        transitivity (s (k :: p)); [|cbn; rewrite Ed, Es; reflexivity];
        rewrite <- (spec_merge_refl (k :: p) s); apply spec_merge_ext; [assumption|reflexivity].
    + assert (HD : forall q, dd q = d q).
      { intros q. rewrite H. destruct q; cbn; rewrite Es; destruct (d []) as [[]|]; reflexivity. }
      cbn. rewrite Es, !HD. destruct (d []) as [[]|]; reflexivity.
Qed.

Lemma merge_idem : forall (d es : list (bytes * jv)) p, wf_jv (JMap es) ->
  at_path (Some (JMap (merge_map (merge_map d (JMap es)) (JMap es)))) p
  = at_path (Some (JMap (merge_map d (JMap es)))) p.
Proof.
  intros d es p H. rewrite merge_at by assumption. rewrite merge_at by assumption.
  apply spec_merge_idem. intros q. apply merge_at. assumption.
Qed.

Lemma perm_dget : forall (es es' : list (bytes * jv)) k, NoDup (map fst es) -> Permutation es es' -> dget es k = dget es' k.
Proof.
  intros es es' k HN HP.
  assert (HN' : NoDup (map fst es')) by (eapply Permutation_NoDup; [apply Permutation_map, HP|assumption]).
  destruct (dget es k) as [v|] eqn:E.
  - symmetry. apply in_dget; [assumption|]. eapply Permutation_in; [exact HP|]. apply dget_in. assumption.
  - destruct (dget es' k) as [v|] eqn:E'; [|reflexivity].
    apply dget_in in E'. apply Permutation_sym in HP. pose proof (Permutation_in _ HP E') as HI.
    rewrite (in_dget _ _ _ HN HI) in E. discriminate.
Qed.

Lemma perm_at : forall (es es' : list (bytes * jv)) p, NoDup (map fst es) -> Permutation es es' ->
  at_path (Some (JMap es)) p = at_path (Some (JMap es')) p.
Proof.
  intros es es' [|k p] HN HP; [reflexivity|]. cbn. rewrite (perm_dget es es' k HN HP). reflexivity.
Qed.

Lemma forall2_keys : forall (R : jv -> jv -> Prop) es es',
  Forall2 (fun a b : bytes * jv => fst a = fst b /\ R (snd a) (snd b)) es es' -> map fst es = map fst es'.
Proof. intros R es es' H. induction H as [|x y l l' [H1 _] HF IH]; cbn; congruence. Qed.

Lemma forall2_dget : forall (R : jv -> jv -> Prop) es es' k,
  Forall2 (fun a b : bytes * jv => fst a = fst b /\ R (snd a) (snd b)) es es' ->
  match dget es k, dget es' k with Some v, Some w => R v w | None, None => True | _, _ => False end.
Proof.
  intros R es es' k H. induction H as [|[k1 v1] [k2 v2] l l' [H1 H2] HF IH]; [exact I|].
  cbn in H1, H2. subst k2. unfold dget in *. cbn [dict_get]. destruct (bytes_eqb k k1); assumption.
Qed.

Lemma reordered_at : forall p (v w : jv), wf_jv v -> reordered_maps v w -> at_path (Some v) p = at_path (Some w) p.
Proof.
  induction p as [|k p IH]; intros v w Hw H; inversion H as [|es es' es'' HF HP]; subst; try reflexivity.
  cbn [at_path]. inversion Hw as [| | |? HN Hs]; subst.
  rewrite <- (perm_dget es' es'' k); [|rewrite <- (forall2_keys _ _ _ HF); assumption|assumption].
  pose proof (forall2_dget _ _ _ k HF) as HD.
  destruct (dget es k) as [a|] eqn:Ea, (dget es' k) as [b|]; try contradiction; [|reflexivity].
  apply IH; [|assumption]. apply (Hs k a), dget_in. assumption.
Qed.

Lemma reordered_map_inv : forall (es : list (bytes * jv)) w, reordered_maps (JMap es) w -> exists es', w = JMap es'.
Proof. intros es w H. inversion H; subst; eexists; reflexivity. Qed.

Lemma dput_nodup : forall (d : list (bytes * jv)) k v, NoDup (map fst d) -> NoDup (map fst (dput d k v)).
Proof.
  intros d k v H. unfold dput, dict_put. cbn. constructor.
  - intros HI. apply in_map_iff in HI. destruct HI as [[a b] [<- HI]]. unfold dict_del in HI.
    apply filter_In in HI. destruct HI as [_ HI]. cbn in HI. rewrite bytes_eqb_refl in HI. discriminate.
  - unfold dict_del. induction d as [|[a b] d IH]; cbn in *; [constructor|]. inversion H as [|? ? H1 H2]; subst.
    destruct (negb (bytes_eqb k a)); [|apply IH; assumption]. cbn. constructor; [|apply IH; assumption].
    intros HI. apply H1. apply in_map_iff in HI. destruct HI as [y [Hy HI]]. apply filter_In in HI.
    rewrite <- Hy. apply in_map. apply HI.
Qed.

Lemma wf_dput : forall (d : list (bytes * jv)) k v, wf_jv (JMap d) -> wf_jv v -> wf_jv (JMap (dput d k v)).
Proof.
  intros d k v Hd Hv. inversion Hd as [| | |? HN Hs]; subst. constructor.
  - apply dput_nodup; assumption.
  - intros k' v' HI. apply in_dget in HI; [|apply dput_nodup; assumption].
    rewrite dget_dput in HI. destruct (bytes_eqb k' k); [injection HI as <-; assumption|].
    apply (Hs k'), dget_in. assumption.
Qed.

Lemma wf_merge : forall (s : jv) d, wf_jv s -> wf_jv (JMap d) -> wf_jv (JMap (merge_map d s)).
Proof.
  intros s. induction s as [|a|l IH|es IH] using jv_ind2; intros d Hs Hd; try assumption.
  inversion Hs as [| | |? HN Hsub]; subst. clear Hs HN. revert d Hd.
  induction es as [|[k0 v0] es IHe]; intros d Hd; [assumption|].
  set (d1 := match dget d k0, v0 with
                 | Some (JMap dm), JMap _ => dput d k0 (JMap (merge_map dm v0))
                 | _, JNull => d
                 | _, _ => dput d k0 v0
                 end).
  change (merge_map d (JMap ((k0, v0) :: es))) with (merge_map d1 (JMap es)).
  apply IHe.
  - intros k v HI. apply (IH k v). right. assumption.
  - intros k v HI. apply (Hsub k v). right. assumption.
  - pose proof (Hsub k0 v0 (or_introl eq_refl)) as H0.
    unfold d1. destruct (dget d k0) as [[|a1|l1|dm]|] eqn:E, v0 as [|a|l|sm];
      try assumption; try (apply wf_dput; assumption).
    apply wf_dput; [assumption|]. apply (IH k0 (JMap sm)); [left; reflexivity|assumption|].
    apply dget_in in E. inversion Hd as [| | |? ? Hs]; subst. apply (Hs k0). assumption.
Qed.

Lemma merge_maps_at : forall srcs (d : list (bytes * jv)) p,
  Forall (fun s => wf_jv s /\ exists es, s = JMap es) srcs ->
  at_path (Some (JMap (merge_maps d srcs))) p
  = fold_left (fun f s q => spec_merge q f (at_path (Some s))) srcs (at_path (Some (JMap d))) p.
Proof.
  induction srcs as [|s srcs IH]; intros d p HF; [reflexivity|].
  inversion HF as [|? ? [Hw [es ->]] HF']; subst. cbn [merge_maps fold_left].
  change (fold_left merge_map srcs (merge_map d (JMap es))) with (merge_maps (merge_map d (JMap es)) srcs).
  rewrite IH by assumption.
  assert (G : forall (srcs : list jv) (f g : list bytes -> option (@shape A)), (forall q, f q = g q) ->
    forall q, fold_left (fun f s q => spec_merge q f (at_path (Some s))) srcs f q
    = fold_left (fun f s q => spec_merge q f (at_path (Some s))) srcs g q).
  { clear. induction srcs as [|s srcs IH]; intros f g H q; cbn; [apply H|].
    apply IH. intros q'. apply spec_merge_ext; [assumption|reflexivity]. }
  apply G. intros q. apply merge_at. assumption.
Qed.

(** * util.Merge and CloneMap *)
Lemma merge_keep_get : forall K V (keqb : K -> K -> bool), (forall a b, keqb a b = true <-> a = b) ->
  forall (stuff src : list (K * V)) k,
  dict_get keqb (merge_keep keqb src stuff) k
  = match dict_get keqb src k with Some v => Some v | None => dict_get keqb stuff k end.
Proof.
  intros K V keqb HK. induction stuff as [|[k0 v0] stuff IH]; intros src k.
  - cbn. destruct (dict_get keqb src k); reflexivity.
  - unfold merge_keep in *. cbn [fold_left fst snd]. rewrite IH. cbn [dict_get].
    destruct (dict_get keqb src k0) as [w|] eqn:E.
    + destruct (dict_get keqb src k) as [v|] eqn:E2; [reflexivity|].
      destruct (keqb k k0) eqn:Ek; [|reflexivity]. apply HK in Ek. subst. congruence.
    + rewrite dict_get_put by assumption. destruct (keqb k k0) eqn:Ek; [|reflexivity].
      apply HK in Ek. subst. rewrite E. reflexivity.
Qed.

Lemma clone_get : forall K V (keqb : K -> K -> bool), (forall a b, keqb a b = true <-> a = b) ->
  forall (m : list (K * V)) k, NoDup (map fst m) ->
  dict_get keqb (clone_map keqb m) k = dict_get keqb m k.
Proof.
  intros K V keqb HK m k HN. unfold clone_map.
  assert (G : forall (m d : list (K * V)), NoDup (map fst m) ->
    dict_get keqb (fold_left (fun d p => dict_put keqb d (fst p) (snd p)) m d) k
    = match dict_get keqb m k with Some v => Some v | None => dict_get keqb d k end).
  { clear m HN. induction m as [|[k0 v0] m IH]; intros d HN; [reflexivity|]. cbn in HN. inversion HN; subst.
    cbn [fold_left fst snd]. rewrite IH by assumption. cbn [dict_get]. rewrite dict_get_put by assumption.
    destruct (keqb k k0) eqn:Ek; [|reflexivity]. apply HK in Ek. subst k0.
    assert (HZ : dict_get keqb m k = None).
    { clear - HK H1. induction m as [|[a b] m IH]; [reflexivity|]. cbn in *.
      destruct (keqb k a) eqn:E; [apply HK in E; subst; exfalso; apply H1; left; reflexivity|].
      apply IH. intros HI. apply H1. right. assumption. }
    rewrite HZ. reflexivity. }
  rewrite G by assumption. cbn. destruct (dict_get keqb m k); reflexivity.
Qed.

(** * Flattening *)

Lemma uint_bytes_inj : forall u v, uint_bytes u = uint_bytes v -> u = v.
Proof.
  induction u; intros v H; destruct v; cbn in H; try discriminate; try reflexivity;
    injection H as H; f_equal; apply IHu; assumption.
Qed.

Lemma itoa_inj : forall n m, itoa n = itoa m -> n = m.
Proof.
  intros n m H. apply uint_bytes_inj in H.
  rewrite <- (DecimalNat.Unsigned.of_to n), <- (DecimalNat.Unsigned.of_to m), H. reflexivity.
Qed.

Lemma itoa_dotless : forall n, ~ In x2e (itoa n).
Proof.
  intros n. unfold itoa. generalize (Nat.to_uint n) as u. induction u; cbn; try tauto;
    intros [H|H]; try discriminate; auto.
Qed.

Lemma walk_map_eq : forall es path, walk_obj (@JMap A es) path =
  flat_map (fun e => flat_cb (path ++ [fst e]) (snd e) ++ walk_obj (snd e) (path ++ [fst e])) es.
Proof.
  induction es as [|[k x] es IH]; intros path; [reflexivity|].
  cbn [flat_map fst snd]. rewrite <- IH, <- app_assoc. reflexivity.
Qed.

Fixpoint enum_from {B} (i : nat) (l : list B) : list (nat * B) :=
  match l with [] => [] | x :: r => (i, x) :: enum_from (S i) r end.

Lemma enum_in : forall B (l : list B) i j x, In (j, x) (enum_from i l) <-> i <= j /\ nth_error l (j - i) = Some x.
Proof.
  induction l as [|y l IH]; intros i j x; cbn.
  - split; [contradiction|]. intros [_ H]. destruct (j - i); discriminate.
  - rewrite IH. split.
    + intros [[= -> ->]|[H1 H2]].
      * rewrite Nat.sub_diag. split; [lia|reflexivity].
      * replace (j - i) with (S (j - S i)) by lia. cbn. split; [lia|assumption].
    + intros [H1 H2]. destruct (Nat.eq_dec i j) as [->|Hne].
      * rewrite Nat.sub_diag in H2. cbn in H2. left. congruence.
      * right. replace (j - i) with (S (j - S i)) in H2 by lia. cbn in H2. split; [lia|assumption].
Qed.

Lemma walk_arr_eq : forall l path, walk_obj (@JArr A l) path =
  flat_map (fun e => flat_cb (path ++ [itoa (fst e)]) (snd e) ++ walk_obj (snd e) (path ++ [itoa (fst e)])) (enum_from 0 l).
Proof.
  intros l path.
  assert (G : forall l i, (fix go i l := match l with
                     | [] => []
                     | x :: r => flat_cb (path ++ [itoa i]) x ++ walk_obj x (path ++ [itoa i]) ++ go (S i) r
                     end) i l = flat_map (fun e : nat * jv => flat_cb (path ++ [itoa (fst e)]) (snd e) ++ walk_obj (snd e) (path ++ [itoa (fst e)])) (enum_from i l)).
  { clear l. induction l as [|x l IH]; intros i; [reflexivity|]. cbn [flat_map enum_from fst snd].
    rewrite <- IH, <- app_assoc. reflexivity. }
  apply G.
Qed.

Lemma flat_cb_in : forall path v q x, In (q, x) (@flat_cb A path v) <-> q = path /\ leaf_path v [] x.
Proof.
  intros path v q x. unfold flat_cb. destruct v as [|a|l|es]; cbn.
  - split; [intros [[= <- <-]|[]]; split; constructor|]. intros [-> H]. inversion H; subst. left. reflexivity.
  - split; [intros [[= <- <-]|[]]; split; constructor|]. intros [-> H]. inversion H; subst. left. reflexivity.
  - split; [contradiction|]. intros [_ H]. inversion H.
  - split; [contradiction|]. intros [_ H]. inversion H.
Qed.

Lemma walk_in : forall v path q x, In (q, x) (@walk_obj A v path) <-> exists p, q = path ++ p /\ leaf_path v p x.
Proof.
  intros v. induction v as [|a|l IH|es IH] using jv_ind2; intros path q x.
  - cbn [walk_obj]. rewrite flat_cb_in. split.
    + intros [-> H]. exists []. rewrite app_nil_r. auto.
    + intros [p [-> H]]. inversion H; subst. rewrite app_nil_r. split; [reflexivity|constructor].
  - cbn [walk_obj]. rewrite flat_cb_in. split.
    + intros [-> H]. exists []. rewrite app_nil_r. auto.
    + intros [p [-> H]]. inversion H; subst. rewrite app_nil_r. split; [reflexivity|constructor].
  - rewrite walk_arr_eq, in_flat_map. split.
    + intros [[i v] [HI H]]. apply enum_in in HI. rewrite Nat.sub_0_r in HI. cbn [fst snd] in H.
      apply in_app_iff in H. destruct H as [H|H].
      * apply flat_cb_in in H. destruct H as [-> H]. exists [itoa i]. split; [reflexivity|]. econstructor; [apply HI|assumption].
      * apply IH in H; [|apply (nth_error_In _ _ (proj2 HI))]. destruct H as [p [-> H]].
        exists (itoa i :: p). split; [rewrite <- app_assoc; reflexivity|]. econstructor; [apply HI|assumption].
    + intros [p [-> H]]. inversion H as [| | |? i v p' ? Hn HL]; subst. exists (i, v). split.
      * apply enum_in. rewrite Nat.sub_0_r. split; [lia|assumption].
      * cbn [fst snd]. apply in_app_iff. right. apply IH; [apply (nth_error_In _ _ Hn)|].
        exists p'. rewrite <- app_assoc. split; [reflexivity|assumption].
  - rewrite walk_map_eq, in_flat_map. split.
    + intros [[k v] [HI H]]. cbn [fst snd] in H.
      apply in_app_iff in H. destruct H as [H|H].
      * apply flat_cb_in in H. destruct H as [-> H]. exists [k]. split; [reflexivity|]. econstructor; eassumption.
      * apply (IH k v HI) in H. destruct H as [p [-> H]].
        exists (k :: p). split; [rewrite <- app_assoc; reflexivity|]. econstructor; eassumption.
    + intros [p [-> H]]. inversion H as [| |? k v p' ? Hn HL|]; subst. exists (k, v). split; [assumption|].
      cbn [fst snd]. apply in_app_iff. right. apply (IH k v Hn).
      exists p'. rewrite <- app_assoc. split; [reflexivity|assumption].
Qed.

(** The map built by a sequence of writes. *)
Lemma fold_writes : forall (ws : list (list bytes * jv)) d k x,
  dget (fold_left (fun d w => dput d (join_dot (fst w)) (snd w)) ws d) k = Some x ->
  (exists p, In (p, x) ws /\ join_dot p = k) \/ dget d k = Some x.
Proof.
  induction ws as [|[p v] ws IH]; intros d k x H; [right; exact H|]. cbn [fold_left fst snd] in H.
  destruct (IH _ _ _ H) as [[q [H1 H2]]|H1]; [left; exists q; split; [right|]; assumption|].
  rewrite dget_dput in H1. destruct (bytes_eqb k (join_dot p)) eqn:E; [|right; assumption].
  apply bytes_eqb_spec in E. injection H1 as <-. left. exists p. split; [left; reflexivity|congruence].
Qed.

Lemma fold_writes_has : forall (ws : list (list bytes * jv)) d k,
  (exists p x, In (p, x) ws /\ join_dot p = k) \/ (exists y, dget d k = Some y) ->
  exists y, dget (fold_left (fun d w => dput d (join_dot (fst w)) (snd w)) ws d) k = Some y.
Proof.
  induction ws as [|[p v] ws IH]; intros d k H.
  - destruct H as [[p [x [[] _]]]|H]. exact H.
  - cbn [fold_left fst snd]. apply IH. destruct H as [[q [x [[[= -> ->]|HI] Hj]]]|[y Hy]].
    + right. exists x. rewrite dget_dput. subst k. rewrite bytes_eqb_refl. reflexivity.
    + left. exists q, x. auto.
    + right. rewrite dget_dput. destruct (bytes_eqb k (join_dot p)); [exists v; reflexivity|exists y; assumption].
Qed.

Lemma flatten_sound : forall (m : jv) k x, dget (flatten_map m) k = Some x -> exists p, leaf_path m p x /\ join_dot p = k.
Proof.
  intros m k x H. unfold flatten_map in H. apply fold_writes in H. destruct H as [[p [H1 H2]]|H]; [|discriminate].
  apply walk_in in H1. destruct H1 as [q [-> H1]]. exists q. auto.
Qed.

Lemma flatten_complete : forall (m : jv) p x, leaf_path m p x -> exists y, dget (flatten_map m) (join_dot p) = Some y.
Proof.
  intros m p x H. unfold flatten_map. apply fold_writes_has. left. exists p, x. split; [|reflexivity].
  apply walk_in. exists p. auto.
Qed.

Lemma leaf_path_fun : forall (v : jv) p x, wf_jv v -> leaf_path v p x -> forall y, leaf_path v p y -> x = y.
Proof.
  intros v p x Hw H. induction H as [|a|es k v p x HI HL IH|l i v p x Hn HL IH]; intros y Hy.
  - inversion Hy; reflexivity.
  - inversion Hy; reflexivity.
  - inversion Hw as [| | |? HN Hs]; subst. inversion Hy as [| |? ? v' ? ? HI' HL'|]; subst.
    assert (v' = v) by (pose proof (in_dget _ _ _ HN HI); pose proof (in_dget _ _ _ HN HI'); congruence). subst.
    apply IH; [apply (Hs k v HI)|assumption].
  - inversion Hw as [| |? Hs|]; subst. inversion Hy as [| | |? i' v' ? ? Hn' HL' E1 E2 E3]; subst.
    apply itoa_inj in E2. subst i'. assert (v' = v) by congruence. subst.
    apply IH; [apply (Hs v (nth_error_In _ _ Hn))|assumption].
Qed.

Definition nodot (k : bytes) : Prop := ~ In x2e k.

Lemma leaf_path_nodot : forall (v : jv) p x, dotless v -> leaf_path v p x -> Forall nodot p.
Proof.
  intros v p x Hd H. induction H as [|a|es k v p x HI HL IH|l i v p x Hn HL IH]; try constructor.
  - inversion Hd; subst. apply (H0 k v HI).
  - apply IH. inversion Hd; subst. apply (H0 k v HI).
  - apply itoa_dotless.
  - apply IH. inversion Hd; subst. apply (H0 v (nth_error_In _ _ Hn)).
Qed.

Lemma split_dot : forall a b r s, nodot a -> nodot b -> a ++ x2e :: r = b ++ x2e :: s -> a = b /\ r = s.
Proof.
  induction a as [|x a IH]; intros [|y b] r s Ha Hb H; cbn in H.
  - injection H as ->. auto.
  - injection H as <- _. exfalso. apply Hb. left. reflexivity.
  - injection H as -> _. exfalso. apply Ha. left. reflexivity.
  - injection H as -> H. destruct (IH b r s) as [-> ->]; auto.
    + intros HI. apply Ha. right. assumption.
    + intros HI. apply Hb. right. assumption.
Qed.

Lemma join_inj : forall p q, p <> [] -> q <> [] -> Forall nodot p -> Forall nodot q -> join_dot p = join_dot q -> p = q.
Proof.
  induction p as [|k p IH]; intros [|k' q] Hp Hq Fp Fq H; try congruence.
  inversion Fp as [|? ? Hk Fp']; inversion Fq as [|? ? Hk' Fq']; subst.
  destruct p as [|k2 p], q as [|k2' q].
  - cbn in H. congruence.
  - exfalso. change (join_dot [k]) with k in H.
    change (join_dot (k' :: k2' :: q)) with (k' ++ x2e :: join_dot (k2' :: q)) in H.
    apply Hk. rewrite H. apply in_app_iff. right. left. reflexivity.
  - exfalso. change (join_dot [k']) with k' in H.
    change (join_dot (k :: k2 :: p)) with (k ++ x2e :: join_dot (k2 :: p)) in H.
    apply Hk'. rewrite <- H. apply in_app_iff. right. left. reflexivity.
  - change (join_dot (k' :: k2' :: q)) with (k' ++ x2e :: join_dot (k2' :: q)) in H.
    change (join_dot (k :: k2 :: p)) with (k ++ x2e :: join_dot (k2 :: p)) in H.
    apply split_dot in H; [|assumption|assumption]. destruct H as [-> H]. f_equal.
    apply IH; try assumption; discriminate.
Qed.

Lemma flatten_exact : forall (es : list (bytes * jv)) k x, wf_jv (JMap es) -> dotless (JMap es) ->
  dget (flatten_map (JMap es)) k = Some x <-> exists p, leaf_path (JMap es) p x /\ join_dot p = k.
Proof.
  intros es k x Hw Hd. split; [apply flatten_sound|].
  intros [p [HL Hj]]. destruct (flatten_complete _ _ _ HL) as [y Hy]. rewrite Hj in Hy.
  pose proof (flatten_sound _ _ _ Hy) as [q [HL2 Hj2]].
  assert (p = q).
  { apply join_inj; [inversion HL; discriminate|inversion HL2; discriminate| | |congruence];
      eapply leaf_path_nodot; eassumption. }
  subst q. rewrite Hy. f_equal. eapply leaf_path_fun; [exact Hw|exact HL2|exact HL].
Qed.

Lemma reordered_leaf : forall (v : jv) p x, leaf_path v p x -> forall w, reordered v w -> leaf_path w p x.
Proof.
  intros v p x H. induction H as [|a|es k v p x HI HL IH|l i v p x Hn HL IH]; intros w Hr; inversion Hr; subst.
  - constructor.
  - constructor.
  - assert (HW : exists v', In (k, v') es' /\ reordered v v').
    { clear - HI H0. induction H0 as [|[k1 v1] [k2 v2] l l' [H1 H2] HF IH]; [contradiction|]. cbn in *. subst.
      destruct HI as [[= -> ->]|HI]; [exists v2; auto|]. destruct (IH HI) as [v' [? ?]]. exists v'. auto. }
    destruct HW as [v' [HI' Hv]]. econstructor; [eapply Permutation_in; eassumption|]. apply IH. assumption.
  - assert (HW : exists v', nth_error l' i = Some v' /\ reordered v v').
    { clear - Hn H0. revert i Hn. induction H0 as [|a b l l' H1 HF IH]; intros [|i] Hn; try discriminate.
      - injection Hn as <-. exists b. auto.
      - apply IH. assumption. }
    destruct HW as [v' [Hn' Hv]]. econstructor; [exact Hn'|]. apply IH. assumption.
Qed.
Lemma join_dotted : forall p, join_dot p = dotted p.
Proof.
  unfold dotted. induction p as [|k p IH]; [reflexivity|]. destruct p as [|k2 p].
  - cbn. rewrite app_nil_r. reflexivity.
  - change (join_dot (k :: k2 :: p)) with (k ++ x2e :: join_dot (k2 :: p)). rewrite IH. reflexivity.
Qed.

Lemma get_by_path_ok : forall p (es : list (bytes * jv)) x, wf_jv (JMap es) -> p <> [] ->
  get_by_path es p = Some x <-> value_at (JMap es) p x /\ x <> JNull.
Proof.
  induction p as [|k p IH]; intros es x Hw Hp; [congruence|]. clear Hp.
  inversion Hw as [| | |? HN Hs]; subst. cbn [get_by_path].
  destruct (dget es k) as [v|] eqn:E.
  2:{ split; [discriminate|]. intros [H _]. inversion H as [|? ? v ? ? HI HV]; subst.
      rewrite (in_dget _ _ _ HN HI) in E. discriminate. }
  pose proof (dget_in _ _ _ E) as HI.
  assert (HV : value_at (JMap es) (k :: p) x <-> value_at v p x).
  { split; intros H; [|econstructor; eassumption]. inversion H as [|? ? v' ? ? HI' HV]; subst.
    rewrite (in_dget _ _ _ HN HI') in E. injection E as ->. assumption. }
  rewrite HV. destruct p as [|k2 p].
  - assert (HE : value_at v [] x <-> v = x).
    { split; intros H; [inversion H; reflexivity|subst; constructor]. }
    rewrite HE. clear. destruct v; split.
    all: try discriminate.
    all: try (intros H; injection H as <-; split; [reflexivity|discriminate]).
    all: intros [<- H]; congruence.
  - destruct v as [|a|l|es']; try (split; [discriminate|intros [H _]; inversion H]).
    apply IH; [|discriminate]. apply (Hs k _ HI).
Qed.
End P.
