From Verif Require Import Base TarModel TarSpec.

Lemma path_eqb_spec : forall a b, reflect (a = b) (path_eqb a b).
Proof. intros a b. unfold path_eqb. destruct (list_eq_dec (list_eq_dec Byte.byte_eq_dec) a b); constructor; assumption. Qed.
Lemma put_same : forall f p i, put f p i p = Some i.
Proof. intros. unfold put. destruct (path_eqb_spec p p); congruence. Qed.
Lemma put_other : forall f p i q, p <> q -> put f p i q = f q.
Proof. intros. unfold put. destruct (path_eqb_spec p q); congruence. Qed.

(** ** Names *)
Lemma split_some : forall s, split_slash s <> [].
Proof. induction s as [|c s IH]; cbn; [discriminate|]. destruct (Byte.eqb c x2f); [discriminate|]. destruct (split_slash s); discriminate. Qed.
Lemma split_app : forall a b, split_slash (a ++ x2f :: b) = split_slash a ++ split_slash b.
Proof.
  induction a as [|c a IH]; intros b; [reflexivity|]. cbn [app split_slash]. rewrite IH.
  destruct (Byte.eqb c x2f); [reflexivity|]. pose proof (split_some a). destruct (split_slash a); [congruence|reflexivity].
Qed.
Definition solid (c : comp) : Prop := bytes_eqb c [] || bytes_eqb c dot = false.
Lemma clean_go : forall root l acc b, (root = true -> b = []) -> Forall solid acc ->
  fold_left go_to (clean_parts root acc l) b = fold_left go_to l (fold_left go_to (rev acc) b).
Proof.
  induction l as [|c l IH]; intros acc b Hb Ha; [reflexivity|].
  cbn [clean_parts fold_left].
  assert (Push : forall x, fold_left go_to (rev (x :: acc)) b = go_to (fold_left go_to (rev acc) b) x).
  { intros x. cbn [rev]. rewrite fold_left_app. reflexivity. }
  destruct (bytes_eqb c [] || bytes_eqb c dot) eqn:E.
  - rewrite IH by assumption. unfold go_to at 4. rewrite E. reflexivity.
  - destruct (bytes_eqb c dotdot) eqn:D.
    + destruct acc as [|x up].
      * destruct root.
        -- rewrite IH by (assumption || constructor). rewrite (Hb eq_refl). cbn [rev fold_left]. unfold go_to at 3. rewrite E, D. reflexivity.
        -- rewrite IH by (assumption || (constructor; [exact E|constructor])). reflexivity.
      * destruct (bytes_eqb x dotdot) eqn:X.
        -- rewrite IH by (assumption || (constructor; [exact E|exact Ha])). rewrite Push. reflexivity.
        -- inversion Ha as [|? ? Sx Su]; subst. rewrite IH by assumption. f_equal.
           cbn [rev]. rewrite fold_left_app. cbn [fold_left]. unfold go_to at 2. rewrite E, D.
           unfold go_to at 2. unfold solid in Sx. rewrite Sx, X. reflexivity.
    + rewrite IH by (assumption || (constructor; [exact E|exact Ha])). rewrite Push. reflexivity.
Qed.
(** Where an entry goes. *)
Lemma join_place : forall cwd dist name, dist <> [] ->
  exists p, join dist name = Some p /\ resolve cwd p = place_in (place cwd dist) name.
Proof.
  intros cwd dist name H. destruct dist as [|c dist]; [congruence|]. exists (clean ((c :: dist) ++ x2f :: name)).
  split; [reflexivity|]. unfold resolve, clean, place_in, place. cbn [fst snd].
  assert (R : rooted ((c :: dist) ++ x2f :: name) = rooted (c :: dist)) by reflexivity. rewrite R.
  rewrite clean_go; [|intros ->; reflexivity|constructor]. cbn [rev fold_left]. rewrite split_app, fold_left_app. reflexivity.
Qed.
Lemma stays_go : forall l l0 d, stays_at (List.length l0) l = true ->
  fold_left go_to l (l0 ++ d) = fold_left go_to l l0 ++ d.
Proof.
  induction l as [|c l IH]; intros l0 d H; [reflexivity|]. cbn [stays_at fold_left] in *. unfold go_to at 2 4.
  destruct (bytes_eqb c [] || bytes_eqb c dot); [apply IH; exact H|].
  destruct (bytes_eqb c dotdot).
  - destruct l0 as [|x l0]; cbn in H; [discriminate|]. cbn [tl app]. apply IH. exact H.
  - exact (IH (c :: l0) d H).
Qed.
Lemma stays_under : forall d name, stays name = true -> under d (place_in d name).
Proof. intros d name H. exists (place_in [] name). exact (stays_go _ [] d H). Qed.

(** ** Paths above paths *)
Lemma under_refl : forall p, under p p.
Proof. intros p. exists []. reflexivity. Qed.
Lemma under_cons : forall p c q, under p q -> under p (c :: q).
Proof. intros p c q [l ->]. exists (c :: l). reflexivity. Qed.
Lemma under_inv : forall p c q, under p (c :: q) -> p = c :: q \/ under p q.
Proof. intros p c q [[|x l] E]; [left; symmetry; exact E|]. injection E as -> ->. right. exists l. reflexivity. Qed.
Lemma under_two : forall p q r, under p r -> under q r -> under p q \/ under q p.
Proof.
  intros p q r. induction r as [|c r IH]; intros Hp Hq.
  - left. destruct Hp as [l E], Hq as [l' E']. symmetry in E, E'. apply app_eq_nil in E as [_ ->]. apply app_eq_nil in E' as [_ ->]. apply under_refl.
  - destruct (under_inv _ _ _ Hp) as [->|Hp']; [right; exact Hq|].
    destruct (under_inv _ _ _ Hq) as [->|Hq']; [left; exact Hp|]. exact (IH Hp' Hq').
Qed.

(** ** One entry *)
Lemma mkdir_effect : forall p f q, fst (mkdir_all p f) q = f q \/ (f q = None /\ fst (mkdir_all p f) q = Some Dir /\ under q p).
Proof.
  induction p as [|c up IH]; intros f q; [left; reflexivity|]. cbn [mkdir_all].
  destruct (f (c :: up)) as [[|b]|] eqn:E; [left; reflexivity|left; reflexivity|].
  specialize (IH f q). destruct (mkdir_all up f) as [f1 err]. cbn [fst] in IH.
  assert (G : f1 q = f q \/ f q = None /\ f1 q = Some Dir /\ under q (c :: up)).
  { destruct IH as [A|(A & B & C)]; [left; exact A|right]. split; [exact A|]. split; [exact B|]. apply under_cons. exact C. }
  destruct err; cbn [fst]; [exact G|]. destruct (path_eqb_spec (c :: up) q) as [<-|N].
  - right. split; [exact E|]. split; [apply put_same|apply under_refl].
  - rewrite put_other by exact N. exact G.
Qed.
Lemma above_dir : forall f, sound f -> forall q p, f q <> None -> under p q -> p = q \/ f p = Some Dir.
Proof.
  intros f [R S]. induction q as [|c q IH]; intros p Hq Hp.
  - left. destruct Hp as [l E]. symmetry in E. apply app_eq_nil in E as [_ ->]. reflexivity.
  - destruct (under_inv _ _ _ Hp) as [->|Hp']; [left; reflexivity|right]. pose proof (S _ _ Hq) as D.
    destruct (IH p ltac:(congruence) Hp') as [->|A]; [exact D|exact A].
Qed.
Lemma put_sound : forall f c up i, sound f -> f up = Some Dir -> f (c :: up) <> Some Dir -> sound (put f (c :: up) i).
Proof.
  intros f c up i [R S] U N. split; [rewrite put_other by discriminate; exact R|].
  intros x p H. destruct (path_eqb_spec (c :: up) p) as [<-|Np].
  - exfalso. rewrite put_other in H; [exact (N (S _ _ H))|]. intros E. apply (f_equal (@List.length comp)) in E. cbn in E. lia.
  - rewrite put_other by exact Np. destruct (path_eqb_spec (c :: up) (x :: p)) as [E|Nx].
    + injection E as <- <-. exact U.
    + rewrite put_other in H by exact Nx. exact (S _ _ H).
Qed.
Lemma mkdir_sound : forall p f, sound f -> sound (fst (mkdir_all p f)) /\ (snd (mkdir_all p f) = false -> forall q, under q p -> fst (mkdir_all p f) q = Some Dir).
Proof.
  induction p as [|c up IH]; intros f H.
  - split; [exact H|]. intros _ q [l E]. symmetry in E. apply app_eq_nil in E as [_ ->]. exact (proj1 H).
  - cbn [mkdir_all]. destruct (f (c :: up)) as [[|b]|] eqn:E; cbn [fst snd].
    + split; [exact H|]. intros _ q Hq. destruct (above_dir f H (c :: up) q ltac:(congruence) Hq) as [->|A]; assumption.
    + split; [exact H|discriminate].
    + pose proof (mkdir_effect up f (c :: up)) as F. destruct (IH f H) as [S D]. destruct (mkdir_all up f) as [f1 err]. cbn [fst snd] in *.
      destruct err; cbn [fst snd]; [split; [exact S|discriminate]|]. specialize (D eq_refl).
      assert (N : f1 (c :: up) <> Some Dir).
      { destruct F as [->|(_ & _ & [l F])]; [congruence|]. exfalso. apply (f_equal (@List.length comp)) in F. rewrite app_length in F. cbn in F. lia. }
      split; [apply put_sound; [exact S|apply D, under_refl|exact N]|].
      intros _ q Hq. destruct (path_eqb_spec (c :: up) q) as [<-|Nq]; [apply put_same|]. rewrite put_other by exact Nq. apply D.
      destruct (under_inv _ _ _ Hq) as [->|A]; [congruence|exact A].
Qed.
Lemma mkdir_works : forall p f, (forall q b, under q p -> f q <> Some (File b)) -> snd (mkdir_all p f) = false.
Proof.
  induction p as [|c up IH]; intros f H; [reflexivity|]. cbn [mkdir_all].
  destruct (f (c :: up)) as [[|b]|] eqn:E; [reflexivity|destruct (H _ b (under_refl _) E)|].
  specialize (IH f (fun q b A => H q b (under_cons _ _ _ A))). destruct (mkdir_all up f) as [f1 err]. cbn in IH. subst err. reflexivity.
Qed.
Lemma write_effect : forall p b f q, fst (write_file p b f) q = f q \/ q = p.
Proof.
  intros [|c up] b f q; [left; reflexivity|]. cbn [write_file].
  destruct (f (c :: up)) as [[|?]|], (f up) as [[|?]|]; cbn [fst]; try (left; reflexivity);
    (destruct (path_eqb_spec (c :: up) q) as [<-|N]; [right; reflexivity|left; apply put_other; exact N]).
Qed.
Lemma write_sound : forall p b f, sound f -> sound (fst (write_file p b f)) /\
  (snd (write_file p b f) = false -> fst (write_file p b f) p = Some (File b) /\ f p <> Some Dir).
Proof.
  intros [|c up] b f H; [split; [exact H|discriminate]|]. cbn [write_file].
  destruct (f (c :: up)) as [[|?]|] eqn:E, (f up) as [[|?]|] eqn:U; cbn [fst snd];
    try (split; [exact H|discriminate]);
    (split; [apply put_sound; [exact H|exact U|congruence]|intros _; split; [apply put_same|congruence]]).
Qed.

(** ** Archives *)
Lemma under_dec : forall p q, under p q \/ ~ under p q.
Proof.
  intros p q. induction q as [|c q IH].
  - destruct p as [|c p]; [left; apply under_refl|right]. intros [l E]. destruct l; discriminate.
  - destruct (path_eqb_spec p (c :: q)) as [->|N]; [left; apply under_refl|]. destruct IH as [A|A]; [left; apply under_cons; exact A|right].
    intros X. destruct (under_inv _ _ _ X) as [Y|Y]; [exact (N Y)|exact (A Y)].
Qed.
Lemma has_dir_or : forall d l p, has_dir d l p \/ ~ has_dir d l p.
Proof.
  intros d l p. induction l as [|e l IH]; [right; intros (n & [] & _)|].
  destruct IH as [(n & A & B)|N]; [left; exists n; split; [right; exact A|exact B]|].
  destruct e as [n|n b|n b|]; try (right; intros (n' & [A|A] & B); [discriminate A|apply N; exists n'; auto]).
  destruct (under_dec p (place_in d n)) as [U|U]; [left; exists n; split; [left; reflexivity|exact U]|right].
  intros (n' & [A|A] & B); [injection A as ->; exact (U B)|apply N; exists n'; auto].
Qed.
Section Untar.
Variables (cwd : path) (dist : bytes).
Hypothesis Hdist : dist <> [].
Notation d := (place cwd dist).

Lemma one_eq : forall e f, unpack_one cwd dist e f =
  match e with
  | EBad => (f, true)
  | EDir n => mkdir_all (place_in d n) f
  | EFile n b => write_file (place_in d n) b f
  | ETorn n b => (fst (write_file (place_in d n) b f), true)
  end.
Proof using Hdist.
  intros [n|n b|n b|] f; cbn [unpack_one]; try reflexivity;
    destruct (join_place cwd dist n Hdist) as (p & -> & ->); reflexivity.
Qed.

(** What lies outside is left alone. *)
Definition kept (f f1 : fs) : Prop := forall q, ~ under d q -> f1 q = f q \/ (f q = None /\ f1 q = Some Dir /\ under q d).
Lemma one_kept : forall e f, (forall n, name_of e = Some n -> stays n = true) -> kept f (fst (unpack_one cwd dist e f)).
Proof using Hdist.
  intros e f H q Hq. rewrite one_eq. destruct e as [n|n b|n b|]; cbn [fst]; [| | |left; reflexivity];
    pose proof (stays_under d n (H n eq_refl)) as U.
  - destruct (mkdir_effect (place_in d n) f q) as [A|(A & B & C)]; [left; exact A|right]. split; [exact A|]. split; [exact B|].
    destruct (under_two _ _ _ U C) as [X|X]; [destruct (Hq X)|exact X].
  - destruct (write_effect (place_in d n) b f q) as [A|A]; [left; exact A|]. subst q. destruct (Hq U).
  - destruct (write_effect (place_in d n) b f q) as [A|A]; [left; exact A|]. subst q. destruct (Hq U).
Qed.
Lemma untar_kept : forall l f, (forall e n, In e l -> name_of e = Some n -> stays n = true) -> kept f (fst (untar cwd dist l f)).
Proof using Hdist.
  induction l as [|e l IH]; intros f H q Hq; [left; reflexivity|]. cbn [untar].
  pose proof (one_kept e f (fun n => H e n (or_introl eq_refl)) q Hq) as A.
  destruct (unpack_one cwd dist e f) as [f1 err]. cbn [fst] in A. destruct err; [exact A|].
  pose proof (IH f1 (fun e n He => H e n (or_intror He)) q Hq) as B.
  destruct A as [A|(A & A' & A'')]; [rewrite <- A; exact B|].
  destruct B as [B|(B & _ & _)]; [|congruence]. right. split; [exact A|]. split; [congruence|exact A''].
Qed.

(** Success. *)
Lemma one_sound : forall e f, sound f -> sound (fst (unpack_one cwd dist e f)).
Proof using Hdist.
  intros e f H. rewrite one_eq. destruct e as [n|n b|n b|]; cbn [fst]; [apply mkdir_sound|apply write_sound|apply write_sound|]; exact H.
Qed.
Lemma one_dir_stays : forall e f p, sound f -> snd (unpack_one cwd dist e f) = false -> f p = Some Dir -> fst (unpack_one cwd dist e f) p = Some Dir.
Proof using Hdist.
  intros e f p S. rewrite one_eq. destruct e as [n|n b|n b|]; cbn [fst snd]; intros E D; try discriminate.
  - destruct (mkdir_effect (place_in d n) f p) as [->|(A & _)]; congruence.
  - destruct (write_effect (place_in d n) b f p) as [->| ->]; [exact D|]. destruct (write_sound (place_in d n) b f S) as [_ W].
    destruct (W E) as [_ N]. congruence.
Qed.
Lemma untar_dir_stays : forall l f p, sound f -> snd (untar cwd dist l f) = false -> f p = Some Dir -> fst (untar cwd dist l f) p = Some Dir.
Proof using Hdist.
  induction l as [|e l IH]; intros f p S E D; [exact D|]. cbn [untar] in *.
  pose proof (one_dir_stays e f p S) as A. pose proof (one_sound e f S) as S1. destruct (unpack_one cwd dist e f) as [f1 err]. cbn [fst snd] in *.
  destruct err; [discriminate E|]. apply IH; [exact S1|exact E|exact (A eq_refl D)].
Qed.
Lemma has_dir_cons : forall e l p, has_dir d (e :: l) p <-> (exists n, e = EDir n /\ under p (place_in d n)) \/ has_dir d l p.
Proof.
  intros e l p. split.
  - intros (n & [->|H] & U); [left; exists n; auto|right; exists n; auto].
  - intros [(n & -> & U)|(n & H & U)]; exists n; [split; [left; reflexivity|exact U]|split; [right; exact H|exact U]].
Qed.
(** Where there is a file no directory is made. *)
Lemma file_no_dir : forall l f p b, sound f -> snd (untar cwd dist l f) = false -> f p = Some (File b) -> ~ has_dir d l p.
Proof using Hdist.
  induction l as [|e l IH]; intros f p b S E D H; [destruct H as (n & [] & _)|]. cbn [untar] in E.
  pose proof (one_sound e f S) as S1. apply has_dir_cons in H.
  assert (F : snd (unpack_one cwd dist e f) = false).
  { destruct (unpack_one cwd dist e f) as [f1 [|]]; [discriminate E|reflexivity]. }
  assert (X : exists b', fst (unpack_one cwd dist e f) p = Some (File b')).
  { rewrite one_eq in *. destruct e as [n|n c|n c|]; cbn [fst snd] in *; try discriminate.
    - destruct (mkdir_effect (place_in d n) f p) as [->|(A & _)]; [exists b; exact D|congruence].
    - destruct (write_effect (place_in d n) c f p) as [->| ->]; [exists b; exact D|]. exists c. apply (proj2 (write_sound _ c f S)). exact F. }
  destruct H as [(n & -> & U)|H].
  - destruct X as [b' X]. rewrite one_eq in X, F. destruct (mkdir_sound (place_in d n) f S) as [_ M]. rewrite (M F p U) in X. discriminate.
  - destruct X as [b' X]. destruct (unpack_one cwd dist e f) as [f1 [|]]; [discriminate F|]. exact (IH f1 p b' S1 E X H).
Qed.

Definition told (l : list entry) (f f1 : fs) (p : path) : Prop :=
  match last_content d l p with
  | Some b => f1 p = Some (File b)
  | None => (has_dir d l p -> f1 p = Some Dir) /\ (~ has_dir d l p -> f1 p = f p)
  end.
Lemma untar_told : forall l f p, sound f -> snd (untar cwd dist l f) = false -> told l f (fst (untar cwd dist l f)) p.
Proof using Hdist.
  induction l as [|e l IH]; intros f p S E.
  - split; [intros (n & [] & _)|reflexivity].
  - pose proof E as E0. unfold told. cbn [untar last_content] in *.
    assert (F : snd (unpack_one cwd dist e f) = false).
    { destruct (unpack_one cwd dist e f) as [f1 [|]]; [discriminate E|reflexivity]. }
    pose proof (one_sound e f S) as S1. rewrite one_eq in E, F, S1 |- *.
    destruct e as [n|n c|n c|]; cbn [snd] in F; try discriminate F.
    + destruct (mkdir_sound (place_in d n) f S) as [_ M]. specialize (M F). pose proof (mkdir_effect (place_in d n) f p) as Ef.
      destruct (mkdir_all (place_in d n) f) as [f1 err]. cbn [fst snd] in *. subst err.
      specialize (IH f1 p S1 E). unfold told in IH. destruct (last_content d l p) as [b|]; [exact IH|]. destruct IH as [I1 I2].
      split; intros H.
      * apply has_dir_cons in H as [(n' & H & U)|H]; [|exact (I1 H)]. injection H as <-. apply untar_dir_stays; [exact S1|exact E|exact (M p U)].
      * assert (N : ~ has_dir d l p) by (intros X; apply H, has_dir_cons; right; exact X). rewrite (I2 N).
        destruct Ef as [A|(_ & _ & U)]; [exact A|]. exfalso. apply H, has_dir_cons. left. exists n. auto.
    + destruct (write_sound (place_in d n) c f S) as [_ W]. destruct (W F) as [W1 _]. pose proof (write_effect (place_in d n) c f p) as Ef.
      destruct (write_file (place_in d n) c f) as [f1 err]. cbn [fst snd] in *. subst err.
      pose proof (IH f1 p S1 E) as I. unfold told in I. destruct (last_content d l p) as [b|]; [exact I|]. destruct I as [I1 I2].
      destruct (path_eqb_spec (place_in d n) p) as [<-|N].
      * rewrite I2; [exact W1|]. exact (file_no_dir l f1 _ c S1 E W1).
      * destruct Ef as [Ef|Ef]; [|congruence].
        split; intros H; [apply I1|rewrite I2, Ef; [reflexivity|]].
        -- apply has_dir_cons in H as [(n' & H & _)|H]; [discriminate H|exact H].
        -- intros X. apply H, has_dir_cons. right. exact X.
Qed.

(** Archives that can be unpacked. *)
Lemma untar_app : forall l1 l2 f, untar cwd dist (l1 ++ l2) f =
  (let (f1, err) := untar cwd dist l1 f in if err then (f1, true) else untar cwd dist l2 f1).
Proof.
  induction l1 as [|e l1 IH]; intros l2 f; [reflexivity|]. cbn [app untar].
  destruct (unpack_one cwd dist e f) as [f1 [|]]; [reflexivity|]. apply IH.
Qed.
Lemma last_content_in : forall l p b, last_content d l p = Some b -> exists n, In (EFile n b) l /\ place_in d n = p.
Proof.
  induction l as [|e l IH]; intros p b H; [discriminate|]. cbn [last_content] in H.
  destruct (last_content d l p) as [c|] eqn:E.
  - injection H as <-. destruct (IH _ _ E) as (n & A & B). exists n. split; [right; exact A|exact B].
  - destruct e as [n|n c|n c|]; try discriminate. destruct (path_eqb_spec (place_in d n) p) as [X|]; [|discriminate].
    injection H as <-. exists n. split; [left; reflexivity|exact X].
Qed.
Lemma write_works : forall c up b f, f (c :: up) <> Some Dir -> f up = Some Dir -> snd (write_file (c :: up) b f) = false.
Proof. intros c up b f H U. cbn [write_file]. rewrite U. destruct (f (c :: up)) as [[|?]|] eqn:E; [congruence|reflexivity|reflexivity]. Qed.

Lemma untar_works : forall l f, sound f -> empty_dir f d -> orderly d l -> snd (untar cwd dist l f) = false.
Proof using Hdist.
  intros l f S [Dd De] (Hn & Hf & Hx).
  assert (G : forall pre post, l = pre ++ post -> snd (untar cwd dist pre f) = false).
  { induction pre as [|e pre IH] using rev_ind; intros post El; [reflexivity|].
    rewrite <- app_assoc in El. cbn [app] in El. specialize (IH _ El).
    rewrite untar_app. pose proof (fun p => untar_told pre f p S IH) as T. unfold told in T.
    destruct (untar cwd dist pre f) as [f1 err]. cbn [fst snd] in *. subst err.
    cbn [untar].
    assert (Hin : In e l) by (rewrite El; apply in_or_app; right; left; reflexivity).
    assert (Hpre : forall x, In x pre -> In x l) by (intros x Hx'; rewrite El; apply in_or_app; left; exact Hx').
    assert (W : snd (unpack_one cwd dist e f1) = false).
    { rewrite one_eq by exact Hdist. destruct (Hn e Hin) as (n & Hs & [->|[b ->]]); pose proof (stays_under d n Hs) as U.
      - apply mkdir_works. intros q b Hq Eq. specialize (T q). destruct (last_content d pre q) as [b'|] eqn:L.
        + destruct (last_content_in _ _ _ L) as (n' & A & B). apply (Hx n' b' n (Hpre _ A) Hin). rewrite B. exact Hq.
        + destruct T as [T1 T2]. assert (N : ~ has_dir d pre q) by (intros X; rewrite (T1 X) in Eq; discriminate).
          rewrite (T2 N) in Eq. destruct (under_two _ _ _ U Hq) as [X|X].
          * destruct (path_eqb_spec q d) as [->|Nq]; [congruence|]. rewrite (De q X Nq) in Eq. discriminate.
          * destruct (above_dir f S d q ltac:(congruence) X) as [->|Y]; congruence.
      - destruct (Hf _ _ _ _ El) as [Nd Up]. destruct U as [k Ek].
        destruct k as [|c k]; [destruct (Nd Ek)|]. cbn [app] in Ek. rewrite Ek in *. cbn [tl] in Up.
        assert (Nf : forall b', last_content d pre d = Some b' -> False).
        { intros b' L. destruct (last_content_in _ _ _ L) as (n' & A & B). apply in_split in A as (l1 & l2 & ->).
          rewrite <- app_assoc in El. destruct (Hf _ _ _ _ El) as [Nd' _]. exact (Nd' B). }
        apply write_works.
        + intros Eq. specialize (T (c :: k ++ d)). destruct (last_content d pre (c :: k ++ d)) as [b'|] eqn:L; [congruence|].
          destruct T as [_ T2]. rewrite T2 in Eq.
          * rewrite De in Eq; [discriminate|exists (c :: k); reflexivity|exact Nd].
          * intros (n' & A & B). apply (Hx n b n' Hin (Hpre _ A)). rewrite Ek. exact B.
        + destruct Up as [Up|Up].
          * rewrite Up. specialize (T d).
            destruct (last_content d pre d) as [b'|] eqn:L; [destruct (Nf b' eq_refl)|].
            destruct (has_dir_or d pre d) as [X|X]; [exact (proj1 T X)|rewrite (proj2 T X); exact Dd].
          * specialize (T (k ++ d)). destruct (last_content d pre (k ++ d)) as [b'|] eqn:L.
            -- exfalso. destruct (last_content_in _ _ _ L) as (n' & A & B). destruct Up as (n2 & A2 & B2).
               apply (Hx n' b' n2 (Hpre _ A) (Hpre _ A2)). rewrite B. exact B2.
            -- exact (proj1 T Up). }
    destruct (unpack_one cwd dist e f1) as [f2 err]. cbn [snd] in W. subst err. reflexivity. }
  apply (G l []). rewrite app_nil_r. reflexivity.
Qed.
End Untar.
