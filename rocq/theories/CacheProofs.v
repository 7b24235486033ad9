From Verif Require Import Base UtilModel UtilProofs CacheModel CacheSpec.

Section P.
Context {K V : Type}.
Variable keqb : K -> K -> bool.
Hypothesis keqb_spec : forall a b, keqb a b = true <-> a = b.
Variable kind : V -> rkind.
(** [pres k v]: parsing the file of [k] can give [v]. *)
Variable pres : K -> V -> Prop.

Notation cache := (@cache K V).
Notation req := (@req K V).

Notation pstep := (@pstep K V keqb kind pres).
Notation preach := (@preach K V keqb kind pres).

(** * Every step makes progress *)
Definition wc (c : @cpc V) : nat := match c with CStart => 6 | CRead _ => 5 | CWait _ => 1 | _ => 0 end.
Definition wg (g : @gpc V) : nat := match g with GRun _ => 3 | GStore _ _ => 2 | GSend _ _ => 1 | _ => 0 end.
Definition wr (r : req) : nat := wc (rq_call r) + wg (rq_go r).
Definition weight (s : cache) : nat := list_sum (map wr (c_reqs s)).

Lemma sum_upd : forall (l : list req) i r r', nth_error l i = Some r ->
  list_sum (map wr (upd l i r')) + wr r = list_sum (map wr l) + wr r'.
Proof using Type.
  induction l as [|x l IH]; intros [|i] r r' H; try discriminate; cbn in H.
  - injection H as ->. cbn. unfold list_sum. lia.
  - specialize (IH i r r' H). unfold upd in *. cbn. unfold list_sum in *. lia.
Qed.

Lemma step_weight : forall s i a s', stepf keqb kind s i a = Some s' ->
  weight s' < weight s.
Proof using Type.
  clear keqb_spec pres. intros s i a s' H. unfold stepf in H. destruct (nth_error (c_reqs s) i) as [r|] eqn:Er; [|discriminate].
  destruct r as [k c g]. cbn [rq_key rq_call rq_go] in *.
  assert (W : forall c' g' st ch ps, wc c' + wg g' < wc c + wg g ->
    weight (mk_cache st ch (upd (c_reqs s) i (mk_req k c' g')) ps) < weight s).
  { intros c' g' st ch ps Hw. unfold weight. cbn [c_reqs].
    pose proof (sum_upd (c_reqs s) i _ (mk_req k c' g') Er) as HS. unfold wr at 2 4 in HS. cbn [rq_call rq_go] in HS. lia. }
  destruct a as [| |v].
  - destruct c as [|[|c|v]|c|v|]; try discriminate.
    + injection H as <-. apply W. cbn. lia.
    + injection H as <-. unfold first_time. apply W. cbn. lia.
    + injection H as <-. apply W. cbn. lia.
    + destruct (kind v); injection H as <-; try unfold first_time; apply W; cbn; lia.
    + destruct (nth_error (c_chans s) c) as [[v|]|]; try discriminate. injection H as <-. apply W. cbn. lia.
  - destruct g as [|c0|c0 v|c0 v|]; try discriminate.
    + injection H as <-. apply W. cbn. lia.
    + destruct (nth_error (c_chans s) c0) as [[v0|]|]; try discriminate. injection H as <-. apply W. cbn. lia.
  - destruct g as [|c0|c0 v0|c0 v0|]; try discriminate. injection H as <-. apply W. cbn. lia.
Qed.

(** A request step replaces request [i] only and keeps its key. *)
Lemma step_reqs : forall s i a s', stepf keqb kind s i a = Some s' ->
  exists r c g, nth_error (c_reqs s) i = Some r /\ c_reqs s' = upd (c_reqs s) i (mk_req (rq_key r) c g).
Proof using Type.
  intros s i a s' H. unfold stepf in H. destruct (nth_error (c_reqs s) i) as [r|] eqn:Er; [|discriminate].
  exists r. destruct r as [k c g]; cbn [rq_key rq_call rq_go] in *.
  destruct a as [| |v].
  - destruct c as [|[|c|v]|c|v|]; try discriminate; try (injection H as <-; do 2 eexists; split; reflexivity).
    + destruct (kind v); injection H as <-; do 2 eexists; split; reflexivity.
    + destruct (nth_error (c_chans s) c) as [[v|]|]; try discriminate. injection H as <-; do 2 eexists; split; reflexivity.
  - destruct g as [|c0|c0 v|c0 v|]; try discriminate; try (injection H as <-; do 2 eexists; split; reflexivity).
    destruct (nth_error (c_chans s) c0) as [[v0|]|]; try discriminate. injection H as <-; do 2 eexists; split; reflexivity.
  - destruct g as [|c0|c0 v0|c0 v0|]; try discriminate. injection H as <-; do 2 eexists; split; reflexivity.
Qed.

Lemma upd_same_len : forall A (l : list A) i x y, nth_error l i = Some y -> nth_error (upd l i x) i = Some x.
Proof using Type.
  intros A l i x y H. rewrite nth_error_upd, Nat.eqb_refl.
  assert (i < length l) by (apply nth_error_Some; congruence). replace (i <? length l) with true by (symmetry; apply Nat.ltb_lt; lia). reflexivity.
Qed.
Lemma upd_other : forall A (l : list A) i j x, i <> j -> nth_error (upd l i x) j = nth_error l j.
Proof using Type. intros A l i j x H. rewrite nth_error_upd. replace (Nat.eqb i j) with false by (symmetry; apply Nat.eqb_neq; lia). reflexivity. Qed.

Lemma keys_kept : forall ks n s, preach ks n s -> map rq_key (c_reqs s) = ks.
Proof using Type.
  intros ks n s H. induction H as [|n s s' H IH [i [a [Hs _]]]].
  - cbn. rewrite map_map. apply map_id.
  - destruct (step_reqs _ _ _ _ Hs) as [r [c [g [Hn ->]]]]. rewrite <- IH. clear - Hn.
    revert i Hn. induction (c_reqs s) as [|x l IHl]; intros [|i] Hn; try discriminate; cbn in Hn.
    + injection Hn as ->. reflexivity.
    + unfold upd in *. cbn. f_equal. apply IHl. exact Hn.
Qed.

(** * General safety: results belong to the requested file *)
Record gen_inv (s : cache) (ck : list K) : Prop := {
  gi_len : length ck = length (c_chans s);
  gi_store : forall k, match c_store s k with
                       | SNil => True
                       | SFut c => nth_error ck c = Some k
                       | SRes v => pres k v
                       end;
  gi_chan : forall c v, nth_error (c_chans s) c = Some (Some v) -> forall k, nth_error ck c = Some k -> pres k v;
  gi_req : forall i r, nth_error (c_reqs s) i = Some r ->
     match rq_call r with
     | CStart => rq_go r = GNone
     | CRead SNil => rq_go r = GNone
     | CRead (SFut c) => rq_go r = GNone /\ nth_error ck c = Some (rq_key r)
     | CRead (SRes v) => rq_go r = GNone /\ pres (rq_key r) v
     | CWait c => nth_error ck c = Some (rq_key r)
     | CGot v => pres (rq_key r) v
     | CPanic => True
     end /\
     match rq_go r with
     | GRun c => nth_error ck c = Some (rq_key r)
     | GStore c v | GSend c v => nth_error ck c = Some (rq_key r) /\ pres (rq_key r) v
     | _ => True
     end }.

Lemma app_nth_old : forall A (l : list A) x i y, nth_error l i = Some y -> nth_error (l ++ [x]) i = Some y.
Proof. intros A l x i y H. rewrite nth_error_app1; [exact H|]. apply nth_error_Some. congruence. Qed.
Lemma app_nth_new : forall A (l : list A) x, nth_error (l ++ [x]) (length l) = Some x.
Proof. intros. rewrite nth_error_app2 by lia. rewrite Nat.sub_diag. reflexivity. Qed.

Lemma gen_init : forall ks, gen_inv (cache_init ks) [].
Proof.
  intros ks. constructor; cbn.
  - reflexivity.
  - intros k. exact I.
  - intros c v H. destruct c; discriminate.
  - intros i r H. apply nth_error_In, in_map_iff in H. destruct H as [k [<- _]]. cbn. auto.
Qed.

Lemma store_put_get : forall f k x k', @store_put K V keqb f k x k' = if keqb k' k then x else f k'.
Proof. reflexivity. Qed.

Lemma gen_req_weaken : forall (r : req) ck x, 
     (match rq_call r with
     | CStart => rq_go r = GNone
     | CRead SNil => rq_go r = GNone
     | CRead (SFut c) => rq_go r = GNone /\ nth_error ck c = Some (rq_key r)
     | CRead (SRes v) => rq_go r = GNone /\ pres (rq_key r) v
     | CWait c => nth_error ck c = Some (rq_key r)
     | CGot v => pres (rq_key r) v
     | CPanic => True
     end /\
     match rq_go r with
     | GRun c => nth_error ck c = Some (rq_key r)
     | GStore c v | GSend c v => nth_error ck c = Some (rq_key r) /\ pres (rq_key r) v
     | _ => True
     end) ->
     (match rq_call r with
     | CStart => rq_go r = GNone
     | CRead SNil => rq_go r = GNone
     | CRead (SFut c) => rq_go r = GNone /\ nth_error (ck ++ [x]) c = Some (rq_key r)
     | CRead (SRes v) => rq_go r = GNone /\ pres (rq_key r) v
     | CWait c => nth_error (ck ++ [x]) c = Some (rq_key r)
     | CGot v => pres (rq_key r) v
     | CPanic => True
     end /\
     match rq_go r with
     | GRun c => nth_error (ck ++ [x]) c = Some (rq_key r)
     | GStore c v | GSend c v => nth_error (ck ++ [x]) c = Some (rq_key r) /\ pres (rq_key r) v
     | _ => True
     end).
Proof.
  intros [k c g] ck x. cbn [rq_key rq_call rq_go]. intros [H1 H2]. split.
  - destruct c as [|[|c|v]|c|v|]; try assumption; try (apply app_nth_old; assumption).
    destruct H1. split; [assumption|apply app_nth_old; assumption].
  - destruct g; try assumption; try (apply app_nth_old; assumption); destruct H2; (split; [apply app_nth_old|]; assumption).
Qed.

Lemma gen_first : forall s ck i k g, gen_inv s ck -> nth_error (c_reqs s) i = Some (mk_req k g GNone) ->
  gen_inv (first_time keqb s i k) (ck ++ [k]).
Proof.
  intros s ck i k g [Hl Hs Hc Hr] Hi. unfold first_time. constructor; cbn [c_store c_chans c_reqs].
  - rewrite !app_length, Hl. reflexivity.
  - intros k'. rewrite store_put_get. destruct (keqb k' k) eqn:E.
    + apply keqb_spec in E. subst. rewrite <- Hl. apply app_nth_new.
    + specialize (Hs k'). destruct (c_store s k'); try assumption. apply app_nth_old. assumption.
  - intros c v H k' Hk. destruct (Nat.lt_ge_cases c (length (c_chans s))) as [Hlt|Hge].
    + rewrite nth_error_app1 in H by assumption. rewrite nth_error_app1 in Hk by (rewrite Hl; assumption). eapply Hc; eassumption.
    + rewrite nth_error_app2 in H by assumption. destruct (c - length (c_chans s)) as [|m]; [discriminate|destruct m; discriminate].
  - intros j r Hj. destruct (Nat.eq_dec i j) as [<-|Hne].
    + rewrite (upd_same_len _ _ _ _ _ Hi) in Hj. injection Hj as <-. cbn. rewrite <- Hl. split; apply app_nth_new.
    + rewrite upd_other in Hj by assumption. apply gen_req_weaken. apply (Hr j). assumption.
Qed.

Lemma gen_step : forall s ck i a s', gen_inv s ck -> stepf keqb kind s i a = Some s' ->
  match a with AParse v => forall r, nth_error (c_reqs s) i = Some r -> pres (rq_key r) v | _ => True end ->
  exists ck', gen_inv s' ck'.
Proof.
  intros s ck i a s' HI H Ha. pose proof HI as [Hl Hs Hc Hr]. unfold stepf in H.
  destruct (nth_error (c_reqs s) i) as [[k c g]|] eqn:Er; [|discriminate].
  pose proof (Hr i _ Er) as Hri. cbn [rq_key rq_call rq_go] in *.
  assert (U : forall c' g', 
     (match c' with
     | CStart => g' = GNone
     | CRead SNil => g' = GNone
     | CRead (SFut c) => g' = GNone /\ nth_error ck c = Some k
     | CRead (SRes v) => g' = GNone /\ pres k v
     | CWait c => nth_error ck c = Some k
     | CGot v => pres k v
     | CPanic => True
     end /\
     match g' with
     | GRun c => nth_error ck c = Some k
     | GStore c v | GSend c v => nth_error ck c = Some k /\ pres k v
     | _ => True
     end) -> forall j r, nth_error (upd (c_reqs s) i (mk_req k c' g')) j = Some r ->
     match rq_call r with
     | CStart => rq_go r = GNone
     | CRead SNil => rq_go r = GNone
     | CRead (SFut c) => rq_go r = GNone /\ nth_error ck c = Some (rq_key r)
     | CRead (SRes v) => rq_go r = GNone /\ pres (rq_key r) v
     | CWait c => nth_error ck c = Some (rq_key r)
     | CGot v => pres (rq_key r) v
     | CPanic => True
     end /\
     match rq_go r with
     | GRun c => nth_error ck c = Some (rq_key r)
     | GStore c v | GSend c v => nth_error ck c = Some (rq_key r) /\ pres (rq_key r) v
     | _ => True
     end).
  { intros c' g' HU j r Hj. destruct (Nat.eq_dec i j) as [<-|Hne].
    - rewrite (upd_same_len _ _ _ _ _ Er) in Hj. injection Hj as <-. exact HU.
    - rewrite upd_other in Hj by assumption. apply (Hr j). assumption. }
  assert (CH : forall c0 v0, nth_error ck c0 = Some k -> pres k v0 ->
    forall c v, nth_error (upd (c_chans s) c0 (Some v0)) c = Some (Some v) -> forall k', nth_error ck c = Some k' -> pres k' v).
  { intros c0 v0 Hck Hp c1 v1 Hv k' Hk'. rewrite nth_error_upd in Hv. destruct (Nat.eqb_spec c0 c1) as [<-|Hne].
    - destruct (c0 <? length (c_chans s)); [|discriminate]. injection Hv as <-. congruence.
    - eapply Hc; eassumption. }
  assert (CN : forall c0 c v, nth_error (upd (c_chans s) c0 None) c = Some (Some v) -> forall k', nth_error ck c = Some k' -> pres k' v).
  { intros c0 c1 v1 Hv k' Hk'. rewrite nth_error_upd in Hv. destruct (Nat.eqb_spec c0 c1) as [<-|Hne].
    - destruct (c0 <? length (c_chans s)); discriminate.
    - eapply Hc; eassumption. }
  destruct a as [| |v].
  - destruct c as [|[|c|v]|c|v|]; try discriminate.
    + injection H as <-. exists ck. constructor; cbn [c_store c_chans c_reqs]; try assumption. apply U. destruct Hri as [-> _].
      split; [|exact I]. specialize (Hs k). destruct (c_store s k); auto.
    + injection H as <-. exists (ck ++ [k]). destruct Hri as [-> _]. eapply gen_first; eassumption.
    + injection H as <-. exists ck. constructor; cbn [c_store c_chans c_reqs]; try assumption. apply U. destruct Hri as [[-> ?] _]. auto.
    + destruct Hri as [[-> Hp] _]. destruct (kind v); injection H as <-.
      * exists (ck ++ [k]). eapply gen_first; eassumption.
      * exists (ck ++ [k]). constructor; cbn [c_store c_chans c_reqs].
        -- rewrite !app_length, Hl. reflexivity.
        -- intros k'. specialize (Hs k'). destruct (c_store s k'); try assumption. apply app_nth_old. assumption.
        -- intros c v0 Hv k' Hk. destruct (Nat.lt_ge_cases c (length (c_chans s))) as [Hlt|Hge].
           ++ rewrite nth_error_app1 in Hv by assumption. rewrite nth_error_app1 in Hk by (rewrite Hl; assumption). eapply Hc; eassumption.
           ++ rewrite nth_error_app2 in Hv by assumption. rewrite nth_error_app2 in Hk by (rewrite Hl; assumption). rewrite Hl in Hk.
              destruct (c - length (c_chans s)) as [|m]; [|destruct m; discriminate]. cbn in Hv, Hk. congruence.
        -- intros j r Hj. destruct (Nat.eq_dec i j) as [<-|Hne].
           ++ rewrite (upd_same_len _ _ _ _ _ Er) in Hj. injection Hj as <-. cbn. rewrite <- Hl. split; [apply app_nth_new|exact I].
           ++ rewrite upd_other in Hj by assumption. apply gen_req_weaken. apply (Hr j). assumption.
      * exists ck. constructor; cbn [c_store c_chans c_reqs]; try assumption. apply U. auto.
    + destruct (nth_error (c_chans s) c) as [[v|]|] eqn:Ev; try discriminate. injection H as <-. exists ck.
      constructor; cbn [c_store c_chans c_reqs]; try assumption.
      * rewrite upd_length. assumption.
      * apply CN.
      * apply U. split; [|apply Hri]. eapply Hc; [eassumption|apply Hri].
  - destruct g as [|c0|c0 v|c0 v|]; try discriminate.
    + injection H as <-. exists ck. destruct Hri as [H1 [H2 H3]].
      constructor; cbn [c_store c_chans c_reqs]; try assumption.
      * intros k'. rewrite store_put_get. destruct (keqb k' k) eqn:E; [apply keqb_spec in E; subst; assumption|apply Hs].
      * apply U. split; [|auto]. destruct c as [|[|c|v0]|c|v0|]; try discriminate; try assumption; destruct H1; discriminate.
    + destruct (nth_error (c_chans s) c0) as [[v0|]|] eqn:Ev; try discriminate. injection H as <-. exists ck.
      destruct Hri as [H1 [H2 H3]].
      constructor; cbn [c_store c_chans c_reqs]; try assumption.
      * rewrite upd_length. assumption.
      * apply CH; assumption.
      * apply U. split; [|exact I]. destruct c as [|[|c|v0]|c|v0|]; try discriminate; try assumption; destruct H1; discriminate.
  - destruct g as [|c0|c0 v0|c0 v0|]; try discriminate. injection H as <-. exists ck. destruct Hri as [H1 H2].
    constructor; cbn [c_store c_chans c_reqs]; try assumption.
    apply U. split; [|split; [assumption|apply (Ha _ eq_refl)]]. destruct c as [|[|c|v1]|c|v1|]; try discriminate; try assumption; destruct H1; discriminate.
Qed.

Lemma gen_reach : forall ks n s, preach ks n s -> exists ck, gen_inv s ck.
Proof.
  intros ks n s H. induction H as [|n s s' H [ck IH] [i [a [Hs Ha]]]].
  - exists []. apply gen_init.
  - eapply gen_step; eassumption.
Qed.

Lemma got_right : forall ks n s i r v, preach ks n s -> nth_error (c_reqs s) i = Some r -> rq_call r = CGot v ->
  nth_error ks i = Some (rq_key r) /\ pres (rq_key r) v.
Proof.
  intros ks n s i r v H Hi Hg. split.
  - rewrite <- (keys_kept _ _ _ H). apply map_nth_error. assumption.
  - destruct (gen_reach _ _ _ H) as [ck HI]. pose proof (gi_req _ _ HI i r Hi) as Hr. rewrite Hg in Hr. apply Hr.
Qed.

Lemma reach_bound : forall ks n s, preach ks n s -> n + weight s <= 6 * length ks.
Proof using Type.
  clear keqb_spec.
  intros ks n s H. induction H as [|n s s' H IH [i [a [Hs Ha]]]].
  - unfold weight. cbn [cache_init c_reqs]. rewrite map_map. induction ks as [|k ks IHk]; cbn in *; unfold list_sum in *; lia.
  - pose proof (step_weight _ _ _ _ Hs). lia.
Qed.

(** * One request per key *)
Definition chan_of (r : req) : list nat := match rq_call r with CWait c => [c] | _ => [] end.
Definition parsed (g : @gpc V) : nat := match g with GNone | GRun _ => 0 | _ => 1 end.
Variable keq_dec : forall a b : K, {a = b} + {a <> b}.

Record one_inv (s : cache) : Prop := {
  oi_req : forall i r, nth_error (c_reqs s) i = Some r ->
    match rq_call r, rq_go r with
    | CStart, GNone => c_store s (rq_key r) = SNil
    | CRead SNil, GNone => c_store s (rq_key r) = SNil
    | CWait c, GRun c' => c = c' /\ nth_error (c_chans s) c = Some None
    | CWait c, GStore c' v | CWait c, GSend c' v => c = c' /\ nth_error (c_chans s) c = Some None
    | CWait c, GDone => exists v, nth_error (c_chans s) c = Some (Some v)
    | CGot v, GDone => True
    | _, _ => False
    end;
  oi_own : forall i j ri rj c, nth_error (c_reqs s) i = Some ri -> nth_error (c_reqs s) j = Some rj ->
    rq_call ri = CWait c -> rq_call rj = CWait c -> i = j;
  oi_cnt : forall i r, nth_error (c_reqs s) i = Some r -> count_occ keq_dec (c_parses s) (rq_key r) = parsed (rq_go r);
  oi_cnt0 : forall k, ~ In k (map rq_key (c_reqs s)) -> count_occ keq_dec (c_parses s) k = 0;
  oi_keys : forall i j ri rj, nth_error (c_reqs s) i = Some ri -> nth_error (c_reqs s) j = Some rj ->
    rq_key ri = rq_key rj -> i = j }.

Lemma one_init : forall ks, NoDup ks -> one_inv (cache_init ks).
Proof.
  intros ks HN. assert (G : forall i r, nth_error (c_reqs (cache_init (V:=V) ks)) i = Some r ->
    exists k, r = mk_req k CStart GNone /\ nth_error ks i = Some k).
  { intros i r H. cbn in H. rewrite nth_error_map in H. destruct (nth_error ks i) as [k|]; [|discriminate]. injection H as <-. exists k. auto. }
  constructor.
  - intros i r H. destruct (G _ _ H) as [k [-> _]]. reflexivity.
  - intros i j ri rj c Hi Hj Hc. destruct (G _ _ Hi) as [k [-> _]]. discriminate Hc.
  - intros i r H. destruct (G _ _ H) as [k [-> _]]. reflexivity.
  - reflexivity.
  - intros i j ri rj Hi Hj Hk. destruct (G _ _ Hi) as [k [-> H1]]. destruct (G _ _ Hj) as [k' [-> H2]]. cbn in Hk. subst.
    apply (proj1 (NoDup_nth_error ks) HN); [apply nth_error_Some|]; congruence.
Qed.

Definition req_ok (st : K -> @sval V) (ch : list (option V)) (r : req) : Prop :=
    match rq_call r, rq_go r with
    | CStart, GNone => st (rq_key r) = SNil
    | CRead SNil, GNone => st (rq_key r) = SNil
    | CWait c, GRun c' => c = c' /\ nth_error ch c = Some None
    | CWait c, GStore c' v | CWait c, GSend c' v => c = c' /\ nth_error ch c = Some None
    | CWait c, GDone => exists v, nth_error ch c = Some (Some v)
    | CGot v, GDone => True
    | _, _ => False
    end.

Lemma req_ok_ext : forall st ch st' ch' r, req_ok st ch r -> st' (rq_key r) = st (rq_key r) ->
  (forall c, rq_call r = CWait c -> nth_error ch' c = nth_error ch c) -> req_ok st' ch' r.
Proof.
  intros st ch st' ch' [k c g] H Hs Hc. unfold req_ok in *. cbn [rq_key rq_call rq_go] in *.
  destruct c as [|[|c|v]|c|v|]; try assumption; try (destruct g; congruence).
  rewrite (Hc c eq_refl). assumption.
Qed.

Lemma one_step_frame : forall s i r c g st ch ps,
  one_inv s -> nth_error (c_reqs s) i = Some r ->
  (forall j rj, j <> i -> nth_error (c_reqs s) j = Some rj -> st (rq_key rj) = c_store s (rq_key rj)) ->
  (forall j rj cj, j <> i -> nth_error (c_reqs s) j = Some rj -> rq_call rj = CWait cj -> nth_error ch cj = nth_error (c_chans s) cj) ->
  req_ok st ch (mk_req (rq_key r) c g) ->
  (forall c0, c = CWait c0 -> forall j rj, j <> i -> nth_error (c_reqs s) j = Some rj -> rq_call rj <> CWait c0) ->
  ((ps = c_parses s /\ parsed g = parsed (rq_go r)) \/ (ps = c_parses s ++ [rq_key r] /\ parsed g = S (parsed (rq_go r)))) ->
  one_inv (mk_cache st ch (upd (c_reqs s) i (mk_req (rq_key r) c g)) ps).
Proof.
  intros s i r c g st ch ps [H1 H2 H3 H4 H5] Hi Hst Hch Hok Hown Hps.
  assert (HK : forall k, k <> rq_key r -> count_occ keq_dec ps k = count_occ keq_dec (c_parses s) k).
  { intros k Hk. destruct Hps as [[-> _]|[-> _]]; [reflexivity|]. rewrite count_occ_app. cbn.
    destruct (keq_dec (rq_key r) k); [congruence|lia]. }
  assert (HI : forall j rj, nth_error (upd (c_reqs s) i (mk_req (rq_key r) c g)) j = Some rj ->
    (j = i /\ rj = mk_req (rq_key r) c g) \/ (j <> i /\ nth_error (c_reqs s) j = Some rj)).
  { intros j rj Hj. destruct (Nat.eq_dec i j) as [<-|Hne].
    - rewrite (upd_same_len _ _ _ _ _ Hi) in Hj. injection Hj as <-. auto.
    - rewrite upd_other in Hj by assumption. auto. }
  constructor; cbn [c_store c_chans c_reqs c_parses].
  - intros j rj Hj. destruct (HI _ _ Hj) as [[-> ->]|[Hne Hj']]; [exact Hok|].
    apply (req_ok_ext (c_store s) (c_chans s)); [apply (H1 j rj Hj')|apply (Hst j rj Hne Hj')|]. intros cj Hcj. apply (Hch j rj cj Hne Hj' Hcj).
  - intros j j' rj rj' c0 Hj Hj' Hc Hc'. destruct (HI _ _ Hj) as [[-> ->]|[Hne Hjo]], (HI _ _ Hj') as [[-> ->]|[Hne' Hjo']].
    + reflexivity.
    + cbn in Hc. exfalso. apply (Hown c0 Hc j' rj' Hne' Hjo' Hc').
    + cbn in Hc'. exfalso. apply (Hown c0 Hc' j rj Hne Hjo Hc).
    + apply (H2 j j' rj rj' c0); assumption.
  - intros j rj Hj. destruct (HI _ _ Hj) as [[-> ->]|[Hne Hj']].
    + cbn [rq_key rq_go]. pose proof (H3 i r Hi) as HC. destruct Hps as [[-> Hg]|[-> Hg]]; [congruence|].
      rewrite count_occ_app. cbn. destruct (keq_dec (rq_key r) (rq_key r)); [|congruence]. lia.
    + rewrite HK; [apply (H3 j rj Hj')|]. intros E. apply Hne. apply (H5 j i rj r); assumption.
  - intros k Hk. assert (HM : map rq_key (upd (c_reqs s) i (mk_req (rq_key r) c g)) = map rq_key (c_reqs s)).
    { clear - Hi. revert i Hi. induction (c_reqs s) as [|x l IHl]; intros [|i] Hn; try discriminate; cbn in Hn.
      + injection Hn as ->. reflexivity.
      + unfold upd in *. cbn. f_equal. apply IHl. exact Hn. }
    rewrite HM in Hk. rewrite HK; [apply H4; assumption|]. intros ->. apply Hk. apply in_map. eapply nth_error_In. exact Hi.
  - intros j j' rj rj' Hj Hj' Hk. destruct (HI _ _ Hj) as [[-> ->]|[Hne Hjo]], (HI _ _ Hj') as [[-> ->]|[Hne' Hjo']].
    + reflexivity.
    + symmetry. apply (H5 j' i rj' r); auto.
    + apply (H5 j i rj r); auto.
    + apply (H5 j j' rj rj'); assumption.
Qed.

Lemma put_other : forall s i (r rj : req) j x, one_inv s -> nth_error (c_reqs s) i = Some r -> nth_error (c_reqs s) j = Some rj -> j <> i ->
  store_put keqb (c_store s) (rq_key r) x (rq_key rj) = c_store s (rq_key rj).
Proof.
  intros s i r rj j x HI Hi Hj Hne. rewrite store_put_get. destruct (keqb (rq_key rj) (rq_key r)) eqn:E; [|reflexivity].
  apply keqb_spec in E. exfalso. apply Hne. apply (oi_keys s HI j i rj r); assumption.
Qed.

Lemma one_chan_lt : forall s i r c, one_inv s -> nth_error (c_reqs s) i = Some r -> rq_call r = CWait c -> c < length (c_chans s).
Proof.
  intros s i r c HI Hi Hc. pose proof (oi_req s HI i r Hi) as Hr. rewrite Hc in Hr. apply nth_error_Some.
  destruct (rq_go r); try contradiction; try (destruct Hr as [_ Hr]; congruence). destruct Hr as [v Hr]. congruence.
Qed.

Lemma one_step : forall s i a s', one_inv s -> stepf keqb kind s i a = Some s' -> one_inv s'.
Proof.
  intros s i a s' HI H. unfold stepf in H.
  destruct (nth_error (c_reqs s) i) as [r|] eqn:Er; [|discriminate].
  pose proof (oi_req s HI i r Er) as Hr.
  destruct a as [| |v].
  - destruct (rq_call r) as [|[|c|v]|c|v|] eqn:Ec; try discriminate; try contradiction.
    + destruct (rq_go r) eqn:Eg; try contradiction. injection H as <-. apply one_step_frame; auto.
      * unfold req_ok. cbn [rq_key rq_call rq_go]. rewrite Hr. reflexivity.
      * intros; discriminate.
      * left. rewrite Eg. auto.
    + destruct (rq_go r) eqn:Eg; try contradiction. injection H as <-. unfold first_time. apply one_step_frame; auto.
      * intros j rj Hne Hj. eapply put_other; eassumption.
      * intros j rj cj Hne Hj Hcj. rewrite nth_error_app1; [reflexivity|]. eapply one_chan_lt; eassumption.
      * unfold req_ok. cbn. split; [reflexivity|apply app_nth_new].
      * intros c0 [= <-] j rj Hne Hj Hcj. pose proof (one_chan_lt s j rj _ HI Hj Hcj). lia.
      * left. rewrite Eg. auto.
    + destruct (nth_error (c_chans s) c) as [[v|]|] eqn:Ev; try discriminate. injection H as <-.
      assert (Eg : rq_go r = GDone).
      { destruct (rq_go r); try contradiction; try (destruct Hr as [_ Hr]; congruence). reflexivity. }
      apply one_step_frame; auto.
      * intros j rj cj Hne Hj Hcj. apply upd_other. intros ->. apply Hne. apply (oi_own s HI j i rj r cj); assumption.
      * unfold req_ok. cbn. rewrite Eg. exact I.
      * intros; discriminate.
  - destruct (rq_go r) as [|c0|c0 v|c0 v|] eqn:Eg; try discriminate.
    + injection H as <-. destruct (rq_call r) as [|[|c|v1]|c|v1|] eqn:Ec; try contradiction. destruct Hr as [-> Hr].
      apply one_step_frame; auto.
      * intros j rj Hne Hj. eapply put_other; eassumption.
      * unfold req_ok. cbn. auto.
      * intros c1 [= <-] j rj Hne Hj Hcj. apply Hne. apply (oi_own s HI j i rj r c0); assumption.
      * left. rewrite Eg. auto.
    + destruct (rq_call r) as [|[|c|v1]|c|v1|] eqn:Ec; try contradiction. destruct Hr as [-> Hr].
      rewrite Hr in H. injection H as <-. apply one_step_frame; auto.
      * intros j rj cj Hne Hj Hcj. apply upd_other. intros ->. apply Hne. apply (oi_own s HI j i rj r cj); assumption.
      * unfold req_ok. cbn. exists v. eapply upd_same_len. exact Hr.
      * intros c1 [= <-] j rj Hne Hj Hcj. apply Hne. apply (oi_own s HI j i rj r c0); assumption.
      * left. rewrite Eg. auto.
  - destruct (rq_go r) as [|c0|c0 v0|c0 v0|] eqn:Eg; try discriminate. injection H as <-.
    destruct (rq_call r) as [|[|c|v1]|c|v1|] eqn:Ec; try contradiction. destruct Hr as [-> Hr].
    apply one_step_frame; auto.
    + unfold req_ok. cbn. auto.
    + intros c1 [= <-] j rj Hne Hj Hcj. apply Hne. apply (oi_own s HI j i rj r c0); assumption.
    + right. rewrite Eg. auto.
Qed.

Lemma one_reach : forall ks n s, NoDup ks -> preach ks n s -> one_inv s.
Proof.
  intros ks n s HN H. induction H as [|n s s' H IH [i [a [Hs _]]]]; [apply one_init; assumption|].
  eapply one_step; eassumption.
Qed.

(** A state that cannot move has answered every call. *)
Lemma one_stuck : forall ks n s, NoDup ks -> (forall k, exists v, pres k v) -> preach ks n s -> (forall s', ~ pstep s s') ->
  forall i r, nth_error (c_reqs s) i = Some r -> exists v, rq_call r = CGot v.
Proof.
  intros ks n s HN Hp H Hst i r Hi. pose proof (one_reach _ _ _ HN H) as HI. pose proof (oi_req s HI i r Hi) as Hr.
  assert (Hno : forall a s', (match a with AParse v => pres (rq_key r) v | _ => True end) -> stepf keqb kind s i a <> Some s').
  { intros a s' Ha E. apply (Hst s'). exists i, a. split; [exact E|]. destruct a; auto. intros r0 Hr0. rewrite Hi in Hr0. injection Hr0 as <-. exact Ha. }
  unfold stepf in Hno. rewrite Hi in Hno.
  destruct (rq_call r) as [|[|c|v]|c|v|] eqn:Ec; try contradiction.
  - exfalso. eapply (Hno ACall); [exact I|reflexivity].
  - exfalso. eapply (Hno ACall); [exact I|reflexivity].
  - exfalso. destruct (rq_go r) as [|c0|c0 v0|c0 v0|] eqn:Eg; try contradiction.
    + destruct (Hp (rq_key r)) as [v Hv]. eapply (Hno (AParse v)); [exact Hv|reflexivity].
    + eapply (Hno AGo); [exact I|reflexivity].
    + destruct Hr as [-> Hr]. eapply (Hno AGo); [exact I|]. cbn. rewrite Hr. reflexivity.
    + destruct Hr as [v Hr]. eapply (Hno ACall); [exact I|]. cbn. rewrite Hr. reflexivity.
  - exists v. reflexivity.
Qed.

Lemma one_safe : forall ks n s, NoDup ks -> preach ks n s ->
  (forall i r, nth_error (c_reqs s) i = Some r -> rq_call r <> CPanic) /\ (forall k, count_occ keq_dec (c_parses s) k <= 1).
Proof.
  intros ks n s HN H. pose proof (one_reach _ _ _ HN H) as HI. split.
  - intros i r Hi E. pose proof (oi_req s HI i r Hi) as Hr. rewrite E in Hr. exact Hr.
  - intros k. destruct (in_dec keq_dec k (map rq_key (c_reqs s))) as [Hin|Hin].
    + apply in_map_iff in Hin. destruct Hin as [r [<- Hin]]. apply In_nth_error in Hin. destruct Hin as [i Hi].
      rewrite (oi_cnt s HI i r Hi). destruct (rq_go r); cbn; lia.
    + rewrite (oi_cnt0 s HI k Hin). lia.
Qed.
End P.
