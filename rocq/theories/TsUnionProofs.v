(** Union and intersection types are grouped as written. *)
From Coq Require Import Lia Nat.
From Verif Require Import Base TokenModel LexModel ParseBase ExprModel ExprFuel TsUnionModel TsUnionSpec.

Lemma op_or : forall s, at_tok T_BIT_OR s = true -> at_op s = true /\ pcd s = 8 /\ at_tok T_BIT_AND s = false.
Proof.
  intros s H. unfold at_op, pcd, at_tok in *. rewrite H. unfold pval in *. destruct (t_val (peek s)); try discriminate H. repeat split; reflexivity.
Qed.
Lemma op_and : forall s, at_tok T_BIT_AND s = true -> at_op s = true /\ pcd s = 10 /\ at_tok T_BIT_OR s = false.
Proof.
  intros s H. unfold at_op, pcd, at_tok in *. rewrite H, Bool.orb_true_r. unfold pval in *. destruct (t_val (peek s)); try discriminate H. repeat split; reflexivity.
Qed.
Lemma no_op : forall s, at_tok T_BIT_OR s = false -> at_tok T_BIT_AND s = false -> at_op s = false.
Proof. intros s H K. unfold at_op. rewrite H, K. reflexivity. Qed.

Section Union.
Variables (A : Type) (prim : pst -> pres A) (is_fn : A -> bool).
Notation union_at := (union_at A prim is_fn).
Notation union_loop := (union_loop A prim is_fn).
Notation rhs_at := (rhs_at A prim is_fn).

Lemma at_eq : forall fuel can_fn lhs min s, union_at (S fuel) can_fn lhs min s =
      pbind (match lhs with
             | Some t => POk (Some t) s
             | None => if at_op s then POk None s else pbind (prim s) (fun a s1 => POk (Some (TOne a)) s1)
             end) (fun lhs s1 =>
      match lhs with
      | Some (TOne a) => if is_fn a && negb can_fn then POk (TOne a) s1 else union_loop fuel lhs None None [] min s1
      | _ => union_loop fuel lhs None None [] min s1
      end).
Proof. reflexivity. Qed.
Lemma loop_eq : forall fuel lhs rhs nt elems min s, union_loop (S fuel) lhs rhs nt elems min s =
      if negb (at_op s) || Nat.ltb (pcd s) min then
        match lhs, rhs with Some t, _ => POk t s | None, Some t => POk t s | None, None => PPanic end
      else
        let ue := match nt with
                  | Some u => (u, elems)
                  | None => (at_tok T_BIT_OR s, match lhs with Some t => [t] | None => [] end)
                  end in
        pbind (prim (next s)) (fun a s1 =>
        pbind (rhs_at fuel (TOne a) (pcd s) s1) (fun x s2 =>
        let es := snd ue ++ [fst x] in
        match lhs with
        | Some _ =>
            if Nat.ltb (pcd s2) (snd x)
            then union_loop fuel (Some (if fst ue then TUnion es else TInter es)) (Some (fst x)) None es min s2
            else union_loop fuel lhs (Some (fst x)) (Some (fst ue)) es min s2
        | None => union_loop fuel None (Some (fst x)) (Some (fst ue)) es min s2
        end)).
Proof. reflexivity. Qed.
Lemma rhs_eq : forall fuel r p s, rhs_at (S fuel) r p s =
      if at_op s && Nat.ltb p (pcd s) then
        let p := pcd s in pbind (union_at fuel false (Some r) p s) (fun r s1 => rhs_at fuel r p s1)
      else POk (r, p) s.
Proof. reflexivity. Qed.

(** ** More fuel *)
Lemma union_le : forall n m, n <= m ->
  (forall c lhs min s, ple (union_at n c lhs min s) (union_at m c lhs min s)) /\
  (forall lhs rhs nt es min s, ple (union_loop n lhs rhs nt es min s) (union_loop m lhs rhs nt es min s)) /\
  (forall r p s, ple (rhs_at n r p s) (rhs_at m r p s)).
Proof.
  induction n as [|n IH]; intros m Le; [repeat split; intros; left; reflexivity|]. destruct m as [|m]; [lia|].
  destruct (IH m ltac:(lia)) as (I1 & I2 & I3). repeat split; intros; rewrite ?at_eq, ?loop_eq, ?rhs_eq.
  - apply ple_bind; [apply ple_refl|]. intros o s1. destruct o as [[a|l|l]|]; try apply I2. destruct (is_fn a && negb c); [apply ple_refl|apply I2].
  - destruct (negb (at_op s) || _); [apply ple_refl|]. cbv zeta. apply ple_bind; [apply ple_refl|]. intros a s1.
    apply ple_bind; [apply I3|]. intros x s2. destruct lhs; [destruct (Nat.ltb _ _)|]; apply I2.
  - destruct (at_op s && _); [|apply ple_refl]. cbv zeta. apply ple_bind; [apply I1|]. intros. apply I3.
Qed.
Lemma union_same : forall n m c lhs min s t s1 u s2, union_at n c lhs min s = POk t s1 -> union_at m c lhs min s = POk u s2 -> t = u /\ s1 = s2.
Proof.
  intros n m c lhs min s t s1 u s2 H K.
  assert (E : union_at n c lhs min s = union_at m c lhs min s).
  { destruct (Nat.le_ge_cases n m) as [L|L]; destruct (union_le _ _ L) as (I & _); destruct (I c lhs min s) as [E|E]; congruence. }
  rewrite H, K in E. injection E as -> ->. auto.
Qed.

(** ** What is accepted is written by the grammar *)
Inductive tail : pst -> pst -> Prop :=
| T_end s : tail s s
| T_more s b s1 s' : at_op s = true -> prim (next s) = POk b s1 -> tail s1 s' -> tail s s'.
Lemma tail_app : forall s s1 s2, tail s s1 -> tail s1 s2 -> tail s s2.
Proof. intros s s1 s2 H K. induction H; [exact K|]. eapply T_more; eauto. Qed.
Lemma parts_tail : forall n,
  (forall c t min s u s', union_at n c (Some t) min s = POk u s' -> tail s s') /\
  (forall lhs rhs nt es min s u s', union_loop n lhs rhs nt es min s = POk u s' -> tail s s' /\ (at_op s' = false \/ pcd s' < min)) /\
  (forall r p s u s', rhs_at n r p s = POk u s' -> tail s s').
Proof.
  induction n as [|n (I1 & I2 & I3)]; [repeat split; intros; discriminate|].
  split; [|split]; intros; rewrite ?at_eq, ?loop_eq, ?rhs_eq in H.
  - cbn [pbind] in H. destruct t as [a|l|l]; [destruct (is_fn a && negb c); [injection H as <- <-; constructor|]| |]; apply I2 in H; apply H.
  - destruct (at_op s) eqn:O; cbn [negb orb] in H.
    2: { assert (E : s = s') by (destruct lhs; [injection H as <- <-; reflexivity|destruct rhs; [injection H as <- <-; reflexivity|discriminate]]).
         subst s'. split; [constructor|left; exact O]. }
    destruct (Nat.ltb (pcd s) min) eqn:M.
    { assert (E : s = s') by (destruct lhs; [injection H as <- <-; reflexivity|destruct rhs; [injection H as <- <-; reflexivity|discriminate]]).
      subst s'. split; [constructor|right; apply Nat.ltb_lt; exact M]. }
    cbv zeta in H. destruct (prim (next s)) as [a s1| | |] eqn:P; try discriminate H. cbn [pbind] in H.
    destruct (rhs_at n (TOne a) (pcd s) s1) as [x s2| | |] eqn:R; try discriminate H. cbn [pbind] in H. apply I3 in R.
    assert (K : tail s2 s' /\ (at_op s' = false \/ pcd s' < min)) by (destruct lhs; [destruct (Nat.ltb (pcd s2) (snd x))|]; apply I2 in H; exact H).
    destruct K as [K E]. split; [|exact E]. eapply T_more; [exact O|exact P|]. eapply tail_app; eauto.
  - destruct (at_op s && _); [|injection H as <- <-; constructor]. cbv zeta in H.
    destruct (union_at n false (Some r) (pcd s) s) as [x s1| | |] eqn:R; try discriminate H. cbn [pbind] in H. apply I1 in R. apply I3 in H. eapply tail_app; eauto.
Qed.
Lemma tail_union : forall s1 z, tail s1 z -> at_op z = false -> forall s a, prim s = POk a s1 -> exists gs, union prim s gs z.
Proof.
  intros s1 z H. induction H as [s1|s1 b s2 z O P H IH]; intros E s a Q.
  - apply Bool.orb_false_iff in E. destruct E as [E1 E2]. exists [[a]]. eapply U_last; [exact Q|constructor; exact E2|exact E1].
  - destruct (IH E _ _ P) as [gs U]. destruct (at_tok T_BIT_OR s1) eqn:B.
    + exists ([a] :: gs). eapply U_more; [exact Q|constructor; exact (proj2 (proj2 (op_or _ B)))|exact B|exact U].
    + assert (C : at_tok T_BIT_AND s1 = true) by (unfold at_op in O; rewrite B in O; exact O). inversion U; subst.
      * eexists. eapply U_last; [exact Q|eapply R_more; [exact C|eassumption|eassumption]|assumption].
      * eexists. eapply U_more; [exact Q|eapply R_more; [exact C|eassumption|eassumption]|eassumption|eassumption].
Qed.
(** A function type ends before anything but | and &: it takes these with it. *)
Hypothesis fn_ends : forall s a s1, prim s = POk a s1 -> is_fn a = true -> at_op s1 = false.
Lemma accepted_union : forall n s t z, ts_typ A prim is_fn n s = POk t z -> at_op s = false -> exists gs, union prim s gs z.
Proof using fn_ends.
  intros [|n] s t z H O; [discriminate|]. unfold ts_typ in H. rewrite at_eq in H. rewrite O in H.
  destruct (prim s) as [a s1| | |] eqn:P; try discriminate H. cbn [pbind] in H. destruct (is_fn a && negb false) eqn:F.
  - injection H as <- <-. apply Bool.andb_true_iff in F. eapply tail_union; [constructor|exact (fn_ends _ _ _ P (proj1 F))|exact P].
  - apply (proj1 (proj2 (parts_tail n))) in H. destruct H as [T [E|E]]; [|lia]. eapply tail_union; eauto.
Qed.

(** ** What is written by the grammar is accepted, with its grouping *)
Definition loops (lhs : typ A) (nt : option bool) (es : list (typ A)) (min : nat) (s : pst) (t : typ A) (z : pst) : Prop :=
  exists n, forall m rhs, n <= m -> union_loop m (Some lhs) rhs nt es min s = POk t z.
Definition open_loops (lhs : typ A) (min : nat) (s : pst) (t : typ A) (z : pst) : Prop := forall es, loops lhs None es min s t z.
Lemma begins : forall lhs min s t z, loops lhs (Some (at_tok T_BIT_OR s)) [lhs] min s t z -> open_loops lhs min s t z.
Proof. intros lhs min s t z [n H] es. exists (S n). intros [|m] rhs L; [lia|]. rewrite <- (H (S m) rhs ltac:(lia)). reflexivity. Qed.
Lemma stops : forall lhs min s, at_op s = false \/ pcd s < min -> open_loops lhs min s lhs s.
Proof.
  intros lhs min s H es. exists 1. intros [|m] rhs L; [lia|]. rewrite loop_eq.
  destruct H as [H|H]; [rewrite H; reflexivity|]. apply Nat.ltb_lt in H. rewrite H, Bool.orb_true_r. reflexivity.
Qed.
(** One turn of the loop. *)
Lemma turn : forall lhs (u : bool) es min s a s1 r p s2 t z, at_op s = true -> min <= pcd s -> prim (next s) = POk a s1 ->
  (exists n, forall m, n <= m -> rhs_at m (TOne a) (pcd s) s1 = POk (r, p) s2) ->
  (if Nat.ltb (pcd s2) p then open_loops (if u then TUnion (es ++ [r]) else TInter (es ++ [r])) min s2 t z else loops lhs (Some u) (es ++ [r]) min s2 t z) ->
  loops lhs (Some u) es min s t z.
Proof.
  intros lhs u es min s a s1 r p s2 t z O M P [n R] K.
  assert (G : exists n, forall m rhs, n <= m -> (if Nat.ltb (pcd s2) p then union_loop m (Some (if u then TUnion (es ++ [r]) else TInter (es ++ [r]))) rhs None (es ++ [r]) min s2
     else union_loop m (Some lhs) rhs (Some u) (es ++ [r]) min s2) = POk t z).
  { destruct (Nat.ltb (pcd s2) p); [exact (K (es ++ [r]))|exact K]. }
  destruct G as [n' G]. exists (S (n + n')). intros [|m] rhs L; [lia|]. rewrite loop_eq. rewrite O. cbn [negb orb].
  replace (Nat.ltb (pcd s) min) with false by (symmetry; apply Nat.ltb_ge; exact M). cbv zeta. rewrite P. cbn [pbind].
  rewrite R by lia. cbn [pbind fst snd]. specialize (G m (Some r) ltac:(lia)). destruct (Nat.ltb (pcd s2) p); exact G.
Qed.
Lemma run_end : forall s bs z, run prim s bs z -> at_tok T_BIT_AND z = false.
Proof. intros s bs z H. induction H; auto. Qed.
Lemma idle : forall r p s, at_op s = false \/ pcd s <= p -> exists n, forall m, n <= m -> rhs_at m r p s = POk (r, p) s.
Proof.
  intros r p s H. exists 1. intros [|m] L; [lia|]. rewrite rhs_eq. destruct H as [H|H]; [rewrite H; reflexivity|].
  replace (Nat.ltb p (pcd s)) with false by (symmetry; apply Nat.ltb_ge; exact H). rewrite Bool.andb_false_r. reflexivity.
Qed.
Lemma low10 : forall s, at_tok T_BIT_AND s = false -> (at_tok T_BIT_OR s = true \/ pcd s < 8) -> pcd s < 10 /\ (at_op s = false \/ pcd s <= 8).
Proof. intros s H [K|K]; [rewrite (proj1 (proj2 (op_or _ K))); lia|]. lia. Qed.
Lemma run_loops : forall s bs z, run prim s bs z -> forall lhs es min t y, bs <> [] -> pcd z < 10 -> min <= 10 ->
  open_loops (TInter (es ++ map TOne bs)) min z t y -> loops lhs (Some false) es min s t y.
Proof.
  intros s bs z H. induction H as [s E|s b s1 bs z O P H IH]; intros lhs es min t y N L M K; [congruence|].
  destruct (op_and _ O) as (O1 & O2 & _). eapply turn; [exact O1|lia|exact P|apply idle|].
  - inversion H; subst; [right; lia|]. right. match goal with X : at_tok T_BIT_AND s1 = true |- _ => destruct (op_and _ X) as (_ & X2 & _); lia end.
  - rewrite O2. destruct H as [s1 E|s1 b2 s2 bs z O' P' H].
    + replace (Nat.ltb (pcd s1) 10) with true by (symmetry; apply Nat.ltb_lt; exact L). exact K.
    + destruct (op_and _ O') as (_ & Q & _). rewrite Q. change (Nat.ltb 10 10) with false. cbv iota. apply IH; [discriminate|exact L|exact M|].
      rewrite <- app_assoc. exact K.
Qed.
Definition group (b : A) (bs : list A) : typ A := match bs with [] => TOne b | _ => TInter (TOne b :: map TOne bs) end.
Lemma group_at : forall s b s1 bs z, prim s = POk b s1 -> run prim s1 bs z -> (at_tok T_BIT_OR z = true \/ pcd z < 8) ->
  exists n, forall m, n <= m -> rhs_at m (TOne b) 8 s1 = POk (group b bs, match bs with [] => 8 | _ => 10 end) z.
Proof using fn_ends.
  intros s b s1 bs z P H L. destruct (low10 _ (run_end _ _ _ H) L) as [L1 L2]. inversion H; subst; [apply idle; exact L2|].
  destruct (op_and _ H0) as (O & Q & B). assert (F : is_fn b = false) by (destruct (is_fn b) eqn:F; [rewrite (fn_ends _ _ _ P F) in O; discriminate O|reflexivity]).
  assert (K : open_loops (TOne b) 10 s1 (group b (b0 :: bs0)) z).
  { apply begins. rewrite B. eapply run_loops; [exact H|discriminate|exact L1|lia|]. apply stops. right; exact L1. }
  destruct (K []) as [n K']. destruct (idle (group b (b0 :: bs0)) 10 z ltac:(right; lia)) as [n' I].
  exists (S (S (n + n'))). intros [|[|m]] Lm; try lia. rewrite rhs_eq. rewrite O, Q. cbv zeta. change (true && Nat.ltb 8 10) with true. cbv iota.
  rewrite at_eq. cbn [pbind]. rewrite F. cbn [andb]. rewrite K' by lia. cbn [pbind]. apply I. lia.
Qed.
Definition any_of (holds : A -> Prop) (l : list (typ A)) : Prop := Exists (belongs holds) l.
Definition one_of (holds : A -> Prop) (gs : list (list A)) : Prop := Exists (Forall holds) gs.
Lemma belongs_union : forall (h : A -> Prop) l, belongs h (TUnion l) <-> any_of h l.
Proof. intros h l. unfold any_of. cbn. induction l as [|t l IH]; [rewrite Exists_nil; tauto|]. rewrite Exists_cons, IH. tauto. Qed.
Lemma belongs_inter : forall (h : A -> Prop) l, belongs h (TInter l) <-> Forall (belongs h) l.
Proof. intros h l. cbn. induction l as [|t l IH]; [split; auto|]. rewrite Forall_cons_iff, IH. tauto. Qed.
Lemma operands_union : forall l, @operands A (TUnion l) = flat_map operands l /\ @operands A (TInter l) = flat_map operands l.
Proof. intros l. cbn. split; induction l as [|t l IH]; cbn; congruence. Qed.
Lemma ones : forall l, flat_map operands (map (@TOne A) l) = l.
Proof. induction l; cbn; congruence. Qed.
Lemma group_means : forall (h : A -> Prop) b bs, belongs h (group b bs) <-> Forall h (b :: bs).
Proof.
  intros h b bs. unfold group. destruct bs as [|c bs]; [cbn; rewrite Forall_cons_iff; intuition|].
  rewrite belongs_inter, <- (map_cons TOne), Forall_map. reflexivity.
Qed.
Lemma group_operands : forall b bs, operands (group b bs) = b :: bs.
Proof. intros b [|c bs]; [reflexivity|]. unfold group. rewrite (proj2 (operands_union _)), <- (map_cons TOne). apply ones. Qed.
Lemma union_tail : forall p gs z, union prim p gs z -> pcd z < 8 -> forall s lhs es, at_tok T_BIT_OR s = true -> next s = p ->
  exists t, loops lhs (Some true) es 0 s t z /\ operands t = flat_map operands es ++ concat gs /\ (forall h : A -> Prop, belongs h t <-> any_of h es \/ one_of h gs).
Proof using fn_ends.
  intros p gs z H L. induction H as [p a s1 bs z P R E|p a s1 bs s2 gs z P R E H IH]; intros s lhs es O <-; destruct (op_or _ O) as (O1 & O2 & _).
  - assert (N : at_op z = false) by (apply no_op; [exact E|exact (run_end _ _ _ R)]).
    exists (TUnion (es ++ [group a bs])). split; [|split].
    + eapply turn; [exact O1|lia|exact P|rewrite O2; eapply group_at; [exact P|exact R|right; exact L]|].
      replace (Nat.ltb (pcd z) _) with true by (symmetry; apply Nat.ltb_lt; destruct bs; lia). apply stops. left; exact N.
    + rewrite (proj1 (operands_union _)), flat_map_app. cbn [flat_map concat]. rewrite group_operands, !app_nil_r. reflexivity.
    + intros h. rewrite belongs_union. unfold any_of, one_of. rewrite Exists_app, !Exists_cons, !Exists_nil, group_means. tauto.
  - assert (X : forall lhs es, exists t, loops lhs (Some true) es 0 s2 t z /\ operands t = flat_map operands es ++ concat gs /\ (forall h : A -> Prop, belongs h t <-> any_of h es \/ one_of h gs))
      by (intros; apply (IH L); [exact E|reflexivity]).
    destruct (op_or _ E) as (_ & E2 & _). destruct bs as [|c bs].
    + destruct (X lhs (es ++ [TOne a])) as (t & T1 & T2 & T3). exists t. split; [|split].
      * eapply turn; [exact O1|lia|exact P|rewrite O2; eapply group_at; [exact P|exact R|left; exact E]|]. rewrite E2. exact T1.
      * rewrite T2, flat_map_app. cbn. rewrite <- app_assoc. reflexivity.
      * intros h. rewrite T3. unfold any_of, one_of. rewrite Exists_app, !Exists_cons, Exists_nil, Forall_cons_iff. cbn. intuition.
    + destruct (X (TUnion (es ++ [group a (c :: bs)])) [TUnion (es ++ [group a (c :: bs)])]) as (t & T1 & T2 & T3). exists t. split; [|split].
      * eapply turn; [exact O1|lia|exact P|rewrite O2; eapply group_at; [exact P|exact R|left; exact E]|]. rewrite E2.
        change (Nat.ltb 8 10) with true. cbv iota. apply begins. rewrite E. exact T1.
      * rewrite T2. cbn [flat_map]. rewrite (proj1 (operands_union _)), flat_map_app. cbn [flat_map concat]. rewrite group_operands, !app_nil_r, <- app_assoc. reflexivity.
      * intros h. rewrite T3. unfold any_of at 1. rewrite Exists_cons, Exists_nil, belongs_union. unfold any_of, one_of. rewrite Exists_app, !Exists_cons, Exists_nil, group_means. tauto.
Qed.
Lemma union_read : forall s gs z, union prim s gs z -> pcd z < 8 -> at_op s = false ->
  exists t n, (forall m, n <= m -> ts_typ A prim is_fn m s = POk t z) /\ operands t = concat gs /\ (forall h : A -> Prop, belongs h t <-> one_of h gs).
Proof using fn_ends.
  intros s gs z H L O.
  assert (G : exists a s1 t, prim s = POk a s1 /\ (at_op s1 = false -> t = TOne a /\ s1 = z) /\ open_loops (TOne a) 0 s1 t z /\ operands t = concat gs /\ (forall h : A -> Prop, belongs h t <-> one_of h gs)).
  { inversion H as [s0 a s1 bs z0 P R E|s0 a s1 bs s2 gs0 z0 P R E U]; subst; exists a, s1.
    - assert (N : at_op z = false) by (apply no_op; [exact E|exact (run_end _ _ _ R)]).
      exists (group a bs). split; [exact P|]. split; [|split; [|split]].
      + intros O1. inversion R; subst; [split; reflexivity|]. destruct (op_and _ H0) as (O2 & _). congruence.
      + inversion R; subst; [apply stops; left; exact N|]. destruct (op_and _ H0) as (O2 & _ & B). apply begins. rewrite B.
        eapply run_loops; [exact R|discriminate|lia|lia|]. apply stops. left; exact N.
      + rewrite group_operands. cbn. rewrite app_nil_r. reflexivity.
      + intros h. rewrite group_means. unfold one_of. rewrite Exists_cons, Exists_nil. tauto.
    - destruct (union_tail _ _ _ U L s2 (group a bs) [group a bs] E eq_refl) as (t & T1 & T2 & T3).
      exists t. split; [exact P|]. split; [|split; [|split]].
      + intros O1. exfalso. inversion R; subst; [destruct (op_or _ E) as (O2 & _)|destruct (op_and _ H0) as (O2 & _)]; congruence.
      + assert (K : open_loops (group a bs) 0 s2 t z) by (apply begins; rewrite E; exact T1).
        inversion R; subst; [exact K|]. destruct (op_and _ H0) as (O2 & _ & B). apply begins. rewrite B.
        eapply run_loops; [exact R|discriminate|destruct (op_or _ E) as (_ & E2 & _); lia|lia|exact K].
      + rewrite T2. cbn [flat_map concat]. rewrite group_operands, app_nil_r. reflexivity.
      + intros h. rewrite T3. unfold any_of, one_of. rewrite !Exists_cons, Exists_nil, group_means. tauto. }
  destruct G as (a & s1 & t & P & F & K & R1 & R2). destruct (K []) as [n K']. exists t, (S n). split; [|split; assumption].
  intros [|m] Lm; [lia|]. unfold ts_typ. rewrite at_eq. rewrite O, P. cbn [pbind]. destruct (is_fn a) eqn:Fn.
  - destruct (F (fn_ends _ _ _ P Fn)) as [-> ->]. reflexivity.
  - cbn [andb]. apply K'. lia.
Qed.
End Union.
