(** Proofs about the scopes. *)
From Coq Require Import ZifyBool ZifyNat ZifyN.
From Verif Require Import Base SymtabModel SymtabSpec.

(** * Bits *)
Lemma has_bit : forall x i, has x (bit i) = N.testbit x i.
Proof.
  intros x i. unfold has, bit. rewrite N.shiftl_1_l. destruct (N.testbit x i) eqn:E.
  - destruct (N.eqb_spec (N.land x (2 ^ i)) 0) as [H|H]; [|reflexivity].
    assert (A : N.testbit (N.land x (2 ^ i)) i = false) by (rewrite H; apply N.bits_0).
    rewrite N.land_spec, N.pow2_bits_true, E in A. discriminate A.
  - destruct (N.eqb_spec (N.land x (2 ^ i)) 0) as [H|H]; [reflexivity|].
    exfalso. apply H. apply N.bits_inj. intro j. rewrite N.bits_0, N.land_spec.
    destruct (N.eq_dec i j) as [->|D]; [rewrite E; reflexivity|].
    rewrite N.pow2_bits_false by exact D. apply andb_false_r.
Qed.

Lemma has_lor : forall x a b, has x (N.lor a b) = has x a || has x b.
Proof.
  intros x a b. unfold has. rewrite N.land_lor_distr_r.
  destruct (N.eqb_spec (N.lor (N.land x a) (N.land x b)) 0) as [H|H].
  - apply N.lor_eq_0_iff in H. destruct H as [-> ->]. reflexivity.
  - destruct (N.eqb_spec (N.land x a) 0) as [A|A]; [|reflexivity].
    destruct (N.eqb_spec (N.land x b) 0) as [B|B]; [|reflexivity].
    exfalso. apply H. rewrite A, B. reflexivity.
Qed.

Lemma bit_if_lor : forall (c : bool) m x i,
  N.testbit (if c then N.lor x m else x) i = N.testbit x i || (c && N.testbit m i).
Proof.
  intros [] m x i; [rewrite N.lor_spec; reflexivity|]. rewrite orb_false_r. reflexivity.
Qed.

(** * Chains *)
Inductive chain (t : tab) : nat -> list nat -> Prop :=
| Ch_root p : sc_up (sc t p) = None -> p < length (t_heap t) -> chain t p [p]
| Ch_up p q l : sc_up (sc t p) = Some q -> q < p -> p < length (t_heap t) -> chain t q l -> chain t p (p :: l).

Fixpoint first {A} (stop : nat -> option A) (l : list nat) : option A :=
  match l with [] => None | p :: r => match stop p with Some a => Some a | None => first stop r end end.

Lemma walk_chain : forall A t (stop : nat -> option A) p l fuel,
  chain t p l -> p < fuel -> walk_up t fuel stop p = first stop l.
Proof.
  intros A t stop p l fuel H. revert fuel. induction H as [p H L|p q l H L L' _ IH]; intros fuel F;
    (destruct fuel as [|fuel]; [lia|]); cbn; rewrite H; destruct (stop p); try reflexivity.
  apply IH. lia.
Qed.

Lemma chain_lt : forall t p l, chain t p l -> forall q, In q l -> q <= p.
Proof.
  intros t p l H. induction H as [p H L|p q l H L L' _ IH]; intros x [E|E]; try (destruct E; fail); try lia.
  apply IH in E. lia.
Qed.

Lemma chain_hd : forall t p l, chain t p l -> exists r, l = p :: r.
Proof.
  intros t p l H. destruct H; eexists; reflexivity.
Qed.

(** * Writing a cell *)
Lemma put_at_length : forall A (l : list A) i x, length (put_at l i x) = length l.
Proof.
  induction l as [|y r IH]; intros [|i] x; cbn; congruence.
Qed.

Lemma put_at_same : forall A (l : list A) i x d, i < length l -> nth i (put_at l i x) d = x.
Proof.
  induction l as [|y r IH]; intros [|i] x d H; cbn in *; try lia; [reflexivity|]. apply IH. lia.
Qed.

Lemma put_at_other : forall A (l : list A) i j x d, i <> j -> nth j (put_at l i x) d = nth j l d.
Proof.
  induction l as [|y r IH]; intros [|i] [|j] x d H; cbn; try reflexivity; try congruence.
  apply IH. congruence.
Qed.

Lemma sc_upd_same : forall t p s, p < length (t_heap t) -> sc (upd t p s) p = s.
Proof. intros. apply put_at_same. assumption. Qed.
Lemma sc_upd_other : forall t p q s, p <> q -> sc (upd t p s) q = sc t q.
Proof. intros. apply put_at_other. assumption. Qed.

(** What a cell holds, without the links to the scopes inside it. *)
Definition bare (s : scope) : scope := set_down s [].
Definition stack (t : tab) (l : list nat) : list (nat * scope) := map (fun p => (p, bare (sc t p))) l.

Lemma chain_up_eq : forall t t' p l, chain t p l -> length (t_heap t) <= length (t_heap t') ->
  (forall q, q < length (t_heap t) -> sc_up (sc t' q) = sc_up (sc t q)) -> chain t' p l.
Proof.
  intros t t' p l H G U. induction H as [p H L|p q l H L L' _ IH].
  - apply Ch_root; [rewrite U by exact L; exact H|lia].
  - eapply Ch_up; [rewrite U by lia; exact H|exact L|lia|exact IH].
Qed.

Definition is_fn (s : scope) : bool := is_kind s SPK_FUNC || is_kind s SPK_GLOBAL.

Fixpoint put_fn (n : bytes) (r : ref) (st : list (nat * scope)) : list (nat * scope) :=
  match st with
  | [] => []
  | (p, s) :: rest => if is_fn s then (p, set_ref s n r) :: rest else (p, s) :: put_fn n r rest
  end.
Definition put_cur (n : bytes) (r : ref) (st : list (nat * scope)) : list (nat * scope) :=
  match st with [] => [] | (p, s) :: rest => (p, set_ref s n r) :: rest end.

Fixpoint fn_of (st : list (nat * scope)) : option (nat * scope) :=
  match st with [] => None | (p, s) :: rest => if is_fn s then Some (p, s) else fn_of rest end.

Definition at_stack (t : tab) (st : list (nat * scope)) : Prop :=
  exists l, chain t (t_cur t) l /\ st = stack t l.

Lemma stack_upd : forall t p s l, (forall q, In q l -> q <> p) -> stack (upd t p s) l = stack t l.
Proof.
  intros t p s l H. unfold stack. apply map_ext_in. intros q Q. f_equal. f_equal.
  apply sc_upd_other. intro E. exact (H q Q (eq_sym E)).
Qed.

Lemma upd_ref_chain : forall t p n r q l, chain t q l -> chain (upd t p (set_ref (sc t p) n r)) q l.
Proof.
  intros t p n r q l H. eapply chain_up_eq; [exact H| |].
  - cbn. rewrite put_at_length. lia.
  - intros x X. destruct (Nat.eq_dec p x) as [->|D].
    + rewrite sc_upd_same by exact X. reflexivity.
    + rewrite sc_upd_other by exact D. reflexivity.
Qed.

Lemma chain_nodup_tl : forall t p l, chain t p (p :: l) -> forall q, In q l -> q <> p.
Proof.
  intros t p l H q Q. inversion H; subst; [destruct Q|].
  match goal with [C : chain _ _ l |- _] => pose proof (chain_lt _ _ _ C _ Q) end. lia.
Qed.

Lemma put_cur_stack : forall t p l n r, chain t p l ->
  stack (upd t p (set_ref (sc t p) n r)) l = put_cur n r (stack t l).
Proof.
  intros t p l n r C. assert (L : p < length (t_heap t)) by (destruct C; assumption).
  destruct (chain_hd _ _ _ C) as (l' & ->). pose proof (chain_nodup_tl _ _ _ C) as N.
  change (stack (upd t p (set_ref (sc t p) n r)) (p :: l'))
    with ((p, bare (sc (upd t p (set_ref (sc t p) n r)) p)) :: stack (upd t p (set_ref (sc t p) n r)) l').
  rewrite stack_upd by exact N. rewrite sc_upd_same by exact L. reflexivity.
Qed.

Lemma upper_fn_stack : forall t p l, chain t p l ->
  match upper_fn t p with
  | Some q => fn_of (stack t l) = Some (q, bare (sc t q)) /\ In q l
  | None => fn_of (stack t l) = None
  end.
Proof.
  intros t p l C. unfold upper_fn.
  rewrite (walk_chain _ _ _ _ _ _ C) by (destruct C; assumption). clear C.
  induction l as [|q l IH]; [reflexivity|].
  cbn [first stack map fn_of]. change (is_fn (bare (sc t q))) with (is_fn (sc t q)). unfold is_fn.
  destruct (is_kind (sc t q) SPK_FUNC || is_kind (sc t q) SPK_GLOBAL).
  - split; [reflexivity|left; reflexivity].
  - destruct (first _ l); [destruct IH; split; [assumption|right; assumption]|exact IH].
Qed.

Lemma put_fn_stack : forall t p l n r q, chain t p l -> upper_fn t p = Some q ->
  stack (upd t q (set_ref (sc t q) n r)) l = put_fn n r (stack t l).
Proof.
  intros t p l n r q C E. pose proof (upper_fn_stack _ _ _ C) as F. rewrite E in F. destruct F as [F _]. clear E.
  induction C as [p H L|p x l H L L' C IH].
  - cbn [stack map fn_of put_fn] in *. destruct (is_fn (bare (sc t p))); [|discriminate].
    inversion F; subst q. rewrite sc_upd_same by exact L. reflexivity.
  - cbn [stack map fn_of put_fn] in *. fold (stack t l) in *. destruct (is_fn (bare (sc t p))) eqn:K.
    + inversion F; subst q. rewrite sc_upd_same by exact L'. f_equal. apply stack_upd.
      intros y Y. apply (chain_lt _ _ _ C) in Y. lia.
    + fold (stack (upd t q (set_ref (sc t q) n r)) l). rewrite (IH F). f_equal. f_equal. f_equal.
      apply sc_upd_other. intros ->.
      assert (In p l).
      { clear -F. induction l as [|y l IHl]; [discriminate|]. cbn [stack map fn_of] in F. fold (stack t l) in F.
        destruct (is_fn (bare (sc t y))); [inversion F; left; congruence|right; apply IHl, F]. }
      match goal with [I : In p l |- _] => apply (chain_lt _ _ _ C) in I end. lia.
Qed.

(** * The operations on the stack *)
Lemma local_stack : forall t p n, local t p n = find_b n (sc_refs (bare (sc t p))).
Proof. reflexivity. Qed.

Lemma upper_fn_upd_ref : forall t p l q n r, chain t p l ->
  upper_fn (upd t q (set_ref (sc t q) n r)) p = upper_fn t p.
Proof.
  intros t p l q n r C. unfold upper_fn.
  assert (L : p < length (t_heap t)) by (destruct C; assumption).
  rewrite (walk_chain _ _ _ _ _ _ C L).
  rewrite (walk_chain _ _ _ _ _ _ (upd_ref_chain t q n r _ _ C)) by (cbn; rewrite put_at_length; exact L).
  assert (forall x, In x l -> x < length (t_heap t)).
  { intros x X. apply (chain_lt _ _ _ C) in X. lia. }
  clear C. induction l as [|x l IH]; [reflexivity|]. cbn [first].
  assert (K : forall k, is_kind (sc (upd t q (set_ref (sc t q) n r)) x) k = is_kind (sc t x) k).
  { intro k. destruct (Nat.eq_dec q x) as [->|D].
    - rewrite sc_upd_same by (apply H; left; reflexivity). reflexivity.
    - rewrite sc_upd_other by exact D. reflexivity. }
  rewrite !K, IH by (intros; apply H; right; assumption). reflexivity.
Qed.

(** What an accepted declaration does. *)

Inductive declared (st : list (nat * scope)) (n : bytes) (r : ref) : list (nat * scope) -> Prop :=
| D_rec_var p s rest : st = (p, s) :: rest -> r_bind r = BK_VAR ->
    declared st n r (put_cur n (done p r) (put_fn n (done p r) st))
| D_rec p s rest : st = (p, s) :: rest -> r_bind r <> BK_VAR ->
    declared st n r (put_cur n (done p r) st)
| D_merge p s rest lr : st = (p, s) :: rest -> r_bind r <> BK_VAR ->
    find_b n (sc_refs s) = Some lr -> check_ref_dup (r_typ lr) (r_typ r) = true -> declared st n r st
| D_merge_fn q s lr : fn_of st = Some (q, s) -> r_bind r = BK_VAR ->
    find_b n (sc_refs s) = Some lr -> check_ref_dup (r_typ lr) (r_typ r) = true -> declared st n r st
| D_merge_cur p s rest lr : st = (p, s) :: rest -> r_bind r = BK_VAR ->
    find_b n (sc_refs s) = Some lr -> check_ref_dup (r_typ lr) (r_typ r) = true ->
    declared st n r (put_fn n (undone r) st).

Lemma bind_eqb_eq : forall a b, bind_eqb a b = true <-> a = b.
Proof. intros [] []; cbn; split; congruence. Qed.
Lemma bind_eqb_neq : forall a b, bind_eqb a b = false <-> a <> b.
Proof. intros [] []; cbn; split; congruence. Qed.

Lemma add_local_effect : forall t r n dup t' l,
  chain t (t_cur t) l -> add_local t (t_cur t) r n dup = Some (true, t') ->
  exists st', chain t' (t_cur t') l /\ st' = stack t' l /\ declared (stack t l) n r st'
    /\ t_cur t' = t_cur t /\ t_table t' = t_table t /\ t_seed t' = t_seed t
    /\ length (t_heap t') = length (t_heap t)
    /\ (forall q, q < length (t_heap t) -> sc_id (sc t' q) = sc_id (sc t q) /\ sc_up (sc t' q) = sc_up (sc t q)
                                          /\ sc_kind (sc t' q) = sc_kind (sc t q)).
Proof.
  intros t r n dup t' l C E.
  assert (Step : forall q x t0, (forall y, y < length (t_heap t) -> sc_id (sc t0 y) = sc_id (sc t y)
       /\ sc_up (sc t0 y) = sc_up (sc t y) /\ sc_kind (sc t0 y) = sc_kind (sc t y)) ->
     length (t_heap t0) = length (t_heap t) ->
     forall y, y < length (t_heap t) ->
       sc_id (sc (upd t0 q (set_ref (sc t0 q) n x)) y) = sc_id (sc t y)
       /\ sc_up (sc (upd t0 q (set_ref (sc t0 q) n x)) y) = sc_up (sc t y)
       /\ sc_kind (sc (upd t0 q (set_ref (sc t0 q) n x)) y) = sc_kind (sc t y)).
  { intros q x t0 I L y Y. destruct (Nat.eq_dec q y) as [->|D].
    - rewrite sc_upd_same by lia. cbn. apply I, Y.
    - rewrite sc_upd_other by exact D. apply I, Y. }
  assert (Len : forall q x t0, length (t_heap (upd t0 q x)) = length (t_heap t0)).
  { intros. cbn. apply put_at_length. }
  destruct (chain_hd _ _ _ C) as (l' & El). 
  assert (Hst : stack t l = (t_cur t, bare (cur t)) :: stack t l') by (rewrite El; reflexivity).
  unfold add_local in E. set (fin := finish_local t (local t (t_cur t) n) r dup) in *.
  destruct (is_kind (sc t (t_cur t)) SPK_CATCH && _); [discriminate|].
  unfold put_local in *. assert (Fin : forall t0 t1, fin t0 t1 = Some (true, t') -> t' = t1 \/
     (t' = t0 /\ exists lr, local t (t_cur t) n = Some lr /\ check_ref_dup (r_typ lr) (r_typ r) = true)).
  { intros t0 t1 F. unfold fin, finish_local in F.
    destruct dup; cbn [negb] in F; [|left; congruence].
    destruct (local t (t_cur t) n) as [lr|]; [|left; congruence].
    repeat match type of F with
    | (if ?c then _ else _) = _ => destruct c
    | (match ?c with Some _ => _ | None => _ end) = _ => destruct c
    end; try discriminate; try (left; congruence);
    (right; inversion F; split; [reflexivity|exists lr; split; [reflexivity|congruence]]). }
  destruct (bind_eqb (r_bind r) BK_VAR) eqn:B.
  - apply bind_eqb_eq in B.
    destruct (upper_fn t (t_cur t)) as [ps|] eqn:U; [|discriminate].
    pose proof (upper_fn_stack _ _ _ C) as F. rewrite U in F. destruct F as [F In_ps].
    assert (Go : fin (put_local n ps (undone r) t)
                   (put_local n (t_cur t) (done (t_cur t) r) (put_local n ps (done (t_cur t) r) t)) = Some (true, t') \/
                 (t' = t /\ exists lp, local t ps n = Some lp /\ check_ref_dup (r_typ lp) (r_typ r) = true)).
    { unfold put_local. destruct (local t ps n) as [lp|]; [|left; exact E].
      repeat match type of E with
      | (if ?c then _ else _) = _ => destruct c
      | (match ?c with Some _ => _ | None => _ end) = _ => destruct c
      end; try discriminate; try (left; exact E);
      (right; inversion E; split; [congruence|exists lp; split; [reflexivity|congruence]]). }
    destruct Go as [Go|(-> & lp & L & D)].
    + unfold put_local in Go. destruct (Fin _ _ Go) as [->|(-> & lr & L & D)].
      * eexists. split; [apply upd_ref_chain, upd_ref_chain; exact C|]. split; [reflexivity|].
        rewrite put_cur_stack by (apply upd_ref_chain; exact C).
        rewrite (put_fn_stack _ _ _ _ _ _ C U).
        repeat split; try (rewrite !Len; reflexivity); try (apply Step; rewrite ?Len; auto).
        eapply D_rec_var; [exact Hst|exact B].
      * eexists. split; [apply upd_ref_chain; exact C|]. split; [reflexivity|].
        rewrite (put_fn_stack _ _ _ _ _ _ C U).
        repeat split; try (rewrite !Len; reflexivity); try (apply Step; rewrite ?Len; auto).
        eapply D_merge_cur; [exact Hst|exact B|exact L|exact D].
    + exists (stack t l). split; [exact C|]. repeat split.
      eapply D_merge_fn; [exact F|exact B|exact L|exact D].
  - apply bind_eqb_neq in B. destruct (Fin _ _ E) as [->|(-> & lr & L & D)].
    + eexists. split; [apply upd_ref_chain; exact C|]. split; [reflexivity|].
      rewrite put_cur_stack by exact C.
      repeat split; try (rewrite !Len; reflexivity); try (apply Step; rewrite ?Len; auto).
      eapply D_rec; [exact Hst|exact B].
    + exists (stack t l). split; [exact C|]. repeat split.
      eapply D_merge; [exact Hst|exact B|exact L|exact D].
Qed.

(** One operation, seen on the stack of open scopes. *)
Definition set_cur_kind (g : N -> N) (st : list (nat * scope)) : list (nat * scope) :=
  match st with [] => [] | (p, s) :: r => (p, set_kind s (g (sc_kind s))) :: r end.
Inductive sstep (seed : nat) : sop -> list (nat * scope) -> list (nat * scope) -> Prop :=
| SS_enter fn ar se p q s rest :
    sstep seed (SEnter fn ar se) ((q, s) :: rest)
      ((p, mk_scope (if se then S seed else seed) (entered_kind (sc_kind s) fn ar) (Some q) []
             (if fn then [] else sc_labels s) []) :: (q, s) :: rest)
| SS_leave x y rest : sstep seed SLeave (x :: y :: rest) (y :: rest)
| SS_add k st : sstep seed (SAdd k) st (set_cur_kind (fun x => N.lor x k) st)
| SS_erase k st : sstep seed (SErase k) st (set_cur_kind (fun x => N.ldiff x k) st)
| SS_declare n b typ tag dup st st' :
    declared st n (mk_ref tag b typ None) st' -> sstep seed (SDeclare n b typ tag dup) st st'.

Lemma set_kind_stack : forall t p l k, chain t p l ->
  stack (upd t p (set_kind (sc t p) k)) l = set_cur_kind (fun _ => k) (stack t l)
  /\ chain (upd t p (set_kind (sc t p) k)) p l.
Proof.
  intros t p l k C. assert (L : p < length (t_heap t)) by (destruct C; assumption). split.
  - destruct (chain_hd _ _ _ C) as (l' & ->). pose proof (chain_nodup_tl _ _ _ C) as N.
    change (stack (upd t p (set_kind (sc t p) k)) (p :: l'))
      with ((p, bare (sc (upd t p (set_kind (sc t p) k)) p)) :: stack (upd t p (set_kind (sc t p) k)) l').
    rewrite stack_upd by exact N. rewrite sc_upd_same by exact L. reflexivity.
  - eapply chain_up_eq; [exact C|cbn; rewrite put_at_length; lia|].
    intros q Q. destruct (Nat.eq_dec p q) as [->|D];
      [rewrite sc_upd_same by exact Q; reflexivity|rewrite sc_upd_other by exact D; reflexivity].
Qed.

Lemma enter_sc : forall t fn ar se q, t_cur t < length (t_heap t) ->
  q < length (t_heap t) -> bare (sc (enter_scope t fn ar se) q) = bare (sc t q)
    /\ sc_down (sc (enter_scope t fn ar se) q)
       = if Nat.eqb q (t_cur t) then sc_down (sc t q) ++ [length (t_heap t)] else sc_down (sc t q).
Proof.
  intros t fn ar se q L Q. unfold sc, enter_scope. cbn [t_heap].
  rewrite app_nth1 by (rewrite put_at_length; exact Q).
  destruct (Nat.eqb_spec q (t_cur t)) as [->|D].
  - rewrite put_at_same by exact L. split; reflexivity.
  - rewrite put_at_other by congruence. split; reflexivity.
Qed.

Lemma enter_sc_new : forall t fn ar se,
  sc (enter_scope t fn ar se) (length (t_heap t))
  = mk_scope (if se then S (t_seed t) else t_seed t) (entered_kind (sc_kind (cur t)) fn ar) (Some (t_cur t)) []
             (if fn then [] else sc_labels (cur t)) [].
Proof.
  intros. unfold sc, enter_scope. cbn [t_heap]. rewrite app_nth2 by (rewrite put_at_length; lia).
  rewrite put_at_length, Nat.sub_diag. reflexivity.
Qed.

Lemma bare_up : forall a b, bare a = bare b -> sc_up a = sc_up b /\ sc_id a = sc_id b /\ sc_kind a = sc_kind b
  /\ sc_refs a = sc_refs b.
Proof.
  intros a b H. unfold bare, set_down in H. inversion H. auto.
Qed.

Lemma step_stack : forall t l o t',
  chain t (t_cur t) l -> step o t = Ok t' ->
  exists l', chain t' (t_cur t') l' /\ sstep (t_seed t) o (stack t l) (stack t' l').
Proof.
  intros t l o t' C E. assert (L : t_cur t < length (t_heap t)) by (destruct C; assumption).
  destruct (chain_hd _ _ _ C) as (l0 & El).
  destruct o as [fn ar se| |k|k|n b typ tag dup]; cbn [step] in E.
  - inversion E; subst t'; clear E. exists (length (t_heap t) :: l).
    assert (S : stack (enter_scope t fn ar se) l = stack t l).
    { unfold stack. apply map_ext_in. intros q Q. f_equal.
      apply enter_sc; [exact L|]. apply (chain_lt _ _ _ C) in Q. lia. }
    split.
    + change (t_cur (enter_scope t fn ar se)) with (length (t_heap t)).
      apply Ch_up with (q := t_cur t).
      * rewrite enter_sc_new. reflexivity.
      * exact L.
      * cbn. rewrite app_length, put_at_length. cbn. lia.
      * eapply chain_up_eq; [exact C|cbn; rewrite app_length, put_at_length; lia|].
        intros q Q. apply bare_up. apply enter_sc; assumption.
    + change (stack (enter_scope t fn ar se) (length (t_heap t) :: l))
        with ((length (t_heap t), bare (sc (enter_scope t fn ar se) (length (t_heap t)))) :: stack (enter_scope t fn ar se) l).
      rewrite S, enter_sc_new, El. apply SS_enter with (s := bare (cur t)).
  - destruct (leave_scope t) as [u|] eqn:V; [|discriminate]. inversion E; subst u; clear E.
    unfold leave_scope in V. destruct (sc_up (cur t)) as [u|] eqn:U; [|discriminate].
    inversion V; subst t'; clear V. inversion C; subst.
    + unfold cur in U. congruence.
    + unfold cur in U. assert (q = u) by congruence. subst q. exists l1.
      match goal with [K : chain t u l1 |- _] => rename K into C1 end. split.
      * cbn [t_cur]. eapply chain_up_eq; [exact C1|cbn; lia|reflexivity].
      * destruct (chain_hd _ _ _ C1) as (l2 & ->). apply SS_leave.
  - inversion E; subst t'; clear E. exists l. unfold add_kind.
    destruct (set_kind_stack t (t_cur t) l (N.lor (sc_kind (sc t (t_cur t))) k) C) as [S C'].
    split; [exact C'|]. rewrite S.
    replace (set_cur_kind _ (stack t l)) with (set_cur_kind (fun x => N.lor x k) (stack t l)); [apply SS_add|].
    rewrite El. reflexivity.
  - inversion E; subst t'; clear E. exists l. unfold erase_kind.
    destruct (set_kind_stack t (t_cur t) l (N.ldiff (sc_kind (sc t (t_cur t))) k) C) as [S C'].
    split; [exact C'|]. rewrite S.
    replace (set_cur_kind _ (stack t l)) with (set_cur_kind (fun x => N.ldiff x k) (stack t l)); [apply SS_erase|].
    rewrite El. reflexivity.
  - destruct (add_local t (t_cur t) (mk_ref tag b typ None) n dup) as [[[] u]|] eqn:V; try discriminate.
    inversion E; subst u; clear E.
    destruct (add_local_effect _ _ _ _ _ _ C V) as (st' & C' & -> & D & _).
    exists l. split; [exact C'|]. apply SS_declare. exact D.
Qed.

(** * The flags of an entered scope *)
Lemma entered_bit : forall k fn ar i,
  N.testbit (entered_kind k fn ar) i =
  N.testbit (if fn then SPK_FUNC else SPK_BLOCK) i
  || (negb fn && ((has k SPK_LOOP_DIRECT || has k SPK_LOOP_INDIRECT) && N.testbit SPK_LOOP_INDIRECT i
      || (has k SPK_SWITCH || has k SPK_SWITCH_INDIRECT) && N.testbit SPK_SWITCH_INDIRECT i
      || (has k SPK_TRY || has k SPK_TRY_INDIRECT) && N.testbit SPK_SWITCH_INDIRECT i
      || has k SPK_FORMAL_PARAMS && N.testbit SPK_FORMAL_PARAMS i
      || has k SPK_GENERATOR && N.testbit SPK_GENERATOR i
      || has k SPK_ASYNC && N.testbit SPK_ASYNC i))
  || (has k SPK_FUNC || has k SPK_FUNC_INDIRECT) && N.testbit SPK_FUNC_INDIRECT i
  || (has k SPK_CLASS || has k SPK_CLASS_INDIRECT) && N.testbit SPK_CLASS_INDIRECT i
  || has k SPK_CLASS_HAS_SUPER && N.testbit SPK_CLASS_HAS_SUPER i
  || has k SPK_STRICT && N.testbit SPK_STRICT i
  || has k SPK_ABSTRACT_CLASS && N.testbit SPK_ABSTRACT_CLASS i
  || has k SPK_TS_DECLARE && N.testbit SPK_TS_DECLARE i
  || (has k SPK_TS_MODULE || has k SPK_TS_MODULE_INDIRECT) && N.testbit SPK_TS_MODULE_INDIRECT i
  || (negb fn || ar) && has k SPK_CTOR && N.testbit SPK_CTOR i.
Proof.
  intros k fn ar i. unfold entered_kind.
  destruct fn; cbn [negb orb andb]; [destruct ar; cbn [andb]|]; rewrite ?bit_if_lor; 
    rewrite ?andb_false_l, ?orb_false_r, ?orb_assoc; reflexivity.
Qed.

Lemma entered_fn : forall k fn ar p d l u r, is_fn (mk_scope p (entered_kind k fn ar) u d l r) = fn.
Proof.
  intros. unfold is_fn, is_kind. cbn [sc_kind].
  change SPK_FUNC with (bit 13) at 1. change SPK_GLOBAL with (bit 11) at 1.
  rewrite !has_bit, !entered_bit.
  destruct fn; cbn [negb andb].
  - reflexivity.
  - cbv [SPK_FUNC SPK_BLOCK SPK_LOOP_INDIRECT SPK_SWITCH_INDIRECT SPK_FORMAL_PARAMS SPK_GENERATOR SPK_ASYNC
         SPK_FUNC_INDIRECT SPK_CLASS_INDIRECT SPK_CLASS_HAS_SUPER SPK_STRICT SPK_ABSTRACT_CLASS SPK_TS_DECLARE
         SPK_TS_MODULE_INDIRECT SPK_CTOR].
    repeat match goal with |- context [N.testbit (bit ?a) ?b] =>
      let v := eval vm_compute in (N.testbit (bit a) b) in change (N.testbit (bit a) b) with v end.
    rewrite ?andb_false_r. reflexivity.
Qed.

Lemma is_fn_set_ref : forall s n r, is_fn (set_ref s n r) = is_fn s.
Proof. reflexivity. Qed.

Lemma testbit_of_has : forall k i m, has k m = false -> N.testbit m i = true -> N.testbit k i = false.
Proof.
  intros k i m H T. destruct (N.testbit k i) eqn:E; [|reflexivity].
  unfold has in H. destruct (N.eqb_spec (N.land k m) 0) as [Z|Z]; [|discriminate].
  assert (A : N.testbit (N.land k m) i = false) by (rewrite Z; apply N.bits_0).
  rewrite N.land_spec, E, T in A. discriminate A.
Qed.

Lemma is_fn_add : forall s k, has k (N.lor SPK_FUNC SPK_GLOBAL) = false ->
  is_fn (set_kind s (N.lor (sc_kind s) k)) = is_fn s /\ is_fn (set_kind s (N.ldiff (sc_kind s) k)) = is_fn s.
Proof.
  intros s k H. unfold is_fn, is_kind. cbn [set_kind sc_kind].
  change SPK_FUNC with (bit 13). change SPK_GLOBAL with (bit 11).
  rewrite !has_bit, !N.lor_spec, !N.ldiff_spec.
  rewrite !(testbit_of_has _ _ _ H) by reflexivity. rewrite !orb_false_r. cbn. rewrite !andb_true_r. auto.
Qed.

Lemma find_b_cons : forall A n m (v : A) l, find_b n ((m, v) :: l) = if bytes_eqb n m then Some v else find_b n l.
Proof. reflexivity. Qed.

Lemma find_b_none : forall A n (l : list (bytes * A)), find_b n l = None <-> (forall d, ~ In (n, d) l).
Proof.
  intros A n l. induction l as [|[m v] l IH]; cbn.
  - split; [intros _ d []|reflexivity].
  - destruct (bytes_eqb n m) eqn:E.
    + apply bytes_eqb_spec in E. subst m. split; [discriminate|]. intro H. exfalso. apply (H v). left. reflexivity.
    + rewrite IH. split.
      * intros H d [D|D]; [inversion D; subst m|exact (H d D)].
        assert (bytes_eqb n n = true) by (apply bytes_eqb_spec; reflexivity). congruence.
      * intros H d D. apply (H d). right. exact D.
Qed.

Lemma find_b_in : forall A n (v : A) l, find_b n l = Some v -> In (n, v) l.
Proof.
  intros A n v l. induction l as [|[m x] l IH]; cbn; [discriminate|].
  destruct (bytes_eqb n m) eqn:E; [apply bytes_eqb_spec in E; subst m; intros [= ->]; left; reflexivity|].
  intro H. right. apply IH, H.
Qed.

Lemma fr_fun_declare : forall n d f, fr_fun (declare_in n d f) = fr_fun f.
Proof. reflexivity. Qed.

(** * Which names are found, whatever was declared *)
Definition knows (n : bytes) (x : nat * scope) : Prop := find_b n (sc_refs (snd x)) <> None.
Fixpoint rel (st : list (nat * scope)) (fr : list frame) : Prop :=
  match st, fr with
  | [], [] => True
  | (p, s) :: st', f :: fr' =>
      is_fn s = fr_fun f
      /\ (forall n, find_b n (sc_refs s) <> None -> exists d, declares f n d)
      /\ (forall n d, declares f n d -> Exists (knows n) ((p, s) :: st'))
      /\ rel st' fr'
  | _, _ => False
  end.

Lemma rel_length : forall st fr, rel st fr -> length st = length fr.
Proof.
  induction st as [|[p s] st IH]; intros [|f fr] H; cbn in *; try tauto.
  f_equal. apply IH. tauto.
Qed.

Lemma rel_fn : forall st fr q s, rel st fr -> fn_of st = Some (q, s) -> exists f, find fr_fun fr = Some f.
Proof.
  induction st as [|[p s'] st IH]; intros [|f fr] q s H F; cbn in *; try discriminate; try tauto.
  destruct H as (A & _ & _ & R). rewrite <- A. destruct (is_fn s'); [eauto|eauto].
Qed.

Lemma knows_put_fn : forall n m r st, Exists (knows n) st -> Exists (knows n) (put_fn m r st).
Proof.
  intros n m r st H. induction H as [[p s] st H|[p s] st H IH]; cbn [put_fn]; destruct (is_fn s);
    try (apply Exists_cons_hd; exact H); try (apply Exists_cons_tl; assumption).
  apply Exists_cons_hd. unfold knows in *. cbn [snd set_ref sc_refs] in *. rewrite find_b_cons.
  destruct (bytes_eqb n m); [discriminate|exact H].
Qed.

Lemma knows_set_ref : forall n m p s r, knows n (p, s) -> knows n (p, set_ref s m r).
Proof.
  intros n m p s r H. unfold knows in *. cbn [snd set_ref sc_refs] in *. rewrite find_b_cons.
  destruct (bytes_eqb n m); [discriminate|exact H].
Qed.
Lemma knows_set_ref_same : forall n p s r, knows n (p, set_ref s n r).
Proof.
  intros n p s r. unfold knows. cbn [snd set_ref sc_refs]. rewrite find_b_cons.
  replace (bytes_eqb n n) with true by (symmetry; apply bytes_eqb_spec; reflexivity). discriminate.
Qed.
Lemma declares_in_inv : forall f n d m e, declares (declare_in n d f) m e -> (m = n /\ e = d) \/ declares f m e.
Proof.
  intros f n d m e [H|H]; [inversion H; auto|right; exact H].
Qed.

(** The spec declares in the function; the scope has it recorded there, or has the name already. *)
Lemma rel_put_fn : forall n d r st fr, rel st fr -> rel (put_fn n r st) (on_function (declare_in n d) fr).
Proof.
  intros n d r. induction st as [|[p s] st IH]; intros [|f fr] H; cbn [rel put_fn on_function] in *; try tauto.
  destruct H as (A & B & C & D). rewrite <- A. destruct (is_fn s) eqn:F; cbn [rel].
  - rewrite fr_fun_declare. repeat split; try assumption; try (rewrite is_fn_set_ref; congruence).
    + intros m M. cbn [set_ref sc_refs] in M. rewrite find_b_cons in M. destruct (bytes_eqb m n) eqn:E.
      * apply bytes_eqb_spec in E. subst m. exists d. left. reflexivity.
      * destruct (B m M) as (e & X). exists e. right. exact X.
    + intros m e M. apply declares_in_inv in M. destruct M as [[-> ->]|M].
      * apply Exists_cons_hd, knows_set_ref_same.
      * apply C in M. inversion M; subst; [apply Exists_cons_hd, knows_set_ref; assumption|apply Exists_cons_tl; assumption].
  - repeat split; try assumption; [congruence| |apply IH; exact D].
    intros m e M. apply C in M. inversion M; subst; [apply Exists_cons_hd; assumption|].
    apply Exists_cons_tl, knows_put_fn. assumption.
Qed.

Lemma fn_exists : forall n q s st, fn_of st = Some (q, s) -> find_b n (sc_refs s) <> None -> Exists (knows n) st.
Proof.
  intros n q s st F H. induction st as [|[p x] st IH]; cbn in F; [discriminate|].
  destruct (is_fn x); [inversion F; subst; apply Exists_cons_hd; exact H|apply Exists_cons_tl, IH, F].
Qed.

Lemma rel_fn_declares : forall n d st fr q s, rel st fr -> fn_of st = Some (q, s) -> find_b n (sc_refs s) <> None ->
  rel st (on_function (declare_in n d) fr).
Proof.
  intros n d. induction st as [|[p x] st IH]; intros [|f fr] q s H F K; cbn [rel fn_of on_function] in *;
    try discriminate; try tauto.
  destruct H as (A & B & C & D). rewrite <- A. destruct (is_fn x) eqn:X; cbn [rel].
  - inversion F; subst. repeat split; try assumption.
    + intros m M. destruct (B m M) as (e & Y). exists e. right. exact Y.
    + intros m e M. apply declares_in_inv in M. destruct M as [[-> ->]|M]; [apply Exists_cons_hd; exact K|eauto].
  - repeat split; try assumption; eapply IH; eassumption.
Qed.

Lemma rel_on_current : forall n d p s st fr, rel ((p, s) :: st) fr -> Exists (knows n) ((p, s) :: st) ->
  rel ((p, s) :: st) (on_current (declare_in n d) fr).
Proof.
  intros n d p s st [|f fr] H K; cbn [rel on_current] in *; [exact H|].
  destruct H as (A & B & C & D). repeat split; try assumption.
  - intros m M. destruct (B m M) as (e & Y). exists e. right. exact Y.
  - intros m e M. apply declares_in_inv in M. destruct M as [[-> ->]|M]; [exact K|eauto].
Qed.

Lemma rel_put_cur : forall n d r st fr, rel st fr -> rel (put_cur n r st) (on_current (declare_in n d) fr).
Proof.
  intros n d r [|[p s] st] [|f fr] H; cbn [rel put_cur on_current] in *; try tauto.
  destruct H as (A & B & C & D). repeat split; try assumption.
  - intros m M. cbn [set_ref sc_refs] in M. rewrite find_b_cons in M. destruct (bytes_eqb m n) eqn:E.
    + apply bytes_eqb_spec in E. subst m. exists d. left. reflexivity.
    + destruct (B m M) as (e & X). exists e. right. exact X.
  - intros m e M. apply declares_in_inv in M. destruct M as [[-> ->]|M].
    + apply Exists_cons_hd, knows_set_ref_same.
    + apply C in M. inversion M; subst; [apply Exists_cons_hd, knows_set_ref; assumption|apply Exists_cons_tl; assumption].
Qed.

Lemma rel_step : forall seed o st st' fr, ordinary o -> rel st fr -> sstep seed o st st' -> rel st' (frame_step fr o).
Proof.
  intros seed o st st' fr O R S. destruct S as [fn ar se p q s rest|x y rest|k st|k st|n b typ tag dup st st' D];
    cbn [frame_step].
  - destruct fr as [|f fr]; [destruct R|]. cbn [rel] in *. split; [|split; [|split; [|exact R]]].
    + rewrite entered_fn. destruct fn; reflexivity.
    + intros n N. exfalso. apply N. reflexivity.
    + intros n d [].
  - destruct fr as [|f fr]; [destruct x; destruct R|]. destruct x as [p s]. cbn [rel tl] in *. apply R.
  - destruct st as [|[p s] st]; destruct fr as [|f fr]; cbn [rel set_cur_kind on_current] in *; try tauto.
    destruct R as (A & B & C & D). repeat split; try assumption.
    + rewrite (proj1 (is_fn_add s k O)). exact A.
    + intros n d M. apply C in M. inversion M; subst; [apply Exists_cons_hd; assumption|apply Exists_cons_tl; assumption].
  - destruct st as [|[p s] st]; destruct fr as [|f fr]; cbn [rel set_cur_kind on_current] in *; try tauto.
    destruct R as (A & B & C & D). repeat split; try assumption.
    + rewrite (proj2 (is_fn_add s k O)). exact A.
    + intros n d M. apply C in M. inversion M; subst; [apply Exists_cons_hd; assumption|apply Exists_cons_tl; assumption].
  - destruct D as [p s rest E B|p s rest E B|p s rest lr E B L K|q s lr E B L K|p s rest lr E B L K];
      cbn [r_bind r_typ] in *.
    + subst b. cbn [bind_eqb]. apply rel_put_cur, rel_put_fn, R.
    + replace (bind_eqb b BK_VAR) with false by (symmetry; apply bind_eqb_neq, B). apply rel_put_cur, R.
    + replace (bind_eqb b BK_VAR) with false by (symmetry; apply bind_eqb_neq, B). subst st.
      apply rel_on_current; auto. apply Exists_cons_hd. unfold knows. cbn. congruence.
    + subst b. cbn [bind_eqb]. destruct st as [|[p x] st]; [discriminate|].
      assert (find_b n (sc_refs s) <> None) by congruence.
      apply rel_on_current; auto.
      * eapply rel_fn_declares; eassumption.
      * eapply fn_exists; eassumption.
    + subst b st. cbn [bind_eqb].
      assert (X : Exists (knows n) (put_fn n (undone (mk_ref tag BK_VAR typ None)) ((p, s) :: rest))).
      { apply knows_put_fn, Exists_cons_hd. unfold knows. cbn. congruence. }
      assert (Y := rel_put_fn n (mk_decl tag BK_VAR typ dup) (undone (mk_ref tag BK_VAR typ None)) _ _ R).
      cbn [put_fn] in *. destruct (is_fn s); apply rel_on_current; auto.
Qed.

Lemma run_rel : forall ops t t' l fr, Forall ordinary ops -> chain t (t_cur t) l -> rel (stack t l) fr ->
  run ops t = Ok t' -> exists l', chain t' (t_cur t') l' /\ rel (stack t' l') (fold_left frame_step ops fr).
Proof.
  induction ops as [|o ops IH]; intros t t' l fr O C R E; cbn [run fold_left] in *.
  - inversion E; subst. eauto.
  - inversion O as [|? ? O1 O2]; subst. destruct (step o t) as [u| |] eqn:S; try discriminate.
    destruct (step_stack _ _ _ _ C S) as (l1 & C1 & S1).
    eapply IH; [exact O2|exact C1| |exact E]. eapply rel_step; eassumption.
Qed.

Lemma start_chain : chain start (t_cur start) [0].
Proof. apply Ch_root; [reflexivity|vm_compute; lia]. Qed.
Lemma start_rel : rel (stack start [0]) [program].
Proof.
  split; [reflexivity|]. split; [|split; [|exact I]].
  - intros n H. exfalso. apply H. reflexivity.
  - intros n d [].
Qed.

Lemma binding_first : forall t l n, chain t (t_cur t) l -> binding_of t (t_cur t) n = first (fun p => local t p n) l.
Proof.
  intros t l n C. apply walk_chain; [exact C|]. destruct C; assumption.
Qed.

Lemma first_none : forall t l n, first (fun p => local t p n) l = None <-> ~ Exists (knows n) (stack t l).
Proof.
  intros t l n. induction l as [|p l IH]; cbn [first stack map].
  - split; [intros _ H; inversion H|reflexivity].
  - fold (stack t l). rewrite local_stack. destruct (find_b n (sc_refs (bare (sc t p)))) as [r|] eqn:E.
    + split; [discriminate|]. intro H. exfalso. apply H, Exists_cons_hd. unfold knows. cbn. 
      change (find_b n (sc_refs (bare (sc t p))) <> None). congruence.
    + rewrite IH. split; intros H X; apply H; [|apply Exists_cons_tl, X].
      inversion X; subst; [|assumption]. exfalso. apply H1. exact E.
Qed.

Lemma rel_exists : forall st fr n, rel st fr -> (Exists (knows n) st <-> exists f d, In f fr /\ declares f n d).
Proof.
  induction st as [|[p s] st IH]; intros [|f fr] n R; cbn [rel] in R; try tauto.
  - split; [intro H; inversion H|intros (g & d & [] & _)].
  - destruct R as (A & B & C & D). split.
    + intro H. inversion H; subst.
      * destruct (B n) as (d & X); [assumption|]. exists f, d. split; [left; reflexivity|exact X].
      * apply (IH _ n) in D. destruct D as [D _]. destruct D as (g & d & X & Y); [assumption|].
        exists g, d. split; [right; exact X|exact Y].
    + intros (g & d & [->|X] & Y); [eapply C, Y|]. apply Exists_cons_tl. apply (IH _ n D). eauto.
Qed.

Lemma has_name_spec : forall ops t n, Forall ordinary ops -> run ops start = Ok t ->
  (has_name t (t_cur t) n = true <-> exists f d, In f (open_scopes ops) /\ declares f n d).
Proof.
  intros ops t n O E. destruct (run_rel _ _ _ _ _ O start_chain start_rel E) as (l & C & R).
  unfold has_name. rewrite (binding_first _ _ _ C). rewrite <- (rel_exists _ _ n R).
  pose proof (first_none t l n) as F. destruct (first _ l) as [r|].
  - split; [intros _|reflexivity]. destruct (Exists_dec (knows n) (stack t l)) as [X|X]; [|exact X|].
    + intros [p s]. unfold knows. cbn. destruct (find_b n (sc_refs s)); [left|right]; congruence.
    + apply F in X. discriminate X.
  - split; [discriminate|]. intro X. exfalso. apply (proj1 F eq_refl X).
Qed.

(** * The declaration found, for a name that is not merged *)
Definition of_decl (p : nat) (r : ref) (d : decl) : Prop :=
  r_tag r = d_tag d /\ r_bind r = d_bind d /\ r_typ r = d_typ d /\ r_scope r <> None
  /\ (d_bind d <> BK_VAR -> r_scope r = Some p).
Definition relu1 (U : N -> Prop) (n : bytes) (x : nat * scope) (f : frame) : Prop :=
  is_fn (snd x) = fr_fun f
  /\ match find_b n (sc_refs (snd x)), find_b n (fr_decls f) with
     | Some r, Some d => of_decl (fst x) r d /\ U (d_typ d)
     | None, None => True
     | _, _ => False
     end.
Definition relu (U : N -> Prop) (n : bytes) : list (nat * scope) -> list frame -> Prop := Forall2 (relu1 U n).

Definition sound (U : N -> Prop) : Prop := forall a b, U a -> U b -> check_ref_dup a b = false.

Lemma bytes_eqb_refl : forall a, bytes_eqb a a = true.
Proof. intro a. apply bytes_eqb_spec. reflexivity. Qed.
Lemma bytes_eqb_neq : forall a b, a <> b -> bytes_eqb a b = false.
Proof.
  intros a b H. destruct (bytes_eqb a b) eqn:E; [|reflexivity]. apply bytes_eqb_spec in E. congruence.
Qed.

Lemma relu_one : forall U n m r d p s f, relu1 U n (p, s) f ->
  (m = n -> U (d_typ d) /\ of_decl p r d) ->
  relu1 U n (p, set_ref s m r) (declare_in m d f).
Proof.
  intros U n m r d p s f [A B] H. split; [exact A|]. cbn [fst snd set_ref sc_refs declare_in fr_decls] in *.
  rewrite !find_b_cons. destruct (bytes_eqb n m) eqn:E; [|exact B].
  apply bytes_eqb_spec in E. symmetry in E. destruct (H E). split; assumption.
Qed.

Lemma relu_put_cur : forall U n m r d st fr, relu U n st fr ->
  (forall p s rest, st = (p, s) :: rest -> m = n -> U (d_typ d) /\ of_decl p r d) ->
  relu U n (put_cur m r st) (on_current (declare_in m d) fr).
Proof.
  intros U n m r d st fr R H. destruct R as [|[p s] f st fr A R]; [constructor|].
  constructor; [|exact R]. apply relu_one; [exact A|]. eapply H; reflexivity.
Qed.

Lemma relu_put_fn : forall U n m r d st fr, relu U n st fr ->
  (m = n -> U (d_typ d) /\ forall p, of_decl p r d) ->
  relu U n (put_fn m r st) (on_function (declare_in m d) fr).
Proof.
  intros U n m r d st fr R H. induction R as [|[p s] f st fr A R IH]; [constructor|].
  cbn [put_fn on_function]. pose proof A as [F _]. cbn [snd] in F. rewrite <- F.
  destruct (is_fn s); constructor; try assumption. apply relu_one; [exact A|].
  intro E. destruct (H E) as [X Y]. split; [exact X|apply Y].
Qed.

Lemma relu_fn_of : forall U n st fr q s, relu U n st fr -> fn_of st = Some (q, s) ->
  exists f, In f fr /\ relu1 U n (q, s) f /\ fr_fun f = true.
Proof.
  intros U n st fr q s R F. induction R as [|[p x] f st fr A R IH]; cbn in F; [discriminate|].
  destruct (is_fn x) eqn:X.
  - inversion F; subst. exists f. split; [left; reflexivity|]. split; [exact A|].
    destruct A as [A _]. cbn in A. congruence.
  - destruct (IH F) as (g & I & G). exists g. split; [right; exact I|exact G].
Qed.

Lemma relu_step : forall U n seed o st st' fr, sound U -> ordinary o -> declared_typ U n o -> relu U n st fr ->
  sstep seed o st st' -> relu U n st' (frame_step fr o).
Proof.
  intros U n seed o st st' fr SU O T R S.
  destruct S as [fn ar se p q s rest|x y rest|k st|k st|m b typ tag dup st st' D]; cbn [frame_step].
  - constructor; [|exact R]. split; cbn [snd fst]; [|exact I]. rewrite entered_fn. destruct fn; reflexivity.
  - inversion R; subst. assumption.
  - destruct R as [|[p s] f st fr A R]; [constructor|]. constructor; [|exact R].
    destruct A as [A B]. split; [|exact B]. cbn [snd] in *. rewrite (proj1 (is_fn_add s k O)). exact A.
  - destruct R as [|[p s] f st fr A R]; [constructor|]. constructor; [|exact R].
    destruct A as [A B]. split; [|exact B]. cbn [snd] in *. rewrite (proj2 (is_fn_add s k O)). exact A.
  - cbn [declared_typ] in T.
    assert (Bad : forall lr x f, relu1 U n x f -> find_b m (sc_refs (snd x)) = Some lr ->
              check_ref_dup (r_typ lr) typ = true -> m <> n).
    { intros lr [p s] f [_ A] L K E. subst m. cbn [fst snd] in *. rewrite L in A.
      destruct (find_b n (fr_decls f)) as [d|]; [|exact A].
      destruct A as ((_ & _ & Ty & _) & Ud). rewrite Ty, (SU _ _ Ud (T eq_refl)) in K. discriminate. }
    assert (Ign : m <> n -> forall d g, relu U n st fr ->
              (g = on_current (declare_in m d) \/ g = on_function (declare_in m d)) -> relu U n st (g fr)).
    { clear. intros E d g R G.
      assert (One : forall x f, relu1 U n x f -> relu1 U n x (declare_in m d f)).
      { intros x f [A B]. split; [exact A|]. cbn [declare_in fr_decls]. rewrite find_b_cons.
        rewrite bytes_eqb_neq by congruence. exact B. }
      destruct G as [->| ->].
      - destruct R; constructor; auto.
      - induction R as [|x f st fr A R IH]; [constructor|]. cbn [on_function].
        destruct (fr_fun f); constructor; auto. }
    destruct D as [p s rest E B|p s rest E B|p s rest lr E B L K|q s lr E B L K|p s rest lr E B L K];
      cbn [r_bind r_typ] in *.
    + subst b. cbn [bind_eqb]. apply relu_put_cur; [apply relu_put_fn; [exact R|]|].
      * intro X. split; [exact (T X)|]. intro y. repeat split; cbn; congruence.
      * intros p' s' rest' _ X. split; [exact (T X)|]. repeat split; cbn; congruence.
    + replace (bind_eqb b BK_VAR) with false by (symmetry; apply bind_eqb_neq, B).
      apply relu_put_cur; [exact R|]. intros p' s' rest' E' X. split; [exact (T X)|].
      assert (p' = p) by congruence. subst p'. repeat split; cbn; congruence.
    + replace (bind_eqb b BK_VAR) with false by (symmetry; apply bind_eqb_neq, B).
      refine (Ign _ _ _ R (or_introl eq_refl)). subst st. inversion R as [|? ? ? ? A1 A2]; subst.
      exact (Bad _ _ _ A1 L K).
    + subst b. cbn [bind_eqb]. destruct (relu_fn_of _ _ _ _ _ _ R E) as (f & _ & A1 & _).
      pose proof (Bad _ _ _ A1 L K) as X.
      assert (R' := Ign X (mk_decl tag BK_VAR typ dup) _ R (or_intror eq_refl)).
      destruct R' as [|x g st fr0 A R']; [constructor|]. constructor; [|exact R'].
      destruct A as [A B]. split; [exact A|]. cbn [declare_in fr_decls]. rewrite find_b_cons.
      rewrite bytes_eqb_neq by congruence. exact B.
    + subst b. cbn [bind_eqb]. subst st. pose proof R as R0. inversion R0 as [|? ? ? ? A1 A2]; subst.
      pose proof (Bad _ _ _ A1 L K) as X.
      assert (R' := relu_put_fn U n m (undone (mk_ref tag BK_VAR typ None)) (mk_decl tag BK_VAR typ dup) _ _ R
                      (fun E => match X E with end)).
      destruct R' as [|x g st fr0 A R']; [constructor|]. constructor; [|exact R'].
      destruct A as [A B]. split; [exact A|]. cbn [declare_in fr_decls]. rewrite find_b_cons.
      rewrite bytes_eqb_neq by congruence. exact B.
Qed.

Lemma run_relu : forall U n, sound U -> forall ops t t' l fr, Forall ordinary ops -> Forall (declared_typ U n) ops ->
  chain t (t_cur t) l -> relu U n (stack t l) fr ->
  run ops t = Ok t' -> exists l', chain t' (t_cur t') l' /\ relu U n (stack t' l') (fold_left frame_step ops fr).
Proof.
  intros U n SU. induction ops as [|o ops IH]; intros t t' l fr O T C R E; cbn [run fold_left] in *.
  - inversion E; subst. eauto.
  - inversion O as [|? ? O1 O2]; subst. inversion T as [|? ? T1 T2]; subst.
    destruct (step o t) as [u| |] eqn:S; try discriminate.
    destruct (step_stack _ _ _ _ C S) as (l1 & C1 & S1).
    eapply IH; [exact O2|exact T2|exact C1| |exact E]. eapply relu_step; eassumption.
Qed.

Lemma start_relu : forall U n, relu U n (stack start [0]) [program].
Proof. intros. repeat constructor. Qed.

Lemma bit_false : forall x i, has x (bit i) = false -> N.testbit x i = false.
Proof. intros x i. rewrite has_bit. auto. Qed.

Lemma sound_plain : sound plain.
Proof.
  intros a b A B. unfold plain in *. rewrite !has_lor in A, B. apply orb_false_iff in A, B.
  destruct A as [A1 A]. destruct B as [B1 B]. apply orb_false_iff in A, B.
  destruct A as [A2 A]. destruct B as [B2 B]. apply orb_false_iff in A, B.
  destruct A as [A3 A]. destruct B as [B3 B]. apply orb_false_iff in A, B.
  destruct A as [A4 A5]. destruct B as [B4 B5].
  unfold check_ref_dup, callable_class, both_fn_typ_dec, cls_and_itf, both_enum, enum_and_val, both_itf, one_of_ns,
    both_typ, both_val, is_val, is_pure_typ, is_typ.
  rewrite A1, A2, A3, A4, A5, B1, B2, B3, B4, B5. rewrite ?andb_false_r.
  destruct (has a RDT_FN), (has b RDT_FN), (has a RDT_CLASS), (has b RDT_CLASS); reflexivity.
Qed.

Lemma sound_class : sound (fun typ => typ = class_typ).
Proof. intros a b -> ->. reflexivity. Qed.

Lemma resolve_of_relu : forall U t l n fr, relu U n (stack t l) fr ->
  resolves fr n (option_map r_tag (first (fun p => local t p n) l)).
Proof.
  intros U t l n. induction l as [|p l IH]; intros fr R; inversion R as [|x f st fr' A R']; subst; cbn [first].
  - apply Res_none. intros g d [].
  - rewrite local_stack. destruct A as [_ A]. cbn [fst snd] in A.
    destruct (find_b n (sc_refs (bare (sc t p)))) as [r|] eqn:E.
    + destruct (find_b n (fr_decls f)) as [d|] eqn:D; [|destruct A].
      destruct A as ((T & _) & _). cbn [option_map]. rewrite T.
      eapply Res_found with (pre := []); [reflexivity| |exact D]. intros g d' [].
    + destruct (find_b n (fr_decls f)) as [d|] eqn:D; [destruct A|].
      rewrite find_b_none in D.
      destruct (IH _ R') as [pre f' post d -> N D'|N].
      * eapply Res_found with (pre := f :: pre); [reflexivity| |exact D'].
        intros g d' [<-|I]; [apply D|apply N, I].
      * apply Res_none. intros g d' [<-|I]; [apply D|apply N, I].
Qed.

Lemma resolves_spec : forall ops t n, Forall ordinary ops -> uniform n ops -> run ops start = Ok t ->
  resolves (open_scopes ops) n (option_map r_tag (binding_of t (t_cur t) n)).
Proof.
  intros ops t n O [T|T] E.
  - destruct (run_relu _ n sound_plain _ _ _ _ _ O T start_chain (start_relu _ _) E) as (l & C & R).
    rewrite (binding_first _ _ _ C). eapply resolve_of_relu, R.
  - destruct (run_relu _ n sound_class _ _ _ _ _ O T start_chain (start_relu _ _) E) as (l & C & R).
    rewrite (binding_first _ _ _ C). eapply resolve_of_relu, R.
Qed.

(** * Declarations of var, and those of a block *)
Lemma frames_keep : forall n d ops pre f post, stays (length pre) ops -> declares f n d ->
  exists pre' f' post', fold_left frame_step ops (pre ++ f :: post) = pre' ++ f' :: post' /\ declares f' n d.
Proof.
  intros n d. 
  assert (FunKeep : forall m e pre f post, declares f n d -> exists pre' f' post',
     on_function (declare_in m e) (pre ++ f :: post) = pre' ++ f' :: post' /\ length pre' = length pre /\ declares f' n d).
  { intros m e pre f post D. induction pre as [|g pre IH]; cbn [app on_function].
    - destruct (fr_fun f).
      + exists [], (declare_in m e f), post. split; [reflexivity|]. split; [reflexivity|right; exact D].
      + exists [], f, (on_function (declare_in m e) post). auto.
    - destruct (fr_fun g).
      + exists (declare_in m e g :: pre), f, post. auto.
      + destruct IH as (pre' & f' & post' & -> & L & D'). exists (g :: pre'), f', post'. cbn. auto. }
  assert (CurKeep : forall g pre f post, (forall x, declares x n d -> declares (g x) n d) -> declares f n d ->
     exists pre' f' post',
     on_current g (pre ++ f :: post) = pre' ++ f' :: post' /\ length pre' = length pre /\ declares f' n d).
  { intros g [|h pre] f post G D; cbn.
    - exists [], (g f), post. auto.
    - exists (g h :: pre), f, post. auto. }
  induction ops as [|o ops IH]; intros pre f post S D; cbn [fold_left].
  - exists pre, f, post. auto.
  - destruct o as [fn ar se| |k|k|m b typ tag dup]; cbn [stays frame_step] in *.
    + apply (IH (mk_frame (if fn then Function ar else Block) se [] [] :: pre)); assumption.
    + destruct pre as [|h pre]; [destruct S|]. cbn in S. apply (IH pre); assumption.
    + destruct (CurKeep (mark true k) pre f post (fun x X => X) D) as (a & b & c & -> & L & D').
      apply IH; [rewrite L; exact S|exact D'].
    + destruct (CurKeep (mark false k) pre f post (fun x X => X) D) as (a & b & c & -> & L & D').
      apply IH; [rewrite L; exact S|exact D'].
    + assert (G : forall x, declares x n d -> declares (declare_in m (mk_decl tag b typ dup) x) n d)
        by (intros x X; right; exact X).
      destruct (bind_eqb b BK_VAR).
      * destruct (FunKeep m (mk_decl tag b typ dup) pre f post D) as (a1 & b1 & c1 & -> & L1 & D1).
        destruct (CurKeep _ a1 b1 c1 G D1) as (a & b' & c & -> & L & D').
        apply IH; [rewrite L, L1; exact S|exact D'].
      * destruct (CurKeep _ pre f post G D) as (a & b' & c & -> & L & D').
        apply IH; [rewrite L; exact S|exact D'].
Qed.

Definition same_for (n : bytes) : list (nat * scope) -> list (nat * scope) -> Prop :=
  Forall2 (fun x y => find_b n (sc_refs (snd x)) = find_b n (sc_refs (snd y)) /\ is_fn (snd x) = is_fn (snd y)).

Lemma same_refl : forall n st, same_for n st st.
Proof. intros n st. induction st; constructor; auto. Qed.
Lemma same_trans : forall n a b c, same_for n a b -> same_for n b c -> same_for n a c.
Proof.
  intros n a b c H. revert c. induction H as [|x y a b [A B] H IH]; intros c K; inversion K as [|? z ? c' [C D] K']; subst; constructor.
  - split; congruence.
  - apply IH, K'.
Qed.

Lemma same_put_cur : forall n m r st, m <> n -> same_for n st (put_cur m r st).
Proof.
  intros n m r [|[p s] st] H; constructor; [|apply same_refl]. split; [|reflexivity].
  cbn [snd set_ref sc_refs]. rewrite find_b_cons, bytes_eqb_neq by congruence. reflexivity.
Qed.
Lemma same_put_fn : forall n m r st, m <> n -> same_for n st (put_fn m r st).
Proof.
  intros n m r st H. induction st as [|[p s] st IH]; [constructor|]. cbn [put_fn].
  destruct (is_fn s); constructor; try apply same_refl; try exact IH; try (split; reflexivity).
  split; [|reflexivity]. cbn [snd set_ref sc_refs]. rewrite find_b_cons, bytes_eqb_neq by congruence. reflexivity.
Qed.
Lemma same_kind : forall n k st, has k (N.lor SPK_FUNC SPK_GLOBAL) = false ->
  same_for n st (set_cur_kind (fun x => N.lor x k) st) /\ same_for n st (set_cur_kind (fun x => N.ldiff x k) st).
Proof.
  intros n k [|[p s] st] H; split; constructor; try apply same_refl; (split; [reflexivity|]);
    cbn [snd]; destruct (is_fn_add s k H); congruence.
Qed.

Definition shape (x : nat * scope) : bool := is_fn (snd x).

Lemma put_fn_inner : forall m r inner outer, In true (map shape inner) ->
  put_fn m r (inner ++ outer) = put_fn m r inner ++ outer.
Proof.
  intros m r inner outer. induction inner as [|[p s] inner IH]; intro H; [destruct H|].
  cbn [put_fn app map] in *. unfold shape in H at 1. cbn [snd] in H. destruct (is_fn s); [reflexivity|].
  cbn [app]. rewrite IH; [reflexivity|]. destruct H as [H|H]; [discriminate|exact H].
Qed.
Lemma shape_put_fn : forall m r st, map shape (put_fn m r st) = map shape st.
Proof.
  intros m r st. induction st as [|[p s] st IH]; [reflexivity|]. cbn [put_fn].
  destruct (is_fn s) eqn:E; cbn [map]; [reflexivity|]. rewrite IH. reflexivity.
Qed.
Lemma shape_put_cur : forall m r st, map shape (put_cur m r st) = map shape st.
Proof. intros m r [|[p s] st]; reflexivity. Qed.
Lemma same_shape : forall n a b, same_for n a b -> map shape a = map shape b.
Proof. intros n a b H. induction H as [|x y a b [_ E] H IH]; cbn; [reflexivity|]. unfold shape at 1 3. rewrite E, IH. reflexivity. Qed.
Lemma same_app_inv : forall n a1 a2 b, same_for n (a1 ++ a2) b ->
  exists b1 b2, b = b1 ++ b2 /\ same_for n a1 b1 /\ same_for n a2 b2.
Proof. intros n a1 a2 b H. apply Forall2_app_inv_l in H. destruct H as (b1 & b2 & A & B & C). eauto. Qed.

Lemma confined_step : forall n seed o rest open inner outer st',
  ordinary o -> confined n open (o :: rest) -> map shape inner = open -> outer <> [] ->
  sstep seed o (inner ++ outer) st' ->
  exists open' inner' outer', st' = inner' ++ outer' /\ map shape inner' = open' /\ same_for n outer outer'
    /\ confined n open' rest.
Proof.
  intros n seed o rest open inner outer st' O K Sh Ne S.
  assert (Other : same_for n (inner ++ outer) st' -> confined n open rest ->
     exists open' inner' outer', st' = inner' ++ outer' /\ map shape inner' = open' /\ same_for n outer outer'
       /\ confined n open' rest).
  { intros Sm Cf. apply same_app_inv in Sm. destruct Sm as (b1 & b2 & -> & S1 & S2).
    exists open, b1, b2. rewrite <- (same_shape _ _ _ S1). auto. }
  remember (inner ++ outer) as st eqn:Est.
  destruct S as [fn ar se p q s rest'|x y rest'|k st|k st|m b typ tag dup st st' D]; cbn [confined] in K.
  - eexists (fn :: open), (_ :: inner), outer. cbn [app map]. rewrite Est. split; [reflexivity|].
    split; [|split; [apply same_refl|exact K]]. unfold shape at 1. cbn [snd]. rewrite entered_fn, Sh. reflexivity.
  - destruct open as [|b open]; [destruct K|]. destruct inner as [|z inner]; [discriminate|].
    cbn in Est. inversion Est as [[E1 E2]]. exists open, inner, outer.
    split; [exact E2|]. split; [cbn in Sh; congruence|]. split; [apply same_refl|exact K].
  - apply Other; [apply same_kind, O|exact K].
  - apply Other; [apply same_kind, O|exact K].
  - destruct K as [K1 K2].
    destruct (list_eq_dec Byte.byte_eq_dec m n) as [->|Ne'].
    2:{ apply Other; [|exact K2].
        destruct D; try apply same_refl; try (apply same_put_cur; exact Ne'); try (apply same_put_fn; exact Ne').
        eapply same_trans; [apply same_put_fn; exact Ne'|apply same_put_cur; exact Ne']. }
    destruct (K1 eq_refl) as [Ko Kv]. destruct inner as [|z inner]; [cbn in Sh; congruence|].
    assert (X : exists inner', st' = inner' ++ outer /\ map shape inner' = map shape (z :: inner)).
    { destruct D as [p s rs E B|p s rs E B|p s rs lr E B L C|q s lr E B L C|p s rs lr E B L C]; cbn [r_bind] in B.
      - rewrite Est. rewrite put_fn_inner by (rewrite Sh; apply Kv, B).
        exists (put_cur n (done p (mk_ref tag b typ None)) (put_fn n (done p (mk_ref tag b typ None)) (z :: inner))).
        rewrite shape_put_cur, shape_put_fn. split; [|reflexivity].
        destruct z as [zp zs]. cbn [put_fn]. destruct (is_fn zs); reflexivity.
      - rewrite Est. exists (put_cur n (done p (mk_ref tag b typ None)) (z :: inner)).
        rewrite shape_put_cur. split; [destruct z; reflexivity|reflexivity].
      - exists (z :: inner). auto.
      - exists (z :: inner). auto.
      - rewrite Est. rewrite put_fn_inner by (rewrite Sh; apply Kv, B).
        eexists. split; [reflexivity|]. apply shape_put_fn. }
    destruct X as (inner' & -> & Sh'). exists open, inner', outer.
    rewrite Sh', Sh. repeat split; [apply same_refl|exact K2].
Qed.

Lemma confined_run : forall n ops t t' l open inner outer,
  Forall ordinary ops -> confined n open ops -> map shape inner = open -> outer <> [] ->
  chain t (t_cur t) l -> stack t l = inner ++ outer -> run ops t = Ok t' ->
  exists l', chain t' (t_cur t') l' /\ same_for n outer (stack t' l').
Proof.
  intros n. induction ops as [|o ops IH]; intros t t' l open inner outer O K Sh Ne C St E.
  - cbn in K, E. inversion E; subst. destruct inner; [|discriminate]. cbn in St.
    exists l. split; [exact C|]. rewrite St. apply same_refl.
  - cbn [run] in E. destruct (step o t) as [u| |] eqn:S; try discriminate.
    destruct (step_stack _ _ _ _ C S) as (l1 & C1 & S1). rewrite St in S1.
    inversion O as [|? ? O1 O2]; subst.
    destruct (confined_step _ _ _ _ _ _ _ _ O1 K eq_refl Ne S1) as (open' & inner' & outer' & A & B & D & F).
    assert (Ne' : outer' <> []) by (intro; subst; inversion D; subst; congruence).
    destruct (IH _ _ _ _ _ _ O2 F B Ne' C1 A E) as (l' & C' & G).
    exists l'. split; [exact C'|]. eapply same_trans; eassumption.
Qed.

Lemma same_first : forall n t t' l l', same_for n (stack t l) (stack t' l') ->
  first (fun p => local t p n) l = first (fun p => local t' p n) l'.
Proof.
  intros n t t' l. induction l as [|p l IH]; intros [|p' l'] H; inversion H as [|? ? ? ? [A _] B]; subst; [reflexivity|].
  cbn [first]. rewrite !local_stack. cbn [snd] in A. rewrite A.
  destruct (find_b n (sc_refs (bare (sc t' p')))); [reflexivity|]. apply IH, B.
Qed.

Lemma stack_ne : forall t p l, chain t p l -> stack t l <> [].
Proof. intros t p l C. destruct C; discriminate. Qed.

Lemma run_chain : forall ops t t' l, chain t (t_cur t) l -> run ops t = Ok t' -> exists l', chain t' (t_cur t') l'.
Proof.
  induction ops as [|o ops IH]; intros t t' l C E; cbn [run] in E; [inversion E; subst; eauto|].
  destruct (step o t) as [u| |] eqn:S; try discriminate.
  destruct (step_stack _ _ _ _ C S) as (l1 & C1 & S1). eapply IH; eassumption.
Qed.

Lemma confined_spec : forall ops1 ops2 t1 t2 n, Forall ordinary ops2 ->
  run ops1 start = Ok t1 -> run ops2 t1 = Ok t2 -> confined n [] ops2 ->
  binding_of t2 (t_cur t2) n = binding_of t1 (t_cur t1) n.
Proof.
  intros ops1 ops2 t1 t2 n O E1 E2 K.
  destruct (run_chain _ _ _ _ start_chain E1) as (l & C).
  destruct (confined_run n ops2 t1 t2 l [] [] (stack t1 l) O K eq_refl (stack_ne _ _ _ C) C eq_refl E2) as (l' & C' & S).
  rewrite (binding_first _ _ _ C), (binding_first _ _ _ C'). symmetry. apply same_first, S.
Qed.

(** * Redeclarations *)
Definition uni (U : N -> Prop) (n : bytes) (ops : list sop) (t : tab) : Prop :=
  exists l, chain t (t_cur t) l /\ relu U n (stack t l) (open_scopes ops).

Lemma uniform_uni : forall ops n typ tag b dup t, Forall ordinary ops ->
  uniform n (ops ++ [SDeclare n b typ tag dup]) -> run ops start = Ok t ->
  exists U, sound U /\ U typ /\ uni U n ops t.
Proof.
  intros ops n typ tag b dup t O T E.
  assert (X : forall U, sound U -> Forall (declared_typ U n) (ops ++ [SDeclare n b typ tag dup]) ->
     exists U, sound U /\ U typ /\ uni U n ops t).
  { intros U SU F. apply Forall_app in F. destruct F as [F1 F2]. exists U. split; [exact SU|].
    inversion F2; subst. split; [apply H1; reflexivity|].
    exact (run_relu _ n SU _ _ _ _ _ O F1 start_chain (start_relu _ _) E). }
  destruct T as [T|T]; eapply X; try exact T; [apply sound_plain|apply sound_class].
Qed.

(** What the current scope and the enclosing function have under the name. *)
Lemma uni_local : forall U n ops t f rest, uni U n ops t -> open_scopes ops = f :: rest ->
  match local t (t_cur t) n, find_b n (fr_decls f) with
  | Some r, Some d => of_decl (t_cur t) r d /\ U (d_typ d)
  | None, None => True
  | _, _ => False
  end /\ is_fn (cur t) = fr_fun f.
Proof.
  intros U n ops t f rest (l & C & R) E. rewrite E in R. destruct (chain_hd _ _ _ C) as (l' & ->).
  inversion R as [|? ? ? ? [A B] R']; subst. split; [exact B|exact A].
Qed.

Lemma uni_fn : forall U n ops t, uni U n ops t -> Exists (fun f => fr_fun f = true) (open_scopes ops) ->
  exists ps pre f post, upper_fn t (t_cur t) = Some ps /\ open_scopes ops = pre ++ f :: post
    /\ Forall (fun g => fr_fun g = false) pre /\ fr_fun f = true
    /\ match local t ps n, find_b n (fr_decls f) with
       | Some r, Some d => of_decl ps r d /\ U (d_typ d)
       | None, None => True
       | _, _ => False
       end.
Proof.
  intros U n ops t (l & C & R) X. pose proof (upper_fn_stack _ _ _ C) as F.
  clear C. revert F R X. generalize (upper_fn t (t_cur t)) as u. intros u F R X.
  assert (Y : exists q s, fn_of (stack t l) = Some (q, s) /\ s = bare (sc t q) /\
     exists pre f post, open_scopes ops = pre ++ f :: post /\ Forall (fun g => fr_fun g = false) pre
       /\ fr_fun f = true /\ relu1 U n (q, s) f).
  { clear F. revert X R. generalize (open_scopes ops) as fr. induction l as [|p l IH]; intros fr X R; cbn in R.
    - inversion R; subst. inversion X.
    - inversion R as [|? f ? fr' A R']; subst. cbn [stack map fn_of]. fold (stack t l).
      pose proof A as [A1 _]. cbn [snd] in A1. rewrite A1. destruct (fr_fun f) eqn:K.
      + exists p, (bare (sc t p)). split; [reflexivity|]. split; [reflexivity|]. exists [], f, fr'. auto.
      + inversion X; subst; [congruence|]. destruct (IH _ H0 R') as (q & s & B & B' & pre & g & post & -> & D).
        exists q, s. split; [exact B|]. split; [exact B'|]. exists (f :: pre), g, post.
        split; [reflexivity|]. destruct D as (D1 & D2). split; [constructor; assumption|exact D2]. }
  destruct Y as (q & s & A & -> & pre & f & post & B & D & K & [_ M]).
  destruct u as [ps|]; [|congruence]. destruct F as [F _]. rewrite A in F. inversion F; subst q.
  exists ps, pre, f, post. split; [reflexivity|]. split; [exact B|]. split; [exact D|]. split; [exact K|exact M].
Qed.

Lemma first_fun_unique : forall pre1 pre2 f1 f2 post1 post2,
  Forall (fun g => fr_fun g = false) pre1 -> Forall (fun g => fr_fun g = false) pre2 ->
  fr_fun f1 = true -> fr_fun f2 = true -> pre1 ++ f1 :: post1 = pre2 ++ f2 :: post2 -> f1 = f2.
Proof.
  induction pre1 as [|g pre1 IH]; intros [|h pre2] f1 f2 post1 post2 A B C D E; cbn in E; inversion E; subst.
  - reflexivity.
  - inversion B; subst. congruence.
  - inversion A; subst. congruence.
  - inversion A; inversion B; subst. eapply IH; eassumption.
Qed.

Lemma redeclare_rejected : forall U n ops t f rest d b typ tag, sound U -> U typ -> uni U n ops t ->
  open_scopes ops = f :: rest -> declares f n d -> b <> BK_VAR ->
  step (SDeclare n b typ tag true) t = Rejected.
Proof.
  intros U n ops t f rest d b typ tag SU Ut Hu E D B. destruct (uni_local _ _ _ _ _ _ Hu E) as [L _].
  cbn [step]. unfold add_local. cbn [r_bind].
  replace (bind_eqb b BK_VAR) with false by (symmetry; apply bind_eqb_neq, B).
  destruct (find_b n (fr_decls f)) as [e|] eqn:F.
  2:{ exfalso. rewrite find_b_none in F. exact (F d D). }
  destruct (local t (t_cur t) n) as [r|]; [|destruct L]. destruct L as ((T1 & T2 & T3 & T4 & T5) & Ue).
  destruct (is_kind (sc t (t_cur t)) SPK_CATCH); cbn [andb]; [reflexivity|].
  unfold finish_local. cbn [negb r_typ r_bind]. rewrite T3, (SU _ _ Ue Ut).
  replace (bind_eqb b BK_VAR) with false by (symmetry; apply bind_eqb_neq, B). cbn [negb].
  destruct (r_scope r); [|congruence]. rewrite orb_true_r.
  destruct (negb _ && _ && _); reflexivity.
Qed.

Lemma lexical_binds : forall b, lexical b -> bind_eqb b BK_VAR = false /\ bind_eqb b BK_PARAM = false /\ b <> BK_VAR.
Proof. intros b [->| ->]; cbn; repeat split; discriminate. Qed.

Lemma var_over_function_lexical : forall U n ops t pre f post d typ tag, sound U -> U typ -> uni U n ops t ->
  open_scopes ops = pre ++ f :: post -> Forall (fun g => fr_fun g = false) pre -> fr_fun f = true ->
  find_b n (fr_decls f) = Some d -> lexical (d_bind d) -> d_typ d <> RDT_FN ->
  step (SDeclare n BK_VAR typ tag true) t = Rejected.
Proof.
  intros U n ops t pre f post d typ tag SU Ut Hu E P Ff D Lx Ty.
  destruct (uni_fn _ _ _ _ Hu) as (ps & pre' & f' & post' & Up & E' & P' & Ff' & M).
  { rewrite E. apply Exists_app. right. apply Exists_cons_hd, Ff. }
  rewrite E in E'. assert (f = f') by (eapply (first_fun_unique pre pre'); eassumption). subst f'.
  cbn [step]. unfold add_local. cbn [r_bind bind_eqb]. rewrite Up, D in *.
  destruct (_ && _); [reflexivity|].
  destruct (local t ps n) as [r|]; [|destruct M]. destruct M as ((T1 & T2 & T3 & T4 & T5) & Ue).
  destruct (lexical_binds _ Lx) as (X1 & X2 & _). rewrite T2, T3, X1, X2. cbn [negb orb andb r_typ].
  replace (d_typ d =? RDT_FN)%N with false by (symmetry; apply N.eqb_neq, Ty). cbn [negb].
  rewrite (SU _ _ Ue Ut). reflexivity.
Qed.

(** Ids of the open scopes. *)
Definition idrel1 (x : nat * scope) (f : frame) : Prop :=
  fr_settled f = true -> fr_sort f <> Program -> sc_id (snd x) <> 0.
Lemma idrel_step : forall seed o st st' fr, Forall2 idrel1 st fr -> sstep seed o st st' ->
  Forall2 idrel1 st' (frame_step fr o).
Proof.
  intros seed o st st' fr R S.
  assert (PC : forall n d r st fr, Forall2 idrel1 st fr -> Forall2 idrel1 (put_cur n r st) (on_current (declare_in n d) fr)).
  { clear. intros n d r st fr R. destruct R as [|[p s] f st fr A R]; constructor; auto. }
  assert (PF : forall n d r st fr, Forall2 (fun x f => is_fn (snd x) = fr_fun f) st fr -> Forall2 idrel1 st fr ->
     Forall2 idrel1 (put_fn n r st) (on_function (declare_in n d) fr)).
  { clear. intros n d r st fr F R. induction R as [|[p s] f st fr A R IH]; [constructor|].
    inversion F; subst. cbn [put_fn on_function snd] in *. rewrite <- H2. destruct (is_fn s); constructor; auto. }
  assert (OC : forall g st fr, (forall f, fr_settled (g f) = fr_settled f /\ fr_sort (g f) = fr_sort f) ->
     Forall2 idrel1 st fr -> Forall2 idrel1 st (on_current g fr)).
  { clear. intros g st fr G R. destruct R as [|x f st fr A R]; constructor; auto.
    unfold idrel1 in *. destruct (G f) as [-> ->]. exact A. }
  assert (OF : forall g st fr, (forall f, fr_settled (g f) = fr_settled f /\ fr_sort (g f) = fr_sort f) ->
     Forall2 idrel1 st fr -> Forall2 idrel1 st (on_function g fr)).
  { clear. intros g st fr G R. induction R as [|x f st fr A R IH]; [constructor|]. cbn [on_function].
    destruct (fr_fun f); constructor; auto.
    unfold idrel1 in *. destruct (G f) as [-> ->]. exact A. }
  assert (SC : forall n r st fr, Forall2 idrel1 st fr -> Forall2 idrel1 (put_cur n r st) fr).
  { clear. intros n r st fr R. destruct R as [|[p s] f st fr A R]; constructor; auto. }
  assert (SF : forall n r st fr, Forall2 idrel1 st fr -> Forall2 idrel1 (put_fn n r st) fr).
  { clear. intros n r st fr R. induction R as [|[p s] f st fr A R IH]; [constructor|]. cbn [put_fn].
    destruct (is_fn s); constructor; auto. }
  destruct S as [fn ar se p q s rest|x y rest|k st|k st|m b typ tag dup st st' D]; cbn [frame_step].
  - constructor; [|exact R]. unfold idrel1. cbn. intros -> _. discriminate.
  - inversion R; subst. assumption.
  - destruct R as [|[p s] f st fr A R]; constructor; auto.
  - destruct R as [|[p s] f st fr A R]; constructor; auto.
  - assert (Z : Forall2 idrel1 st (if bind_eqb b BK_VAR then on_function (declare_in m (mk_decl tag b typ dup)) fr else fr)).
    { destruct (bind_eqb b BK_VAR); [apply OF; auto|exact R]. }
    apply OC; [auto|]. destruct D; auto.
Qed.

Lemma run_idrel : forall ops t t' l fr, chain t (t_cur t) l -> Forall2 idrel1 (stack t l) fr ->
  run ops t = Ok t' -> exists l', chain t' (t_cur t') l' /\ Forall2 idrel1 (stack t' l') (fold_left frame_step ops fr).
Proof.
  induction ops as [|o ops IH]; intros t t' l fr C R E; cbn [run fold_left] in *.
  - inversion E; subst. eauto.
  - destruct (step o t) as [u| |] eqn:S; try discriminate.
    destruct (step_stack _ _ _ _ C S) as (l1 & C1 & S1).
    eapply IH; [exact C1| |exact E]. eapply idrel_step; eassumption.
Qed.

Lemma block_id : forall ops t f rest, run ops start = Ok t -> open_scopes ops = f :: rest ->
  fr_settled f = true -> fr_sort f <> Program -> sc_id (cur t) <> 0.
Proof.
  intros ops t f rest E F S P.
  destruct (run_idrel ops start t [0] [program] start_chain) as (l & C & R).
  - constructor; [|constructor]. intros _ X. exfalso. apply X. reflexivity.
  - exact E.
  - fold (open_scopes ops) in R. rewrite F in R. destruct (chain_hd _ _ _ C) as (l' & ->).
    inversion R; subst. apply H2; assumption.
Qed.

Lemma on_current_length : forall g st, length (on_current g st) = length st.
Proof. intros g [|x st]; reflexivity. Qed.
Lemma on_function_length : forall g st, length (on_function g st) = length st.
Proof. intros g st. induction st as [|x st IH]; [reflexivity|]. cbn. destruct (fr_fun x); cbn; congruence. Qed.

Lemma last_on_current : forall g st d, (forall f, fr_sort (g f) = fr_sort f) ->
  fr_sort (last (on_current g st) d) = fr_sort (last st d).
Proof. intros g [|x [|y st]] d H; cbn; [reflexivity|apply H|reflexivity]. Qed.
Lemma last_on_function : forall g st d, (forall f, fr_sort (g f) = fr_sort f) ->
  fr_sort (last (on_function g st) d) = fr_sort (last st d).
Proof.
  intros g st d H. induction st as [|x st IH]; [reflexivity|]. cbn [on_function].
  destruct (fr_fun x); [destruct st; cbn; [apply H|reflexivity]|].
  destruct st as [|y st]; [reflexivity|]. cbn [on_function] in *. destruct (fr_fun y); exact IH.
Qed.

(** The outermost scope stays the program. *)
Lemma program_last : forall ops t t' l fr, chain t (t_cur t) l -> length (stack t l) = length fr ->
  fr <> [] -> fr_sort (last fr program) = Program -> run ops t = Ok t' ->
  exists l', chain t' (t_cur t') l' /\ length (stack t' l') = length (fold_left frame_step ops fr)
  /\ fr_sort (last (fold_left frame_step ops fr) program) = Program.
Proof.
  induction ops as [|o ops IH]; intros t t' l fr C Len Ne L E; cbn [run fold_left] in *.
  - inversion E; subst. eauto.
  - destruct (step o t) as [u| |] eqn:S; try discriminate.
    destruct (step_stack _ _ _ _ C S) as (l1 & C1 & S1).
    assert (PL : forall n r x, length (put_fn n r x) = length x).
    { clear. intros n r x. induction x as [|[p s] x IH]; [reflexivity|]. cbn. destruct (is_fn s); cbn; congruence. }
    assert (PC : forall n r x, length (put_cur n r x) = length x).
    { clear. intros n r [|[p s] x]; reflexivity. }
    eapply IH; [exact C1| | | |exact E]; clear IH E.
    + destruct S1 as [fn ar se p q s rest|x y rest|k st|k st|m b typ tag dup st st' D]; cbn [frame_step].
      * cbn in *. lia.
      * destruct fr as [|f fr]; [discriminate|]. cbn in *. lia.
      * rewrite on_current_length, <- Len. destruct st as [|[? ?] ?]; reflexivity.
      * rewrite on_current_length, <- Len. destruct st as [|[? ?] ?]; reflexivity.
      * rewrite on_current_length. replace (length (if bind_eqb b BK_VAR then _ else fr)) with (length fr)
          by (destruct (bind_eqb b BK_VAR); rewrite ?on_function_length; reflexivity).
        rewrite <- Len. destruct D; rewrite ?PC, ?PL; reflexivity.
    + destruct S1 as [fn ar se p q s rest|x y rest|k st|k st|m b typ tag dup st st' D]; cbn [frame_step]; try discriminate.
      * destruct fr as [|f [|g fr]]; cbn in *; try discriminate; lia.
      * destruct fr; [congruence|discriminate].
      * destruct fr; [congruence|discriminate].
      * destruct fr as [|f fr]; [congruence|]. destruct (bind_eqb b BK_VAR); cbn; [destruct (fr_fun f)|]; discriminate.
    + destruct S1 as [fn ar se p q s rest|x y rest|k st|k st|m b typ tag dup st st' D]; cbn [frame_step].
      * destruct fr; [congruence|exact L].
      * destruct fr as [|f [|g fr]]; cbn in *; try discriminate; exact L.
      * rewrite last_on_current by reflexivity. exact L.
      * rewrite last_on_current by reflexivity. exact L.
      * rewrite last_on_current by reflexivity.
        destruct (bind_eqb b BK_VAR); [rewrite last_on_function by reflexivity|]; exact L.
Qed.

Lemma open_function : forall ops t, run ops start = Ok t ->
  Exists (fun f => fr_fun f = true) (open_scopes ops) /\ open_scopes ops <> [].
Proof.
  intros ops t E.
  destruct (program_last ops start t [0] [program] start_chain eq_refl ltac:(discriminate) eq_refl E) as (l & C & Len & L).
  fold (open_scopes ops) in *. assert (Ne : open_scopes ops <> []).
  { intro X. rewrite X in Len. pose proof (stack_ne _ _ _ C). destruct (stack t l); [congruence|discriminate]. }
  split; [|exact Ne]. apply Exists_exists. exists (last (open_scopes ops) program). split.
  - destruct (exists_last Ne) as (a & b & ->). rewrite last_last. apply in_app_iff. right. left. reflexivity.
  - unfold fr_fun. rewrite L. reflexivity.
Qed.

(** What [var] does over what the scope and the function have. *)
Lemma var_step : forall U n ops t f rest typ tag, sound U -> U typ -> uni U n ops t -> run ops start = Ok t ->
  open_scopes ops = f :: rest ->
  exists g, find fr_fun (open_scopes ops) = Some g /\
  step (SDeclare n BK_VAR typ tag true) t <> Panic /\
  ((exists d, find_b n (fr_decls f) = Some d /\ lexical (d_bind d) /\ d_typ d <> RDT_FN
     /\ fr_settled f = true /\ fr_sort f <> Program) ->
   step (SDeclare n BK_VAR typ tag true) t = Rejected) /\
  (is_kind (cur t) SPK_CATCH = false ->
   (forall d, find_b n (fr_decls f) = Some d -> d_bind d = BK_VAR \/ d_bind d = BK_PARAM) ->
   (forall d, find_b n (fr_decls g) = Some d -> (d_bind d = BK_VAR \/ d_bind d = BK_PARAM) /\ d_typ d <> RDT_FN) ->
   exists t', step (SDeclare n BK_VAR typ tag true) t = Ok t').
Proof.
  intros U n ops t f rest typ tag SU Ut Hu E F.
  destruct (open_function _ _ E) as [Xf _].
  destruct (uni_fn _ _ _ _ Hu Xf) as (ps & pre & g & post & Up & Eg & P & Fg & M).
  exists g. split.
  { rewrite Eg. clear -P Fg. induction pre as [|h pre IH]; cbn; [rewrite Fg; reflexivity|].
    inversion P; subst. rewrite H1. apply IH. assumption. }
  destruct (uni_local _ _ _ _ _ _ Hu F) as [Lc _].
  cbn [step]. unfold add_local. cbn [r_bind bind_eqb]. rewrite Up. fold (cur t).
  set (fin := finish_local t _ _ true _ _).
  assert (Fin : fin <> None /\
     ((exists d, find_b n (fr_decls f) = Some d /\ lexical (d_bind d) /\ d_typ d <> RDT_FN
         /\ fr_settled f = true /\ fr_sort f <> Program) -> exists u, fin = Some (false, u)) /\
     ((forall d, find_b n (fr_decls f) = Some d -> d_bind d = BK_VAR \/ d_bind d = BK_PARAM) ->
       exists u, fin = Some (true, u))).
  { unfold fin, finish_local. cbn [negb r_bind bind_eqb r_typ].
    destruct (local t (t_cur t) n) as [r|]; destruct (find_b n (fr_decls f)) as [d|] eqn:D; try (destruct Lc; fail).
    - destruct Lc as ((T1 & T2 & T3 & T4 & T5) & Ue). split; [|split].
      + destruct (negb _ && _ && _); [|discriminate]. destruct (r_scope r); [|congruence].
        destruct (_ || _); discriminate.
      + intros (d' & X & Lx & Ty & St & So). inversion X; subst d'.
        destruct (lexical_binds _ Lx) as (X1 & X2 & X3). rewrite T2, T3, X1, X2, (T5 X3).
        replace (d_typ d =? RDT_FN)%N with false by (symmetry; apply N.eqb_neq, Ty). cbn [negb andb].
        pose proof (block_id _ _ _ _ E F St So) as Id. unfold cur in Id.
        replace (sc_id (sc t (t_cur t)) =? 0) with false by (symmetry; apply Nat.eqb_neq, Id). cbn [negb orb].
        rewrite (SU _ _ Ue Ut). eauto.
      + intro X. rewrite T2. destruct (X d eq_refl) as [-> | ->]; cbn; eauto.
    - split; [discriminate|]. split; [|eauto]. intros (d & X & _). discriminate. }
  destruct Fin as (F1 & F2 & F3).
  assert (Go : match local t ps n with
    | Some lp => if negb true || bind_eqb (r_bind lp) BK_PARAM then fin
        else if negb (bind_eqb (r_bind lp) BK_VAR) && negb (r_typ lp =? RDT_FN)%N
             then Some (check_ref_dup (r_typ lp) typ, t)
             else match r_scope lp with
                  | Some q => if (sc_id (sc t q) =? 0) && (r_typ lp =? RDT_FN)%N
                              then Some (check_ref_dup (r_typ lp) typ, t) else fin
                  | None => None
                  end
    | None => fin end = fin \/ exists lp, local t ps n = Some lp /\ check_ref_dup (r_typ lp) typ = false /\
        match local t ps n with
    | Some lp => if negb true || bind_eqb (r_bind lp) BK_PARAM then fin
        else if negb (bind_eqb (r_bind lp) BK_VAR) && negb (r_typ lp =? RDT_FN)%N
             then Some (check_ref_dup (r_typ lp) typ, t)
             else match r_scope lp with
                  | Some q => if (sc_id (sc t q) =? 0) && (r_typ lp =? RDT_FN)%N
                              then Some (check_ref_dup (r_typ lp) typ, t) else fin
                  | None => None
                  end
    | None => fin end = Some (false, t) /\
    (negb (bind_eqb (r_bind lp) BK_VAR) && negb (bind_eqb (r_bind lp) BK_PARAM) = true \/ r_typ lp = RDT_FN)).
  { destruct (local t ps n) as [lp|]; [|left; reflexivity].
    destruct (find_b n (fr_decls g)) as [d|]; [|destruct M]. destruct M as ((T1 & T2 & T3 & T4 & T5) & Ue).
    assert (K : check_ref_dup (r_typ lp) typ = false) by (rewrite T3; apply SU; assumption).
    rewrite K. cbn [negb orb]. destruct (bind_eqb (r_bind lp) BK_PARAM) eqn:Bp; [left; reflexivity|].
    destruct (bind_eqb (r_bind lp) BK_VAR) eqn:Bv; cbn [negb andb].
    - destruct (r_scope lp); [|congruence]. destruct (N.eqb_spec (r_typ lp) RDT_FN) as [Fn|Fn].
      + destruct (_ && _); [right; exists lp; auto|left; reflexivity].
      + rewrite andb_false_r. left. reflexivity.
    - destruct (N.eqb_spec (r_typ lp) RDT_FN) as [Fn|Fn]; cbn [negb].
      + destruct (r_scope lp); [|congruence].
        destruct (_ && _); [right; exists lp; auto|left; reflexivity].
      + right. exists lp. rewrite Bv, Bp. auto. }
  cbn [r_typ] in *. 
  split; [|split].
  - destruct (_ && _); [discriminate|]. destruct Go as [-> | (lp & _ & _ & -> & _)]; [|discriminate].
    destruct fin as [[[] u]|]; congruence.
  - intro X. destruct (_ && _); [reflexivity|]. destruct Go as [-> | (lp & _ & _ & -> & _)]; [|reflexivity].
    destruct (F2 X) as (u & ->). reflexivity.
  - intros Nc X Y. rewrite Nc. cbn [andb].
    destruct Go as [-> | (lp & Ll & _ & _ & Z)].
    + destruct (F3 X) as (u & ->). eauto.
    + exfalso. rewrite Ll in M. destruct (find_b n (fr_decls g)) as [d|]; [|destruct M].
      destruct M as ((T1 & T2 & T3 & T4 & T5) & Ue). destruct (Y d eq_refl) as [Yb Yt]. rewrite T2, T3 in Z.
      destruct Z as [Z|Z]; [|congruence]. destruct Yb as [Yb|Yb]; rewrite Yb in Z; discriminate.
Qed.
