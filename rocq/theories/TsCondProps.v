(** C64: conditional types are read as written. *)
From Coq Require Import Lia.
From Verif Require Import Base TokenModel LexModel ParseBase ExprModel ExprFuel ExprProps TsUnionModel TsUnionSpec TsUnionProofs TsListProofs TsCondModel TsCondSpec.

(** One operand with no operator after it. *)
Lemma single : forall A prim is_fn s (a : A) s1 n, prim s = POk a s1 -> at_op s = false -> at_op s1 = false ->
  ts_typ A prim is_fn (S (S n)) s = POk (TOne a) s1.
Proof.
  intros A prim is_fn s a s1 n P O O1. unfold ts_typ. rewrite at_eq, O, P. cbn [pbind].
  destruct (is_fn a && negb false); [reflexivity|]. rewrite loop_eq, O1. reflexivity.
Qed.
(** A way to read operands that succeeds wherever another does gives the same types. *)
Lemma union_mono : forall A (P Q : pst -> pres A) is_fn, (forall s a s1, P s = POk a s1 -> Q s = POk a s1) -> forall n,
  (forall c lhs min s t z, union_at A P is_fn n c lhs min s = POk t z -> union_at A Q is_fn n c lhs min s = POk t z) /\
  (forall lhs rhs nt es min s t z, union_loop A P is_fn n lhs rhs nt es min s = POk t z -> union_loop A Q is_fn n lhs rhs nt es min s = POk t z) /\
  (forall r p s t z, rhs_at A P is_fn n r p s = POk t z -> rhs_at A Q is_fn n r p s = POk t z).
Proof.
  intros A P Q is_fn M. induction n as [|n (I1 & I2 & I3)]; [repeat split; intros; discriminate|]. repeat split; intros.
  - rewrite at_eq in H |- *. destruct lhs as [t0|]; [|destruct (at_op s)].
    + cbn [pbind] in *. destruct t0 as [a|l|l]; auto. destruct (is_fn a && negb c); auto.
    + cbn [pbind] in *. auto.
    + destruct (P s) as [a s1| | |] eqn:E; cbn [pbind] in H; try discriminate. rewrite (M _ _ _ E). cbn [pbind].
      destruct (is_fn a && negb c); auto.
  - rewrite loop_eq in H |- *. destruct (negb (at_op s) || _); [exact H|]. cbv zeta in *.
    destruct (P (next s)) as [a s1| | |] eqn:E; cbn [pbind] in H; try discriminate. rewrite (M _ _ _ E). cbn [pbind].
    destruct (rhs_at A P is_fn n (TOne a) (pcd s) s1) as [x s2| | |] eqn:R; cbn [pbind] in H; try discriminate.
    rewrite (I3 _ _ _ _ _ R). cbn [pbind]. destruct lhs; [destruct (Nat.ltb _ _)|]; auto.
  - rewrite rhs_eq in H |- *. destruct (at_op s && _); [|exact H]. cbv zeta in *.
    destruct (union_at A P is_fn n false (Some r) (pcd s) s) as [x s2| | |] eqn:R; cbn [pbind] in H; try discriminate.
    rewrite (I1 _ _ _ _ _ _ R). cbn [pbind]. auto.
Qed.
Section Claims.
Variables (B : Type) (base : pst -> pres B) (early is_fn : B -> bool).
Lemma cond_eq : forall n c s, cond_typ B base early is_fn (S n) c s =
  ts_typ (ctree B) (primary B base early (cond_typ B base early is_fn n) c) (is_fn_tree B is_fn) n s.
Proof using. reflexivity. Qed.
(** Operands that are not followed by extends where that matters. *)
Definition plain_op (c : bool) (s : pst) : pres (ctree B) :=
  match base s with POk b s1 => if c && at_tok T_EXTENDS s1 then PErr else POk (CBase b) s1 | PErr => PErr | PPanic => PPanic | PFuel => PFuel end.
Lemma plain_primary : forall rec c s a s1, plain_op c s = POk a s1 -> primary B base early rec c s = POk a s1.
Proof using.
  intros rec c s a s1 H. unfold plain_op in H. unfold primary. destruct (base s) as [b s2| | |]; try discriminate. cbn [pbind].
  destruct c, (at_tok T_EXTENDS s2); cbn [andb] in H; try discriminate; rewrite ?andb_false_r; cbn [andb]; exact H.
Qed.
Lemma plain_run : forall c s bs z, run base s bs z -> (c = true -> at_tok T_EXTENDS z = false) -> run (plain_op c) s (map CBase bs) z /\ (c = true -> at_tok T_EXTENDS s = false).
Proof using.
  intros c s bs z H X. induction H as [s E|s b s1 bs z E P R IH]; [split; [constructor; exact E|exact X]|]. destruct (IH X) as [IH1 IH2]. split.
  - cbn [map]. eapply R_more; [exact E| |exact IH1]. unfold plain_op. rewrite P. destruct c; [rewrite IH2 by reflexivity|]; reflexivity.
  - intros _. exact (at_two T_BIT_AND T_EXTENDS s E eq_refl).
Qed.
Lemma plain_union : forall c s gs z, union base s gs z -> (c = true -> at_tok T_EXTENDS z = false) -> union (plain_op c) s (map (map CBase) gs) z.
Proof using.
  assert (Q : forall c s b s1, base s = POk b s1 -> (c = true -> at_tok T_EXTENDS s1 = false) -> plain_op c s = POk (CBase b) s1).
  { intros c s b s1 P X. unfold plain_op. rewrite P. destruct c; [rewrite X by reflexivity|]; reflexivity. }
  intros c s gs z H X. induction H as [s a s1 bs z P R E|s a s1 bs s2 gs z P R E U IH]; cbn [map].
  - destruct (plain_run c _ _ _ R X) as [R1 X1]. eapply U_last; eauto.
  - destruct (plain_run c _ _ _ R (fun _ => at_two T_BIT_OR T_EXTENDS s2 E eq_refl)) as [R1 X1]. eapply U_more; eauto.
Qed.
(** A function type takes the | and & that follow with it. *)
Hypothesis fn_ends : forall s b s1, base s = POk b s1 -> is_fn b = true -> at_op s1 = false.
Lemma plain_fn : forall c s a s1, plain_op c s = POk a s1 -> is_fn_tree B is_fn a = true -> at_op s1 = false.
Proof using fn_ends.
  intros c s a s1 H F. unfold plain_op in H. destruct (base s) as [b s2| | |] eqn:P; try discriminate.
  destruct (c && _); [discriminate|]. injection H as <- <-. exact (fn_ends _ _ _ P F).
Qed.
Lemma union_end : forall s gs z, union base s gs z -> at_op z = false.
Proof using.
  induction 1 as [s a s1 bs z P R E|]; [|assumption]. unfold at_op. rewrite E. cbn [orb].
  clear P E. induction R; assumption.
Qed.
Lemma written_ends : forall c s t z, written base c s t z -> at_op z = false.
Proof using. induction 1 as [c s gs s1 O U|]; [exact (union_end _ _ _ U)|assumption]. Qed.
Lemma exists_map : forall (h : ctree B -> Prop) gs, Exists (Forall h) (map (map CBase) gs) <-> Exists (Forall (fun b => h (CBase b))) gs.
Proof using.
  intros h gs. rewrite !Exists_exists. split.
  - intros (x & I & F). apply in_map_iff in I. destruct I as (g & <- & I). exists g. split; [exact I|]. exact (proj1 (Forall_map CBase h g) F).
  - intros (g & I & F). exists (map CBase g). split; [apply in_map; exact I|]. exact (proj2 (Forall_map CBase h g) F).
Qed.
(** What is written so, with operands before extends that are not in parentheses, literals or followed by brackets, is read
    as a tree that stands for it. *)
Theorem C64_read_partial : (forall s b s1, base s = POk b s1 -> at_tok T_EXTENDS s1 = true -> early b = false) ->
  forall c s t z, written base c s t z -> exists n u, stands u t /\ forall fuel, n <= fuel -> cond_typ B base early is_fn fuel c s = POk u z.
Proof using fn_ends.
  intros Ne c s t z W.
  induction W as [c s gs s1 O U L X|s b s1 ext s2 yes s3 no s4 O P X We (n1 & u1 & S1 & IHe) H Wy (n2 & u2 & S2 & IHy) C Wn (n3 & u3 & S3 & IHn)].
  - destruct (union_read (ctree B) (plain_op c) (is_fn_tree B is_fn) (plain_fn c) _ _ _ (plain_union c _ _ _ U X) L O) as (u & n & R1 & R2 & R3).
    exists (S n), u. split.
    + constructor; [rewrite R2, concat_map; reflexivity|]. intros h. rewrite (R3 h). apply exists_map.
    + intros [|m] Le; [lia|]. rewrite cond_eq. specialize (R1 m ltac:(lia)). unfold ts_typ in *.
      exact (proj1 (union_mono _ _ _ _ (plain_primary (cond_typ B base early is_fn m) c) m) _ _ _ _ _ _ R1).
  - exists (S (S (S (n1 + n2 + n3)))), (TOne (CCond b u1 u2 u3)). split; [constructor; assumption|].
    intros [|[|[|m]]] Le; try lia. rewrite cond_eq. apply single; [|exact O|exact (written_ends _ _ _ _ Wn)].
    unfold primary. rewrite P. cbn [pbind]. rewrite (Ne _ _ _ P X), X. cbn [negb andb]. unfold conditional, must. rewrite X. cbn [pbind].
    rewrite (IHe (S (S m))) by lia. cbn [pbind]. rewrite H. cbn [pbind]. rewrite (IHy (S (S m))) by lia. cbn [pbind]. rewrite C. cbn [pbind].
    rewrite (IHn (S (S m))) by lia. reflexivity.
Qed.
End Claims.
Print Assumptions C64_read_partial.

(** Names, and strings, which are returned early. *)
Definition operand (s : pst) : pres (bytes * bool) :=
  if at_tok T_NAME s then POk (t_text (peek s), false) (next s)
  else if at_tok T_STRING s then POk (t_text (peek s), true) (next s) else PErr.
Definition cond_of (l : list (tv * bytes * ext * bool)) : option (typ (ctree (bytes * bool))) :=
  match cond_typ _ operand snd (fun _ => false) 20 true (src l) with
  | POk t s => if at_tok T_SEMI s then Some t else None
  | _ => None
  end.
Definition nm (n : bytes) : typ (ctree (bytes * bool)) := TOne (CBase (n, false)).
Definition only_name (s : pst) : pres bytes := if at_tok T_NAME s then POk (t_text (peek s)) (next s) else PErr.
Local Notation a := (bs "a").
Local Notation b := (bs "b").
Local Notation c := (bs "c").
Local Notation d := (bs "d").
Local Notation e := (bs "e").
(** [a extends b ? c : d extends e ? a : b;] *)
Definition chain := [w a; y T_EXTENDS; w b; y T_HOOK; w c; y T_COLON; w d; y T_EXTENDS; w e; y T_HOOK; w a; y T_COLON; w b; y T_SEMI].
Example chain_read : cond_of chain =
  Some (TOne (CCond (a, false) (nm b) (nm c) (TOne (CCond (d, false) (nm e) (nm a) (nm b))))).
Proof. vm_compute; reflexivity. Qed.
Ltac name_alone t := eapply W_union; [reflexivity|eapply U_last; [reflexivity|apply R_end; reflexivity|reflexivity]|vm_compute; lia|t].
Example chain_written : exists z, written only_name true (src chain) (SCond a (SUnion [[b]]) (SUnion [[c]]) (SCond d (SUnion [[e]]) (SUnion [[a]]) (SUnion [[b]]))) z /\ at_tok T_SEMI z = true /\
  forall s x s1, only_name s = POk x s1 -> (fun _ => false) x = true -> at_op s1 = false.
Proof.
  eexists. split; [|split; [|discriminate]].
  - eapply W_cond; [reflexivity|reflexivity|reflexivity|name_alone ltac:(discriminate)|reflexivity|name_alone ltac:(reflexivity)|reflexivity|].
    eapply W_cond; [reflexivity|reflexivity|reflexivity|name_alone ltac:(discriminate)|reflexivity|name_alone ltac:(reflexivity)|reflexivity|name_alone ltac:(reflexivity)].
  - reflexivity.
Qed.
(** [a extends b | c ? c : d & e;] *)
Example branches_read : cond_of [w a; y T_EXTENDS; w b; y T_BIT_OR; w c; y T_HOOK; w c; y T_COLON; w d; y T_BIT_AND; w e; y T_SEMI] =
  Some (TOne (CCond (a, false) (TUnion [nm b; nm c]) (nm c) (TInter [nm d; nm e]))).
Proof. vm_compute; reflexivity. Qed.
(** [a | b extends c ? d : e;] is read as [a | (b extends c ? d : e)] instead of [(a | b) extends c ? d : e]. *)
Theorem C64_union_refuted : cond_of [w a; y T_BIT_OR; w b; y T_EXTENDS; w c; y T_HOOK; w d; y T_COLON; w e; y T_SEMI] =
  Some (TUnion [nm a; TOne (CCond (b, false) (nm c) (nm d) (nm e))]).
Proof. vm_compute; reflexivity. Qed.
(** A literal before extends is an error. *)
Theorem C64_literal_refuted : cond_of [(T_STRING, a, XNone, false); y T_EXTENDS; w c; y T_HOOK; w d; y T_COLON; w e; y T_SEMI] = None.
Proof. vm_compute; reflexivity. Qed.
