(** C61: a type written with | and & is the union of the intersections written. *)
From Coq Require Import Lia.
From Verif Require Import Base TokenModel LexModel ParseBase ExprModel ExprFuel ExprProps TsUnionModel TsUnionSpec TsUnionProofs.

Section Claims.
Variables (A : Type) (prim : pst -> pres A) (is_fn : A -> bool).
(** A function type takes the | and & that follow with it. *)
Hypothesis fn_ends : forall s a s1, prim s = POk a s1 -> is_fn a = true -> at_op s1 = false.
Notation ts_typ := (ts_typ A prim is_fn).
(** What is accepted without a leading operator, and before a token that binds weaker than |: it is a list of
    intersections with | between them, all operands are in the type in the order written, and a value belongs to the
    type exactly when it belongs to all operands of one of the intersections. *)
Theorem C61_union_partial : forall fuel s t s', ts_typ fuel s = POk t s' -> at_op s = false -> pcd s' < 8 ->
  exists gs, union prim s gs s' /\ operands t = concat gs /\ forall holds, belongs holds t <-> Exists (Forall holds) gs.
Proof using fn_ends.
  intros fuel s t s' H O L. destruct (accepted_union A prim is_fn fn_ends _ _ _ _ H O) as [gs U].
  destruct (union_read A prim is_fn fn_ends _ _ _ U L O) as (u & n & R1 & R2 & R3).
  destruct (union_same A prim is_fn _ _ _ _ _ _ _ _ _ _ H (R1 n (le_n n))) as [-> _]. exists gs. auto.
Qed.
(** All that is written so is accepted. *)
Theorem C61_accepts_partial : forall s gs s', union prim s gs s' -> at_op s = false -> pcd s' < 8 ->
  exists n t, forall fuel, n <= fuel -> ts_typ fuel s = POk t s'.
Proof using fn_ends. intros s gs s' U O L. destruct (union_read A prim is_fn fn_ends _ _ _ U L O) as (t & n & R & _). eauto. Qed.
(** After a leading | one intersection is read as it should. *)
Theorem C61_leading_partial : forall s g s', at_tok T_BIT_OR s = true -> union prim (next s) [g] s' -> pcd s' < 8 ->
  exists n t, (forall fuel, n <= fuel -> ts_typ fuel s = POk t s') /\ operands t = g /\ forall holds, belongs holds t <-> Forall holds g.
Proof using fn_ends.
  intros s g s' O U L. destruct (op_or _ O) as (O1 & O2 & _).
  inversion U as [s0 a s1 bs z P R E|s0 a s1 bs s2 gs z P R E V]; subst; [|inversion V].
  destruct (group_at A prim is_fn fn_ends _ _ _ _ _ P R (or_intror L)) as [n G].
  exists (S (S (S n))), (group A a bs). split; [|split; [apply group_operands|intros h; apply group_means]].
  intros [|[|[|m]]] Le; try lia. unfold TsUnionModel.ts_typ. rewrite at_eq, O1. cbn [pbind]. rewrite loop_eq, O1, O2. cbn [negb orb Nat.ltb Nat.leb]. cbv zeta.
  rewrite P. cbn [pbind]. rewrite (G (S m)) by lia. cbn [pbind fst snd]. rewrite loop_eq.
  rewrite (no_op _ E (run_end A prim _ _ _ R)). reflexivity.
Qed.
End Claims.
Print Assumptions C61_union_partial.
Print Assumptions C61_accepts_partial.
Print Assumptions C61_leading_partial.

(** Real cases with names for operands. *)
Definition name_typ (s : pst) : pres bytes := if at_tok T_NAME s then POk (t_text (peek s)) (next s) else PErr.
Definition no_fn (a : bytes) : bool := false.
Definition typ_of (l : list (tv * bytes * ext * bool)) : option (typ bytes) :=
  match ts_typ bytes name_typ no_fn 40 (src l) with POk t _ => Some t | _ => None end.
Definition one (n : bytes) : typ bytes := TOne n.
Local Notation a := (bs "a").
Local Notation b := (bs "b").
Local Notation c := (bs "c").
Local Notation d := (bs "d").
(** [a | b & c | d;] and [a & b | c | d;] *)
Example unions_read :
  typ_of [w a; y T_BIT_OR; w b; y T_BIT_AND; w c; y T_BIT_OR; w d; y T_SEMI] = Some (TUnion [TUnion [one a; TInter [one b; one c]]; one d]) /\
  typ_of [w a; y T_BIT_AND; w b; y T_BIT_OR; w c; y T_BIT_OR; w d; y T_SEMI] = Some (TUnion [TInter [one a; one b]; one c; one d]).
Proof. vm_compute. auto. Qed.
Example union_written : exists s', union name_typ (src [w a; y T_BIT_OR; w b; y T_BIT_AND; w c; y T_SEMI]) [[a]; [b; c]] s' /\ pcd s' < 8 /\
  at_op (src [w a; y T_BIT_OR; w b; y T_BIT_AND; w c; y T_SEMI]) = false /\ forall s x s1, name_typ s = POk x s1 -> no_fn x = true -> at_op s1 = false.
Proof.
  eexists. split; [|split; [|split; [reflexivity|discriminate]]].
  - eapply U_more; [reflexivity|apply R_end; reflexivity|reflexivity|]. eapply U_last; [reflexivity| |].
    + eapply R_more; [reflexivity|reflexivity|apply R_end; reflexivity].
    + reflexivity.
  - vm_compute. lia.
Qed.
Example leading_read : typ_of [y T_BIT_OR; w a; y T_BIT_AND; w b; y T_SEMI] = Some (TInter [one a; one b]).
Proof. vm_compute; reflexivity. Qed.
(** [a | b>], as at the end of [f<a | b>]: the type is [a]. *)
Theorem C61_type_argument_refuted : typ_of [w a; y T_BIT_OR; w b; y T_GT] = Some (one a) /\ typ_of [w a; y T_BIT_AND; w b; y T_GT] = Some (one a).
Proof. vm_compute; auto. Qed.
(** [x as a | b === c]: the same before an operator. *)
Theorem C61_operator_refuted : typ_of [w a; y T_BIT_OR; w b; y T_EQ_S; w c] = Some (one a).
Proof. vm_compute; reflexivity. Qed.
(** [| a | b;] is [b]. *)
Theorem C61_leading_refuted : typ_of [y T_BIT_OR; w a; y T_BIT_OR; w b; y T_SEMI] = Some (one b).
Proof. vm_compute; reflexivity. Qed.
