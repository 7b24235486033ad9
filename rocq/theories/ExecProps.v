(** Theorems about the evaluation of constant expressions: C41, C42. *)
From Coq Require Import String SpecFloat.
From Verif Require Import Base TokenModel NodeModel WalkModel WalkSpec ExecModel ExecSpec ExecProofs ExecJsProofs.

(** Expressions to try. *)
Local Open Scope string_scope.
Definition at_ (s : bytes) (op : tv) (x : spec_float) (b : bool) : attr := mk_at 0 s op x b false.
Definition num (x : spec_float) : node := Node N_LIT_NUM (at_ [] T_ILLEGAL x false) [].
Definition str (s : bytes) : node := Node N_LIT_STR (at_ s T_ILLEGAL S754_nan false) [].
Definition boolean (b : bool) : node := Node N_LIT_BOOL (at_ [] T_ILLEGAL S754_nan b) [].
Definition null : node := Node N_LIT_NULL (at_ [] T_ILLEGAL S754_nan false) [].
Definition name (s : bytes) : node := Node N_NAME (at_ s T_ILLEGAL S754_nan false) [].
Definition bin (op : tv) (l r : node) : node := Node N_EXPR_BIN (at_ [] op S754_nan false) [("Lhs", [Some l]); ("Rhs", [Some r])].
Definition unary (op : tv) (m : node) : node := Node N_EXPR_UNARY (at_ [] op S754_nan false) [("Arg", [Some m])].
Definition paren (m : node) : node := Node N_EXPR_PAREN (at_ [] T_ILLEGAL S754_nan false) [("Expr", [Some m])].
Definition arr (l : list (option node)) : node := Node N_LIT_ARR (at_ [] T_ILLEGAL S754_nan false) [("Elems", l)].
Definition member (c : bool) (o p : node) : node := Node N_EXPR_MEMBER (at_ [] T_ILLEGAL S754_nan c) [("Obj", [Some o]); ("Prop", [Some p])].
Definition call (f : node) (l : list (option node)) : node := Node N_EXPR_CALL (at_ [] T_ILLEGAL S754_nan false) [("Callee", [Some f]); ("Args", l)].
Definition cond (a b c : node) : node := Node N_EXPR_COND (at_ [] T_ILLEGAL S754_nan false) [("Test", [Some a]); ("Cons", [Some b]); ("Alt", [Some c])].
Local Close Scope string_scope.
(** 1, 2, 3 and 6. *)
Definition f1 : spec_float := S754_finite false 4503599627370496 (-52).
Definition f2 : spec_float := S754_finite false 4503599627370496 (-51).
Definition f3 : spec_float := S754_finite false 6755399441055744 (-51).
Definition f6 : spec_float := S754_finite false 6755399441055744 (-50).
(** [process.env.NODE_ENV === "production" && (["a", "b"].includes(x) || !y)] *)
Definition typical : node :=
  bin T_AND
    (bin T_EQ_S (member false (member false (name (bs "process")) (name (bs "env"))) (name (bs "NODE_ENV"))) (str (bs "production")))
    (paren (bin T_OR (call (member false (arr [Some (str (bs "a")); Some (str (bs "b"))]) (name (bs "includes"))) [Some (name (bs "x"))])
              (unary T_NOT (name (bs "y"))))).
Definition typical_env (n : bytes) : option jval :=
  if bytes_eqb n (bs "process") then Some (JObj 1 [(bs "env", JObj 2 [(bs "NODE_ENV", JStr (bs "production"))])])
  else if bytes_eqb n (bs "x") then Some (JStr (bs "b")) else if bytes_eqb n (bs "y") then Some JNull else None.

(** ** C42 *)

(** A supported expression pushes exactly one value, the same whatever was on the stack before, which stays as it
    was; or evaluation panics, again whatever was on the stack. *)
Theorem C42_one_value_partial : forall parse_float format_float sprint vars n,
  shaped n = true -> supported n = true ->
  (exists v, forall s, exec parse_float format_float sprint vars n s = Some (v :: s)) \/
  (forall s, exec parse_float format_float sprint vars n s = None).
Proof.
  intros pf ff sp vars n Hs Hn. destruct (gval pf ff sp vars false n) as [v|] eqn:E; [left; exists v|right];
    intros s; rewrite exec_val by (split; assumption); rewrite E; reflexivity.
Qed.
Print Assumptions C42_one_value_partial.
Example C42_one_value_ex : shaped typical = true /\ supported typical = true /\
  exec (fun _ => None) (fun _ => []) (fun _ => []) (jvars typical_env) typical [VNil; VBool false] = Some [VBool true; VNil; VBool false].
Proof. vm_compute. auto. Qed.

(** The panic: indexing an array with a number that does not fit an int.  Expressions without member access do
    not panic. *)
Theorem C42_no_member_no_panic : forall parse_float format_float sprint vars n s,
  shaped n = true -> supported n = true -> all_nodes (fun ty _ => negb (nt_eqb ty N_EXPR_MEMBER)) n = true ->
  exists v, exec parse_float format_float sprint vars n s = Some (v :: s).
Proof.
  intros pf ff sp vars n s Hs Hn Hm.
  assert (G : exists v, gval pf ff sp vars false n = Some v).
  { assert (K : ok n) by (split; assumption). clear Hs Hn.
    revert Hm K. induction n as [ty a kids IH] using WalkProofs.node_ind'. intros Hm K. apply sup_view in K.
    pose proof (WalkProofs.all_nodes_eq _ _ _ _ Hm) as [T C].
    assert (L : forall q ms, In q kids -> snd q = map Some ms -> (forall m, In m ms -> ok m) ->
       exists vs, all_some (map (fun o => match o with Some m => gval pf ff sp vars false m | None => None end) (map Some ms)) = Some vs).
    { intros q ms Hq Eq Ko.
      assert (X : forall m, In m ms -> exists v, gval pf ff sp vars false m = Some v).
      { intros m Hi. apply (IH q Hq m); [rewrite Eq; apply in_map; exact Hi| |apply Ko, Hi]. apply (C q m Hq). rewrite Eq. apply in_map. exact Hi. }
      clear -X. induction ms as [|m ms IHm]; [exists []; reflexivity|].
      destruct IHm as [vs Hv]; [intros x Hx; apply X; right; exact Hx|]. destruct (X m (or_introl eq_refl)) as [v Hm].
      exists (v :: vs). cbn [map all_some]. rewrite Hm, Hv. reflexivity. }
    inversion K as [ty0 a0 Ty E0|a0 ms Ms E0|ty0 a0 m Ty Km E0|a0 m Km E0|a0 o p Ko Kp E0|a0 l r Op Kl Kr E0|a0 m ms Km Ms E0]; subst.
    - cbn in Ty. repeat (destruct Ty as [<-|Ty]; [eexists; reflexivity|]). destruct Ty.
    - destruct (L _ ms (or_introl eq_refl) eq_refl Ms) as [vs Hv]. cbn [gval]. rewrite Hv. eexists. reflexivity.
    - destruct (IH _ (or_introl eq_refl) m (or_introl eq_refl) (C _ m (or_introl eq_refl) (or_introl eq_refl)) Km) as [v Hv].
      exists v. destruct Ty as [<-|[<-|[]]]; exact Hv.
    - destruct (IH _ (or_introl eq_refl) m (or_introl eq_refl) (C _ m (or_introl eq_refl) (or_introl eq_refl)) Km) as [v Hv].
      cbn [gval]. rewrite Hv. eexists. reflexivity.
    - discriminate T.
    - destruct (IH _ (or_introl eq_refl) l (or_introl eq_refl) (C _ l (or_introl eq_refl) (or_introl eq_refl)) Kl) as [v Hv].
      destruct (IH _ (or_intror (or_introl eq_refl)) r (or_introl eq_refl) (C _ r (or_intror (or_introl eq_refl)) (or_introl eq_refl)) Kr) as [w Hw].
      cbn [gval]. rewrite Hv, Hw. cbn in Op. destruct (at_op a); try discriminate Op; eexists; reflexivity.
    - destruct (IH _ (or_introl eq_refl) m (or_introl eq_refl) (C _ m (or_introl eq_refl) (or_introl eq_refl)) Km) as [v Hv].
      destruct (L _ ms (or_intror (or_introl eq_refl)) eq_refl Ms) as [vs Hvs]. cbn [gval]. rewrite Hv, Hvs. eexists. reflexivity. }
  destruct G as [v G]. exists v. rewrite exec_val by (split; assumption). rewrite G. reflexivity.
Qed.
Print Assumptions C42_no_member_no_panic.
Example C42_no_member_no_panic_ex : let n := bin T_SUB (num f6) (unary T_NOT (paren (bin T_OR (num f1) null))) in
  shaped n = true /\ supported n = true /\ all_nodes (fun ty _ => negb (nt_eqb ty N_EXPR_MEMBER)) n = true.
Proof. vm_compute. auto. Qed.

(** Other expressions leave no value ([1 < 2]), several ([1 ? 2 : 3]), or take values that were there before
    ([[,]]); and [a[2 ** 63]] panics. *)
Theorem C42_one_value_refuted : forall parse_float format_float sprint vars s x,
  let run := exec parse_float format_float sprint vars in
  run (bin T_LT (num f1) (num f2)) s = Some s
  /\ run (cond (num f1) (num f2) (num f3)) s = Some (VNum f3 :: VNum f2 :: VNum f1 :: s)
  /\ run (arr [None]) (x :: s) = Some (VArr 0 [x] :: s)
  /\ (forall i l, vars (bs "a") = VArr i l -> run (member true (name (bs "a")) (num (S754_finite false 4503599627370496 11))) s = None).
Proof.
  intros pf ff sp vars s x run. split; [reflexivity|]. split; [reflexivity|]. split; [reflexivity|].
  intros i l E. unfold run. rewrite exec_val by (split; reflexivity). unfold member, num, name, at_. cbn [gval at_text at_num name_val].
  change (bytes_eqb (bs "a") (bs "undefined")) with false. cbn iota. rewrite E. unfold go_member, get_prop, get_elem. cbn [to_num].
  change (f_int (S754_finite false 4503599627370496 11)) with (- 2 ^ 63)%Z.
  replace (Z.of_nat (List.length l) - 1 <? - 2 ^ 63)%Z with false; [reflexivity|]. symmetry. apply Z.ltb_ge. 
  assert (0 <= Z.of_nat (List.length l))%Z by apply Nat2Z.is_nonneg.
  apply Z.le_trans with (-1)%Z; [discriminate|]. change (-1)%Z with (0 - 1)%Z. apply Z.sub_le_mono_r. assumption.
Qed.
Print Assumptions C42_one_value_refuted.

(** ** C41 *)

(** The value of a safe expression is the one of ECMAScript, null and undefined being both nil.  [parse_float] and
    [format_float] may be anything that does not take numbers for the name includes or the other way round. *)
Theorem C41_value_partial : forall num_to_str str_to_num env parse_float format_float sprint n j s,
  (forall x, format_float x <> bs "includes") -> parse_float (bs "includes") = None ->
  shaped n = true -> safe num_to_str str_to_num env n = true -> js_eval num_to_str str_to_num env n = Some j ->
  exec parse_float format_float sprint (jvars env) n s = Some (jrepr j :: s)
  /\ result parse_float format_float sprint (jvars env) n = Some (jrepr j).
Proof.
  intros ns sn env pf ff sp n j s Hf Hp Hs Hn E.
  assert (K : ok n) by (split; [exact Hs|exact (safe_supported ns sn env pf ff sp Hf Hp n Hn)]).
  unfold result. rewrite !exec_val by exact K. rewrite (safe_agree ns sn env pf ff sp Hf Hp n j Hn E). split; reflexivity.
Qed.
Print Assumptions C41_value_partial.
Example C41_value_ex : forall num_to_str str_to_num,
  shaped typical = true /\ safe num_to_str str_to_num typical_env typical = true
  /\ js_eval num_to_str str_to_num typical_env typical = Some (JBool true).
Proof. intros. vm_compute. auto. Qed.

(** Whether a condition holds is found out right for more expressions: the parts of && and || may be any values. *)
Theorem C41_condition_partial : forall num_to_str str_to_num env parse_float format_float sprint n j v,
  (forall x, format_float x <> bs "includes") -> parse_float (bs "includes") = None ->
  shaped n = true -> supported n = true -> safe_cond num_to_str str_to_num env n = true ->
  js_eval num_to_str str_to_num env n = Some j ->
  result parse_float format_float sprint (jvars env) n = Some v -> to_bool v = truthy j.
Proof.
  intros ns sn env pf ff sp n j v Hf Hp Hs Hn Hc E R. unfold result in R. rewrite exec_val in R by (split; assumption).
  destruct (gval pf ff sp (jvars env) false n) as [w|] eqn:G; [|discriminate]. cbn in R. injection R as <-.
  exact (cond_agree ns sn env pf ff sp Hf Hp n j w Hc E G).
Qed.
Print Assumptions C41_condition_partial.
(** [process.env && x && !(y && y.z)]: [y.z] throws, but is not evaluated *)
Definition typical_cond : node :=
  bin T_AND (bin T_AND (member false (name (bs "process")) (name (bs "env"))) (name (bs "x")))
    (unary T_NOT (paren (bin T_AND (name (bs "y")) (member false (name (bs "y")) (name (bs "z")))))).
Example C41_condition_ex : forall num_to_str str_to_num parse_float format_float sprint,
  shaped typical_cond = true /\ supported typical_cond = true /\ safe_cond num_to_str str_to_num typical_env typical_cond = true
  /\ js_eval num_to_str str_to_num typical_env typical_cond = Some (JBool true)
  /\ result parse_float format_float sprint (jvars typical_env) typical_cond = Some (VBool true).
Proof. intros. vm_compute. auto 10. Qed.

(** Outside the safe expressions the evaluator is wrong: division subtracts; == does not convert; null === undefined
    and [[1] === [1]] hold; && gives a boolean; -1 is false; [a[b]] reads the property named b; !(0/0) is false. *)
Theorem C41_value_refuted : forall num_to_str str_to_num env parse_float format_float sprint,
  let js := js_eval num_to_str str_to_num env in
  let go := result parse_float format_float sprint (jvars env) in
  (js (bin T_DIV (num f6) (num f3)) = Some (JNum f2) /\ go (bin T_DIV (num f6) (num f3)) = Some (VNum f3))
  /\ (js (bin T_EQ (num f1) (boolean true)) = Some (JBool true) /\ go (bin T_EQ (num f1) (boolean true)) = Some (VBool false))
  /\ (js (bin T_EQ_S null (name (bs "undefined"))) = Some (JBool false) /\ go (bin T_EQ_S null (name (bs "undefined"))) = Some (VBool true))
  /\ (js (bin T_EQ_S (arr [Some (num f1)]) (arr [Some (num f1)])) = Some (JBool false)
      /\ go (bin T_EQ_S (arr [Some (num f1)]) (arr [Some (num f1)])) = Some (VBool true))
  /\ (js (bin T_AND (num f1) (num f2)) = Some (JNum f2) /\ go (bin T_AND (num f1) (num f2)) = Some (VBool true))
  /\ (js (unary T_SUB (num f1)) = Some (JNum (S754_finite true 4503599627370496 (-52))) /\ go (unary T_SUB (num f1)) = Some (VBool false))
  /\ (env (bs "a") = Some (JObj 1 [(bs "b", JNum f1); (bs "c", JNum f2)]) -> env (bs "b") = Some (JStr (bs "c")) ->
      js (member true (name (bs "a")) (name (bs "b"))) = Some (JNum f2) /\ go (member true (name (bs "a")) (name (bs "b"))) = Some (VNum f1))
  /\ (js (unary T_NOT (paren (bin T_SUB (num S754_nan) (num f1)))) = Some (JBool true)
      /\ go (unary T_NOT (paren (bin T_SUB (num S754_nan) (num f1)))) = Some (VBool false)).
Proof.
  intros ns sn env pf ff sp js go.
  split; [split; vm_compute; reflexivity|].
  split; [split; vm_compute; reflexivity|]. split; [split; vm_compute; reflexivity|]. split; [split; vm_compute; reflexivity|].
  split; [split; vm_compute; reflexivity|]. split; [split; vm_compute; reflexivity|]. split; [|split; vm_compute; reflexivity].
  intros Ea Eb. unfold js, go, result. rewrite exec_val by (split; reflexivity). unfold member, name, at_.
  cbn [js_eval gval at_text at_bool n_at n_ty name_val].
  change (bytes_eqb (bs "a") (bs "undefined")) with false. change (bytes_eqb (bs "b") (bs "undefined")) with false. cbn iota.
  unfold jvars. rewrite Ea, Eb. cbn [jrepr map]. split; vm_compute; reflexivity.
Qed.
Print Assumptions C41_value_refuted.
