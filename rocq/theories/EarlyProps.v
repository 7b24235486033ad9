(** C31, C32, C33, C49: switches, exports, parameter lists, directives. *)
From Coq Require Import String ZifyBool ZifyNat.
From Verif Require Import Base NodeModel TokenModel WalkModel EarlyModel EarlySpec EarlyProofs.

(** ** C31 *)
Lemma switch_met : forall {A} (l : list (option A)) (met : bool), defaults l + (if met then 1 else 0) <= 1 -> switch_loop l met = None.
Proof.
  induction l as [|c l IH]; intros met H; [reflexivity|].
  destruct c as [a|]; simpl in *; unfold defaults in *; simpl in H.
  - apply IH. destruct met; lia.
  - destruct met; [lia|]. apply IH. simpl. lia.
Qed.
(** At most one default clause: never rejected for that. *)
Theorem C31_one_default : forall {A} (clauses : list (option A)), defaults clauses <= 1 -> switch_check clauses = None.
Proof. intros A l H. apply switch_met. lia. Qed.
Print Assumptions C31_one_default.
Example one_default_ex : defaults [Some 1; None; Some 2; Some 3] <= 1 /\ switch_check [Some 1; None; Some 2; Some 3] = None.
Proof. split; [vm_compute; lia|reflexivity]. Qed.

Lemma switch_adjacent : forall {A} (l : list (option A)) (met : bool),
  switch_loop l met = Some E_MultiDefault <->
  (met = true /\ exists q, l = None :: q) \/ (exists p q, l = p ++ None :: None :: q).
Proof.
  induction l as [|c l IH]; intros met; simpl.
  - split; [discriminate|]. intros [[_ [q H]]|[p [q H]]]; [discriminate|]. destruct p; discriminate.
  - destruct c as [a|].
    + rewrite IH. split.
      * intros [[H _]|[p [q ->]]]; [discriminate|]. right. exists (Some a :: p), q. reflexivity.
      * intros [[_ [q H]]|[p [q H]]]; [discriminate|]. right. destruct p as [|x p]; [discriminate|].
        injection H as _ ->. exists p, q. reflexivity.
    + destruct met.
      * split; [intros _; left; split; [reflexivity|exists l; reflexivity]|reflexivity].
      * rewrite IH. split.
        -- intros [[_ [q ->]]|[p [q ->]]]; right; [exists [], q; reflexivity|exists (None :: p), q; reflexivity].
        -- intros [[H _]|[p [q H]]]; [discriminate|]. destruct p as [|x p].
           ++ injection H as ->. left. split; [reflexivity|]. exists q. reflexivity.
           ++ injection H as _ ->. right. exists p, q. reflexivity.
Qed.
(** Two default clauses that follow each other are rejected, and no other clauses are (missing: default clauses with
    a case clause between them, see below). *)
Theorem C31_adjacent_partial : forall {A} (clauses : list (option A)),
  switch_check clauses = Some E_MultiDefault <-> exists p q, clauses = p ++ None :: None :: q.
Proof.
  intros A l. unfold switch_check. rewrite switch_adjacent. split; [|auto]. intros [[H _]|H]; [discriminate|exact H].
Qed.
Print Assumptions C31_adjacent_partial.
Example adjacent_ex : switch_check [Some 1; None; None; Some 2] = Some E_MultiDefault.
Proof. reflexivity. Qed.

(** [switch (x) { default: case 1: default: }] is accepted. *)
Theorem C31_switch_refuted : exists clauses : list (option nat), 2 <= defaults clauses /\ switch_check clauses = None.
Proof. exists [None; Some 1; None]. split; [vm_compute; lia|reflexivity]. Qed.
Print Assumptions C31_switch_refuted.

(** ** C33 *)
Lemma complicated_simple : forall ps, existsb (fun p => negb (nt_eqb (n_ty p) N_NAME)) ps = false <-> simple ps.
Proof.
  assert (Q : forall t, nt_eqb t N_NAME = true <-> t = N_NAME) by (intros []; split; (reflexivity || discriminate)).
  intros ps. unfold simple. induction ps as [|p ps IH]; simpl; [split; [constructor|reflexivity]|].
  rewrite orb_false_iff, IH, negb_false_iff, Q. split; [intros [H1 H2]; constructor; assumption|].
  intros H. inversion H; auto.
Qed.
(** A list of parameters is accepted exactly when no parameter is named by a reserved word, the body of a function
    with other parameters than names has no use-strict directive, and names are repeated only in sloppy functions
    with a simple list.  Missing: the reserved word private, see below. *)
Theorem C33_accepted_partial : forall params ids strict direct async,
  binds_all (map Some params) ids ->
  ~ In (bs "private") (map at_text ids) ->
  fn_params params strict direct async = None <->
    (forall a, In a ids -> at_bool a = false)
    /\ (forall n, In n (map at_text ids) -> ~ reserved strict async n)
    /\ (direct = true -> simple params)
    /\ (NoDup (map at_text ids) \/ (strict = false /\ simple params)).
Proof.
  intros ps ids strict direct async B Np. unfold fn_params. rewrite (collect_binds _ _ B).
  unfold kw_check. destruct (find at_bool ids) as [k|] eqn:F.
  { apply find_some in F. destruct F as [F1 F2]. split; [discriminate|]. intros [H _]. rewrite (H _ F1) in F2. discriminate. }
  assert (K : forall a, In a ids -> at_bool a = false) by (intros a Ha; exact (find_none _ _ F a Ha)).
  set (names := map at_text ids) in *. unfold check_params.
  set (c := existsb (fun p => negb (nt_eqb (n_ty p) N_NAME)) ps).
  pose proof (complicated_simple ps) as Cs. fold c in Cs.
  destruct (params_loop strict async names [] false) as [e|dup] eqn:P.
  - split; [discriminate|]. intros [_ [H _]]. exfalso. destruct (params_inl _ _ _ _ _ _ P) as [n ->].
    apply params_bad in P. destruct P as [P1 P2]. apply (H n P1). apply bad_reserved; [|exact P2].
    intros ->. apply Np. exact P1.
  - apply params_good in P. destruct P as [P1 P2]. specialize (P2 (NoDup_nil _)). rewrite app_nil_r in P2.
    assert (R : forall n, In n names -> ~ reserved strict async n).
    { intros n Hn. rewrite <- bad_reserved; [|intros ->; exact (Np Hn)]. rewrite (P1 n Hn). discriminate. }
    assert (D : dup = false <-> NoDup names).
    { destruct dup.
      - split; [discriminate|]. intros N. destruct (proj1 P2 eq_refl) as [X|X]; [discriminate|contradiction].
      - split; [|reflexivity]. intros _. destruct (ListDec.NoDup_dec (list_eq_dec Byte.byte_eq_dec) names) as [N|N]; [exact N|].
        destruct P2 as [_ P2]. specialize (P2 (or_intror N)). discriminate. }
    clear P2. destruct direct, c, dup, strict; simpl; intuition congruence.
Qed.
Print Assumptions C33_accepted_partial.

Definition nm (x : string) : node := Node N_NAME (mk_at 1 (bs x) T_ILLEGAL SpecFloat.S754_nan false false) [].
(** The list [(a, {b, c: [d, ...e]})], the names of which differ, and [(a, a)]. *)
Definition params1 : list node :=
  [nm "a"; Node N_PAT_OBJ (n_at (nm "")) [("Props"%string,
     [Some (Node N_PROP (n_at (nm "")) [("Key"%string, [Some (nm "b")]); ("Val"%string, [Some (nm "b")])]);
      Some (Node N_PROP (n_at (nm "")) [("Key"%string, [Some (nm "c")]); ("Val"%string,
        [Some (Node N_PAT_ARRAY (n_at (nm "")) [("Elems"%string,
           [Some (nm "d"); None; Some (Node N_PAT_REST (n_at (nm "")) [("Arg"%string, [Some (nm "e")])])])])])])])]].
Example accepted_ex :
  binds_all (map Some params1) (map (fun x => n_at (nm x)) ["a"; "b"; "d"; "e"]%string)
  /\ fn_params params1 true false false = None /\ fn_params params1 true true false = Some E_Directive
  /\ fn_params [nm "a"; nm "a"] false false false = None /\ fn_params [nm "a"; nm "a"] true false false = Some E_DupParam
  /\ fn_params [nm "a"; nm "arguments"] true false false = Some (E_Reserved (bs "arguments")).
Proof.
  split; [|vm_compute; repeat split; reflexivity].
  apply (B_elem _ _ [n_at (nm "a")] (map (fun x => n_at (nm x)) ["b"; "d"; "e"]%string)); [constructor|].
  apply (B_elem _ _ (map (fun x => n_at (nm x)) ["b"; "d"; "e"]%string) []); [|constructor].
  constructor. apply (B_prop _ _ _ _ [n_at (nm "b")] (map (fun x => n_at (nm x)) ["d"; "e"]%string)); [constructor|].
  apply (B_prop _ _ _ _ (map (fun x => n_at (nm x)) ["d"; "e"]%string) []); [|constructor].
  constructor. apply (B_elem _ _ [n_at (nm "d")] [n_at (nm "e")]); [constructor|]. constructor.
  apply (B_elem _ _ [n_at (nm "e")] []); [|constructor]. constructor. constructor.
Qed.

(** The error names the reason. *)
Theorem C33_error : forall params ids strict direct async,
  binds_all (map Some params) ids ->
  match fn_params params strict direct async with
  | None => True
  | Some (E_Keyword n) => exists a, In a ids /\ at_bool a = true /\ at_text a = n
  | Some (E_Reserved n) => (exists a, In a ids /\ at_bool a = true /\ at_text a = n /\ n = bs "eval")
                           \/ (In n (map at_text ids) /\ reserved strict async n)
  | Some E_Directive => direct = true /\ ~ simple params
  | Some E_DupParam => ~ NoDup (map at_text ids) /\ (strict = true \/ ~ simple params)
  | Some _ => False
  end.
Proof.
  intros ps ids strict direct async B. unfold fn_params. rewrite (collect_binds _ _ B).
  unfold kw_check. destruct (find at_bool ids) as [k|] eqn:F.
  { apply find_some in F. destruct F as [F1 F2]. unfold kw_error. destruct (bytes_eqb (at_text k) (bs "eval")) eqn:E.
    - apply bytes_eqb_spec in E. left. exists k. auto.
    - exists k. auto. }
  unfold check_params. set (names := map at_text ids).
  set (c := existsb (fun p => negb (nt_eqb (n_ty p) N_NAME)) ps).
  pose proof (complicated_simple ps) as Cs. fold c in Cs.
  destruct (params_loop strict async names [] false) as [e|dup] eqn:P.
  - destruct (params_inl _ _ _ _ _ _ P) as [n ->]. apply params_bad in P. destruct P as [P1 P2].
    right. split; [exact P1|]. destruct (list_eq_dec Byte.byte_eq_dec n (bs "private")) as [->|Np]; [|apply bad_reserved; assumption].
    destruct strict; [left; split; [reflexivity|vm_compute; tauto]|].
    destruct async; discriminate P2.
  - apply params_good in P. destruct P as [P1 P2]. specialize (P2 (NoDup_nil _)). rewrite app_nil_r in P2.
    assert (D : dup = true -> ~ NoDup names).
    { intros ->. destruct (proj1 P2 eq_refl) as [X|X]; [discriminate|exact X]. }
    clear P2. destruct direct, c, dup, strict; simpl; intuition congruence.
Qed.
Print Assumptions C33_error.
Example error_ex : fn_params [nm "await"] false false true = Some (E_Reserved (bs "await")).
Proof. reflexivity. Qed.

(** [function f(private) { "use strict" }] is accepted. *)
Theorem C33_private_refuted : exists params ids,
  binds_all (map Some params) ids /\ (exists n, In n (map at_text ids) /\ reserved true false n)
  /\ fn_params params true true false = None.
Proof.
  exists [nm "private"], [n_at (nm "private")].
  split; [apply (B_elem _ _ [n_at (nm "private")] []); constructor|].
  split; [|reflexivity]. exists (bs "private"). split; [left; reflexivity|]. left. split; [reflexivity|]. vm_compute. tauto.
Qed.
Print Assumptions C33_private_refuted.

(** ** C32 *)
(** Without [export * as ns]: an error because of a repeated export exactly when two entries have the same name, and
    the name given is one of the exported names.  (Overloads are not entries.) *)
Theorem C32_duplicates_partial : forall defined exps names,
  Forall (fun e => ~ star_as e) exps -> all_exports exps names ->
  ((exists n, check_exp defined exps = Some (E_DupExport n)) <-> ~ NoDup names)
  /\ (forall n, check_exp defined exps = Some (E_DupExport n) -> In n names).
Proof.
  intros defined exps names F A. unfold check_exp.
  pose proof (dups_result exps [] (NoDup_nil _)) as D. rewrite app_nil_r, (all_exports_names _ _ F A) in D.
  pose proof (defs_result defined exps) as G.
  destruct (check_dups exps []) as [e|].
  - destruct D as [n [-> [D1 D2]]]. split; [split; [auto|intros _; exists n; reflexivity]|].
    intros m E. injection E as <-. exact D1.
  - assert (N : forall n, check_defs defined exps <> Some (E_DupExport n)).
    { intros n E. rewrite E in G. destruct G as (m & x & s & G & _). discriminate. }
    split; [|intros n E; destruct (N n E)]. split; [intros [n E]; destruct (N n E)|intros X; contradiction].
Qed.
Print Assumptions C32_duplicates_partial.

(** Local exports are of declared names: the other reason to reject. *)
Theorem C32_defined : forall defined exps,
  check_exp defined exps = None ->
  forall e s, In e exps -> ed_src e = false -> In s (ed_specs e) -> defined (es_local s) = true.
Proof.
  intros defined exps H. unfold check_exp in H. destruct (check_dups exps []); [discriminate|].
  pose proof (defs_result defined exps) as G. rewrite H in G. exact G.
Qed.
Print Assumptions C32_defined.
Theorem C32_not_defined : forall defined exps n,
  check_exp defined exps = Some (E_NotDefined n) ->
  defined n = false /\ exists e s, In e exps /\ ed_src e = false /\ In s (ed_specs e) /\ es_local s = n.
Proof.
  intros defined exps n H. unfold check_exp in H. destruct (check_dups exps []) as [x|] eqn:E.
  - pose proof (dups_result exps [] (NoDup_nil _)) as D. rewrite E in D. destruct D as [m [-> _]]. discriminate.
  - pose proof (defs_result defined exps) as G. rewrite H in G. destruct G as (m & x & s & G & G1). injection G as <-.
    destruct G1 as (G1 & G2 & G3 & G4 & G5). split; [exact G5|]. exists x, s. auto.
Qed.
Print Assumptions C32_not_defined.

(** Overloads of a function are no entries; every other declaration is. *)
Theorem C32_overloads : forall exps e,
  (overload e -> add_exp exps e = exps) /\ (~ overload e -> add_exp exps e = exps ++ [e]).
Proof.
  intros exps e. unfold add_exp, overload. split.
  - intros (a & i & ps & k & ->). reflexivity.
  - intros H. destruct (ed_dec e) as [[ty a kids]|]; [|reflexivity]. destruct ty; try reflexivity.
    destruct kids as [|i kids]; [reflexivity|]. destruct kids as [|ps kids]; [reflexivity|].
    destruct kids as [|[k b] kids]; [reflexivity|]. destruct b as [|[b|] b']; [reflexivity|reflexivity|].
    destruct b'; [|reflexivity]. destruct kids; [|reflexivity]. destruct H. exists a, i, ps, k. reflexivity.
Qed.
Print Assumptions C32_overloads.

(** [export {a, b as c}; export function d() {} export default 1] and the same with a second [c]. *)
Definition exps1 : list edec :=
  [mk_ed false None [mk_es (bs "a") (Some (bs "a")) false; mk_es (bs "b") (Some (bs "c")) false] false;
   mk_ed false (Some (Node N_STMT_FN (n_at (nm "")) [("Id"%string, [Some (nm "d")]); ("Params"%string, []); ("Body"%string, [Some (nm "")])])) [] false;
   mk_ed true None [] false].
Example exports_ex :
  all_exports exps1 [bs "a"; bs "c"; bs "d"; bs "default"]
  /\ check_exp (fun _ => true) exps1 = None
  /\ check_exp (fun _ => true) (exps1 ++ [mk_ed false None [mk_es (bs "d") (Some (bs "c")) false] true]) = Some (E_DupExport (bs "c"))
  /\ check_exp (fun n => bytes_eqb n (bs "a")) exps1 = Some (E_NotDefined (bs "b")).
Proof.
  split; [|repeat split; reflexivity].
  apply (XA_cons _ _ [bs "a"; bs "c"]); [apply X_specs|].
  apply (XA_cons _ _ [bs "d"]); [apply X_dec; apply D_fn|].
  apply (XA_cons _ _ [bs "default"] []); [apply X_default|constructor].
Qed.

(** [export * as a from "x"; export {a}] is accepted. *)
Theorem C32_star_as_refuted : exists exps names,
  all_exports exps names /\ ~ NoDup names /\ check_exp (fun _ => true) exps = None.
Proof.
  exists [mk_ed false None [mk_es (bs "a") None false] true; mk_ed false None [mk_es (bs "a") (Some (bs "a")) false] false],
    [bs "a"; bs "a"].
  split; [|split; [|reflexivity]].
  - apply (XA_cons _ _ [bs "a"] [bs "a"]); [apply X_specs|].
    apply (XA_cons _ _ [bs "a"] []); [apply X_specs|constructor].
  - intros N. inversion N as [|x l N1 N2]; subst. apply N1. left. reflexivity.
Qed.
Print Assumptions C32_star_as_refuted.

(** ** C49 *)
Definition is_octal (s : dstmt) : bool := match s with DString o => o | _ => false end.
Lemma is_octal_ex : forall l, existsb is_octal l = true <-> Exists octal l.
Proof.
  induction l as [|s l IH]; simpl; [split; [discriminate|intros X; inversion X]|].
  rewrite orb_true_iff, Exists_cons, IH. unfold octal. destruct s as [|[]|]; simpl; intuition congruence.
Qed.
Lemma octal_in_sub : forall l n, octal_in l n = true -> existsb is_octal l = true.
Proof.
  unfold octal_in. induction l as [|x l IH]; intros [|n] H; simpl in *; try discriminate.
  apply orb_prop in H. destruct H as [H|H]; [unfold is_octal at 1; rewrite H; reflexivity|]. rewrite (IH n H), orb_true_r. reflexivity.
Qed.
(** Once strict: an error exactly when an octal follows. *)
Lemma dir_strict : forall l p st, existsb is_octal st = false ->
  if existsb is_octal l then dir_loop l (mk_ds p st true) = inl E_LegacyOctal
  else exists q, dir_loop l (mk_ds p st true) = inr (mk_ds q (st ++ l) true).
Proof.
  induction l as [|s l IH]; intros p st H; simpl; [exists p; rewrite app_nil_r; reflexivity|].
  unfold dir_step. cbn [ds_strict ds_prologue ds_stmts].
  assert (O : (match s with DString o => true && o | _ => false end) = is_octal s) by (destruct s; reflexivity).
  rewrite O. destruct (is_octal s) eqn:E; simpl; [reflexivity|].
  assert (St : existsb is_octal (st ++ [s]) = false) by (rewrite existsb_app, H; simpl; rewrite E; reflexivity).
  assert (G : forall q, if existsb is_octal l then dir_loop l (mk_ds q (st ++ [s]) true) = inl E_LegacyOctal
              else exists r, dir_loop l (mk_ds q (st ++ [s]) true) = inr (mk_ds r (st ++ s :: l) true)).
  { intros q. specialize (IH q _ St). rewrite <- app_assoc in IH. exact IH. }
  destruct (p =? -1)%Z; [apply G|]. destruct s as [|o|]; try apply G.
  destruct (0 <? p)%Z; [|apply G]. destruct (octal_in st (Z.to_nat p)) eqn:X; [|apply G].
  apply octal_in_sub in X. congruence.
Qed.
(** Without another use strict nothing becomes strict. *)
Lemma dir_sloppy : forall l p st, Forall (fun s => ~ use_strict s) l -> exists q, dir_loop l (mk_ds p st false) = inr (mk_ds q (st ++ l) false).
Proof.
  induction l as [|s l IH]; intros p st F; simpl; [exists p; rewrite app_nil_r; reflexivity|].
  inversion F as [|x y F1 F2]; subst. unfold dir_step. cbn [ds_strict ds_prologue ds_stmts].
  assert (O : (match s with DString o => false && o | _ => false end) = false) by (destruct s; reflexivity).
  rewrite O. assert (G : forall q, exists r, dir_loop l (mk_ds q (st ++ [s]) false) = inr (mk_ds r (st ++ s :: l) false)).
  { intros q. destruct (IH q (st ++ [s]) F2) as [r E]. exists r. rewrite E, <- app_assoc. reflexivity. }
  destruct (p =? -1)%Z; [apply G|]. destruct s as [|o|]; try apply G. destruct F1. reflexivity.
Qed.
(** In the prologue, before use strict. *)
Lemma dir_prologue : forall l st, no_late l -> Forall (fun s => exists o, s = DString o) st ->
  (Exists use_strict (prologue l) /\
     if existsb is_octal (st ++ l) then dir_loop l (mk_ds (Z.of_nat (List.length st)) st false) = inl E_LegacyOctal
     else exists q, dir_loop l (mk_ds (Z.of_nat (List.length st)) st false) = inr (mk_ds q (st ++ l) true))
  \/ (~ Exists use_strict (prologue l) /\ exists q, dir_loop l (mk_ds (Z.of_nat (List.length st)) st false) = inr (mk_ds q (st ++ l) false)).
Proof.
  induction l as [|s l IH]; intros st N F.
  { right. split; [intros X; inversion X|]. exists (Z.of_nat (List.length st)). rewrite app_nil_r. reflexivity. }
  destruct s as [|o|].
  - left. split; [left; reflexivity|].
    rewrite existsb_app. simpl. unfold dir_step. cbn [ds_strict ds_prologue ds_stmts]. simpl.
    destruct (Z.of_nat (List.length st) =? -1)%Z eqn:Z1; [lia|].
    assert (G : forall q, existsb is_octal st = false ->
       if existsb is_octal l then dir_loop l (mk_ds q (st ++ [DStrict]) true) = inl E_LegacyOctal
              else exists r, dir_loop l (mk_ds q (st ++ [DStrict]) true) = inr (mk_ds r (st ++ DStrict :: l) true)).
    { intros q Hq. assert (Hq' : existsb is_octal (st ++ [DStrict]) = false) by (rewrite existsb_app, Hq; reflexivity).
      pose proof (dir_strict l q _ Hq') as X. rewrite <- app_assoc in X. exact X. }
    destruct (0 <? Z.of_nat (List.length st))%Z eqn:Z2.
    + assert (X : octal_in st (Z.to_nat (Z.of_nat (List.length st))) = existsb is_octal st).
      { rewrite Nat2Z.id. unfold octal_in. rewrite firstn_all. reflexivity. }
      rewrite X. destruct (existsb is_octal st); [reflexivity|]. apply G. reflexivity.
    + destruct st as [|x st]; [apply G; reflexivity|simpl in Z2; lia].
  - assert (N' : no_late l).
    { intros r Hr. apply (N r). simpl. rewrite <- Hr. reflexivity. }
    specialize (IH (st ++ [DString o]) N').
    assert (F' : Forall (fun s => exists o, s = DString o) (st ++ [DString o])).
    { apply Forall_app. split; [exact F|]. constructor; [eauto|constructor]. }
    specialize (IH F'). rewrite <- app_assoc in IH. simpl app in IH.
    assert (E : dir_loop (DString o :: l) (mk_ds (Z.of_nat (List.length st)) st false) =
                dir_loop l (mk_ds (Z.of_nat (List.length (st ++ [DString o]))) (st ++ [DString o]) false)).
    { simpl. unfold dir_step. cbn [ds_strict ds_prologue ds_stmts]. simpl.
      destruct (Z.of_nat (List.length st) =? -1)%Z eqn:Z1; [lia|].
      rewrite app_length. simpl. do 2 f_equal. lia. }
    rewrite E. destruct IH as [[I1 I2]|[I1 I2]]; [left|right]; (split; [|exact I2]).
    + right. exact I1.
    + intros X. inversion X as [x y Hz|x y Hx]; subst; [discriminate|]. exact (I1 Hx).
  - right. split; [intros X; inversion X|]. apply dir_sloppy. apply (N (DOther :: l)). reflexivity.
Qed.

(** After a prologue without directives nothing becomes strict. *)
Lemma dir_over : forall l st, dir_loop l (mk_ds (-1) st false) = inr (mk_ds (-1) (st ++ l) false).
Proof.
  induction l as [|s l IH]; intros st; simpl; [rewrite app_nil_r; reflexivity|].
  unfold dir_step. cbn [ds_strict ds_prologue ds_stmts]. destruct s; simpl; rewrite IH, <- app_assoc; reflexivity.
Qed.
Lemma dir_none : forall l, prologue l = [] -> directives false l = inr false.
Proof.
  intros [|[|o|] l] P; try discriminate P; [reflexivity|]. unfold directives. simpl. unfold dir_step; simpl. rewrite dir_over. reflexivity.
Qed.
(** A body in sloppy code is made strict exactly by a use-strict directive in its prologue.  Missing: bodies that
    begin with a string and have a string that reads use strict after the prologue, see below. *)
Theorem C49_strict_partial : forall body b, in_place body -> directives false body = inr b ->
  (b = true <-> Exists use_strict (prologue body)).
Proof.
  intros l b [Q|N] H.
  { rewrite (dir_none _ Q) in H. injection H as <-. rewrite Q. split; [discriminate|intros X; inversion X]. }
  unfold directives in H. destruct (dir_prologue l [] N (Forall_nil _)) as [[P1 P2]|[P1 [q P2]]].
  - destruct (existsb is_octal ([] ++ l)).
    + simpl in P2. rewrite P2 in H. discriminate.
    + destruct P2 as [q P2]. simpl in P2. rewrite P2 in H. injection H as <-. simpl. tauto.
  - simpl in P2. rewrite P2 in H. injection H as <-. simpl. split; [discriminate|contradiction].
Qed.
Print Assumptions C49_strict_partial.
(** A string with a legacy octal escape, before or after the directive, is an error exactly when the body is strict. *)
Theorem C49_octal_partial : forall body, in_place body ->
  directives false body = inl E_LegacyOctal <-> Exists use_strict (prologue body) /\ Exists octal body.
Proof.
  intros l [Q|N].
  { rewrite (dir_none _ Q), Q. split; [discriminate|intros [X _]; inversion X]. }
  unfold directives. rewrite <- is_octal_ex.
  destruct (dir_prologue l [] N (Forall_nil _)) as [[P1 P2]|[P1 [q P2]]]; simpl in P2.
  - destruct (existsb is_octal l).
    + rewrite P2. tauto.
    + destruct P2 as [q P2]. rewrite P2. split; [discriminate|]. intros [_ X]. discriminate.
  - rewrite P2. split; [discriminate|]. intros [X _]. contradiction.
Qed.
Print Assumptions C49_octal_partial.
(** In strict code every body is strict and strings have no legacy octal escapes. *)
Theorem C49_inherited : forall body,
  (directives true body = inr true /\ ~ Exists octal body) \/ (directives true body = inl E_LegacyOctal /\ Exists octal body).
Proof.
  intros l. unfold directives. pose proof (dir_strict l 0 [] eq_refl) as D. rewrite <- is_octal_ex.
  destruct (existsb is_octal l); [right; rewrite D; auto|left]. destruct D as [q ->]. split; [reflexivity|discriminate].
Qed.
Print Assumptions C49_inherited.
Example directives_ex :
  in_place [DString false; DStrict; DOther] /\ in_place [DOther; DStrict] /\ directives false [DString false; DStrict; DOther] = inr true
  /\ directives false [DString true; DOther] = inr false /\ directives false [DString true; DStrict] = inl E_LegacyOctal.
Proof.
  split; [|split; [left; reflexivity|repeat split; reflexivity]]. right. intros r H. injection H as <-. constructor; [discriminate|constructor].
Qed.
(** [function f() { "a"; g(); "use strict" }] is strict. *)
Theorem C49_late_refuted : exists body, directives false body = inr true /\ ~ Exists use_strict (prologue body).
Proof.
  exists [DString false; DOther; DStrict]. split; [reflexivity|]. simpl. intros X.
  inversion X as [x y E|x y X1]; subst; [discriminate|inversion X1].
Qed.
Print Assumptions C49_late_refuted.
