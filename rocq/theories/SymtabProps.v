(** Theorems about scopes: C34 to C37. *)
From Coq Require Import ZifyBool ZifyNat ZifyN.
From Verif Require Import Base SymtabModel SymtabSpec SymtabProofs SymtabTabProofs.

(** ** C34: name resolution *)

(** A name is found exactly when a scope that is open declares it, for every history. *)
Theorem C34_found : forall ops t n, Forall ordinary ops -> run ops start = Ok t ->
  (has_name t (t_cur t) n = true <-> exists f d, In f (open_scopes ops) /\ declares f n d).
Proof. exact has_name_spec. Qed.
Print Assumptions C34_found.

(** The full claim of C34: the declaration found is one of the innermost scope that declares the name. *)
Definition finds_innermost : Prop := forall ops t n,
  Forall ordinary ops -> run ops start = Ok t ->
  resolves (open_scopes ops) n (option_map r_tag (binding_of t (t_cur t) n)).

(** Proved for names that are nowhere declared both as a class (or a TypeScript type) and as something else; then
    it is the newest declaration of that scope. *)
Theorem C34_innermost_partial : forall ops t n, Forall ordinary ops -> uniform n ops -> run ops start = Ok t ->
  resolves (open_scopes ops) n (option_map r_tag (binding_of t (t_cur t) n)).
Proof. exact resolves_spec. Qed.
Print Assumptions C34_innermost_partial.

(** [class A {} { let A; { var A; ... A ... } }] (which is no legal program) is accepted, and in the inner block
    [A] is the [let] around it. *)
Theorem C34_innermost_refuted : ~ finds_innermost.
Proof.
  intro H.
  specialize (H [decl_class (bs "A") 1; enter_block; decl_let (bs "A") 2; enter_block; decl_var (bs "A") 3]).
  destruct (run _ start) as [t| |] eqn:E in H.
  - specialize (H t (bs "A")). vm_compute in E.
    assert (Hr : resolves (open_scopes [decl_class (bs "A") 1; enter_block; decl_let (bs "A") 2; enter_block; decl_var (bs "A") 3])
              (bs "A") (Some 2)).
    { replace (Some 2) with (option_map r_tag (binding_of t (t_cur t) (bs "A"))).
      - apply H; [|reflexivity]. repeat constructor.
      - inversion E; subst t. reflexivity. }
    remember (Some 2) as two eqn:E2 in Hr. destruct Hr as [pre f post d St Nd Fd|]; [|discriminate E2]. vm_compute in St.
    destruct pre as [|g pre].
    + inversion St; subst f. vm_compute in Fd. inversion Fd as [Hd]. rewrite <- Hd in E2. discriminate E2.
    + inversion St; subst g. eapply Nd; [left; reflexivity|]. left. reflexivity.
  - vm_compute in E. discriminate E.
  - vm_compute in E. discriminate E.
Qed.
Print Assumptions C34_innermost_refuted.

(** A [var] is visible as long as the function it is declared in is not left, whatever is declared and however
    many blocks are entered and left. *)
Theorem C34_var_visible : forall ops1 n typ tag dup ops2 pre f post t,
  Forall ordinary (ops1 ++ SDeclare n BK_VAR typ tag dup :: ops2) ->
  run (ops1 ++ SDeclare n BK_VAR typ tag dup :: ops2) start = Ok t ->
  open_scopes ops1 = pre ++ f :: post -> fr_fun f = true -> Forall (fun g => fr_fun g = false) pre ->
  stays (length pre) ops2 ->
  has_name t (t_cur t) n = true.
Proof.
  intros ops1 n typ tag dup ops2 pre f post t O E F Ff P St.
  apply (has_name_spec _ _ n O E). unfold open_scopes. rewrite fold_left_app. fold (open_scopes ops1). rewrite F.
  cbn [fold_left frame_step bind_eqb]. set (d := mk_decl tag BK_VAR typ dup).
  assert (X : exists pre' f' post', on_current (declare_in n d) (on_function (declare_in n d) (pre ++ f :: post))
    = pre' ++ f' :: post' /\ length pre' = length pre /\ declares f' n d).
  { clear -Ff P. destruct pre as [|g pre].
    - cbn [app on_function]. rewrite Ff. eexists [], _, post. cbn. split; [reflexivity|]. split; [reflexivity|left; reflexivity].
    - inversion P; subst. cbn [app on_function]. rewrite H1. cbn [on_current].
      assert (Y : on_function (declare_in n d) (pre ++ f :: post) = pre ++ declare_in n d f :: post).
      { clear -H2 Ff. induction pre as [|h pre IH]; cbn [app on_function]; [rewrite Ff; reflexivity|].
        inversion H2; subst. rewrite H1, IH by assumption. reflexivity. }
      rewrite Y. exists (declare_in n d g :: pre), (declare_in n d f), post. split; [reflexivity|].
      split; [reflexivity|left; reflexivity]. }
  destruct X as (pre' & f' & post' & -> & L & D).
  rewrite <- L in St. destruct (frames_keep n d ops2 pre' f' post' St D) as (a & g & b & -> & Dg).
  exists g, d. split; [apply in_app_iff; right; left; reflexivity|exact Dg].
Qed.
Print Assumptions C34_var_visible.

(** What is declared in a block, or with [var] in a function, is gone when it is left: afterwards the name
    means what it meant before. *)
Theorem C34_scope_ends : forall ops1 ops2 t1 t2 n, Forall ordinary ops2 ->
  run ops1 start = Ok t1 -> run ops2 t1 = Ok t2 -> confined n [] ops2 ->
  binding_of t2 (t_cur t2) n = binding_of t1 (t_cur t1) n.
Proof. exact confined_spec. Qed.
Print Assumptions C34_scope_ends.

(** [let a; { let a; function () { var a; } }]. *)
Example C34_example :
  let inner := [enter_block; decl_let (bs "a") 2; enter_function; decl_var (bs "a") 3; SLeave; SLeave] in
  (exists t, run (decl_let (bs "a") 1 :: inner) start = Ok t
     /\ option_map r_tag (binding_of t (t_cur t) (bs "a")) = Some 1)
  /\ confined (bs "a") [] inner /\ Forall ordinary inner /\ uniform (bs "a") (decl_let (bs "a") 1 :: inner)
  /\ exists t, run [enter_function; enter_block; decl_var (bs "a") 3; SLeave] start = Ok t
     /\ option_map r_tag (binding_of t (t_cur t) (bs "a")) = Some 3.
Proof.
  split; [|split; [|split; [|split]]].
  - eexists. split; vm_compute; reflexivity.
  - cbn. repeat split; try discriminate. intros _. left. reflexivity.
  - repeat constructor.
  - left. repeat constructor; intros _; vm_compute; reflexivity.
  - eexists. split; vm_compute; reflexivity.
Qed.

(** ** C35: redeclarations *)

(** [let], [const], a parameter or a private field over any declaration of the same scope is rejected. *)
Theorem C35_lexical_partial : forall ops t n b typ tag f rest d,
  Forall ordinary ops -> uniform n (ops ++ [SDeclare n b typ tag true]) -> run ops start = Ok t ->
  open_scopes ops = f :: rest -> declares f n d -> b <> BK_VAR ->
  run (ops ++ [SDeclare n b typ tag true]) start = Rejected.
Proof.
  intros ops t n b typ tag f rest d O Un E F D B. rewrite run_app, E. cbn [run].
  destruct (uniform_uni _ _ _ _ _ _ _ O Un E) as (U & SU & Ut & Hu).
  rewrite (redeclare_rejected _ _ _ _ _ _ _ _ _ _ SU Ut Hu F D B). reflexivity.
Qed.
Print Assumptions C35_lexical_partial.

(** [var] over a [let], [const] or class of the enclosing function is rejected. *)
Theorem C35_var_function_partial : forall ops t n typ tag pre f post d,
  Forall ordinary ops -> uniform n (ops ++ [SDeclare n BK_VAR typ tag true]) -> run ops start = Ok t ->
  open_scopes ops = pre ++ f :: post -> Forall (fun g => fr_fun g = false) pre -> fr_fun f = true ->
  find_b n (fr_decls f) = Some d -> lexical (d_bind d) -> d_typ d <> RDT_FN ->
  run (ops ++ [SDeclare n BK_VAR typ tag true]) start = Rejected.
Proof.
  intros ops t n typ tag pre f post d O Un E F P Ff D Lx Ty. rewrite run_app, E. cbn [run].
  destruct (uniform_uni _ _ _ _ _ _ _ O Un E) as (U & SU & Ut & Hu).
  rewrite (var_over_function_lexical _ _ _ _ _ _ _ _ _ _ SU Ut Hu F P Ff D Lx Ty). reflexivity.
Qed.
Print Assumptions C35_var_function_partial.

(** [var] over a [let], [const] or class of the block it stands in is rejected. *)
Theorem C35_var_block_partial : forall ops t n typ tag f rest d,
  Forall ordinary ops -> uniform n (ops ++ [SDeclare n BK_VAR typ tag true]) -> run ops start = Ok t ->
  open_scopes ops = f :: rest -> fr_settled f = true -> fr_sort f <> Program ->
  find_b n (fr_decls f) = Some d -> lexical (d_bind d) -> d_typ d <> RDT_FN ->
  run (ops ++ [SDeclare n BK_VAR typ tag true]) start = Rejected.
Proof.
  intros ops t n typ tag f rest d O Un E F St So D Lx Ty. rewrite run_app, E. cbn [run].
  destruct (uniform_uni _ _ _ _ _ _ _ O Un E) as (U & SU & Ut & Hu).
  destruct (var_step _ _ _ _ _ _ _ tag SU Ut Hu E F) as (g & _ & _ & X & _).
  rewrite X by eauto 8. reflexivity.
Qed.
Print Assumptions C35_var_block_partial.

(** [var] over [var] or a parameter, in the scope and in the function, is accepted. *)
Theorem C35_var_again : forall ops t n typ tag f rest,
  Forall ordinary ops -> uniform n (ops ++ [SDeclare n BK_VAR typ tag true]) -> run ops start = Ok t ->
  open_scopes ops = f :: rest -> is_kind (cur t) SPK_CATCH = false ->
  (forall d, find_b n (fr_decls f) = Some d -> d_bind d = BK_VAR \/ d_bind d = BK_PARAM) ->
  (forall g d, find fr_fun (open_scopes ops) = Some g -> find_b n (fr_decls g) = Some d ->
     (d_bind d = BK_VAR \/ d_bind d = BK_PARAM) /\ d_typ d <> RDT_FN) ->
  exists t', run (ops ++ [SDeclare n BK_VAR typ tag true]) start = Ok t'.
Proof.
  intros ops t n typ tag f rest O Un E F Nc X Y. rewrite run_app, E. cbn [run].
  destruct (uniform_uni _ _ _ _ _ _ _ O Un E) as (U & SU & Ut & Hu).
  destruct (var_step _ _ _ _ _ _ _ tag SU Ut Hu E F) as (g & Fg & _ & _ & Z).
  destruct (Z Nc X (fun d D => Y g d Fg D)) as (t' & ->). eauto.
Qed.
Print Assumptions C35_var_again.

(** [class A {} ...]: a class is taken to be no value, so [let A] beside it is accepted. *)
Theorem C35_class_refuted :
  (exists t, run [decl_class (bs "A") 1; decl_let (bs "A") 2] start = Ok t)
  /\ (exists t, run [decl_let (bs "A") 1; decl_class (bs "A") 2] start = Ok t).
Proof. split; eexists; vm_compute; reflexivity. Qed.
Print Assumptions C35_class_refuted.

(** [{ let a; { var a; } }]: only the block itself and the function are looked at. *)
Theorem C35_enclosing_refuted :
  exists t, run [enter_block; decl_let (bs "a") 1; enter_block; decl_var (bs "a") 2] start = Ok t.
Proof. eexists; vm_compute; reflexivity. Qed.
Print Assumptions C35_enclosing_refuted.

(** [{ { var a; } let a; }]: the block does not know of the [var] that was hoisted through it. *)
Theorem C35_hoisted_refuted :
  exists t, run [enter_block; enter_block; decl_var (bs "a") 1; SLeave; decl_let (bs "a") 2] start = Ok t.
Proof. eexists; vm_compute; reflexivity. Qed.
Print Assumptions C35_hoisted_refuted.

(** [function f() {} var f;] is a legal program and is rejected, while the other order is accepted. *)
Theorem C35_function_refuted :
  run [decl_function (bs "f") 1; decl_var (bs "f") 2] start = Rejected
  /\ exists t, run [decl_var (bs "f") 1; decl_function (bs "f") 2] start = Ok t.
Proof. split; [vm_compute; reflexivity|eexists; vm_compute; reflexivity]. Qed.
Print Assumptions C35_function_refuted.

(** [let f; function f() {}]: a function declaration of sloppy code is not checked. *)
Theorem C35_sloppy_function_refuted :
  exists t, run [decl_let (bs "f") 1; decl_function (bs "f") 2] start = Ok t.
Proof. eexists; vm_compute; reflexivity. Qed.
Print Assumptions C35_sloppy_function_refuted.

(** [{ class A {} var A; } var A;]: the first [var] is accepted without being given its scope, the second one
    dereferences it. *)
Theorem C35_panic_refuted :
  run [enter_block; decl_class (bs "A") 1; decl_var (bs "A") 2; SLeave; decl_var (bs "A") 3] start = Panic.
Proof. vm_compute. reflexivity. Qed.
Print Assumptions C35_panic_refuted.

(** Without such mixing of classes and other declarations no declaration panics. *)
Theorem C35_no_panic_partial : forall ops t n b typ tag,
  Forall ordinary ops -> uniform n (ops ++ [SDeclare n b typ tag true]) -> run ops start = Ok t ->
  run (ops ++ [SDeclare n b typ tag true]) start <> Panic.
Proof.
  intros ops t n b typ tag O Un E. rewrite run_app, E. cbn [run].
  destruct (uniform_uni _ _ _ _ _ _ _ O Un E) as (U & SU & Ut & Hu).
  destruct (open_function _ _ E) as [_ Ne]. destruct (open_scopes ops) as [|f rest] eqn:F; [congruence|].
  destruct (bind_eqb b BK_VAR) eqn:B.
  - apply bind_eqb_eq in B. subst b. destruct (var_step _ _ _ _ _ _ _ tag SU Ut Hu E F) as (g & _ & X & _).
    destruct (step _ t); congruence.
  - apply bind_eqb_neq in B. destruct (find_b n (fr_decls f)) as [d|] eqn:D.
    + rewrite (redeclare_rejected _ _ _ _ _ _ d b typ tag SU Ut Hu F (find_b_in _ _ _ _ D) B). discriminate.
    + destruct (uni_local _ _ _ _ _ _ Hu F) as [L _]. rewrite D in L. cbn [step]. unfold add_local. cbn [r_bind].
      replace (bind_eqb b BK_VAR) with false by (symmetry; apply bind_eqb_neq, B).
      destruct (local t (t_cur t) n); [destruct L|]. rewrite andb_false_r. discriminate.
Qed.
Print Assumptions C35_no_panic_partial.

(** The hypotheses are met: [let a; { let b; ], and a function with a parameter. *)
Example C35_example :
  let ops := [decl_let (bs "a") 1; enter_block; decl_let (bs "b") 2] in
  let opf := [enter_function; SDeclare (bs "p") BK_PARAM 0 1 false; decl_var (bs "v") 2] in
  Forall ordinary ops /\ uniform (bs "a") (ops ++ [decl_var (bs "a") 3])
  /\ (exists t, run ops start = Ok t) /\ run (ops ++ [decl_var (bs "a") 3]) start = Rejected
  /\ run (ops ++ [decl_var (bs "b") 3]) start = Rejected /\ run (ops ++ [decl_let (bs "b") 3]) start = Rejected
  /\ (exists t, run (ops ++ [decl_let (bs "a") 3]) start = Ok t)
  /\ (exists t, run (opf ++ [decl_var (bs "p") 3; decl_var (bs "v") 4]) start = Ok t)
  /\ (exists t, run (opf ++ [enter_block; decl_var (bs "p") 3; decl_var (bs "v") 4]) start = Ok t).
Proof.
  cbn zeta. split; [repeat constructor|]. split; [left; repeat constructor; intros _; vm_compute; reflexivity|].
  repeat match goal with |- _ /\ _ => split end; try (vm_compute; reflexivity); eexists; vm_compute; reflexivity.
Qed.

(** ** C36: the table of scopes *)

(** Entering a scope after any history: the scope is a new one, the scope that was current is its parent and has
    it as a child, the table has it under its id, and a settled one has an id no scope had. *)
Theorem C36_enter : forall ops t fn arrow settled, run ops start = Ok t ->
  let t' := enter_scope t fn arrow settled in
  length (t_heap t) <= t_cur t' < length (t_heap t')
  /\ sc_up (cur t') = Some (t_cur t)
  /\ In (t_cur t') (sc_down (sc t' (t_cur t)))
  /\ find_n (sc_id (cur t')) (t_table t') = Some (t_cur t')
  /\ (settled = true -> forall q, q < length (t_heap t) -> sc_id (sc t' q) <> sc_id (cur t')).
Proof.
  intros ops t fn arrow settled E t'. destruct (run_chain _ _ _ _ start_chain E) as (l & C).
  assert (L : t_cur t < length (t_heap t)) by (destruct C; assumption).
  pose proof (run_bounded _ _ _ _ start_chain start_bounded E) as B.
  assert (Cu : cur t' = sc t' (length (t_heap t))) by reflexivity.
  split; [cbn; rewrite app_length, put_at_length; cbn; lia|]. rewrite Cu. unfold t'. rewrite enter_sc_new.
  cbn [sc_up sc_id]. split; [reflexivity|]. split; [|split].
  - destruct (enter_sc t fn arrow settled (t_cur t) L L) as [_ ->]. rewrite Nat.eqb_refl.
    apply in_app_iff. right. left. reflexivity.
  - cbn. rewrite Nat.eqb_refl. reflexivity.
  - intros -> q Q. destruct (enter_sc t fn arrow true q L Q) as [X _]. apply bare_up in X.
    destruct X as (_ & -> & _). specialize (B q Q). lia.
Qed.
Print Assumptions C36_enter.

(** Ids and parents never change afterwards. *)
Theorem C36_stable : forall ops1 ops2 t1 t2, run ops1 start = Ok t1 -> run ops2 t1 = Ok t2 ->
  length (t_heap t1) <= length (t_heap t2) /\
  forall q, q < length (t_heap t1) -> sc_id (sc t2 q) = sc_id (sc t1 q) /\ sc_up (sc t2 q) = sc_up (sc t1 q).
Proof.
  intros ops1 ops2 t1 t2 E1 E2. destruct (run_chain _ _ _ _ start_chain E1) as (l & C).
  destruct (run_keeps _ _ _ _ C E2) as (A & _ & K). auto.
Qed.
Print Assumptions C36_stable.

(** After a history that leaves what it enters the same scope is current as before. *)
Theorem C36_balanced : forall ops1 ops2 t1 t2, run ops1 start = Ok t1 -> balanced 0 ops2 -> run ops2 t1 = Ok t2 ->
  t_cur t2 = t_cur t1.
Proof.
  intros ops1 ops2 t1 t2 E1 B E2. destruct (run_chain _ _ _ _ start_chain E1) as (l & C).
  exact (balanced_cur _ _ _ _ C B E2).
Qed.
Print Assumptions C36_balanced.

(** The full claim about the table. *)
Definition table_leads_back : Prop := forall ops1 ops2 fn arrow t1 t2 t3,
  run ops1 start = Ok t1 -> step (SEnter fn arrow true) t1 = Ok t2 -> run ops2 t2 = Ok t3 ->
  Forall (fun f => fr_settled f = true) (open_scopes (ops1 ++ SEnter fn arrow true :: ops2)) ->
  find_n (sc_id (sc t3 (t_cur t2))) (t_table t3) = Some (t_cur t2).

(** [function f() {} (x)]: the scope of the parentheses takes the id of the function, and stays in the table. *)
Theorem C36_table_refuted : ~ table_leads_back.
Proof.
  intro H. specialize (H [] [SLeave; enter_paren; SLeave] true false).
  specialize (H _ _ _ eq_refl eq_refl eq_refl). vm_compute in H.
  assert (X : Some 2 = Some 1) by (apply H; repeat constructor). discriminate X.
Qed.
Print Assumptions C36_table_refuted.

(** It does lead back if temporary scopes are entered only from the newest settled scope. *)
Theorem C36_table_partial : forall ops1 ops2 fn arrow t1 t2 t3,
  run ops1 start = Ok t1 -> step (SEnter fn arrow true) t1 = Ok t2 -> run ops2 t2 = Ok t3 ->
  tame (ops1 ++ SEnter fn arrow true :: ops2) start ->
  Forall (fun f => fr_settled f = true) (open_scopes (ops1 ++ SEnter fn arrow true :: ops2)) ->
  find_n (sc_id (sc t3 (t_cur t2))) (t_table t3) = Some (t_cur t2).
Proof. exact table_spec. Qed.
Print Assumptions C36_table_partial.

(** A function with a block in it, parentheses in the block and another function in the parentheses. *)
Example C36_example :
  let ops := [enter_function; enter_block; enter_paren; enter_function; SLeave; SLeave; enter_block; SLeave; SLeave; SLeave] in
  balanced 0 ops /\ tame ops start /\ (exists t, run ops start = Ok t /\ t_cur t = 0 /\ t_seed t = 4
    /\ map (fun i => find_n i (t_table t)) [0; 1; 2; 3; 4] = [Some 0; Some 1; Some 2; Some 4; Some 5])
  /\ Forall (fun f => fr_settled f = true) (open_scopes ops).
Proof.
  cbn zeta. split; [cbn; auto|]. split; [vm_compute; repeat split|]. split.
  - eexists. repeat match goal with |- _ /\ _ => split end; vm_compute; reflexivity.
  - repeat constructor.
Qed.

(** ** C37: marks *)
Lemma ok_marks : forall k m, has k inner_marks = false -> N.testbit inner_marks m = true -> has k (bit m) = false.
Proof. intros k m H T. rewrite has_bit. eapply testbit_of_has; eassumption. Qed.

Ltac testbits :=
  repeat match goal with |- context [N.testbit ?x ?y] =>
    let v := eval vm_compute in (N.testbit x y) in
    match v with true => idtac | false => idtac end; change (N.testbit x y) with v end;
  repeat rewrite ?andb_false_r, ?andb_true_r, ?andb_false_l, ?andb_true_l, ?orb_false_r, ?orb_false_l, ?orb_true_l, ?orb_true_r.
Ltac entered_tac n :=
  match goal with |- has ?x ?m = _ => change (has x m) with (has x (bit n)) end;
  rewrite has_bit, entered_bit;
  match goal with fn : bool, ar : bool |- _ => destruct fn, ar end; cbn [negb]; testbits;
  try reflexivity; try (symmetry; apply orb_diag).
Ltac context_tac A B Thr :=
  intros ops t O E;
  apply (marked_spec _ A B Thr (fun _ => True) marks_ok); try exact O; try exact E; try reflexivity; try exact I;
  try (intros; exact I); try (split; reflexivity); try (intros [] [] ? ? ?; reflexivity);
  match goal with
  | |- forall (k : N) (fn ar : bool), True -> _ => intros k fn ar _; entered_tac B
  | |- _ -> forall (k : N) (fn ar : bool), _ => let Hne := fresh in intros Hne k fn ar; entered_tac A
  | |- _ -> _ <> _ => let X := fresh in intro X; try discriminate X; discriminate
  | |- forall (o : sop) (k : N), _ =>
      intros o k Ho Hk; assert (K : has k inner_marks = false) by (destruct Hk; subst o; exact Ho);
      let Hd := fresh in split; intro Hd;
        [first [exfalso; apply Hd; reflexivity | exact (ok_marks k B K eq_refl)]
        |first [discriminate Hd | exact (ok_marks k A K eq_refl)]]
  end.

(** For each of these contexts (a loop, parameters, a generator, an async function, a function, a class, a class
    with a parent, strict code, an abstract class, an ambient declaration, a module, a constructor): the current
    scope is marked exactly when one of the open scopes introduces the context and every scope further inside
    lets it through. *)
Theorem C37_contexts_partial : forall c, In c [C_loop; C_params; C_generator; C_async; C_function; C_class;
    C_has_super; C_strict; C_abstract; C_declare; C_module; C_ctor] ->
  forall ops t, Forall marks_ok ops -> run ops start = Ok t ->
  (marked c (cur t) <-> inside c (open_scopes ops)).
Proof.
  intros c Hc. repeat (destruct Hc as [<-|Hc]); [..|destruct Hc].
  - context_tac 1%N 2%N (fun fn ar : bool => negb fn).
  - context_tac 29%N 29%N (fun fn ar : bool => negb fn).
  - context_tac 17%N 17%N (fun fn ar : bool => negb fn).
  - context_tac 16%N 16%N (fun fn ar : bool => negb fn).
  - context_tac 13%N 14%N (fun fn ar : bool => true).
  - context_tac 19%N 20%N (fun fn ar : bool => true).
  - context_tac 22%N 22%N (fun fn ar : bool => true).
  - context_tac 5%N 5%N (fun fn ar : bool => true).
  - context_tac 30%N 30%N (fun fn ar : bool => true).
  - context_tac 31%N 31%N (fun fn ar : bool => true).
  - context_tac 32%N 33%N (fun fn ar : bool => true).
  - context_tac 23%N 23%N (fun fn ar : bool => negb fn || ar).
Qed.
Print Assumptions C37_contexts_partial.

(** [switch] likewise, as long as no block is marked as that of a [try]. *)
Theorem C37_switch_partial : forall ops t, Forall (fun o => marks_ok o /\ forall k, o = SAdd k -> has k SPK_TRY = false) ops ->
  run ops start = Ok t -> (marked C_switch (cur t) <-> inside C_switch (open_scopes ops)).
Proof.
  intros ops t O E.
  apply (marked_spec _ 3%N 4%N (fun fn ar : bool => negb fn) (fun k => has k SPK_TRY = false /\ has k SPK_TRY_INDIRECT = false)
    (fun o => marks_ok o /\ forall k, o = SAdd k -> has k SPK_TRY = false)); try exact O; try exact E; try reflexivity;
    try (split; reflexivity).
  - intros [] ? ? ? ?; reflexivity.
  - intros k fn ar [G1 G2].
    match goal with |- has ?x ?m = _ => change (has x m) with (has x (bit 4)) end.
    rewrite has_bit, entered_bit, G1, G2. destruct fn, ar; cbn [negb]; testbits; reflexivity.
  - intros Hne k fn ar. entered_tac 3%N.
  - discriminate.
  - intros o k [Ho _] Hk. assert (K : has k inner_marks = false) by (destruct Hk; subst o; exact Ho).
    split; intro Hd; [exact (ok_marks k 4 K eq_refl)|discriminate Hd].
  - intros k fn ar [G1 G2]. split.
    + entered_tac 7%N.
    + entered_tac 8%N.
  - intros k m [M1 M2] [G1 G2]. specialize (M2 m eq_refl). rewrite !has_if_same, G1, G2, M2. split; [reflexivity|].
    exact (ok_marks m 8 M1 eq_refl).
  - intros k m _ [G1 G2].
    change SPK_TRY with (bit 7) in *. change SPK_TRY_INDIRECT with (bit 8) in *. rewrite !has_ldiff_bit, G1, G2. split; reflexivity.
Qed.
Print Assumptions C37_switch_partial.

(** [try { { ... } }]: the inner block is taken to be in a [switch], and not in a [try]. *)
Theorem C37_try_refuted : exists ops t, Forall marks_ok ops /\ run ops start = Ok t
  /\ inside C_try (open_scopes ops) /\ ~ marked C_try (cur t)
  /\ ~ inside C_switch (open_scopes ops) /\ marked C_switch (cur t).
Proof.
  exists [enter_block; SAdd SPK_TRY; enter_block]. eexists. split; [repeat constructor|]. split; [vm_compute; reflexivity|].
  split; [|split; [discriminate|split; [|reflexivity]]].
  - exists [hd program (open_scopes [enter_block])], (mark true SPK_TRY (hd program (open_scopes [enter_block]))), [program].
    split; [reflexivity|]. split; [reflexivity|]. intros g [<-|[]]. split; [reflexivity|discriminate].
  - intros (pre & f & post & E & X & _).
    assert (F : In f (pre ++ f :: post)) by (apply in_app_iff; right; left; reflexivity). rewrite <- E in F.
    destruct F as [<-|[<-|[<-|[]]]]; vm_compute in X; destruct X as [X _]; discriminate X.
Qed.
Print Assumptions C37_try_refuted.

(** A block of a loop of an async function in a class, and a function in that block. *)
Example C37_example :
  let ops := [enter_block; SAdd SPK_CLASS; enter_function; SAdd SPK_ASYNC; enter_block; SAdd SPK_LOOP_DIRECT; enter_block] in
  Forall marks_ok ops /\ (exists t, run ops start = Ok t
    /\ marked C_class (cur t) /\ marked C_async (cur t) /\ marked C_loop (cur t) /\ ~ marked C_generator (cur t))
  /\ (exists t, run (ops ++ [enter_function]) start = Ok t
    /\ marked C_class (cur t) /\ ~ marked C_async (cur t) /\ ~ marked C_loop (cur t))
  /\ Forall (fun o => marks_ok o /\ forall k, o = SAdd k -> has k SPK_TRY = false) ops.
Proof.
  cbn zeta. split; [repeat constructor|]. split; [|split].
  - eexists. split; [vm_compute; reflexivity|]. repeat split; discriminate.
  - eexists. split; [vm_compute; reflexivity|]. repeat split; discriminate.
  - repeat constructor; intros k Hk; inversion Hk; reflexivity.
Qed.
