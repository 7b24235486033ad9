(** Theorems about the choice of branches. *)
From Coq Require Import String SpecFloat.
From Verif Require Import Base TokenModel NodeModel WalkModel WalkSpec ExecModel ExecSpec ExecProps BranchModel BranchSpec.

Section Select.
Variable num_to_str : spec_float -> bytes.
Variable str_to_num : bytes -> spec_float.
Variable env : bytes -> option jval.
Variable parse_float : bytes -> option spec_float.
Variable format_float : spec_float -> bytes.
Variable sprint : val -> bytes.
Hypothesis Hf : forall x, format_float x <> bs "includes".
Hypothesis Hp : parse_float (bs "includes") = None.
Set Default Proof Using "Type".

(** A condition that has a value in JavaScript, that the evaluator is right about and does not panic at. *)
Definition evaluable (t : node) : Prop :=
  shaped t = true /\ supported t = true /\ safe_cond num_to_str str_to_num env t = true
  /\ js_eval num_to_str str_to_num env t <> None
  /\ result parse_float format_float sprint (jvars env) t <> None.

Lemma evaluable_holds : forall t, evaluable t ->
  exists v, result parse_float format_float sprint (jvars env) t = Some v
            /\ to_bool v = holds num_to_str str_to_num env t.
Proof using Hf Hp.
  intros t (A & B & C & D & E). unfold holds.
  destruct (js_eval num_to_str str_to_num env t) as [j|] eqn:J; [|tauto].
  destruct (result parse_float format_float sprint (jvars env) t) as [v|] eqn:R; [|tauto].
  exists v. split; [reflexivity|].
  exact (C41_condition_partial num_to_str str_to_num env parse_float format_float sprint t j v Hf Hp A B C J R).
Qed.
Notation select := (select_all parse_float format_float sprint (jvars env)).
Notation one := (select_one parse_float format_float sprint (jvars env)).
Notation holds := (holds num_to_str str_to_num env).
Lemma one_test : forall neg t m, evaluable t ->
  one (mk_br neg (Some t) m) = Some (if xorb neg (holds t) then match m with Some x => [x] | None => [] end else []).
Proof using Hf Hp.
  intros neg t m Ht. destruct (evaluable_holds t Ht) as (v & R & B). unfold select_one. cbn [br_test br_neg br_body body_of].
  rewrite R, B. unfold body_of. cbn [br_body]. destruct neg, (holds t); reflexivity.
Qed.
Lemma select_app : forall a b, select (a ++ b) =
  match select a, select b with Some x, Some y => Some (x ++ y) | _, _ => None end.
Proof.
  induction a as [|x a IH]; intro b; cbn [app select_all].
  - destruct (select b); reflexivity.
  - rewrite IH. destruct (one x), (select a), (select b); try reflexivity. rewrite app_assoc. reflexivity.
Qed.
(** For an operator other than && and || the right operand comes twice. *)
Definition chosen (t : node) : list node :=
  match t with
  | Node N_EXPR_BIN a [(_, [Some l]); (_, [Some r])] =>
      match at_op a with
      | T_AND | T_OR => operands num_to_str str_to_num env t
      | _ => [l; r; r]
      end
  | _ => operands num_to_str str_to_num env t
  end.
Lemma select_expr : forall t, whole t = true -> (forall d, In d (deciding t) -> evaluable d) ->
  select (expr_branches t) = Some (chosen t).
Proof using Hf Hp.
  intros t Hw Hd.
  assert (T : forall (P : Prop), (n_ty t <> N_EXPR_BIN -> n_ty t <> N_EXPR_COND -> P) -> (n_ty t = N_EXPR_BIN -> P) -> (n_ty t = N_EXPR_COND -> P) -> P).
  { intros P A B C. destruct (n_ty t); auto; apply A; discriminate. }
  apply T; clear T.
  - intros N1 N2. destruct t as [ty a kids]. cbn [n_ty] in *.
    assert (E : expr_branches (Node ty a kids) = []) by (unfold expr_branches; cbn [n_ty]; destruct ty; try reflexivity; contradiction).
    rewrite E. destruct ty; try reflexivity; contradiction.
  - intro E. destruct t as [ty a kids]. cbn [n_ty] in E. subst ty.
    unfold whole in Hw.
    destruct kids as [|[? [|[l|] [|? ?]]] [|[? [|[r|] [|? ?]]] [|? ?]]]; try discriminate Hw.
    unfold expr_branches. cbn [n_ty bin_branches].
    assert (L : one (mk_br false None (Some l)) = Some [l]) by reflexivity.
    cbn [select_all]. rewrite L.
    destruct (at_op a) eqn:O; cbn [select_all]; cbn [chosen operands]; rewrite O;
      try (assert (R : one (mk_br true None (Some r)) = Some [r; r]) by reflexivity; rewrite R; reflexivity).
    + assert (Hl : evaluable l) by (apply Hd; cbn [deciding]; rewrite O; left; reflexivity).
      rewrite one_test by exact Hl. cbn [xorb]. destruct (holds l); reflexivity.
    + assert (Hl : evaluable l) by (apply Hd; cbn [deciding]; rewrite O; left; reflexivity).
      rewrite one_test by exact Hl. cbn [xorb]. destruct (holds l); reflexivity.
  - intro E. destruct t as [ty a kids]. cbn [n_ty] in E. subst ty. unfold whole in Hw.
    destruct kids as [|[? [|[t|] [|? ?]]] [|[? [|[c|] [|? ?]]] [|[? [|[x|] [|? ?]]] [|? ?]]]]; try discriminate Hw.
    unfold expr_branches. cbn [n_ty cond_branches select_all].
    assert (Ht : evaluable t) by (apply Hd; left; reflexivity).
    rewrite !one_test by exact Ht. cbn [chosen operands]. destruct (holds t); reflexivity.
Qed.

(** The conditions of an if statement, and those their operands depend on, can be evaluated. *)
Definition decided (n : node) : Prop :=
  forall t, In t (tests n) -> evaluable t /\ whole t = true /\ forall d, In d (deciding t) -> evaluable d.

Lemma select_if : forall n, n_ty n = N_STMT_IF -> shaped n = true -> decided n ->
  exists l, select (if_branches n) = Some l
            /\ forall b, taken num_to_str str_to_num env n = Some b -> In b l.
Proof using Hf Hp.
  fix IH 1. intros [ty a kids] E Hs Hd. cbn [n_ty] in E. subst ty.
  destruct kids as [|[k1 [|[t|] [|o1 l1]]] [|[k2 [|c [|o2 l2]]] [|[k3 [|alt [|o3 l3]]] [|p ps]]]];
    try (cbn [shaped all_nodes grammar fits child_name] in Hs; rewrite ?andb_false_r in Hs; discriminate Hs);
    try (cbn [if_branches]; exists []; split; [reflexivity|intros b B; discriminate B]).
  cbn [if_branches taken].
  destruct (Hd t (or_introl eq_refl)) as (Ht & Hw & Hdd).
  rewrite select_app, (select_expr t Hw Hdd). cbn [select_all]. rewrite one_test by exact Ht. cbn [xorb].
  destruct alt as [m|].
  - destruct (nt_eqb (n_ty m) N_STMT_IF) eqn:M.
    + assert (M' : n_ty m = N_STMT_IF) by (destruct (n_ty m); try discriminate M; reflexivity).
      assert (Hm : shaped m = true).
      { cbn [shaped all_nodes] in Hs. apply andb_true_iff in Hs as [_ Hs]. cbn [forallb] in Hs.
        apply andb_true_iff in Hs as [_ Hs]. apply andb_true_iff in Hs as [_ Hs].
        apply andb_true_iff in Hs as [Hs _]. apply andb_true_iff in Hs as [Hs _]. exact Hs. }
      destruct (IH m M' Hm) as (l & S & T).
      { intros t' Ht'. apply Hd. right. exact Ht'. }
      rewrite S. eexists. split; [reflexivity|]. intros b B. apply in_or_app. right.
      destruct (holds t).
      * rewrite B. apply in_or_app. left. left. reflexivity.
      * apply in_or_app. right. exact (T b B).
    + cbn [select_all]. rewrite one_test by exact Ht. cbn [xorb]. eexists. split; [reflexivity|].
      intros b B. apply in_or_app. right. destruct (holds t).
      * rewrite B. left. reflexivity.
      * injection B as <-. left. reflexivity.
  - cbn [select_all]. eexists. split; [reflexivity|]. intros b B. apply in_or_app. right.
    destruct (holds t); [rewrite B; left; reflexivity|discriminate B].
Qed.
End Select.

(** C46, partial: the statement an if statement runs is among the branches selected, however long the chain of else
    ifs, when its conditions can be evaluated. *)
Theorem C46_taken_kept_partial : forall num_to_str str_to_num env parse_float format_float sprint n b,
  (forall x, format_float x <> bs "includes") -> parse_float (bs "includes") = None ->
  n_ty n = N_STMT_IF -> shaped n = true ->
  decided num_to_str str_to_num env parse_float format_float sprint n ->
  taken num_to_str str_to_num env n = Some b ->
  exists l, select_true parse_float format_float sprint (jvars env) n = Some l /\ In b l.
Proof.
  intros ns sn env pf ff sp n b Hf Hp Hn Hs Hd B.
  destruct (select_if ns sn env pf ff sp Hf Hp n Hn Hs Hd) as (l & S & T).
  exists l. split; [|exact (T b B)]. unfold select_true, branches. rewrite Hn. exact S.
Qed.
Print Assumptions C46_taken_kept_partial.

(** C46, partial: without else if, exactly the operands evaluated and the branch taken are selected, the condition
    being no operator other than && and ||. *)
Theorem C46_exact_partial : forall num_to_str str_to_num env parse_float format_float sprint a k1 t k2 c k3 alt,
  (forall x, format_float x <> bs "includes") -> parse_float (bs "includes") = None ->
  let n := Node N_STMT_IF a [(k1, [Some t]); (k2, [Some c]); (k3, [alt])] in
  match alt with Some m => n_ty m <> N_STMT_IF | None => True end ->
  match t with Node N_EXPR_BIN b _ => at_op b = T_AND \/ at_op b = T_OR | _ => True end ->
  shaped n = true ->
  decided num_to_str str_to_num env parse_float format_float sprint n ->
  select_true parse_float format_float sprint (jvars env) n
  = Some (operands num_to_str str_to_num env t
          ++ match taken num_to_str str_to_num env n with Some b => [b] | None => [] end).
Proof.
  intros ns sn env pf ff sp a k1 t k2 c k3 alt Hf Hp n Ha Ho Hs Hd.
  destruct (Hd t (or_introl eq_refl)) as (Ht & Hw & Hdd).
  assert (C : chosen ns sn env t = operands ns sn env t).
  { destruct t as [ty b kids]. destruct ty; try reflexivity. unfold whole in Hw.
    destruct kids as [|[? [|[l|] [|? ?]]] [|[? [|[r|] [|? ?]]] [|? ?]]]; try discriminate Hw.
    cbn [chosen operands]. destruct Ho as [-> | ->]; reflexivity. }
  unfold select_true, branches, n. cbn [n_ty if_branches taken].
  rewrite select_app, (select_expr ns sn env pf ff sp Hf Hp t Hw Hdd), C. cbn [select_all].
  rewrite (one_test ns sn env pf ff sp Hf Hp) by exact Ht. cbn [xorb].
  destruct alt as [m|].
  - assert (M : nt_eqb (n_ty m) N_STMT_IF = false) by (destruct (n_ty m); try reflexivity; contradiction).
    rewrite M. cbn [select_all]. rewrite (one_test ns sn env pf ff sp Hf Hp) by exact Ht. cbn [xorb].
    destruct (holds ns sn env t); reflexivity.
  - cbn [select_all]. destruct (holds ns sn env t); reflexivity.
Qed.
Print Assumptions C46_exact_partial.

(** C46: of && and ||, the conditional operator: the operands evaluated are selected, nothing else. *)
Theorem C46_operands_partial : forall num_to_str str_to_num env parse_float format_float sprint t,
  (forall x, format_float x <> bs "includes") -> parse_float (bs "includes") = None ->
  match t with
  | Node N_EXPR_BIN b _ => at_op b = T_AND \/ at_op b = T_OR
  | Node N_EXPR_COND _ _ => True
  | _ => False
  end ->
  whole t = true ->
  (forall d, In d (deciding t) -> evaluable num_to_str str_to_num env parse_float format_float sprint d) ->
  select_true parse_float format_float sprint (jvars env) t = Some (operands num_to_str str_to_num env t).
Proof.
  intros ns sn env pf ff sp t Hf Hp Ho Hw Hd.
  assert (C : chosen ns sn env t = operands ns sn env t).
  { destruct t as [ty b kids]. destruct ty; try reflexivity. unfold whole in Hw.
    destruct kids as [|[? [|[l|] [|? ?]]] [|[? [|[r|] [|? ?]]] [|? ?]]]; try discriminate Hw.
    cbn [chosen operands]. destruct Ho as [-> | ->]; reflexivity. }
  rewrite <- C, <- (select_expr ns sn env pf ff sp Hf Hp t Hw Hd).
  unfold select_true, branches, expr_branches. destruct t as [ty b kids]. cbn [n_ty].
  destruct ty; try contradiction; reflexivity.
Qed.
Print Assumptions C46_operands_partial.

Definition if_stmt (t c : node) (a : option node) : node :=
  Node N_STMT_IF (at_ [] T_ILLEGAL S754_nan false) [("Test", [Some t]); ("Cons", [Some c]); ("Alt", [a])]%string.
Definition block (s : bytes) : node := Node N_STMT_EXPR (at_ [] T_ILLEGAL S754_nan false) [("Expr", [Some (str s)])]%string.
(** [if (null && "u") "a" else if ("" || true) "b" else "c"] *)
Definition chain : node :=
  if_stmt (bin T_AND null (str (bs "u"))) (block (bs "a"))
    (Some (if_stmt (bin T_OR (str []) (boolean true)) (block (bs "b")) (Some (block (bs "c"))))).
Example taken_witness : forall ns sn env pf ff sp,
  shaped chain = true /\ decided ns sn env pf ff sp chain /\ taken ns sn env chain = Some (block (bs "b"))
  /\ select_true pf ff sp (jvars env) chain = Some [null; str []; boolean true; block (bs "b")].
Proof.
  intros. split; [reflexivity|]. split; [|split; reflexivity].
  intros t Ht. cbn [tests chain if_stmt] in Ht.
  assert (E : forall t, In t [bin T_AND null (str (bs "u")); bin T_OR (str []) (boolean true); null; str []] ->
              evaluable ns sn env pf ff sp t).
  { intros t' [<-|[<-|[<-|[<-|[]]]]]; (split; [|split; [|split; [|split]]]); vm_compute; try reflexivity; discriminate. }
  destruct Ht as [<-|[<-|[]]]; (split; [apply E; cbn; tauto|]; split; [reflexivity|]; intros d [<-|[]]; apply E; cbn; tauto).
Qed.
Definition exact_if : node := if_stmt (bin T_OR null (boolean true)) (block (bs "a")) (Some (block (bs "b"))).
Example exact_witness : forall ns sn env pf ff sp,
  shaped exact_if = true /\ decided ns sn env pf ff sp exact_if
  /\ select_true pf ff sp (jvars env) exact_if = Some [null; boolean true; block (bs "a")].
Proof.
  intros. split; [reflexivity|]. split; [|reflexivity].
  intros t Ht. cbn [tests exact_if if_stmt] in Ht.
  assert (E : forall t, In t [bin T_OR null (boolean true); null] -> evaluable ns sn env pf ff sp t).
  { intros t' [<-|[<-|[]]]; (split; [|split; [|split; [|split]]]); vm_compute; try reflexivity; discriminate. }
  destruct Ht as [<-|[]]; (split; [apply E; cbn; tauto|]; split; [reflexivity|]; intros d [<-|[]]; apply E; cbn; tauto).
Qed.
Example operands_witness : forall ns sn env pf ff sp,
  evaluable ns sn env pf ff sp null
  /\ select_true pf ff sp (jvars env) (cond null (str (bs "a")) (str (bs "b"))) = Some [str (bs "b")].
Proof. intros. split; [|reflexivity]. split; [|split; [|split; [|split]]]; vm_compute; try reflexivity; discriminate. Qed.

(** C46, full statement refuted: [if (true) "a" else if (true) "b"] selects a branch that never runs, and the right
    operand of an addition is selected twice. *)
Theorem C46_exact_refuted : forall ns sn env pf ff sp,
  let n := if_stmt (boolean true) (block (bs "a")) (Some (if_stmt (boolean true) (block (bs "b")) None)) in
  taken ns sn env n = Some (block (bs "a"))
  /\ select_true pf ff sp (jvars env) n = Some [block (bs "a"); block (bs "b")]
  /\ select_true pf ff sp (jvars env) (bin T_ADD (str (bs "a")) (str (bs "b"))) = Some [str (bs "a"); str (bs "b"); str (bs "b")].
Proof. intros. vm_compute. repeat split; reflexivity. Qed.
Print Assumptions C46_exact_refuted.
