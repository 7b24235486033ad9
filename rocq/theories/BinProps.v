(** Theorems about binary expressions: C28.  They hold for every operand parser, and so for the expressions of
    ExprModel. *)
From Coq Require Import Lia.
From Verif Require Import Base TokenModel LexModel ParseBase BinModel BinSpec BinProofs.

(** The in-order reading of an accepted tree is the chain of operands and operators in the input, up to the first
    token that is no operator; the chain breaks no rule. *)
Theorem C28_reads : forall A unary typ is_unary is_arrow feat ts not_in not_gt fuel s (t : btree A) s',
  bin_expr unary typ is_unary is_arrow feat ts not_in not_gt fuel None s = POk t s' ->
  (exists s0, unary s = POk (first t) s0 /\ chain unary typ ts not_in not_gt s0 (following t) s')
  /\ ~ mixed (following t) /\ ~ unary_base is_unary (first t) (following t).
Proof.
  intros A unary typ iu ia feat ts ni ng fuel s t s' E.
  destruct (bin_expr_ok _ _ _ _ _ _ _ _ _ _ _ _ E) as (s0 & U & S & N & _ & M & B & _).
  split; [exists s0; split; [exact U|apply seg_chain; assumption]|]. split; assumption.
Qed.
Print Assumptions C28_reads.

(** Every chain that breaks no rule is accepted to its end, given fuel, and read as it is. *)
Theorem C28_accepts : forall A unary typ is_unary is_arrow feat ts not_in not_gt fuel s (a : A) s0 l s',
  unary s = POk a s0 -> chain unary typ ts not_in not_gt s0 l s' ->
  ~ mixed l -> ~ unary_base is_unary a l -> (In T_POW (map fst l) -> has feat FEAT_POW = true) ->
  Forall (fun x => is_arrow (snd x) = false) l -> 2 * length l + 4 <= fuel ->
  exists t, bin_expr unary typ is_unary is_arrow feat ts not_in not_gt fuel None s = POk t s'
    /\ first t = a /\ following t = l.
Proof.
  intros A unary typ iu ia feat ts ni ng fuel s a s0 l s' U C M B P Ar L.
  apply chain_seg in C. destruct C as [S N].
  assert (T : tailok iu l) by exact (unary_suffix iu [] l a B).
  destruct (loop_total unary typ iu ia feat ts ni ng (length l) fuel (Leaf a) 0 false false s0 l s') as
    [(X & Y)|(t & l1 & l2 & s1 & X & E & S1 & S2 & Hd)]; [lia|exact L|exact S|exact N| |].
  - exfalso. apply Y. split; [split; [exact M|split; discriminate]|]. split; [exact B|]. split; [exact T|]. split; [exact P|exact Ar].
  - destruct l2 as [|[q b] l2]; [|cbn in Hd; lia]. inversion S2; subst s'.
    rewrite (seg_end_peeked _ _ _ _ _ _ _ _ S1) in *. rewrite loop_min in X.
    assert (E2 : bin_expr unary typ iu ia feat ts ni ng fuel None s = POk t s1) by (unfold bin_expr; rewrite U; exact X).
    exists t. split; [exact E2|].
    destruct (bin_expr_ok _ _ _ _ _ _ _ _ _ _ _ _ E2) as (s0' & U' & S' & N' & _). rewrite U in U'. inversion U'; subst.
    split; [reflexivity|]. symmetry. apply (proj1 (seg_det _ _ _ _ _ _ _ _ S' N' _ _ S N)).
Qed.
Print Assumptions C28_accepts.

(** A chain that breaks a rule is rejected. *)
Theorem C28_rejects : forall A unary typ is_unary is_arrow feat ts not_in not_gt fuel s (a : A) s0 l s',
  unary s = POk a s0 -> chain unary typ ts not_in not_gt s0 l s' ->
  mixed l \/ unary_base is_unary a l \/ (In T_POW (map fst l) /\ has feat FEAT_POW = false) -> 2 * length l + 4 <= fuel ->
  bin_expr unary typ is_unary is_arrow feat ts not_in not_gt fuel None s = PErr.
Proof.
  intros A unary typ iu ia feat ts ni ng fuel s a s0 l s' U C Bad L.
  apply chain_seg in C. destruct C as [S N].
  destruct (loop_total unary typ iu ia feat ts ni ng (length l) fuel (Leaf a) 0 false false s0 l s') as
    [(X & Y)|(t & l1 & l2 & s1 & X & E & S1 & S2 & Hd)]; [lia|exact L|exact S|exact N| |].
  - unfold bin_expr. rewrite U. cbn [pbind]. rewrite <- loop_min. exact X.
  - exfalso. rewrite loop_min in X.
    assert (E2 : bin_expr unary typ iu ia feat ts ni ng fuel None s = POk t s1) by (unfold bin_expr; rewrite U; exact X).
    destruct (bin_expr_ok _ _ _ _ _ _ _ _ _ _ _ _ E2) as (s0' & U' & S' & N' & _ & M & B & P). rewrite U in U'.
    injection U' as Ha Hs. rewrite <- Hs in S'. rewrite <- Ha in B. destruct (seg_det _ _ _ _ _ _ _ _ S' N' _ _ S N) as [Hl _]. rewrite <- Hl in *.
    destruct Bad as [Bad|[Bad|[Bad F]]]; [contradiction..|]. apply P in Bad. congruence.
Qed.
Print Assumptions C28_rejects.

(** The full claim about grouping. *)
Definition groups_by_grammar : Prop := forall A unary typ is_unary is_arrow feat ts not_in not_gt fuel s (t : btree A) s',
  bin_expr unary typ is_unary is_arrow feat ts not_in not_gt fuel None s = POk t s' -> derives 0 t.

(** An accepted tree is that of the grammar exactly when the chain has no dent. *)
Theorem C28_grouping_partial : forall A unary typ is_unary is_arrow feat ts not_in not_gt fuel s (t : btree A) s',
  bin_expr unary typ is_unary is_arrow feat ts not_in not_gt fuel None s = POk t s' ->
  (derives 0 t <-> ~ dented (map fst (following t))).
Proof.
  intros A unary typ iu ia feat ts ni ng fuel s t s' E.
  destruct (bin_expr_ok _ _ _ _ _ _ _ _ _ _ _ _ E) as (s0 & _ & _ & _ & K & _). split.
  - intro D. exact (climb_dented _ _ _ _ _ _ K 0 D).
  - intro D. apply (climb_derives _ _ _ _ _ _ K); [constructor|exact I|exact I|exact D].
Qed.
Print Assumptions C28_grouping_partial.

(** The grammar gives a chain one tree at most. *)
Theorem C28_unique : forall A (t1 t2 : btree A), derives 0 t1 -> derives 0 t2 ->
  first t1 = first t2 -> following t1 = following t2 -> shape t1 = shape t2.
Proof. intros A t1 t2 D1 D2. exact (derives_unique _ _ _ 0 0 D1 D2). Qed.
Print Assumptions C28_unique.

(** Names as operands. *)
Definition word (n : bytes) : token := mk_tok T_NAME 0 0 n (0, 0) 0 false XNone.
Definition sym (v : tv) : token := mk_tok v 0 0 [] (0, 0) 0 false XNone.
Definition name_operand (s : pst) : pres bytes :=
  if tv_eqb (pval s) T_NAME then POk (t_text (peek s)) (next s) else PErr.
Definition parse_names (l : list token) : pres (btree bytes) :=
  bin_expr name_operand name_operand (fun _ => false) (fun _ => false) FEAT_POW false false false 40 None (mk_pst l false None).

(** [a || b * c + d] becomes [(a || b * c) + d]. *)
Theorem C28_grouping_refuted : ~ groups_by_grammar.
Proof.
  intro H.
  destruct (parse_names [word (bs "a"); sym T_OR; word (bs "b"); sym T_MUL; word (bs "c"); sym T_ADD; word (bs "d")]) as [t s'| | | ] eqn:E.
  - assert (Es : shape t = Bin T_ADD (0, 0) 0 (Bin T_OR (0, 0) 0 (Leaf (bs "a"))
                     (Bin T_MUL (0, 0) 0 (Leaf (bs "b")) (Leaf (bs "c")))) (Leaf (bs "d"))).
    { vm_compute in E. inversion E; subst t. reflexivity. }
    unfold parse_names in E. apply H in E. destruct t as [|op o h l r]; [discriminate Es|]. cbn in Es. inversion Es; subst op.
    inversion E as [|? ? ? ? ? ? ? La _ Dl _|? ? ? ? ? ? ? La _ Dl _]; subst; apply at_level_inv in La; destruct La as [-> _].
    + apply derives_root in Dl. destruct l as [|op2 o2 h2 l2 r2]; [discriminate|]. cbn in H2. inversion H2; subst op2.
      cbn in Dl. vm_compute in Dl. lia.
    + apply derives_root in Dl. destruct l as [|op2 o2 h2 l2 r2]; [discriminate|]. cbn in H2. inversion H2; subst op2.
      cbn in Dl. vm_compute in Dl. lia.
  - vm_compute in E. discriminate E.
  - vm_compute in E. discriminate E.
  - vm_compute in E. discriminate E.
Qed.
Print Assumptions C28_grouping_refuted.

(** [a + b * c ** d * e - f < g], a chain without a dent, and [a ?? b || c]. *)
Example C28_example :
  let toks := [word (bs "a"); sym T_ADD; word (bs "b"); sym T_MUL; word (bs "c"); sym T_POW; word (bs "d"); sym T_MUL;
               word (bs "e"); sym T_SUB; word (bs "f"); sym T_LT; word (bs "g"); sym T_SEMI] in
  (exists t s', parse_names toks = POk t s' /\ p_toks s' = [sym T_SEMI]
    /\ shape t = let b op l r := Bin op (0, 0) 0 l r in
        b T_LT (b T_SUB (b T_ADD (Leaf (bs "a")) (b T_MUL (b T_MUL (Leaf (bs "b")) (b T_POW (Leaf (bs "c")) (Leaf (bs "d")))) (Leaf (bs "e")))) (Leaf (bs "f"))) (Leaf (bs "g")))
  /\ ~ dented [T_ADD; T_MUL; T_POW; T_MUL; T_SUB; T_LT]
  /\ dented [T_OR; T_MUL; T_ADD]
  /\ parse_names [word (bs "a"); sym T_NULLISH; word (bs "b"); sym T_OR; word (bs "c")] = PErr.
Proof.
  cbn zeta. split; [eexists _, _; split; [vm_compute; reflexivity|split; reflexivity]|]. split; [|split; [|vm_compute; reflexivity]].
  - intros (pre & a & b & mid & c & post & E & R & _).
    do 7 (destruct pre as [|? pre]; cbn in E; [inversion E; subst; clear E;
      repeat (match goal with H : _ = ?m ++ _ :: _ |- _ => destruct m as [|? m]; cbn in H; inversion H; subst; clear H end);
      vm_compute in R; lia|inversion E; subst; clear E; match goal with H : _ = pre ++ _ |- _ => rename H into E end]).
  - exists [], T_OR, T_MUL, [], T_ADD, []. split; [reflexivity|]. split; [vm_compute; lia|constructor].
Qed.
