(** C51: parsing ends, and its calls nest in proportion to the number of tokens. *)
From Coq Require Import Lia ZifyBool ZifyNat ZifyN.
From Verif Require Import Base TokenModel LexModel ParseBase BinModel SymtabModel EarlyModel ExprModel ExprFuel ExprProps StmtModel StmtFuel StmtProps.

(** What is not modelled ends too, and what it reads has a token. *)
Definition ends {A} (s : pst) (x : pres A) : Prop :=
  match x with POk _ s' => length (p_toks s') < length (p_toks s) | PFuel => False | _ => True end.
Definition settles (f : N -> pst -> option (pres rng)) : Prop := forall k s x, f k s = Some x -> ends s x.
Definition block_settles (f : N -> pst -> pres rng) : Prop := forall k s, ends s (f k s).

Section Claims.
Variables (feat : N) (text : token -> bytes) (chk : pst -> bool).
Variables (other method : N -> pst -> option (pres rng)) (block : N -> pst -> pres rng)
  (params_ok : N -> list expr -> pst -> bool).
Variables (decl : N -> pst -> option (pres rng)) (names_ok : N -> list expr -> pst -> bool)
  (jump_ok : N -> stmt -> pst -> bool) (use_strict : token -> bool).
Hypotheses (other_ok : settles other) (method_ok : settles method) (block_ok : block_settles block) (decl_ok : settles decl).
(** [depth]: how deep the calls may nest, a turn of a loop counted as a call. *)
Notation expression depth := (seq feat text chk other method block params_ok depth).
Notation assignment depth := (fun k => assign feat text chk other method block params_ok depth k true).
Notation parse depth := (program feat text chk (expression depth) (assignment depth) decl names_ok jump_ok use_strict depth).

Local Lemma totals : forall n top, total (calls_at feat text chk other method block params_ok n) n top.
Proof using other_ok method_ok block_ok.
  intros n top. apply calls_total; intros k s; [intros x _ E; exact (other_ok k s x E)|intros x _ E; exact (method_ok k s x E)|intros _; exact (block_ok k s)].
Qed.
Local Lemma grows : forall n m, n <= m -> cle (calls_at feat text chk other method block params_ok n) (calls_at feat text chk other method block params_ok m).
Proof using. intros n m. apply calls_le; intros; right; reflexivity. Qed.
Local Lemma settled : forall A (f : nat -> pres A) b, (forall n m, n <= m -> ple (f n) (f m)) -> f b <> PFuel -> forall n, b <= n -> f n = f b /\ f n <> PFuel.
Proof using. intros A f b L E n H. destruct (L _ _ H) as [Z|Z]; [contradiction|]. rewrite <- Z. auto. Qed.

Theorem C51_expression : forall k s depth, 16 * length (p_toks s) + 14 <= depth ->
  expression depth k s = expression (16 * length (p_toks s) + 14) k s /\ expression depth k s <> PFuel.
Proof using other_ok method_ok block_ok.
  intros k s depth H. apply (settled _ (fun n => expression n k s)); [intros n m L; exact (l_seq _ _ (grows n m L) k s)| |exact H].
  intros E. pose proof (o_seq _ _ _ (totals (16 * length (p_toks s) + 14) (S (len s))) k s (Nat.lt_succ_diag_r _)) as T.
  unfold ExprFuel.len, room in T. specialize (T (proj1 (Nat.add_lt_mono_l 13 14 _) (Nat.lt_succ_diag_r 13))).
  change (c_seq (calls_at feat text chk other method block params_ok (16 * length (p_toks s) + 14)) k s) with (expression (16 * length (p_toks s) + 14) k s) in T.
  rewrite E in T. exact T.
Qed.
Theorem C51_program : forall k s depth, 16 * length (p_toks s) + 14 <= depth ->
  parse depth k s = parse (16 * length (p_toks s) + 14) k s /\ parse depth k s <> PFuel.
Proof using other_ok method_ok block_ok decl_ok.
  intros k s depth H. apply (settled _ (fun n => parse n k s)); [| |exact H].
  - intros n m L. apply program_le; [| | |exact L].
    + intros k' s'. exact (l_seq _ _ (grows n m L) k' s').
    + intros k' s'. exact (l_assign _ _ (grows n m L) k' true s').
    + intros. right. reflexivity.
  - apply program_total with (top := S (len s)).
    + intros k' s' L. apply (o_seq _ _ _ (totals (16 * length (p_toks s) + 14) (S (len s))) k' s' L). unfold room, ExprFuel.len in *. lia.
    + intros k' s' L. apply (o_assign _ _ _ (totals (16 * length (p_toks s) + 14) (S (len s))) k' true s' L). unfold room, ExprFuel.len in *. lia.
    + intros k' s' x _ E. exact (decl_ok k' s' x E).
    + apply Nat.lt_succ_diag_r.
    + unfold ExprFuel.len. lia.
Qed.
End Claims.
Print Assumptions C51_expression.
Print Assumptions C51_program.

(** A real case: what stands for the parts not modelled in the examples does end, a nested expression is read with
    this depth, and not with a constant one. *)
Example parts_settle : settles no_parts /\ block_settles empty_block.
Proof.
  split; [intros k s x H; discriminate H|]. intros k [[|a [|b l]] p q]; cbn; lia || exact I.
Qed.
Definition nested (n : nat) : pst := src (repeat (y T_PAREN_L) n ++ [w (bs "a")] ++ repeat (y T_PAREN_R) n).
Example nested_reads : match seq feats t_text (fun _ => true) no_parts no_parts empty_block (fun _ _ _ => true) (16 * 21 + 14) 0 (nested 10) with POk _ _ => True | _ => False end /\
  seq feats t_text (fun _ => true) no_parts no_parts empty_block (fun _ _ _ => true) 60 0 (nested 10) = PFuel.
Proof. vm_compute. auto. Qed.
