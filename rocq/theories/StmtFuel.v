(** Fuel: with more of it the parser of statements gives the same result, and in proportion to the tokens it suffices. *)
From Coq Require Import Lia ZifyBool ZifyNat ZifyN.
From Verif Require Import Base TokenModel LexModel ParseBase BinModel SymtabModel EarlyModel ExprModel ExprFuel StmtModel.

Lemma bind_rest_S : forall feat text asg fuel nested k s, bind_rest feat text asg (S fuel) nested k s =
  (let s1 := peeked (next s) in
      if negb (has feat FEAT_BINDING_REST_ELEM) then PErr
      else if negb (at_tok T_NAME s1) && (negb nested || negb (at_tok T_BRACKET_L s1) && negb (at_tok T_BRACE_L s1)) then PErr
      else
        pbind (bind feat text asg fuel false k s1) (fun b s2 =>
        if at_tok T_COMMA s2 then PErr else POk (PRest (fin (here s) s2) b) (peeked s2))).
Proof. reflexivity. Qed.

(** ** More fuel *)
Section Mono.
Variables (feat : N) (text : token -> bytes) (chk : pst -> bool).
Variables (ex ex' asg asg' : N -> pst -> pres expr).
Variables (decl decl' : N -> pst -> option (pres rng)) (names_ok : N -> list expr -> pst -> bool)
  (jump_ok : N -> stmt -> pst -> bool) (use_strict : token -> bool).
Hypotheses (ex_le : forall k s, ple (ex k s) (ex' k s)) (asg_le : forall k s, ple (asg k s) (asg' k s)) (decl_le : forall k s, ole (decl k s) (decl' k s)).

Ltac mono tac := cbv zeta; match goal with
  | |- ple ?x ?x => apply ple_refl
  | |- ple (pbind _ _) (pbind _ _) => apply ple_bind; [mono tac|intros; mono tac]
  | |- ple (alift _ _) (alift _ _) => apply ple_lift; intros; mono tac
  | |- ple (match ?x with _ => _ end) (match ?x with _ => _ end) => destruct x; mono tac
  | |- ple (ex _ _) _ => apply ex_le
  | |- ple (asg _ _) _ => apply asg_le
  | |- ple _ _ => tac
  end.
Ltac none := fail.
Lemma prop_name_le : forall k s, ple (prop_name text asg k s) (prop_name text asg' k s).
Proof. intros. unfold prop_name. mono none. Qed.
Lemma default_le : forall k b s, ple (pattern_default text asg k b s) (pattern_default text asg' k b s).
Proof. intros. unfold pattern_default. mono none. Qed.
Lemma bind_le : forall n m, n <= m ->
  (forall e k s, ple (bind feat text asg n e k s) (bind feat text asg' m e k s)) /\
  (forall e k s, ple (bind_rest feat text asg n e k s) (bind_rest feat text asg' m e k s)) /\
  (forall k l acc s, ple (bind_obj feat text asg n k l acc s) (bind_obj feat text asg' m k l acc s)) /\
  (forall k s, ple (bind_prop feat text asg n k s) (bind_prop feat text asg' m k s)) /\
  (forall k l acc s, ple (bind_arr feat text asg n k l acc s) (bind_arr feat text asg' m k l acc s)).
Proof.
  induction n as [|n IH]; intros m Le; [repeat split; intros; left; reflexivity|]. destruct m as [|m]; [lia|].
  destruct (IH m ltac:(lia)) as (I1 & I2 & I3 & I4 & I5).
  repeat split; intros; rewrite ?bind_rest_S; cbn [bind bind_obj bind_prop bind_arr];
    mono ltac:(first [apply I1|apply I2|apply I3|apply I4|apply I5|apply default_le|apply prop_name_le]).
Qed.
Lemma bind1_le : forall n m, n <= m -> forall e k s, ple (bind feat text asg n e k s) (bind feat text asg' m e k s).
Proof. intros n m Le. exact (proj1 (bind_le n m Le)). Qed.
Lemma var_dec_le : forall n m, n <= m -> forall l k s, ple (var_dec feat text asg n l k s) (var_dec feat text asg' m l k s).
Proof. intros n m Le l k s. unfold var_dec. mono ltac:(apply bind1_le; exact Le). Qed.
Lemma var_decs_le : forall n m, n <= m -> forall kind k acc s, ple (var_decs feat text asg n kind k acc s) (var_decs feat text asg' m kind k acc s).
Proof.
  induction n as [|n IH]; intros m Le; [left; reflexivity|]. destruct m as [|m]; [lia|]. intros. cbn [var_decs].
  mono ltac:(first [apply var_dec_le; lia|apply IH; lia]).
Qed.
Lemma var_stmt_le : forall n m, n <= m -> forall kind e k s, ple (var_stmt feat text asg names_ok n kind e k s) (var_stmt feat text asg' names_ok m kind e k s).
Proof. intros n m Le kind e k s. unfold var_stmt. mono ltac:(apply var_decs_le; exact Le). Qed.
Lemma expr_stmt_le : forall k s, ple (expr_stmt ex k s) (expr_stmt ex' k s).
Proof. intros. unfold expr_stmt. mono none. Qed.
Lemma head_expr_le : forall k s, ple (head_expr ex k s) (head_expr ex' k s).
Proof. intros. unfold head_expr. mono none. Qed.
Lemma throw_le : forall k s, ple (throw_stmt ex k s) (throw_stmt ex' k s).
Proof. intros. unfold throw_stmt. mono none. Qed.
Lemma ret_le : forall k s, ple (ret_stmt ex k s) (ret_stmt ex' k s).
Proof. intros. unfold ret_stmt. mono none. Qed.
Lemma opt_expr_le : forall v k s, ple (opt_expr ex v k s) (opt_expr ex' v k s).
Proof. intros. unfold opt_expr. mono none. Qed.

Section Rec.
Variables (rec rec' : N -> pst -> pres stmt).
Hypothesis rec_le : forall k s, ple (rec k s) (rec' k s).
Ltac base := first [apply rec_le|apply head_expr_le|apply opt_expr_le|apply throw_le|apply ret_le|apply expr_stmt_le|apply var_stmt_le; lia].
Lemma stmt_list_le : forall n m, n <= m -> forall v k p acc s, ple (stmt_list use_strict rec n v k p acc s) (stmt_list use_strict rec' m v k p acc s).
Proof.
  induction n as [|n IH]; intros m Le; [left; reflexivity|]. destruct m as [|m]; [lia|]. intros. cbn [stmt_list].
  mono ltac:(first [base|apply IH; lia]).
Qed.
Lemma block_stmt_le : forall n m, n <= m -> forall k s, ple (block_stmt use_strict rec n k s) (block_stmt use_strict rec' m k s).
Proof. intros n m Le k s. unfold block_stmt. mono ltac:(apply stmt_list_le; exact Le). Qed.
Lemma case_body_le : forall n m, n <= m -> forall k acc s, ple (case_body rec n k acc s) (case_body rec' m k acc s).
Proof.
  induction n as [|n IH]; intros m Le; [left; reflexivity|]. destruct m as [|m]; [lia|]. intros. cbn [case_body].
  mono ltac:(first [base|apply IH; lia]).
Qed.
Lemma cases_le : forall n m, n <= m -> forall k b acc s, ple (cases ex rec n k b acc s) (cases ex' rec' m k b acc s).
Proof.
  induction n as [|n IH]; intros m Le; [left; reflexivity|]. destruct m as [|m]; [lia|]. intros. cbn [cases].
  mono ltac:(first [base|apply case_body_le; lia|apply IH; lia]).
Qed.
Lemma catch_le : forall n m, n <= m -> forall k s, ple (catch_clause feat text asg names_ok use_strict rec n k s) (catch_clause feat text asg' names_ok use_strict rec' m k s).
Proof. intros n m Le k s. unfold catch_clause. mono ltac:(first [apply bind1_le; lia|apply block_stmt_le; lia]). Qed.
Lemma stmt_b_le : forall n m, n <= m -> forall k s,
  ple (stmt_b feat text chk ex asg decl names_ok jump_ok use_strict rec n k s) (stmt_b feat text chk ex' asg' decl' names_ok jump_ok use_strict rec' m k s).
Proof.
  intros n m Le k s. unfold stmt_b. cbv zeta.
  assert (D : forall z z' : pres stmt, ple z z' -> ple (match decl k (peeked s) with Some x => pbind x (fun r s' => POk (SDecl r) s') | None => z end)
    (match decl' k (peeked s) with Some x => pbind x (fun r s' => POk (SDecl r) s') | None => z' end)).
  { intros z z' Z. destruct (decl_le k (peeked s)) as [->| ->]; [left; reflexivity|]. destruct (decl' k (peeked s)); [apply ple_refl|exact Z]. }
  apply D.
  mono ltac:(first [base|apply block_stmt_le; lia|unfold if_stmt; mono base|unfold while_stmt; mono base|unfold with_stmt; mono base|unfold do_stmt; mono base
    |unfold label_stmt; mono base|unfold switch_stmt; mono ltac:(first [base|apply cases_le; lia])
    |unfold try_stmt; mono ltac:(first [apply block_stmt_le; lia|apply catch_le; lia])|unfold for_stmt; mono base]).
Qed.
End Rec.
Lemma stmt_at_le : forall n m, n <= m -> forall k s,
  ple (stmt_at feat text chk ex asg decl names_ok jump_ok use_strict n k s) (stmt_at feat text chk ex' asg' decl' names_ok jump_ok use_strict m k s).
Proof.
  induction n as [|n IH]; intros m Le; [left; reflexivity|]. destruct m as [|m]; [lia|]. intros. cbn [stmt_at].
  apply stmt_b_le; [intros; apply IH; lia|lia].
Qed.
Theorem program_le : forall n m, n <= m -> forall k s,
  ple (program feat text chk ex asg decl names_ok jump_ok use_strict n k s) (program feat text chk ex' asg' decl' names_ok jump_ok use_strict m k s).
Proof.
  intros n m Le k s. unfold program. apply ple_bind; [|intros; apply ple_refl]. apply stmt_list_le; [|exact Le]. intros. apply stmt_at_le. exact Le.
Qed.
End Mono.

(** ** Enough fuel *)
Lemma bind_bind : forall A B D (x : pres A) (f : A -> pst -> pres B) (g : B -> pst -> pres D), pbind (pbind x f) g = pbind x (fun a s => pbind (f a s) g).
Proof. intros A B D [a s| | | ] f g; reflexivity. Qed.
Lemma alift_bind : forall A B D (x : ares A) (f : A -> pres B) (g : B -> pst -> pres D), pbind (alift x f) g = alift x (fun a => pbind (f a) g).
Proof. intros A B D [a| | ] f g; reflexivity. Qed.
Ltac facts := repeat match goal with
  | H : _ && _ = true |- _ => apply Bool.andb_true_iff in H; destruct H
  | H : context [at_tok ?v (peeked ?s)] |- _ => change (at_tok v (peeked s)) with (at_tok v s) in H
  | |- context [at_tok ?v (peeked ?s)] => change (at_tok v (peeked s)) with (at_tok v s)
  | H : context [len (peeked ?s)] |- _ => rewrite (len_peeked s) in H
  | |- context [len (peeked ?s)] => rewrite (len_peeked s)
  | H : context [len (next ?s)] |- _ => rewrite (len_next s) in H
  | |- context [len (next ?s)] => rewrite (len_next s)
  end; repeat match goal with
  | H : at_tok ?v ?s = true |- _ => lazymatch goal with K : 0 < len s |- _ => fail | _ => assert (0 < len s) by (apply (at_len v s H); discriminate) end
  end.
(** A test some token passes but not the end of the input. *)
Ltac some H s := lazymatch goal with K : 0 < len s |- _ => fail | _ =>
  assert (0 < len s) by (apply val_len; let E := fresh in intros E; unfold at_tok, pval, can_be_key, is_name, ident_tok in H; rewrite E in H; cbn in H; solve [discriminate H|repeat rewrite ?Bool.andb_false_r in H; discriminate H]) end.
Ltac somes := repeat match goal with
  | H : ?b = true |- _ => match b with context [at_tok _ ?s] => some H s | context [pval ?s] => some H s | context [peek ?s] => some H s end
  | H : t_val (peek ?s) = _ |- _ => lazymatch goal with K : 0 < len s |- _ => fail | _ => assert (0 < len s) by (apply val_len; rewrite H; discriminate) end
  end.
Ltac arith := facts; cbn [fst snd] in *; try assumption; try lia;
  repeat match goal with
  | H : context [if ?b then _ else _] |- _ => destruct b eqn:?
  | |- context [if ?b then _ else _] => destruct b eqn:? end; facts; try lia; somes; try lia.
Ltac more L := eapply fine_more; [apply L|]; arith.
Ltac here L := apply L; arith.
(** [tl] is for the last call, [hd] for one that more follow. *)
Ltac go hd tl := cbv zeta; match goal with
  | |- fine _ (POk _ _) => cbn [fine]; arith
  | |- fine _ PErr => exact Logic.I
  | |- fine _ PPanic => exact Logic.I
  | |- fine _ (pbind (POk _ _) _) => cbn [pbind]; go hd tl
  | |- fine _ (pbind PErr _) => exact Logic.I
  | |- fine _ (pbind PPanic _) => exact Logic.I
  | |- fine _ (pbind (pbind _ _) _) => rewrite bind_bind; go hd tl
  | |- fine _ (pbind (alift _ _) _) => rewrite alift_bind; go hd tl
  | |- fine _ (pbind (must _ _) _) => unfold must; go hd tl
  | |- fine _ (pbind (advance_if_semi _ _) _) => unfold advance_if_semi; go hd tl
  | |- fine _ (pbind (match ?x with _ => _ end) _) => destruct x eqn:?; go hd tl
  | |- fine _ (pbind _ _) => eapply fine_bind; [hd|intros; go hd tl]
  | |- fine _ (alift _ _) => apply fine_lift; intros; go hd tl
  | |- fine _ (match ?x with _ => _ end) => destruct x eqn:?; go hd tl
  | |- fine _ _ => tl
  end.
Section Total.
Variables (feat : N) (text : token -> bytes) (chk : pst -> bool).
Variables (ex asg : N -> pst -> pres expr).
Variables (decl : N -> pst -> option (pres rng)) (names_ok : N -> list expr -> pst -> bool)
  (jump_ok : N -> stmt -> pst -> bool) (use_strict : token -> bool).
Variable top : nat.
Hypotheses (ex_fine : forall k s, len s < top -> fine (len s) (ex k s)) (asg_fine : forall k s, len s < top -> fine (len s) (asg k s))
  (decl_fine : forall k s x, len s < top -> decl k s = Some x -> fine (len s) x).
Ltac e_hd := first [here ex_fine|here asg_fine].
Ltac e_tl := first [more ex_fine|more asg_fine].

Lemma ident_tot : forall k s, fine (len s) (ident text k s).
Proof. intros. unfold ident. go e_hd e_tl. destruct (ident_tok (t_val (peek s))) eqn:E; [|discriminate]. arith. Qed.
Lemma prop_name_tot : forall k s, len s < top -> fine (len s) (prop_name text asg k s).
Proof. intros. unfold prop_name. go e_hd e_tl. Qed.
Lemma default_tot : forall k b s, len s < top -> fine (S (len s)) (pattern_default text asg k b s).
Proof. intros. unfold pattern_default. go e_hd e_tl. Qed.
Lemma bind_tot : forall n,
  (forall e k s, len s < top -> 4 * len s + 2 < n -> fine (len s) (bind feat text asg n e k s)) /\
  (forall e k s, len s < top -> 4 * len s + 1 < n -> 0 < len s -> fine (len s) (bind_rest feat text asg n e k s)) /\
  (forall k l acc s, len s < top -> 4 * len s + 4 < n -> fine (len s) (bind_obj feat text asg n k l acc s)) /\
  (forall k s, len s < top -> 4 * len s + 3 < n -> fine (len s) (bind_prop feat text asg n k s)) /\
  (forall k l acc s, len s < top -> 4 * len s + 4 < n -> fine (len s) (bind_arr feat text asg n k l acc s)).
Proof.
  induction n as [|n IH]; [repeat split; intros; lia|]. destruct IH as (I1 & I2 & I3 & I4 & I5).
  repeat split; intros; rewrite ?bind_rest_S; cbn [bind bind_obj bind_prop bind_arr].
  - go ltac:(first [here I2|here I3|here I5|apply ident_tot|here asg_fine]) ltac:(first [more I2|more default_tot]).
  - go ltac:(here I1) ltac:(here I1).
  - go ltac:(here I4) ltac:(more I3).
  - go ltac:(first [here prop_name_tot|here I1|here default_tot]) ltac:(more I2).
  - destruct (elision (S (length (p_toks s))) s) as [h s0] eqn:E. apply elision_len in E. go ltac:(here I1) ltac:(more I5).
Qed.
Lemma bind1_tot : forall n e k s, len s < top -> 4 * len s + 2 < n -> fine (len s) (bind feat text asg n e k s).
Proof. intros n. exact (proj1 (bind_tot n)). Qed.
Lemma var_dec_tot : forall n l k s, len s < top -> 4 * len s + 2 < n -> fine (len s) (var_dec feat text asg n l k s).
Proof. intros. unfold var_dec. go ltac:(first [here bind1_tot|here asg_fine]) e_tl. Qed.
Lemma var_decs_tot : forall n kind k acc s, len s < top -> 4 * len s + 3 < n -> fine (len s) (var_decs feat text asg n kind k acc s).
Proof. induction n as [|n IH]; intros; [lia|]. cbn [var_decs]. go ltac:(here var_dec_tot) ltac:(more IH). Qed.
Lemma var_stmt_tot : forall n kind e k s, len s < top -> 4 * len s < n -> 0 < len s -> fine (len s) (var_stmt feat text asg names_ok n kind e k s).
Proof. intros. unfold var_stmt. go ltac:(here var_decs_tot) e_tl. Qed.
Lemma expr_stmt_tot : forall k s, len s < top -> fine (len s) (expr_stmt ex k s).
Proof. intros. unfold expr_stmt. go e_hd e_tl. Qed.
Lemma head_expr_tot : forall k s, len s < top -> fine (len s) (head_expr ex k s).
Proof. intros. unfold head_expr. go e_hd e_tl. Qed.
Lemma throw_tot : forall k s, len s < top -> 0 < len s -> fine (len s) (throw_stmt ex k s).
Proof. intros. unfold throw_stmt. go e_hd e_tl. Qed.
Lemma ret_tot : forall k s, len s < top -> 0 < len s -> fine (len s) (ret_stmt ex k s).
Proof. intros. unfold ret_stmt. go e_hd e_tl. Qed.
Lemma opt_expr_tot : forall v k s, len s < top -> fine (S (len s)) (opt_expr ex v k s).
Proof. intros. unfold opt_expr. go e_hd e_tl. Qed.
Lemma jump_tot : forall mk k s, len s < top -> 0 < len s -> fine (len s) (jump_stmt text jump_ok mk k s).
Proof. intros. unfold jump_stmt. go ltac:(apply ident_tot) e_tl. Qed.

Section Rec.
(** The nested statements begin with less than [below] tokens left. *)
Variables (rec : N -> pst -> pres stmt) (below : nat).
Hypothesis rec_fine : forall k s, len s < below -> len s < top -> fine (len s) (rec k s).
Ltac s_hd := first [here rec_fine|here head_expr_tot|here opt_expr_tot|here var_stmt_tot|here ex_fine|here asg_fine|here ident_tot].
Lemma stmt_list_tot : forall n v k p acc s, len s < top -> len s < below -> len s < n -> fine (S (len s)) (stmt_list use_strict rec n v k p acc s).
Proof.
  induction n as [|n IH]; intros; [lia|]. cbn [stmt_list]. go s_hd ltac:(more IH).
Qed.
Lemma block_stmt_tot : forall n k s, len s < top -> len s <= below -> len s <= n -> fine (len s) (block_stmt use_strict rec n k s).
Proof. intros. unfold block_stmt. go ltac:(here stmt_list_tot) e_tl. Qed.
Lemma case_body_tot : forall n k acc s, len s < top -> len s < below -> len s < n -> fine (S (len s)) (case_body rec n k acc s).
Proof. induction n as [|n IH]; intros; [lia|]. cbn [case_body]. go s_hd ltac:(more IH). Qed.
Lemma cases_tot : forall n k b acc s, len s < top -> len s <= below -> len s < n -> fine (len s) (cases ex rec n k b acc s).
Proof. induction n as [|n IH]; intros; [lia|]. cbn [cases]. go ltac:(first [s_hd|here case_body_tot]) ltac:(more IH). Qed.
Lemma catch_tot : forall n k s, len s < top -> len s <= below -> 4 * len s + 2 < n -> 0 < len s -> fine (len s) (catch_clause feat text asg names_ok use_strict rec n k s).
Proof. intros. unfold catch_clause. go ltac:(first [here bind1_tot|here block_stmt_tot]) e_tl. Qed.
Lemma if_tot : forall k s, len s < top -> len s <= below -> 0 < len s -> fine (len s) (if_stmt ex rec k s).
Proof. intros. unfold if_stmt. go s_hd e_tl. Qed.
Lemma while_tot : forall k s, len s < top -> len s <= below -> 0 < len s -> fine (len s) (while_stmt ex rec k s).
Proof. intros. unfold while_stmt. go s_hd e_tl. Qed.
Lemma with_tot : forall k s, len s < top -> len s <= below -> 0 < len s -> fine (len s) (with_stmt ex rec k s).
Proof. intros. unfold with_stmt. go s_hd e_tl. Qed.
Lemma do_tot : forall k s, len s < top -> len s <= below -> 0 < len s -> fine (len s) (do_stmt ex rec k s).
Proof. intros. unfold do_stmt. go s_hd e_tl. Qed.
Lemma label_tot : forall k s, len s < top -> len s <= below -> 0 < len s -> fine (len s) (label_stmt text jump_ok rec k s).
Proof. intros. unfold label_stmt. go s_hd e_tl. Qed.
Lemma switch_tot : forall n k s, len s < top -> len s <= below -> 0 < len s -> len s < n -> fine (len s) (switch_stmt ex rec n k s).
Proof. intros. unfold switch_stmt. go ltac:(first [here head_expr_tot|here cases_tot]) e_tl. Qed.
Lemma try_tot : forall n k s, len s < top -> len s <= below -> 0 < len s -> 4 * len s + 2 < n -> fine (len s) (try_stmt feat text asg names_ok use_strict rec n k s).
Proof. intros. unfold try_stmt. go ltac:(first [here block_stmt_tot|here catch_tot]) e_tl. Qed.
Lemma ahead_len : forall k s v, ahead_var feat k s = Some v -> 0 < len s.
Proof using. intros k s v H. apply val_len. intros E. unfold ahead_var, is_name in H. rewrite E in H. destruct (negb (has feat FEAT_LET_CONST)); cbn in H; discriminate H. Qed.
Ltac var_hd := match goal with H : ahead_var _ _ ?s = Some _ |- _ => pose proof (ahead_len _ _ _ H); here var_stmt_tot end.
Lemma for_tot : forall n k s, len s < top -> len s <= below -> 0 < len s -> 4 * len s + 2 < n -> fine (len s) (for_stmt feat text chk ex asg names_ok rec n k s).
Proof.
  intros n k s A B C D. unfold for_stmt. go ltac:(first [var_hd|here rec_fine|here opt_expr_tot|here ex_fine|here asg_fine]) e_tl.
Qed.
Lemma stmt_b_tot : forall n k s, len s < top -> len s <= below -> 4 * len s + 2 < n ->
  fine (len s) (stmt_b feat text chk ex asg decl names_ok jump_ok use_strict rec n k s).
Proof.
  intros n k s A B C. unfold stmt_b. cbv zeta. destruct (decl k (peeked s)) as [x|] eqn:E.
  - eapply fine_bind; [exact (decl_fine k (peeked s) x A E)|]. intros. cbn [fine]. exact H.
  - go ltac:(idtac) ltac:(
      try match goal with H : ahead_var _ _ ?s = Some _ |- _ => pose proof (ahead_len _ _ _ H) end;
      lazymatch goal with
      | |- fine _ (var_stmt _ _ _ _ _ _ _ _ _) => more var_stmt_tot
      | |- fine _ (if_stmt _ _ _ _) => more if_tot
      | |- fine _ (for_stmt _ _ _ _ _ _ _ _ _ _) => more for_tot
      | |- fine _ (ret_stmt _ _ _) => more ret_tot
      | |- fine _ (while_stmt _ _ _ _) => more while_tot
      | |- fine _ (jump_stmt _ _ _ _ _) => more jump_tot
      | |- fine _ (throw_stmt _ _ _) => more throw_tot
      | |- fine _ (try_stmt _ _ _ _ _ _ _ _ _) => more try_tot
      | |- fine _ (do_stmt _ _ _ _) => more do_tot
      | |- fine _ (switch_stmt _ _ _ _ _) => more switch_tot
      | |- fine _ (debug_stmt _) => unfold debug_stmt; go idtac idtac
      | |- fine _ (empty_stmt _) => unfold empty_stmt; cbn [fine]; arith
      | |- fine _ (with_stmt _ _ _ _) => more with_tot
      | |- fine _ (expr_stmt _ _ _) => more expr_stmt_tot
      | |- fine _ (block_stmt _ _ _ _ _) => more block_stmt_tot
      | |- fine _ (label_stmt _ _ _ _ _) => more label_tot
      end).
    all: facts; lia.
Qed.
End Rec.
Lemma stmt_at_tot : forall n k s, len s < top -> 4 * len s + 3 < n -> fine (len s) (stmt_at feat text chk ex asg decl names_ok jump_ok use_strict n k s).
Proof.
  induction n as [|n IH]; intros k s A B; [lia|]. cbn [stmt_at]. apply stmt_b_tot with (below := len s); [|lia..].
  intros k' s' L T. apply IH; lia.
Qed.
Theorem program_total : forall n k s, len s < top -> 4 * len s + 3 < n -> program feat text chk ex asg decl names_ok jump_ok use_strict n k s <> PFuel.
Proof.
  intros n k s A B H. unfold program in H.
  assert (F : fine (S (len s)) (stmt_list use_strict (stmt_at feat text chk ex asg decl names_ok jump_ok use_strict n) n T_ILLEGAL k (Some 0) [] s)).
  { apply stmt_list_tot with (below := S (len s)); [|lia..]. intros k' s' L T. apply stmt_at_tot; lia. }
  destruct (stmt_list use_strict _ n T_ILLEGAL k (Some 0) [] s); [discriminate H|discriminate H|discriminate H|exact F].
Qed.
End Total.
