(** C30: break and continue. *)
From Verif Require Import Base SymtabModel SymtabProofs LabelModel LabelSpec LabelProofs.

(** In an accepted program every jump with a label names a label of a statement around it in its function, and every
    continue without label is inside a loop of its function and continues the innermost one. *)
Theorem C30_targets : forall prog ts, l_prog prog = inr ts ->
  Forall2 (fun j t =>
    match j with
    | (JBreak (Some n), around) | (JCont (Some n), around) => exists id, t = Some id /\ In (E_label n id) around
    | (JCont None, around) => in_loop around /\ t = innermost_loop around
    | (JBreak None, _) => t = None
    end) (jumps_of prog) ts.
Proof.
  intros l ts H. unfold l_prog in H. pose proof (prog_good l) as P.
  destruct (l_seq l [] [mk_ls SPK_GLOBAL []]) as [e|[fs a]]; [discriminate|]. injection H as ->. destruct P as [_ P].
  induction P as [|[[[n|]|[n|]] a] t js ts S P IH]; constructor; try exact IH; simpl in S |- *; tauto.
Qed.
Print Assumptions C30_targets.

(** A break without label is inside a loop or a switch of its function.  Missing: breaks inside a try block, see
    below. *)
Theorem C30_break_partial : forall prog ts, l_prog prog = inr ts ->
  forall around, In (JBreak None, around) (jumps_of prog) -> ~ in_try around -> in_loop around \/ in_switch around.
Proof.
  intros l ts H around Hj Ht. unfold l_prog in H. pose proof (prog_good l) as P.
  destruct (l_seq l [] [mk_ls SPK_GLOBAL []]) as [e|[fs a]]; [discriminate|]. destruct P as [_ P]. clear H.
  induction P as [|j t js ts' S P IH]; [destruct Hj|]. destruct Hj as [->|Hj]; [|auto].
  destruct S as [_ S]. tauto.
Qed.
Print Assumptions C30_break_partial.

(** [try { { break } } catch {}] outside of loops is accepted. *)
Theorem C30_break_refuted : exists prog ts around, l_prog prog = inr ts /\ In (JBreak None, around) (jumps_of prog)
  /\ ~ in_loop around /\ ~ in_switch around.
Proof.
  exists [STry [SBlock [SBreak None]] (Some []) None], [None], [E_try].
  split; [reflexivity|]. split; [left; reflexivity|].
  split; [intros [x [H|[]]]; discriminate|intros [H|[]]; discriminate].
Qed.
Print Assumptions C30_break_refuted.

(** The labels before a statement differ. *)
Theorem C30_chain : forall prog ts, l_prog prog = inr ts ->
  forall s, In s (flat_map subs prog) -> NoDup (chain s).
Proof.
  intros l ts H s Hs. unfold l_prog in H. destruct (l_seq l [] [mk_ls SPK_GLOBAL []]) as [e|r] eqn:E; [discriminate|].
  assert (F : Forall spreads l) by (apply Forall_forall; intros x _; apply stm_spreads).
  destruct (seq_spreads l F [] _ [] r inv_start E s Hs) as (loops & fs & around & r' & V & E').
  exact (proj1 (chain_ok s loops fs r' (v_some _ _ _ V) E')).
Qed.
Print Assumptions C30_chain.

(** A jump without label is rejected only outside of loops (and switches); checking never panics. *)
Theorem C30_rejected : forall prog e, l_prog prog = inl e ->
  match e with
  | LBreak => exists around, In (JBreak None, around) (jumps_of prog) /\ ~ in_loop around /\ ~ in_switch around
  | LCont => exists around, In (JCont None, around) (jumps_of prog) /\ ~ in_loop around
  | LPanic => False
  | LDup _ | LUndef _ => True
  end.
Proof.
  intros l e H. unfold l_prog in H. pose proof (prog_good l) as P.
  destruct (l_seq l [] [mk_ls SPK_GLOBAL []]) as [x|[fs a]]; [|discriminate]. injection H as ->. exact P.
Qed.
Print Assumptions C30_rejected.

(** A program that keeps the rules is accepted and every jump is given the right statement.  Missing: programs with a
    labelled statement as first branch of an if with else, see below. *)
Theorem C30_accepted_partial : forall prog,
  (forall s, In s (flat_map subs prog) -> calm s) ->
  Forall allowed (jumps_of prog) -> Forall (fun s => distinct s []) prog ->
  l_prog prog = inr (map goal (jumps_of prog)).
Proof.
  intros l C A D. unfold l_prog.
  assert (F : Forall comp l) by (apply Forall_forall; intros x _; apply stm_comp).
  assert (D' : fold_right (fun s P => distinct s (names []) /\ P) True l).
  { clear - D. induction D as [|s l H D IH]; simpl; auto. }
  destruct (comp_seq l F C [] [mk_ls SPK_GLOBAL []] [] inv_start (fun n => eq_refl) (fun n => eq_refl) A D') as [fs [E _]].
  rewrite E. reflexivity.
Qed.
Print Assumptions C30_accepted_partial.

(** [a: for (;;) { b: while (x) { if (y) continue a; switch (z) { case 1: break; default: continue } break b } }]. *)
Definition prog1 : list stm :=
  [SLabel 1 (bs "a") (SLoop 2 (SBlock [SLabel 3 (bs "b") (SLoop 4 (SBlock
     [SIf (SCont (Some (bs "a"))) None; SSwitch [[SBreak None]; [SCont None]]; SBreak (Some (bs "b"))]))]))].
Example accepted_ex :
  (forall s, In s (flat_map subs prog1) -> calm s) /\ Forall allowed (jumps_of prog1)
  /\ Forall (fun s => distinct s []) prog1 /\ l_prog prog1 = inr [Some 1; None; Some 4; Some 3].
Proof.
  split; [|split; [|split; [|reflexivity]]].
  - simpl. intros s H. repeat (destruct H as [<-|H]; [exact I|]). destruct H.
  - unfold jumps_of, prog1. simpl.
    apply Forall_cons; [simpl; discriminate|]. apply Forall_cons; [left; exists 4; right; left; reflexivity|].
    apply Forall_cons; [exists 4; right; left; reflexivity|]. apply Forall_cons; [simpl; discriminate|]. constructor.
  - constructor; [|constructor]. simpl. repeat split; try tauto. intros [H|[]]. discriminate.
Qed.

(** [a: if (x) b: y; else break a;] keeps the rules and is rejected. *)
Theorem C30_accepted_refuted : exists prog e,
  Forall allowed (jumps_of prog) /\ Forall (fun s => distinct s []) prog /\ l_prog prog = inl e.
Proof.
  exists [SLabel 1 (bs "a") (SIf (SLabel 2 (bs "b") SOther) (Some (SBreak (Some (bs "a")))))], (LUndef (bs "a")).
  split; [|split; [|reflexivity]].
  - apply Forall_cons; [simpl; discriminate|constructor].
  - constructor; [|constructor]. simpl. repeat split; try tauto. intros [H|[]]. discriminate.
Qed.
Print Assumptions C30_accepted_refuted.
(** [a: { b: ; a: ; }] breaks the rules and is accepted. *)
Theorem C30_distinct_refuted : exists prog ts, l_prog prog = inr ts /\ ~ Forall (fun s => distinct s []) prog.
Proof.
  exists [SLabel 1 (bs "a") (SBlock [SLabel 2 (bs "b") SOther; SLabel 3 (bs "a") SOther])], [].
  split; [reflexivity|]. intros F. inversion F as [|? ? D _]; subst. simpl in D. tauto.
Qed.
Print Assumptions C30_distinct_refuted.
(** [a: { b: ; a: if (x) c: ; else break a; }]: the jump goes to the outer statement. *)
Theorem C30_goal_refuted : exists prog ts, l_prog prog = inr ts /\ ts <> map goal (jumps_of prog).
Proof.
  exists [SLabel 1 (bs "a") (SBlock [SLabel 2 (bs "b") SOther;
     SLabel 3 (bs "a") (SIf (SLabel 4 (bs "c") SOther) (Some (SBreak (Some (bs "a")))))])], [Some 1].
  split; [reflexivity|]. discriminate.
Qed.
Print Assumptions C30_goal_refuted.
