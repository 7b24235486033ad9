(** Proofs about binary expressions. *)
From Coq Require Import Lia.
From Verif Require Import Base TokenModel LexModel ParseBase BinModel BinSpec.

Arguments rank : simpl never.

Definition bin_ops : list tv := flat_map snd levels.

Lemma tv_eqb_refl : forall a, tv_eqb a a = true.
Proof. intro a. apply tv_eqb_spec. reflexivity. Qed.

(** The table of the code against the levels of the grammar. *)
Lemma ops_ranked : forallb (fun op => Nat.eqb (tv_pcd op) (6 + rank op) && Bool.eqb (tv_rassoc op) (tv_eqb op T_POW)
  && Nat.leb (rank op) 10 && Bool.eqb (tv_eqb op T_POW) (Nat.eqb (rank op) 10)
  && Bool.eqb (tv_eqb op T_AND) (Nat.eqb (rank op) 1)
  && Bool.eqb (tv_eqb op T_OR || tv_eqb op T_NULLISH) (Nat.eqb (rank op) 0)) bin_ops = true.
Proof. vm_compute. reflexivity. Qed.

Ltac find_in := vm_compute; repeat (first [left; reflexivity|right]).

Lemma bin_in : forall ni ts t op, is_bin ni ts t = Some op -> In op bin_ops.
Proof.
  intros ni ts t op. unfold is_bin.
  destruct (_ && _) eqn:E.
  - intro H. inversion H; subst op. clear H. destruct (t_val t); vm_compute in E; try discriminate E; find_in.
  - destruct (negb ni && is_name t (bs "in") false); [intro H; inversion H; find_in|].
    destruct (ts && is_name t (bs "as") false); [intro H; inversion H; find_in|discriminate].
Qed.

Lemma op_facts : forall op, In op bin_ops ->
  tv_pcd op = 6 + rank op /\ tv_rassoc op = tv_eqb op T_POW /\ rank op <= 10 /\ (op = T_POW <-> rank op = 10)
  /\ (op = T_AND <-> rank op = 1) /\ (op = T_OR \/ op = T_NULLISH <-> rank op = 0).
Proof.
  intros op H. pose proof ops_ranked as R. rewrite forallb_forall in R. specialize (R op H).
  repeat (apply andb_prop in R; destruct R as [R ?]).
  apply Nat.eqb_eq in R. apply eqb_prop in H0, H1, H2, H4. apply Nat.leb_le in H3.
  split; [exact R|]. split; [exact H4|]. split; [exact H3|].
  split; [|split].
  - rewrite <- (tv_eqb_spec op T_POW), H2. apply Nat.eqb_eq.
  - rewrite <- (tv_eqb_spec op T_AND), H1. apply Nat.eqb_eq.
  - rewrite <- Nat.eqb_eq, <- H0, orb_true_iff, !tv_eqb_spec. reflexivity.
Qed.

Definition headop {A} (l : list (tv * A)) (nx : option tv) : option tv :=
  match l with (op, _) :: _ => Some op | [] => nx end.
(** The loop inside binExpr is entered. *)
Definition nests (op : tv) (nx : option tv) : Prop :=
  match nx with Some q => rank op < rank q \/ rank q = rank op /\ q = T_POW | None => False end.

Lemma nests_pow : forall op, In op bin_ops -> nests op (Some T_POW).
Proof.
  intros op I. destruct (op_facts _ I) as (_ & _ & L & _). cbn [nests]. change (rank T_POW) with 10.
  destruct (Nat.eq_dec (rank op) 10); [right; auto|left; lia].
Qed.

(** What the loop does with the operators up to where it stops; [nx] is the operator there. *)
Inductive climb {A} : btree A -> nat -> list (tv * A) -> btree A -> option tv -> Prop :=
| K_stop lhs min nx : match nx with Some op => rank op < min | None => True end -> climb lhs min [] lhs nx
| K_leaf lhs min op a o h l t nx : In op bin_ops -> min <= rank op -> ~ nests op (headop l nx) ->
    climb (Bin op o h lhs (Leaf a)) min l t nx -> climb lhs min ((op, a) :: l) t nx
| K_nest lhs min op a q o h l1 r l2 t nx : In op bin_ops -> min <= rank op -> headop l1 None = Some q -> nests op (Some q) ->
    climb (Leaf a) (rank q) l1 r (headop l2 nx) -> climb (Bin op o h lhs r) min l2 t nx ->
    climb lhs min ((op, a) :: l1 ++ l2) t nx.

Lemma climb_yield : forall A (lhs : btree A) min l t nx, climb lhs min l t nx ->
  first t = first lhs /\ following t = following lhs ++ l.
Proof.
  intros A lhs min l t nx H. induction H.
  - rewrite app_nil_r. auto.
  - destruct IHclimb as [F G]. cbn [first following] in *. rewrite <- app_assoc in G. auto.
  - destruct IHclimb1 as [F1 G1]. destruct IHclimb2 as [F2 G2]. cbn [first following app] in *. rewrite F1, G1 in G2.
    rewrite <- app_assoc in G2. auto.
Qed.

Lemma climb_end : forall A (lhs : btree A) min l t nx, climb lhs min l t nx ->
  match nx with Some op => rank op < min | None => True end.
Proof. intros A lhs min l t nx H. induction H; auto. Qed.

Lemma climb_head : forall A (lhs : btree A) min l t nx, climb lhs min l t nx ->
  match headop l None with Some op => min <= rank op /\ In op bin_ops | None => True end.
Proof. intros A lhs min l t nx H. inversion H; cbn; auto. Qed.

Lemma climb_ranks : forall A (lhs : btree A) min l t nx, climb lhs min l t nx -> Forall (fun x => min <= rank (fst x) /\ In (fst x) bin_ops) l.
Proof.
  intros A lhs min l t nx H. induction H; [constructor|constructor; auto|].
  constructor; [auto|]. apply Forall_app. split; [|assumption].
  eapply Forall_impl; [|exact IHclimb1]. cbn. intros x [X Y]. split; [|exact Y]. cbn [nests] in H2. lia.
Qed.

(** ** Grouping *)

Definition lvl_right (op : tv) : bool := tv_eqb op T_POW.

Lemma at_level_op : forall op, In op bin_ops -> at_level op (rank op) (lvl_right op).
Proof.
  intros op H. vm_compute in H. unfold at_level.
  repeat (destruct H as [<-|H]; [eexists; split; [reflexivity|find_in]|]). destruct H.
Qed.

Lemma at_level_inv : forall op m b, at_level op m b -> m = rank op /\ b = lvl_right op.
Proof.
  intros op m b (ops & N & I).
  do 11 (destruct m as [|m]; [cbn in N; inversion N; subst; cbn [In] in I;
    repeat (destruct I as [<-|I]; [split; reflexivity|]); destruct I|]).
  cbn in N. destruct m; discriminate N.
Qed.

Lemma derives_le : forall A n m (t : btree A), m <= n -> derives n t -> derives m t.
Proof.
  intros A n m t L D. destruct D.
  - constructor.
  - eapply D_left; eauto. lia.
  - eapply D_right; eauto. lia.
Qed.

(** The level of the root. *)
Definition root {A} (t : btree A) : option tv := match t with Leaf _ => None | Bin op _ _ _ _ => Some op end.

Lemma derives_root : forall A n (t : btree A), derives n t ->
  match root t with Some op => n <= rank op | None => True end.
Proof. intros A n t D. destruct D; cbn; [exact I|..]; apply at_level_inv in H; destruct H; subst; assumption. Qed.

Lemma derives_at : forall A n m (t : btree A), derives n t -> match root t with Some op => m <= rank op | None => True end ->
  derives m t.
Proof.
  intros A n m t D R. destruct D; cbn in R.
  - constructor.
  - eapply D_left; eauto. apply at_level_inv in H. destruct H as [-> _]. exact R.
  - eapply D_right; eauto. apply at_level_inv in H. destruct H as [-> _]. exact R.
Qed.

Lemma dented_tail : forall a l, ~ dented (a :: l) -> ~ dented l.
Proof. intros a l H (pre & x & b & mid & c & post & -> & R). apply H. exists (a :: pre), x, b, mid, c, post. auto. Qed.

Lemma dented_app : forall l1 l2, ~ dented (l1 ++ l2) -> ~ dented l1 /\ ~ dented l2.
Proof.
  intros l1 l2 H. split; intros (pre & x & b & mid & c & post & E & R); apply H; subst.
  - exists pre, x, b, mid, c, (post ++ l2). split; [|exact R]. rewrite <- !app_assoc. cbn. rewrite <- app_assoc. reflexivity.
  - exists (l1 ++ pre), x, b, mid, c, post. split; [|exact R]. rewrite <- app_assoc. reflexivity.
Qed.

(** Invariant of the loop: [lhs] is a tree of the grammar whose root binds at least as tight as what comes. *)
Lemma climb_derives : forall A (lhs : btree A) min l t nx, climb lhs min l t nx ->
  derives 0 lhs ->
  (match root lhs, headop l None with
   | Some p, Some op => rank op <= rank p /\ op <> T_POW
   | _, _ => True end) ->
  (match root lhs with Some p => min <= rank p | None => True end) ->
  ~ dented (map fst l) ->
  derives min t.
Proof.
  intros A lhs min l t nx H. induction H as [lhs min nx E|lhs min op a o h l t nx I M N K IH
    |lhs min op a q o h l1 r l2 t nx I M Hd N K1 IH1 K2 IH2]; intros D R Rm Nd.
  - eapply derives_at; eassumption.
  - assert (DL : derives 0 (Bin op o h lhs (Leaf a))).
    { pose proof (at_level_op op I) as L. destruct (lvl_right op) eqn:B.
      - apply tv_eqb_spec in B. subst op. eapply D_right; [exact L|lia| |constructor].
        eapply derives_at; [exact D|]. destruct (root lhs) as [p|]; [|exact Logic.I]. cbn in R. destruct R as [_ R]. congruence.
      - eapply D_left; [exact L|lia| |constructor]. eapply derives_at; [exact D|].
        destruct (root lhs) as [p|]; [|exact Logic.I]. cbn in R. apply R. }
    apply IH; [exact DL| |exact M|].
    + cbn [root]. destruct l as [|[q b] l]; [exact Logic.I|]. cbn [headop] in *. unfold nests in N.
      pose proof (climb_ranks _ _ _ _ _ _ K) as Fr. inversion Fr; subst. cbn in H1. destruct H1 as [_ Iq].
      destruct (op_facts _ Iq) as (_ & _ & L10 & Pw & _). destruct (op_facts _ I) as (_ & _ & L10' & Pw' & _).
      split; [lia|]. intros ->. apply N, nests_pow, I.
    + apply (dented_tail _ _ Nd).
  - assert (Iq : In q bin_ops /\ Forall (fun x : tv * A => rank q <= rank (fst x)) l1).
    { pose proof (climb_head _ _ _ _ _ _ K1) as X. rewrite Hd in X. split; [apply X|].
      pose proof (climb_ranks _ _ _ _ _ _ K1) as Fr. eapply Forall_impl; [|exact Fr]. cbn. intros ? [? _]; assumption. }
    destruct Iq as [Iq F1].
    cbn [map] in Nd. rewrite map_app in Nd.
    destruct (dented_app _ _ (dented_tail _ _ Nd)) as [Nd1 Nd2].
    assert (Dr : derives (rank q) r).
    { apply IH1; [constructor|exact Logic.I|exact Logic.I|exact Nd1]. }
    pose proof (climb_end _ _ _ _ _ _ K1) as E1.
    assert (DL : derives 0 (Bin op o h lhs r)).
    { pose proof (at_level_op op I) as L. destruct (lvl_right op) eqn:B.
      - apply tv_eqb_spec in B. subst op. eapply D_right; [exact L|lia| |].
        + eapply derives_at; [exact D|]. destruct (root lhs) as [p|]; [|exact Logic.I]. cbn in R. destruct R as [_ R]. congruence.
        + eapply derives_le; [|exact Dr]. cbn [nests] in N. lia.
      - eapply D_left; [exact L|lia| |].
        + eapply derives_at; [exact D|]. destruct (root lhs) as [p|]; [|exact Logic.I]. cbn in R. apply R.
        + eapply derives_le; [|exact Dr]. cbn [nests] in N. destruct N as [N|[N ->]]; [lia|].
          exfalso. assert (E10 : rank T_POW = 10) by reflexivity. rewrite E10 in N. symmetry in N.
          destruct (op_facts _ I) as (_ & _ & _ & Pw & _). apply Pw in N. subst op. discriminate B. }
    apply IH2; [exact DL| |exact M|exact Nd2].
    cbn [root]. destruct l2 as [|[c b] l2]; [exact Logic.I|]. cbn [headop] in *.
    destruct l1 as [|[q' b'] l1]; [discriminate Hd|]. cbn in Hd. inversion Hd; subst q'. clear Hd. split.
    + destruct (Nat.le_gt_cases (rank c) (rank op)) as [|G]; [assumption|]. exfalso. apply Nd.
      exists [], op, q, (map fst l1), c, (map fst l2). split; [reflexivity|]. split; [lia|].
      inversion F1; subst. apply Forall_map. assumption.
    + intros ->. assert (E10 : rank T_POW = 10) by reflexivity. rewrite E10 in E1.
      destruct (op_facts _ Iq) as (_ & _ & L10 & _). lia.
Qed.

(** Subtrees of trees of the grammar. *)
Inductive part {A} (x : btree A) : btree A -> Prop :=
| P_self : part x x
| P_l op o h l r : part x l -> part x (Bin op o h l r)
| P_r op o h l r : part x r -> part x (Bin op o h l r).

Lemma part_derives : forall A (x t : btree A) n, part x t -> derives n t -> exists m, derives m x.
Proof.
  intros A x t n P. revert n. induction P; intros n D; [eauto|inversion D; subst; eauto..].
Qed.

Lemma part_left : forall A op o h (lhs r t : btree A), part (Bin op o h lhs r) t -> part lhs t.
Proof.
  intros A op o h lhs r t P. remember (Bin op o h lhs r) as y eqn:E. induction P; subst.
  - apply P_l, P_self.
  - apply P_l; auto.
  - apply P_r; auto.
Qed.

Lemma climb_part : forall A (lhs : btree A) min l t nx, climb lhs min l t nx -> part lhs t.
Proof. intros A lhs min l t nx H. induction H; [constructor|eauto using part_left..]. Qed.

Lemma part_trans : forall A (x y z : btree A), part x y -> part y z -> part x z.
Proof. intros A x y z P Q. induction Q; [exact P|apply P_l; auto|apply P_r; auto]. Qed.

(** The shape of a dent. *)
Lemma dented_cons : forall a l, dented (a :: l) ->
  dented l \/ exists b mid c post, l = b :: mid ++ c :: post /\ rank a < rank c < rank b /\ Forall (fun o => rank b <= rank o) mid.
Proof.
  intros a l (pre & x & b & mid & c & post & E & R). destruct pre as [|y pre].
  - cbn in E. inversion E; subst. right. exists b, mid, c, post. auto.
  - cbn in E. inversion E; subst. left. exists pre, x, b, mid, c, post. auto.
Qed.

Lemma dented_split : forall l1 l2 m, dented (l1 ++ l2) -> Forall (fun o => m <= rank o) l1 ->
  match l2 with c :: _ => rank c < m | [] => True end -> dented l1 \/ dented l2.
Proof.
  induction l1 as [|a l1 IH]; intros l2 m D F H; [right; exact D|]. inversion F; subst.
  cbn [app] in D. apply dented_cons in D. destruct D as [D|(b & mid & c & post & E & R & Fm)].
  - destruct (IH _ _ D H3 H) as [X|X]; [left|right; exact X].
    destruct X as (pre & x & b & mid & c & post & -> & R). exists (a :: pre), x, b, mid, c, post. auto.
  - left. assert (X : exists post', l1 = b :: mid ++ c :: post').
    { clear -E H H2 R Fm. revert l1 E. 
      assert (Y : forall mid l1, Forall (fun o => m <= rank o) mid -> m <= rank c -> l1 ++ l2 = mid ++ c :: post ->
                 exists post', l1 = mid ++ c :: post').
      { induction mid0 as [|y mid0 IHm]; intros l1 F Hc E.
        - destruct l1 as [|z l1]; cbn in E; [subst l2; lia|]. inversion E; subst. exists l1. reflexivity.
        - inversion F as [|? ? Fy Fm0]; subst. destruct l1 as [|z l1]; cbn in E; [subst l2; lia|].
          injection E as -> E. destruct (IHm l1 Fm0 Hc E) as (p' & ->). exists p'. reflexivity. }
      intros l1 E. apply (Y (b :: mid) l1); [|lia|exact E]. constructor; [lia|].
      eapply Forall_impl; [|exact Fm]. cbn. intros; lia. }
    destruct X as (post' & ->). exists [], a, b, mid, c, post'. auto.
Qed.

(** A misgrouped chain gives a tree that is not of the grammar. *)
Lemma climb_dented : forall A (lhs : btree A) min l t nx, climb lhs min l t nx ->
  forall n, derives n t -> ~ dented (map fst l).
Proof.
  intros A lhs min l t nx H. induction H as [lhs min nx E|lhs min op a o h l t nx I M N K IH
    |lhs min op a q o h l1 r l2 t nx I M Hd N K1 IH1 K2 IH2]; intros n D.
  - intros ([|] & x & b & mid & c & post & X & _); discriminate X.
  - intro X. cbn [map fst] in X. apply dented_cons in X. destruct X as [X|(b & mid & c & post & E & R & _)]; [exact (IH n D X)|].
    destruct l as [|[q d] l]; [discriminate E|]. cbn in E. inversion E; subst. apply N. cbn. left. lia.
  - assert (Pr : exists m, derives m r).
    { destruct (part_derives _ _ _ _ (climb_part _ _ _ _ _ _ K2) D) as (m & X). inversion X; subst; eauto. }
    destruct Pr as (m & Dr).
    pose proof (climb_end _ _ _ _ _ _ K1) as E1.
    pose proof (climb_ranks _ _ _ _ _ _ K1) as F1.
    assert (F1' : Forall (fun o => rank q <= rank o) (map fst l1)).
    { apply Forall_map. eapply Forall_impl; [|exact F1]. cbn. tauto. }
    assert (Hc : match map fst l2 with c :: _ => rank c < rank q | [] => True end).
    { destruct l2 as [|[c b] l2]; [exact Logic.I|]. exact E1. }
    intro X. cbn [map fst] in X. rewrite map_app in X. apply dented_cons in X. destruct X as [X|(b & mid & c & post & E & R & Fm)].
    + apply (dented_split _ _ (rank q)) in X; [|assumption..]. destruct X as [X|X]; [exact (IH1 m Dr X)|exact (IH2 n D X)].
    + destruct l1 as [|[q' b'] l1]; [discriminate Hd|]. cbn in Hd. inversion Hd; subst q'. clear Hd.
      cbn in E. inversion E; subst b. clear E.
      (* the operator after the group is [c] *)
      assert (Y : exists l2', map fst l2 = c :: l2').
      { clear -H1 R Fm F1' Hc. cbn in F1'. inversion F1'; subst. revert mid H1 Fm H3. generalize (map fst l1) as u.
        induction u as [|y u IH]; intros mid E Fm Fu.
        - cbn in E. destruct mid as [|z mid]; cbn in E; [eauto|]. inversion Fm; subst. rewrite E in Hc. lia.
        - destruct mid as [|z mid]; cbn in E; inversion E; subst.
          + inversion Fu; subst. lia.
          + inversion Fm; inversion Fu; subst. eapply IH; eauto. }
      destruct Y as (l2' & Y). destruct l2 as [|[c' b2] l2]; [discriminate Y|]. cbn in Y. inversion Y; subst c'. clear Y.
      (* so the tree holds [Bin (Bin lhs op r) c _] *)
      assert (Z : exists o2 h2 r2, part (Bin c o2 h2 (Bin op o h lhs r) r2) t).
      { inversion K2; subst; eauto using climb_part. }
      destruct Z as (o2 & h2 & r2 & Z). destruct (part_derives _ _ _ _ Z D) as (k & Dk).
      inversion Dk as [|? ? ? ? ? ? ? La _ Dl _|? ? ? ? ? ? ? La _ Dl _]; subst; apply at_level_inv in La; destruct La as [-> _];
        apply derives_root in Dl; cbn in Dl; lia.
Qed.

(** ** The parser follows [climb] *)
Section Run.
Context {A : Type}.
Variables (unary typ : pst -> pres A) (is_unary is_arrow : A -> bool) (feat : N) (ts not_in not_gt : bool).
Notation op_at := (operator_at ts not_in not_gt).
Notation opnd := (operand unary typ).
Notation loop := (bin_loop unary typ is_unary is_arrow feat ts not_in not_gt).
Notation rloop := (rhs_loop unary typ is_unary is_arrow feat ts not_in not_gt).

Lemma loop_S : forall fuel lhs min lg nl s, loop (S fuel) lhs min lg nl s =
  match is_bin not_in ts (peek s) with
  | None => POk lhs (peeked s)
  | Some op =>
      if Nat.ltb (tv_pcd op) min || tv_eqb op T_GT && not_gt then POk lhs (peeked s)
      else if lg && tv_eqb op T_NULLISH || nl && (tv_eqb op T_AND || tv_eqb op T_OR) then PErr
      else
        if tv_eqb (pval s) T_POW && negb (has feat FEAT_POW) then PErr
        else
          pbind (opnd op (next s)) (fun a s1 =>
          pbind (rloop fuel (Leaf a) (tv_pcd op) (lg || tv_eqb op T_AND || tv_eqb op T_OR) (nl || tv_eqb op T_NULLISH) s1) (fun rhs s2 =>
          if match lhs with Leaf x => is_unary x | _ => false end && tv_eqb op T_POW then PErr
          else if match rhs with Leaf x => is_arrow x | _ => false end then PErr
          else loop fuel (Bin op (t_lo (peek s), t_hi (peek s)) (p_end s2) lhs rhs) min
                 (lg || tv_eqb op T_AND || tv_eqb op T_OR) (nl || tv_eqb op T_NULLISH) s2))
  end.
Proof. reflexivity. Qed.
Lemma rloop_S : forall fuel rhs pcd lg nl s, rloop (S fuel) rhs pcd lg nl s =
  match is_bin not_in ts (peek s) with
  | None => POk rhs (peeked s)
  | Some op =>
      if Nat.ltb pcd (tv_pcd op) || Nat.eqb (tv_pcd op) pcd && tv_rassoc op then
        pbind (loop fuel rhs (tv_pcd op) lg nl (peeked s)) (fun rhs s1 => rloop fuel rhs (tv_pcd op) lg nl s1)
      else POk rhs (peeked s)
  end.
Proof. reflexivity. Qed.

Inductive seg : pst -> list (tv * A) -> pst -> Prop :=
| Sg_nil s : seg s [] (peeked s)
| Sg_op s op a s1 l s2 : op_at s = Some op -> opnd op (next s) = POk a s1 -> seg s1 l s2 -> seg s ((op, a) :: l) s2.

Lemma seg_peeked : forall s l s', seg (peeked s) l s' <-> seg s l s'.
Proof.
  intros s l s'. split; intro H; inversion H; subst; try solve [eapply Sg_op; eauto].
  - change (peeked (peeked s)) with (peeked s). constructor.
  - change (peeked s) with (peeked (peeked s)) at 2. constructor.
Qed.

Lemma seg_end_peeked : forall s l s', seg s l s' -> peeked s' = s'.
Proof. intros s l s' H. induction H; [reflexivity|assumption]. Qed.

Lemma seg_app : forall s l s1, seg s l s1 -> forall l2 s2, seg s1 l2 s2 -> seg s (l ++ l2) s2.
Proof.
  intros s l s1 H. induction H; intros l2 s' G; cbn [app]; [apply seg_peeked; exact G|]. eapply Sg_op; eauto.
Qed.

Lemma seg_chain : forall s l s', seg s l s' -> op_at s' = None -> chain unary typ ts not_in not_gt s l s'.
Proof.
  intros s l s' H. induction H; intro E; [constructor; exact E|]. eapply Ch_op; eauto.
Qed.

Lemma chain_seg : forall s l s', chain unary typ ts not_in not_gt s l s' -> seg s l s' /\ op_at s' = None.
Proof.
  intros s l s' H. induction H; [split; [constructor|exact H]|]. destruct IHchain as [X Y]. split; [|exact Y].
  eapply Sg_op; eauto.
Qed.

Lemma op_at_bin : forall s op, op_at s = Some op -> is_bin not_in ts (peek s) = Some op /\ (tv_eqb op T_GT && not_gt) = false
  /\ In op bin_ops.
Proof.
  intros s op. unfold operator_at. destruct (is_bin not_in ts (peek s)) as [p|] eqn:E; [|discriminate].
  destruct (tv_eqb p T_GT && not_gt) eqn:G; [discriminate|]. intro H. inversion H; subst p.
  split; [reflexivity|]. split; [exact G|eapply bin_in; exact E].
Qed.

(** The head of a segment. *)
Lemma seg_head : forall s l s', seg s l s' -> headop l (op_at s') = op_at s.
Proof. intros s l s' H. inversion H; subst; cbn; [reflexivity|auto]. Qed.

(** Early errors not met. *)
Definition flags (lg nl : bool) (l : list (tv * A)) : Prop :=
  ~ mixed l /\ (lg = true -> ~ In T_NULLISH (map fst l)) /\ (nl = true -> ~ In T_AND (map fst l) /\ ~ In T_OR (map fst l)).
Definition tailok (l : list (tv * A)) : Prop := match l with (_, b) :: l' => ~ unary_base is_unary b l' | [] => True end.
Definition lhsok (lhs : btree A) (l : list (tv * A)) : Prop := match lhs with Leaf x => ~ unary_base is_unary x l | _ => True end.
Definition powok (l : list (tv * A)) : Prop := In T_POW (map fst l) -> has feat FEAT_POW = true.

Lemma unary_app : forall (a : A) l1 l2, ~ unary_base is_unary a l1 -> match headop l2 None with Some op => op <> T_POW | None => True end ->
  tailok l2 -> ~ unary_base is_unary a (l1 ++ l2).
Proof.
  intros a l1. revert a. induction l1 as [|[op b] l1 IH]; intros a l2 H1 H2 H3 U.
  - cbn in U. destruct l2 as [|[c d] l2]; [inversion U|]. cbn in H2, H3. inversion U; subst; [congruence|contradiction].
  - cbn in U. inversion U; subst.
    + apply H1. constructor. assumption.
    + eapply IH; [|exact H2|exact H3|eassumption]. intro X. apply H1. constructor. exact X.
Qed.

Lemma rloop_none : forall fuel r pcd lg nl s r' s', op_at s = None -> rloop fuel r pcd lg nl s = POk r' s' ->
  r' = r /\ s' = peeked s.
Proof.
  induction fuel as [|fuel IH]; intros r pcd lg nl s r' s' N E; [discriminate E|].
  rewrite rloop_S in E. unfold operator_at in N. destruct (is_bin not_in ts (peek s)) as [op|] eqn:B; [|inversion E; auto].
  destruct (tv_eqb op T_GT && not_gt) eqn:G; [|discriminate N].
  destruct (_ || _); [|inversion E; auto].
  destruct fuel as [|fuel]; [discriminate E|]. rewrite loop_S in E.
  change (peek (peeked s)) with (peek s) in E. rewrite B, G, orb_true_r in E. cbn [pbind] in E.
  change (peeked (peeked s)) with (peeked s) in E.
  apply (IH _ _ _ _ (peeked s)) in E; [exact E|]. unfold operator_at. change (peek (peeked s)) with (peek s). rewrite B, G. reflexivity.
Qed.

Lemma nests_test : forall op q, In op bin_ops -> In q bin_ops ->
  (Nat.ltb (tv_pcd op) (tv_pcd q) || Nat.eqb (tv_pcd q) (tv_pcd op) && tv_rassoc q = true <-> nests op (Some q)).
Proof.
  intros op q I J. destruct (op_facts _ I) as (-> & _). destruct (op_facts _ J) as (-> & -> & _).
  rewrite orb_true_iff, andb_true_iff, Nat.ltb_lt, Nat.eqb_eq, tv_eqb_spec. cbn [nests].
  split; intros [X|[X Y]]; (left; lia) || (right; split; [lia|exact Y]).
Qed.

Lemma loop_ok : forall fuel,
  (forall lhs min lg nl s t s', loop fuel lhs (6 + min) lg nl s = POk t s' ->
     exists l, seg s l s' /\ climb lhs min l t (op_at s') /\ flags lg nl l /\ lhsok lhs l /\ tailok l /\ powok l)
  /\ (forall a op lg nl s r s', In op bin_ops -> rloop fuel (Leaf a) (tv_pcd op) lg nl s = POk r s' ->
     (r = Leaf a /\ s' = peeked s /\ ~ nests op (op_at s))
     \/ exists q l, headop l None = Some q /\ nests op (Some q) /\ seg s l s' /\ climb (Leaf a) (rank q) l r (op_at s')
          /\ flags lg nl l /\ lhsok (Leaf a) l /\ tailok l /\ powok l).
Proof.
  induction fuel as [|fuel [IHl IHr]]; [split; discriminate|]. split.
  - intros lhs min lg nl s t s' E. rewrite loop_S in E.
    assert (Stop : forall P, POk lhs (peeked s) = POk t s' ->
      match op_at s with Some op => rank op < min | None => True end -> P = True ->
      exists l, seg s l s' /\ climb lhs min l t (op_at s') /\ flags lg nl l /\ lhsok lhs l /\ tailok l /\ powok l).
    { intros P X Y _. inversion X; subst. exists []. split; [constructor|].
      split; [constructor; exact Y|]. split; [|split; [|split]].
      - split; [intros [[] _]|]. split; [intros _ []|intros _; split; intros []].
      - unfold lhsok. destruct t; [intro U; inversion U|exact Logic.I].
      - exact Logic.I.
      - intros []. }
    specialize (Stop True). unfold operator_at in Stop.
    destruct (is_bin not_in ts (peek s)) as [op|] eqn:B; [|apply Stop; auto].
    pose proof (bin_in _ _ _ _ B) as I. destruct (op_facts _ I) as (Pc & _ & L10 & Pw & An & On).
    destruct (tv_eqb op T_GT && not_gt) eqn:G; [rewrite orb_true_r in E; apply Stop; auto|]. rewrite orb_false_r in E.
    destruct (Nat.ltb_spec (tv_pcd op) (6 + min)) as [L|L]; [apply Stop; [exact E|lia|reflexivity]|]. clear Stop.
    destruct (lg && tv_eqb op T_NULLISH || nl && (tv_eqb op T_AND || tv_eqb op T_OR)) eqn:Mx; [discriminate E|].
    destruct (tv_eqb (pval s) T_POW && negb (has feat FEAT_POW)) eqn:Fp; [discriminate E|].
    destruct (opnd op (next s)) as [a s1| | | ] eqn:O; [|discriminate E..]. cbn [pbind] in E.
    set (lg' := lg || tv_eqb op T_AND || tv_eqb op T_OR) in *. set (nl' := nl || tv_eqb op T_NULLISH) in *.
    destruct (rloop fuel (Leaf a) (tv_pcd op) lg' nl' s1) as [rhs s2| | | ] eqn:Er; [|discriminate E..]. cbn [pbind] in E.
    destruct (match lhs with Leaf x => is_unary x | Bin _ _ _ _ _ => false end && tv_eqb op T_POW) eqn:Un; [discriminate E|].
    destruct (match rhs with Leaf x => is_arrow x | Bin _ _ _ _ _ => false end) eqn:Ar; [discriminate E|].
    apply IHl in E. destruct E as (l2 & S2 & K2 & Fl2 & _ & T2 & P2).
    apply IHr in Er; [|exact I].
    assert (Oa : op_at s = Some op) by (unfold operator_at; rewrite B, G; reflexivity).
    assert (Pv : op = T_POW -> has feat FEAT_POW = true).
    { intros ->. assert (pval s = T_POW) as Hv.
      { unfold is_bin in B.
        destruct (N.ltb _ _ && N.ltb _ _) in B; [inversion B; reflexivity|].
        destruct (negb not_in && is_name (peek s) (bs "in") false) in B; [discriminate B|].
        destruct (ts && is_name (peek s) (bs "as") false) in B; discriminate B. }
      rewrite Hv, tv_eqb_refl in Fp. cbn [andb] in Fp. destruct (has feat FEAT_POW); [reflexivity|discriminate Fp]. }
    assert (Fl : forall l1, flags lg' nl' l1 -> (forall x, In x (map fst l1) -> rank op < rank x \/ x = T_POW) ->
      flags lg nl ((op, a) :: l1 ++ l2)).
    { intros l1 (M1 & A1 & B1) R1. destruct Fl2 as (M2 & A2 & B2).
      assert (Nn : forall x, In x (map fst ((op, a) :: l1 ++ l2)) -> x = op \/ In x (map fst l1) \/ In x (map fst l2)).
      { cbn [map fst]. rewrite map_app. intros x [<-|X]; [auto|]. apply in_app_iff in X. tauto. }
      assert (R1n : ~ In T_NULLISH (map fst l1)) by (intro X; apply R1 in X; destruct X as [X|X]; [change (rank T_NULLISH) with 0 in X; change (rank T_OR) with 0 in X; lia|discriminate X]).
      assert (R1o : ~ In T_OR (map fst l1)) by (intro X; apply R1 in X; destruct X as [X|X]; [change (rank T_NULLISH) with 0 in X; change (rank T_OR) with 0 in X; lia|discriminate X]).
      assert (R1a : In T_AND (map fst l1) -> op = T_OR \/ op = T_NULLISH).
      { intro X. apply R1 in X. destruct X as [X|X]; [|discriminate X]. change (rank T_AND) with 1 in X. apply On. lia. }
      assert (lgA : op = T_AND \/ op = T_OR -> lg' = true).
      { unfold lg'. intros [->| ->]; rewrite ?tv_eqb_refl, ?orb_true_r; reflexivity. }
      assert (nlN : op = T_NULLISH -> nl' = true).
      { unfold nl'. intros ->. rewrite tv_eqb_refl, orb_true_r. reflexivity. }
      assert (lgM : lg = true -> lg' = true) by (unfold lg'; intros ->; reflexivity).
      assert (nlM : nl = true -> nl' = true) by (unfold nl'; intros ->; reflexivity).
      assert (NN : In T_NULLISH (map fst ((op, a) :: l1 ++ l2)) -> In T_AND (map fst ((op, a) :: l1 ++ l2)) \/ In T_OR (map fst ((op, a) :: l1 ++ l2)) -> False).
      { intros X Y. apply Nn in X. assert (Y' : (op = T_AND \/ op = T_OR) \/ In T_AND (map fst l1) \/ (In T_AND (map fst l2) \/ In T_OR (map fst l2))).
        { destruct Y as [Y|Y]; apply Nn in Y; destruct Y as [Y|[Y|Y]]; try (subst; tauto). }
        clear Y. destruct X as [X|[X|X]]; [|contradiction|].
        - symmetry in X. pose proof (nlN X) as Z. destruct (B1 Z) as [B1a B1o]. destruct (B2 Z) as [B2a B2o].
          destruct Y' as [[Y|Y]|[Y|[Y|Y]]]; try contradiction; congruence.
        - destruct Y' as [Y|[Y|Y]].
          + exact (A2 (lgA Y) X).
          + destruct (R1a Y) as [Z|Z]; [exact (A2 (lgA (or_intror Z)) X)|]. destruct (B1 (nlN Z)) as [B1a _]. contradiction.
          + apply M2. split; assumption. }
      split; [intros [X Y]; exact (NN X Y)|]. split.
      - intros Hl X. apply Nn in X. destruct X as [X|[X|X]]; [|contradiction|exact (A2 (lgM Hl) X)].
        rewrite Hl, <- X, tv_eqb_refl in Mx. discriminate Mx.
      - intros Hn. destruct (B1 (nlM Hn)) as [B1a B1o]. destruct (B2 (nlM Hn)) as [B2a B2o].
        rewrite Hn in Mx. cbn [andb] in Mx. apply orb_false_iff in Mx. destruct Mx as [_ Mx]. apply orb_false_iff in Mx. destruct Mx as [Ma Mo].
        split; intro X; apply Nn in X; destruct X as [X|[X|X]]; try contradiction; rewrite <- X in *; discriminate. }
    assert (Lo : forall l1, ~ unary_base is_unary a l1 -> match headop l2 None with Some c => c <> T_POW | None => True end ->
      lhsok lhs ((op, a) :: l1 ++ l2) /\ tailok ((op, a) :: l1 ++ l2)).
    { intros l1 U1 H2. pose proof (unary_app _ _ _ U1 H2 T2) as U. split; [|exact U].
      unfold lhsok. destruct lhs as [x|]; [|exact Logic.I]. intro X. inversion X; subst.
      - match goal with H : is_unary x = true |- _ => rewrite H in Un end. discriminate Un.
      - contradiction. }
    destruct Er as [(-> & -> & Nn)|(q & l1 & Hq & Nq & S1 & K1 & Fl1 & Ho1 & T1 & P1)].
    + exists ((op, a) :: l2). split; [eapply Sg_op; [exact Oa|exact O|]; apply seg_peeked; exact S2|].
      assert (Hn : headop l2 (op_at s') = op_at s1) by (rewrite (seg_head _ _ _ S2); reflexivity).
      split; [eapply K_leaf; [exact I|lia|rewrite Hn; exact Nn|exact K2]|].
      assert (H2 : match headop l2 None with Some c => c <> T_POW | None => True end).
      { destruct l2 as [|[c b] l2]; [exact Logic.I|]. cbn [headop] in *. intros ->. rewrite <- Hn in Nn. apply Nn, nests_pow, I. }
      split; [|split; [|split]].
      * apply (Fl []); [|intros x []]. split; [intros [[] _]|]. split; [intros _ []|intros _; split; intros []].
      * apply (Lo []); [intro X; inversion X|exact H2].
      * apply (Lo []); [intro X; inversion X|exact H2].
      * intros [X|X]; [exact (Pv X)|exact (P2 X)].
    + exists ((op, a) :: l1 ++ l2). split; [eapply Sg_op; [exact Oa|exact O|]; eapply seg_app; eassumption|].
      assert (Hn : headop l2 (op_at s') = op_at s2) by (apply seg_head; exact S2).
      split; [eapply K_nest; [exact I|lia|exact Hq|exact Nq|rewrite Hn; exact K1|exact K2]|].
      pose proof (climb_head _ _ _ _ _ _ K1) as X1. rewrite Hq in X1. destruct X1 as [_ Iq].
      pose proof (climb_end _ _ _ _ _ _ K1) as X2. destruct (op_facts _ Iq) as (_ & _ & Q10 & _).
      assert (H2 : match headop l2 None with Some c => c <> T_POW | None => True end).
      { destruct l2 as [|[c b] l2]; [exact Logic.I|]. cbn [headop] in *. intros ->. rewrite <- Hn in X2.
        change (rank T_POW) with 10 in X2. lia. }
      split; [|split; [|split]].
      * apply Fl; [exact Fl1|]. intros x Hx. pose proof (climb_ranks _ _ _ _ _ _ K1) as Fr. rewrite Forall_forall in Fr.
        apply in_map_iff in Hx. destruct Hx as (y & <- & Hy). destruct (Fr y Hy) as [Ry Iy].
        cbn [nests] in Nq. destruct Nq as [Nq|[Nq ->]]; [left; lia|right].
        change (rank T_POW) with 10 in *. destruct (op_facts _ Iy) as (_ & _ & Y10 & Py & _). apply Py. lia.
      * apply Lo; assumption.
      * apply Lo; assumption.
      * intro X. cbn [map fst] in X. rewrite map_app in X. destruct X as [X|X]; [exact (Pv X)|]. apply in_app_iff in X.
        destruct X as [X|X]; [exact (P1 X)|exact (P2 X)].
  - intros a op lg nl s r s' I E. rewrite rloop_S in E.
    destruct (op_at s) as [q|] eqn:Oa.
    + destruct (op_at_bin _ _ Oa) as (B & G & Iq). rewrite B in E.
      destruct (_ || _) eqn:Te.
      * right. apply nests_test in Te; [|assumption..].
        destruct (loop fuel (Leaf a) (tv_pcd q) lg nl (peeked s)) as [r1 s1| | | ] eqn:El; [|discriminate E..]. cbn [pbind] in E.
        destruct (op_facts _ Iq) as (Pq & _ & Q10 & _). rewrite Pq in El. apply IHl in El.
        destruct El as (l & S1 & K1 & F1 & Ho1 & T1 & P1). apply (proj1 (seg_peeked _ _ _)) in S1.
        pose proof (climb_end _ _ _ _ _ _ K1) as X2.
        assert (Hl : headop l None = Some q).
        { pose proof (seg_head _ _ _ S1) as X. rewrite Oa in X. destruct l as [|[c b] l]; cbn in X; [|exact X].
          rewrite X in X2. lia. }
        assert (Es : r = r1 /\ s' = s1).
        { pose proof (seg_end_peeked _ _ _ S1) as Pk. destruct (op_at s1) as [c|] eqn:Oc.
          - destruct fuel as [|fuel]; [discriminate E|]. rewrite rloop_S in E.
            destruct (op_at_bin _ _ Oc) as (Bc & _ & Ic). rewrite Bc in E.
            destruct (_ || _) eqn:Tc in E.
            + apply nests_test in Tc; [|assumption..]. cbn [nests] in Tc. lia.
            + rewrite Pk in E. inversion E; auto.
          - apply rloop_none in E; [|exact Oc]. rewrite Pk in E. exact E. }
        destruct Es as [-> ->]. exists q, l. auto 10.
      * left. inversion E; subst. split; [reflexivity|]. split; [reflexivity|].
        intro N. apply nests_test in N; [|assumption..]. rewrite Te in N. discriminate N.
    + left. change (rloop (S fuel) (Leaf a) (tv_pcd op) lg nl s = POk r s') in E. apply rloop_none in E; [|exact Oa].
      destruct E as [-> ->]. split; [reflexivity|]. split; [reflexivity|]. intros [].
Qed.

(** ** Acceptance *)
Definition legal (lg nl : bool) (lhs : btree A) (l : list (tv * A)) : Prop :=
  flags lg nl l /\ lhsok lhs l /\ tailok l /\ powok l /\ Forall (fun x => is_arrow (snd x) = false) l.

Lemma unary_suffix : forall (l1 l2 : list (tv * A)) a, ~ unary_base is_unary a (l1 ++ l2) -> tailok l2.
Proof.
  induction l1 as [|[op b] l1 IH]; intros l2 a H.
  - destruct l2 as [|[op b] l2]; [exact Logic.I|]. cbn in *. intro X. apply H. constructor. exact X.
  - cbn in H. apply (IH l2 b). intro X. apply H. constructor. exact X.
Qed.

Lemma legal_step : forall lg nl lhs op a l, legal lg nl lhs ((op, a) :: l) ->
  legal (lg || tv_eqb op T_AND || tv_eqb op T_OR) (nl || tv_eqb op T_NULLISH) (Leaf a) l.
Proof.
  intros lg nl lhs op a l ((M & Fl & Fn) & _ & T & P & Ar). inversion Ar; subst.
  split; [|split; [exact T|split; [|split; [|assumption]]]].
  - split; [intros [X Y]; apply M; split; [right; exact X|destruct Y; [left|right]; right; assumption]|]. split.
    + intros E X. rewrite !orb_true_iff, !tv_eqb_spec in E. destruct E as [[E|E]|E].
      * apply (Fl E). right. exact X.
      * apply M. split; [right; exact X|left; left; exact E].
      * apply M. split; [right; exact X|right; left; exact E].
    + intros E. rewrite orb_true_iff, tv_eqb_spec in E. destruct E as [E|E].
      * destruct (Fn E) as [U V]. split; intro X; [apply U|apply V]; right; exact X.
      * split; intro X; apply M; (split; [left; exact E|]); [left|right]; right; exact X.
  - cbn in T. destruct l as [|[q b] l]; [exact Logic.I|]. cbn. intro X. apply T. constructor. exact X.
  - intro X. apply P. right. exact X.
Qed.

Lemma legal_suffix : forall lg nl a l1 l2 op o h x y, legal lg nl (Leaf a) (l1 ++ l2) -> legal lg nl (Bin op o h x y) l2.
Proof.
  intros lg nl a l1 l2 op o h x y ((M & Fl & Fn) & H & T & P & Ar).
  apply Forall_app in Ar. destruct Ar as [_ Ar].
  assert (Sf : forall z, In z (map fst l2) -> In z (map fst (l1 ++ l2))).
  { intros z Z. rewrite map_app. apply in_app_iff. right. exact Z. }
  split; [|split; [exact Logic.I|split; [|split; [|exact Ar]]]].
  - split; [intros [X Y]; apply M; split; [auto|destruct Y; auto]|]. split.
    + intros E X. apply (Fl E). auto.
    + intros E. destruct (Fn E) as [U V]. split; intro X; [apply U|apply V]; auto.
  - eapply unary_suffix. exact H.
  - intro X. apply P. auto.
Qed.

Lemma rloop_none_ok : forall fuel r pcd lg nl s, op_at s = None -> 3 <= fuel -> rloop fuel r pcd lg nl s = POk r (peeked s).
Proof.
  intros fuel r pcd lg nl s N L. destruct fuel as [|[|fuel]]; [lia..|].
  rewrite rloop_S. unfold operator_at in N. destruct (is_bin not_in ts (peek s)) as [op|] eqn:B; [|reflexivity].
  destruct (tv_eqb op T_GT && not_gt) eqn:G; [|discriminate N].
  destruct (Nat.ltb pcd (tv_pcd op) || Nat.eqb (tv_pcd op) pcd && tv_rassoc op); [|reflexivity].
  rewrite loop_S. change (peek (peeked s)) with (peek s). rewrite B, G, orb_true_r. cbn [pbind].
  rewrite rloop_S. change (peek (peeked (peeked s))) with (peek s). rewrite B, Nat.ltb_irrefl, Nat.eqb_refl. cbn [orb andb].
  apply andb_prop in G. destruct G as [G _]. apply tv_eqb_spec in G. subst op. reflexivity.
Qed.

Lemma loop_total : forall n fuel lhs min lg nl s l e, length l <= n -> 2 * length l + 4 <= fuel ->
  seg s l e -> op_at e = None ->
  (loop fuel lhs (6 + min) lg nl s = PErr /\ ~ legal lg nl lhs l)
  \/ exists t l1 l2 s1, loop fuel lhs (6 + min) lg nl s = POk t s1 /\ l = l1 ++ l2 /\ seg s l1 s1 /\ seg s1 l2 e
       /\ match headop l2 None with Some q => rank q < min | None => True end.
Proof.
  induction n as [|n IH]; intros fuel lhs min lg nl s l e Ln Lf Sg E.
  - destruct l as [|]; [|cbn in Ln; lia]. inversion Sg; subst. right. exists lhs, [], [], (peeked s).
    destruct fuel as [|fuel]; [cbn in Lf; lia|]. rewrite loop_S. unfold operator_at in E. change (peek (peeked s)) with (peek s) in E.
    split; [|split; [reflexivity|split; [constructor|split; [apply seg_peeked; constructor|exact Logic.I]]]].
    destruct (is_bin not_in ts (peek s)) as [op|]; [|reflexivity].
    destruct (tv_eqb op T_GT && not_gt); [|discriminate E]. rewrite orb_true_r. reflexivity.
  - destruct l as [|[op a] l]; [apply IH; [cbn; lia|assumption..]|]. cbn [length] in Ln, Lf.
    inversion Sg as [|? ? ? s1 ? ? Oa Oo Sg1]; subst. destruct (op_at_bin _ _ Oa) as (B & G & I).
    destruct (op_facts _ I) as (Pc & _ & L10 & _).
    destruct fuel as [|fuel]; [lia|]. rewrite loop_S, B, G, orb_false_r.
    destruct (Nat.ltb_spec (tv_pcd op) (6 + min)) as [Lt|Ge].
    { right. exists lhs, [], ((op, a) :: l), (peeked s). split; [reflexivity|]. split; [reflexivity|]. split; [constructor|].
      split; [apply seg_peeked; exact Sg|]. cbn. lia. }
    destruct (lg && tv_eqb op T_NULLISH || nl && (tv_eqb op T_AND || tv_eqb op T_OR)) eqn:Mx.
    { left. split; [reflexivity|]. intros ((_ & Fl & Fn) & _). apply orb_prop in Mx. destruct Mx as [Mx|Mx]; apply andb_prop in Mx; destruct Mx as [X Y].
      - apply (Fl X). left. apply tv_eqb_spec. exact Y.
      - destruct (Fn X) as [U V]. rewrite orb_true_iff, !tv_eqb_spec in Y. destruct Y; [apply U|apply V]; left; assumption. }
    destruct (tv_eqb (pval s) T_POW && negb (has feat FEAT_POW)) eqn:Fp.
    { left. split; [reflexivity|]. intros (_ & _ & _ & P & _). apply andb_prop in Fp. destruct Fp as [X Y].
      rewrite P in Y; [discriminate Y|]. left. cbn [fst]. apply tv_eqb_spec in X. unfold pval in X. unfold is_bin in B.
      rewrite X in B. vm_compute in B. inversion B. reflexivity. }
    rewrite Oo. cbn [pbind].
    set (lg' := lg || tv_eqb op T_AND || tv_eqb op T_OR). set (nl' := nl || tv_eqb op T_NULLISH).
    assert (Hr : (rloop fuel (Leaf a) (tv_pcd op) lg' nl' s1 = PErr /\ ~ legal lg' nl' (Leaf a) l)
      \/ exists r l1 l2 s2, rloop fuel (Leaf a) (tv_pcd op) lg' nl' s1 = POk r s2 /\ l = l1 ++ l2 /\ seg s1 l1 s2 /\ seg s2 l2 e).
    { destruct (op_at s1) as [q|] eqn:Oq.
      - destruct (op_at_bin _ _ Oq) as (Bq & Gq & Iq). destruct fuel as [|fuel]; [lia|]. rewrite rloop_S, Bq.
        destruct (Nat.ltb (tv_pcd op) (tv_pcd q) || Nat.eqb (tv_pcd q) (tv_pcd op) && tv_rassoc q) eqn:Te.
        + destruct (op_facts _ Iq) as (Pq & _). rewrite Pq.
          destruct (IH fuel (Leaf a) (rank q) lg' nl' (peeked s1) l e) as [(X & Y)|(t & l1 & l2 & s2 & X & Y & S1 & S2 & Hd)];
            [lia|lia|apply seg_peeked; exact Sg1|exact E|..]; rewrite X; cbn [pbind]; [left; auto|right].
          exists t, l1, l2, s2. assert (S1' : seg s1 l1 s2) by (apply seg_peeked; exact S1).
          pose proof (seg_end_peeked _ _ _ S1) as Pk.
          split; [|auto]. pose proof (seg_head _ _ _ S2) as Hh. rewrite E in Hh.
          destruct (op_at s2) as [c|] eqn:Oc.
          * destruct fuel as [|fuel]; [lia|]. rewrite rloop_S. destruct (op_at_bin _ _ Oc) as (Bc & _ & Ic). rewrite Bc, <- Pq.
            destruct (Nat.ltb (tv_pcd q) (tv_pcd c) || Nat.eqb (tv_pcd c) (tv_pcd q) && tv_rassoc c) eqn:Tc; [|rewrite Pk; reflexivity].
            apply nests_test in Tc; [|assumption..]. cbn [nests] in Tc. rewrite Hh in Hd. lia.
          * rewrite rloop_none_ok; [rewrite Pk; reflexivity|exact Oc|lia].
        + right. exists (Leaf a), [], l, (peeked s1). split; [reflexivity|]. split; [reflexivity|].
          split; [constructor|apply seg_peeked; exact Sg1].
      - right. exists (Leaf a), [], l, (peeked s1). split; [apply rloop_none_ok; [exact Oq|lia]|]. split; [reflexivity|].
        split; [constructor|apply seg_peeked; exact Sg1]. }
    destruct Hr as [(X & Y)|(r & l1 & l2 & s2 & X & -> & S1 & S2)]; rewrite X; cbn [pbind].
    { left. split; [reflexivity|]. intro Lg. apply Y. exact (legal_step _ _ _ _ _ _ Lg). }
    destruct (match lhs with Leaf x => is_unary x | Bin _ _ _ _ _ => false end && tv_eqb op T_POW) eqn:Un.
    { left. split; [reflexivity|]. intros (_ & U & _). apply andb_prop in Un. destruct Un as [Ux Uo]. apply tv_eqb_spec in Uo. subst op.
      destruct lhs as [x|]; [|discriminate Ux]. apply U. constructor. exact Ux. }
    destruct (match r with Leaf x => is_arrow x | Bin _ _ _ _ _ => false end) eqn:Ar.
    { left. split; [reflexivity|]. intros (_ & _ & _ & _ & F). inversion F as [|? ? Fa Fr]; subst. cbn [snd] in Fa.
      destruct (loop_ok fuel) as [_ Hk]. destruct (Hk a op lg' nl' s1 r s2 I X) as [(-> & _)|(q & la & Hq & _ & _ & K & _)].
      - congruence.
      - destruct (climb_yield _ _ _ _ _ _ K) as [_ Fo]. destruct r as [x|]; [|discriminate Ar].
        destruct la as [|[c d] la]; [discriminate Hq|discriminate Fo]. }
    destruct (IH fuel (Bin op (t_lo (peek s), t_hi (peek s)) (p_end s2) lhs r) min lg' nl' s2 l2 e) as
      [(Z & W)|(t & l3 & l4 & s3 & Z & -> & S3 & S4 & Hd)].
    + rewrite app_length in Ln. lia.
    + rewrite app_length in Lf. lia.
    + exact S2.
    + exact E.
    + left. split; [exact Z|]. intro Lg. apply W. eapply legal_suffix. exact (legal_step _ _ _ _ _ _ Lg).
    + right. exists t, ((op, a) :: l1 ++ l3), l4, s3. split; [exact Z|]. split; [cbn; rewrite app_assoc; reflexivity|].
      split; [eapply Sg_op; [exact Oa|exact Oo|eapply seg_app; eassumption]|]. split; [exact S4|exact Hd].
Qed.

(** Every operator has a precedence of at least 6. *)
Lemma loop_min : forall fuel lhs lg nl s, loop fuel lhs (6 + 0) lg nl s = loop fuel lhs 0 lg nl s.
Proof.
  induction fuel as [|f IH]; intros lhs lg nl s; [reflexivity|].
  rewrite !loop_S. destruct (is_bin not_in ts (peek s)) as [op|] eqn:B; [|reflexivity].
  destruct (op_facts _ (bin_in _ _ _ _ B)) as (-> & _).
  replace (Nat.ltb (6 + rank op) (6 + 0)) with false by (symmetry; apply Nat.ltb_ge; lia).
  replace (Nat.ltb (6 + rank op) 0) with false by (symmetry; apply Nat.ltb_ge; lia).
  destruct (false || _); [reflexivity|]. destruct (_ || _); [reflexivity|]. destruct (tv_eqb (pval s) T_POW && _); [reflexivity|].
  destruct (opnd op (next s)) as [x s2| | | ]; [|reflexivity..]. cbn [pbind].
  destruct (rhs_loop _ _ _ _ _ _ _ _ _ _ _ _ _ s2) as [r s3| | | ]; [|reflexivity..]. cbn [pbind].
  destruct (_ && tv_eqb op T_POW); [reflexivity|]. destruct (match r with Leaf _ => _ | Bin _ _ _ _ _ => _ end); [reflexivity|].
  apply IH.
Qed.

(** A whole chain. *)
Lemma bin_expr_ok : forall fuel s t s', bin_expr unary typ is_unary is_arrow feat ts not_in not_gt fuel None s = POk t s' ->
  exists s0, unary s = POk (first t) s0 /\ seg s0 (following t) s' /\ op_at s' = None
    /\ climb (Leaf (first t)) 0 (following t) t None
    /\ ~ mixed (following t) /\ ~ unary_base is_unary (first t) (following t) /\ powok (following t).
Proof.
  intros fuel s t s' E. unfold bin_expr in E. destruct (unary s) as [a s0| | | ] eqn:U; [|discriminate E..]. cbn [pbind] in E.
  rewrite <- loop_min in E. destruct (loop_ok fuel) as [H _].
  destruct (H _ _ _ _ _ _ _ E) as (l & S & K & Fl & Ho & _ & P).
  pose proof (climb_end _ _ _ _ _ _ K) as X. assert (N : op_at s' = None) by (destruct (op_at s') as [q|]; [lia|reflexivity]).
  destruct (climb_yield _ _ _ _ _ _ K) as [Y1 Y2]. cbn [first following app] in Y1, Y2. rewrite N in K. subst a. subst l.
  exists s0. split; [reflexivity|]. split; [exact S|]. split; [exact N|]. split; [exact K|]. split; [apply Fl|]. split; [exact Ho|exact P].
Qed.

Lemma seg_det : forall s l e, seg s l e -> op_at e = None -> forall l' e', seg s l' e' -> op_at e' = None -> l' = l /\ e' = e.
Proof.
  intros s l e H. induction H as [s|s op a s1 l s2 O P Q IH]; intros E l' e' H' E'; inversion H' as [|? op' a' s1' l1 ? O' P' Q']; subst.
  - auto.
  - change (op_at (peeked s)) with (op_at s) in E. congruence.
  - change (op_at (peeked s)) with (op_at s) in E'. congruence.
  - rewrite O in O'. inversion O'; subst op'. rewrite P in P'. inversion P'; subst. destruct (IH E _ _ Q' E') as [-> ->]. auto.
Qed.
End Run.

(** The tree of a chain is unique. *)
Lemma app_mid : forall B (l1 l2 r1 r2 : list B) x y, l1 ++ x :: r1 = l2 ++ y :: r2 ->
  (l1 = l2 /\ x = y /\ r1 = r2)
  \/ (exists u, l1 = l2 ++ y :: u /\ r2 = u ++ x :: r1)
  \/ (exists u, l2 = l1 ++ x :: u /\ r1 = u ++ y :: r2).
Proof.
  intros B l1. induction l1 as [|a l1 IH]; intros l2 r1 r2 x y E.
  - destruct l2 as [|b l2]; cbn in E; inversion E; subst; [auto|]. right. right. exists l2. auto.
  - destruct l2 as [|b l2]; cbn in E; inversion E; subst.
    + right. left. exists l1. auto.
    + destruct (IH _ _ _ _ _ H1) as [(-> & -> & ->)|[(u & -> & ->)|(u & -> & ->)]]; [auto|right; left; exists u; auto|right; right; exists u; auto].
Qed.

Lemma derives_ranks : forall A n (t : btree A), derives n t -> Forall (fun x => n <= rank (fst x)) (following t).
Proof.
  intros A n t D. induction D; cbn [following]; [constructor|..]; apply at_level_inv in H; destruct H as [-> _];
    (apply Forall_app; split; [eapply Forall_impl; [|exact IHD1]; cbn; intros; lia|]);
    (constructor; [cbn; lia|eapply Forall_impl; [|exact IHD2]; cbn; intros; lia]).
Qed.

(** Forgetting the positions. *)
Fixpoint shape {A} (t : btree A) : btree A :=
  match t with Leaf a => Leaf a | Bin op _ _ l r => Bin op (0, 0) 0 (shape l) (shape r) end.

Lemma derives_unique : forall A (t1 t2 : btree A) n m, derives n t1 -> derives m t2 -> first t1 = first t2 ->
  following t1 = following t2 -> shape t1 = shape t2.
Proof.
  intros A t1. induction t1 as [a|op o h l1 IHl r1 IHr]; intros t2 n m D1 D2 F G.
  - destruct t2 as [b|op o h l r]; cbn in *; [congruence|]. destruct (following l); discriminate G.
  - destruct t2 as [b|op2 o2 h2 l2 r2]; cbn in *; [destruct (following l1); discriminate G|].
    assert (X : exists b1, at_level op (rank op) b1 /\ derives (if b1 then S (rank op) else rank op) l1 /\ derives (if b1 then rank op else S (rank op)) r1).
    { inversion D1 as [|? ? ? ? ? ? ? La|? ? ? ? ? ? ? La]; subst; pose proof (at_level_inv _ _ _ La) as [-> _]; [exists false|exists true]; auto. }
    assert (Y : exists b2, at_level op2 (rank op2) b2 /\ derives (if b2 then S (rank op2) else rank op2) l2 /\ derives (if b2 then rank op2 else S (rank op2)) r2).
    { inversion D2 as [|? ? ? ? ? ? ? La|? ? ? ? ? ? ? La]; subst; pose proof (at_level_inv _ _ _ La) as [-> _]; [exists false|exists true]; auto. }
    destruct X as (b1 & L1 & Dl1 & Dr1). destruct Y as (b2 & L2 & Dl2 & Dr2).
    pose proof (derives_ranks _ _ _ Dl1) as Rl1. pose proof (derives_ranks _ _ _ Dr1) as Rr1.
    pose proof (derives_ranks _ _ _ Dl2) as Rl2. pose proof (derives_ranks _ _ _ Dr2) as Rr2.
    assert (Same : rank op = rank op2 -> b1 = b2).
    { intro E. rewrite E in L1. destruct L1 as (x & N1 & _). destruct L2 as (y & N2 & _). rewrite N1 in N2. inversion N2. reflexivity. }
    destruct (app_mid _ _ _ _ _ _ _ G) as [(El & Ex & Er)|[(u & El & Er)|(u & El & Er)]].
    + inversion Ex; subst op2. cbn. f_equal; [eapply IHl; eauto|eapply IHr; eauto].
    + exfalso. rewrite El in Rl1. rewrite Er in Rr2. apply Forall_app in Rl1, Rr2. destruct Rl1 as [_ R1]. destruct Rr2 as [_ R2].
      inversion R1 as [|? ? R1a _]; subst. inversion R2 as [|? ? R2a _]; subst. cbn [fst] in R1a, R2a.
      destruct b1, b2; first [lia|assert (E : rank op = rank op2) by lia; specialize (Same E); discriminate Same].
    + exfalso. rewrite El in Rl2. rewrite Er in Rr1. apply Forall_app in Rl2, Rr1. destruct Rl2 as [_ R1]. destruct Rr1 as [_ R2].
      inversion R1 as [|? ? R1a _]; subst. inversion R2 as [|? ? R2a _]; subst. cbn [fst] in R1a, R2a.
      destruct b1, b2; first [lia|assert (E : rank op = rank op2) by lia; specialize (Same E); discriminate Same].
Qed.
