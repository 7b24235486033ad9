(** Proofs about building control flow graphs: expressions. *)
From Coq Require Import Permutation ZifyBool ZifyNat.
From Verif Require Import Base GraphModel FlowModel FlowSpec FlowProofs FlowFrag FlowSteps FlowCat FlowGlue FlowPool FlowFork.

Definition reach (F : frag) (t : list nat) : Prop := exists y, fR F t y.
(** What the tag of the edge left through says about the value. *)
Definition jok (e : expr) (b : bool) (v : val) : Prop :=
  match root e with
  | Some B_and => b = false /\ v <> V_true
  | Some B_or => if b then v = V_true else v <> V_true
  | Some B_nullish => b = true /\ v <> V_null
  | _ => False
  end.
Record xspec (es : bool) (e : expr) (F : frag) : Prop := {
  x_b : fb F = true; x_K : fK F = []; x_o : In (fo F) (fI F);
  x_cov : forall t v, eval e t v -> exists y, fR F t y /\ forall b, fJ F y (Some b) -> jok e b v;
  x_no : es = true \/ plain e = true -> noJ F }.
Lemma xspec_plain : forall es e F, fb F = true -> fK F = [] -> In (fo F) (fI F) -> noJ F -> (forall t v, eval e t v -> reach F t) -> xspec es e F.
Proof.
  intros es e F H1 H2 H3 H4 H5. split; auto. intros t v Q. destruct (H5 t v Q) as [y R]. exists y. split; [exact R|]. intros b J. exfalso. exact (H4 _ _ J).
Qed.
Lemma ok_ext : forall h h' l, ok h l -> nx h' = nx h -> (forall n, bl h' n = bl h n) -> (forall n, mp h' n = mp h n) -> (forall n, ed h' n = ed h n) -> ok h' l.
Proof.
  intros h h' l [A B] E1 E2 E3 E4. split; [|exact B]. intros t I. destruct (A t I) as (W & Q & S).
  assert (Sm : same (tp t) h h') by (split; auto; lia). split; [eapply wf_same; eauto|]. split; [eapply S; eauto|exact S].
Qed.
Lemma add_none : forall h l v, ok h l -> ok (add_outs h v []) l.
Proof. intros h l v O. eapply ok_ext; [exact O|reflexivity|reflexivity| |reflexivity]. intro n. cbn. unfold upd. destruct (Nat.eqb_spec n (om (bl h v))) as [->|]; [|reflexivity]. unfold merge_set. cbn. apply app_nil_r. Qed.
Lemma no_x_jmp : forall h F rest b, ok h (Fr F :: rest) -> noJ F -> rb (fP F) b -> x_jmp h b = [].
Proof.
  intros h F rest b O N R. destruct (ok_Fr _ _ _ O) as [W V]. destruct (x_jmp h b) as [|x l] eqn:E; [reflexivity|].
  destruct (valid_x_jmp F h b x W V R) as [k Q]; [rewrite E; left; reflexivity|]. exfalso. exact (N x k Q).
Qed.
Lemma ok_rot : forall h a b c l, ok h (a :: b :: c :: l) -> ok h (c :: b :: a :: l).
Proof. intros h a b c l. apply ok_perm. eapply perm_trans; [apply perm_swap|]. eapply perm_trans; [constructor; apply perm_swap|]. apply perm_swap. Qed.
Lemma noJ_is : forall F I o b K J R, is_frag F I o b K J R -> (forall x k, ~ J x k) -> noJ F.
Proof. intros F I o b K J R (_ & _ & _ & _ & E & _) H x k. rewrite E. apply H. Qed.
Lemma ok_rb : forall h F rest, ok h (Fr F :: rest) -> rb (fP F) (fo F).
Proof. intros h F rest O. destruct (ok_Fr _ _ _ O) as [_ V]. apply (v_o _ _ V). Qed.
Lemma ok_I : forall h F rest i, ok h (Fr F :: rest) -> In i (fI F) -> rb (fP F) i.
Proof. intros h F rest i O I. destruct (ok_Fr _ _ _ O) as [_ V]. apply (k_i _ _ _ _ _ _ (v_base _ _ V) i I). Qed.
Lemma ok_neq : forall h A B rest a b, ok h (Fr A :: Fr B :: rest) -> rb (fP A) a -> rb (fP B) b -> a <> b.
Proof. intros h A B rest a b O HA HB E. destruct (ok_disj _ _ _ _ O) as (D & _). apply (D a HA). rewrite E. exact HB. Qed.
Lemma noJ_blk : forall n k l, noJ (blkF n k l).
Proof. intros n k l x c []. Qed.

Ltac take a r k := lazymatch r with a :: ?t => k (@nil thing) t | ?b :: ?t => take a t ltac:(fun p q => k (b :: p) q) end.
Ltac perm := lazymatch goal with
  | |- Permutation ?x ?x => apply Permutation_refl
  | |- Permutation (?a :: ?l) ?r => take a r ltac:(fun p q => apply (@Permutation_cons_app thing l p q a); cbn [app]; perm)
  end.
Ltac arrange O := eapply ok_perm; [|exact O]; perm.

Section Order.
Variable order : heap -> list nat -> list nat.
Hypothesis Hperm : forall h l, Permutation (order h l) l.

(** A fragment without jumps ends in a new block and is grouped. *)
Definition finished (A F : frag) (v : nat) : Prop :=
  fo F = v /\ fb F = fb A /\ fK F = [] /\ fI F = v :: fI A /\ noJ F /\ (forall t, reach A t -> reach F t) /\ (forall n, rb (fP A) n -> rb (fP F) n).
Lemma fin_jmp : forall h A n k rest enter ft tt, ok h (Fr A :: Fr (blkF n BK_BASIC [IExit k]) :: rest) -> fK A = [] -> In enter (fI A) -> any_tag ft ->
  exists h1 h2 v h3 F, link order h (Some (fo A)) EK_JMP ft EK_JMP tt (Some n) LF_NONE = Some h1 /\ link_seq order h1 (Some (fo A)) (Some n) = Some h2
    /\ grp h2 (Some enter) (Some n) = Some (Some v, h3) /\ ok h3 (Fr F :: rest) /\ finished A F v.
Proof using Hperm.
  intros h A n k rest enter ft tt O KA Ie Hft.
  assert (Ne : n <> enter) by (apply not_eq_sym; eapply ok_neq; [exact O|eapply ok_I; eauto|reflexivity]).
  destruct (close_into order Hperm h A _ rest n ft tt O KA (or_introl eq_refl) Hft) as (h1 & h2 & F & L1 & L2 & O2 & (I1 & I2 & I3 & I4 & I5 & I6) & Sub).
  destruct (grp_ok h2 F rest enter O2) as (v & h3 & F' & G & O3 & (J1 & J2 & J3 & J4 & J5 & J6) & _ & Sub2); [rewrite I1; exact Ie|rewrite I2; exact Ne|].
  exists h1, h2, v, h3, F'. split; [exact L1|]. split; [exact L2|]. rewrite I2 in G. split; [exact G|]. split; [exact O3|].
  split; [exact J2|]. split; [rewrite J3, I3; cbn; apply andb_true_r|]. split; [rewrite J4, I4; reflexivity|]. split; [rewrite J1, I1; reflexivity|].
  split; [intros x c; rewrite J5, I5; cbn; tauto|]. split; [|auto]. intros t [y R]. exists (4 + n). rewrite J6, I6. exists t, [], y. cbn. rewrite app_nil_r. auto.
Qed.
Lemma fin_seq : forall h A n k rest enter, ok h (Fr A :: Fr (blkF n BK_BASIC [IExit k]) :: rest) -> noJ A -> fK A = [] -> In enter (fI A) ->
  exists h2 v h3 F, link_seq order h (Some (fo A)) (Some n) = Some h2
    /\ grp h2 (Some enter) (Some n) = Some (Some v, h3) /\ ok h3 (Fr F :: rest) /\ finished A F v.
Proof using Hperm.
  intros h A n k rest enter O NA KA Ie.
  assert (Ne : n <> enter) by (apply not_eq_sym; eapply ok_neq; [exact O|eapply ok_I; eauto|reflexivity]).
  destruct (seq_into order Hperm h A _ rest n 0 EK_SEQ 0 LF_NONE O NA KA (or_introl eq_refl) eq_refl) as (h2 & F & L2 & O2 & (I1 & I2 & I3 & I4 & I5 & I6) & Sub).
  destruct (grp_ok h2 F rest enter O2) as (v & h3 & F' & G & O3 & (J1 & J2 & J3 & J4 & J5 & J6) & _ & Sub2); [rewrite I1; exact Ie|rewrite I2; exact Ne|].
  exists h2, v, h3, F'. split; [exact L2|]. rewrite I2 in G. split; [exact G|]. split; [exact O3|].
  split; [exact J2|]. split; [rewrite J3, I3; cbn; apply andb_true_r|]. split; [rewrite J4, I4; reflexivity|]. split; [rewrite J1, I1; reflexivity|].
  split; [intros x c; rewrite J5, I5; cbn; tauto|]. split; [|auto]. intros t [y R]. exists (4 + n). rewrite J6, I6. exists t, [], y. cbn. rewrite app_nil_r. auto.
Qed.
Lemma fin_spec : forall A F v es e, finished A F v -> fb A = true -> (forall t u, eval e t u -> reach A t) -> xspec es e F.
Proof.
  intros A F v es e (H1 & H2 & H3 & H4 & H5 & H6 & _) B C. apply xspec_plain; auto; [congruence|rewrite H1, H4; left; reflexivity|]. intros t u Q. eapply H6, C, Q.
Qed.
Lemma new_exit_ok : forall k h rest, ok h rest -> exists n h', new_exit k h = (n, h') /\ ok h' (Fr (blkF n BK_BASIC [IExit k]) :: rest).
Proof. intros k h rest O. destruct (new_blk_ok BK_BASIC [IExit k] h rest) as [E O']; [discriminate|exact O|]. exists (nx h), (snd (new_exit k h)). split; [|exact O']. unfold new_exit in *. destruct (new_blk _ _ h). cbn in *. rewrite E. reflexivity. Qed.

(** The enter block of an expression. *)
Definition enterF (n : nat) (k : nkind) : frag := blkF n BK_BASIC [IEnter k].

Section Ops.
Variables (h : heap) (n : nat) (kd : nkind) (rest : list thing).
Let E := enterF n kd.

(** [E] followed by [L]. *)
Lemma enter_ok : forall g L more k, ok g (Fr E :: Fr L :: more) -> In (fo L) (fI L) ->
  exists g' F, link order g (Some n) EK_SEQ 0 k 0 (Some (fo L)) LF_NONE = Some g' /\ ok g' (Fr F :: more)
    /\ fI F = [n] /\ fo F = fo L /\ fb F = fb L /\ fK F = fK L /\ fJ F = fJ L /\ (forall t y, fR L t y -> fR F t y) /\ (forall b, rb (fP L) b -> rb (fP F) b) /\ fo L <> n.
Proof using Hperm.
  intros g L more k O Io.
  destruct (seq_into order Hperm g E L more (fo L) 0 k 0 LF_NONE O (noJ_blk _ _ _) eq_refl Io eq_refl) as (g' & F & L1 & O1 & (I1 & I2 & I3 & I4 & I5 & I6) & Sub).
  exists g', F. split; [exact L1|]. split; [exact O1|]. split; [exact I1|]. split; [exact I2|]. split; [exact I3|]. split; [exact I4|]. split; [exact I5|].
  split; [|split; [auto|]]. 2: { apply not_eq_sym. eapply ok_neq; [exact O|reflexivity|apply (ok_rb g L more), (ok_tail _ _ _ O)]. }
  intros t y R. rewrite I6. exists [], t, (4 + n). split; [reflexivity|]. split; [split; reflexivity|exact R].
Qed.
Lemma unary_ok : forall es L x, ok h (Fr L :: Fr E :: rest) -> xspec false x L -> plain x = true ->
  exists v h' F, after_unary order h (Some n) (Some (fo L)) = Some (Some v, h') /\ ok h' (Fr F :: rest) /\ fo F = v /\ xspec es (One W_unary x) F.
Proof using Hperm.
  intros es L x O [xb xk xo xc xn] Pl. unfold after_unary. destruct (new_exit_ok K_UNARY h _ O) as (m & h1 & -> & O1).
  destruct (enter_ok h1 L (Fr (blkF m BK_BASIC [IExit K_UNARY]) :: rest) EK_SEQ) as (h2 & F1 & L1 & O2 & I1 & I2 & I3 & I4 & I5 & I6 & _ & Ne); [|exact xo|].
  { eapply ok_perm; [|exact O1]. eapply perm_trans; [constructor; apply perm_swap|]. eapply perm_trans; [apply perm_swap|]. constructor. apply perm_swap. }
  unfold link_seq at 1. rewrite L1.
  destruct (grp_ok h2 F1 _ n O2) as (v1 & h3 & F2 & G1 & O3 & (J1 & J2 & J3 & J4 & J5 & J6) & _ & _); [rewrite I1; left; reflexivity|congruence|].
  rewrite I2 in G1. rewrite G1. 
  destruct (fin_seq h3 F2 m K_UNARY rest n O3) as (h4 & v & h5 & F & L2 & G2 & O5 & Fin).
  { intros y k. rewrite J5, I5. apply (xn (or_intror Pl)). } { congruence. } { rewrite J1, I1. right. left. reflexivity. }
  rewrite J2 in L2. rewrite L2, G2. exists v, h5, F. split; [reflexivity|]. split; [exact O5|]. split; [apply Fin|].
  eapply fin_spec; [exact Fin|congruence|]. intros t u [w Q]. destruct (xc t w Q) as (y & R & _). exists y. rewrite J6. auto.
Qed.
Lemma paren_ok : forall es L x, ok h (Fr L :: Fr E :: rest) -> xspec false x L ->
  exists v h' F, after_paren order h (Some n) (Some (fo L)) = Some (Some v, h') /\ ok h' (Fr F :: rest) /\ fo F = v /\ xspec es (One W_paren x) F.
Proof using Hperm.
  intros es L x O [xb xk xo xc xn]. unfold after_paren.
  destruct (enter_ok h L rest EK_SEQ (ok_swap _ _ _ _ O) xo) as (h1 & F1 & L1 & O1 & I1 & I2 & I3 & I4 & I5 & I6 & _ & Ne).
  unfold link_seq at 1. rewrite L1. destruct (new_exit_ok K_PAREN h1 _ O1) as (m & h2 & -> & O2).
  destruct (fin_jmp h2 F1 m K_PAREN rest n 0 0 (ok_swap _ _ _ _ O2)) as (h3 & h4 & v & h5 & F & L3 & L4 & G & O5 & Fin); [congruence|rewrite I1; left; reflexivity|left; reflexivity|].
  rewrite I2 in *. unfold link_jmp. rewrite L3, L4, G. exists v, h5, F. split; [reflexivity|]. split; [exact O5|]. split; [apply Fin|].
  eapply fin_spec; [exact Fin|congruence|]. cbn. intros t u Q. destruct (xc t u Q) as (y & R & _). exists y. auto.
Qed.
Lemma spread_ok : forall es L x, ok h (Fr L :: Fr E :: rest) -> xspec false x L ->
  exists v h' F, after_spread order h (Some n) (Some (fo L)) = Some (Some v, h') /\ ok h' (Fr F :: rest) /\ fo F = v /\ xspec es (One W_spread x) F.
Proof using Hperm.
  intros es L x O [xb xk xo xc xn]. unfold after_spread. destruct (new_exit_ok K_SPREAD h _ O) as (m & h1 & -> & O1).
  destruct (enter_ok h1 L (Fr (blkF m BK_BASIC [IExit K_SPREAD]) :: rest) EK_SEQ) as (h2 & F1 & L1 & O2 & I1 & I2 & I3 & I4 & I5 & I6 & _ & Ne); [|exact xo|].
  { eapply ok_perm; [|exact O1]. eapply perm_trans; [constructor; apply perm_swap|]. eapply perm_trans; [apply perm_swap|]. constructor. apply perm_swap. }
  unfold link_seq at 1. rewrite L1.
  destruct (grp_ok h2 F1 _ n O2) as (v1 & h3 & F2 & G1 & O3 & (J1 & J2 & J3 & J4 & J5 & J6) & _ & _); [rewrite I1; left; reflexivity|congruence|].
  rewrite I2 in G1. rewrite G1.
  destruct (fin_jmp h3 F2 m K_SPREAD rest n 0 0 O3) as (h4 & h4' & v & h5 & F & L2 & L3 & G2 & O5 & Fin).
  { congruence. } { rewrite J1, I1. right. left. reflexivity. } { left. reflexivity. }
  rewrite J2 in *. unfold link_jmp. rewrite L2, L3, G2. exists v, h5, F. split; [reflexivity|]. split; [exact O5|]. split; [apply Fin|].
  eapply fin_spec; [exact Fin|congruence|]. intros t u [w Q]. destruct (xc t w Q) as (y & R & _). exists y. rewrite J6. auto.
Qed.
Lemma assign_ok : forall es L R l r, ok h (Fr R :: Fr L :: Fr E :: rest) -> xspec false l L -> xspec false r R -> plain l = true ->
  exists v h' F, after_assign order h (Some n) (Some (fo L)) (Some (fo R)) = Some (Some v, h') /\ ok h' (Fr F :: rest) /\ fo F = v /\ xspec es (Assign l r) F.
Proof using Hperm.
  intros es L R l r O [lb lk lo lc ln] [rb' rk ro rc rn] Pl. unfold after_assign. destruct (new_exit_ok K_ASSIGN h _ O) as (m & h1 & -> & O1).
  set (X := blkF m BK_BASIC [IExit K_ASSIGN]) in *.
  destruct (enter_ok h1 L (Fr R :: Fr X :: rest) EK_SEQ) as (h2 & F1 & L1 & O2 & I1 & I2 & I3 & I4 & I5 & I6 & _ & Ne); [arrange O1|exact lo|].
  unfold link_seq at 1. rewrite L1.
  destruct (seq_into order Hperm h2 F1 R _ (fo R) 0 EK_SEQ 0 LF_NONE O2) as (h3 & F2 & L2 & O3 & (J1 & J2 & J3 & J4 & J5 & J6) & _).
  { intros y k. rewrite I5. apply (ln (or_intror Pl)). } { congruence. } { exact ro. } { reflexivity. }
  unfold link_seq at 1. rewrite I2 in L2. rewrite L2.
  destruct (fin_jmp h3 F2 m K_ASSIGN rest n 0 0 O3) as (h4 & h5 & v & h6 & F & L4 & L5 & G & O6 & Fin); [congruence|rewrite J1, I1; left; reflexivity|left; reflexivity|].
  rewrite J2 in *. unfold link_jmp. rewrite L4, L5, G. exists v, h6, F. split; [reflexivity|]. split; [exact O6|]. split; [apply Fin|].
  eapply fin_spec; [exact Fin|rewrite J3, I3, lb, rb'; reflexivity|]. cbn. intros t u (t1 & t2 & v1 & -> & Q1 & Q2).
  destruct (lc t1 v1 Q1) as (y & R1 & _). destruct (rc t2 u Q2) as (z & R2 & _). exists z. rewrite J6. exists t1, t2, y. auto.
Qed.
End Ops.

(** Lists of expressions. *)
Definition chainable (F : frag) : Prop := fb F = true /\ fK F = [] /\ In (fo F) (fI F).
Lemma pop_rest_ok : forall fs h G cur rest xs, ok h (Fr G :: map Fr fs ++ rest) -> In cur (fI G) -> fb G = true -> Forall chainable fs ->
  exists h' G' cur', pop_rest order (List.length fs) h (Some cur) (map fo fs ++ xs) = Some (Some cur', h', xs) /\ ok h' (Fr G' :: rest) /\ In cur' (fI G')
    /\ fo G' = fo G /\ fK G' = fK G /\ fJ G' = fJ G /\ fb G' = true
    /\ forall ts t, Forall2 reach fs ts -> reach G t -> reach G' (concat (rev ts) ++ t).
Proof using Hperm.
  induction fs as [|f fs IH]; intros h G cur rest xs O Hc Hb Hf.
  - exists h, G, cur. repeat (split; [first [reflexivity|assumption]|]). intros ts t F R. inversion F; subst. exact R.
  - inversion Hf as [|? ? (b1 & b2 & b3) Hf']; subst. cbn [map app List.length pop_rest pop].
    destruct (close_into order Hperm h f G (map Fr fs ++ rest) cur 0 0 (ok_swap _ _ _ _ O) b2 Hc) as (h1 & h2 & F & L1 & L2 & O2 & (J1 & J2 & J3 & J4 & J5 & J6) & _); [left; reflexivity|].
    unfold link_jmp. rewrite L1, L2.
    destruct (IH h2 F (fo f) rest xs O2) as (h' & G' & cur' & E & O' & Hc' & K1 & K2 & K3 & K4 & K5); [rewrite J1; exact b3|rewrite J3, b1, Hb; reflexivity|exact Hf'|].
    exists h', G', cur'. split; [exact E|]. split; [exact O'|]. split; [exact Hc'|]. split; [congruence|]. split; [congruence|]. split; [congruence|]. split; [exact K4|].
    intros ts t Ft Rt. inversion Ft as [|? t0 ? ts' [y1 R1] Ft' E1 E2]; subst. cbn. rewrite concat_app, <- app_assoc. apply K5; [exact Ft'|].
    destruct Rt as [y2 R2]. exists y2. rewrite J6. cbn. rewrite app_nil_r. exists t0, t, y1. auto.
Qed.
Lemma pop_link_ok : forall f fs h rest xs, ok h (map Fr (f :: fs) ++ rest) -> Forall chainable (f :: fs) ->
  exists h' G hd, pop_link order (List.length (f :: fs)) h (map fo (f :: fs) ++ xs) = Some (Some hd, Some (fo f), h', xs) /\ ok h' (Fr G :: rest) /\ In hd (fI G)
    /\ fo G = fo f /\ fK G = [] /\ fb G = true /\ forall ts, Forall2 reach (f :: fs) ts -> reach G (concat (rev ts)).
Proof using Hperm.
  intros f fs h rest xs O Hf. inversion Hf as [|? ? (b1 & b2 & b3) Hf']; subst. cbn [map app List.length pop_link pop].
  destruct (pop_rest_ok fs h f (fo f) rest xs O b3 b1 Hf') as (h' & G' & cur' & E & O' & Hc' & K1 & K2 & K3 & K4 & K5). rewrite E.
  exists h', G', cur'. split; [reflexivity|]. split; [exact O'|]. split; [exact Hc'|]. split; [congruence|]. split; [congruence|]. split; [exact K4|].
  intros ts Ft. inversion Ft as [|? t ? ts' R1 Ft' E1 E2]; subst. cbn. rewrite concat_app. cbn. rewrite app_nil_r. apply K5; auto.
Qed.

Section Ops2.
Variables (h : heap) (n : nat) (kd : nkind) (rest : list thing).
Let E := enterF n kd.
(** A chain of fragments [G] from [hd] to [tl], or none. *)
Definition chain (hd tl : option nat) (o : option frag) : Prop :=
  match o with
  | Some G => exists i, hd = Some i /\ In i (fI G) /\ tl = Some (fo G) /\ fK G = [] /\ fb G = true
  | None => hd = None /\ tl = None
  end.
Definition with_chain (o : option frag) (l : list thing) : list thing := match o with Some G => Fr G :: l | None => l end.
Definition reaches (o : option frag) (t : list nat) : Prop := match o with Some G => reach G t | None => t = [] end.
Lemma elems_ok : forall es hd tl o e, ok h (with_chain o (Fr E :: rest)) -> chain hd tl o -> plain e = true -> (forall t v, eval e t v -> reaches o t) ->
  exists v h' F, after_elems order h (Some n) hd tl = Some (Some v, h') /\ ok h' (Fr F :: rest) /\ fo F = v /\ xspec es e F.
Proof using Hperm.
  intros es hd tl o e O C Pl Ev. unfold after_elems. destruct (new_exit_ok K_ELEMS h _ O) as (m & h1 & -> & O1).
  set (X := blkF m BK_BASIC [IExit K_ELEMS]) in *. destruct o as [G|]; cbn in C, O1.
  - destruct C as (i & -> & Hi & -> & Gk & Gb).
    destruct (seq_into order Hperm h1 E G (Fr X :: rest) i 0 EK_SEQ 0 LF_NONE) as (h2 & F1 & L1 & O2 & (I1 & I2 & I3 & I4 & I5 & I6) & _).
    { arrange O1. } { apply noJ_blk. } { reflexivity. } { exact Hi. } { reflexivity. }
    change (fo E) with n in L1. unfold link_seq at 1. rewrite L1.
    destruct (fin_jmp h2 F1 m K_ELEMS rest n 0 0 O2) as (h4 & h5 & v & h6 & F & L4 & L5 & Gr & O6 & Fin); [congruence|rewrite I1; left; reflexivity|left; reflexivity|].
    rewrite I2 in *. unfold link_jmp. rewrite L4, L5, Gr. exists v, h6, F. split; [reflexivity|]. split; [exact O6|]. split; [apply Fin|].
    eapply fin_spec; [exact Fin|rewrite I3, Gb; reflexivity|]. intros t u Q. destruct (Ev t u Q) as [y R]. exists y. rewrite I6. exists [], t, (4 + n). split; [reflexivity|]. split; [split; reflexivity|exact R].
  - destruct C as [-> ->].
    destruct (fin_seq h1 E m K_ELEMS rest n (ok_swap _ _ _ _ O1)) as (h4 & v & h6 & F & L5 & Gr & O6 & Fin); [apply noJ_blk|reflexivity|left; reflexivity|].
    change (fo E) with n in L5. rewrite L5, Gr. exists v, h6, F. split; [reflexivity|]. split; [exact O6|]. split; [apply Fin|].
    eapply fin_spec; [exact Fin|reflexivity|]. intros t u Q. rewrite (Ev t u Q). exists (4 + n). split; reflexivity.
Qed.
Lemma call_ok : forall es L hd tl o f e, ok h (with_chain o (Fr L :: Fr E :: rest)) -> xspec false f L -> plain f = true -> chain hd tl o -> plain e = true ->
  (forall t v, eval e t v -> exists t1 v1 t2, t = t1 ++ t2 /\ eval f t1 v1 /\ reaches o t2) ->
  exists v h' F, after_call order h (Some n) (Some (fo L)) hd tl = Some (Some v, h') /\ ok h' (Fr F :: rest) /\ fo F = v /\ xspec es e F.
Proof using Hperm.
  intros es L hd tl o f e O [lb lk lo lc ln] Plf C Pl Ev. unfold after_call. destruct (new_exit_ok K_CALL h _ O) as (m & h1 & -> & O1).
  set (X := blkF m BK_BASIC [IExit K_CALL]) in *. destruct o as [G|]; cbn in C, O1.
  - destruct C as (i & -> & Hi & -> & Gk & Gb).
    destruct (enter_ok n kd h1 L (Fr G :: Fr X :: rest) EK_SEQ) as (h2 & F1 & L1 & O2 & I1 & I2 & I3 & I4 & I5 & I6 & I7 & Ne); [fold E; arrange O1|exact lo|].
    unfold link_seq at 1. rewrite L1.
    assert (RL : rb (fP F1) (fo L)) by (apply I7; apply (ok_rb h L (Fr E :: rest)), (ok_tail _ _ _ O)).
    destruct (seq_into order Hperm h2 F1 G _ i 0 EK_SEQ 0 LF_NONE O2) as (h3 & F2 & L2 & O3 & (J1 & J2 & J3 & J4 & J5 & J6) & J7).
    { intros y k. rewrite I5. apply (ln (or_intror Plf)). } { congruence. } { exact Hi. } { reflexivity. }
    unfold link_seq at 1. rewrite I2 in L2. rewrite L2.
    destruct (fin_jmp h3 F2 m K_CALL rest n 0 0 O3) as (h4 & h5 & v & h6 & F & L4 & L5 & Gr & O6 & Fin); [congruence|rewrite J1, I1; left; reflexivity|left; reflexivity|].
    rewrite J2 in *. unfold link_jmp. rewrite L4, L5, Gr.
    rewrite (no_x_jmp h6 F rest (fo L) O6) by (apply Fin; auto).
    exists v, (add_outs h6 v []), F. split; [reflexivity|]. split; [apply add_none, O6|]. split; [apply Fin|].
    eapply fin_spec; [exact Fin|rewrite J3, I3, Gb, lb; reflexivity|]. intros t u Q. destruct (Ev t u Q) as (t1 & v1 & t2 & -> & Q1 & [z R2]).
    destruct (lc t1 v1 Q1) as (y & R1 & _). exists z. rewrite J6. exists t1, t2, y. auto.
  - destruct C as [-> ->].
    destruct (enter_ok n kd h1 L (Fr X :: rest) EK_SEQ) as (h2 & F1 & L1 & O2 & I1 & I2 & I3 & I4 & I5 & I6 & I7 & Ne); [fold E; arrange O1|exact lo|].
    unfold link_seq at 1. rewrite L1.
    assert (RL : rb (fP F1) (fo L)) by (apply I7; apply (ok_rb h L (Fr E :: rest)), O).
    destruct (fin_seq h2 F1 m K_CALL rest n O2) as (h4 & v & h6 & F & L5 & Gr & O6 & Fin).
    { intros y k. rewrite I5. apply (ln (or_intror Plf)). } { congruence. } { rewrite I1; left; reflexivity. }
    rewrite I2 in *. rewrite L5, Gr. rewrite (no_x_jmp h6 F rest (fo L) O6) by (apply Fin; auto).
    exists v, (add_outs h6 v []), F. split; [reflexivity|]. split; [apply add_none, O6|]. split; [apply Fin|].
    eapply fin_spec; [exact Fin|congruence|]. intros t u Q. destruct (Ev t u Q) as (t1 & v1 & t2 & -> & Q1 & R2). cbn in R2. subst t2. rewrite app_nil_r.
    destruct (lc t1 v1 Q1) as (y & R1 & _). exists y. auto.
Qed.
Lemma new_ok : forall es L hd tl o f e, ok h (with_chain o (Fr L :: Fr E :: rest)) -> xspec false f L -> chain hd tl o -> plain e = true ->
  (forall t v, eval e t v -> exists t1 v1 t2, t = t1 ++ t2 /\ eval f t1 v1 /\ reaches o t2) ->
  exists v h' F, after_new order h (Some n) (Some (fo L)) hd tl = Some (Some v, h') /\ ok h' (Fr F :: rest) /\ fo F = v /\ xspec es e F.
Proof using Hperm.
  intros es L hd tl o f e O [lb lk lo lc ln] C Pl Ev. unfold after_new. destruct (new_exit_ok K_NEW h _ O) as (m & h1 & -> & O1).
  set (X := blkF m BK_BASIC [IExit K_NEW]) in *.
  destruct (enter_ok n kd h1 L (with_chain o (Fr X :: rest)) EK_SEQ) as (h2 & F1 & L1 & O2 & I1 & I2 & I3 & I4 & I5 & I6 & I7 & Ne); [fold E; destruct o; cbn in *; arrange O1|exact lo|].
  unfold link_seq at 1. rewrite L1.
  destruct (grp_ok h2 F1 _ n O2) as (v1 & h3 & F2 & G1 & O3 & (J1 & J2 & J3 & J4 & J5 & J6) & _ & _); [rewrite I1; left; reflexivity|congruence|].
  rewrite I2 in G1. rewrite G1. destruct o as [G|]; cbn in C, O3.
  - destruct C as (i & -> & Hi & -> & Gk & Gb).
    destruct (close_into order Hperm h3 F2 G _ i 0 0 O3) as (h4 & h5 & F3 & L2 & L3 & O5 & (K1 & K2 & K3 & K4 & K5 & K6) & _); [congruence|exact Hi|left; reflexivity|].
    unfold link_jmp at 1. rewrite J2 in *. rewrite L2, L3.
    destruct (fin_jmp h5 F3 m K_NEW rest n 0 0 O5) as (h6 & h7 & v & h8 & F & L4 & L5 & Gr & O6 & Fin); [congruence|rewrite K1, J1, I1; right; left; reflexivity|left; reflexivity|].
    rewrite K2 in *. unfold link_jmp. rewrite L4, L5, Gr. exists v, h8, F. split; [reflexivity|]. split; [exact O6|]. split; [apply Fin|].
    eapply fin_spec; [exact Fin|rewrite K3, J3, I3, lb, Gb; reflexivity|]. intros t u Q. destruct (Ev t u Q) as (t1 & w & t2 & -> & Q1 & [z R2]).
    destruct (lc t1 w Q1) as (y & R1 & _). exists z. rewrite K6. exists t1, t2, y. rewrite J6. auto.
  - destruct C as [-> ->].
    destruct (fin_jmp h3 F2 m K_NEW rest n 0 0 O3) as (h6 & h7 & v & h8 & F & L4 & L5 & Gr & O6 & Fin); [congruence|rewrite J1, I1; right; left; reflexivity|left; reflexivity|].
    rewrite J2 in *. unfold link_jmp. rewrite L4, L5, Gr. exists v, h8, F. split; [reflexivity|]. split; [exact O6|]. split; [apply Fin|].
    eapply fin_spec; [exact Fin|congruence|]. intros t u Q. destruct (Ev t u Q) as (t1 & w & t2 & -> & Q1 & R2). cbn in R2. subst t2. rewrite app_nil_r.
    destruct (lc t1 w Q1) as (y & R1 & _). exists y. rewrite J6. auto.
Qed.
Lemma member_ok : forall es L R l r, ok h (Fr R :: Fr L :: Fr E :: rest) -> xspec false l L -> xspec false r R -> plain l = true ->
  exists v h' F, after_member order h (Some n) (Some (fo L)) (Some (fo R)) = Some (Some v, h') /\ ok h' (Fr F :: rest) /\ fo F = v /\ xspec es (Member l r) F.
Proof using Hperm.
  intros es L R l r O [lb lk lo lc ln] [rb' rk ro rc rn] Pl. unfold after_member. destruct (new_exit_ok K_MEMBER h _ O) as (m & h1 & -> & O1).
  set (X := blkF m BK_BASIC [IExit K_MEMBER]) in *.
  destruct (enter_ok n kd h1 L (Fr R :: Fr X :: rest) EK_SEQ) as (h2 & F1 & L1 & O2 & I1 & I2 & I3 & I4 & I5 & I6 & I7 & Ne); [fold E; arrange O1|exact lo|].
  unfold link_seq at 1. rewrite L1.
  assert (RL : rb (fP F1) (fo L)) by (apply I7; apply (ok_rb h L (Fr E :: rest)), (ok_tail _ _ _ O)).
  assert (RR : rb (fP R) (fo R)) by (eapply ok_rb; exact O).
  destruct (close_into order Hperm h2 F1 R _ (fo R) (N.lor ET_JMP_T ET_JMP_F) 0 O2) as (h3 & h4 & F2 & L2 & L3 & O4 & (J1 & J2 & J3 & J4 & J5 & J6) & J7); [congruence|exact ro|right; reflexivity|].
  rewrite I2 in *. rewrite L2, L3.
  destruct (fin_jmp h4 F2 m K_MEMBER rest n (N.lor ET_JMP_T ET_JMP_F) 0 O4) as (h5 & h6 & v & h7 & F & L4 & L5 & G & O6 & Fin); [congruence|rewrite J1, I1; left; reflexivity|right; reflexivity|].
  rewrite J2 in *. rewrite L4, L5, G.
  rewrite (no_x_jmp h7 F rest (fo L) O6), (no_x_jmp h7 F rest (fo R) O6) by (apply Fin; auto).
  exists v, (add_outs (add_outs h7 v []) v []), F. split; [reflexivity|]. split; [apply add_none, add_none, O6|]. split; [apply Fin|].
  eapply fin_spec; [exact Fin|rewrite J3, I3, lb, rb'; reflexivity|]. cbn. intros t u (t1 & t2 & -> & [v1 Q1] & [v2 Q2]).
  destruct (lc t1 v1 Q1) as (y & R1 & _). destruct (rc t2 v2 Q2) as (z & R2 & _). exists z. rewrite J6. exists t1, t2, y. auto.
Qed.
End Ops2.
End Order.
