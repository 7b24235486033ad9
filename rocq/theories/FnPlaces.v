(** Where the parts of functions and classes are. *)
From Coq Require Import Lia ZifyBool ZifyNat ZifyN.
From Verif Require Import Base TokenModel LexModel ParseBase BinModel BinSpec BinProofs SymtabModel EarlyModel ExprModel ExprSpec ExprProofs ExprPlaces
  StmtModel StmtSpec StmtReads StmtPlaces FnModel FnSpec FnWorld.
Set Default Proof Using "All".

Section Places.
Variables (text : token -> bytes) (Other Method Block : rng -> list token -> Prop) (Decl : rng -> list token -> token -> Prop)
  (Rest : sort -> rng -> list token -> Prop).
Hypotheses (other_fr : framed Other) (method_fr : framed Method) (block_fr : framed Block) (decl_fr : forall nx, framed (fun r ts => Decl r ts nx)).
Hypothesis rest_fr : rest_framed Rest.
Variable At : nat -> Prop.
Notation sone := (sone At).
Notation smany := (smany At).
Notation one := (one At).
Notation marks := (marks At).
Notation block := (block text Other Method Block Decl True False).
Notation fparam := (fparam text Other Method Block True).
Notation fparams := (fparams text Other Method Block True).
Notation fbody := (fbody text Other Method Block Decl True).
Notation method_of := (method_of text Other Method Block Decl True).
Notation member_of := (member_of text Other Method Block Decl True).
Notation members := (members text Other Method Block Decl True).
Notation mkey := (mkey text Other Method Block True).

Local Definition pl := places text Other Method Block True other_fr method_fr block_fr At.
Local Definition sp := stat_places text Other Method Block Decl other_fr method_fr block_fr decl_fr At False.
Local Definition m_first := marks_first text Other Method Block True other_fr method_fr block_fr At.
Local Definition m_last := marks_last text Other Method Block True other_fr method_fr block_fr At.
Local Definition m_app := marks_app text Other Method Block True other_fr method_fr block_fr At.
Local Definition m_cons := marks_cons text Other Method Block True other_fr method_fr block_fr At.
Local Definition bl_ne := n_block_ne text Other Method Block Decl True False other_fr method_fr block_fr decl_fr.
Local Definition sg_ne := n_single_ne text Other Method Block Decl True False other_fr method_fr block_fr decl_fr.
Local Definition bi_ne := n_binding_ne text Other Method Block Decl True False other_fr method_fr block_fr decl_fr.
Local Definition bd_ne := w_body_ne text Other Method Block Decl Rest False other_fr method_fr block_fr decl_fr rest_fr.
Local Definition mk_ne := w_mkey_ne text Other Method Block Decl Rest False other_fr method_fr block_fr decl_fr rest_fr.

Lemma sm_nil : forall ts, smany [] ts.
Proof. intros ts a b S M. split; [exact (span_le _ _ _ S)|constructor]. Qed.
Lemma sm_app : forall x y xs ys, smany x xs -> smany y ys -> smany (x ++ y) (xs ++ ys).
Proof.
  intros x y xs ys X Y a b S M. apply span_app in S as (m & S1 & S2). apply m_app in M as [M1 M2].
  destruct (X _ _ S1 M1) as [A B]. destruct (Y _ _ S2 M2) as [C D]. split; [apply srow_app; exists m; auto|apply Forall_app; auto].
Qed.
Lemma sm_skip : forall x xs ys, smany x ys -> smany x (xs ++ ys).
Proof. intros x xs ys H. exact (sm_app [] x xs ys (sm_nil _) H). Qed.
Lemma sm_tok : forall x t ys, smany x ys -> smany x (t :: ys).
Proof. intros x t ys H. exact (sm_skip x [t] ys H). Qed.
Lemma sm_trail : forall x xs ys, smany x xs -> smany x (xs ++ ys).
Proof. intros x xs ys H. rewrite <- (app_nil_r x). exact (sm_app x [] xs ys H (sm_nil _)). Qed.
Lemma sm_one : forall s ts, sone s ts -> smany [s] ts.
Proof. intros s ts H a b S M. destruct (H _ _ S M) as (? & ? & ? & ? & ? & ?). cbn [srow]. auto. Qed.
Lemma so_expr : forall e ts, one e ts -> sone (SE e) ts.
Proof. intros e ts H a b S M. destruct (H _ _ S M) as (? & ? & ? & ? & ? & ? & ?). unfold slo, shi. cbn [srange]. repeat split; auto. constructor. assumption. Qed.
Lemma sm_expr : forall e ts, one e ts -> smany [SE e] ts.
Proof. intros. apply sm_one, so_expr. assumption. Qed.
Lemma sm_exprs : forall l ts, many At l ts -> smany (map SE l) ts.
Proof.
  intros l ts H a b S M. destruct (H _ _ S M) as [R F]. split.
  - clear -R. revert a R. induction l as [|e l IH]; intros a R; [exact R|]. destruct R as (A & B & C). cbn [map srow]. unfold slo, shi. cbn [srange]. auto.
  - clear -F. induction F; constructor; [constructor; assumption|assumption].
Qed.
Lemma fit : forall l ts, ts <> [] -> ordered ts -> marks ts -> smany l ts -> fits At (first_lo ts, last_hi ts) l.
Proof.
  intros l ts N (a & b & S) M H. destruct (span_tight _ _ _ S N) as (_ & _ & _ & T). destruct (H _ _ T M) as [R F].
  unfold fits. cbn [fst snd]. auto using m_first, m_last.
Qed.
Lemma leaf_one : forall t n p kw, one (EName (place t) n p kw) [t].
Proof.
  intros t n p kw a b S M. destruct S as (A & B & _ & C). cbn [span] in C. apply m_cons in M as (M1 & M2 & _).
  apply (leaf text Other Method Block True other_fr method_fr block_fr); unfold lo, hi; cbn [range place fst snd]; try reflexivity; assumption.
Qed.
Lemma leaf_lit : forall t, one (ELit (place t) t) [t].
Proof.
  intros t a b S M. destruct S as (A & B & _ & C). cbn [span] in C. apply m_cons in M as (M1 & M2 & _).
  apply (leaf text Other Method Block True other_fr method_fr block_fr); unfold lo, hi; cbn [range place fst snd]; try reflexivity; assumption.
Qed.
Lemma name_many : forall o ts, opt_name text o ts -> smany (opt_expr_kid o) ts.
Proof. destruct 1; [apply sm_nil|]. apply sm_expr, leaf_one. Qed.
Lemma param_one : forall this e ts, fparam this e ts -> one e ts.
Proof.
  destruct 1 as [e ts B|l lts o h hts O _ B S|t _ T]; [| |apply leaf_one].
  - exact (proj1 (binding_places text Other Method Block Decl other_fr method_fr block_fr decl_fr At False) _ _ B).
  - exact (proj1 (proj2 (binding_places text Other Method Block Decl other_fr method_fr block_fr decl_fr At False)) _ _ (BE_default _ _ _ _ _ _ _ _ _ _ O B S)).
Qed.
Lemma params_many : forall this l ts, fparams this l ts -> smany (map SE l) ts.
Proof.
  induction 1 as [|e ts H|e ts c l ts' _ _ H _ IH]; cbn [map]; [apply sm_nil|apply sm_expr; eapply param_one; eassumption|].
  apply (sm_app [SE e] _ ts (c :: ts')); [apply sm_expr; eapply param_one; eassumption|apply sm_tok; exact IH].
Qed.
Lemma block_sone : forall b ts, block b ts -> sone b ts.
Proof. exact (proj1 (proj2 sp)). Qed.
Lemma full_one' : forall e ts, full text Other Method Block True e ts -> one e ts.
Proof. intros e ts (n & H & _). exact (proj1 pl _ _ _ _ H). Qed.
Lemma single_one' : forall e ts, single text Other Method Block True e ts -> one e ts.
Proof. intros e ts (n & H & _). exact (proj1 pl _ _ _ _ H). Qed.
Lemma body_many : forall free b ts, fbody free b ts -> smany [b] ts.
Proof. destruct 1; [apply sm_one, block_sone; assumption|apply sm_expr, full_one'; assumption]. Qed.
Lemma head_many : forall ps ts, arrow_head text Other Method Block True ps ts -> smany (map SE ps) ts.
Proof.
  destruct 1 as [e ts N|name nts l ps pts h _ _ _ P].
  - exact (name_many _ _ N).
  - apply sm_skip, sm_tok, sm_trail. apply sm_exprs. exact (proj1 (proj2 (proj2 (proj2 (proj2 (proj2 (proj2 (proj2 pl))))))) _ _ P).
Qed.
Lemma mkey_one : forall p e c ts, mkey p e c ts -> one e ts.
Proof.
  destruct 1 as [e c ts K|t _ T]; [|apply leaf_one].
  exact (proj1 (proj2 (proj2 (proj2 (proj2 (proj2 (proj2 (proj2 (proj2 (proj2 (proj2 (proj2 (proj2 (proj2 pl))))))))))))) _ _ _ _ K).
Qed.
Lemma ordered_app : forall x y, ordered (x ++ y) -> ordered x /\ ordered y.
Proof. intros x y (a & b & S). apply span_app in S as (m & S1 & S2). split; [exists a, m|exists m, b]; assumption. Qed.
Lemma ordered_cons : forall t y, ordered (t :: y) -> ordered y.
Proof. intros t y H. exact (proj2 (ordered_app [t] y H)). Qed.
(** Where a part of tokens in order lies. *)
Lemma gap : forall x y, x <> [] -> y <> [] -> ordered (x ++ y) -> first_lo x <= last_hi x /\ last_hi x <= first_lo y /\ first_lo y <= last_hi y.
Proof.
  intros x y X Y (a & b & S). apply span_app in S as (m & S1 & S2). destruct (span_tight _ _ _ S1 X) as (? & ? & ? & _).
  destruct (span_tight _ _ _ S2 Y) as (? & ? & ? & _). lia.
Qed.
Lemma widen : forall a b c d l, fits At (a, b) l -> c <= a -> b <= d -> At c -> At d -> fits At (c, d) l.
Proof. unfold fits; cbn [fst snd]. intros a b c d l (? & ? & R & ?) L L2 ? ?. repeat split; auto. eapply srow_wide; eassumption. Qed.
Lemma rest_ne : forall (x : list token) t y, x ++ t :: y <> [].
Proof. intros x t y Q. apply app_eq_nil in Q as [_ Q]. discriminate Q. Qed.

Lemma method_placed : forall c m ts, method_of c m ts -> ordered ts -> marks ts -> meth_placed At m.
Proof.
  intros c m ts H O M. pose proof (method_frame text Other Method Block Decl Rest False other_fr method_fr block_fr decl_fr rest_fr _ _ _ H) as (_ & FR).
  destruct H as [static sts async gen kind ats key computed kts l ps pts h b bts S1 _ L K _ _ L1 H1 P B|l ps pts h b bts _ L1 H1 P B];
    pose proof (bl_ne _ _ B) as BN; unfold meth_placed; cbn [m_key m_rng m_fn m_params m_body] in *.
  - pose proof (mk_ne _ _ _ _ K) as KN.
    assert (N : sts ++ ats ++ kts <> []) by (intro Q; apply app_eq_nil in Q as [_ Q]; apply app_eq_nil in Q as [_ Q]; contradiction).
    replace (sts ++ ats ++ kts ++ l :: pts ++ h :: bts) with ((sts ++ ats ++ kts) ++ (l :: pts ++ h :: bts)) in * by flat.
    destruct (gap _ (l :: pts ++ h :: bts) N ltac:(discriminate) O) as (G1 & G2 & G3). apply ordered_app in O as [O1 O2]. apply m_app in M as [M1 M2].
    assert (FL : last_hi (l :: pts ++ h :: bts) = last_hi bts).
    { replace (l :: pts ++ h :: bts) with ((l :: pts ++ [h]) ++ bts) by flat. apply last_app. exact BN. }
    assert (FF : fits At (first_lo (l :: pts ++ h :: bts), last_hi (l :: pts ++ h :: bts)) (map SE ps ++ [b])).
    { apply fit; [discriminate|exact O2|exact M2|]. apply sm_tok. apply sm_app; [eapply params_many; exact P|]. apply sm_tok, sm_one, block_sone. exact B. }
    rewrite FL in FF. change (first_lo (l :: pts ++ h :: bts)) with (t_lo l) in *. cbn [fst snd].
    split; [right|]. 
    + eapply widen; [apply (fit [SE key] _ N O1 M1)| | | |].
      * apply sm_skip, sm_skip, sm_expr. eapply mkey_one; eassumption.
      * apply le_n.
      * exact G2.
      * exact (m_first _ M1 N).
      * apply m_cons in M2. tauto.
    + split; [lia|]. split; [exact (m_first _ M1 N)|]. split; [reflexivity|exact FF].
  - cbn [fst snd]. split; [left; reflexivity|]. split; [apply le_n|].
    assert (FL : last_hi (l :: pts ++ h :: bts) = last_hi bts).
    { replace (l :: pts ++ h :: bts) with ((l :: pts ++ [h]) ++ bts) by flat. apply last_app. exact BN. }
    assert (FF : fits At (first_lo (l :: pts ++ h :: bts), last_hi (l :: pts ++ h :: bts)) (map SE ps ++ [b])).
    { apply fit; [discriminate|exact O|exact M|]. apply sm_tok. apply sm_app; [eapply params_many; exact P|]. apply sm_tok, sm_one, block_sone. exact B. }
    rewrite FL in FF. split; [apply m_cons in M; tauto|]. split; [reflexivity|exact FF].
Qed.
Lemma value_many : forall o ts, value_of text Other Method Block True o ts -> smany (opt_expr_kid o) ts.
Proof. destruct 1; [apply sm_nil|]. apply sm_tok, sm_expr, single_one'. assumption. Qed.
Lemma member_frame : forall m ts, member_of m ts -> ts <> [] /\ member_range m = (first_lo ts, last_hi ts).
Proof.
  destruct 1 as [m ts H|static sts key computed kts v vts x S K V X|t r l bts T B]; cbn [member_range].
  - exact (method_frame text Other Method Block Decl Rest False other_fr method_fr block_fr decl_fr rest_fr _ _ _ H).
  - pose proof (mk_ne _ _ _ _ K) as KN.
    assert (N : sts ++ kts <> []) by (intro Q; apply app_eq_nil in Q as [_ Q]; contradiction).
    assert (N2 : kts ++ vts ++ x <> []) by (intro Q; apply app_eq_nil in Q as [Q _]; contradiction).
    split; [intro Q; apply app_eq_nil in Q as [_ Q]; contradiction|]. f_equal.
    + replace (sts ++ kts ++ vts ++ x) with ((sts ++ kts) ++ (vts ++ x)) by flat. rewrite (first_app _ _ N). reflexivity.
    + rewrite (last_app _ _ N2). reflexivity.
  - split; [discriminate|]. f_equal. rewrite last_cons' by (eapply bl_ne; eassumption). reflexivity.
Qed.
Lemma member_is_placed : forall m ts, member_of m ts -> ordered ts -> marks ts -> member_placed At m.
Proof.
  intros m ts H O M. pose proof (member_frame _ _ H) as (N & E).
  destruct H as [m ts H|static sts key computed kts v vts x S K V X|t r l bts T B]; cbn [member_placed member_range] in *.
  - exact (method_placed _ _ _ H O M).
  - rewrite E. apply fit; [exact N|exact O|exact M|]. apply sm_skip. apply (sm_app [SE key]); [apply sm_expr; eapply mkey_one; eassumption|].
    apply sm_trail. apply value_many. exact V.
  - rewrite E. apply fit; [exact N|exact O|exact M|]. apply sm_tok. inversion B; subst. apply sm_tok, sm_trail.
    match goal with L : stats _ _ _ _ _ _ _ _ _ _ |- _ => exact (proj1 (proj2 (proj2 sp)) _ _ _ L) end.
Qed.
Lemma members_placed : forall ms ts, members ms ts -> forall a b, span a b ts -> marks ts ->
  ranges_row a b (map member_range ms) /\ Forall (member_placed At) ms.
Proof.
  induction 1 as [|t ms ts T H IH|m ts ms ts' Hm H IH]; intros a b S M.
  - split; [exact S|constructor].
  - destruct S as (S1 & S2 & _ & S). apply m_cons in M as (_ & _ & M). destruct (IH _ _ S M) as [R F]. split; [|exact F].
    clear -R S1 S2. destruct ms; cbn [map ranges_row] in *; intuition lia.
  - apply span_app in S as (m0 & S1 & S2). apply m_app in M as [M1 M2]. destruct (IH _ _ S2 M2) as [R F]. cbn [map ranges_row].
    destruct (member_frame _ _ Hm) as (N & E). rewrite E. cbn [fst snd]. destruct (span_tight _ _ _ S1 N) as (A & B & C & _).
    split; [|constructor; [apply (member_is_placed _ _ Hm); [exists a, m0; exact S1|exact M1]|exact F]].
    split; [exact A|]. split; [exact B|]. clear -R C. destruct ms; cbn [map ranges_row] in *; intuition lia.
Qed.
Lemma extends_many : forall o ts, extends_of text Other Method Block True o ts -> smany (opt_expr_kid o) ts.
Proof. destruct 1 as [|t n e ts T H _]; [apply sm_nil|]. apply sm_tok, sm_expr. exact (proj1 pl _ _ _ _ H). Qed.

(** Ranges that follow one another. *)
Definition rmany (rs : list rng) (ts : list token) : Prop := forall a b, span a b ts -> ranges_row a b rs.
Lemma ranges_app : forall x y a m b, ranges_row a m x -> ranges_row m b y -> ranges_row a b (x ++ y).
Proof.
  induction x as [|r x IH]; cbn; intros y a m b X Y.
  - destruct y; cbn in *; intuition lia.
  - destruct X as (? & ? & X). eauto.
Qed.
Lemma rm_nil : forall ts, rmany [] ts.
Proof. intros ts a b S. exact (span_le _ _ _ S). Qed.
Lemma rm_app : forall x y xs ys, rmany x xs -> rmany y ys -> rmany (x ++ y) (xs ++ ys).
Proof. intros x y xs ys X Y a b S. apply span_app in S as (m & S1 & S2). exact (ranges_app _ _ _ _ _ (X _ _ S1) (Y _ _ S2)). Qed.
Lemma rm_skip : forall x xs ys, rmany x ys -> rmany x (xs ++ ys).
Proof. intros x xs ys H. exact (rm_app [] x xs ys (rm_nil _) H). Qed.
Lemma rm_tok : forall x t ys, rmany x ys -> rmany x (t :: ys).
Proof. intros x t ys H. exact (rm_skip x [t] ys H). Qed.
Lemma rm_trail : forall x xs ys, rmany x xs -> rmany x (xs ++ ys).
Proof. intros x xs ys H. rewrite <- (app_nil_r x). exact (rm_app x [] xs ys H (rm_nil _)). Qed.
Lemma rm_one : forall r ts, ts <> [] -> r = (first_lo ts, last_hi ts) -> rmany [r] ts.
Proof. intros r ts N -> a b S. destruct (span_tight _ _ _ S N) as (? & ? & ? & _). cbn. auto. Qed.
Lemma rm_place : forall t, rmany [place t] [t].
Proof. intro t. apply rm_one; [discriminate|reflexivity]. Qed.

(** The names in imports and exports. *)
Notation import_fits := (fun i => fits At (ispec_range i) (ispec_names i)).
Notation export_fits := (fun e => fits At (e_rng e) (espec_names e)).
Lemma import_one_fits : forall i ts, import_one text i ts -> ordered ts -> marks ts -> rmany [ispec_range i] ts /\ import_fits i.
Proof.
  intros i ts H O M. assert (N : ts <> []) by (destruct H; discriminate).
  assert (E : ispec_range i = (first_lo ts, last_hi ts)) by (destruct H; reflexivity). split; [exact (rm_one _ _ N E)|].
  rewrite E. apply fit; auto. destruct H; cbn [ispec_names opt_expr_kid app].
  - apply sm_expr, leaf_one.
  - apply (sm_app [_] [_] [t] [a; u]); [apply sm_expr, leaf_one|]. apply sm_tok, sm_expr, leaf_one.
Qed.
Lemma import_list_fits : forall l ts, import_list text l ts -> ordered ts -> marks ts -> rmany (map ispec_range l) ts /\ Forall import_fits l.
Proof.
  induction 1 as [|i ts c l ts' H _ L IH]; intros O M; [split; [apply rm_nil|constructor]|].
  apply ordered_app in O as [O1 O2]. apply ordered_app in O2 as [_ O2]. apply m_app in M as [M1 M2]. apply m_app in M2 as [_ M2].
  destruct (import_one_fits _ _ H O1 M1) as [R F]. destruct (IH O2 M2) as [R' F']. split; [|constructor; assumption].
  apply (rm_app [_] (map ispec_range l)); [exact R|apply rm_skip; exact R'].
Qed.
Lemma import_part_fits : forall l ts, import_part text l ts -> ordered ts -> marks ts -> rmany (map ispec_range l) ts /\ Forall import_fits l.
Proof.
  destruct 1 as [l is ts h L H I|m a t kw Mu A C T]; intros O M.
  - apply ordered_cons in O. apply ordered_app in O as [O _]. apply m_cons in M as (_ & _ & M). apply m_app in M as [M _].
    destruct (import_list_fits _ _ I O M) as [R F]. split; [apply rm_tok, rm_trail; exact R|exact F].
  - split; [apply rm_one; [discriminate|reflexivity]|]. constructor; [|constructor]. cbn [ispec_range ispec_names].
    apply (fit [_] [m; a; t]); [discriminate|exact O|exact M|]. apply sm_tok, sm_tok, sm_expr, leaf_one.
Qed.
Lemma import_head_fits : forall l ts, import_head text l ts -> ordered ts -> marks ts -> rmany (map ispec_range l) ts /\ Forall import_fits l.
Proof.
  destruct 1 as [t T|l ts H]; intros O M; [|exact (import_part_fits _ _ H O M)]. split; [apply rm_place|].
  constructor; [|constructor]. cbn [ispec_range ispec_names]. apply (fit [_] [t]); [discriminate|exact O|exact M|]. apply sm_expr, leaf_one.
Qed.
Lemma import_clause_fits : forall l ts, import_clause text l ts -> ordered ts -> marks ts -> rmany (map ispec_range l) ts /\ Forall import_fits l.
Proof.
  destruct 1 as [l ts H|l ts c l' ts' H C H']; intros O M; [exact (import_head_fits _ _ H O M)|].
  apply ordered_app in O as [O1 O2]. apply ordered_cons in O2. apply m_app in M as [M1 M2]. apply m_cons in M2 as (_ & _ & M2).
  destruct (import_head_fits _ _ H O1 M1) as [R F]. destruct (import_part_fits _ _ H' O2 M2) as [R' F'].
  split; [|apply Forall_app; auto]. rewrite map_app. apply rm_app; [exact R|apply rm_tok; exact R'].
Qed.
Lemma export_one_fits : forall i ts, export_one text i ts -> ordered ts -> marks ts -> rmany [e_rng i] ts /\ export_fits i.
Proof.
  intros i ts H O M. assert (N : ts <> []) by (destruct H; discriminate).
  assert (E : e_rng i = (first_lo ts, last_hi ts)) by (destruct H; reflexivity). split; [exact (rm_one _ _ N E)|].
  rewrite E. apply fit; auto. destruct H; cbn [espec_names e_local e_id opt_expr_kid].
  - apply sm_expr, leaf_one.
  - apply (sm_app [_] [_] [t] [a; u]); [apply sm_expr, leaf_one|]. apply sm_tok, sm_expr, leaf_one.
Qed.
Lemma export_list_fits : forall l ts, export_list text l ts -> ordered ts -> marks ts -> rmany (map e_rng l) ts /\ Forall export_fits l.
Proof.
  induction 1 as [|e ts H|e ts c l ts' H _ L IH]; intros O M; [split; [apply rm_nil|constructor]| |].
  - destruct (export_one_fits _ _ H O M) as [R F]. split; [exact R|constructor; [exact F|constructor]].
  - apply ordered_app in O as [O1 O2]. apply ordered_cons in O2. apply m_app in M as [M1 M2]. apply m_cons in M2 as (_ & _ & M2).
    destruct (export_one_fits _ _ H O1 M1) as [R F]. destruct (IH O2 M2) as [R' F']. split; [|constructor; assumption].
    apply (rm_app [_] (map e_rng l)); [exact R|apply rm_tok; exact R'].
Qed.
Lemma from_many : forall v ts, from_clause v ts -> smany [SE v] ts /\ rmany [range v] ts.
Proof. destruct 1. split; [apply sm_tok, sm_expr, leaf_lit|apply rm_tok, rm_place]. Qed.
Lemma rm_whole : forall rs ts, rmany rs ts -> ordered ts -> ts <> [] -> ranges_row (first_lo ts) (last_hi ts) rs.
Proof. intros rs ts H (a & b & S) N. destruct (span_tight _ _ _ S N) as (_ & _ & _ & S'). exact (H _ _ S'). Qed.

Theorem spelled_placed : forall loose q f ts nx, spelled text Other Method Block Decl Rest True loose q f ts nx -> ordered ts -> marks ts -> placed At f.
Proof.
  intros loose q f ts nx H.
  pose proof (spelled_frame text Other Method Block Decl Rest loose other_fr method_fr block_fr decl_fr rest_fr) as FR.
  pose proof (FR _ _ _ _ H) as FR0. revert FR0.
  induction H as [q async ats fw gen gts name nts l ps pts h b bts nx Q A F _ G N _ _ _ P B
    |a gen gts ps hts w b bts nx A G H _ _ _ B|q a gen gts ps hts w b bts x nx _ A G H _ _ _ B X|m ts nx M1 _|b ts nx B
    |q c name nts super ets l ms mts h nx Q C N _ E1 L H M1 _ _ _|i s x nx I S X|i l ts f s x nx I C F S X|e l es ts h x nx E0 L H EL K X
    |e l es ts h v fts x nx E0 L H EL F X|e m v fts x nx E0 M1 F X|e m a t kw v fts x nx E0 M1 A T F X|e v kind l ts x nx E0 V D X
    |e f ts nx E0 H IH X|e d f ts nx E0 D H IH X|e d v ts x nx E0 D S _ X|q r ts nx H]; intros (N0 & E) O M; cbn [placed nrange] in *.
  - rewrite E. apply fit; [exact N0|exact O|exact M|]. apply sm_skip, sm_tok, sm_skip. apply sm_app; [apply name_many; exact N|].
    apply sm_tok. apply sm_app; [eapply params_many; exact P|]. apply sm_tok. eapply body_many; exact B.
  - rewrite E. apply fit; [exact N0|exact O|exact M|]. apply sm_tok, sm_skip. apply sm_app; [apply head_many; exact H|]. apply sm_tok. eapply body_many; exact B.
  - pose proof (bd_ne _ _ _ B) as BN. cbn [fst snd]. split; [reflexivity|].
    assert (FL : last_hi (a :: gts ++ hts ++ w :: bts) = last_hi bts).
    { replace (a :: gts ++ hts ++ w :: bts) with ((a :: gts ++ hts ++ [w]) ++ bts) by flat. apply last_app. exact BN. }
    assert (XN : bts ++ x <> []) by (intro Z; apply app_eq_nil in Z as [Z _]; contradiction).
    replace (a :: gts ++ hts ++ w :: bts ++ x) with ((a :: gts ++ hts ++ w :: bts) ++ x) in * by flat.
    pose proof (m_last _ M N0) as ML. apply (f_equal snd) in E. cbn [snd] in E. rewrite <- E in ML.
    split; [|split; [exact ML|]].
    + destruct x as [|x0 x]; [rewrite app_nil_r; apply le_n|]. rewrite (last_app (x0 :: x) bts) by discriminate.
      rewrite <- FL. destruct (gap (a :: gts ++ hts ++ w :: bts) (x0 :: x) ltac:(discriminate) ltac:(discriminate) O) as (? & ? & ?). lia.
    + apply ordered_app in O as [O _]. apply m_app in M as [M _]. rewrite <- FL. change (t_lo a) with (first_lo (a :: gts ++ hts ++ w :: bts)).
      apply fit; [discriminate|exact O|exact M|]. apply sm_tok, sm_skip. apply sm_app; [apply head_many; exact H|]. apply sm_tok. eapply body_many; exact B.
  - exact (method_placed _ _ _ M1 O M).
  - destruct O as (x & y & S). destruct (block_sone _ _ B _ _ S M) as (_ & _ & _ & _ & _ & Z). exact Z.
  - cbn [fst snd]. pose proof M as M'. replace (c :: nts ++ ets ++ l :: mts ++ [h]) with ((c :: nts ++ ets) ++ l :: mts ++ [h]) in * by flat.
    destruct (gap (c :: nts ++ ets) (l :: mts ++ [h]) ltac:(discriminate) ltac:(discriminate) O) as (G1 & G2 & G3).
    pose proof O as (x & y & S). apply ordered_app in O as [O1 O2]. apply m_app in M as [M2 M3]. apply m_cons in M3 as (M4 & M5 & M6).
    apply span_app in S as (m0 & _ & S). destruct S as (S1 & S2 & _ & S). apply span_app in S as (m1 & S3 & S4).
    split; [|split; [|split; [reflexivity|]]].
    + eapply widen; [apply (fit (opt_expr_kid name ++ opt_expr_kid super) (c :: nts ++ ets) ltac:(discriminate) O1 M2)| | | |].
      * apply sm_tok, sm_app; [apply name_many; exact N|apply extends_many; exact E1].
      * apply le_n.
      * exact G2.
      * exact (m_first _ M2 ltac:(discriminate)).
      * exact M4.
    + apply m_app in M6 as [_ M6]. apply m_cons in M6. tauto.
    + apply m_app in M6 as [M6 _].
      destruct S4 as (S5 & S6 & _). destruct (members_placed _ _ M1 _ _ S3 M6) as [R F]. split; [|exact F].
      clear -R S2 S5 S6. revert R. assert (W : forall rs a b c d, ranges_row a b rs -> c <= a -> b <= d -> ranges_row c d rs).
      { induction rs as [|r rs IH]; cbn; intros a b c d R L1 L2; [lia|]. destruct R as (? & ? & R). split; [lia|]. split; [lia|]. eapply IH; [exact R|lia|exact L2]. }
      intro R. apply (W _ _ _ _ _ R); lia.
  - rewrite E. cbn [fst snd]. split; [exact (m_first _ M N0)|]. split; [exact (m_last _ M N0)|]. split; [|split; [constructor|]].
    + apply rm_whole; auto. apply rm_tok. apply (rm_trail _ [s]), rm_place.
    + apply fit; auto. apply sm_tok. apply (sm_trail _ [s]), sm_expr, leaf_lit.
  - rewrite E. cbn [fst snd]. split; [exact (m_first _ M N0)|]. split; [exact (m_last _ M N0)|].
    pose proof (ordered_cons _ _ O) as O1. apply ordered_app in O1 as [O1 _]. pose proof M as M1. apply m_cons in M1 as (_ & _ & M1). apply m_app in M1 as [M1 _].
    destruct (import_clause_fits _ _ C O1 M1) as [R FA]. split; [|split; [exact FA|]].
    + apply rm_whole; auto. apply rm_tok. apply rm_app; [exact R|]. apply rm_skip, (rm_trail _ [s]), rm_place.
    + apply fit; auto. apply sm_tok, sm_skip, sm_skip. apply (sm_trail _ [s]), sm_expr, leaf_lit.
  - rewrite E. cbn [fst snd]. split; [exact (m_first _ M N0)|]. split; [exact (m_last _ M N0)|].
    pose proof (ordered_cons _ _ (ordered_cons _ _ O)) as O1. apply ordered_app in O1 as [O1 _]. pose proof M as M1. apply m_cons in M1 as (_ & _ & M1).
    apply m_cons in M1 as (_ & _ & M1). apply m_app in M1 as [M1 _].
    destruct (export_list_fits _ _ EL O1 M1) as [R FA]. split; [|split; [exact FA|]].
    + apply rm_whole; auto. apply rm_tok, rm_tok. apply rm_app; [exact R|apply rm_nil].
    + apply fit; auto. apply sm_nil.
  - rewrite E. cbn [fst snd]. split; [exact (m_first _ M N0)|]. split; [exact (m_last _ M N0)|]. destruct (from_many _ _ F) as [F1 F2].
    pose proof (ordered_cons _ _ (ordered_cons _ _ O)) as O1. apply ordered_app in O1 as [O1 _]. pose proof M as M1. apply m_cons in M1 as (_ & _ & M1).
    apply m_cons in M1 as (_ & _ & M1). apply m_app in M1 as [M1 _].
    destruct (export_list_fits _ _ EL O1 M1) as [R FA]. split; [|split; [exact FA|]].
    + apply rm_whole; auto. apply rm_tok, rm_tok. apply rm_app; [exact R|]. apply rm_tok, rm_trail. exact F2.
    + apply fit; auto. apply sm_tok, sm_tok, sm_skip, sm_tok, sm_trail. exact F1.
  - rewrite E. cbn [fst snd]. split; [exact (m_first _ M N0)|]. split; [exact (m_last _ M N0)|]. destruct (from_many _ _ F) as [F1 F2]. split; [|split; [constructor|]].
    + apply rm_whole; auto. apply rm_tok, rm_tok, rm_trail. exact F2.
    + apply fit; auto. apply sm_tok, sm_tok, sm_trail. exact F1.
  - rewrite E. cbn [fst snd]. split; [exact (m_first _ M N0)|]. split; [exact (m_last _ M N0)|]. destruct (from_many _ _ F) as [F1 F2]. split; [|split].
    + apply rm_whole; auto. cbn [map e_rng]. apply rm_tok. apply (rm_app [_] [_] [m; a; t] (fts ++ x)); [|apply rm_trail; exact F2].
      apply rm_one; [discriminate|reflexivity].
    + constructor; [|constructor]. cbn [e_rng espec_names e_local e_id opt_expr_kid]. change (e :: m :: a :: t :: fts ++ x) with ([e] ++ [m; a; t] ++ fts ++ x) in *.
      apply ordered_app in O as [_ O]. apply ordered_app in O as [O _]. apply m_app in M as [_ M]. apply m_app in M as [M _].
      apply (fit [_] [m; a; t]); [discriminate|exact O|exact M|]. apply sm_tok, sm_tok, sm_expr, leaf_one.
    + apply fit; auto. apply sm_tok, sm_tok, sm_tok, sm_tok, sm_trail. exact F1.
  - rewrite E. apply fit; auto. apply sm_tok, sm_one.
    exact (proj1 (stat_places text Other Method Block Decl other_fr method_fr block_fr decl_fr At loose) _ _ _ (T_var _ _ _ _ _ _ _ _ _ _ _ _ _ V D X)).
  - destruct (FR _ _ _ _ H) as [N1 E1]. cbn [fst snd]. pose proof O as O'. apply m_cons in M as (M1 & _ & M). rewrite E1. cbn [fst snd].
    destruct (gap [e] ts ltac:(discriminate) N1 O) as (G1 & G2 & G3). cbn in G1, G2. split; [exact M1|]. split; [lia|]. split; [reflexivity|].
    exact (IH (FR _ _ _ _ H) (ordered_cons _ _ O) M).
  - destruct (FR _ _ _ _ H) as [N1 E1]. cbn [fst snd]. pose proof O as O'. apply m_cons in M as (M1 & _ & M). apply m_cons in M as (_ & _ & M). rewrite E1. cbn [fst snd].
    destruct (gap [e; d] ts ltac:(discriminate) N1 O) as (G1 & G2 & G3). cbn in G1, G2.
    destruct (gap [e] [d] ltac:(discriminate) ltac:(discriminate) (proj1 (ordered_app [e; d] ts O))) as (G4 & G5 & G6). cbn in G4, G5, G6.
    split; [exact M1|]. split; [lia|]. split; [reflexivity|].
    exact (IH (FR _ _ _ _ H) (ordered_cons _ _ (ordered_cons _ _ O)) M).
  - rewrite E. apply fit; auto. apply sm_tok, sm_tok, sm_trail, sm_expr, single_one'. exact S.
  - rewrite E. cbn [fst snd]. split; [exact (m_first _ M N0)|]. split; [exact (m_last _ M N0)|].
    destruct O as (a & b & S). destruct (span_tight _ _ _ S N0) as (_ & ? & _). assumption.
Qed.
End Places.
