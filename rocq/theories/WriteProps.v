(** C39: an expression that is written down is read back as itself. *)
From Coq Require Import Lia ZifyBool ZifyNat ZifyN.
From Verif Require Import Base TokenModel LexModel ParseBase BinModel BinSpec BinProofs SymtabModel EarlyModel ExprModel ExprSpec ExprProofs
  ExprPlaces ExprTargets ExprReads WriteSpec WriteBin WriteFacts WriteParse WritePrint.
From Verif Require ExprProps.

(** What is not modelled, functions, classes, JSX and methods, begins nowhere a written expression or property does. *)
Definition literal_starts : list tv :=
  [T_NUM; T_NULL; T_TRUE; T_FALSE; T_THIS; T_REGEXP; T_STRING; T_NAME; T_PAREN_L; T_BRACKET_L; T_BRACE_L; T_TPL_HEAD].
Definition keeps_out (text : token -> bytes) (other : N -> pst -> option (pres rng)) : Prop :=
  forall k s, In (t_val (peek s)) literal_starts -> (t_val (peek s) = T_NAME -> ordinary (text (peek s)) = true) -> other k s = None.
Definition keeps_off (text : token -> bytes) (method : N -> pst -> option (pres rng)) : Prop :=
  forall k s key computed kts t rest, key_written text key computed kts -> p_toks s = kts ++ t :: rest ->
    t_val t = T_COLON \/ computed = false /\ (t_val t = T_COMMA \/ t_val t = T_BRACE_R) -> method k s = None.

(** The parser reads the tokens of a written expression as that expression, node for node with its ranges, and stops
    where they end, whatever comes next that does not go on with an expression.
    Partial: written expressions (WriteSpec) have no functions, classes, arrow functions, optional chains, tagged
    templates, patterns, yield, await, import and super. *)
Theorem C39_round_trip_partial : forall feat text chk other method block params_ok n e ts rest k b p,
  keeps_out text other -> keeps_off text method -> has feat FEAT_SPREAD = true -> has feat FEAT_POW = true ->
  written text n e ts -> has k SPK_NOT_IN = false -> ~ goes_on 0 (hd (eof_tok 0) rest) ->
  exists enough, forall fuel, enough <= fuel -> exists b',
    seq feat text chk other method block params_ok fuel k (mk_pst (ts ++ rest) b p) = POk e (mk_pst rest b' (Some (last_hi ts))).
Proof.
  intros feat text chk other method block params_ok n e ts rest k b p Ho Hm Fs Fp W K G.
  destruct (proj1 (all_read feat text chk other method block params_ok Ho Hm Fs Fp) _ _ _ W) as (_ & _ & _ & _ & _ & _ & _ & (F & H)).
  exists F. intros fuel L. destruct (H fuel k rest L K G b p) as (b' & E); [discriminate|]. exists b'. unfold seq. rewrite E.
  destruct (proj1 (all_begin text) _ _ _ W) as (_ & B & _). rewrite after_ne by exact (begins_ne _ _ _ B). reflexivity.
Qed.
Print Assumptions C39_round_trip_partial.

(** Tokens are those of one expression at most. *)
Theorem C39_unambiguous : forall text n m e e' ts, written text n e ts -> written text m e' ts -> e = e'.
Proof.
  intros text n m e e' ts W W'.
  set (feat := N.lor FEAT_SPREAD FEAT_POW). set (none := fun (_ : N) (_ : pst) => @None (pres rng)).
  assert (R : forall n e, written text n e ts -> exists F, forall fuel, F <= fuel -> exists b',
    seq feat text (fun _ => true) none none (fun _ _ => PErr) (fun _ _ _ => true) fuel 0%N (mk_pst (ts ++ []) false None) = POk e (mk_pst [] b' (Some (last_hi ts)))).
  { intros n0 e0 W0. apply (C39_round_trip_partial feat text (fun _ => true) none none (fun _ _ => PErr) (fun _ _ _ => true) n0 e0 ts [] 0%N false None);
      try exact W0; try reflexivity; try (intros ? ? ? ?; reflexivity); try (intros; reflexivity).
    intro G. unfold goes_on in G. cbn in G. intuition (try discriminate). destruct H1 as [op [[I E]|(_ & E & _)]]; [subst op; cbn in I|discriminate E].
    repeat (destruct I as [I|I]; [discriminate I|]). destruct I. }
  destruct (R n e W) as (F & H). destruct (R m e' W') as (F' & H'). destruct (H (F + F')) as (b & E); [lia|]. destruct (H' (F + F')) as (b' & E'); [lia|]. congruence.
Qed.
Print Assumptions C39_unambiguous.

(** Printing an expression and reading it gives the expression back: for every expression [s] of operators, calls,
    members, literals, arrays and objects, tokens spelled as the printer writes it are accepted, all of them are read,
    and what is read, positions and parentheses aside, is [s].
    Partial: see [good] in WritePrint and the theorem above for the expressions left out. *)
Theorem C39_print_parse_partial : forall feat text chk other method block params_ok s ts rest k b p,
  keeps_out text other -> keeps_off text method -> has feat FEAT_SPREAD = true -> has feat FEAT_POW = true ->
  good KExpr s = true -> map (sym_of text) ts = print s -> Forall smooth ts -> has k SPK_NOT_IN = false -> ~ goes_on 0 (hd (eof_tok 0) rest) ->
  exists e enough, bare text e = s /\ forall fuel, enough <= fuel -> exists b',
    seq feat text chk other method block params_ok fuel k (mk_pst (ts ++ rest) b p) = POk e (mk_pst rest b' (Some (last_hi ts))).
Proof.
  intros feat text chk other method block params_ok s ts rest k b p Ho Hm Fs Fp G Q Sm K Gr.
  destruct (proj1 (all_printed text s) G ts Q Sm) as (m & e & _ & W & L & _).
  destruct (C39_round_trip_partial feat text chk other method block params_ok m e ts rest k b p Ho Hm Fs Fp W K Gr) as (F & H).
  exists e, F. split; [exact (l_bare _ _ _ L)|exact H].
Qed.
Print Assumptions C39_print_parse_partial.

(** Different expressions are printed differently. *)
Definition clean (y : sym) : Prop := has_text (fst y) = true \/ snd y = [].
Lemma clean_p : forall v, clean (p v).
Proof. right. reflexivity. Qed.
Lemma clean_wrap : forall n s, Forall clean (body s) -> Forall clean (wrap n s (body s)).
Proof. intros n s H. unfold wrap. destruct (Nat.ltb _ _); [|exact H]. constructor; [apply clean_p|]. apply Forall_app. split; [exact H|]. repeat constructor; apply clean_p. Qed.
Definition prints_clean (s : sx) : Prop := (forall k, good k s = true -> Forall clean (body s)) /\ (key_like s = true -> Forall clean (body s)).
Lemma clean_commas : forall k l, Forall prints_clean l -> forallb (good k) l = true -> Forall clean (commas body l).
Proof.
  intros k l F. induction F as [|x l H F IH]; intro G; [constructor|]. cbn [forallb] in G. apply Bool.andb_true_iff in G as [G1 G2]. specialize (IH G2).
  pose proof (clean_wrap 1 x (proj1 H k G1)) as W. destruct l as [|y l]; [exact W|]. change (commas body (x :: y :: l)) with (wrap 1 x (body x) ++ p T_COMMA :: commas body (y :: l)).
  apply Forall_app. split; [exact W|]. constructor; [apply clean_p|exact IH].
Qed.
Lemma clean_holes : forall l, Forall (PO prints_clean) l -> forallb (fun x => match x with Some e => good KItem e | None => true end) l = true -> Forall clean (holes body l).
Proof.
  intros l F. induction F as [|x l H F IH]; intro G; [constructor|]. cbn [forallb] in G. apply Bool.andb_true_iff in G as [G1 G2]. specialize (IH G2).
  destruct x as [x|]; [|constructor; [apply clean_p|exact IH]].
  pose proof (clean_wrap 1 x (proj1 H KItem G1)) as W. destruct l as [|y l]; [exact W|]. change (holes body (Some x :: y :: l)) with (wrap 1 x (body x) ++ p T_COMMA :: holes body (y :: l)).
  apply Forall_app. split; [exact W|]. constructor; [apply clean_p|exact IH].
Qed.
Ltac cl := repeat match goal with
  | |- Forall clean (_ ++ _) => apply Forall_app; split
  | |- Forall clean (p _ :: _) => constructor; [apply clean_p|]
  | |- Forall clean ((T_NAME, _) :: _) => constructor; [left; reflexivity|]
  | |- Forall clean [] => constructor
  | |- Forall clean (wrap _ _ _) => apply clean_wrap
  | H : prints_clean ?s, G : good ?k ?s = true |- Forall clean (body ?s) => exact (proj1 H k G)
  | H : prints_clean ?s, G : key_like ?s = true |- Forall clean (body ?s) => exact (proj2 H G)
  | G : _ && _ = true |- _ => apply Bool.andb_true_iff in G as [? ?]
  | |- Forall clean (commas body ?l) => eapply clean_commas; eassumption
  | |- Forall clean (holes body ?l) => apply clean_holes; assumption
  end.
Lemma all_clean : forall s, prints_clean s.
Proof.
  apply sx_all; intros; (split; [intros k G; cbn [good] in G; cbn [body]; try (destruct k; try discriminate G)|intro G; try discriminate G; cbn [body]]); try solve [cl].
  1-2: constructor; [|constructor]; cl; match goal with A : _ || _ = true |- _ => apply Bool.orb_true_iff in A as [A|A] end; [left; assumption|right; destruct n; [reflexivity|discriminate]].
  - cbn [key_like] in G. apply Bool.andb_true_iff in G as [G _]. apply in_ops in G. constructor; [|constructor]. left. destruct G as [<-|[<-|[]]]; reflexivity.
  - destruct c; cl.
  - destruct b; cl.
  - destruct b; cl.
Qed.
Theorem C39_print_injective : forall s s', good KExpr s = true -> good KExpr s' = true -> print s = print s' -> s = s'.
Proof.
  intros s s' G G' Q.
  set (tok := fun y : sym => mk_tok (fst y) 0 0 (snd y) (0, 0) 0 false (if tv_eqb (fst y) T_STRING then XStr 0%Z false else XNone)).
  set (ts := map tok (print s)).
  assert (Sy : map (sym_of t_text) ts = print s).
  { unfold ts. rewrite map_map. rewrite <- (map_id (print s)) at 2. apply map_ext_in. intros [v n] I.
    pose proof (proj1 (Forall_forall _ _) (proj1 (all_clean s) _ G) _ I) as C. unfold sym_of, tok. cbn -[has_text]. destruct C as [C|C]; cbn [fst snd] in C.
    - rewrite C. reflexivity.
    - subst n. destruct (has_text v); reflexivity. }
  assert (Sm : Forall smooth ts).
  { unfold ts. apply Forall_forall. intros t I. apply in_map_iff in I as ([v n] & <- & _). split; [reflexivity|]. cbn. intros ->. exists 0%Z. reflexivity. }
  destruct (proj1 (all_printed t_text s) G ts Sy Sm) as (m & e & _ & W & L & _).
  destruct (proj1 (all_printed t_text s') G' ts (eq_trans Sy Q) Sm) as (m' & e' & _ & W' & L' & _).
  pose proof (C39_unambiguous _ _ _ _ _ _ W W'). subst e'. rewrite <- (l_bare _ _ _ L), <- (l_bare _ _ _ L'). reflexivity.
Qed.
Print Assumptions C39_print_injective.

(** a.b[c + 1](...d, {e: !f, g, [h]: [, "s"]}, new l().m += null) ? new i.n(1) ** ((-2) ** o) : (j, k++) *)
Definition sample : sx :=
  SCond (SCall (SSub (SDot (SName (bs "a")) (bs "b")) (SBin T_ADD (SName (bs "c")) (SLit T_NUM (bs "1"))))
               [SSpread (SName (bs "d")); SObj [SPair (SName (bs "e")) false (SUn T_NOT (SName (bs "f"))); SShort (bs "g"); SPair (SName (bs "h")) true (SArr [None; Some (SLit T_STRING (bs "s"))])];
                SAsg T_ASSIGN_ADD (SDot (SNew (SName (bs "l")) []) (bs "m")) (SLit T_NULL [])])
        (SBin T_POW (SNew (SDot (SName (bs "i")) (bs "n")) [SLit T_NUM (bs "1")]) (SBin T_POW (SUn T_SUB (SLit T_NUM (bs "2"))) (SName (bs "o"))))
        (SSeq [SName (bs "j"); SUpd T_INC false (SName (bs "k"))]).
Definition laid_out (s : sx) : list token :=
  ExprProps.lay 0 (map (fun y : sym => (fst y, snd y, if tv_eqb (fst y) T_STRING then XStr 0%Z false else XNone, false)) (print s)).
Example sample_meets : good KExpr sample = true /\ map (sym_of t_text) (laid_out sample) = print sample /\ Forall smooth (laid_out sample) /\
  length (laid_out sample) = 65.
Proof. split; [reflexivity|]. split; [reflexivity|]. split; [|reflexivity]. cbv. repeat (constructor; [split; [reflexivity|intro H; first [discriminate H|eexists; reflexivity]]|]). constructor. Qed.
Example sample_reads : exists e s', seq ExprProps.feats t_text (fun _ => true) ExprProps.no_parts ExprProps.no_parts ExprProps.empty_block (fun _ _ _ => true) 40 0%N
  (mk_pst (laid_out sample) false None) = POk e s' /\ p_toks s' = [] /\ bare t_text e = sample.
Proof. eexists _, _. split; [vm_compute; reflexivity|]. split; vm_compute; reflexivity. Qed.
