(** Reading an import ends and does not panic. *)
From Coq Require Import Lia.
From Verif Require Import Base TokenModel LexModel ParseBase BinModel SymtabModel EarlyModel ExprModel ExprFuel StmtModel StmtFuel
  PanicSafe FnModel FnFuel FnSafe JsxModel ImportModel.

Section Total.
Variables (feat : N) (text : token -> bytes) (rc : calls) (n b : nat).
Hypotheses (T : total rc n b) (enough : 16 * b <= n).
Local Lemma bin_some_tot : forall k a s, len s < b -> fine (S (len s)) (bin_expr (c_unary rc k) (fun _ => PErr) is_unary_e is_arrow_e feat false false false (c_fuel rc) (Some a) s).
Proof using T enough.
  intros k a s L. pose proof (o_fuel _ _ _ T). cbn [bin_expr]. apply bin_fine with (top := len s).
  - intros s0 L0. apply (o_unary _ _ _ T); unfold room; lia.
  - intros. exact Logic.I.
  - lia.
  - lia.
Qed.
Ltac small := unfold room; rewrite ?len_peeked, ?len_next in *; lia.
Lemma import_call_tot : forall k s, len s <= b -> 0 < len s -> fine (len s) (import_call feat text rc k s).
Proof using T enough.
  intros k s L P. unfold import_call. cbv zeta.
  assert (L1 : len (peeked (next s)) = len s - 1) by (rewrite len_peeked, len_next; reflexivity).
  generalize dependent (peeked (next s)). intros s1 L1.
  destruct (at_tok T_DOT s1 && has feat FEAT_META_PROPERTY).
  { eapply fine_bind; [eapply FnFuel.name_tot|]. intros e s2 H2. rewrite len_next in H2.
    destruct (negb _ || _); [exact Logic.I|].
    destruct (at_tok T_PAREN_L (peeked s2)) eqn:A.
    - eapply fine_bind; [apply (o_call_some _ _ _ T); small|]. intros x s3 H3. cbn. rewrite A, ?len_peeked in H3. lia.
    - match goal with |- fine _ (if ?c then _ else _) => destruct c eqn:C end.
      + eapply fine_bind; [apply (o_member_some _ _ _ T); [small|small|]|].
        * unfold at3. revert C. destruct (at_tok T_BRACKET_L _), (at_tok T_DOT _), (at_tok T_OPT_CHAIN _); intros; try reflexivity; discriminate.
        * intros x s3 H3. cbn. rewrite len_peeked in H3. lia.
      + cbn [fine]. rewrite len_peeked. lia. }
  destruct (at_tok T_PAREN_L s1 && has feat FEAT_DYNAMIC_IMPORT); [|exact Logic.I].
  destruct (Nat.eq_dec (len s1) 0) as [Z|Z].
  { eapply fine_bind; [apply (o_assign _ _ _ T); small|]. intros x s2 H2. rewrite len_next in H2. lia. }
  eapply fine_bind; [apply (o_assign _ _ _ T); small|]. intros x s2 H2. rewrite len_next in H2.
  unfold must. destruct (at_tok T_PAREN_R s2); cbn [pbind]; [|exact Logic.I].
  destruct (at_tok T_SEMI _); [cbn [fine]; rewrite ?len_next; lia|]. destruct (t_atl _); [cbn [fine]; rewrite ?len_peeked, ?len_next; lia|].
  eapply fine_bind; [apply bin_some_tot; small|]. intros t s4 H4. rewrite len_peeked, len_next in H4.
  destruct (at_tok T_HOOK s4); [|cbn [fine]; rewrite len_peeked; lia].
  eapply fine_bind; [apply (o_assign _ _ _ T); small|]. intros c s5 H5. rewrite len_next in H5.
  destruct (at_tok T_COLON s5); cbn [pbind]; [|exact Logic.I].
  eapply fine_bind; [apply (o_assign _ _ _ T); small|]. intros a s7 H7. cbn. rewrite len_next in H7. lia.
Qed.
End Total.

Section Calm.
Variables (feat : N) (text : token -> bytes) (rc : calls) (plain unlinked : bool) (W : list token).
Hypothesis C : calm plain unlinked W rc.
Notation suf := (PanicSafe.suf W).
Notation sound := (PanicSafe.sound W).
Lemma import_call_sf : forall k s, suf s -> sound (safe plain unlinked) (import_call feat text rc k s).
Proof using C.
  intros k s S. unfold import_call. cbv zeta. pose proof (suf_next _ _ S) as S1.
  change (suf (peeked (next s))) in S1. generalize dependent (peeked (next s)). intros s1 S1.
  destruct (at_tok T_DOT s1 && has feat FEAT_META_PROPERTY).
  { eapply sound_bind; [apply ident_sf, suf_next, S1|]. intros e s2 _ S2.
    destruct (negb _ || _); [exact Logic.I|]. destruct (at_tok T_PAREN_L (peeked s2)).
    - eapply sound_bind; [apply (m_call_expr _ _ _ _ C); [exact S2|reflexivity|unfold lk; apply Bool.orb_true_r]|].
      intros x s3 H S3. split; [apply Bool.andb_true_iff in H; apply H|exact S3].
    - match goal with |- PanicSafe.sound _ _ (if ?c then _ else _) => destruct c end.
      + eapply sound_bind; [apply (m_member_expr _ _ _ _ C); [exact S2|reflexivity|unfold lk; apply Bool.orb_true_r]|].
        intros x s3 H S3. split; [apply Bool.andb_true_iff in H; apply H|exact S3].
      + split; [reflexivity|exact S2]. }
  destruct (at_tok T_PAREN_L s1 && has feat FEAT_DYNAMIC_IMPORT); [|exact Logic.I].
  eapply sound_bind; [apply (m_assign _ _ _ _ C), suf_next, S1|]. intros x s2 _ S2.
  eapply sound_bind; [apply must_sound, S2|]. intros y s3 _ S3.
  destruct (at_tok T_SEMI s3); [split; [reflexivity|apply suf_next, S3]|]. destruct (t_atl _); [split; [reflexivity|exact S3]|].
  eapply sound_bind; [cbn [bin_expr]; eapply bin_safe; [intros; apply (m_unary _ _ _ _ C); assumption|intros; exact Logic.I|exact S3|reflexivity]|].
  intros t s4 Ht S4. destruct (at_tok T_HOOK s4); [|split; [exact Ht|exact S4]].
  eapply sound_bind; [apply (m_assign _ _ _ _ C), suf_next, S4|]. intros c s5 Hc S5.
  eapply sound_bind; [apply must_sound, S5|]. intros z s6 _ S6.
  eapply sound_bind; [apply (m_assign _ _ _ _ C), S6|]. intros a s7 Ha S7. cbv beta in Ht. split; [cbn [safe]; rewrite ?Ht, ?Hc, ?Ha; reflexivity|exact S7].
Qed.
End Calm.
Lemma expr_range_tot : forall n x, fine n x -> fine n (expr_range x).
Proof. intros n x H. unfold expr_range. eapply fine_bind; [exact H|intros; exact H0]. Qed.
Lemma expr_range_sf : forall W P x, PanicSafe.sound W P x -> PanicSafe.sound W any (expr_range x).
Proof. intros W P x H. unfold expr_range. eapply sound_bind; [exact H|]. intros a s _ S. split; [reflexivity|exact S]. Qed.

Section Whole.
Variables (feat : N) (text : token -> bytes) (chk : pst -> bool).
Variables (params_ok : N -> list expr -> pst -> bool) (names_ok : N -> list expr -> pst -> bool)
  (jump_ok : N -> stmt -> pst -> bool) (use_strict : token -> bool)
  (fn_ok : N -> option expr -> list expr -> stmt -> pst -> bool) (class_ok : N -> expr -> pst -> bool).
Variables (rest_async : bool -> N -> pst -> pres rng) (rest_jsx : N -> pst -> option (pres rng)).
Notation import_other := (import_other feat text chk params_ok names_ok jump_ok use_strict fn_ok class_ok rest_async rest_jsx).
Lemma import_other_tot : (forall d k s, fine (len s) (rest_async d k s)) -> (forall k s x, rest_jsx k s = Some x -> fine (len s) x) ->
  forall b n, 16 * b <= n -> forall k s x, len s < b -> import_other n k s = Some x -> fine (len s) x.
Proof.
  intros AF OF. induction b as [|b IH]; intros n G k s x L E; [lia|]. destruct n as [|n]; [lia|]. cbn [ImportModel.import_other] in E.
  destruct (at_tok T_IMPORT s) eqn:A; [|exact (OF k s x E)]. injection E as <-. apply expr_range_tot.
  eapply import_call_tot with (n := n) (b := b); [|lia|lia|].
  - apply w_calls_tot. apply world_at_tot with (most := b); [intros; apply AF|intros k' s' x' L'; apply IH; [lia|exact L']|lia|lia].
  - apply (at_len T_IMPORT); [exact A|discriminate].
Qed.
Variables (plain unlinked : bool) (W : list token).
Hypotheses (H1 : plain = true -> ~ PanicSpec.has_tok T_ASSIGN W) (H2 : plain = true -> ~ PanicSpec.has_tok T_EXTENDS W)
  (H3 : plain = false -> ~ PanicSpec.hole W /\ ~ PanicSpec.lone_literal W) (H4 : unlinked = true -> ~ PanicSpec.has_tok T_OPT_CHAIN W)
  (H5 : unlinked = false -> ~ PanicSpec.has_tok T_DELETE W) (H6 : PanicSpec.templates_carry W).
Lemma import_other_sf : (forall d k s, PanicSafe.suf W s -> PanicSafe.sound W any (rest_async d k s)) ->
  (forall k s x, PanicSafe.suf W s -> rest_jsx k s = Some x -> PanicSafe.sound W any x) ->
  forall n k s x, PanicSafe.suf W s -> import_other n k s = Some x -> PanicSafe.sound W any x.
Proof using H1 H2 H3 H4 H5 H6.
  intros AF OF. induction n as [|n IH]; intros k s x S E; cbn [ImportModel.import_other] in E;
    (destruct (at_tok T_IMPORT s); [|exact (OF k s x S E)]); injection E as <-; [exact Logic.I|].
  eapply expr_range_sf. apply import_call_sf with (plain := plain) (unlinked := unlinked); [|exact S].
  apply w_calls_calm; try assumption. eapply world_calm with (plain := plain) (unlinked := unlinked); assumption.
Qed.
End Whole.

(** ** More fuel *)
Lemma import_call_le : forall feat text a b, cle a b -> forall k s, ple (import_call feat text a k s) (import_call feat text b k s).
Proof.
  intros feat text a b L k s. unfold import_call. cbv zeta. destruct (_ && _).
  { apply ple_bind; [apply ple_refl|]. intros e s2. destruct (negb _ || _); [apply ple_refl|].
    destruct (at_tok T_PAREN_L _); [apply ple_bind; [apply (l_call_expr _ _ L)|intros; apply ple_refl]|].
    match goal with |- ple (if ?c then _ else _) _ => destruct c end; [apply ple_bind; [apply (l_member_expr _ _ L)|intros; apply ple_refl]|apply ple_refl]. }
  destruct (_ && _); [|apply ple_refl].
  apply ple_bind; [apply (l_assign _ _ L)|]. intros. apply ple_bind; [apply ple_refl|]. intros.
  destruct (at_tok T_SEMI _); [apply ple_refl|]. destruct (t_atl _); [apply ple_refl|].
  apply ple_bind; [cbn [bin_expr]; apply bin_le; [apply (l_unary _ _ L)|apply (l_fuel _ _ L)]|]. intros.
  destruct (at_tok T_HOOK _); [|apply ple_refl].
  apply ple_bind; [apply (l_assign _ _ L)|]. intros. apply ple_bind; [apply ple_refl|]. intros.
  apply ple_bind; [apply (l_assign _ _ L)|]. intros. apply ple_refl.
Qed.
Lemma ole_trans : forall x y z, ole x y -> ole y z -> ole x z.
Proof. intros x y z [->| ->] [->| ->]; [left|left|left|right]; reflexivity. Qed.
Section More.
Variables (feat : N) (text : token -> bytes) (chk : pst -> bool).
Variables (params_ok : N -> list expr -> pst -> bool) (names_ok : N -> list expr -> pst -> bool)
  (jump_ok : N -> stmt -> pst -> bool) (use_strict : token -> bool)
  (fn_ok : N -> option expr -> list expr -> stmt -> pst -> bool) (class_ok : N -> expr -> pst -> bool).
Variables (rest_async : bool -> N -> pst -> pres rng) (rest_jsx : N -> pst -> option (pres rng)).
Notation import_other := (import_other feat text chk params_ok names_ok jump_ok use_strict fn_ok class_ok rest_async rest_jsx).
Notation world_at := (world_at feat text chk params_ok names_ok jump_ok use_strict fn_ok class_ok rest_async).
Lemma world_rest_le : forall r r', (forall k s, ole (r k s) (r' k s)) -> forall n m, n <= m -> wle (world_at r n) (world_at r' m).
Proof.
  intros r r' R. induction n as [|n IH]; intros m Le; [constructor; intros; left; reflexivity|]. destruct m as [|m]; [lia|].
  cbn [FnModel.world_at].
  pose proof (grow_le feat text chk params_ok names_ok jump_ok use_strict fn_ok class_ok rest_async r n m _ _ ltac:(lia) (IH m ltac:(lia))) as G.
  constructor; [|exact (wl_method _ _ G)|exact (wl_block _ _ G)|exact (wl_decl _ _ G)].
  intros k s. eapply ole_trans; [exact (wl_other _ _ G k s)|]. cbn [grow w_other]. unfold other_at.
  destruct (at_tok T_FUNC s); [right; reflexivity|]. destruct (at_tok T_CLASS s); [right; reflexivity|]. destruct (ahead_async _ _ _ _ _); [right; reflexivity|apply R].
Qed.
Lemma import_other_le : forall n m, n <= m -> forall k s, ole (import_other n k s) (import_other m k s).
Proof.
  induction n as [|n IH]; intros m Le k s.
  - destruct m; cbn [ImportModel.import_other]; (destruct (at_tok T_IMPORT s); [left|right]; reflexivity).
  - destruct m as [|m]; [lia|]. cbn [ImportModel.import_other]. destruct (at_tok T_IMPORT s); [|right; reflexivity].
    apply some_le. apply ple_bind; [|intros; apply ple_refl]. apply import_call_le, w_calls_le; [lia|]. apply world_rest_le; [apply IH; lia|lia].
Qed.
Lemma parse_imports_le : forall n m, n <= m -> forall k s,
  ple (parse_with_imports feat text chk params_ok names_ok jump_ok use_strict fn_ok class_ok rest_async rest_jsx n k s)
      (parse_with_imports feat text chk params_ok names_ok jump_ok use_strict fn_ok class_ok rest_async rest_jsx m k s).
Proof.
  intros n m Le k s. pose proof (world_rest_le _ _ (import_other_le n m Le) n m Le) as W. pose proof (w_calls_le feat text chk params_ok n m _ _ Le W) as C.
  unfold parse_with_imports, FnModel.parse, FnModel.w_asg.
  apply program_le; [apply (l_seq _ _ C)|intros; apply (l_assign _ _ C)|apply (wl_decl _ _ W)|exact Le].
Qed.
End More.
