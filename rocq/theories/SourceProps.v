(** C01-C06: source cursor, line/column positions, UTF-8. *)
From Verif Require Import Base Utf8Model Utf8Proofs SourceModel SourceSpec SourceProofs.

(** C01.  After any history of cursor operations that does not panic, the cursor sits at a
    rune boundary of the text, the unread part is exactly the rest of the text and the
    position counts the runes already consumed. *)
Theorem C01_cursor_invariant : forall (c : bytes) (ops : list sop) (s : source),
  srun (new_source c) ops = Some s ->
  code s = c
  /\ boundary c (s_ofst (st s))
  /\ s_ofst (st s) <= length c
  /\ c = firstn (s_ofst (st s)) c ++ s_raw (st s)
  /\ s_raw (st s) = skipn (s_ofst (st s)) c
  /\ s_pos (st s) = length (decode_all (firstn (s_ofst (st s)) c)).
Proof.
  intros c ops s H. destruct (srun_ok _ _ _ (new_source_ok c) H) as [[[H1 [H2 H3]] _] H5].
  rewrite H5 in *. cbn in *. repeat split; try assumption.
  - apply boundary_le. assumption.
  - rewrite H2. symmetry. apply firstn_skipn.
Qed.
Print Assumptions C01_cursor_invariant.

Example C01_nonvacuous : exists s,
  srun (new_source (bs "a" ++ [xc3; xa9; x0d; x0a; xff] ++ bs "b"))
       [ORead; OPush; ORead; OAdvanceIf 13; OSkipSpace; OPop; ORead; ORead] = Some s
  /\ s_ofst (st s) = 5 /\ s_pos (st s) = 4.
Proof. eexists. vm_compute. repeat split. Qed.

(** At a reachable state, AheadIsEOF holds exactly when the whole text is consumed, and then
    Read returns EOF without moving. *)
Theorem C01_eof_stable : forall c ops s,
  srun (new_source c) ops = Some s ->
  (ahead_is_eof s = true <-> s_raw (st s) = [])
  /\ (ahead_is_eof s = true -> peek s = EOF /\ read s = (EOF, s)).
Proof.
  intros c ops s H. destruct (srun_ok _ _ _ (new_source_ok c) H) as [[[H1 [H2 H3]] _] H5].
  pose proof (boundary_le _ _ H1) as HL.
  assert (HI : ahead_is_eof s = true <-> s_raw (st s) = []).
  { unfold ahead_is_eof. rewrite Nat.eqb_eq, H2. split.
    - intros ->. apply skipn_all.
    - intros E. apply (f_equal (@length _)) in E. rewrite skipn_length in E. cbn in E. lia. }
  split; [exact HI|]. intros E. apply HI in E. split; [rewrite peek_spec, E; reflexivity|apply read_eof; exact E].
Qed.
Print Assumptions C01_eof_stable.

(** C02.  Reading a text to its end yields its decoded runes with every CRLF and lone CR
    turned into one LF, and ends at the end of the text. *)
Theorem C02_read_stream : forall (c : bytes),
  fst (read_all (S (length c)) (new_source c)) = crlf_norm (decode_all c)
  /\ ahead_is_eof (snd (read_all (S (length c)) (new_source c))) = true.
Proof.
  intros c. destruct (read_all_spec (S (length c)) (new_source c)) as [H1 [H2 [H3 [H4 H5]]]]; [cbn; lia|].
  split; [exact H1|]. unfold ahead_is_eof. rewrite H4, H5. apply Nat.eqb_refl.
Qed.
Print Assumptions C02_read_stream.

(** The same from any state reached before: what is still to come is the normalised rest. *)
Theorem C02_read_stream_rest : forall c ops s,
  srun (new_source c) ops = Some s ->
  fst (read_all (S (length c)) s) = crlf_norm (decode_all (skipn (s_ofst (st s)) c)).
Proof.
  intros c ops s H. destruct (srun_ok _ _ _ (new_source_ok c) H) as [[[H1 [H2 H3]] _] H5].
  cbn in H5. rewrite H5 in *. rewrite <- H2. apply read_all_spec.
  rewrite H2, skipn_length. lia.
Qed.
Print Assumptions C02_read_stream_rest.

Example C02_nonvacuous :
  fst (read_all 20 (new_source (bs "a" ++ [x0d; x0a; x0d; x0d; x0a; x0a; xe2; x80; xa8; xff; xe2; x82])))
  = [97; 10; 10; 10; 10; 8232; 65533; 65533; 65533]%Z.
Proof. vm_compute. reflexivity. Qed.

(** Lookahead shows what is to come without consuming: Peek and Ahead2nd are the first and
    second undecoded runes (EOF when there are none). *)
Theorem C02_lookahead : forall s,
  peek s = hd EOF (decode_all (s_raw (st s)))
  /\ ahead2nd s = nth 1 (decode_all (s_raw (st s))) EOF.
Proof. intros s. split; [apply peek_spec|apply ahead2nd_spec]. Qed.
Print Assumptions C02_lookahead.

(** C03.  A balanced history of operations never panics; between PushState and PopState it
    leaves the whole source as it was, and PushState/DiscardState around it changes nothing
    about its effect. *)
Theorem C03_pop_restores : forall ops s, balanced ops ->
  srun s (OPush :: ops ++ [OPop]) = Some s.
Proof. intros ops s H. apply pop_restores. exact H. Qed.
Print Assumptions C03_pop_restores.

Theorem C03_discard_keeps : forall ops s, balanced ops ->
  (exists s', srun s ops = Some s') /\ srun s (OPush :: ops ++ [ODiscard]) = srun s ops.
Proof.
  intros ops s H. split; [|apply discard_keeps; exact H].
  destruct (balanced_run ops H s) as [s' [E _]]. exists s'. exact E.
Qed.
Print Assumptions C03_discard_keeps.

Example C03_nonvacuous :
  balanced [ORead; OPush; OSkipSpace; OPush; ORead; OPop; ODiscard; OAdvanceIf 10].
Proof.
  apply bal_op; [exact I|].
  apply (bal_discard [OSkipSpace; OPush; ORead; OPop] [OAdvanceIf 10%Z]);
    [apply bal_op; [exact I|]; apply (bal_pop [ORead] []); [|constructor]|];
    (apply bal_op; [exact I|constructor]).
Qed.

(** C04.  The position of an offset is one plus the number of line breaks that end at or
    before it, and the number of runes since the last of them. *)
Theorem C04_ofst_line_col : forall s o, o <= length (code s) ->
  ofst_line_col s o = Some (spec_line (code s) o, spec_col (code s) o).
Proof. intros s o H. apply ofst_line_col_spec. exact H. Qed.
Print Assumptions C04_ofst_line_col.

Theorem C04_line_col : forall s lo hi, lo <= hi -> hi <= length (code s) ->
  line_col s lo hi = Some ((spec_line (code s) lo, spec_col (code s) lo),
                           (spec_line (code s) hi, spec_col (code s) hi)).
Proof. intros s lo hi H1 H2. apply line_col_spec; assumption. Qed.
Print Assumptions C04_line_col.

(** Positions are strictly increasing (lexicographically) along rune boundaries, so distinct
    boundaries have distinct positions. *)
Theorem C04_positions_increase : forall c o1 o2, boundary c o1 -> boundary c o2 -> o1 < o2 ->
  spec_line c o1 < spec_line c o2
  \/ (spec_line c o1 = spec_line c o2 /\ spec_col c o1 < spec_col c o2).
Proof. intros c o1 o2 H1 H2 H3. apply pos_strict_mono; assumption. Qed.
Print Assumptions C04_positions_increase.

Example C04_nonvacuous :
  let c := bs "a" ++ [x0d; x0a; xc3; xa9] ++ bs "b" ++ [x0d] ++ bs "xy" in
  ofst_line_col (new_source c) 6 = Some (2, 2)
  /\ line_col (new_source c) 3 9 = Some ((2, 0), (3, 2))
  /\ breaks_upto c 9 = [3; 7].
Proof. vm_compute. repeat split. Qed.

(** C05.  SkipSpace consumes exactly the longest run of white space (Unicode White_Space) and
    reports whether the run holds a line terminator. *)
Theorem C05_skip_space : forall s,
  let ws r := existsb (Z.eqb r) white_space in
  let rs := decode_all (s_raw (st s)) in
  decode_all (s_raw (st (skip_space s))) = drop_while ws rs
  /\ s_met (st (skip_space s))
     = existsb (fun r => existsb (Z.eqb r) line_terminators) (take_while ws rs)
  /\ s_pos (st (skip_space s)) = s_pos (st s) + length (take_while ws rs)
  /\ s_ofst (st (skip_space s)) + length (s_raw (st (skip_space s)))
     = s_ofst (st s) + length (s_raw (st s)).
Proof.
  intros s ws rs. destruct (skip_space_spec s) as [H1 [H2 [H3 H4]]]. fold rs in H1, H2, H3.
  assert (HT : forall l, take_while is_space l = take_while ws l).
  { induction l as [|x l IH]; [reflexivity|]. cbn [take_while]. rewrite is_space_eq. fold (ws x).
    destruct (ws x); [f_equal; exact IH|reflexivity]. }
  assert (HD : forall l, drop_while is_space l = drop_while ws l).
  { induction l as [|x l IH]; [reflexivity|]. cbn [drop_while]. rewrite is_space_eq. fold (ws x).
    destruct (ws x); [exact IH|reflexivity]. }
  assert (HL : forall l, existsb is_line_term l = existsb (fun r => existsb (Z.eqb r) line_terminators) l).
  { induction l as [|x l IH]; [reflexivity|]. cbn [existsb]. rewrite is_line_term_eq, IH. reflexivity. }
  rewrite HT in H2, H3. rewrite HD in H1. rewrite HL in H2. auto.
Qed.
Print Assumptions C05_skip_space.

Example C05_nonvacuous :
  let s := skip_space (new_source ([x20; x09; x0d; x0a; xe2; x80; xa8; xc2; x85] ++ bs "x ")) in
  s_ofst (st s) = 9 /\ s_pos (st s) = 6 /\ s_met (st s) = true.
Proof. vm_compute. repeat split. Qed.

(** The set skipped differs from ECMA-262's WhiteSpace + LineTerminator in exactly two code
    points: NEL U+0085 is skipped though it should not be, BOM U+FEFF is not skipped. *)
Theorem C05_ecma_space_refuted : forall r,
  is_space r <> existsb (Z.eqb r) ecma_space <-> (r = 133 \/ r = 65279)%Z.
Proof. exact space_vs_ecma. Qed.
Print Assumptions C05_ecma_space_refuted.

(** C06.  Decoding inverts encoding for every scalar value, whatever follows. *)
Theorem C06_decode_encode : forall r rest, is_scalar r = true ->
  decode_rune (encode_rune r ++ rest) = (r, length (encode_rune r)).
Proof. intros r rest H. apply decode_encode. exact H. Qed.
Print Assumptions C06_decode_encode.

Theorem C06_decode_all_encode : forall rs, Forall (fun r => is_scalar r = true) rs ->
  decode_all (flat_map encode_rune rs) = rs.
Proof. intros rs H. apply decode_all_encode. exact H. Qed.
Print Assumptions C06_decode_all_encode.

(** U+FFFD with width one is reported exactly for a text that starts with no encoded scalar
    value; otherwise the decoded rune's encoding is the prefix that was consumed. *)
Theorem C06_malformed_iff : forall b s,
  decode_rune (b :: s) = (RuneError, 1)
  <-> ~ exists r t, is_scalar r = true /\ b :: s = encode_rune r ++ t.
Proof. exact decode_malformed_iff. Qed.
Print Assumptions C06_malformed_iff.

Theorem C06_wellformed : forall b s r k, decode_rune (b :: s) = (r, k) ->
  is_scalar r = true /\ 1 <= k <= 4
  /\ ((r = RuneError /\ k = 1) \/ firstn k (b :: s) = encode_rune r).
Proof.
  intros b s r k H.
  pose proof (decode_rune_scalar (b :: s)) as H1. pose proof (decode_size_pos b s) as H2.
  rewrite H in H1, H2. split; [exact H1|]. split; [exact H2|]. apply decode_prefix. exact H.
Qed.
Print Assumptions C06_wellformed.

(** Runes outside the scalar values are written as U+FFFD. *)
Theorem C06_encode_nonscalar : forall r, is_scalar r = false -> encode_rune r = encode_rune RuneError.
Proof. exact encode_nonscalar. Qed.
Print Assumptions C06_encode_nonscalar.

Example C06_nonvacuous :
  decode_rune (encode_rune 128512 ++ bs "x") = (128512%Z, 4)
  /\ decode_rune [xed; xa0; x80] = (RuneError, 1)
  /\ decode_rune [xc0; x80] = (RuneError, 1)
  /\ is_scalar 55296 = false.
Proof. vm_compute. repeat split. Qed.
