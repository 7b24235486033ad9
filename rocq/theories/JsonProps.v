(** C12, C13: RemoveJsonComments. *)
From Verif Require Import Base Utf8Model Utf8Proofs SourceModel SourceSpec JsonModel JsonSpec JsonProofs.
Local Open Scope Z_scope.

(** C12, the part that holds.  In an input without block comments, reading line breaks as LF, every
    character of the output is at the line and column of the input: it is the same character or a
    blank, and no line break is lost, added or moved. *)
Theorem C12_positions_partial : forall s out,
  remove_json_comments s = Some out -> no_pair 47 42 (decode_all s) ->
  Forall2 (fun x y => y = x \/ (y = 32 /\ x <> 10)) (crlf_norm (decode_all s)) (crlf_norm (decode_all out)).
Proof.
  intros s out H Hp. destruct (remove_decode _ _ H) as [o [H1 [_ ->]]].
  rewrite (cn_norm _ _ (Nat.le_refl _)), (cn_norm _ _ (Nat.le_refl _)).
  refine (strip_kept _ _ _ _ false _ (Nat.le_refl _) _ Hp _ H1); discriminate.
Qed.
Print Assumptions C12_positions_partial.

(** With block comments, in an input without CRLF line ends: the number of lines is the same. *)
Theorem C12_line_count_partial : forall s out,
  remove_json_comments s = Some out -> no_pair 13 10 (decode_all s) ->
  line_breaks (decode_all out) = line_breaks (decode_all s).
Proof.
  intros s out H Hp. destruct (remove_decode _ _ H) as [o [H1 [_ ->]]].
  destruct (strip_lines _ _ _ _ _ (Nat.le_refl _) Hp H1) as [H2 [H3 _]].
  rewrite !plain_norm by assumption. assumption.
Qed.
Print Assumptions C12_line_count_partial.

Definition nl : bytes := [x0a].
Definition crlf : bytes := [x0d; x0a].

Example C12_nonvacuous_positions :
  remove_json_comments (bs "{ // c" ++ crlf ++ bs """a"": [1, ] }") = Some (bs "{     " ++ nl ++ bs """a"": [1  ] }").
Proof. reflexivity. Qed.
Example C12_nonvacuous_lines :
  remove_json_comments (bs "/*" ++ nl ++ bs "*/1") = Some (bs "  " ++ nl ++ bs "   1").
Proof. reflexivity. Qed.

(** The full claim fails: a CRLF inside a block comment becomes two line breaks, *)
Theorem C12_crlf_block_refuted : exists s out, remove_json_comments s = Some out
  /\ line_breaks (decode_all s) = 1%nat /\ line_breaks (decode_all out) = 2%nat.
Proof. exists (bs "/*" ++ crlf ++ bs "*/"). eexists. repeat split. Qed.
Print Assumptions C12_crlf_block_refuted.

(** text behind a block comment that spans lines moves by one column, *)
Theorem C12_column_refuted : exists s out, remove_json_comments s = Some out
  /\ ofst_line_col (new_source s) 5 = Some (2%nat, 2%nat) /\ nth_error s 5 = Some x78
  /\ ofst_line_col (new_source out) 6 = Some (2%nat, 3%nat) /\ nth_error out 6 = Some x78.
Proof. exists (bs "/*" ++ nl ++ bs "*/x"). eexists. repeat split. Qed.
Print Assumptions C12_column_refuted.

(** and a multi-byte character in a comment shortens the text. *)
Theorem C12_byte_length_refuted : exists s out, remove_json_comments s = Some out
  /\ length s = 4%nat /\ length out = 3%nat.
Proof. exists (bs "//" ++ encode_rune 233). eexists. repeat split. Qed.
Print Assumptions C12_byte_length_refuted.

(** C13.  Every input is a document, i.e. a sequence of text, string literals and comments. *)
Theorem C13_every_input_is_a_document : forall l : list rune, exists d, doc_ok d /\ doc_src d = l.
Proof. intros l. apply (doc_exists (length l)). apply Nat.le_refl. Qed.
Print Assumptions C13_every_input_is_a_document.

(** The input is rejected exactly when it holds malformed UTF-8 (or a literal U+FFFD). *)
Theorem C13_error_iff : forall s, remove_json_comments s = None <-> In RuneError (decode_all s).
Proof.
  intros s. unfold remove_json_comments.
  rewrite <- (strip_none (length (decode_all s)) _ JNorm RuneError (Nat.le_refl _)).
  destruct (strip JNorm RuneError (decode_all s)); split; congruence.
Qed.
Print Assumptions C13_error_iff.

(** A document whose string literals do not end in an escaped backslash comes out with exactly its
    comments and trailing commas blanked and everything else, strings included, unchanged. *)
Theorem C13_strip_partial : forall s d,
  doc_ok d -> doc_src d = decode_all s -> ~ In RuneError (decode_all s) -> no_escaped_end d ->
  remove_json_comments s = Some (flat_map encode_rune (doc_out d)).
Proof.
  intros s d H1 H2 H3 H4. unfold remove_json_comments. rewrite <- H2 in *. rewrite strip_doc by assumption. reflexivity.
Qed.
Print Assumptions C13_strip_partial.

(** Corollary: nothing to strip, nothing changed. *)
Theorem C13_unchanged_partial : forall s d,
  doc_ok d -> doc_src d = decode_all s -> ~ In RuneError (decode_all s) -> no_escaped_end d ->
  doc_out d = doc_src d -> remove_json_comments s = Some s.
Proof.
  intros s d H1 H2 H3 H4 H5. rewrite (C13_strip_partial s d) by assumption. f_equal. rewrite H5, H2.
  apply (encode_decode_all (length s)); [apply Nat.le_refl|assumption].
Qed.
Print Assumptions C13_unchanged_partial.

(** A string that ends in an escaped backslash is taken to go on, so the comment behind it stays. *)
Theorem C13_escaped_backslash_refuted : exists s d,
  doc_ok d /\ doc_src d = decode_all s /\ ~ In RuneError (decode_all s)
  /\ remove_json_comments s = Some s /\ doc_out d <> doc_src d.
Proof.
  exists (bs """\\"" //x"), [GStr [IEsc 92]; GText 32; GLine [120] TEnd].
  split; [|split; [reflexivity|split; [|split; [reflexivity|discriminate]]]].
  - cbn. repeat split; try discriminate; try (constructor; [exact I|constructor]); intuition discriminate.
  - vm_compute. intuition discriminate.
Qed.
Print Assumptions C13_escaped_backslash_refuted.

(** "Directly before a closing bracket" is meant up to white space only: a comment in between keeps
    the comma, and the result is not valid JSON. *)
Theorem C13_comma_before_comment_refuted :
  remove_json_comments (bs "[1,/**/]") = Some (bs "[1,    ]").
Proof. reflexivity. Qed.
Print Assumptions C13_comma_before_comment_refuted.

Definition ex_doc : list seg :=
  [GText 91; GStr [IPlain 47; IPlain 47; IEsc 34]; GText 44; GText 32; GText 93; GLine [99] TCRLF; GBlock [42]].
Example C13_nonvacuous : doc_ok ex_doc /\ no_escaped_end ex_doc /\ ~ In RuneError (doc_src ex_doc)
  /\ doc_src ex_doc = decode_all (bs "[""//\"""", ]//c" ++ crlf ++ bs "/***/")
  /\ doc_out ex_doc = decode_all (bs "[""//\""""  ]   " ++ nl ++ bs "     ").
Proof.
  split; [|split; [|split; [|split; reflexivity]]].
  - cbn. repeat split; try discriminate; try (repeat constructor; discriminate); intuition try discriminate.
    intros x y E. destruct x as [|? [|]]; discriminate.
  - intros it HI pre. cbn in HI. repeat (destruct HI as [HI|HI]; [try discriminate|]); try contradiction.
    injection HI as <-. destruct pre as [|? [|? [|? [|]]]]; discriminate.
  - vm_compute. intuition discriminate.
Qed.
