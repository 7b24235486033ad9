(** C17: checkpoints. *)
From Verif Require Import Base Utf8Model SourceModel SourceSpec SourceProofs TokenModel LexModel LexSpec LexProofs LexGapProofs LexKindProofs LexProps LexTplProps LexBufModel LexBufSpec LexBufProofs LexChkModel LexChkSpec LexChkProofs.
From Coq Require Import ZifyBool ZifyNat.

(** The lexers a parser can bring about. *)
Inductive reached (U : uni) (entity : bytes -> option bytes) (room : nat -> nat) (feat : N) (c : bytes) : chk -> Prop :=
| re_new : reached U entity room feat c (new_chk feat c)
| re_step : forall k a k', reached U entity room feat c k -> cstep U entity room k a k' -> reached U entity room feat c k'.

Lemma reached_ok : forall U entity room feat c k, uni_ok U -> reached U entity room feat c k -> chk_ok feat c k.
Proof. intros U entity room feat c k HU H. induction H; [apply new_chk_ok|eapply cstep_ok; eassumption]. Qed.

Lemma kinds_view : forall k, kinds (view k) = rev (content (k_heap k) (k_sl k)).
Proof. intros k. unfold kinds, view. cbn [set_modes l_modes]. rewrite map_map. cbn. apply map_id. Qed.

(** ** C17 *)

(** Whatever happens between, with any checkpoints nested in it, the restored lexer is where the saved one
    was: same place in the source, same modes, same buffered tokens, same previous token; provided the
    modes that were on the stack when it was saved are not popped or changed in between.  Any growth of the
    slice of modes is allowed for.  Missing for the full claim: that proviso (refuted below), the comments
    collected, and the notes on [<<] in TypeScript (refuted below). *)
Theorem C17_restored_partial : forall U entity room feat c k0 l k1, uni_ok U -> reached U entity room feat c k0 ->
  between U entity room (ms_len (k_sl k0)) 0 (save k0) l k1 ->
  exists k2, restore k1 = Some k2 /\ same_place (view k0) (view k2) /\ k_tb k2 = k_tb k0 /\ k_ss k2 = k_ss k0.
Proof.
  intros U entity room feat c k0 l k1 HU Hr Hb. apply reached_ok in Hr; [|exact HU]. assert (H0 := Hr). destruct Hr as [L0 [[_ Ld] _]].
  destruct (kept_step U entity room HU feat c k0 0 (save k0) l k1 (proj1 Ld) (kept_start U entity room HU feat c k0 H0) Hb) as [K1 [K2 [K3 [K4 [[vs [K5 [K6 K7]]] [xs [K8 K9]]]]]]].
  destruct vs; [|discriminate]. destruct xs; [|discriminate]. cbn [app] in *. unfold restore, pop_state. rewrite K5, K8. cbn [save k_ss k_lx l_src set_src push_state ss]. eexists. split; [reflexivity|].
  split; [|split; reflexivity]. destruct K1 as [[_ [C1 [F1 _]]] _]. destruct L0 as [_ [C0 [F0 _]]]. unfold same_place. rewrite !kinds_view. cbn.
  split; [|split; [congruence|]; split; [|repeat split; reflexivity]].
  - rewrite C1, <- C0. destruct (l_src (k_lx k0)); reflexivity.
  - unfold content at 2. cbn [v_sl]. rewrite K4. reflexivity.
Qed.
Print Assumptions C17_restored_partial.

(** The restored lexer delivers the tokens the saved one would have delivered, whatever the mixture of
    lookahead and consumption; outside the TypeScript modes. *)
Theorem C17_same_tokens_partial : forall U entity room feat c k0 l k1 k2 h q, uni_ok U -> reached U entity room feat c k0 ->
  between U entity room (ms_len (k_sl k0)) 0 (save k0) l k1 -> restore k1 = Some k2 ->
  Forall (fun k => N.land k (N.lor LM_TS LM_TS_TYP_ARG) = 0%N) (kinds (view k0)) ->
  history U entity (mk_lexer (view k0) (k_tb k0)) h q -> exists q', history U entity (mk_lexer (view k2) (k_tb k2)) h q'.
Proof.
  intros U entity room feat c k0 l k1 k2 h q HU Hr Hb Hs Ht Hh. destruct (C17_restored_partial U entity room feat c k0 l k1 HU Hr Hb) as [k [E [P [T _]]]].
  assert (k = k2) by congruence. subst k. destruct (history_same U entity _ _ _ Hh (mk_lexer (view k2) (k_tb k2))) as [q' [A _]]; [|exists q'; exact A].
  split; [|symmetry; exact T]. split; [exact P|]. right. apply forallb_forall. rewrite Forall_forall in Ht. intros x Hx. unfold ts_bits. cbn [lq] in Hx. rewrite (Ht x Hx). reflexivity.
Qed.
Print Assumptions C17_same_tokens_partial.

(** The live slice always holds the stack of modes the lexer reads with. *)
Theorem C17_modes : forall U entity room feat c k o t acts k', uni_ok U -> reached U entity room feat c k ->
  cstep U entity room k (COp o t acts) k' -> exists i q, step U entity o (mk_lexer (view k) (k_tb k)) = Ok i t q /\ kinds (view k') = kinds (lq q).
Proof.
  intros U entity room feat c k o t acts k' HU Hr Hc. apply reached_ok in Hr; [|exact HU]. destruct Hr as [_ [H _]]. inversion Hc; subst. exists i, q. split; [assumption|]. rewrite kinds_view. cbn [k_heap k_sl].
  match goal with E : h_acts _ _ _ = _ |- _ => destruct (h_acts_view room _ _ _ _ _ H E) as [_ ->] end. rewrite <- kinds_view. assumption.
Qed.
Print Assumptions C17_modes.

(** ** Where it fails *)

Definition double (n : nat) : nat := n - 2. (* appending the n-th mode to a full array of n - 1 doubles it *)
Definition src1 : bytes := bs "static".

(** A mode changed in place, here by a directive, survives the restoration. *)
Theorem C17_changed_mode_refuted : exists k1 k2 h1 h2 q1 q2, let k0 := new_chk 0 src1 in
  cstep ascii_uni no_entity double (save k0) (CMode (MAdd LM_STRICT)) k1 /\ restore k1 = Some k2 /\
  history ascii_uni no_entity (mk_lexer (view k0) (k_tb k0)) h1 q1 /\ history ascii_uni no_entity (mk_lexer (view k2) (k_tb k2)) h2 q2 /\
  map (fun x => (fst x, t_val (snd x))) h1 = [(ONext, T_NAME)] /\ map (fun x => (fst x, t_val (snd x))) h2 = [(ONext, T_STATIC)].
Proof.
  do 2 eexists. eexists [(ONext, _)]. eexists [(ONext, _)]. do 2 eexists. cbv zeta.
  split; [apply cs_mode; reflexivity|]. split; [reflexivity|]. split; [eapply hi_op; [vm_compute; reflexivity|apply hi_nil]|]. split; [eapply hi_op; [vm_compute; reflexivity|apply hi_nil]|]. split; reflexivity.
Qed.
Print Assumptions C17_changed_mode_refuted.

(** A mode popped and replaced by another in the same cell: the restored lexer has the new one.  Here the
    lexer was inside a strict function body when saved, and read past its end. *)
Theorem C17_replaced_mode_refuted : exists k0 k1 k2 k3 k4 x y z h1 h2 q1 q2,
  reached ascii_uni no_entity double 0 (bs "{static}{") k0 /\
  cstep ascii_uni no_entity double (save k0) x k1 /\ cstep ascii_uni no_entity double k1 y k2 /\ cstep ascii_uni no_entity double k2 z k3 /\ restore k3 = Some k4 /\
  history ascii_uni no_entity (mk_lexer (view k0) (k_tb k0)) h1 q1 /\ history ascii_uni no_entity (mk_lexer (view k4) (k_tb k4)) h2 q2 /\
  map (fun x => (fst x, t_val (snd x))) h1 = [(ONext, T_STATIC)] /\ map (fun x => (fst x, t_val (snd x))) h2 = [(ONext, T_NAME)].
Proof.
  eexists. do 4 eexists. eexists (COp ONext _ []). eexists (COp ONext _ [MPop]). eexists (COp ONext _ [MPush LM_NONE true]). eexists [(ONext, _)]. eexists [(ONext, _)]. do 2 eexists.
  split; [eapply re_step; [eapply re_step; [apply re_new|eapply (cs_op _ _ _ _ ONext _ _ _ [MPush LM_NONE true]); vm_compute; reflexivity]|eapply (cs_mode _ _ _ _ (MAdd LM_STRICT)); vm_compute; reflexivity]|].
  split; [eapply cs_op; vm_compute; reflexivity|]. split; [eapply cs_op; vm_compute; reflexivity|]. split; [eapply cs_op; vm_compute; reflexivity|]. split; [vm_compute; reflexivity|].
  split; [eapply hi_op; [vm_compute; reflexivity|apply hi_nil]|]. split; [eapply hi_op; [vm_compute; reflexivity|apply hi_nil]|]. split; reflexivity.
Qed.
Print Assumptions C17_replaced_mode_refuted.

(** In TypeScript [<<] may be two opening angle brackets.  The lexer notes where it has offered the first
    of them, and the note survives the restoration: the second time the token is an error. *)
Theorem C17_typescript_refuted : exists k1 k2 h1 h2 q1 q2 t a, let k0 := mk_chk (new_lexer 0 (bs "<<T>")) new_tb [[LM_TS]] (mk_ms 0 1) [] in
  cstep ascii_uni no_entity double (save k0) (COp ONext t a) k1 /\ restore k1 = Some k2 /\
  history ascii_uni no_entity (mk_lexer (view k0) (k_tb k0)) h1 q1 /\ history ascii_uni no_entity (mk_lexer (view k2) (k_tb k2)) h2 q2 /\
  map (fun x => (fst x, t_val (snd x))) h1 = [(ONext, T_LT)] /\ map (fun x => (fst x, t_val (snd x))) h2 = [(ONext, T_ILLEGAL)].
Proof.
  do 2 eexists. eexists [(ONext, _)]. eexists [(ONext, _)]. do 3 eexists. exists []. cbv zeta.
  split; [eapply cs_op; [vm_compute; reflexivity|vm_compute; reflexivity|reflexivity]|]. split; [vm_compute; reflexivity|]. split; [eapply hi_op; [vm_compute; reflexivity|apply hi_nil]|]. split; [eapply hi_op; [vm_compute; reflexivity|apply hi_nil]|]. split; reflexivity.
Qed.
Print Assumptions C17_typescript_refuted.

(** The hypotheses are met: a checkpoint, a block read inside it, with a checkpoint of its own, and back. *)
Example C17_example : exists k0 l k1 k2, reached ascii_uni no_entity double 0 (bs "a{b}c") k0 /\
  between ascii_uni no_entity double (ms_len (k_sl k0)) 0 (save k0) l k1 /\ restore k1 = Some k2 /\ length l = 8 /\ ofst (l_src (view k1)) = 4 /\ ofst (l_src (view k2)) = 1 /\ l_prt (view k2) = T_NAME.
Proof.
  eexists. eexists [COp ONext _ [MPush LM_NONE true]; CMode (MAdd LM_ASYNC); CSave; COp ONext _ []; COp OPeek _ [MPop]; CRestore; COp ONext _ []; COp ONext _ [MPop]]. do 2 eexists.
  split; [eapply re_step; [apply re_new|eapply (cs_op _ _ _ _ ONext _ _ _ []); vm_compute; reflexivity]|]. split.
  - eapply bt_op; [apply sy_push, sy_nil|eapply cs_op; vm_compute; reflexivity|].
    eapply bt_mode; [apply sy_add; [cbn; lia|apply sy_nil]|eapply cs_mode; vm_compute; reflexivity|].
    eapply bt_save; [apply cs_save|].
    eapply bt_op; [apply sy_nil|eapply cs_op; vm_compute; reflexivity|].
    eapply bt_op; [apply sy_pop; [cbn; lia|apply sy_nil]|eapply cs_op; vm_compute; reflexivity|].
    eapply bt_restore; [apply cs_restore; vm_compute; reflexivity|].
    eapply bt_op; [apply sy_nil|eapply cs_op; vm_compute; reflexivity|].
    eapply bt_op; [apply sy_pop; [cbn; lia|apply sy_nil]|eapply cs_op; vm_compute; reflexivity|]. apply bt_nil.
  - split; [vm_compute; reflexivity|]. repeat split.
Qed.
