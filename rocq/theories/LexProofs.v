(** Proofs about the lexer: progress and termination of every scanner. *)
From Verif Require Import Base Utf8Model Utf8Proofs SourceModel SourceSpec SourceProofs TokenModel LexModel.
From Coq Require Import ZifyBool ZifyNat ZifyN.
Local Open Scope Z_scope.

Definition rest (s : source) : list rune := decode_all (s_raw (st s)).
Definition lenraw (s : source) : nat := length (s_raw (st s)).

(** The source [s'] is reached from [s] by consuming characters. *)
Fixpoint advn (n : nat) (s : source) : source :=
  match n with O => s | S n' => snd (src_advance (advn n' s)) end.
Definition adv (s s' : source) : Prop := exists n, s' = advn n s.
Definition sadv (s s' : source) : Prop := adv s s' /\ (lenraw s' < lenraw s)%nat.

Lemma adv_refl : forall s, adv s s.
Proof. intros s. exists O. reflexivity. Qed.
Lemma adv_trans : forall a b c, adv a b -> adv b c -> adv a c.
Proof.
  intros a b c [n ->] [m ->]. exists (m + n)%nat. induction m as [|m IH]; [reflexivity|].
  cbn [advn Nat.add]. rewrite IH. reflexivity.
Qed.
Lemma adv_read : forall s, adv s (snd (read s)).
Proof.
  intros s. unfold read. destruct (src_advance s) as [r s1] eqn:E.
  cbn [snd]. destruct (is_line_term r); [destruct (r =? 13)%Z; [destruct (peek s1 =? 10)%Z|]|].
  - exists 2%nat. cbn. rewrite E. reflexivity.
  - exists 1%nat. cbn. rewrite E. reflexivity.
  - exists 1%nat. cbn. rewrite E. reflexivity.
  - exists 1%nat. cbn. rewrite E. reflexivity.
Qed.
Lemma adv_advance_if : forall s c, adv s (snd (advance_if s c)).
Proof. intros s c. unfold advance_if. destruct (peek s =? c); [apply adv_read|apply adv_refl]. Qed.

Lemma src_advance_facts : forall s,
  (lenraw (snd (src_advance s)) <= lenraw s)%nat
  /\ (ofst (snd (src_advance s)) + lenraw (snd (src_advance s)) = ofst s + lenraw s)%nat.
Proof.
  intros s. unfold lenraw, ofst. destruct (s_raw (st s)) as [|b t] eqn:E.
  - rewrite src_advance_nil by assumption. cbn [snd]. rewrite E. lia.
  - rewrite (src_advance_cons s b t E). cbn [snd set_st st s_raw s_ofst].
    pose proof (decode_size_le (b :: t)). rewrite skipn_length. lia.
Qed.

Lemma adv_facts : forall s s', adv s s' ->
  (lenraw s' <= lenraw s)%nat /\ (ofst s' + lenraw s' = ofst s + lenraw s)%nat
  /\ code s' = code s /\ ss s' = ss s /\ s_met (st s') = s_met (st s) /\ (src_ok s -> src_ok s').
Proof.
  intros s s' [n ->]. induction n as [|n IH]; cbn [advn].
  - repeat split; auto; apply H.
  - set (x := advn n s) in *.
    destruct IH as [H1 [H2 [H3 [H4 [H5 H6]]]]].
    destruct (src_advance_facts x) as [G1 G2]. destruct (src_advance_ss x) as [G3 [G4 G5]].
    repeat split; try congruence; try lia; apply src_advance_ok; auto.
Qed.

Lemma adv_len : forall s s', adv s s' -> (lenraw s' <= lenraw s)%nat.
Proof. intros s s' H. apply adv_facts in H. tauto. Qed.
Lemma adv_ofst : forall s s', adv s s' -> (ofst s' + lenraw s' = ofst s + lenraw s)%nat.
Proof. intros s s' H. apply adv_facts in H. tauto. Qed.
Lemma adv_ofst_le : forall s s', adv s s' -> (ofst s <= ofst s')%nat.
Proof. intros s s' H. apply adv_facts in H. lia. Qed.
Lemma adv_code : forall s s', adv s s' -> code s' = code s.
Proof. intros s s' H. apply adv_facts in H. tauto. Qed.
Lemma adv_met : forall s s', adv s s' -> s_met (st s') = s_met (st s).
Proof. intros s s' H. apply adv_facts in H. tauto. Qed.
Lemma adv_ok : forall s s', adv s s' -> src_ok s -> src_ok s'.
Proof. intros s s' H. apply adv_facts in H. tauto. Qed.
Lemma sadv_adv : forall s s', sadv s s' -> adv s s'.
Proof. intros s s' [H _]. exact H. Qed.
Lemma sadv_l : forall a b c, sadv a b -> adv b c -> sadv a c.
Proof. intros a b c [H1 H2] H3. split; [eapply adv_trans; eassumption|]. apply adv_len in H3. lia. Qed.
Lemma sadv_r : forall a b c, adv a b -> sadv b c -> sadv a c.
Proof. intros a b c H1 [H2 H3]. split; [eapply adv_trans; eassumption|]. apply adv_len in H1. lia. Qed.

(** ** Peek and read *)

Lemma peek_rest : forall s, peek s = hd EOF (rest s).
Proof. apply peek_spec. Qed.
Lemma rest_nil_iff : forall s, rest s = [] <-> s_raw (st s) = [].
Proof. intros s. unfold rest. split; [apply decode_all_nil_inv|intros ->; reflexivity]. Qed.
Lemma rest_ge0 : forall s, Forall (fun r => 0 <= r <= MaxRune) (rest s).
Proof. intros s. eapply decode_all_range. apply le_n. Qed.
Lemma peek_eof_iff : forall s, peek s = EOF <-> s_raw (st s) = [].
Proof.
  intros s. rewrite peek_rest, <- rest_nil_iff. pose proof (rest_ge0 s) as H.
  destruct (rest s) as [|r rs]; cbn; [tauto|]. inversion H; subst. unfold EOF. split; [lia|discriminate].
Qed.
Lemma read_peek_ne : forall s, peek s <> EOF -> sadv s (snd (read s)).
Proof.
  intros s H. split; [apply adv_read|]. rewrite peek_rest in H.
  destruct (rest s) as [|r rs] eqn:E; [cbn in H; congruence|].
  destruct (read_decode s r rs E) as [s' [-> [_ [HL _]]]]. exact HL.
Qed.
(** The rune Read returns: the peeked one, CR and CRLF as LF. *)
Lemma read_fst : forall s, fst (read s) = if (peek s =? 13) || (peek s =? 10) then 10 else peek s.
Proof.
  intros s. rewrite peek_rest. destruct (rest s) as [|r rs] eqn:E.
  - apply rest_nil_iff in E. rewrite (read_eof s E). reflexivity.
  - destruct (read_decode s r rs E) as [s' [-> _]]. reflexivity.
Qed.
Lemma read_eof_iff : forall s, fst (read s) = EOF <-> s_raw (st s) = [].
Proof.
  intros s. rewrite read_fst, <- peek_eof_iff. unfold EOF.
  destruct ((peek s =? 13) || (peek s =? 10)) eqn:E; lia.
Qed.
Lemma read_ne_sadv : forall s, fst (read s) <> EOF -> sadv s (snd (read s)).
Proof.
  intros s H. apply read_peek_ne. rewrite peek_eof_iff, <- read_eof_iff. exact H.
Qed.
Lemma read_sadv' : forall s r s', read s = (r, s') -> r <> EOF -> sadv s s'.
Proof. intros s r s' E H. pose proof (read_ne_sadv s) as G. rewrite E in G. auto. Qed.
Lemma read_adv' : forall s r s', read s = (r, s') -> adv s s'.
Proof. intros s r s' E. pose proof (adv_read s) as G. rewrite E in G. auto. Qed.
Lemma rd_adv : forall s, adv s (rd s).
Proof. apply adv_read. Qed.

(** What Read leaves when no CR is involved. *)
Lemma read_rest : forall s r rs, rest s = r :: rs -> r <> 13 -> rest (snd (read s)) = rs /\ fst (read s) = r.
Proof.
  intros s r rs H Hr. destruct (read_decode s r rs H) as [s' [-> [HD _]]]. cbn [fst snd].
  unfold rest. rewrite HD. replace (r =? 13) with false by lia. split; [reflexivity|].
  destruct (r =? 10) eqn:E; cbn; lia.
Qed.

(** ** Every scanner only moves forward *)

Ltac chain :=
  cbn [fst snd];
  match goal with
  | |- adv ?a ?a => apply adv_refl
  | H : adv ?a ?b |- adv ?a ?c => (eapply adv_trans; [exact H|]); clear H; chain
  | |- adv ?a (snd (read ?b)) => (eapply adv_trans; [|apply adv_read]); chain
  | |- adv ?a (rd ?b) => (eapply adv_trans; [|apply adv_read]); chain
  | |- adv ?a (snd (advance_if ?b ?c)) => (eapply adv_trans; [|apply adv_advance_if]); chain
  end.

(** Turn equations about reads into facts. *)
Ltac rds := repeat match goal with
  | E : read ?s = (?r, ?s') |- _ => pose proof (read_adv' _ _ _ E); revert E
  end; intros.

Ltac inj := repeat match goal with
  | H : Some _ = Some _ |- _ => injection H; clear H; intros; subst
  | H : (_, _) = (_, _) |- _ => injection H; clear H; intros; subst
  | H : None = Some _ |- _ => discriminate H
  | H : Some _ = None |- _ => discriminate H
  end.

(** Case split on the scrutinee of every match in an equation [E : ... = res]. *)
Ltac splits E := repeat (match type of E with
  | context [match ?x with _ => _ end] =>
      lazymatch x with context [match _ with _ => _ end] => fail | _ => destruct x eqn:? end
  end; cbn [fst snd] in * ).

Section Adv.
Variable U : uni.
Variable entity : bytes -> option bytes.

Lemma cp_loop_adv : forall n s hex, adv s (snd (cp_loop n s hex)).
Proof.
  induction n as [|n IH]; intros s hex; cbn [cp_loop]; [chain|].
  destruct (peek s =? 125); [chain|]. destruct (ahead_is_eof s); [chain|].
  destruct (_ || _); [chain|]. destruct (read s) as [r s1] eqn:E. rds. specialize (IH s1 (hex ++ [r])). chain.
Qed.
Lemma read_codepoint_adv : forall s, adv s (snd (read_codepoint s)).
Proof.
  intros s. unfold read_codepoint. pose proof (cp_loop_adv (fuel (snd (read s))) (snd (read s)) []) as H.
  pose proof (adv_read s). destruct (cp_loop _ _ _) as [[hex|] s2]; cbn [snd] in *; [|chain].
  destruct (_ <? _); [chain|]. destruct hex; chain.
Qed.
Lemma hex4_loop_adv : forall n s hex, adv s (snd (hex4_loop n s hex)).
Proof.
  induction n as [|n IH]; intros s hex; cbn [hex4_loop]; [chain|].
  destruct (_ || _); [chain|]. destruct (read s) as [r s1] eqn:E. rds. specialize (IH s1 (hex ++ [r])). chain.
Qed.
Lemma read_hex4_adv : forall id start s, adv s (snd (read_hex4 U id start s)).
Proof.
  intros. unfold read_hex4. pose proof (hex4_loop_adv 4 s []) as H.
  destruct (hex4_loop _ _ _) as [[hex|] s2]; cbn [snd] in *; [|chain]. destruct (_ && _); chain.
Qed.
Lemma ues_adv : forall id start s, adv s (snd (read_unicode_escape_seq U id start s)).
Proof. intros. unfold read_unicode_escape_seq. destruct (ahead_is_ch s 123); [apply read_codepoint_adv|apply read_hex4_adv]. Qed.
Lemma read_unicode_escape_adv : forall c id s, adv s (snd (read_unicode_escape U c id s)).
Proof.
  intros. unfold read_unicode_escape. destruct (c =? 92); [|chain]. destruct (ahead_is_ch s 117); [|chain].
  pose proof (ues_adv id (pred (ofst s)) (snd (read s))) as H. pose proof (adv_read s).
  destruct (read_unicode_escape_seq _ _ _ _) as [[r e] s1]. cbn [snd] in *. chain.
Qed.
Lemma octal_loop_adv : forall n s ds, adv s (snd (octal_loop n s ds)).
Proof.
  induction n as [|n IH]; intros s ds; cbn [octal_loop]; [chain|].
  destruct (is_octal (peek s)); [|chain]. destruct (read s) as [r s1] eqn:E. rds. specialize (IH s1 (ds ++ [r])). chain.
Qed.
Lemma read_escape_seq_adv : forall tpl s, adv s (snd (read_escape_seq U tpl s)).
Proof.
  intros. unfold read_escape_seq. destruct (read s) as [c s1] eqn:E. rds.
  repeat (match goal with |- context [if ?b then _ else _] => destruct b eqn:? end; [try chain|]); try chain.
  - unfold read_octal_escape. destruct tpl; [cbn; chain|].
    match goal with |- context [octal_loop ?n s1 ?d] => pose proof (octal_loop_adv n s1 d) as H1;
      destruct (octal_loop n s1 d) as [ds s2] end. cbn [snd] in *. chain.
  - unfold read_hex_escape. destruct (read s1) as [h0 s2] eqn:E2. destruct (read s2) as [h1 s3] eqn:E3. rds.
    destruct (_ || _); cbn; chain.
  - pose proof (ues_adv false (ofst s1) s1) as H1. destruct (read_unicode_escape_seq _ _ _ _) as [[r e] s2]. cbn in *. chain.
Qed.
Lemma read_escape_seq_sadv : forall tpl s, s_raw (st s) <> [] -> sadv s (snd (read_escape_seq U tpl s)).
Proof.
  intros tpl s Hne. apply sadv_l with (snd (read s)).
  - apply read_ne_sadv. rewrite read_eof_iff. exact Hne.
  - unfold read_escape_seq. destruct (read s) as [c s1] eqn:E. cbn [snd].
    repeat (match goal with |- context [if ?b then _ else _] => destruct b eqn:? end; [try chain|]); try chain.
    + unfold read_octal_escape. destruct tpl; [cbn; chain|].
      match goal with |- context [octal_loop ?n s1 ?d] => pose proof (octal_loop_adv n s1 d) as H1;
        destruct (octal_loop n s1 d) as [ds s2] end. cbn [snd] in *. chain.
    + unfold read_hex_escape. destruct (read s1) as [h0 s2] eqn:E2. destruct (read s2) as [h1 s3] eqn:E3. rds.
      destruct (_ || _); cbn; chain.
    + pose proof (ues_adv false (ofst s1) s1) as H1. destruct (read_unicode_escape_seq _ _ _ _) as [[r e] s2]. cbn in *. chain.
Qed.
Lemma read_line_term_adv : forall s, adv s (read_line_term s).
Proof.
  intros. unfold read_line_term. destruct (read s) as [c s1] eqn:E. rds. destruct (c =? 13); chain.
Qed.

Lemma str_loop_adv : forall n feat tpl open start s buf lg r s',
  str_loop U n feat tpl open start s buf lg = Some (r, s') -> adv s s'.
Proof.
  induction n as [|n IH]; intros feat tpl open start s buf lg res s' H; cbn [str_loop] in H; [discriminate|].
  destruct (read s) as [c s1] eqn:E. rds.
  destruct (c =? EOF); [inj; chain|]. destruct (c =? 92).
  - destruct (is_line_term (peek s1)).
    + apply IH in H. pose proof (read_line_term_adv s1). chain.
    + pose proof (read_escape_seq_adv tpl s1) as H1. destruct (read_escape_seq _ _ _) as [[[r e] lo] s2]. cbn [snd] in *.
      destruct e; [inj; chain|]. destruct (r =? EOF); [inj; chain|]. apply IH in H. chain.
  - destruct (lex_line_term feat c); [inj; chain|]. destruct (c =? open); [inj; chain|]. apply IH in H. chain.
Qed.

Lemma str_loop_fuel : forall n feat tpl open start s buf lg,
  (lenraw s < n)%nat -> str_loop U n feat tpl open start s buf lg <> None.
Proof.
  induction n as [|n IH]; intros feat tpl open start s buf lg Hn; [lia|]. cbn [str_loop].
  destruct (read s) as [c s1] eqn:E. destruct (c =? EOF) eqn:Ec; [discriminate|].
  assert (Hs : sadv s s1) by (eapply read_sadv'; [eassumption|lia]). destruct Hs as [_ Hs].
  destruct (c =? 92).
  - destruct (is_line_term (peek s1)).
    + apply IH. pose proof (adv_len _ _ (read_line_term_adv s1)). lia.
    + pose proof (adv_len _ _ (read_escape_seq_adv tpl s1)) as H1.
      destruct (read_escape_seq _ _ _) as [[[r e] lo] s2]. cbn [snd] in *.
      destruct e; [discriminate|]. destruct (r =? EOF); [discriminate|]. apply IH. lia.
  - destruct (lex_line_term feat c); [discriminate|]. destruct (c =? open); [discriminate|]. apply IH. lia.
Qed.

Lemma jsx_str_loop_adv : forall n open s r s', jsx_str_loop n open s = Some (r, s') -> adv s s'.
Proof.
  induction n as [|n IH]; intros open s r s' H; cbn [jsx_str_loop] in H; [discriminate|].
  destruct (read s) as [c s1] eqn:E. rds. destruct (c =? EOF); [inj; chain|]. destruct (c =? open); [inj; chain|].
  apply IH in H. chain.
Qed.
Lemma jsx_str_loop_fuel : forall n open s, (lenraw s < n)%nat -> jsx_str_loop n open s <> None.
Proof.
  induction n as [|n IH]; intros open s Hn; [lia|]. cbn [jsx_str_loop].
  destruct (read s) as [c s1] eqn:E. destruct (c =? EOF) eqn:Ec; [discriminate|].
  assert (Hs : sadv s s1) by (eapply read_sadv'; [eassumption|lia]). destruct Hs as [_ Hs].
  destruct (c =? open); [discriminate|]. apply IH. lia.
Qed.

Lemma id_part_loop_adv : forall n jsx s rs esc r s', id_part_loop U n jsx s rs esc = Some (r, s') -> adv s s'.
Proof.
  induction n as [|n IH]; intros jsx s rs esc r s' H; cbn [id_part_loop] in H; [discriminate|].
  destruct (_ || _); [|inj; chain].
  destruct (read s) as [c s1] eqn:E. rds.
  pose proof (read_unicode_escape_adv c true s1) as H1. destruct (read_unicode_escape _ _ _ _) as [[[c1 e1] er] s2]. cbn [snd] in *.
  destruct er; [inj; chain|]. destruct (c1 =? 92); [inj; chain|]. apply IH in H. chain.
Qed.

Lemma read_id_part_adv : forall jsx s r s', read_id_part U jsx s = Some (r, s') -> adv s s'.
Proof. intros jsx s r s' H. eapply id_part_loop_adv. exact H. Qed.

Hypothesis HU : uni_ok U.

Lemma id_start_not_eof : is_id_start U EOF = false.
Proof.
  unfold is_id_start, EOF. cbn [andb orb Z.leb Z.eqb]. pose proof (HU (-1)) as H.
  destruct (u_start U (-1)), (u_lo U (-1)); cbn in *; try reflexivity; destruct H; auto; lia.
Qed.
Lemma id_part_not_eof : is_id_part U EOF = false.
Proof.
  unfold is_id_part, EOF. pose proof (HU (-1)) as H.
  destruct (u_part U (-1)); cbn; [|reflexivity]. destruct H; auto; rewrite ?orb_true_r; try reflexivity; lia.
Qed.
Lemma id_part_loop_fuel : forall n jsx s rs esc, (lenraw s < n)%nat -> id_part_loop U n jsx s rs esc <> None.
Proof.
  induction n as [|n IH]; intros jsx s rs esc Hn; [lia|]. cbn [id_part_loop].
  destruct (_ || _) eqn:Ec; [|discriminate].
  assert (Hne : peek s <> EOF).
  { intros H. rewrite H, id_start_not_eof, id_part_not_eof in Ec. cbn in Ec. rewrite andb_false_r in Ec. discriminate. }
  apply read_peek_ne in Hne. destruct Hne as [_ Hs].
  destruct (read s) as [c s1] eqn:E. cbn [snd] in Hs.
  pose proof (adv_len _ _ (read_unicode_escape_adv c true s1)) as H1.
  destruct (read_unicode_escape _ _ _ _) as [[[c1 e1] er] s2]. cbn [snd] in *.
  destruct er; [discriminate|]. destruct (c1 =? 92); [discriminate|]. apply IH. lia.
Qed.
Lemma read_id_part_fuel : forall jsx s, read_id_part U jsx s <> None.
Proof. intros. apply id_part_loop_fuel. unfold fuel, lenraw. lia. Qed.

(** ** Tokens cover what was consumed *)

Definition tok_ok (s s' : source) (t : token) : Prop :=
  adv s s' /\ (t_val t = T_ILLEGAL \/
    (t_lo t = ofst s /\ t_hi t = ofst s' /\ t_atl t = s_met (st s) /\ sadv s s')).

Lemma err_ok : forall s s' o e, adv s s' -> tok_ok s s' (err_tok o e).
Proof. intros. split; [assumption|left; reflexivity]. Qed.
Lemma fin_ok : forall s s' v x r e, sadv s s' -> tok_ok s s' (fin_tok s s' v x r e).
Proof.
  intros s s' v x r e H. split; [apply H|]. right. cbn. repeat split; try apply H.
  apply adv_met. apply H.
Qed.

Lemma read_str_ok : forall feat tpl s t s', s_raw (st s) <> [] ->
  read_str U feat tpl s = Some (t, s') -> tok_ok s s' t.
Proof.
  intros feat tpl s t s' Hne H. unfold read_str in H. destruct (read s) as [open s1] eqn:E.
  assert (Hs : sadv s s1).
  { eapply read_sadv'; [eassumption|]. pose proof (read_eof_iff s) as G. rewrite E in G. cbn in G. tauto. }
  destruct (str_loop _ _ _ _ _ _ _ _ _) as [[[buf lg hi|e o] s2]|] eqn:El; [| |discriminate].
  - apply str_loop_adv in El. inj. apply fin_ok. eapply sadv_l; eassumption.
  - apply str_loop_adv in El. inj. apply err_ok. apply sadv_adv in Hs. chain.
Qed.
Lemma read_str_fuel : forall feat tpl s, read_str U feat tpl s <> None.
Proof.
  intros feat tpl s. unfold read_str. destruct (read s) as [open s1].
  pose proof (str_loop_fuel (fuel s1) feat tpl open (ofst s1) s1 None false) as H.
  destruct (str_loop _ _ _ _ _ _ _ _ _) as [[[]]|]; try discriminate. exfalso. apply H; [unfold fuel, lenraw; lia|reflexivity].
Qed.
Lemma read_jsx_str_ok : forall s t s', s_raw (st s) <> [] -> read_jsx_str s = Some (t, s') -> tok_ok s s' t.
Proof.
  intros s t s' Hne H. unfold read_jsx_str in H. destruct (read s) as [open s1] eqn:E.
  assert (Hs : sadv s s1).
  { eapply read_sadv'; [eassumption|]. pose proof (read_eof_iff s) as G. rewrite E in G. cbn in G. tauto. }
  destruct (jsx_str_loop _ _ _) as [[[|] s2]|] eqn:El; [| |discriminate].
  - apply jsx_str_loop_adv in El. inj. apply fin_ok. eapply sadv_l; eassumption.
  - apply jsx_str_loop_adv in El. inj. apply err_ok. apply sadv_adv in Hs. chain.
Qed.
Lemma read_jsx_str_fuel : forall s, read_jsx_str s <> None.
Proof.
  intros s. unfold read_jsx_str. destruct (read s) as [open s1].
  pose proof (jsx_str_loop_fuel (fuel s1) open s1) as H.
  destruct (jsx_str_loop _ _ _) as [[[]]|]; try discriminate. exfalso. apply H; [unfold fuel, lenraw; lia|reflexivity].
Qed.

Lemma read_name_ok : forall feat strict async jsx s t s', s_raw (st s) <> [] ->
  read_name U feat strict async jsx s = Some (t, s') -> tok_ok s s' t.
Proof.
  intros feat strict async jsx s t s' Hne H. unfold read_name in H. destruct (read s) as [c0 s1] eqn:E.
  assert (Hs : sadv s s1).
  { eapply read_sadv'; [eassumption|]. pose proof (read_eof_iff s) as G. rewrite E in G. cbn in G. tauto. }
  pose proof (read_unicode_escape_adv c0 true s1) as H1.
  destruct (read_unicode_escape _ _ _ _) as [[[r e0] er] s2]. cbn [snd] in *.
  pose proof (sadv_adv _ _ Hs) as Hs'.
  destruct er as [[e o]|]; [inj; apply err_ok; chain|].
  destruct (r =? RuneError); [inj; apply err_ok; chain|].
  destruct (read_id_part U jsx s2) as [[[[idp e1] [[e o]|]] s3]|] eqn:Ei; [| |discriminate]; apply read_id_part_adv in Ei.
  - inj. apply err_ok. chain.
  - assert (Hs3 : sadv s s3) by (eapply sadv_l; [exact Hs|chain]).
    pose proof (sadv_adv _ _ Hs3) as Hs3'.
    destruct (keyword _); [destruct (e0 || e1); inj; [apply err_ok|apply fin_ok]; assumption|].
    destruct (if strict then _ else _); [inj; apply fin_ok; assumption|].
    destruct (_ && _); [|inj; apply fin_ok; assumption].
    destruct (e0 || e1); inj; [apply err_ok|apply fin_ok]; assumption.
Qed.
Lemma read_name_fuel : forall feat strict async jsx s, read_name U feat strict async jsx s <> None.
Proof.
  intros. unfold read_name. destruct (read s) as [c0 s1].
  destruct (read_unicode_escape _ _ _ _) as [[[r e0] er] s2].
  destruct er as [[e o]|]; [discriminate|]. destruct (r =? RuneError); [discriminate|].
  pose proof (read_id_part_fuel jsx s2) as H.
  destruct (read_id_part U jsx s2) as [[[[idp e1] [[e o]|]] s3]|]; [discriminate| |congruence].
  cbn zeta. repeat match goal with |- context [match ?x with _ => _ end] => destruct x; try discriminate end.
Qed.

Lemma read_name_pvt_ok : forall feat strict async s t s', s_raw (st s) <> [] ->
  read_name_pvt U feat strict async s = Some (t, s') -> tok_ok s s' t.
Proof.
  intros feat strict async s t s' Hne H. unfold read_name_pvt in H.
  assert (Hs : sadv s (snd (read s))) by (apply read_ne_sadv; rewrite read_eof_iff; exact Hne).
  pose proof (sadv_adv _ _ Hs) as Hs'.
  set (s1 := snd (read s)) in *.
  destruct (is_id_start U (peek s1)) eqn:Ei; cbn [negb] in H; [|inj; apply err_ok; assumption].
  assert (Hne1 : s_raw (st s1) <> []).
  { rewrite <- peek_eof_iff. intros G. rewrite G, id_start_not_eof in Ei. discriminate. }
  destruct (read_name _ _ _ _ _ _) as [[t1 s2]|] eqn:En; [|discriminate].
  apply read_name_ok in En; [|exact Hne1]. destruct En as [Ha Hb].
  assert (Hs2 : sadv s s2) by (eapply sadv_l; eassumption).
  assert (Hm : s_met (st s1) = s_met (st s)) by (apply adv_met; assumption).
  destruct (tv_eqb (t_val t1) T_NAME) eqn:Ev.
  - assert (Hv : t_val t1 <> T_ILLEGAL) by (intros G; rewrite G in Ev; discriminate).
    destruct Hb as [Hb|[H1 [H2 [H3 H4]]]]; [contradiction|].
    destruct (has feat FEAT_CLASS_PRV); inj; split; try (apply Hs2); [right|left; reflexivity].
    cbn. rewrite <- Hm. repeat split; try assumption; apply Hs2.
  - inj. split; [apply Hs2|]. cbn. destruct Hb as [Hb|[H1 [H2 [H3 H4]]]]; [left; assumption|right].
    rewrite <- Hm. repeat split; try assumption; apply Hs2.
Qed.
Lemma read_name_pvt_fuel : forall feat strict async s, read_name_pvt U feat strict async s <> None.
Proof.
  intros. unfold read_name_pvt. destruct (negb _); [discriminate|].
  pose proof (read_name_fuel feat strict async false (snd (read s))) as H.
  destruct (read_name _ _ _ _ _ _) as [[t1 s2]|]; [|congruence].
  destruct (tv_eqb _ _); [destruct (has _ _)|]; discriminate.
Qed.

Lemma dec_loop_adv : forall n feat opt s i last, adv s (snd (dec_loop U n feat opt s i last)).
Proof.
  induction n as [|n IH]; intros feat opt s i last; cbn [dec_loop]; [chain|].
  destruct (is_digit (peek s) || (peek s =? 95)).
  - destruct (_ && _); [chain|]. destruct (_ && _); [chain|]. destruct (_ && _); [chain|].
    specialize (IH feat opt (snd (read s)) (S i) (peek s)). pose proof (adv_read s). chain.
  - destruct (_ =? _); [chain|]. destruct (_ && _); [|chain]. destruct (is_id_start _ _); chain.
Qed.
Lemma read_dec_digits_adv : forall feat opt s, adv s (snd (read_dec_digits U feat opt s)).
Proof. intros. apply dec_loop_adv. Qed.
Lemma bigint_suffix_adv : forall feat s, adv s (snd (bigint_suffix feat s)).
Proof.
  intros. unfold bigint_suffix. pose proof (adv_advance_if s 110). destruct (advance_if s 110) as [b s1]. cbn [snd] in *.
  destruct (_ && _); chain.
Qed.
Lemma read_exp_part_adv : forall feat s, adv s (snd (read_exp_part U feat s)).
Proof.
  intros. unfold read_exp_part. destruct (ahead_is_ch_or _ _ _).
  - pose proof (read_dec_digits_adv feat false (snd (read (snd (read s))))). eapply adv_trans; [|eassumption]. chain.
  - pose proof (read_dec_digits_adv feat false (snd (read s))). eapply adv_trans; [|eassumption]. chain.
Qed.
Lemma num_end_ok : forall feat big s0 s t s', sadv s0 s -> num_end U feat big s0 s = (t, s') -> tok_ok s0 s' t.
Proof.
  intros feat big s0 s t s' Hs H. unfold num_end in H.
  assert (Ha : adv s (snd (if big then bigint_suffix feat s else (None, s))))
    by (destruct big; [apply bigint_suffix_adv|apply adv_refl]).
  destruct (if big then _ else _) as [e s1]. cbn [snd] in Ha.
  assert (Hs1 : sadv s0 s1) by (eapply sadv_l; eassumption).
  destruct e; [inj; apply err_ok, Hs1|]. destruct (is_id_start _ _); inj; [apply err_ok, Hs1|apply fin_ok, Hs1].
Qed.
Lemma read_decimal_num_ok : forall feat first s0 s t s', sadv s0 s ->
  read_decimal_num U feat first s0 s = (t, s') -> tok_ok s0 s' t.
Proof.
  intros feat first s0 s t s' Hs H. unfold read_decimal_num in H. pose proof (sadv_adv _ _ Hs) as Hs0.
  assert (Ha : adv s (snd (dec_int U feat first s))).
  { unfold dec_int. destruct (_ && _); [|chain]. destruct (_ && _); [chain|].
    pose proof (read_dec_digits_adv feat true s) as G. destruct (read_dec_digits _ _ _ _) as [[[]|] s1]; chain. }
  destruct (dec_int U feat first s) as [[[e o]|] s1]; cbn [snd] in Ha; [inj; apply err_ok; chain|].
  assert (Hb : adv s1 (snd (dec_frac U feat first s1))).
  { unfold dec_frac. destruct (_ || _); [|chain].
    set (s2 := if ahead_is_ch s1 46 then snd (read s1) else s1).
    assert (adv s1 s2) by (unfold s2; destruct (ahead_is_ch s1 46); chain).
    pose proof (read_dec_digits_adv feat true s2) as G. destruct (read_dec_digits _ _ _ _) as [[]]; chain. }
  destruct (dec_frac U feat first s1) as [[[[e o]|] fl] s2]; cbn [snd] in Hb; [inj; apply err_ok; chain|].
  assert (Hc : adv s2 (snd (dec_exp U feat s2))).
  { unfold dec_exp. destruct (ahead_is_ch_or _ _ _); [|chain].
    pose proof (read_exp_part_adv feat s2) as G. destruct (read_exp_part _ _ _) as [[]]; chain. }
  destruct (dec_exp U feat s2) as [[[[e o]|] ex] s3]; cbn [snd] in Hc; [inj; apply err_ok; chain|].
  eapply num_end_ok; [|exact H]. eapply sadv_l; [exact Hs|]. chain.
Qed.

Lemma bin_loop_adv : forall n feat s i last, adv s (snd (bin_loop U n feat s i last)).
Proof.
  induction n as [|n IH]; intros feat s i last; cbn [bin_loop]; [chain|].
  destruct (_ || _).
  - destruct (_ && _); [chain|]. destruct (_ && _); [chain|]. destruct (_ && _); [chain|].
    specialize (IH feat (snd (read s)) (S i) (peek s)). pose proof (adv_read s). chain.
  - destruct (is_id_start _ _); [|chain]. destruct (_ && _); chain.
Qed.
Lemma oct_loop_adv : forall n feat lg s i last, adv s (snd (oct_loop n feat lg s i last)).
Proof.
  induction n as [|n IH]; intros feat lg s i last; cbn [oct_loop]; [chain|].
  destruct (_ || _); [|chain].
  destruct (_ && _); [chain|]. destruct (_ && _); [chain|]. destruct (_ && _); [chain|]. destruct (_ && _); [chain|].
  specialize (IH feat lg (snd (read s)) (S i) (peek s)). pose proof (adv_read s). chain.
Qed.
Lemma hex_loop_adv : forall n feat s i last, adv s (snd (hex_loop n feat s i last)).
Proof.
  induction n as [|n IH]; intros feat s i last; cbn [hex_loop]; [chain|].
  destruct (_ || _); [|chain].
  destruct (_ && _); [chain|]. destruct (_ && _); [chain|]. destruct (_ && _); [chain|].
  specialize (IH feat (snd (read s)) (S i) (peek s)). pose proof (adv_read s). chain.
Qed.

Lemma read_num_ok : forall feat strict s t s', s_raw (st s) <> [] -> read_num U feat strict s = (t, s') -> tok_ok s s' t.
Proof.
  intros feat strict s t s' Hne H. unfold read_num in H. destruct (read s) as [c s1] eqn:E.
  assert (Hs : sadv s s1).
  { eapply read_sadv'; [eassumption|]. pose proof (read_eof_iff s) as G. rewrite E in G. cbn in G. tauto. }
  pose proof (sadv_adv _ _ Hs) as Hs0. pose proof (adv_read s1) as Hr.
  destruct (c =? 48); [|eapply read_decimal_num_ok; eassumption].
  destruct (_ || _).
  { unfold read_binary_num in H. pose proof (bin_loop_adv (fuel (snd (read s1))) feat (snd (read s1)) 0 0) as G.
    destruct (bin_loop _ _ _ _ _ _) as [[[[e|] i] last] s2]; cbn [snd] in G; [inj; apply err_ok; chain|].
    destruct (_ =? _); [inj; apply err_ok; chain|]. destruct (Nat.eqb i 0); [inj; apply err_ok; chain|].
    eapply num_end_ok; [|exact H]. eapply sadv_l; [exact Hs|]. chain. }
  assert (Hoct : forall lg, read_octal_num U feat lg s s1 = (t, s') -> tok_ok s s' t).
  { clear H. intros lg H'. unfold read_octal_num in H'.
    pose proof (oct_loop_adv (fuel (snd (read s1))) feat lg (snd (read s1)) (if lg then 1%nat else 0%nat) 0) as G.
    destruct (oct_loop _ _ _ _ _ _) as [[[[e|] i] last] s2]; cbn [snd] in G; [inj; apply err_ok; chain|].
    destruct (_ =? _); [inj; apply err_ok; chain|]. destruct (Nat.eqb i 0); [inj; apply err_ok; chain|].
    eapply num_end_ok; [|exact H']. eapply sadv_l; [exact Hs|]. chain. }
  destruct (_ || _); [eapply Hoct; eassumption|].
  destruct (_ || _).
  { unfold read_hex_num in H. pose proof (hex_loop_adv (fuel (snd (read s1))) feat (snd (read s1)) 0 0) as G.
    destruct (hex_loop _ _ _ _ _) as [[[[e|] i] last] s2]; cbn [snd] in G; [inj; apply err_ok; chain|].
    destruct (Nat.eqb i 0); [inj; apply err_ok; chain|]. destruct (_ =? _); [inj; apply err_ok; chain|].
    eapply num_end_ok; [|exact H]. eapply sadv_l; [exact Hs|]. chain. }
  destruct (is_digit _); [|eapply read_decimal_num_ok; eassumption].
  destruct (is_octal _); [|inj; apply err_ok; chain].
  destruct strict; [inj; apply err_ok; chain|eapply Hoct; eassumption].
Qed.

(** ** Comments, regular expressions *)
Lemma mcmt_loop_adv : forall n s m r s', mcmt_loop n s m = Some (r, s') -> adv s s'.
Proof.
  induction n as [|n IH]; intros s m r s' H; cbn [mcmt_loop] in H; [discriminate|].
  destruct (read s) as [c s1] eqn:E. rds.
  destruct (c =? 42); [destruct (ahead_is_ch s1 47); [inj; chain|apply IH in H; chain]|].
  destruct (is_line_term c); [apply IH in H; chain|]. destruct (c =? EOF); [inj; chain|apply IH in H; chain].
Qed.
Lemma mcmt_loop_fuel : forall n s m, (lenraw s < n)%nat -> mcmt_loop n s m <> None.
Proof.
  induction n as [|n IH]; intros s m Hn; [lia|]. cbn [mcmt_loop].
  destruct (read s) as [c s1] eqn:E.
  assert (Hs : c <> EOF -> (lenraw s1 < lenraw s)%nat) by (intros G; apply (read_sadv' _ _ _ E G)).
  unfold EOF in *. destruct (c =? 42) eqn:Ec; [destruct (ahead_is_ch s1 47); [discriminate|apply IH; lia]|].
  destruct (is_line_term c) eqn:Ell; [apply IH; unfold is_line_term in Ell; lia|].
  destruct (c =? -1) eqn:Ec1; [discriminate|apply IH; lia].
Qed.
Lemma scmt_loop_adv : forall n s, adv s (scmt_loop n s).
Proof.
  induction n as [|n IH]; intros s; cbn [scmt_loop]; [chain|]. destruct (_ || _); [chain|].
  specialize (IH (snd (read s))). pose proof (adv_read s). chain.
Qed.
Lemma read_multi_cmt_ok : forall s0 s t s', sadv s0 s -> read_multi_cmt s0 s = Some (t, s') -> tok_ok s0 s' t.
Proof.
  intros s0 s t s' Hs H. unfold read_multi_cmt in H. pose proof (sadv_adv _ _ Hs) as Hs0. pose proof (adv_read s) as Hr.
  destruct (mcmt_loop _ _ _) as [[[[|] m] s2]|] eqn:E; [| |discriminate]; apply mcmt_loop_adv in E; inj.
  - apply fin_ok. eapply sadv_l; [exact Hs|]. chain.
  - apply err_ok. chain.
Qed.
Lemma read_multi_cmt_fuel : forall s0 s, read_multi_cmt s0 s <> None.
Proof.
  intros. unfold read_multi_cmt. pose proof (mcmt_loop_fuel (fuel (snd (read s))) (snd (read s)) false) as H.
  destruct (mcmt_loop _ _ _) as [[[[]]]|]; try discriminate. exfalso. apply H; [unfold fuel, lenraw; lia|reflexivity].
Qed.
Lemma read_single_cmt_ok : forall s0 s t s', sadv s0 s -> read_single_cmt s0 s = (t, s') -> tok_ok s0 s' t.
Proof.
  intros s0 s t s' Hs H. unfold read_single_cmt in H. pose proof (adv_read s) as Hr.
  pose proof (scmt_loop_adv (fuel (snd (read s))) (snd (read s))) as G. inj. apply fin_ok. eapply sadv_l; [exact Hs|]. exact (adv_trans _ _ _ Hr G).
Qed.

Lemma re_loop_adv : forall n s0 s cp rng rl r s', re_loop U n s0 s cp rng rl = Some (r, s') ->
  adv s s' /\ match r with None => peek s' = 47 | Some t => t_val t = T_ILLEGAL end.
Proof.
  induction n as [|n IH]; intros s0 s cp rng rl r s' H; cbn [re_loop] in H; [discriminate|].
  pose proof (adv_read s) as Hr.
  destruct (_ =? RuneError); [inj; split; [chain|reflexivity]|].
  destruct (is_line_term _); [inj; split; [chain|reflexivity]|].
  destruct (_ =? 92).
  - set (s1 := snd (read s)) in *. pose proof (adv_read s1) as Hr1. destruct (_ =? 117).
    + pose proof (ues_adv false (ofst s) (snd (read s1))) as G.
      destruct (read_unicode_escape_seq _ _ _ _) as [[r1 [[e o]|]] s2]; cbn [snd] in G; [inj; split; [chain|reflexivity]|].
      apply IH in H. destruct H as [H H']. split; [chain|assumption].
    + apply IH in H. destruct H as [H H']. split; [|assumption]. destruct (is_line_term _); chain.
  - destruct (_ && _); [apply IH in H; destruct H as [H H']; split; [chain|assumption]|].
    destruct (_ || _).
    + destruct cp.
      * destruct (_ =? 41); [inj; split; [chain|reflexivity]|].
        apply IH in H; destruct H as [H H']; split; [chain|assumption].
      * destruct (_ || _); apply IH in H; destruct H as [H H']; split; try assumption; chain.
    + destruct (_ && _) eqn:E2; [inj; split; [chain|lia]|].
      destruct (_ =? EOF); [inj; split; [chain|reflexivity]|].
      apply IH in H; destruct H as [H H']; split; [chain|assumption].
Qed.
Lemma re_loop_fuel : forall n s0 s cp rng rl, (lenraw s < n)%nat -> re_loop U n s0 s cp rng rl <> None.
Proof.
  induction n as [|n IH]; intros s0 s cp rng rl Hn; [lia|]. cbn [re_loop].
  destruct (_ =? RuneError); [discriminate|]. destruct (is_line_term _); [discriminate|].
  destruct (peek s =? EOF) eqn:Ee.
  { replace (peek s) with (-1) by (unfold EOF in Ee; lia). cbn. unfold EOF. discriminate. }
  assert (Hs : sadv s (snd (read s))) by (apply read_peek_ne; lia). destruct Hs as [_ Hs].
  set (s1 := snd (read s)) in *.
  destruct (_ =? 92).
  - pose proof (adv_len _ _ (adv_read s1)) as Hr1. destruct (_ =? 117).
    + pose proof (adv_len _ _ (ues_adv false (ofst s) (snd (read s1)))) as G.
      destruct (read_unicode_escape_seq _ _ _ _) as [[r1 [[e o]|]] s2]; cbn [snd] in G; [discriminate|]. apply IH. lia.
    + apply IH. destruct (is_line_term _); lia.
  - repeat match goal with
      | |- re_loop _ _ _ _ _ _ _ <> None => apply IH; lia
      | |- Some _ <> None => discriminate
      | |- context [if ?b then _ else _] => destruct b
      | |- context [match ?b with [] => _ | _ => _ end] => destruct b
      end.
Qed.

Lemma read_regexp_ok : forall feat s0 s t s', sadv s0 s -> read_regexp U feat s0 s = Some (t, s') -> tok_ok s0 s' t.
Proof.
  intros feat s0 s t s' Hs H. unfold read_regexp in H. pose proof (sadv_adv _ _ Hs) as Hs0.
  destruct (re_loop _ _ _ _ _ _ _) as [[[t1|] s1]|] eqn:E; [| |discriminate]; apply re_loop_adv in E; destruct E as [E E'].
  - inj. split; [chain|left; assumption].
  - pose proof (adv_read s1) as Hr. set (s2 := snd (read s1)) in *.
    match type of H with (match ?x with _ => _ end) = _ => assert (Hf : forall r s3, x = Some (r, s3) -> adv s2 s3);
      [|destruct x as [[[[fs e] [[er o]|]] s3]|] eqn:Ex] end.
    { intros r s3 G. destruct (ahead_is_id_part _ _ _); [eapply read_id_part_adv; exact G|inj; chain]. }
    + inj. apply err_ok. specialize (Hf _ _ eq_refl). chain.
    + specialize (Hf _ _ eq_refl). assert (adv s s3) by chain. destruct (_ && _); inj; [apply err_ok; chain|].
      apply fin_ok. eapply sadv_l; eassumption.
    + discriminate.
Qed.
Lemma read_regexp_fuel : forall feat s0 s, read_regexp U feat s0 s <> None.
Proof.
  intros. unfold read_regexp. pose proof (re_loop_fuel (fuel s) s0 s [] false false) as H.
  destruct (re_loop _ _ _ _ _ _ _) as [[[t1|] s1]|]; [discriminate| |exfalso; apply H; [unfold fuel, lenraw; lia|reflexivity]].
  match goal with |- (match ?x with _ => _ end) <> _ => assert (Hf : x <> None);
    [|destruct x as [[[[fs e] [[er o]|]] s3]|] eqn:Ex] end; [|discriminate| |congruence].
  - destruct (ahead_is_id_part _ _ _); [apply read_id_part_fuel|discriminate].
  - destruct (_ && _); discriminate.
Qed.

(** ** Punctuators, templates, JSX *)

Lemma sym_plain_adv : forall ts ta c s v s', sym_plain ts ta c s = Some (v, s') -> adv s s'.
Proof.
  intros ts ta c s v s' H. unfold sym_plain in H.
  repeat match type of H with
    | (if ?b then _ else _) = _ => destruct b
    | Some (if ?b then _ else _) = _ => destruct b
    | Some (let _ := _ in _) = _ => cbn zeta in H
    | Some _ = Some _ => injection H; clear H; intros; subst
    end; try discriminate; try chain.
Qed.

Definition lx_ok (l l' : lx) (t : token) : Prop :=
  tok_ok (l_src l) (l_src l') t /\ l_feat l' = l_feat l /\ l_prevws l' = l_prevws l.

Lemma push_mode_src : forall k i l, l_src (push_mode k i l) = l_src l /\ l_feat (push_mode k i l) = l_feat l
  /\ l_prevws (push_mode k i l) = l_prevws l.
Proof. intros. repeat split. Qed.
Lemma pop_mode_src : forall l, l_src (pop_mode l) = l_src l /\ l_feat (pop_mode l) = l_feat l
  /\ l_prevws (pop_mode l) = l_prevws l.
Proof. intros. unfold pop_mode. destruct (l_modes l) as [|m [|]]; repeat split. Qed.
Lemma add_paren_src : forall l d, l_src (add_paren l d) = l_src l /\ l_feat (add_paren l d) = l_feat l
  /\ l_prevws (add_paren l d) = l_prevws l.
Proof. intros. unfold add_paren. destruct (l_modes l); repeat split. Qed.

Lemma read_symbol_ok : forall l t l', s_raw (st (l_src l)) <> [] ->
  read_symbol U l = Some (t, l') -> lx_ok l l' t.
Proof.
  intros l t l' Hne H. unfold read_symbol in H. destruct (read (l_src l)) as [c s1] eqn:E.
  assert (Hs : sadv (l_src l) s1).
  { eapply read_sadv'; [eassumption|]. pose proof (read_eof_iff (l_src l)) as G. rewrite E in G. cbn in G. tauto. }
  pose proof (sadv_adv _ _ Hs) as Hs0.
  assert (Hfin : forall v s2 x r e l1, adv s1 s2 -> l_feat l1 = l_feat l -> l_prevws l1 = l_prevws l ->
     lx_ok l (set_src l1 s2) (fin_tok (l_src l) s2 v x r e)).
  { intros. split; [|split; assumption]. cbn. apply fin_ok. eapply sadv_l; eassumption. }
  destruct (c =? 60).
  { destruct (ahead_is_ch s1 61); [inj; apply Hfin; try reflexivity; chain|].
    destruct (ahead_is_ch s1 60); [|inj; apply Hfin; try reflexivity; chain].
    destruct (_ && _); [|destruct (ahead_is_ch _ 61); inj; apply Hfin; try reflexivity; chain].
    destruct (mem_nat _ _); [inj; apply Hfin; try reflexivity; chain|].
    destruct (negb _); inj; apply Hfin; try reflexivity; chain. }
  destruct (c =? 47).
  { destruct (ahead_is_ch s1 47).
    { destruct (read_single_cmt _ _) as [t1 s2] eqn:Ec. inj. split; [|split; reflexivity]. eapply read_single_cmt_ok; eassumption. }
    destruct (ahead_is_ch s1 42).
    { destruct (read_multi_cmt _ _) as [[t1 s2]|] eqn:Ec; [|discriminate]. inj. split; [|split; reflexivity].
      eapply read_multi_cmt_ok; eassumption. }
    destruct (ahead_is_regexp l).
    { destruct (read_regexp _ _ _ _) as [[t1 s2]|] eqn:Ec; [|discriminate]. inj. split; [|split; reflexivity].
      eapply read_regexp_ok; eassumption. }
    destruct (ahead_is_ch s1 61); inj; apply Hfin; try reflexivity; chain. }
  destruct (c =? 64); [inj; apply Hfin; try reflexivity; chain|].
  destruct (sym_plain _ _ _ _) as [[v s2]|] eqn:Ep; [|inj; apply Hfin; try reflexivity; chain].
  apply sym_plain_adv in Ep. destruct (sym_allowed _ _).
  - destruct (pop_mode_src l) as [P1 [P2 P3]]. destruct (add_paren_src l 1) as [A1 [A2 A3]]. destruct (add_paren_src l (-1)) as [B1 [B2 B3]].
    inj. apply Hfin; [assumption| |]; destruct v; try reflexivity; assumption.
  - inj. split; [|split; reflexivity]. apply err_ok. cbn. chain.
Qed.
Lemma read_symbol_fuel : forall l, read_symbol U l <> None.
Proof.
  intros l. unfold read_symbol. destruct (read (l_src l)) as [c s1].
  repeat match goal with
    | |- Some _ <> None => discriminate
    | |- (match read_multi_cmt ?a ?b with _ => _ end) <> None =>
        let H := fresh in pose proof (read_multi_cmt_fuel a b) as H; destruct (read_multi_cmt a b) as [[]|]; [|congruence]
    | |- (match read_regexp U ?f ?a ?b with _ => _ end) <> None =>
        let H := fresh in pose proof (read_regexp_fuel f a b) as H; destruct (read_regexp U f a b) as [[]|]; [|congruence]
    | |- (let (_, _) := read_single_cmt ?a ?b in _) <> None => destruct (read_single_cmt a b)
    | |- (if ?b then _ else _) <> None => destruct b
    | |- (match sym_plain ?a ?b ?c ?d with _ => _ end) <> None => destruct (sym_plain a b c d) as [[]|]
    end; cbn zeta; try discriminate.
  all: repeat match goal with
    | |- Some _ <> None => discriminate
    | |- (if ?b then _ else _) <> None => destruct b
    end.
Qed.

Lemma tpl_loop_adv : forall n tpl s txt ee p s', tpl_loop U n tpl s txt ee = Some (p, s') -> adv s s'.
Proof.
  induction n as [|n IH]; intros tpl s txt ee p s' H; cbn [tpl_loop] in H; [discriminate|].
  pose proof (adv_read s) as Hr.
  destruct (peek s =? 36); [destruct (ahead_is_ch _ 123); [inj; chain|apply IH in H; chain]|].
  destruct (peek s =? 92).
  - set (s1 := snd (read s)) in *. destruct (is_line_term _).
    + apply IH in H. pose proof (read_line_term_adv s1). chain.
    + destruct ee.
      * pose proof (adv_read s1). apply IH in H. chain.
      * pose proof (read_escape_seq_adv tpl s1) as G. destruct (read_escape_seq _ _ _) as [[[r e] lo] s2]. cbn [snd] in G.
        destruct (r =? EOF); [inj; chain|apply IH in H; chain].
  - destruct (_ =? RuneError); [apply IH in H; assumption|].
    destruct (_ =? EOF); [inj; chain|]. destruct (_ =? 96); [inj; chain|].
    destruct (read s) as [r s1]. cbn [snd] in Hr. apply IH in H. chain.
Qed.

Lemma src_advance_rest : forall s, exists cs, rest s = cs ++ rest (snd (src_advance s)).
Proof.
  intros s. unfold rest. destruct (s_raw (st s)) as [|b t] eqn:E.
  - rewrite src_advance_nil by assumption. exists []. cbn [snd]. rewrite E. reflexivity.
  - rewrite (src_advance_cons s b t E). cbn [snd set_st st s_raw]. rewrite decode_all_cons. eexists [_]. reflexivity.
Qed.
Lemma adv_rest : forall s s', adv s s' -> exists cs, rest s = cs ++ rest s'.
Proof.
  intros s s' [n ->]. induction n as [|n [cs IH]]; [exists []; reflexivity|].
  cbn [advn]. destruct (src_advance_rest (advn n s)) as [cs2 H]. exists (cs ++ cs2). rewrite IH, H, app_assoc. reflexivity.
Qed.
Lemma adv_forall : forall P s s', adv s s' -> Forall P (rest s) -> Forall P (rest s').
Proof. intros P s s' H F. destruct (adv_rest _ _ H) as [cs E]. rewrite E, Forall_app in F. tauto. Qed.

Definition no_bad_rune (s : source) : Prop := Forall (fun r => r <> RuneError) (rest s).

Lemma tpl_loop_fuel : forall n tpl s txt ee, (lenraw s < n)%nat -> no_bad_rune s -> tpl_loop U n tpl s txt ee <> None.
Proof.
  induction n as [|n IH]; intros tpl s txt ee Hn Hb; [lia|]. cbn [tpl_loop].
  pose proof (adv_read s) as Hr.
  assert (Hs : peek s <> EOF -> (lenraw (snd (read s)) < lenraw s)%nat) by (intros G; apply (read_peek_ne _ G)).
  unfold EOF in Hs.
  assert (Hp : peek s <> RuneError).
  { rewrite peek_rest. unfold no_bad_rune in Hb. destruct (rest s); [discriminate|]. inversion Hb; assumption. }
  destruct (peek s =? 36) eqn:E1.
  { destruct (ahead_is_ch _ 123); [discriminate|]. apply IH; [lia|eapply adv_forall; eassumption]. }
  destruct (peek s =? 92) eqn:E2.
  - set (s1 := snd (read s)) in *. destruct (is_line_term _).
    + pose proof (read_line_term_adv s1) as G. apply IH; [apply adv_len in G; lia|]. eapply adv_forall; [|eassumption]. chain.
    + destruct ee.
      * pose proof (adv_read s1) as G. apply IH; [apply adv_len in G; lia|]. eapply adv_forall; [|eassumption]. chain.
      * pose proof (read_escape_seq_adv tpl s1) as G. destruct (read_escape_seq _ _ _) as [[[r e] lo] s2]. cbn [snd] in G.
        destruct (r =? EOF); [discriminate|].
        apply IH; [apply adv_len in G; lia|]. eapply adv_forall; [|eassumption]. chain.
  - destruct (peek s =? RuneError) eqn:E3; [unfold RuneError in *; lia|].
    destruct (peek s =? EOF) eqn:E4; [discriminate|]. destruct (_ =? 96); [discriminate|].
    unfold EOF in *. destruct (read s) as [r s1]. cbn [snd] in *. apply IH; [lia|eapply adv_forall; eassumption].
Qed.

Lemma read_tpl_span_ok : forall l t l', s_raw (st (l_src l)) <> [] ->
  read_tpl_span U l = Some (t, l') -> lx_ok l l' t.
Proof.
  intros l t l' Hne H. unfold read_tpl_span in H. destruct (read (l_src l)) as [c s1] eqn:E.
  assert (Hs : sadv (l_src l) s1).
  { eapply read_sadv'; [eassumption|]. pose proof (read_eof_iff (l_src l)) as G. rewrite E in G. cbn in G. tauto. }
  pose proof (sadv_adv _ _ Hs) as Hs0.
  set (l1 := if c =? 96 then _ else _) in *.
  assert (Hl1 : l_feat l1 = l_feat l /\ l_prevws l1 = l_prevws l).
  { unfold l1. destruct (c =? 96); [split; reflexivity|]. destruct (pop_mode_src (set_src l s1)) as [_ [-> ->]]. split; reflexivity. }
  destruct (tpl_loop _ _ _ _ _ _) as [[p s2]|] eqn:Et; [|discriminate]. apply tpl_loop_adv in Et.
  destruct (pop_mode_src (set_src l1 s2)) as [P1 [P2 P3]].
  destruct (tp_err p).
  { inj. unfold lx_ok. rewrite P1, P2, P3. cbn. split; [apply err_ok; chain|assumption]. }
  inj. unfold lx_ok.
  replace (l_src (if tp_fin p then _ else _)) with s2 by (destruct (tp_fin p); [rewrite P1|]; reflexivity).
  split; [apply fin_ok; eapply sadv_l; eassumption|].
  destruct (tp_fin p); [rewrite P2, P3|]; exact Hl1.
Qed.
Lemma read_tpl_span_fuel : forall l, no_bad_rune (l_src l) -> read_tpl_span U l <> None.
Proof.
  intros l Hb. unfold read_tpl_span. pose proof (adv_read (l_src l)) as Hr. destruct (read (l_src l)) as [c s1]. cbn [snd] in Hr.
  set (l1 := if c =? 96 then _ else _).
  pose proof (tpl_loop_fuel (fuel s1) (is_mode l1 LM_TEMPLATE) s1 [] None) as H.
  destruct (tpl_loop _ _ _ _ _ _) as [[p s2]|]; [destruct (tp_err p); discriminate|].
  exfalso. apply H; [unfold fuel, lenraw; lia| |reflexivity]. eapply adv_forall; eassumption.
Qed.

Lemma jsx_txt_loop_adv : forall n s rs ent i r s', jsx_txt_loop entity n s rs ent i = Some (r, s') -> adv s s'.
Proof.
  induction n as [|n IH]; intros s rs ent i r s' H; cbn [jsx_txt_loop] in H; [discriminate|].
  pose proof (adv_read s) as Hr.
  destruct (_ || _); [inj; chain|]. destruct (_ || _).
  - destruct (_ =? 59); [destruct (entity _); [|inj; chain]|]; apply IH in H; unfold rd in H; chain.
  - destruct (read s) as [r1 s1]. cbn [snd] in Hr. apply IH in H. chain.
Qed.
Lemma jsx_txt_loop_fuel : forall n s rs ent i, (lenraw s < n)%nat -> jsx_txt_loop entity n s rs ent i <> None.
Proof.
  induction n as [|n IH]; intros s rs ent i Hn; [lia|]. cbn [jsx_txt_loop].
  assert (Hs : peek s <> EOF -> (lenraw (snd (read s)) < lenraw s)%nat) by (intros G; apply (read_peek_ne _ G)).
  destruct ((peek s =? 123) || (peek s =? 60) || (peek s =? EOF)) eqn:E0; [discriminate|].
  unfold rd. match goal with |- (if ?b then _ else _) <> None => destruct b end.
  - destruct (_ =? 59); [destruct (entity _); [|discriminate]|]; apply IH; lia.
  - destruct (read s) as [r1 s1]. cbn [snd] in Hs. apply IH. lia.
Qed.
(** The loop consumes unless it stops at once. *)
Lemma jsx_txt_loop_sadv : forall s rs ent i r s', peek s <> 123 -> peek s <> 60 -> peek s <> EOF ->
  jsx_txt_loop entity (fuel s) s rs ent i = Some (r, s') -> sadv s s'.
Proof.
  intros s rs ent i r s' H1 H2 H3 H. unfold fuel in H. cbn [jsx_txt_loop] in H.
  pose proof (read_peek_ne s H3) as Hs. unfold rd in H.
  destruct ((peek s =? 123) || (peek s =? 60) || (peek s =? EOF)) eqn:E0; [lia|].
  match type of H with (if ?b then _ else _) = _ => destruct b end.
  - destruct (_ =? 59); [destruct (entity _); [|inj; assumption]|]; apply jsx_txt_loop_adv in H; eapply sadv_l; eassumption.
  - destruct (read s) as [r1 s1]. cbn [snd] in Hs. apply jsx_txt_loop_adv in H; eapply sadv_l; eassumption.
Qed.

(** Like [tok_ok]; JSX text may begin with the white space before it. *)
Definition tok_ok_ws (ws : nat * nat * nat) (s s' : source) (t : token) : Prop :=
  adv s s' /\ (t_val t = T_ILLEGAL \/
    ((t_lo t = ofst s \/ (snd ws <> O /\ t_lo t = fst (fst ws)))
     /\ t_hi t = ofst s' /\ t_atl t = s_met (st s) /\ sadv s s')).
Definition lx_ok_ws (l l' : lx) (t : token) : Prop :=
  tok_ok_ws (l_prevws l) (l_src l) (l_src l') t /\ l_feat l' = l_feat l /\ l_prevws l' = l_prevws l.
Lemma lx_ok_weaken : forall l l' t, lx_ok l l' t -> lx_ok_ws l l' t.
Proof.
  intros l l' t [[H1 H2] H3]. split; [split; [assumption|]|assumption].
  destruct H2 as [H2|[H2 H4]]; [left|right]; tauto.
Qed.

Lemma read_jsx_txt_ok : forall l t l', peek (l_src l) <> 123 -> peek (l_src l) <> 60 -> peek (l_src l) <> EOF ->
  read_jsx_txt entity l = Some (t, l') -> lx_ok_ws l l' t.
Proof.
  intros l t l' H1 H2 H3 H. unfold read_jsx_txt in H. destruct (l_prevws l) as [[wlo whi] wlen] eqn:Ew.
  destruct (jsx_txt_loop _ _ _ _ _ _) as [[[[rs eof] er] s1]|] eqn:El; [|discriminate].
  apply jsx_txt_loop_sadv in El; try assumption.
  unfold lx_ok_ws. rewrite Ew.
  destruct er; inj; cbn; rewrite ?Ew; (split; [split; [apply El|]|split; reflexivity]); [left; reflexivity|right].
  cbn. split; [destruct wlen; [left; reflexivity|right; split; [discriminate|reflexivity]]|].
  split; [reflexivity|]. split; [apply adv_met, El|exact El].
Qed.
Lemma read_jsx_txt_fuel : forall l, read_jsx_txt entity l <> None.
Proof.
  intros l. unfold read_jsx_txt. destruct (l_prevws l) as [[wlo whi] wlen].
  pose proof (jsx_txt_loop_fuel (fuel (l_src l)) (l_src l) [] [] 0) as H.
  destruct (jsx_txt_loop _ _ _ _ _ _) as [[[[rs eof] er] s1]|]; [destruct er; discriminate|].
  exfalso. apply H; [unfold fuel, lenraw; lia|reflexivity].
Qed.

Lemma read_jsx_ok : forall l t l', s_raw (st (l_src l)) <> [] ->
  read_jsx U entity l = Some (t, l') -> lx_ok_ws l l' t.
Proof.
  intros l t l' Hne H. unfold read_jsx in H.
  assert (Hs : sadv (l_src l) (rd (l_src l))) by (apply read_ne_sadv; rewrite read_eof_iff; exact Hne).
  destruct (pop_mode_src (set_src l (rd (l_src l)))) as [P1 [P2 P3]].
  assert (H1 : forall v f, (l_src (f (set_src l (rd (l_src l)))) = rd (l_src l)) ->
     l_feat (f (set_src l (rd (l_src l)))) = l_feat l -> l_prevws (f (set_src l (rd (l_src l)))) = l_prevws l ->
     lx_ok_ws l (f (set_src l (rd (l_src l)))) (fin_tok (l_src l) (rd (l_src l)) v [] (0%nat, 0%nat) XNone)).
  { intros v f G1 G2 G3. apply lx_ok_weaken. split; [|split; assumption]. rewrite G1. apply fin_ok. exact Hs. }
  set (s := l_src l) in *. cbn zeta in H.
  destruct (peek s =? 123) eqn:C1; [inj; apply (H1 _ (push_mode LM_NONE true)); reflexivity|].
  destruct (peek s =? 125) eqn:C2; [inj; apply (H1 _ pop_mode); assumption|].
  destruct (peek s =? 60) eqn:C3; [inj; apply (H1 _ (fun l => l)); reflexivity|].
  destruct (is_mode l LM_JSX).
  2:{ eapply read_jsx_txt_ok; try eassumption; fold s; try lia. rewrite peek_eof_iff. exact Hne. }
  destruct (peek s =? 58); [inj; apply (H1 _ (fun l => l)); reflexivity|].
  destruct (peek s =? 46); [inj; apply (H1 _ (fun l => l)); reflexivity|].
  destruct (peek s =? 47).
  { destruct (ahead_is_ch _ 47); [|inj; apply (H1 _ (fun l => l)); reflexivity].
    destruct (read_single_cmt _ _) as [t1 s2] eqn:Ec. inj. apply lx_ok_weaken. split; [|split; reflexivity].
    eapply read_single_cmt_ok; [|eassumption]. assumption. }
  destruct (peek s =? 62); [inj; apply (H1 _ (fun l => l)); reflexivity|].
  destruct (peek s =? 61); [inj; apply (H1 _ (fun l => l)); reflexivity|].
  destruct (_ && _).
  { destruct (read_jsx_str _) as [[t1 s2]|] eqn:Ec; [|discriminate]. inj. apply lx_ok_weaken. split; [|split; reflexivity].
    eapply read_jsx_str_ok; eassumption. }
  destruct (peek s =? 45); [inj; apply (H1 _ (fun l => l)); reflexivity|].
  destruct (is_id_start U _).
  { destruct (read_name _ _ _ _ _ _) as [[t1 s2]|] eqn:Ec; [|discriminate]. inj. apply lx_ok_weaken. split; [|split; reflexivity].
    eapply read_name_ok; eassumption. }
  inj. apply lx_ok_weaken. split; [|split; reflexivity]. apply err_ok. chain.
Qed.
Lemma read_jsx_fuel : forall l, read_jsx U entity l <> None.
Proof.
  intros l. unfold read_jsx. cbn zeta.
  repeat match goal with
    | |- Some _ <> None => discriminate
    | |- (match read_jsx_str ?a with _ => _ end) <> None =>
        let H := fresh in pose proof (read_jsx_str_fuel a) as H; destruct (read_jsx_str a) as [[]|]; [|congruence]
    | |- (match read_name U ?a ?b ?c ?d ?e with _ => _ end) <> None =>
        let H := fresh in pose proof (read_name_fuel a b c d e) as H; destruct (read_name U a b c d e) as [[]|]; [|congruence]
    | |- (let (_, _) := read_single_cmt ?a ?b in _) <> None => destruct (read_single_cmt a b)
    | |- (if ?b then _ else _) <> None => destruct b
    end.
  apply read_jsx_txt_fuel.
Qed.

(** ** One token *)

Lemma src_ok_ofst : forall s, src_ok s -> (ofst s + lenraw s = length (code s))%nat.
Proof using Type.
  clear.
  intros s [[Hb [Hr _]] _]. unfold ofst, lenraw. rewrite Hr, skipn_length. apply boundary_le in Hb. lia.
Qed.
Lemma eof_raw : forall s, src_ok s -> ahead_is_eof s = true <-> s_raw (st s) = [].
Proof using Type.
  clear.
  intros s H. pose proof (src_ok_ofst s H) as G. unfold ahead_is_eof. fold (ofst s). unfold lenraw in G.
  destruct (s_raw (st s)); cbn in G; split; intros; try reflexivity; try discriminate; lia.
Qed.

(** White space skipping. *)
Lemma skip_space_facts : forall s, (ofst (skip_space s) + lenraw (skip_space s) = ofst s + lenraw s)%nat
  /\ (lenraw (skip_space s) <= lenraw s)%nat /\ code (skip_space s) = code s /\ (src_ok s -> src_ok (skip_space s))
  /\ (forall P, Forall P (rest s) -> Forall P (rest (skip_space s))).
Proof using Type.
  clear.
  intros s. destruct (skip_space_spec s) as [H1 [H2 [H3 H4]]].
  assert (Hloop : forall n x, (lenraw (skip_space_loop n x) <= lenraw x)%nat).
  { induction n as [|n IH]; intros x; cbn [skip_space_loop]; [lia|].
    destruct (_ || _); [lia|]. eapply Nat.le_trans; [apply IH|].
    destruct (is_line_term _); [change (lenraw x) with (lenraw (set_met x true))|]; apply adv_len, adv_read. }
  split; [exact H4|]. split; [apply (Hloop _ (set_met s false))|]. split; [exact (proj2 (skip_space_loop_ss _ (set_met s false)))|].
  split; [intros H; unfold skip_space; apply skip_space_loop_ok, set_met_ok; assumption|].
  intros P HP. unfold rest. rewrite H1. fold (rest s). clear -HP. induction HP as [|r rs Hr HF IH]; cbn; [constructor|].
  destruct (is_space r); [assumption|constructor; assumption].
Qed.

(** The white space recorded for JSX. *)
Definition ws_ok (l : lx) : Prop := has (l_feat l) FEAT_JSX = true \/ snd (l_prevws l) = O.

Definition step_ok (l : lx) (t : token) (l' : lx) : Prop :=
  let s := skip_space (l_src l) in
  adv s (l_src l') /\ l_feat l' = l_feat l /\ ws_ok l' /\
  (t_val t = T_ILLEGAL \/
   (t_val t = T_EOF /\ t_lo t = ofst s /\ t_hi t = ofst s /\ s_raw (st s) = [] /\ l_src l' = s) \/
   ((t_lo t = ofst s \/ (has (l_feat l) FEAT_JSX = true /\ t_lo t = ofst (l_src l))) /\ t_hi t = ofst (l_src l') /\ t_atl t = s_met (st s) /\ sadv s (l_src l'))).

Lemma read_tok_cmt_ok : forall l t l', src_ok (l_src l) -> ws_ok l ->
  read_tok_cmt U entity l = Some (t, l') -> step_ok l t l'.
Proof.
  intros l t l' Hok Hws H. unfold read_tok_cmt in H. unfold step_ok.
  destruct (skip_space_facts (l_src l)) as [K1 [K2 [K3 [K4 K5]]]]. specialize (K4 Hok).
  set (s := skip_space (l_src l)) in *.
  assert (Hl1 : l_src (lx_skip_space l) = s) by (unfold lx_skip_space; destruct (negb _); reflexivity).
  assert (Hf1 : l_feat (lx_skip_space l) = l_feat l) by (unfold lx_skip_space; destruct (negb _); reflexivity).
  assert (Hw1 : ws_ok (lx_skip_space l)
     /\ (snd (l_prevws (lx_skip_space l)) = O \/ fst (fst (l_prevws (lx_skip_space l))) = ofst (l_src l))).
  { unfold ws_ok. rewrite Hf1. unfold lx_skip_space.
    destruct (has (l_feat l) FEAT_JSX) eqn:Ef; cbn [negb]; [split; [left|right]; reflexivity|].
    destruct Hws as [Hws|Hws]; [congruence|]. split; [right|left]; exact Hws. }
  set (l1 := lx_skip_space l) in *. destruct Hw1 as [Hw1 Hw2].
  rewrite Hl1 in H.
  destruct (ahead_is_eof s) eqn:Ee.
  { apply eof_raw in Ee; [|assumption]. inj. rewrite Hl1. split; [apply adv_refl|]. split; [assumption|]. split; [assumption|].
    right; left. repeat split; assumption. }
  assert (Hne : s_raw (st s) <> []) by (intros G; apply eof_raw in G; [congruence|assumption]).
  assert (Hgo : lx_ok_ws l1 l' t ->
     adv s (l_src l') /\ l_feat l' = l_feat l /\ ws_ok l' /\
     (t_val t = T_ILLEGAL \/
      (t_val t = T_EOF /\ t_lo t = ofst s /\ t_hi t = ofst s /\ s_raw (st s) = [] /\ l_src l' = s) \/
      ((t_lo t = ofst s \/ (has (l_feat l) FEAT_JSX = true /\ t_lo t = ofst (l_src l))) /\ t_hi t = ofst (l_src l') /\ t_atl t = s_met (st s) /\ sadv s (l_src l')))).
  { intros [[G1 G2] [G3 G4]]. rewrite Hl1 in *. split; [assumption|]. split; [congruence|].
    split; [unfold ws_ok in *; rewrite G3, G4; assumption|].
    destruct G2 as [G2|[G2 [G5 [G6 G7]]]]; [left; assumption|right; right].
    split; [destruct G2 as [G2|[G2 G8]]; [left; assumption|right]|tauto].
    destruct Hw2 as [Hw2|Hw2]; [contradiction|]. split; [|congruence]. destruct Hw1 as [Hw1|Hw1]; [congruence|contradiction]. }
  assert (Hup : forall s2, tok_ok s s2 t -> lx_ok_ws l1 (set_src l1 s2) t).
  { intros s2 G. apply lx_ok_weaken. split; [rewrite Hl1; exact G|split; reflexivity]. }
  apply Hgo.
  destruct (_ || _); [apply read_jsx_ok; [rewrite Hl1|]; assumption|].
  destruct (is_id_start U (peek s)).
  { destruct (read_name _ _ _ _ _ _) as [[t1 s2]|] eqn:Ec; [|discriminate]. inj. apply Hup. eapply read_name_ok; eassumption. }
  destruct (ahead_is_num_start s).
  { destruct (read_num _ _ _ _) as [t1 s2] eqn:Ec. inj. apply Hup. eapply read_num_ok; eassumption. }
  destruct (_ || _).
  { destruct (is_mode l1 LM_JSX_ATTR).
    - destruct (read_jsx_str _) as [[t1 s2]|] eqn:Ec; [|discriminate]. inj. apply Hup. eapply read_jsx_str_ok; eassumption.
    - destruct (read_str _ _ _ _) as [[t1 s2]|] eqn:Ec; [|discriminate]. inj. apply Hup. eapply read_str_ok; eassumption. }
  destruct (_ || _); [apply lx_ok_weaken, read_tpl_span_ok; [rewrite Hl1|]; assumption|].
  destruct (peek s =? 35).
  { destruct (read_name_pvt _ _ _ _ _) as [[t1 s2]|] eqn:Ec; [|discriminate]. inj. apply Hup. eapply read_name_pvt_ok; eassumption. }
  apply lx_ok_weaken, read_symbol_ok; [rewrite Hl1|]; assumption.
Qed.

Lemma read_tok_cmt_fuel : forall l, no_bad_rune (l_src l) -> read_tok_cmt U entity l <> None.
Proof.
  intros l Hb. unfold read_tok_cmt.
  assert (Hl1 : l_src (lx_skip_space l) = skip_space (l_src l)) by (unfold lx_skip_space; destruct (negb _); reflexivity).
  assert (Hb1 : no_bad_rune (l_src (lx_skip_space l))) by (rewrite Hl1; apply skip_space_facts; assumption).
  set (l1 := lx_skip_space l) in *. cbn zeta.
  repeat match goal with
    | |- Some _ <> None => discriminate
    | |- read_tpl_span U l1 <> None => apply read_tpl_span_fuel; assumption
    | |- read_symbol U l1 <> None => apply read_symbol_fuel
    | |- read_jsx U entity l1 <> None => apply read_jsx_fuel
    | |- (match read_jsx_str ?a with _ => _ end) <> None =>
        let H := fresh in pose proof (read_jsx_str_fuel a) as H; destruct (read_jsx_str a) as [[]|]; [|congruence]
    | |- (match read_str U ?a ?b ?c with _ => _ end) <> None =>
        let H := fresh in pose proof (read_str_fuel a b c) as H; destruct (read_str U a b c) as [[]|]; [|congruence]
    | |- (match read_name U ?a ?b ?c ?d ?e with _ => _ end) <> None =>
        let H := fresh in pose proof (read_name_fuel a b c d e) as H; destruct (read_name U a b c d e) as [[]|]; [|congruence]
    | |- (match read_name_pvt U ?a ?b ?c ?d with _ => _ end) <> None =>
        let H := fresh in pose proof (read_name_pvt_fuel a b c d) as H; destruct (read_name_pvt U a b c d) as [[]|]; [|congruence]
    | |- (let (_, _) := read_num ?x ?a ?b ?c in _) <> None => destruct (read_num x a b c)
    | |- (if ?b then _ else _) <> None => destruct b
    end.
Qed.
End Adv.
