(** C22: names and keywords. *)
From Verif Require Import Base Utf8Model Utf8Proofs SourceModel SourceSpec SourceProofs TokenModel LexModel LexSpec LexProofs LexGapProofs LexKindProofs LexStrProofs LexProps LexStrProps LexTokSpec LexPunctProps LexNameSpec LexNameProofs.
From Coq Require Import ZifyBool ZifyNat ZifyN.
Local Open Scope Z_scope.

Lemma reserved_keywords : forall w, In w reserved_words <-> In w (map tv_name keyword_list).
Proof.
  assert (D : forall a l, existsb (bytes_eqb a) l = true <-> In a l).
  { intros a l. rewrite existsb_exists. split; [intros [x [H1 H2]]; apply bytes_eqb_spec in H2; congruence|].
    intros H. exists a. split; [exact H|]. apply bytes_eqb_spec. reflexivity. }
  intros w. split; intros H.
  - assert (F : forallb (fun x => existsb (bytes_eqb x) (map tv_name keyword_list)) reserved_words = true) by (vm_compute; reflexivity).
    rewrite forallb_forall in F. apply D. auto.
  - assert (F : forallb (fun x => existsb (bytes_eqb x) reserved_words) (map tv_name keyword_list) = true) by (vm_compute; reflexivity).
    rewrite forallb_forall in F. apply D. auto.
Qed.

Lemma read_by_name : forall U l s t l', src_ok s -> read_by U l s t l' -> kind_of (t_val t) = KName \/ kind_of (t_val t) = KPvt ->
  (is_id_start U (peek s) = true /\ read_name U (l_feat l) (is_mode l LM_STRICT) (is_mode l LM_ASYNC) false s = Some (t, l_src l')) \/
  (peek s = 35 /\ read_name_pvt U (l_feat l) (is_mode l LM_STRICT) (is_mode l LM_ASYNC) s = Some (t, l_src l')).
Proof.
  intros U l s t l' Hok H Hv.
  assert (W : forall ks, kind_in t ks -> ~ In KName ks -> ~ In KPvt ks -> False) by (intros ks K1 K2 K3; unfold kind_in in K1; destruct Hv as [E|E]; rewrite E in K1; contradiction).
  destruct H.
  - subst t. destruct Hv; discriminate.
  - auto.
  - exfalso. eapply W; [eapply read_num_kind; eassumption|cbn; intuition discriminate|cbn; intuition discriminate].
  - exfalso. eapply W; [eapply read_str_kind; eassumption|cbn; intuition discriminate|cbn; intuition discriminate].
  - exfalso. eapply W; [eapply read_tpl_span_kind; eassumption|cbn; intuition discriminate|cbn; intuition discriminate].
  - auto.
  - exfalso. eapply W; [eapply read_symbol_kind; eassumption|cbn; intuition discriminate|cbn; intuition discriminate].
Qed.

(** The token value of a name, keyword or private name whose text is [w]. *)
Definition named (t : token) (w : bytes) (escaped : bool) : Prop :=
  (t_val t = T_NAME \/ t_val t = T_NAME_PVT) /\ ~ In w reserved_words
  \/ tv_name (t_val t) = w /\ (In w reserved_words -> escaped = false).

Lemma name_value_named : forall t e, name_value t e -> named t (t_text t) e.
Proof.
  intros t e [[H1 H2]|[[H1 [H2 H3]]|[[H1 H2]|[H1 [H2 H3]]]]].
  - left. rewrite reserved_keywords. auto.
  - right. auto.
  - right. split; [exact H2|]. intros G. exfalso. revert G. rewrite <- H2. clear -H1. revert H1. generalize (t_val t). intros v H1.
    assert (F : forallb (fun v => negb (existsb (bytes_eqb (tv_name v)) reserved_words)) strict_keyword_list = true) by (vm_compute; reflexivity).
    rewrite forallb_forall in F. specialize (F _ H1). intros G. apply Bool.negb_true_iff in F.
    assert (K : existsb (bytes_eqb (tv_name v)) reserved_words = true) by (apply existsb_exists; exists (tv_name v); split; [exact G|apply bytes_eqb_spec; reflexivity]).
    congruence.
  - right. split; [rewrite H1, H2; reflexivity|auto].
Qed.

(** ** C22 *)

(** Every name token (identifier, private name, keyword) stands, after white space and comments, for
    a run of name elements, is preceded by a number sign exactly when private (keywords too may come
    from one), and extends as far as identifier characters go; its text is the elements' values; a
    name is none of the 34 reserved words, and a reserved word is delivered under its own token,
    never written with an escape.  Missing from the full statement, see the refutations below:
    escapes may stand for characters that cannot be part of a name, and const, in, await and yield
    are delivered as names. *)
Theorem C22_name_partial : forall U entity feat c l t l', uni_ok U -> lexer_at feat c l -> no_jsx l ->
  lex_tok U entity l = Some (t, l') -> (kind_of (t_val t) = KName \/ kind_of (t_val t) = KPvt) ->
  exists cs ws hash i is, ahead l = gap_text (cs, ws) ++ hash ++ flat_map item_text (i :: is) ++ ahead l'
    /\ gap_wf cs ws (hash ++ flat_map item_text (i :: is) ++ ahead l')
    /\ (hash = [] \/ hash = [35]) /\ (t_val t = T_NAME -> hash = []) /\ (t_val t = T_NAME_PVT -> hash = [35])
    /\ item_ok U true i /\ Forall (item_ok U false) is
    /\ (forall x r, ahead l' = x :: r -> ~ i_part U x /\ x <> 92)
    /\ decode_all (tok_text t (l_src l')) = map norm (map item_value (i :: is))
    /\ named t (tok_text t (l_src l')) (existsb item_escaped (i :: is)).
Proof.
  intros U entity feat c l t l' HU [H1 [H2 [H3 H4]]] HJ H Hv.
  apply lex_tok_delivers in H; try assumption. destruct H as [s [Hs [_ [[cs [ws [G1 G2]]] [l1 [t0 [M1 [M2 [_ [_ [_ [_ [Ht Hby]]]]]]]]]]]]].
  rewrite (same_tok_text _ _ _ Ht). destruct Ht as [E _]. unfold named. rewrite !E in *. clear E t.
  unfold ahead. fold (rest (l_src l)) (rest (l_src l')). rewrite G1.
  assert (Htx : t_text t0 <> [] -> tok_text t0 (l_src l') = t_text t0) by (unfold tok_text; destruct (t_text t0); congruence).
  destruct (read_by_name U _ _ _ _ Hs Hby Hv) as [[Hst Hn]|[Hp Hn]].
  - assert (Hk : kind_of (t_val t0) = KName).
    { destruct (read_name_kind U _ _ _ _ _ _ _ Hn) as [K|[K|[]]]; destruct Hv; congruence. }
    destruct (read_name_sound U HU _ _ _ _ _ _ Hs Hst Hn Hk) as [i [is [A1 [A2 [A3 [A4 [A5 [A6 A7]]]]]]]].
    exists cs, ws, [], i, is. cbn [app]. rewrite (Htx A6). rewrite <- A1. apply name_value_named in A7.
    split; [reflexivity|]. split; [exact G2|]. split; [auto|]. split; [auto|]. split; [|auto 6].
    intros E. rewrite E in Hk. discriminate.
  - destruct (peek_inv s 35 Hp) as [rs Hr]; [discriminate|]. destruct (read_one s 35 rs Hr) as [s1 [Er [R1 R2]]]; [lia|].
    assert (Hok1 : src_ok s1) by (eapply adv_ok; [apply R2|assumption]).
    unfold read_name_pvt in Hn. rewrite Er in Hn. cbn [snd] in Hn.
    destruct (is_id_start U (peek s1)) eqn:Hst; cbn [negb] in Hn; [|inj; destruct Hv; discriminate].
    destruct (read_name U _ _ _ _ s1) as [[t1 s2]|] eqn:En; [|discriminate].
    assert (Hk : kind_of (t_val t1) = KName /\ s2 = l_src l' /\ t_text t1 = t_text t0 /\ t_val t0 <> T_NAME
       /\ (t_val t0 = t_val t1 \/ (t_val t1 = T_NAME /\ t_val t0 = T_NAME_PVT))).
    { destruct (tv_eqb (t_val t1) T_NAME) eqn:Et.
      - apply tv_eqb_spec in Et. rewrite Et. destruct (has _ _); inj; [|destruct Hv; discriminate]. cbn. repeat split; auto. discriminate.
      - assert (t_val t1 <> T_NAME) by (intros G; apply tv_eqb_spec in G; congruence). inj. cbn [t_val t_text] in *.
        destruct (read_name_kind U _ _ _ _ _ _ _ En) as [K|[K|[]]]; [auto 10|]. destruct Hv; congruence. }
    destruct Hk as [Hk [-> [Hx [Hnn Hval]]]].
    destruct (read_name_sound U HU _ _ _ _ _ _ Hok1 Hst En Hk) as [i [is [A1 [A2 [A3 [A4 [A5 [A6 A7]]]]]]]].
    exists cs, ws, [35], i, is. rewrite Hx in *. rewrite (Htx A6). cbn [app]. rewrite <- A1. rewrite R1, <- Hr.
    split; [reflexivity|]. split; [exact G2|]. split; [auto|]. split; [congruence|]. split; [auto|].
    split; [assumption|]. split; [assumption|]. split; [assumption|]. split; [assumption|].
    apply name_value_named in A7. unfold named in A7. rewrite Hx in A7.
    destruct Hval as [-> | [E1 E2]]; [exact A7|]. rewrite E1 in A7. rewrite E2. left. destruct A7 as [[_ A7]|[A7 A8]]; [split; auto|].
    split; [auto|]. rewrite <- A7. vm_compute. intuition discriminate.
Qed.
Print Assumptions C22_name_partial.

(** Every name delivered without braced escapes, and not started by an escape, is made of identifier
    characters only. *)
Theorem C22_identifier_characters_partial : forall U i is, item_ok U true i -> Forall (item_ok U false) is ->
  item_escaped i = false -> (forall ds r, ~ In (NEscB ds r) is) ->
  i_start U (item_value i) /\ Forall (i_part U) (map item_value is).
Proof.
  intros U i is H1 H2 H3 H4. split; [destruct i; [exact H1|discriminate|discriminate]|].
  apply Forall_forall. intros x Hx. apply in_map_iff in Hx. destruct Hx as [j [<- Hj]]. rewrite Forall_forall in H2. specialize (H2 j Hj).
  destruct j as [ch|ds r|ds r]; cbn in *; [assumption|tauto|]. destruct (H4 ds r Hj).
Qed.
Print Assumptions C22_identifier_characters_partial.

(** Conversely: a run of well-formed elements that nothing extends is delivered as one name token,
    unless an escaped reserved word, which is rejected. *)
Theorem C22_recognised : forall U entity feat c l i is after, uni_ok U -> lexer_at feat c l -> no_jsx l ->
  item_good U true i -> Forall (item_good U false) is -> ahead l = flat_map item_text (i :: is) ++ after ->
  (forall x r, after = x :: r -> ~ i_part U x /\ x <> 92) ->
  exists t l', lex_tok U entity l = Some (t, l') /\ ahead l' = after /\
    (kind_of (t_val t) = KName \/
     (t_val t = T_ILLEGAL /\ existsb item_escaped (i :: is) = true /\
      In (flat_map encode_rune (map item_value (i :: is))) (bs "await" :: reserved_words))) /\
    (existsb item_escaped (i :: is) = true -> In (flat_map encode_rune (map item_value (i :: is))) reserved_words -> t_val t = T_ILLEGAL).
Proof.
  intros U entity feat c l i is after HU [H1 [H2 [H3 H4]]] [J1 [J2 J3]] Hi His Hr Haft.
  unfold ahead in Hr. fold (rest (l_src l)) in Hr.
  assert (Hx : exists x q, flat_map item_text (i :: is) ++ after = x :: q /\ is_id_start U x = true /\ is_space x = false).
  { destruct Hi as [Hi _]. destruct i as [ch|ds r|ds r]; cbn [item_text flat_map app item_value] in *; eexists; eexists;
      (split; [reflexivity|]); (split; [apply id_start_iff; auto|]); try reflexivity.
    clear -Hi HU. unfold i_start, ident_start in Hi. destruct (is_space ch) eqn:E; [|reflexivity]. exfalso.
    assert (K : (u_start U ch || u_lo U ch || u_part U ch = true) \/ (97 <= ch <= 122 \/ 65 <= ch <= 90 \/ ch = 36 \/ ch = 95)).
    { destruct (u_start U ch); [auto|]. destruct (u_lo U ch); [auto|]. right. intuition discriminate. }
    assert (K' : (ch = 36 \/ 48 <= ch <= 122) \/ is_space ch = false).
    { destruct K as [K|K]; [|lia]. specialize (HU ch K). destruct HU as [G|[_ [_ G]]]; [lia|auto]. }
    destruct K' as [K'|K']; [|congruence]. apply is_space_spec in E. cbn in E. lia. }
  destruct Hx as [x [q [Hxq [Hid Hsp]]]].
  destruct (skip_space_facts (l_src l)) as [_ [_ [_ [K4 _]]]]. specialize (K4 H1).
  assert (Hq : rest (skip_space (l_src l)) = x :: q) by (rewrite (skip_space_start (l_src l) x q); [congruence|congruence|exact Hsp]).
  assert (Hq' : rest (skip_space (l_src l)) = flat_map item_text (i :: is) ++ after) by congruence.
  set (s := skip_space (l_src l)) in *.
  destruct (read_name_complete U HU (l_feat l) (is_mode l LM_STRICT) (is_mode l LM_ASYNC) s i is after K4 Hi His Hq' Haft) as [t [s' [E1 [E2 [E3 E4]]]]].
  exists t, (set_src (lx_skip_space l) s'). split; [|split; [exact E2|]; split; [|intros A B; apply E4; [exact A|apply reserved_keywords; exact B]]].
  - apply lex_tok_first.
    + unfold read_tok_cmt. destruct (lx_skip_space_src l) as [F1 [F2 [F3 [F4 F5]]]]. rewrite F1, F4, !lx_skip_space_mode, J1, J2. fold s. cbn [orb].
      assert (He : ahead_is_eof s = false).
      { destruct (ahead_is_eof s) eqn:E; [|reflexivity]. apply eof_raw in E; [|assumption]. apply rest_nil_iff in E. rewrite E in Hq. discriminate. }
      rewrite He, (peek_cons _ _ _ Hq), Hid, E1. reflexivity.
    + intros Ev. destruct E3 as [E3|[E3 _]]; rewrite Ev in E3; discriminate.
  - destruct E3 as [E3|[A [B [C|C]]]]; [auto| |]; right; (split; [exact A|]; split; [exact B|]); [left; exact C|right; apply reserved_keywords; exact C].
Qed.
Print Assumptions C22_recognised.

(** A keyword, a name with both kinds of escape, a private name, a name that has a keyword as a prefix. *)
Example C22_name_partial_case :
  vals (N.ones 70) (bs "if /* c */ ifx #p class") = [T_IF; T_NAME; T_NAME_PVT; T_CLASS] /\
  first_tok 0 (bs "a\u0062\u{63}d1_$ e") = Some (T_NAME, [97; 98; 99; 100; 49; 95; 36], [32; 101]) /\
  no_jsx (new_lexer 0 (bs "if")).
Proof. split; [vm_compute; reflexivity|]. split; [vm_compute; reflexivity|apply new_lexer_no_jsx]. Qed.
Example C22_identifier_characters_case : item_ok ascii_uni true (NChar 97) /\ item_ok ascii_uni false (NEsc4 [48; 48; 54; 50] 98).
Proof. split; cbn; [left; lia|]. repeat split; try lia. left. left. lia. Qed.
(** An escaped reserved word. *)
Example C22_recognised_case :
  item_good ascii_uni true (NEsc4 [48; 48; 54; 57] 105) /\ item_good ascii_uni false (NChar 102) /\
  flat_map encode_rune (map item_value [NEsc4 [48; 48; 54; 57] 105; NChar 102]) = bs "if" /\
  exists x, first_tok 0 (bs "\u0069f") = Some (T_ILLEGAL, x, []).
Proof.
  split; [repeat split; try reflexivity; cbn; try lia; left; lia|]. split; [repeat split; cbn; try lia; left; left; lia|].
  split; [reflexivity|]. eexists. vm_compute. reflexivity.
Qed.

(** Names that are no names: the escape of a space inside, and of a digit or a backslash in front. *)
Theorem C22_identifier_characters_refuted :
  first_tok 0 (bs "a\u{20}b") = Some (T_NAME, [97; 32; 98], []) /\ ~ i_part ascii_uni 32 /\
  first_tok 0 (bs "\u0030a") = Some (T_NAME, [48; 97], []) /\ ~ i_start ascii_uni 48 /\
  first_tok 0 (bs "\u{5c}") = Some (T_NAME, [92], []) /\ ~ i_start ascii_uni 92.
Proof.
  split; [vm_compute; reflexivity|]. split; [cbv; intuition discriminate|]. split; [vm_compute; reflexivity|].
  split; [cbv; intuition discriminate|]. split; [vm_compute; reflexivity|cbv; intuition discriminate].
Qed.
Print Assumptions C22_identifier_characters_refuted.

(** [in] is reserved everywhere and delivered as a plain name, as are [const] outside strict mode and
    [yield] and [await] where they are reserved by context. *)
Theorem C22_reserved_refuted :
  vals (N.ones 70) (bs "in const") = [T_NAME; T_NAME].
Proof. vm_compute. reflexivity. Qed.
Print Assumptions C22_reserved_refuted.

(** In strict mode [let] is reserved; written with an escape it is delivered as the keyword. *)
Theorem C22_escaped_strict_refuted : exists t l',
  lex_tok ascii_uni no_entity (add_mode LM_STRICT (new_lexer 0 (bs "l\u0065t"))) = Some (t, l') /\ t_val t = T_LET /\ ahead l' = [].
Proof. eexists; eexists; split; [vm_compute; reflexivity|split; reflexivity]. Qed.
Print Assumptions C22_escaped_strict_refuted.

(** A private name may not be a reserved word... and is delivered as the reserved word itself. *)
Theorem C22_private_reserved_refuted : vals FEAT_CLASS_PRV (bs "#if") = [T_IF].
Proof. vm_compute. reflexivity. Qed.
Print Assumptions C22_private_reserved_refuted.
