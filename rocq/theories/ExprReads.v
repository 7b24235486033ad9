(** What the expression parser reads is what its tree spells. *)
From Coq Require Import Lia ZifyBool ZifyNat ZifyN.
From Verif Require Import Base TokenModel LexModel ParseBase BinModel BinSpec BinProofs SymtabModel EarlyModel ExprModel ExprSpec ExprProofs ExprPlaces.
Set Default Proof Using "All".

Lemma pbind_ok : forall A B (x : pres A) (f : A -> pst -> pres B) b s', pbind x f = POk b s' ->
  exists a s1, x = POk a s1 /\ f a s1 = POk b s'.
Proof. intros A B [a s1| | | ] f b s' H; try discriminate H. exists a, s1; split; [reflexivity|exact H]. Qed.
Lemma alift_ok : forall A B (x : ares A) (f : A -> pres B) b s', alift x f = POk b s' -> exists a, x = AOk a /\ f a = POk b s'.
Proof. intros A B [a| | ] f b s' H; try discriminate H. exists a; split; [reflexivity|exact H]. Qed.
Lemma must_ok : forall v s u s', must v s = POk u s' -> at_tok v s = true /\ s' = next s.
Proof. intros v s u s' H; unfold must in H. destruct (at_tok v s); [|discriminate]. injection H as <- <-; auto. Qed.
Lemma at_val : forall v s, at_tok v s = true -> t_val (peek s) = v.
Proof. intros v s H; exact (at_tok_eq v s H). Qed.
Lemma at_read : forall v s, at_tok v s = true -> tv_eqb v T_EOF = false -> sp s [peek s] (next s).
Proof. intros v s H E. apply sp_next. rewrite (at_tok_eq v s H). intros ->. discriminate E. Qed.
Lemma at_peeked : forall v s, at_tok v (peeked s) = at_tok v s.
Proof. reflexivity. Qed.
Lemma end_next : forall s, p_end (next s) = t_hi (peek s).
Proof. reflexivity. Qed.
Lemma end_peeked : forall s, p_end (peeked s) = p_end s.
Proof. reflexivity. Qed.
Lemma sp_end : forall s ts s', sp s ts s' -> ts <> [] -> p_end s' = last_hi ts.
Proof. intros s ts s' (_ & _ & H); exact H. Qed.
Lemma sp_first : forall s ts s' , sp s ts s' -> ts <> [] -> t_lo (peek s) = first_lo ts.
Proof. intros s ts s' (H & _) N. unfold peek. rewrite H. destruct ts; [congruence|reflexivity]. Qed.
Lemma sp_hd : forall s ts s' d, sp s ts s' -> ts <> [] -> hd d ts = peek s.
Proof. intros s ts s' d (H & _) N. unfold peek. rewrite H. destruct ts; [congruence|reflexivity]. Qed.
Lemma here_buf : forall s, p_buf s = true -> here s = t_lo (peek s).
Proof. intros s H; unfold here; rewrite H; reflexivity. Qed.
Tactic Notation "okb" hyp(H) ident(a) ident(s) ident(E) := apply pbind_ok in H as (a & s & E & H); cbv beta zeta in H.
Tactic Notation "oka" hyp(H) ident(a) ident(E) := apply alift_ok in H as (a & E & H); cbv beta in H.
Ltac grd H b := let E := fresh "C" in destruct b eqn:E; [discriminate H|].

Lemma bin_eof : forall ni ts t op, is_bin ni ts t = Some op -> t_val t <> T_EOF.
Proof.
  intros ni ts t op H Q. unfold is_bin, is_name in H. rewrite Q in H.
  destruct ni, ts; discriminate H.
Qed.

Section Reads.
Variables (feat : N) (text : token -> bytes) (chk : pst -> bool).
Variables (other method : N -> pst -> option (pres rng)) (block : N -> pst -> pres rng)
  (params_ok : N -> list expr -> pst -> bool).
Variables (Other Method Block : rng -> list token -> Prop).
Hypotheses (other_fr : framed Other) (method_fr : framed Method) (block_fr : framed Block).
Hypothesis other_reads : forall k s r s', other k s = Some (POk r s') -> exists ts, read s ts s' /\ Other r ts.
Hypothesis method_reads : forall k s r s', method k s = Some (POk r s') -> exists ts, read s ts s' /\ Method r ts.
Hypothesis block_reads : forall k s r s', block k s = POk r s' -> exists ts, read s ts s' /\ Block r ts.
Notation spell := (spell text Other Method Block True).
Notation item := (item text Other Method Block True).
Notation part := (part text Other Method Block True).
Notation param := (param text Other Method Block True).
Notation elems := (elems text Other Method Block True).
Notation args_of := (args_of text Other Method Block True).
Notation params_of := (params_of text Other Method Block True).
Notation commas := (commas text Other Method Block True).
Notation props := (props text Other Method Block True).
Notation prop_of := (prop_of text Other Method Block True).
Notation key_of := (key_of text Other Method Block True).
Notation quasis := (quasis text Other Method Block True).
Notation body := (body text Other Method Block True).
Local Definition s_ne := spell_ne text Other Method Block True other_fr method_fr block_fr.
Local Definition i_ne := item_ne text Other Method Block True other_fr method_fr block_fr.
Local Definition c_ne := commas_ne text Other Method Block True other_fr method_fr block_fr.
Local Definition k_ne := key_ne text Other Method Block True other_fr method_fr block_fr.
Local Definition q_ne := quasis_ne text Other Method Block True other_fr method_fr block_fr.
Local Definition b_ne := body_ne text Other Method Block True other_fr method_fr block_fr.
Local Definition p_ne := prop_ne text Other Method Block True other_fr method_fr block_fr.
Local Definition s_hi := spell_hi text Other Method Block True other_fr method_fr block_fr.
Local Definition atp_ok k f c := atp_all text Other Method Block True other_fr method_fr block_fr k f c.

(** Arguments without a comma at the end. *)
Inductive cargs : list expr -> list token -> Prop :=
| G_one e ts : item false e ts -> cargs [e] ts
| G_more e ts c l ts' : t_val c = T_COMMA -> item false e ts -> cargs l ts' -> cargs (e :: l) (ts ++ c :: ts').
Lemma cargs_snoc : forall l ts, cargs l ts -> forall c e ts', t_val c = T_COMMA -> item false e ts' ->
  cargs (l ++ [e]) (ts ++ c :: ts').
Proof.
  induction 1; intros c0 e0 ts0 C I; cbn.
  - constructor; [assumption..|constructor; assumption].
  - rewrite <- app_assoc; cbn. constructor; auto.
Qed.
Lemma cargs_args : forall l ts, cargs l ts -> args_of l ts.
Proof. induction 1; econstructor; eauto. Qed.
Lemma cargs_trail : forall l ts, cargs l ts -> forall c, t_val c = T_COMMA -> args_of l (ts ++ [c]).
Proof.
  induction 1; intros c0 C.
  - constructor; [assumption..|constructor].
  - rewrite <- app_assoc; cbn. constructor; auto.
Qed.
Lemma cargs_ne : forall l ts, cargs l ts -> l <> [] /\ ts <> [].
Proof. induction 1; split; try discriminate; [eapply i_ne; eauto|]. intro E; apply app_eq_nil in E as [_ E]; discriminate. Qed.
Lemma commas_snoc : forall l ts, commas l ts -> forall c n e ts', t_val c = T_COMMA -> spell false n e ts' -> 1 <= n <= 9 ->
  commas (l ++ [e]) (ts ++ c :: ts').
Proof.
  induction 1; intros c0 n0 e0 ts0 C I N; cbn.
  - econstructor; eauto. econstructor; eauto.
  - rewrite <- app_assoc; cbn. econstructor; eauto.
Qed.
Lemma cargs_commas : forall k l ts, cargs l ts -> each (check_arg k text false true) l = AOk tt -> commas l ts.
Proof.
  intros k l ts H; induction H as [e ts I|e ts c l ts' C I H IH]; intro E; cbn [each] in E;
    (assert (Chk : check_arg k text false true e = AOk tt) by (destruct (check_arg k text false true e) as [[]| | ]; [reflexivity|discriminate E..])).
  - inversion I as [g n e' ts0 S N|]; subst; [econstructor; eauto|discriminate Chk].
  - rewrite Chk in E; cbn [athen] in E. inversion I as [g n e' ts0 S N|]; subst; [econstructor; eauto|discriminate Chk].
Qed.
Lemma cargs_last : forall l ts, cargs l ts -> forall k, each (check_arg k text false true) l = AOk tt -> forall d, hi (last l d) = last_hi ts.
Proof.
  induction 1 as [e ts I|e ts c l ts' C I H IH]; intros k E d; cbn [each] in E.
  - inversion I as [g n e' ts0 S N|]; subst; [|discriminate E]. cbn. exact (s_hi _ _ _ _ S eq_refl).
  - destruct (check_arg k text false true e) as [[]| | ]; try discriminate E. cbn [athen] in E.
    destruct (cargs_ne _ _ H) as [Nl Nt]. destruct l as [|a l]; [congruence|].
    rewrite last_hi_mid, last_hi_cons by assumption. rewrite <- (IH k E d). reflexivity.
Qed.
(** What argsToParams makes of them. *)
Lemma atp_item : forall k c f g e ts, item g e ts -> forall top prop d m x, arg_to_param k f c text top prop d e = (m, x) ->
  item (g || d) m ts /\ (forall p, x = AOk p -> param p ts).
Proof. intros k c f g e ts I. exact (proj1 (proj2 (atp_ok k f c)) g e ts I). Qed.
Lemma atp_spell : forall k c f g n e ts, spell g n e ts -> P_spell text Other Method Block True k f c g n e ts.
Proof. intros k c f g n e ts I. exact (proj1 (atp_ok k f c) g n e ts I). Qed.
Lemma cargs_conv : forall k c l ts, cargs l ts -> forall l' x, args_to_params k feat c text l = (l', x) ->
  cargs l' ts /\ (forall ps, x = AOk ps -> params_of ps ts /\ forall c, t_val c = T_COMMA -> params_of ps (ts ++ [c])).
Proof.
  intros k c; induction 1 as [e ts I|e ts c0 l ts' C I H IH]; intros l' x E; unfold args_to_params in E;
    apply stop_map_cons in E as (a' & y & F & [(l2 & r & b & M & -> & -> & ->)|[-> X]]);
    destruct (atp_item _ _ _ _ _ _ I _ _ _ _ _ F) as [I1 I2]; cbn [orb] in I1.
  - cbn in M; injection M as <- <-. split; [constructor; assumption|]. intros ps P; injection P as <-.
    split; [constructor; auto|]. intros c1 C1. constructor; [assumption|auto|constructor].
  - split; [constructor; assumption|intros ps P; destruct (X ps P)].
  - destruct (IH l2 r M) as [J1 J2]. split; [constructor; assumption|]. intros ps P.
    destruct r as [qs| | ]; try discriminate P. injection P as <-. destruct (J2 qs eq_refl) as [J3 J4].
    split; [constructor; auto|]. intros c1 C1. rewrite <- app_assoc; cbn. constructor; auto.
  - split; [constructor; assumption|intros ps P; destruct (X ps P)].
Qed.

Lemma s_in : forall g n e ts, spell g n e ts -> ordered ts -> first_lo ts <= lo e /\ lo e <= hi e /\ hi e <= last_hi ts.
Proof.
  intros g n e ts S (a & b & O). destruct (span_tight _ _ _ O (s_ne _ _ _ _ S)) as (_ & _ & _ & T).
  destruct (proj1 (places text Other Method Block True other_fr method_fr block_fr (fun _ => True)) g n e ts S _ _ T) as (? & ? & ? & _); [|auto].
  apply Forall_forall; auto.
Qed.
Lemma ordered_l : forall x y, ordered (x ++ y) -> ordered x.
Proof. intros x y (a & b & O). apply span_app in O as (m & O & _). exists a, m; exact O. Qed.
Lemma ordered_r : forall x y, ordered (x ++ y) -> ordered y.
Proof. intros x y (a & b & O). apply span_app in O as (m & _ & O). exists m, b; exact O. Qed.
Lemma ordered_mid : forall x y, ordered (x ++ y) -> x <> [] -> y <> [] -> last_hi x <= first_lo y.
Proof.
  intros x y (a & b & O) X Y. apply span_app in O as (m & O1 & O2).
  pose proof (span_tight _ _ _ O1 X). pose proof (span_tight _ _ _ O2 Y). lia.
Qed.

Definition sp3 (s : pst) : Prop := at_tok T_BRACKET_L s = false /\ at_tok T_DOT s = false /\ at_tok T_OPT_CHAIN s = false.
Definition stp (s : pst) : Prop := sp3 s /\ at_tok T_PAREN_L s = false.
(** The level of an expression that ends where no call, member or template goes on. *)
Definition R (root : bool) (o : option rng) (n : nat) (e : expr) : Prop :=
  match o with
  | None => 7 <= n <= 9
  | Some _ => if root then n = 6 /\ is_chain_e e = true else n = 10
  end.
Definition argspec (args : list expr) (tr : bool) (ts : list token) : Prop :=
  args = [] /\ ts = [] \/ cargs args ts \/ tr = true /\ exists ts1 c, ts = ts1 ++ [c] /\ t_val c = T_COMMA /\ cargs args ts1.
Definition argpre (acc : list expr) (tr : bool) (ts : list token) (s : pst) : Prop :=
  acc = [] /\ ts = [] \/
  at_tok T_PAREN_R s = true /\ cargs acc ts \/
  (at_tok T_PAREN_R s = true -> tr = true) /\ exists ts1 c, ts = ts1 ++ [c] /\ t_val c = T_COMMA /\ cargs acc ts1.
Lemma argspec_args : forall args tr ts, argspec args tr ts -> args_of args ts.
Proof.
  intros args tr ts [[-> ->]|[H|(_ & ts1 & c & -> & C & H)]]; [constructor|exact (cargs_args _ _ H)|exact (cargs_trail _ _ H _ C)].
Qed.
Definition tok0 := eof_tok 0.
(** A primary expression, or a function with the calls and members that follow it. *)
Definition first (n : nat) (e : expr) (ts : list token) (s : pst) : Prop :=
  n = 9 \/ leads (hd tok0 ts) /\ stp s /\ (7 <= n <= 9 \/ n = 6 /\ is_chain_e e = true).

Record Inv (rc : calls) : Prop := {
  v_seq : forall k s e s', c_seq rc k s = POk e s' -> exists n ts, sp s ts s' /\ spell false n e ts /\ n <= 9;
  v_seq_loop : forall k l acc s e s' s0 ts0, c_seq_loop rc k l acc s = POk e s' -> sp s0 ts0 s -> commas acc ts0 ->
    l = lo (hd (EOther (0, 0)) acc) -> 2 <= length acc \/ at_tok T_COMMA s = true ->
    exists ts, sp s0 ts s' /\ spell false 0 e ts;
  v_assign : forall k check s e s', c_assign rc k check s = POk e s' -> exists n ts, sp s ts s' /\ spell false n e ts /\ 1 <= n <= 9;
  v_yield : forall k s e s', c_yield_expr rc k s = POk e s' -> p_buf s = true -> ahead_yield text k s = true ->
    exists ts, sp s ts s' /\ spell false 1 e ts;
  v_cond : forall k s e s', c_cond rc k s = POk e s' -> exists n ts, sp s ts s' /\ spell false n e ts /\ 2 <= n <= 9;
  v_unary : forall k s e s', c_unary rc k s = POk e s' -> exists n ts, sp s ts s' /\ spell false n e ts /\ 4 <= n <= 9;
  v_update : forall k s e s', c_update rc k s = POk e s' -> p_buf s = true ->
    exists n ts, sp s ts s' /\ spell false n e ts /\ 5 <= n <= 9;
  v_lhs : forall k s e s', c_lhs rc k s = POk e s' -> exists n ts, sp s ts s' /\ spell false n e ts /\ 6 <= n <= 9;
  v_new : forall k s e s', c_new_expr rc k s = POk e s' -> p_buf s = true -> at_tok T_NEW s = true ->
    exists n ts, sp s ts s' /\ spell false n e ts /\ 6 <= n <= 9 /\ (7 <= n \/ stp s') /\ t_val (hd tok0 ts) = T_NEW;
  v_new_loop : forall k e root opt s e' s' s0 ts0 n, c_new_loop rc k e root opt s = POk e' s' -> sp s0 ts0 s ->
    spell false n e ts0 -> 6 <= n <= 9 -> 7 <= n /\ root = true /\ opt = None \/ stp s ->
    exists n' ts1, sp s0 (ts0 ++ ts1) s' /\ spell false n' e' (ts0 ++ ts1) /\ 6 <= n' <= 9 /\ stp s';
  v_call_none : forall k s e o s', c_call_expr rc k None true false None s = POk (e, o) s' -> p_buf s = true ->
    exists n ts, sp s ts s' /\ spell false n e ts /\ 6 <= n <= 9 /\ stp s';
  v_call_some : forall k c root opt s e o s' s0 ts0 n, c_call_expr rc k (Some c) root false opt s = POk (e, o) s' ->
    sp s0 ts0 s -> spell false n c ts0 -> 7 <= n -> match opt with None => n <= 9 | Some _ => n = 10 end ->
    exists n' ts1, sp s0 (ts0 ++ ts1) s' /\ spell false n' e (ts0 ++ ts1) /\ stp s' /\ R root o n' e /\ incl (lefts c) (lefts e) /\ (opt = None \/ o = opt) /\ (ordered (ts0 ++ ts1) -> lo c <= lo e);
  v_call_direct : forall k c q s e o s' s0 ts0 n d, c_call_expr rc k (Some c) false true (Some q) s = POk (e, o) s' ->
    sp s0 (ts0 ++ [d]) s -> t_val d = T_OPT_CHAIN -> spell false n c ts0 -> 7 <= n -> at_tok T_PAREN_L s = true ->
    exists ts1, sp s0 (ts0 ++ ts1) s' /\ spell false 10 e (ts0 ++ ts1) /\ incl (lefts c) (lefts e) /\ (ordered (ts0 ++ ts1) -> lo c <= lo e);
  v_call_loop : forall k l c root direct opt s e o s' s0 ts0 n, c_call_loop rc k l c root direct opt s = POk (e, o) s' ->
    sp s0 ts0 s -> spell false n c ts0 -> l = first_lo ts0 \/ In l (lefts c) -> (ordered ts0 -> l <= lo c) ->
    7 <= n \/ n = 6 /\ stp s /\ root = true /\ is_chain_e c = true -> (direct = true -> n = 10 /\ root = false) ->
    match opt with None => 7 <= n <= 9 | Some _ => n = 10 \/ n = 6 end ->
    exists n' ts1, sp s0 (ts0 ++ ts1) s' /\ spell false n' e (ts0 ++ ts1) /\ stp s' /\ R root o n' e /\ incl (lefts c) (lefts e) /\ (opt = None \/ o = opt) /\ (ordered (ts0 ++ ts1) -> l <= lo e);
  v_call_here : forall k l c q s e o s' s0 ts0 n d, c_call_loop rc k l c false true (Some q) s = POk (e, o) s' ->
    sp s0 (ts0 ++ [d]) s -> t_val d = T_OPT_CHAIN -> spell false n c ts0 -> 7 <= n -> at_tok T_PAREN_L s = true -> l = lo c ->
    exists ts1, sp s0 (ts0 ++ ts1) s' /\ spell false 10 e (ts0 ++ ts1) /\ incl (lefts c) (lefts e) /\ (ordered (ts0 ++ ts1) -> lo c <= lo e);
  v_member_none : forall k s e o s', c_member_expr rc k None false true None s = POk (e, o) s' ->
    exists n ts, sp s ts s' /\ spell false n e ts /\ sp3 s' /\
      (o = None -> 8 <= n <= 9 \/ 6 <= n <= 9 /\ leads (hd tok0 ts));
  v_member_some : forall k c root opt s e o s' s0 ts0 n, c_member_expr rc k (Some c) true root opt s = POk (e, o) s' ->
    sp s0 ts0 s -> spell false n c ts0 -> 7 <= n ->
    match opt with None => n <= 9 | Some _ => n = 10 \/ n <= 9 /\ at_tok T_OPT_CHAIN s = true end ->
    exists n' ts1, sp s0 (ts0 ++ ts1) s' /\ spell false n' e (ts0 ++ ts1) /\ stp s' /\ R root o n' e /\ incl (lefts c) (lefts e) /\ (opt = None \/ o = opt) /\ (ordered (ts0 ++ ts1) -> lo c <= lo e);
  v_member_loop : forall k e opt s e' o s' s0 ts0 n, c_member_loop rc k e opt s = POk (e', o) s' ->
    sp s0 ts0 s -> spell false n e ts0 -> 7 <= n \/ sp3 s ->
    match opt with None => n <= 9 | Some _ => n = 10 \/ n <= 9 /\ at_tok T_OPT_CHAIN s = true end ->
    exists n' ts1, sp s0 (ts0 ++ ts1) s' /\ spell false n' e' (ts0 ++ ts1) /\ sp3 s' /\ incl (lefts e) (lefts e') /\ (opt = None \/ o = opt) /\ (ordered (ts0 ++ ts1) -> lo e <= lo e') /\
      match o with None => n' <= 9 /\ (n' = n \/ 7 <= n' /\ (8 <= n -> 8 <= n')) | Some _ => n' = 10 end;
  v_subscript : forall k e opt s e' s', c_subscript rc k e opt s = POk e' s' -> at_tok T_BRACKET_L s = true ->
    exists m p l pts h, e' = EMember (lo e, t_hi h) e p true opt /\ sp s (l :: pts ++ [h]) s' /\ spell false m p pts /\ m <= 9 /\
      t_val l = T_BRACKET_L /\ t_val h = T_BRACKET_R;
  v_arg_list : forall k check incall s args tr s', c_arg_list rc k check incall s = POk (args, tr) s' ->
    exists l ats h, sp s (l :: ats ++ [h]) s' /\ t_val l = T_PAREN_L /\ t_val h = T_PAREN_R /\ argspec args tr ats;
  v_arg_loop : forall k check incall acc trail s args tr s' s0 ts0, c_arg_loop rc k check incall acc trail s = POk (args, tr) s' ->
    sp s0 ts0 s -> argpre acc trail ts0 s ->
    exists ats h, sp s0 (ats ++ [h]) s' /\ t_val h = T_PAREN_R /\ argspec args tr ats;
  v_spread : forall k s e s', c_spread rc k s = POk e s' -> p_buf s = true -> at_tok T_DOT_TRI s = true ->
    exists d n e1 ts comma, e = ESpread (t_lo d, last_hi ts) e1 comma /\ sp s (d :: ts) s' /\ t_val d = T_DOT_TRI /\
      spell false n e1 ts /\ 1 <= n <= 9;
  v_paren : forall k s e s', c_paren rc k s = POk e s' -> p_buf s = true -> exists ts, sp s ts s' /\ spell false 9 e ts;
  v_arrow : forall k l ps s e s', c_arrow rc k l ps s = POk e s' -> at_tok T_ARROW s = true ->
    exists bts b, e = EArrow (l, last_hi bts) ps b /\ sp s (peek s :: bts) s' /\ body b bts;
  v_arr : forall k l acc s e s' s0 ts0, c_arr_lit rc k l acc s = POk e s' -> sp s0 ts0 s ->
    (forall l' ts', elems false l' ts' -> elems false (acc ++ l') (ts0 ++ ts')) ->
    exists es ts h, e = EArr (l, t_hi h) es /\ sp s0 (ts ++ [h]) s' /\ elems false es ts /\ t_val h = T_BRACKET_R;
  v_obj : forall k l acc s e s' s0 ts0, c_obj_lit rc k l acc s = POk e s' -> sp s0 ts0 s ->
    (forall l' ts', props false l' ts' -> props false (acc ++ l') (ts0 ++ ts')) ->
    exists es ts h, e = EObj (l, t_hi h) es /\ sp s0 (ts ++ [h]) s' /\ props false es ts /\ t_val h = T_BRACE_R;
  v_obj_prop : forall k s e s', c_obj_prop rc k s = POk e s' -> exists ts, sp s ts s' /\ prop_of false e ts;
  v_tpl : forall k tag s e s', c_tpl rc k tag s = POk e s' -> at_tok T_TPL_HEAD s = true ->
    exists es ts, e = ETpl (first_lo ts, last_hi ts) tag es /\ sp s ts s' /\ quasis es ts /\ t_val (hd tok0 ts) = T_TPL_HEAD /\
      match tag with Some c => is_chain_e c = false | None => True end;
  v_tpl_loop : forall k tag l acc s e s' s0 ts0, c_tpl_loop rc k tag l acc s = POk e s' -> sp s0 ts0 s ->
    (forall l' ts', quasis l' ts' -> quasis (acc ++ l') (ts0 ++ ts')) ->
    exists es ts, e = ETpl (l, last_hi (ts0 ++ ts)) tag es /\ sp s0 (ts0 ++ ts) s' /\ quasis es (ts0 ++ ts);
  v_call_stop : forall k l c s e o s', c_call_loop rc k l c true false None s = POk (e, o) s' -> stp s -> is_chain_e c = true ->
    e = c /\ sp s [] s' /\ stp s';
  v_primary : forall k s e s', c_primary rc k s = POk e s' -> p_buf s = true -> exists n ts, sp s ts s' /\ spell false n e ts /\ first n e ts s'
}.

Section Step.
Variables (rc : calls) (I : Inv rc).

Ltac use L H := let P := fresh "P" in pose proof (L _ I) as P.
(** What is left of [sp] after reading a token. *)
Lemma sp_snoc : forall s ts s' v, sp s ts s' -> at_tok v s' = true -> tv_eqb v T_EOF = false -> sp s (ts ++ [peek s']) (next s').
Proof. intros s ts s' v H A E. exact (sp_trans _ _ _ _ _ H (at_read v s' A E)). Qed.

Lemma seq_step : forall k s e s', seq_b text rc k s = POk e s' -> exists n ts, sp s ts s' /\ spell false n e ts /\ n <= 9.
Proof.
  intros k s e s' H. unfold seq_b in H. okb H a s1 E. oka H u E1.
  destruct (v_assign _ I _ _ _ _ _ E) as (n & ts & P1 & P2 & P3).
  destruct (at_tok T_COMMA s1) eqn:C.
  - destruct (v_seq_loop _ I _ _ _ _ _ _ s ts H) as (ts2 & Q1 & Q2); [exact P1|econstructor; eauto|reflexivity|right; exact C|].
    exists 0, ts2. split; [exact Q1|]. split; [exact Q2|lia].
  - injection H as <- <-. exists n, ts. split; [exact P1|]. split; [exact P2|lia].
Qed.
Lemma seq_loop_step : forall k l acc s e s' s0 ts0, seq_loop_b rc k l acc s = POk e s' -> sp s0 ts0 s -> commas acc ts0 ->
    l = lo (hd (EOther (0, 0)) acc) -> 2 <= length acc \/ at_tok T_COMMA s = true ->
    exists ts, sp s0 ts s' /\ spell false 0 e ts.
Proof.
  intros k l acc s e s' s0 ts0 H S C L T. unfold seq_loop_b in H.
  destruct (at_tok T_COMMA s) eqn:A.
  - okb H a s1 E. destruct (v_assign _ I _ _ _ _ _ E) as (n & ts & P1 & P2 & P3).
    eapply (v_seq_loop _ I); [exact H| | | |].
    + exact (sp_trans _ _ _ _ _ (sp_snoc _ _ _ _ S A eq_refl) P1).
    + rewrite <- app_assoc. eapply commas_snoc; eauto using at_val.
    + subst l. destruct acc; [inversion C|reflexivity].
    + left. rewrite app_length; cbn. destruct acc; [inversion C|cbn; lia].
  - injection H as <- <-. exists ts0. split; [exact S|]. destruct T as [T|T]; [|discriminate].
    unfold fin. rewrite (sp_end _ _ _ S (c_ne _ _ C)), L. constructor; assumption.
Qed.
Lemma yield_step : forall k s e s', yield_expr_b feat rc k s = POk e s' -> p_buf s = true -> ahead_yield text k s = true ->
    exists ts, sp s ts s' /\ spell false 1 e ts.
Proof.
  intros k s e s' H B A. unfold yield_expr_b in H. destruct (has k SPK_FORMAL_PARAMS); [discriminate|]. cbv zeta in H.
  unfold ahead_yield in A. apply Bool.andb_true_iff in A as [_ A].
  assert (Y : yield_word text (peek s)).
  { apply Bool.orb_true_iff in A as [A|A]; [left; exact (at_val _ _ A)|]. right. apply Bool.andb_true_iff in A as [A A2].
    split; [exact (at_val _ _ A)|]. apply bytes_eqb_spec; exact A2. }
  assert (S1 : sp s [peek s] (next s)).
  { apply Bool.orb_true_iff in A as [A|A]; [exact (at_read _ _ A eq_refl)|]. apply Bool.andb_true_iff in A as [A _]. exact (at_read _ _ A eq_refl). }
  match type of H with (if ?b then _ else _) = _ => destruct b eqn:G end.
  - injection H as <- <-. exists [peek s]. split; [exact S1|]. unfold fin. rewrite (here_buf _ B). constructor; exact Y.
  - okb H a s0 E. injection H as <- <-. destruct (v_assign _ I _ _ _ _ _ E) as (n & ts & P1 & P2 & P3).
    apply Bool.orb_false_iff in G as [G _]. unfold fin. rewrite (here_buf _ B).
    change (peek (peeked (next s))) with (peek (next s)) in G.
    destruct (at_tok T_MUL (peeked (next s))) eqn:D.
    + exists (peek s :: peek (next s) :: ts).
      assert (S2 : sp s (peek s :: peek (next s) :: ts) s0).
      { exact (sp_trans _ _ _ _ _ S1 (sp_trans _ _ _ _ _ (at_read T_MUL (next s) D eq_refl) P1)). }
      split; [exact S2|]. rewrite (sp_end _ _ _ S2) by discriminate. rewrite last_hi_cons by discriminate.
      rewrite last_hi_cons by (eapply s_ne; eauto). eapply S_yield_all; eauto. exact (at_val T_MUL _ D).
    + exists (peek s :: ts). assert (S2 : sp s (peek s :: ts) s0) by exact (sp_trans _ _ _ _ _ S1 P1).
      split; [exact S2|]. rewrite (sp_end _ _ _ S2) by discriminate. rewrite last_hi_cons by (eapply s_ne; eauto).
      eapply S_yield_arg; eauto. rewrite (sp_hd _ _ _ _ P1) by (eapply s_ne; eauto). exact G.
Qed.
Lemma bin_step : forall k fuel,
  (forall lhs min lg nl s t s' s0 ts0 n,
     bin_loop (c_unary rc k) (fun _ => PErr) is_unary_e is_arrow_e feat false (has k SPK_NOT_IN) false fuel lhs min lg nl s = POk t s' ->
     sp s0 ts0 s -> spell false n (of_bt lhs) ts0 -> 3 <= n <= 9 ->
     exists n' ts1, sp s0 (ts0 ++ ts1) s' /\ spell false n' (of_bt t) (ts0 ++ ts1) /\ 3 <= n' <= 9) /\
  (forall rhs pcd lg nl s t s' s0 ts0 n,
     rhs_loop (c_unary rc k) (fun _ => PErr) is_unary_e is_arrow_e feat false (has k SPK_NOT_IN) false fuel rhs pcd lg nl s = POk t s' ->
     sp s0 ts0 s -> spell false n (of_bt rhs) ts0 -> 3 <= n <= 9 ->
     exists n' ts1, sp s0 (ts0 ++ ts1) s' /\ spell false n' (of_bt t) (ts0 ++ ts1) /\ 3 <= n' <= 9).
Proof.
  intros k fuel. induction fuel as [|fuel [IB IR]]; [split; intros; discriminate|]. split.
  - intros lhs min lg nl s t s' s0 ts0 n H S W N. cbn [bin_loop] in H.
    assert (Stay : POk lhs (peeked s) = POk t s' ->
      exists n' ts1, sp s0 (ts0 ++ ts1) s' /\ spell false n' (of_bt t) (ts0 ++ ts1) /\ 3 <= n' <= 9).
    { intro Q; injection Q as <- <-. exists n, []. rewrite app_nil_r. auto. }
    destruct (is_bin (has k SPK_NOT_IN) false (peek s)) as [op|] eqn:O; [|auto].
    match type of H with (if ?b then _ else _) = _ => destruct b; [auto|] end.
    match type of H with (if ?b then _ else _) = _ => destruct b; [discriminate|] end. cbv zeta in H.
    match type of H with (if ?b then _ else _) = _ => destruct b; [discriminate|] end.
    okb H a sa E. okb H b sb E0. unfold operand in E. destruct (tv_eqb op T_TS_AS) eqn:AS; [discriminate|].
    destruct (v_unary _ I _ _ _ _ E) as (m & us & U1 & U2 & U3).
    assert (NE : pval s <> T_EOF).
    { exact (bin_eof _ _ _ _ O). }
    destruct (IR _ _ _ _ _ _ _ _ us m E0 U1) as (m' & us' & V1 & V2 & V3); [exact U2|lia|].
    match type of H with (if ?b then _ else _) = _ => destruct b; [discriminate|] end.
    match type of H with (if ?b then _ else _) = _ => destruct b; [discriminate|] end.
    pose proof (sp_trans _ _ _ _ _ S (sp_trans _ _ _ _ _ (sp_next _ NE) V1)) as S2. cbn [app] in S2.
    assert (UN : us ++ us' <> []) by (eapply s_ne; eauto).
    destruct (IB _ _ _ _ _ _ _ _ _ 3 H S2) as (n' & ts1 & X1 & X2 & X3); [|lia|].
    + cbn [of_bt]. rewrite (sp_end _ _ _ V1 UN). eapply S_bin; eauto.
      split.
      * pose proof (bin_in _ _ _ _ O) as J. exists (rank op), (lvl_right op). exact (at_level_op op J).
      * unfold is_bin in O. destruct (N.ltb (tv_num T_BIN_OP_BEGIN) (tv_num (t_val (peek s))) && N.ltb (tv_num (t_val (peek s))) (tv_num T_BIN_OP_END)); [left; congruence|].
        destruct (negb (has k SPK_NOT_IN) && is_name (peek s) (bs "in") false) eqn:J; [|discriminate O].
        right. injection O as <-. split; [reflexivity|]. apply Bool.andb_true_iff in J as [_ J]. unfold is_name in J.
        apply Bool.andb_true_iff in J as [J _]. apply Bool.andb_true_iff in J as [J1 J2].
        split; [apply tv_eqb_spec; exact J1|apply bytes_eqb_spec; exact J2].
    + exists n', ((peek s :: us ++ us') ++ ts1). rewrite app_assoc. auto.
  - intros rhs pcd lg nl s t s' s0 ts0 n H S W N. cbn [rhs_loop] in H.
    assert (Stay : POk rhs (peeked s) = POk t s' ->
      exists n' ts1, sp s0 (ts0 ++ ts1) s' /\ spell false n' (of_bt t) (ts0 ++ ts1) /\ 3 <= n' <= 9).
    { intro Q; injection Q as <- <-. exists n, []. rewrite app_nil_r. auto. }
    destruct (is_bin (has k SPK_NOT_IN) false (peek s)) as [op|] eqn:O; [|auto].
    match type of H with (if ?b then _ else _) = _ => destruct b; [|auto] end.
    okb H a sa E. destruct (IB _ _ _ _ _ _ _ _ ts0 n E S W N) as (n1 & us & V1 & V2 & V3).
    destruct (IR _ _ _ _ _ _ _ _ _ n1 H V1 V2 V3) as (n2 & us2 & X1 & X2 & X3).
    exists n2, (us ++ us2). rewrite app_assoc. auto.
Qed.
Lemma cond_step : forall k s e s', cond_b feat rc k s = POk e s' -> exists n ts, sp s ts s' /\ spell false n e ts /\ 2 <= n <= 9.
Proof.
  intros k s e s' H. unfold cond_b in H. okb H b s0 E. unfold bin_expr in E. okb E a s1 E0.
  destruct (v_unary _ I _ _ _ _ E0) as (m & us & U1 & U2 & U3).
  destruct (proj1 (bin_step k (c_fuel rc)) _ _ _ _ _ _ _ _ us m E U1) as (n & ts1 & V1 & V2 & V3); [exact U2|lia|].
  destruct (at_tok T_HOOK s0) eqn:Q.
  - okb H c s2 E1. okb H u s3 M. okb H d s4 E2. injection H as <- <-. apply must_ok in M as [M ->].
    destruct (v_assign _ I _ _ _ _ _ E1) as (nc & cts & C1 & C2 & C3).
    destruct (v_assign _ I _ _ _ _ _ E2) as (na & ats & A1 & A2 & A3).
    exists 2, ((us ++ ts1) ++ peek s0 :: cts ++ peek s2 :: ats).
    assert (W : sp s ((us ++ ts1) ++ peek s0 :: cts ++ peek s2 :: ats) s4).
    { exact (sp_trans _ _ _ _ _ V1 (sp_trans _ _ _ _ _ (at_read _ _ Q eq_refl) (sp_trans _ _ _ _ _ C1 (sp_trans _ _ _ _ _ (at_read _ _ M eq_refl) A1)))). }
    split; [exact W|]. split; [|lia]. unfold fin. rewrite (sp_end _ _ _ A1) by (eapply s_ne; eauto).
    eapply S_cond; eauto using at_val.
  - injection H as <- <-. exists n, (us ++ ts1). split; [exact V1|]. split; [exact V2|lia].
Qed.

Lemma assign_ops : forall v, is_assign_op v = true -> assign_op v.
Proof.
  intros v. unfold assign_op, is_assign_op, between.
  destruct v; intro H; try discriminate H; cbn; tauto.
Qed.
Lemma name_spelled : forall n r x p kw ts, spell false n (EName r x p kw) ts -> exists t, ts = [t] /\ n = 9 /\ r = place t.
Proof. intros n r x p kw ts H. inversion H; subst; eauto. Qed.
Lemma assign_step : forall k check s e s', assign_b feat text chk rc k check s = POk e s' ->
  exists n ts, sp s ts s' /\ spell false n e ts /\ 1 <= n <= 9.
Proof.
  intros k check s e s' H. unfold assign_b in H. destruct (ahead_yield text k s) eqn:Y.
  { destruct (v_yield _ I _ _ _ _ H eq_refl Y) as (ts & P1 & P2). exists 1, ts. split; [exact P1|]. split; [exact P2|lia]. }
  okb H l0 s1 E. destruct (v_cond _ I _ _ _ _ E) as (n0 & ts & P1 & P2 & P3).
  okb H l s2 E1.
  assert (J : (l = l0 /\ s2 = peeked s1) \/
    exists ts2, sp s ts2 s2 /\ spell false 1 l ts2 /\ is_arrow_e l = true).
  { destruct (is_name_e l0 && at_tok T_ARROW s1 && negb (t_atl (peek s1))) eqn:G; [|injection E1 as <- <-; left; auto].
    right. apply Bool.andb_true_iff in G as [G G3]. apply Bool.andb_true_iff in G as [G1 G2]. apply Bool.negb_true_iff in G3.
    oka E1 ps A. destruct l0; try discriminate G1.
    destruct (name_spelled _ _ _ _ _ _ P2) as (t & -> & -> & ->).
    unfold args_to_params in A. cbn [stop_map arg_to_param] in A.
    destruct (chk s1 && prohibited k n true); [discriminate A|]. injection A as <-.
    destruct (v_arrow _ I _ _ _ _ _ _ E1 G2) as (bts & b & -> & B1 & B2).
    exists (t :: peek s1 :: bts). split; [exact (sp_trans _ _ _ _ _ P1 B1)|]. split; [|reflexivity].
    unfold lo; cbn [range place fst]. eapply S_arrow1; eauto. exact (at_val _ _ G2). }
  destruct (is_assign_op (pval s2)) eqn:O.
  - okb H r s3 E2. oka H l' A. match type of H with (if ?b then _ else _) = _ => destruct b; [discriminate|] end. oka H u A2.
    injection H as <- <-. destruct (v_assign _ I _ _ _ _ _ E2) as (nr & rts & R1 & R2 & R3).
    assert (NE : pval s2 <> T_EOF) by (intro Q; rewrite Q in O; discriminate O).
    destruct J as [[-> ->]|(ts2 & _ & J2 & J3)].
    2: { destruct l; try discriminate J3. discriminate A. }
    destruct (arg_to_param k feat (chk s3) text false false true l0) as [m x] eqn:AT. cbn [snd] in A. subst x.
    destruct (atp_spell _ _ _ _ _ _ _ P2 _ _ _ _ _ AT (proj2 P3)) as (_ & _ & _ & _ & K).
    destruct (K l' eq_refl) as [(T & (n' & N1 & W) & L & _)|(Q & _)]; [|lia].
    exists 1, (ts ++ peek s1 :: rts).
    assert (S3 : sp s (ts ++ peek s1 :: rts) s3).
    { exact (sp_trans _ _ _ _ _ P1 (sp_trans _ _ _ _ _ (sp_next _ NE) R1)). }
    split; [exact S3|]. split; [|lia]. unfold fin. rewrite (sp_end _ _ _ R1) by (eapply s_ne; eauto).
    eapply S_assign with (m := nr) (n := n'); eauto; [exact (assign_ops _ O)|lia|].
    destruct L as [L|L]; [right; symmetry; exact L|left; exact L].
  - injection H as <- <-. destruct J as [[-> ->]|(ts2 & J1 & J2 & _)].
    + exists n0, ts. split; [exact P1|]. split; [exact P2|lia].
    + exists 1, ts2. split; [exact J1|]. split; [exact J2|lia].
Qed.
Lemma unary_ops : forall v, is_unary_op v = true -> prefix_op v.
Proof.
  intros v. unfold prefix_op, is_unary_op, between.
  destruct v; intro H; try discriminate H; cbn; tauto.
Qed.
Lemma unary_step : forall k s e s', unary_b feat other rc k s = POk e s' -> exists n ts, sp s ts s' /\ spell false n e ts /\ 4 <= n <= 9.
Proof.
  intros k s e s' H. unfold unary_b in H. cbv zeta in H. destruct (at_tok T_LT s).
  { destruct (other k (peeked s)) as [x|] eqn:O; [|discriminate]. unfold other_expr in H. okb H r s1 E. injection H as <- <-. subst x.
    destruct (other_reads _ _ _ _ O) as (ts & P1 & P2). exists 9, ts. split; [exact P1|]. split; [constructor; exact P2|lia]. }
  destruct (is_unary_op (t_val (peek s)) || at_tok T_ADD s || at_tok T_SUB s) eqn:O.
  { okb H a s1 E. destruct (is_arrow_e a); [discriminate|]. destruct (has k SPK_STRICT && at_tok T_DELETE s && is_name_e a); [discriminate|].
    oka H u D. injection H as <- <-. destruct (v_unary _ I _ _ _ _ E) as (n & ts & P1 & P2 & P3).
    assert (W : prefix_op (t_val (peek s)) /\ pval s <> T_EOF).
    { apply Bool.orb_true_iff in O as [O|O]; [apply Bool.orb_true_iff in O as [O|O]|].
      - split; [exact (unary_ops _ O)|]. unfold pval; intro Q; rewrite Q in O; discriminate O.
      - unfold pval. rewrite (at_val _ _ O). split; [unfold prefix_op; cbn; tauto|discriminate].
      - unfold pval. rewrite (at_val _ _ O). split; [unfold prefix_op; cbn; tauto|discriminate]. }
    destruct W as [W1 W2]. exists 4, (peek s :: ts).
    assert (S1 : sp s (peek s :: ts) s1) by exact (sp_trans _ _ _ _ _ (sp_next _ W2) P1).
    split; [exact S1|]. split; [|lia]. unfold fin. rewrite (sp_end _ _ _ P1) by (eapply s_ne; eauto). eapply S_unary; eauto. }
  destruct (at_tok T_AWAIT s) eqn:A.
  - destruct (negb (has feat FEAT_ASYNC_AWAIT)); [discriminate|].
    destruct (negb (tv_start_expr (pval (peeked (next s))))) eqn:ST.
    + destruct (has feat FEAT_MODULE); [discriminate|]. injection H as <- <-. exists 9, [peek s].
      split; [exact (at_read _ _ A eq_refl)|]. split; [|lia]. apply S_await_name. exact (at_val _ _ A).
    + destruct (has k SPK_FORMAL_PARAMS || negb (has k SPK_ASYNC)); [discriminate|]. okb H a s1 E. injection H as <- <-.
      destruct (v_unary _ I _ _ _ _ E) as (n & ts & P1 & P2 & P3). exists 4, (peek s :: ts).
      split; [exact (sp_trans _ _ _ _ _ (at_read _ _ A eq_refl) P1)|]. split; [|lia].
      unfold fin. rewrite (sp_end _ _ _ P1) by (eapply s_ne; eauto). rewrite <- (at_val _ _ A).
      eapply S_unary; eauto. rewrite (at_val _ _ A); unfold prefix_op; cbn; tauto.
  - destruct (v_update _ I _ _ _ _ H eq_refl) as (n & ts & P1 & P2 & P3). exists n, ts. split; [exact P1|]. split; [exact P2|lia].
Qed.
Lemma simple_updatable : forall k e member, is_simple k true member false e = true -> updatable e = true.
Proof. intro k; induction e; intros member H; cbn [is_simple updatable] in *; try discriminate H; try reflexivity. eauto. Qed.
Lemma update_step : forall k s e s', update_b rc k s = POk e s' -> p_buf s = true ->
    exists n ts, sp s ts s' /\ spell false n e ts /\ 5 <= n <= 9.
Proof.
  intros k s e s' H B. unfold update_b in H. destruct (at_tok T_INC s || at_tok T_DEC s) eqn:O.
  - okb H a s1 E. destruct (negb (is_simple k true true false a)) eqn:U; [discriminate|]. apply Bool.negb_false_iff in U. injection H as <- <-.
    destruct (v_unary _ I _ _ _ _ E) as (n & ts & P1 & P2 & P3).
    assert (W : (t_val (peek s) = T_INC \/ t_val (peek s) = T_DEC) /\ pval s <> T_EOF).
    { apply Bool.orb_true_iff in O as [O|O]; unfold pval; rewrite (at_val _ _ O); split; auto; discriminate. }
    destruct W as [W1 W2]. exists 5, (peek s :: ts).
    split; [exact (sp_trans _ _ _ _ _ (sp_next _ W2) P1)|]. split; [|lia].
    unfold fin. rewrite (sp_end _ _ _ P1) by (eapply s_ne; eauto). rewrite (here_buf _ B). eapply S_prefix; eauto using simple_updatable.
  - okb H a s1 E. destruct (v_lhs _ I _ _ _ _ E) as (n & ts & P1 & P2 & P3).
    destruct (negb (t_atl (peek s1)) && (at_tok T_INC s1 || at_tok T_DEC s1)) eqn:Q.
    + destruct (negb (is_simple k true true false a)) eqn:U; [discriminate|]. apply Bool.negb_false_iff in U. injection H as <- <-.
      apply Bool.andb_true_iff in Q as [Q1 Q2]. apply Bool.negb_true_iff in Q1.
      assert (W : (t_val (peek s1) = T_INC \/ t_val (peek s1) = T_DEC) /\ pval s1 <> T_EOF).
      { apply Bool.orb_true_iff in Q2 as [Q|Q]; unfold pval; rewrite (at_val _ _ Q); split; auto; discriminate. }
      destruct W as [W1 W2]. exists 5, (ts ++ [peek s1]).
      split; [exact (sp_trans _ _ _ _ _ P1 (sp_next _ W2))|]. split; [|lia].
      unfold fin. rewrite (here_buf _ B). change (t_lo (peek s)) with (t_lo (peek (peeked s))).
      rewrite (sp_first _ _ _ P1) by (eapply s_ne; eauto). cbn [p_end]. rewrite end_next. eapply S_postfix; eauto using simple_updatable.
    + injection H as <- <-. exists n, ts. split; [exact P1|]. split; [exact P2|lia].
Qed.
Lemma lhs_step : forall k s e s', lhs_b rc k s = POk e s' -> exists n ts, sp s ts s' /\ spell false n e ts /\ 6 <= n <= 9.
Proof.
  intros k s e s' H. unfold lhs_b in H. okb H a s1 E.
  assert (J : exists n ts, sp s ts s1 /\ spell false n a ts /\ 6 <= n <= 9 /\ (7 <= n \/ stp s1)).
  { destruct (at_tok T_NEW s) eqn:N.
    - destruct (v_new _ I _ _ _ _ E eq_refl N) as (n & ts & P1 & P2 & P3 & P4 & _). exists n, ts; auto.
    - okb E x s2 E0. injection E as <- <-. destruct x as [a o].
      destruct (v_call_none _ I _ _ _ _ _ E0 eq_refl) as (n & ts & P1 & P2 & P3 & P4). exists n, ts; auto. }
  destruct J as (n & ts & P1 & P2 & P3 & P4). destruct (at_tok T_DOT s1) eqn:D.
  - destruct P4 as [P4|[(_ & P4 & _) _]]; [|congruence]. okb H x s2 E0. injection H as <- <-. destruct x as [b o].
    destruct (v_call_some _ I _ _ _ _ _ _ _ _ s ts n E0 P1 P2 P4 (proj2 P3)) as (n' & ts1 & Q1 & Q2 & Q3 & Q4 & _).
    exists n', (ts ++ ts1). split; [exact Q1|]. split; [exact Q2|]. unfold R in Q4. destruct o; [destruct Q4; lia|lia].
  - injection H as <- <-. exists n, ts; auto.
Qed.

Lemma subscript_step : forall k e opt s e' s', subscript_b rc k e opt s = POk e' s' -> at_tok T_BRACKET_L s = true ->
    exists m p l pts h, e' = EMember (lo e, t_hi h) e p true opt /\ sp s (l :: pts ++ [h]) s' /\ spell false m p pts /\ m <= 9 /\
      t_val l = T_BRACKET_L /\ t_val h = T_BRACKET_R.
Proof.
  intros k e opt s e' s' H A. unfold subscript_b in H. okb H p s1 E. okb H u s2 M. injection H as <- <-.
  apply must_ok in M as [M ->]. destruct (v_seq _ I _ _ _ _ E) as (n & ts & P1 & P2 & P3).
  exists n, p, (peek s), ts, (peek s1). split; [reflexivity|].
  split; [exact (sp_trans _ _ _ _ _ (at_read _ _ A eq_refl) (sp_snoc _ _ _ _ P1 M eq_refl))|].
  split; [exact P2|]. split; [exact P3|]. split; [exact (at_val _ _ A)|exact (at_val _ _ M)].
Qed.
Lemma arg_list_step : forall k check incall s args tr s', arg_list_b rc k check incall s = POk (args, tr) s' ->
    exists l ats h, sp s (l :: ats ++ [h]) s' /\ t_val l = T_PAREN_L /\ t_val h = T_PAREN_R /\ argspec args tr ats.
Proof.
  intros k check incall s args tr s' H. unfold arg_list_b in H. okb H u s1 M. apply must_ok in M as [M ->].
  destruct (v_arg_loop _ I _ _ _ _ _ _ _ _ _ (next s) [] H (sp_refl _)) as (ats & h & P1 & P2 & P3); [left; auto|].
  exists (peek s), ats, h. split; [exact (sp_trans _ _ _ _ _ (at_read _ _ M eq_refl) P1)|]. split; [exact (at_val _ _ M)|]. auto.
Qed.
Lemma arg_loop_step : forall k check incall acc trail s args tr s' s0 ts0, arg_loop_b text rc k check incall acc trail s = POk (args, tr) s' ->
    sp s0 ts0 s -> argpre acc trail ts0 s ->
    exists ats h, sp s0 (ats ++ [h]) s' /\ t_val h = T_PAREN_R /\ argspec args tr ats.
Proof.
  intros k check incall acc trail s args tr s' s0 ts0 H S A. unfold arg_loop_b in H. destruct (at_tok T_PAREN_R s) eqn:P.
  - injection H as <- <- <-. exists ts0, (peek s). split; [exact (sp_snoc _ _ _ _ S P eq_refl)|]. split; [exact (at_val _ _ P)|].
    destruct A as [A|[[_ A]|[A1 A2]]]; [left; auto|right; left; auto|right; right; split; [exact (A1 P)|exact A2]].
  - destruct (at_tok T_EOF s); [discriminate|]. okb H a s1 E. okb H t2 s2 E0. oka H u E1.
    assert (J : exists ts, sp s ts s1 /\ item false a ts).
    { destruct (at_tok T_DOT_TRI s) eqn:D.
      - destruct (v_spread _ I _ _ _ _ E eq_refl D) as (d & n & e1 & ts & comma & -> & Q1 & Q2 & Q3 & Q4).
        exists (d :: ts). split; [exact Q1|]. eapply I_spread; eauto.
      - destruct (v_assign _ I _ _ _ _ _ E) as (n & ts & Q1 & Q2 & Q3). exists ts. split; [exact Q1|]. econstructor; eauto. }
    destruct J as (ts & J1 & J2).
    assert (K : cargs (acc ++ [a]) (ts0 ++ ts)).
    { destruct A as [[-> ->]|[[A _]|[_ (ts1 & c & -> & C & A)]]]; [constructor; exact J2|congruence|].
      rewrite <- app_assoc; cbn [app]. apply cargs_snoc; assumption. }
    pose proof (sp_trans _ _ _ _ _ S J1) as S1.
    destruct (at_tok T_COMMA s1) eqn:C.
    + destruct (negb incall && is_spread_e a); [discriminate|]. injection E0 as <- <-.
      apply (v_arg_loop _ I _ _ _ _ _ _ _ _ _ s0 ((ts0 ++ ts) ++ [peek s1]) H (sp_snoc _ _ _ _ S1 C eq_refl)).
      right; right. split; [intros ->; apply Bool.orb_true_r|]. exists (ts0 ++ ts), (peek s1). split; [reflexivity|]. split; [exact (at_val _ _ C)|exact K].
    + destruct (at_tok T_PAREN_R s1) eqn:D; [|discriminate]. injection E0 as <- <-.
      apply (v_arg_loop _ I _ _ _ _ _ _ _ _ _ s0 (ts0 ++ ts) H S1). right; left. split; [exact D|exact K].
Qed.
Lemma spread_step' : forall k s e s', spread_b feat rc k s = POk e s' -> p_buf s = true -> at_tok T_DOT_TRI s = true ->
    exists d n e1 ts comma, e = ESpread (t_lo d, last_hi ts) e1 comma /\ sp s (d :: ts) s' /\ t_val d = T_DOT_TRI /\
      spell false n e1 ts /\ 1 <= n <= 9.
Proof.
  intros k s e s' H B A. unfold spread_b in H. destruct (negb (has feat FEAT_SPREAD)); [discriminate|].
  okb H a s1 E. injection H as <- <-. destruct (v_assign _ I _ _ _ _ _ E) as (n & ts & P1 & P2 & P3).
  exists (peek s), n, a, ts, (at_tok T_COMMA s1). unfold fin. rewrite (here_buf _ B), (sp_end _ _ _ P1) by (eapply s_ne; eauto).
  split; [reflexivity|]. split; [exact (sp_trans _ _ _ _ _ (at_read _ _ A eq_refl) P1)|]. split; [exact (at_val _ _ A)|]. auto.
Qed.
Lemma arrow_step : forall k l ps s e s', arrow_b block params_ok rc k l ps s = POk e s' -> at_tok T_ARROW s = true ->
    exists bts b, e = EArrow (l, last_hi bts) ps b /\ sp s (peek s :: bts) s' /\ body b bts.
Proof.
  intros k l ps s e s' H A. unfold arrow_b in H. cbv zeta in H. okb H b s1 E.
  destruct (params_ok _ _ _); [|discriminate]. injection H as <- <-.
  assert (J : exists bts, sp (next s) bts s1 /\ body b bts).
  { destruct (at_tok T_BRACE_L (peeked (next s))).
    - okb E r s2 E0. destruct (may_end (peek s2)); [|discriminate]. injection E as <- <-.
      destruct (block_reads _ _ _ _ E0) as (bts & P1 & P2). exists bts. split; [exact P1|]. constructor; exact P2.
    - destruct (v_assign _ I _ _ _ _ _ E) as (n & ts & P1 & P2 & P3). exists ts. split; [exact P1|]. econstructor; eauto. }
  destruct J as (bts & J1 & J2). exists bts, b. unfold fin. rewrite (sp_end _ _ _ J1) by (eapply b_ne; eauto).
  split; [reflexivity|]. split; [exact (sp_trans _ _ _ _ _ (at_read _ _ A eq_refl) J1)|exact J2].
Qed.
Lemma paren_step : forall k s e s', paren_b feat text chk rc k s = POk e s' -> p_buf s = true -> exists ts, sp s ts s' /\ spell false 9 e ts.
Proof.
  intros k s e s' H B. unfold paren_b in H. okb H a s1 E. destruct a as [args0 tr]. cbn [fst snd] in H.
  destruct (v_arg_list _ I _ _ _ _ _ _ _ E) as (l & ats & h & P1 & P2 & P3 & P4).
  destruct (args_to_params k feat (chk s1) text args0) as [args ps] eqn:C.
  assert (L : t_lo (peek s) = t_lo l) by (exact (sp_first _ _ _ P1 ltac:(discriminate))).
  assert (X : forall ps', ps = AOk ps' -> params_of ps' ats).
  { intros ps' ->. destruct P4 as [[-> ->]|[P4|(_ & ts1 & c & -> & Cc & P4)]].
    - unfold args_to_params in C. cbn in C. injection C as _ <-. constructor.
    - exact (proj1 (proj2 (cargs_conv _ _ _ _ P4 _ _ C) ps' eq_refl)).
    - exact (proj2 (proj2 (cargs_conv _ _ _ _ P4 _ _ C) ps' eq_refl) c Cc). }
  assert (H' : (if at_tok T_ARROW s1 && negb (t_atl (peek s1)) then alift ps (fun ps => c_arrow rc k (here s) ps (peeked s1))
      else if tr then PErr
      else if match args with [] => true | _ => false end then PErr
      else alift (each (check_arg k text false true) args) (fun _ => POk (add_seq (fin (here s) s1) args) (peeked s1))) = POk e s').
  { destruct ps; [exact H|exact H|discriminate]. }
  clear H. rename H' into H. destruct (at_tok T_ARROW s1 && negb (t_atl (peek s1))) eqn:W.
  - apply Bool.andb_true_iff in W as [W1 W2]. apply Bool.negb_true_iff in W2. oka H ps' Q.
    destruct (v_arrow _ I _ _ _ _ _ _ H W1) as (bts & b & -> & A1 & A2).
    exists (l :: ats ++ h :: peek s1 :: bts). split.
    + replace (l :: ats ++ h :: peek s1 :: bts) with ((l :: ats ++ [h]) ++ (peek s1 :: bts)) by (cbn; rewrite <- app_assoc; reflexivity).
      exact (sp_trans _ _ _ _ _ P1 A1).
    + rewrite (here_buf _ B), L. eapply S_arrow; eauto. exact (at_val _ _ W1).
  - destruct tr; [discriminate|]. destruct args as [|a0 args1] eqn:Ar; [discriminate|]. rewrite <- Ar in *. oka H u Q. injection H as <- <-.
    assert (P4' : cargs args0 ats).
    { destruct P4 as [[-> ->]|[P4|(P4 & _)]]; [|exact P4|discriminate]. unfold args_to_params in C. cbn in C. injection C as <- _. discriminate Ar. }
    destruct (cargs_conv _ _ _ _ P4' _ _ C) as [P5 _]. destruct u.
    pose proof (cargs_commas _ _ _ P5 Q) as CC. pose proof (cargs_last _ _ P5 _ Q) as LL.
    exists (l :: ats ++ [h]). split; [exact P1|]. unfold fin. rewrite (here_buf _ B), L, (sp_end _ _ _ P1) by discriminate.
    rewrite last_hi_cons by (intro Z; apply app_eq_nil in Z as [_ Z]; discriminate). rewrite last_hi_snoc.
    subst args. unfold add_seq. destruct args1 as [|a1 args1].
    + inversion CC; subst; [eapply S_paren; eauto; lia|]. match goal with Z : commas [] _ |- _ => inversion Z end.
    + eapply S_paren with (n := 0); eauto; [|lia]. rewrite (LL _). cbn [hd]. eapply (S_seq _ _ _ _ _ false (a0 :: a1 :: args1)); [exact CC|cbn; lia].
Qed.
Lemma elision_reads : forall fuel s holes s0, elision fuel s = (holes, s0) -> exists hts, sp s hts s0 /\
  forall l ts, elems false l ts -> elems false (holes ++ l) (hts ++ ts).
Proof.
  induction fuel as [|fuel IH]; intros s holes s0 H; cbn [elision] in H.
  - injection H as <- <-. exists []. split; [exact (sp_refl _)|auto].
  - destruct (at_tok T_COMMA s) eqn:C.
    + destruct (elision fuel (next s)) as [l1 s1] eqn:E. injection H as <- <-. destruct (IH _ _ _ E) as (hts & P1 & P2).
      exists (peek s :: hts). split; [exact (sp_trans _ _ _ _ _ (at_read _ _ C eq_refl) P1)|].
      intros l ts L. cbn [app]. constructor; [exact (at_val _ _ C)|auto].
    + injection H as <- <-. exists []. split; [exact (sp_refl _)|auto].
Qed.
Lemma arr_step : forall k l acc s e s' s0 ts0, arr_lit_b rc k l acc s = POk e s' -> sp s0 ts0 s ->
    (forall l' ts', elems false l' ts' -> elems false (acc ++ l') (ts0 ++ ts')) ->
    exists es ts h, e = EArr (l, t_hi h) es /\ sp s0 (ts ++ [h]) s' /\ elems false es ts /\ t_val h = T_BRACKET_R.
Proof.
  intros k l acc s e s' s0 ts0 H S A. unfold arr_lit_b in H. match type of H with context [elision ?f s] => destruct (elision f s) as [holes s1] eqn:E end.
  destruct (elision_reads _ _ _ _ E) as (hts & P1 & P2). cbv zeta in H. pose proof (sp_trans _ _ _ _ _ S P1) as S1.
  destruct (at_tok T_BRACKET_R s1) eqn:B.
  - injection H as <- <-. exists (acc ++ holes), (ts0 ++ hts), (peek s1). split; [reflexivity|].
    split; [exact (sp_snoc _ _ _ _ S1 B eq_refl)|]. split; [|exact (at_val _ _ B)].
    pose proof (A _ _ (P2 [] [] (L_nil _ _ _ _ _ _))) as Z. rewrite !app_nil_r in Z. exact Z.
  - okb H a s2 E0.
    assert (J : exists ts, sp s1 ts s2 /\ item false a ts).
    { destruct (at_tok T_DOT_TRI s1) eqn:D.
      - destruct (v_spread _ I _ _ _ _ E0 eq_refl D) as (d & n & e1 & ts & comma & -> & Q1 & Q2 & Q3 & Q4).
        exists (d :: ts). split; [exact Q1|]. eapply I_spread; eauto.
      - destruct (v_assign _ I _ _ _ _ _ E0) as (n & ts & Q1 & Q2 & Q3). exists ts. split; [exact Q1|]. econstructor; eauto. }
    destruct J as (ts & J1 & J2). pose proof (sp_trans _ _ _ _ _ S1 J1) as S2. destruct (at_tok T_COMMA s2) eqn:C.
    + apply (v_arr _ I _ _ _ _ _ _ s0 (((ts0 ++ hts) ++ ts) ++ [peek s2]) H (sp_snoc _ _ _ _ S2 C eq_refl)).
      intros l' ts' L. rewrite <- !app_assoc. cbn [app]. apply A, P2. constructor; [exact (at_val _ _ C)|exact J2|exact L].
    + destruct (at_tok T_BRACKET_R s2) eqn:D; [|discriminate]. injection H as <- <-.
      exists ((acc ++ holes) ++ [Some a]), ((ts0 ++ hts) ++ ts), (peek s2). split; [reflexivity|].
      split; [exact (sp_snoc _ _ _ _ S2 D eq_refl)|]. split; [|exact (at_val _ _ D)].
      rewrite <- !app_assoc. apply A, P2. constructor; exact J2.
Qed.
Lemma obj_step : forall k l acc s e s' s0 ts0, obj_lit_b rc k l acc s = POk e s' -> sp s0 ts0 s ->
    (forall l' ts', props false l' ts' -> props false (acc ++ l') (ts0 ++ ts')) ->
    exists es ts h, e = EObj (l, t_hi h) es /\ sp s0 (ts ++ [h]) s' /\ props false es ts /\ t_val h = T_BRACE_R.
Proof.
  intros k l acc s e s' s0 ts0 H S A. unfold obj_lit_b in H.
  destruct (at_tok T_BRACE_R s) eqn:B.
  - injection H as <- <-. exists acc, ts0, (peek s). split; [reflexivity|].
    split; [exact (sp_snoc _ _ _ _ S B eq_refl)|]. split; [|exact (at_val _ _ B)].
    pose proof (A [] [] (P_nil _ _ _ _ _ _)) as Z. rewrite !app_nil_r in Z. exact Z.
  - okb H a s2 E0. destruct (v_obj_prop _ I _ _ _ _ E0) as (ts & J1 & J2). pose proof (sp_trans _ _ _ _ _ S J1) as S2.
    destruct (at_tok T_COMMA s2) eqn:C.
    + apply (v_obj _ I _ _ _ _ _ _ s0 ((ts0 ++ ts) ++ [peek s2]) H (sp_snoc _ _ _ _ S2 C eq_refl)).
      intros l' ts' L. rewrite <- !app_assoc. cbn [app]. apply A. constructor; [exact (at_val _ _ C)|exact J2|exact L].
    + destruct (at_tok T_BRACE_R s2) eqn:D; [|discriminate]. injection H as <- <-.
      exists (acc ++ [a]), (ts0 ++ ts), (peek s2). split; [reflexivity|].
      split; [exact (sp_snoc _ _ _ _ S2 D eq_refl)|]. split; [|exact (at_val _ _ D)].
      apply A. constructor; exact J2.
Qed.
Lemma obj_prop_step : forall k s e s', obj_prop_b text method rc k s = POk e s' -> exists ts, sp s ts s' /\ prop_of false e ts.
Proof.
  intros k s e s' H. unfold obj_prop_b in H. destruct (at_tok T_DOT_TRI s) eqn:D.
  { destruct (v_spread _ I _ _ _ _ H eq_refl D) as (d & n & e1 & ts & comma & -> & Q1 & Q2 & Q3 & Q4).
    exists (d :: ts). split; [exact Q1|]. eapply P_spread; eauto. }
  destruct (method k s) as [x|] eqn:M.
  { unfold method_expr in H. okb H r s1 E. injection H as <- <-. subst x.
    destruct (method_reads _ _ _ _ M) as (ts & P1 & P2). exists ts. split; [exact P1|constructor; exact P2]. }
  cbv zeta in H. okb H x s1 E. destruct x as [key computed].
  assert (J : exists kts, sp s kts s1 /\ key_of false key computed kts /\ (computed = false -> is_name_e key = match key with EName _ _ _ _ => true | _ => false end)).
  { destruct (at_tok T_STRING s) eqn:A1; [|destruct (at_tok T_NUM s) eqn:A2; [|destruct (at_tok T_BRACKET_L s) eqn:A3]].
    - match type of E with (if ?b then _ else _) = _ => destruct b; [discriminate|] end. injection E as <- <- <-.
      exists [peek s]. split; [exact (at_read _ _ A1 eq_refl)|]. split; [constructor; left; exact (at_val _ _ A1)|reflexivity].
    - injection E as <- <- <-.
      exists [peek s]. split; [exact (at_read _ _ A2 eq_refl)|]. split; [constructor; right; exact (at_val _ _ A2)|reflexivity].
    - okb E a s2 E0. okb E u s3 E1. injection E as <- <- <-. apply must_ok in E1 as [E1 ->].
      destruct (v_assign _ I _ _ _ _ _ E0) as (n & ts & Q1 & Q2 & Q3). exists (peek s :: ts ++ [peek s2]).
      split; [exact (sp_trans _ _ _ _ _ (at_read _ _ A3 eq_refl) (sp_snoc _ _ _ _ Q1 E1 eq_refl))|].
      split; [|discriminate]. econstructor; eauto; [exact (at_val _ _ A3)|exact (at_val _ _ E1)].
    - destruct (can_be_key (peek s)) eqn:K; [|discriminate]. match type of E with (if ?b then _ else _) = _ => destruct b; [discriminate|] end.
      injection E as <- <- <-. exists [peek s]. split; [|split; [constructor; exact K|reflexivity]].
      apply sp_next. intro Q. unfold can_be_key in K. unfold pval in Q. rewrite Q in K. discriminate K. }
  destruct J as (kts & J1 & J2 & J3). pose proof (k_ne _ _ _ _ J2) as KN.
  assert (L : t_lo (peek s) = first_lo kts) by exact (sp_first _ _ _ J1 KN). rewrite L in H.
  destruct (at_tok T_COLON s1 || at_tok T_ASSIGN s1) eqn:C.
  - okb H v s2 E0. injection H as <- <-. destruct (v_assign _ I _ _ _ _ _ E0) as (n & ts & Q1 & Q2 & Q3).
    unfold fin. rewrite (sp_end _ _ _ Q1) by (eapply s_ne; eauto).
    assert (NE : pval s1 <> T_EOF).
    { intro Q. unfold at_tok in C. rewrite Q in C. discriminate C. }
    exists (kts ++ peek s1 :: ts). split; [exact (sp_trans _ _ _ _ _ J1 (sp_trans _ _ _ _ _ (sp_next _ NE) Q1))|].
    destruct (at_tok T_ASSIGN s1) eqn:G.
    + eapply P_init; eauto. exact (at_val _ _ G).
    + rewrite Bool.orb_false_r in C. eapply P_value; eauto. exact (at_val _ _ C).
  - destruct (at_tok T_PAREN_L s1 || computed) eqn:G; [discriminate|]. apply Bool.orb_false_iff in G as [_ ->].
    assert (P : e = EProp (fin (first_lo kts) s1) key (Some key) false true false /\ is_name_e key = true /\ s' = peeked s1 \/
       e = EProp (fin (first_lo kts) s1) key None false false false /\ is_name_e key = false /\ s' = peeked s1).
    { destruct key; try (injection H as <- <-; right; repeat split; reflexivity).
      match type of H with (if ?b then _ else _) = _ => destruct b; [discriminate|] end. injection H as <- <-. left; auto. }
    unfold fin in P. rewrite (sp_end _ _ _ J1 KN) in P. exists kts. destruct P as [(-> & P1 & ->)|(-> & P1 & ->)].
    + split; [exact J1|]. apply P_short; assumption.
    + split; [exact J1|]. apply P_lone; assumption.
Qed.
Lemma tpl_step : forall k tag s e s', tpl_b rc k tag s = POk e s' -> at_tok T_TPL_HEAD s = true ->
    exists es ts, e = ETpl (first_lo ts, last_hi ts) tag es /\ sp s ts s' /\ quasis es ts /\ t_val (hd tok0 ts) = T_TPL_HEAD /\
      match tag with Some c => is_chain_e c = false | None => True end.
Proof.
  intros k tag s e s' H A. unfold tpl_b in H.
  match type of H with (if ?b then _ else _) = _ => destruct b eqn:G; [discriminate|] end.
  destruct (v_tpl_loop _ I _ _ _ _ _ _ _ s [] H (sp_refl _)) as (es & ts & -> & P1 & P2); [auto|]. cbn [app] in *.
  pose proof (q_ne _ _ P2) as N. exists es, ts. rewrite (sp_first _ _ _ P1 N). split; [reflexivity|]. split; [exact P1|]. split; [exact P2|].
  split; [|destruct tag; auto]. rewrite (sp_hd _ _ _ _ P1 N). exact (at_val _ _ A).
Qed.
Lemma tpl_loop_step : forall k tag l acc s e s' s0 ts0, tpl_loop_b feat rc k tag l acc s = POk e s' -> sp s0 ts0 s ->
    (forall l' ts', quasis l' ts' -> quasis (acc ++ l') (ts0 ++ ts')) ->
    exists es ts, e = ETpl (l, last_hi (ts0 ++ ts)) tag es /\ sp s0 (ts0 ++ ts) s' /\ quasis es (ts0 ++ ts).
Proof.
  intros k tag l acc s e s' s0 ts0 H S A. unfold tpl_loop_b in H. cbv zeta in H.
  destruct (at_tok T_TPL_HEAD s || at_tok T_TPL_SPAN s || at_tok T_TPL_TAIL s) eqn:G; [|discriminate].
  assert (NE : pval s <> T_EOF) by (intro Q; unfold at_tok in G; rewrite Q in G; discriminate G).
  pose proof (sp_trans _ _ _ _ _ S (sp_next _ NE)) as S1.
  destruct (t_ext (peek s)) eqn:X; try discriminate. rename lo into a, hi into b.
  match type of H with (if ?b then _ else _) = _ => destruct b; [discriminate|] end.
  destruct (at_tok T_TPL_TAIL s || at_tok T_TPL_HEAD s && plain) eqn:E.
  - injection H as <- <-. exists (acc ++ [ELit (a, b) (peek s)]), [peek s]. unfold fin. rewrite (sp_end _ _ _ S1) by (intro Z; apply app_eq_nil in Z as [_ Z]; discriminate).
    split; [reflexivity|]. split; [exact S1|]. apply A. econstructor; [exact X|].
    apply Bool.orb_true_iff in E as [E|E]; [left; exact (at_val _ _ E)|]. apply Bool.andb_true_iff in E as [E E2]. right. split; [exact (at_val _ _ E)|exact E2].
  - okb H v s2 E0. destruct (v_seq _ I _ _ _ _ E0) as (n & ts & Q1 & Q2 & Q3).
    assert (QG : quasi_goes (peek s) plain).
    { apply Bool.orb_false_iff in E as [E1 E2]. rewrite E1, Bool.orb_false_r in G.
      apply Bool.orb_true_iff in G as [G|G]; [|left; exact (at_val _ _ G)]. right. split; [exact (at_val _ _ G)|]. rewrite G in E2. exact E2. }
    pose proof (sp_trans _ _ _ _ _ S1 Q1) as S2.
    destruct (v_tpl_loop _ I _ _ _ _ _ _ _ s0 _ H S2) as (es & ts2 & -> & P1 & P2).
    + intros l' ts' L. rewrite <- !app_assoc. cbn [app]. apply A. econstructor; eauto.
    + exists es, (peek s :: ts ++ ts2).
      replace (ts0 ++ peek s :: ts ++ ts2) with (((ts0 ++ [peek s]) ++ ts) ++ ts2) by (rewrite <- !app_assoc; reflexivity). auto.
Qed.
Lemma primary_step : forall k s e s', primary_b text chk other rc k s = POk e s' -> p_buf s = true -> exists n ts, sp s ts s' /\ spell false n e ts /\ first n e ts s'.
Proof.
  intros k s e s' H B. unfold primary_b in H. destruct (other k s) as [x|] eqn:O.
  { unfold other_expr in H. okb H e1 s1 E0. okb E0 r s2 E. injection E0 as <- <-. subst x.
    destruct (other_reads _ _ _ _ O) as (ts & P1 & P2).
    assert (P3 : spell false 9 (EOther r) ts) by (constructor; exact P2).
    destruct (fn_word s && at_tok T_PAREN_L s2) eqn:A.
    - apply Bool.andb_true_iff in A as [A A1]. okb H y s3 F. injection H as <- <-. destruct y as [e3 o3]. cbn [fst].
      destruct (v_call_some _ I _ _ _ _ _ _ _ _ _ _ _ F P1 P3) as (n & us & X1 & X2 & X3 & X4 & _); [lia|lia|]. exists n, (ts ++ us). split; [exact X1|]. split; [exact X2|]. right.
      split; [|split; [exact X3|unfold R in X4; destruct o3; [right; exact X4|left; exact X4]]].
      pose proof (s_ne _ _ _ _ P3) as TN. assert (TT : hd tok0 (ts ++ us) = peek s) by (destruct ts; [congruence|exact (sp_hd _ _ _ tok0 P1 TN)]). rewrite TT.
      unfold fn_word in A. apply Bool.orb_true_iff in A as [A|A]; [left; right; left; symmetry; exact (at_val _ _ A)|].
      apply Bool.andb_true_iff in A as [A _]. right. unfold is_name in A. repeat (apply Bool.andb_true_iff in A as [A ?]). split; [apply tv_eqb_spec; exact A|apply bytes_eqb_spec; assumption].
    - injection H as <- <-. exists 9, ts. split; [exact P1|]. split; [exact P3|left; reflexivity]. }
  enough (J : exists ts, sp s ts s' /\ spell false 9 e ts) by (destruct J as (ts & J1 & J2); exists 9, ts; split; [exact J1|split; [exact J2|left; reflexivity]]).
  cbv zeta in H.
  assert (N1 : forall v, t_val (peek s) = v -> tv_eqb v T_EOF = false -> sp s [peek s] (next s)).
  { intros v V E. apply sp_next. intros Q. unfold pval in Q. rewrite V in Q. rewrite Q in E. discriminate E. }
  destruct (t_val (peek s)) eqn:V; try discriminate H;
    try (injection H as <- <-; exists [peek s]; split; [exact (N1 _ eq_refl eq_refl)|apply S_lit; rewrite V; unfold literal; cbn; tauto]).
  all: match type of V with
  | _ = T_NAME =>
      match type of H with (if ?b then _ else _) = _ => destruct b; [discriminate|] end; injection H as <- <-;
      exists [peek s]; split; [exact (N1 _ eq_refl eq_refl)|]; apply S_name; exact V
  | _ = T_STRING =>
      match type of H with (if ?b then _ else _) = _ => destruct b; [discriminate|] end; injection H as <- <-;
      exists [peek s]; split; [exact (N1 _ eq_refl eq_refl)|]; apply S_lit; rewrite V; unfold literal; cbn; tauto
  | _ = T_SUPER =>
      match type of H with (if ?b then _ else _) = _ => destruct b; [discriminate|] end;
      match type of H with (if ?b then _ else _) = _ => destruct b; [discriminate|] end; injection H as <- <-;
      exists [peek s]; split; [exact (N1 _ eq_refl eq_refl)|]; apply S_lit; rewrite V; unfold literal; cbn; tauto
  | _ = T_PAREN_L => exact (v_paren _ I _ _ _ _ H B)
  | _ => idtac
  end.
  all: match type of V with
  | _ = T_BRACKET_L =>
      destruct (v_arr _ I _ _ _ _ _ _ (next s) [] H (sp_refl _)) as (es & ts & h & -> & P1 & P2 & P3); [auto|];
      exists (peek s :: ts ++ [h]); split; [exact (sp_trans _ _ _ _ _ (N1 _ eq_refl eq_refl) P1)|];
      rewrite (here_buf _ B); constructor; assumption
  | _ = T_BRACE_L =>
      destruct (v_obj _ I _ _ _ _ _ _ (next s) [] H (sp_refl _)) as (es & ts & h & -> & P1 & P2 & P3); [auto|];
      exists (peek s :: ts ++ [h]); split; [exact (sp_trans _ _ _ _ _ (N1 _ eq_refl eq_refl) P1)|];
      rewrite (here_buf _ B); constructor; assumption
  | _ = T_TPL_HEAD =>
      destruct (v_tpl _ I _ _ _ _ _ H) as (es & ts & -> & P1 & P2 & P3 & _); [unfold at_tok, pval; rewrite V; reflexivity|];
      exists ts; split; [exact P1|]; constructor; exact P2
  end.
Qed.

Lemma prop_dot_reads : forall s p s', prop_dot text s = POk p s' -> property_name (peek s) /\ sp s [peek s] s' /\ s' = next s /\
  p = EName (here s, t_hi (peek s)) (text (peek s)) (tv_eqb (t_val (peek s)) T_NAME_PVT) (is_kw (t_val (peek s))).
Proof.
  intros s p s' H. unfold prop_dot in H. cbv zeta in H.
  destruct (can_be_key (peek s) && negb (tv_eqb (t_val (peek s)) T_NUM) || tv_eqb (t_val (peek s)) T_NAME_PVT) eqn:E; [|discriminate].
  injection H as <- <-. split; [|split; [|split; reflexivity]].
  - apply Bool.orb_true_iff in E as [E|E]; [left|right; apply tv_eqb_spec; exact E].
    apply Bool.andb_true_iff in E as [E1 E2]. split; [exact E1|]. intro Q. rewrite Q in E2. discriminate E2.
  - apply sp_next. intro Q. unfold can_be_key in E. unfold pval in Q. rewrite Q in E. discriminate E.
Qed.
Lemma ten_plain : forall g e ts, spell g 10 e ts -> is_name_e e = false /\ is_chain_e e = false.
Proof. intros g e ts H. inversion H; subst; split; try reflexivity; lia. Qed.
Lemma ml_lo : forall n, 7 <= n <= 9 -> 7 <= member_level n <= 9 /\ (8 <= n -> 8 <= member_level n).
Proof. intros n N. assert (n = 7 \/ n = 8 \/ n = 9) as [->|[->| ->]] by lia; cbn; lia. Qed.
Lemma lo_in : forall e, In (lo e) (lefts e).
Proof. destruct e; cbn; auto. Qed.
Lemma first_app : forall ts us, ts <> [] -> first_lo (ts ++ us) = first_lo ts.
Proof. intros [|t ts] us N; [congruence|reflexivity]. Qed.

Lemma member_loop_step : forall k e opt s e' o s' s0 ts0 n, member_loop_b text rc k e opt s = POk (e', o) s' ->
    sp s0 ts0 s -> spell false n e ts0 -> 7 <= n \/ sp3 s ->
    match opt with None => n <= 9 | Some _ => n = 10 \/ n <= 9 /\ at_tok T_OPT_CHAIN s = true end ->
    exists n' ts1, sp s0 (ts0 ++ ts1) s' /\ spell false n' e' (ts0 ++ ts1) /\ sp3 s' /\ incl (lefts e) (lefts e') /\ (opt = None \/ o = opt) /\ (ordered (ts0 ++ ts1) -> lo e <= lo e') /\
      match o with None => n' <= 9 /\ (n' = n \/ 7 <= n' /\ (8 <= n -> 8 <= n')) | Some _ => n' = 10 end.
Proof.
  intros k e opt s e' o s' s0 ts0 n H S W N M. unfold member_loop_b in H. cbv zeta in H.
  destruct (at_tok T_OPT_CHAIN s) eqn:A.
  - assert (N7 : 7 <= n) by (destruct N as [N|(_ & _ & N)]; [exact N|congruence]).
    set (opt' := match opt with Some _ => opt | None => Some (t_lo (peek s), t_hi (peek s)) end) in *.
    assert (O : exists q, opt' = Some q) by (unfold opt'; destruct opt; eauto). destruct O as [q O].
    assert (OO : opt = None \/ opt' = opt) by (unfold opt'; destruct opt; auto).
    pose proof (sp_snoc _ _ _ _ S A eq_refl) as S1.
    assert (J : exists e1 us s2, c_member_loop rc k e1 opt' s2 = POk (e', o) s' /\ sp s0 (ts0 ++ us) s2 /\
      spell false 10 e1 (ts0 ++ us) /\ incl (lefts e) (lefts e1) /\ (ordered (ts0 ++ us) -> lo e <= lo e1)).
    { destruct (at_tok T_BRACKET_L (peeked (next s))) eqn:B; [|destruct (at_tok T_PAREN_L (peeked (next s))) eqn:C].
      - okb H e1 s2 E. destruct (v_subscript _ I _ _ _ _ _ _ E B) as (m & p & l & pts & h & -> & Q1 & Q2 & Q3 & Q4 & Q5).
        exists (EMember (lo e, t_hi h) e p true true), (peek s :: l :: pts ++ [h]), s2. split; [exact H|].
        split; [replace (ts0 ++ peek s :: l :: pts ++ [h]) with ((ts0 ++ [peek s]) ++ l :: pts ++ [h]) by (rewrite <- app_assoc; reflexivity);
          exact (sp_trans _ _ _ _ _ S1 Q1)|].
        split; [eapply S_opt_sub; eauto using at_val|]. split; [intros x X; right; exact X|intros _; apply le_n].
      - okb H x s2 E. destruct x as [e1 o1]. rewrite O in E. cbn [fst] in H.
        destruct (v_call_direct _ I _ _ _ _ _ _ _ s0 ts0 n (peek s) E S1 (at_val _ _ A) W N7 C) as (us & Q1 & Q2 & Q3 & Q4).
        exists e1, us, s2. auto.
      - okb H p s2 E. destruct (prop_dot_reads _ _ _ E) as (Q1 & Q2 & -> & ->).
        eexists; exists [peek s; peek (next s)], (next (peeked (next s))). split; [exact H|].
        split; [replace (ts0 ++ [peek s; peek (next s)]) with ((ts0 ++ [peek s]) ++ [peek (next s)]) by (rewrite <- app_assoc; reflexivity);
          exact (sp_trans _ _ _ _ _ S1 Q2)|].
        split; [eapply (S_opt_dot _ _ _ _ _ false n e ts0 (peek s) (peek (next s))); eauto using at_val|]. split; [intros x X; right; exact X|intros _; apply le_n]. }
    destruct J as (e1 & us & s2 & J1 & J2 & J3 & J4 & J9). clear H.
    destruct (v_member_loop _ I _ _ _ _ _ _ _ _ _ 10 J1 J2 J3) as (n' & us2 & X1 & X2 & X3 & X4 & X5 & X9 & X6); [left; lia|rewrite O; auto|].
    exists n', (us ++ us2). rewrite app_assoc. split; [exact X1|]. split; [exact X2|]. split; [exact X3|].
    split; [intros x X; apply X4, J4, X|].
    destruct X5 as [X5|X5]; [congruence|]. subst o. rewrite O in *. split; [destruct OO; auto|]. split; [|exact X6].
    intro Z. specialize (X9 Z). specialize (J9 (ordered_l _ _ Z)). lia.
  - assert (M' : match opt with Some _ => n = 10 | None => n <= 9 end) by (destruct opt; [destruct M as [M|[_ M]]; [exact M|congruence]|exact M]).
    assert (Go : 7 <= n -> forall e1 us s2, c_member_loop rc k e1 opt s2 = POk (e', o) s' -> sp s0 (ts0 ++ us) s2 ->
       spell false (member_level n) e1 (ts0 ++ us) -> incl (lefts e) (lefts e1) -> lo e1 = lo e ->
       exists n' ts1, sp s0 (ts0 ++ ts1) s' /\ spell false n' e' (ts0 ++ ts1) /\ sp3 s' /\ incl (lefts e) (lefts e') /\ (opt = None \/ o = opt) /\ (ordered (ts0 ++ ts1) -> lo e <= lo e') /\
         match o with None => n' <= 9 /\ (n' = n \/ 7 <= n' /\ (8 <= n -> 8 <= n')) | Some _ => n' = 10 end).
    { intros N7 e1 us s2 J1 J2 J3 J4 J9.
      assert (ML : match opt with None => 7 <= member_level n <= 9 /\ (8 <= n -> 8 <= member_level n) | Some _ => member_level n = 10 end).
      { destruct opt; [subst n; reflexivity|]. apply ml_lo; lia. }
      destruct (v_member_loop _ I _ _ _ _ _ _ _ _ _ _ J1 J2 J3) as (n' & us2 & X1 & X2 & X3 & X4 & X5 & X9 & X6);
        [left; destruct opt; lia|destruct opt; [left; exact ML|lia]|].
      exists n', (us ++ us2). rewrite app_assoc. split; [exact X1|]. split; [exact X2|]. split; [exact X3|].
      split; [intros x X; apply X4, J4, X|]. split; [exact X5|]. split; [rewrite <- J9; exact X9|].
      destruct o as [q|]; [exact X6|]. destruct opt; [destruct X5; discriminate|]. lia. }
    destruct (at_tok T_BRACKET_L s) eqn:B; [|destruct (at_tok T_DOT s) eqn:D].
    + okb H e1 s2 E. destruct (v_subscript _ I _ _ _ _ _ _ E B) as (m & p & l & pts & h & -> & Q1 & Q2 & Q3 & Q4 & Q5).
      assert (N7 : 7 <= n) by (destruct N as [N|(N & _ & _)]; [exact N|congruence]).
      apply (Go N7 _ (l :: pts ++ [h]) _ H (sp_trans _ _ _ _ _ S Q1)).
      * eapply S_sub; eauto.
      * intros x X; right; exact X.
      * reflexivity.
    + okb H p s2 E. destruct (prop_dot_reads _ _ _ E) as (Q1 & Q2 & -> & ->).
      assert (N7 : 7 <= n) by (destruct N as [N|(_ & N & _)]; [exact N|congruence]).
      apply (Go N7 _ [peek s; peek (next s)] _ H).
      * exact (sp_trans _ _ _ _ _ S (sp_trans _ _ _ _ _ (at_read _ _ D eq_refl) Q2)).
      * eapply (S_dot _ _ _ _ _ false n e ts0 (peek s) (peek (next s))); eauto using at_val.
      * intros x X; right; exact X.
      * reflexivity.
    + injection H as <- <- <-. exists n, []. rewrite app_nil_r. split; [exact S|]. split; [exact W|]. split; [split; [exact B|split; assumption]|].
      split; [intros x X; exact X|]. split; [right; reflexivity|]. split; [auto|]. destruct opt; [exact M'|]. auto.
Qed.
Lemma member_some_step : forall k c root opt s e o s' s0 ts0 n, member_expr_b rc k (Some c) true root opt s = POk (e, o) s' ->
    sp s0 ts0 s -> spell false n c ts0 -> 7 <= n ->
    match opt with None => n <= 9 | Some _ => n = 10 \/ n <= 9 /\ at_tok T_OPT_CHAIN s = true end ->
    exists n' ts1, sp s0 (ts0 ++ ts1) s' /\ spell false n' e (ts0 ++ ts1) /\ stp s' /\ R root o n' e /\ incl (lefts c) (lefts e) /\ (opt = None \/ o = opt) /\ (ordered (ts0 ++ ts1) -> lo c <= lo e).
Proof.
  intros k c root opt s e o s' s0 ts0 n H S W N M. unfold member_expr_b in H. cbn [pbind] in H. okb H x s2 E. destruct x as [e1 o1].
  destruct (v_member_loop _ I _ _ _ _ _ _ _ _ _ _ E S W) as (n1 & us & X1 & X2 & X3 & X4 & X5 & X9 & X6); [left; exact N|exact M|].
  destruct (super_private e1); [discriminate|]. cbn [andb] in H.
  assert (L : match o1 with None => 7 <= n1 <= 9 | Some _ => n1 = 10 end) by (destruct o1; [exact X6|lia]).
  destruct (at_tok T_PAREN_L s2) eqn:P.
  - destruct (v_call_some _ I _ _ _ _ _ _ _ _ s0 _ n1 H X1 X2) as (n2 & us2 & Y1 & Y2 & Y3 & Y4 & Y5 & Y6 & Y9); [destruct o1; lia|destruct o1; lia|].
    exists n2, (us ++ us2). rewrite app_assoc. split; [exact Y1|]. split; [exact Y2|]. split; [exact Y3|]. split; [exact Y4|].
    split; [intros x X; apply Y5, X4, X|]. split; [destruct X5 as [X5|X5]; [auto|]; subst o1; destruct Y6; auto|].
    intro Z. specialize (Y9 Z). specialize (X9 (ordered_l _ _ Z)). lia.
  - assert (St : stp s2) by (split; assumption). destruct o1 as [q|].
    + subst n1. destruct (ten_plain _ _ _ X2) as [NN NC]. rewrite NN in H. destruct root; cbn [andb negb] in H; injection H as <- <- <-.
      * exists 6, us. split; [exact X1|]. split; [constructor; exact X2|]. split; [exact St|]. split; [split; reflexivity|].
        split; [intros x X; right; exact (X4 x X)|]. split; [exact X5|exact X9].
      * exists 10, us. split; [exact X1|]. split; [exact X2|]. split; [exact St|]. split; [reflexivity|]. auto.
    + injection H as <- <- <-. exists n1, us. split; [exact X1|]. split; [exact X2|]. split; [exact St|]. split; [exact L|]. auto.
Qed.
Lemma member_none_step : forall k s e o s', member_expr_b rc k None false true None s = POk (e, o) s' ->
    exists n ts, sp s ts s' /\ spell false n e ts /\ sp3 s' /\
      (o = None -> 8 <= n <= 9 \/ 6 <= n <= 9 /\ leads (hd tok0 ts)).
Proof.
  intros k s e o s' H. unfold member_expr_b in H. okb H e1 s1 E.
  assert (J : exists n ts, sp s ts s1 /\ spell false n e1 ts /\ n <= 9 /\ (7 <= n \/ sp3 s1) /\ (8 <= n \/ 6 <= n /\ leads (hd tok0 ts))).
  { destruct (at_tok T_NEW s) eqn:A.
    - destruct (v_new _ I _ _ _ _ E eq_refl A) as (n & ts & P1 & P2 & P3 & P4 & P5). exists n, ts.
      split; [exact P1|]. split; [exact P2|]. split; [lia|]. split; [destruct P4 as [P4|[P4 _]]; auto|]. right; split; [lia|left; left; symmetry; exact P5].
    - okb E e2 s2 E2. destruct (v_primary _ I _ _ _ _ E2 eq_refl) as (m & ts & P1 & P2 & P3). pose proof (s_ne _ _ _ _ P2) as TN.
      destruct (at_tok T_TPL_HEAD s2) eqn:T.
      + destruct (v_tpl _ I _ _ _ _ _ E T) as (es & us & -> & Q1 & Q2 & Q3 & Q4).
        assert (M7 : 7 <= m <= 9) by (destruct P3 as [->|(_ & _ & [P3|[_ P3]])]; [lia|exact P3|congruence]). exists (member_level m), (ts ++ us).
        split; [exact (sp_trans _ _ _ _ _ P1 Q1)|]. split; [eapply S_tagged; eauto; lia|]. pose proof (ml_lo m M7) as ML. split; [lia|]. split; [left; lia|].
        destruct P3 as [->|(P3 & _)]; [left; cbn; lia|]. right. split; [lia|]. destruct ts; [congruence|exact P3].
      + injection E as <- <-. exists m, ts. split; [exact P1|]. split; [exact P2|].
        destruct P3 as [->|(P3 & [P4 _] & P5)]; [lia|]. split; [lia|]. split; [right; exact P4|]. right; split; [lia|exact P3]. }
  destruct J as (n & ts & J1 & J2 & J3 & J4 & J5). okb H x s2 E2. destruct x as [e2 o2].
  destruct (v_member_loop _ I _ _ _ _ _ _ _ _ _ _ E2 J1 J2 J4 J3) as (n1 & us & X1 & X2 & X3 & X4 & X5 & X9 & X6).
  destruct (super_private e2); [discriminate|]. cbn [andb] in H. destruct o2 as [q|].
  - subst n1. destruct (ten_plain _ _ _ X2) as [NN NC]. rewrite NN in H. cbn [negb] in H. injection H as <- <- <-.
    exists 6, (ts ++ us). split; [exact X1|]. split; [constructor; exact X2|]. split; [exact X3|discriminate].
  - injection H as <- <- <-. exists n1, (ts ++ us). split; [exact X1|]. split; [exact X2|]. split; [exact X3|]. intros _.
    destruct J5 as [J5|[J5 J6]]; [left; lia|]. right. split; [lia|].
    destruct ts; [destruct J6 as [[J6|[J6|[]]]|[J6 _]]; discriminate J6|exact J6].
Qed.
Lemma call_some_step : forall k c root opt s e o s' s0 ts0 n, call_expr_b rc k (Some c) root false opt s = POk (e, o) s' ->
    sp s0 ts0 s -> spell false n c ts0 -> 7 <= n -> match opt with None => n <= 9 | Some _ => n = 10 end ->
    exists n' ts1, sp s0 (ts0 ++ ts1) s' /\ spell false n' e (ts0 ++ ts1) /\ stp s' /\ R root o n' e /\ incl (lefts c) (lefts e) /\ (opt = None \/ o = opt) /\ (ordered (ts0 ++ ts1) -> lo c <= lo e).
Proof.
  intros k c root opt s e o s' s0 ts0 n H S W N M. unfold call_expr_b in H.
  apply (v_call_loop _ I _ _ _ _ _ _ _ _ _ _ _ _ _ H S W); [right; apply lo_in|intros _; apply le_n|left; exact N|discriminate|destruct opt; lia].
Qed.
Lemma call_none_step : forall k s e o s', call_expr_b rc k None true false None s = POk (e, o) s' -> p_buf s = true ->
    exists n ts, sp s ts s' /\ spell false n e ts /\ 6 <= n <= 9 /\ stp s'.
Proof.
  intros k s e o s' H B. unfold call_expr_b in H. okb H e1 s1 E. destruct (v_primary _ I _ _ _ _ E B) as (m & ts & P1 & P2 & P3).
  assert (M : 7 <= m <= 9 \/ m = 6 /\ stp s1 /\ is_chain_e e1 = true) by (destruct P3 as [->|(_ & P3 & [P4|[P4 P5]])]; [left; lia|left; exact P4|right; auto]).
  destruct M as [M|(-> & M1 & M2)].
  2: { destruct (v_call_stop _ I _ _ _ _ _ _ _ H M1 M2) as (-> & Q1 & Q2). exists 6, ts.
       split; [rewrite <- (app_nil_r ts); exact (sp_trans _ _ _ _ _ P1 Q1)|]. split; [exact P2|]. split; [lia|exact Q2]. }
  destruct (v_call_loop _ I _ _ _ _ _ _ _ _ _ _ _ _ _ H P1 P2) as (n & us & X1 & X2 & X3 & X4 & _).
  - left. rewrite (here_buf _ B). exact (sp_first _ _ _ P1 (s_ne _ _ _ _ P2)).
  - intro Z. rewrite (here_buf _ B). rewrite (sp_first _ _ _ P1 (s_ne _ _ _ _ P2)). apply (s_in _ _ _ _ P2 Z).
  - left; lia.
  - discriminate.
  - lia.
  - exists n, (ts ++ us). split; [exact X1|]. split; [exact X2|]. split; [|exact X3]. unfold R in X4. destruct o; [destruct X4; lia|lia].
Qed.
Lemma call_direct_step : forall k c q s e o s' s0 ts0 n d, call_expr_b rc k (Some c) false true (Some q) s = POk (e, o) s' ->
    sp s0 (ts0 ++ [d]) s -> t_val d = T_OPT_CHAIN -> spell false n c ts0 -> 7 <= n -> at_tok T_PAREN_L s = true ->
    exists ts1, sp s0 (ts0 ++ ts1) s' /\ spell false 10 e (ts0 ++ ts1) /\ incl (lefts c) (lefts e) /\ (ordered (ts0 ++ ts1) -> lo c <= lo e).
Proof.
  intros k c q s e o s' s0 ts0 n d H S D W N A. unfold call_expr_b in H.
  exact (v_call_here _ I _ _ _ _ _ _ _ _ _ _ _ _ H S D W N A eq_refl).
Qed.
Lemma call_here_step : forall k l c q s e o s' s0 ts0 n d, call_loop_b rc k l c false true (Some q) s = POk (e, o) s' ->
    sp s0 (ts0 ++ [d]) s -> t_val d = T_OPT_CHAIN -> spell false n c ts0 -> 7 <= n -> at_tok T_PAREN_L s = true -> l = lo c ->
    exists ts1, sp s0 (ts0 ++ ts1) s' /\ spell false 10 e (ts0 ++ ts1) /\ incl (lefts c) (lefts e) /\ (ordered (ts0 ++ ts1) -> lo c <= lo e).
Proof.
  intros k l c q s e o s' s0 ts0 n d H S D W N A L. unfold call_loop_b in H. rewrite A in H. okb H a s1 E. destruct a as [args tr]. cbn [fst] in H.
  destruct (negb (check_callee k c)); [discriminate|]. destruct (v_arg_list _ I _ _ _ _ _ _ _ E) as (p & ats & h & P1 & P2 & P3 & P4).
  assert (S1 : sp s0 (ts0 ++ d :: p :: ats ++ [h]) s1).
  { replace (ts0 ++ d :: p :: ats ++ [h]) with ((ts0 ++ [d]) ++ p :: ats ++ [h]) by (rewrite <- app_assoc; reflexivity).
    exact (sp_trans _ _ _ _ _ S P1). }
  assert (W1 : spell false 10 (ECall (fin l s1) c args true) (ts0 ++ d :: p :: ats ++ [h])).
  { unfold fin. rewrite (sp_end _ _ _ P1) by discriminate. rewrite last_hi_cons by (intro Z; apply app_eq_nil in Z as [_ Z]; discriminate).
    rewrite last_hi_snoc. eapply S_opt_call; eauto using argspec_args; [right; subst l; apply lo_in|subst l; auto]. }
  destruct (v_call_loop _ I _ _ _ _ _ _ _ _ _ _ _ _ _ H S1 W1) as (n' & us & X1 & X2 & X3 & X4 & X5 & X6 & X9).
  - right. left. reflexivity.
  - intros _. apply le_n.
  - left; lia.
  - auto.
  - auto.
  - destruct X6 as [X6|X6]; [discriminate|]. subst o. cbn in X4. subst n'. exists ((d :: p :: ats ++ [h]) ++ us). rewrite app_assoc.
    split; [exact X1|]. split; [exact X2|]. split; [intros x X; apply X5; right; exact X|]. subst l; exact X9.
Qed.
Lemma call_loop_step : forall k l c root direct opt s e o s' s0 ts0 n, call_loop_b rc k l c root direct opt s = POk (e, o) s' ->
    sp s0 ts0 s -> spell false n c ts0 -> l = first_lo ts0 \/ In l (lefts c) -> (ordered ts0 -> l <= lo c) ->
    7 <= n \/ n = 6 /\ stp s /\ root = true /\ is_chain_e c = true -> (direct = true -> n = 10 /\ root = false) ->
    match opt with None => 7 <= n <= 9 | Some _ => n = 10 \/ n = 6 end ->
    exists n' ts1, sp s0 (ts0 ++ ts1) s' /\ spell false n' e (ts0 ++ ts1) /\ stp s' /\ R root o n' e /\ incl (lefts c) (lefts e) /\ (opt = None \/ o = opt) /\ (ordered (ts0 ++ ts1) -> l <= lo e).
Proof.
  intros k l c root direct opt s e o s' s0 ts0 n H S W L L9 N D M. unfold call_loop_b in H. pose proof (s_ne _ _ _ _ W) as TN.
  assert (Go : forall c1 us s1 n1 opt1, c_call_loop rc k l c1 root direct opt1 s1 = POk (e, o) s' -> sp s0 (ts0 ++ us) s1 ->
    spell false n1 c1 (ts0 ++ us) -> incl (lefts c) (lefts c1) -> (ordered (ts0 ++ us) -> l <= lo c1) ->
    7 <= n1 \/ n1 = 6 /\ stp s1 /\ root = true /\ is_chain_e c1 = true -> (direct = true -> n1 = 10 /\ root = false) ->
    match opt1 with None => 7 <= n1 <= 9 | Some _ => n1 = 10 \/ n1 = 6 end -> (opt = None \/ opt1 = opt) ->
    exists n' ts1, sp s0 (ts0 ++ ts1) s' /\ spell false n' e (ts0 ++ ts1) /\ stp s' /\ R root o n' e /\ incl (lefts c) (lefts e) /\ (opt = None \/ o = opt) /\ (ordered (ts0 ++ ts1) -> l <= lo e)).
  { intros c1 us s1 n1 opt1 J1 J2 J3 J4 J9 J5 J6 J7 J8.
    destruct (v_call_loop _ I _ _ _ _ _ _ _ _ _ _ _ _ _ J1 J2 J3) as (n' & us2 & X1 & X2 & X3 & X4 & X5 & X6 & X9);
      [rewrite first_app by exact TN; destruct L as [L|L]; [left; exact L|right; apply J4, L]|exact J9|exact J5|exact J6|exact J7|].
    exists n', (us ++ us2). rewrite app_assoc. split; [exact X1|]. split; [exact X2|]. split; [exact X3|]. split; [exact X4|].
    split; [intros x X; apply X5, J4, X|]. split; [destruct J8 as [J8|J8]; [auto|subst opt1; exact X6]|exact X9]. }
  destruct (at_tok T_PAREN_L s) eqn:A; [|destruct (at_tok T_BRACKET_L s || at_tok T_DOT s || at_tok T_OPT_CHAIN s) eqn:B; [|destruct (at_tok T_TPL_HEAD s) eqn:T]].
  - assert (N7 : 7 <= n) by (destruct N as [N|(_ & [_ N] & _)]; [exact N|congruence]). okb H a s1 E. destruct a as [args tr]. cbn [fst] in H.
    destruct (negb (check_callee k c)); [discriminate|]. destruct (v_arg_list _ I _ _ _ _ _ _ _ E) as (p & ats & h & P1 & P2 & P3 & P4).
    pose proof (sp_trans _ _ _ _ _ S P1) as S1.
    assert (F : fin l s1 = (l, t_hi h)).
    { unfold fin. rewrite (sp_end _ _ _ P1) by discriminate. rewrite last_hi_cons by (intro Z; apply app_eq_nil in Z as [_ Z]; discriminate).
      rewrite last_hi_snoc. reflexivity. }
    rewrite F in H. destruct opt as [q|].
    + assert (n = 10) by (destruct M; lia). subst n.
      apply (Go _ (p :: ats ++ [h]) _ 10 _ H S1); [eapply S_chain_call; eauto using argspec_args|intros x X; right; exact X|intros _; apply le_n|left; lia|tauto|auto|auto].
    + assert (direct = false) by (destruct direct; [destruct (D eq_refl); lia|reflexivity]). subst direct.
      apply (Go _ (p :: ats ++ [h]) _ 7 _ H S1); [eapply S_call; eauto using argspec_args; lia|intros x X; right; exact X|intros _; apply le_n|left; lia|discriminate|lia|auto].
  - assert (N7 : 7 <= n).
    { destruct N as [N|(_ & [(Z1 & Z2 & Z3) _] & _)]; [exact N|]. rewrite Z1, Z2, Z3 in B. discriminate B. }
    okb H x s1 E. destruct x as [e1 o1]. cbn [fst snd] in H.
    destruct (v_member_some _ I _ _ _ _ _ _ _ _ s0 ts0 n E S W N7) as (n1 & us & X1 & X2 & X3 & X4 & X5 & X6 & X9); [destruct opt; [left|]; lia|].
    assert (OO : match opt with Some _ => opt | None => o1 end = o1) by (destruct opt; [destruct X6; congruence|reflexivity]). rewrite OO in H.
    assert (Dd : direct = true -> exists q, o1 = Some q).
    { intro Z. destruct (D Z) as [-> _]. destruct opt as [q|]; [destruct X6; [discriminate|eauto]|lia]. }
    apply (Go _ us _ n1 _ H X1 X2 X5).
    + intro Z. specialize (X9 Z). specialize (L9 (ordered_l _ _ Z)). lia.
    + unfold R in X4. destruct o1; [|left; lia]. destruct root; [right|left; lia]. destruct X4. auto.
    + intro Z. destruct (Dd Z) as [q ->]. destruct (D Z) as [_ ->]. cbn in X4. auto.
    + unfold R in X4. destruct o1; [|exact X4]. destruct root; [destruct X4; auto|auto].
    + destruct X6 as [X6|X6]; auto.
  - okb H c1 s1 E. destruct (v_tpl _ I _ _ _ _ _ E T) as (es & us & -> & P1 & P2 & P3 & P4).
    assert (N7 : 7 <= n) by (destruct N as [N|(_ & _ & _ & N)]; [exact N|congruence]).
    apply (Go _ us _ (member_level n) _ H (sp_trans _ _ _ _ _ S P1)).
    + econstructor; eauto.
    + intros x X; right; exact X.
    + intro Z. specialize (L9 (ordered_l _ _ Z)). pose proof (s_in _ _ _ _ W (ordered_l _ _ Z)). cbn [lo range fst].
      assert (UN : us <> []) by (intro U; subst us; discriminate P3). pose proof (ordered_mid _ _ Z TN UN). lia.
    + left. destruct opt; [destruct M as [-> | ->]; cbn; lia|]. pose proof (ml_lo n M); lia.
    + intro Z. destruct (D Z) as [-> ->]. auto.
    + destruct opt; [destruct M as [-> | ->]; [auto|lia]|]. pose proof (ml_lo n M); lia.
    + auto.
  - assert (St : stp s). { apply Bool.orb_false_iff in B as [B B3]. apply Bool.orb_false_iff in B as [B1 B2]. split; [split; [exact B1|split; assumption]|exact A]. }
    assert (Stay : forall n1 e1, spell false n1 e1 ts0 -> POk (e1, opt) (peeked s) = POk (e, o) s' -> R root opt n1 e1 -> incl (lefts c) (lefts e1) -> lo e1 = lo c ->
      exists n' ts1, sp s0 (ts0 ++ ts1) s' /\ spell false n' e (ts0 ++ ts1) /\ stp s' /\ R root o n' e /\ incl (lefts c) (lefts e) /\ (opt = None \/ o = opt) /\ (ordered (ts0 ++ ts1) -> l <= lo e)).
    { intros n1 e1 W1 Q R1 L1 L2. injection Q as <- <- <-. exists n1, []. rewrite app_nil_r. rewrite L2. split; [exact S|]. split; [exact W1|]. split; [exact St|]. auto 7. }
    destruct opt as [q|].
    + destruct N as [N|(-> & _ & -> & N)].
      * assert (n = 10) by (destruct M; lia). subst n. destruct (ten_plain _ _ _ W) as [NN NC]. rewrite NN, NC in H.
        destruct root; cbn [andb negb] in H.
        -- apply (Stay 6 _ (S_chain _ _ _ _ _ false _ _ W) H); [split; reflexivity|intros x X; right; exact X|reflexivity].
        -- apply (Stay 10 _ W H); [reflexivity|intros x X; exact X|reflexivity].
      * rewrite N in H. rewrite Bool.andb_false_r in H. apply (Stay 6 _ W H); [split; [reflexivity|exact N]|intros x X; exact X|reflexivity].
    + apply (Stay n _ W H); [exact M|intros x X; exact X|reflexivity].
Qed.
Lemma call_stop_step : forall k l c s e o s', call_loop_b rc k l c true false None s = POk (e, o) s' -> stp s -> is_chain_e c = true ->
    e = c /\ sp s [] s' /\ stp s'.
Proof.
  intros k l c s e o s' H S C. pose proof S as [(Z1 & Z2 & Z3) Z4]. unfold call_loop_b in H. rewrite Z1, Z2, Z3, Z4 in H. cbn [orb] in H.
  destruct (at_tok T_TPL_HEAD s) eqn:T.
  - okb H c1 s1 E. destruct (v_tpl _ I _ _ _ _ _ E T) as (es & us & _ & _ & _ & _ & P4). congruence.
  - injection H as <- <- <-. split; [reflexivity|]. split; [exact (sp_refl _)|exact S].
Qed.
Lemma new_loop_step : forall k e root opt s e' s' s0 ts0 n, new_loop_b rc k e root opt s = POk e' s' -> sp s0 ts0 s ->
    spell false n e ts0 -> 6 <= n <= 9 -> 7 <= n /\ root = true /\ opt = None \/ stp s ->
    exists n' ts1, sp s0 (ts0 ++ ts1) s' /\ spell false n' e' (ts0 ++ ts1) /\ 6 <= n' <= 9 /\ stp s'.
Proof.
  intros k e root opt s e' s' s0 ts0 n H S W N D. unfold new_loop_b in H. cbv zeta in H.
  assert (Go : forall e1 o us s1 n1 opt1, c_new_loop rc k e1 false opt1 s1 = POk e' s' -> sp s0 (ts0 ++ us) s1 -> spell false n1 e1 (ts0 ++ us) ->
     stp s1 -> R true o n1 e1 -> exists n' ts1, sp s0 (ts0 ++ ts1) s' /\ spell false n' e' (ts0 ++ ts1) /\ 6 <= n' <= 9 /\ stp s').
  { intros e1 o us s1 n1 opt1 J1 J2 J3 J4 J5.
    destruct (v_new_loop _ I _ _ _ _ _ _ _ _ _ _ J1 J2 J3) as (n' & us2 & X1 & X2 & X3 & X4); [unfold R in J5; destruct o; [destruct J5; lia|lia]|auto|].
    exists n', (us ++ us2). rewrite app_assoc. auto. }
  destruct (at_tok T_PAREN_L s) eqn:A; [|destruct (at_tok T_BRACKET_L s || at_tok T_DOT s || at_tok T_OPT_CHAIN s) eqn:B].
  - destruct D as [(D1 & -> & ->)|[_ D]]; [|congruence]. okb H x s1 E. destruct x as [e1 o1]. cbn [fst] in H.
    destruct (v_call_some _ I _ _ _ _ _ _ _ _ s0 ts0 n E S W D1 (proj2 N)) as (n1 & us & X1 & X2 & X3 & X4 & _).
    exact (Go _ _ _ _ _ _ H X1 X2 X3 X4).
  - destruct D as [(D1 & -> & ->)|[(Z1 & Z2 & Z3) D]]; [|rewrite Z1, Z2, Z3 in B; discriminate B]. okb H x s1 E. destruct x as [e1 o1]. cbn [fst] in H.
    destruct (v_member_some _ I _ _ _ _ _ _ _ _ s0 ts0 n E S W D1) as (n1 & us & X1 & X2 & X3 & X4 & _).
    { destruct (at_tok T_OPT_CHAIN s) eqn:C; [right; split; [lia|exact C]|lia]. }
    exact (Go _ _ _ _ _ _ H X1 X2 X3 X4).
  - injection H as <- <-. exists n, []. rewrite app_nil_r. split; [exact S|]. split; [exact W|]. split; [exact N|].
    apply Bool.orb_false_iff in B as [B B3]. apply Bool.orb_false_iff in B as [B1 B2]. split; [split; [exact B1|split; assumption]|exact A].
Qed.
Lemma new_step : forall k s e s', new_expr_b feat text rc k s = POk e s' -> p_buf s = true -> at_tok T_NEW s = true ->
    exists n ts, sp s ts s' /\ spell false n e ts /\ 6 <= n <= 9 /\ (7 <= n \/ stp s') /\ t_val (hd tok0 ts) = T_NEW.
Proof.
  intros k s e s' H B A. unfold new_expr_b in H. cbv zeta in H. pose proof (at_read _ _ A eq_refl) as S1.
  destruct (at_tok T_DOT (peeked (next s)) && has feat FEAT_META_PROPERTY) eqn:M.
  - apply Bool.andb_true_iff in M as [M _].
    match type of H with (if ?b then _ else _) = _ => destruct b eqn:G; [discriminate|] end. apply Bool.negb_false_iff in G.
    match type of H with (if ?b then _ else _) = _ => destruct b eqn:G2; [discriminate|] end. injection H as <- <-.
    apply Bool.orb_false_iff in G2 as [G2 _]. apply Bool.orb_false_iff in G2 as [_ G2]. apply Bool.negb_false_iff in G2. apply bytes_eqb_spec in G2.
    exists 9, [peek s; peek (next s); peek (next (next s))].
    assert (NE : pval (next (next s)) <> T_EOF).
    { intro Q. unfold at_tok, pval in G. unfold pval in Q. change (peek (next (peeked (next s)))) with (peek (next (next s))) in G. rewrite Q in G. discriminate G. }
    split; [exact (sp_trans _ _ _ _ _ S1 (sp_trans _ _ _ _ _ (at_read T_DOT (next s) M eq_refl) (sp_next _ NE)))|].
    split; [|split; [lia|split; [left; lia|exact (at_val _ _ A)]]]. unfold fin. rewrite (here_buf _ B). constructor; [exact (at_val _ _ A)|exact (at_val T_DOT _ M)|exact G2].
  - okb H x s2 E. destruct x as [c o]. destruct o; [discriminate|].
    destruct (v_member_none _ I _ _ _ _ _ E) as (m & cts & P1 & P2 & P3 & P4). specialize (P4 eq_refl). pose proof (s_ne _ _ _ _ P2) as CN.
    assert (P4' : 8 <= m <= 9 \/ 6 <= m <= 9 /\ leads (hd (peek s) cts)) by (destruct cts; [congruence|exact P4]).
    pose proof (sp_trans _ _ _ _ _ S1 P1) as S2. cbn [app] in S2. rewrite (here_buf _ B) in H.
    assert (Fin : forall e1 us s1 n1, c_new_loop rc k e1 true None s1 = POk e s' -> sp s (peek s :: us) s1 -> spell false n1 e1 (peek s :: us) ->
      6 <= n1 <= 9 -> 7 <= n1 \/ stp s1 ->
      exists n ts, sp s ts s' /\ spell false n e ts /\ 6 <= n <= 9 /\ (7 <= n \/ stp s') /\ t_val (hd tok0 ts) = T_NEW).
    { intros e1 us s1 n1 J1 J2 J3 J4 J5. destruct (v_new_loop _ I _ _ _ _ _ _ _ _ _ _ J1 J2 J3 J4) as (n' & us2 & X1 & X2 & X3 & X4); [destruct J5; auto|].
      exists n', ((peek s :: us) ++ us2). split; [exact X1|]. split; [exact X2|]. split; [exact X3|]. split; [auto|exact (at_val _ _ A)]. }
    destruct (at_tok T_PAREN_L s2) eqn:P.
    + okb H a s3 E1. destruct a as [args tr]. cbn [fst] in H. destruct (v_arg_list _ I _ _ _ _ _ _ _ E1) as (p & ats & h & Q1 & Q2 & Q3 & Q4).
      pose proof (sp_trans _ _ _ _ _ S2 Q1) as S3. cbn [app] in S3. okb H c1 s4 E2.
      assert (Plain : c1 = c -> (s4 = s3 \/ s4 = peeked s3) ->
        exists n ts, sp s ts s' /\ spell false n e ts /\ 6 <= n <= 9 /\ (7 <= n \/ stp s') /\ t_val (hd tok0 ts) = T_NEW).
      { intros -> Q. assert (S4 : sp s (peek s :: cts ++ p :: ats ++ [h]) s4) by (destruct Q as [-> | ->]; exact S3).
        apply (Fin _ _ _ 8 H S4); [|lia|left; lia]. unfold fin.
        assert (Z : p_end s4 = t_hi h).
        { rewrite (sp_end _ _ _ S4) by discriminate. rewrite last_hi_cons by (intro Z; apply app_eq_nil in Z as [_ Z]; discriminate).
          rewrite last_hi_mid, last_hi_cons by (intro Z; apply app_eq_nil in Z as [_ Z]; discriminate). apply last_hi_snoc. }
        rewrite Z. eapply S_new_args; eauto using argspec_args, at_val. }
      destruct args as [|a0 args]; [|injection E2 as -> <-; apply Plain; auto].
      destruct (at_tok T_TPL_HEAD s3) eqn:T; [|injection E2 as -> <-; apply Plain; auto]. clear Plain.
      destruct (v_tpl _ I _ _ _ _ _ E2 T) as (es & tts & -> & T1 & T2 & T3 & _). pose proof (q_ne _ _ T2) as TN.
      assert (AN : ats = [] \/ exists c0, ats = [c0] /\ t_val c0 = T_COMMA).
      { destruct Q4 as [[_ Q4]|[Q4|(_ & ts1 & c0 & -> & C0 & Q4)]]; [auto|inversion Q4|inversion Q4]. }
      assert (ats = []) by (destruct AN as [AN|(c0 & AN & _)]; [exact AN|]; destruct Q4 as [[_ Q4]|[Q4|(_ & ts1 & c1 & Q5 & C0 & Q4)]]; [congruence|inversion Q4|inversion Q4]).
      subst ats. cbn [app] in *.
      assert (S4 : sp s (peek s :: cts ++ p :: h :: tts) s4).
      { replace (peek s :: cts ++ p :: h :: tts) with ((peek s :: cts ++ [p; h]) ++ tts) by (cbn; rewrite <- app_assoc; reflexivity).
        exact (sp_trans _ _ _ _ _ S3 T1). }
      apply (Fin _ _ _ 8 H S4); [|lia|left; lia]. unfold fin.
      assert (Z : p_end s4 = last_hi tts) by exact (sp_end _ _ _ T1 TN). rewrite Z.
      eapply S_new_tpl; eauto using at_val. destruct tts; [congruence|exact T3].
    + apply (Fin _ cts _ 6 H S2); [|lia|right; split; [exact P3|exact P]].
      unfold fin. rewrite (sp_end _ _ _ P1 CN). eapply S_new; eauto using at_val.
Qed.
End Step.

Lemma inv_all : forall fuel, Inv (calls_at feat text chk other method block params_ok fuel).
Proof.
  induction fuel as [|fuel IH]; [constructor; cbn; intros; discriminate|].
  constructor; cbn [calls_at c_seq c_seq_loop c_assign c_yield_expr c_cond c_unary c_update c_lhs c_new_expr c_new_loop c_call_expr c_call_loop
    c_member_expr c_member_loop c_subscript c_arg_list c_arg_loop c_spread c_paren c_arrow c_arr_lit c_obj_lit c_obj_prop c_tpl c_tpl_loop c_primary].
  - exact (seq_step _ IH).
  - exact (seq_loop_step _ IH).
  - exact (assign_step _ IH).
  - exact (yield_step _ IH).
  - exact (cond_step _ IH).
  - exact (unary_step _ IH).
  - exact (update_step _ IH).
  - exact (lhs_step _ IH).
  - exact (new_step _ IH).
  - exact (new_loop_step _ IH).
  - exact (call_none_step _ IH).
  - exact (call_some_step _ IH).
  - exact (call_direct_step _ IH).
  - exact (call_loop_step _ IH).
  - exact (call_here_step _ IH).
  - exact (member_none_step _ IH).
  - exact (member_some_step _ IH).
  - exact (member_loop_step _ IH).
  - exact (subscript_step _ IH).
  - exact (arg_list_step _ IH).
  - exact (arg_loop_step _ IH).
  - exact (spread_step' _ IH).
  - exact (paren_step _ IH).
  - exact (arrow_step _ IH).
  - exact (arr_step _ IH).
  - exact (obj_step _ IH).
  - exact (obj_prop_step _ IH).
  - exact (tpl_step _ IH).
  - exact (tpl_loop_step _ IH).
  - exact (call_stop_step _ IH).
  - exact (primary_step _ IH).
Qed.
End Reads.
