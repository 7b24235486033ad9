(** C53: imports and exports are read as they are spelled, and exports only at the top level. *)
From Coq Require Import Lia.
From Verif Require Import Base TokenModel LexModel ParseBase BinModel SymtabModel EarlyModel ExprModel ExprSpec ExprPlaces ExprReads ExprProps
  StmtModel StmtReads StmtSpec StmtTargets StmtProps FnModel FnSpec FnReads FnWorld FnPlaces FnProps.

(** ** What an import or an export is *)
Definition is_import (f : fnode) : Prop := match f with NImport _ _ _ => True | _ => False end.
Definition is_export (f : fnode) : Prop :=
  match f with NExport _ _ _ _ | NExportVar _ _ | NExportFn _ _ _ | NExportDefault _ _ => True | _ => False end.
(** The name an import binds. *)
Definition local (i : ispec) : expr := match i with IDefault _ l | INamespace _ l | INamed _ _ l => l end.
(** The name a part of an import is exported under by the module, if it is not the name it is bound to. *)
Definition renamed (i : ispec) : list expr := match i with INamed _ (Some e) _ => [e] | _ => [] end.
(** [e] is the word one of the tokens is, and spells. *)
Definition written (text : token -> bytes) (e : expr) (ts : list token) : Prop :=
  exists t kw, In t ts /\ e = EName (t_lo t, t_hi t) (text t) false kw /\ (ident_tok (t_val t) = true \/ is_kw (t_val t) = true).
(** The same of a word that can be a variable. *)
Definition bindable (text : token -> bytes) (e : expr) (ts : list token) : Prop :=
  exists t kw, In t ts /\ e = EName (t_lo t, t_hi t) (text t) false kw /\ ident_tok (t_val t) = true.
Definition module_name (e : expr) (ts : list token) : Prop := exists t, In t ts /\ t_val t = T_STRING /\ e = ELit (t_lo t, t_hi t) t.
(** What must hold of imports and exports: the module is a string that is written there; names bound and names given
    are written there; what is bound is no keyword, nor is what is exported without a module it comes from. *)
Definition module_ok (text : token -> bytes) (f : fnode) (ts : list token) : Prop :=
  match f with
  | NImport _ l src => Forall (fun i => bindable text (local i) ts /\ Forall (fun e => written text e ts) (renamed i)) l /\ module_name src ts
  | NExport _ all l src =>
      Forall (fun e => written text (e_local e) ts /\ Forall (fun e => written text e ts) (opt_list (e_id e))) l /\
      Forall (fun e => module_name e ts) (opt_list src) /\
      (src = None -> all = false /\ Forall (fun e => is_kw_e (e_local e) = false) l)
  | _ => True
  end.

Section Words.
Variables (text : token -> bytes) (Rest : sort -> rng -> list token -> Prop).
Notation names l ts := (Forall (fun i => bindable text (local i) ts /\ Forall (fun e => written text e ts) (renamed i)) l).
Notation outer l ts := (Forall (fun e => written text (e_local e) ts /\ Forall (fun e => written text e ts) (opt_list (e_id e))) l).

Lemma written_more : forall e ts us, incl ts us -> written text e ts -> written text e us.
Proof. intros e ts us I (t & kw & H & K). exists t, kw. auto. Qed.
Lemma bindable_more : forall e ts us, incl ts us -> bindable text e ts -> bindable text e us.
Proof. intros e ts us I (t & kw & H & K). exists t, kw. auto. Qed.
Lemma names_more : forall l ts us, incl ts us -> names l ts -> names l us.
Proof.
  intros l ts us I. apply Forall_impl. intros i [A B]. split; [eapply bindable_more; eassumption|].
  eapply Forall_impl; [|exact B]. intros e. apply written_more, I.
Qed.
Lemma outer_more : forall l ts us, incl ts us -> outer l ts -> outer l us.
Proof.
  intros l ts us I. apply Forall_impl. intros i [A B]. split; [eapply written_more; eassumption|].
  eapply Forall_impl; [|exact B]. intros e. apply written_more, I.
Qed.
Ltac inside := let x := fresh in let H := fresh in intros x H; do 3 (cbn [In app] in *; rewrite ?in_app_iff in * ); cbn [In] in *; tauto.
Lemma import_one_ok : forall i ts, import_one text i ts -> names [i] ts.
Proof.
  destruct 1 as [t T|t kw a u kw' T A U]; repeat constructor; cbn [local].
  - exists t, false. cbn. rewrite T. auto.
  - exists u, kw'. cbn. auto.
  - exists t, kw. cbn. split; [auto|]. split; [reflexivity|]. destruct T as [T|T]; [left; rewrite T; reflexivity|right; exact T].
Qed.
Lemma import_list_ok : forall l ts, import_list text l ts -> names l ts.
Proof.
  induction 1 as [|i ts c l ts' O C L IH]; [constructor|]. apply import_one_ok in O. apply Forall_app with (l1 := [i]). split.
  - eapply names_more; [|exact O]. inside.
  - eapply names_more; [|exact IH]. inside.
Qed.
Lemma import_part_ok : forall l ts, import_part text l ts -> names l ts.
Proof.
  destruct 1 as [l is ts h L H I|m a t kw M A E T].
  - eapply names_more; [|eapply import_list_ok; exact I]. inside.
  - repeat constructor; cbn [local]. exists t, kw. cbn. auto.
Qed.
Lemma import_head_ok : forall l ts, import_head text l ts -> names l ts.
Proof.
  destruct 1 as [t T|l ts P]; [|apply import_part_ok; exact P].
  repeat constructor; cbn [local]. exists t, false. cbn. rewrite T. auto.
Qed.
Lemma import_clause_ok : forall l ts, import_clause text l ts -> names l ts.
Proof.
  destruct 1 as [l ts H|l ts c l' ts' H C P]; [apply import_head_ok; exact H|]. apply Forall_app. split.
  - eapply names_more; [|eapply import_head_ok; exact H]. inside.
  - eapply names_more; [|eapply import_part_ok; exact P]. inside.
Qed.
Lemma word_written : forall t kw ts, any_word t -> In t ts -> written text (the_name text t kw) ts.
Proof.
  intros t kw ts T I. exists t, kw. split; [exact I|]. split; [reflexivity|]. destruct T as [T|T]; [left; rewrite T; reflexivity|right; exact T].
Qed.
Lemma export_one_ok : forall i ts, export_one text i ts -> outer [i] ts.
Proof.
  destruct 1 as [t kw T|t kw a u kw' T A E U]; repeat constructor; cbn [e_local e_id opt_list]; apply word_written; auto; cbn; auto.
Qed.
Lemma export_list_ok : forall l ts, export_list text l ts -> outer l ts.
Proof.
  induction 1 as [|e ts O|e ts c l ts' O C L IH]; [constructor|apply export_one_ok; exact O|]. apply export_one_ok in O. apply Forall_app with (l1 := [e]). split.
  - eapply outer_more; [|exact O]. inside.
  - eapply outer_more; [|exact IH]. inside.
Qed.
Lemma from_ok : forall v fts us, from_clause v fts -> incl fts us -> Forall (fun e => module_name e us) [v].
Proof. destruct 1 as [f s F S]. intros I. repeat constructor. exists s. split; [apply I; cbn; auto|auto]. Qed.
Lemma spelled_module : forall Other Method Block Decl loose q f ts nx, spelled text Other Method Block Decl Rest True loose q f ts nx -> module_ok text f ts.
Proof.
  destruct 1; cbn [module_ok]; try exact Logic.I.
  - split; [constructor|]. exists s. cbn. auto.
  - split; [eapply names_more; [|eapply import_clause_ok; eassumption]; inside|]. exists s. split; [|auto]. cbn. rewrite !in_app_iff. cbn. auto 6.
  - split; [eapply outer_more; [|eapply export_list_ok; eassumption]; inside|]. split; [constructor|auto].
  - split; [eapply outer_more; [|eapply export_list_ok; eassumption]; inside|]. split; [|discriminate]. eapply from_ok; [eassumption|inside].
  - split; [constructor|]. split; [|discriminate]. eapply from_ok; [eassumption|inside].
  - split; [|split; [|discriminate]].
    + repeat constructor. exists t, kw. cbn. auto 8.
    + eapply from_ok; [eassumption|inside].
Qed.
End Words.
Lemma at_other : forall v u s, at_tok u s = true -> v <> u -> at_tok v s = false.
Proof.
  intros v u s A N. unfold at_tok in *. apply tv_eqb_spec in A. rewrite A. destruct (tv_eqb u v) eqn:E; [|reflexivity].
  apply tv_eqb_spec in E. destruct (N (eq_sym E)).
Qed.

Section Claims.
Variables (feat : N) (text : token -> bytes) (chk : pst -> bool).
Variables (params_ok : N -> list expr -> pst -> bool) (names_ok : N -> list expr -> pst -> bool)
  (jump_ok : N -> stmt -> pst -> bool) (use_strict : token -> bool)
  (fn_ok : N -> option expr -> list expr -> stmt -> pst -> bool) (class_ok : N -> expr -> pst -> bool).
Variables (rest_async : bool -> N -> pst -> pres rng) (rest_other : N -> pst -> option (pres rng)).
Variable Rest : sort -> rng -> list token -> Prop.
Hypotheses (rest_fr : rest_framed Rest) (rest_ok : rest_read Rest rest_async rest_other).
Notation parse := (parse feat text chk params_ok names_ok jump_ok use_strict fn_ok class_ok rest_async rest_other).
Notation declaration depth := (w_decl (world_at feat text chk params_ok names_ok jump_ok use_strict fn_ok class_ok rest_async rest_other depth)).
Notation any := (fun (_ : fnode) (_ : list token) => True).
Notation program_of P n l ts nx := (stats text (functions_of text Rest True P n) (methods_of text Rest True P n) (blocks_of text Rest True P n)
  (decls_of text Rest True P n False) True False l ts nx).
(** The node [f] is spelled [ts] before [nx], and what it holds is spelled as its parts are. *)
Notation declared n f ts nx := (spelled text (functions_of text Rest True any n) (methods_of text Rest True any n) (blocks_of text Rest True any n)
  (decls_of text Rest True any n False) Rest True True ADecl f ts nx).
(** An import or export of a program that is accepted is as [module_ok] says, wherever it stands.
    Partial: what is not modelled is assumed, as for C39_functions_partial. *)
Theorem C53_modules_partial : forall n k s l s', parse n k s = POk l s' ->
  exists ts, p_toks s = ts ++ p_toks s' /\ program_of (module_ok text) n l ts (peek s').
Proof using rest_fr rest_ok.
  intros n k s l s' H.
  destruct (parse_reads feat text chk params_ok names_ok jump_ok use_strict fn_ok class_ok rest_async rest_other Rest rest_fr rest_ok
    (module_ok text) (fun _ _ _ _ _ _ _ _ _ _ _ _ _ S => spelled_module text Rest _ _ _ _ _ _ _ _ _ S) _ _ _ _ _ H) as (ts & (R & _) & E & S). exists ts; auto.
Qed.
(** A declaration that begins with import is an import, spelled as its node says.
    Partial: commas (C53_comma_refuted), parts (C53_parts_refuted) and the word from (C53_from_refuted). *)
Theorem C53_imports_partial : forall n k s r s', declaration n k s = Some (POk r s') -> at_tok T_IMPORT s = true ->
  exists m ts f, n = S m /\ p_toks s = ts ++ p_toks s' /\ nrange f = r /\ is_import f /\ declared m f ts (peek s').
Proof using rest_fr rest_ok.
  intros [|m] k s r s' H A; [discriminate H|]. cbn [world_at grow w_decl] in H. unfold decl_at in H.
  rewrite A, (at_other T_FUNC _ _ A), (at_other T_CLASS _ _ A) in H by discriminate.
  destruct (_ && _); [discriminate H|]. destruct (_ || _); [discriminate H|]. injection H as H. unfold top in H. okb H x s1 E.
  unfold to_range in E. okb E f s2 E0. injection E as <- <-. destruct (has k SPK_INTERIM); [discriminate H|]. injection H as <- <-.
  destruct (grow_import feat text chk params_ok names_ok jump_ok use_strict fn_ok class_ok rest_async rest_other Rest rest_fr rest_ok any (fun _ _ _ _ _ _ _ _ _ _ _ _ _ _ => I)
    m _ (world_reads feat text chk params_ok names_ok jump_ok use_strict fn_ok class_ok rest_async rest_other Rest rest_fr rest_ok any (fun _ _ _ _ _ _ _ _ _ _ _ _ _ _ => I) m) m
    _ _ _ _ E0 A) as (ts & (R & _) & S).
  exists m, ts, f. repeat split; auto. unfold import_dec in E0. cbv zeta in E0. okb E0 l s4 E1.
  repeat match type of E0 with (if ?b then _ else _) = _ => destruct b; try discriminate E0 end. okb E0 u s5 E2. injection E0 as <- <-. exact I.
Qed.
(** A declaration that begins with export is an export, spelled as its node says, and stands at the top level.
    Partial: the semicolon after what is exported by default (C53_semicolon_refuted). *)
Theorem C53_exports_partial : forall n k s r s', declaration n k s = Some (POk r s') -> at_tok T_EXPORT s = true ->
  has k SPK_GLOBAL = true /\ has k SPK_INTERIM = false /\
  exists m ts f, n = S m /\ p_toks s = ts ++ p_toks s' /\ nrange f = r /\ is_export f /\ declared m f ts (peek s').
Proof using rest_fr rest_ok.
  intros [|m] k s r s' H A; [discriminate H|]. cbn [world_at grow w_decl] in H. unfold decl_at in H.
  rewrite A, (at_other T_FUNC _ _ A), (at_other T_CLASS _ _ A), (at_other T_IMPORT _ _ A) in H by discriminate.
  injection H as H. unfold top in H. okb H x s1 E.
  unfold to_range in E. okb E f s2 E0. injection E as <- <-. destruct (has k SPK_INTERIM); [discriminate H|]. injection H as <- <-.
  destruct (grow_export feat text chk params_ok names_ok jump_ok use_strict fn_ok class_ok rest_async rest_other Rest rest_fr rest_ok any (fun _ _ _ _ _ _ _ _ _ _ _ _ _ _ => I)
    m _ (world_reads feat text chk params_ok names_ok jump_ok use_strict fn_ok class_ok rest_async rest_other Rest rest_fr rest_ok any (fun _ _ _ _ _ _ _ _ _ _ _ _ _ _ => I) m) m
    _ _ _ _ E0 A) as (ts & (R & _) & S).
  unfold export_dec in E0. destruct (negb _); [discriminate E0|]. okb E0 f1 s3 E. destruct (has k SPK_GLOBAL); [|discriminate E0]. injection E0 as -> ->.
  split; [reflexivity|]. split; [reflexivity|]. exists m, ts, f. repeat split; auto.
  unfold export_any in E. cbv zeta in E. unfold export_fn in E.
  repeat match type of E with
    | (if ?b then _ else _) = _ => destruct b; try discriminate E
    | (let '(_, _) := ?x in _) = _ => destruct x
    | match ?x with Some _ => _ | None => _ end = _ => destruct x
    | pbind _ _ = POk _ _ => let a := fresh "a" in let z := fresh "z" in let B := fresh "B" in okb E a z B
    end; try (injection E as <- <-; exact I).
Qed.
End Claims.
Print Assumptions C53_modules_partial.
Print Assumptions C53_imports_partial.
Print Assumptions C53_exports_partial.

(** The scope of a block, a function, an arrow function, a method and a class is not the top level, so no export stands
    in one. *)
Theorem C53_inner_scopes : forall k,
  (forall m, has m SPK_GLOBAL = false -> has (block_kind k m) SPK_GLOBAL = false) /\
  (forall async gen, has (fn_kind k async gen) SPK_GLOBAL = false) /\ has (arrow_kind k) SPK_GLOBAL = false /\
  (forall kind static async gen, has (method_kind k kind static async gen) SPK_GLOBAL = false) /\
  (forall super, has (class_kind k super) SPK_GLOBAL = false).
Proof.
  intros k. assert (F : forall (c : bool) m x, has m SPK_GLOBAL = false -> has (if c then N.lor x m else x) SPK_GLOBAL = has x SPK_GLOBAL).
  { intros c m x E. destruct c; [|reflexivity]. rewrite has_or, E. apply Bool.orb_false_r. }
  assert (E : forall fn arrow, has (entered_kind k fn arrow) SPK_GLOBAL = false).
  { intros fn arrow. unfold entered_kind. cbv zeta. destruct fn; cbn [negb orb].
    - destruct arrow; rewrite !F by reflexivity; reflexivity.
    - rewrite !F by reflexivity. reflexivity. }
  split; [|split; [|split; [|split]]]; intros.
  - unfold block_kind. rewrite has_or, E, H. reflexivity.
  - unfold fn_kind. cbv zeta. rewrite !F by reflexivity. apply E.
  - unfold arrow_kind. rewrite has_or, E. reflexivity.
  - unfold method_kind. cbv zeta. rewrite !F, has_or, E by reflexivity. reflexivity.
  - unfold class_kind. cbv zeta. rewrite F, has_or, E by reflexivity. reflexivity.
Qed.
Print Assumptions C53_inner_scopes.

(** ** Cases *)
Notation str x := (T_STRING, bs x, XStr 34 false, false).
Definition import_of (l : list (tv * bytes * ext * bool)) : pres fnode := import_dec t_text 40 SPK_GLOBAL (src l).
Definition export_of (l : list (tv * bytes * ext * bool)) : pres fnode :=
  in_earth export_dec (c_lhs (w_calls feats t_text (fun _ => true) (fun _ _ _ => true) 40 (earth 40)))
    (w_args feats t_text (fun _ => true) (fun _ _ _ => true) 40 (earth 40)) earth_body
    (fun kind => var_stmt feats t_text (w_asg feats t_text (fun _ => true) (fun _ _ _ => true) 40 (earth 40)) (fun _ _ _ => true) 40 kind false)
    (fun _ _ _ _ _ => true) (fun _ _ _ => true) (fun _ _ _ => PErr) 40 SPK_GLOBAL (src l).
(** [import a, {b as c, if as b} from "m"], [import * as a from "m"], [import "m"] *)
Example import_nodes :
  node_parsed (import_of [y T_IMPORT; A; y T_COMMA; y T_BRACE_L; B; w (bs "as"); C; y T_COMMA; (T_IF, bs "if", XNone, false); w (bs "as"); B; y T_BRACE_R; w (bs "from"); str "m"]) =
    Some (Sh (bs "import") [Sh (bs "default") [leaf "a"]; Sh (bs "name") [leaf "b"; leaf "c"]; Sh (bs "name") [leaf "if"; leaf "b"]; leaf "m"]) /\
  node_parsed (import_of [y T_IMPORT; y T_MUL; w (bs "as"); A; w (bs "from"); str "m"]) = Some (Sh (bs "import") [Sh (bs "*") [leaf "a"]; leaf "m"]) /\
  node_parsed (import_of [y T_IMPORT; str "m"]) = Some (Sh (bs "import") [leaf "m"]) /\
  node_parsed (import_of [y T_IMPORT; y T_BRACE_L; (T_IF, bs "if", XNone, false); y T_BRACE_R; w (bs "from"); str "m"]) = None.
Proof. vm_compute. auto. Qed.
(** [export {a as b, c}], [export {if} from "m"], [export {if}], [export * as a from "m"], [export let a], [export class a {}],
    [export default function () {}], [export function () {}], [export default a] *)
Example export_nodes :
  node_parsed (export_of [y T_EXPORT; y T_BRACE_L; A; w (bs "as"); B; y T_COMMA; C; y T_BRACE_R]) =
    Some (Sh (bs "export") [Sh (bs "name") [leaf "a"; leaf "b"]; Sh (bs "name") [leaf "c"; leaf "none"]; leaf "none"]) /\
  node_parsed (export_of [y T_EXPORT; y T_BRACE_L; (T_IF, bs "if", XNone, false); y T_BRACE_R; w (bs "from"); str "m"]) =
    Some (Sh (bs "export") [Sh (bs "name") [leaf "if"; leaf "none"]; leaf "m"]) /\
  node_parsed (export_of [y T_EXPORT; y T_BRACE_L; (T_IF, bs "if", XNone, false); y T_BRACE_R]) = None /\
  node_parsed (export_of [y T_EXPORT; y T_MUL; w (bs "as"); A; w (bs "from"); str "m"]) =
    Some (Sh (bs "export *") [Sh (bs "*") [leaf "a"; leaf "none"]; leaf "m"]) /\
  node_parsed (export_of ([y T_EXPORT; y T_CLASS; A] ++ braces)) = Some (Sh (bs "export") [Sh (bs "class") [leaf "a"; leaf "none"]]) /\
  node_parsed (export_of ([y T_EXPORT; y T_DEFAULT; y T_FUNC] ++ parens ++ braces)) = Some (Sh (bs "export default") [Sh (bs "function") [leaf "none"; empty]]) /\
  node_parsed (export_of ([y T_EXPORT; y T_FUNC] ++ parens ++ braces)) = None /\
  node_parsed (export_of [y T_EXPORT; y T_DEFAULT; A]) = Some (Sh (bs "export default") [leaf "a"]).
Proof. vm_compute. auto 12. Qed.
(** [import a from "m"; export default function () { return a }]: a program meets the hypotheses. *)
Definition sample_module : list (tv * bytes * ext * bool) :=
  [y T_IMPORT; A; w (bs "from"); str "m"; y T_SEMI; y T_EXPORT; y T_DEFAULT; y T_FUNC] ++ parens ++ [y T_BRACE_L; y T_RETURN; A; y T_BRACE_R].
Example module_accepted : accepted (all_of 40 SPK_GLOBAL sample_module) = true.
Proof. vm_compute; reflexivity. Qed.
(** [{ export {a} }] and [function f() { export {a} }] are rejected. *)
Example inner_rejected :
  accepted (all_of 40 SPK_GLOBAL [y T_BRACE_L; y T_EXPORT; y T_BRACE_L; A; y T_BRACE_R; y T_BRACE_R]) = false /\
  accepted (all_of 40 SPK_GLOBAL ([y T_FUNC; A] ++ parens ++ [y T_BRACE_L; y T_EXPORT; y T_BRACE_L; A; y T_BRACE_R; y T_BRACE_R])) = false.
Proof. vm_compute; auto. Qed.

(** ** Where the claims fail *)
(** [import {a b} from "m"] *)
Theorem C53_comma_refuted : node_parsed (import_of [y T_IMPORT; y T_BRACE_L; A; B; y T_BRACE_R; w (bs "from"); str "m"]) =
  Some (Sh (bs "import") [Sh (bs "name") [leaf "none"; leaf "a"]; Sh (bs "name") [leaf "none"; leaf "b"]; leaf "m"]).
Proof. vm_compute; reflexivity. Qed.
(** [import {a}, {b} from "m"] and [import * as a, * as b from "m"] *)
Theorem C53_parts_refuted :
  node_parsed (import_of [y T_IMPORT; y T_BRACE_L; A; y T_BRACE_R; y T_COMMA; y T_BRACE_L; B; y T_BRACE_R; w (bs "from"); str "m"]) =
    Some (Sh (bs "import") [Sh (bs "name") [leaf "none"; leaf "a"]; Sh (bs "name") [leaf "none"; leaf "b"]; leaf "m"]) /\
  node_parsed (import_of [y T_IMPORT; y T_MUL; w (bs "as"); A; y T_COMMA; y T_MUL; w (bs "as"); B; w (bs "from"); str "m"]) =
    Some (Sh (bs "import") [Sh (bs "*") [leaf "a"]; Sh (bs "*") [leaf "b"]; leaf "m"]).
Proof. vm_compute; auto. Qed.
(** [import a "m"] and [import from "m"] *)
Theorem C53_from_refuted :
  node_parsed (import_of [y T_IMPORT; A; str "m"]) = Some (Sh (bs "import") [Sh (bs "default") [leaf "a"]; leaf "m"]) /\
  node_parsed (import_of [y T_IMPORT; w (bs "from"); str "m"]) = Some (Sh (bs "import") [Sh (bs "default") [leaf "from"]; leaf "m"]).
Proof. vm_compute; auto. Qed.
(** [export default a b] on one line. *)
Theorem C53_semicolon_refuted : accepted (all_of 40 SPK_GLOBAL [y T_EXPORT; y T_DEFAULT; A; B]) = true.
Proof. vm_compute; reflexivity. Qed.
(** [{ import a from "m" }] and [function f() { import a from "m" }]: imports are not held to the top level. *)
Theorem C53_import_scope_refuted :
  accepted (all_of 40 SPK_GLOBAL [y T_BRACE_L; y T_IMPORT; A; w (bs "from"); str "m"; y T_BRACE_R]) = true /\
  accepted (all_of 40 SPK_GLOBAL ([y T_FUNC; A] ++ parens ++ [y T_BRACE_L; y T_IMPORT; A; w (bs "from"); str "m"; y T_BRACE_R])) = true.
Proof. vm_compute; auto. Qed.
(** [export * as default from "m"] is rejected, though it is an export. *)
Theorem C53_default_refuted : node_parsed (export_of [y T_EXPORT; y T_MUL; w (bs "as"); y T_DEFAULT; w (bs "from"); str "m"]) = None.
Proof. vm_compute; reflexivity. Qed.
(** [export async () => a] names nothing. *)
Theorem C53_arrow_refuted : node_parsed (export_of ([y T_EXPORT; w (bs "async")] ++ parens ++ [y T_ARROW; A])) = Some (Sh (bs "export") [Sh (bs "async =>") [leaf "a"]]).
Proof. vm_compute; reflexivity. Qed.
