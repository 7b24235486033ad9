(** Specification of templates (ECMA-262 12.9.6): the text of a span and its value, and the nesting
    of braces and templates in a sequence of tokens. *)
From Verif Require Import Base Utf8Model SourceModel TokenModel LexModel LexSpec.
Local Open Scope Z_scope.

Definition is_digit_at (after : list rune) : bool := match after with c :: _ => (48 <=? c) && (c <=? 57) | [] => false end.

(** An escape allowed in a template: octal escapes are not, but for \0 ([null]). *)
Definition tpl_escape (null : bool) (es after : list rune) (r : rune) : Prop :=
  escape es after r /\ (octal_at es = false \/ (null = true /\ es = [48] /\ is_digit_at after = false)).

(** [tpl_body null after body v]: [body], followed by [after], is the inside of a template span, its
    value (TV) is [v]. *)
Inductive tpl_body (null : bool) (after : list rune) : list rune -> list rune -> Prop :=
| tb_nil : tpl_body null after [] []
| tb_char : forall c rs v, c <> 96 -> c <> 92 -> c <> 36 -> c <> 13 -> tpl_body null after rs v -> tpl_body null after (c :: rs) (c :: v)
| tb_dollar : forall rs v, hd 0 (rs ++ after) <> 123 -> tpl_body null after rs v -> tpl_body null after (36 :: rs) (36 :: v)
| tb_cr : forall rs v, hd 0 (rs ++ after) <> 10 -> tpl_body null after rs v -> tpl_body null after (13 :: rs) (10 :: v)
| tb_crlf : forall rs v, tpl_body null after rs v -> tpl_body null after (13 :: 10 :: rs) (10 :: v)
| tb_cont : forall cs rs v, line_continuation cs (rs ++ after) -> tpl_body null after rs v -> tpl_body null after (92 :: cs ++ rs) v
| tb_esc : forall es r rs v, tpl_escape null es (rs ++ after) r -> tpl_body null after rs v -> tpl_body null after (92 :: es ++ rs) (r :: v).

(** What ends a span: the closing backquote, or the opening of a substitution. *)
Definition tpl_close (last : bool) : list rune := if last then [96] else [36; 123].

(** ** Nesting *)

Inductive bracket := Brace | Tpl.
(** The brackets open after a token; [None]: the token does not match the innermost open bracket.  A
    closing brace where nothing is open leaves nothing open. *)
Definition nest (t : token) (st : list bracket) : option (list bracket) :=
  match t_val t with
  | T_BRACE_L => Some (Brace :: st)
  | T_BRACE_R => match st with Brace :: r => Some r | [] => Some [] | Tpl :: _ => None end
  | T_TPL_HEAD => match t_ext t with XTpl _ _ _ plain _ => Some (if plain then st else Tpl :: st) | _ => None end
  | T_TPL_SPAN => match st with Tpl :: _ => Some st | _ => None end
  | T_TPL_TAIL => match st with Tpl :: r => Some r | _ => None end
  | _ => Some st
  end.
Fixpoint nest_all (ts : list token) (st : list bracket) : option (list bracket) :=
  match ts with [] => Some st | t :: r => match nest t st with Some st' => nest_all r st' | None => None end end.
