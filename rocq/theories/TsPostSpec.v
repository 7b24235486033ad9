(** How names with dots and brackets after a type are written, and what they stand for. *)
From Verif Require Import Base TokenModel LexModel ParseBase ExprModel TsPostModel.

(** The names of a name with dots, from left to right. *)
Fixpoint names_of {I} (t : tname I) : list I := match t with NOne i => [i] | NDot ns i => names_of ns ++ [i] end.
(** What stands in brackets after a type, from left to right: nothing or a type. *)
Fixpoint brackets_of {B T} (t : ptyp B T) : list (option T) :=
  match t with POne _ => [] | PArr t => brackets_of t ++ [None] | PIdx t i => brackets_of t ++ [Some i] end.
Fixpoint root {B T} (t : ptyp B T) : B := match t with POne b => b | PArr t | PIdx t _ => root t end.

Section Spec.
Variables (I : Type) (ident : pst -> pres I) (T : Type) (typ : pst -> pres T).
(** Names after dots; the last is not followed by a dot. *)
Inductive dots : pst -> list I -> pst -> Prop :=
| D_end s : at_tok T_DOT s = false -> dots s [] s
| D_more s i s1 l z : at_tok T_DOT s = true -> ident (next s) = POk i s1 -> dots s1 l z -> dots s (i :: l) z.
(** Brackets one after the other up to something that is no bracket; with [lines] they may begin on a new line. *)
Inductive brackets (lines : bool) : pst -> list (option T) -> pst -> Prop :=
| B_end s : at_tok T_BRACKET_L s = false \/ lines = false /\ t_atl (peek s) = true -> brackets lines s [] s
| B_empty s l z : at_tok T_BRACKET_L s = true -> lines = true \/ t_atl (peek s) = false -> at_tok T_BRACKET_R (next s) = true ->
    brackets lines (next (next s)) l z -> brackets lines s (None :: l) z
| B_type s i s1 l z : at_tok T_BRACKET_L s = true -> lines = true \/ t_atl (peek s) = false -> at_tok T_BRACKET_R (next s) = false ->
    typ (next s) = POk i s1 -> at_tok T_BRACKET_R s1 = true -> brackets lines (next s1) l z -> brackets lines s (Some i :: l) z.
End Spec.
Arguments dots {I} _ _ _ _.
Arguments brackets {T} _ _ _ _ _.
