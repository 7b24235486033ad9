(** Specification of regular expression literals (ECMA-262 12.9.5). *)
From Verif Require Import Base Utf8Model SourceModel TokenModel LexModel LexSpec.
Local Open Scope Z_scope.

Definition line_end (c : rune) : Prop := In c [10; 13; 8232; 8233].

(** RegularExpressionClassChars, RegularExpressionBody (without the condition on the first character). *)
Inductive re_class : list rune -> Prop :=
| rc_nil : re_class []
| rc_char : forall c r, ~ line_end c -> c <> 93 -> c <> 92 -> re_class r -> re_class (c :: r)
| rc_esc : forall c r, ~ line_end c -> re_class r -> re_class (92 :: c :: r).
Inductive re_body : list rune -> Prop :=
| rb_nil : re_body []
| rb_char : forall c r, ~ line_end c -> c <> 92 -> c <> 47 -> c <> 91 -> re_body r -> re_body (c :: r)
| rb_esc : forall c r, ~ line_end c -> re_body r -> re_body (92 :: c :: r)
| rb_class : forall cs r, re_class cs -> re_body r -> re_body (91 :: cs ++ 93 :: r).

(** The bodies the lexer accepts: [re_part sl d cls body] with [d] groups open and, when [cls], inside a
    class.  Groups are closed, every \u is complete, U+FFFD only follows a backslash; a slash may stand
    inside a group when [sl]. *)
Inductive re_part (sl : bool) : nat -> bool -> list rune -> Prop :=
| rp_end : re_part sl 0 false []
| rp_char : forall d (cls : bool) c r, ~ line_end c -> c <> 92 -> c <> 65533 ->
    (if cls then c <> 93 else c <> 91 /\ c <> 40 /\ c <> 41 /\ (c = 47 -> sl = true /\ d <> 0%nat)) -> re_part sl d cls r -> re_part sl d cls (c :: r)
| rp_esc : forall d cls c r, ~ line_end c -> c <> 117 -> re_part sl d cls r -> re_part sl d cls (92 :: c :: r)
| rp_uni : forall d cls ds v r, length ds = 4%nat -> num_value 16 ds = Some v -> re_part sl d cls r -> re_part sl d cls (92 :: 117 :: ds ++ r)
| rp_unib : forall d cls ds v r, ds <> [] -> num_value 16 ds = Some v -> v <= 1114111 -> re_part sl d cls r -> re_part sl d cls (92 :: 117 :: 123 :: ds ++ 125 :: r)
| rp_open : forall d r, re_part sl (S d) false r -> re_part sl d false (40 :: r)
| rp_close : forall d r, re_part sl d false r -> re_part sl (S d) false (41 :: r)
| rp_class : forall d r, re_part sl d true r -> re_part sl d false (91 :: r)
| rp_unclass : forall d r, re_part sl d false r -> re_part sl d true (93 :: r).
