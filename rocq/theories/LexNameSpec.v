(** Specification of names: their elements, with the tables of Unicode letters the lexer is built with. *)
From Verif Require Import Base Utf8Model SourceModel TokenModel LexModel LexSpec LexTokSpec.
Local Open Scope Z_scope.

Section Name.
Variable U : uni.
Definition i_start (c : rune) : Prop := ident_start (u_start U) (u_lo U) c.
Definition i_part (c : rune) : Prop := ident_part (u_start U) (u_lo U) (u_part U) c.

(** Well-formed elements: every value an identifier character. *)
Definition item_good (first : bool) (i : name_item) : Prop :=
  (if first then i_start (item_value i) else i_part (item_value i)) /\ item_value i <> 92 /\
  match i with
  | NChar c => True
  | NEsc4 ds r => length ds = 4%nat /\ num_value 16 ds = Some r
  | NEscB ds r => ds <> [] /\ num_value 16 ds = Some r /\ r <= 1114111
  end.

(** What the lexer accepts as an element of a name: a braced escape may stand for anything, and an
    escape at the start for any identifier character. *)
Definition item_ok (first : bool) (i : name_item) : Prop :=
  match i with
  | NChar c => if first then i_start c else i_part c
  | NEsc4 ds r => length ds = 4%nat /\ num_value 16 ds = Some r /\ i_part r /\ r <> 92
  | NEscB ds r => ds <> [] /\ num_value 16 ds = Some r /\ r <= 1114111 /\ (first = false -> r <> 92)
  end.

End Name.
