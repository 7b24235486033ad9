(** What the text between JSX tags stands for, on the characters of the source. *)
From Verif Require Import Base Utf8Model SourceSpec.
Local Open Scope Z_scope.

(** The bytes of some characters. *)
Definition spell (l : list rune) : bytes := flat_map encode_rune l.

(** [&name;] *)
Definition reference (name : list rune) : list rune := 38 :: name ++ [59].

(** The value of JSX text, for a table of character references: line ends are LF, a reference the
    table knows stands for its characters, and everything else, a lone [&] included, for itself. *)
Inductive txt_value (entity : bytes -> option bytes) : list rune -> bytes -> Prop :=
| TV_nil : txt_value entity [] []
| TV_char : forall c b v, c <> 38 -> c <> 13 -> txt_value entity b v -> txt_value entity (c :: b) (encode_rune c ++ v)
| TV_crlf : forall b v, txt_value entity b v -> txt_value entity (13 :: 10 :: b) (encode_rune 10 ++ v)
| TV_cr : forall b v, hd 0 b <> 10 -> txt_value entity b v -> txt_value entity (13 :: b) (encode_rune 10 ++ v)
| TV_ref : forall name e b v, ~ In 59 name -> entity (spell (reference name)) = Some e ->
    txt_value entity b v -> txt_value entity (reference name ++ b) (e ++ v)
| TV_amp : forall b v, (forall name after, b = name ++ 59 :: after -> ~ In 59 name -> entity (spell (reference name)) = None) ->
    txt_value entity b v -> txt_value entity (38 :: b) (encode_rune 38 ++ v).

(** Text ends at a brace or a tag. *)
Definition txt_char (c : rune) : Prop := c <> 123 /\ c <> 60.
Definition txt_end (after : list rune) : Prop := match after with [] => True | c :: _ => c = 123 \/ c = 60 end.

(** The characters names of references are made of. *)
Definition name_char (c : rune) : Prop := c = 35 \/ 48 <= c <= 57 \/ 65 <= c <= 90 \/ 97 <= c <= 122.

(** Text with no [&] but that of at most one reference of the table. *)
Definition one_reference (entity : bytes -> option bytes) (body : list rune) : Prop :=
  ~ In 38 body \/
  exists a name e b, body = a ++ reference name ++ b /\ ~ In 38 a /\ ~ In 38 b
    /\ Forall name_char name /\ entity (spell (reference name)) = Some e.
