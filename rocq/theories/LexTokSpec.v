(** Specification of punctuators, names, numbers, regular expressions and templates, on decoded
    characters, independent of the scanners. *)
From Verif Require Import Base Utf8Model SourceModel TokenModel.
Local Open Scope Z_scope.

Definition chars (s : bytes) : list rune := map b2z s.
Definition digit (c : rune) : Prop := 48 <= c <= 57.

(** ** Punctuators (ECMA-262 12.8, and the at sign of decorators) *)

Definition punctuators : list (list rune * tv) :=
  map (fun p => (chars (fst p), snd p))
  [(bs "{", T_BRACE_L); (bs "}", T_BRACE_R); (bs "(", T_PAREN_L); (bs ")", T_PAREN_R); (bs "[", T_BRACKET_L); (bs "]", T_BRACKET_R);
   (bs ".", T_DOT); (bs "...", T_DOT_TRI); (bs ";", T_SEMI); (bs ",", T_COMMA);
   (bs "<", T_LT); (bs ">", T_GT); (bs "<=", T_LTE); (bs ">=", T_GTE);
   (bs "==", T_EQ); (bs "!=", T_NE); (bs "===", T_EQ_S); (bs "!==", T_NE_S);
   (bs "+", T_ADD); (bs "-", T_SUB); (bs "*", T_MUL); (bs "%", T_MOD); (bs "**", T_POW); (bs "++", T_INC); (bs "--", T_DEC);
   (bs "<<", T_LSH); (bs ">>", T_RSH); (bs ">>>", T_RSH_U); (bs "&", T_BIT_AND); (bs "|", T_BIT_OR); (bs "^", T_BIT_XOR);
   (bs "!", T_NOT); (bs "~", T_BIT_NOT); (bs "&&", T_AND); (bs "||", T_OR); (bs "??", T_NULLISH);
   (bs "?", T_HOOK); (bs "?.", T_OPT_CHAIN); (bs ":", T_COLON);
   (bs "=", T_ASSIGN); (bs "+=", T_ASSIGN_ADD); (bs "-=", T_ASSIGN_SUB); (bs "*=", T_ASSIGN_MUL); (bs "%=", T_ASSIGN_MOD);
   (bs "**=", T_ASSIGN_POW); (bs "<<=", T_ASSIGN_BIT_LSH); (bs ">>=", T_ASSIGN_BIT_RSH); (bs ">>>=", T_ASSIGN_BIT_RSH_U);
   (bs "&=", T_ASSIGN_BIT_AND); (bs "|=", T_ASSIGN_BIT_OR); (bs "^=", T_ASSIGN_BIT_XOR);
   (bs "&&=", T_ASSIGN_AND); (bs "||=", T_ASSIGN_OR); (bs "??=", T_ASSIGN_NULLISH); (bs "=>", T_ARROW);
   (bs "/", T_DIV); (bs "/=", T_ASSIGN_DIV); (bs "@", T_AT)].

(** [punct_at p v after]: [p], followed by [after], is the punctuator [v]; the optional chaining
    punctuator may not be followed by a digit. *)
Definition punct_at (p : list rune) (v : tv) (after : list rune) : Prop :=
  In (p, v) punctuators /\ (v = T_OPT_CHAIN -> ~ digit (hd 0 after)).
(** [p], followed by [after], is the longest punctuator at the front of [p ++ after]. *)
Definition longest_punct (p : list rune) (v : tv) (after : list rune) : Prop :=
  punct_at p v after /\
  forall p' v' after', p' ++ after' = p ++ after -> punct_at p' v' after' -> (length p' <= length p)%nat.

(** ** Names (ECMA-262 12.7)
    [st], [lo], [pt]: the tables of Unicode letters the lexer is built with. *)

Section Names.
Variables (st_tab lo_tab pt_tab : rune -> bool).
Definition ident_start (c : rune) : Prop :=
  97 <= c <= 122 \/ 65 <= c <= 90 \/ c = 36 \/ c = 95 \/ st_tab c = true \/ (lo_tab c = true /\ c <= 178205).
Definition ident_part (c : rune) : Prop := ident_start c \/ digit c \/ c = 8204 \/ c = 8205 \/ pt_tab c = true.
End Names.

(** One element of a name: a character, or a unicode escape. *)
Inductive name_item := NChar (c : rune) | NEsc4 (ds : list rune) (r : rune) | NEscB (ds : list rune) (r : rune).
Definition item_text (i : name_item) : list rune :=
  match i with NChar c => [c] | NEsc4 ds _ => 92 :: 117 :: ds | NEscB ds _ => 92 :: 117 :: 123 :: ds ++ [125] end.
Definition item_value (i : name_item) : rune := match i with NChar c => c | NEsc4 _ r | NEscB _ r => r end.
Definition item_escaped (i : name_item) : bool := match i with NChar _ => false | _ => true end.

(** The words the language reserves everywhere, except const, in, await and yield (see C22). *)
Definition reserved_words : list bytes :=
  [bs "break"; bs "case"; bs "catch"; bs "class"; bs "continue"; bs "debugger"; bs "default"; bs "delete"; bs "do"; bs "else";
   bs "enum"; bs "export"; bs "extends"; bs "false"; bs "finally"; bs "for"; bs "function"; bs "if"; bs "import"; bs "instanceof";
   bs "new"; bs "null"; bs "return"; bs "super"; bs "switch"; bs "this"; bs "throw"; bs "true"; bs "try"; bs "typeof"; bs "var";
   bs "void"; bs "while"; bs "with"].
