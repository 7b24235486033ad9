(** Token values, token kinds and keyword tables.  Generated by tools/gen_tokens.py from
    ecma/parser/token.go and ecma/parser/feature.go. *)
From Verif Require Import Base.

(** ecma/parser/token.go:159-328 TokenValue. *)
Inductive tv :=
| T_ILLEGAL
| T_EOF
| T_COMMENT
| T_NULL
| T_TRUE
| T_FALSE
| T_NUM
| T_STRING
| T_TPL_HEAD
| T_TPL_SPAN
| T_TPL_TAIL
| T_NAME
| T_NAME_PVT
| T_KEYWORD_BEGIN
| T_BREAK
| T_CASE
| T_CATCH
| T_CLASS
| T_CONTINUE
| T_DEBUGGER
| T_DEFAULT
| T_DO
| T_ELSE
| T_ENUM
| T_EXPORT
| T_EXTENDS
| T_FINALLY
| T_FOR
| T_FUNC
| T_IF
| T_IMPORT
| T_NEW
| T_RETURN
| T_SUPER
| T_SWITCH
| T_THIS
| T_THROW
| T_TRY
| T_VAR
| T_WHILE
| T_WITH
| T_KEYWORD_END
| T_CTX_KEYWORD_BEGIN
| T_CTX_KEYWORD_STRICT_BEGIN
| T_LET
| T_CONST
| T_STATIC
| T_IMPLEMENTS
| T_INTERFACE
| T_PACKAGE
| T_PRIVATE
| T_PROTECTED
| T_PUBLIC
| T_YIELD
| T_CTX_KEYWORD_STRICT_END
| T_AS
| T_ASYNC
| T_AWAIT
| T_FROM
| T_GET
| T_META
| T_OF
| T_SET
| T_TARGET
| T_CTX_KEYWORD_END
| T_REGEXP
| T_BACK_QUOTE
| T_BRACE_L
| T_BRACE_R
| T_PAREN_L
| T_PAREN_R
| T_BRACKET_L
| T_BRACKET_R
| T_DOT
| T_DOT_TRI
| T_SEMI
| T_COMMA
| T_HOOK
| T_COLON
| T_INC
| T_DEC
| T_OPT_CHAIN
| T_ARROW
| T_BIN_OP_BEGIN
| T_NULLISH
| T_LT
| T_GT
| T_LTE
| T_GTE
| T_EQ
| T_NE
| T_EQ_S
| T_NE_S
| T_LSH
| T_RSH
| T_RSH_U
| T_BIT_OR
| T_BIT_XOR
| T_BIT_AND
| T_OR
| T_AND
| T_INSTANCE_OF
| T_IN
| T_ADD
| T_SUB
| T_MUL
| T_DIV
| T_MOD
| T_POW
| T_BIN_OP_END
| T_UNARY_OP_BEGIN
| T_TYPE_OF
| T_VOID
| T_DELETE
| T_NOT
| T_BIT_NOT
| T_UNARY_OP_END
| T_ASSIGN_BEGIN
| T_ASSIGN
| T_ASSIGN_ADD
| T_ASSIGN_SUB
| T_ASSIGN_NULLISH
| T_ASSIGN_OR
| T_ASSIGN_AND
| T_ASSIGN_BIT_OR
| T_ASSIGN_BIT_XOR
| T_ASSIGN_BIT_AND
| T_ASSIGN_BIT_LSH
| T_ASSIGN_BIT_RSH
| T_ASSIGN_BIT_RSH_U
| T_ASSIGN_MUL
| T_ASSIGN_DIV
| T_ASSIGN_MOD
| T_ASSIGN_POW
| T_ASSIGN_END
| T_JSX_TXT
| T_HYPHEN
| T_TS_AS
| T_TS_NO_NULL
| T_AT
| T_TOKEN_DEF_END
.

(** The integer value (iota) of a token value. *)
Definition tv_num (t : tv) : N :=
  match t with
  | T_ILLEGAL => 0
  | T_EOF => 1
  | T_COMMENT => 2
  | T_NULL => 3
  | T_TRUE => 4
  | T_FALSE => 5
  | T_NUM => 6
  | T_STRING => 7
  | T_TPL_HEAD => 8
  | T_TPL_SPAN => 9
  | T_TPL_TAIL => 10
  | T_NAME => 11
  | T_NAME_PVT => 12
  | T_KEYWORD_BEGIN => 13
  | T_BREAK => 14
  | T_CASE => 15
  | T_CATCH => 16
  | T_CLASS => 17
  | T_CONTINUE => 18
  | T_DEBUGGER => 19
  | T_DEFAULT => 20
  | T_DO => 21
  | T_ELSE => 22
  | T_ENUM => 23
  | T_EXPORT => 24
  | T_EXTENDS => 25
  | T_FINALLY => 26
  | T_FOR => 27
  | T_FUNC => 28
  | T_IF => 29
  | T_IMPORT => 30
  | T_NEW => 31
  | T_RETURN => 32
  | T_SUPER => 33
  | T_SWITCH => 34
  | T_THIS => 35
  | T_THROW => 36
  | T_TRY => 37
  | T_VAR => 38
  | T_WHILE => 39
  | T_WITH => 40
  | T_KEYWORD_END => 41
  | T_CTX_KEYWORD_BEGIN => 42
  | T_CTX_KEYWORD_STRICT_BEGIN => 43
  | T_LET => 44
  | T_CONST => 45
  | T_STATIC => 46
  | T_IMPLEMENTS => 47
  | T_INTERFACE => 48
  | T_PACKAGE => 49
  | T_PRIVATE => 50
  | T_PROTECTED => 51
  | T_PUBLIC => 52
  | T_YIELD => 53
  | T_CTX_KEYWORD_STRICT_END => 54
  | T_AS => 55
  | T_ASYNC => 56
  | T_AWAIT => 57
  | T_FROM => 58
  | T_GET => 59
  | T_META => 60
  | T_OF => 61
  | T_SET => 62
  | T_TARGET => 63
  | T_CTX_KEYWORD_END => 64
  | T_REGEXP => 65
  | T_BACK_QUOTE => 66
  | T_BRACE_L => 67
  | T_BRACE_R => 68
  | T_PAREN_L => 69
  | T_PAREN_R => 70
  | T_BRACKET_L => 71
  | T_BRACKET_R => 72
  | T_DOT => 73
  | T_DOT_TRI => 74
  | T_SEMI => 75
  | T_COMMA => 76
  | T_HOOK => 77
  | T_COLON => 78
  | T_INC => 79
  | T_DEC => 80
  | T_OPT_CHAIN => 81
  | T_ARROW => 82
  | T_BIN_OP_BEGIN => 83
  | T_NULLISH => 84
  | T_LT => 85
  | T_GT => 86
  | T_LTE => 87
  | T_GTE => 88
  | T_EQ => 89
  | T_NE => 90
  | T_EQ_S => 91
  | T_NE_S => 92
  | T_LSH => 93
  | T_RSH => 94
  | T_RSH_U => 95
  | T_BIT_OR => 96
  | T_BIT_XOR => 97
  | T_BIT_AND => 98
  | T_OR => 99
  | T_AND => 100
  | T_INSTANCE_OF => 101
  | T_IN => 102
  | T_ADD => 103
  | T_SUB => 104
  | T_MUL => 105
  | T_DIV => 106
  | T_MOD => 107
  | T_POW => 108
  | T_BIN_OP_END => 109
  | T_UNARY_OP_BEGIN => 110
  | T_TYPE_OF => 111
  | T_VOID => 112
  | T_DELETE => 113
  | T_NOT => 114
  | T_BIT_NOT => 115
  | T_UNARY_OP_END => 116
  | T_ASSIGN_BEGIN => 117
  | T_ASSIGN => 118
  | T_ASSIGN_ADD => 119
  | T_ASSIGN_SUB => 120
  | T_ASSIGN_NULLISH => 121
  | T_ASSIGN_OR => 122
  | T_ASSIGN_AND => 123
  | T_ASSIGN_BIT_OR => 124
  | T_ASSIGN_BIT_XOR => 125
  | T_ASSIGN_BIT_AND => 126
  | T_ASSIGN_BIT_LSH => 127
  | T_ASSIGN_BIT_RSH => 128
  | T_ASSIGN_BIT_RSH_U => 129
  | T_ASSIGN_MUL => 130
  | T_ASSIGN_DIV => 131
  | T_ASSIGN_MOD => 132
  | T_ASSIGN_POW => 133
  | T_ASSIGN_END => 134
  | T_JSX_TXT => 135
  | T_HYPHEN => 136
  | T_TS_AS => 137
  | T_TS_NO_NULL => 138
  | T_AT => 139
  | T_TOKEN_DEF_END => 140
  end.
Definition tv_eqb (a b : tv) : bool := N.eqb (tv_num a) (tv_num b).

(** ecma/parser/token.go:348-516 the column Name of TokenKinds. *)
Definition tv_name (t : tv) : bytes :=
  match t with
  | T_ILLEGAL => bs "T_ILLEGAL"
  | T_EOF => bs "EOF"
  | T_COMMENT => bs "comment"
  | T_NULL => bs "null"
  | T_TRUE => bs "true"
  | T_FALSE => bs "false"
  | T_NUM => bs "number"
  | T_STRING => bs "string"
  | T_TPL_HEAD => bs "template head"
  | T_TPL_SPAN => bs "template span"
  | T_TPL_TAIL => bs "template tail"
  | T_NAME => bs "identifier"
  | T_NAME_PVT => bs "private identifier"
  | T_KEYWORD_BEGIN => bs "keyword begin"
  | T_BREAK => bs "break"
  | T_CASE => bs "case"
  | T_CATCH => bs "catch"
  | T_CLASS => bs "class"
  | T_CONTINUE => bs "continue"
  | T_DEBUGGER => bs "debugger"
  | T_DEFAULT => bs "default"
  | T_DO => bs "do"
  | T_ELSE => bs "else"
  | T_ENUM => bs "enum"
  | T_EXPORT => bs "export"
  | T_EXTENDS => bs "extends"
  | T_FINALLY => bs "finally"
  | T_FOR => bs "for"
  | T_FUNC => bs "function"
  | T_IF => bs "if"
  | T_IMPORT => bs "import"
  | T_NEW => bs "new"
  | T_RETURN => bs "return"
  | T_SUPER => bs "super"
  | T_SWITCH => bs "switch"
  | T_THIS => bs "this"
  | T_THROW => bs "throw"
  | T_TRY => bs "try"
  | T_VAR => bs "var"
  | T_WHILE => bs "while"
  | T_WITH => bs "with"
  | T_KEYWORD_END => bs "keyword end"
  | T_CTX_KEYWORD_BEGIN => bs "contextual keyword begin"
  | T_CTX_KEYWORD_STRICT_BEGIN => bs "contextual keyword strict begin"
  | T_LET => bs "let"
  | T_CONST => bs "const"
  | T_STATIC => bs "static"
  | T_IMPLEMENTS => bs "implements"
  | T_INTERFACE => bs "interface"
  | T_PACKAGE => bs "package"
  | T_PRIVATE => bs "private"
  | T_PROTECTED => bs "protected"
  | T_PUBLIC => bs "public"
  | T_YIELD => bs "yield"
  | T_CTX_KEYWORD_STRICT_END => bs "contextual keyword strict end"
  | T_AS => bs "as"
  | T_ASYNC => bs "async"
  | T_AWAIT => bs "await"
  | T_FROM => bs "from"
  | T_GET => bs "get"
  | T_META => bs "meta"
  | T_OF => bs "of"
  | T_SET => bs "set"
  | T_TARGET => bs "target"
  | T_CTX_KEYWORD_END => bs "contextual keyword end"
  | T_REGEXP => bs "regexp"
  | T_BACK_QUOTE => bs "`"
  | T_BRACE_L => bs "{"
  | T_BRACE_R => bs "}"
  | T_PAREN_L => bs "("
  | T_PAREN_R => bs ")"
  | T_BRACKET_L => bs "["
  | T_BRACKET_R => bs "]"
  | T_DOT => bs "."
  | T_DOT_TRI => bs "..."
  | T_SEMI => bs ";"
  | T_COMMA => bs ","
  | T_HOOK => bs "?"
  | T_COLON => bs ":"
  | T_INC => bs "++"
  | T_DEC => bs "--"
  | T_OPT_CHAIN => bs "?."
  | T_ARROW => bs "=>"
  | T_BIN_OP_BEGIN => bs "binary operator begin"
  | T_NULLISH => bs "??"
  | T_LT => bs "<"
  | T_GT => bs ">"
  | T_LTE => bs "<="
  | T_GTE => bs ">="
  | T_EQ => bs "=="
  | T_NE => bs "!="
  | T_EQ_S => bs "==="
  | T_NE_S => bs "!=="
  | T_LSH => bs "<<"
  | T_RSH => bs ">>"
  | T_RSH_U => bs ">>>"
  | T_BIT_OR => bs "|"
  | T_BIT_XOR => bs "^"
  | T_BIT_AND => bs "&"
  | T_OR => bs "||"
  | T_AND => bs "&&"
  | T_INSTANCE_OF => bs "instanceof"
  | T_IN => bs "in"
  | T_ADD => bs "+"
  | T_SUB => bs "-"
  | T_MUL => bs "*"
  | T_DIV => bs "/"
  | T_MOD => bs "%"
  | T_POW => bs "**"
  | T_BIN_OP_END => bs "binary operator end"
  | T_UNARY_OP_BEGIN => bs "unary operator being"
  | T_TYPE_OF => bs "typeof"
  | T_VOID => bs "void"
  | T_DELETE => bs "delete"
  | T_NOT => bs "!"
  | T_BIT_NOT => bs "~"
  | T_UNARY_OP_END => bs "unary operator end"
  | T_ASSIGN_BEGIN => bs "assignment begin"
  | T_ASSIGN => bs "="
  | T_ASSIGN_ADD => bs "+="
  | T_ASSIGN_SUB => bs "-="
  | T_ASSIGN_NULLISH => bs "??="
  | T_ASSIGN_OR => bs "||="
  | T_ASSIGN_AND => bs "&&="
  | T_ASSIGN_BIT_OR => bs "|="
  | T_ASSIGN_BIT_XOR => bs "^="
  | T_ASSIGN_BIT_AND => bs "&="
  | T_ASSIGN_BIT_LSH => bs "<<="
  | T_ASSIGN_BIT_RSH => bs ">>="
  | T_ASSIGN_BIT_RSH_U => bs ">>>="
  | T_ASSIGN_MUL => bs "*="
  | T_ASSIGN_DIV => bs "/="
  | T_ASSIGN_MOD => bs "%="
  | T_ASSIGN_POW => bs "**="
  | T_ASSIGN_END => bs "assignment end"
  | T_JSX_TXT => bs "jsx text"
  | T_HYPHEN => bs "-"
  | T_TS_AS => bs "as"
  | T_TS_NO_NULL => bs "!"
  | T_AT => bs "@"
  | T_TOKEN_DEF_END => bs "token end def"
  end.

(** ecma/parser/token.go:348-516 the column Pcd of TokenKinds. *)
Definition tv_pcd (t : tv) : nat :=
  match t with
  | T_NULLISH => 6
  | T_LT => 12
  | T_GT => 12
  | T_LTE => 12
  | T_GTE => 12
  | T_EQ => 11
  | T_NE => 11
  | T_EQ_S => 11
  | T_NE_S => 11
  | T_LSH => 13
  | T_RSH => 13
  | T_RSH_U => 13
  | T_BIT_OR => 8
  | T_BIT_XOR => 9
  | T_BIT_AND => 10
  | T_OR => 6
  | T_AND => 7
  | T_INSTANCE_OF => 12
  | T_IN => 12
  | T_ADD => 14
  | T_SUB => 14
  | T_MUL => 15
  | T_DIV => 15
  | T_MOD => 15
  | T_POW => 16
  | T_TS_AS => 12
  | _ => 0
  end.

(** ecma/parser/token.go:348-516 the column RightAssoc of TokenKinds. *)
Definition tv_rassoc (t : tv) : bool :=
  match t with
  | T_NEW => true
  | T_YIELD => true
  | T_AWAIT => true
  | T_INC => true
  | T_DEC => true
  | T_POW => true
  | T_TYPE_OF => true
  | T_VOID => true
  | T_DELETE => true
  | T_NOT => true
  | T_BIT_NOT => true
  | T_ASSIGN => true
  | T_ASSIGN_ADD => true
  | T_ASSIGN_SUB => true
  | T_ASSIGN_NULLISH => true
  | T_ASSIGN_OR => true
  | T_ASSIGN_AND => true
  | T_ASSIGN_BIT_OR => true
  | T_ASSIGN_BIT_XOR => true
  | T_ASSIGN_BIT_AND => true
  | T_ASSIGN_BIT_LSH => true
  | T_ASSIGN_BIT_RSH => true
  | T_ASSIGN_BIT_RSH_U => true
  | T_ASSIGN_MUL => true
  | T_ASSIGN_DIV => true
  | T_ASSIGN_MOD => true
  | T_ASSIGN_POW => true
  | _ => false
  end.

(** ecma/parser/token.go:348-516 the column BeforeExpr of TokenKinds. *)
Definition tv_before_expr (t : tv) : bool :=
  match t with
  | T_NULL => true
  | T_TRUE => true
  | T_FALSE => true
  | T_TPL_HEAD => true
  | T_TPL_TAIL => true
  | T_CASE => true
  | T_DEFAULT => true
  | T_DO => true
  | T_ELSE => true
  | T_EXTENDS => true
  | T_NEW => true
  | T_RETURN => true
  | T_THROW => true
  | T_YIELD => true
  | T_OF => true
  | T_BRACE_L => true
  | T_PAREN_L => true
  | T_BRACKET_L => true
  | T_SEMI => true
  | T_COMMA => true
  | T_HOOK => true
  | T_COLON => true
  | T_ARROW => true
  | T_NULLISH => true
  | T_LT => true
  | T_GT => true
  | T_LTE => true
  | T_GTE => true
  | T_EQ => true
  | T_NE => true
  | T_EQ_S => true
  | T_NE_S => true
  | T_LSH => true
  | T_RSH => true
  | T_RSH_U => true
  | T_BIT_OR => true
  | T_BIT_XOR => true
  | T_BIT_AND => true
  | T_OR => true
  | T_AND => true
  | T_INSTANCE_OF => true
  | T_IN => true
  | T_ADD => true
  | T_SUB => true
  | T_MUL => true
  | T_DIV => true
  | T_MOD => true
  | T_POW => true
  | T_NOT => true
  | T_BIT_NOT => true
  | T_ASSIGN => true
  | T_ASSIGN_ADD => true
  | T_ASSIGN_SUB => true
  | T_ASSIGN_NULLISH => true
  | T_ASSIGN_OR => true
  | T_ASSIGN_AND => true
  | T_ASSIGN_BIT_OR => true
  | T_ASSIGN_BIT_XOR => true
  | T_ASSIGN_BIT_AND => true
  | T_ASSIGN_BIT_LSH => true
  | T_ASSIGN_BIT_RSH => true
  | T_ASSIGN_BIT_RSH_U => true
  | T_ASSIGN_MUL => true
  | T_ASSIGN_DIV => true
  | T_ASSIGN_MOD => true
  | T_ASSIGN_POW => true
  | T_TS_AS => true
  | _ => false
  end.

(** ecma/parser/token.go:348-516 the column StartExpr of TokenKinds. *)
Definition tv_start_expr (t : tv) : bool :=
  match t with
  | T_NULL => true
  | T_TRUE => true
  | T_FALSE => true
  | T_NUM => true
  | T_STRING => true
  | T_TPL_HEAD => true
  | T_NAME => true
  | T_CLASS => true
  | T_FUNC => true
  | T_IMPORT => true
  | T_NEW => true
  | T_SUPER => true
  | T_THIS => true
  | T_YIELD => true
  | T_REGEXP => true
  | T_BACK_QUOTE => true
  | T_BRACE_L => true
  | T_PAREN_L => true
  | T_BRACKET_L => true
  | T_INC => true
  | T_DEC => true
  | T_ADD => true
  | T_SUB => true
  | T_TYPE_OF => true
  | T_VOID => true
  | T_DELETE => true
  | T_NOT => true
  | T_BIT_NOT => true
  | T_AT => true
  | _ => false
  end.

(** ecma/parser/token.go:522- init: the keys of Keywords and StrictKeywords. *)
Definition keyword_list : list tv := [T_BREAK; T_CASE; T_CATCH; T_CLASS; T_CONTINUE; T_DEBUGGER; T_DEFAULT; T_DO; T_ELSE; T_ENUM; T_EXPORT; T_EXTENDS; T_FINALLY; T_FOR; T_FUNC; T_IF; T_IMPORT; T_NEW; T_RETURN; T_SUPER; T_SWITCH; T_THIS; T_THROW; T_TRY; T_VAR; T_WHILE; T_WITH; T_VOID; T_NULL; T_TRUE; T_FALSE; T_TYPE_OF; T_DELETE; T_INSTANCE_OF].
Definition strict_keyword_list : list tv := [T_LET; T_CONST; T_STATIC; T_IMPLEMENTS; T_INTERFACE; T_PACKAGE; T_PRIVATE; T_PROTECTED; T_PUBLIC; T_YIELD].

(** Look-up in a Go map from name to token value. *)
Fixpoint find_kw (l : list tv) (s : bytes) : option tv :=
  match l with [] => None | t :: r => if bytes_eqb (tv_name t) s then Some t else find_kw r s end.

(** ecma/parser/token.go:545-558 IsKeyword / Keywords[..], IsStrictKeyword / StrictKeywords[..]. *)
Definition keyword (s : bytes) : option tv := find_kw keyword_list s.
Definition strict_keyword (s : bytes) : option tv := find_kw strict_keyword_list s.

Definition tv_between (a t b : tv) : bool := (N.ltb (tv_num a) (tv_num t) && N.ltb (tv_num t) (tv_num b))%bool.

(** ecma/parser/token.go:39-46 IsKw. *)
Definition is_kw (t : tv) : bool :=
  tv_between T_KEYWORD_BEGIN t T_KEYWORD_END || tv_between T_CTX_KEYWORD_BEGIN t T_CTX_KEYWORD_END
  || tv_between T_CTX_KEYWORD_STRICT_BEGIN t T_CTX_KEYWORD_STRICT_END
  || existsb (tv_eqb t) [T_VOID; T_NULL; T_TRUE; T_FALSE; T_TYPE_OF; T_DELETE; T_IN; T_INSTANCE_OF].

(** ecma/parser/token.go:87-89 IsUnary. *)
Definition is_unary (t : tv) : bool := tv_between T_UNARY_OP_BEGIN t T_UNARY_OP_END.

(** ecma/parser/feature.go:6-59 the feature flags: [1 << iota], iota = 1 for FEAT_STRICT. *)
Definition FEAT_NONE : N := 0%N.
Definition FEAT_STRICT : N := N.shiftl 1 1.
Definition FEAT_GLOBAL_ASYNC : N := N.shiftl 1 2.
Definition FEAT_LET_CONST : N := N.shiftl 1 3.
Definition FEAT_SPREAD : N := N.shiftl 1 4.
Definition FEAT_BINDING_PATTERN : N := N.shiftl 1 5.
Definition FEAT_BINDING_REST_ELEM : N := N.shiftl 1 6.
Definition FEAT_MODULE : N := N.shiftl 1 7.
Definition FEAT_IMPORT_DEC : N := N.shiftl 1 8.
Definition FEAT_EXPORT_DEC : N := N.shiftl 1 9.
Definition FEAT_META_PROPERTY : N := N.shiftl 1 10.
Definition FEAT_POW : N := N.shiftl 1 11.
Definition FEAT_BINDING_REST_ELEM_NESTED : N := N.shiftl 1 12.
Definition FEAT_ASYNC_AWAIT : N := N.shiftl 1 13.
Definition FEAT_BAD_ESCAPE_IN_TAGGED_TPL : N := N.shiftl 1 14.
Definition FEAT_ASYNC_GENERATOR : N := N.shiftl 1 15.
Definition FEAT_ASYNC_ITERATION : N := N.shiftl 1 16.
Definition FEAT_OPT_CATCH_PARAM : N := N.shiftl 1 17.
Definition FEAT_JSON_SUPER_SET : N := N.shiftl 1 18.
Definition FEAT_CLASS_PRV : N := N.shiftl 1 19.
Definition FEAT_OPT_EXPR : N := N.shiftl 1 20.
Definition FEAT_NULLISH : N := N.shiftl 1 21.
Definition FEAT_BIGINT : N := N.shiftl 1 22.
Definition FEAT_DYNAMIC_IMPORT : N := N.shiftl 1 23.
Definition FEAT_EXPORT_ALL_AS_NS : N := N.shiftl 1 24.
Definition FEAT_NUM_SEP : N := N.shiftl 1 25.
Definition FEAT_LOGIC_ASSIGN : N := N.shiftl 1 26.
Definition FEAT_CLASS_PUB_FIELD : N := N.shiftl 1 27.
Definition FEAT_CLASS_PRIV_FIELD : N := N.shiftl 1 28.
Definition FEAT_JSX : N := N.shiftl 1 29.
Definition FEAT_JSX_NS : N := N.shiftl 1 30.
Definition FEAT_CHK_REGEXP_FLAGS : N := N.shiftl 1 31.
Definition FEAT_REGEXP_UNICODE : N := N.shiftl 1 32.
Definition FEAT_REGEXP_STICKY : N := N.shiftl 1 33.
Definition FEAT_REGEXP_DOT_ALL : N := N.shiftl 1 34.
Definition FEAT_REGEXP_HAS_INDICES : N := N.shiftl 1 35.
Definition FEAT_TS : N := N.shiftl 1 36.
Definition FEAT_DTS : N := N.shiftl 1 37.
Definition FEAT_DECORATOR : N := N.shiftl 1 38.
Definition all_features : list N := [FEAT_STRICT; FEAT_GLOBAL_ASYNC; FEAT_LET_CONST; FEAT_SPREAD; FEAT_BINDING_PATTERN; FEAT_BINDING_REST_ELEM; FEAT_MODULE; FEAT_IMPORT_DEC; FEAT_EXPORT_DEC; FEAT_META_PROPERTY; FEAT_POW; FEAT_BINDING_REST_ELEM_NESTED; FEAT_ASYNC_AWAIT; FEAT_BAD_ESCAPE_IN_TAGGED_TPL; FEAT_ASYNC_GENERATOR; FEAT_ASYNC_ITERATION; FEAT_OPT_CATCH_PARAM; FEAT_JSON_SUPER_SET; FEAT_CLASS_PRV; FEAT_OPT_EXPR; FEAT_NULLISH; FEAT_BIGINT; FEAT_DYNAMIC_IMPORT; FEAT_EXPORT_ALL_AS_NS; FEAT_NUM_SEP; FEAT_LOGIC_ASSIGN; FEAT_CLASS_PUB_FIELD; FEAT_CLASS_PRIV_FIELD; FEAT_JSX; FEAT_JSX_NS; FEAT_CHK_REGEXP_FLAGS; FEAT_REGEXP_UNICODE; FEAT_REGEXP_STICKY; FEAT_REGEXP_DOT_ALL; FEAT_REGEXP_HAS_INDICES; FEAT_TS; FEAT_DTS; FEAT_DECORATOR].

(** [f & flag != 0]. *)
Definition has (f flag : N) : bool := negb (N.eqb (N.land f flag) 0).

(** Every token value, and that [tv_eqb] is equality. *)
Definition all_tv : list tv := [T_ILLEGAL; T_EOF; T_COMMENT; T_NULL; T_TRUE; T_FALSE; T_NUM; T_STRING; T_TPL_HEAD; T_TPL_SPAN; T_TPL_TAIL; T_NAME; T_NAME_PVT; T_KEYWORD_BEGIN; T_BREAK; T_CASE; T_CATCH; T_CLASS; T_CONTINUE; T_DEBUGGER; T_DEFAULT; T_DO; T_ELSE; T_ENUM; T_EXPORT; T_EXTENDS; T_FINALLY; T_FOR; T_FUNC; T_IF; T_IMPORT; T_NEW; T_RETURN; T_SUPER; T_SWITCH; T_THIS; T_THROW; T_TRY; T_VAR; T_WHILE; T_WITH; T_KEYWORD_END; T_CTX_KEYWORD_BEGIN; T_CTX_KEYWORD_STRICT_BEGIN; T_LET; T_CONST; T_STATIC; T_IMPLEMENTS; T_INTERFACE; T_PACKAGE; T_PRIVATE; T_PROTECTED; T_PUBLIC; T_YIELD; T_CTX_KEYWORD_STRICT_END; T_AS; T_ASYNC; T_AWAIT; T_FROM; T_GET; T_META; T_OF; T_SET; T_TARGET; T_CTX_KEYWORD_END; T_REGEXP; T_BACK_QUOTE; T_BRACE_L; T_BRACE_R; T_PAREN_L; T_PAREN_R; T_BRACKET_L; T_BRACKET_R; T_DOT; T_DOT_TRI; T_SEMI; T_COMMA; T_HOOK; T_COLON; T_INC; T_DEC; T_OPT_CHAIN; T_ARROW; T_BIN_OP_BEGIN; T_NULLISH; T_LT; T_GT; T_LTE; T_GTE; T_EQ; T_NE; T_EQ_S; T_NE_S; T_LSH; T_RSH; T_RSH_U; T_BIT_OR; T_BIT_XOR; T_BIT_AND; T_OR; T_AND; T_INSTANCE_OF; T_IN; T_ADD; T_SUB; T_MUL; T_DIV; T_MOD; T_POW; T_BIN_OP_END; T_UNARY_OP_BEGIN; T_TYPE_OF; T_VOID; T_DELETE; T_NOT; T_BIT_NOT; T_UNARY_OP_END; T_ASSIGN_BEGIN; T_ASSIGN; T_ASSIGN_ADD; T_ASSIGN_SUB; T_ASSIGN_NULLISH; T_ASSIGN_OR; T_ASSIGN_AND; T_ASSIGN_BIT_OR; T_ASSIGN_BIT_XOR; T_ASSIGN_BIT_AND; T_ASSIGN_BIT_LSH; T_ASSIGN_BIT_RSH; T_ASSIGN_BIT_RSH_U; T_ASSIGN_MUL; T_ASSIGN_DIV; T_ASSIGN_MOD; T_ASSIGN_POW; T_ASSIGN_END; T_JSX_TXT; T_HYPHEN; T_TS_AS; T_TS_NO_NULL; T_AT; T_TOKEN_DEF_END].
Lemma tv_find : forall t, find (fun x => N.eqb (tv_num x) (tv_num t)) all_tv = Some t.
Proof. destruct t; reflexivity. Qed.
Lemma tv_eqb_spec : forall a b, tv_eqb a b = true <-> a = b.
Proof.
  intros a b. unfold tv_eqb. rewrite N.eqb_eq. split; [|intros ->; reflexivity].
  intros E. pose proof (tv_find a) as Ha. rewrite E, tv_find in Ha. congruence.
Qed.
