(** ecma/parser/feature.go and the options of ecma/parser/parser.go. *)
From Coq Require Import String.
From Verif Require Import Base.

(** ecma/parser/feature.go:5-58: the features in the order they are declared. *)
Inductive feat :=
| FEAT_STRICT | FEAT_GLOBAL_ASYNC | FEAT_LET_CONST | FEAT_SPREAD | FEAT_BINDING_PATTERN | FEAT_BINDING_REST_ELEM |
  FEAT_MODULE | FEAT_IMPORT_DEC | FEAT_EXPORT_DEC | FEAT_META_PROPERTY | FEAT_POW |
  FEAT_BINDING_REST_ELEM_NESTED | FEAT_ASYNC_AWAIT | FEAT_BAD_ESCAPE_IN_TAGGED_TPL | FEAT_ASYNC_GENERATOR |
  FEAT_ASYNC_ITERATION | FEAT_OPT_CATCH_PARAM | FEAT_JSON_SUPER_SET | FEAT_CLASS_PRV | FEAT_OPT_EXPR |
  FEAT_NULLISH | FEAT_BIGINT | FEAT_DYNAMIC_IMPORT | FEAT_EXPORT_ALL_AS_NS | FEAT_NUM_SEP | FEAT_LOGIC_ASSIGN |
  FEAT_CLASS_PUB_FIELD | FEAT_CLASS_PRIV_FIELD | FEAT_JSX | FEAT_JSX_NS | FEAT_CHK_REGEXP_FLAGS |
  FEAT_REGEXP_UNICODE | FEAT_REGEXP_STICKY | FEAT_REGEXP_DOT_ALL | FEAT_REGEXP_HAS_INDICES | FEAT_TS | FEAT_DTS |
  FEAT_DECORATOR.
Definition all_feats : list feat :=
  [FEAT_STRICT; FEAT_GLOBAL_ASYNC; FEAT_LET_CONST; FEAT_SPREAD; FEAT_BINDING_PATTERN; FEAT_BINDING_REST_ELEM;
   FEAT_MODULE; FEAT_IMPORT_DEC; FEAT_EXPORT_DEC; FEAT_META_PROPERTY; FEAT_POW; FEAT_BINDING_REST_ELEM_NESTED;
   FEAT_ASYNC_AWAIT; FEAT_BAD_ESCAPE_IN_TAGGED_TPL; FEAT_ASYNC_GENERATOR; FEAT_ASYNC_ITERATION;
   FEAT_OPT_CATCH_PARAM; FEAT_JSON_SUPER_SET; FEAT_CLASS_PRV; FEAT_OPT_EXPR; FEAT_NULLISH; FEAT_BIGINT;
   FEAT_DYNAMIC_IMPORT; FEAT_EXPORT_ALL_AS_NS; FEAT_NUM_SEP; FEAT_LOGIC_ASSIGN; FEAT_CLASS_PUB_FIELD;
   FEAT_CLASS_PRIV_FIELD; FEAT_JSX; FEAT_JSX_NS; FEAT_CHK_REGEXP_FLAGS; FEAT_REGEXP_UNICODE; FEAT_REGEXP_STICKY;
   FEAT_REGEXP_DOT_ALL; FEAT_REGEXP_HAS_INDICES; FEAT_TS; FEAT_DTS; FEAT_DECORATOR].
Definition feat_eqb (a b : feat) : bool :=
  match a, b with
  | FEAT_STRICT, FEAT_STRICT
  | FEAT_GLOBAL_ASYNC, FEAT_GLOBAL_ASYNC
  | FEAT_LET_CONST, FEAT_LET_CONST
  | FEAT_SPREAD, FEAT_SPREAD
  | FEAT_BINDING_PATTERN, FEAT_BINDING_PATTERN
  | FEAT_BINDING_REST_ELEM, FEAT_BINDING_REST_ELEM
  | FEAT_MODULE, FEAT_MODULE
  | FEAT_IMPORT_DEC, FEAT_IMPORT_DEC
  | FEAT_EXPORT_DEC, FEAT_EXPORT_DEC
  | FEAT_META_PROPERTY, FEAT_META_PROPERTY
  | FEAT_POW, FEAT_POW
  | FEAT_BINDING_REST_ELEM_NESTED, FEAT_BINDING_REST_ELEM_NESTED
  | FEAT_ASYNC_AWAIT, FEAT_ASYNC_AWAIT
  | FEAT_BAD_ESCAPE_IN_TAGGED_TPL, FEAT_BAD_ESCAPE_IN_TAGGED_TPL
  | FEAT_ASYNC_GENERATOR, FEAT_ASYNC_GENERATOR
  | FEAT_ASYNC_ITERATION, FEAT_ASYNC_ITERATION
  | FEAT_OPT_CATCH_PARAM, FEAT_OPT_CATCH_PARAM
  | FEAT_JSON_SUPER_SET, FEAT_JSON_SUPER_SET
  | FEAT_CLASS_PRV, FEAT_CLASS_PRV
  | FEAT_OPT_EXPR, FEAT_OPT_EXPR
  | FEAT_NULLISH, FEAT_NULLISH
  | FEAT_BIGINT, FEAT_BIGINT
  | FEAT_DYNAMIC_IMPORT, FEAT_DYNAMIC_IMPORT
  | FEAT_EXPORT_ALL_AS_NS, FEAT_EXPORT_ALL_AS_NS
  | FEAT_NUM_SEP, FEAT_NUM_SEP
  | FEAT_LOGIC_ASSIGN, FEAT_LOGIC_ASSIGN
  | FEAT_CLASS_PUB_FIELD, FEAT_CLASS_PUB_FIELD
  | FEAT_CLASS_PRIV_FIELD, FEAT_CLASS_PRIV_FIELD
  | FEAT_JSX, FEAT_JSX
  | FEAT_JSX_NS, FEAT_JSX_NS
  | FEAT_CHK_REGEXP_FLAGS, FEAT_CHK_REGEXP_FLAGS
  | FEAT_REGEXP_UNICODE, FEAT_REGEXP_UNICODE
  | FEAT_REGEXP_STICKY, FEAT_REGEXP_STICKY
  | FEAT_REGEXP_DOT_ALL, FEAT_REGEXP_DOT_ALL
  | FEAT_REGEXP_HAS_INDICES, FEAT_REGEXP_HAS_INDICES
  | FEAT_TS, FEAT_TS
  | FEAT_DTS, FEAT_DTS
  | FEAT_DECORATOR, FEAT_DECORATOR => true
  | _, _ => false
  end.
(** The value of a feature: 1 << iota, FEAT_STRICT having iota 1. *)
Fixpoint place (f : feat) (i : N) (l : list feat) : N :=
  match l with [] => i | g :: r => if feat_eqb f g then i else place f (N.succ i) r end.
Definition flag (f : feat) : N := N.shiftl 1 (place f 1 all_feats).

(** ecma/parser/feature.go:60-73 On, Off, Turn; uint64 values are natural numbers, [f & ^flag] is [N.ldiff]. *)
Definition on (f x : N) : N := N.lor f x.
Definition off (f x : N) : N := N.ldiff f x.
Definition turn (f x : N) (b : bool) : N := if b then on f x else off f x.
(** [f & flag != 0]. *)
Definition is_on (f : N) (x : feat) : bool := negb (N.eqb (N.land f (flag x)) 0).

(** ecma/parser/parser.go:71-76 defaultFeatures. *)
Definition default_features : N :=
  fold_left (fun f x => on f (flag x))
    [FEAT_MODULE; FEAT_GLOBAL_ASYNC; FEAT_STRICT; FEAT_LET_CONST; FEAT_BINDING_PATTERN; FEAT_BINDING_REST_ELEM;
     FEAT_BINDING_REST_ELEM_NESTED; FEAT_SPREAD; FEAT_META_PROPERTY; FEAT_ASYNC_AWAIT; FEAT_ASYNC_ITERATION;
     FEAT_ASYNC_GENERATOR; FEAT_POW; FEAT_CLASS_PRV; FEAT_CLASS_PUB_FIELD; FEAT_CLASS_PRIV_FIELD; FEAT_OPT_EXPR;
     FEAT_OPT_CATCH_PARAM; FEAT_NULLISH; FEAT_BAD_ESCAPE_IN_TAGGED_TPL; FEAT_BIGINT; FEAT_NUM_SEP;
     FEAT_LOGIC_ASSIGN; FEAT_DYNAMIC_IMPORT; FEAT_JSON_SUPER_SET; FEAT_EXPORT_ALL_AS_NS; FEAT_JSX; FEAT_DECORATOR] 0%N.

(** The values of a decoded JSON object: what is compared with them. *)
Inductive jopt := JTrue | JFalse | JText (s : string) | JElse.
Definition jobj : Type := list (string * jopt).
Fixpoint jlookup (k : string) (o : jobj) : option jopt :=
  match o with [] => None | (k', v) :: r => if String.eqb k k' then Some v else jlookup k r end.
Definition is_true (v : jopt) : bool := match v with JTrue => true | _ => false end.
Definition is_text (s : string) (v : jopt) : bool := match v with JText t => String.eqb s t | _ => false end.

(** ecma/parser/parser.go:93-111 MergeJson. *)
Definition merge_key (k : string) (x : feat) (o : jobj) (f : N) : N :=
  match jlookup k o with Some v => turn f (flag x) (is_true v) | None => f end.
Definition merge_json (f : N) (o : jobj) : N :=
  let f := match jlookup "sourceType" o with
           | Some v => if is_text "module" v then on f (flag FEAT_MODULE) else f
           | None => f
           end in
  let f := merge_key "typescript" FEAT_TS o f in
  let f := merge_key "jsx" FEAT_JSX o f in
  let f := merge_key "dts" FEAT_DTS o f in
  merge_key "strict" FEAT_STRICT o f.

(** ecma/parser/parser.go:119-147 Setup: what becomes of opts.Feature (it is written back into opts), p.feat and
    the feat of the lexer being the same value. *)
Definition setup (f : N) : N :=
  let f := if N.eqb (N.land f (flag FEAT_ASYNC_AWAIT)) 0 then off f (flag FEAT_GLOBAL_ASYNC) else f in
  if negb (N.eqb (N.land f (flag FEAT_MODULE)) 0)
  then on (on f (flag FEAT_IMPORT_DEC)) (flag FEAT_EXPORT_DEC) else f.
