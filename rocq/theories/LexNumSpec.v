(** Specification of numeric literals (ECMA-262 12.9.3 NumericLiteral and annex B.1.1). *)
From Verif Require Import Base Utf8Model SourceModel TokenModel LexModel LexSpec.
Local Open Scope Z_scope.

Definition is_dig (base : Z) (c : rune) : bool := match digit_value c with Some d => d <? base | None => false end.

(** One digit or more, with single separators between digits when [sep]. *)
Inductive digits (sep : bool) (base : Z) : list rune -> Prop :=
| dg_one : forall d, is_dig base d = true -> digits sep base [d]
| dg_more : forall d ds, is_dig base d = true -> digits sep base ds -> digits sep base (d :: ds)
| dg_sep : forall d ds, sep = true -> is_dig base d = true -> digits sep base ds -> digits sep base (d :: 95 :: ds).

(** DecimalIntegerLiteral: 0, or digits that do not start with 0. *)
Definition dec_int_lit (sep : bool) (i : list rune) : Prop := i = [48] \/ (digits sep 10 i /\ hd 0 i <> 48).

(** ExponentPart, which may be missing. *)
Definition exp_part (sep : bool) (e : list rune) : Prop :=
  e = [] \/ exists c sg ds, e = c :: sg ++ ds /\ (c = 101 \/ c = 69) /\ (sg = [] \/ sg = [43] \/ sg = [45]) /\ digits sep 10 ds.
Definition opt_digits (sep : bool) (ds : list rune) : Prop := ds = [] \/ digits sep 10 ds.

Definition radix_prefix (base : Z) : list rune :=
  if base =? 2 then [98; 66] else if base =? 8 then [111; 79] else if base =? 16 then [120; 88] else [].

(** The literals; [sep], [big]: separators, BigInt literals allowed; [strict]: strict mode.  The last
    form, decimal integers that start with 0, is [b1]. *)
Inductive num_lit (b1 sep big strict : bool) : list rune -> Prop :=
| nl_int : forall i e, dec_int_lit sep i -> exp_part sep e -> num_lit b1 sep big strict (i ++ e)
| nl_frac : forall i f e, dec_int_lit sep i -> opt_digits sep f -> exp_part sep e -> num_lit b1 sep big strict (i ++ 46 :: f ++ e)
| nl_dot : forall f e, digits sep 10 f -> exp_part sep e -> num_lit b1 sep big strict (46 :: f ++ e)
| nl_big : forall i, big = true -> dec_int_lit sep i -> num_lit b1 sep big strict (i ++ [110])
| nl_radix : forall base p ds, In p (radix_prefix base) -> digits sep base ds -> num_lit b1 sep big strict (48 :: p :: ds)
| nl_radix_big : forall base p ds, big = true -> In p (radix_prefix base) -> digits sep base ds -> num_lit b1 sep big strict (48 :: p :: ds ++ [110])
| nl_octal : forall ds, strict = false -> digits false 8 ds -> num_lit b1 sep big strict (48 :: ds)
| nl_leading_zero : forall ds f e, b1 = true -> strict = false -> digits false 10 ds -> (exists d, In d ds /\ (d = 56 \/ d = 57)) ->
    (f = [] \/ exists g, f = 46 :: g /\ opt_digits sep g) -> exp_part sep e -> num_lit b1 sep big strict (48 :: ds ++ f ++ e).
