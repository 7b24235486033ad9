(** Specification of the mathematical value (MV) of numeric literals (ECMA-262 12.9.3.2). *)
From Verif Require Import Base Utf8Model SourceModel TokenModel LexModel LexSpec LexNumSpec.
From Coq Require Import QArith.
Local Open Scope Z_scope.

(** The number a sequence of digits stands for, separators ignored, and the count of its digits. *)
Fixpoint dval_from (base acc : Z) (ds : list rune) : Z :=
  match ds with
  | [] => acc
  | c :: r => match digit_value c with Some d => dval_from base (acc * base + d) r | None => dval_from base acc r end
  end.
Definition dval (base : Z) (ds : list rune) : Z := dval_from base 0 ds.
Fixpoint dcount (ds : list rune) : Z :=
  match ds with [] => 0 | c :: r => match digit_value c with Some _ => 1 + dcount r | None => dcount r end end.

Inductive exp_mv (sep : bool) : list rune -> Z -> Prop :=
| ex_none : exp_mv sep [] 0
| ex_plus : forall c sg ds, c = 101 \/ c = 69 -> sg = [] \/ sg = [43] -> digits sep 10 ds -> exp_mv sep (c :: sg ++ ds) (dval 10 ds)
| ex_minus : forall c ds, c = 101 \/ c = 69 -> digits sep 10 ds -> exp_mv sep (c :: 45 :: ds) (- dval 10 ds).

Inductive dec_mv (sep : bool) : list rune -> Q -> Prop :=
| mv_int : forall i e x, dec_int_lit sep i -> exp_mv sep e x -> dec_mv sep (i ++ e) (inject_Z (dval 10 i) * Qpower 10 x)%Q
| mv_frac : forall i f e x, dec_int_lit sep i -> opt_digits sep f -> exp_mv sep e x ->
    dec_mv sep (i ++ 46 :: f ++ e) ((inject_Z (dval 10 i) + inject_Z (dval 10 f) * Qpower 10 (- dcount f)) * Qpower 10 x)%Q
| mv_dot : forall f e x, digits sep 10 f -> exp_mv sep e x ->
    dec_mv sep (46 :: f ++ e) (inject_Z (dval 10 f) * Qpower 10 (- dcount f) * Qpower 10 x)%Q.
Inductive radix_mv (sep : bool) : list rune -> Z -> Prop :=
| mv_radix : forall base p ds, In p (radix_prefix base) -> digits sep base ds -> radix_mv sep (48 :: p :: ds) (dval base ds)
| mv_octal : forall ds, digits false 8 ds -> radix_mv sep (48 :: ds) (dval 8 ds).
Inductive big_mv (sep : bool) : list rune -> Z -> Prop :=
| mv_big : forall i, dec_int_lit sep i -> big_mv sep (i ++ [110]) (dval 10 i)
| mv_radix_big : forall base p ds, In p (radix_prefix base) -> digits sep base ds -> big_mv sep (48 :: p :: ds ++ [110]) (dval base ds).
