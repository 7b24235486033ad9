(** ecma/parser/astutil.go: the values of number literals.  A Go string is the list of its byte values.
    A float64 is given by the rational number that is rounded to it: strconv.ParseFloat rounds
    correctly (trusted), and integers below 2^53 are exact. *)
From Verif Require Import Base.
From Coq Require Import QArith.
Local Open Scope Z_scope.

(** strings.ReplaceAll(t, "_", ""), strings.HasPrefix(t, "0" ++ c). *)
Definition strip (t : list Z) : list Z := filter (fun c => negb (c =? 95)) t.
Definition prefixed (t : list Z) (c d : Z) : bool := match t with a :: b :: _ => (a =? 48) && ((b =? c) || (b =? d)) | _ => false end.
(** strings.TrimLeft(t, "0"). *)
Fixpoint trim0 (t : list Z) : list Z := match t with 48 :: r => trim0 r | _ => t end.

(** Value of a character as a digit, strconv.ParseUint and big.Int.SetString. *)
Definition go_digit (c : Z) : Z :=
  if (48 <=? c) && (c <=? 57) then c - 48 else if (97 <=? c) && (c <=? 122) then c - 87 else if (65 <=? c) && (c <=? 90) then c - 55 else 255.
(** strconv.ParseUint(t, base, 32), its error ignored: 0 on a syntax error, 2^32-1 on overflow. *)
Fixpoint uint_loop (base n : Z) (t : list Z) : Z :=
  match t with
  | [] => n
  | c :: r => if base <=? go_digit c then 0
              else let n1 := n * base + go_digit c in if 4294967295 <? n1 then 4294967295 else uint_loop base n1 r
  end.
Definition parse_uint (base : Z) (t : list Z) : Z := match t with [] => 0 | _ => uint_loop base 0 t end.

(** big.Int.SetString(t, base), 0 on a syntax error (the receiver is then undefined; here it was 0).  A
    sign is not modelled: the callers pass digits. *)
Fixpoint big_loop (base n : Z) (t : list Z) : Z :=
  match t with [] => n | c :: r => if base <=? go_digit c then 0 else big_loop base (n * base + go_digit c) r end.

(** strconv.ParseFloat(t, 64), its error ignored, without signs in front, infinities, NaN and
    hexadecimal floats: the callers pass the text of a decimal literal.  The mantissa: its digits as a
    number, the count of digits after the dot, whether there was a digit, the rest. *)
Fixpoint mant (t : list Z) (dot : bool) (m k : Z) (nd : bool) : Z * Z * bool * list Z :=
  match t with
  | c :: r => if (48 <=? c) && (c <=? 57) then mant r dot (m * 10 + (c - 48)) (if dot then k + 1 else k) true
              else if (c =? 46) && negb dot then mant r true m k nd
              else (m, k, nd, t)
  | [] => (m, k, nd, [])
  end.
Fixpoint exp_digits (x : Z) (t : list Z) : option Z :=
  match t with [] => Some x | c :: r => if (48 <=? c) && (c <=? 57) then exp_digits (x * 10 + (c - 48)) r else None end.
Definition exp_of (t : list Z) : option Z :=
  match t with
  | [] => Some 0
  | c :: r => if (c =? 101) || (c =? 69) then
                let '(sg, r1) := match r with 43 :: r1 => (1, r1) | 45 :: r1 => (-1, r1) | _ => (1, r) end in
                match r1 with [] => None | _ => match exp_digits 0 r1 with Some x => Some (sg * x) | None => None end end
              else None
  end.
Definition parse_float64 (t : list Z) : Q :=
  match mant t false 0 0 false with
  | (m, k, true, r) => match exp_of r with Some x => (inject_Z m * Qpower 10 (x - k))%Q | None => 0 end
  | _ => 0
  end.

(** ecma/parser/astutil.go:61-83 ParseFloat. *)
Definition parse_float (t0 : list Z) : Q :=
  let t := strip t0 in
  if prefixed t 120 88 then inject_Z (parse_uint 16 (skipn 2 t))
  else if prefixed t 111 79 then inject_Z (parse_uint 8 (skipn 2 t))
  else if prefixed t 98 66 then inject_Z (parse_uint 2 (skipn 2 t))
  else match t with
       | 48 :: _ :: _ => inject_Z (parse_uint 8 (trim0 t))
       | _ => parse_float64 t
       end.

(** ecma/parser/astutil.go:32-59 ParseBigint. *)
Definition parse_bigint (t0 : list Z) : Z :=
  let t := strip (removelast t0) in
  if prefixed t 120 88 then big_loop 16 0 (skipn 2 t)
  else if prefixed t 111 79 then big_loop 8 0 (skipn 2 t)
  else if prefixed t 98 66 then big_loop 2 0 (skipn 2 t)
  else match t with
       | 48 :: _ :: _ => big_loop 8 0 (trim0 t)
       | _ => big_loop 10 0 t
       end.

(** ecma/parser/astutil.go:90-112 NodeToFloat of a number literal with text [t].  big.NewFloat(0) has a
    precision of 53 bits, so both sides of the comparison are rounded to that: math.MaxInt to 2^63, and
    an integer to at most 2^63 if and only if it is at most 2^63 + 1024 (a tie, which goes to even). *)
Definition node_to_float (t : list Z) : Q :=
  if last t 0 =? 110 then let i := parse_bigint t in if i <=? 9223372036854776832 then inject_Z i else 0%Q
  else parse_float t.
