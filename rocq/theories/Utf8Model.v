(** Go's unicode/utf8 as used by span.Source and the lexer.
    The Go standard library is not part of /repo; this file models the documented
    behaviour of utf8.DecodeRuneInString and utf8.AppendRune (called in
    span/source.go:21, util/str.go:25-60 and ecma/parser/lexer.go:536-1390). *)
From Verif Require Import Base.
Local Open Scope Z_scope.

Definition RuneError : rune := 65533. (* utf8.RuneError, 0xFFFD *)
Definition MaxRune : rune := 1114111. (* unicode.MaxRune, 0x10FFFF *)
Definition EOF : rune := -1.          (* span/source.go:73-77 *)

Definition is_cont (b : Z) : bool := (128 <=? b) && (b <=? 191).
Definition in_rng (lo hi b : Z) : bool := (lo <=? b) && (b <=? hi).

(** Length and range of the second byte for a leading byte >= 0x80:
    the [first]/[acceptRanges] tables of unicode/utf8/utf8.go. *)
Definition lead (b0 : Z) : option (nat * Z * Z) :=
  if in_rng 194 223 b0 then Some (2%nat, 128, 191)
  else if b0 =? 224 then Some (3%nat, 160, 191)
  else if in_rng 225 236 b0 then Some (3%nat, 128, 191)
  else if b0 =? 237 then Some (3%nat, 128, 159)
  else if in_rng 238 239 b0 then Some (3%nat, 128, 191)
  else if b0 =? 240 then Some (4%nat, 144, 191)
  else if in_rng 241 243 b0 then Some (4%nat, 128, 191)
  else if b0 =? 244 then Some (4%nat, 128, 143)
  else None.

(** utf8.DecodeRuneInString: rune and number of bytes; (RuneError,0) on the
    empty string and (RuneError,1) on a malformed prefix. *)
Definition decode_rune (s : bytes) : rune * nat :=
  match s with
  | [] => (RuneError, 0%nat)
  | c0 :: s1 =>
      let b0 := b2z c0 in
      if b0 <? 128 then (b0, 1%nat)
      else match lead b0 with
           | None => (RuneError, 1%nat)
           | Some (sz, lo, hi) =>
               match s1 with
               | [] => (RuneError, 1%nat)
               | c1 :: s2 =>
                   let b1 := b2z c1 in
                   if negb (in_rng lo hi b1) then (RuneError, 1%nat)
                   else if Nat.eqb sz 2 then ((b0 - 192) * 64 + (b1 - 128), 2%nat)
                   else match s2 with
                        | [] => (RuneError, 1%nat)
                        | c2 :: s3 =>
                            let b2 := b2z c2 in
                            if negb (is_cont b2) then (RuneError, 1%nat)
                            else if Nat.eqb sz 3
                                 then ((b0 - 224) * 4096 + (b1 - 128) * 64 + (b2 - 128), 3%nat)
                                 else match s3 with
                                      | [] => (RuneError, 1%nat)
                                      | c3 :: _ =>
                                          let b3 := b2z c3 in
                                          if negb (is_cont b3) then (RuneError, 1%nat)
                                          else ((b0 - 240) * 262144 + (b1 - 128) * 4096
                                                + (b2 - 128) * 64 + (b3 - 128), 4%nat)
                                      end
                        end
               end
           end
  end.

(** utf8.AppendRune / strings.Builder.WriteRune: surrogates, negative and too
    large values are written as U+FFFD. *)
Definition encode_rune (r : rune) : bytes :=
  let enc3 r := [z2b (224 + r / 4096); z2b (128 + (r / 64) mod 64); z2b (128 + r mod 64)] in
  if (0 <=? r) && (r <=? 127) then [z2b r]
  else if (128 <=? r) && (r <=? 2047) then [z2b (192 + r / 64); z2b (128 + r mod 64)]
  else if (r <? 0) || (MaxRune <? r) || in_rng 55296 57343 r then enc3 RuneError
  else if r <=? 65535 then enc3 r
  else [z2b (240 + r / 262144); z2b (128 + (r / 4096) mod 64);
        z2b (128 + (r / 64) mod 64); z2b (128 + r mod 64)].

(** []rune(s) / a range loop over a Go string: the sequence of decoded runes.
    Fuel [length s] always suffices because every step consumes a byte. *)
Fixpoint decode_all_fuel (n : nat) (s : bytes) : list rune :=
  match n with
  | O => []
  | S n' => match s with
            | [] => []
            | _ => let (r, k) := decode_rune s in r :: decode_all_fuel n' (skipn k s)
            end
  end.
Definition decode_all (s : bytes) : list rune := decode_all_fuel (length s) s.

(** Unicode scalar value. *)
Definition is_scalar (r : rune) : bool :=
  in_rng 0 55295 r || in_rng 57344 MaxRune r.
