(** Specification of the lexical structure, on decoded characters, independent of the scanners. *)
From Verif Require Import Base Utf8Model SourceModel.
Local Open Scope Z_scope.

(** ** What may stand between two tokens (ECMA-262 12.2 - 12.4) *)

Inductive comment :=
| CLine (body : list rune)    (* //body *)
| CBlock (body : list rune).  (* /*body*/ *)

Definition comment_text (c : comment) : list rune :=
  match c with CLine b => 47 :: 47 :: b | CBlock b => 47 :: 42 :: b ++ [42; 47] end.

Definition spans_lines (c : comment) : bool :=
  match c with CLine _ => false | CBlock b => existsb is_line_term b end.

(** The comment is followed by [after]: a line comment runs to the end of its line, a block comment
    ends at the first closing delimiter. *)
Definition comment_ends (c : comment) (after : list rune) : Prop :=
  match c with
  | CLine b => Forall (fun r => is_line_term r = false) b /\ (after = [] \/ is_line_term (hd 0 after) = true)
  | CBlock b => forall x y, b ++ 42 :: 47 :: after = x ++ 42 :: 47 :: y -> (length b <= length x)%nat
  end.

(** White space and comments: each comment with the white space before it, then the last white space. *)
Definition gap := (list (list rune * comment) * list rune)%type.
Definition gap_text (g : gap) : list rune :=
  flat_map (fun p => fst p ++ comment_text (snd p)) (fst g) ++ snd g.
Fixpoint gap_wf (cs : list (list rune * comment)) (ws after : list rune) : Prop :=
  match cs with
  | [] => Forall (fun r => is_space r = true) ws
  | (w, c) :: r => Forall (fun r => is_space r = true) w /\ comment_ends c (gap_text (r, ws) ++ after) /\ gap_wf r ws after
  end.
Definition last_spans_lines (cs : list (list rune * comment)) : bool :=
  match rev cs with [] => false | (_, c) :: _ => spans_lines c end.

(** ** Token ranges
    [gap_between c a b]: the bytes of [c] from [a] to [b] decode to white space and comments. *)
Definition gap_between (c : bytes) (a b : nat) : Prop :=
  exists cs ws, decode_all (firstn (b - a) (skipn a c)) = gap_text (cs, ws)
    /\ gap_wf cs ws (decode_all (skipn b c)).

(** [tiles c a rs]: the ranges [rs] lie in [c] from offset [a] on, one after the other, none is empty
    and only white space and comments lie before and between them. *)
Fixpoint tiles (c : bytes) (a : nat) (rs : list (nat * nat)) : Prop :=
  match rs with
  | [] => True
  | (lo, hi) :: r => (a <= lo)%nat /\ (lo < hi)%nat /\ (hi <= length c)%nat /\ gap_between c a lo /\ tiles c hi r
  end.

(** ** String literals (ECMA-262 12.9.4 StringLiteral, its SV, and annex B.1.2) *)

Definition digit_value (c : rune) : option Z :=
  if (48 <=? c) && (c <=? 57) then Some (c - 48)
  else if (97 <=? c) && (c <=? 102) then Some (c - 87)
  else if (65 <=? c) && (c <=? 70) then Some (c - 55) else None.
(** The number written with the digits [ds] in [base]. *)
Fixpoint num_acc (base acc : Z) (ds : list rune) : option Z :=
  match ds with
  | [] => Some acc
  | c :: r => match digit_value c with Some d => if d <? base then num_acc base (acc * base + d) r else None | None => None end
  end.
Definition num_value (base : Z) (ds : list rune) : option Z := num_acc base 0 ds.

Definition octal_at (rs : list rune) : bool := match rs with c :: _ => (48 <=? c) && (c <=? 55) | [] => false end.
(** Annex B.1.2: up to three octal digits up to 377, as many as there are. *)
Definition octal_escape (ds after : list rune) : Prop :=
  (1 <= length ds)%nat /\
  let limit := if hd 0 ds <=? 51 then 3%nat else 2%nat in
  (length ds <= limit)%nat /\ (length ds = limit \/ octal_at after = false).

Definition single_escapes : list (rune * rune) := [(98, 8); (102, 12); (110, 10); (114, 13); (116, 9); (118, 11)].

(** [escape es after r]: backslash [es], followed by [after], denotes the character [r]. *)
Inductive escape : list rune -> list rune -> rune -> Prop :=
| esc_single : forall c r after, In (c, r) single_escapes -> escape [c] after r
| esc_hex : forall a b v after, num_value 16 [a; b] = Some v -> escape [120; a; b] after v
| esc_u4 : forall ds v after, length ds = 4%nat -> num_value 16 ds = Some v -> escape (117 :: ds) after v
| esc_ubrace : forall ds v after, ds <> [] -> num_value 16 ds = Some v -> v <= 1114111 ->
    escape (117 :: 123 :: ds ++ [125]) after v
| esc_octal : forall ds v after, num_value 8 ds = Some v -> octal_escape ds after -> escape ds after v
| esc_self : forall c after, ~ In c (map fst single_escapes) -> c <> 120 -> c <> 117 ->
    octal_at [c] = false -> is_line_term c = false -> escape [c] after c.

Definition line_continuation (cs after : list rune) : Prop :=
  In cs [[10]; [8232]; [8233]; [13; 10]] \/ (cs = [13] /\ hd 0 after <> 10).

(** [str_body js q body after v]: [body] is the inside of a string literal quoted by [q] and followed
    by [after], its value is [v]; [js]: U+2028 and U+2029 may stand in it (JSON superset). *)
Inductive str_body (js : bool) (q : rune) (after : list rune) : list rune -> list rune -> Prop :=
| sb_nil : str_body js q after [] []
| sb_char : forall c rs v, c <> q -> c <> 92 -> c <> 10 -> c <> 13 -> (c = 8232 \/ c = 8233 -> js = true) ->
    str_body js q after rs v -> str_body js q after (c :: rs) (c :: v)
| sb_cont : forall cs rs v, line_continuation cs (rs ++ q :: after) -> str_body js q after rs v ->
    str_body js q after (92 :: cs ++ rs) v
| sb_esc : forall es r rs v, escape es (rs ++ q :: after) r -> str_body js q after rs v ->
    str_body js q after (92 :: es ++ rs) (r :: v).

(** What is left of a code point after a round trip through a Go string: surrogates become U+FFFD. *)
Definition norm (r : rune) : rune := if is_scalar r then r else RuneError.
