(** Model of ecma/parser/lexer.go: the scanners over [source] and the production of one token.
    Simplifications: the fields of a token that the code leaves as they were in the ring cell
    ([rng.Hi], [len], [afterLineTerm] and [ext] of error tokens, [ext] of tokens that set none) are
    fresh; error positions inside LexerError strings are left out; uint32 offsets are [nat]. *)
From Verif Require Import Base Utf8Model SourceModel TokenModel.
Local Open Scope Z_scope.

(** ecma/parser/errors.go:66- the messages the lexer uses. *)
Inductive lexerr :=
| E_UNEXPECTED_CHAR | E_UNEXPECTED_TOKEN | E_UNTERMINATED_COMMENT | E_UNTERMINATED_REGEXP | E_UNTERMINATED_STR
| E_INVALID_REGEXP_FLAG | E_IDENT_AFTER_NUMBER | E_INVALID_NUMBER | E_EXPECT_NUM_RADIX (r : nat)
| E_LEGACY_OCTAL_IN_STRICT_MODE | E_TPL_LEGACY_OCTAL_ESCAPE_IN | E_EXPECTING_UNICODE_ESCAPE
| E_CODEPOINT_OUT_OF_BOUNDS | E_BAD_ESCAPE_SEQ | E_BAD_RUNE | E_UNTERMINATED_TPL | E_INVALID_UNICODE_ESCAPE
| E_ESCAPE_IN_KEYWORD | E_NUM_SEP_BEGIN | E_NUM_SEP_END | E_NUM_SEP_DUP | E_NUM_SEP_IN_LEGACY_OCTAL
| E_JSX_UNDEFINED_HTML_ENTITY.

(** The part of Go's unicode tables IsIdStart and IsIdPart consult:
    unicode.In(c, Upper, Lower, Title, Modi, Other_Lowercase, Other_Uppercase, Other_ID_Start) ||
    unicode.In(c, Lo), and unicode.In(c, Pc, Mark, Nd, Other_ID_Continue). *)
Record uni := mk_uni { u_start : rune -> bool; u_lo : rune -> bool; u_part : rune -> bool }.

(** Facts about Go's tables the theorems rely on: the ASCII members are letters, digits and the low
    line, and no table contains a negative number, U+FFFD or white space. *)
Definition uni_ok (U : uni) : Prop := forall c, u_start U c || u_lo U c || u_part U c = true ->
  ((48 <= c <= 57 \/ 65 <= c <= 90 \/ c = 95 \/ 97 <= c <= 122) \/ (128 <= c /\ c <> RuneError /\ is_space c = false)).

(** ** Character classes *)

(** ecma/parser/lexer.go:1829-1831 IsOctalDigit. *)
Definition is_octal (c : rune) : bool := (48 <=? c) && (c <=? 55).
(** ecma/parser/lexer.go:1833-1835 IsHexDigit. *)
Definition is_hex (c : rune) : bool :=
  ((48 <=? c) && (c <=? 57)) || ((65 <=? c) && (c <=? 70)) || ((97 <=? c) && (c <=? 102)).
(** ecma/parser/lexer.go:1837-1839 IsDecimalDigit. *)
Definition is_digit (c : rune) : bool := (48 <=? c) && (c <=? 57).

(** ecma/parser/lexer.go:1797-1818 IsIdStart. *)
Definition is_id_start (U : uni) (c : rune) : bool :=
  if ((97 <=? c) && (c <=? 122)) || ((65 <=? c) && (c <=? 90)) || (c =? 36) || (c =? 95) || (c =? 92) then true
  else if u_start U c then true
  else u_lo U c && (c <=? 178205).
(** ecma/parser/lexer.go:1820-1827 IsIdPart. *)
Definition is_id_part (U : uni) (c : rune) : bool :=
  ((48 <=? c) && (c <=? 57)) || (c =? 8204) || (c =? 8205) || u_part U c.

(** Value of a digit, strconv.ParseInt. *)
Definition digit_val (c : rune) : Z := if c <=? 57 then c - 48 else if c <=? 90 then c - 55 else c - 87.
(** strconv.ParseInt(ds, base, 32) on valid digits, before the 32 bit check. *)
Definition parse_digits (base : Z) (ds : list rune) : Z := fold_left (fun a d => a * base + digit_val d) ds 0.

Definition ofst (s : source) : nat := s_ofst (st s).
(** Every round of the loops below consumes at least one byte; this many rounds are enough. *)
Definition fuel (s : source) : nat := S (length (s_raw (st s))).

(** ** Escape sequences *)

(** ecma/parser/lexer.go:1621-1645 readCodepoint, the loop. *)
Fixpoint cp_loop (n : nat) (s : source) (hex : list rune) : option (list rune) * source :=
  match n with
  | O => (None, s)
  | S n' =>
      if peek s =? 125 then (Some hex, snd (read s))
      else if ahead_is_eof s then (None, s)
      else let c := peek s in
           if (c =? RuneError) || negb (is_hex c) then (None, s)
           else let (r, s1) := read s in cp_loop n' s1 (hex ++ [r])
  end.

(** ecma/parser/lexer.go:1621-1645 readCodepoint. *)
Definition read_codepoint (s : source) : (rune * option (lexerr * nat)) * source :=
  let s1 := snd (read s) in
  match cp_loop (fuel s1) s1 [] with
  | (None, s2) => ((RuneError, Some (E_BAD_ESCAPE_SEQ, ofst s2)), s2)
  | (Some hex, s2) =>
      let r := parse_digits 16 hex in
      if MaxRune <? r then ((RuneError, Some (E_CODEPOINT_OUT_OF_BOUNDS, ofst s2)), s2)
      else match hex with
           | [] => ((RuneError, Some (E_BAD_ESCAPE_SEQ, ofst s2)), s2)
           | _ => ((r, None), s2)
           end
  end.

(** ecma/parser/lexer.go:1649-1655 readHex4Digits, the loop. *)
Fixpoint hex4_loop (n : nat) (s : source) (hex : list rune) : option (list rune) * source :=
  match n with
  | O => (Some hex, s)
  | S n' =>
      let c := peek s in
      if (c =? RuneError) || negb (is_hex c) then (None, s)
      else let (r, s1) := read s in hex4_loop n' s1 (hex ++ [r])
  end.

Section Lex.
Variable U : uni.
(** html_entity.go HTMLEntities: the bytes of an entity reference. *)
Variable entity : bytes -> option bytes.

(** ecma/parser/lexer.go:1647-1667 readHex4Digits. *)
Definition read_hex4 (id : bool) (start : nat) (s : source) : (rune * option (lexerr * nat)) * source :=
  match hex4_loop 4 s [] with
  | (None, s1) => ((RuneError, Some (E_BAD_ESCAPE_SEQ, start)), s1)
  | (Some hex, s1) =>
      let r := parse_digits 16 hex in
      if id && ((negb (is_id_start U r) && negb (is_id_part U r)) || (r =? 92))
      then ((RuneError, Some (E_INVALID_UNICODE_ESCAPE, start)), s1)
      else ((r, None), s1)
  end.

(** ecma/parser/lexer.go:1614-1619 readUnicodeEscapeSeq. *)
Definition read_unicode_escape_seq (id : bool) (start : nat) (s : source) : (rune * option (lexerr * nat)) * source :=
  if ahead_is_ch s 123 then read_codepoint s else read_hex4 id start s.

(** ecma/parser/lexer.go:1600-1612 readUnicodeEscape. *)
Definition read_unicode_escape (c : rune) (id : bool) (s : source) : (rune * bool * option (lexerr * nat)) * source :=
  if c =? 92 then
    if ahead_is_ch s 117 then
      let '((r, e), s1) := read_unicode_escape_seq id (pred (ofst s)) (snd (read s)) in ((r, true, e), s1)
    else ((RuneError, false, Some (E_EXPECTING_UNICODE_ESCAPE, pred (ofst s))), s)
  else ((c, false, None), s).

(** ecma/parser/lexer.go:1244-1254 readOctalEscapeSeq, the loop. *)
Fixpoint octal_loop (n : nat) (s : source) (ds : list rune) : list rune * source :=
  match n with
  | O => (ds, s)
  | S n' => if is_octal (peek s) then let (r, s1) := read s in octal_loop n' s1 (ds ++ [r]) else (ds, s)
  end.

(** ecma/parser/lexer.go:1236-1260 readOctalEscapeSeq; [tpl]: the lexer is in LM_TEMPLATE. *)
Definition read_octal_escape (tpl : bool) (first : rune) (s : source) : (rune * option lexerr * nat) * source :=
  if tpl then ((RuneError, Some E_TPL_LEGACY_OCTAL_ESCAPE_IN, O), s)
  else let (ds, s1) := octal_loop (if first <=? 51 then 2%nat else 1%nat) s [first] in
       ((parse_digits 8 ds, None, length ds), s1).

(** ecma/parser/lexer.go:1262-1274 readHexEscapeSeq. *)
Definition read_hex_escape (s : source) : (rune * option lexerr) * source :=
  let (h0, s1) := read s in
  let (h1, s2) := read s1 in
  if negb (is_hex h0) || negb (is_hex h1) then ((RuneError, Some E_BAD_ESCAPE_SEQ), s2)
  else ((parse_digits 16 [h0; h1], None), s2).

(** ecma/parser/lexer.go:1194-1233 readEscapeSeq: rune, error, legacy octal. *)
Definition read_escape_seq (tpl : bool) (s : source) : (rune * option lexerr * bool) * source :=
  let (c, s1) := read s in
  if c =? 98 then ((8, None, false), s1)
  else if c =? 102 then ((12, None, false), s1)
  else if c =? 110 then ((10, None, false), s1)
  else if c =? 114 then ((13, None, false), s1)
  else if c =? 116 then ((9, None, false), s1)
  else if c =? 118 then ((11, None, false), s1)
  else if is_octal c then
    let '((r, e, i), s2) := read_octal_escape tpl c s1 in ((r, e, negb (r =? 0) || negb (Nat.eqb i 1)), s2)
  else if c =? 120 then let '((r, e), s2) := read_hex_escape s1 in ((r, e, false), s2)
  else if c =? 117 then
    let '((r, e), s2) := read_unicode_escape_seq false (ofst s1) s1 in
    ((r, match e with Some (m, _) => Some m | None => None end, false), s2)
  else ((c, None, false), s1).

(** ecma/parser/lexer.go:1276-1281 readLineTerm. *)
Definition read_line_term (s : source) : source :=
  let (c, s1) := read s in if c =? 13 then snd (advance_if s1 10) else s1.

(** ** Strings *)

Inductive str_res :=
| SOk (buf : option bytes) (legacy : bool) (hi : nat)
| SErr (e : lexerr) (at_ofst : option nat).

(** ecma/parser/lexer.go:1097-1099 Lexer.IsLineTerminator. *)
Definition lex_line_term (feat : N) (c : rune) : bool :=
  (c =? 10) || (c =? 13) || (((c =? 8232) || (c =? 8233)) && negb (has feat FEAT_JSON_SUPER_SET)).

(** The copy of the text before the first escape, ecma/parser/lexer.go:1121-1128 and 1144-1151. *)
Definition start_buf (buf : option bytes) (s : source) (start o : nat) : bytes :=
  match buf with
  | Some b => b
  | None => if Nat.eqb o start then [] else match text s start (pred o) with Some t => t | None => [] end
  end.

(** ecma/parser/lexer.go:1113-1165 readStr, the loop. *)
Fixpoint str_loop (n : nat) (feat : N) (tpl : bool) (open : rune) (start : nat) (s : source)
    (buf : option bytes) (legacy : bool) : option (str_res * source) :=
  match n with
  | O => None
  | S n' =>
      let (c, s1) := read s in
      if c =? EOF then Some (SErr E_UNTERMINATED_STR None, s1)
      else if c =? 92 then
        let o := ofst s1 in
        if is_line_term (peek s1)
        then str_loop n' feat tpl open start (read_line_term s1) (Some (start_buf buf s1 start o)) legacy
        else
          let '((r, e, lo), s2) := read_escape_seq tpl s1 in
          match e with
          | Some m => Some (SErr m (Some o), s2)
          | None =>
              if r =? EOF then Some (SErr E_UNTERMINATED_STR None, s2)
              else str_loop n' feat tpl open start s2 (Some (start_buf buf s1 start o ++ encode_rune r)) (legacy || lo)
          end
      else if lex_line_term feat c then Some (SErr E_UNTERMINATED_STR None, s1)
      else if c =? open then Some (SOk buf legacy (pred (ofst s1)), s1)
      else str_loop n' feat tpl open start s1 (match buf with Some b => Some (b ++ encode_rune c) | None => None end) legacy
  end.

(** ** Tokens *)

(** ecma/parser/token.go the dynamic types of Token.ext. *)
Inductive ext :=
| XNone
| XStr (open : rune) (legacy : bool)
| XIdent (escape : bool)
| XTpl (str : bytes) (lo hi : nat) (plain : bool) (illegal : option lexerr)
| XRe (plo phi flo fhi : nat)
| XCmt (multiline : bool)
| XJsx (txt : bytes)
| XErr (e : lexerr).

(** ecma/parser/token.go:5-22 Token; [t_txt] is [txt]. *)
Record token := mk_tok {
  t_val : tv; t_lo : nat; t_hi : nat; t_text : bytes; t_txt : nat * nat; t_len : nat; t_atl : bool; t_ext : ext }.

(** ecma/parser/lexer.go:1756-1772 newToken, finToken of the token begun at [s0]. *)
Definition fin_tok (s0 s : source) (v : tv) (txt : bytes) (rg : nat * nat) (x : ext) : token :=
  mk_tok v (ofst s0) (ofst s) txt rg (s_pos (st s) - s_pos (st s0)) (s_met (st s)) x.
(** ecma/parser/lexer.go:1774-1795 errTokOfst, errTokMsg, errTok: an illegal token at [o]. *)
Definition err_tok (o : nat) (e : lexerr) : token := mk_tok T_ILLEGAL o o [] (0%nat, 0%nat) 0 false (XErr e).

(** ecma/parser/astutil.go:114-133 TokText. *)
Definition tok_text (t : token) (s : source) : bytes :=
  match t_text t with
  | _ :: _ => t_text t
  | [] =>
      if is_kw (t_val t) then tv_name (t_val t)
      else if tv_eqb (t_val t) T_EOF then []
      else if negb (rng_empty (mk_range (fst (t_txt t)) (snd (t_txt t))))
           then match text s (fst (t_txt t)) (snd (t_txt t)) with Some b => b | None => [] end
      else if (t_lo t <=? t_hi t)%nat
           then match text s (t_lo t) (t_hi t) with Some b => b | None => [] end
      else []
  end.

(** ecma/parser/lexer.go:1102-1173 readStr; [None]: out of fuel. *)
Definition read_str (feat : N) (tpl : bool) (s : source) : option (token * source) :=
  let (open, s1) := read s in
  match str_loop (fuel s1) feat tpl open (ofst s1) s1 None false with
  | None => None
  | Some (SErr e at_o, s2) => Some (err_tok (match at_o with Some o => o | None => ofst s end) e, s2)
  | Some (SOk buf legacy hi, s2) =>
      Some (fin_tok s s2 T_STRING (match buf with Some b => b | None => [] end) (ofst s1, hi) (XStr open legacy), s2)
  end.

(** ecma/parser/lexer.go:1175-1192 readJsxStr. *)
Fixpoint jsx_str_loop (n : nat) (open : rune) (s : source) : option (bool * source) :=
  match n with
  | O => None
  | S n' => let (c, s1) := read s in
            if c =? EOF then Some (false, s1) else if c =? open then Some (true, s1) else jsx_str_loop n' open s1
  end.
Definition read_jsx_str (s : source) : option (token * source) :=
  let (open, s1) := read s in
  match jsx_str_loop (fuel s1) open s1 with
  | None => None
  | Some (false, s2) => Some (err_tok (ofst s) E_UNTERMINATED_STR, s2)
  | Some (true, s2) => Some (fin_tok s s2 T_STRING [] (ofst s1, pred (ofst s2)) (XStr open false), s2)
  end.

(** ** Names *)

(** ecma/parser/lexer.go:1576-1598 readIdPart: bytes, escape seen, error. *)
Fixpoint id_part_loop (n : nat) (jsx : bool) (s : source) (rs : bytes) (esc : bool)
    : option ((bytes * bool * option (lexerr * nat)) * source) :=
  match n with
  | O => None
  | S n' =>
      let c := peek s in
      if is_id_start U c || is_id_part U c || (jsx && (c =? 45)) then
        let (c0, s1) := read s in
        let '((c1, e1, er), s2) := read_unicode_escape c0 true s1 in
        match er with
        | Some e => Some (([], e1, Some e), s2)
        | None =>
            if c1 =? 92 then Some (([], e1, Some (E_EXPECTING_UNICODE_ESCAPE, ofst s2)), s2)
            else id_part_loop n' jsx s2 (rs ++ encode_rune c1) (esc || e1)
        end
      else Some ((rs, esc, None), s)
  end.
Definition read_id_part (jsx : bool) (s : source) := id_part_loop (fuel s) jsx s [] false.

(** ecma/parser/lexer.go:594-655 readName, 1571-1574 readIdStart; [strict], [async]: the modes in force. *)
Definition read_name (feat : N) (strict async jsx : bool) (s : source) : option (token * source) :=
  let (c0, s1) := read s in
  let '((r, esc0, er), s2) := read_unicode_escape c0 true s1 in
  match er with
  | Some (e, o) => Some (err_tok o e, s2)
  | None =>
      if r =? RuneError then Some (err_tok (ofst s2) E_UNEXPECTED_CHAR, s2)
      else
        match read_id_part jsx s2 with
        | None => None
        | Some ((_, _, Some (e, o)), s3) => Some (err_tok o e, s3)
        | Some ((idp, esc1, None), s3) =>
            let esc := esc0 || esc1 in
            let txt := if esc then encode_rune r ++ idp
                       else match text s (ofst s) (ofst s3) with Some b => b | None => [] end in
            let fin v := fin_tok s s3 v txt (0%nat, 0%nat) (XIdent esc) in
            match keyword txt with
            | Some v => if esc then Some (err_tok (ofst s) E_ESCAPE_IN_KEYWORD, s3) else Some (fin v, s3)
            | None =>
                match (if strict then strict_keyword txt else None) with
                | Some v => Some (fin v, s3)
                | None =>
                    if bytes_eqb txt (bs "await")
                       && (has feat FEAT_MODULE || (has feat FEAT_ASYNC_AWAIT && async))
                    then if esc then Some (err_tok (ofst s) E_ESCAPE_IN_KEYWORD, s3) else Some (fin T_AWAIT, s3)
                    else Some (fin T_NAME, s3)
                end
            end
        end
  end.

(** ecma/parser/lexer.go:1283-1300 readNamePvt. *)
Definition read_name_pvt (feat : N) (strict async : bool) (s : source) : option (token * source) :=
  let s1 := snd (read s) in
  if negb (is_id_start U (peek s1)) then Some (err_tok (ofst s1) E_UNEXPECTED_CHAR, s1)
  else match read_name feat strict async false s1 with
       | None => None
       | Some (t, s2) =>
           let t' v x := mk_tok v (ofst s) (t_hi t) (t_text t) (t_txt t) (t_len t) (t_atl t) x in
           if tv_eqb (t_val t) T_NAME
           then if has feat FEAT_CLASS_PRV then Some (t' T_NAME_PVT (t_ext t), s2)
                else Some (t' T_ILLEGAL (XErr E_UNEXPECTED_CHAR), s2)
           else Some (t' (t_val t) (t_ext t), s2)
       end.

(** ** Numbers *)

(** ecma/parser/lexer.go:1398-1432 readDecimalDigits. *)
Fixpoint dec_loop (n : nat) (feat : N) (opt : bool) (s : source) (i : nat) (last : rune) : option lexerr * source :=
  match n with
  | O => (None, s)
  | S n' =>
      let c := peek s in
      if is_digit c || (c =? 95) then
        if (c =? 95) && negb (has feat FEAT_NUM_SEP) then (Some E_INVALID_NUMBER, s)
        else if Nat.eqb i 0 && (c =? 95) then (Some E_NUM_SEP_BEGIN, s)
        else if (last =? 95) && (c =? 95) then (Some E_NUM_SEP_DUP, s)
        else dec_loop n' feat opt (snd (read s)) (S i) c
      else if last =? 95 then (Some E_NUM_SEP_END, s)
      else if Nat.eqb i 0 && negb opt then
        if is_id_start U c then (Some E_IDENT_AFTER_NUMBER, s) else (Some E_INVALID_NUMBER, s)
      else (None, s)
  end.
Definition read_dec_digits (feat : N) (opt : bool) (s : source) := dec_loop (fuel s) feat opt s 0 0.

(** ecma/parser/lexer.go:1381-1388 bigintSuffix: an error?, the source. *)
Definition bigint_suffix (feat : N) (s : source) : option nat * source :=
  let (b, s1) := advance_if s 110 in
  if b && negb (has feat FEAT_BIGINT) then (Some (pred (ofst s1)), s1) else (None, s1).

(** ecma/parser/lexer.go:1390-1396 readExpPart. *)
Definition read_exp_part (feat : N) (s : source) : option lexerr * source :=
  let s1 := snd (read s) in
  let s2 := if ahead_is_ch_or s1 43 45 then snd (read s1) else s1 in
  read_dec_digits feat false s2.

(** ecma/parser/lexer.go:1370-1378, 1471-1477, 1514-1522, 1557-1563 the last checks shared by the number readers: the BigInt suffix (when [big]) and the
    following identifier start. *)
Definition num_end (feat : N) (big : bool) (s0 s : source) : token * source :=
  let (e, s1) := if big then bigint_suffix feat s else (None, s) in
  match e with
  | Some o => (err_tok o E_IDENT_AFTER_NUMBER, s1)
  | None => if is_id_start U (peek s1) then (err_tok (ofst s1) E_IDENT_AFTER_NUMBER, s1)
            else (fin_tok s0 s1 T_NUM [] (0%nat, 0%nat) XNone, s1)
  end.

(** ecma/parser/lexer.go:1332-1344 readDecimalNum, the digits of the integer part after the first. *)
Definition dec_int (feat : N) (first : rune) (s : source) : option (lexerr * nat) * source :=
  if negb (first =? 46) && negb (first =? 48) then
    let c := peek s in
    if negb (c =? 101) && negb (c =? 69) && negb (c =? 110) && is_id_start U c
    then (Some (E_IDENT_AFTER_NUMBER, ofst s), s)
    else match read_dec_digits feat true s with
         | (Some E_NUM_SEP_END, s1) => (Some (E_NUM_SEP_END, pred (ofst s1)), s1)
         | (Some e, s1) => (Some (e, ofst s1), s1)
         | (None, s1) => (None, s1)
         end
  else (None, s).
(** ecma/parser/lexer.go:1346-1360 the fraction: a dot was read? *)
Definition dec_frac (feat : N) (first : rune) (s : source) : option (lexerr * nat) * bool * source :=
  let dot := ahead_is_ch s 46 in
  if dot || (first =? 46) then
    let s1 := if dot then snd (read s) else s in
    match read_dec_digits feat true s1 with
    | (Some e, s2) => (Some (e, ofst s2), dot, s2)
    | (None, s2) => (None, dot, s2)
    end
  else (None, false, s).
(** ecma/parser/lexer.go:1362-1368 the exponent. *)
Definition dec_exp (feat : N) (s : source) : option (lexerr * nat) * bool * source :=
  if ahead_is_ch_or s 101 69 then
    match read_exp_part feat s with
    | (Some e, s1) => (Some (e, ofst s1), true, s1)
    | (None, s1) => (None, true, s1)
    end
  else (None, false, s).

(** ecma/parser/lexer.go:1331-1379 readDecimalNum: [s0] begin of the token, [s] after the first character. *)
Definition read_decimal_num (feat : N) (first : rune) (s0 s : source) : token * source :=
  match dec_int feat first s with
  | (Some (e, o), s1) => (err_tok o e, s1)
  | (None, s1) =>
      match dec_frac feat first s1 with
      | (Some (e, o), _, s2) => (err_tok o e, s2)
      | (None, float, s2) =>
          match dec_exp feat s2 with
          | (Some (e, o), _, s3) => (err_tok o e, s3)
          | (None, exp, s3) => num_end feat (negb (first =? 46) && negb float && negb exp) s0 s3
          end
      end
  end.

(** ecma/parser/lexer.go:1438-1462 readBinaryNum, the loop: digit count, last character. *)
Fixpoint bin_loop (n : nat) (feat : N) (s : source) (i : nat) (last : rune) : (option lexerr * nat * rune) * source :=
  match n with
  | O => ((None, i, last), s)
  | S n' =>
      let c := peek s in
      if (c =? 48) || (c =? 49) || (c =? 95) then
        if (c =? 95) && negb (has feat FEAT_NUM_SEP) then ((Some E_IDENT_AFTER_NUMBER, i, last), s)
        else if (c =? 95) && Nat.eqb i 0 then ((Some E_NUM_SEP_BEGIN, i, last), s)
        else if (c =? 95) && (last =? 95) then ((Some E_NUM_SEP_DUP, i, last), s)
        else bin_loop n' feat (snd (read s)) (S i) c
      else if is_id_start U c then
        if (c =? 110) && has feat FEAT_BIGINT then ((None, i, last), s)
        else ((Some E_IDENT_AFTER_NUMBER, i, last), s)
      else ((None, i, last), s)
  end.

(** ecma/parser/lexer.go:1434-1478 readBinaryNum. *)
Definition read_binary_num (feat : N) (s0 s : source) : token * source :=
  let s1 := snd (read s) in
  match bin_loop (fuel s1) feat s1 0 0 with
  | ((Some e, _, _), s2) => (err_tok (ofst s2) e, s2)
  | ((None, i, last), s2) =>
      if last =? 95 then (err_tok (pred (ofst s2)) E_NUM_SEP_END, s2)
      else if Nat.eqb i 0 then (err_tok (ofst s2) (E_EXPECT_NUM_RADIX 2), s2)
      else num_end feat true s0 s2
  end.

(** ecma/parser/lexer.go:1484-1505 readOctalNum, the loop. *)
Fixpoint oct_loop (n : nat) (feat : N) (legacy : bool) (s : source) (i : nat) (last : rune) : (option lexerr * nat * rune) * source :=
  match n with
  | O => ((None, i, last), s)
  | S n' =>
      let c := peek s in
      if is_octal c || (c =? 95) then
        if (c =? 95) && negb (has feat FEAT_NUM_SEP) then ((Some E_IDENT_AFTER_NUMBER, i, last), s)
        else if (c =? 95) && Nat.eqb i 0 then ((Some E_NUM_SEP_BEGIN, i, last), s)
        else if (c =? 95) && legacy then ((Some E_NUM_SEP_IN_LEGACY_OCTAL, i, last), s)
        else if (c =? 95) && (last =? 95) then ((Some E_NUM_SEP_DUP, i, last), s)
        else oct_loop n' feat legacy (snd (read s)) (S i) c
      else ((None, i, last), s)
  end.

(** ecma/parser/lexer.go:1480-1523 readOctalNum; [legacy]: called with i = 1. *)
Definition read_octal_num (feat : N) (legacy : bool) (s0 s : source) : token * source :=
  let s1 := snd (read s) in
  match oct_loop (fuel s1) feat legacy s1 (if legacy then 1%nat else 0%nat) 0 with
  | ((Some e, _, _), s2) => (err_tok (ofst s2) e, s2)
  | ((None, i, last), s2) =>
      if last =? 95 then (err_tok (pred (ofst s2)) E_NUM_SEP_END, s2)
      else if Nat.eqb i 0 then (err_tok (ofst s2) (E_EXPECT_NUM_RADIX 8), s2)
      else num_end feat (negb legacy) s0 s2
  end.

(** ecma/parser/lexer.go:1529-1548 readHexNum, the loop. *)
Fixpoint hex_loop (n : nat) (feat : N) (s : source) (i : nat) (last : rune) : (option lexerr * nat * rune) * source :=
  match n with
  | O => ((None, i, last), s)
  | S n' =>
      let c := peek s in
      if is_hex c || (c =? 95) then
        if (c =? 95) && negb (has feat FEAT_NUM_SEP) then ((Some E_IDENT_AFTER_NUMBER, i, last), s)
        else if (c =? 95) && Nat.eqb i 0 then ((Some E_NUM_SEP_BEGIN, i, last), s)
        else if (c =? 95) && (last =? 95) then ((Some E_NUM_SEP_DUP, i, last), s)
        else hex_loop n' feat (snd (read s)) (S i) c
      else ((None, i, last), s)
  end.

(** ecma/parser/lexer.go:1525-1564 readHexNum. *)
Definition read_hex_num (feat : N) (s0 s : source) : token * source :=
  let s1 := snd (read s) in
  match hex_loop (fuel s1) feat s1 0 0 with
  | ((Some e, _, _), s2) => (err_tok (ofst s2) e, s2)
  | ((None, i, last), s2) =>
      if Nat.eqb i 0 then (err_tok (ofst s2) (E_EXPECT_NUM_RADIX 16), s2)
      else if last =? 95 then (err_tok (pred (ofst s2)) E_NUM_SEP_BEGIN, s2)
      else num_end feat true s0 s2
  end.

(** ecma/parser/lexer.go:1303-1329 readNum. *)
Definition read_num (feat : N) (strict : bool) (s : source) : token * source :=
  let (c, s1) := read s in
  let p := peek s1 in
  if c =? 48 then
    if (p =? 98) || (p =? 66) then read_binary_num feat s s1
    else if (p =? 111) || (p =? 79) then read_octal_num feat false s s1
    else if (p =? 120) || (p =? 88) then read_hex_num feat s s1
    else if is_digit p then
      if is_octal p then
        if strict then (err_tok (ofst s) E_LEGACY_OCTAL_IN_STRICT_MODE, s1)
        else read_octal_num feat true s s1
      else (err_tok (ofst s) E_INVALID_NUMBER, s1)
    else read_decimal_num feat c s s1
  else read_decimal_num feat c s s1.

(** ** Comments *)

(** ecma/parser/lexer.go:950-969 readMultilineComment: terminated?, multi-line?. *)
Fixpoint mcmt_loop (n : nat) (s : source) (multi : bool) : option ((bool * bool) * source) :=
  match n with
  | O => None
  | S n' =>
      let (c, s1) := read s in
      if c =? 42 then if ahead_is_ch s1 47 then Some ((true, multi), snd (read s1)) else mcmt_loop n' s1 multi
      else if is_line_term c then mcmt_loop n' s1 true
      else if c =? EOF then Some ((false, multi), s1)
      else mcmt_loop n' s1 multi
  end.
(** [s0]: before the slash, [s]: after it. *)
Definition read_multi_cmt (s0 s : source) : option (token * source) :=
  let s1 := snd (read s) in
  match mcmt_loop (fuel s1) s1 false with
  | None => None
  | Some ((true, multi), s2) => Some (fin_tok s0 s2 T_COMMENT [] (0%nat, 0%nat) (XCmt multi), s2)
  | Some ((false, _), s2) => Some (err_tok (ofst s0) E_UNTERMINATED_COMMENT, s2)
  end.

(** ecma/parser/lexer.go:971-982 readSinglelineComment. *)
Fixpoint scmt_loop (n : nat) (s : source) : source :=
  match n with
  | O => s
  | S n' => let c := peek s in if (c =? EOF) || is_line_term c then s else scmt_loop n' (snd (read s))
  end.
Definition read_single_cmt (s0 s : source) : token * source :=
  let s1 := snd (read s) in
  let s2 := scmt_loop (fuel s1) s1 in
  (fin_tok s0 s2 T_COMMENT [] (0%nat, 0%nat) (XCmt false), s2).

(** ** Regular expressions *)

(** ecma/parser/lexer.go:996-1049 readRegexp, the loop: [couples] open groups and classes,
    [rng] inside a class, [rngLen > 0]. *)
Fixpoint re_loop (n : nat) (s0 s : source) (couples : list rune) (rng rl : bool) : option (option token * source) :=
  match n with
  | O => None
  | S n' =>
      let c := peek s in
      if c =? RuneError then Some (Some (err_tok (ofst s) E_UNEXPECTED_CHAR), s)
      else if is_line_term c then Some (Some (err_tok (ofst s) E_UNTERMINATED_REGEXP), s)
      else if c =? 92 then
        let o := ofst s in
        let s1 := snd (read s) in
        let nc := peek s1 in
        if nc =? 117 then
          match read_unicode_escape_seq false o (snd (read s1)) with
          | ((_, Some (e, eo)), s2) => Some (Some (err_tok eo e), s2)
          | ((_, None), s2) => re_loop n' s0 s2 couples rng rl
          end
        else re_loop n' s0 (if is_line_term nc then s1 else snd (read s1)) couples rng rl
      else
        let go couples' rng' := re_loop n' s0 (snd (read s)) couples' rng' (rl || rng') in
        if ((c =? 40) || (c =? 91)) && negb rng then go (c :: couples) (c =? 91)
        else if ((c =? 41) && negb rng) || ((c =? 93) && rl) then
          match couples with
          | [] => if c =? 41 then Some (Some (err_tok (ofst s0) E_UNTERMINATED_REGEXP), s) else go couples rng
          | lhs :: r =>
              if ((c =? 41) && (lhs =? 40)) || ((c =? 93) && (lhs =? 91))
              then go r (if c =? 93 then false else rng)
              else go couples rng
          end
        else if (c =? 47) && match couples with [] => true | _ => false end then Some (None, s)
        else if c =? EOF then Some (Some (err_tok (ofst s0) E_UNTERMINATED_REGEXP), s)
        else go couples rng
  end.

(** ecma/parser/lexer.go:1081-1095 isLegalFlag. *)
Definition legal_flag (feat : N) (f : rune) : bool :=
  (f =? 103) || (f =? 105) || (f =? 109)
  || ((f =? 100) && has feat FEAT_REGEXP_HAS_INDICES)
  || ((f =? 117) && has feat FEAT_REGEXP_UNICODE)
  || ((f =? 121) && has feat FEAT_REGEXP_STICKY)
  || ((f =? 115) && has feat FEAT_REGEXP_DOT_ALL).

(** ecma/parser/lexer.go:1734-1737 aheadIsIdPart. *)
Definition ahead_is_id_part (permit : bool) (s : source) : bool :=
  let c := peek s in (is_id_start U c && (permit || negb (c =? 92))) || is_id_part U c.

(** ecma/parser/lexer.go:989-1079 readRegexp; [s0]: before the slash, [s]: after it. *)
Definition read_regexp (feat : N) (s0 s : source) : option (token * source) :=
  match re_loop (fuel s) s0 s [] false false with
  | None => None
  | Some (Some t, s1) => Some (t, s1)
  | Some (None, s1) =>
      let s2 := snd (read s1) in
      let fl := if ahead_is_id_part false s2 then read_id_part false s2 else Some (([], false, None), s2) in
      match fl with
      | None => None
      | Some ((_, _, Some (e, o)), s3) => Some (err_tok o e, s3)
      | Some ((fs, _, None), s3) =>
          if has feat FEAT_CHK_REGEXP_FLAGS && negb (forallb (fun b => legal_flag feat (b2z b)) fs)
          then Some (err_tok (ofst s0) E_INVALID_REGEXP_FLAG, s3)
          else Some (fin_tok s0 s3 T_REGEXP [] (0%nat, 0%nat)
                       (XRe (ofst s) (ofst s1) (ofst s2) (match fs with [] => ofst s2 | _ => ofst s3 end)), s3)
      end
  end.

(** ** Modes and the lexer state *)

(** ecma/parser/lexer.go:14-31 LexerModeKind: [1 << iota], iota = 1 for LM_STRICT. *)
Definition LM_NONE : N := 0.
Definition LM_STRICT : N := 2.
Definition LM_TEMPLATE : N := 4.
Definition LM_TEMPLATE_TAGGED : N := 8.
Definition LM_ASYNC : N := 16.
Definition LM_GENERATOR : N := 32.
Definition LM_CLASS_BODY : N := 64.
Definition LM_CLASS_CTOR : N := 128.
Definition LM_NEW : N := 256.
Definition LM_JSX : N := 512.
Definition LM_JSX_CHILD : N := 1024.
Definition LM_JSX_ATTR : N := 2048.
Definition LM_TS : N := 4096.
Definition LM_TS_TYP_ARG : N := 8192.

(** ecma/parser/lexer.go:33-38 LexerMode; the fields brace and bracket are never used. *)
Record mode := mk_mode { m_kind : N; m_paren : Z }.

(** ecma/parser/lexer.go:112-160 Lexer with LexerState but for the tokens buffer and the state
    stack.  The head of [l_modes] is the last element of the slice; [pptVal] is never set and
    stays T_ILLEGAL.  [l_prevws]: range and [len] of prevWs. *)
Record lx := mk_lx {
  l_src : source; l_feat : N; l_modes : list mode; l_prt : tv; l_begin : bool; l_prevws : nat * nat * nat;
  l_expr_cmts : list (nat * nat); l_stmt_cmts : list (nat * nat); l_maybe_lsh : list nat; l_lsh : list nat }.

(** ecma/parser/lexer.go:162-173 NewLexer. *)
Definition new_lexer (feat : N) (c : bytes) : lx :=
  mk_lx (new_source c) feat [mk_mode LM_NONE 0] T_ILLEGAL false (0%nat, 0%nat, 0%nat) [] [] [] [].

Definition set_src (l : lx) (s : source) : lx :=
  mk_lx s (l_feat l) (l_modes l) (l_prt l) (l_begin l) (l_prevws l) (l_expr_cmts l) (l_stmt_cmts l) (l_maybe_lsh l) (l_lsh l).
Definition set_modes (l : lx) (m : list mode) : lx :=
  mk_lx (l_src l) (l_feat l) m (l_prt l) (l_begin l) (l_prevws l) (l_expr_cmts l) (l_stmt_cmts l) (l_maybe_lsh l) (l_lsh l).
Definition set_prt (l : lx) (v : tv) : lx :=
  mk_lx (l_src l) (l_feat l) (l_modes l) v (l_begin l) (l_prevws l) (l_expr_cmts l) (l_stmt_cmts l) (l_maybe_lsh l) (l_lsh l).
Definition set_begin (l : lx) (b : bool) : lx :=
  mk_lx (l_src l) (l_feat l) (l_modes l) (l_prt l) b (l_prevws l) (l_expr_cmts l) (l_stmt_cmts l) (l_maybe_lsh l) (l_lsh l).
Definition set_prevws (l : lx) (w : nat * nat * nat) : lx :=
  mk_lx (l_src l) (l_feat l) (l_modes l) (l_prt l) (l_begin l) w (l_expr_cmts l) (l_stmt_cmts l) (l_maybe_lsh l) (l_lsh l).
Definition set_maybe (l : lx) (m : list nat) : lx :=
  mk_lx (l_src l) (l_feat l) (l_modes l) (l_prt l) (l_begin l) (l_prevws l) (l_expr_cmts l) (l_stmt_cmts l) m (l_lsh l).
Definition add_cmt (l : lx) (stmt : bool) (r : nat * nat) : lx :=
  mk_lx (l_src l) (l_feat l) (l_modes l) (l_prt l) (l_begin l) (l_prevws l)
        (if stmt then l_expr_cmts l else l_expr_cmts l ++ [r]) (if stmt then l_stmt_cmts l ++ [r] else l_stmt_cmts l)
        (l_maybe_lsh l) (l_lsh l).

(** ecma/parser/lexer.go:298-300 CurMode. *)
Definition cur_mode (l : lx) : mode := match l_modes l with m :: _ => m | [] => mk_mode LM_NONE 0 end.
(** ecma/parser/lexer.go:312-314 IsMode. *)
Definition is_mode (l : lx) (k : N) : bool := negb (N.eqb (N.land (m_kind (cur_mode l)) k) 0).

(** ecma/parser/lexer.go:275-285 PushMode. *)
Definition push_mode (k : N) (inherit : bool) (l : lx) : lx :=
  let c := m_kind (cur_mode l) in
  let v := N.lor (N.lor (N.land c LM_STRICT) (N.land c LM_ASYNC)) (N.land c LM_TS) in
  set_modes l (mk_mode (if inherit then N.lor k v else k) 0 :: l_modes l).

(** ecma/parser/lexer.go:287-296 PopMode. *)
Definition pop_mode (l : lx) : lx :=
  match l_modes l with
  | [] | [_] => set_modes l [mk_mode LM_NONE 0]
  | _ :: r => set_modes l r
  end.

Definition add_paren (l : lx) (d : Z) : lx :=
  match l_modes l with m :: r => set_modes l (mk_mode (m_kind m) (m_paren m + d) :: r) | [] => l end.
(** ecma/parser/lexer.go:302-310 AddMode, EraseMode. *)
Definition add_mode (k : N) (l : lx) : lx :=
  match l_modes l with m :: r => set_modes l (mk_mode (N.lor (m_kind m) k) (m_paren m) :: r) | [] => l end.
Definition erase_mode (k : N) (l : lx) : lx :=
  match l_modes l with m :: r => set_modes l (mk_mode (N.ldiff (m_kind m) k) (m_paren m) :: r) | [] => l end.

(** ecma/parser/lexer.go:316-328 skipSpace. *)
Definition lx_skip_space (l : lx) : lx :=
  let s := l_src l in
  let s1 := skip_space s in
  if negb (has (l_feat l) FEAT_JSX) then set_src l s1
  else set_prevws (set_src l s1) (ofst s, ofst s1, s_pos (st s1) - s_pos (st s))%nat.

(** ** Templates *)

Record tpl_res := mk_tpl { tp_text : bytes; tp_fin : bool; tp_ofst : nat; tp_err : bool; tp_escape : option lexerr }.

(** ecma/parser/lexer.go:526-591 readTplChs; the mode pushed at line 537 does not influence the loop
    and is pushed by [read_tpl_span].  [None]: the loop never ends (line 577 does not consume). *)
Fixpoint tpl_loop (n : nat) (tpl : bool) (s : source) (txt : bytes) (ee : option lexerr) : option (tpl_res * source) :=
  match n with
  | O => None
  | S n' =>
      let o := ofst s in
      let c := peek s in
      if c =? 36 then
        let s1 := snd (read s) in
        if ahead_is_ch s1 123 then Some (mk_tpl txt false o false ee, snd (read s1))
        else tpl_loop n' tpl s1 (txt ++ encode_rune c) ee
      else if c =? 92 then
        let s1 := snd (read s) in
        if is_line_term (peek s1) then tpl_loop n' tpl (read_line_term s1) txt ee
        else match ee with
             | Some _ => tpl_loop n' tpl (snd (read s1)) txt ee
             | None =>
                 let '((r, e, lo), s2) := read_escape_seq tpl s1 in
                 let ee' := match e with Some m => Some m | None => if r =? RuneError then Some E_BAD_ESCAPE_SEQ else None end in
                 if r =? EOF then Some (mk_tpl txt false o true ee', s2)
                 else tpl_loop n' tpl s2 (txt ++ encode_rune r) ee'
             end
      else if c =? RuneError then tpl_loop n' tpl s txt (Some E_BAD_RUNE)
      else if c =? EOF then Some (mk_tpl txt false o true ee, s)
      else if c =? 96 then Some (mk_tpl txt true o false ee, snd (read s))
      else let (r, s1) := read s in tpl_loop n' tpl s1 (txt ++ encode_rune r) ee
  end.

(** ecma/parser/lexer.go:475-524 readTplSpan. *)
Definition read_tpl_span (l : lx) : option (token * lx) :=
  let s := l_src l in
  let (c, s1) := read s in
  let head := c =? 96 in
  let l1 := if head then push_mode LM_TEMPLATE true (set_src l s1) else pop_mode (set_src l s1) in
  match tpl_loop (fuel s1) (is_mode l1 LM_TEMPLATE) s1 [] None with
  | None => None
  | Some (p, s2) =>
      let l2 := set_src l1 s2 in
      if tp_err p then Some (err_tok (ofst s) E_UNTERMINATED_TPL, pop_mode l2)
      else
        let v := if head then T_TPL_HEAD else if tp_fin p then T_TPL_TAIL else T_TPL_SPAN in
        let t := fin_tok s s2 v [] (0%nat, 0%nat) (XTpl (tp_text p) (ofst s1) (tp_ofst p) (head && tp_fin p) (tp_escape p)) in
        Some (t, if tp_fin p then pop_mode l2 else push_mode LM_TEMPLATE true l2)
  end.

(** ** Punctuators *)

(** ecma/parser/lexer.go:657-679 aheadIsRegexp. *)
Definition ahead_is_regexp (l : lx) : bool :=
  if is_mode l LM_JSX || is_mode l LM_JSX_ATTR || is_mode l LM_TS_TYP_ARG then false
  else if l_begin l then true
  else if tv_eqb (l_prt l) T_ILLEGAL then true
  else tv_before_expr (l_prt l).

Definition rd (s : source) : source := snd (read s).

(** ecma/parser/lexer.go:710-917 the cases of readSymbol that only look at the following characters: token value and source. *)
Definition sym_plain (ts typarg : bool) (c : rune) (s : source) : option (tv * source) :=
  if c =? 123 then Some (T_BRACE_L, s)
  else if c =? 125 then Some (T_BRACE_R, s)
  else if c =? 40 then Some (T_PAREN_L, s)
  else if c =? 41 then Some (T_PAREN_R, s)
  else if c =? 91 then Some (T_BRACKET_L, s)
  else if c =? 93 then Some (T_BRACKET_R, s)
  else if c =? 59 then Some (T_SEMI, s)
  else if c =? 44 then Some (T_COMMA, s)
  else if c =? 58 then Some (T_COLON, s)
  else if c =? 46 then Some (if ahead_is_chs2 s 46 46 then (T_DOT_TRI, rd (rd s)) else (T_DOT, s))
  else if c =? 63 then Some (
    if ahead_is_ch s 46 && negb (is_digit (ahead2nd s)) then (T_OPT_CHAIN, rd s)
    else if ahead_is_ch s 63 then
      if ahead_is_ch (rd s) 61 then (T_ASSIGN_NULLISH, rd (rd s)) else (T_NULLISH, rd s)
    else (T_HOOK, s))
  else if c =? 43 then Some (
    if ahead_is_ch s 43 then (T_INC, rd s) else if ahead_is_ch s 61 then (T_ASSIGN_ADD, rd s) else (T_ADD, s))
  else if c =? 45 then Some (
    if ahead_is_ch s 45 then (T_DEC, rd s) else if ahead_is_ch s 61 then (T_ASSIGN_SUB, rd s) else (T_SUB, s))
  else if c =? 61 then Some (
    if ahead_is_ch s 62 then (T_ARROW, rd s)
    else if ahead_is_chs2 s 61 61 then (T_EQ_S, rd (rd s))
    else if ahead_is_ch s 61 then (T_EQ, rd s) else (T_ASSIGN, s))
  else if c =? 62 then Some (
    if ahead_is_ch s 61 then (T_GTE, rd s)
    else if negb typarg && ahead_is_ch s 62 then
      let s1 := rd s in
      if ahead_is_ch s1 62 then
        if ahead_is_ch (rd s1) 61 then (T_ASSIGN_BIT_RSH_U, rd (rd s1)) else (T_RSH_U, rd s1)
      else if ahead_is_ch s1 61 then (T_ASSIGN_BIT_RSH, rd s1) else (T_RSH, s1)
    else (T_GT, s))
  else if c =? 42 then Some (
    if ahead_is_ch s 42 then
      if ahead_is_ch (rd s) 61 then (T_ASSIGN_POW, rd (rd s)) else (T_POW, rd s)
    else if ahead_is_ch s 61 then (T_ASSIGN_MUL, rd s) else (T_MUL, s))
  else if c =? 124 then Some (
    if ahead_is_ch s 124 then
      if ahead_is_ch (rd s) 61 then (T_ASSIGN_OR, rd (rd s)) else (T_OR, rd s)
    else if ahead_is_ch s 61 then (T_ASSIGN_BIT_OR, rd s) else (T_BIT_OR, s))
  else if c =? 38 then Some (
    if ahead_is_ch s 38 then
      if ahead_is_ch (rd s) 61 then (T_ASSIGN_AND, rd (rd s)) else (T_AND, rd s)
    else if ahead_is_ch s 61 then (T_ASSIGN_BIT_AND, rd s) else (T_BIT_AND, s))
  else if c =? 37 then Some (if ahead_is_ch s 61 then (T_ASSIGN_MOD, rd s) else (T_MOD, s))
  else if c =? 33 then Some (
    if ahead_is_ch s 61 then
      if ahead_is_ch (rd s) 61 then (T_NE_S, rd (rd s)) else (T_NE, rd s)
    else (T_NOT, s))
  else if c =? 126 then Some (T_BIT_NOT, s)
  else if c =? 94 then Some (if ahead_is_ch s 61 then (T_ASSIGN_BIT_XOR, rd s) else (T_BIT_XOR, s))
  else None.

(** ecma/parser/lexer.go:937-945 the features a punctuator needs, and 851-853 for [**]. *)
Definition sym_allowed (feat : N) (v : tv) : bool :=
  match v with
  | T_DOT_TRI => has feat FEAT_SPREAD && has feat FEAT_BINDING_REST_ELEM
  | T_OPT_CHAIN => has feat FEAT_OPT_EXPR
  | T_NULLISH => has feat FEAT_NULLISH
  | T_ASSIGN_NULLISH | T_ASSIGN_AND | T_ASSIGN_OR => has feat FEAT_LOGIC_ASSIGN
  | T_POW | T_ASSIGN_POW => has feat FEAT_POW
  | _ => true
  end.

Definition mem_nat (o : nat) (l : list nat) : bool := existsb (Nat.eqb o) l.

(** ecma/parser/lexer.go:706-948 readSymbol. *)
Definition read_symbol (l : lx) : option (token * lx) :=
  let s := l_src l in
  let (c, s1) := read s in
  let feat := l_feat l in
  let fin v s2 l' := (fin_tok s s2 v [] (0%nat, 0%nat) XNone, set_src l' s2) in
  if c =? 60 then (* 791-818 *)
    if ahead_is_ch s1 61 then Some (fin T_LTE (rd s1) l)
    else if ahead_is_ch s1 60 then
      if negb (is_space (ahead2nd s1)) && (is_mode l LM_TS || is_mode l LM_TS_TYP_ARG) then
        if mem_nat (ofst s) (l_lsh l) then Some (fin T_LT s1 l)
        else if negb (mem_nat (ofst s) (l_maybe_lsh l)) then Some (fin T_LT s1 (set_maybe l (ofst s :: l_maybe_lsh l)))
        else Some (fin T_ILLEGAL s1 l)
      else
        let s2 := rd s1 in
        if ahead_is_ch s2 61 then Some (fin T_ASSIGN_BIT_LSH (rd s2) l) else Some (fin T_LSH s2 l)
    else Some (fin T_LT s1 l)
  else if c =? 47 then (* 918-930 *)
    if ahead_is_ch s1 47 then let (t, s2) := read_single_cmt s s1 in Some (t, set_src l s2)
    else if ahead_is_ch s1 42 then
      match read_multi_cmt s s1 with Some (t, s2) => Some (t, set_src l s2) | None => None end
    else if ahead_is_regexp l then
      match read_regexp feat s s1 with Some (t, s2) => Some (t, set_src l s2) | None => None end
    else if ahead_is_ch s1 61 then Some (fin T_ASSIGN_DIV (rd s1) l)
    else Some (fin T_DIV s1 l)
  else if c =? 64 then Some (fin (if has feat FEAT_DECORATOR then T_AT else T_ILLEGAL) s1 l)
  else match sym_plain (is_mode l LM_TS) (is_mode l LM_TS_TYP_ARG) c s1 with
       | None => Some (fin T_ILLEGAL s1 l)
       | Some (v, s2) =>
           if sym_allowed feat v then
             let l' := match v with
                       | T_BRACE_L => push_mode LM_NONE true l
                       | T_BRACE_R => pop_mode l
                       | T_PAREN_L => add_paren l 1
                       | T_PAREN_R => add_paren l (-1)
                       | _ => l
                       end in
             Some (fin v s2 l')
           else Some (err_tok (ofst s) E_UNEXPECTED_TOKEN, set_src l s2)
       end.

(** ** JSX *)

(** ecma/parser/lexer.go:1684-1712 readJSXTxt, the loop; [ent]: the collected entity, never
    emptied while its used prefix [ent[0:i]] is. *)
Fixpoint jsx_txt_loop (n : nat) (s : source) (rs : bytes) (ent : bytes) (i : nat) : option ((bytes * bool * bool) * source) :=
  match n with
  | O => None
  | S n' =>
      let c := peek s in
      if (c =? 123) || (c =? 60) || (c =? EOF) then Some ((rs, (Nat.eqb i 0) && (c =? EOF), false), s)
      else if (c =? 38) || negb (Nat.eqb i 0) then
        let s1 := rd s in
        let ent1 := ent ++ encode_rune c in
        if c =? 59 then
          match entity (firstn (S i) ent1) with
          | Some b => jsx_txt_loop n' s1 (rs ++ b) ent1 0
          | None => Some ((rs, false, true), s1)
          end
        else jsx_txt_loop n' s1 rs ent1 (S i)
      else let (r, s1) := read s in jsx_txt_loop n' s1 (rs ++ encode_rune r) ent i
  end.

(** ecma/parser/lexer.go:1669-1716 readJSXTxt. *)
Definition read_jsx_txt (l : lx) : option (token * lx) :=
  let s := l_src l in
  let '(wlo, whi, wlen) := l_prevws l in
  let prews := match wlen with O => [] | _ => match text s wlo whi with Some b => b | None => [] end end in
  let lo := match wlen with O => ofst s | _ => wlo end in
  match jsx_txt_loop (fuel s) s [] [] 0 with
  | None => None
  | Some ((_, _, true), s1) => Some (err_tok lo E_JSX_UNDEFINED_HTML_ENTITY, set_src l s1)
  | Some ((rs, eof, false), s1) =>
      let t := fin_tok s s1 (if eof then T_EOF else T_JSX_TXT) [] (0%nat, 0%nat) (if eof then XNone else XJsx (prews ++ rs)) in
      Some (mk_tok (t_val t) lo (t_hi t) (t_text t) (t_txt t) (t_len t) (t_atl t) (t_ext t), set_src l s1)
  end.

(** ecma/parser/lexer.go:353-405 the part of readTokWithComment for LM_JSX and LM_JSX_CHILD. *)
Definition read_jsx (l : lx) : option (token * lx) :=
  let s := l_src l in
  let c := peek s in
  let one v (f : lx -> lx) := Some (fin_tok s (rd s) v [] (0%nat, 0%nat) XNone, f (set_src l (rd s))) in
  let id (l : lx) := l in
  if c =? 123 then one T_BRACE_L (push_mode LM_NONE true)
  else if c =? 125 then one T_BRACE_R pop_mode
  else if c =? 60 then one T_LT id
  else if is_mode l LM_JSX then
    if c =? 58 then one T_COLON id
    else if c =? 46 then one T_DOT id
    else if c =? 47 then
      if ahead_is_ch (rd s) 47 then let (t, s2) := read_single_cmt s (rd s) in Some (t, set_src l s2)
      else one T_DIV id
    else if c =? 62 then one T_GT id
    else if c =? 61 then one T_ASSIGN id
    else if ((c =? 34) || (c =? 39)) && is_mode l LM_JSX_ATTR then
      match read_jsx_str s with Some (t, s2) => Some (t, set_src l s2) | None => None end
    else if c =? 45 then one T_HYPHEN id
    else if is_id_start U c then
      match read_name (l_feat l) (is_mode l LM_STRICT) (is_mode l LM_ASYNC) true s with
      | Some (t, s2) => Some (t, set_src l s2) | None => None end
    else Some (err_tok (ofst s) E_UNEXPECTED_TOKEN, l)
  else read_jsx_txt l.

(** ** One token *)

(** ecma/parser/lexer.go:1739-1745 aheadIsNumStart. *)
Definition ahead_is_num_start (s : source) : bool :=
  is_digit (peek s) || ((peek s =? 46) && is_digit (ahead2nd s)).

(** ecma/parser/lexer.go:330-406 readTokWithComment. *)
Definition read_tok_cmt (l0 : lx) : option (token * lx) :=
  let l := lx_skip_space l0 in
  let s := l_src l in
  let up (r : option (token * source)) := match r with Some (t, s2) => Some (t, set_src l s2) | None => None end in
  if ahead_is_eof s then Some (fin_tok s s T_EOF [] (0%nat, 0%nat) XNone, l)
  else if is_mode l LM_JSX || is_mode l LM_JSX_CHILD then read_jsx l
  else
    let c := peek s in
    if is_id_start U c then up (read_name (l_feat l) (is_mode l LM_STRICT) (is_mode l LM_ASYNC) false s)
    else if ahead_is_num_start s then let (t, s2) := read_num (l_feat l) (is_mode l LM_STRICT) s in Some (t, set_src l s2)
    else if (c =? 39) || (c =? 34) then
      if is_mode l LM_JSX_ATTR then up (read_jsx_str s) else up (read_str (l_feat l) (is_mode l LM_TEMPLATE) s)
    else if (c =? 96) || (is_mode l LM_TEMPLATE && (c =? 125)) then read_tpl_span l
    else if c =? 35 then up (read_name_pvt (l_feat l) (is_mode l LM_STRICT) (is_mode l LM_ASYNC) s)
    else read_symbol l.

(** ecma/parser/lexer.go:408-429 lexTok; [prt], [atm], [pext]: a comment was read before, its
    afterLineTerm and whether it spans lines. *)
Fixpoint lex_loop (n : nat) (l : lx) (prt atm pext : bool) : option (token * lx) :=
  match n with
  | O => None
  | S n' =>
      match read_tok_cmt l with
      | None => None
      | Some (t, l1) =>
          if negb (tv_eqb (t_val t) T_COMMENT) then
            Some (if negb (t_atl t) && prt && pext
                  then mk_tok (t_val t) (t_lo t) (t_hi t) (t_text t) (t_txt t) (t_len t) true (t_ext t) else t, l1)
          else
            let multi := match t_ext t with XCmt b => b | _ => false end in
            lex_loop n' (add_cmt l1 (t_atl t || (prt && atm) || Nat.eqb (t_lo t) 0) (t_lo t, t_hi t)) true (t_atl t) multi
      end
  end.
Definition lex_tok (l : lx) : option (token * lx) := lex_loop (fuel (l_src l)) l false false false.

(** ecma/parser/lexer.go:176-181, 451-472 Next with an empty tokens buffer. *)
Definition next_tok (l : lx) : option (token * lx) :=
  match lex_tok l with Some (t, l1) => Some (t, set_prt l1 (t_val t)) | None => None end.
End Lex.
