(** Model of span/source.go. *)
From Verif Require Import Base Utf8Model.

(** span/source.go:20-29 Runes.advance: rune (EOF at the end), its size and the rest. *)
Definition runes_advance (raw : bytes) : rune * nat * bytes :=
  let (r, size) := decode_rune raw in
  let r' := if (r =? RuneError)%Z && Nat.eqb size 0 then EOF else r in
  (r', size, skipn size raw).

(** span/source.go:31-36 SourceState.  uint32 counters are unbounded [nat]. *)
Record sstate := mk_sstate {
  s_raw : bytes; s_ofst : nat; s_pos : nat; s_met : bool }.

(** span/source.go:50-62 Source; [Path] is irrelevant to behaviour and left out. *)
Record source := mk_source {
  code : bytes; st : sstate; ss : list sstate }.

(** span/source.go:38-42, 64-71 newSourceState, NewSource. *)
Definition new_source (c : bytes) : source := mk_source c (mk_sstate c 0 0 false) [].

Definition set_st (s : source) (x : sstate) : source := mk_source (code s) x (ss s).

(** span/source.go:80-82 PushState; the head of [ss] is the last element of the Go slice. *)
Definition push_state (s : source) : source := mk_source (code s) (st s) (st s :: ss s).

(** span/source.go:85-88 DiscardState; [None] is the slice-bounds panic. *)
Definition discard_state (s : source) : option source :=
  match ss s with [] => None | _ :: r => Some (mk_source (code s) (st s) r) end.

(** span/source.go:91-96 PopState. *)
Definition pop_state (s : source) : option source :=
  match ss s with [] => None | x :: r => Some (mk_source (code s) x r) end.

(** span/source.go:99-108 Source.advance. *)
Definition src_advance (s : source) : rune * source :=
  let '(r, size, rest) := runes_advance (s_raw (st s)) in
  if (r =? EOF)%Z
  then (EOF, set_st s (mk_sstate rest (s_ofst (st s)) (s_pos (st s)) (s_met (st s))))
  else (r, set_st s (mk_sstate rest (s_ofst (st s) + size) (S (s_pos (st s))) (s_met (st s)))).

(** span/source.go:110-114 Peek. *)
Definition peek (s : source) : rune :=
  let '(r, _, _) := runes_advance (s_raw (st s)) in r.

(** span/source.go:116-124 Ahead2nd. *)
Definition ahead2nd (s : source) : rune :=
  let '(r, size, rest) := runes_advance (s_raw (st s)) in
  if Nat.eqb size 0 then r
  else let '(r2, _, _) := runes_advance rest in r2.

(** span/source.go:126-128 AheadIsCh. *)
Definition ahead_is_ch (s : source) (c : rune) : bool := (peek s =? c)%Z.

(** span/source.go:130-132 AheadIsEOF. *)
Definition ahead_is_eof (s : source) : bool := Nat.eqb (s_ofst (st s)) (length (code s)).

(** span/source.go:175-177 IsLineTerminator. *)
Definition is_line_term (c : rune) : bool :=
  ((c =? 10) || (c =? 13) || (c =? 8232) || (c =? 8233))%Z.

(** span/source.go:143-156 Read. *)
Definition read (s : source) : rune * source :=
  let (r, s1) := src_advance s in
  let s2 := if is_line_term r
            then (if (r =? 13)%Z
                  then (if (peek s1 =? 10)%Z then snd (src_advance s1) else s1)
                  else s1)
            else s1 in
  let r' := if ((r =? 13) || (r =? 10))%Z then 10%Z else r in
  (r', s2).

(** span/source.go:134-140 AdvanceIf. *)
Definition advance_if (s : source) (c : rune) : bool * source :=
  if (peek s =? c)%Z then (true, snd (read s)) else (false, s).

(** span/source.go:158-168 AheadIsChs2. *)
Definition ahead_is_chs2 (s : source) (c1 c2 : rune) : bool :=
  let '(r1, size, rest) := runes_advance (s_raw (st s)) in
  let r2 := if Nat.eqb size 0 then RuneError
            else let '(r2, _, _) := runes_advance rest in r2 in
  ((r1 =? c1) && (r2 =? c2))%Z.

(** span/source.go:170-173 AheadIsChOr. *)
Definition ahead_is_ch_or (s : source) (c1 c2 : rune) : bool :=
  ((peek s =? c1) || (peek s =? c2))%Z.

(** Go's unicode.IsSpace (Latin-1 cases and the White_Space table). *)
Definition is_space (c : rune) : bool :=
  (in_rng 9 13 c || (c =? 32) || (c =? 133) || (c =? 160) || (c =? 5760)
   || in_rng 8192 8202 c || (c =? 8232) || (c =? 8233) || (c =? 8239)
   || (c =? 8287) || (c =? 12288))%Z.

Definition set_met (s : source) (b : bool) : source :=
  set_st s (mk_sstate (s_raw (st s)) (s_ofst (st s)) (s_pos (st s)) b).

(** span/source.go:204-217 the loop of SkipSpace; each round consumes a byte, so the
    fuel passed by [skip_space] is never exhausted before the loop ends. *)
Fixpoint skip_space_loop (n : nat) (s : source) : source :=
  match n with
  | O => s
  | S n' =>
      let c := peek s in
      if negb (is_space c) || (c =? EOF)%Z then s
      else let s1 := if is_line_term c then set_met s true else s in
           skip_space_loop n' (snd (read s1))
  end.

(** span/source.go:204-217 SkipSpace. *)
Definition skip_space (s : source) : source :=
  skip_space_loop (S (length (s_raw (st s)))) (set_met s false).

(** span/source.go:220-230 Text / RngText; [None] is the slice-bounds panic. *)
Definition text (s : source) (lo hi : nat) : option bytes :=
  if (lo <=? hi)%nat && (hi <=? length (code s))%nat
  then Some (firstn (hi - lo) (skipn lo (code s))) else None.

(** Iterating Read until it returns EOF: the observable rune stream of a source. *)
Fixpoint read_all (n : nat) (s : source) : list rune * source :=
  match n with
  | O => ([], s)
  | S n' => let (r, s1) := read s in
            if (r =? EOF)%Z then ([], s1)
            else let (rs, s2) := read_all n' s1 in (r :: rs, s2)
  end.

(** All cursor operations as one step function; [None] is a Go panic. *)
Inductive sop :=
| OPeek | OAhead2nd | OAheadIsCh (c : rune) | OAheadIsChs2 (c1 c2 : rune)
| OAdvanceIf (c : rune) | ORead | OSkipSpace | OPush | OPop | ODiscard.

Definition sstep (s : source) (o : sop) : option source :=
  match o with
  | OPeek | OAhead2nd | OAheadIsCh _ | OAheadIsChs2 _ _ => Some s
  | OAdvanceIf c => Some (snd (advance_if s c))
  | ORead => Some (snd (read s))
  | OSkipSpace => Some (skip_space s)
  | OPush => Some (push_state s)
  | OPop => pop_state s
  | ODiscard => discard_state s
  end.

Fixpoint srun (s : source) (ops : list sop) : option source :=
  match ops with
  | [] => Some s
  | o :: r => match sstep s o with Some s' => srun s' r | None => None end
  end.

(** span/source.go:232 the regexp [\r\n?|\n]: start and end of the first match. *)
Fixpoint find_lf (i : nat) (s : bytes) : option (nat * nat) :=
  match s with
  | [] => None
  | b :: r =>
      if (b2z b =? 13)%Z
      then match r with
           | b2 :: _ => if (b2z b2 =? 10)%Z then Some (i, i + 2) else Some (i, i + 1)
           | [] => Some (i, i + 1)
           end
      else if (b2z b =? 10)%Z then Some (i, i + 1)
      else find_lf (S i) r
  end.

(** span/source.go:251-268 the RESTORE loop / 287-304: advance [cur] over the line breaks
    that end at or before [ofst], counting lines.  Every round that repeats increases [cur],
    so fuel [length code + 1] suffices ([None] = out of fuel, shown impossible). *)
Fixpoint lc_loop (n : nat) (c : bytes) (ofst cur line : nat) : option (nat * nat) :=
  match n with
  | O => None
  | S n' =>
      match find_lf 0 (skipn cur c) with
      | Some (_, e) => if (cur + e <=? ofst)%nat then lc_loop n' c ofst (cur + e) (S line)
                       else Some (cur, line)
      | None => Some (cur, line)
      end
  end.

(** len([]rune(s.code[cur:ofst])); [None] is the slice-bounds panic. *)
Definition col_of (c : bytes) (cur ofst : nat) : option nat :=
  if (cur <=? ofst)%nat && (ofst <=? length c)%nat
  then Some (length (decode_all (firstn (ofst - cur) (skipn cur c)))) else None.

(** span/source.go:279-305 OfstLineCol. *)
Definition ofst_line_col (s : source) (ofst : nat) : option (nat * nat) :=
  match lc_loop (S (length (code s))) (code s) ofst 0 1 with
  | Some (cur, line) =>
      match col_of (code s) cur ofst with Some c => Some (line, c) | None => None end
  | None => None
  end.

(** span/source.go:239-277 LineCol: the second pass continues from the first one's [cur]/[line]. *)
Definition line_col (s : source) (lo hi : nat) : option ((nat * nat) * (nat * nat)) :=
  match lc_loop (S (length (code s))) (code s) lo 0 1 with
  | Some (cur, line) =>
      match col_of (code s) cur lo with
      | Some c1 =>
          match lc_loop (S (length (code s))) (code s) hi cur line with
          | Some (cur2, line2) =>
              match col_of (code s) cur2 hi with
              | Some c2 => Some ((line, c1), (line2, c2))
              | None => None
              end
          | None => None
          end
      | None => None
      end
  | None => None
  end.

(** span/source.go:307-322 Range. *)
Record range := mk_range { r_lo : nat; r_hi : nat }.
Definition rng_before (a b : range) : bool := (r_hi a <? r_lo b)%nat.
Definition rng_empty (a : range) : bool := Nat.eqb (r_lo a) 0 && Nat.eqb (r_hi a) 0.
Definition rng_valid (a : range) : bool := (r_lo a <=? r_hi a)%nat.
