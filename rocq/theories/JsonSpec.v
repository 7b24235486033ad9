(** Specification of comment stripping: a document is a sequence of segments. *)
From Verif Require Import Base Utf8Model SourceModel SourceSpec.
Local Open Scope Z_scope.

(** A string literal's content: ordinary characters and backslash escapes. *)
Inductive sitem := IPlain (c : rune) | IEsc (c : rune).
Definition item_src (i : sitem) : list rune := match i with IPlain c => [c] | IEsc c => [92; c] end.
Definition item_ok (i : sitem) : Prop := match i with IPlain c => c <> 34 /\ c <> 92 | IEsc _ => True end.

Inductive lterm := TLF | TCRLF | TCR | TEnd.
Definition term_src (t : lterm) : list rune :=
  match t with TLF => [10] | TCRLF => [13; 10] | TCR => [13] | TEnd => [] end.

Inductive seg :=
| GText (c : rune)                          (* one character outside strings and comments *)
| GStr (items : list sitem)                 (* "..." *)
| GLine (body : list rune) (t : lterm)      (* //... and its line terminator *)
| GBlock (body : list rune)                 (* /*...*/ *)
| GStrOpen (items : list sitem) (bs : bool) (* string that never ends, [bs]: ends in a backslash *)
| GBlockOpen (body : list rune).            (* block comment that never ends *)

Definition seg_src (g : seg) : list rune :=
  match g with
  | GText c => [c]
  | GStr it => 34 :: flat_map item_src it ++ [34]
  | GLine b t => 47 :: 47 :: b ++ term_src t
  | GBlock b => 47 :: 42 :: b ++ [42; 47]
  | GStrOpen it e => 34 :: flat_map item_src it ++ (if e then [92] else [])
  | GBlockOpen b => 47 :: 42 :: b
  end.
Definition doc_src (d : list seg) : list rune := flat_map seg_src d.

(** The list does not contain [a] directly followed by [b]. *)
Definition no_pair (a b : rune) (l : list rune) : Prop := forall x y, l <> x ++ a :: b :: y.
Definition starts (c : rune) (l : list rune) : Prop := exists r, l = c :: r.

(** Each segment is what a left-to-right reader of the source takes it to be. *)
Fixpoint doc_ok (d : list seg) : Prop :=
  match d with
  | [] => True
  | g :: r =>
      match g with
      | GText c => c <> 34 /\ (c = 47 -> ~ starts 47 (doc_src r) /\ ~ starts 42 (doc_src r))
      | GStr it => Forall item_ok it
      | GLine b t => ~ In 10 b /\ ~ In 13 b /\ (t = TEnd -> r = []) /\ (t = TCR -> ~ starts 10 (doc_src r))
      | GBlock b => no_pair 42 47 b
      | GStrOpen it _ => Forall item_ok it /\ r = []
      | GBlockOpen b => no_pair 42 47 b /\ r = []
      end /\ doc_ok r
  end.

(** The first rune that is not white space. *)
Definition first_visible (l : list rune) : option rune :=
  hd_error (filter (fun c => negb (existsb (Z.eqb c) white_space)) l).

Definition blank_block (b : list rune) : list rune :=
  flat_map (fun c => if (c =? 10) || (c =? 13) then [10; 32] else [32]) b.

(** The stripped document: strings and text unchanged, comments blank (a line break inside a block
    comment comes out as a line feed and a blank), trailing commas blank. *)
Fixpoint doc_out (d : list seg) : list rune :=
  match d with
  | [] => []
  | g :: r =>
      match g with
      | GText c => if (c =? 44) && match first_visible (doc_src r) with
                                   | Some v => (v =? 125) || (v =? 93)
                                   | None => false
                                   end
                   then [32] else [c]
      | GStr _ | GStrOpen _ _ => seg_src g
      | GLine b t => 32 :: 32 :: map (fun _ => 32) b ++ match t with TEnd => [] | _ => [10] end
      | GBlock b => 32 :: 32 :: blank_block b ++ [32; 32]
      | GBlockOpen b => 32 :: 32 :: blank_block b
      end ++ doc_out r
  end.

(** No string literal ends in an escaped backslash. *)
Definition no_escaped_end (d : list seg) : Prop :=
  forall it, In (GStr it) d -> forall pre, it <> pre ++ [IEsc 92].

(** Number of line breaks (LF, CR or CRLF). *)
Definition line_breaks (l : list rune) : nat := count_occ Z.eq_dec (crlf_norm l) 10.
