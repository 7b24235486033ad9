(** Specification of the source cursor and of line/column positions, independent of
    the code's loops. *)
From Verif Require Import Base Utf8Model SourceModel.

(** CRLF and lone CR become LF. *)
Fixpoint crlf_norm (l : list rune) : list rune :=
  match l with
  | [] => []
  | x :: r =>
      if (x =? 13)%Z
      then 10%Z :: match r with
                   | y :: r' => if (y =? 10)%Z then crlf_norm r' else crlf_norm r
                   | [] => []
                   end
      else x :: crlf_norm r
  end.

(** [e] is the offset just behind a line break: behind a LF, or behind a CR that is not
    followed by a LF. *)
Definition break_end (c : bytes) (e : nat) : bool :=
  match e with
  | O => false
  | S i =>
      match nth_error c i with
      | None => false
      | Some b =>
          (b2z b =? 10)%Z
          || ((b2z b =? 13)%Z
              && match nth_error c e with
                 | Some b' => negb (b2z b' =? 10)%Z
                 | None => true
                 end)
      end
  end.

(** Line breaks that end at or before [o]. *)
Definition breaks_upto (c : bytes) (o : nat) : list nat := filter (break_end c) (seq 1 o).

Definition spec_line (c : bytes) (o : nat) : nat := 1 + length (breaks_upto c o).
Definition spec_start (c : bytes) (o : nat) : nat := last (breaks_upto c o) 0.
Definition slice (c : bytes) (lo hi : nat) : bytes := firstn (hi - lo) (skipn lo c).
Definition spec_col (c : bytes) (o : nat) : nat :=
  length (decode_all (slice c (spec_start c o) o)).

(** Offsets at which a rune starts (or the end of the text). *)
Inductive boundary (c : bytes) : nat -> Prop :=
| bd_zero : boundary c 0
| bd_next : forall o, boundary c o -> o < length c ->
    boundary c (o + snd (decode_rune (skipn o c))).

(** Longest prefix satisfying [f] and the rest. *)
Fixpoint take_while {A} (f : A -> bool) (l : list A) : list A :=
  match l with [] => [] | x :: r => if f x then x :: take_while f r else [] end.
Fixpoint drop_while {A} (f : A -> bool) (l : list A) : list A :=
  match l with [] => [] | x :: r => if f x then drop_while f r else l end.

(** Unicode's White_Space property. *)
Definition white_space : list Z :=
  [9; 10; 11; 12; 13; 32; 133; 160; 5760; 8192; 8193; 8194; 8195; 8196; 8197; 8198; 8199;
   8200; 8201; 8202; 8232; 8233; 8239; 8287; 12288]%Z.

(** ECMA-262 WhiteSpace (TAB VT FF SP NBSP, category Zs, BOM) and LineTerminator. *)
Definition ecma_space : list Z :=
  [9; 10; 11; 12; 13; 32; 160; 5760; 8192; 8193; 8194; 8195; 8196; 8197; 8198; 8199;
   8200; 8201; 8202; 8232; 8233; 8239; 8287; 12288; 65279]%Z.

Definition line_terminators : list Z := [10; 13; 8232; 8233]%Z.

(** Operations other than the three checkpoint operations. *)
Definition plain_op (o : sop) : Prop :=
  match o with OPush | OPop | ODiscard => False | _ => True end.

(** Histories in which every checkpoint taken is given back (popped or discarded), nested
    like parentheses. *)
Inductive balanced : list sop -> Prop :=
| bal_nil : balanced []
| bal_op : forall o ops, plain_op o -> balanced ops -> balanced (o :: ops)
| bal_pop : forall a b, balanced a -> balanced b -> balanced (OPush :: a ++ OPop :: b)
| bal_discard : forall a b, balanced a -> balanced b -> balanced (OPush :: a ++ ODiscard :: b).
