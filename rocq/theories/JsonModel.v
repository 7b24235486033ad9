(** Model of util/str.go: RemoveJsonComments. *)
From Verif Require Import Base Utf8Model SourceModel.
Local Open Scope Z_scope.

(** util/str.go:17-21 the values 0-3 of [state]. *)
Inductive jstate := JNorm | JStr | JLine | JBlock.

(** util/str.go:33-46 peekNoWhite, on the decoded rest of the input; at the end, and on malformed
    input whose error the only caller drops, it returns RuneError. *)
Fixpoint peek_no_white (l : list rune) : rune :=
  match l with
  | [] => RuneError
  | r :: l' => if is_space r then peek_no_white l' else r
  end.

(** util/str.go:125-132 what the end of the loop body writes for the rune [r]. *)
Definition fall_out (st : jstate) (r : rune) : list rune :=
  match st with
  | JNorm | JStr => [r]
  | JLine => [32]
  | JBlock => if (r =? 13) || (r =? 10) then [10; 32] else [32]
  end.

Definition emit (o : list rune) (k : option (list rune)) : option (list rune) :=
  match k with Some x => Some (o ++ x) | None => None end.

(** util/str.go:54-134 the main loop over the decoded input ([str] only ever advances by whole
    decoded runes, so it is represented by them).  [None] is the error "deformed json".  [pr] is
    only assigned at the end of the body, not before a [continue]. *)
Fixpoint strip (st : jstate) (pr : rune) (l : list rune) : option (list rune) :=
  match l with
  | [] => Some []
  | r :: l1 =>
      if r =? RuneError then None
      else
        let fall st' := emit (fall_out st' r) (strip st' r l1) in
        if r =? 34 then
          match st with
          | JNorm => fall JStr
          | JStr => if negb (pr =? 92) then fall JNorm else fall JStr
          | _ => fall st
          end
        else if r =? 47 then
          match st, l1 with
          | JNorm, p :: l2 =>
              if p =? 47 then emit [32; 32] (strip JLine pr l2)
              else if p =? 42 then emit [32; 32] (strip JBlock pr l2)
              else fall st
          | _, _ => fall st
          end
        else if r =? 13 then
          match st with
          | JLine =>
              match l1 with
              | p :: l2 => if p =? 10 then emit [10] (strip JNorm pr l2) else emit [10] (strip JNorm pr l1)
              | [] => emit [10] (strip JNorm pr l1)
              end
          | _ => fall st
          end
        else if r =? 10 then
          match st with
          | JLine => emit [10] (strip JNorm pr l1)
          | _ => fall st
          end
        else if r =? 42 then
          match st, l1 with
          | JBlock, p :: l2 => if p =? 47 then emit [32; 32] (strip JNorm pr l2) else fall st
          | _, _ => fall st
          end
        else if r =? 44 then
          match st with
          | JNorm =>
              let pp := peek_no_white l1 in
              if (pp =? 125) || (pp =? 93) then emit [32] (strip st pr l1) else fall st
          | _ => fall st
          end
        else fall st
  end.

(** util/str.go:14-136 RemoveJsonComments. *)
Definition remove_json_comments (s : bytes) : option bytes :=
  match strip JNorm RuneError (decode_all s) with
  | Some o => Some (flat_map encode_rune o)
  | None => None
  end.
