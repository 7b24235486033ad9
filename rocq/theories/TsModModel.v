(** ecma/parser/parser.go and ts.go: the modifiers of a class member in TypeScript. *)
From Coq Require Import PeanoNat.
From Verif Require Import Base.

(** public, private and protected are [Access]. *)
Inductive modifier := Access | Abstract | Static | Override | Readonly | Declare.
Definition mod_eqb (a b : modifier) : bool :=
  match a, b with
  | Access, Access | Abstract, Abstract | Static, Static | Override, Override | Readonly, Readonly | Declare, Declare => true
  | _, _ => false
  end.
(** span/source.go:312-318 Before and Empty of a range. *)
Definition range : Type := nat * nat.
Definition before (a b : range) : bool := Nat.ltb (snd a) (fst b).
Definition empty (r : range) : bool := Nat.eqb (fst r) 0 && Nat.eqb (snd r) 0.
(** The places of the modifiers, (0, 0) for one that is not there. *)
Definition places : Type := modifier -> range.
Definition none : places := fun _ => (0, 0).
Definition set (f : places) (m : modifier) (r : range) : places := fun k => if mod_eqb k m then r else f k.
(** ecma/parser/parser.go:1335-1444, the loop of modifiers: the words ahead that can be modifiers with their ranges; a word
    that was there before ends the loop.  Simplified: each word is followed by a name, so isField says no; the words
    come as a list. *)
Fixpoint modifiers (f : places) (l : list (modifier * range)) : places * list (modifier * range) :=
  match l with
  | [] => (f, [])
  | (m, r) :: l' => if empty (f m) then modifiers (set f m r) l' else (f, l)
  end.
(** ecma/parser/ts.go:2458-2484 tsCheckLabeledOrder; true is no error. *)
Fixpoint ordered_from (l : list (modifier * range * list modifier)) : bool :=
  match l with
  | [] => true
  | (a, ra, skip) :: l' =>
      match l' with
      | [] => true
      | (b, rb, _) :: _ => (before ra rb || existsb (mod_eqb b) skip) && ordered_from l'
      end
  end.
Definition check_order (l : list (modifier * range * list modifier)) : bool :=
  ordered_from (filter (fun x => negb (empty (snd (fst x)))) l).
(** ecma/parser/ts.go:2486-2510 tsModifierOrder; true is no error; [brace] is whether { is ahead. *)
Definition modifier_order (f : places) (brace : bool) : bool :=
  if negb (empty (f Static)) && negb (empty (f Abstract)) then false
  else if negb (empty (f Declare)) && negb (empty (f Override)) then false
  else if negb (empty (f Static)) && brace &&
          (negb (empty (f Access)) || negb (empty (f Override)) || negb (empty (f Readonly)) || negb (empty (f Declare))) then false
  else check_order [(Access, f Access, []); (Abstract, f Abstract, [Readonly]); (Static, f Static, []); (Override, f Override, []); (Readonly, f Readonly, [])].
(** ecma/parser/parser.go:1447-1450, the beginning of classElem: the words as modifiers of a member, if there is no error. *)
Definition member_modifiers (l : list (modifier * range)) (brace : bool) : option (list (modifier * range)) :=
  let x := modifiers none l in if modifier_order (fst x) brace then Some (snd x) else None.
