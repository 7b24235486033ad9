(** ecma/parser/ts.go: references to types and type predicates. *)
From Verif Require Import Base TokenModel LexModel ParseBase ExprModel TsPostModel.

(** Who a predicate is about: a name or this. *)
Inductive who := WName (t : tname bytes) | WThis.
Section Ref.
Variables (T L : Type) (ident binding : pst -> pres bytes) (typ : pst -> pres T) (args : pst -> pres L).
(** TsRef and TsTypPredicate, without ranges. *)
Inductive rtyp := RRef (t : tname bytes) (l : option L) | RPred (asserts : bool) (w : who) (t : option T).
(** The word is: ecma/parser/ts.go:636. *)
Definition is_word (s : pst) : bool := at_tok T_NAME s && bytes_eqb (t_text (peek s)) (bs "is").
(** ecma/parser/ts.go:618-647 tsTypPredicate; [binding] is ident(nil, true), [typ] is tsTyp. *)
Definition predicate (asserts this : bool) (name : tname bytes) (s : pst) : pres rtyp :=
  pbind (if asserts then if this then POk WThis (next s) else pbind (binding s) (fun i s1 => POk (WName (NOne i)) s1)
         else POk (WName name) s) (fun w s1 =>
  if is_word s1 then pbind (typ (next s1)) (fun t s2 => POk (RPred asserts w (Some t)) s2) else POk (RPred asserts w None) s1).
(** ecma/parser/ts.go:649-672 tsRef; [known]: the name the caller has read, [ident] is identWithKw, [args] is tsTypArgs.  With
    type arguments the range of [known] is asked for, a nil pointer when there is none (line 671).  Simplified: the word
    asserts has no escapes. *)
Definition ref_typ (fuel : nat) (known : option bytes) (s : pst) : pres rtyp :=
  pbind (match known with Some i => name_loop bytes ident fuel (NOne i) s | None => typ_name bytes ident fuel s end) (fun t s1 =>
  let asserts := match t with NOne i => bytes_eqb i (bs "asserts") | _ => false end in
  if asserts && (at_tok T_NAME s1 || at_tok T_THIS s1) || bytes_eqb (t_text (peek s1)) (bs "is") then predicate asserts (at_tok T_THIS s1) t s1
  else if negb (at_tok T_LT s1) then POk (RRef t None) s1
  else pbind (args s1) (fun l s2 => match known with Some _ => POk (RRef t (Some l)) s2 | None => PPanic end)).
End Ref.
Arguments RRef {T L} _ _.
Arguments RPred {T L} _ _ _.
