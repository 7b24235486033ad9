(** ecma/parser/symtab.go: scopes, declarations and the table of scopes.  A scope is a cell of a heap, a pointer
    to it is an index; maps with string keys are association lists, newest entry first. *)
From Verif Require Import Base.

(** ecma/parser/symtab.go:3-44 ScopeKind. *)
Definition bit (n : N) : N := N.shiftl 1 n.
Definition SPK_LOOP_DIRECT := bit 1.
Definition SPK_LOOP_INDIRECT := bit 2.
Definition SPK_SWITCH := bit 3.
Definition SPK_SWITCH_INDIRECT := bit 4.
Definition SPK_STRICT := bit 5.
Definition SPK_STRICT_DIR := bit 6.
Definition SPK_TRY := bit 7.
Definition SPK_TRY_INDIRECT := bit 8.
Definition SPK_CATCH := bit 9.
Definition SPK_BLOCK := bit 10.
Definition SPK_GLOBAL := bit 11.
Definition SPK_INTERIM := bit 12.
Definition SPK_FUNC := bit 13.
Definition SPK_FUNC_INDIRECT := bit 14.
Definition SPK_ARROW := bit 15.
Definition SPK_ASYNC := bit 16.
Definition SPK_GENERATOR := bit 17.
Definition SPK_PAREN := bit 18.
Definition SPK_CLASS := bit 19.
Definition SPK_CLASS_INDIRECT := bit 20.
Definition SPK_CLASS_EXTEND_SUPER := bit 21.
Definition SPK_CLASS_HAS_SUPER := bit 22.
Definition SPK_CTOR := bit 23.
Definition SPK_LEXICAL_DEC := bit 24.
Definition SPK_SHORTHAND_PROP := bit 25.
Definition SPK_METHOD := bit 26.
Definition SPK_NOT_IN := bit 27.
Definition SPK_PROP_NAME := bit 28.
Definition SPK_FORMAL_PARAMS := bit 29.
Definition SPK_ABSTRACT_CLASS := bit 30.
Definition SPK_TS_DECLARE := bit 31.
Definition SPK_TS_MODULE := bit 32.
Definition SPK_TS_MODULE_INDIRECT := bit 33.
Definition SPK_TS_INTERFACE := bit 34.
Definition SPK_TS_MAY_INTRINSIC := bit 35.

(** ecma/parser/symtab.go:46-55 BindKind, 57-69 RefDefType. *)
Inductive bind := BK_NONE | BK_VAR | BK_PARAM | BK_LET | BK_CONST | BK_PVT_FIELD.
Definition bind_eqb (a b : bind) : bool :=
  match a, b with
  | BK_NONE, BK_NONE | BK_VAR, BK_VAR | BK_PARAM, BK_PARAM | BK_LET, BK_LET | BK_CONST, BK_CONST
  | BK_PVT_FIELD, BK_PVT_FIELD => true
  | _, _ => false
  end.
Definition RDT_NONE : N := 0.
Definition RDT_FN := bit 1.
Definition RDT_PVT_FIELD := bit 2.
Definition RDT_CLASS := bit 3.
Definition RDT_IMPORT := bit 4.
Definition RDT_ENUM := bit 5.
Definition RDT_CONST_ENUM := bit 6.
Definition RDT_ITF := bit 7.
Definition RDT_NS := bit 8.
Definition RDT_TYPE := bit 9.

(** [x & m != 0]. *)
Definition has (x m : N) : bool := negb (N.eqb (N.land x m) 0).

(** ecma/parser/symtab.go:79-97 IsTyp, IsPureTyp, IsVal. *)
Definition is_typ (t : N) : bool := has t RDT_TYPE.
Definition is_pure_typ (t : N) : bool :=
  has t RDT_TYPE && (negb (has t RDT_CLASS) || negb (has t RDT_ENUM) || negb (has t RDT_CONST_ENUM)).
Definition is_val (t : N) : bool := negb (is_pure_typ t).

(** ecma/parser/symtab.go:99-121 Ref.  [r_tag] stands for the identity of the Ref (its Id and Dec), [r_scope]
    is Scope, nil until the declaration is recorded; Forward is left out. *)
Record ref := mk_ref { r_tag : nat; r_bind : bind; r_typ : N; r_scope : option nat }.

(** ecma/parser/symtab.go:316-464, the helpers of CheckRefDup; they only look at Typ. *)
Definition callable_class (a b : N) : bool :=
  if has a RDT_FN then has b RDT_CLASS && has b RDT_TYPE
  else if has b RDT_FN then has a RDT_CLASS && has a RDT_TYPE
  else false.
Definition both_fn_typ_dec (a b : N) : bool := has a RDT_FN && has a RDT_TYPE && has b RDT_FN && has b RDT_TYPE.
Definition both_typ (a b : N) : bool := is_typ a && is_typ b.
Definition both_val (a b : N) : bool := is_val a && is_val b.
Definition cls_and_itf (a b : N) : bool :=
  if has a RDT_CLASS then has b RDT_ITF else if has b RDT_CLASS then has a RDT_ITF else false.
Definition both_enum (a b : N) : bool :=
  (has a RDT_ENUM && has b RDT_ENUM) || (has a RDT_CONST_ENUM && has b RDT_CONST_ENUM).
Definition enum_and_val (a b : N) : bool :=
  (has a RDT_ENUM && negb (has b RDT_ENUM)) || (negb (has a RDT_ENUM) && has b RDT_ENUM).
Definition both_itf (a b : N) : bool := has a RDT_ITF && has b RDT_ITF.
Definition one_of_ns (a b : N) : bool := has a RDT_NS || has b RDT_NS.

(** ecma/parser/symtab.go:291-314 CheckRefDup. *)
Definition check_ref_dup (a b : N) : bool :=
  if callable_class a b then true
  else if both_fn_typ_dec a b then true
  else if cls_and_itf a b then true
  else if both_enum a b then true
  else if enum_and_val a b then false
  else if both_itf a b then true
  else if one_of_ns a b then true
  else negb (both_typ a b) && negb (both_val a b).

(** ecma/parser/symtab.go:127-165 Scope, NewScope.  Node, Labels and Exports are left out. *)
Record scope := mk_scope {
  sc_id : nat; sc_kind : N; sc_up : option nat; sc_down : list nat;
  sc_labels : list (bytes * nat); sc_refs : list (bytes * ref) }.

(** ecma/parser/symtab.go:487-509 SymTab, NewSymTab.  Externals is left out; the cell 0 is Root. *)
Record tab := mk_tab { t_heap : list scope; t_table : list (nat * nat); t_cur : nat; t_seed : nat }.
Definition new_tab : tab := mk_tab [mk_scope 0 0 None [] [] []] [(0, 0)] 0 0.

Definition no_scope : scope := mk_scope 0 0 None [] [] [].
Definition sc (t : tab) (p : nat) : scope := nth p (t_heap t) no_scope.
Definition cur (t : tab) : scope := sc t (t_cur t).

Fixpoint put_at {A} (l : list A) (i : nat) (x : A) : list A :=
  match l, i with [], _ => [] | _ :: r, O => x :: r | y :: r, S i' => y :: put_at r i' x end.
Definition upd (t : tab) (p : nat) (s : scope) : tab :=
  mk_tab (put_at (t_heap t) p s) (t_table t) (t_cur t) (t_seed t).

Fixpoint find_b {A} (k : bytes) (l : list (bytes * A)) : option A :=
  match l with [] => None | (k', v) :: r => if bytes_eqb k k' then Some v else find_b k r end.
Fixpoint find_n {A} (k : nat) (l : list (nat * A)) : option A :=
  match l with [] => None | (k', v) :: r => if Nat.eqb k k' then Some v else find_n k r end.

Definition set_kind (s : scope) (k : N) : scope :=
  mk_scope (sc_id s) k (sc_up s) (sc_down s) (sc_labels s) (sc_refs s).
Definition set_down (s : scope) (d : list nat) : scope :=
  mk_scope (sc_id s) (sc_kind s) (sc_up s) d (sc_labels s) (sc_refs s).
Definition set_ref (s : scope) (n : bytes) (r : ref) : scope :=
  mk_scope (sc_id s) (sc_kind s) (sc_up s) (sc_down s) (sc_labels s) ((n, r) :: sc_refs s).
Definition set_labels (s : scope) (l : list (bytes * nat)) : scope :=
  mk_scope (sc_id s) (sc_kind s) (sc_up s) (sc_down s) l (sc_refs s).

(** ecma/parser/symtab.go:163-177 IsKind, AddKind, EraseKind. *)
Definition is_kind (s : scope) (k : N) : bool := has (sc_kind s) k.
Definition add_kind (t : tab) (p : nat) (k : N) : tab := upd t p (set_kind (sc t p) (N.lor (sc_kind (sc t p)) k)).
Definition erase_kind (t : tab) (p : nat) (k : N) : tab := upd t p (set_kind (sc t p) (N.ldiff (sc_kind (sc t p)) k)).

(** ecma/parser/symtab.go:179-181 Local. *)
Definition local (t : tab) (p : nat) (n : bytes) : option ref := find_b n (sc_refs (sc t p)).

(** The walk over the Up links all the lookups below do; a scope is older than those below it, so the number
    of cells bounds the walk. *)
Fixpoint walk_up {A} (t : tab) (fuel : nat) (stop : nat -> option A) (p : nat) : option A :=
  match fuel with
  | O => None
  | S fuel' =>
      match stop p with
      | Some a => Some a
      | None => match sc_up (sc t p) with Some q => walk_up t fuel' stop q | None => None end
      end
  end.

(** ecma/parser/symtab.go:183-192 UpperFn. *)
Definition upper_fn (t : tab) (p : nat) : option nat :=
  walk_up t (length (t_heap t))
    (fun p => if is_kind (sc t p) SPK_FUNC || is_kind (sc t p) SPK_GLOBAL then Some p else None) p.

(** The end of AddLocal, ecma/parser/symtab.go:270-289.  [l]: what the scope has under the name; [t0] and [t1]:
    the table without and with the declaration in it. *)
Definition finish_local (t : tab) (l : option ref) (r : ref) (dup : bool) (t0 t1 : tab) : option (bool * tab) :=
  if negb dup then Some (true, t1)
  else match l with
       | None => Some (true, t1)
       | Some lr =>
           let chk := Some (check_ref_dup (r_typ lr) (r_typ r), t0) in
           if negb (bind_eqb (r_bind lr) BK_VAR) && negb (bind_eqb (r_bind lr) BK_PARAM)
              && negb (N.eqb (r_typ lr) RDT_FN)
           then match r_scope lr with
                | None => None
                | Some q => if negb (Nat.eqb (sc_id (sc t q)) 0) || negb (bind_eqb (r_bind r) BK_VAR)
                            then chk else Some (true, t1)
                end
           else if negb (bind_eqb (r_bind r) BK_VAR) then chk else Some (true, t1)
       end.
Definition put_local (n : bytes) (q : nat) (x : ref) (t : tab) : tab := upd t q (set_ref (sc t q) n x).
Definition done (p : nat) (r : ref) : ref := mk_ref (r_tag r) (r_bind r) (r_typ r) (Some p).
Definition undone (r : ref) : ref := mk_ref (r_tag r) (r_bind r) (r_typ r) None.

(** ecma/parser/symtab.go:248-289 AddLocal: whether the declaration is accepted, or None for the nil
    dereferences of [ps.Refs] (no enclosing function) and [.Scope.Id] (a declaration whose Scope is nil).  The
    parser gives every call a Ref of its own, so the Ref stored in the function's scope before [ref.Scope = s]
    is modelled by storing the completed one if the call gets there and the incomplete one if it returns
    earlier. *)
Definition add_local (t : tab) (p : nat) (r : ref) (n : bytes) (dup : bool) : option (bool * tab) :=
  let l := local t p n in
  if is_kind (sc t p) SPK_CATCH && match l with Some _ => true | None => false end then Some (false, t)
  else if bind_eqb (r_bind r) BK_VAR
  then match upper_fn t p with
       | None => None
       | Some ps =>
           let go := finish_local t l r dup (put_local n ps (undone r) t)
                       (put_local n p (done p r) (put_local n ps (done p r) t)) in
           match local t ps n with
           | None => go
           | Some lp =>
               if negb dup || bind_eqb (r_bind lp) BK_PARAM then go
               else if negb (bind_eqb (r_bind lp) BK_VAR) && negb (N.eqb (r_typ lp) RDT_FN)
               then Some (check_ref_dup (r_typ lp) (r_typ r), t)
               else match r_scope lp with
                    | None => None
                    | Some q => if Nat.eqb (sc_id (sc t q)) 0 && N.eqb (r_typ lp) RDT_FN
                                then Some (check_ref_dup (r_typ lp) (r_typ r), t) else go
                    end
           end
       end
  else finish_local t l r dup t (put_local n p (done p r) t).

(** ecma/parser/symtab.go:470-480 BindingOf. *)
Definition binding_of (t : tab) (p : nat) (n : bytes) : option ref :=
  walk_up t (length (t_heap t)) (fun p => local t p n) p.

(** ecma/parser/symtab.go:511-590 EnterScope: the flags of the new scope from those of the current one ... *)
Definition entered_kind (k : N) (fn arrow : bool) : N :=
  let from (c : bool) (m : N) (x : N) := if c then N.lor x m else x in
  let k0 := if fn then SPK_FUNC else SPK_BLOCK in
  let k1 := if fn then k0 else
    from (has k SPK_ASYNC) SPK_ASYNC
    (from (has k SPK_GENERATOR) SPK_GENERATOR
    (from (has k SPK_FORMAL_PARAMS) SPK_FORMAL_PARAMS
    (from (has k SPK_TRY || has k SPK_TRY_INDIRECT) SPK_SWITCH_INDIRECT
    (from (has k SPK_SWITCH || has k SPK_SWITCH_INDIRECT) SPK_SWITCH_INDIRECT
    (from (has k SPK_LOOP_DIRECT || has k SPK_LOOP_INDIRECT) SPK_LOOP_INDIRECT k0))))) in
  let k2 :=
    from (has k SPK_TS_MODULE || has k SPK_TS_MODULE_INDIRECT) SPK_TS_MODULE_INDIRECT
    (from (has k SPK_TS_DECLARE) SPK_TS_DECLARE
    (from (has k SPK_ABSTRACT_CLASS) SPK_ABSTRACT_CLASS
    (from (has k SPK_STRICT) SPK_STRICT
    (from (has k SPK_CLASS_HAS_SUPER) SPK_CLASS_HAS_SUPER
    (from (has k SPK_CLASS || has k SPK_CLASS_INDIRECT) SPK_CLASS_INDIRECT
    (from (has k SPK_FUNC || has k SPK_FUNC_INDIRECT) SPK_FUNC_INDIRECT k1)))))) in
  if negb fn || arrow then from (has k SPK_CTOR) SPK_CTOR k2 else k2.

(** ... and the scope itself. *)
Definition enter_scope (t : tab) (fn arrow settled : bool) : tab :=
  let seed := if settled then S (t_seed t) else t_seed t in
  let p := length (t_heap t) in
  let s := mk_scope seed (entered_kind (sc_kind (cur t)) fn arrow) (Some (t_cur t)) []
             (if fn then [] else sc_labels (cur t)) [] in
  mk_tab (put_at (t_heap t) (t_cur t) (set_down (cur t) (sc_down (cur t) ++ [p])) ++ [s])
         ((seed, p) :: t_table t) p seed.

(** ecma/parser/symtab.go:592-598 LeaveScope; None at the root, whose Up is nil. *)
Definition leave_scope (t : tab) : option tab :=
  match sc_up (cur t) with
  | Some u => Some (mk_tab (t_heap t) ((sc_id (sc t u), u) :: t_table t) u (t_seed t))
  | None => None
  end.

(** ecma/parser/symtab.go:482-485 HasName. *)
Definition has_name (t : tab) (p : nat) (n : bytes) : bool :=
  match binding_of t p n with Some _ => true | None => false end.

(** What the parser does with the table: p.symtab.EnterScope and LeaveScope, AddKind and EraseKind on the
    current scope, addLocalBinding (parser.go:3138-3150) into it. *)
Inductive sop :=
| SEnter (fn arrow settled : bool)
| SLeave
| SAdd (k : N)
| SErase (k : N)
| SDeclare (n : bytes) (b : bind) (typ : N) (tag : nat) (dup : bool).

(** A rejected declaration is a syntax error and ends the parse; so does a panic. *)
Inductive outcome {A} := Ok (a : A) | Rejected | Panic.
Arguments outcome : clear implicits.
Definition step (o : sop) (t : tab) : outcome tab :=
  match o with
  | SEnter fn arrow settled => Ok (enter_scope t fn arrow settled)
  | SLeave => match leave_scope t with Some t' => Ok t' | None => Panic end
  | SAdd k => Ok (add_kind t (t_cur t) k)
  | SErase k => Ok (erase_kind t (t_cur t) k)
  | SDeclare n b typ tag dup =>
      match add_local t (t_cur t) (mk_ref tag b typ None) n dup with
      | None => Panic
      | Some (false, _) => Rejected
      | Some (true, t') => Ok t'
      end
  end.
Fixpoint run (os : list sop) (t : tab) : outcome tab :=
  match os with
  | [] => Ok t
  | o :: r => match step o t with Ok t' => run r t' | Rejected => Rejected | Panic => Panic end
  end.

(** ecma/parser/parser.go:213-219: Prog flags the root as the global scope before anything else. *)
Definition start : tab := add_kind new_tab 0 SPK_GLOBAL.
