(** Specification of the scopes a program has open, independent of how they are stored.  A history of scope
    operations determines a stack of open scopes, innermost first, each with what was declared in it and the
    marks put on it. *)
From Verif Require Import Base SymtabModel.

Record decl := mk_decl { d_tag : nat; d_bind : bind; d_typ : N; d_checked : bool }.
Inductive sort := Program | Function (arrow : bool) | Block.
Record frame := mk_frame {
  fr_sort : sort;
  fr_settled : bool;
  fr_marks : list (bool * N);         (* marks put on it (true) and taken from it (false), newest first *)
  fr_decls : list (bytes * decl) }.   (* newest first *)
(** A function, or the whole program. *)
Definition fr_fun (f : frame) : bool := match fr_sort f with Block => false | _ => true end.

Definition declare_in (n : bytes) (d : decl) (f : frame) : frame :=
  mk_frame (fr_sort f) (fr_settled f) (fr_marks f) ((n, d) :: fr_decls f).
Definition mark (on : bool) (k : N) (f : frame) : frame :=
  mk_frame (fr_sort f) (fr_settled f) ((on, k) :: fr_marks f) (fr_decls f).
Definition on_current (g : frame -> frame) (st : list frame) : list frame :=
  match st with [] => [] | f :: r => g f :: r end.
Fixpoint on_function (g : frame -> frame) (st : list frame) : list frame :=
  match st with [] => [] | f :: r => if fr_fun f then g f :: r else f :: on_function g r end.

(** A declaration belongs to the current scope, one with [var] to the enclosing function as well. *)
Definition frame_step (st : list frame) (o : sop) : list frame :=
  match o with
  | SEnter fn arrow settled => mk_frame (if fn then Function arrow else Block) settled [] [] :: st
  | SLeave => tl st
  | SAdd k => on_current (mark true k) st
  | SErase k => on_current (mark false k) st
  | SDeclare n b typ tag dup =>
      let d := mk_decl tag b typ dup in
      on_current (declare_in n d) (if bind_eqb b BK_VAR then on_function (declare_in n d) st else st)
  end.
Definition program : frame := mk_frame Program true [(true, SPK_GLOBAL)] [].
Definition open_scopes (ops : list sop) : list frame := fold_left frame_step ops [program].

Definition declares (f : frame) (n : bytes) (d : decl) : Prop := In (n, d) (fr_decls f).

(** Nothing but entering a function makes a scope a function: the parser puts the marks FUNC and GLOBAL on no
    scope itself, apart from marking the program GLOBAL. *)
Definition ordinary (o : sop) : Prop :=
  match o with SAdd k | SErase k => has k (N.lor SPK_FUNC SPK_GLOBAL) = false | _ => True end.

(** The declaration a use of [n] in the innermost scope refers to. *)
Inductive resolves (st : list frame) (n : bytes) : option nat -> Prop :=
| Res_found pre f post d :
    st = pre ++ f :: post -> (forall g d', In g pre -> ~ declares g n d') -> find_b n (fr_decls f) = Some d ->
    resolves st n (Some (d_tag d))
| Res_none : (forall g d, In g st -> ~ declares g n d) -> resolves st n None.

(** Declarations that are values of plain JavaScript, and those that are classes; a class is also a type. *)
Definition plain (typ : N) : Prop :=
  has typ (N.lor RDT_TYPE (N.lor RDT_ENUM (N.lor RDT_CONST_ENUM (N.lor RDT_ITF RDT_NS)))) = false.
Definition class_typ : N := N.lor RDT_CLASS RDT_TYPE.
Definition declared_typ (P : N -> Prop) (n : bytes) (o : sop) : Prop :=
  match o with SDeclare m _ typ _ _ => m = n -> P typ | _ => True end.
(** [n] is nowhere declared both as a class and as something else. *)
Definition uniform (n : bytes) (ops : list sop) : Prop :=
  Forall (declared_typ plain n) ops \/ Forall (declared_typ (fun typ => typ = class_typ) n) ops.

(** A history that ends in the scope it began in and declares [n] only in scopes it opened itself, with [var]
    only in functions it opened itself.  [open]: the scopes it has open, whether they are functions. *)
Fixpoint confined (n : bytes) (open : list bool) (ops : list sop) : Prop :=
  match ops with
  | [] => open = []
  | SEnter fn _ _ :: r => confined n (fn :: open) r
  | SLeave :: r => match open with [] => False | _ :: o => confined n o r end
  | SDeclare m b _ _ _ :: r => (m = n -> open <> [] /\ (b = BK_VAR -> In true open)) /\ confined n open r
  | _ :: r => confined n open r
  end.

(** A history that never leaves more than [d] of the scopes open before it. *)
Fixpoint stays (d : nat) (ops : list sop) : Prop :=
  match ops with
  | [] => True
  | SEnter _ _ _ :: r => stays (S d) r
  | SLeave :: r => match d with O => False | S d' => stays d' r end
  | _ :: r => stays d r
  end.

(** A history that ends in the scope it began in. *)
Fixpoint balanced (d : nat) (ops : list sop) : Prop :=
  match ops with
  | [] => d = 0
  | SEnter _ _ _ :: r => balanced (S d) r
  | SLeave :: r => match d with O => False | S d' => balanced d' r end
  | _ :: r => balanced d r
  end.

(** Temporary scopes are entered only from the newest scope that has an id of its own, or from another temporary
    scope with that id. *)
Fixpoint tame (ops : list sop) (t : tab) : Prop :=
  match ops with
  | [] => True
  | o :: r =>
      match o with SEnter _ _ false => sc_id (cur t) = t_seed t | _ => True end
      /\ match step o t with Ok t' => tame r t' | _ => True end
  end.

(** The operations of the parser's declarations: parser.go:3152-3212 varDecStmt, 1106-1116 classDec,
    2563-2579 fnDec (a function declaration is not checked in sloppy code). *)
Definition decl_let (n : bytes) (tag : nat) : sop := SDeclare n BK_LET RDT_NONE tag true.
Definition decl_var (n : bytes) (tag : nat) : sop := SDeclare n BK_VAR RDT_NONE tag true.
Definition decl_class (n : bytes) (tag : nat) : sop := SDeclare n BK_CONST class_typ tag true.
Definition decl_function (n : bytes) (tag : nat) : sop := SDeclare n BK_VAR RDT_FN tag false.
Definition enter_block : sop := SEnter false false true.
Definition enter_function : sop := SEnter true false true.
Definition enter_paren : sop := SEnter false false false.

Definition lexical (b : bind) : Prop := b = BK_LET \/ b = BK_CONST.

(** The contexts a scope can be inside of: the mark that introduces one, the mark a scope further inside
    carries for it, and whether a scope lets it through from the scope around it. *)
Record context := mk_ctx { c_intro : N; c_inner : N; c_through : frame -> bool }.
Definition is_block (f : frame) : bool := negb (fr_fun f).
Definition C_loop := mk_ctx SPK_LOOP_DIRECT SPK_LOOP_INDIRECT is_block.
Definition C_switch := mk_ctx SPK_SWITCH SPK_SWITCH_INDIRECT is_block.
Definition C_try := mk_ctx SPK_TRY SPK_TRY_INDIRECT is_block.
Definition C_params := mk_ctx SPK_FORMAL_PARAMS SPK_FORMAL_PARAMS is_block.
Definition C_generator := mk_ctx SPK_GENERATOR SPK_GENERATOR is_block.
Definition C_async := mk_ctx SPK_ASYNC SPK_ASYNC is_block.
Definition C_function := mk_ctx SPK_FUNC SPK_FUNC_INDIRECT (fun _ => true).
Definition C_class := mk_ctx SPK_CLASS SPK_CLASS_INDIRECT (fun _ => true).
Definition C_has_super := mk_ctx SPK_CLASS_HAS_SUPER SPK_CLASS_HAS_SUPER (fun _ => true).
Definition C_strict := mk_ctx SPK_STRICT SPK_STRICT (fun _ => true).
Definition C_abstract := mk_ctx SPK_ABSTRACT_CLASS SPK_ABSTRACT_CLASS (fun _ => true).
Definition C_declare := mk_ctx SPK_TS_DECLARE SPK_TS_DECLARE (fun _ => true).
Definition C_module := mk_ctx SPK_TS_MODULE SPK_TS_MODULE_INDIRECT (fun _ => true).
Definition C_ctor := mk_ctx SPK_CTOR SPK_CTOR (fun f => match fr_sort f with Block | Function true => true | _ => false end).

(** The last thing done to a mark of a scope. *)
Fixpoint last_mark (m : N) (l : list (bool * N)) : option bool :=
  match l with [] => None | (on, k) :: r => if has k m then Some on else last_mark m r end.
(** The scope itself introduces the context: it is marked so, or is a function entered as such. *)
Definition introduces (c : context) (f : frame) : Prop :=
  match last_mark (c_intro c) (fr_marks f) with
  | Some on => on = true
  | None => c_intro c = SPK_FUNC /\ exists arrow, fr_sort f = Function arrow
  end.
(** The scope has taken back the context it got from around it. *)
Definition cancels (c : context) (f : frame) : Prop := last_mark (c_inner c) (fr_marks f) = Some false.
Definition inside (c : context) (st : list frame) : Prop :=
  exists pre f post, st = pre ++ f :: post /\ introduces c f /\
    (forall g, In g pre -> c_through c g = true /\ ~ cancels c g).

(** The parser puts the marks that say "further inside" on no scope itself, nor FUNC and GLOBAL. *)
Definition inner_marks : N :=
  fold_left N.lor [SPK_LOOP_INDIRECT; SPK_SWITCH_INDIRECT; SPK_TRY_INDIRECT; SPK_FUNC_INDIRECT;
                   SPK_CLASS_INDIRECT; SPK_TS_MODULE_INDIRECT; SPK_FUNC; SPK_GLOBAL] 0%N.
Definition marks_ok (o : sop) : Prop :=
  match o with SAdd k | SErase k => has k inner_marks = false | _ => True end.
Definition marked (c : context) (s : scope) : Prop := is_kind s (N.lor (c_intro c) (c_inner c)) = true.
