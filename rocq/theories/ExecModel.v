(** ecma/exec/vm.go: evaluation of expressions with a stack, by listeners of a walk. *)
From Coq Require Import String SpecFloat.
From Verif Require Import Base TokenModel NodeModel WalkModel.

(** The Go values on the stack: nil, bool, float64, string, []interface{}, map[string]interface{} and
    *BuiltinFn.  Slices and maps given as variables have an identity other than 0, those the evaluator makes have
    identity 0.  The only native function is "includes" of slices, so a *BuiltinFn is given by its receiver. *)
Inductive val :=
| VNil | VBool (b : bool) | VNum (x : spec_float) | VStr (s : bytes)
| VArr (id : nat) (l : list val) | VMap (id : nat) (l : list (bytes * val)) | VFn (this : val).

(** float64 arithmetic: IEEE 754 binary64, rounding to nearest even. *)
Definition f_add : spec_float -> spec_float -> spec_float := SFadd 53 1024.
Definition f_sub : spec_float -> spec_float -> spec_float := SFsub 53 1024.
Definition f_mul : spec_float -> spec_float -> spec_float := SFmul 53 1024.
Definition f_div : spec_float -> spec_float -> spec_float := SFdiv 53 1024.
Definition f_zero : spec_float := S754_zero false.
Definition is_nan (x : spec_float) : bool := match x with S754_nan => true | _ => false end.
(** int(x) of a non-negative float64 on amd64: truncation, the least integer when it does not fit. *)
Definition f_int (x : spec_float) : Z :=
  (let z := match x with
           | S754_finite _ m (Zpos e) => Zpos m * 2 ^ Zpos e
           | S754_finite _ m e => Zpos m / 2 ^ (- e)
           | S754_zero _ => 0
           | _ => 2 ^ 63
           end in
   if z <? 2 ^ 63 then z else - 2 ^ 63)%Z.

(** reflect.DeepEqual on these values: the same slice or map is equal to itself; functions are equal to nothing. *)
Fixpoint deep_equal (a b : val) {struct a} : bool :=
  let fix lists (l m : list val) : bool :=
    match l, m with [], [] => true | x :: l, y :: m => deep_equal x y && lists l m | _, _ => false end in
  match a, b with
  | VNil, VNil => true
  | VBool x, VBool y => Bool.eqb x y
  | VNum x, VNum y => SFeqb x y
  | VStr x, VStr y => bytes_eqb x y
  | VArr i l, VArr j m => (negb (Nat.eqb i 0) && Nat.eqb i j) || lists l m
  | VMap i l, VMap j m =>
      (negb (Nat.eqb i 0) && Nat.eqb i j)
      || (Nat.eqb (List.length l) (List.length m)
          && forallb (fun p : bytes * val => let (k, x) := p in
                        match find (fun q => bytes_eqb k (fst q)) m with Some (_, y) => deep_equal x y | None => false end) l)
  | _, _ => false
  end.

Section Exec.
(** strconv.ParseFloat(s, 64) ([None] is an error), strconv.FormatFloat(x, 'f', -1, 64), and fmt.Sprintf("%v", v)
    of slices, maps and functions. *)
Variable parse_float : bytes -> option spec_float.
Variable format_float : spec_float -> bytes.
Variable sprint : val -> bytes.
(** ee.vars. *)
Variable vars : bytes -> val.

(** ecma/exec/vm.go:277-318 ToNum, ToStr, ToBool. *)
Definition to_num (v : val) : spec_float :=
  match v with
  | VNum x => x
  | VStr s => match parse_float s with Some x => x | None => S754_nan end
  | _ => S754_nan
  end.
Definition to_str (v : val) : bytes :=
  match v with
  | VNum x => format_float x
  | VStr s => s
  | VBool true => bs "true"
  | VBool false => bs "false"
  | VNil => bs "<nil>"
  | _ => sprint v
  end.
Definition to_bool (v : val) : bool :=
  match v with
  | VNum x => negb (SFeqb x f_zero)
  | VStr s => negb (bytes_eqb s [])
  | VBool b => b
  | VNil => false
  | _ => true
  end.
(** ecma/exec/vm.go:267-275 Add. *)
Definition go_add (a b : val) : val :=
  match a, b with
  | VStr _, _ | _, VStr _ => VStr (to_str a ++ to_str b)
  | _, _ => VNum (f_add (to_num a) (to_num b))
  end.

(** ecma/exec/vm.go:351-371 GetElem; [None]: index out of range. *)
Definition get_elem (l : list val) (prop : val) : option val :=
  let p := to_num prop in
  if is_nan p || SFltb p f_zero then Some VNil
  else let i := f_int p in
       if (Z.of_nat (List.length l) - 1 <? i)%Z then Some VNil
       else if (i <? 0)%Z then None
       else Some (nth (Z.to_nat i) l VNil).
(** ecma/exec/vm.go:320-334 GetProp. *)
Definition get_prop (obj prop : val) : option val :=
  match prop with
  | VNil => Some VNil
  | _ => match obj with
         | VArr _ l => get_elem l prop
         | VMap _ l => Some (match find (fun q => bytes_eqb (to_str prop) (fst q)) l with Some (_, v) => v | None => VNil end)
         | _ => Some VNil
         end
  end.
(** ecma/exec/vm.go:336-349 GetBuiltinProto and 29-42 builtinProto, with NewBuiltinFn of 164-166. *)
Definition builtin (obj prop : val) : val :=
  match prop with
  | VNil => VNil
  | _ => match obj with VArr _ _ => if bytes_eqb (to_str prop) (bs "includes") then VFn obj else VNil | _ => VNil end
  end.
(** ecma/exec/vm.go:152-170. *)
Definition go_member (obj prop : val) : option val :=
  match get_prop obj prop with
  | None => None
  | Some VNil => Some (builtin obj prop)
  | Some v => Some v
  end.
(** ecma/exec/vm.go:182-204: [None] pushes nothing. *)
Definition go_bin (op : tv) (a b : val) : option val :=
  match op with
  | T_EQ | T_EQ_S => Some (VBool (deep_equal a b))
  | T_NE | T_NE_S => Some (VBool (negb (deep_equal a b)))
  | T_ADD => Some (go_add a b)
  | T_SUB => Some (VNum (f_sub (to_num a) (to_num b)))
  | T_MUL => Some (VNum (f_mul (to_num a) (to_num b)))
  | T_DIV => let r := to_num b in Some (VNum (if SFeqb r f_zero then S754_nan else f_sub (to_num a) r))
  | T_AND => Some (VBool (to_bool a && to_bool b))
  | T_OR => Some (VBool (to_bool a || to_bool b))
  | _ => None
  end.
Definition go_unary (op : tv) (a : val) : val :=
  match op with T_NOT => VBool (negb (to_bool a)) | _ => VBool false end.
(** ecma/exec/vm.go:238-243 with 31-40. *)
Definition go_call (f : val) (args : list val) : val :=
  match f with
  | VFn (VArr _ l) => VBool (existsb (fun x => deep_equal x (nth 0 args VNil)) l)
  | _ => VNil
  end.

(** ee.stk, the top first; [None] after a run-time panic.  ee.err is never set. *)
Definition stack : Type := option (list val).
Definition hd_nil (s : list val) : val := match s with [] => VNil | v :: _ => v end.
(** [n] times ee.pop, the last one popped first: how arr and args are filled. *)
Fixpoint pops (n : nat) (s : list val) (acc : list val) : list val * list val :=
  match n with O => (acc, s) | S n => pops n (tl s) (hd_nil s :: acc) end.
Definition kids_of (n : node) (k : string) : list (option node) :=
  match assoc k (n_kids n) with Some l => l | None => [] end.

(** ecma/exec/vm.go:82-245 init: what the listener of each type does on leaving a node. *)
Definition on_leave (t : nt) : handler stack := fun above _ n key st =>
  (match st with
   | None => None
   | Some s =>
       match t with
       | N_LIT_BOOL => Some (VBool (at_bool (n_at n)) :: s)
       | N_LIT_NULL => Some (VNil :: s)
       | N_NAME =>
           let name := at_text (n_at n) in
           let prop := match above, key with
                       | Node N_EXPR_MEMBER _ _ :: _, (k, None) => String.eqb k "Prop"
                       | _, _ => false
                       end in
           Some ((if prop then VStr name else if bytes_eqb name (bs "undefined") then VNil else vars name) :: s)
       | N_LIT_ARR => let (l, s) := pops (List.length (kids_of n "Elems")) s [] in Some (VArr 0 l :: s)
       | N_LIT_NUM => Some (VNum (at_num (n_at n)) :: s)
       | N_LIT_STR => Some (VStr (at_text (n_at n)) :: s)
       | N_EXPR_MEMBER =>
           let prop := hd_nil s in
           let obj := hd_nil (tl s) in
           match go_member obj prop with Some v => Some (v :: tl (tl s)) | None => None end
       | N_EXPR_BIN =>
           let rhs := hd_nil s in
           let lhs := hd_nil (tl s) in
           Some (match go_bin (at_op (n_at n)) lhs rhs with Some v => v :: tl (tl s) | None => tl (tl s) end)
       | N_EXPR_UNARY => Some (go_unary (at_op (n_at n)) (hd_nil s) :: tl s)
       | N_EXPR_CALL =>
           let (args, s) := pops (List.length (kids_of n "Args")) s [] in
           Some (go_call (hd_nil s) args :: tl s)
       | _ => Some s
       end
   end, false).
Definition listened : list nt :=
  [N_LIT_BOOL; N_LIT_NULL; N_NAME; N_LIT_ARR; N_LIT_NUM; N_LIT_STR; N_EXPR_MEMBER; N_EXPR_BIN; N_EXPR_UNARY; N_EXPR_CALL].
Definition eval_listeners (ev : N) : list (handler stack) :=
  match find (fun t => N.eqb (after_event t) ev) listened with Some t => [on_leave t] | None => [] end.

(** ecma/exec/vm.go:247-255 Exec, starting from a given stack, and 263-265 GetResult. *)
Definition exec (n : node) (s : list val) : stack := w_u (walk eval_listeners (getters n) (Some s)).
Definition result (n : node) : option val := match exec n [] with Some s => Some (hd_nil s) | None => None end.
End Exec.
