(** What expressions evaluate to in ECMAScript, for literals, names, members, includes, arithmetic, equality and
    logical operators. *)
From Coq Require Import String SpecFloat.
From Verif Require Import Base TokenModel NodeModel WalkModel WalkSpec ExecModel.

(** Values; arrays and objects have an identity, 0 for one made by a literal, which is identical to no other. *)
Inductive jval :=
| JUndef | JNull | JBool (b : bool) | JNum (x : spec_float) | JStr (s : bytes)
| JArr (id : nat) (l : list jval) | JObj (id : nat) (l : list (bytes * jval)).

Definition nullish (v : jval) : bool := match v with JUndef | JNull => true | _ => false end.
Definition is_obj (v : jval) : bool := match v with JArr _ _ | JObj _ _ => true | _ => false end.
Definition truthy (v : jval) : bool :=
  match v with
  | JUndef | JNull => false
  | JBool b => b
  | JNum x => negb (is_nan x || SFeqb x f_zero)
  | JStr s => negb (bytes_eqb s [])
  | _ => true
  end.
(** IsStrictlyEqual *)
Definition strict_eq (a b : jval) : bool :=
  match a, b with
  | JUndef, JUndef | JNull, JNull => true
  | JBool x, JBool y => Bool.eqb x y
  | JNum x, JNum y => SFeqb x y
  | JStr x, JStr y => bytes_eqb x y
  | JArr i _, JArr j _ | JObj i _, JObj j _ => negb (Nat.eqb i 0) && Nat.eqb i j
  | _, _ => false
  end.
(** SameValueZero *)
Definition same_value_zero (a b : jval) : bool :=
  match a, b with JNum x, JNum y => (is_nan x && is_nan y) || SFeqb x y | _, _ => strict_eq a b end.

(** Names every object has through Object.prototype. *)
Definition object_proto : list bytes :=
  [bs "__defineGetter__"; bs "__defineSetter__"; bs "hasOwnProperty"; bs "__lookupGetter__"; bs "__lookupSetter__";
   bs "isPrototypeOf"; bs "propertyIsEnumerable"; bs "toString"; bs "valueOf"; bs "__proto__"; bs "toLocaleString";
   bs "constructor"].
(** Whether a number is an integer. *)
Definition is_int (x : spec_float) : bool :=
  match x with
  | S754_zero _ => true
  | S754_finite _ m e => match e with Zneg _ => Z.eqb (Zpos m mod 2 ^ (- e))%Z 0 | _ => true end
  | _ => false
  end.
(** The value of a non-negative integer. *)
Definition int_val (x : spec_float) : Z :=
  match x with
  | S754_finite _ m e => (match e with Zneg _ => Zpos m / 2 ^ (- e) | _ => Zpos m * 2 ^ e end)%Z
  | _ => 0%Z
  end.
Definition of_nat (n : nat) : spec_float := binary_normalize 53 1024 (Z.of_nat n) 0 false.

Section Js.
(** Number::toString and StringToNumber. *)
Variable num_to_str : spec_float -> bytes.
Variable str_to_num : bytes -> spec_float.
Variable env : bytes -> option jval.

Definition js_num (v : jval) : option spec_float :=
  match v with
  | JUndef => Some S754_nan
  | JNull => Some f_zero
  | JBool b => Some (if b then S754_finite false 4503599627370496 (-52) else f_zero)
  | JNum x => Some x
  | JStr s => Some (str_to_num s)
  | _ => None
  end.
Definition js_str (v : jval) : option bytes :=
  match v with
  | JUndef => Some (bs "undefined")
  | JNull => Some (bs "null")
  | JBool b => Some (if b then bs "true" else bs "false")
  | JNum x => Some (num_to_str x)
  | JStr s => Some s
  | _ => None
  end.
Definition arith (f : spec_float -> spec_float -> spec_float) (a b : jval) : option jval :=
  match js_num a, js_num b with Some x, Some y => Some (JNum (f x y)) | _, _ => None end.
Definition js_add (a b : jval) : option jval :=
  match a, b with
  | JStr _, _ | _, JStr _ => match js_str a, js_str b with Some x, Some y => Some (JStr (x ++ y)) | _, _ => None end
  | _, _ => arith f_add a b
  end.
(** IsLooselyEqual, where no object is converted. *)
Definition loose_eq (a b : jval) : option bool :=
  if nullish a || nullish b then Some (nullish a && nullish b)
  else match a, b with
       | JBool _, JBool _ | JNum _, JNum _ | JStr _, JStr _ => Some (strict_eq a b)
       | _, _ => if is_obj a && is_obj b then Some (strict_eq a b)
                 else match js_num a, js_num b with Some x, Some y => Some (SFeqb x y) | _, _ => None end
       end.
(** Reading a property, where only the own properties of plain arrays and objects count. *)
Definition js_get (o k : jval) : option jval :=
  match o, k with
  | JArr _ l, JNum x => Some (if is_int x && SFleb f_zero x && (int_val x <? Z.of_nat (List.length l))%Z
                              then nth (Z.to_nat (int_val x)) l JUndef else JUndef)
  | JArr _ l, JStr s => if bytes_eqb s (bs "length") then Some (JNum (of_nat (List.length l))) else None
  | JObj _ l, (JStr _ | JNum _) =>
      match js_str k with
      | None => None
      | Some s => match find (fun q => bytes_eqb s (fst q)) l with
                  | Some (_, v) => Some v
                  | None => if existsb (bytes_eqb s) object_proto then None else Some JUndef
                  end
      end
  | _, _ => None
  end.
Definition js_bin (op : tv) (a b : jval) : option jval :=
  match op with
  | T_EQ_S => Some (JBool (strict_eq a b))
  | T_NE_S => Some (JBool (negb (strict_eq a b)))
  | T_EQ => match loose_eq a b with Some x => Some (JBool x) | None => None end
  | T_NE => match loose_eq a b with Some x => Some (JBool (negb x)) | None => None end
  | T_ADD => js_add a b
  | T_SUB => arith f_sub a b
  | T_MUL => arith f_mul a b
  | T_DIV => arith f_div a b
  | _ => None
  end.
Definition js_unary (op : tv) (a : jval) : option jval :=
  match op with
  | T_NOT => Some (JBool (negb (truthy a)))
  | T_SUB => match js_num a with Some x => Some (JNum (SFopp x)) | None => None end
  | T_ADD => match js_num a with Some x => Some (JNum x) | None => None end
  | _ => None
  end.

Fixpoint all_some {A} (l : list (option A)) : option (list A) :=
  match l with
  | [] => Some []
  | Some x :: r => match all_some r with Some xs => Some (x :: xs) | None => None end
  | None :: _ => None
  end.

(** The value of an expression; [None]: it throws, or it is not among the expressions described here. *)
Fixpoint js_eval (n : node) : option jval :=
  match n with
  | Node ty a kids =>
      match ty, kids with
      | N_LIT_BOOL, _ => Some (JBool (at_bool a))
      | N_LIT_NULL, _ => Some JNull
      | N_LIT_NUM, _ => Some (JNum (at_num a))
      | N_LIT_STR, _ => Some (JStr (at_text a))
      | N_NAME, _ => if bytes_eqb (at_text a) (bs "undefined") then Some JUndef else env (at_text a)
      | N_LIT_ARR, [(_, l)] =>
          match all_some (map (fun o => match o with Some m => js_eval m | None => None end) l) with
          | Some vs => Some (JArr 0 vs)
          | None => None
          end
      | N_EXPR_PAREN, [(_, [Some m])] => js_eval m
      | N_EXPR_MEMBER, [(_, [Some o]); (_, [Some p])] =>
          match js_eval o, (if at_bool a then js_eval p else Some (JStr (at_text (n_at p)))) with
          | Some x, Some k => js_get x k
          | _, _ => None
          end
      | N_EXPR_BIN, [(_, [Some l]); (_, [Some r])] =>
          match js_eval l with
          | None => None
          | Some x =>
              match at_op a with
              | T_AND => if truthy x then js_eval r else Some x
              | T_OR => if truthy x then Some x else js_eval r
              | op => match js_eval r with Some y => js_bin op x y | None => None end
              end
          end
      | N_EXPR_UNARY, [(_, [Some m])] => match js_eval m with Some x => js_unary (at_op a) x | None => None end
      | N_EXPR_CALL, [(_, [Some (Node N_EXPR_MEMBER b [(_, [Some o]); (_, [Some (Node N_NAME c _)])])]); (_, [Some arg])] =>
          if negb (at_bool b) && bytes_eqb (at_text c) (bs "includes") then
            match js_eval o, js_eval arg with
            | Some (JArr _ l), Some v => Some (JBool (existsb (fun x => same_value_zero x v) l))
            | _, _ => None
            end
          else None
      | _, _ => None
      end
  end.

(** ** The expressions for which the evaluator is right *)
Definition numeric (v : jval) : bool := match v with JNum _ | JUndef => true | _ => false end.
Definition safe_bin (op : tv) (a b : jval) : bool :=
  match op with
  | T_EQ_S | T_NE_S =>
      (* not null against undefined, no two different objects *)
      if nullish a && nullish b then strict_eq a b else if is_obj a && is_obj b then strict_eq a b else true
  | T_EQ | T_NE =>
      (* no conversion, no two different objects *)
      if nullish a || nullish b then true
      else match a, b with
           | JBool _, JBool _ | JNum _, JNum _ | JStr _, JStr _ => true
           | _, _ => is_obj a && is_obj b && strict_eq a b
           end
  | T_ADD => match a, b with
             | JStr _, JStr _ | JStr _, JBool _ | JBool _, JStr _ => true
             | _, _ => numeric a && numeric b
             end
  | T_SUB | T_MUL => numeric a && numeric b
  | T_AND | T_OR => match a, b with JBool _, JBool _ => true | _, _ => false end
  | _ => false
  end.
Definition safe_get (o k : jval) : bool :=
  match o, k with
  | JArr _ _, JNum x => is_nan x || SFltb x f_zero || (is_int x && (int_val x <? 2 ^ 63)%Z)
  | JObj _ _, JStr _ => true
  | _, _ => false
  end.
Fixpoint safe (n : node) : bool :=
  match n with
  | Node ty a kids =>
      match ty, kids with
      | N_LIT_BOOL, _ | N_LIT_NULL, _ | N_LIT_NUM, _ | N_LIT_STR, _ | N_NAME, _ => true
      | N_LIT_ARR, [(_, l)] => forallb (fun o => match o with Some m => safe m | None => false end) l
      | N_EXPR_PAREN, [(_, [Some m])] => safe m
      | N_EXPR_MEMBER, [(_, [Some o]); (_, [Some p])] =>
          safe o
          && (if at_bool a then safe p && negb (nt_eqb (n_ty p) N_NAME) else nt_eqb (n_ty p) N_NAME)
          && match js_eval o, (if at_bool a then js_eval p else Some (JStr (at_text (n_at p)))) with
             | Some x, Some k => safe_get x k
             | _, _ => false
             end
      | N_EXPR_BIN, [(_, [Some l]); (_, [Some r])] =>
          safe l && safe r
          && match js_eval l, js_eval r with Some x, Some y => safe_bin (at_op a) x y | _, _ => false end
      | N_EXPR_UNARY, [(_, [Some m])] =>
          tv_eqb (at_op a) T_NOT && safe m
          && match js_eval m with Some (JNum x) => negb (is_nan x) | Some _ => true | None => false end
      | N_EXPR_CALL, [(_, [Some (Node N_EXPR_MEMBER b [(_, [Some o]); (_, [Some (Node N_NAME c _)])])]); (_, [Some arg])] =>
          safe o && safe arg
          && match js_eval arg with
             | Some v => negb (nullish v || is_obj v || match v with JNum x => is_nan x | _ => false end)
             | None => false
             end
      | _, _ => false
      end
  end.

Definition no_nan (o : option jval) : bool := match o with Some (JNum x) => negb (is_nan x) | Some _ => true | None => false end.
(** Conditions: what counts is whether they hold. *)
Fixpoint safe_cond (n : node) : bool :=
  match n with
  | Node ty a kids =>
      match ty, kids with
      | N_EXPR_PAREN, [(_, [Some m])] => safe_cond m
      | N_EXPR_UNARY, [(_, [Some m])] => tv_eqb (at_op a) T_NOT && safe_cond m
      | N_EXPR_BIN, [(_, [Some l]); (_, [Some r])] =>
          match at_op a with
          | T_AND => safe_cond l && match js_eval l with Some x => negb (truthy x) || safe_cond r | None => false end
          | T_OR => safe_cond l && match js_eval l with Some x => truthy x || safe_cond r | None => false end
          | _ => safe n && no_nan (js_eval n)
          end
      | _, _ => safe n && no_nan (js_eval n)
      end
  end.
End Js.

(** The Go value that stands for a value: undefined and null are both nil. *)
Fixpoint jrepr (v : jval) : val :=
  match v with
  | JUndef | JNull => VNil
  | JBool b => VBool b
  | JNum x => VNum x
  | JStr s => VStr s
  | JArr i l => VArr i (map jrepr l)
  | JObj i l => VMap i (map (fun p : bytes * jval => let (k, x) := p in (k, jrepr x)) l)
  end.
Definition jvars (env : bytes -> option jval) (name : bytes) : val := match env name with Some v => jrepr v | None => VNil end.

(** Expressions built from what the evaluator listens to, without holes. *)
Definition bin_ops : list tv := [T_EQ; T_EQ_S; T_NE; T_NE_S; T_ADD; T_SUB; T_MUL; T_DIV; T_AND; T_OR].
Fixpoint supported (n : node) : bool :=
  match n with
  | Node ty a kids =>
      match ty with
      | N_LIT_BOOL | N_LIT_NULL | N_LIT_NUM | N_LIT_STR | N_NAME => true
      | N_LIT_ARR =>
          match kids with [(_, l)] => forallb (fun o => match o with Some m => supported m | None => false end) l | _ => false end
      | N_EXPR_PAREN | N_EXPR_CHAIN | N_EXPR_UNARY => match kids with [(_, [Some m])] => supported m | _ => false end
      | N_EXPR_MEMBER => match kids with [(_, [Some o]); (_, [Some p])] => supported o && supported p | _ => false end
      | N_EXPR_BIN =>
          match kids with
          | [(_, [Some l]); (_, [Some r])] => existsb (tv_eqb (at_op a)) bin_ops && supported l && supported r
          | _ => false
          end
      | N_EXPR_CALL =>
          match kids with
          | [(_, [Some m]); (_, l)] => supported m && forallb (fun o => match o with Some m => supported m | None => false end) l
          | _ => false
          end
      | _ => false
      end
  end.
