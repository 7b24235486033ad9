(** ecma/parser/parser.go: checks made on finished nodes: exports, parameters, directives, clauses of a switch. *)
From Coq Require Import String.
From Verif Require Import Base NodeModel WalkModel.

(** The messages the checks give (ecma/parser/errors.go), with the name they mention. *)
Inductive early :=
| E_Keyword (n : bytes)          (* ERR_TPL_UNEXPECTED_TOKEN_TYPE *)
| E_Reserved (n : bytes)         (* ERR_TPL_BINDING_RESERVED_WORD *)
| E_Directive                    (* ERR_STRICT_DIRECTIVE_AFTER_NOT_SIMPLE *)
| E_DupParam                     (* ERR_DUP_PARAM_NAME *)
| E_DupExport (n : bytes)        (* ERR_DUP_EXPORT *)
| E_NotDefined (n : bytes)       (* ERR_EXPORT_NOT_DEFINED *)
| E_LegacyOctal                  (* ERR_LEGACY_OCTAL_ESCAPE_IN_STRICT_MODE *)
| E_MultiDefault                 (* ERR_MULTI_DEFAULT *)
| E_Unexpected.                  (* any other *)

Definition has_mem (n : bytes) (l : list bytes) : bool := existsb (bytes_eqb n) l.

(** ecma/parser/parser.go:2900-2958 namesInPattern, the names instead of the nodes: the error or the names.
    Ident.kw is [at_bool].  (For an object pattern all three cases of 2921-2928 look into the value of a property
    and into anything else directly.)  The flag kw is always false: the only caller passes false. *)
Fixpoint names_in_pattern (n : node) : early + list bytes :=
  let many := fix many (l : list (option node)) : early + list bytes :=
    match l with
    | [] => inr []
    | o :: r =>
        match match o with Some m => names_in_pattern m | None => inr [] end with
        | inl e => inl e
        | inr a => match many r with inl e => inl e | inr b => inr (a ++ b) end
        end
    end in
  match n with
  | Node ty a kids =>
      match ty with
      | N_NAME =>
          let v := at_text a in
          if at_bool a then inl (if bytes_eqb v (bs "eval") then E_Reserved v else E_Keyword v) else inr [v]
      | N_PAT_OBJ =>
          match kids with
          | [(_, l)] =>
              (fix props (l : list (option node)) : early + list bytes :=
                 match l with
                 | [] => inr []
                 | o :: r =>
                     match match o with
                           | Some (Node N_PROP _ [_; (_, [Some m])]) => names_in_pattern m
                           | Some (Node N_PROP _ _) => inr []
                           | Some m => names_in_pattern m
                           | None => inr []
                           end with
                     | inl e => inl e
                     | inr a => match props r with inl e => inl e | inr b => inr (a ++ b) end
                     end
                 end) l
          | _ => inr []
          end
      | N_PAT_ARRAY => match kids with [(_, l)] => many l | _ => inr [] end
      | N_PAT_ASSIGN => match kids with ((_, [Some m]) :: _) => names_in_pattern m | _ => inr [] end
      | N_PAT_REST => match kids with [(_, [Some m])] => names_in_pattern m | _ => inr [] end
      | _ => inr []
      end
  end.

(** ecma/parser/parser.go:2847-2861 collectNames: the names, and whether some node is not just a name
    (firstComplicated is not empty: ranges of nodes are not). *)
Fixpoint collect_names (l : list node) : early + (list bytes * bool) :=
  match l with
  | [] => inr ([], false)
  | n :: r =>
      match names_in_pattern n with
      | inl e => inl e
      | inr a =>
          match collect_names r with
          | inl e => inl e
          | inr (b, c) => inr (a ++ b, negb (nt_eqb (n_ty n) N_NAME) || c)
          end
      end
  end.

(** ecma/parser/parser.go:3258-3269 prohibitedNames. *)
Definition prohibited_names : list bytes :=
  [bs "yield"; bs "implements"; bs "interface"; bs "let"; bs "const"; bs "package"; bs "protected"; bs "public";
   bs "static"; bs "import"].
(** ecma/parser/parser.go:3272-3285 isProhibitedName of a scope that is strict or not, async or not. *)
Definition is_prohibited (scope_strict scope_async : bool) (n : bytes) (with_strict lval field force : bool) : bool :=
  let strict := with_strict && (scope_strict || force) in
  if strict && has_mem n prohibited_names then true
  else if (strict && lval || field) && (bytes_eqb n (bs "eval") || bytes_eqb n (bs "arguments")) then true
  else scope_async && bytes_eqb n (bs "await").

(** ecma/parser/parser.go:2865-2897 checkParams, called while the scope of the function is current: isStrict and
    directStrict are flags of that scope. *)
Fixpoint params_loop (strict async : bool) (names unique : list bytes) (dup : bool) : early + bool :=
  match names with
  | [] => inr dup
  | n :: r =>
      if is_prohibited strict async n strict true false false then inl (E_Reserved n)
      else if dup then params_loop strict async r unique true
      else if has_mem n unique then params_loop strict async r unique true
      else params_loop strict async r (n :: unique) false
  end.
Definition check_params (names : list bytes) (complicated strict direct async : bool) : option early :=
  match params_loop strict async names [] false with
  | inl e => Some e
  | inr dup =>
      if direct && complicated then Some E_Directive
      else if dup && strict then Some E_DupParam
      else if dup && complicated then Some E_DupParam
      else None
  end.
(** ecma/parser/parser.go:2667-2670 and 2758-2770, in fnDec: 5803-5806 and 5848-5852 in arrowFn and 6232-6235 and
    6291-6297 in method are the same. *)
Definition fn_params (params : list node) (strict direct async : bool) : option early :=
  match collect_names params with
  | inl e => Some e
  | inr (names, c) => check_params names c strict direct async
  end.

(** ecma/parser/ast.go ExportSpec: id is nil for [export * as local from ...]. *)
Record espec := mk_es { es_local : bytes; es_id : option bytes; es_type : bool }.
(** ecma/parser/ast.go ExportDec: the default keyword, the declaration, the specifiers, the source. *)
Record edec := mk_ed { ed_default : bool; ed_dec : option node; ed_specs : list espec; ed_src : bool }.
(** ecma/parser/parser.go:263-282 namesInNode; the names of a variable statement are those collectNames found when it
    was parsed (3193-3197). *)
Fixpoint names_in_node (n : node) : list bytes :=
  let first_name (kids : list (string * list (option node))) :=
    match kids with (_, [Some m]) :: _ => [at_text (n_at m)] | _ => [] end in
  match n with
  | Node ty _ kids =>
      match ty with
      | N_STMT_VAR_DEC =>
          match kids with
          | [(_, l)] =>
              match collect_names (flat_map (fun o => match o with
                                                       | Some (Node _ _ ((_, [Some m]) :: _)) => [m]
                                                       | _ => []
                                                       end) l) with
              | inr (names, _) => names
              | inl _ => []
              end
          | _ => []
          end
      | N_STMT_FN | N_EXPR_FN | N_STMT_CLASS | N_EXPR_CLASS => first_name kids
      | N_STMT_EXPR => match kids with [(_, [Some m])] => names_in_node m | _ => [] end
      | _ => []
      end
  end.
(** ecma/parser/parser.go:289-302. *)
Definition exported (e : edec) : list bytes :=
  if ed_default e then [bs "default"]
  else match ed_dec e with
       | Some d => names_in_node d
       | None => flat_map (fun s => match es_id s with Some n => if es_type s then [] else [n] | None => [] end) (ed_specs e)
       end.
(** ecma/parser/parser.go:303-311: [names] is the map. *)
Fixpoint check_dup (subnames names : list bytes) : early + list bytes :=
  match subnames with
  | [] => inr names
  | n :: r => if has_mem n names then inl (E_DupExport n) else check_dup r (n :: names)
  end.
Fixpoint check_dups (exps : list edec) (names : list bytes) : option early :=
  match exps with
  | [] => None
  | e :: r => match check_dup (exported e) names with inl x => Some x | inr names => check_dups r names end
  end.
(** ecma/parser/parser.go:314-330: [defined] is HasName of the scope. *)
Fixpoint check_defs (defined : bytes -> bool) (exps : list edec) : option early :=
  match exps with
  | [] => None
  | e :: r =>
      if ed_src e then check_defs defined r
      else match find (fun s => negb (defined (es_local s))) (ed_specs e) with
           | Some s => Some (E_NotDefined (es_local s))
           | None => check_defs defined r
           end
  end.
(** ecma/parser/parser.go:285-331 checkExp. *)
Definition check_exp (defined : bytes -> bool) (exps : list edec) : option early :=
  match check_dups exps [] with Some e => Some e | None => check_defs defined exps end.
(** ecma/parser/parser.go:629-646 addExp at the top level: overloads, functions without body, are skipped. *)
Definition add_exp (exps : list edec) (e : edec) : list edec :=
  match ed_dec e with
  | Some (Node N_STMT_FN _ [_; _; (_, [None])]) => exps
  | _ => exps ++ [e]
  end.

(** What the directive prologue looks at of a statement: whether it is 'use strict' in quotes, or another string on
    its own, with a legacy octal escape or without (ecma/parser/parser.go:2968-2981 isDirective). *)
Inductive dstmt := DStrict | DString (octal : bool) | DOther.
(** ecma/parser/parser.go:2989-3065 stmts of a function or a program, the directive part: [prologue], the
    statements so far and whether the scope is strict.  Parsing a string with a legacy octal escape in a strict
    scope is an error (5673-5677). *)
Record dstate := mk_ds { ds_prologue : Z; ds_stmts : list dstmt; ds_strict : bool }.
Definition octal_in (l : list dstmt) (n : nat) : bool :=
  existsb (fun s => match s with DString o => o | _ => false end) (firstn n l).
Definition dir_step (s : dstmt) (d : dstate) : early + dstate :=
  let p := ds_prologue d in
  let stmts := ds_stmts d ++ [s] in
  if match s with DString o => ds_strict d && o | _ => false end then inl E_LegacyOctal
  else if Z.eqb p (-1) then inr (mk_ds p stmts (ds_strict d))
  else match s with
       | DOther => inr (mk_ds (if Z.eqb p 0 then -1 else p) stmts (ds_strict d))
       | DString _ => inr (mk_ds (p + 1) stmts (ds_strict d))
       | DStrict =>
           if Z.ltb 0 p
           then if octal_in (ds_stmts d) (Z.to_nat p) then inl E_LegacyOctal else inr (mk_ds (-1 + 1) stmts true)
           else inr (mk_ds (p + 1) stmts true)
       end.
Fixpoint dir_loop (l : list dstmt) (d : dstate) : early + dstate :=
  match l with [] => inr d | s :: r => match dir_step s d with inl e => inl e | inr d => dir_loop r d end end.
Definition directives (outer : bool) (l : list dstmt) : early + bool :=
  match dir_loop l (mk_ds 0 [] outer) with inl e => inl e | inr d => inr (ds_strict d) end.

(** ecma/parser/parser.go:2076-2102 switchStmt, the loop over clauses, each with its test; what a clause contains is
    parsed by switchCase and is left out. *)
Fixpoint switch_loop {A} (clauses : list (option A)) (met : bool) : option early :=
  match clauses with
  | [] => None
  | c :: r =>
      match c with
      | None => if met then Some E_MultiDefault else switch_loop r true
      | Some _ => switch_loop r false
      end
  end.
Definition switch_check {A} (clauses : list (option A)) : option early := switch_loop clauses false.
