(** Bound names, parameter lists, exports, directives and switches, from the ECMAScript specification. *)
From Coq Require Import String.
From Verif Require Import Base NodeModel WalkModel EarlyModel.

(** The binding identifiers of a pattern, in source order (8.2.1 BoundNames): [binds p ids]. *)
Inductive binds : node -> list attr -> Prop :=
| B_name a k : binds (Node N_NAME a k) [a]
| B_array a l ids : binds_all l ids -> binds (Node N_PAT_ARRAY a [("Elems"%string, l)]) ids
| B_object a l ids : binds_props l ids -> binds (Node N_PAT_OBJ a [("Props"%string, l)]) ids
| B_default a m d ids : binds m ids -> binds (Node N_PAT_ASSIGN a [("Lhs"%string, [Some m]); ("Rhs"%string, d)]) ids
| B_rest a m ids : binds m ids -> binds (Node N_PAT_REST a [("Arg"%string, [Some m])]) ids
with binds_all : list (option node) -> list attr -> Prop :=
| B_nil : binds_all [] []
| B_hole l ids : binds_all l ids -> binds_all (None :: l) ids
| B_elem m l i j : binds m i -> binds_all l j -> binds_all (Some m :: l) (i ++ j)
with binds_props : list (option node) -> list attr -> Prop :=
| B_no : binds_props [] []
| B_prop a key m l i j : binds m i -> binds_props l j ->
    binds_props (Some (Node N_PROP a [("Key"%string, key); ("Val"%string, [Some m])]) :: l) (i ++ j)
| B_other m l i j : n_ty m <> N_PROP -> binds m i -> binds_props l j -> binds_props (Some m :: l) (i ++ j).

(** A simple parameter list has only names (15.1.3 IsSimpleParameterList). *)
Definition simple (params : list node) : Prop := Forall (fun p => n_ty p = N_NAME) params.
(** Names that cannot be bound in strict code (12.7.2, 13.1.1): const and import cannot be anywhere. *)
Definition strict_reserved : list bytes :=
  map bs ["implements"; "interface"; "let"; "package"; "private"; "protected"; "public"; "static"; "yield";
          "eval"; "arguments"; "const"; "import"]%string.
Definition reserved (strict async : bool) (n : bytes) : Prop :=
  (strict = true /\ In n strict_reserved) \/ (async = true /\ n = bs "await").

(** The names a declaration declares. *)
Inductive declares : node -> list bytes -> Prop :=
| D_var a l ids : binds_all (map (fun d => match d with Some (Node _ _ ((_, [m]) :: _)) => m | _ => None end) l) ids ->
    Forall (fun d => exists b i v, d = Some (Node N_VAR_DEC b [("Id"%string, [Some i]); ("Init"%string, v)])) l ->
    Forall (fun i => at_bool i = false) ids ->
    declares (Node N_STMT_VAR_DEC a [("DecList"%string, l)]) (map at_text ids)
| D_fn a i ps b : declares (Node N_STMT_FN a [("Id"%string, [Some i]); ("Params"%string, ps); ("Body"%string, b)]) [at_text (n_at i)]
| D_class a i s b : declares (Node N_STMT_CLASS a [("Id"%string, [Some i]); ("Super"%string, s); ("Body"%string, b)]) [at_text (n_at i)].
(** The names an export declaration exports (16.2.3.4 ExportedNames), exports of types left out: a specifier
    without a name of its own is [* as local]. *)
Inductive exports : edec -> list bytes -> Prop :=
| X_default d s src : exports (mk_ed true d s src) [bs "default"]
| X_dec d names : declares d names -> exports (mk_ed false (Some d) [] false) names
| X_specs l src : exports (mk_ed false None l src)
    (map (fun s => match es_id s with Some n => n | None => es_local s end) (filter (fun s => negb (es_type s)) l)).
Inductive all_exports : list edec -> list bytes -> Prop :=
| XA_nil : all_exports [] []
| XA_cons e l a b : exports e a -> all_exports l b -> all_exports (e :: l) (a ++ b).
Definition star_as (e : edec) : Prop := exists s, In s (ed_specs e) /\ es_id s = None.
(** An overload of a function has no body and is no export of its own. *)
Definition overload (e : edec) : Prop := exists a i ps k, ed_dec e = Some (Node N_STMT_FN a [i; ps; (k, [None])]).

(** The directive prologue (11.2.1): the strings a body begins with. *)
Fixpoint prologue (l : list dstmt) : list dstmt :=
  match l with DStrict :: r => DStrict :: prologue r | DString o :: r => DString o :: prologue r | _ => [] end.
Definition use_strict (s : dstmt) : Prop := s = DStrict.
(** No string after the prologue reads use strict. *)
Definition no_late (l : list dstmt) : Prop := forall rest, l = prologue l ++ rest -> Forall (fun s => ~ use_strict s) rest.
(** The same, or there is no prologue. *)
Definition in_place (l : list dstmt) : Prop := prologue l = [] \/ no_late l.
Definition octal (s : dstmt) : Prop := s = DString true.

(** The number of default clauses of a switch. *)
Definition defaults {A} (l : list (option A)) : nat := List.length (filter (fun c => match c with None => true | _ => false end) l).
