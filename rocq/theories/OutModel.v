(** cli/ast.go: where the tool writes its result. *)
From Verif Require Import Base TarModel.

(** path/filepath Split on Unix: after the last slash. *)
Fixpoint split_path (s : bytes) : bytes * bytes :=
  match s with
  | [] => ([], [])
  | c :: r =>
      let (d, b) := split_path r in
      match d with
      | [] => if Byte.eqb c x2f then ([c], b) else ([], c :: b)
      | _ => (c :: d, b)
      end
  end.
(** path/filepath Ext of a name without slashes: from the last dot on, empty without a dot. *)
Fixpoint ext (s : bytes) : bytes :=
  match s with
  | [] => []
  | c :: r => match ext r with [] => if Byte.eqb c x2e then s else [] | e => e end
  end.
(** strings.LastIndex; [None] is -1. *)
Fixpoint starts (sub s : bytes) : bool :=
  match sub, s with
  | [], _ => true
  | a :: sub, b :: s => Byte.eqb a b && starts sub s
  | _ :: _, [] => false
  end.
Fixpoint last_index (s sub : bytes) : option nat :=
  match s with
  | [] => if starts sub s then Some 0%nat else None
  | _ :: r => match last_index r sub with
              | Some i => Some (S i)
              | None => if starts sub s then Some 0%nat else None
              end
  end.
Definition tag_ast : bytes := [x5f; x61; x73; x74].
(** cli/ast.go:44-50 assembleOutFile; [None]: a slice bound out of range.  The result is what Join gives, see [join]. *)
Definition out_file (file tag : bytes) : option (option (bool * list comp)) :=
  let (dir, f) := split_path file in
  let e := ext f in
  match last_index f e with
  | None => None
  | Some i => Some (join dir (firstn i f ++ tag ++ e))
  end.

(** What opening a path finds: each part is looked up in what must be a directory.  The file system has no links. *)
Fixpoint look (f : fs) (p : path) (l : list comp) : option inode :=
  match l with
  | [] => f p
  | c :: r => match f p with Some Dir => look f (go_to p c) r | _ => None end
  end.
(** ioutil.ReadFile. *)
Definition read_file (cwd : path) (file : bytes) (f : fs) : option bytes :=
  match file with
  | [] => None
  | _ => match look f (if rooted file then [] else cwd) (split_slash file) with Some (File b) => Some b | _ => None end
  end.

(** How the tool ends. *)
Inductive ending := Panics | Ends.
(** cli/ast.go:52-108, printJsAst.  [conv] stands for parsing, converting and printing as JSON: [None] is a syntax error.
    Of what is printed on the terminal and of the clipboard nothing is modelled.  With [perf] two files are made in the
    directory of the process (their contents are [cpu] and [heap]), and a syntax error is lost, because [err] is declared
    again in that branch: the conversion of the missing tree panics. *)
Definition print_ast (conv : bytes -> option bytes) (cpu heap : bytes) (cwd : path) (perf : bool) (file src : bytes) (f : fs) : ending * fs :=
  let go (f : fs) :=
    match conv src with
    | None => (if perf then Panics else Ends, f)
    | Some out =>
        match out_file file tag_ast with
        | None => (Panics, f)
        | Some None => (Ends, f)
        | Some (Some p) => (Ends, fst (write_file (resolve cwd p) out f))
        end
    end in
  if perf then
    let (f1, e1) := write_file ([x63; x70; x75; x2e; x70; x72; x6f; x66] :: cwd) cpu f in
    if e1 then (Ends, f1) else
    let (f2, e2) := write_file ([x68; x65; x61; x70; x2e; x6f; x75; x74] :: cwd) heap f1 in
    if e2 then (Ends, f2) else go f2
  else go f.
(** cli/ast.go:22-42 Process, with the option ast set. *)
Definition inspect (conv : bytes -> option bytes) (cpu heap : bytes) (cwd : path) (perf : bool) (file : bytes) (f : fs) : ending * fs :=
  match read_file cwd file f with
  | None => (Panics, f)
  | Some src => print_ast conv cpu heap cwd perf file src f
  end.
