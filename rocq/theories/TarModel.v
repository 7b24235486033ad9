(** util/shell.go: unpacking archives. *)
From Verif Require Import Base.

Definition comp : Type := bytes.
Notation comp_eqb := bytes_eqb (only parsing).
Definition dot : comp := [x2e].
Definition dotdot : comp := [x2e; x2e].

(** The parts of a path between its slashes, empty ones too. *)
Fixpoint split_slash (s : bytes) : list comp :=
  match s with
  | [] => [[]]
  | c :: r =>
      if Byte.eqb c x2f then [] :: split_slash r
      else match split_slash r with h :: t => (c :: h) :: t | [] => [[c]] end
  end.
Definition rooted (s : bytes) : bool := match s with c :: _ => Byte.eqb c x2f | [] => false end.

(** path/filepath Clean on Unix: empty parts and [.] go, [..] takes the part before it away, at the root it goes and
    at the beginning of a relative path it stays.  [acc] is what is written so far, the last part first.  The result is
    given by its parts instead of as a text, [.] having none. *)
Fixpoint clean_parts (root : bool) (acc : list comp) (l : list comp) : list comp :=
  match l with
  | [] => rev acc
  | c :: r =>
      if comp_eqb c [] || comp_eqb c dot then clean_parts root acc r
      else if comp_eqb c dotdot then
        match acc with
        | x :: up => if comp_eqb x dotdot then clean_parts root (c :: acc) r else clean_parts root up r
        | [] => if root then clean_parts root [] r else clean_parts root [c] r
        end
      else clean_parts root (c :: acc) r
  end.
Definition clean (s : bytes) : bool * list comp := (rooted s, clean_parts (rooted s) [] (split_slash s)).
(** path/filepath Join of two elements: leading empty ones are ignored, [None] is the empty path. *)
Definition join (a b : bytes) : option (bool * list comp) :=
  match a, b with
  | [], [] => None
  | [], _ => Some (clean b)
  | _, _ => Some (clean (a ++ x2f :: b))
  end.

(** A file system without links: what is at a path, given by its parts from the root, the last part first. *)
Definition path : Type := list comp.
Definition path_eqb (a b : path) : bool := if list_eq_dec (list_eq_dec Byte.byte_eq_dec) a b then true else false.
Inductive inode := Dir | File (content : bytes).
Definition fs : Type := path -> option inode.
Definition put (f : fs) (p : path) (i : inode) : fs := fun q => if path_eqb p q then Some i else f q.

(** What a path means to a process in the directory [cwd]. *)
Definition go_to (p : path) (c : comp) : path :=
  if comp_eqb c [] || comp_eqb c dot then p else if comp_eqb c dotdot then tl p else c :: p.
Definition resolve (cwd : path) (p : bool * list comp) : path := fold_left go_to (snd p) (if fst p then [] else cwd).

(** os.MkdirAll: the file system after it and whether it fails.  Modes and permissions are not modelled, nor names the
    system refuses. *)
Fixpoint mkdir_all (p : path) (f : fs) : fs * bool :=
  match p with
  | [] => (f, false)
  | _ :: up =>
      match f p with
      | Some Dir => (f, false)
      | Some (File _) => (f, true)
      | None => let (f1, err) := mkdir_all up f in if err then (f1, true) else (put f1 p Dir, false)
      end
  end.
(** os.OpenFile with O_CREATE, O_TRUNC and O_WRONLY, and io.Copy of all the content. *)
Definition write_file (p : path) (content : bytes) (f : fs) : fs * bool :=
  match p with
  | [] => (f, true)
  | _ :: up =>
      match f p, f up with
      | Some Dir, _ => (f, true)
      | _, Some Dir => (put f p (File content), false)
      | _, _ => (f, true)
      end
  end.

(** What tar.Reader gives: a header of a directory; any other header, links too, with its content; a header whose content
    breaks off after some bytes; an error instead of a header. *)
Inductive entry := EDir (name : bytes) | EFile (name content : bytes) | ETorn (name part : bytes) | EBad.

(** util/shell.go:100-128, one turn of the loop of UnTarGz. *)
Definition unpack_one (cwd : path) (dist : bytes) (e : entry) (f : fs) : fs * bool :=
  match e with
  | EBad => (f, true)
  | EDir name =>
      match join dist name with Some p => mkdir_all (resolve cwd p) f | None => (f, true) end
  | EFile name content =>
      match join dist name with Some p => write_file (resolve cwd p) content f | None => (f, true) end
  | ETorn name part =>
      match join dist name with
      | Some p => (fst (write_file (resolve cwd p) part f), true)
      | None => (f, true)
      end
  end.
(** util/shell.go:87-130 UnTarGz, the archive given by what its reader gives: the file system after it and whether an error
    is returned. *)
Fixpoint untar (cwd : path) (dist : bytes) (l : list entry) (f : fs) : fs * bool :=
  match l with
  | [] => (f, false)
  | e :: r => let (f1, err) := unpack_one cwd dist e f in if err then (f1, true) else untar cwd dist r f1
  end.
