(** What unpacking an archive is. *)
From Verif Require Import Base TarModel.

(** [p] is [d] or below it; paths have their last part first. *)
Definition under (d p : path) : Prop := exists l, p = l ++ d.

(** A file system: the root is a directory, and what exists is in a directory. *)
Definition sound (f : fs) : Prop := f [] = Some Dir /\ forall c p, f (c :: p) <> None -> f p = Some Dir.

(** The directory [dist] names, and the place [name] has in it: step by step from the directory, the parts of the name in order. *)
Definition place (cwd : path) (dist : bytes) : path := fold_left go_to (split_slash dist) (if rooted dist then [] else cwd).
Definition place_in (d : path) (name : bytes) : path := fold_left go_to (split_slash name) d.

(** A name that does not lead out of the directory it starts from: never more parts [..] than others so far. *)
Fixpoint stays_at (depth : nat) (l : list comp) : bool :=
  match l with
  | [] => true
  | c :: r =>
      if comp_eqb c [] || comp_eqb c dot then stays_at depth r
      else if comp_eqb c dotdot then match depth with O => false | S d => stays_at d r end
      else stays_at (S depth) r
  end.
Definition stays (name : bytes) : bool := stays_at 0 (split_slash name).

Definition name_of (e : entry) : option bytes :=
  match e with EDir n | EFile n _ | ETorn n _ => Some n | EBad => None end.

(** What the archive says of the path [p], [d] being the directory it is unpacked in: the content of the last file there,
    and whether there is a directory at or below it. *)
Fixpoint last_content (d : path) (l : list entry) (p : path) : option bytes :=
  match l with
  | [] => None
  | e :: r =>
      match last_content d r p with
      | Some c => Some c
      | None => match e with EFile n c => if path_eqb (place_in d n) p then Some c else None | _ => None end
      end
  end.
Definition has_dir (d : path) (l : list entry) (p : path) : Prop := exists n, In (EDir n) l /\ under p (place_in d n).

(** An archive of files and directories whose names stay inside, each file in the top directory or in one listed before it, no
    path being both a file and a directory. *)
Definition orderly (d : path) (l : list entry) : Prop :=
  (forall e, In e l -> exists n, stays n = true /\ (e = EDir n \/ exists b, e = EFile n b))
  /\ (forall pre n b post, l = pre ++ EFile n b :: post ->
        place_in d n <> d /\ (tl (place_in d n) = d \/ has_dir d pre (tl (place_in d n))))
  /\ (forall n b n', In (EFile n b) l -> In (EDir n') l -> ~ under (place_in d n) (place_in d n')).
(** A directory with nothing in it. *)
Definition empty_dir (f : fs) (d : path) : Prop := f d = Some Dir /\ forall p, under d p -> p <> d -> f p = None.
