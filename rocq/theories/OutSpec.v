(** What the result of the tool is called. *)
From Verif Require Import Base TarModel TarSpec.

Definition no_dot (s : bytes) : Prop := ~ In x2e s.
(** [_ast] goes before the last dot of a name, or at its end when it has no dot. *)
Inductive named_after : bytes -> bytes -> Prop :=
| na_plain : forall s, no_dot s -> named_after s (s ++ [x5f; x61; x73; x74])
| na_ext : forall s e, no_dot e -> named_after (s ++ x2e :: e) (s ++ [x5f; x61; x73; x74] ++ x2e :: e).
(** The directory [d] has a file [c] with the content [src], and [file] leads there from [cwd]. *)
Definition names_source (f : fs) (cwd : path) (file : bytes) (c : comp) (d : path) (src : bytes) : Prop :=
  place cwd file = c :: d /\ f (c :: d) = Some (File src).
