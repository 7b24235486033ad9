(** What the options say. *)
From Coq Require Import String.
From Verif Require Import Base FeatModel.

(** The features a switch of the options stands for. *)
Definition switch (x : feat) : option string :=
  match x with
  | FEAT_TS => Some "typescript"%string
  | FEAT_JSX => Some "jsx"%string
  | FEAT_DTS => Some "dts"%string
  | FEAT_STRICT => Some "strict"%string
  | _ => None
  end.
(** Whether a feature is on once an object of options is merged: a switch given decides, one not given changes
    nothing; a source type of module turns modules on. *)
Definition merged (was : feat -> bool) (o : jobj) (x : feat) : bool :=
  match switch x with
  | Some k => match jlookup k o with Some v => is_true v | None => was x end
  | None =>
      match x with
      | FEAT_MODULE => was x || match jlookup "sourceType" o with Some v => is_text "module" v | None => false end
      | _ => was x
      end
  end.
(** Whether a feature is on in the parser: import and export declarations come with modules, await at the top level
    needs async functions. *)
Definition settled (was : feat -> bool) (x : feat) : bool :=
  match x with
  | FEAT_IMPORT_DEC | FEAT_EXPORT_DEC => was x || was FEAT_MODULE
  | FEAT_GLOBAL_ASYNC => was x && was FEAT_ASYNC_AWAIT
  | _ => was x
  end.
(** Two objects of options that say the same about the keys both have. *)
Definition compatible (o p : jobj) : Prop :=
  forall k v w, jlookup k o = Some v -> jlookup k p = Some w -> v = w.
