(** Specification of the containers of package util. *)
From Verif Require Import Base UtilModel.

Section Spec.
Context {K V : Type} (keqb : K -> K -> bool).

(** Insertion-ordered map as a plain list of pairs: the newest Set is at the end, each key
    occurs at most once. *)
Definition spec_without (l : list (K * V)) (k : K) : list (K * V) :=
  filter (fun p => negb (keqb k (fst p))) l.
Definition spec_step (l : list (K * V)) (o : @omop K V) : list (K * V) :=
  match o with
  | OMSet k v => spec_without l k ++ [(k, v)]
  | OMRemove k => spec_without l k
  end.
Definition spec_map (ops : list (@omop K V)) : list (K * V) := fold_left spec_step ops [].

(** The value of the last write of [k] that is not followed by a removal. *)
Definition last_write (ops : list (@omop K V)) (k : K) : option V :=
  fold_left (fun acc o => match o with
                          | OMSet k' v => if keqb k k' then Some v else acc
                          | OMRemove k' => if keqb k k' then None else acc
                          end) ops None.

(** The value of the last pair with key [k]. *)
Definition last_set (sets : list (K * V)) (k : K) : option V :=
  fold_left (fun acc p => if keqb k (fst p) then Some (snd p) else acc) sets None.
End Spec.
