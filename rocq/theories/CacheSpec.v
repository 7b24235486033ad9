(** Executions of the parse cache. *)
From Verif Require Import Base CacheModel.

Section Spec.
Context {K V : Type}.
Variable keqb : K -> K -> bool.
Variable kind : V -> rkind.
(** [pres k v]: parsing the file of [k] can give [v]. *)
Variable pres : K -> V -> Prop.

(** One step of some goroutine; a parse gives a possible result of its file. *)
Definition pstep (s s' : @cache K V) : Prop :=
  exists i a, stepf keqb kind s i a = Some s' /\
    match a with AParse v => forall r, nth_error (c_reqs s) i = Some r -> pres (rq_key r) v | _ => True end.

(** [preach ks n s]: calls for [ks] were made concurrently and some schedule reaches [s] in [n] steps. *)
Inductive preach (ks : list K) : nat -> @cache K V -> Prop :=
| pr_init : preach ks 0 (cache_init ks)
| pr_step : forall n s s', preach ks n s -> pstep s s' -> preach ks (S n) s'.
End Spec.
