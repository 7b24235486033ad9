(** Model of parseutil/cache.go as an interleaving transition system.  Each atomic step is one
    critical section, channel operation or local action of one goroutine. *)
From Verif Require Import Base UtilModel.

Section Cache.
Context {K V : Type}.
Variable keqb : K -> K -> bool.

(** Dynamic type of the interface value a Parser returned, as the type switch of Parse sees it:
    nil, *Parsed, or anything else (FutureParsed excluded). *)
Inductive rkind := KNil | KPtr | KOther.
Variable kind : V -> rkind.

(** parseutil/cache.go:24 a value of the map [store]: absent/nil, a channel, a result. *)
Inductive sval := SNil | SFut (c : nat) | SRes (v : V).

(** Progress of one call of Parse and of the receive from the channel it returned: before line 42,
    after line 44 with the value read, waiting on the returned channel, received, panicked. *)
Inductive cpc := CStart | CRead (r : sval) | CWait (c : nat) | CGot (v : V) | CPanic.

(** parseutil/cache.go:61-69 progress of the goroutine a call started: none, before Parse, before
    the store, before the send, ended. *)
Inductive gpc := GNone | GRun (c : nat) | GStore (c : nat) (v : V) | GSend (c : nat) (v : V) | GDone.

Record req := mk_req { rq_key : K; rq_call : cpc; rq_go : gpc }.

(** [chans]: the one-slot buffer of every channel made so far; [parses]: the keys passed to
    Parser.Parse so far (history only). *)
Record cache := mk_cache {
  c_store : K -> sval; c_chans : list (option V); c_reqs : list req; c_parses : list K }.

Definition store_put (f : K -> sval) (k : K) (x : sval) : K -> sval := fun k' => if keqb k' k then x else f k'.

Inductive action := ACall | AGo | AParse (v : V).

(** parseutil/cache.go:56-71 the case nil: make the channel, store it, start the goroutine. *)
Definition first_time (s : cache) (i : nat) (k : K) : cache :=
  let c := length (c_chans s) in
  mk_cache (store_put (c_store s) k (SFut c)) (c_chans s ++ [None])
           (upd (c_reqs s) i (mk_req k (CWait c) (GRun c))) (c_parses s).

(** parseutil/cache.go:40-74 Parse, one atomic step of request [i]; [None] when it cannot move. *)
Definition stepf (s : cache) (i : nat) (a : action) : option cache :=
  match nth_error (c_reqs s) i with
  | None => None
  | Some r =>
      let k := rq_key r in
      let to c g := upd (c_reqs s) i (mk_req k c g) in
      match a with
      | ACall =>
          match rq_call r with
          | CStart => Some (mk_cache (c_store s) (c_chans s) (to (CRead (c_store s k)) (rq_go r)) (c_parses s))
          | CRead (SFut c) => Some (mk_cache (c_store s) (c_chans s) (to (CWait c) (rq_go r)) (c_parses s))
          | CRead SNil => Some (first_time s i k)
          | CRead (SRes v) =>
              match kind v with
              | KPtr => Some (mk_cache (c_store s) (c_chans s ++ [Some v]) (to (CWait (length (c_chans s))) (rq_go r)) (c_parses s))
              | KNil => Some (first_time s i k)
              | KOther => Some (mk_cache (c_store s) (c_chans s) (to CPanic (rq_go r)) (c_parses s))
              end
          | CWait c =>
              match nth_error (c_chans s) c with
              | Some (Some v) => Some (mk_cache (c_store s) (upd (c_chans s) c None) (to (CGot v) (rq_go r)) (c_parses s))
              | _ => None
              end
          | CGot _ | CPanic => None
          end
      | AParse v =>
          match rq_go r with
          | GRun c => Some (mk_cache (c_store s) (c_chans s) (to (rq_call r) (GStore c v)) (c_parses s ++ [k]))
          | _ => None
          end
      | AGo =>
          match rq_go r with
          | GStore c v => Some (mk_cache (store_put (c_store s) k (SRes v)) (c_chans s) (to (rq_call r) (GSend c v)) (c_parses s))
          | GSend c v =>
              match nth_error (c_chans s) c with
              | Some None => Some (mk_cache (c_store s) (upd (c_chans s) c (Some v)) (to (rq_call r) GDone) (c_parses s))
              | _ => None
              end
          | _ => None
          end
      end
  end.

(** parseutil/cache.go:29-35 NewParseCache, and calls for [ks] about to start. *)
Definition cache_init (ks : list K) : cache :=
  mk_cache (fun _ => SNil) [] (map (fun k => mk_req k CStart GNone) ks) [].

Fixpoint run (s : cache) (sched : list (nat * action)) : option cache :=
  match sched with
  | [] => Some s
  | (i, a) :: r => match stepf s i a with Some s' => run s' r | None => None end
  end.
End Cache.
