(** Model of util/walkdir.go as an interleaving transition system: the goroutine of Walk, the
    workers, the goroutine waiting on the WaitGroup and the goroutines that announce a job. *)
From Verif Require Import Base UtilModel.

(** A path: the names from the root downwards (util/walkdir.go:96 filepath.Join). *)
Definition path := list bytes.

(** The entries of a directory in the order of os.ReadDir; [ok] tells whether the sub-directory can
    be read.  The tree does not change during the walk. *)
Inductive forest :=
| FNil
| FFile (nm : bytes) (rest : forest)
| FDir (nm : bytes) (ok : bool) (sub : forest) (rest : forest).

(** An element of [dirs] with what os.ReadDir will say about it. *)
Record job := mk_job { j_path : path; j_ok : bool; j_sub : forest }.

(** util/walkdir.go:77-115 a worker: at the select; in [shift] before the length test; in [shift]
    before the lock; before os.ReadDir; in the loop over the entries [cs] of [p], [ph] statements of
    the case of a sub-directory done; blocked in a Stop called by the handler; blocked at line 88;
    returned at line 89; returned after line 112. *)
Inductive wk :=
| WIdle | WCheck | WTake
| WRead (j : job)
| WKids (ph : nat) (p : path) (cs : forest)
| WStop (p : path) (cs : forest)
| WErr (j : job) | WDead (j : job) | WEnd.

(** util/walkdir.go:131-153 Walk: at line 134; at the select; at line 152; returned. *)
Inductive mpc := MJob | MSelect | MFin | MEnd.

(** util/walkdir.go:136-139 the waiting goroutine: not started, in Wait, at the send, ended. *)
Inductive tpc := TNone | TWait | TSend | TEnd.

Definition event : Type := path * bool.

(** [d_senders]: goroutines of line 100 that have not delivered; [d_events]: handler calls so far. *)
Record dw := mk_dw {
  d_queue : list job; d_wg : nat; d_senders : nat; d_work : list wk; d_main : mpc; d_wait : tpc;
  d_events : list event; d_err : bool; d_panic : bool }.

Definition set_w (s : dw) (i : nat) (w : wk) : dw :=
  mk_dw (d_queue s) (d_wg s) (d_senders s) (upd (d_work s) i w) (d_main s) (d_wait s) (d_events s) (d_err s) (d_panic s).

(** [LLocal i]: worker [i] runs a statement; [LMainJob i]/[LJob i]: worker [i] receives from Walk / from
    an announcing goroutine; [LStop i]: Walk receives the error of worker [i]; [LFin i]: worker [i]
    receives the end; the other two are steps of the waiting goroutine. *)
Inductive label := LLocal (i : nat) | LMainJob (i : nat) | LJob (i : nat) | LStop (i : nat) | LFin (i : nat) | LWait | LWgFin.

Section Step.
(** The handler calls Stop for the entries of this set. *)
Variable stops : event -> bool.

(** A handler call followed by going on with [cs]. *)
Definition call (s : dw) (i : nat) (e : event) (p : path) (cs : forest) : dw :=
  mk_dw (d_queue s) (d_wg s) (d_senders s) (upd (d_work s) i (if stops e then WStop p cs else WKids 0 p cs))
        (d_main s) (d_wait s) (d_events s ++ [e]) (d_err s) (d_panic s).

(** util/walkdir.go:77-108 one step of worker [i] that needs no partner. *)
Definition local (s : dw) (i : nat) (w : wk) : option dw :=
  match w with
  | WCheck => (* 58-60 *)
      match d_queue s with [] => Some (set_w s i WIdle) | _ => Some (set_w s i WTake) end
  | WTake => (* 61-66; Front is nil and Remove panics on an empty list *)
      match d_queue s with
      | [] => Some (mk_dw [] (d_wg s) (d_senders s) (d_work s) (d_main s) (d_wait s) (d_events s) (d_err s) true)
      | j :: q => Some (mk_dw q (d_wg s) (d_senders s) (upd (d_work s) i (WRead j)) (d_main s) (d_wait s) (d_events s) (d_err s) (d_panic s))
      end
  | WRead j => (* 86-94 *)
      if j_ok j then Some (call s i (j_path j, true) (j_path j) (j_sub j))
      else Some (set_w s i (WErr j))
  | WKids _ p FNil => (* 107; a negative WaitGroup panics *)
      match d_wg s with
      | O => Some (mk_dw (d_queue s) 0 (d_senders s) (d_work s) (d_main s) (d_wait s) (d_events s) (d_err s) true)
      | S n => Some (mk_dw (d_queue s) n (d_senders s) (upd (d_work s) i WIdle) (d_main s) (d_wait s) (d_events s) (d_err s) (d_panic s))
      end
  | WKids _ p (FFile nm r) => (* 103 *)
      Some (call s i (p ++ [nm], false) p r)
  | WKids 0 p (FDir nm ok sub r) => (* 98 *)
      Some (mk_dw (d_queue s) (S (d_wg s)) (d_senders s) (upd (d_work s) i (WKids 1 p (FDir nm ok sub r))) (d_main s) (d_wait s) (d_events s) (d_err s) (d_panic s))
  | WKids 1 p (FDir nm ok sub r) => (* 99 *)
      Some (mk_dw (d_queue s ++ [mk_job (p ++ [nm]) ok sub]) (d_wg s) (d_senders s) (upd (d_work s) i (WKids 2 p (FDir nm ok sub r))) (d_main s) (d_wait s) (d_events s) (d_err s) (d_panic s))
  | WKids _ p (FDir nm ok sub r) => (* 100 *)
      Some (mk_dw (d_queue s) (d_wg s) (S (d_senders s)) (upd (d_work s) i (WKids 0 p r)) (d_main s) (d_wait s) (d_events s) (d_err s) (d_panic s))
  | _ => None
  end.

(** One step; all channels are unbuffered, so a send and its receive are one step. *)
Definition dstep (s : dw) (l : label) : option dw :=
  match l with
  | LLocal i => match nth_error (d_work s) i with Some w => local s i w | None => None end
  | LMainJob i => (* 134 with 81; 136 starts the waiting goroutine *)
      match nth_error (d_work s) i, d_main s with
      | Some WIdle, MJob => Some (mk_dw (d_queue s) (d_wg s) (d_senders s) (upd (d_work s) i WCheck) MSelect TWait (d_events s) (d_err s) (d_panic s))
      | _, _ => None
      end
  | LJob i => (* 100 with 81 *)
      match nth_error (d_work s) i, d_senders s with
      | Some WIdle, S n => Some (mk_dw (d_queue s) (d_wg s) n (upd (d_work s) i WCheck) (d_main s) (d_wait s) (d_events s) (d_err s) (d_panic s))
      | _, _ => None
      end
  | LStop i => (* 88 or 124 with 146 *)
      match nth_error (d_work s) i, d_main s with
      | Some (WErr j), MSelect => Some (mk_dw (d_queue s) (d_wg s) (d_senders s) (upd (d_work s) i (WDead j)) MFin (d_wait s) (d_events s) true (d_panic s))
      | Some (WStop p cs), MSelect => Some (mk_dw (d_queue s) (d_wg s) (d_senders s) (upd (d_work s) i (WKids 0 p cs)) MFin (d_wait s) (d_events s) true (d_panic s))
      | _, _ => None
      end
  | LFin i => (* 152 with 109 *)
      match nth_error (d_work s) i, d_main s with
      | Some WIdle, MFin => Some (mk_dw (d_queue s) (d_wg s) (d_senders s) (upd (d_work s) i WEnd) MEnd (d_wait s) (d_events s) (d_err s) (d_panic s))
      | _, _ => None
      end
  | LWait => (* 137 *)
      match d_wait s, d_wg s with
      | TWait, O => Some (mk_dw (d_queue s) 0 (d_senders s) (d_work s) (d_main s) TSend (d_events s) (d_err s) (d_panic s))
      | _, _ => None
      end
  | LWgFin => (* 138 with 144 *)
      match d_wait s, d_main s with
      | TSend, MSelect => Some (mk_dw (d_queue s) (d_wg s) (d_senders s) (d_work s) MFin TEnd (d_events s) (d_err s) (d_panic s))
      | _, _ => None
      end
  end.
End Step.

(** util/walkdir.go:33-55, 131-133 NewDirWalker, the workers at their select, and the first two
    statements of Walk. *)
Definition dinit (n : nat) (root : path) (ok : bool) (sub : forest) : dw :=
  mk_dw [mk_job root ok sub] 1 0 (repeat WIdle n) MJob TNone [] false false.

(** util/walkdir.go:34-36 the default number of workers. *)
Definition concurrency (n : nat) : nat := match n with O => 16 | _ => n end.

Fixpoint drun (stops : event -> bool) (s : dw) (sched : list label) : option dw :=
  match sched with
  | [] => Some s
  | l :: r => match dstep stops s l with Some s' => drun stops s' r | None => None end
  end.
