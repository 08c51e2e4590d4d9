(** What the atomic token bucket theorems count in a run. *)
From Verif Require Import Common Threads AtomicBucketModel.

(** Calls that returned true. *)
Definition grants (tr : list aevent) : Z :=
  count (fun e => match e with ARet _ true => true | _ => false end) tr.

(** Total size of the refills that were applied and later taken back. *)
Definition withdrawn (tr : list aevent) : Z :=
  sumZ (fun e => match e with AWithdraw _ d => Z.abs d | _ => 0 end) tr.

(** Total size of the refills that are applied but neither confirmed nor taken back yet. *)
Definition in_flight (s : astate) : Z :=
  sumZ (fun pc => match pc with ACasLit _ _ d | ARollback d => d | _ => 0 end) (ab_threads s).

(** The values the schedule gives to the clock, in order. *)
Fixpoint clocks (sched : list alabel) : list Z :=
  match sched with
  | [] => []
  | AClock t :: sched' => t :: clocks sched'
  | _ :: sched' => clocks sched'
  end.

(** No goroutine is inside Acquire. *)
Definition quiet (s : astate) : Prop := Forall (fun pc => pc = AIdle) (ab_threads s).

(** A schedule from creation: final state and events. *)
Definition atomic_exec (capacity rate t0 : Z) (n : nat) (sched : list alabel) : astate * list aevent :=
  exec astep (new_atomic capacity rate t0 n) sched.
