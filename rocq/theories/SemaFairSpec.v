(** Who gets a permit first. *)
From Verif Require Import Common Threads SemaModel SemaSpec.

(** Goroutine [j] is blocked in Acquire. *)
Definition asleep (j : nat) (threads : list spc) : Prop := nth_error threads j = Some SWait.
(** How many are. *)
Definition sleepers (threads : list spc) : Z := count (fun pc => match pc with SWait => true | _ => false end) threads.

(** Who returned from Acquire, in order. *)
Definition acquirers (tr : list sevent) : list nat := flat_map (fun e => match e with ESAcquired i => [i] | _ => [] end) tr.

(** The first [k] labels of an endless schedule, and schedules that give each of [n] goroutines its turn again and again. *)
Definition upto (k : nat) (sched : nat -> slabel) : list slabel := map sched (seq 0 k).
Definition fair_to (n : nat) (sched : nat -> slabel) : Prop := forall i k, (i < n)%nat -> exists k', (k <= k')%nat /\ sched k' = SStep i.
