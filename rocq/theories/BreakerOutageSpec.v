(** What "outage" and "let through in a stretch of time" mean for the circuit breaker (C108).  Only the
    alphabet (labels, events) comes from the model. *)
From Verif Require Import Common Threads BreakerModel.

(** The clock never goes back; it shows [c] before the schedule. *)
Fixpoint clock_forward (c : Z) (sched : list blabel) : Prop :=
  match sched with
  | [] => True
  | BClock t :: rest => c <= t /\ clock_forward t rest
  | _ :: rest => clock_forward c rest
  end.

(** A history in which every task that finishes returns an error. *)
Definition all_fail (tr : list bevent) : Prop :=
  Forall (fun e => match e with ESuccess | EDone _ TaskOk | EDone _ TaskPanic => False | _ => True end) tr.

(** A [Do] that read the clock at a time from [a] to [b] and whose task is run. *)
Definition let_through (a b : Z) (e : bevent) : bool :=
  match e with EConsult _ now r => r && (a <=? now) && (now <=? b) | _ => false end.
