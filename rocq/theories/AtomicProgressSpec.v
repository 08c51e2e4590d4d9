(** What "progress" means for the lock-free token bucket (C109, C110). *)
From Verif Require Import Common Threads AtomicBucketModel.

(** Calls and atomic operations that goroutines perform in a schedule (not ticks of the clock, not
    labels that are not enabled). *)
Fixpoint works (s : astate) (sched : list alabel) : Z :=
  match sched with
  | [] => 0
  | l :: rest =>
      match astep s l with
      | None => works s rest
      | Some (s1, _) => (match l with AClock _ => 0 | _ => 1 end) + works s1 rest
      end
  end.

(** Nobody's Acquire returns. *)
Definition no_return (tr : list aevent) : Prop :=
  Forall (fun e => match e with ARet _ _ => False | _ => True end) tr.

(** Only goroutine [i] moves; the clock may. *)
Definition only (i : nat) (sched : list alabel) : Prop :=
  Forall (fun l => match l with AClock _ => True | AStep j => j = i | ACall _ => False end) sched.

(** Calls that are refused. *)
Definition refusals (tr : list aevent) : Z :=
  count (fun e => match e with ARet _ false => true | _ => false end) tr.

(** Calls made. *)
Definition calls_made (sched : list alabel) : Z :=
  count (fun l => match l with ACall _ => true | _ => false end) sched.
