(** Specification: callers of a limiter after a quiet time. *)
From Verif Require Import Common Threads MonitorModel MonitorSpec LimiterConcModel.

(** How many calls of the methods [P] a schedule makes. *)
Definition calls {M} (P : M -> bool) (sched : list (mlabel M)) : Z :=
  count (fun l => match l with MCall _ m => P m | _ => false end) sched.
(** No call of the methods [P] that returned was refused. *)
Definition none_refused {M} (P : M -> bool) (evs : list (mevent lresult M)) : Prop :=
  forall t m r, P m = true -> In (MReturned t m r) evs -> r = LBool true.

Definition b_acquire (m : tbmethod) : bool := match m with BAcquire => true | _ => false end.
Definition f_acquire (m : fwmethod) : bool := match m with FAcquire => true | _ => false end.
Definition w_acquire (m : swmethod) : bool := match m with WAcquire => true | _ => false end.
