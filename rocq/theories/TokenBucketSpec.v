(** What the token bucket theorems talk about.  Nothing here refers to the model. *)
From Verif Require Import Common.

(** Number of calls that returned true. *)
Definition granted (results : list bool) : Z := count (fun r => r) results.

(** Whole seconds in a non-negative number of nanoseconds. *)
Definition whole_seconds (ns : Z) : Z := ns / second.

(** The configuration and clock readings stay far enough from the int64 limits: readings between
    [t0] and [t], and the tokens that could be issued between them, are below 2^62. *)
Definition no_overflow (capacity rate t0 t : Z) : Prop :=
  capacity < 2 ^ 62 /\ - 2 ^ 62 <= t0 /\ t < 2 ^ 62 /\ rate * whole_seconds (t - t0) < 2 ^ 62.
