(** Specification of the manager together with its tasks. *)
From Verif Require Import Common Threads Bytes ScheduleModel ScheduleSpec TaskMgrModel TaskMgrSpec TaskSysModel.
Local Open Scope list_scope.
Local Open Scope Z_scope.

(** What happens in one task. *)
Definition of_task (t : nat) (tr : list yevent) : list event :=
  flat_map (fun e => match e with YT x e' => if Nat.eqb t x then [e'] else [] | YM _ => [] end) tr.

(** What happens as far as the manager is concerned: its calls and returns, and the tasks that are stopped. *)
Definition of_manager (tr : list yevent) : list mevent :=
  flat_map (fun e => match e with
                     | YM e' => [e']
                     | YT t (ERet i OStop Ok _) => [VStopped i t]
                     | YT _ _ => []
                     end) tr.

(** Steps of goroutines other than jobs: no time, no new calls, no job begins or ends. *)
Definition quiet_step (l : ylabel) : bool :=
  match l with YCall _ _ | YTime _ => false | YStep _ _ => true | YTask _ l => without_job l end.

(** Task [t] was stopped during [a]: in [b] at most one more run begins if its delay is fixed; if its rate is
    fixed, all its runs, those in [b] included, were due by the time it was stopped. *)
Definition winding_down (cfgs : nat -> cfg) (t : nat) (a b : list yevent) : Prop :=
  (c_kind (cfgs t) = Delay -> count is_begin (of_task t b) <= 1) /\
  (c_kind (cfgs t) = Rate -> 0 < c_interval (cfgs t) ->
     exists i o ts i' o' te, In (ERet i o Ok ts) (of_task t a) /\ starts o = true /\ In (ERet i' o' Ok te) (of_task t a) /\ starts o' = false /\
       ts + (count is_begin (of_task t (a ++ b)) - 1) * c_interval (cfgs t) <= te).

(** How much time a schedule takes. *)
Definition time_passed (l : list ylabel) : Z := sumZ (fun l => match l with YTime d => d | _ => 0 end) l.
