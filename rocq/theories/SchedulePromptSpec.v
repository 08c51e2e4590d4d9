(** When the runs of a task are on time: an execution cut at moments at which every goroutine that can go
    on has done so. *)
From Verif Require Import Common Threads ScheduleModel ScheduleSpec.
Local Open Scope list_scope.
Local Open Scope Z_scope.

(** Steps the runtime owes: all of them but time passing, new calls, and the job function returning. *)
Definition owed (l : label) : bool := match l with LJobEnd _ => false | l => internal l end.

(** Nothing is owed: whatever goroutine, ticker or timer can go on has done so. *)
Definition caught_up (c : cfg) (s : task) : Prop := forall l, owed l = true -> tstep c s l = None.

(** The execution is cut into pieces; at the end of each nothing is owed, and no piece lasts longer than
    [lag]. *)
Fixpoint keeps_up (c : cfg) (lag : Z) (s : task) (pieces : list (list label)) : Prop :=
  match pieces with
  | [] => True
  | p :: pieces' =>
    let s1 := fst (exec (tstep c) s p) in
    t_now s1 <= t_now s + lag /\ caught_up c s1 /\ keeps_up c lag s1 pieces'
  end.
