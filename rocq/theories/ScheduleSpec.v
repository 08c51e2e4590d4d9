(** What users of a Task can see and rely on, in terms of the events of an execution. *)
From Verif Require Import Common Threads ScheduleModel.
Local Open Scope list_scope.
Local Open Scope Z_scope.

Definition starts (o : op) : bool := match o with OStart | OMustStart => true | OStop | OMustStop => false end.

(** A call of Start (or MustStart) that succeeded; the same for Stop. *)
Definition start_ok (e : event) : bool := match e with ERet _ o Ok _ => starts o | _ => false end.
Definition stop_ok (e : event) : bool := match e with ERet _ o Ok _ => negb (starts o) | _ => false end.

(** How a call fails: Start and Stop return the error, MustStart and MustStop panic with it. *)
Definition fails (o : op) (e : error) : result :=
  match o with OStart | OStop => Err e | OMustStart | OMustStop => Panic e end.

(** The result a call must have after the events [past]. *)
Definition due (past : list event) (o : op) : result :=
  let begun := existsb start_ok past in
  let over := existsb stop_ok past in
  if starts o
  then if over then fails o StartedStopped else if begun then fails o StartedTwice else Ok
  else if over then fails o StoppedTwice else if begun then Ok else fails o NotStarted.

(** The call goroutine [i] has made and that has not come back. *)
Definition pending (i : nat) (tr : list event) : option op :=
  fold_left (fun acc e =>
    match e with
    | ECall j o => if Nat.eqb i j then Some o else acc
    | ERet j _ _ _ => if Nat.eqb i j then None else acc
    | _ => acc
    end) tr None.

Definition is_begin (e : event) : bool := match e with EBegin _ _ => true | _ => false end.
Definition is_end (e : event) : bool := match e with EEnd _ _ => true | _ => false end.

(** The numbers of the runs that have begun, in that order. *)
Definition begun (tr : list event) : list Z :=
  flat_map (fun e => match e with EBegin n _ => [n] | _ => [] end) tr.

(** How far a schedule lets time advance. *)
Definition elapsed (sched : list label) : Z :=
  sumZ (fun l => match l with LTime d => d | _ => 0 end) sched.

(** The task at work on its own: no further call of Start or Stop. *)
Definition no_calls (l : label) : bool := match l with LCall _ _ => false | _ => true end.
(** Steps of goroutines (and of the ticker): neither time nor new calls. *)
Definition internal (l : label) : bool := match l with LCall _ _ | LTime _ => false | _ => true end.
(** The same without the job function beginning or returning. *)
Definition without_job (l : label) : bool := match l with LJobBegin _ | LJobEnd _ => false | l => internal l end.

(** Number of the labels of a schedule that took effect. *)
Fixpoint effective {S E : Type} (step : S -> label -> option (S * list E)) (s : S) (sched : list label) : nat :=
  match sched with
  | [] => O
  | l :: sched' =>
    match step s l with
    | Some (s1, _) => Datatypes.S (effective step s1 sched')
    | None => effective step s sched'
    end
  end.

(** No goroutine of the task is left: the consumer, the provider, every run and every job function have
    returned, no call is waiting, and what timers there are have not reached their time. *)
Definition finished (s : task) : Prop :=
  Forall (fun c => c = CIdle) (t_clients s) /\
  Forall (fun k => k = KDone) (t_cons s) /\
  Forall (fun p => p = PDone) (t_prov s) /\
  Forall (fun t => t = TDone \/ exists a, t = TArmed a /\ t_now s < a) (t_timers s) /\
  Forall (fun r => r_pc r = RRet /\ r_job r = JDone) (t_runs s).
