(** What the circuit breaker theorems talk about: histories of events and the documented three-state
    machine.  Only the alphabet (outcomes, events, labels) comes from the model. *)
From Verif Require Import Common Threads BreakerModel.

(** Failures recorded since the last recorded success, and the time of the latest of them. *)
Fixpoint failures_from (n last : Z) (tr : list bevent) : Z * Z :=
  match tr with
  | [] => (n, last)
  | EFailure t :: tr' => failures_from (n + 1) t tr'
  | ESuccess :: tr' => failures_from 0 0 tr'
  | _ :: tr' => failures_from n last tr'
  end.
Definition failures_since_success (tr : list bevent) : Z := fst (failures_from 0 0 tr).
Definition latest_failure (tr : list bevent) : Z := snd (failures_from 0 0 tr).

(** The part of a history that concerns recorded outcomes. *)
Definition is_record (e : bevent) : bool :=
  match e with EFailure _ | ESuccess => true | _ => false end.
Definition is_success (e : bevent) : bool := match e with ESuccess => true | _ => false end.
Definition is_failure (e : bevent) : bool := match e with EFailure _ => true | _ => false end.

(** The clock readings a schedule can produce. *)
Definition clock_ok (l : blabel) : Prop :=
  match l with BClock t => 0 <= t < 2 ^ 62 | _ => True end.
Definition blength_ok (sched : list blabel) : Prop := Z.of_nat (length sched) < 2 ^ 62.

(** What user code of activation [i] sees. *)
Inductive visible :=
| VCall
| VOnOpen
| VTask
| VDone (o : outcome)
| VOnError (e : Z).
Fixpoint visible_of (i : nat) (tr : list bevent) : list visible :=
  match tr with
  | [] => []
  | e :: tr' =>
      (match e with
       | ECall j => if Nat.eqb i j then [VCall] else []
       | EOnOpen j => if Nat.eqb i j then [VOnOpen] else []
       | ETask j => if Nat.eqb i j then [VTask] else []
       | EDone j o => if Nat.eqb i j then [VDone o] else []
       | EOnError j e => if Nat.eqb i j then [VOnError e] else []
       | EConsult _ _ _ | EFailure _ | ESuccess => []
       end) ++ visible_of i tr'
  end.

(** A complete [Do]: either onOpen once, or the task once and then onError, once, with the task's
    error, exactly if it returned one. *)
Definition whole_do (l : list visible) : Prop :=
  l = [VCall; VOnOpen] \/ l = [VCall; VTask; VDone TaskOk] \/ l = [VCall; VTask; VDone TaskPanic] \/
  exists e, l = [VCall; VTask; VDone (TaskErr e); VOnError e].

(** A [Do] that has not returned yet. *)
Definition part_do (l : list visible) : Prop := exists rest, rest <> [] /\ whole_do (l ++ rest).

(** The documented machine (circuitbreaker.go:26-33): closed with a number of consecutive failures,
    or open since the failure at [since]; open becomes half-open [timeout] after that. *)
Inductive machine :=
| MClosed (failures : Z)
| MOpen (since : Z).
Inductive result := RRefused | RRan (o : outcome).

Definition machine_do (threshold timeout : Z) (m : machine) (t1 : Z) (o : outcome) (t2 : Z)
  : machine * result :=
  match m with
  | MClosed k =>
      (match o with
       | TaskOk => MClosed 0
       | TaskErr _ => if k + 1 <? threshold then MClosed (k + 1) else MOpen t2
       | TaskPanic => MClosed k
       end, RRan o)
  | MOpen since =>
      if t1 <=? since + timeout then (m, RRefused)
      else (* half-open *)
        (match o with
         | TaskOk => MClosed 0
         | TaskErr _ => MOpen t2
         | TaskPanic => MOpen since
         end, RRan o)
  end.

(** A sequence of [Do] calls, each with its clock readings and its task's outcome. *)
Fixpoint machine_run (threshold timeout : Z) (m : machine) (calls : list (Z * outcome * Z)) : list result :=
  match calls with
  | [] => []
  | (t1, o, t2) :: calls' =>
      let '(m1, r) := machine_do threshold timeout m t1 o t2 in
      r :: machine_run threshold timeout m1 calls'
  end.

(** What user code sees of a machine result. *)
Definition result_visible (r : result) : list visible :=
  match r with
  | RRefused => [VCall; VOnOpen]
  | RRan (TaskErr e) => [VCall; VTask; VDone (TaskErr e); VOnError e]
  | RRan o => [VCall; VTask; VDone o]
  end.

Definition times_ok (calls : list (Z * outcome * Z)) : Prop :=
  Forall (fun c => match c with (t1, _, t2) => 0 <= t1 < 2 ^ 62 /\ 0 <= t2 < 2 ^ 62 end) calls.

(** What the breaker answered activation [i] most recently. *)
Fixpoint last_consult (i : nat) (acc : option bool) (tr : list bevent) : option bool :=
  match tr with
  | [] => acc
  | EConsult j _ r :: tr' => last_consult i (if Nat.eqb i j then Some r else acc) tr'
  | _ :: tr' => last_consult i acc tr'
  end.

(** What user code sees of each of a sequence of [Do] calls made by one goroutine. *)
Fixpoint seq_visible (s : bstate) (calls : list (Z * outcome * Z)) : list (list visible) :=
  match calls with
  | [] => []
  | (t1, o, t2) :: calls' =>
      let '(s1, tr) := exec bstep s (one_do t1 o t2) in visible_of 0 tr :: seq_visible s1 calls'
  end.

(** Activations whose task is running. *)
Definition running (s : bstate) : Z :=
  count (fun pc => match pc with BRunning => true | _ => false end) (cb_threads s).

(** User code of [NeverOpen]. *)
Definition never_open_whole (o : outcome) (calls : list ncall) : Prop :=
  match o with
  | TaskErr e => calls = [NTask; NOnError e]
  | TaskOk | TaskPanic => calls = [NTask]
  end.
