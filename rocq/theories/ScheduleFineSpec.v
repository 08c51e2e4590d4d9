(** Specification of the tasks at the level of single steps. *)
From Verif Require Import Common Threads ScheduleModel ScheduleSpec ScheduleFineModel.
From Coq Require Import Sorting.Sorted.
Local Open Scope list_scope.
Local Open Scope Z_scope.

(** ** Calls that take effect at one instant
    What happens, with times and with the instants: an event, a call that takes effect, a call that returns. *)
Inductive tobs := Both (e : event) | Takes (e : event) | Seen (e : event).
Definition seen (tr : list (Z * tobs)) : list (Z * event) :=
  flat_map (fun x => match x with (t, Both e) | (t, Seen e) => [(t, e)] | (_, Takes _) => [] end) tr.
Definition effects (tr : list (Z * tobs)) : list event :=
  flat_map (fun x => match x with (_, Both e) | (_, Takes e) => [e] | (_, Seen _) => [] end) tr.

Definition of_client (i : nat) (x : Z * tobs) : bool :=
  match snd x with
  | Both e | Takes e | Seen e => match e with ECall j _ | ERet j _ _ _ => Nat.eqb i j | _ => false end
  end.

(** Each call takes effect once, with its result, and then returns. *)
Inductive stage := Idle | Called (o : op) | Taken (o : op) (r : result).
Inductive calls (i : nat) : list (Z * tobs) -> stage -> Prop :=
| calls_none : calls i [] Idle
| calls_call tr t o : calls i tr Idle -> calls i (tr ++ [(t, Both (ECall i o))]) (Called o)
| calls_takes tr t o r : calls i tr (Called o) -> calls i (tr ++ [(t, Takes (ERet i o r t))]) (Taken o r)
| calls_returns tr t o r : calls i tr (Taken o r) -> calls i (tr ++ [(t, Seen (ERet i o r t))]) Idle.

Definition is_ret (e : event) : bool := match e with ERet _ _ _ _ => true | _ => false end.
Definition linear (tr : list (Z * tobs)) : Prop :=
  StronglySorted (fun x y => fst x <= fst y) tr /\ (forall i, exists st, calls i (filter (of_client i) tr) st) /\
  Forall (fun x => match snd x with Both e => is_ret e = false | Takes e | Seen e => is_ret e = true end) tr.

(** ** Races: the access to a field that a goroutine is about to make; [true]: it writes. *)
Inductive goroutine := Caller (i : nat) | Consuming (k : nat) | Providing (p : nat).
Inductive field := Status | No | Ticker.
Definition about_to (s : ftask) (g : goroutine) : option (field * bool) :=
  match g with
  | Caller i =>
    match nth_error (f_in s) i with
    | Some (Some FStarted) | Some (Some FStopped) | Some (Some FNew) | Some (Some FOver) => Some (Status, false)
    | Some (Some FMark) | Some (Some FMarkStop) => Some (Status, true)
    | Some (Some FTicker) => Some (Ticker, true)
    | Some (Some FTickerStop) => Some (Ticker, false)
    | _ => None
    end
  | Consuming k =>
    match nth_error (f_kin s) k with
    | Some (Some IStatus) => Some (Status, false)
    | Some (Some INo) | Some (Some IRead) => Some (No, false)
    | Some (Some (IWrite _)) => Some (No, true)
    | _ => None
    end
  | Providing p =>                         (* fixed_rate_task.go:130 *)
    match nth_error (t_prov (f_task s)) p with
    | Some PTick => Some (Ticker, false)
    | _ => None
    end
  end.
Definition race (s : ftask) : Prop :=
  exists g h f a b, g <> h /\ about_to s g = Some (f, a) /\ about_to s h = Some (f, b) /\ (a = true \/ b = true).

(** Steps of the goroutine that holds the lock, or of a client that hands over the first run. *)
Definition step_of (o : owner) (l : label) : Prop :=
  match o, l with
  | Client i, LClient j => j = i
  | Client i, LClientSend j _ => j = i
  | Consumer k, LCons j => j = k
  | _, _ => False
  end.
