(** Specification of the lock based semaphore at the level of single accesses. *)
From Verif Require Import Common Threads SemaModel SemaSpec SemaFineModel.

(** ** Calls that take effect at one instant
    A history with the instants: a call, the moment at which it takes effect with its result, its return. *)
Inductive sobs := OCall (i : nat) (o : sop) | OTakes (e : sevent) | OReturns (e : sevent).
Definition seen1 (x : sobs) : list sevent := match x with OCall i o => [ESCall i o] | OTakes _ => [] | OReturns e => [e] end.
Definition effect1 (x : sobs) : list sevent := match x with OCall i o => [ESCall i o] | OTakes e => [e] | OReturns _ => [] end.
(** Calls and returns; calls and effects. *)
Definition seen (tr : list sobs) : list sevent := flat_map seen1 tr.
Definition effects (tr : list sobs) : list sevent := flat_map effect1 tr.

(** Goroutine [i] is in no call, in a call of [o], or in a call that has taken effect with result [e]. *)
Inductive stage := Out | Busy (o : sop) | Over (e : sevent).
Definition who (e : sevent) : nat := match e with ESCall i _ | ESAcquired i | ESTried i _ | ESReleased i => i end.
Definition result_of (o : sop) (e : sevent) : Prop :=
  match o, e with OpAcquire, ESAcquired _ | OpRelease, ESReleased _ | OpTry, ESTried _ _ => True | _, _ => False end.
Inductive turn (i : nat) : stage -> sobs -> stage -> Prop :=
| turn_call o : turn i Out (OCall i o) (Busy o)
| turn_takes o e : who e = i -> result_of o e -> turn i (Busy o) (OTakes e) (Over e)
| turn_returns e : who e = i -> turn i (Over e) (OReturns e) Out
| turn_other_call st j o : j <> i -> turn i st (OCall j o) st
| turn_other_takes st e : who e <> i -> turn i st (OTakes e) st
| turn_other_returns st e : who e <> i -> turn i st (OReturns e) st.
Inductive turns (i : nat) : list sobs -> stage -> Prop :=
| turns_nil : turns i [] Out
| turns_snoc tr st x st' : turns i tr st -> turn i st x st' -> turns i (tr ++ [x]) st'.
(** Every call takes effect exactly once, between call and return, and returns the result it had then. *)
Definition orderly (tr : list sobs) : Prop := forall i, exists st, turns i tr st.

(** The history [evs] of calls and returns is explained by instants at which the calls take effect. *)
Definition explained (permits : Z) (n : nat) (evs : list sevent) (tr : list sobs) : Prop :=
  seen tr = evs /\ semaphore_history permits n (effects tr) /\ orderly tr.

(** ** Races: the field that a goroutine is about to read (false) or write (true). *)
Inductive field := Fcount | Fpermits.
Definition about_to (s : fsema) (i : nat) : option (field * bool) :=
  match nth_error (fs_threads s) i with
  | Some (FReadC _) | Some (FReadN _) => Some (Fcount, false)
  | Some (FWriteN _ _) => Some (Fcount, true)
  | Some (FReadP _ _) => Some (Fpermits, false)
  | _ => None
  end.
Definition race (s : fsema) : Prop :=
  exists i j f a b, i <> j /\ about_to s i = Some (f, a) /\ about_to s j = Some (f, b) /\ (a = true \/ b = true).

(** ** Progress *)
(** The method that a goroutine is in. *)
Definition inside (pc : fpc) : option sop :=
  match pc with
  | FIdle => None
  | FLock o | FReadC o | FReadP o _ | FReadN o | FWriteN o _ => Some o
  | FBroadcast | FUnlock (ESReleased _) | FReturn (ESReleased _) => Some OpRelease
  | FWaitAdd | FWaitUnlock | FWaitSleep | FWaitLock | FUnlock (ESAcquired _) | FReturn (ESAcquired _) => Some OpAcquire
  | FUnlock (ESTried _ _) | FReturn (ESTried _ _) => Some OpTry
  | FUnlock (ESCall _ o) | FReturn (ESCall _ o) => Some o
  end.
Definition no_calls (l : slabel) : Prop := match l with SCall _ _ => False | SStep _ => True end.
(** The number of labels of a schedule that are steps, not waiting. *)
Fixpoint steps_made (s : fsema) (sched : list slabel) : Z :=
  match sched with
  | [] => 0
  | l :: sched' => match fstep s l with Some (s1, _) => 1 + steps_made s1 sched' | None => steps_made s sched' end
  end.
