(** Specification of the event bus at the level of single steps. *)
From Verif Require Import Common Bytes Threads BusModel BusSpec BusFineModel.
Local Open Scope list_scope.

(** ** Critical sections that take effect at one instant
    What happens, with the instants: an event that is seen when it takes effect, an event that takes effect, an event
    that is seen. *)
Inductive bobs := Both (e : bevent) | Takes (e : bevent) | Seen (e : bevent).
Definition seen (tr : list bobs) : list bevent := flat_map (fun x => match x with Both e | Seen e => [e] | Takes _ => [] end) tr.
Definition effects (tr : list bobs) : list bevent := flat_map (fun x => match x with Both e | Takes e => [e] | Seen _ => [] end) tr.

(** The events whose sight may be later than their effect: returns of calls that lock, and closings of channels. *)
Definition lags (e : bevent) : Prop :=
  match e with EReg _ _ _ _ _ | EClosedRecv _ | ECloseReturns _ _ | EBusClosed _ => True | _ => False end.
Definition returns (i : nat) (e : bevent) : Prop :=
  match e with EReg j _ _ _ _ | ECloseReturns j _ | EBusClosed j => j = i | _ => False end.
(** Events of goroutines other than [i] that can happen while [i] holds the write lock. *)
Definition beside (i : nat) (e : bevent) : Prop :=
  match e with
  | ECall j _ | ESent j _ | EBusClosing j | EGot j _ _ | EDrained j _ _ | ECollected j _ _ | EWaits j _ | EGone j
  | EClientPanic j => j <> i
  | ETaken _ _ | EEnd _ => True
  | _ => False
  end.

(** [delayed tr None]: in [tr] every such effect is seen exactly once, later, and until a call that locks has returned
    only certain other things happen.  [delayed tr (Some (rs, i, e))]: the last one, of goroutine [i], has taken
    effect; the closing of receivers [rs] and then its return [e] are still to be seen.  Where somebody begins to
    wait for a receiver that is going to be closed, this has no effect. *)
Inductive delayed : list bobs -> option (list nat * nat * bevent) -> Prop :=
| delayed_nil : delayed [] None
| delayed_free tr e : delayed tr None -> ~ lags e -> delayed (tr ++ [Both e]) None
| delayed_beside tr rs i ret e : delayed tr (Some (rs, i, ret)) -> beside i e -> delayed (tr ++ [Both e]) (Some (rs, i, ret))
| delayed_takes tr rs i ret : delayed tr None -> returns i ret -> NoDup rs ->
    delayed (tr ++ map (fun r => Takes (EClosedRecv r)) rs ++ [Takes ret]) (Some (rs, i, ret))
| delayed_closes tr rs1 r rs2 i ret : delayed tr (Some (rs1 ++ r :: rs2, i, ret)) ->
    delayed (tr ++ [Seen (EClosedRecv r)]) (Some (rs1 ++ rs2, i, ret))
| delayed_returns tr i ret : delayed tr (Some ([], i, ret)) -> delayed (tr ++ [Seen ret]) None
| delayed_waits tr rs i ret j r : delayed tr (Some (rs, i, ret)) -> In r rs -> j <> i ->
    delayed (tr ++ [Seen (EWaits j r)]) (Some (rs, i, ret)).

(** ** Races: the accesses to the map that a goroutine is about to make; [true]: it writes. *)
Inductive goroutine := Client (i : nat) | Dispatcher (d : nat).
Definition about_to (s : fbus) (g : goroutine) : option bool :=
  match g with
  | Client i =>
    match nth_error (f_in s) i with
    | Some (Some (WPut _ _ _)) | Some (Some (WDel _)) | Some (Some (WDelNext _ _)) => Some true
    | Some (Some (WFind _)) | Some (Some WNext) => Some false
    | _ => None
    end
  | Dispatcher d =>
    match nth_error (b_disp (f_bus s)) d with
    | Some (DIter _ _) => Some false
    | _ => None
    end
  end.
Definition race (s : fbus) : Prop :=
  exists g h a b, g <> h /\ about_to s g = Some a /\ about_to s h = Some b /\ (a = true \/ b = true).

(** Dispatcher [d] is in its loop over the map. *)
Definition in_loop (s : fbus) (d : nat) : Prop :=
  match nth_error (b_disp (f_bus s)) d with Some (DIter _ _) | Some (DBlocked _ _ _) => True | _ => False end.
