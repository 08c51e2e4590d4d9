(** Specification of progress of the event bus, in terms of what happened (the event trace). *)
From Verif Require Import Common Bytes Threads BusModel BusSpec BusLockModel.
Local Open Scope list_scope.
Local Open Scope Z_scope.

(** Labels by which a dispatcher moves or a goroutine goes on with a call that does not wait for the events of a
    receiver. *)
Definition works (tr : list bevent) (l : blabel) : bool :=
  match l with
  | LDisp _ _ _ => true
  | LClient i _ =>
    match in_call i tr with Some (OpSend _) | Some (OpNew _ _ _) | Some (OpClose _) | Some OpBusClose => true | _ => false end
  | _ => false
  end.

(** Number of the labels of a schedule that are in [w] and take effect. *)
Fixpoint moves (w : blabel -> bool) (s : lbus) (sched : list blabel) : nat :=
  match sched with
  | [] => O
  | l :: sched' =>
    match lstep s l with
    | Some (s1, _) => if w l then S (moves w s1 sched') else moves w s1 sched'
    | None => moves w s sched'
    end
  end.

(** Labels by which no call is started. *)
Definition no_call (l : blabel) : Prop := match l with LCall _ _ => False | _ => True end.

(** An unending schedule after [tr] in which only dispatchers and the calls of [works] go on, and each label of
    them comes again and again. *)
Definition fair (tr : list bevent) (f : nat -> blabel) : Prop :=
  (forall k, works tr (f k) = true) /\ forall l, works tr l = true -> forall m, exists k, (m <= k)%nat /\ f k = l.

(** Its beginning. *)
Definition first (k : nat) (f : nat -> blabel) : list blabel := map f (seq 0 k).

(** All receivers asked for so far are to have strategy Drop. *)
Definition only_drop (tr : list bevent) : Prop := forall i name cap st, In (ECall i (OpNew name cap st)) tr -> st = Drop.

(** Nothing of this can go on. *)
Definition at_rest (s : lbus) (tr : list bevent) : Prop := forall l, works tr l = true -> lstep s l = None.

(** Dispatcher [d] was started and has not ended. *)
Definition running (d : nat) (tr : list bevent) : Prop := Z.of_nat d < dispatchers tr /\ ~ In (EEnd d) tr.

(** The events dispatchers took from the bus. *)
Definition taken_all (tr : list bevent) : list Z :=
  flat_map (fun e => match e with ETaken _ v => [v] | _ => [] end) tr.

(** The event dispatcher [d] is offering to the receivers. *)
Definition dispatching (d : nat) (tr : list bevent) : option Z :=
  fold_left (fun b e => match e with
    | EBegin d' v _ => if Nat.eqb d' d then Some v else b
    | EFinish d' _ => if Nat.eqb d' d then None else b
    | _ => b
    end) tr None.

(** Dispatcher [d] has an event for [r], which is registered with Block, its channel is full, and nobody waits
    for its events. *)
Definition blocked_by (d r : nat) (tr : list bevent) : Prop :=
  exists v name cap, dispatching d tr = Some v /\ registered tr r /\ made tr r name cap Block /\
    begun d r tr = verdicts d r tr ++ [v] /\
    Z.of_nat (length (delivered_to r tr)) = Z.of_nat (length (got r tr)) + cap /\ forall i, waiting i r tr = false.

(** A call that takes events of receiver [r]. *)
Definition receives (o : bop) (r : nat) : Prop := o = OpRecv r \/ o = OpDrain r \/ o = OpCollect r.

(** All is done by the [n] goroutines and the dispatchers: no dispatcher has an event, no receiver is being made or
    closed nor the bus, and if a dispatcher runs, the bus is not closed, all events sent were taken and nobody is
    sending. *)
Definition settled (n : nat) (tr : list bevent) : Prop :=
  (forall d, busy d tr = None) /\
  (forall i o, (i < n)%nat -> in_call i tr = Some o -> match o with OpNew _ _ _ | OpClose _ | OpBusClose => False | _ => True end) /\
  forall d, running d tr ->
    (forall i, ~ In (EBusClosing i) tr) /\ sent tr = taken_all tr /\ forall i v, (i < n)%nat -> in_call i tr <> Some (OpSend v).

(** Nobody starts receiving from [r] by this label. *)
Definition leaves (r : nat) (l : blabel) : Prop := match l with LCall _ o => ~ receives o r | _ => True end.

(** What cannot happen while dispatcher [d] is blocked: a receiver is made or closed, the bus is closed, [d] is done
    with its event. *)
Definition locked_event (d : nat) (e : bevent) : bool :=
  match e with EReg _ _ _ _ _ | EClosedRecv _ | ECloseReturns _ _ | EBusClosed _ | EClosePanic _ => true | EFinish d' _ => Nat.eqb d' d | _ => false end.
