(** Specification of the event bus, in terms of what happened (the event trace). *)
From Verif Require Import Common Bytes Threads BusModel.
Local Open Scope string_scope.
Local Open Scope Z_scope.

(** [l1] is [l2] with some elements left out. *)
Inductive subseq {A} : list A -> list A -> Prop :=
| SubNil l : subseq [] l
| SubKeep x l1 l2 : subseq l1 l2 -> subseq (x :: l1) (x :: l2)
| SubSkip x l1 l2 : subseq l1 l2 -> subseq l1 (x :: l2).

(** The events sent to the bus, in order. *)
Definition sent (tr : list bevent) : list Z :=
  flat_map (fun e => match e with ESent _ v => [v] | _ => [] end) tr.

(** The events delivered to receiver [r]: by dispatcher [d], by anyone. *)
Definition delivered (d r : nat) (tr : list bevent) : list Z :=
  flat_map (fun e => match e with
    | EDelivered d' r' v => if Nat.eqb d' d && Nat.eqb r' r then [v] else []
    | _ => []
    end) tr.
Definition delivered_to (r : nat) (tr : list bevent) : list Z :=
  flat_map (fun e => match e with EDelivered _ r' v => if Nat.eqb r' r then [v] else [] | _ => [] end) tr.

(** The events taken out of receiver [r]'s channel by its users. *)
Definition got (r : nat) (tr : list bevent) : list Z :=
  flat_map (fun e => match e with EGot _ r' (Some v) => if Nat.eqb r' r then [v] else [] | _ => [] end) tr.

(** The events whose dispatch by [d] started when [r] was among the receivers. *)
Definition begun (d r : nat) (tr : list bevent) : list Z :=
  flat_map (fun e => match e with
    | EBegin d' v targets => if Nat.eqb d' d && existsb (Nat.eqb r) targets then [v] else []
    | _ => []
    end) tr.

(** The dispatchers' verdicts on [r]. *)
Definition verdicts (d r : nat) (tr : list bevent) : list Z :=
  flat_map (fun e => match e with
    | EDelivered d' r' v | EDropped d' r' v | EIgnored d' r' v => if Nat.eqb d' d && Nat.eqb r' r then [v] else []
    | _ => []
    end) tr.

(** [r] was made with these parameters. *)
Definition made (tr : list bevent) (r : nat) (name : string) (cap strategy : Z) : Prop :=
  exists i, In (EReg i r name cap strategy) tr.

(** [r] is registered: it was made, not closed since, and its name was not given to another one since. *)
Definition registered (tr : list bevent) (r : nat) : Prop :=
  exists i name cap strategy a b, tr = (a ++ EReg i r name cap strategy :: b)%list /\
    ~ In (EClosedRecv r) b /\ forall i' r' cap' strategy', ~ In (EReg i' r' name cap' strategy') b.

(** Goroutine [i] is waiting for an event of receiver [r]. *)
Definition waiting (i r : nat) (tr : list bevent) : bool :=
  fold_left (fun w e => match e with
    | EWaits i' r' => if Nat.eqb i' i then Nat.eqb r' r else w
    | EGot i' _ _ | ECollected i' _ _ => if Nat.eqb i' i then false else w
    | _ => w
    end) tr false.

(** What goroutine [i] has received since it started its current call. *)
Definition received (i : nat) (tr : list bevent) : list (option Z) :=
  fold_left (fun acc e => match e with
    | ECall i' _ => if Nat.eqb i' i then [] else acc
    | EGot i' _ v => if Nat.eqb i' i then (acc ++ [v])%list else acc
    | _ => acc
    end) tr [].

(** Number of GoDispatch calls. *)
Definition dispatchers (tr : list bevent) : Z :=
  count (fun e => match e with EGone _ => true | _ => false end) tr.

(** Labels by which only dispatcher [d] moves. *)
Definition only_disp (d : nat) (l : blabel) : Prop := match l with LDisp d' _ _ => d' = d | _ => False end.

(** Some Close has panicked with the lock held. *)
Definition close_panicked (tr : list bevent) : Prop := exists i, In (EClosePanic i) tr.

(** The event dispatcher [d] has taken from the bus and not yet offered to all receivers. *)
Definition busy (d : nat) (tr : list bevent) : option Z :=
  fold_left (fun b e => match e with
    | ETaken d' v => if Nat.eqb d' d then Some v else b
    | EFinish d' _ => if Nat.eqb d' d then None else b
    | _ => b
    end) tr None.

(** The call goroutine [i] is in. *)
Definition in_call (i : nat) (tr : list bevent) : option bop :=
  fold_left (fun o e => match e with
    | ECall i' o' => if Nat.eqb i' i then Some o' else o
    | ESent i' _ | EReg i' _ _ _ _ | ECloseReturns i' _ | EBusClosed i' | EDrained i' _ _ | ECollected i' _ _
    | EGone i' | EClientPanic i' | EClosePanic i' => if Nat.eqb i' i then None else o
    | EGot i' _ _ => if Nat.eqb i' i then match o with Some (OpRecv _) => None | _ => o end else o
    | _ => o
    end) tr None.

(** Goroutine [i], one of [n], is between calls. *)
Definition idle (n i : nat) (tr : list bevent) : Prop :=
  (i < n)%nat /\ in_call i tr = None /\ ~ In (EClientPanic i) tr /\ ~ In (EClosePanic i) tr.

(** Event [e] offers something to receiver [r] or closes it. *)
Definition concerns (r : nat) (e : bevent) : Prop :=
  match e with
  | EDelivered _ r' _ | EDropped _ r' _ | EIgnored _ r' _ | EClosedRecv r' => r' = r
  | EBegin _ _ targets => In r targets
  | _ => False
  end.

(** All registered receivers have strategy Drop. *)
Definition all_drop (tr : list bevent) : Prop := forall r name cap st, registered tr r -> made tr r name cap st -> st = Drop.

(** The events among the collected values. *)
Definition somes (l : list (option Z)) : list Z := flat_map (fun o => match o with Some v => [v] | None => [] end) l.
