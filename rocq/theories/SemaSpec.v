(** What a semaphore is, in terms of the calls and returns of its methods. *)
From Verif Require Import Common Threads SemaModel.

(** Permits taken after a history: an acquisition takes one, a Release returns one if any is taken. *)
Definition taken_step (k : Z) (e : sevent) : Z :=
  match e with
  | ESAcquired _ | ESTried _ true => k + 1
  | ESReleased _ => Z.max 0 (k - 1)
  | ESCall _ _ | ESTried _ false => k
  end.
Definition taken (tr : list sevent) : Z := fold_left taken_step tr 0.

(** Successful acquisitions and calls of Release in a history. *)
Definition acquisitions (tr : list sevent) : Z :=
  count (fun e => match e with ESAcquired _ | ESTried _ true => true | _ => false end) tr.
Definition release_calls (tr : list sevent) : Z :=
  count (fun e => match e with ESCall _ OpRelease => true | _ => false end) tr.
Definition releases_done (tr : list sevent) : Z :=
  count (fun e => match e with ESReleased _ => true | _ => false end) tr.

(** Acquisitions that have not been given back. *)
Definition held (tr : list sevent) : Z := acquisitions tr - release_calls tr.

(** Release is only called for an acquisition that is held. *)
Definition disciplined (tr : list sevent) : Prop :=
  forall tr1 tr2, tr = tr1 ++ tr2 -> 0 <= held tr1.

(** The histories that a semaphore with [permits] permits allows, when [k] are taken and goroutine [i]
    is inside the method [nth i p] (or in none). *)
Inductive allowed (permits : Z) : list (option sop) -> Z -> list sevent -> Prop :=
| al_nil p k : allowed permits p k []
| al_call p k i o tr :
    nth_error p i = Some None -> allowed permits (upd i (Some o) p) k tr ->
    allowed permits p k (ESCall i o :: tr)
| al_acquired p k i tr :
    nth_error p i = Some (Some OpAcquire) -> k < permits -> allowed permits (upd i None p) (k + 1) tr ->
    allowed permits p k (ESAcquired i :: tr)
| al_tried p k i tr :
    nth_error p i = Some (Some OpTry) -> k < permits -> allowed permits (upd i None p) (k + 1) tr ->
    allowed permits p k (ESTried i true :: tr)
| al_refused p k i tr :
    nth_error p i = Some (Some OpTry) -> permits <= k -> allowed permits (upd i None p) k tr ->
    allowed permits p k (ESTried i false :: tr)
| al_released p k i tr :
    nth_error p i = Some (Some OpRelease) -> allowed permits (upd i None p) (Z.max 0 (k - 1)) tr ->
    allowed permits p k (ESReleased i :: tr).

(** The histories of a new semaphore used by [n] goroutines. *)
Definition semaphore_history (permits : Z) (n : nat) (tr : list sevent) : Prop :=
  allowed permits (repeat None n) 0 tr.

(** The method a goroutine is in. *)
Definition pend (pc : spc) : option sop :=
  match pc with
  | SIdle => None
  | SAcq | SWait => Some OpAcquire
  | SRel => Some OpRelease
  | STry => Some OpTry
  end.
