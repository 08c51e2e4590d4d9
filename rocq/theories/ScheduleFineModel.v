(** The tasks of ScheduleModel.v (/repo/schedule/task.go, fixed_delay_task.go, fixed_rate_task.go) with one step for
    each thing a goroutine does while it holds the lock: taking the lock, each read and write of the fields status, no
    and ticker, closing stopSig, stopping the ticker, starting a goroutine, and releasing the lock; and one step for
    the return of Start and Stop afterwards.  Between two of these steps time may pass and all other goroutines may
    run.  startConsuming goes on with runJob in the step that releases the lock after nextNo; what runJob does first is
    a step of its own.  All that happens outside the lock is as in ScheduleModel.v. *)
From Verif Require Import Common Threads ScheduleModel.
Local Open Scope list_scope.
Local Open Scope Z_scope.

(** What a goroutine that calls Start or Stop does next; it holds the lock, but for [FRet]. *)
Inductive wpc :=
| FStarted                       (* task.go:69 *)
| FStopped                       (* 73 *)
| FMark                          (* 77 *)
| FTicker                        (* fixed_rate_task.go:87 *)
| FCons                          (* fixed_delay_task.go:83, fixed_rate_task.go:89 *)
| FProv                          (* fixed_rate_task.go:90 *)
| FAppend                        (* fixed_delay_task.go:85, in the select of appendJobQueue *)
| FNew                           (* task.go:83 *)
| FOver                          (* 86 *)
| FMarkStop                      (* 90 *)
| FClose                         (* 91 *)
| FTickerStop                    (* fixed_rate_task.go:112 *)
| FUnlock (e : option error)     (* the deferred Unlock *)
| FRet (e : option error).       (* return *)

(** The consumer in getStatus (fixed_delay_task.go:116-120, fixed_rate_task.go:117-121) and in nextNo (140-145, 156-161),
    holding the lock. *)
Inductive kin :=
| IStatus                        (* reading status *)
| IGot (st : Z)                  (* Unlock, return st *)
| INo                            (* t.no++, reading *)
| IWrite (n : Z)                 (* t.no++, writing n *)
| IRead                          (* return t.no *)
| IRet (n : Z).                  (* Unlock, return n *)

Inductive owner := Client (i : nat) | Consumer (k : nat).

Record ftask := FTask {
  f_task : task;                 (* goroutines that hold the lock are at the beginning of what they do with it here *)
  f_lock : option owner;
  f_in : list (option wpc);      (* for each client: where it is in Start or Stop *)
  f_kin : list (option kin)      (* for each consumer: where it is in getStatus or nextNo *)
}.

Definition client_at (i : nat) (w : wpc) (t : task) (s : ftask) : ftask :=
  FTask t (f_lock s) (upd i (Some w) (f_in s)) (f_kin s).
Definition consumer_at (k : nat) (w : kin) (t : task) (s : ftask) : ftask :=
  FTask t (f_lock s) (f_in s) (upd k (Some w) (f_kin s)).
Definition leave (k : nat) (t : task) (s : ftask) : ftask :=
  FTask t None (f_in s) (upd k None (f_kin s)).

(** After Lock (fixed_delay_task.go:75, 130, fixed_rate_task.go:79, 105). *)
Definition enter (o : op) : wpc := match o with OStart | OMustStart => FStarted | OStop | OMustStop => FNew end.

(** A step of client [i], which called [o]; [FAppend] is below. *)
Definition wstep (c : cfg) (s : ftask) (i : nat) (o : op) (w : wpc) : option (ftask * list event) :=
  let t := f_task s in
  match w with
  | FStarted => Some (client_at i (if t_status t =? started then FUnlock (Some StartedTwice) else FStopped) t s, [])
  | FStopped => Some (client_at i (if t_status t =? stopped then FUnlock (Some StartedStopped) else FMark) t s, [])
  | FMark => Some (client_at i (match c_kind c with Delay => FCons | Rate => FTicker end) (set_status started t) s, [])
  | FTicker => Some (client_at i FCons (set_tick (Some (t_now t + c_interval c)) false t) s, [])
  | FCons =>
    let s1 := FTask t (f_lock s) (f_in s) (f_kin s ++ [None]) in
    Some (client_at i (match c_kind c with Delay => FAppend | Rate => FProv end) (set_conss (t_cons t ++ [KWait]) t) s1, [])
  | FProv => Some (client_at i (FUnlock None) (set_provs (t_prov t ++ [PSend]) t) s, [])
  | FAppend => None
  | FNew => Some (client_at i (if t_status t =? new then FUnlock (Some NotStarted) else FOver) t s, [])
  | FOver => Some (client_at i (if t_status t =? stopped then FUnlock (Some StoppedTwice) else FMarkStop) t s, [])
  | FMarkStop => Some (client_at i FClose (set_status stopped t) s, [])
  | FClose => Some (client_at i (match c_kind c with Delay => FUnlock None | Rate => FTickerStop end) (set_sig t) s, [])
  | FTickerStop => Some (client_at i (FUnlock None) (set_tick None (t_tickbuf t) t) s, [])
  | FUnlock e => Some (FTask t None (upd i (Some (FRet e)) (f_in s)) (f_kin s), [])
  | FRet e => Some (FTask (set_client i CIdle t) (f_lock s) (upd i None (f_in s)) (f_kin s), [ERet i o (outcome o e) (t_now t)])
  end.

(** A step of consumer [k] that holds the lock (fixed_delay_task.go:98-102, fixed_rate_task.go:145-148). *)
Definition kstep (c : cfg) (s : ftask) (k : nat) (w : kin) : ftask :=
  let t := f_task s in
  match w with
  | IStatus => consumer_at k (IGot (t_status t)) t s
  | IGot st => leave k (set_cons k (if st =? stopped then KDone else KNo) t) s
  | INo => consumer_at k (IWrite (t_no t + 1)) t s
  | IWrite n => consumer_at k IRead (set_no n t) s
  | IRead => consumer_at k (IRet (t_no t)) t s
  | IRet n =>
    let t1 := set_runs (t_runs t ++ [Run n RStart JNone 0 false]) t in
    leave k (set_cons k (match c_kind c with Delay => KRun (length (t_runs t)) | Rate => KWait end) t1) s
  end.

Definition outside (s : ftask) (r : option (task * list event)) : option (ftask * list event) :=
  match r with Some (t, es) => Some (FTask t (f_lock s) (f_in s) (f_kin s), es) | None => None end.

Definition fstep0 (c : cfg) (s : ftask) (l : label) : option (ftask * list event) :=
  let t := f_task s in
  match l with
  | LClient i =>
    match nth_error (f_in s) i, nth_error (t_clients t) i with
    | Some (Some w), Some (CWant o) => wstep c s i o w
    | Some None, Some (CWant o) =>
      match f_lock s with
      | None => Some (FTask t (Some (Client i)) (upd i (Some (enter o)) (f_in s)) (f_kin s), [])
      | Some _ => None
      end
    | _, _ => None
    end
  (* task.go:143-153 appendJobQueue in Start of a fixed-delay task; whether it stopped does not matter there *)
  | LClientSend i k =>
    match nth_error (f_in s) i, receive k t with
    | Some (Some FAppend), Some t1 => Some (client_at i (FUnlock None) t1 s, [])
    | _, _ => None
    end
  | LClientStop i =>
    match nth_error (f_in s) i with
    | Some (Some FAppend) => if t_sig t then Some (client_at i (FUnlock None) t s, []) else None
    | _ => None
    end
  | LCons k =>
    match nth_error (f_kin s) k, nth_error (t_cons t) k with
    | Some (Some w), Some _ => Some (kstep c s k w, [])
    | Some None, Some KCheck =>
      match f_lock s with
      | None => Some (FTask t (Some (Consumer k)) (f_in s) (upd k (Some IStatus) (f_kin s)), [])
      | Some _ => None
      end
    | Some None, Some KNo =>
      match f_lock s with
      | None => Some (FTask t (Some (Consumer k)) (f_in s) (upd k (Some INo) (f_kin s)), [])
      | Some _ => None
      end
    | Some None, Some _ => outside s (cons_step c k t)
    | _, _ => None
    end
  | _ => outside s (tstep c t l)
  end.

(** Every event with the time at which it happens. *)
Definition fstep (c : cfg) (s : ftask) (l : label) : option (ftask * list (Z * event)) :=
  match fstep0 c s l with
  | Some (s1, es) => Some (s1, map (pair (t_now (f_task s))) es)
  | None => None
  end.

Definition finit (t0 : Z) (n : nat) : ftask := FTask (init t0 n) None (repeat None n) [].
Definition ftexec (c : cfg) (t0 : Z) (n : nat) (sched : list label) : ftask * list (Z * event) :=
  exec (fstep c) (finit t0 n) sched.
