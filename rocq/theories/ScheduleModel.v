(** Model of /repo/schedule/task.go, fixed_delay_task.go and fixed_rate_task.go as a thread machine: one
    task, the goroutines calling Start/Stop, and the goroutines, timers and ticker of the task itself.

    Go's own primitives are modelled by their documented meaning: a send on the unbuffered jobQ and the
    matching receive are one step of both goroutines; a select takes any branch that is ready; a ticker's
    channel holds one tick, further ticks are dropped and missed ones skipped (time.Ticker, runtime timers
    advance by whole periods); AfterFunc's function runs in its own goroutine not before its time;
    WithTimeout's channel is closed by cancel() or by a timer not before the deadline.  Time is an integer
    (nanoseconds) that never decreases.  Critical sections that do not block are one step.  A job that
    panics ends the process and is not modelled; the counter [no] does not wrap (2^63 runs).  Logging has
    no effect, except that "job[#n] start" is an event. *)
From Verif Require Import Common Threads.
Local Open Scope list_scope.
Local Open Scope Z_scope.

Inductive kind := Delay | Rate.
Record cfg := Cfg { c_kind : kind; c_interval : Z; c_timeout : Z }.

(** fixed_delay_task.go:36-64 and fixed_rate_task.go:38-69; [None] is a panic.  [blank] tells whether
    strings.TrimSpace(name) is empty, [job] whether there is a job. *)
Definition new_task (k : kind) (blank : bool) (job : bool) (interval timeout : Z) : option cfg :=
  if blank then None
  else if timeout <=? 0 then None
  else if interval <=? 0 then None
  else if negb job then None
  else Some (Cfg k interval timeout).

(** task.go:42-46. *)
Definition new : Z := 0.
Definition started : Z := 1.
Definition stopped : Z := 2.

Inductive op := OStart | OMustStart | OStop | OMustStop.
Inductive error := StartedTwice | StartedStopped | NotStarted | StoppedTwice.
Inductive result := Ok | Err (e : error) | Panic (e : error).

(** A goroutine calling the task. *)
Inductive cpc :=
| CIdle
| CWant (o : op)            (* waiting for the lock *)
| CAppend (o : op).         (* in Start of a fixed-delay task, at fixed_delay_task.go:85, holding the lock *)

(** The goroutine running startConsuming (fixed_delay_task.go:94-108, fixed_rate_task.go:141-154). *)
Inductive kpc :=
| KWait                     (* in the select *)
| KCheck                    (* has received from jobQ, before getStatus *)
| KNo                       (* before nextNo *)
| KRun (j : nat)            (* in runJob number j of all runs (fixed delay only) *)
| KDone.

(** The goroutine running startProviding (fixed_rate_task.go:123-139). *)
Inductive ppc :=
| PSend                     (* in appendJobQueue *)
| PTick                     (* in the select *)
| PDone.

(** appendJobQueueFuture and its timer (fixed_delay_task.go:110-114). *)
Inductive tpc :=
| TGo                       (* before time.AfterFunc *)
| TArmed (at_ : Z)          (* timer running *)
| TSend                     (* in appendJobQueue *)
| TDone.

(** runJob (task.go:98-139): the goroutine itself and the one it starts for the job. *)
Inductive rpc :=
| RStart                    (* at 99 *)
| RSelect                   (* at 129 *)
| RFin                      (* at 131 or 134 *)
| RRet.                     (* returned *)
Inductive jpc :=
| JNone                     (* not begun *)
| JRun                      (* in t.job *)
| JDone.                    (* t.job has returned and fin is closed *)
Record run := Run { r_no : Z; r_pc : rpc; r_job : jpc; r_deadline : Z; r_done : bool (* timeoutCtx.Done() closed *) }.

Record task := Task {
  t_now : Z;
  t_status : Z;
  t_sig : bool;             (* stopSig closed *)
  t_no : Z;
  t_locked : bool;          (* the lock is held by a goroutine at CAppend *)
  t_clients : list cpc;
  t_cons : list kpc;
  t_prov : list ppc;
  t_tick : option Z;        (* ticker: next tick *)
  t_tickbuf : bool;         (* ticker.C holds a tick *)
  t_timers : list tpc;
  t_runs : list run
}.

Inductive event :=
| ECall (i : nat) (o : op)
| ERet (i : nat) (o : op) (r : result) (t : Z)   (* the call is over, its lock released *)
| ELog (n : Z) (t : Z)                           (* "job[#n] start" *)
| EBegin (n : Z) (t : Z)                         (* the job function is called for run n *)
| ECancel (n : Z) (t : Z)                        (* its cancel channel is closed *)
| EEnd (n : Z) (t : Z)                           (* the job function has returned *)
| ENext (n : Z) (t : Z).                         (* runJob has returned *)

Inductive label :=
| LTime (d : Z)                  (* time passes *)
| LCall (i : nat) (o : op)
| LClient (i : nat)              (* client i gets the lock *)
| LClientSend (i k : nat)        (* client i at CAppend, consumer k *)
| LClientStop (i : nat)
| LCons (k : nat)                (* consumer k goes on *)
| LConsStop (k : nat)
| LProvSend (p k : nat)
| LProvTick (p : nat)
| LProvStop (p : nat)
| LTicker
| LTimer (j : nat)
| LTimerSend (j k : nat)
| LTimerStop (j : nat)
| LRun (j : nat)                 (* runJob j goes on: start, or fin is closed *)
| LRunDone (j : nat)             (* case <-timeoutCtx.Done() *)
| LRunStop (j : nat)             (* case <-t.stopSig *)
| LExpire (j : nat)              (* the timeout of run j fires *)
| LJobBegin (j : nat)
| LJobEnd (j : nat).

(** A task just made, used by [n] goroutines. *)
Definition init (now : Z) (n : nat) : task :=
  Task now new false 0 false (repeat CIdle n) [] [] None false [] [].

Definition set_now (t : Z) (s : task) : task :=
  Task t (t_status s) (t_sig s) (t_no s) (t_locked s) (t_clients s) (t_cons s) (t_prov s) (t_tick s) (t_tickbuf s) (t_timers s) (t_runs s).
Definition set_status (st : Z) (s : task) : task :=
  Task (t_now s) st (t_sig s) (t_no s) (t_locked s) (t_clients s) (t_cons s) (t_prov s) (t_tick s) (t_tickbuf s) (t_timers s) (t_runs s).
Definition set_sig (s : task) : task :=
  Task (t_now s) (t_status s) true (t_no s) (t_locked s) (t_clients s) (t_cons s) (t_prov s) (t_tick s) (t_tickbuf s) (t_timers s) (t_runs s).
Definition set_no (n : Z) (s : task) : task :=
  Task (t_now s) (t_status s) (t_sig s) n (t_locked s) (t_clients s) (t_cons s) (t_prov s) (t_tick s) (t_tickbuf s) (t_timers s) (t_runs s).
Definition set_locked (b : bool) (s : task) : task :=
  Task (t_now s) (t_status s) (t_sig s) (t_no s) b (t_clients s) (t_cons s) (t_prov s) (t_tick s) (t_tickbuf s) (t_timers s) (t_runs s).
Definition set_client (i : nat) (c : cpc) (s : task) : task :=
  Task (t_now s) (t_status s) (t_sig s) (t_no s) (t_locked s) (upd i c (t_clients s)) (t_cons s) (t_prov s) (t_tick s) (t_tickbuf s) (t_timers s) (t_runs s).
Definition set_conss (l : list kpc) (s : task) : task :=
  Task (t_now s) (t_status s) (t_sig s) (t_no s) (t_locked s) (t_clients s) l (t_prov s) (t_tick s) (t_tickbuf s) (t_timers s) (t_runs s).
Definition set_cons (k : nat) (c : kpc) (s : task) : task := set_conss (upd k c (t_cons s)) s.
Definition set_provs (l : list ppc) (s : task) : task :=
  Task (t_now s) (t_status s) (t_sig s) (t_no s) (t_locked s) (t_clients s) (t_cons s) l (t_tick s) (t_tickbuf s) (t_timers s) (t_runs s).
Definition set_prov (p : nat) (c : ppc) (s : task) : task := set_provs (upd p c (t_prov s)) s.
Definition set_tick (o : option Z) (b : bool) (s : task) : task :=
  Task (t_now s) (t_status s) (t_sig s) (t_no s) (t_locked s) (t_clients s) (t_cons s) (t_prov s) o b (t_timers s) (t_runs s).
Definition set_timers (l : list tpc) (s : task) : task :=
  Task (t_now s) (t_status s) (t_sig s) (t_no s) (t_locked s) (t_clients s) (t_cons s) (t_prov s) (t_tick s) (t_tickbuf s) l (t_runs s).
Definition set_timer (j : nat) (c : tpc) (s : task) : task := set_timers (upd j c (t_timers s)) s.
Definition set_runs (l : list run) (s : task) : task :=
  Task (t_now s) (t_status s) (t_sig s) (t_no s) (t_locked s) (t_clients s) (t_cons s) (t_prov s) (t_tick s) (t_tickbuf s) (t_timers s) l.
Definition set_run (j : nat) (r : run) (s : task) : task := set_runs (upd j r (t_runs s)) s.

(** task.go:68-79 markStart. *)
Definition mark_start (s : task) : task * option error :=
  if t_status s =? started then (s, Some StartedTwice)
  else if t_status s =? stopped then (s, Some StartedStopped)
  else (set_status started s, None).

(** task.go:82-96 markStopSendSignal. *)
Definition mark_stop (s : task) : task * option error :=
  if t_status s =? new then (s, Some NotStarted)
  else if t_status s =? stopped then (s, Some StoppedTwice)
  else (set_sig (set_status stopped s), None).

(** What the caller sees: MustStart and MustStop panic with the error (fixed_delay_task.go:66-71, 122-127,
    fixed_rate_task.go:71-76, 97-102). *)
Definition outcome (o : op) (e : option error) : result :=
  match e with
  | None => Ok
  | Some e => match o with OStart | OStop => Err e | OMustStart | OMustStop => Panic e end
  end.

(** The call is over: the lock is released and the call returns. *)
Definition returns (i : nat) (o : op) (e : option error) (s : task) : option (task * list event) :=
  Some (set_client i CIdle s, [ERet i o (outcome o e) (t_now s)]).

(** fixed_delay_task.go:73-92 and fixed_rate_task.go:78-95 Start, from taking the lock. *)
Definition start_crit (c : cfg) (i : nat) (o : op) (s : task) : option (task * list event) :=
  match mark_start s with
  | (s1, Some e) => returns i o (Some e) s1
  | (s1, None) =>
    match c_kind c with
    | Delay => Some (set_client i (CAppend o) (set_locked true (set_conss (t_cons s1 ++ [KWait]) s1)), [])
    | Rate =>
      returns i o None
        (set_provs (t_prov s1 ++ [PSend])
          (set_conss (t_cons s1 ++ [KWait])
            (set_tick (Some (t_now s1 + c_interval c)) false s1)))
    end
  end.

(** fixed_delay_task.go:129-138 and fixed_rate_task.go:104-115 Stop. *)
Definition stop_crit (c : cfg) (i : nat) (o : op) (s : task) : option (task * list event) :=
  match mark_stop s with
  | (s1, Some e) => returns i o (Some e) s1
  | (s1, None) =>
    match c_kind c with
    | Delay => returns i o None s1
    | Rate => returns i o None (set_tick None (t_tickbuf s1) s1)
    end
  end.

Definition client_crit (c : cfg) (i : nat) (o : op) (s : task) : option (task * list event) :=
  match o with
  | OStart | OMustStart => start_crit c i o s
  | OStop | OMustStop => stop_crit c i o s
  end.

(** The receiving side of jobQ: consumer [k] is in its select. *)
Definition receive (k : nat) (s : task) : option task :=
  match nth_error (t_cons s) k with
  | Some KWait => Some (set_cons k KCheck s)
  | _ => None
  end.

(** startConsuming after the receive (fixed_delay_task.go:98-102, fixed_rate_task.go:145-148). *)
Definition cons_step (c : cfg) (k : nat) (s : task) : option (task * list event) :=
  match nth_error (t_cons s) k with
  | Some KCheck =>
    if t_locked s then None
    else if t_status s =? stopped then Some (set_cons k KDone s, [])
    else Some (set_cons k KNo s, [])
  | Some KNo =>
    if t_locked s then None
    else
      let n := t_no s + 1 in
      let s1 := set_runs (t_runs s ++ [Run n RStart JNone 0 false]) (set_no n s) in
      match c_kind c with
      | Delay => Some (set_cons k (KRun (length (t_runs s))) s1, [])
      | Rate => Some (set_cons k KWait s1, [])
      end
  | Some (KRun j) =>
    match nth_error (t_runs s) j with
    | Some r =>
      match r_pc r with
      | RRet => Some (set_timers (t_timers s ++ [TGo]) (set_cons k KWait s), [])
      | _ => None
      end
    | None => None
    end
  | _ => None
  end.

(** One tick of the ticker: dropped if ticker.C is full; the next one is the first due time after now. *)
Definition ticker_step (c : cfg) (s : task) : option (task * list event) :=
  match t_tick s with
  | Some next =>
    if next <=? t_now s
    then Some (set_tick (Some (next + c_interval c * (1 + (t_now s - next) / c_interval c))) true s, [])
    else None
  | None => None
  end.

(** cancel(), or the timer of timeoutCtx: closing it again has no effect. *)
Definition cancel (j : nat) (r : run) (s : task) : task * list event :=
  if r_done r then (s, [])
  else (set_run j (Run (r_no r) (r_pc r) (r_job r) (r_deadline r) true) s, [ECancel (r_no r) (t_now s)]).

Definition with_pc (p : rpc) (r : run) : run := Run (r_no r) p (r_job r) (r_deadline r) (r_done r).
Definition with_job (p : jpc) (r : run) : run := Run (r_no r) (r_pc r) p (r_deadline r) (r_done r).

(** The return of runJob with its deferred cancel() (task.go:101). *)
Definition run_returns (j : nat) (r : run) (s : task) : option (task * list event) :=
  let '(s1, es) := cancel j (with_pc RRet r) (set_run j (with_pc RRet r) s) in
  Some (s1, es ++ [ENext (r_no r) (t_now s)]).

Definition tstep (c : cfg) (s : task) (l : label) : option (task * list event) :=
  match l with
  | LTime d => if 0 <=? d then Some (set_now (t_now s + d) s, []) else None
  | LCall i o =>
    match nth_error (t_clients s) i with
    | Some CIdle => Some (set_client i (CWant o) s, [ECall i o])
    | _ => None
    end
  | LClient i =>
    match nth_error (t_clients s) i with
    | Some (CWant o) => if t_locked s then None else client_crit c i o s
    | _ => None
    end
  (* task.go:143-153 appendJobQueue, called by Start, startProviding and the timer's function *)
  | LClientSend i k =>
    match nth_error (t_clients s) i, receive k s with
    | Some (CAppend o), Some s1 => returns i o None (set_locked false s1)
    | _, _ => None
    end
  | LClientStop i =>
    match nth_error (t_clients s) i with
    | Some (CAppend o) => if t_sig s then returns i o None (set_locked false s) else None
    | _ => None
    end
  | LCons k => cons_step c k s
  | LConsStop k =>
    match nth_error (t_cons s) k with
    | Some KWait => if t_sig s then Some (set_cons k KDone s, []) else None
    | _ => None
    end
  | LProvSend p k =>
    match nth_error (t_prov s) p, receive k s with
    | Some PSend, Some s1 => Some (set_prov p PTick s1, [])
    | _, _ => None
    end
  | LProvTick p =>
    match nth_error (t_prov s) p with
    | Some PTick => if t_tickbuf s then Some (set_prov p PSend (set_tick (t_tick s) false s), []) else None
    | _ => None
    end
  | LProvStop p =>
    match nth_error (t_prov s) p with
    | Some PSend | Some PTick => if t_sig s then Some (set_prov p PDone s, []) else None
    | _ => None
    end
  | LTicker => ticker_step c s
  | LTimer j =>
    match nth_error (t_timers s) j with
    | Some TGo => Some (set_timer j (TArmed (t_now s + c_interval c)) s, [])
    | Some (TArmed a) => if a <=? t_now s then Some (set_timer j TSend s, []) else None
    | _ => None
    end
  | LTimerSend j k =>
    match nth_error (t_timers s) j, receive k s with
    | Some TSend, Some s1 => Some (set_timer j TDone s1, [])
    | _, _ => None
    end
  | LTimerStop j =>
    match nth_error (t_timers s) j with
    | Some TSend => if t_sig s then Some (set_timer j TDone s, []) else None
    | _ => None
    end
  | LRun j =>
    match nth_error (t_runs s) j with
    | Some r =>
      match r_pc r, r_job r with
      | RStart, _ =>
        Some (set_run j (Run (r_no r) RSelect (r_job r) (t_now s + c_timeout c) false) s, [ELog (r_no r) (t_now s)])
      | RSelect, JDone | RFin, JDone => run_returns j r s
      | _, _ => None
      end
    | None => None
    end
  | LRunDone j =>
    match nth_error (t_runs s) j with
    | Some r =>
      match r_pc r with
      | RSelect => if r_done r then Some (set_run j (with_pc RFin r) s, []) else None
      | _ => None
      end
    | None => None
    end
  | LRunStop j =>
    match nth_error (t_runs s) j with
    | Some r =>
      match r_pc r with
      | RSelect =>
        if t_sig s then Some (cancel j (with_pc RFin r) (set_run j (with_pc RFin r) s)) else None
      | _ => None
      end
    | None => None
    end
  | LExpire j =>
    match nth_error (t_runs s) j with
    | Some r =>
      match r_pc r with
      | RSelect | RFin =>
        if r_done r then None
        else if r_deadline r <=? t_now s then Some (cancel j r s) else None
      | _ => None
      end
    | None => None
    end
  | LJobBegin j =>
    match nth_error (t_runs s) j with
    | Some r =>
      match r_pc r, r_job r with
      | RStart, _ => None
      | _, JNone => Some (set_run j (with_job JRun r) s, [EBegin (r_no r) (t_now s)])
      | _, _ => None
      end
    | None => None
    end
  | LJobEnd j =>
    match nth_error (t_runs s) j with
    | Some r =>
      match r_job r with
      | JRun => Some (set_run j (with_job JDone r) s, [EEnd (r_no r) (t_now s)])
      | _ => None
      end
    | None => None
    end
  end.

(** A schedule from a fresh task at time [t0], used by [n] goroutines. *)
Definition texec (c : cfg) (t0 : Z) (n : nat) (sched : list label) : task * list event :=
  exec (tstep c) (init t0 n) sched.
