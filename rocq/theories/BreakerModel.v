(** Model of /repo/circuitbreaker/circuitbreaker.go as a thread machine. *)
From Verif Require Import Common Threads.

(** What the user's task does: return nil, return an error (identified by a number), or panic. *)
Inductive outcome :=
| TaskOk
| TaskErr (e : Z)
| TaskPanic.

(** Where one activation of [Do] (75-89) stands.  Every critical section of the breaker's RWMutex
    (92-96, 101-110, 114-118) contains no blocking operation, so it is one step.  User code runs
    without the lock; a [Do] called from user code is simply another activation. *)
Inductive bpc :=
| BIdle
| BNow                 (* state(): about to read the clock, line 100 *)
| BState (now : Z)     (* state(): about to decide under the read lock, 101-110 *)
| BOpen                (* about to call onOpen, line 78 *)
| BTask                (* about to call the task, line 80 *)
| BRunning             (* inside the task *)
| BFail (e : Z)        (* recordFailure: about to enter the write lock, 92-96 *)
| BOnError (e : Z)     (* about to call onError, line 82 *)
| BReset.              (* reset: about to enter the write lock, 114-118 *)

(** circuitbreaker.go:66-73, struct [SyncCircuitBreaker], the clock behind [nowFn], the activations. *)
Record bstate := BSt {
  cb_threshold : Z;
  cb_last : Z;
  cb_failures : Z;
  cb_timeout : Z;
  cb_clock : Z;
  cb_threads : list bpc;
}.

Inductive blabel :=
| BClock (t : Z)                      (* the clock now shows t *)
| BCall (i : nat)                     (* activation i calls Do *)
| BDone (i : nat) (o : outcome)       (* the task of activation i finishes *)
| BStep (i : nat).                    (* activation i takes its next step *)

Inductive bevent :=
| ECall (i : nat)                     (* Do is called *)
| EConsult (i : nat) (now : Z) (run : bool) (* the breaker decides with clock reading [now] *)
| EOnOpen (i : nat)                   (* onOpen is called *)
| ETask (i : nat)                     (* the task is called *)
| EDone (i : nat) (o : outcome)       (* the task finishes *)
| EFailure (t : Z)                    (* a failure is recorded with timestamp [t] *)
| ESuccess                            (* a success is recorded *)
| EOnError (i : nat) (e : Z).         (* onError is called *)

(** circuitbreaker.go:46-52, [state]. *)
Inductive cbstate := CbOpen | CbClosed | CbHalfOpen.

(** circuitbreaker.go:99-111, the decision of [state()] (after the clock reading of line 100). *)
Definition cb_state (s : bstate) (now : Z) : cbstate :=
  if (cb_threshold s <=? cb_failures s) && (cb_timeout s <? i64 (now - cb_last s)) then CbHalfOpen
  else if cb_threshold s <=? cb_failures s then CbOpen
  else CbClosed.

Definition b_pc (s : bstate) (i : nat) (pc : bpc) : bstate :=
  BSt (cb_threshold s) (cb_last s) (cb_failures s) (cb_timeout s) (cb_clock s) (upd i pc (cb_threads s)).

(** circuitbreaker.go:91-97, [recordFailure]; the clock is read inside the critical section. *)
Definition cb_record_failure (s : bstate) : bstate :=
  BSt (cb_threshold s) (cb_clock s) (i64 (cb_failures s + 1)) (cb_timeout s) (cb_clock s) (cb_threads s).

(** circuitbreaker.go:113-119, [reset]. *)
Definition cb_reset (s : bstate) : bstate :=
  BSt (cb_threshold s) 0 0 (cb_timeout s) (cb_clock s) (cb_threads s).

(** circuitbreaker.go:75-89, [Do], one step of activation [i].  The default branch (86-87) is
    unreachable by the type of [cb_state]. *)
Definition bstep_thread (s : bstate) (i : nat) (pc : bpc) : option (bstate * list bevent) :=
  match pc with
  | BIdle => None
  | BNow => Some (b_pc s i (BState (cb_clock s)), [])                                  (* 100 *)
  | BState now =>                                                                      (* 101-110, 76-79 *)
      match cb_state s now with
      | CbOpen => Some (b_pc s i BOpen, [EConsult i now false])
      | CbClosed | CbHalfOpen => Some (b_pc s i BTask, [EConsult i now true])
      end
  | BOpen => Some (b_pc s i BIdle, [EOnOpen i])                                        (* 78 *)
  | BTask => Some (b_pc s i BRunning, [ETask i])                                       (* 80 *)
  | BRunning => None
  | BFail e => Some (b_pc (cb_record_failure s) i (BOnError e), [EFailure (cb_clock s)]) (* 81 *)
  | BOnError e => Some (b_pc s i BIdle, [EOnError i e])                                (* 82 *)
  | BReset => Some (b_pc (cb_reset s) i BIdle, [ESuccess])                             (* 84 *)
  end.

Definition bstep (s : bstate) (l : blabel) : option (bstate * list bevent) :=
  match l with
  | BClock t =>
      Some (BSt (cb_threshold s) (cb_last s) (cb_failures s) (cb_timeout s) t (cb_threads s), [])
  | BCall i =>
      match nth_error (cb_threads s) i with
      | Some BIdle => Some (b_pc s i BNow, [ECall i])
      | _ => None
      end
  | BDone i o =>
      match nth_error (cb_threads s) i with
      | Some BRunning =>
          Some (b_pc s i (match o with
                          | TaskOk => BReset
                          | TaskErr e => BFail e
                          | TaskPanic => BIdle      (* the panic leaves Do; nothing is recorded *)
                          end), [EDone i o])
      | _ => None
      end
  | BStep i =>
      match nth_error (cb_threads s) i with
      | Some pc => bstep_thread s i pc
      | None => None
      end
  end.

(** circuitbreaker.go:58-64, [NewSyncCircuitBreaker]; [n] activations, the clock shows [t0]. *)
Definition new_breaker (threshold timeout t0 : Z) (n : nat) : bstate :=
  BSt threshold 0 0 timeout t0 (repeat BIdle n).

Definition breaker_exec (threshold timeout t0 : Z) (n : nat) (sched : list blabel) : bstate * list bevent :=
  exec bstep (new_breaker threshold timeout t0 n) sched.

(** Sequential use: one [Do] that consults the breaker when the clock shows [t1], whose task does [o]
    and finishes when the clock shows [t2].  (Labels that are not enabled are ignored.) *)
Definition one_do (t1 : Z) (o : outcome) (t2 : Z) : list blabel :=
  [BClock t1; BCall 0; BStep 0; BStep 0; BStep 0; BDone 0 o; BClock t2; BStep 0; BStep 0].

(** circuitbreaker.go:130-134, [neverOpen.Do]: the calls of user code that one [Do] makes. *)
Inductive ncall := NTask | NOnError (e : Z) | NOnOpen.
Definition never_open_do (o : outcome) : list ncall :=
  NTask :: match o with TaskErr e => [NOnError e] | TaskOk | TaskPanic => [] end.
