(** Circuit breakers whose callbacks use circuit breakers (/repo/circuitbreaker/circuitbreaker.go): any number of
    goroutines and breakers, Do called from tasks, onError and onOpen, one step per field access, lock operation and
    clock reading.  [i64] wraps the counter of failures. *)
From Verif Require Import Common Threads BreakerModel.

(** circuitbreaker.go:66-73, struct [SyncCircuitBreaker].  The RWMutex lets a reader in while nobody writes and a
    writer while nobody reads or writes; that Go holds readers back while a writer waits rules out some of the
    interleavings allowed here. *)
Record brk := Brk {
  k_threshold : Z; k_timeout : Z; k_last : Z; k_failures : Z; k_readers : Z; k_writer : bool }.

(** Where a call of [Do] (75-89) stands. *)
Inductive fpc :=
| FClock                                  (* state(): reads the clock, 100 *)
| FRLock (now : Z)                        (* 101 *)
| FFail1 (now : Z)                        (* 104: reads failures *)
| FThr1 (now f : Z)                       (* 104: reads failureThreshold *)
| FLast (now : Z)                         (* 104: reads lastFailureTs *)
| FTimeout (now l : Z)                    (* 104: reads resetTimeout *)
| FFail2 (now : Z)                        (* 106: reads failures *)
| FThr2 (now f : Z)                       (* 106: reads failureThreshold *)
| FRUnlock (run : bool)                   (* 102 *)
| FOnOpen                                 (* 78 *)
| FInOpen                                 (* in onOpen *)
| FTask                                   (* 80 *)
| FInTask                                 (* in the task *)
| FLock (e : option Z)                    (* 92, 114; [Some e]: recordFailure, [None]: reset *)
| FInc1 (e : Z)                           (* 95: reads failures *)
| FInc2 (e f : Z)                         (* 95: writes failures *)
| FNow (e : Z)                            (* 96: reads the clock *)
| FStamp (e t : Z)                        (* 96: writes lastFailureTs *)
| FZero1                                  (* 117: writes failures *)
| FZero2                                  (* 118: writes lastFailureTs *)
| FUnlock (e : option Z)                  (* 93, 115 *)
| FOnError (e : Z)                        (* 82 *)
| FInError                                (* in onError *)
| FDone.                                  (* Do is over *)

Record nstate := NSt {
  n_clock : Z;
  n_brks : list brk;
  n_acts : list (nat * fpc);       (* the calls of Do so far: breaker and place *)
  n_stacks : list (list nat) }.    (* for each goroutine its calls of Do that are not over, the innermost first *)

Inductive nlabel :=
| NClock (t : Z)                   (* the clock now shows t *)
| NDo (g b : nat)                  (* goroutine g calls Do of breaker b *)
| NEnd (g : nat) (o : outcome)     (* the callback that goroutine g is in returns or panics; a panic of onError or
                                      onOpen ends Do as their return does *)
| NStep (g : nat).                 (* goroutine g goes on in Do *)

(** An event of a breaker (call [i] of Do is its activation [i]), or: call [i] of Do is over. *)
Inductive nevent :=
| NEv (g b : nat) (e : bevent)
| NBack (g b i : nat).

Definition set_mem (k : brk) (last failures : Z) : brk := Brk (k_threshold k) (k_timeout k) last failures (k_readers k) (k_writer k).
Definition set_lock (k : brk) (readers : Z) (writer : bool) : brk := Brk (k_threshold k) (k_timeout k) (k_last k) (k_failures k) readers writer.

(** One step of call [i]. *)
Definition act_step (k : brk) (clock : Z) (i : nat) (pc : fpc) : option (brk * fpc * list bevent) :=
  match pc with
  | FClock => Some (k, FRLock clock, [])
  | FRLock now => if k_writer k then None else Some (set_lock k (k_readers k + 1) (k_writer k), FFail1 now, [])
  | FFail1 now => Some (k, FThr1 now (k_failures k), [])
  | FThr1 now f => Some (k, if k_threshold k <=? f then FLast now else FFail2 now, [])
  | FLast now => Some (k, FTimeout now (k_last k), [])
  | FTimeout now l =>
    if k_timeout k <? i64 (now - l) then Some (k, FRUnlock true, [EConsult i now true]) else Some (k, FFail2 now, [])
  | FFail2 now => Some (k, FThr2 now (k_failures k), [])
  | FThr2 now f => let run := negb (k_threshold k <=? f) in Some (k, FRUnlock run, [EConsult i now run])
  | FRUnlock run => Some (set_lock k (k_readers k - 1) (k_writer k), if run then FTask else FOnOpen, [])
  | FOnOpen => Some (k, FInOpen, [EOnOpen i])
  | FTask => Some (k, FInTask, [ETask i])
  | FLock e =>
    if k_writer k || negb (k_readers k =? 0) then None
    else Some (set_lock k (k_readers k) true, match e with Some e => FInc1 e | None => FZero1 end, [])
  | FInc1 e => Some (k, FInc2 e (k_failures k), [])
  | FInc2 e f => Some (set_mem k (k_last k) (i64 (f + 1)), FNow e, [])
  | FNow e => Some (k, FStamp e clock, [EFailure clock])
  | FStamp e t => Some (set_mem k t (k_failures k), FUnlock (Some e), [])
  | FZero1 => Some (set_mem k (k_last k) 0, FZero2, [])
  | FZero2 => Some (set_mem k 0 (k_failures k), FUnlock None, [ESuccess])
  | FUnlock e => Some (set_lock k (k_readers k) false, match e with Some e => FOnError e | None => FDone end, [])
  | FOnError e => Some (k, FInError, [EOnError i e])
  | FInOpen | FInTask | FInError | FDone => None
  end.

(** User code runs: at the bottom of the stack, or in a callback. *)
Definition in_user (pc : fpc) : bool := match pc with FInOpen | FInTask | FInError => true | _ => false end.

Definition place (s : nstate) (g : nat) (stack : list nat) (i : nat) (b : nat) (k : brk) (pc : fpc) (es : list bevent) : nstate * list nevent :=
  (NSt (n_clock s) (upd b k (n_brks s)) (upd i (b, pc) (n_acts s))
     (match pc with FDone => upd g (tl stack) (n_stacks s) | _ => n_stacks s end),
   map (NEv g b) es ++ match pc with FDone => [NBack g b i] | _ => [] end).

Definition nstep (s : nstate) (l : nlabel) : option (nstate * list nevent) :=
  match l with
  | NClock t => Some (NSt t (n_brks s) (n_acts s) (n_stacks s), [])
  | NDo g b =>
    match nth_error (n_stacks s) g, nth_error (n_brks s) b with
    | Some stack, Some _ =>
      let enter := Some (NSt (n_clock s) (n_brks s) (n_acts s ++ [(b, FClock)]) (upd g (length (n_acts s) :: stack) (n_stacks s)),
                         [NEv g b (ECall (length (n_acts s)))]) in
      match stack with
      | [] => enter
      | i :: _ => match nth_error (n_acts s) i with Some (_, pc) => if in_user pc then enter else None | None => None end
      end
    | _, _ => None
    end
  | NEnd g o =>
    match nth_error (n_stacks s) g with
    | Some (i :: below) =>
      match nth_error (n_acts s) i with
      | Some (b, pc) =>
        match nth_error (n_brks s) b with
        | Some k =>
          match pc with
          | FInTask => Some (place s g (i :: below) i b k
                               (match o with TaskOk => FLock None | TaskErr e => FLock (Some e) | TaskPanic => FDone end) [EDone i o])
          | FInOpen | FInError => Some (place s g (i :: below) i b k FDone [])
          | _ => None
          end
        | None => None
        end
      | None => None
      end
    | _ => None
    end
  | NStep g =>
    match nth_error (n_stacks s) g with
    | Some (i :: below) =>
      match nth_error (n_acts s) i with
      | Some (b, pc) =>
        match nth_error (n_brks s) b with
        | Some k => match act_step k (n_clock s) i pc with Some (k', pc', es) => Some (place s g (i :: below) i b k' pc' es) | None => None end
        | None => None
        end
      | None => None
      end
    | _ => None
    end
  end.

(** Breakers with the given thresholds and timeouts (58-64), [n] goroutines. *)
Definition new_brk (c : Z * Z) : brk := Brk (fst c) (snd c) 0 0 0 false.
Definition nest_init (cfg : list (Z * Z)) (t0 : Z) (n : nat) : nstate := NSt t0 (map new_brk cfg) [] (repeat [] n).
Definition nest_exec (cfg : list (Z * Z)) (t0 : Z) (n : nat) (sched : list nlabel) : nstate * list nevent :=
  exec nstep (nest_init cfg t0 n) sched.
