(** Model of the lock-free token bucket, /repo/ratelimiter/tokenbucket.go:107-177, as a thread
    machine: one step per atomic memory operation or clock reading. *)
From Verif Require Import Common Threads.

(** Where a goroutine stands in [Acquire] (120-136) and [issueIfNecessary] (138-177). *)
Inductive apc :=
| AIdle                                   (* not in Acquire *)
| ALoadTok                                (* about to load tokens, line 141 *)
| ALoadLit (oldTokens : Z)                (* about to load lastIssueTimestamp, line 146 *)
| ANow (oldTokens oldLit : Z)             (* about to read the clock, line 147 *)
| ACasTok (oldTokens oldLit now delta : Z) (* about to CAS tokens, line 161 *)
| ACasLit (oldLit now delta : Z)          (* about to CAS lastIssueTimestamp, line 166 *)
| ARollback (delta : Z)                   (* about to withdraw the refill, line 169 *)
| ATakeLoad                               (* about to load tokens, line 125 *)
| ATakeCas (oldTokens : Z).               (* about to CAS tokens, line 126 *)

(** tokenbucket.go:108-114, struct [AtomicTokenBucket], the clock behind [nowFn], the goroutines. *)
Record astate := AState {
  ab_capacity : Z;
  ab_rate : Z;
  ab_tokens : Z;
  ab_lit : Z;
  ab_clock : Z;
  ab_threads : list apc;
}.

Inductive alabel :=
| AClock (t : Z)   (* the clock now shows t *)
| ACall (i : nat)  (* goroutine i calls Acquire *)
| AStep (i : nat). (* goroutine i performs its next atomic operation *)

Inductive aevent :=
| ARet (i : nat) (granted : bool)       (* Acquire returns *)
| AWithdraw (i : nat) (delta : Z).      (* a refill is taken back, line 169 *)

Definition set_pc (s : astate) (i : nat) (pc : apc) : astate :=
  AState (ab_capacity s) (ab_rate s) (ab_tokens s) (ab_lit s) (ab_clock s) (upd i pc (ab_threads s)).
Definition set_tokens (s : astate) (v : Z) : astate :=
  AState (ab_capacity s) (ab_rate s) v (ab_lit s) (ab_clock s) (ab_threads s).
Definition set_lit (s : astate) (v : Z) : astate :=
  AState (ab_capacity s) (ab_rate s) (ab_tokens s) v (ab_clock s) (ab_threads s).

(** tokenbucket.go:149-159: what follows the clock reading; local computation only.
    [None]: delta is zero, issueIfNecessary returns. *)
Definition refill_delta (capacity rate oldTokens oldLit now : Z) : option Z :=
  let elapse := i64 (now - oldLit) in                                    (* 150 *)
  let delta := i64 (Z.quot elapse second * rate) in                      (* 151 *)
  if delta =? 0 then None                                                (* 153-155 *)
  else Some (if capacity <? i64 (oldTokens + delta)                      (* 157-159 *)
             then i64 (capacity - oldTokens) else delta).

(** One atomic operation of goroutine [i], whose program counter is [pc]. *)
Definition astep_thread (s : astate) (i : nat) (pc : apc) : option (astate * list aevent) :=
  match pc with
  | AIdle => None
  | ALoadTok =>                                                          (* 141-144 *)
      if ab_capacity s <=? ab_tokens s then Some (set_pc s i ATakeLoad, [])
      else Some (set_pc s i (ALoadLit (ab_tokens s)), [])
  | ALoadLit old => Some (set_pc s i (ANow old (ab_lit s)), [])          (* 146 *)
  | ANow old oldLit =>                                                   (* 147-159 *)
      match refill_delta (ab_capacity s) (ab_rate s) old oldLit (ab_clock s) with
      | None => Some (set_pc s i ATakeLoad, [])
      | Some delta => Some (set_pc s i (ACasTok old oldLit (ab_clock s) delta), [])
      end
  | ACasTok old oldLit now delta =>                                      (* 161-164 *)
      if ab_tokens s =? old
      then Some (set_pc (set_tokens s (i64 (old + delta))) i (ACasLit oldLit now delta), [])
      else Some (set_pc s i ALoadTok, [])
  | ACasLit oldLit now delta =>                                          (* 166-167, 174 *)
      if ab_lit s =? oldLit
      then Some (set_pc (set_lit s now) i ATakeLoad, [])
      else Some (set_pc s i (ARollback delta), [])
  | ARollback delta =>                                                   (* 168-171 *)
      Some (set_pc (set_tokens s (i64 (ab_tokens s - delta))) i ALoadTok, [AWithdraw i delta])
  | ATakeLoad =>                                                         (* 125, 131 *)
      if 0 <? ab_tokens s then Some (set_pc s i (ATakeCas (ab_tokens s)), [])
      else Some (set_pc s i AIdle, [ARet i false])
  | ATakeCas old =>                                                      (* 126-129, 134 *)
      if ab_tokens s =? old
      then Some (set_pc (set_tokens s (i64 (old - 1))) i AIdle, [ARet i true])
      else Some (set_pc s i ATakeLoad, [])
  end.

Definition astep (s : astate) (l : alabel) : option (astate * list aevent) :=
  match l with
  | AClock t => Some (AState (ab_capacity s) (ab_rate s) (ab_tokens s) (ab_lit s) t (ab_threads s), [])
  | ACall i =>
      match nth_error (ab_threads s) i with
      | Some AIdle => Some (set_pc s i ALoadTok, [])
      | _ => None
      end
  | AStep i =>
      match nth_error (ab_threads s) i with
      | Some pc => astep_thread s i pc
      | None => None
      end
  end.

(** tokenbucket.go:47-55, [NewAtomicTokenBucket] at clock [t0], used by [n] goroutines. *)
Definition new_atomic (capacity rate t0 : Z) (n : nat) : astate :=
  AState capacity rate capacity t0 t0 (repeat AIdle n).

(** Sequential use: goroutine 0 calls Acquire when the clock shows [now] and runs, for at most [fuel]
    steps, until it returns. *)
Fixpoint solo_steps (fuel : nat) (s : astate) : option (astate * bool) :=
  match fuel with
  | O => None
  | S fuel' =>
      match astep s (AStep 0) with
      | Some (s1, [ARet _ r]) => Some (s1, r)
      | Some (s1, _) => solo_steps fuel' s1
      | None => None
      end
  end.
Definition solo_acquire (s : astate) (now : Z) : option (astate * bool) :=
  match astep s (AClock now) with
  | Some (s1, _) => match astep s1 (ACall 0) with
                    | Some (s2, _) => solo_steps 7 s2
                    | None => None
                    end
  | None => None
  end.
Fixpoint solo_run (s : astate) (nows : list Z) : option (list bool) :=
  match nows with
  | [] => Some []
  | now :: nows' =>
      match solo_acquire s now with
      | Some (s1, r) => option_map (cons r) (solo_run s1 nows')
      | None => None
      end
  end.
Definition atomic_solo_results (capacity rate t0 : Z) (nows : list Z) : option (list bool) :=
  solo_run (new_atomic capacity rate t0 1) nows.
