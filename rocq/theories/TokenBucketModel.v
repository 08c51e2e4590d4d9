(** Model of the mutex based token bucket, /repo/ratelimiter/tokenbucket.go. *)
From Verif Require Import Common.

(** tokenbucket.go:58-65, struct [SyncTokenBucket].  The mutex is not a field: [Acquire] holds it
    from entry to exit (lines 72-73), so each call is one atomic transition and a concurrent history
    is the sequence of calls in lock order.  [nowFn] is an input of each call. *)
Record sbucket := SBucket {
  sb_capacity : Z;
  sb_tokens : Z;
  sb_rate : Z;
  sb_last : Z;
}.

(** tokenbucket.go:34-42, [NewSyncTokenBucket]; [t0] is [gtime.SysNow().UnixNano()] on line 39. *)
Definition new_sync_bucket (capacity rate t0 : Z) : sbucket :=
  SBucket capacity capacity rate t0.

(** tokenbucket.go:85-104, [issueIfNecessary].  Go's [/] on int64 truncates: [Z.quot].
    All arithmetic wraps at 64 bits. *)
Definition sync_issue (b : sbucket) (now : Z) : sbucket :=
  if sb_capacity b <=? sb_tokens b then b                                  (* 86-88 *)
  else
    let elapse := i64 (now - sb_last b) in                                 (* 91 *)
    let delta := i64 (Z.quot elapse second * sb_rate b) in                 (* 92 *)
    if delta =? 0 then b                                                   (* 94-96 *)
    else
      let tokens := i64 (sb_tokens b + delta) in                           (* 98 *)
      let tokens := if sb_capacity b <? tokens then sb_capacity b else tokens in (* 99-101 *)
      SBucket (sb_capacity b) tokens (sb_rate b) now.                      (* 103 *)

(** tokenbucket.go:71-83, [Acquire]. *)
Definition sync_acquire (b : sbucket) (now : Z) : sbucket * bool :=
  let b := sync_issue b now in
  if 0 <? sb_tokens b
  then (SBucket (sb_capacity b) (i64 (sb_tokens b - 1)) (sb_rate b) (sb_last b), true)
  else (b, false).

(** A history: one call per clock reading, results in order. *)
Fixpoint sync_run (b : sbucket) (nows : list Z) : sbucket * list bool :=
  match nows with
  | [] => (b, [])
  | now :: nows' =>
      let '(b1, r) := sync_acquire b now in
      let '(b2, rs) := sync_run b1 nows' in
      (b2, r :: rs)
  end.

(** The results of calls at [nows] on a bucket made by [NewSyncTokenBucket] at [t0]. *)
Definition sync_bucket_results (capacity rate t0 : Z) (nows : list Z) : list bool :=
  snd (sync_run (new_sync_bucket capacity rate t0) nows).
