(** Model of /repo/ratelimiter/fixedwindow.go. *)
From Verif Require Import Common Float64Model.

(** fixedwindow.go:57-64, struct [SyncFixedWindow].  [Acquire] runs under the mutex after reading the
    clock (67-70); a history is the sequence of calls in lock order with the clock reading of each. *)
Record fw := Fw {
  fw_capacity : Z;
  fw_window : Z;
  fw_until : Z;
  fw_count : Z;
}.

(** fixedwindow.go:49-55, [NewSyncFixedWindow]: [until] and [count] are zero values. *)
Definition new_fw (capacity windowSize : Z) : fw := Fw capacity windowSize 0 0.

(** fixedwindow.go:93-95, [contains]. *)
Definition fw_contains (s : fw) (ts : Z) : bool := ts <=? fw_until s.

(** fixedwindow.go:98-104, [reset]. *)
Definition fw_reset (s : fw) (ts : Z) : fw :=
  if fw_contains s ts then s
  else
    let steps := f64_ceil_int64 (f64_div (f64_of_int (i64 (ts - fw_until s))) (f64_of_int (fw_window s))) in
    Fw (fw_capacity s) (fw_window s) (i64 (fw_until s + i64 (steps * fw_window s))) 0.

(** fixedwindow.go:66-82, [Acquire]. *)
Definition fw_acquire (s : fw) (now : Z) : fw * bool :=
  let s := if negb (fw_contains s now) then fw_reset s now else s in
  if fw_count s <? fw_capacity s
  then (Fw (fw_capacity s) (fw_window s) (fw_until s) (i64 (fw_count s + 1)), true)
  else (s, false).

(** A history: the clock reading of every call with its result. *)
Fixpoint fw_run (s : fw) (nows : list Z) : fw * list (Z * bool) :=
  match nows with
  | [] => (s, [])
  | now :: nows' =>
      let '(s1, r) := fw_acquire s now in
      let '(s2, calls) := fw_run s1 nows' in
      (s2, (now, r) :: calls)
  end.
