(** Model of /repo/ratelimiter/slidingwindow.go. *)
From Verif Require Import Common.

(** slidingwindow.go:54-60, struct [SyncSlidingWindow].  [sw_records] is the list, oldest (front)
    first.  Every method runs under the lock, so it is one atomic transition; a concurrent history is
    the sequence of operations in lock order.  [Acquire] reads the clock before taking the lock (line
    63), so the readings in a history can be in any order. *)
Record sw := Sw {
  sw_capacity : Z;
  sw_window : Z;
  sw_records : list Z;
}.

(** slidingwindow.go:42-52, [NewSyncSlidingWindow]. *)
Definition new_sw (capacity windowSize : Z) : sw :=
  let capacity := if capacity <? 0 then 0 else capacity in
  Sw capacity windowSize [].

(** [records.Len()] *)
Definition sw_len (s : sw) : Z := Z.of_nat (length (sw_records s)).

(** slidingwindow.go:62-87, [Acquire].  [None]: nil pointer dereference on line 79. *)
Definition sw_acquire (s : sw) (now : Z) : option (sw * bool) :=
  if sw_capacity s =? 0 then Some (s, true)                                      (* 68-70 *)
  else if sw_len s <? sw_capacity s
  then Some (Sw (sw_capacity s) (sw_window s) (sw_records s ++ [now]), true)     (* 72-76 *)
  else match sw_records s with                                                   (* 78-79 *)
       | [] => None
       | oldest :: rest =>
           if sw_window s <? i64 (now - oldest)                                  (* 80 *)
           then Some (Sw (sw_capacity s) (sw_window s) (rest ++ [now]), true)    (* 82-84 *)
           else Some (s, false)                                                  (* 86 *)
       end.

(** slidingwindow.go:89-93 and 95-99, [Capacity] and [WindowSize]. *)
Definition sw_get_capacity (s : sw) : Z := sw_capacity s.
Definition sw_get_window (s : sw) : Z := sw_window s.

(** slidingwindow.go:109-112, the loop of [UpdateConfig]: drop from the front while longer than
    [capacity] (and not empty). *)
Fixpoint sw_drop (capacity : Z) (records : list Z) : list Z :=
  match records with
  | [] => []
  | _ :: rest => if capacity <? Z.of_nat (length records) then sw_drop capacity rest else records
  end.

(** slidingwindow.go:101-117, [UpdateConfig]. *)
Definition sw_update (s : sw) (capacity windowSize : Z) : sw :=
  let capacity := if capacity <? 0 then 0 else capacity in
  Sw capacity windowSize (sw_drop capacity (sw_records s)).

Inductive swop :=
| SwAcquire (now : Z)
| SwUpdate (capacity windowSize : Z).

(** A history.  The result pairs the clock reading of every Acquire with what it returned; [None] if
    some call panicked. *)
Fixpoint sw_run (s : sw) (ops : list swop) : option (sw * list (Z * bool)) :=
  match ops with
  | [] => Some (s, [])
  | SwAcquire now :: ops' =>
      match sw_acquire s now with
      | None => None
      | Some (s1, r) => match sw_run s1 ops' with
                        | None => None
                        | Some (s2, calls) => Some (s2, (now, r) :: calls)
                        end
      end
  | SwUpdate c w :: ops' => sw_run (sw_update s c w) ops'
  end.
