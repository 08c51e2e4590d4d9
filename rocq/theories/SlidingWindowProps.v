(** Property theorems for the sliding window (C11-C13). *)
From Verif Require Import Common SlidingWindowModel SlidingWindowSpec SlidingWindowProofs.

(** C11.  Clock readings in any order; no call panics; every interval of length [w] holds at most [c]
    granted timestamps. *)
Theorem sliding_window_bound : forall c w nows x,
  0 < c -> 0 <= w -> Forall readable nows ->
  exists s calls, sw_run (new_sw c w) (map SwAcquire nows) = Some (s, calls) /\
    map fst calls = nows /\ granted_in x (x + w) calls <= c.
Proof. exact any_order_bound. Qed.
Print Assumptions sliding_window_bound.

(** Non-vacuous: out-of-order readings, bound reached. *)
Example sliding_window_bound_case :
  exists s, sw_run (new_sw 2 10) (map SwAcquire [5; 3; 14; 13; 16; 14; 25]) =
    Some (s, [(5, true); (3, true); (14, false); (13, false); (16, true); (14, true); (25, false)]) /\
  granted_in 5 15 [(5, true); (3, true); (14, false); (13, false); (16, true); (14, true); (25, false)] = 2.
Proof. eexists. vm_compute. split; reflexivity. Qed.

(** C12.  For ordered readings the limiter is the ideal one. *)
Theorem sliding_window_exact : forall c w nows,
  0 < c -> 0 <= w < 2 ^ 63 -> nondecreasing nows -> Forall readable nows ->
  exists s, sw_run (new_sw c w) (map SwAcquire nows) = Some (s, ideal_sliding c w [] nows).
Proof. exact exact_decision. Qed.
Print Assumptions sliding_window_exact.

Example sliding_window_exact_case :
  ideal_sliding 2 10 [] [0; 1; 5; 10; 11; 11; 12; 22] =
    [(0, true); (1, true); (5, false); (10, false); (11, true); (11, false); (12, true); (22, true)].
Proof. vm_compute. reflexivity. Qed.

(** C13a.  UpdateConfig takes effect at once for the getters. *)
Theorem sliding_window_update_getters : forall c0 w0 pre c w s calls,
  sw_run (new_sw c0 w0) (pre ++ [SwUpdate c w]) = Some (s, calls) ->
  sw_get_capacity s = Z.max 0 c /\ sw_get_window s = w.
Proof. exact update_getters. Qed.
Print Assumptions sliding_window_update_getters.

(** C13.  A new window: the getters, and no limit with capacity 0 (or negative). *)
Theorem sliding_window_new : forall c w,
  sw_get_capacity (new_sw c w) = Z.max 0 c /\ sw_get_window (new_sw c w) = w /\
  (c <= 0 -> forall nows, exists s, sw_run (new_sw c w) (map SwAcquire nows) = Some (s, map (fun t => (t, true)) nows)).
Proof. exact new_window. Qed.
Print Assumptions sliding_window_new.

Example sliding_window_new_case :
  sw_get_capacity (new_sw (-3) 10) = 0 /\ exists s, sw_run (new_sw (-3) 10) (map SwAcquire [1; 2; 2]) = Some (s, [(1, true); (2, true); (2, true)]).
Proof. split; [reflexivity|]. eexists. vm_compute. reflexivity. Qed.

(** C13b.  Capacity 0 (or negative) never refuses. *)
Theorem sliding_window_update_unlimited : forall c0 w0 pre c w nows,
  c <= 0 -> Forall op_readable pre ->
  exists s calls0, sw_run (new_sw c0 w0) (pre ++ SwUpdate c w :: map SwAcquire nows) =
    Some (s, calls0 ++ map (fun t => (t, true)) nows) /\ sw_get_capacity s = 0 /\ sw_get_window s = w.
Proof. exact unlimited. Qed.
Print Assumptions sliding_window_update_unlimited.

(** C13c.  After any history and any reconfiguration, the calls made from then on obey the new bound. *)
Theorem sliding_window_update_bound : forall c0 w0 pre c w nows x,
  0 < c -> 0 <= w -> Forall op_readable pre -> Forall readable nows ->
  exists s calls0 calls,
    sw_run (new_sw c0 w0) (pre ++ SwUpdate c w :: map SwAcquire nows) = Some (s, calls0 ++ calls) /\
    length calls = length nows /\ granted_in x (x + w) calls <= c.
Proof. exact after_update_bound. Qed.
Print Assumptions sliding_window_update_bound.

Example sliding_window_update_case :
  exists s, sw_run (new_sw 2 10) (map SwAcquire [1; 2; 3] ++ SwUpdate 1 5 :: map SwAcquire [4; 8; 9; 20]) =
    Some (s, [(1, true); (2, true); (3, false); (4, false); (8, true); (9, false); (20, true)]).
Proof. eexists. vm_compute. reflexivity. Qed.

(** C13d.  As long as reconfigurations only raise the capacity and shorten the window, the bound with
    the final configuration holds for the whole history, across the reconfigurations. *)
Theorem sliding_window_growing_bound : forall c0 w0 ops x,
  0 < c0 -> Forall op_readable ops -> grows c0 w0 ops ->
  exists s calls, sw_run (new_sw c0 w0) ops = Some (s, calls) /\
    (0 <= sw_get_window s -> granted_in x (x + sw_get_window s) calls <= sw_get_capacity s).
Proof. exact growing_bound. Qed.
Print Assumptions sliding_window_growing_bound.

Example sliding_window_growing_case :
  grows 1 10 [SwAcquire 1; SwAcquire 2; SwUpdate 2 8; SwAcquire 3; SwAcquire 4] /\
  exists s, sw_run (new_sw 1 10) [SwAcquire 1; SwAcquire 2; SwUpdate 2 8; SwAcquire 3; SwAcquire 4] =
    Some (s, [(1, true); (2, false); (3, true); (4, false)]).
Proof. split; [cbn; lia|]. eexists. vm_compute. reflexivity. Qed.

(** C13e.  Lowering the capacity and restoring it forgets grants: three grants within one window of a
    limiter whose capacity is 2 before and after. *)
Theorem sliding_window_shrink_grow_refuted :
  exists c w ops x, 0 < c /\ 0 <= w /\ Forall op_readable ops /\
    exists s calls, sw_run (new_sw c w) ops = Some (s, calls) /\ sw_get_capacity s = c /\ sw_get_window s = w /\
      granted_in x (x + w) calls > c.
Proof.
  exists 2, 10, [SwAcquire 1; SwAcquire 2; SwUpdate 1 10; SwUpdate 2 10; SwAcquire 3], 1.
  split; [lia|]. split; [lia|]. split; [repeat constructor; cbn; lia|].
  eexists _, _. vm_compute. repeat split; reflexivity.
Qed.
Print Assumptions sliding_window_shrink_grow_refuted.
