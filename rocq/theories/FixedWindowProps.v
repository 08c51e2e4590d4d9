(** Property theorems for the fixed window (C07-C10). *)
From Verif Require Import Common Float64Model FixedWindowModel FixedWindowSpec FixedWindowProofs.

(** C08 (and the heart of C07).  From any limiter state with edge [u], ordered calls are decided exactly
    as by the ideal limiter. *)
Theorem fixed_window_exact : forall c u w used nows,
  0 < w < 2 ^ 62 -> - 2 ^ 61 <= u -> 0 <= used -> c < 2 ^ 62 ->
  nondecreasing nows -> Forall (fun t => - 2 ^ 61 <= t < 2 ^ 61) nows -> steady u nows ->
  used + Z.of_nat (length nows) < 2 ^ 62 ->
  snd (fw_run (Fw c w u used) nows) = ideal_fixed c u w used [] nows.
Proof. exact fixed_window_decision. Qed.
Print Assumptions fixed_window_exact.

(** A limiter with edge 10 that has one of two permits left in the current window. *)
Example fixed_window_exact_case :
  ideal_fixed 2 10 5 1 [] [7; 8; 11; 12; 15; 16; 31; 35; 35; 36] =
  [(7, true); (8, false); (11, true); (12, true); (15, false); (16, true); (31, true); (35, true);
   (35, false); (36, true)] /\
  steady 10 [7; 8; 11; 12; 15; 16; 31; 35; 35; 36] /\ nondecreasing [7; 8; 11; 12; 15; 16; 31; 35; 35; 36].
Proof. split; [vm_compute; reflexivity|]. split; cbn; repeat split; repeat constructor; lia. Qed.

(** C07. *)
Theorem fixed_window_per_window_bound : forall c u w used nows k,
  0 < w < 2 ^ 62 -> - 2 ^ 61 <= u -> 0 <= used -> 0 <= c < 2 ^ 62 ->
  nondecreasing nows -> Forall (fun t => - 2 ^ 61 <= t < 2 ^ 61) nows -> steady u nows ->
  used + Z.of_nat (length nows) < 2 ^ 62 ->
  granted_in_window u w k (snd (fw_run (Fw c w u used) nows)) <= c.
Proof. exact fixed_window_bound. Qed.
Print Assumptions fixed_window_per_window_bound.

(** C07 needs clock order: capacity 2, window 10, readings 10, 10, 11, 10 in lock order: three grants
    for timestamp 10. *)
Theorem fixed_window_out_of_order_refuted :
  exists c u w used nows k, 0 < w < 2 ^ 62 /\ 0 <= used /\ 0 <= c < 2 ^ 62 /\
    Forall (fun t => - 2 ^ 61 <= t < 2 ^ 61) nows /\ steady u nows /\
    granted_in_window u w k (snd (fw_run (Fw c w u used) nows)) > c.
Proof.
  exists 2, 0, 10, 0, [10; 10; 11; 10], 1.
  split; [lia|]. split; [lia|]. split; [lia|]. split; [repeat constructor; lia|].
  split; [cbn; lia|]. vm_compute. reflexivity.
Qed.
Print Assumptions fixed_window_out_of_order_refuted.

(** C10. *)
Theorem fixed_window_span_bound : forall c u w used nows x y,
  0 < w < 2 ^ 62 -> - 2 ^ 61 <= u -> 0 <= used -> 0 <= c < 2 ^ 62 ->
  nondecreasing nows -> Forall (fun t => - 2 ^ 61 <= t < 2 ^ 61) nows -> steady u nows ->
  used + Z.of_nat (length nows) < 2 ^ 62 -> y <= x + w ->
  granted_between x y (snd (fw_run (Fw c w u used) nows)) <= 2 * c.
Proof. exact fixed_window_span. Qed.
Print Assumptions fixed_window_span_bound.

(** The 2c is reached: two grants at 10 and two at 11, window 10. *)
Example fixed_window_span_bound_tight :
  granted_between 10 20 (snd (fw_run (Fw 2 10 0 0) [10; 10; 10; 11; 11; 11; 20])) = 2 * 2.
Proof. vm_compute. reflexivity. Qed.

(** C09.  First call on a new limiter: granted iff capacity > 0, and the edge it opens is within 2^11 ns
    of the exact range [t, t + w). *)
Theorem fixed_window_fresh : forall c w t,
  0 < w < 2 ^ 61 -> 0 < t < 2 ^ 62 ->
  let '(s, r) := fw_acquire (new_fw c w) t in
  r = (0 <? c) /\ t - 2 ^ 11 <= fw_until s < t + w + 2 ^ 11.
Proof. exact fresh_first_call. Qed.
Print Assumptions fixed_window_fresh.

(** C09 refuted: at 2023-11-14T22:13:20.000000001Z a new limiter with capacity 1 and a window of one
    second grants two calls made at the very same nanosecond. *)
Theorem fixed_window_fresh_covers_refuted :
  exists c w t, 0 < w < 2 ^ 53 /\ 0 < t < 2 ^ 62 /\ c = 1 /\
    fw_until (fst (fw_acquire (new_fw c w) t)) < t /\
    snd (fw_run (new_fw c w) [t; t]) = [(t, true); (t, true)].
Proof.
  exists 1, second, 1700000000000000001. unfold second. vm_compute. repeat split; reflexivity || congruence.
Qed.
Print Assumptions fixed_window_fresh_covers_refuted.

(** C09.  The whole life of a new limiter: some edge [u] within 2^11 ns of the exact one, and from the
    second call on exactly the ideal limiter with that edge. *)
Theorem fixed_window_fresh_history : forall c w t rest,
  0 < w < 2 ^ 60 -> 0 < t < 2 ^ 61 -> c < 2 ^ 62 ->
  nondecreasing (t :: rest) -> Forall (fun x => x < 2 ^ 61) rest -> steady (t - 2 ^ 11) rest ->
  Z.of_nat (length rest) < 2 ^ 61 ->
  exists u, t - 2 ^ 11 <= u < t + w + 2 ^ 11 /\
    snd (fw_run (new_fw c w) (t :: rest)) =
    (t, 0 <? c) :: ideal_fixed c u w (if 0 <? c then 1 else 0) [] rest.
Proof. exact fresh_history. Qed.
Print Assumptions fixed_window_fresh_history.

(** C09/C10.  So a new limiter grants at most 2c + 1 calls in any span of one window length. *)
Theorem fixed_window_fresh_span_bound : forall c w t rest x y,
  0 < w < 2 ^ 60 -> 0 < t < 2 ^ 61 -> 0 <= c < 2 ^ 62 ->
  nondecreasing (t :: rest) -> Forall (fun x => x < 2 ^ 61) rest -> steady (t - 2 ^ 11) rest ->
  Z.of_nat (length rest) < 2 ^ 61 -> y <= x + w ->
  granted_between x y (snd (fw_run (new_fw c w) (t :: rest))) <= 2 * c + 1.
Proof. exact fresh_span. Qed.
Print Assumptions fixed_window_fresh_span_bound.

(** A present-day history meeting these hypotheses. *)
Example fixed_window_fresh_case :
  let t := 1700000000000000001 in
  nondecreasing [t; t; t + second] /\ steady (t - 2 ^ 11) [t; t + second] /\
  snd (fw_run (new_fw 1 second) [t; t; t + second]) = [(t, true); (t, true); (t + second, true)].
Proof.
  cbv zeta. split; [|split].
  - cbn. unfold second. repeat split; repeat constructor; lia.
  - cbn. unfold second. lia.
  - vm_compute. reflexivity.
Qed.
