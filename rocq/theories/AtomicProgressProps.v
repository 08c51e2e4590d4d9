(** Property theorems for the progress of the lock-free token bucket (C109) and for its service after a
    quiet time (C110). *)
From Verif Require Import Common Threads TokenBucketModel TokenBucketSpec.
From Verif Require Import AtomicBucketModel AtomicBucketSpec AtomicBucketProofs.
From Verif Require Import AtomicProgressSpec AtomicProgressProofs AtomicServeProofs.

(** C109.  Lock freedom: from any state, [n] goroutines cannot make more than a fixed number of steps
    without that some call returns; whatever the clock does. *)
Theorem atomic_bucket_lock_free : forall s sched,
  no_return (snd (exec astep s sched)) ->
  let n := Z.of_nat (length (ab_threads s)) in
  works s sched <= (7 * n + 1) * (2 * n * n + 4 * n) + 6 * n.
Proof. exact atomic_lock_free. Qed.
Print Assumptions atomic_bucket_lock_free.

(** A goroutine that runs alone returns after at most 11 steps, from any state. *)
Theorem atomic_bucket_alone_returns : forall i sched s pc,
  nth_error (ab_threads s) i = Some pc -> pc <> AIdle -> only i sched ->
  11 <= count (fun l => match l with AStep _ => true | _ => false end) sched ->
  exists r, In (ARet i r) (snd (exec astep s sched)).
Proof. exact atomic_alone. Qed.
Print Assumptions atomic_bucket_alone_returns.

(** Non-vacuous: a goroutine with an old clock reading and an old timestamp needs all 11 steps. *)
Definition held_up : astate := AState 5 1 0 (7 * second) (20 * second) [ANow 0 (2 * second); AIdle].
Example atomic_bucket_alone_case :
  snd (exec astep held_up (repeat (AStep 0) 10)) = [AWithdraw 0 5] /\
  snd (exec astep held_up (repeat (AStep 0) 11)) = [AWithdraw 0 5; ARet 0 true] /\
  works held_up (repeat (AStep 0) 10) = 10 /\ no_return (snd (exec astep held_up (repeat (AStep 0) 10))).
Proof. vm_compute. repeat split. repeat constructor. Qed.

(** It is not wait free: with capacity 2 and rate 1 a goroutine can make any number of steps in one call
    while another one gets permits. *)
Definition one_acquire (i : nat) : list alabel := ACall i :: repeat (AStep i) 8.
Definition lap (T : Z) : list alabel :=
  [AStep 0; AClock (T + second)] ++ one_acquire 1 ++ one_acquire 1 ++ [AStep 0; AClock (T + 3 * second)] ++ one_acquire 1.
Fixpoint laps (T : Z) (k : nat) : list alabel :=
  match k with O => [] | S k' => lap T ++ laps (T + 3 * second) k' end.
Definition starving (T : Z) : astate := AState 2 1 1 T T [ATakeLoad; AIdle].

Lemma run_cons s l s1 e1 r s2 e2 :
  astep s l = Some (s1, e1) -> exec astep s1 r = (s2, e2) -> exec astep s (l :: r) = (s2, e1 ++ e2).
Proof. intros H1 H2. cbn [exec]. rewrite H1, H2. reflexivity. Qed.
Lemma run_skip s l r s2 e2 : astep s l = None -> exec astep s r = (s2, e2) -> exec astep s (l :: r) = (s2, e2).
Proof. intros H1 H2. cbn [exec]. rewrite H1. exact H2. Qed.

Lemma lap_exec T : exec astep (starving T) (lap T) = (starving (T + 3 * second), [ARet 1 true; ARet 1 true; ARet 1 true]).
Proof.
  assert (R1 : refill_delta 2 1 1 T (T + second) = Some 1).
  { unfold refill_delta. replace (T + second - T) with second by lia. reflexivity. }
  assert (R2 : refill_delta 2 1 1 (T + second) (T + second) = None).
  { unfold refill_delta. replace (T + second - (T + second)) with 0 by lia. reflexivity. }
  assert (R3 : refill_delta 2 1 0 (T + second) (T + 3 * second) = Some 2).
  { unfold refill_delta. replace (T + 3 * second - (T + second)) with (2 * second) by lia. reflexivity. }
  unfold lap, starving. set (T1 := T + second) in *. set (T3 := T + 3 * second) in *. clearbody T1 T3.
  unfold one_acquire. cbn [app repeat].
  enough (H : exists s e, exec astep (AState 2 1 1 T T [ATakeLoad; AIdle])
      [AStep 0; AClock T1; ACall 1; AStep 1; AStep 1; AStep 1; AStep 1; AStep 1; AStep 1; AStep 1; AStep 1;
       ACall 1; AStep 1; AStep 1; AStep 1; AStep 1; AStep 1; AStep 1; AStep 1; AStep 1; AStep 0; AClock T3;
       ACall 1; AStep 1; AStep 1; AStep 1; AStep 1; AStep 1; AStep 1; AStep 1; AStep 1] = (s, e) /\
      s = AState 2 1 1 T3 T3 [ATakeLoad; AIdle] /\ e = [ARet 1 true; ARet 1 true; ARet 1 true]).
  { destruct H as (s & e & H & -> & ->). exact H. }
  eexists _, _. split; [|split; [reflexivity|]].
  - repeat first
      [ eapply run_skip; [reflexivity|]
      | eapply run_cons;
        [cbn [astep nth_error ab_threads ab_capacity ab_rate ab_tokens ab_lit ab_clock astep_thread];
         rewrite ?R1, ?R2, ?R3, ?Z.eqb_refl; reflexivity|];
        unfold set_pc, set_tokens, set_lit; cbn [upd ab_threads ab_capacity ab_rate ab_tokens ab_lit ab_clock];
        change (i64 (1 + 1)) with 2; change (i64 (2 - 1)) with 1; change (i64 (1 - 1)) with 0;
        change (i64 (0 + 2)) with 2 ].
    reflexivity.
  - reflexivity.
Qed.

Lemma laps_exec k : forall T,
  snd (exec astep (starving T) (laps T k)) = repeat (ARet 1 true) (3 * k) /\
  count (fun l => match l with AStep 0 => true | _ => false end) (laps T k) = 2 * Z.of_nat k.
Proof.
  induction k as [|k IH]; intros T; [split; reflexivity|]. cbn [laps]. rewrite exec_app, lap_exec.
  destruct (IH (T + 3 * second)) as [H1 H2]. split.
  - destruct (exec astep (starving (T + 3 * second)) (laps (T + 3 * second) k)) as [s2 e2]. cbn [snd] in *.
    rewrite H1. replace (3 * S k)%nat with (S (S (S (3 * k)))) by lia. reflexivity.
  - rewrite count_app, H2. cbn [count lap app one_acquire repeat]. lia.
Qed.

Theorem atomic_bucket_wait_free_refuted : forall k : nat, exists sched,
  let s := fst (atomic_exec 2 1 0 2 [ACall 1; AStep 1; AStep 1; ACall 0; AStep 0; AStep 1]) in
  nth_error (ab_threads s) 0 = Some ATakeLoad /\
  count (fun l => match l with AStep 0 => true | _ => false end) sched = 2 * Z.of_nat k /\
  snd (exec astep s sched) = repeat (ARet 1 true) (3 * k).
Proof.
  intros k. exists (laps 0 k). cbn zeta.
  replace (fst (atomic_exec 2 1 0 2 [ACall 1; AStep 1; AStep 1; ACall 0; AStep 0; AStep 1])) with (starving 0)
    by (vm_compute; reflexivity).
  destruct (laps_exec k 0) as [H1 H2]. split; [reflexivity|]. split; [exact H2|exact H1].
Qed.
Print Assumptions atomic_bucket_wait_free_refuted.

(** C110.  After a second without calls the first call to return is granted, if no refill was withdrawn
    before. *)
Theorem atomic_bucket_first_caller_served : forall capacity rate t0 t c n sched1 sched2,
  1 <= capacity -> 1 <= rate -> t0 <= t -> no_overflow capacity rate t0 t ->
  nondecreasing (t0 :: clocks (sched1 ++ AClock c :: sched2)) ->
  Forall (fun x => x <= t) (clocks (sched1 ++ AClock c :: sched2)) ->
  let '(s, tr1) := atomic_exec capacity rate t0 n sched1 in
  quiet s -> withdrawn tr1 = 0 -> ab_clock s + second <= c ->
  forall pre i post, snd (exec astep s (AClock c :: sched2)) = pre ++ ARet i false :: post ->
  exists j, In (ARet j true) pre.
Proof. exact atomic_first_served. Qed.
Print Assumptions atomic_bucket_first_caller_served.

(** Whatever happened before: a lone caller is served after (withdrawn + 1) / rate seconds. *)
Theorem atomic_bucket_lone_caller_served : forall capacity rate t0 t c n sched1,
  1 <= capacity -> 1 <= rate -> t0 <= t -> no_overflow capacity rate t0 t ->
  nondecreasing (t0 :: clocks (sched1 ++ [AClock c])) ->
  Forall (fun x => x <= t) (clocks (sched1 ++ [AClock c])) ->
  forall i,
  let '(s, tr1) := atomic_exec capacity rate t0 n sched1 in
  quiet s -> withdrawn tr1 < 2 ^ 61 -> (i < n)%nat ->
  withdrawn tr1 + 1 <= rate * whole_seconds (c - ab_clock s) ->
  snd (exec astep s (AClock c :: ACall i :: repeat (AStep i) 8)) = [ARet i true].
Proof.
  intros capacity rate t0 t c n sched1 H1 H2 H3 H4 H5 H6.
  exact (atomic_lone_served capacity rate t0 t c n sched1 [] H1 H2 H3 H4 H5 H6).
Qed.
Print Assumptions atomic_bucket_lone_caller_served.

(** Not more: capacity 5, rate 1, five seconds without calls, and of three callers one is refused,
    although no refill was withdrawn before.  Goroutine 0 refills by 5, goroutine 2 takes a token,
    goroutine 1 refills by the 1 that is missing and confirms first, so goroutine 0 withdraws 5. *)
Definition drained : list alabel := concat (repeat (one_acquire 0) 5).
Definition lost_refill : list alabel :=
  [AClock (5 * second); ACall 0] ++ repeat (AStep 0) 4 ++ one_acquire 2 ++ one_acquire 1 ++ repeat (AStep 0) 8.
Theorem atomic_bucket_callers_served_refuted :
  exists capacity rate n sched1 s2 sched2,
    nondecreasing (0 :: clocks (sched1 ++ AClock (s2 * second) :: sched2)) /\
    let '(s, tr1) := atomic_exec capacity rate 0 n sched1 in
    quiet s /\ withdrawn tr1 = 0 /\ ab_clock s = 0 /\
    calls_made sched2 < capacity /\ calls_made sched2 < rate * s2 /\
    0 < refusals (snd (exec astep s (AClock (s2 * second) :: sched2))).
Proof.
  exists 5, 1, 3%nat, drained, 5, (tl lost_refill).
  split; [vm_compute; repeat split; repeat constructor; congruence|].
  vm_compute. repeat split; repeat constructor.
Qed.
Print Assumptions atomic_bucket_callers_served_refuted.

(** And after a withdrawal even a lone caller that comes a second later can be refused: capacity 1, rate 1. *)
Definition in_debt : list alabel :=
  one_acquire 0 ++ [AClock second; ACall 1; AStep 1; AStep 1; AStep 1] ++ one_acquire 2 ++ [AStep 1] ++
  one_acquire 3 ++ repeat (AStep 1) 8.
Theorem atomic_bucket_debt_refuses_refuted :
  let '(s, tr1) := atomic_exec 1 1 0 4 in_debt in
  quiet s /\ ab_clock s = second /\ withdrawn tr1 = 1 /\
  snd (exec astep s (AClock (2 * second) :: one_acquire 0)) = [ARet 0 false] /\
  snd (exec astep s (AClock (3 * second) :: one_acquire 0)) = [ARet 0 true].
Proof. vm_compute. repeat split. repeat constructor. Qed.
Print Assumptions atomic_bucket_debt_refuses_refuted.

(** Non-vacuous: the hypotheses of the two positive theorems on these runs. *)
Example atomic_bucket_first_caller_case :
  let '(s, tr1) := atomic_exec 5 1 0 3 drained in
  quiet s /\ withdrawn tr1 = 0 /\ grants tr1 = 5 /\ ab_clock s + second <= 5 * second /\
  snd (exec astep s lost_refill) = [ARet 2 true; ARet 1 true; AWithdraw 0 5; ARet 0 false].
Proof. vm_compute. repeat split; try (repeat constructor); congruence. Qed.
