(** Property theorems for the circuit breaker during an outage (C108). *)
From Verif Require Import Common Threads BreakerModel BreakerSpec BreakerProofs BreakerOutageSpec BreakerOutageProofs.

(** C108.  While all tasks fail, [n] concurrent callers run at most [threshold + n - 1] tasks in any
    stretch of time as long as the reset timeout.  [sched1] is what happened before the outage. *)
Theorem breaker_outage_tasks : forall threshold timeout t0 n sched1 sched2 a,
  1 <= threshold -> 0 <= t0 < 2 ^ 62 ->
  Forall clock_ok (sched1 ++ sched2) -> blength_ok (sched1 ++ sched2) -> clock_forward t0 (sched1 ++ sched2) ->
  let s := fst (breaker_exec threshold timeout t0 n sched1) in
  let tr := snd (exec bstep s sched2) in
  all_fail tr ->
  count (let_through a (a + timeout)) tr <= threshold + Z.of_nat n - 1.
Proof.
  intros threshold timeout t0 n sched1 sched2 a Hth Ht HF Hlen HC s tr HA.
  pose proof (outage_bound threshold timeout t0 a n sched1 sched2 Ht HF Hlen HC (threshold + Z.of_nat n - 1)) as H.
  subst tr s. destruct (breaker_exec threshold timeout t0 n sched1) as [s tr1]. cbn [fst] in *.
  apply H; [exact HA|lia|lia|left; lia].
Qed.
Print Assumptions breaker_outage_tasks.

(** Once the breaker has opened, at most [n] tasks run in any such stretch: one per caller. *)
Theorem breaker_opened_outage_tasks : forall threshold timeout t0 n sched1 sched2 a,
  0 <= t0 < 2 ^ 62 ->
  Forall clock_ok (sched1 ++ sched2) -> blength_ok (sched1 ++ sched2) -> clock_forward t0 (sched1 ++ sched2) ->
  let '(s, tr1) := breaker_exec threshold timeout t0 n sched1 in
  let tr := snd (exec bstep s sched2) in
  threshold <= failures_since_success tr1 -> all_fail tr ->
  count (let_through a (a + timeout)) tr <= Z.of_nat n.
Proof.
  intros threshold timeout t0 n sched1 sched2 a Ht HF Hlen HC.
  pose proof (outage_bound threshold timeout t0 a n sched1 sched2 Ht HF Hlen HC (Z.of_nat n)) as H.
  destruct (breaker_exec threshold timeout t0 n sched1) as [s tr1]. cbn [fst] in *.
  intros Hop HA. apply H; [exact HA|lia|lia|right; split; [exact Hop|lia]].
Qed.
Print Assumptions breaker_opened_outage_tasks.

(** Three callers, threshold 2, timeout 100.  Four tasks at time 0 (the bound of the first theorem), a
    refusal, and from 151 three more (the bound of the second). *)
Definition try1 (i : nat) : list blabel := [BCall i; BStep i; BStep i; BStep i].
Definition err1 (i : nat) : list blabel := [BDone i (TaskErr 1); BStep i; BStep i].
Definition outage1 : list blabel :=
  try1 0 ++ try1 1 ++ try1 2 ++ err1 0 ++ try1 0 ++ [BClock 50] ++ err1 1.
Definition outage2 : list blabel :=
  try1 1 ++ err1 0 ++ err1 2 ++ [BClock 151] ++ try1 0 ++ try1 1 ++ try1 2 ++ err1 0 ++ try1 0 ++ err1 1 ++ err1 2.
Example breaker_outage_case :
  Forall clock_ok (outage1 ++ outage2) /\ clock_forward 0 (outage1 ++ outage2) /\
  let '(s, tr1) := breaker_exec 2 100 0 3 outage1 in
  let tr2 := snd (exec bstep s outage2) in
  all_fail tr1 /\ all_fail tr2 /\ 2 <= failures_since_success tr1 /\
  count (let_through 0 100) tr1 = 4 /\ count (let_through 100 200) tr2 = 3 /\
  count (fun e => match e with EOnOpen _ => true | _ => false end) tr2 = 2.
Proof.
  split; [repeat constructor; vm_compute; congruence|].
  split; [vm_compute; repeat split; congruence|].
  vm_compute. repeat split; try (repeat constructor); congruence.
Qed.

(** If tasks panic instead of returning an error there is no bound: with one caller and threshold 1 any
    number of tasks runs at the same instant. *)
Theorem breaker_outage_panics_refuted : forall k : nat, exists sched,
  Forall clock_ok sched /\ clock_forward 0 sched /\
  let tr := snd (breaker_exec 1 1000 0 1 sched) in
  Forall (fun e => match e with ESuccess | EDone _ TaskOk | EDone _ (TaskErr _) => False | _ => True end) tr /\
  count (let_through 0 0) tr = Z.of_nat k.
Proof.
  intros k. pose (sched := concat (repeat (try1 0 ++ [BDone 0 TaskPanic]) k)). exists sched. subst sched.
  split; [|split].
  - induction k as [|k IH]; cbn; [constructor|]. repeat (constructor; [exact I|]). exact IH.
  - induction k as [|k IH]; cbn; auto.
  - unfold breaker_exec. cbn zeta.
    change (new_breaker 1 1000 0 1) with (BSt 1 0 0 1000 0 [BIdle]).
    induction k as [|k IH]; [cbn; split; [constructor|reflexivity]|].
    cbn [repeat concat]. rewrite exec_app.
    replace (exec bstep (BSt 1 0 0 1000 0 [BIdle]) (try1 0 ++ [BDone 0 TaskPanic]))
      with (BSt 1 0 0 1000 0 [BIdle], [ECall 0; EConsult 0 0 true; ETask 0; EDone 0 TaskPanic])
      by (vm_compute; reflexivity).
    destruct (exec bstep (BSt 1 0 0 1000 0 [BIdle]) (concat (repeat (try1 0 ++ [BDone 0 TaskPanic]) k))) as [s2 e2].
    cbn [snd] in *. destruct IH as [IH1 IH2]. split.
    + repeat (constructor; [exact I|]). exact IH1.
    + rewrite count_app, IH2, Nat2Z.inj_succ. cbn [count let_through andb]. change (0 <=? 0) with true. cbn [andb]. lia.
Qed.
Print Assumptions breaker_outage_panics_refuted.
