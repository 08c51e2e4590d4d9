(** Theorems about progress of the event bus, with sync.RWMutex holding back readers behind a waiting writer. *)
From Verif Require Import Common Bytes Threads BusModel BusSpec BusProofs BusLive BusLockModel BusLockSpec BusLockProofs BusLockLive.
Local Open Scope string_scope.
Local Open Scope list_scope.
Local Open Scope Z_scope.

(** What is proved of every execution of the bus of BusModel.v holds here too: the trace is one of its traces. *)
Theorem bus_queueing_refines : forall bufSize n sched, exists sched', incl sched' sched /\
  bus_exec bufSize n sched' = (k_bus (fst (lbus_exec bufSize n sched)), snd (lbus_exec bufSize n sched)).
Proof. exact lock_refines. Qed.
Print Assumptions bus_queueing_refines.

(** A bus with room for one event and one receiver of strategy [st]; a dispatcher has taken event 5, and goroutine 1
    waits for the lock to close the receiver. *)
Definition held (st : Z) : list blabel :=
  [LCall 0 (OpNew "a" 0 st); LClient 0 0; LClient 0 0; LCall 0 OpGo; LCall 0 (OpSend 5); LClient 0 0; LDisp 0 0 0; LCall 1 (OpClose 0); LClient 1 0].
Definition held_trace (st : Z) : list bevent :=
  [ECall 0 (OpNew "a" 0 st); EReg 0 0 "a" 0 st; ECall 0 OpGo; EGone 0; ECall 0 (OpSend 5); ESent 0 5; ETaken 0 5; ECall 1 (OpClose 0)].
Example bus_held_case : snd (lbus_exec 1 2 (held Drop)) = held_trace Drop /\ k_writer (fst (lbus_exec 1 2 (held Drop))) = Some 1%nat.
Proof. vm_compute. auto. Qed.

(** C33.  A dispatcher that has begun to offer an event finishes without anyone else moving, if all registered
    receivers use Drop. *)
Theorem bus_drop_finishes_alone : forall bufSize n sched d v,
  let tr := snd (lbus_exec bufSize n sched) in
  all_drop tr -> dispatching d tr = Some v ->
  exists sched' es, Forall (only_disp d) sched' /\ snd (lbus_exec bufSize n (sched ++ sched')) = tr ++ es /\ In (EFinish d v) es.
Proof. exact loop_alone. Qed.
Print Assumptions bus_drop_finishes_alone.

Definition loop_demo : list blabel :=
  [LCall 0 (OpNew "a" 0 Drop); LClient 0 0; LClient 0 0; LCall 0 OpGo; LCall 0 (OpSend 5); LClient 0 0; LDisp 0 0 0; LDisp 0 0 0; LCall 1 (OpClose 0); LClient 1 0].
Example bus_drop_alone_case : let tr := snd (lbus_exec 1 2 loop_demo) in
  all_drop tr /\ dispatching 0 tr = Some 5 /\ k_writer (fst (lbus_exec 1 2 loop_demo)) = Some 1%nat.
Proof.
  assert (E : snd (lbus_exec 1 2 loop_demo) =
    [ECall 0 (OpNew "a" 0 Drop); EReg 0 0 "a" 0 Drop; ECall 0 OpGo; EGone 0; ECall 0 (OpSend 5); ESent 0 5; ETaken 0 5; EBegin 0 5 [0%nat]; ECall 1 (OpClose 0)])
    by (vm_compute; reflexivity).
  cbn zeta. rewrite E. split; [|split; [reflexivity|vm_compute; reflexivity]]. intros r name cap st _ (i & H). cbn in H. intuition congruence.
Qed.

(** It does not, if it has only taken the event: a goroutine that closes a receiver may be first. *)
Theorem bus_drop_never_waits_refuted : exists bufSize n sched d v,
  let tr := snd (lbus_exec bufSize n sched) in
  ~ close_panicked tr /\ only_drop tr /\ all_drop tr /\ busy d tr = Some v /\
  forall sched', Forall (only_disp d) sched' -> snd (lbus_exec bufSize n (sched ++ sched')) = tr.
Proof.
  exists 1, 2%nat, (held Drop), 0%nat, 5. cbn zeta. rewrite (proj1 bus_held_case). split; [|split; [|split; [|split; [reflexivity|]]]].
  - intros (i & H). cbn in H. intuition discriminate.
  - intros i name cap st H. cbn in H. intuition congruence.
  - intros r name cap st _ (i & H). cbn in H. intuition congruence.
  - intros sched' HF. rewrite lbus_continue, (proj1 bus_held_case). cbn [snd].
    replace (exec lstep (fst (lbus_exec 1 2 (held Drop))) sched') with (fst (lbus_exec 1 2 (held Drop)), @nil bevent); [cbn [snd]; rewrite app_nil_r; reflexivity|].
    symmetry. induction HF as [|l sched' Hl HF IH]; [reflexivity|]. destruct l as [| | |d k i]; try (destruct Hl; fail). cbn [only_disp] in Hl. subst d.
    cbn [exec]. replace (lstep (fst (lbus_exec 1 2 (held Drop))) (LDisp 0 k i)) with (@None (lbus * list bevent)) by (vm_compute; reflexivity). exact IH.
Qed.
Print Assumptions bus_drop_never_waits_refuted.

(** If all receivers asked for use Drop, and no further calls are made, then under every fair schedule a point is
    reached where all is done: no dispatcher has an event any more, no New, Close or bus Close is under way, and if a
    dispatcher runs, all events sent have been taken and no send is pending. *)
Theorem bus_drop_settles : forall bufSize n sched f,
  let tr := snd (lbus_exec bufSize n sched) in
  fair tr f -> only_drop tr ->
  exists k, let tr' := snd (lbus_exec bufSize n (sched ++ first k f)) in close_panicked tr' \/ settled n tr'.
Proof. exact fair_settles_drop. Qed.
Print Assumptions bus_drop_settles.

(** Fair schedules exist after every execution. *)
Theorem bus_fair_exists : forall tr, exists f, fair tr f.
Proof. intros tr. exists (every tr). apply every_fair. Qed.
Print Assumptions bus_fair_exists.

Example bus_settles_case : let tr := snd (lbus_exec 1 2 (held Drop)) in only_drop tr /\ ~ settled 2 tr /\
  settled 2 (snd (lbus_exec 1 2 (held Drop ++ [LClient 1 0; LDisp 0 0 0; LDisp 0 0 0]))).
Proof.
  cbn zeta. rewrite (proj1 bus_held_case). split; [|split].
  - intros i name cap st H. cbn in H. intuition congruence.
  - intros (H & _). specialize (H 0%nat). discriminate H.
  - replace (snd (lbus_exec 1 2 (held Drop ++ [LClient 1 0; LDisp 0 0 0; LDisp 0 0 0])))
      with (held_trace Drop ++ [EClosedRecv 0; ECloseReturns 1 0; EBegin 0 5 []; EFinish 0 5]) by (vm_compute; reflexivity).
    split; [|split].
    + intros [|d]; reflexivity.
    + intros [|[|i]] o Hi; [discriminate..|lia].
    + intros d _. split; [intros i H; cbn in H; intuition discriminate|]. split; [reflexivity|]. intros [|[|i]] v Hi; [discriminate..|lia].
Qed.

(** C36.  Drain returns exactly what is buffered and does not wait, also while a goroutine waits for the lock. *)
Theorem bus_drain_exact_queueing : forall bufSize n sched i r name cap st,
  let tr := snd (lbus_exec bufSize n sched) in
  idle n i tr -> made tr r name cap st -> (forall d, begun d r tr = verdicts d r tr) ->
  exists data k, delivered_to r tr = got r tr ++ data /\
    snd (lbus_exec bufSize n (sched ++ LCall i (OpDrain r) :: repeat (LClient i 0) k)) =
      tr ++ ECall i (OpDrain r) :: map (fun v => EGot i r (Some v)) data ++ [EDrained i r data].
Proof. exact drain_solo'. Qed.
Print Assumptions bus_drain_exact_queueing.

Theorem bus_drain_never_waits_queueing : forall bufSize n sched i r,
  let tr := snd (lbus_exec bufSize n sched) in
  (i < n)%nat -> in_call i tr = Some (OpDrain r) ->
  exists d es, snd (lbus_exec bufSize n (sched ++ [LClient i d])) = tr ++ es /\
    ((exists v, In (EGot i r (Some v)) es) \/ exists data, In (EDrained i r data) es).
Proof. exact drain_progress'. Qed.
Print Assumptions bus_drain_never_waits_queueing.

Example bus_drain_queueing_case : let tr := snd (lbus_exec 1 2 (held Drop)) in
  idle 2 0 tr /\ made tr 0 "a" 0 Drop /\ (forall d, begun d 0 tr = verdicts d 0 tr) /\
  in_call 0 (snd (lbus_exec 1 2 (held Drop ++ [LCall 0 (OpDrain 0)]))) = Some (OpDrain 0).
Proof.
  cbn zeta. rewrite (proj1 bus_held_case). split; [|split; [exists 0%nat; right; left; reflexivity|split; [intros d; reflexivity|vm_compute; reflexivity]]].
  split; [lia|]. split; [reflexivity|]. split; intros H; cbn in H; intuition discriminate.
Qed.

(** C38.  If all receivers asked for use Drop, every New, Close of a receiver and Close of the bus under way returns
    under every fair schedule, or some Close panics. *)
Theorem bus_lock_calls_end : forall bufSize n sched f i o,
  let tr := snd (lbus_exec bufSize n sched) in
  fair tr f -> only_drop tr -> (i < n)%nat -> in_call i tr = Some o ->
  match o with OpNew _ _ _ | OpClose _ | OpBusClose => True | _ => False end ->
  exists k es, snd (lbus_exec bufSize n (sched ++ first k f)) = tr ++ es /\
    (close_panicked (tr ++ es) \/
     match o with
     | OpNew name cap st => exists r, In (EReg i r name cap st) es
     | OpClose r => In (ECloseReturns i r) es
     | _ => In (EBusClosed i) es
     end).
Proof. exact lock_calls_end. Qed.
Print Assumptions bus_lock_calls_end.

Example bus_lock_calls_case : let tr := snd (lbus_exec 1 2 (held Drop)) in
  only_drop tr /\ in_call 1 tr = Some (OpClose 0) /\ fair tr (every tr).
Proof.
  cbn zeta. rewrite (proj1 bus_held_case). split; [|split; [reflexivity|apply every_fair]]. intros i name cap st H. cbn in H. intuition congruence.
Qed.

(** C90.  Only a full Block receiver that nobody waits on stalls the bus.  When no dispatcher can move and no send, New,
    Close or bus Close can go on, then all is done, or a dispatcher is blocked on such a receiver - and whoever is in a
    call that receives from it can go on - or a Close has panicked. *)
Theorem bus_stalls_only_on_block : forall bufSize n sched,
  let s := fst (lbus_exec bufSize n sched) in let tr := snd (lbus_exec bufSize n sched) in
  ~ close_panicked tr -> at_rest s tr ->
  settled n tr \/
  exists d r, blocked_by d r tr /\ forall i o, (i < n)%nat -> in_call i tr = Some o -> receives o r -> exists q, lstep s (LClient i d) = Some q.
Proof. exact rest_cases. Qed.
Print Assumptions bus_stalls_only_on_block.

(** This state is reached under every fair schedule, and after a bounded number of moves, whatever else happens short of
    new calls. *)
Theorem bus_comes_to_rest : forall bufSize n sched f,
  let tr := snd (lbus_exec bufSize n sched) in fair tr f ->
  exists k, let s' := fst (lbus_exec bufSize n (sched ++ first k f)) in let tr' := snd (lbus_exec bufSize n (sched ++ first k f)) in
    at_rest s' tr' /\ (close_panicked tr' \/ settled n tr' \/ exists d r, blocked_by d r tr').
Proof. exact fair_settles. Qed.
Print Assumptions bus_comes_to_rest.

Theorem bus_work_is_bounded : forall bufSize n sched, exists N, forall sched', Forall no_call sched' ->
  (moves (works (snd (lbus_exec bufSize n sched))) (fst (lbus_exec bufSize n sched)) sched' <= N)%nat.
Proof. exact bounded_work. Qed.
Print Assumptions bus_work_is_bounded.

(** While a dispatcher has an event for a full Block receiver and nobody receives from it, nothing that needs the lock
    happens, whatever is scheduled and whatever else is called. *)
Theorem bus_stall_lasts : forall bufSize n sched d r sched',
  let tr := snd (lbus_exec bufSize n sched) in
  blocked_by d r tr -> (forall i o, (i < n)%nat -> in_call i tr = Some o -> ~ receives o r) -> Forall (leaves r) sched' ->
  exists es, snd (lbus_exec bufSize n (sched ++ sched')) = tr ++ es /\ forall e, In e es -> locked_event d e = false.
Proof. exact stall_lasts. Qed.
Print Assumptions bus_stall_lasts.

(** A goroutine that closes its own Block receiver while an event is being dispatched to it. *)
Definition self_close : list blabel :=
  [LCall 0 (OpNew "a" 0 Block); LClient 0 0; LClient 0 0; LCall 0 OpGo; LCall 0 (OpSend 5); LClient 0 0; LDisp 0 0 0; LDisp 0 0 0; LDisp 0 0 0;
   LCall 0 (OpClose 0); LClient 0 0].
Lemma self_close_trace : snd (lbus_exec 1 2 self_close) =
  [ECall 0 (OpNew "a" 0 Block); EReg 0 0 "a" 0 Block; ECall 0 OpGo; EGone 0; ECall 0 (OpSend 5); ESent 0 5; ETaken 0 5; EBegin 0 5 [0%nat]; ECall 0 (OpClose 0)].
Proof. vm_compute. reflexivity. Qed.

Lemma self_close_blocked : blocked_by 0 0 (snd (lbus_exec 1 2 self_close)).
Proof.
  rewrite self_close_trace. exists 5, "a", 0. split; [reflexivity|]. split; [|split; [exists 0%nat; right; left; reflexivity|]].
  - exists 0%nat, "a", 0, Block, [ECall 0 (OpNew "a" 0 Block)]. eexists. split; [reflexivity|]. split; [intros H; cbn in H; intuition discriminate|].
    intros i r cap st H. cbn in H. intuition discriminate.
  - split; [reflexivity|]. split; reflexivity.
Qed.

(** Such a Close does not return unless somebody else receives. *)
Theorem bus_self_close_refuted : exists bufSize n sched,
  let tr := snd (lbus_exec bufSize n sched) in
  in_call 0 tr = Some (OpClose 0) /\ made tr 0 "a" 0 Block /\
  forall sched', Forall (leaves 0) sched' -> ~ In (ECloseReturns 0 0) (snd (lbus_exec bufSize n (sched ++ sched'))).
Proof.
  exists 1, 2%nat, self_close. cbn zeta. split; [rewrite self_close_trace; reflexivity|]. split; [rewrite self_close_trace; exists 0%nat; right; left; reflexivity|].
  intros sched' HF. destruct (stall_lasts 1 2 self_close 0 0 sched' self_close_blocked) as (es & E & He); [|exact HF|].
  - rewrite self_close_trace. intros [|[|i]] o Hi H; cbn in H; [injection H as <-; intros [X|[X|X]]; discriminate X|discriminate H|clear H; lia].
  - rewrite E, self_close_trace. intros Hin. apply in_app_iff in Hin. destruct Hin as [Hin|Hin]; [cbn in Hin; intuition discriminate|]. specialize (He _ Hin). discriminate He.
Qed.
Print Assumptions bus_self_close_refuted.

Example bus_stall_case : let s := fst (lbus_exec 1 2 self_close) in let tr := snd (lbus_exec 1 2 self_close) in
  ~ close_panicked tr /\ at_rest s tr /\ blocked_by 0 0 tr /\ ~ settled 2 tr /\
  settled 2 (snd (lbus_exec 1 2 (self_close ++ [LCall 1 (OpDrain 0); LClient 1 0; LDisp 0 0 0; LClient 0 0]))).
Proof.
  cbn zeta. split; [rewrite self_close_trace; intros (i & H); cbn in H; intuition discriminate|]. split.
  { intros l Hw. destruct l as [| i d| |d k i]; try discriminate Hw.
    - destruct i as [|[|i]]; [vm_compute; reflexivity| |]; [vm_compute; reflexivity|]. vm_compute. destruct i; reflexivity.
    - destruct d as [|d]; [vm_compute; reflexivity|]. vm_compute. destruct d; reflexivity. }
  split; [exact self_close_blocked|]. split; [rewrite self_close_trace; intros (H & _); specialize (H 0%nat); discriminate H|].
  replace (snd (lbus_exec 1 2 (self_close ++ [LCall 1 (OpDrain 0); LClient 1 0; LDisp 0 0 0; LClient 0 0])))
    with (snd (lbus_exec 1 2 self_close) ++ [ECall 1 (OpDrain 0); EDelivered 0 0 5; EGot 1 0 (Some 5); EFinish 0 5; EClosedRecv 0; ECloseReturns 0 0]) by (vm_compute; reflexivity).
  rewrite self_close_trace. split; [|split].
  - intros [|d]; reflexivity.
  - intros [|[|i]] o Hi H; cbn in H; [discriminate H|injection H as <-; exact I|clear H; lia].
  - intros d _. split; [intros i H; cbn in H; intuition discriminate|]. split; [reflexivity|]. intros [|[|i]] v Hi; [discriminate..|lia].
Qed.

(** C91.  After the bus is closed, if all receivers asked for use Drop, every dispatcher goroutine ends under every fair
    schedule, or some Close panics: dispatchers are not leaked. *)
Theorem bus_close_ends_dispatchers : forall bufSize n sched f i,
  let tr := snd (lbus_exec bufSize n sched) in
  fair tr f -> only_drop tr -> In (EBusClosing i) tr ->
  exists k, let tr' := snd (lbus_exec bufSize n (sched ++ first k f)) in
    close_panicked tr' \/ (forall d, Z.of_nat d < dispatchers tr' -> In (EEnd d) tr').
Proof. exact dispatchers_end. Qed.
Print Assumptions bus_close_ends_dispatchers.

Definition closing_demo : list blabel :=
  [LCall 0 (OpNew "a" 0 Drop); LClient 0 0; LClient 0 0; LCall 0 OpGo; LCall 1 OpGo; LCall 0 (OpSend 5); LClient 0 0; LCall 1 OpBusClose].
Example bus_close_ends_case : let tr := snd (lbus_exec 1 2 closing_demo) in
  only_drop tr /\ In (EBusClosing 1) tr /\ dispatchers tr = 2 /\ fair tr (every tr) /\
  snd (lbus_exec 1 2 (closing_demo ++ [LClient 1 0; LDisp 0 0 0; LClient 1 0; LDisp 0 0 0; LDisp 0 0 0; LDisp 0 0 0; LDisp 1 0 0])) =
    tr ++ [ETaken 0 5; EClosedRecv 0; EBusClosed 1; EBegin 0 5 []; EFinish 0 5; EEnd 0; EEnd 1].
Proof.
  cbn zeta. split; [|split; [vm_compute; auto 20|split; [vm_compute; reflexivity|split; [apply every_fair|vm_compute; reflexivity]]]].
  replace (snd (lbus_exec 1 2 closing_demo)) with [ECall 0 (OpNew "a" 0 Drop); EReg 0 0 "a" 0 Drop; ECall 0 OpGo; EGone 0; ECall 1 OpGo; EGone 1; ECall 0 (OpSend 5); ESent 0 5; ECall 1 OpBusClose; EBusClosing 1] by (vm_compute; reflexivity).
  intros i name cap st H. cbn in H. intuition congruence.
Qed.
