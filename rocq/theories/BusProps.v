(** Property theorems for the event bus (C30-C37).  Every theorem is about all executions
    [bus_exec bufSize n sched]: [n] client goroutines, any number of dispatchers started by GoDispatch,
    any schedule. *)
From Verif Require Import Common Bytes Threads BusModel BusSpec BusProofs BusTrace BusLive.
Local Open Scope string_scope.
Local Open Scope list_scope.
Local Open Scope Z_scope.

(** C30.  No dispatcher ever panics (it would, sending on a closed channel). *)
Theorem bus_dispatch_never_panics : forall bufSize n sched d, ~ In (EDispPanic d) (snd (bus_exec bufSize n sched)).
Proof. exact no_disp_panic. Qed.
Print Assumptions bus_dispatch_never_panics.

(** A run that registers, dispatches and closes: receiver 0 with Drop and one place, receiver 1 with Block. *)
Definition demo : list blabel :=
  [LCall 0 (OpNew "a" 1 Drop); LClient 0 0; LCall 0 (OpNew "b" 0 Block); LClient 0 0; LCall 0 OpGo;
   LCall 0 (OpSend 5); LClient 0 0; LCall 0 (OpSend 6); LClient 0 0; LCall 1 (OpRecv 1); LClient 1 0;
   LDisp 0 0 0; LDisp 0 0 0; LDisp 0 0 0; LDisp 0 0 1; LDisp 0 0 0;
   LDisp 0 0 0; LDisp 0 0 0; LDisp 0 0 0; LDisp 0 0 0;
   LCall 1 (OpDrain 1); LClient 1 0; LClient 1 0; LDisp 0 0 0;
   LCall 0 (OpClose 1); LClient 0 0; LCall 0 OpBusClose; LClient 0 0; LCall 1 (OpDrain 0); LClient 1 0; LClient 1 0; LDisp 0 0 0].
Definition demo_trace : list bevent :=
  [ECall 0 (OpNew "a" 1 Drop); EReg 0 0 "a" 1 Drop; ECall 0 (OpNew "b" 0 Block); EReg 0 1 "b" 0 Block;
   ECall 0 OpGo; EGone 0; ECall 0 (OpSend 5); ESent 0 5; ECall 0 (OpSend 6); ESent 0 6; ECall 1 (OpRecv 1);
   EWaits 1 1; ETaken 0 5; EBegin 0 5 [0%nat; 1%nat]; EDelivered 0 0 5; EDelivered 0 1 5; EGot 1 1 (Some 5);
   EFinish 0 5; ETaken 0 6; EBegin 0 6 [0%nat; 1%nat]; EDropped 0 0 6; ECall 1 (OpDrain 1);
   EDelivered 0 1 6; EGot 1 1 (Some 6); EDrained 1 1 [6]; EFinish 0 6; ECall 0 (OpClose 1); EClosedRecv 1;
   ECloseReturns 0 1; ECall 0 OpBusClose; EBusClosing 0; EClosedRecv 0; EBusClosed 0; ECall 1 (OpDrain 0);
   EGot 1 0 (Some 5); EDrained 1 0 [5]; EEnd 0].
Example demo_runs : snd (bus_exec 2 2 demo) = demo_trace.
Proof. vm_compute. reflexivity. Qed.

(** C31.  What a dispatcher delivers to a receiver is a subsequence of what was sent, in the order of
    sending; with one dispatcher this is all that is delivered; with several, still no event is
    delivered more often than it was sent; and the receiver's users get the events in the order of
    delivery, at most the capacity of its channel being underway. *)
Theorem bus_delivers_in_order : forall bufSize n sched d r,
  let tr := snd (bus_exec bufSize n sched) in subseq (delivered d r tr) (sent tr).
Proof. exact order. Qed.
Print Assumptions bus_delivers_in_order.

Theorem bus_one_dispatcher_in_order : forall bufSize n sched r,
  let tr := snd (bus_exec bufSize n sched) in dispatchers tr <= 1 -> subseq (delivered_to r tr) (sent tr).
Proof. exact order_one. Qed.
Print Assumptions bus_one_dispatcher_in_order.

Theorem bus_no_duplicates : forall bufSize n sched r v,
  let tr := snd (bus_exec bufSize n sched) in count (Z.eqb v) (delivered_to r tr) <= count (Z.eqb v) (sent tr).
Proof. exact no_duplicates. Qed.
Print Assumptions bus_no_duplicates.

Theorem bus_receiver_fifo : forall bufSize n sched r,
  let tr := snd (bus_exec bufSize n sched) in
  exists rest, delivered_to r tr = got r tr ++ rest /\
    forall name cap st, made tr r name cap st -> Z.of_nat (length rest) <= cap.
Proof. exact receiver_fifo. Qed.
Print Assumptions bus_receiver_fifo.

Example bus_order_case : sent demo_trace = [5; 6] /\ delivered_to 0 demo_trace = [5] /\ delivered_to 1 demo_trace = [5; 6] /\
  delivered 0 1 demo_trace = [5; 6] /\ dispatchers demo_trace = 1 /\ got 1 demo_trace = [5; 6] /\ made demo_trace 0 "a" 1 Drop.
Proof. repeat (split; [reflexivity|]). exists 0%nat. right. left. reflexivity. Qed.

(** With two dispatchers the order can change. *)
Theorem bus_two_dispatchers_in_order_refuted :
  exists sched, let tr := snd (bus_exec 2 1 sched) in sent tr = [5; 6] /\ delivered_to 0 tr = [6; 5].
Proof.
  exists [LCall 0 (OpNew "a" 2 Drop); LClient 0 0; LCall 0 OpGo; LCall 0 OpGo; LCall 0 (OpSend 5); LClient 0 0; LCall 0 (OpSend 6); LClient 0 0;
          LDisp 0 0 0; LDisp 1 0 0; LDisp 1 0 0; LDisp 1 0 0; LDisp 0 0 0; LDisp 0 0 0].
  vm_compute. auto.
Qed.
Print Assumptions bus_two_dispatchers_in_order_refuted.

(** C32.  The dispatch of an event goes to exactly the receivers registered when it starts; a Block
    receiver gets all of them, except possibly the last while it is still being dispatched; an event is
    dropped only by a Drop receiver whose channel is full and for which nobody waits; receivers of
    either strategy get a verdict for every event. *)
Theorem bus_begin_targets : forall bufSize n sched pre d v targets post,
  snd (bus_exec bufSize n sched) = pre ++ EBegin d v targets :: post ->
  NoDup targets /\ forall r, In r targets <-> registered pre r.
Proof. exact begin_targets. Qed.
Print Assumptions bus_begin_targets.

Theorem bus_block_gets_all : forall bufSize n sched r name cap d,
  let tr := snd (bus_exec bufSize n sched) in made tr r name cap Block ->
  exists pend, begun d r tr = delivered d r tr ++ pend /\ (length pend <= 1)%nat.
Proof. exact block_gets_all. Qed.
Print Assumptions bus_block_gets_all.

Theorem bus_block_got_all_at_end : forall bufSize n sched r name cap pre d v post,
  snd (bus_exec bufSize n sched) = pre ++ EFinish d v :: post ->
  made (snd (bus_exec bufSize n sched)) r name cap Block -> begun d r pre = delivered d r pre.
Proof. exact block_finish. Qed.
Print Assumptions bus_block_got_all_at_end.

Theorem bus_every_event_settled : forall bufSize n sched pre d v post,
  snd (bus_exec bufSize n sched) = pre ++ EFinish d v :: post -> forall r, begun d r pre = verdicts d r pre.
Proof. exact finish_verdicts. Qed.
Print Assumptions bus_every_event_settled.

Theorem bus_drops_only_when_full : forall bufSize n sched pre d r v post,
  snd (bus_exec bufSize n sched) = pre ++ EDropped d r v :: post ->
  exists name cap, made pre r name cap Drop /\
    Z.of_nat (length (delivered_to r pre)) = Z.of_nat (length (got r pre)) + cap /\ forall i, waiting i r pre = false.
Proof. exact drop_full. Qed.
Print Assumptions bus_drops_only_when_full.

Example bus_loss_case : exists pre post pre' post',
  demo_trace = pre ++ EDropped 0 0 6 :: post /\ demo_trace = pre' ++ EFinish 0 6 :: post' /\
  made demo_trace 1 "b" 0 Block /\ begun 0 1 pre' = [5; 6] /\ verdicts 0 0 pre' = [5; 6] /\ delivered 0 0 pre' = [5] /\
  delivered_to 0 pre = [5] /\ got 0 pre = [].
Proof.
  exists (firstn 20 demo_trace), (skipn 21 demo_trace), (firstn 25 demo_trace), (skipn 26 demo_trace).
  repeat (split; [reflexivity|]). split; [exists 0%nat; right; right; right; left; reflexivity|]. vm_compute. auto 10.
Qed.

(** C34.  Closing the bus closes every receiver except those whose name was given to another receiver;
    afterwards none is registered.  Nothing is offered to a receiver, nor is it closed, unless it is
    registered and has not been closed before; once it is not registered any more this remains so.  The
    bus can be closed once. *)
Theorem bus_close_closes_all : forall bufSize n sched pre i post,
  snd (bus_exec bufSize n sched) = pre ++ EBusClosed i :: post ->
  (forall r, ~ registered pre r) /\
  forall r name cap st, made pre r name cap st ->
    In (EClosedRecv r) pre \/
    exists a j b j' r' cap' st', pre = a ++ EReg j r name cap st :: b /\ In (EReg j' r' name cap' st') b.
Proof.
  exact (fun bufSize n sched pre i post E =>
    conj (fun r => close_leaves_none bufSize n sched pre i post r E)
         (fun r name cap st => close_closes_all bufSize n sched pre i post r name cap st E)).
Qed.
Print Assumptions bus_close_closes_all.

Theorem bus_closed_receiver_left_alone : forall bufSize n sched pre e post r,
  snd (bus_exec bufSize n sched) = pre ++ e :: post -> concerns r e -> registered pre r /\ ~ In (EClosedRecv r) pre.
Proof. exact concerns_registered. Qed.
Print Assumptions bus_closed_receiver_left_alone.

Theorem bus_unregistered_for_ever : forall bufSize n sched t p e q r name cap st,
  snd (bus_exec bufSize n sched) = t ++ p ++ e :: q -> made t r name cap st -> ~ registered t r -> ~ concerns r e.
Proof. exact orphan_left_alone. Qed.
Print Assumptions bus_unregistered_for_ever.

Theorem bus_closes_once : forall bufSize n sched,
  let tr := snd (bus_exec bufSize n sched) in
  (forall pre i post, tr = pre ++ EBusClosing i :: post -> forall j, ~ In (EBusClosing j) pre) /\
  forall i j, In (EBusClosing j) tr -> idle n i tr ->
    snd (bus_exec bufSize n (sched ++ [LCall i OpBusClose])) = tr ++ [ECall i OpBusClose; EClientPanic i] /\
    forall v, snd (bus_exec bufSize n (sched ++ [LCall i (OpSend v); LClient i 0])) = tr ++ [ECall i (OpSend v); EClientPanic i].
Proof.
  exact (fun bufSize n sched => conj (closing_once bufSize n sched) (second_close bufSize n sched)).
Qed.
Print Assumptions bus_closes_once.

Example bus_close_case : exists pre post, demo_trace = pre ++ EBusClosed 0 :: post /\ made pre 0 "a" 1 Drop /\
  In (EBusClosing 0) demo_trace /\ idle 2 0 demo_trace.
Proof.
  exists (firstn 32 demo_trace), (skipn 33 demo_trace). split; [reflexivity|]. split; [exists 0%nat; right; left; reflexivity|].
  split; [cbn; tauto|]. split; [lia|]. split; [reflexivity|]. split; cbn; intuition discriminate.
Qed.

(** Closing does not reach a receiver whose name was taken by another one, nor one made after the
    closing; and an event still in the bus's own channel is lost by closing. *)
Theorem bus_close_closes_all_refuted :
  (exists sched, let tr := snd (bus_exec 0 1 sched) in
     made tr 0 "a" 1 Drop /\ In (EBusClosed 0) tr /\ ~ In (EClosedRecv 0) tr /\
     forall sched', ~ In (EClosedRecv 0) (snd (bus_exec 0 1 (sched ++ sched')))) /\
  (exists sched, let tr := snd (bus_exec 0 1 sched) in
     In (EBusClosed 0) tr /\ registered tr 0 /\ ~ In (EClosedRecv 0) tr) /\
  (exists sched, let tr := snd (bus_exec 1 1 sched) in
     sent tr = [5] /\ In (EBegin 0 5 []) tr /\ In (EEnd 0) tr /\ made tr 0 "a" 1 Block /\ delivered_to 0 tr = []).
Proof.
  split; [|split].
  - set (sched := [LCall 0 (OpNew "a" 1 Drop); LClient 0 0; LCall 0 (OpNew "a" 1 Drop); LClient 0 0; LCall 0 OpBusClose; LClient 0 0]).
    set (tr := [ECall 0 (OpNew "a" 1 Drop); EReg 0 0 "a" 1 Drop; ECall 0 (OpNew "a" 1 Drop); EReg 0 1 "a" 1 Drop; ECall 0 OpBusClose;
                EBusClosing 0; EClosedRecv 1; EBusClosed 0]).
    assert (E : snd (bus_exec 0 1 sched) = tr) by (vm_compute; reflexivity).
    assert (Hn : ~ registered tr 0%nat).
    { intros Hr. apply (close_leaves_none 0 1 sched (firstn 7 tr) 0 [] 0%nat); [rewrite E; reflexivity|].
      apply registered_regn in Hr. destruct Hr as (nm & Hr). change tr with (firstn 7 tr ++ [EBusClosed 0]) in Hr.
      apply regn_neutral in Hr; [|reflexivity]. apply registered_regn. exists nm. exact Hr. }
    assert (Hm : made tr 0 "a" 1 Drop) by (exists 0%nat; right; left; reflexivity).
    assert (Hc : ~ In (EClosedRecv 0) tr) by (cbn; intuition discriminate).
    exists sched. cbn zeta. rewrite E. split; [exact Hm|]. split; [cbn; tauto|]. split; [exact Hc|].
    intros sched' Hin. rewrite exec_continue in Hin. cbn [snd] in Hin. rewrite E in Hin. apply in_app_iff in Hin. destruct Hin as [Hin|Hin]; [auto|].
    apply in_split in Hin. destruct Hin as (p & q & Ep).
    apply (orphan_left_alone 0 1 (sched ++ sched') tr p (EClosedRecv 0) q 0 "a" 1 Drop); [|exact Hm|exact Hn|reflexivity].
    rewrite exec_continue. cbn [snd]. rewrite E, Ep. reflexivity.
  - exists [LCall 0 OpBusClose; LClient 0 0; LCall 0 (OpNew "a" 1 Drop); LClient 0 0].
    assert (E : snd (bus_exec 0 1 [LCall 0 OpBusClose; LClient 0 0; LCall 0 (OpNew "a" 1 Drop); LClient 0 0]) =
      [ECall 0 OpBusClose; EBusClosing 0; EBusClosed 0; ECall 0 (OpNew "a" 1 Drop); EReg 0 0 "a" 1 Drop]) by (vm_compute; reflexivity).
    cbn zeta. rewrite E. split; [cbn; tauto|]. split; [|cbn; intuition discriminate].
    exists 0%nat, "a", 1, Drop, [ECall 0 OpBusClose; EBusClosing 0; EBusClosed 0; ECall 0 (OpNew "a" 1 Drop)], [].
    split; [reflexivity|]. split; intros; intros [].
  - exists [LCall 0 (OpNew "a" 1 Block); LClient 0 0; LCall 0 OpGo; LCall 0 (OpSend 5); LClient 0 0; LCall 0 OpBusClose; LClient 0 0;
            LDisp 0 0 0; LDisp 0 0 0; LDisp 0 0 0; LDisp 0 0 0].
    cbn zeta. match goal with |- context [bus_exec 1 1 ?s] => set (sched := s) end.
    assert (E : snd (bus_exec 1 1 sched) = [ECall 0 (OpNew "a" 1 Block); EReg 0 0 "a" 1 Block; ECall 0 OpGo; EGone 0; ECall 0 (OpSend 5);
      ESent 0 5; ECall 0 OpBusClose; EBusClosing 0; EClosedRecv 0; EBusClosed 0; ETaken 0 5; EBegin 0 5 []; EFinish 0 5; EEnd 0]) by (vm_compute; reflexivity).
    rewrite E. split; [reflexivity|]. split; [cbn; tauto|]. split; [cbn; tauto|]. split; [exists 0%nat; right; left; reflexivity|reflexivity].
Qed.
Print Assumptions bus_close_closes_all_refuted.

(** C35.  A Close that returns has closed exactly one receiver, of the same name: this one if it was
    registered; all others remain as they were.  A Close panics only if the receiver is not registered. *)
Theorem bus_receiver_close : forall bufSize n sched pre i r post,
  snd (bus_exec bufSize n sched) = pre ++ ECloseReturns i r :: post ->
  exists pre' r' name cap st cap' st', pre = pre' ++ [EClosedRecv r'] /\ made pre' r name cap st /\ made pre' r' name cap' st' /\
    (registered pre' r -> r' = r) /\ forall q, registered pre q <-> registered pre' q /\ q <> r'.
Proof. exact close_returns. Qed.
Print Assumptions bus_receiver_close.

Theorem bus_close_panic_cause : forall bufSize n sched pre i post,
  snd (bus_exec bufSize n sched) = pre ++ EClosePanic i :: post ->
  exists r, in_call i pre = Some (OpClose r) /\ ~ registered pre r.
Proof. exact close_panic. Qed.
Print Assumptions bus_close_panic_cause.

(** After a panicking Close the lock is never released. *)
Theorem bus_stuck_after_close_panic : forall bufSize n sched pre e post,
  snd (bus_exec bufSize n sched) = pre ++ e :: post -> close_panicked pre ->
  match e with EBegin _ _ _ | EReg _ _ _ _ _ | EClosedRecv _ | ECloseReturns _ _ | EBusClosed _ | EClosePanic _ => False | _ => True end.
Proof. exact stuck_for_ever. Qed.
Print Assumptions bus_stuck_after_close_panic.

Example bus_receiver_close_case : exists pre post, demo_trace = pre ++ ECloseReturns 0 1 :: post.
Proof. exists (firstn 28 demo_trace), (skipn 29 demo_trace). reflexivity. Qed.

(** A receiver whose name was taken closes the other one; closing twice panics, and the bus is stuck. *)
Theorem bus_receiver_close_refuted :
  (exists sched, let tr := snd (bus_exec 0 1 sched) in
     made tr 0 "a" 1 Drop /\ made tr 1 "a" 1 Drop /\ In (ECloseReturns 0 0) tr /\ ~ In (EClosedRecv 0) tr /\ In (EClosedRecv 1) tr) /\
  (exists sched, let tr := snd (bus_exec 0 2 sched) in
     made tr 0 "a" 1 Drop /\ In (ECloseReturns 0 0) tr /\ close_panicked tr).
Proof.
  split.
  - exists [LCall 0 (OpNew "a" 1 Drop); LClient 0 0; LCall 0 (OpNew "a" 1 Drop); LClient 0 0; LCall 0 (OpClose 0); LClient 0 0].
    cbn zeta. match goal with |- context [bus_exec 0 1 ?s] => set (sched := s) end.
    assert (E : snd (bus_exec 0 1 sched) = [ECall 0 (OpNew "a" 1 Drop); EReg 0 0 "a" 1 Drop; ECall 0 (OpNew "a" 1 Drop); EReg 0 1 "a" 1 Drop;
      ECall 0 (OpClose 0); EClosedRecv 1; ECloseReturns 0 0]) by (vm_compute; reflexivity).
    rewrite E. split; [exists 0%nat; right; left; reflexivity|]. split; [exists 0%nat; right; right; right; left; reflexivity|].
    split; [cbn; tauto|]. split; cbn; intuition discriminate.
  - exists [LCall 0 (OpNew "a" 1 Drop); LClient 0 0; LCall 0 (OpClose 0); LClient 0 0; LCall 0 (OpClose 0); LClient 0 0].
    cbn zeta. match goal with |- context [bus_exec 0 2 ?s] => set (sched := s) end.
    assert (E : snd (bus_exec 0 2 sched) = [ECall 0 (OpNew "a" 1 Drop); EReg 0 0 "a" 1 Drop;
      ECall 0 (OpClose 0); EClosedRecv 0; ECloseReturns 0 0; ECall 0 (OpClose 0); EClosePanic 0]) by (vm_compute; reflexivity).
    rewrite E. split; [exists 0%nat; right; left; reflexivity|]. split; [cbn; tauto|]. exists 0%nat. cbn. tauto.
Qed.
Print Assumptions bus_receiver_close_refuted.

(** C36.  Drain, when no dispatcher has an event for the receiver underway, returns exactly the events
    delivered and not yet taken, in order, whether the receiver is closed or not; in all cases it returns
    what it took, a part of the delivered events in order, leaves the channel empty, and never waits. *)
Theorem bus_drain_exact : forall bufSize n sched i r name cap st,
  let tr := snd (bus_exec bufSize n sched) in
  idle n i tr -> made tr r name cap st -> (forall d, begun d r tr = verdicts d r tr) ->
  exists data k, delivered_to r tr = got r tr ++ data /\
    snd (bus_exec bufSize n (sched ++ LCall i (OpDrain r) :: repeat (LClient i 0) k)) =
      tr ++ ECall i (OpDrain r) :: map (fun v => EGot i r (Some v)) data ++ [EDrained i r data].
Proof. exact drain_solo. Qed.
Print Assumptions bus_drain_exact.

Theorem bus_drain_returns : forall bufSize n sched pre i r data post,
  snd (bus_exec bufSize n sched) = pre ++ EDrained i r data :: post ->
  received i pre = map Some data /\ delivered_to r pre = got r pre /\ subseq data (got r pre).
Proof.
  exact (fun bufSize n sched pre i r data post E =>
    let (A, B) := drained_data bufSize n sched pre i r data post E in
    conj A (conj B (returned_from bufSize n sched pre (EDrained i r data) post E))).
Qed.
Print Assumptions bus_drain_returns.

Theorem bus_drain_never_waits : forall bufSize n sched i r,
  let tr := snd (bus_exec bufSize n sched) in
  (i < n)%nat -> in_call i tr = Some (OpDrain r) ->
  exists d es, snd (bus_exec bufSize n (sched ++ [LClient i d])) = tr ++ es /\
    ((exists v, In (EGot i r (Some v)) es) \/ exists data, In (EDrained i r data) es).
Proof. exact drain_progress. Qed.
Print Assumptions bus_drain_never_waits.

Example bus_drain_case : let tr := firstn 33 demo_trace in
  idle 2 1 tr /\ made tr 0 "a" 1 Drop /\ (forall d, begun d 0 tr = verdicts d 0 tr) /\ delivered_to 0 tr = got 0 tr ++ [5] /\
  In (EClosedRecv 0) tr /\ in_call 1 (firstn 34 demo_trace) = Some (OpDrain 0).
Proof.
  cbn zeta. split; [split; [lia|]; split; [reflexivity|]; split; cbn; intuition discriminate|].
  split; [exists 0%nat; right; left; reflexivity|]. split; [intros [|d]; reflexivity|]. split; [reflexivity|]. split; [cbn; tauto|reflexivity].
Qed.

(** C37.  CollectTimeout returns what it took from the receiver: a part of the delivered events in order,
    and a nil for each time it found the receiver closed and empty. *)
Theorem bus_collect_returns : forall bufSize n sched pre i r data post,
  snd (bus_exec bufSize n sched) = pre ++ ECollected i r data :: post ->
  received i pre = data /\ subseq (somes data) (got r pre).
Proof.
  exact (fun bufSize n sched pre i r data post E =>
    conj (collected_data bufSize n sched pre i r data post E) (returned_from bufSize n sched pre (ECollected i r data) post E)).
Qed.
Print Assumptions bus_collect_returns.

Theorem bus_nil_only_after_close : forall bufSize n sched pre i r post,
  snd (bus_exec bufSize n sched) = pre ++ EGot i r None :: post -> In (EClosedRecv r) pre /\ got r pre = delivered_to r pre.
Proof. exact got_none. Qed.
Print Assumptions bus_nil_only_after_close.

(** So it does not only return published events. *)
Theorem bus_collect_refuted : exists sched, let tr := snd (bus_exec 0 1 sched) in
  sent tr = [] /\ In (ECollected 0 0 [None; None]) tr.
Proof.
  exists [LCall 0 (OpNew "a" 1 Drop); LClient 0 0; LCall 0 (OpClose 0); LClient 0 0; LCall 0 (OpCollect 0); LClient 0 0; LClient 0 0; LTimeout 0].
  vm_compute. tauto.
Qed.
Print Assumptions bus_collect_refuted.

Example bus_collect_case : exists sched pre post, snd (bus_exec 1 2 sched) = pre ++ ECollected 1 0 [Some 5; Some 6; None] :: post /\
  exists pre' post', snd (bus_exec 1 2 sched) = pre' ++ EGot 1 0 None :: post'.
Proof.
  exists [LCall 0 (OpNew "a" 1 Block); LClient 0 0; LCall 0 OpGo; LCall 1 (OpCollect 0); LCall 0 (OpSend 5); LClient 0 0; LDisp 0 0 0; LDisp 0 0 0; LDisp 0 0 0;
          LDisp 0 0 0; LClient 1 0; LClient 1 0; LCall 0 (OpSend 6); LClient 0 0; LDisp 0 0 0; LDisp 0 0 0; LDisp 0 0 1; LDisp 0 0 0;
          LCall 0 (OpClose 0); LClient 0 0; LClient 1 0; LTimeout 1].
  match goal with |- context [bus_exec 1 2 ?s] => set (sched := s) end.
  exists (firstn 24 (snd (bus_exec 1 2 sched))), []. split; [vm_compute; reflexivity|].
  exists (firstn 23 (snd (bus_exec 1 2 sched))), (skipn 24 (snd (bus_exec 1 2 sched))). vm_compute. reflexivity.
Qed.
