(** C117: the event bus with one step for each access to the map and each close of a channel. *)
From Verif Require Import Common Bytes Threads BusModel BusSpec BusFineModel BusFineSpec BusFineTrace.
Local Open Scope string_scope.
Local Open Scope list_scope.
Local Open Scope Z_scope.

(** C117.  Every history is explained by instants: NewRecvStrategy, Receiver.Close and FanOutBus.Close each take effect
    at one instant, before which nothing of the effect and after which, until the return, only certain events of other
    goroutines can be seen; with the effects at these instants it is a history of the bus whose critical sections are
    single steps (C30-C37). *)
Theorem bus_critical_sections_atomic : forall bufSize n sched,
  exists tr p sched', seen tr = snd (fbus_exec bufSize n sched) /\ effects tr = snd (bus_exec bufSize n sched') /\ delayed tr p.
Proof. exact fine_explained. Qed.
Print Assumptions bus_critical_sections_atomic.

(** No data races on the map of the receivers, *)
Theorem bus_no_races : forall bufSize n sched, ~ race (fst (fbus_exec bufSize n sched)).
Proof. exact fine_no_race. Qed.
Print Assumptions bus_no_races.

(** and the map does not change while a dispatcher is in its loop over it. *)
Theorem bus_loop_undisturbed : forall bufSize n sched l s1 es d, in_loop (fst (fbus_exec bufSize n sched)) d ->
  fbstep (fst (fbus_exec bufSize n sched)) l = Some (s1, es) ->
  b_map (f_bus s1) = b_map (f_bus (fst (fbus_exec bufSize n sched))).
Proof. exact fine_loop_stable. Qed.
Print Assumptions bus_loop_undisturbed.

(** The goroutine that holds the write lock gets on by itself: after at most three steps for every receiver and four
    more it has released the lock, unless its Close has panicked. *)
Theorem bus_lock_comes_free : forall bufSize n sched i,
  f_lock (fst (fbus_exec bufSize n sched)) = Some i -> ~ In (EClosePanic i) (snd (fbus_exec bufSize n sched)) ->
  exists k, (k <= 3 * length (b_map (f_bus (fst (fbus_exec bufSize n sched)))) + 4)%nat /\
    let '(s, tr) := fbus_exec bufSize n (sched ++ repeat (LClient i 0) k) in f_lock s = None \/ In (EClosePanic i) tr.
Proof. exact fine_lock_free. Qed.
Print Assumptions bus_lock_comes_free.

(** The guarantees, for these histories: dispatchers do not panic, *)
Theorem bus_fine_dispatch_never_panics : forall bufSize n sched d, ~ In (EDispPanic d) (snd (fbus_exec bufSize n sched)).
Proof. exact fine_no_disp_panic. Qed.
Print Assumptions bus_fine_dispatch_never_panics.

(** events are delivered in order, at most once each, and taken out in the order of delivery, *)
Theorem bus_fine_delivers_in_order : forall bufSize n sched d r,
  let tr := snd (fbus_exec bufSize n sched) in
  subseq (delivered d r tr) (sent tr) /\ (dispatchers tr <= 1 -> subseq (delivered_to r tr) (sent tr)) /\
  forall v, count (Z.eqb v) (delivered_to r tr) <= count (Z.eqb v) (sent tr).
Proof.
  exact (fun bufSize n sched d r => conj (fine_order bufSize n sched d r)
    (conj (fine_order_one bufSize n sched r) (fine_no_duplicates bufSize n sched r))).
Qed.
Print Assumptions bus_fine_delivers_in_order.

Theorem bus_fine_receiver_fifo : forall bufSize n sched r,
  let tr := snd (fbus_exec bufSize n sched) in
  exists rest, delivered_to r tr = got r tr ++ rest /\
    forall name cap st, made tr r name cap st -> Z.of_nat (length rest) <= cap.
Proof. exact fine_fifo. Qed.
Print Assumptions bus_fine_receiver_fifo.

(** nothing is offered to a receiver after its channel was closed, nor is it closed again, *)
Theorem bus_fine_closed_left_alone : forall bufSize n sched pre e post r,
  snd (fbus_exec bufSize n sched) = pre ++ e :: post -> concerns r e -> ~ In (EClosedRecv r) pre.
Proof. exact fine_closed_left_alone. Qed.
Print Assumptions bus_fine_closed_left_alone.

(** and when FanOutBus.Close returns, every receiver handed out before is closed, or its name was given to another. *)
Theorem bus_fine_close_closes_all : forall bufSize n sched pre i post r name cap st,
  snd (fbus_exec bufSize n sched) = pre ++ EBusClosed i :: post -> made pre r name cap st ->
  In (EClosedRecv r) pre \/
  exists a j b j' r' cap' st', pre = a ++ EReg j r name cap st :: b /\ In (EReg j' r' name cap' st') b.
Proof. exact fine_close_closes_all. Qed.
Print Assumptions bus_fine_close_closes_all.

(** Goroutine 1 closes the bus; between its steps goroutine 0 starts to wait for receiver 1 and goroutine 2 tries to
    make a receiver. *)
Definition go (i k : nat) : list blabel := repeat (LClient i 0) k.
Definition interleaved : list blabel :=
  [LCall 0 (OpNew "a" 1 Drop)] ++ go 0 3 ++ [LCall 0 (OpNew "b" 1 Drop)] ++ go 0 3 ++ [LCall 1 OpBusClose] ++ go 1 3 ++
  [LCall 0 (OpRecv 1)] ++ go 0 1 ++ [LCall 2 (OpNew "c" 1 Drop)] ++ go 2 2 ++ go 1 3 ++ go 0 1 ++ go 1 3 ++ go 2 3.
Definition interleaved_trace : list bevent :=
  [ECall 0 (OpNew "a" 1 Drop); EReg 0 0 "a" 1 Drop; ECall 0 (OpNew "b" 1 Drop); EReg 0 1 "b" 1 Drop; ECall 1 OpBusClose; EBusClosing 1;
   EClosedRecv 0; ECall 0 (OpRecv 1); EWaits 0 1; ECall 2 (OpNew "c" 1 Drop); EClosedRecv 1; EGot 0 1 None; EBusClosed 1;
   EReg 2 2 "c" 1 Drop].
Example interleaved_runs : snd (fbus_exec 1 3 interleaved) = interleaved_trace.
Proof. vm_compute. reflexivity. Qed.

(** In the explanation both receivers are closed when the first one is seen to be. *)
Example interleaved_explained : exists tr, seen tr = interleaved_trace /\ delayed tr None /\
  effects tr = [ECall 0 (OpNew "a" 1 Drop); EReg 0 0 "a" 1 Drop; ECall 0 (OpNew "b" 1 Drop); EReg 0 1 "b" 1 Drop; ECall 1 OpBusClose; EBusClosing 1;
     EClosedRecv 0; EClosedRecv 1; EBusClosed 1; ECall 0 (OpRecv 1); ECall 2 (OpNew "c" 1 Drop); EGot 0 1 None; EReg 2 2 "c" 1 Drop].
Proof.
  exists [Both (ECall 0 (OpNew "a" 1 Drop)); Takes (EReg 0 0 "a" 1 Drop); Seen (EReg 0 0 "a" 1 Drop);
    Both (ECall 0 (OpNew "b" 1 Drop)); Takes (EReg 0 1 "b" 1 Drop); Seen (EReg 0 1 "b" 1 Drop); Both (ECall 1 OpBusClose); Both (EBusClosing 1);
    Takes (EClosedRecv 0); Takes (EClosedRecv 1); Takes (EBusClosed 1); Seen (EClosedRecv 0); Both (ECall 0 (OpRecv 1)); Seen (EWaits 0 1);
    Both (ECall 2 (OpNew "c" 1 Drop)); Seen (EClosedRecv 1); Both (EGot 0 1 None); Seen (EBusClosed 1); Takes (EReg 2 2 "c" 1 Drop);
    Seen (EReg 2 2 "c" 1 Drop)].
  split; [reflexivity|]. split; [|reflexivity].
  pose proof delayed_nil as D.
  apply (delayed_free _ (ECall 0 (OpNew "a" 1 Drop))) in D; [|exact (fun f => f)].
  apply (delayed_takes _ [] 0 (EReg 0 0 "a" 1 Drop)) in D; [|reflexivity|constructor]. apply delayed_returns in D.
  apply (delayed_free _ (ECall 0 (OpNew "b" 1 Drop))) in D; [|exact (fun f => f)].
  apply (delayed_takes _ [] 0 (EReg 0 1 "b" 1 Drop)) in D; [|reflexivity|constructor]. apply delayed_returns in D.
  apply (delayed_free _ (ECall 1 OpBusClose)) in D; [|exact (fun f => f)]. apply (delayed_free _ (EBusClosing 1)) in D; [|exact (fun f => f)].
  apply (delayed_takes _ [0; 1]%nat 1 (EBusClosed 1)) in D; [|reflexivity|repeat constructor; cbn; intuition discriminate].
  apply (delayed_closes _ [] 0%nat [1%nat]) in D. apply (delayed_beside _ _ _ _ (ECall 0 (OpRecv 1))) in D; [|discriminate].
  apply (delayed_waits _ _ _ _ 0%nat 1%nat) in D; [|left; reflexivity|discriminate].
  apply (delayed_beside _ _ _ _ (ECall 2 (OpNew "c" 1 Drop))) in D; [|discriminate].
  apply (delayed_closes _ [] 1%nat []) in D. apply (delayed_beside _ _ _ _ (EGot 0 1 None)) in D; [|discriminate]. apply delayed_returns in D.
  apply (delayed_takes _ [] 2 (EReg 2 2 "c" 1 Drop)) in D; [|reflexivity|constructor]. apply delayed_returns in D. exact D.
Qed.

(** In the middle of FanOutBus.Close the lock is held and both receivers are in the map. *)
Example lock_held_case :
  let s := fst (fbus_exec 1 3 (firstn 12 interleaved)) in
  f_lock s = Some 1%nat /\ ~ In (EClosePanic 1) (snd (fbus_exec 1 3 (firstn 12 interleaved))) /\
  nth_error (f_in s) 1 = Some (Some (WDelNext "a" 0)) /\ length (b_map (f_bus s)) = 2%nat /\
  f_lock (fst (fbus_exec 1 3 (firstn 12 interleaved ++ go 1 6))) = None.
Proof. vm_compute. repeat split; try reflexivity. intuition discriminate. Qed.

Example close_case : exists pre post, interleaved_trace = pre ++ EBusClosed 1 :: post /\ made pre 1 "b" 1 Drop /\ In (EClosedRecv 1) pre.
Proof.
  exists (firstn 12 interleaved_trace), [EReg 2 2 "c" 1 Drop]. split; [reflexivity|]. split; [exists 0%nat|]; vm_compute; tauto.
Qed.
Example closed_case : exists pre post, interleaved_trace = pre ++ EClosedRecv 1 :: post /\ concerns 1 (EClosedRecv 1) /\ In (EClosedRecv 0) pre.
Proof. exists (firstn 10 interleaved_trace), (skipn 11 interleaved_trace). split; [reflexivity|]. split; [reflexivity|]. vm_compute. tauto. Qed.

(** A dispatcher is in its loop while goroutine 0 waits for the lock; it delivers the event it has taken. *)
Definition in_the_loop : list blabel :=
  [LCall 0 (OpNew "a" 1 Drop)] ++ go 0 3 ++ [LCall 0 OpGo; LCall 0 (OpSend 7)] ++ go 0 1 ++ [LDisp 0 0 0; LDisp 0 0 0; LCall 0 (OpClose 0)] ++ go 0 1.
Example loop_case :
  in_loop (fst (fbus_exec 1 1 in_the_loop)) 0 /\ f_lock (fst (fbus_exec 1 1 in_the_loop)) = None /\
  fbstep (fst (fbus_exec 1 1 in_the_loop)) (LClient 0 0) = None /\
  fbstep (fst (fbus_exec 1 1 in_the_loop)) (LDisp 0 0 0) <> None /\
  let tr := snd (fbus_exec 1 1 (in_the_loop ++ [LDisp 0 0 0; LDisp 0 0 0] ++ go 0 5)) in
  delivered 0 0 tr = [7] /\ sent tr = [7] /\ dispatchers tr = 1 /\ In (ECloseReturns 0 0) tr.
Proof. vm_compute. split; [exact I|]. repeat split; try reflexivity; [discriminate|tauto]. Qed.

(** Without the lock there would be a race. *)
Example race_case : race (FBus (Bus 1 [] false [("a", 0%nat)] [] [DIter 5 [0%nat]] [CClose 0] false) None [Some (WDel 0)]).
Proof. exists (Client 0), (Dispatcher 0), true, false. repeat split; [discriminate|left; reflexivity]. Qed.
