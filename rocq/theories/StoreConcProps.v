(** Property theorems for the config store under concurrency, several processes over one Redis hash (C92-C96). *)
From Coq Require Import Permutation.
From Verif Require Import Common Bytes Threads StoreModel StoreSpec StoreProofs StoreProps.
From Verif Require Import StoreConcModel StoreConcSpec StoreConcProofs StoreConcFresh StoreConcWrites.
Local Open Scope string_scope.
Local Open Scope list_scope.

(** For the examples: goroutine [t] goes on [m] times, at time [z]. *)
Definition go (t m : nat) (z : Z) : list (clabel Z) := repeat (CStep t z) m.
(** Registers key "a" with default "x" in the first two stores. *)
Definition registered : list (clabel Z) :=
  CCall 0 0 (ORegister "a" "x" (Some short)) :: go 0 9 1 ++ CCall 0 1 (ORegister "a" "x" (Some short)) :: go 0 9 1.

Lemma as_is_order : any_order as_is.
Proof. intros m l. apply Permutation_refl. Qed.

(** C92.  No two goroutines are ever about to access the same map of a store, or the time of its last load,
    with one of them writing. *)
Theorem store_no_races : forall V ok ord h pols n sched,
  ~ race (fst (@conc_exec V ok ord h pols n sched)).
Proof. exact @conc_race_free. Qed.
Print Assumptions store_no_races.

(** Two goroutines are about to write maps at the same time, of different stores: not a race. *)
Example store_no_races_case :
  let w := fst (conc_exec always as_is [] [PolNoop; PolNoop] 2
    (registered ++ CCall 0 0 (OUpdateNoPersist "a" "b") :: CCall 1 1 (OReset "a") :: go 0 6 1 ++ go 1 2 1)) in
  about_to w 0 0 MKv true /\ about_to w 1 1 MKv true.
Proof.
  split; [exists (Thread 0 (Some (OUpdateNoPersist "a" "b")) [IWrite short "a" "b"; IUnlock KvLock;
    IReturn (fun g => RKVErr (hd_error (g_errs g)))] regs0), (IWrite short "a" "b"); eexists
  |exists (Thread 1 (Some (OReset "a")) [IClear "a"; IDelete "a"; IUnlock KvLock; IReturn (fun _ => RDone)] regs0), (IClear "a"); eexists];
  (split; [reflexivity|]; split; [reflexivity|]; split; [reflexivity|]; left; reflexivity).
Qed.

(** C93.  While a call is under way, some goroutine can go on; what is left to do without new calls is bounded;
    and if every goroutine gets its turn again and again, all calls return. *)
Theorem store_no_deadlock : forall V ok ord h pols n sched t c,
  let r := @conc_exec V ok ord h pols n sched in
  calling t (snd r) = Some c ->
  exists u, (u < n)%nat /\ forall now, exists q, cstep ok ord (fst r) (CStep u now) = Some q.
Proof. exact @conc_some_goes. Qed.
Print Assumptions store_no_deadlock.

Theorem store_bounded_work : forall V ok ord h pols n sched, any_order ord ->
  exists N, forall sched', Forall no_calls sched' ->
  (carried_out (cstep ok ord) (fst (@conc_exec V ok ord h pols n sched)) sched' <= N)%nat.
Proof. exact @conc_bounded. Qed.
Print Assumptions store_bounded_work.

Theorem store_calls_return : forall V ok ord h pols n sched f, any_order ord -> fair_steps n f ->
  exists m, forall t, calling t (snd (@conc_exec V ok ord h pols n (sched ++ prefix m f))) = None.
Proof. exact @conc_all_return. Qed.
Print Assumptions store_calls_return.

(** A goroutine that waits for a lock cannot go on, the one that holds it can. *)
Example store_progress_case :
  let r := conc_exec always as_is [] [PolNoop] 2
    (CCall 0 0 (ORegister "a" "x" (Some short)) :: CCall 1 0 (OGet "a") :: go 0 3 1) in
  calling 1 (snd r) = Some (0%nat, OGet "a") /\ cstep always as_is (fst r) (CStep 1 1) = None /\
  (exists q, cstep always as_is (fst r) (CStep 0 1) = Some q).
Proof. split; [reflexivity|]. split; [reflexivity|]. eexists. reflexivity. Qed.
Example store_fair_case : @fair_steps Z 2 (fun m => CStep (if Nat.even m then 0 else 1)%nat 0).
Proof.
  split; [intros m; exact I|]. intros t m Ht. destruct t as [|[|t]].
  - exists (2 * m)%nat, 0. split; [lia|]. rewrite Nat.even_mul. reflexivity.
  - exists (S (2 * m))%nat, 0. split; [lia|]. rewrite Nat.even_succ, Nat.odd_mul. reflexivity.
  - lia.
Qed.

(** C94.  A value that is saved and accepted by the processor of the key is what every later read of a store
    shows: if at that moment no call reads the store or changes the key, and Redis works.  With a load policy
    with interval d > 0: for reads at least d after that moment. *)
Theorem store_saved_is_read : forall V ok ord h pols n sched sched1 sched2 j k v p pol T t o r,
  any_order ord -> NoDup (map fst h) -> k <> "" -> nth_error pols j = Some pol -> pol <> PolNoop ->
  let c := @conc_exec V ok ord h pols n sched in
  saved (fst c) k = Some v -> has_processor (fst c) j k p -> accepts p v = true ->
  calm j k (snd c) -> unread j (snd c) -> redis_works ok (fst c) ->
  Forall (spares_key j k) (sched1 ++ sched2) ->
  (forall d, pol = PolInterval d -> 0 < d -> Forall (until T) sched /\ Forall (sees_from t (T + d)) sched2) ->
  let c1 := conc_exec ok ord h pols n (sched ++ sched1) in
  calling t (snd c1) = None ->
  In (EReturned t j o r) (snd (exec (cstep ok ord) (fst c1) sched2)) ->
  shows k (Some v) (Some (p_convert p v)) o r.
Proof. exact @conc_seen. Qed.
Print Assumptions store_saved_is_read.

(** A BatchUpdate in one process, read in another one: after the BatchUpdate has returned without an error for
    the key. *)
Theorem store_batch_reaches : forall V ok ord h pols n sched schedU sched1 sched2 u j0 kvs errs j k v p pol T t o r,
  any_order ord -> NoDup (map fst h) -> k <> "" -> nth_error pols j = Some pol -> pol <> PolNoop ->
  let c := @conc_exec V ok ord h pols n sched in
  let before := sched ++ CCall u j0 (OBatchUpdate kvs) :: schedU in
  let cU := conc_exec ok ord h pols n before in
  calm j k (snd c) -> calling u (snd c) = None -> redis_works ok (fst c) ->
  In (k, v) kvs -> NoDup (map fst kvs) -> Forall (spares_key j k) (schedU ++ sched1 ++ sched2) ->
  In (EReturned u j0 (OBatchUpdate kvs) (RKVErrs errs)) (snd (exec (cstep ok ord) (fst c) (CCall u j0 (OBatchUpdate kvs) :: schedU))) ->
  ~ In k (map ke_key errs) ->
  has_processor (fst cU) j k p -> accepts p v = true -> unread j (snd cU) ->
  (forall d, pol = PolInterval d -> 0 < d -> Forall (until T) before /\ Forall (sees_from t (T + d)) sched2) ->
  let c1 := conc_exec ok ord h pols n (before ++ sched1) in
  calling t (snd c1) = None ->
  In (EReturned t j o r) (snd (exec (cstep ok ord) (fst c1) sched2)) ->
  saved (fst cU) k = Some v /\ shows k (Some v) (Some (p_convert p v)) o r.
Proof.
  intros V ok ord h pols n sched schedU sched1 sched2 u j0 kvs errs j k v p pol T t o r Hord ND Hk Hp Hpol c before cU
    Hc Hi Hw Hin Hnd HF Hret Herr Hpr Ha Hu HT c1 Hidle Hev.
  apply Forall_app in HF. destruct HF as [HF1 HF2].
  pose proof (conc_batch ok ord h pols n sched schedU u j j0 k v kvs errs Hc Hi Hw Hin Hnd HF1 Hret Herr) as [S1 S2].
  destruct (@conc_app V ok ord h pols n sched (CCall u j0 (OBatchUpdate kvs) :: schedU)) as [E1 E2]. fold before c cU in E1, E2.
  assert (S1' : saved (fst cU) k = Some v) by (rewrite E1; exact S1). assert (S2' : calm j k (snd cU)) by (rewrite E2; exact S2).
  clear S1 S2. split; [exact S1'|].
  eapply (conc_seen ok ord h pols n before sched1 sched2 j k v p pol T t o r); try eassumption.
  intros m Hm. apply Hw. fold cU in Hm. rewrite E1 in Hm. pose proof (cmds_grow ok ord (fst c) (CCall u j0 (OBatchUpdate kvs) :: schedU)). unfold c in *. lia.
Qed.
Print Assumptions store_batch_reaches.

(** The first store gets a new value, goroutine 2 reads it from the second one. *)
Definition batch : list (clabel Z) := CCall 1 0 (OBatchUpdate [("a", "new"); ("b", "no")]) :: go 1 20 5.
Definition read2 (z : Z) : list (clabel Z) := CCall 2 1 (OGetString "a") :: go 2 20 z.
Ltac threads3 t H := rewrite calling_reach in H; destruct t as [|[|[|[|t]]]]; vm_compute in H; try discriminate H.

Example store_batch_reaches_case :
  let run pol z := snd (exec (cstep always as_is)
    (fst (conc_exec always as_is [("a", "old")] [PolNoop; pol] 3 ((registered ++ batch) ++ []))) (read2 z)) in
  In (EReturned 1 0 (OBatchUpdate [("a", "new"); ("b", "no")]) (RKVErrs [KVError "b" "no" "key[b] not registered"]))
    (snd (exec (cstep always as_is) (fst (conc_exec always as_is [("a", "old")] [PolNoop; PolSimple] 3 registered)) batch)) /\
  In (EReturned 2 1 (OGetString "a") (RStr (Some "new"))) (run PolSimple 5) /\
  In (EReturned 2 1 (OGetString "a") (RStr (Some "new"))) (run (PolInterval 10) 15) /\
  In (EReturned 2 1 (OGetString "a") (RStr (Some "x"))) (run PolNoop 15).
Proof. vm_compute. repeat split; auto 20. Qed.

Example store_saved_is_read_case :
  let c := conc_exec always as_is [("a", "old")] [PolNoop; PolInterval 10] 3 (registered ++ batch) in
  saved (fst c) "a" = Some "new" /\ has_processor (fst c) 1 "a" short /\ accepts short "new" = true /\
  calm 1 "a" (snd c) /\ unread 1 (snd c) /\ redis_works always (fst c) /\
  Forall (until 5) (registered ++ batch) /\ Forall (sees_from 2 15) (read2 15) /\ Forall (spares_key 1 "a") (read2 15).
Proof.
  cbn zeta. split; [vm_compute; reflexivity|]. split; [eexists; vm_compute; split; reflexivity|]. split; [reflexivity|].
  split; [intros t j' o H; threads3 t H|]. split; [intros t o H; threads3 t H|]. split; [intros m _; reflexivity|].
  split; [repeat constructor; cbn; lia|]. split; [repeat constructor; cbn; lia|]. repeat constructor; cbn; tauto.
Qed.

(** A read that is under way at that moment can bring an older value back: a read that starts after the
    BatchUpdate has returned, and after another one has shown the new value, then shows the old one again.
    SimpleLoadPolicy; the load policy with an interval, more than the interval after the BatchUpdate; and in the
    process of the BatchUpdate itself. *)
Definition stale (v : string) (h : list (string * string)) (pols : list policy) (sched sched2 : list (clabel Z)) (j t : nat) : Prop :=
  let c := conc_exec always as_is h pols 3 sched in
  saved (fst c) "a" = Some v /\ has_processor (fst c) j "a" short /\ accepts short v = true /\
  calm j "a" (snd c) /\ calling t (snd c) = None /\ Forall (spares_key j "a") sched2 /\
  exists r, In (EReturned t j (OGetString "a") r) (snd (exec (cstep always as_is) (fst c) sched2)) /\ r <> RStr (Some v).

(** Goroutine 0 has the answer of HGETALL and goes no further. *)
Definition slow_read (j m : nat) : list (clabel Z) := CCall 0 j (OGetString "a") :: go 0 m 1.

Theorem store_saved_is_read_refuted :
  (exists sched sched2, In (EReturned 1 0 (OBatchUpdate [("a", "new"); ("b", "no")]) (RKVErrs [KVError "b" "no" "key[b] not registered"]))
      (snd (conc_exec always as_is [("a", "old")] [PolNoop; PolSimple] 3 sched)) /\
    In (EReturned 2 1 (OGetString "a") (RStr (Some "new"))) (snd (conc_exec always as_is [("a", "old")] [PolNoop; PolSimple] 3 sched)) /\
    stale "new" [("a", "old")] [PolNoop; PolSimple] sched sched2 1 2) /\
  (exists sched sched2, Forall (until 5) sched /\ Forall (sees_from 2 100) sched2 /\
    stale "new" [("a", "old")] [PolNoop; PolInterval 10] sched sched2 1 2) /\
  (exists sched sched2, In (EReturned 1 1 (OBatchUpdate [("a", "new")]) (RKVErrs [])) (snd (conc_exec always as_is [("a", "old")] [PolNoop; PolInterval 10] 3 sched)) /\
    stale "new" [("a", "old")] [PolNoop; PolInterval 10] sched sched2 1 1).
Proof.
  split; [|split].
  - exists (registered ++ slow_read 1 1 ++ batch ++ read2 6), (CCall 2 1 (OGetString "a") :: go 2 9 7 ++ go 0 12 8 ++ go 2 20 9).
    split; [vm_compute; auto 30|]. split; [vm_compute; auto 30|]. unfold stale. cbn zeta. split; [vm_compute; reflexivity|].
    split; [eexists; vm_compute; split; reflexivity|]. split; [reflexivity|].
    split; [intros t j' o H; threads3 t H; injection H as <- <-; intros []|].
    split; [vm_compute; reflexivity|]. split; [repeat constructor; cbn; tauto|].
    exists (RStr (Some "old")). split; [vm_compute; auto 30|discriminate].
  - exists (registered ++ slow_read 1 3 ++ batch), (go 0 30 99 ++ CCall 2 1 (OGetString "a") :: go 2 30 100).
    split; [repeat constructor; cbn; lia|]. split; [repeat constructor; cbn; lia|].
    unfold stale. cbn zeta. split; [vm_compute; reflexivity|].
    split; [eexists; vm_compute; split; reflexivity|]. split; [reflexivity|].
    split; [intros t j' o H; threads3 t H; injection H as <- <-; intros []|].
    split; [vm_compute; reflexivity|]. split; [repeat constructor; cbn; tauto|].
    exists (RStr (Some "old")). split; [vm_compute; auto 30|discriminate].
  - exists (registered ++ slow_read 1 3 ++ CCall 1 1 (OBatchUpdate [("a", "new")]) :: go 1 20 5), (go 0 30 6 ++ CCall 1 1 (OGetString "a") :: go 1 30 7).
    split; [vm_compute; auto 30|].
    unfold stale. cbn zeta. split; [vm_compute; reflexivity|].
    split; [eexists; vm_compute; split; reflexivity|]. split; [reflexivity|].
    split; [intros t j' o H; threads3 t H; injection H as <- <-; intros []|].
    split; [vm_compute; reflexivity|]. split; [repeat constructor; cbn; tauto|].
    exists (RStr (Some "old")). split; [vm_compute; auto 30|discriminate].
Qed.
Print Assumptions store_saved_is_read_refuted.

(** C95.  When a Reset has returned, with Redis working, no call reading the store and no other call changing
    the key meanwhile, nothing is saved for the key and every later read of that store shows the default. *)
Theorem store_reset_sticks_among_calls : forall V ok ord h pols n sched schedR sched2 u j k p s x r0 t o r,
  any_order ord -> NoDup (map fst h) -> k <> "" ->
  let c := @conc_exec V ok ord h pols n sched in
  let cR := conc_exec ok ord h pols n (sched ++ CCall u j (OReset k) :: schedR) in
  calm j k (snd c) -> unread j (snd c) -> calling u (snd c) = None -> redis_works ok (fst c) ->
  has_processor (fst c) j k p -> defaults (fst c) j k s x ->
  Forall (spares_key j k) (schedR ++ sched2) -> Forall (no_reads j) schedR ->
  In (EReturned u j (OReset k) r0) (snd (exec (cstep ok ord) (fst c) (CCall u j (OReset k) :: schedR))) ->
  saved (fst cR) k = None /\
  (In (EReturned t j o r) (snd (exec (cstep ok ord) (fst cR) sched2)) -> shows k s x o r).
Proof.
  intros V ok ord h pols n sched schedR sched2 u j k p s x r0 t o r Hord ND Hk c cR Hc Hu Hi Hw Hp Hd HF HN Hret.
  apply Forall_app in HF. destruct HF as [HF1 HF2].
  destruct (conc_reset ok ord h pols n sched schedR u j k p s x r0 Hc Hu Hi Hw Hp Hd HF1 HN Hret) as (S1 & S2 & S3 & S4 & S5).
  destruct (@conc_app V ok ord h pols n sched (CCall u j (OReset k) :: schedR)) as [E1 E2]. fold c cR in E1, E2.
  assert (S1' : saved (fst cR) k = None) by (rewrite E1; exact S1). split; [exact S1'|]. intros Hin.
  eapply (conc_keeps ok ord h pols n _ sched2 j k p s x t o r); try eassumption.
  - fold cR. rewrite E1. exact S5.
  - fold cR. rewrite E1. exact S2.
  - fold cR. rewrite E2. exact S3.
  - fold cR. rewrite E2. exact S4.
Qed.
Print Assumptions store_reset_sticks_among_calls.

Definition with_new : list (clabel Z) := registered ++ batch ++ CCall 2 1 (OGetString "a") :: go 2 20 6.
Definition reset : list (clabel Z) := CCall 1 1 (OReset "a") :: go 1 8 7.
Example store_reset_sticks_case :
  let c := conc_exec always as_is [] [PolNoop; PolSimple] 3 with_new in
  calm 1 "a" (snd c) /\ unread 1 (snd c) /\ calling 1 (snd c) = None /\ has_processor (fst c) 1 "a" short /\
  defaults (fst c) 1 "a" (Some "x") (Some 1%Z) /\ reads_as (fst c) 1 "a" (Some "new") (Some 3%Z) /\
  In (EReturned 1 1 (OReset "a") RDone) (snd (exec (cstep always as_is) (fst c) reset)) /\
  In (EReturned 2 1 (OGetString "a") (RStr (Some "x")))
    (snd (exec (cstep always as_is) (fst (conc_exec always as_is [] [PolNoop; PolSimple] 3 (with_new ++ reset))) (read2 8))).
Proof.
  cbn zeta. split; [intros t j' o H; threads3 t H|]. split; [intros t o H; threads3 t H|]. split; [vm_compute; reflexivity|].
  split; [eexists; vm_compute; split; reflexivity|]. split; [eexists; vm_compute; repeat split; reflexivity|].
  split; [eexists; vm_compute; repeat split; reflexivity|]. split; vm_compute; auto 30.
Qed.

(** A load only ever brings values that are saved: once nothing is saved for the key, every store goes on reading
    what it reads.  A Reset in one process is not seen by the others. *)
Theorem store_unsaved_stays : forall V ok ord h pols n sched sched2 j k p s x t o r,
  any_order ord -> NoDup (map fst h) -> k <> "" ->
  let c := @conc_exec V ok ord h pols n sched in
  saved (fst c) k = None -> has_processor (fst c) j k p -> reads_as (fst c) j k s x ->
  calm j k (snd c) -> unread j (snd c) -> Forall (spares_key j k) sched2 ->
  In (EReturned t j o r) (snd (exec (cstep ok ord) (fst c) sched2)) -> shows k s x o r.
Proof. exact @conc_keeps. Qed.
Print Assumptions store_unsaved_stays.

(** Goroutine 2 has read the new value from the second store, then goroutine 1 resets the key in the first one. *)
Definition reset_first : list (clabel Z) := CCall 1 0 (OReset "a") :: go 1 8 7.
Example store_unsaved_stays_case :
  let c := conc_exec always as_is [] [PolSimple; PolSimple] 3 (with_new ++ reset_first) in
  saved (fst c) "a" = None /\ has_processor (fst c) 1 "a" short /\ reads_as (fst c) 1 "a" (Some "new") (Some 3%Z) /\
  calm 1 "a" (snd c) /\ unread 1 (snd c).
Proof.
  cbn zeta. split; [vm_compute; reflexivity|].
  split; [eexists; vm_compute; split; reflexivity|]. split; [eexists; vm_compute; repeat split; reflexivity|].
  split; [intros t j' o H; threads3 t H|]. intros t o H; threads3 t H.
Qed.

(** So a Reset does not reach other processes: once the second store has read the new value it reads it for ever.
    And a read that is under way in the same process can undo the Reset. *)
Theorem store_reset_reaches_refuted :
  (forall pol, In pol [PolSimple; PolInterval 10; PolInterval 0] ->
     exists sched, let c := conc_exec always as_is [] [PolSimple; pol] 3 sched in
     In (EReturned 1 0 (OReset "a") (RDone : sres Z)) (snd c) /\ saved (fst c) "a" = None /\
     defaults (fst c) 1 "a" (Some "x") (Some 1%Z) /\ (forall t, calling t (snd c) = None) /\
     forall sched2 t r, Forall (spares_key 1 "a") sched2 ->
       In (EReturned t 1 (OGetString "a") r) (snd (exec (cstep always as_is) (fst c) sched2)) -> r = RStr (Some "new")) /\
  (exists sched sched2, let c := conc_exec always as_is [("a", "old")] [PolSimple] 3 sched in
     In (EReturned 1 0 (OReset "a") (RDone : sres Z)) (snd c) /\ saved (fst c) "a" = None /\ calm 0 "a" (snd c) /\
     Forall (spares_key 0 "a") sched2 /\ calling 2 (snd c) = None /\
     In (EReturned 2 0 (OGetString "a") (RStr (Some "old"))) (snd (exec (cstep always as_is) (fst c) sched2))).
Proof.
  split.
  - intros pol Hpol. exists (with_new ++ reset_first). cbn zeta.
    assert (D : let c := conc_exec always as_is [] [PolSimple; pol] 3 (with_new ++ reset_first) in
      In (EReturned 1 0 (OReset "a") (RDone : sres Z)) (snd c) /\ saved (fst c) "a" = None /\ has_processor (fst c) 1 "a" short /\
      defaults (fst c) 1 "a" (Some "x") (Some 1%Z) /\ reads_as (fst c) 1 "a" (Some "new") (Some 3%Z) /\ forall t, calling t (snd c) = None).
    { cbn zeta. destruct Hpol as [<-|[<-|[<-|[]]]]; (split; [vm_compute; auto 30|]; split; [vm_compute; reflexivity|];
      split; [eexists; vm_compute; split; reflexivity|]; split; [eexists; vm_compute; repeat split; reflexivity|];
      split; [eexists; vm_compute; repeat split; reflexivity|];
      intros t; rewrite calling_reach; destruct t as [|[|[|[|t]]]]; vm_compute; reflexivity). }
    cbn zeta in D. destruct D as (D1 & D2 & D3 & D4 & D5 & D6). repeat (split; [assumption|]).
    intros sched2 t r HF Hin.
    assert (S : shows "a" (Some "new") (Some 3%Z) (OGetString "a") r).
    { eapply (conc_keeps always as_is [] [PolSimple; pol] 3 (with_new ++ reset_first) sched2 1 "a" short); try eassumption.
      - apply as_is_order.
      - constructor.
      - discriminate.
      - intros u j' o H. rewrite D6 in H. discriminate.
      - intros u o H. rewrite D6 in H. discriminate. }
    apply S. reflexivity.
  - exists (CCall 0 0 (ORegister "a" "x" (Some short)) :: go 0 9 1 ++ slow_read 0 1 ++ CCall 1 0 (OReset "a") :: go 1 8 7),
      (go 0 20 8 ++ CCall 2 0 (OGetString "a") :: go 2 20 9).
    cbn zeta. split; [vm_compute; auto 30|]. split; [vm_compute; reflexivity|].
    split; [intros t j' o H; threads3 t H; injection H as <- <-; intros []|]. split; [repeat constructor; cbn; tauto|].
    split; [vm_compute; reflexivity|]. vm_compute. auto 10.
Qed.
Print Assumptions store_reset_reaches_refuted.

(** C96.  When a BatchUpdate has returned without an error for the key, the value is saved: whatever other calls
    do meanwhile, as long as they do not change what is saved for the key. *)
Theorem store_batch_saves_among_calls : forall V ok ord h pols n sched sched2 t j j0 k v kvs errs,
  let c := @conc_exec V ok ord h pols n sched in
  calm j k (snd c) -> calling t (snd c) = None -> redis_works ok (fst c) ->
  In (k, v) kvs -> NoDup (map fst kvs) -> Forall (spares_key j k) sched2 ->
  let c2 := exec (cstep ok ord) (fst c) (CCall t j0 (OBatchUpdate kvs) :: sched2) in
  In (EReturned t j0 (OBatchUpdate kvs) (RKVErrs errs)) (snd c2) -> ~ In k (map ke_key errs) ->
  saved (fst c2) k = Some v.
Proof. intros. eapply conc_batch; eassumption. Qed.
Print Assumptions store_batch_saves_among_calls.

(** Goroutine 0 updates another key and goroutine 2 reads meanwhile. *)
Example store_batch_saves_case :
  let c := conc_exec always as_is [("a", "old")] [PolNoop; PolSimple] 3 registered in
  let sched2 := go 1 3 5 ++ CCall 2 1 (OGetString "a") :: CCall 0 0 (OBatchUpdate [("c", "1")]) :: go 2 4 5 ++ go 0 6 5 ++ go 1 20 5 in
  calm 1 "a" (snd c) /\ calling 1 (snd c) = None /\ Forall (spares_key 1 "a") sched2 /\
  In (EReturned 1 0 (OBatchUpdate [("a", "new"); ("b", "no")]) (RKVErrs [KVError "b" "no" "key[b] not registered"]))
    (snd (exec (cstep always as_is) (fst c) (CCall 1 0 (OBatchUpdate [("a", "new"); ("b", "no")]) :: sched2))).
Proof.
  cbn zeta. split; [intros t j' o H; threads3 t H|]. split; [vm_compute; reflexivity|].
  split; [repeat constructor; cbn; intuition congruence|]. vm_compute. auto 10.
Qed.
