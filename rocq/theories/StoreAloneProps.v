(** Property theorems for the config store: calls that do not overlap (C98). *)
From Verif Require Import Common Bytes Threads StoreModel StoreSpec StoreProofs StoreProps.
From Verif Require Import StoreConcModel StoreConcSpec StoreConcProofs StoreConcProps StoreAloneSpec StoreAloneProofs.
Local Open Scope string_scope.
Local Open Scope list_scope.

(** C98.  A call made when no other is under way, and not overlapped by another until it returns, does to the
    stores and Redis, and returns, what the call of the sequential store does. *)
Theorem store_call_alone : forall V ok ord h pols n sched steps t j o t1 j1 o1 r,
  let c := @conc_exec V ok ord h pols n sched in
  (forall u, calling u (snd c) = None) -> Forall no_calls steps ->
  let c2 := exec (cstep ok ord) (fst c) (CCall t j o :: steps) in
  In (EReturned t1 j1 o1 r) (snd c2) ->
  snd c2 = [ECalled t j o; EReturned t j o r] /\
  whole_call ok ord pols (shown steps) (state_of (fst c)) j o r (state_of (fst c2)).
Proof. exact @alone_is_whole. Qed.
Print Assumptions store_call_alone.

(** A read that loads, in a store with an interval, after two calls that overlapped. *)
Definition overlapped : list (clabel Z) :=
  registered ++ CCall 0 0 (OBatchUpdate [("a", "new")]) :: CCall 1 1 (OGetString "a") :: go 0 3 2 ++ go 1 20 3 ++ go 0 20 4.
Example store_call_alone_case :
  let c := conc_exec always as_is [] [PolNoop; PolInterval 10] 3 overlapped in
  let c2 := exec (cstep always as_is) (fst c) (CCall 2 1 (OGetString "a") :: go 2 30 14) in
  (forall u, calling u (snd c) = None) /\ reads_as (fst c) 1 "a" (Some "x") (Some 1%Z) /\
  In (EReturned 2 1 (OGetString "a") (RStr (Some "new"))) (snd c2).
Proof.
  cbn zeta. split; [intros t; rewrite calling_reach; destruct t as [|[|[|[|t]]]]; vm_compute; reflexivity|].
  split; [eexists; vm_compute; repeat split; reflexivity|]. vm_compute. auto.
Qed.
