(** Property theorems for the config store that persists nothing (C105). *)
From Verif Require Import Common Bytes Threads StoreModel StoreSpec StoreProps StoreNoopSpec StoreNoopProofs.
Local Open Scope string_scope.
Local Open Scope list_scope.

(** C105.  With NoopPersister and any load policy, every call answers as a plain map of entries does. *)
Theorem noop_store_is_a_map : forall V pol clk (w : world unit) (os : list (sop V)),
  snd (sop_run noop_persister pol clk (new_store, w) os) = answers [] os.
Proof. exact @noop_answers. Qed.
Print Assumptions noop_store_is_a_map.

(** So the load policy and the clock make no difference. *)
Theorem noop_store_policy_irrelevant : forall V pol pol' clk clk' (w w' : world unit) (os : list (sop V)),
  snd (sop_run noop_persister pol clk (new_store, w) os) = snd (sop_run noop_persister pol' clk' (new_store, w') os).
Proof. intros. rewrite !noop_answers. reflexivity. Qed.
Print Assumptions noop_store_policy_irrelevant.

Example noop_store_case :
  answers [] [ORegister "a" "x" (Some short); ORegister "a" "y" (Some short); ORegister "b" "four" (Some short);
              OUpdate "a" "four"; OUpdate "a" "abc"; OGetString "a"; OBatchUpdate [("a", "z"); ("q", "1")];
              OBatchGet ["a"; "q"; ""]; OReset "a"; OMustGetString "a"; ODeregister "a"; OMustGet "a"] =
  [RErr None; RErr (Some "key[a] ValueProcessor duplicated"); RErr (Some "too long");
   RKVErr (Some (KVError "a" "four" "too long")); RKVErr None; RStr (Some "abc");
   RKVErrs [KVError "q" "1" "key[q] not registered"];
   RVals [("a", 1%Z)]; RDone; RMustStr "x"; RDone; RPanic].
Proof. vm_compute. reflexivity. Qed.
