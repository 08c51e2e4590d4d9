(** Property theorems for the config store and its load policies (C39-C47). *)
From Verif Require Import Common Bytes Threads StoreModel StoreSpec StoreProofs.
Local Open Scope string_scope.
Local Open Scope list_scope.

(** Things for the examples: a processor of strings of at most 3 bytes, converted to their length;
    a Redis that works, and one whose first command fails. *)
Definition short : proc Z :=
  Proc (fun s => (Nat.leb (String.length s) 3, "too long")) (fun s => Z.of_nat (String.length s)).
Definition long : proc Z :=
  Proc (fun s => (Nat.leb 4 (String.length s), "too short")) (fun s => Z.of_nat (String.length s)).
Definition always (n : nat) : bool := true.
Definition first_fails (n : nat) : bool := match n with O => false | _ => true end.
Definition as_is (n : nat) (l : list (string * string)) := l.
Definition clock0 (n : nat) : Z * Z := (Z.of_nat n, Z.of_nat n)%Z.
Definition w0 (h : list (string * string)) : world redis := World (Redis h 0) None 0.

(** C39.  Without loading, every read returns the last accepted value, else the default, else a miss. *)
Theorem store_reads_exact : forall V P (per : persister P) clk (w : world P) (os : list (sop V)),
  let x := fst (sop_run per PolNoop clk (new_store, w) os) in
  let read o := snd (sop_step per PolNoop clk x o) in
  (forall k, read (OGetString k) = RStr (current (key_state k os))) /\
  (forall k, read (OGet k) = RVal (current_value (key_state k os))) /\
  (forall k, read (OMustGetString k) =
     match current (key_state k os) with Some v => RMustStr v | None => RPanic end) /\
  (forall k, read (OMustGet k) =
     match current_value (key_state k os) with Some v => RMust v | None => RPanic end) /\
  (forall ks, read (OBatchGetString ks) = RStrs (hits (fun k => current (key_state k os)) ks)) /\
  (forall ks, read (OBatchGet ks) = RVals (hits (fun k => current_value (key_state k os)) ks)).
Proof. exact @reads_exact. Qed.
Print Assumptions store_reads_exact.

Example store_reads_case :
  let os := [ORegister "a" "x" (Some short); ORegister "b" "yy" (Some short); OUpdate "a" "abc";
             OUpdateNoPersist "a" "abcd"; OBatchUpdate [("b", "1"); ("b", "2"); ("c", "3")];
             OReset "a"; OUpdateNoPersist "b" "22"; ORegister "b" "z" (Some short)] in
  map (fun k => current (key_state k os)) ["a"; "b"; "c"] = [Some "x"; Some "22"; None].
Proof. vm_compute. reflexivity. Qed.

(** C40.  With any persister and any load policy: a key hits iff it is registered, the string is valid
    for its processor and the typed view is its conversion. *)
Theorem store_views_agree : forall V P (per : persister P) pol clk (w : world P) (os : list (sop V)) k,
  let x := fst (sop_run per pol clk (new_store, w) os) in
  let read o := snd (sop_step per pol clk x o) in
  match registration (key_state k os) with
  | None => read (OGetString k) = RStr None /\ read (OGet k) = RVal None
  | Some (p, d) => exists s, read (OGetString k) = RStr (Some s) /\ accepts p s = true /\
                     read (OGet k) = RVal (Some (p_convert p s))
  end.
Proof. exact @views_agree. Qed.
Print Assumptions store_views_agree.

Example store_views_case :
  let per := redis_persister always as_is in
  let os := [ORegister "a" "x" (Some short); OGet "a"] in
  let x := fst (sop_run per PolSimple clock0 (new_store, w0 [("b", "1"); ("a", "abc"); ("a2", "long")]) os) in
  snd (sop_step per PolSimple clock0 x (OGetString "a")) = RStr (Some "abc") /\
  snd (sop_step per PolSimple clock0 x (OGet "a")) = RVal (Some 3%Z) /\
  registration (key_state "a" os) = Some (short, "x").
Proof. vm_compute. repeat split. Qed.

(** C41.  A rejected update reports the key and the value and changes nothing; an accepted one changes
    the reads of its key only. *)
Theorem store_rejected_update : forall V P (per : persister P) pol clk (w : world P) (os : list (sop V)) k v,
  let x := fst (sop_run per pol clk (new_store, w) os) in
  let reg := registration (key_state k os) in
  rejected reg k v = true ->
  snd (sop_step per pol clk x (OUpdateNoPersist k v)) = RKVErr (Some (rejection reg k v)) /\
  forall os', snd (sop_run per pol clk (fst (sop_step per pol clk x (OUpdateNoPersist k v))) os') =
              snd (sop_run per pol clk x os').
Proof. exact @rejected_update. Qed.
Print Assumptions store_rejected_update.

Theorem store_accepted_update : forall V P (per : persister P) clk (w : world P) (os : list (sop V)) k v p d,
  let x := fst (sop_run per PolNoop clk (new_store, w) os) in
  let x' := fst (sop_step per PolNoop clk x (OUpdateNoPersist k v)) in
  registration (key_state k os) = Some (p, d) -> accepts p v = true ->
  snd (sop_step per PolNoop clk x (OUpdateNoPersist k v)) = RKVErr None /\
  snd (sop_step per PolNoop clk x' (OGetString k)) = RStr (Some v) /\
  snd (sop_step per PolNoop clk x' (OGet k)) = RVal (Some (p_convert p v)) /\
  forall k', k' <> k ->
    snd (sop_step per PolNoop clk x' (OGetString k')) = snd (sop_step per PolNoop clk x (OGetString k')) /\
    snd (sop_step per PolNoop clk x' (OGet k')) = snd (sop_step per PolNoop clk x (OGet k')).
Proof. exact @accepted_update. Qed.
Print Assumptions store_accepted_update.

(** BatchUpdate reports exactly the rejected entries, in order. *)
Theorem store_batch_errors : forall V P (per : persister P) pol clk (w : world P) (os : list (sop V)) kvs,
  let x := fst (sop_run per pol clk (new_store, w) os) in
  let reg k := registration (key_state k os) in
  snd (sop_step per pol clk x (OBatchUpdate kvs)) =
  RKVErrs (map (fun kv => rejection (reg (fst kv)) (fst kv) (snd kv))
             (filter (fun kv => rejected (reg (fst kv)) (fst kv) (snd kv)) kvs)).
Proof. exact @batch_errors. Qed.
Print Assumptions store_batch_errors.

Example store_update_case :
  let os := [ORegister "a" "x" (Some short); ORegister "b" "yyyy" (Some long)] in
  let reg k := registration (key_state k os) in
  rejected (reg "a") "a" "abcd" = true /\ rejected (reg "c") "c" "abc" = true /\
  rejected (reg "b") "b" "abcd" = false /\ accepts long "abcd" = true /\
  reg "b" = Some (long, "yyyy") /\
  rejection (reg "c") "c" "abc" = KVError "c" "abc" "key[c] not registered".
Proof. vm_compute. repeat split. Qed.

(** C42.  What Update does with the persister: it saves exactly the rejected values, and then reports
    the rejection only if saving worked. *)
Theorem store_update_persistence : forall V P (per : persister P) pol clk (w : world P) (os : list (sop V)) k v,
  let x := fst (sop_run per pol clk (new_store, w) os) in
  let reg := registration (key_state k os) in
  let p := w_p (snd x) in
  let x' := fst (sop_step per pol clk x (OUpdate k v)) in
  let r := snd (sop_step per pol clk x (OUpdate k v)) in
  if rejected reg k v
  then w_p (snd x') = fst (ps_save per p k v) /\
       r = RKVErr (if snd (ps_save per p k v) then Some (rejection reg k v) else None)
  else w_p (snd x') = p /\ r = RKVErr None.
Proof. exact @update_persistence. Qed.
Print Assumptions store_update_persistence.

(** So "Update persists iff it accepts" and "Update reports an error iff it rejects" are false. *)
Theorem store_update_persists_accepted_refuted :
  exists (os : list (sop Z)) k v v',
  let per := redis_persister always as_is in
  let x := fst (sop_run per PolNoop clock0 (new_store, w0 []) os) in
  let ok := sop_step per PolNoop clock0 x (OUpdate k v) in
  let bad := sop_step per PolNoop clock0 x (OUpdate k v') in
  snd ok = RKVErr None /\ snd (sop_step per PolNoop clock0 (fst ok) (OGetString k)) = RStr (Some v) /\
  hget (r_hash (w_p (snd (fst ok)))) k = None /\
  snd bad = RKVErr (Some (KVError k v' "too long")) /\ hget (r_hash (w_p (snd (fst bad)))) k = Some v'.
Proof.
  exists [ORegister "a" "x" (Some short)], "a", "abc", "abcd". vm_compute. repeat split.
Qed.
Print Assumptions store_update_persists_accepted_refuted.

Theorem store_update_reports_rejection_refuted :
  exists (os : list (sop Z)) k v,
  let per := redis_persister first_fails as_is in
  let x := fst (sop_run per PolNoop clock0 (new_store, w0 []) os) in
  rejected (registration (key_state k os)) k v = true /\
  snd (sop_step per PolNoop clock0 x (OUpdate k v)) = RKVErr None.
Proof. exists [ORegister "a" "x" (Some short)], "a", "abcd". vm_compute. split; reflexivity. Qed.
Print Assumptions store_update_reports_rejection_refuted.

(** With a loading policy an accepted Update can be gone at the next read. *)
Theorem store_update_visible_refuted :
  exists (os : list (sop Z)) k v,
  let per := redis_persister always as_is in
  let x := fst (sop_run per PolSimple clock0 (new_store, w0 []) os) in
  let r := sop_step per PolSimple clock0 x (OUpdate k v) in
  snd r = RKVErr None /\ snd (sop_step per PolSimple clock0 (fst r) (OGetString k)) = RStr (Some "abc").
Proof.
  exists [ORegister "a" "x" (Some short); OBatchUpdate [("a", "abc")]], "a", "new". vm_compute. split; reflexivity.
Qed.
Print Assumptions store_update_visible_refuted.

(** C43.  BatchUpdate with distinct non-empty keys and a working Redis: the hash and the reads agree on
    the accepted entries, and nothing else changes in either. *)
Theorem store_batch_persistence : forall V ok ord pol clk (w : world redis) (os : list (sop V)) kvs,
  let per := redis_persister ok ord in
  let x := fst (sop_run per pol clk (new_store, w) os) in
  let x' := fst (sop_step per pol clk x (OBatchUpdate kvs)) in
  let reg k := registration (key_state k os) in
  let h := r_hash (w_p (snd x)) in
  let h' := r_hash (w_p (snd x')) in
  NoDup (map fst kvs) -> ~ In "" (map fst kvs) ->
  ok (r_cmds (w_p (snd x))) = true ->
  (forall k v, In (k, v) kvs -> rejected (reg k) k v = false ->
     hget h' k = Some v /\ read_string (fst x') k = Some v) /\
  (forall k v, In (k, v) kvs -> rejected (reg k) k v = true ->
     hget h' k = hget h k /\ read_string (fst x') k = read_string (fst x) k) /\
  (forall k, ~ In k (map fst kvs) ->
     hget h' k = hget h k /\ read_string (fst x') k = read_string (fst x) k) /\
  (NoDup (map fst h) -> NoDup (map fst h')).
Proof. exact @batch_hash. Qed.
Print Assumptions store_batch_persistence.

Example store_batch_case :
  let per := redis_persister always as_is in
  let os := [ORegister "a" "x" (Some short); ORegister "b" "y" (Some short)] in
  let x := fst (sop_run per PolNoop clock0 (new_store, w0 [("b", "old")]) os) in
  let x' := fst (sop_step per PolNoop clock0 x (OBatchUpdate [("b", "abcd"); ("a", "abc")])) in
  NoDup (map fst [("b", "abcd"); ("a", "abc")]) /\ ~ In "" (map fst [("b", "abcd"); ("a", "abc")]) /\
  r_hash (w_p (snd x')) = [("b", "old"); ("a", "abc")] /\
  read_string (fst x') "a" = Some "abc" /\ read_string (fst x') "b" = Some "y".
Proof.
  split; [repeat constructor; cbn; intuition congruence|]. split; [cbn; intuition congruence|].
  vm_compute. repeat split.
Qed.

(** It fails for repeated keys and for the empty key, and if saving fails nothing is reported. *)
Theorem store_batch_persistence_refuted :
  exists os : list (sop Z),
  let x ok := fst (sop_run (redis_persister ok as_is) PolNoop clock0 (new_store, w0 []) os) in
  let batch ok kvs := sop_step (redis_persister ok as_is) PolNoop clock0 (x ok) (OBatchUpdate kvs) in
  let hash r := r_hash (w_p (snd (fst r))) in
  let str r k := read_string (fst (fst r)) k in
  (str (batch always [("a", "abc"); ("a", "abcd")]) "a" = Some "abc" /\
   hget (hash (batch always [("a", "abc"); ("a", "abcd")])) "a" = None) /\
  (str (batch always [("", "v")]) "" = None /\ hget (hash (batch always [("", "v")])) "" = Some "v") /\
  (str (batch first_fails [("a", "abc")]) "a" = Some "abc" /\
   hget (hash (batch first_fails [("a", "abc")])) "a" = None /\
   snd (batch first_fails [("a", "abc")]) = RKVErrs []).
Proof. exists [ORegister "a" "x" (Some short)]. vm_compute. repeat split. Qed.
Print Assumptions store_batch_persistence_refuted.

(** C44.  Accepted entries of such a batch are read back by a fresh store on the same Redis hash. *)
Theorem store_restart_reads_back : forall V okA ordA polA clkA wA (osA : list (sop V)) kvs okB ordB polB clkB regs k v,
  let perA := redis_persister okA ordA in
  let xA := fst (sop_run perA polA clkA (new_store, wA) osA) in
  let rA := w_p (snd xA) in
  let rA' := w_p (snd (fst (sop_step perA polA clkA xA (OBatchUpdate kvs)))) in
  let perB := redis_persister okB ordB in
  let xB := fst (sop_run perB polB clkB (new_store, World rA' None 0) regs) in
  NoDup (map fst (r_hash (w_p wA))) -> NoDup (map fst kvs) -> ~ In "" (map fst kvs) ->
  okA (r_cmds rA) = true -> polB <> PolNoop -> orders ordB -> okB (r_cmds rA') = true ->
  Forall is_register regs -> In (k, v) kvs ->
  rejected (registration (key_state k osA)) k v = false ->
  registration (key_state k regs) = registration (key_state k osA) ->
  snd (sop_step perB polB clkB xB (OGetString k)) = RStr (Some v).
Proof. exact @restart_reads. Qed.
Print Assumptions store_restart_reads_back.

Example store_restart_case :
  let osA := [ORegister "a" "x" (Some short); ORegister "b" "y" (Some short); OUpdateNoPersist "b" "zz"] in
  let regs := [ORegister "b" "y" (Some short); ORegister "a" "x" (Some short)] in
  let perA := redis_persister always as_is in
  let perB := redis_persister always (fun _ l => rev l) in
  let xA := fst (sop_run perA PolNoop clock0 (new_store, w0 [("b", "old")]) osA) in
  let rA' := w_p (snd (fst (sop_step perA PolNoop clock0 xA (OBatchUpdate [("b", "1"); ("a", "abc")])))) in
  let xB := fst (sop_run perB (PolInterval 10) clock0 (new_store, World rA' None 0) regs) in
  rejected (registration (key_state "b" osA)) "b" "1" = false /\
  registration (key_state "b" regs) = registration (key_state "b" osA) /\
  snd (sop_step perB (PolInterval 10) clock0 xB (OGetString "b")) = RStr (Some "1").
Proof. vm_compute. repeat split. Qed.

Example reversed_order : orders (fun _ l => rev l).
Proof. intros n l. apply Permutation.Permutation_sym, Permutation.Permutation_rev. Qed.

(** C45.  Reset and deregister stick: whatever is called afterwards about other keys, and however
    often the store loads. *)
Theorem store_reset_sticks : forall V ok ord pol clk w (os os2 : list (sop V)) k,
  let per := redis_persister ok ord in
  let x := fst (sop_run per pol clk (new_store, w) os) in
  let x1 := fst (sop_step per pol clk x (OReset k)) in
  let x2 := fst (sop_run per pol clk x1 os2) in
  let reg := registration (key_state k os) in
  orders ord -> NoDup (map fst (r_hash (w_p w))) -> ok (r_cmds (w_p (snd x))) = true ->
  Forall (spares k) os2 ->
  snd (sop_step per pol clk x2 (OGetString k)) = RStr (option_map snd reg) /\
  snd (sop_step per pol clk x2 (OGet k)) = RVal (option_map (fun r => p_convert (fst r) (snd r)) reg).
Proof. exact @reset_sticks. Qed.
Print Assumptions store_reset_sticks.

Theorem store_deregister_sticks : forall V ok ord pol clk w (os os2 : list (sop V)) k,
  let per := redis_persister ok ord in
  let x := fst (sop_run per pol clk (new_store, w) os) in
  let x1 := fst (sop_step per pol clk x (ODeregister k)) in
  let x2 := fst (sop_run per pol clk x1 os2) in
  orders ord -> NoDup (map fst (r_hash (w_p w))) -> ok (r_cmds (w_p (snd x))) = true ->
  k <> "" -> Forall (spares k) os2 ->
  snd (sop_step per pol clk x2 (OGetString k)) = RStr None /\
  snd (sop_step per pol clk x2 (OGet k)) = RVal None /\
  forall p d, accepts p d = true ->
    let x3 := fst (sop_step per pol clk x2 (ORegister k d (Some p))) in
    snd (sop_step per pol clk x2 (ORegister k d (Some p))) = RErr None /\
    snd (sop_step per pol clk x3 (OGetString k)) = RStr (Some d) /\
    snd (sop_step per pol clk x3 (OGet k)) = RVal (Some (p_convert p d)).
Proof. exact @deregister_sticks. Qed.
Print Assumptions store_deregister_sticks.

Theorem store_reset_others : forall V P (per : persister P) clk (w : world P) (os : list (sop V)) k o k',
  let x := fst (sop_run per PolNoop clk (new_store, w) os) in
  let x1 := fst (sop_step per PolNoop clk x o) in
  (o = OReset k \/ o = ODeregister k) -> k' <> k ->
  snd (sop_step per PolNoop clk x1 (OGetString k')) = snd (sop_step per PolNoop clk x (OGetString k')) /\
  snd (sop_step per PolNoop clk x1 (OGet k')) = snd (sop_step per PolNoop clk x (OGet k')).
Proof. exact @reset_others. Qed.
Print Assumptions store_reset_others.

Example store_reset_case :
  let per := redis_persister always as_is in
  let os := [ORegister "a" "x" (Some short); OGet "a"] in
  let os2 := [OGetString "a"; ORegister "b" "y" (Some short); OBatchUpdate [("b", "1")]; OGet "b"] in
  let x := fst (sop_run per PolSimple clock0 (new_store, w0 [("a", "old")]) os) in
  let x1 := fst (sop_step per PolSimple clock0 x (OReset "a")) in
  let x2 := fst (sop_run per PolSimple clock0 x1 os2) in
  Forall (spares "a") os2 /\
  snd (sop_step per PolSimple clock0 x (OGetString "a")) = RStr (Some "old") /\
  snd (sop_step per PolSimple clock0 x2 (OGetString "a")) = RStr (Some "x").
Proof.
  split; [repeat constructor; cbn; intuition congruence|]. vm_compute. split; reflexivity.
Qed.

(** If the delete fails, the old value can come back with a load. *)
Theorem store_reset_failed_delete_refuted :
  exists (os : list (sop Z)) k,
  let per := redis_persister first_fails as_is in
  let x := fst (sop_run per PolSimple clock0 (new_store, w0 [("a", "old")]) os) in
  let x1 := fst (sop_step per PolSimple clock0 x (OReset k)) in
  registration (key_state k os) = Some (short, "x") /\
  snd (sop_step per PolSimple clock0 x1 (OGetString k)) = RStr (Some "old").
Proof. exists [ORegister "a" "x" (Some short)], "a". vm_compute. split; reflexivity. Qed.
Print Assumptions store_reset_failed_delete_refuted.

(** C46.  Interleaved calls: as long as no accepted update of [k] is overtaken by a deregistration of
    [k], a deregistered key misses and a registered key reads a value its processor accepts. *)
Theorem store_interleaving_reads : forall V n (sched : list (slab V)) k,
  let s := fst (fst (store_exec n sched)) in
  ~ overtaken k (snd (store_exec n sched)) ->
  match registration (key_state k (reg_ops sched)) with
  | None => read_string s k = None /\ read_value s k = None
  | Some (p, d) => exists v, read_string s k = Some v /\ accepts p v = true /\ read_value s k = Some (p_convert p v)
  end.
Proof. exact @interleaving_reads. Qed.
Print Assumptions store_interleaving_reads.

(** In every interleaving the two views show the same value, accepted by a processor the key had. *)
Theorem store_interleaving_views : forall V n (sched : list (slab V)) k v,
  let s := fst (fst (store_exec n sched)) in
  read_string s k = Some v ->
  exists p d, In (LRegister k d (Some p)) sched /\ accepts p v = true /\ read_value s k = Some (p_convert p v).
Proof. exact @interleaving_views. Qed.
Print Assumptions store_interleaving_views.

Example store_interleaving_case :
  let sched := [LRegister "a" "x" (Some short); LUpdate 0 "a" "abc"; LUpdate 1 "a" "de"; LWrite 1; LWrite 0; LReset "b";
                LUpdate 1 "a" "abcd"] in
  let r := store_exec 2 sched in
  registration (key_state "a" (reg_ops sched)) = Some (short, "x") /\
  read_string (fst (fst r)) "a" = Some "abc" /\ ~ overtaken "a" (snd r).
Proof.
  split; [reflexivity|]. split; [reflexivity|].
  intros (t & v & l1 & l2 & l3 & H & _).
  assert (Hin : In (EDeregistered "a") (snd (store_exec 2
    [LRegister "a" "x" (Some short); LUpdate 0 "a" "abc"; LUpdate 1 "a" "de"; LWrite 1; LWrite 0; LReset "b";
     LUpdate 1 "a" "abcd"]))).
  { rewrite H. apply in_or_app. right. apply in_or_app. right. apply in_or_app. right. left. reflexivity. }
  vm_compute in Hin. intuition discriminate.
Qed.

(** Without that condition it is false: an update that was accepted before the deregistration writes
    after it; the key then reads although it is not registered, and with a value that the processor of
    a new registration does not accept. *)
Theorem store_interleaving_refuted :
  exists (sched : list (slab Z)) k,
  registration (key_state k (reg_ops sched)) = None /\
  read_string (fst (fst (store_exec 1 sched))) k = Some "abc" /\
  let sched' := sched ++ [LRegister k "yyyy" (Some long)] in
  registration (key_state k (reg_ops sched')) = Some (long, "yyyy") /\
  read_string (fst (fst (store_exec 1 sched'))) k = Some "abc" /\ accepts long "abc" = false.
Proof.
  exists [LRegister "a" "x" (Some short); LUpdate 0 "a" "abc"; LDeregister "a"; LWrite 0], "a".
  vm_compute. repeat split.
Qed.
Print Assumptions store_interleaving_refuted.

(** C47.  With NewLoadPolicy(d), d > 0, and a clock that does not go back, a DoLoad call loads exactly
    if every successful load before it ended at least d earlier. *)
Theorem load_policy_exact : forall d pre now now2 ok post, (0 < d)%Z ->
  let calls := pre ++ (now, now2, ok) :: post in
  nondecreasing (readings calls) ->
  (nth_error (policy_run (PolInterval d) None calls) (length pre) = Some true <->
   forall e, succeeded pre (policy_run (PolInterval d) None pre) e -> (e + d <= now)%Z).
Proof. exact (fun d pre now now2 ok post Hd Hc => proj2 (interval_policy_exact d pre now now2 ok post Hd Hc)). Qed.
Print Assumptions load_policy_exact.

(** Other policies. *)
Theorem load_policy_always : forall pol calls, pol = PolSimple \/ (exists d, pol = PolInterval d /\ (d <= 0)%Z) ->
  forall last, Forall (eq true) (policy_run pol last calls).
Proof. exact simple_policy_always. Qed.
Print Assumptions load_policy_always.

Theorem load_policy_never : forall calls last, Forall (eq false) (policy_run PolNoop last calls).
Proof. exact noop_policy_never. Qed.
Print Assumptions load_policy_never.

Example load_policy_case :
  let calls := [(0, 1, false); (2, 3, true); (5, 5, true); (12, 12, true); (13, 15, true); (20, 20, true); (25, 25, true)]%Z in
  nondecreasing (readings calls) /\
  policy_run (PolInterval 10) None calls = [true; true; false; false; true; false; true].
Proof. split; [vm_compute; repeat constructor; congruence|reflexivity]. Qed.
