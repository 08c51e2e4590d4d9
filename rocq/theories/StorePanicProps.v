(** Theorems about a config store whose processors may panic (C88, C89). *)
From Verif Require Import Common Bytes StoreModel RsaModel UrlModel StorePanicModel StorePanicSpec StorePanicProofs.
From Coq Require Import Permutation.
Local Open Scope string_scope.
Local Open Scope list_scope.

(** With processors that do not panic the store is the one of C39-C46: all calls return, with the same results. *)
Theorem panic_free_same : forall V P (per : persister P) pol clk (w : world P) (os : list (sop V)),
  snd (pop_run per pol clk (new_psw w) (map lifted os)) = map Ret (snd (sop_run per pol clk (new_store, w) os)) /\
  x_w (fst (pop_run per pol clk (new_psw w) (map lifted os))) = snd (fst (sop_run per pol clk (new_store, w) os)).
Proof.
  intros V P per pol clk w os. destruct (run_same per pol clk os _ _ (new_same w)) as (y & -> & (_ & A & _)). split; [reflexivity|exact A].
Qed.
Print Assumptions panic_free_same.

(** The processors of the package convert every value that they accept. *)
Theorem preset_sound : forall V (p : proc V) K (read : string -> outcome K) show,
  sound_proc (total p) /\ sound_proc (key_processor read show).
Proof. intros V p K read show. split; [apply total_sound|apply key_sound]. Qed.
Print Assumptions preset_sound.

(** With such processors no call ever waits for a lock that stays locked, however many calls panicked before. *)
Theorem panic_never_blocks : forall V P (per : persister P) pol clk (w : world P) (os : list (pop V)),
  Forall sound_op os -> Forall (fun f => f <> Stuck) (snd (pop_run per pol clk (new_psw w) os)).
Proof.
  intros V P per pol clk w os So. destruct (pop_run per pol clk (new_psw w) os) as [x fs] eqn:R.
  exact (proj2 (run_fine per pol clk _ _ _ _ (new_fine w) So R)).
Qed.
Print Assumptions panic_never_blocks.

(** An update panics if and only if checking the value does, and then changes nothing; so does a registration. *)
Theorem panic_update_exact : forall V P (per : persister P) pol clk (w : world P) (os : list (pop V)) k v,
  Forall sound_op os ->
  let x := fst (pop_run per pol clk (new_psw w) os) in
  forall o, o = QUpdate k v \/ o = QUpdateNoPersist k v ->
  (snd (pop_step per pol clk x o) = Boom <-> poison (x_s x) k v) /\
  (snd (pop_step per pol clk x o) = Boom -> fst (pop_step per pol clk x o) = x).
Proof.
  intros V P per pol clk w os k v So x o Ho. pose proof (reached_fine per pol clk w os So) as F. fold x in F.
  destruct (pop_step per pol clk x o) as [x' f] eqn:E. cbn. destruct Ho as [-> | ->]; [exact (update_save_boom _ _ _ _ _ _ _ _ F E)|exact (update_boom _ _ _ _ _ _ _ _ F E)].
Qed.
Print Assumptions panic_update_exact.

Theorem panic_register_unchanged : forall V P (per : persister P) pol clk (w : world P) (os : list (pop V)) k d vp,
  Forall sound_op os -> sound_op (QRegister k d vp) ->
  let x := fst (pop_run per pol clk (new_psw w) os) in
  snd (pop_step per pol clk x (QRegister k d vp)) = Boom -> fst (pop_step per pol clk x (QRegister k d vp)) = x.
Proof.
  intros V P per pol clk w os k d vp So Sv x. pose proof (reached_fine per pol clk w os So) as F. fold x in F.
  destruct (pop_step per pol clk x (QRegister k d vp)) as [x' f] eqn:E. exact (register_boom _ _ _ _ _ _ _ _ _ F Sv E).
Qed.
Print Assumptions panic_register_unchanged.

(** A batch update that panics has made the updates before the first value whose check panics, and saved none. *)
Theorem panic_batch_prefix : forall V P (per : persister P) pol clk (w : world P) (os : list (pop V)) kvs,
  Forall sound_op os ->
  let x := fst (pop_run per pol clk (new_psw w) os) in
  let x' := fst (pop_step per pol clk x (QBatchUpdate kvs)) in
  snd (pop_step per pol clk x (QBatchUpdate kvs)) = Boom ->
  exists a k v b, kvs = a ++ (k, v) :: b /\ poison (x_s x) k v /\
    x' = fst (pop_run per pol clk x (map (fun kv => QUpdateNoPersist (fst kv) (snd kv)) a)) /\
    Forall returned (snd (pop_run per pol clk x (map (fun kv => QUpdateNoPersist (fst kv) (snd kv)) a))) /\
    w_p (x_w x') = w_p (x_w x).
Proof.
  intros V P per pol clk w os kvs So x x' Hf. pose proof (reached_fine per pol clk w os So) as F. fold x in F. subst x'.
  destruct (pop_step per pol clk x (QBatchUpdate kvs)) as [x' f] eqn:E. cbn in Hf. subst f. exact (batch_boom _ _ _ _ _ _ F E).
Qed.
Print Assumptions panic_batch_prefix.

(** A processor for texts that panics when it checks "boom". *)
Definition touchy : pproc string :=
  PProc (fun s => if s =? "boom" then None else Some (true, "")) (fun s => Some s).
(** One that accepts "boom" and panics when it converts it. *)
Definition unsound : pproc string :=
  PProc (fun s => Some (true, "")) (fun s => if s =? "boom" then None else Some s).
Definition two_keys (p : pproc string) : list (pop string) := [QRegister "a" "1" (Some p); QRegister "b" "2" (Some p)].

Example panic_update_case : Forall sound_op (two_keys touchy) /\
  snd (pop_run noop_persister PolNoop (fun _ => (0, 0)%Z) (new_psw (World tt None 0))
    (two_keys touchy ++ [QUpdate "a" "x"; QUpdate "a" "boom"; QGetString "a"; QBatchUpdate [("b", "y"); ("a", "boom")]; QGetString "b"])) =
  [Ret (RErr None); Ret (RErr None); Ret (RKVErr None); Boom; Ret (RStr (Some "x")); Boom; Ret (RStr (Some "y"))].
Proof.
  split; [|vm_compute; reflexivity]. repeat constructor; intros v e _; discriminate.
Qed.

(** That a call that panics has no effect is false for batch updates. *)
Theorem panic_atomic_refuted : ~ forall V P (per : persister P) pol clk (w : world P) (os : list (pop V)) o,
  Forall sound_op os -> sound_op o ->
  let x := fst (pop_run per pol clk (new_psw w) os) in
  snd (pop_step per pol clk x o) = Boom -> fst (pop_step per pol clk x o) = x.
Proof.
  intros H. assert (So : Forall sound_op (two_keys touchy)) by (repeat constructor; intros v e _; discriminate).
  pose proof (H string unit noop_persister PolNoop (fun _ => (0, 0)%Z) (World tt None 0) (two_keys touchy) (QBatchUpdate [("b", "y"); ("a", "boom")]) So I) as E.
  cbv zeta in E. specialize (E eq_refl). apply (f_equal (fun x => q_kvstr (x_s x) "b")) in E. vm_compute in E. discriminate.
Qed.
Print Assumptions panic_atomic_refuted.

(** If a processor panics converting a value that it accepted, a lock stays locked: that calls do not block is
    false then. *)
Theorem panic_never_blocks_refuted : ~ forall V P (per : persister P) pol clk (w : world P) (os : list (pop V)),
  Forall (fun f => f <> Stuck) (snd (pop_run per pol clk (new_psw w) os)).
Proof.
  intros H. specialize (H string unit noop_persister PolNoop (fun _ => (0, 0)%Z) (World tt None 0) (two_keys unsound ++ [QUpdate "a" "boom"; QGet "b"])).
  vm_compute in H. do 3 (inversion H as [|? ? _ H']; clear H; rename H' into H; subst).
  inversion H as [|? ? X _]. congruence.
Qed.
Print Assumptions panic_never_blocks_refuted.

(** For good: if an update panics although checking the value does not, then whatever calls follow, no read,
    reset, registration or removal returns. *)
Theorem panic_blocks_forever : forall V P (per : persister P) pol clk (x : psw V P) k v (os : list (pop V)) o,
  snd (pop_step per pol clk x (QUpdateNoPersist k v)) = Boom -> ~ poison (x_s x) k v -> needs_kv o ->
  let x1 := fst (pop_step per pol clk x (QUpdateNoPersist k v)) in
  ~ returned (snd (pop_step per pol clk (fst (pop_run per pol clk x1 os)) o)).
Proof.
  intros V P per pol clk x k v os o Hf Np N x1. subst x1. destruct (pop_step per pol clk x (QUpdateNoPersist k v)) as [x1 f] eqn:E. cbn in Hf |- *. subst f.
  pose proof (run_locked per pol clk os x1 (boom_locks _ _ _ _ _ _ _ E Np)) as L.
  destruct (pop_step per pol clk (fst (pop_run per pol clk x1 os)) o) as [x' f] eqn:E2. exact (step_stuck _ _ _ _ _ _ _ L N E2).
Qed.
Print Assumptions panic_blocks_forever.

Definition unsound_store : psw string unit :=
  fst (pop_run noop_persister PolNoop (fun _ => (0, 0)%Z) (new_psw (World tt None 0)) (two_keys unsound)).
Example panic_blocks_case :
  snd (pop_step noop_persister PolNoop (fun _ => (0, 0)%Z) unsound_store (QUpdateNoPersist "a" "boom")) = Boom /\
  ~ poison (x_s unsound_store) "a" "boom" /\ needs_kv (V := string) (QGet "b").
Proof.
  split; [vm_compute; reflexivity|]. split; [|exact I]. intros (_ & p & Hp & Hv). vm_compute in Hp. injection Hp as <-. discriminate.
Qed.

(** * Values that others saved *)

(** If the persister has a value whose check panics, no read of any key returns. *)
Theorem poison_blocks_reads : forall V P (per : persister P) pol clk (x : psw V P) k v o,
  always_loads pol -> In (k, v) (snd (fst (ps_load per (w_p (x_w x))))) -> poison (x_s x) k v -> is_read o ->
  ~ returned (snd (pop_step per pol clk x o)).
Proof.
  intros V P per pol clk x k v o Ha Hin Po Hr. destruct (pop_step per pol clk x o) as [x' f] eqn:E.
  exact (read_poison _ _ _ _ _ _ _ _ _ Ha Hin Po Hr E).
Qed.
Print Assumptions poison_blocks_reads.

(** With Redis this lasts: all reads panic, in any number. *)
Theorem poison_lasts : forall V ord pol clk (w : world redis) (os rs : list (pop V)) k v,
  (forall n h, Permutation (ord n h) h) -> always_loads pol -> Forall sound_op os -> Forall is_read rs ->
  let per := redis_persister (fun _ => true) ord in
  let x := fst (pop_run per pol clk (new_psw w) os) in
  In (k, v) (r_hash (w_p (x_w x))) -> poison (x_s x) k v ->
  Forall (eq Boom) (snd (pop_run per pol clk x rs)).
Proof.
  intros V ord pol clk w os rs k v Ho Ha So Hr per x Hin Po.
  exact (reads_poisoned ord pol clk Ho rs x k v Ha (reached_fine per pol clk w os So) Hin Po Hr).
Qed.
Print Assumptions poison_lasts.

(** Resetting the key deletes the value; then all reads return again. *)
Theorem poison_reset : forall V ord pol clk (w : world redis) (os : list (pop V)) k o,
  (forall n h, Permutation (ord n h) h) -> Forall sound_op os -> is_read o ->
  let per := redis_persister (fun _ => true) ord in
  let x := fst (pop_run per pol clk (new_psw w) os) in
  let x1 := fst (pop_step per pol clk x (QReset k)) in
  (forall k' v, In (k', v) (r_hash (w_p (x_w x))) -> k' <> k -> ~ poison (x_s x) k' v) ->
  snd (pop_step per pol clk x (QReset k)) = Ret RDone /\ returned (snd (pop_step per pol clk x1 o)).
Proof.
  intros V ord pol clk w os k o Ho So Hr per x x1 C. pose proof (reached_fine per pol clk w os So) as F. fold x in F.
  destruct (pop_step per pol clk x (QReset k)) as [y f] eqn:E. cbn in x1. subst x1. destruct (pop_step per pol clk y o) as [z g] eqn:E2.
  exact (reset_recovers ord pol clk Ho x k o y f z g F C E Hr E2).
Qed.
Print Assumptions poison_reset.

(** The text of a public key that is not RSA is such a value. *)
Theorem poison_key : forall K (parse : string -> option (pub_key K)) show (s : pstore (option K)) k v,
  k <> "" -> q_procs s k = Some (key_processor (read_public parse) show) ->
  (poison s k v <-> rsa_validate (read_public parse) show v = Panic).
Proof.
  intros K parse show s k v Hk Hp. unfold poison. rewrite Hp. split.
  - intros (_ & p & [= <-] & H). cbn in H. unfold rsa_validate in *. destruct (v =? "")%string; [discriminate|].
    destruct (read_public parse v); [discriminate|discriminate|reflexivity].
  - intros H. split; [exact Hk|]. eexists. split; [reflexivity|]. cbn. rewrite H. reflexivity.
Qed.
Print Assumptions poison_key.

Definition key_store : list (pop (option nat)) :=
  [QRegister "key" "" (Some (key_processor (read_public (fun _ => Some OtherKey)) (fun _ => "bad")));
   QRegister "name" "n" (Some (total (Proc (fun _ => (true, "")) (fun _ => None))))].
Definition key_world : world redis := World (Redis [("name", "m"); ("key", "AAAA")] 0) None 0.

(** That one bad value concerns only reads of its key is false. *)
Theorem poison_contained_refuted : ~ forall V ord pol clk (w : world redis) (os : list (pop V)) k,
  Forall sound_op os ->
  let per := redis_persister (fun _ => true) ord in
  let x := fst (pop_run per pol clk (new_psw w) os) in
  (forall v, In (k, v) (r_hash (w_p (x_w x))) -> ~ poison (x_s x) k v) ->
  returned (snd (pop_step per pol clk x (QGet k))).
Proof.
  intros H. assert (So : Forall sound_op key_store).
  { constructor; [apply key_sound|]. constructor; [apply total_sound|constructor]. }
  destruct (H (option nat) (fun _ h => h) PolSimple (fun _ => (0, 0)%Z) key_world key_store "name" So) as [a E].
  - intros v Hin (_ & p & Hp & Hv). vm_compute in Hp. injection Hp as <-. cbn in Hv. discriminate.
  - vm_compute in E. discriminate.
Qed.
Print Assumptions poison_contained_refuted.

Example poison_case : snd (pop_run (redis_persister (fun _ => true) (fun _ h => h)) PolSimple (fun _ => (0, 0)%Z) (new_psw key_world)
    (key_store ++ [QGetString "name"; QGetString "name"; QReset "key"; QGetString "name"])) =
  [Ret (RErr None); Ret (RErr None); Boom; Boom; Ret RDone; Ret (RStr (Some "m"))].
Proof. vm_compute. reflexivity. Qed.
