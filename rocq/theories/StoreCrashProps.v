(** Theorems about a config store whose persister may panic, or is nil (C120). *)
From Verif Require Import Common Bytes StoreModel StorePanicModel StorePanicSpec StorePanicProofs StorePanicProps StoreCrashModel StoreCrashSpec StoreCrashProofs.
Local Open Scope string_scope.
Local Open Scope list_scope.

(** With a persister that does not panic the store is the one of C88. *)
Theorem crash_free_same : forall V P (per : persister P) pol clk (x : psw V P) os,
  c_run (steady per) pol clk x os = pop_run per pol clk x os.
Proof. intros. apply steady_run. Qed.
Print Assumptions crash_free_same.

(** No call ever waits for a lock that stays locked, however often the persister panicked before. *)
Theorem crash_never_blocks : forall V P (per : cpersister P) pol clk (w : world P) (os : list (pop V)),
  Forall sound_op os -> Forall (fun f => f <> Stuck) (snd (c_run per pol clk (new_psw w) os)).
Proof.
  intros V P per pol clk w os So. destruct (c_run per pol clk (new_psw w) os) as [x fs] eqn:R.
  exact (proj2 (crash_run_fine per pol clk os _ _ _ (new_fine w) So R)).
Qed.
Print Assumptions crash_never_blocks.

(** A call other than a read leaves the store as if the persister had returned an error; it panics exactly if
    checking a value does or if it asks the persister and that panics. *)
Theorem crash_write_exact : forall V P (per : cpersister P) pol clk (x : psw V P) (o : pop V), ~ is_read o ->
  fst (c_step per pol clk x o) = fst (pop_step (calm per) pol clk x o) /\
  (write_panics per pol clk x o -> snd (c_step per pol clk x o) = Boom) /\
  (~ write_panics per pol clk x o -> snd (c_step per pol clk x o) = snd (pop_step (calm per) pol clk x o)).
Proof.
  intros V P per pol clk x o N. destruct (write_step per pol clk x o N) as [E [[A B]|[A B]]]; (split; [exact E|]); (split; [|intros]); tauto || auto.
Qed.
Print Assumptions crash_write_exact.

(** A read does what it does with a persister that returns an error, or panics in a load; then the store is as after
    the loads up to that one. *)
Theorem crash_read : forall V P (per : cpersister P) pol clk (x : psw V P) (o : pop V), is_read o ->
  c_step per pol clk x o = pop_step (calm per) pol clk x o \/
  snd (c_step per pol clk x o) = Boom /\
  exists i, fst (c_step per pol clk x o) = fst (pop_run (calm per) pol clk x (repeat (QGet "") (S i))) /\
    load_panics per pol clk (fst (pop_run (calm per) pol clk x (repeat (QGet "") i))).
Proof. intros V P per pol clk x o R. exact (read_step per pol clk x o R). Qed.
Print Assumptions crash_read.

(** If the policy says to load and the persister panics, the read panics, whatever it asks for; the load does not
    count for the policy. *)
Theorem crash_read_panics : forall V P (per : cpersister P) pol clk (w : world P) (os : list (pop V)) o,
  Forall sound_op os -> is_read o ->
  let x := fst (c_run per pol clk (new_psw w) os) in
  load_panics per pol clk x ->
  snd (c_step per pol clk x o) = Boom /\ w_last (x_w (fst (c_step per pol clk x o))) = w_last (x_w x).
Proof.
  intros V P per pol clk w os o So R x L. destruct (c_run per pol clk (new_psw w) os) as [x0 fs] eqn:Er. subst x. cbn [fst] in *.
  pose proof (proj1 (crash_run_fine per pol clk os _ _ _ (new_fine w) So Er)) as F. assert (So1 : sound_op o) by (destruct o; try destruct R; exact I).
  destruct (c_step per pol clk x0 o) as [y f] eqn:Es. destruct (crash_fine per pol clk _ _ _ _ F So1 Es) as [_ N].
  pose proof (read_panics per pol clk x0 o R L) as B. rewrite Es in B. cbn [fst snd] in *. split.
  - destruct f; [exfalso; apply B; eexists; reflexivity|reflexivity|congruence].
  - exact (read_last per pol clk x0 o y f R L Es).
Qed.
Print Assumptions crash_read_panics.

(** A store without persister (nil), under the policy that never loads: as with NoopPersister, except that a call
    that asks the persister panics after its effect: an update that is refused, a batch update, a reset and a
    deregistration. *)
Theorem nil_persister_exact : forall V clk (w : world unit) (os : list (pop V)),
  fst (c_run nil_persister PolNoop clk (new_psw w) os) = fst (pop_run noop_persister PolNoop clk (new_psw w) os) /\
  snd (c_run nil_persister PolNoop clk (new_psw w) os) =
    map (fun q => without_persister (fst q) (snd q)) (combine os (snd (pop_run noop_persister PolNoop clk (new_psw w) os))).
Proof. intros. apply bare_run. Qed.
Print Assumptions nil_persister_exact.

(** Under a policy that always loads every read panics. *)
Theorem nil_persister_reads : forall V pol clk (w : world unit) (os : list (pop V)) o,
  always_loads pol -> Forall sound_op os -> is_read o ->
  snd (c_step nil_persister pol clk (fst (c_run nil_persister pol clk (new_psw w) os)) o) = Boom.
Proof.
  intros V pol clk w os o A So R. apply (crash_read_panics V unit nil_persister pol clk w os o So R). split; [|reflexivity].
  destruct A as [->|(d & -> & D)]; [reflexivity|]. cbn. replace (d <=? 0)%Z with true by (symmetry; lia). reflexivity.
Qed.
Print Assumptions nil_persister_reads.

(** That a call that panics has no effect is false for a reset. *)
Theorem crash_changes_nothing_refuted :
  ~ (forall (os : list (pop string)) o, Forall sound_op os -> ~ is_read o ->
     let x := fst (c_run nil_persister PolNoop (fun _ => (0, 0)%Z) (new_psw (World tt None 0)) os) in
     snd (c_step nil_persister PolNoop (fun _ => (0, 0)%Z) x o) = Boom ->
     forall k, p_read_string (x_s (fst (c_step nil_persister PolNoop (fun _ => (0, 0)%Z) x o))) k = p_read_string (x_s x) k).
Proof.
  intros H. specialize (H (two_keys touchy ++ [QUpdate "a" "x"]) (QReset "a")).
  assert (So : Forall sound_op (two_keys touchy ++ [QUpdate "a" "x"])) by (repeat constructor; intros v e _; discriminate).
  specialize (H So (fun R => R) eq_refl "a"). vm_compute in H. discriminate.
Qed.
Print Assumptions crash_changes_nothing_refuted.

(** A store without persister in use: updates of valid values and reads work, resets panic and take effect. *)
Example nil_persister_case : Forall sound_op (two_keys touchy) /\
  snd (c_run nil_persister PolNoop (fun _ => (0, 0)%Z) (new_psw (World tt None 0))
    (two_keys touchy ++ [QUpdate "a" "x"; QGetString "a"; QUpdate "c" "y"; QReset "a"; QGetString "a"; QBatchUpdate [("b", "z")]; QGetString "b"; QDeregister "b"; QGetString "b"])) =
  [Ret (RErr None); Ret (RErr None); Ret (RKVErr None); Ret (RStr (Some "x")); Boom; Boom; Ret (RStr (Some "1")); Boom; Ret (RStr (Some "z")); Boom; Ret (RStr None)].
Proof. split; [repeat constructor; intros v e _; discriminate|vm_compute; reflexivity]. Qed.

(** A persister that hands out one entry and panics every other time; the policy loads again until it succeeds. *)
Definition every_other : cpersister bool :=
  CPersister (fun p => (negb p, [("a", "loaded")], if p then Some true else None)) (fun p _ _ => (p, Some true)) (fun p _ => (p, Some true)) (fun p _ => (p, Some true)).
Example crash_read_case :
  let clk := fun n => (Z.of_nat n, Z.of_nat n) in
  let x := fst (c_run every_other (PolInterval 100) clk (new_psw (World false None 0)) (two_keys touchy)) in
  load_panics every_other (PolInterval 100) clk x /\
  snd (c_run every_other (PolInterval 100) clk x [QGetString "b"; QGetString "a"; QGetString "a"; QReset "a"; QGetString "a"]) =
    [Boom; Ret (RStr (Some "loaded")); Ret (RStr (Some "loaded")); Ret RDone; Ret (RStr (Some "1"))].
Proof. cbv zeta. split; [split; vm_compute; reflexivity|vm_compute; reflexivity]. Qed.

(** A reset whose Delete panics asks the persister. *)
Example crash_write_case : write_panics (V := string) nil_persister PolNoop (fun _ => (0, 0)%Z) (new_psw (World tt None 0)) (QReset "a") /\
  ~ write_panics (V := string) nil_persister PolNoop (fun _ => (0, 0)%Z) (new_psw (World tt None 0)) (QBatchUpdate []) /\ ~ is_read (V := string) (QReset "a").
Proof. split; [|split; [intros [N _]; congruence|exact (fun R => R)]]. split; [eexists; reflexivity|reflexivity]. Qed.
