(** Theorems about processors that call the store they belong to (C111). *)
From Verif Require Import Common Bytes StoreModel StorePanicModel StoreNestModel StoreNestSpec StoreNestProofs StoreNestBlocks StoreNestEndless.
From Coq Require Import Permutation.
Local Open Scope string_scope.
Local Open Scope list_scope.

(** With processors that do not call the store it is the one of C88 and C89: same results, same surroundings. *)
Theorem nest_plain_same : forall V P (per : persister P) pol clk (w : world P) (os : list (pop V)) f,
  exists y, n_run per pol clk (S f) (new_nsw w) (map nested os) = Some (y, snd (pop_run per pol clk (new_psw w) os)) /\
    y_w y = x_w (fst (pop_run per pol clk (new_psw w) os)).
Proof.
  intros V P per pol clk w os f. destruct (agrees_run per pol clk f os _ _ (new_alike pol w)) as (y & E & A). exists y. split; [exact E|].
  unfold alike in A. tauto.
Qed.
Print Assumptions nest_plain_same.

(** A call ends in one way at most. *)
Theorem nest_ends_once : forall V P (per : persister P) pol clk (x : nsw V P) o y f y' f',
  ends per pol clk x o y f -> ends per pol clk x o y' f' -> y = y' /\ f = f'.
Proof. intros V P per pol clk x o y f y' f'. apply ends_once. Qed.
Print Assumptions nest_ends_once.

(** * Processors that read the store to check values *)

(** In a store that never gets values from its persister all calls return. *)
Theorem nest_inquiries_return : forall V P (per : persister P) pol clk (w : world P) (os : list (nop V)) f,
  loads_nothing per pol -> Forall careful_op os ->
  exists y rs, n_run per pol clk (S f) (new_nsw w) os = Some (y, map Ret rs).
Proof.
  intros V P per pol clk w os f Q Co. destruct (run_free per pol clk Q f os _ (new_free w) Co) as (y & rs & E & _). eauto.
Qed.
Print Assumptions nest_inquiries_return.

(** The value is checked against what the store shows at that moment: it becomes the current value if that check
    accepts it; otherwise nothing changes and the error is returned. *)
Theorem nest_update_checks : forall V P (per : persister P) pol clk (w : world P) (os : list (nop V)) x k v p,
  loads_nothing per pol -> Forall careful_op os -> reached per pol clk (new_nsw w) os x -> k <> "" -> y_procs x k = Some p ->
  exists ok e y, answer (y_read_value x) (y_read_string x) (n_validate p v) = Some (ok, e) /\
    ends per pol clk x (NUpdateNoPersist k v) y (Ret (RKVErr (if ok then None else Some (KVError k v e)))) /\
    (forall k', k' <> k \/ ok = false -> y_read_value y k' = y_read_value x k' /\ y_read_string y k' = y_read_string x k') /\
    (ok = true -> exists c, n_convert p v = Ans c /\ y_read_value y k = Some c /\ y_read_string y k = Some v).
Proof.
  intros V P per pol clk w os x k v p Q Co (n & fs & R) Hk Ep.
  assert (F : free x).
  { destruct n as [|n].
    - destruct (run_free per pol clk Q 0 os _ (new_free w) Co) as (y & rs & E & F).
      assert (M : forall os (x0 : nsw V P) y gs, n_run per pol clk 0 x0 os = Some (y, gs) -> n_run per pol clk 1 x0 os = Some (y, gs)).
      { clear. induction os as [|o os IH]; intros x0 y gs H; [exact H|]. cbn [n_run] in *.
        destruct (n_step per pol clk 0 x0 o) as [[z f]|] eqn:S; [|discriminate]. rewrite (step_more per pol clk 0 1 _ _ _ _ (le_S _ _ (le_n 0)) S).
        destruct (n_run per pol clk 0 z os) as [[t hs]|] eqn:R; [|discriminate]. rewrite (IH _ _ _ R). exact H. }
      rewrite (M _ _ _ _ R) in E. injection E as -> _. exact F.
    - destruct (run_free per pol clk Q n os _ (new_free w) Co) as (y & rs & E & F). rewrite R in E. injection E as -> _. exact F. }
  destruct (update_quiet per pol clk Q 0 x k v F Hk) as (y & r & E & _ & M). rewrite Ep in M.
  destruct (answer (y_read_value x) (y_read_string x) (n_validate p v)) as [[ok e]|]; [|contradiction]. exists ok, e, y. split; [reflexivity|].
  destruct ok.
  - destruct M as (-> & M1 & M2 & M3 & M4 & c & Ec & M5). split; [|split].
    + exists 1%nat. unfold n_step, nmap. rewrite E. reflexivity.
    + intros k' [N|N]; [|discriminate]. unfold y_read_value, y_read_string. rewrite M2, M3, M4, M5, !mset_other by exact N. auto.
    + intros _. exists c. split; [exact Ec|]. unfold y_read_value, y_read_string. rewrite M4, M5, !mset_same. auto.
  - destruct M as (-> & S). split; [|split].
    + exists 1%nat. unfold n_step, nmap. rewrite E. reflexivity.
    + intros k' _. destruct (still_reads _ _ S) as [-> ->]. auto.
    + discriminate.
Qed.
Print Assumptions nest_update_checks.

(** A processor for a number of digits, at most as many as the text of the key "max" has; the default "" passes. *)
Definition shorter (a b : string) : bool := Nat.leb (String.length a) (String.length b).
Definition limited : nproc string :=
  NProc (fun v => if v =? "" then Ans (true, "")
                  else AskStr "max" (fun m => match m with
                                              | Some m => if shorter v m then Ans (true, "") else Ans (false, "too long")
                                              | None => Ans (false, "no max")
                                              end))
        (fun v => Ans v).
Definition free_text : nproc string := NProc (fun _ => Ans (true, "")) (fun v => Ans v).
Definition limited_store : list (nop string) := [NRegister "max" "iii" (Some free_text); NRegister "name" "" (Some limited)].
Lemma limited_careful : Forall careful_op limited_store.
Proof.
  constructor; [|constructor; [|constructor]]; (split; [split|]).
  - intros v. constructor.
  - intros v. exists v. reflexivity.
  - eexists. reflexivity.
  - intros v. cbn. destruct (v =? "")%string; constructor. intros [m|]; [destruct (shorter v m)|]; constructor.
  - intros v. exists v. reflexivity.
  - eexists. reflexivity.
Qed.
Example nest_inquiry_case : Forall careful_op limited_store /\ loads_nothing noop_persister PolSimple /\
  option_map snd (n_run noop_persister PolSimple (fun _ => (0, 0)%Z) 1 (new_nsw (World tt None 0))
    (limited_store ++ [NUpdate "name" "abcd"; NUpdate "max" "iiiii"; NUpdate "name" "abcd"; NGetString "name"])) =
  Some [Ret (RErr None); Ret (RErr None); Ret (RKVErr (Some (KVError "name" "abcd" "too long"))); Ret (RKVErr None); Ret (RKVErr None); Ret (RStr (Some "abcd"))].
Proof. split; [exact limited_careful|]. split; [right; reflexivity|]. vm_compute. reflexivity. Qed.

(** * Calls that do not return *)

(** A processor that reads or resets something to convert a value: the update that accepts the value does not return,
    and from then on no read, reset, registration or removal does, whatever calls are made. *)
Theorem nest_convert_blocks : forall V P (per : persister P) pol clk (x : nsw V P) k v p e,
  k <> "" -> y_procs x k = Some p -> n_validate p v = Ans (true, e) -> needs_values_first (n_convert p v) ->
  k_procs x = false -> k_kv x = false ->
  never_returns per pol clk x (NUpdateNoPersist k v) /\ never_returns per pol clk x (NUpdate k v) /\
  (loads_nothing per pol -> k_load x = false -> exists y, ends per pol clk x (NUpdateNoPersist k v) y Stuck) /\
  forall y f os z o, ends per pol clk x (NUpdateNoPersist k v) y f -> reached per pol clk y os z -> using_values o ->
    never_returns per pol clk z o.
Proof.
  intros V P per pol clk x k v p e Hk Ep Ev N L1 L2.
  assert (B : forall n y f, n_update per pol clk n x k v = Some (y, f) -> kv_locked y /\ forall a, f <> Ret a)
    by (intros n y f; exact (convert_blocks per pol clk n x k v p e y f Hk Ep Ev N L1 L2)).
  split; [|split; [|split]].
  - intros y r [n E]. apply nmap_inv in E. destruct E as [(a & E & _)|[[_ E]|[_ E]]]; [|discriminate..]. exact (proj2 (B _ _ _ E) a eq_refl).
  - intros y r [n E]. apply nmap_inv in E. destruct E as [(a & E & _)|[[_ E]|[_ E]]]; [|discriminate..].
    apply bind_inv in E. destruct E as [(z & b & E & _)|[[_ E]|[_ E]]]; [|discriminate..]. exact (proj2 (B _ _ _ E) b eq_refl).
  - intros Q L3. destruct (convert_waits per pol clk Q 0 x k v p e Hk Ep Ev N L1 L2 L3) as [y E]. exists y, 1%nat. unfold n_step, nmap. rewrite E. reflexivity.
  - intros y f os z o [n E] (m & fs & R) U t r [i F].
    assert (K : kv_locked y) by (apply nmap_inv in E; destruct E as [(a & E & _)|[[E _]|[E _]]]; exact (proj1 (B _ _ _ E))).
    exact (proj2 (kv_step per pol clk i z o t _ (kv_run per pol clk m os y z fs K R) F) U r eq_refl).
Qed.
Print Assumptions nest_convert_blocks.

Definition greedy : nproc string := NProc (fun _ => Ans (true, "")) (fun v => if v =? "" then Ans "" else AskStr "max" (fun m => Ans v)).
Example nest_convert_case :
  option_map snd (n_run noop_persister PolNoop (fun _ => (0, 0)%Z) 1 (new_nsw (World tt None 0))
    [NRegister "max" "iii" (Some free_text); NRegister "name" "" (Some greedy); NGetString "max"; NUpdate "name" "a"; NGetString "max"; NReset "max"]) =
  Some [Ret (RErr None); Ret (RErr None); Ret (RStr (Some "iii")); Stuck; Stuck; Stuck] /\
  needs_values_first (n_convert greedy "a").
Proof. split; [vm_compute; reflexivity|exact I]. Qed.

(** A processor that calls any method to check the default value: the registration does not return; if it waits for
    ever, then from then on no read, reset, registration or removal returns. *)
Theorem nest_register_blocks : forall V P (per : persister P) pol clk (x : nsw V P) k d p,
  k <> "" -> y_procs x k = None -> y_def x k = None -> calls_first (n_validate p d) -> k_procs x = false -> k_kv x = false ->
  never_returns per pol clk x (NRegister k d (Some p)) /\
  (loads_nothing per pol -> k_load x = false -> exists y, ends per pol clk x (NRegister k d (Some p)) y Stuck) /\
  forall y os z o, ends per pol clk x (NRegister k d (Some p)) y Stuck -> reached per pol clk y os z -> using_values o ->
    never_returns per pol clk z o.
Proof.
  intros V P per pol clk x k d p Hk Ep Ed N L1 L2.
  assert (B : forall n y f, n_register_key per pol clk (n_update per pol clk n) x k d (Some p) = Some (y, f) -> (forall a, f <> Ret a) /\ (f = Stuck -> kv_locked y /\ k_procs y = true))
    by (intros n y f; exact (register_blocks per pol clk n x k d p y f Hk Ep Ed N L1 L2)).
  split; [|split].
  - intros y r [n E]. apply nmap_inv in E. destruct E as [(a & E & _)|[[_ E]|[_ E]]]; [|discriminate..]. exact (proj1 (B _ _ _ E) a eq_refl).
  - intros Q L3. destruct (register_waits per pol clk Q 0 x k d p Hk Ep Ed N L1 L2 L3) as [y E]. exists y, 1%nat. unfold n_step, nmap. rewrite E. reflexivity.
  - intros y os z o [n E] (m & fs & R) U t r [i F].
    assert (K : kv_locked y) by (apply nmap_inv in E; destruct E as [(a & _ & E)|[[_ E]|[E _]]]; [discriminate..|exact (proj1 (proj2 (B _ _ _ E) eq_refl))]).
    exact (proj2 (kv_step per pol clk i z o t _ (kv_run per pol clk m os y z fs K R) F) U r eq_refl).
Qed.
Print Assumptions nest_register_blocks.

Example nest_register_case :
  option_map snd (n_run noop_persister PolNoop (fun _ => (0, 0)%Z) 1 (new_nsw (World tt None 0))
    [NRegister "max" "iii" (Some free_text); NRegister "name" "ab" (Some limited); NGetString "max"; NUpdate "max" "i"]) =
  Some [Ret (RErr None); Stuck; Stuck; Stuck] /\ calls_first (n_validate limited "ab").
Proof. split; [vm_compute; reflexivity|exact I]. Qed.

(** A load policy with an interval and a saved value whose check reads the store: no read that is due to load returns;
    if it waits for ever, no read of any key returns from then on. *)
Theorem nest_interval_blocks : forall V P (per : persister P) d clk (x : nsw V P) k v p o,
  let pol := PolInterval d in
  wants_load pol (w_last (y_w x)) (fst (clk (w_tick (y_w x)))) = true -> In (k, v) (snd (fst (ps_load per (w_p (y_w x))))) ->
  k <> "" -> y_procs x k = Some p -> asks_first (n_validate p v) -> reading o ->
  never_returns per pol clk x o /\
  forall y os z o', ends per pol clk x o y Stuck -> reached per pol clk y os z -> reading o' ->
    forall t f, ends per pol clk z o' t f -> f = Stuck.
Proof.
  intros V P per d clk x k v p o pol W Hin Hk Ep N Rd. split.
  - intros y r [n E]. exact (proj1 (reading_blocks per pol clk eq_refl n x o k v p y _ W Hin Ep Hk N Rd E) r eq_refl).
  - intros y os z o' [n E] (m & fs & R) Rd' t f [i F].
    pose proof (proj2 (reading_blocks per pol clk eq_refl n x o k v p y _ W Hin Ep Hk N Rd E) eq_refl) as L.
    rewrite (ll_reading per pol clk eq_refl i z o' (ll_run per pol clk eq_refl m os y z fs L R) Rd') in F. injection F as _ <-. reflexivity.
Qed.
Print Assumptions nest_interval_blocks.

Definition saved_name : world redis := World (Redis [("name", "ab")] 0) None 0.
Example nest_interval_case :
  option_map snd (n_run (redis_persister (fun _ => true) (fun _ h => h)) (PolInterval 1000) (fun n => (Z.of_nat n, Z.of_nat n)) 2 (new_nsw saved_name)
    (limited_store ++ [NGetString "max"; NGetString "max"; NUpdateNoPersist "max" "i"])) =
  Some [Ret (RErr None); Ret (RErr None); Stuck; Stuck; Ret (RKVErr None)] /\ asks_first (n_validate limited "ab").
Proof. split; [vm_compute; reflexivity|exact I]. Qed.

(** With SimpleLoadPolicy every read goes on for ever, one load within the other. *)
Theorem nest_simple_endless : forall V ord clk (x : nsw V redis) k v p o,
  (forall n h, Permutation (ord n h) h) ->
  k_procs x = false -> k_kv x = false -> (forall k p, y_procs x k = Some p -> inquirer p) ->
  k <> "" -> y_procs x k = Some p -> asks_first (n_validate p v) -> In (k, v) (r_hash (w_p (y_w x))) -> reading o ->
  endless (redis_persister (fun _ => true) ord) PolSimple clk x o.
Proof.
  intros V ord clk x k v p o Ho L1 L2 Iq Hk Ep N Hin Rd y f [n E].
  rewrite (reading_endless ord clk Ho k v p Hk N n x o) in E; [discriminate| |exact Rd].
  unfold trapped. auto.
Qed.
Print Assumptions nest_simple_endless.

(** That processors may read the store to check values is false for stores that load (here is also a case for
    the theorem before). *)
Theorem nest_inquiries_return_refuted : ~ forall V P (per : persister P) pol clk (w : world P) (os : list (nop V)) x o,
  Forall careful_op (o :: os) -> reached per pol clk (new_nsw w) os x -> exists y r, ends per pol clk x o y (Ret r).
Proof.
  intros H. pose (per := redis_persister (fun _ => true) (fun _ h => h)). pose (clk := fun n : nat => (0, 0)%Z).
  pose (x := NSW (mset (mset mempty "max" free_text) "name" limited) (mset (mset mempty "max" "iii") "name" "") (mset (mset mempty "max" "iii") "name" "")
               mempty mempty saved_name false false false).
  destruct (H string redis per PolSimple clk saved_name limited_store x (NGet "max")) as (y & r & E).
  - constructor; [exact I|exact limited_careful].
  - exists 1%nat, [Ret (RErr None); Ret (RErr None)]. reflexivity.
  - apply (nest_simple_endless string (fun _ h => h) clk x "name" "ab" limited (NGet "max")) with (y := y) (f := Ret r); try reflexivity; try exact I; try exact E.
    + intros k p Hp. pose proof limited_careful as C. apply Forall_inv_tail in C as C2. apply Forall_inv in C. apply Forall_inv in C2.
      cbn in C, C2. cbn [y_procs x] in Hp. unfold x in Hp. cbn in Hp. unfold mset, mempty in Hp.
      destruct (k =? "name")%string; [injection Hp as <-; exact (proj1 C2)|]. destruct (k =? "max")%string; [injection Hp as <-; exact (proj1 C)|discriminate].
    + discriminate.
    + left. reflexivity.
Qed.
Print Assumptions nest_inquiries_return_refuted.
