(** What the size and the idle minimum of a Redis client mean. *)
From Verif Require Import Common ConfsModel ConfsSpec RedisPoolModel RedisPoolSpec RedisPoolProofs.
Local Open Scope Z_scope.

(** Without a customizer the pool has the configured size, or ten per processor if that is 0; a negative size panics. *)
Theorem redis_pool_size : forall cpus conf,
  (re_pool conf = 0 -> pool_size_of cpus (redis_prepare conf None) = Some (10 * cpus)) /\
  (0 < re_pool conf -> pool_size_of cpus (redis_prepare conf None) = Some (re_pool conf)) /\
  (re_pool conf < 0 -> pool_size_of cpus (redis_prepare conf None) = None) /\ rn_min_idle (redis_prepare conf None) = re_min_idle conf.
Proof.
  intros cpus conf. unfold pool_size_of. cbn. split; [intros ->; reflexivity|]. split; [|split; [|reflexivity]]; intros H.
  - destruct (re_pool conf =? 0) eqn:E1; [lia|]. destruct (re_pool conf <? 0) eqn:E2; [lia|reflexivity].
  - destruct (re_pool conf =? 0) eqn:E1; [lia|]. destruct (re_pool conf <? 0) eqn:E2; [reflexivity|lia].
Qed.
Print Assumptions redis_pool_size.

(** Never more than Pool connections are in the hands of callers; never more than twice Pool exist, and never more than
    Pool if no idle minimum is configured. *)
Theorem redis_pool_bounded : forall l es s, 0 <= rl_size l -> redis_run l es (new_pool l) = Some s ->
  0 <= in_use s <= rl_size l /\ redis_conns s <= 2 * rl_size l /\ rp_free s + rp_adding s <= rl_size l /\ (rl_min l <= 0 -> redis_conns s <= rl_size l).
Proof.
  intros l es s P H. destruct (rrun_sound _ _ _ _ (new_sound l P) H) as [W A D I U X L R F Ad T Tl Lo Un Ln Sz Fu Ma M].
  unfold busy, redis_conns, in_use in *. repeat split; try lia.
Qed.
Print Assumptions redis_pool_bounded.

(** Callers wait only for their turn, and only while Pool callers (or reapers) have theirs. *)
Theorem redis_pool_waits : forall l es s, 0 <= rl_size l -> redis_run l es (new_pool l) = Some s -> 0 < rp_waiting s ->
  (redis_step l RTurn s = None <-> busy s = rl_size l) /\ busy s <= rl_size l.
Proof.
  intros l es s P H Q. destruct (rrun_sound _ _ _ _ (new_sound l P) H) as [W A D I U X L R F Ad T Tl Lo Un Ln Sz Fu Ma M].
  rewrite <- T. split; [|exact Tl]. destruct s as [turns waiting asking discarding dialing used extra leaving reaping free adding len size lost]. fields. cbn [redis_step].
  destruct (0 <? waiting) eqn:E1; [|lia]. destruct (turns <? rl_size l) eqn:E2; cbn [andb]; split; intros Z0; try discriminate; try reflexivity; lia.
Qed.
Print Assumptions redis_pool_waits.

(** While no connect for the idle minimum fails, MinIdle connections are idle or being made, or the pool is full: all of
    its connections are idle, being made or with callers.  And not more than MinIdle are being made for that. *)
Theorem redis_pool_idle : forall l es s, 0 <= rl_size l -> ~ In RAddFailed es -> redis_run l es (new_pool l) = Some s ->
  (rl_min l <= rp_free s + rp_adding s \/ rp_free s + rp_adding s + rp_used s + rp_discarding s = rl_size l) /\
  rp_adding s <= Z.max 0 (rl_min l).
Proof.
  intros l es s P N H. pose proof (rrun_supplied l es _ _ (new_sound l P) (new_supplied l P) N H) as Q.
  assert (L0 : rp_lost s = 0).
  { assert (K : forall es s0 s, rp_lost s0 = 0 -> ~ In RAddFailed es -> redis_run l es s0 = Some s -> rp_lost s = 0).
    { clear. induction es as [|e es IH]; intros s0 s Z0 N H; cbn [redis_run] in H; [now injection H as <-|]. destruct (redis_step l e s0) as [s1|] eqn:E; [|discriminate].
      apply (IH s1 s); [|intros X; apply N; now right|exact H]. destruct s0 as [turns waiting asking discarding dialing used extra leaving reaping free adding len size lost]. fields.
      destruct e; try (exfalso; apply N; now left); cbn [redis_step] in E; unfold check_min in E; split_ifs; reflexivity. }
    apply (K es (new_pool l) s); [|exact N|exact H]. unfold new_pool, check_min. destruct (rl_min l =? 0); reflexivity. }
  destruct (rrun_sound _ _ _ _ (new_sound l P) H) as [W A D I U X L R F Ad T Tl Lo Un Ln Sz Fu Ma M]. unfold supplied in Q. lia.
Qed.
Print Assumptions redis_pool_idle.

(** A pooled connection that is given back is kept.  A new connection is pooled unless the pool is full; without an idle
    minimum all connections are pooled. *)
Theorem redis_pool_reuse : forall l es s, 0 <= rl_size l -> redis_run l es (new_pool l) = Some s ->
  (forall s', redis_step l RPut s = Some s' -> rp_free s' = rp_free s + 1 /\ rp_used s' = rp_used s - 1) /\
  (forall s', redis_step l RPop s = Some s' -> 0 < rp_free s -> rp_free s' = rp_free s - 1 /\ rp_used s' = rp_used s + 1) /\
  (forall s', rl_undo l = true -> redis_step l RDialed s = Some s' ->
     rp_used s' = rp_used s + 1 \/ rp_free s + rp_adding s + rp_used s + rp_discarding s = rl_size l) /\
  (rl_min l <= 0 -> rp_extra s = 0).
Proof.
  intros l es s P H. destruct (rrun_sound _ _ _ _ (new_sound l P) H) as [W A D I U X L R F Ad T Tl Lo Un Ln Sz Fu Ma M]. clear H.
  destruct s as [turns waiting asking discarding dialing used extra leaving reaping free adding len size lost]. unfold busy, redis_conns, in_use in *. fields.
  split; [|split; [|split]].
  - intros s' H. cbn [redis_step] in H. split_ifs. fields. lia.
  - intros s' H Q. cbn [redis_step] in H. unfold check_min in H. split_ifs; bools; fields; lia.
  - intros s' V H. specialize (Un V). cbn [redis_step] in H. split_ifs; bools; fields; lia.
  - intros Q. apply M. exact Q.
Qed.
Print Assumptions redis_pool_reuse.

(** What is false: with an idle minimum a pool of size 1 can have two connections; the idle minimum is not restored after
    a failed connect as long as nobody takes an idle connection; and in versions that do not take the counters back, a
    failed connect makes the pool useless for good: every connection is closed after its use. *)
Theorem redis_pool_refuted :
  (exists es s, redis_run (mkRl 1 1 true) es (new_pool (mkRl 1 1 true)) = Some s /\ rp_free s = 1 /\ in_use s = 1) /\
  (exists es s, redis_run (mkRl 3 2 true) es (new_pool (mkRl 3 2 true)) = Some s /\ rp_free s = 0 /\ rp_adding s = 0 /\ in_use s = 0 /\ rp_size s = 0) /\
  (exists es s, redis_run (mkRl 1 1 false) es (new_pool (mkRl 1 1 false)) = Some s /\
     forall es' s', redis_run (mkRl 1 1 false) es' s = Some s' -> rp_free s' = 0 /\ rp_used s' = 0).
Proof.
  split; [|split].
  - exists [RArrive; RTurn; RPop; RDialed; RAdded]. eexists. split; [reflexivity|]. split; reflexivity.
  - exists [RAddFailed; RAddFailed]. eexists. split; [reflexivity|]. repeat split.
  - exists [RAddFailed]. eexists. split; [reflexivity|].
    assert (K : forall es' s1 s', rsound (mkRl 1 1 false) s1 -> rp_lost s1 = 1 -> redis_run (mkRl 1 1 false) es' s1 = Some s' -> rp_free s' = 0 /\ rp_used s' = 0).
    { induction es' as [|e es' IH]; intros s1 s' G E H; cbn [redis_run] in H.
      - injection H as <-. destruct G as [W A D I U X L R F Ad T Tl Lo Un Ln Sz Fu Ma M]. cbn [rl_size rl_min] in *. lia.
      - destruct (redis_step _ e s1) as [s2|] eqn:Es; [|discriminate]. pose proof (rstep_sound _ _ _ _ G Es) as G2. apply (IH s2 s' G2); [|exact H].
        destruct G as [W A D I U X L R F Ad T Tl Lo Un Ln Sz Fu Ma M]. cbn [rl_size rl_min] in *.
        destruct s1 as [turns waiting asking discarding dialing used extra leaving reaping free adding len size lost]. fields.
        destruct e; cbn [redis_step] in Es; unfold check_min in Es; cbn [rl_size rl_min rl_undo] in Es; split_ifs; bools; fields; try reflexivity; lia. }
    intros es' s' H. refine (K es' _ s' _ _ H); [|reflexivity]. apply (rstep_sound (mkRl 1 1 false) RAddFailed (new_pool (mkRl 1 1 false))); [|reflexivity]. apply new_sound. cbn. lia.
Qed.
Print Assumptions redis_pool_refuted.

(** A case: two connections, no idle minimum; the third caller gets its turn when the first leaves. *)
Example redis_pool_case :
  let l := mkRl 2 0 true in
  let start := [RArrive; RArrive; RArrive; RTurn; RTurn; RPop; RPop; RDialed; RDialed] in
  redis_run l start (new_pool l) = Some (mkRp 2 1 0 0 0 2 0 0 0 0 0 0 2 0) /\
  redis_step l RTurn (mkRp 2 1 0 0 0 2 0 0 0 0 0 0 2 0) = None /\
  redis_run l (start ++ [RPut; RLeave; RTurn; RPop]) (new_pool l) = Some (mkRp 2 0 0 0 0 2 0 0 0 0 0 0 2 0) /\
  ~ In RAddFailed start.
Proof. cbv zeta. repeat (split; [reflexivity|]). cbn. intuition discriminate. Qed.
