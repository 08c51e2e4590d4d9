(** What the limits of an HTTP client on its connections mean. *)
From Verif Require Import Common ConfsModel HttpPoolModel HttpPoolSpec HttpPoolProofs.
Local Open Scope Z_scope.

Lemma limits_pos conns wait : 0 <= hl_conns (host_limits conns wait).
Proof. unfold host_limits, max_conns. cbn [hl_conns]. destruct (conns <=? 0) eqn:E; lia. Qed.

(** There are never more connections to a host than MaxConnsPerHost (512 if that is 0 or less), those that are being made
    included. *)
Theorem http_pool_bounded : forall conns wait es s, http_run (host_limits conns wait) es new_host = Some s ->
  exists n, host_limit conns n /\ 0 <= host_conns s <= n /\ 0 <= hp_idle s.
Proof.
  intros conns wait es s H. destruct (hrun_sound _ _ _ _ (new_hsound _ (limits_pos conns wait)) H) as [I U D De Q R C N L W].
  exists (max_conns conns). split; [apply limit_is|]. unfold host_limits in L. cbn [hl_conns] in L. unfold host_conns in *. lia.
Qed.
Print Assumptions http_pool_bounded.

(** A caller gets an idle connection if there is one, makes one if there are fewer than the limit, and otherwise waits if
    MaxConnWaitTimeout is above 0, and is refused if not. *)
Theorem http_pool_meets : forall conns wait n es s, http_run (host_limits conns wait) es new_host = Some s -> host_limit conns n ->
  match meets (host_limits conns wait) s with
  | MIdle => 0 < hp_idle s
  | MDial => hp_idle s = 0 /\ host_conns s < n
  | MWait => hp_idle s = 0 /\ host_conns s = n /\ 0 < wait
  | MRefused => hp_idle s = 0 /\ host_conns s = n /\ wait <= 0
  end /\ (wait <= 0 -> hp_queued s = 0).
Proof.
  intros conns wait n es s H B. destruct (hrun_sound _ _ _ _ (new_hsound _ (limits_pos conns wait)) H) as [I U D De Q R C N L W].
  assert (E : n = max_conns conns). { pose proof (limit_is conns) as X. unfold host_limit in *. lia. }
  unfold meets. rewrite <- N in *. unfold host_limits in *. cbn [hl_conns hl_wait] in *. split.
  - destruct (0 <? hp_idle s) eqn:E1; [lia|]. destruct (hp_count s <? max_conns conns) eqn:E2; [lia|]. destruct (0 <? wait) eqn:E3; lia.
  - intros Wt. apply W. lia.
Qed.
Print Assumptions http_pool_meets.

(** A connection that is given back goes to a caller in the queue, and is kept otherwise; if one is closed, or cannot be
    made, a new one is made for a caller in the queue. *)
Theorem http_pool_serves : forall conns wait es s s', http_run (host_limits conns wait) es new_host = Some s -> 0 < hp_queued s ->
  (http_step (host_limits conns wait) HRelease s = Some s' -> hp_queued s' = hp_queued s - 1 /\ hp_used s' = hp_used s /\ hp_idle s' = hp_idle s) /\
  (forall e, In e [HDialFailed; HClose; HCleaned] -> http_step (host_limits conns wait) e s = Some s' ->
     hp_queued s' = hp_queued s - 1 /\ hp_redialing s' = hp_redialing s + 1 /\ host_conns s' = host_conns s).
Proof.
  intros conns wait es s s' H P. destruct (hrun_sound _ _ _ _ (new_hsound _ (limits_pos conns wait)) H) as [I U D De Q R C N L W]. clear H.
  unfold host_limits in *. cbn [hl_conns hl_wait] in *. destruct (0 <? wait) eqn:E; [|specialize (W eq_refl); lia].
  destruct s as [count idle used dialing deciding queued redialing cleaning]. unfold host_conns in *. fields. split.
  - intros H. cbn [http_step] in H. unfold release in H. cbn [hl_wait andb] in H. split_ifs; bools; fields; lia.
  - intros e [<-|[<-|[<-|[]]]] H; cbn [http_step] in H; unfold dec_count in H; cbn [hl_wait andb] in H; split_ifs; bools; fields; lia.
Qed.
Print Assumptions http_pool_serves.

(** If every caller that finds no connection gets into the queue before anything else happens, and none gives up in the
    instant in which it is served, a caller waits only while the limit is reached and none is idle, so that nobody waits
    once all connections are given back. *)
Theorem http_pool_waits : forall conns wait es s, queues_at_once (host_limits conns wait) es new_host ->
  http_run (host_limits conns wait) es new_host = Some s ->
  (0 < hp_queued s -> hp_idle s = 0 /\ exists n, host_limit conns n /\ host_conns s = n) /\ (host_rest s -> hp_queued s = 0).
Proof.
  intros conns wait es s A H. pose proof (hrun_sound _ _ _ _ (new_hsound _ (limits_pos conns wait)) H) as G.
  assert (K : calm_queue (host_limits conns wait) s).
  { apply (hrun_calm _ es new_host s (new_hsound _ (limits_pos conns wait))); [|exact A|exact H]. unfold calm_queue, new_host. fields. lia. }
  pose proof (limit_is conns) as B. destruct G as [I U D De Q R C N L W]. unfold calm_queue, host_limits in K. cbn [hl_conns] in K. split.
  - intros P. assert (K' : hp_idle s = 0 /\ hp_count s = max_conns conns) by (apply K; lia). split; [apply K'|]. exists (max_conns conns). split; [exact B|]. lia.
  - intros (R1 & R2 & R3 & R4 & R5). destruct (Z.eq_dec (hp_queued s) 0) as [E|E]; [exact E|]. assert (K' : hp_idle s = 0 /\ hp_count s = max_conns conns) by (apply K; lia).
    unfold host_conns, host_limit in *. lia.
Qed.
Print Assumptions http_pool_waits.

(** Without that it is false: a caller can wait for its whole timeout although a connection is idle and nothing is under
    way, and even although there is no connection at all. *)
Theorem http_pool_refuted :
  (exists es s, http_run (host_limits 1 1) es new_host = Some s /\ host_rest s /\ hp_queued s = 1 /\ hp_idle s = 1) /\
  (exists es s, http_run (host_limits 1 1) es new_host = Some s /\ host_rest s /\ hp_queued s = 1 /\ host_conns s = 0) /\
  (exists es s, http_run (host_limits 1 1) es new_host = Some s /\ In HMissed es /\ host_rest s /\ hp_queued s = 1 /\ hp_idle s = 1).
Proof.
  split; [|split].
  - exists [HAsk; HDialed; HAsk; HRelease; HQueue]. eexists. split; [reflexivity|]. repeat split.
  - exists [HAsk; HDialed; HAsk; HClose; HQueue]. eexists. split; [reflexivity|]. repeat split.
  - exists [HAsk; HDialed; HAsk; HQueue; HAsk; HQueue; HMissed]. eexists. split; [reflexivity|]. repeat split. cbn. tauto.
Qed.
Print Assumptions http_pool_refuted.

(** A case: one connection; the second caller waits and gets it, the third is served by a new one. *)
Example http_pool_case :
  let l := host_limits 1 1000 in
  let es := [HAsk; HDialed; HAsk; HQueue; HAsk; HQueue; HRelease; HClose] in
  http_run l es new_host = Some (mkHp 1 0 0 0 0 0 1 0) /\ queues_at_once l es new_host /\ host_limit 1 1 /\ host_limit 0 512 /\
  meets (host_limits 1 0) (mkHp 1 0 1 0 0 0 0 0) = MRefused /\ http_run (host_limits 1 0) [HAsk; HDialed] new_host = Some (mkHp 1 0 1 0 0 0 0 0).
Proof.
  cbv zeta. split; [reflexivity|]. split; [|split; [unfold host_limit; lia|split; [unfold host_limit; lia|split; reflexivity]]].
  cbn. repeat split; try discriminate; intros; try reflexivity; lia.
Qed.
