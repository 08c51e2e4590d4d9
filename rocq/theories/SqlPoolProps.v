(** What the limits of the connection pools mean. *)
From Verif Require Import Common ConfsModel SqlPoolModel SqlPoolSpec SqlPoolProofs.
Local Open Scope Z_scope.

(** With MaxOpenConns above 0 there are never more connections than that, those that are being made or closed included,
    whatever callers, servers and the clock do. *)
Theorem pool_open_bounded : forall p es s, pool_run (pool_limits p) es fresh = Some s -> 0 < p_open p -> connections s <= p_open p.
Proof.
  intros p es s H P. pose proof (run_sound _ _ _ _ (fresh_sound _) H) as G. pose proof (so_limit _ _ G) as L. pose proof (so_count _ _ G) as N.
  rewrite limits_open in L. lia.
Qed.
Print Assumptions pool_open_bounded.

(** There are never more idle connections than MaxIdleConns allows: none if it is 0 or less, and not more than
    MaxOpenConns. *)
Theorem pool_idle_bounded : forall p es s, pool_run (pool_limits p) es fresh = Some s -> exists n, idle_allowed p n /\ 0 <= db_free s <= n.
Proof.
  intros p es s H. pose proof (run_sound _ _ _ _ (fresh_sound _) H) as G. exists (max_idle (pool_limits p)). split; [apply limits_idle|].
  pose proof (so_idle _ _ G). pose proof (so_free _ _ G). lia.
Qed.
Print Assumptions pool_idle_bounded.

(** A connection that is given back is handed to a waiting caller, or else kept as long as fewer than allowed are idle,
    and closed otherwise. *)
Theorem pool_keeps : forall p n es s s', pool_run (pool_limits p) es fresh = Some s -> idle_allowed p n -> pool_step (pool_limits p) PutBack s = Some s' ->
  (0 < db_waiting s -> db_waiting s' = db_waiting s - 1 /\ db_used s' = db_used s /\ db_free s' = db_free s /\ db_closing s' = db_closing s) /\
  (db_waiting s = 0 -> db_free s < n -> db_free s' = db_free s + 1 /\ db_used s' = db_used s - 1 /\ db_closing s' = db_closing s) /\
  (db_waiting s = 0 -> n <= db_free s -> db_free s' = db_free s /\ db_used s' = db_used s - 1 /\ db_closing s' = db_closing s + 1).
Proof.
  intros p n es s s' H A E. pose proof (run_sound _ _ _ _ (fresh_sound _) H) as G. pose proof (so_limit _ _ G) as L.
  assert (Hn : n = max_idle (pool_limits p)). { pose proof (limits_idle p) as B. unfold idle_allowed in *. lia. }
  destruct s as [open free used dialing opening closing waiting]. cbn in *. unfold put_conn in E.
  cbn [db_open db_free db_used db_dialing db_opening db_closing db_waiting] in E. split_ifs; bools; cbn; lia.
Qed.
Print Assumptions pool_keeps.

(** A caller waits only with MaxOpenConns above 0, and only while that many connections exist or enough connections for
    all waiting callers are being made. *)
Theorem pool_waits_only : forall p es s, pool_run (pool_limits p) es fresh = Some s -> 0 < db_waiting s ->
  0 < p_open p /\ (connections s = p_open p \/ db_waiting s <= db_opening s).
Proof.
  intros p es s H W. pose proof (run_sound _ _ _ _ (fresh_sound _) H) as G. destruct (so_wait _ _ G W) as [P Q]. rewrite limits_open in *.
  rewrite <- (so_count _ _ G). lia.
Qed.
Print Assumptions pool_waits_only.

(** No waiting caller is forgotten: while one waits no connection is idle; once callers have given back their connections
    and nothing is under way, nobody waits; until then something can happen, and without further callers it does not go on
    forever.  Callers must not insist on new connections (the driver reported two broken connections to them). *)
Theorem pool_nobody_forgotten : forall p es s, any_will_do es -> pool_run (pool_limits p) es fresh = Some s ->
  (0 < db_waiting s -> db_free s = 0) /\ (at_rest s -> db_waiting s = 0) /\
  (~ at_rest s -> exists e s', In e [Dialed; PutBack; Opened; ClosedConn] /\ pool_step (pool_limits p) e s = Some s') /\
  ~ endless (pool_limits p) s.
Proof.
  intros p es s A H. pose proof (run_sound _ _ _ _ (fresh_sound _) H) as G.
  assert (F : 0 < db_waiting s -> db_free s = 0) by (apply (idle_waits (pool_limits p) es fresh s (fresh_sound _)); [intros _; reflexivity|exact A|exact H]).
  split; [exact F|]. split; [|split; [apply rest_or_event; exact G|]].
  - intros (R1 & R2 & R3 & R4). pose proof (so_waiting _ _ G) as W. destruct (Z.eq_dec (db_waiting s) 0) as [E|E]; [exact E|]. assert (P : 0 < db_waiting s) by lia.
    destruct (so_wait _ _ G P) as [Q1 [Q2|Q2]]; [|lia]. pose proof (so_count _ _ G) as C. unfold connections in C. specialize (F P). lia.
  - apply (ends _ (S (Z.to_nat (db_waiting s))) (S (Z.to_nat (weight s))) s G); pose proof (so_waiting _ _ G); pose proof (weight_pos _ _ G); lia.
Qed.
Print Assumptions pool_nobody_forgotten.

(** What is false: without a limit on open connections, which is also what MaxOpenConns 0 means, there may be any number;
    with MaxIdleConns 0 every connection is closed after its first use though nobody asked for that; and a caller that
    insists on a new connection waits although a connection is idle and nothing is under way. *)
Theorem pool_limits_refuted :
  (forall p n, p_open p <= 0 -> exists es s, pool_run (pool_limits p) es fresh = Some s /\ db_used s = Z.of_nat n) /\
  (forall p es s s', p_idle p <= 0 -> pool_run (pool_limits p) es fresh = Some s -> db_waiting s = 0 ->
     pool_step (pool_limits p) PutBack s = Some s' -> db_closing s' = db_closing s + 1) /\
  (exists p es s, p_open p = 1 /\ p_idle p = 1 /\ pool_run (pool_limits p) es fresh = Some s /\ at_rest s /\ db_free s = 1 /\ db_waiting s = 1).
Proof.
  split; [|split].
  - intros p n P. eexists. eexists. split; [apply unlimited_grows; rewrite limits_open; lia|reflexivity].
  - intros p es s s' P H W E. destruct (pool_idle_bounded p es s H) as (n & A & B). destruct (pool_keeps p n es s s' H A E) as (_ & _ & K).
    destruct A as [A _]. specialize (A P). apply K; lia.
  - exists (mkPool 1 1 0), [Ask false; Dialed; PutBad; ClosedConn; Ask false; Dialed; PutBack; Ask true], (mkDb 1 1 0 0 0 0 1).
    repeat split.
Qed.
Print Assumptions pool_limits_refuted.

(** A case: two connections at most, one idle; the third caller gets the connection of the first. *)
Example pool_case :
  let p := mkPool 2 5 0 in
  pool_run (pool_limits p) [Ask false; Ask false; Dialed; Dialed; Ask false; Ask false] fresh = Some (mkDb 2 0 2 0 0 0 2) /\
  pool_run (pool_limits p) [Ask false; Ask false; Dialed; Dialed; Ask false; Ask false; PutBack; PutBad] fresh = Some (mkDb 2 0 1 0 0 1 1) /\
  pool_run (pool_limits p) [Ask false; Ask false; Dialed; Dialed; Ask false; Ask false; PutBack; PutBad; ClosedConn] fresh = Some (mkDb 2 0 1 0 1 0 1) /\
  pool_run (pool_limits p) [Ask false; Ask false; Dialed; Dialed; Ask false; Ask false; PutBack; PutBad; ClosedConn; Opened; PutBack; PutBack] fresh = Some (mkDb 2 2 0 0 0 0 0) /\
  idle_allowed p 2 /\ any_will_do [Ask false; Ask false; Dialed; Dialed; Ask false; Ask false].
Proof. cbv zeta. repeat (split; [reflexivity|]). unfold idle_allowed, any_will_do. cbn. split; [repeat split; intros; lia|intuition discriminate]. Qed.
