(** Proofs about the connection pool. *)
From Verif Require Import Common ConfsModel SqlPoolModel SqlPoolSpec.
Local Open Scope Z_scope.

(** * The limits *)

Lemma set_idle_open n l : li_open (set_max_idle n l) = li_open l.
Proof. unfold set_max_idle. cbn [li_open li_idle]. destruct (_ && _); reflexivity. Qed.
Lemma set_open_open n l : li_open (set_max_open n l) = Z.max 0 n.
Proof.
  unfold set_max_open. cbn [li_open li_idle]. assert (E : (if n <? 0 then 0 else n) = Z.max 0 n) by (destruct (n <? 0) eqn:?; lia).
  rewrite E. destruct (_ && _); [rewrite set_idle_open|]; reflexivity.
Qed.
Lemma limits_open p : li_open (pool_limits p) = Z.max 0 (p_open p).
Proof. unfold pool_limits. rewrite set_idle_open. apply set_open_open. Qed.
Lemma limits_idle p : idle_allowed p (max_idle (pool_limits p)).
Proof.
  unfold idle_allowed, pool_limits. pose proof (set_open_open (p_open p) (mkLimits 0 0)) as O'.
  set (l := set_max_open (p_open p) (mkLimits 0 0)) in *.
  assert (V : forall x y, max_idle (mkLimits x y) = if y =? 0 then 2 else if y <? 0 then 0 else y) by reflexivity.
  unfold set_max_idle. cbn [li_open li_idle]. rewrite O', V. destruct (0 <? p_idle p) eqn:E1.
  - destruct (p_idle p =? 0) eqn:E2; [lia|]. destruct (p_idle p <? 0) eqn:E3; [lia|].
    destruct (0 <? Z.max 0 (p_open p)) eqn:E4; cbn [andb]; [destruct (Z.max 0 (p_open p) <? p_idle p) eqn:E5|]; rewrite V.
    + destruct (Z.max 0 (p_open p) =? 0) eqn:E6; [lia|]. destruct (Z.max 0 (p_open p) <? 0) eqn:E7; lia.
    + rewrite E2, E3. lia.
    + rewrite E2, E3. lia.
  - change (-1 =? 0) with false. change (-1 <? 0) with true. cbn iota.
    destruct (0 <? Z.max 0 (p_open p)) eqn:E4; cbn [andb]; [destruct (Z.max 0 (p_open p) <? 0) eqn:E5; [lia|]|]; rewrite V; change (-1 =? 0) with false; change (-1 <? 0) with true; cbn iota; lia.
Qed.

(** * Invariants *)

Record sound (l : limits) (s : dbpool) : Prop := {
  so_free : 0 <= db_free s; so_used : 0 <= db_used s; so_dialing : 0 <= db_dialing s; so_opening : 0 <= db_opening s;
  so_closing : 0 <= db_closing s; so_waiting : 0 <= db_waiting s;
  so_count : db_open s = connections s;
  so_limit : 0 < li_open l -> db_open s <= li_open l;
  so_idle : db_free s <= max_idle l;
  so_wait : 0 < db_waiting s -> 0 < li_open l /\ (db_open s = li_open l \/ db_waiting s <= db_opening s) }.
Lemma max_idle_pos l : 0 <= max_idle l.
Proof. unfold max_idle. destruct (li_idle l =? 0) eqn:?; [lia|]. destruct (li_idle l <? 0) eqn:?; lia. Qed.
Lemma fresh_sound l : sound l fresh.
Proof. pose proof (max_idle_pos l). constructor; cbn in *; try lia. Qed.

Ltac split_ifs :=
  repeat match goal with
  | H : context [if ?b then _ else _] |- _ => destruct b eqn:?
  | H : Some _ = Some _ |- _ => injection H as H; subst
  | H : None = Some _ |- _ => discriminate H
  | H : match (if ?b then _ else _) with _ => _ end = _ |- _ => destruct b eqn:?
  end.
Ltac bools := repeat rewrite ?andb_true_iff, ?andb_false_iff, ?negb_true_iff, ?negb_false_iff in *.
Lemma step_sound l e s s' : sound l s -> pool_step l e s = Some s' -> sound l s'.
Proof.
  intros [F U D O C W N L I Q] H. destruct s as [open free used dialing opening closing waiting]. unfold connections in N. cbn in *.
  pose proof (max_idle_pos l) as P.
  destruct e; cbn [pool_step] in H; unfold put_conn, maybe_open in H; cbn [db_open db_free db_used db_dialing db_opening db_closing db_waiting] in H; split_ifs; bools;
    constructor; unfold connections; cbn; try lia.
Qed.
Lemma run_sound l es : forall s s', sound l s -> pool_run l es s = Some s' -> sound l s'.
Proof.
  induction es as [|e es IH]; intros s s' S H; cbn in H; [now injection H as <-|]. destruct (pool_step l e s) as [s1|] eqn:E; [|discriminate].
  exact (IH s1 s' (step_sound l e s s1 S E) H).
Qed.
Lemma idle_waits_step l e s s' : sound l s -> (0 < db_waiting s -> db_free s = 0) -> e <> Ask true -> pool_step l e s = Some s' -> 0 < db_waiting s' -> db_free s' = 0.
Proof.
  intros [F U D O C W N L I Q] K A H. destruct s as [open free used dialing opening closing waiting]. unfold connections in N. cbn in *.
  destruct e as [[]| | | | | | | | | |]; try congruence; cbn [pool_step] in H; unfold put_conn, maybe_open in H; cbn [db_open db_free db_used db_dialing db_opening db_closing db_waiting] in H; split_ifs; bools; cbn; lia.
Qed.
Lemma idle_waits l es : forall s s', sound l s -> (0 < db_waiting s -> db_free s = 0) -> any_will_do es -> pool_run l es s = Some s' -> 0 < db_waiting s' -> db_free s' = 0.
Proof.
  induction es as [|e es IH]; intros s s' S K A H; cbn in H; [now injection H as <-|]. destruct (pool_step l e s) as [s1|] eqn:E; [|discriminate].
  apply (IH s1 s' (step_sound l e s s1 S E)); [|intros X; apply A; now right|exact H]. apply (idle_waits_step l e s s1 S K); [|exact E]. intros ->. apply A. now left.
Qed.

(** * Executions without further callers end *)

Definition weight (s : dbpool) : Z :=
  4 * db_dialing s + 3 * db_used s + 2 * db_free s + db_closing s + (if db_waiting s =? 0 then 3 * db_opening s else 0).
Lemma no_call_smaller l e s s' : sound l s -> no_call e -> pool_step l e s = Some s' ->
  db_waiting s' < db_waiting s \/ (db_waiting s' = db_waiting s /\ weight s' < weight s).
Proof.
  intros [F U D O C W N L I Q] A H. destruct s as [open free used dialing opening closing waiting]. unfold connections in N. cbn in *. unfold weight.
  destruct e as [b| | | | | | | | | |]; [now destruct (A b)|..]; cbn [pool_step] in H; unfold put_conn, maybe_open in H; cbn [db_open db_free db_used db_dialing db_opening db_closing db_waiting] in H; split_ifs; bools; cbn [db_open db_free db_used db_dialing db_opening db_closing db_waiting];
    repeat match goal with |- context [if ?b then _ else _] => destruct b eqn:? end; lia.
Qed.
Lemma weight_pos l s : sound l s -> 0 <= weight s.
Proof. intros [F U D O C W N L I Q]. unfold weight. destruct (db_waiting s =? 0); lia. Qed.
Lemma ends l w : forall m s, sound l s -> db_waiting s < Z.of_nat w -> weight s < Z.of_nat m -> ~ endless l s.
Proof.
  induction w as [|w IHw]; intros m s G Hw; [pose proof (so_waiting _ _ G); lia|]. revert s G Hw. induction m as [|m IHm]; intros s G Hw Hm; [pose proof (weight_pos _ _ G); lia|].
  intros (st & ev & E0 & Hs). destruct (Hs 0%nat) as [A E]. rewrite E0 in E. pose proof (step_sound _ _ _ _ G E) as G1.
  assert (En : endless l (st 1%nat)). { exists (fun i => st (S i)), (fun i => ev (S i)). split; [reflexivity|]. intros i. exact (Hs (S i)). }
  destruct (no_call_smaller _ _ _ _ G A E) as [Lt|[Eq Lt]].
  - apply (IHw (S (Z.to_nat (weight (st 1%nat)))) (st 1%nat) G1); [lia| |exact En]. pose proof (weight_pos _ _ G1). lia.
  - apply (IHm (st 1%nat) G1); [lia|lia|exact En].
Qed.
Lemma rest_or_event l s : sound l s -> ~ at_rest s -> exists e s', In e [Dialed; PutBack; Opened; ClosedConn] /\ pool_step l e s = Some s'.
Proof.
  intros [F U D O C W N L I Q] R. destruct s as [open free used dialing opening closing waiting]. cbn in F, U, D, O, C, W. unfold at_rest in R. cbn in R.
  destruct (0 <? dialing) eqn:E1; [exists Dialed; unfold pool_step; rewrite E1; eexists; split; [cbn; tauto|reflexivity]|].
  destruct (0 <? used) eqn:E2.
  { exists PutBack. cbn [pool_step]. rewrite E2. destruct (put_conn _ _); eexists; (split; [cbn; tauto|reflexivity]). }
  destruct (0 <? opening) eqn:E3.
  { exists Opened. cbn [pool_step]. rewrite E3. destruct (put_conn _ _); eexists; (split; [cbn; tauto|reflexivity]). }
  destruct (0 <? closing) eqn:E4; [exists ClosedConn; unfold pool_step; rewrite E4; eexists; split; [cbn; tauto|reflexivity]|]. exfalso. apply R. lia.
Qed.

Lemma run_app l a : forall b s, pool_run l (a ++ b) s = match pool_run l a s with Some s' => pool_run l b s' | None => None end.
Proof. induction a as [|e a IH]; intros b s; [reflexivity|]. cbn [pool_run app]. destruct (pool_step l e s); [apply IH|reflexivity]. Qed.
Lemma unlimited_grows l n : li_open l = 0 -> pool_run l (repeat (Ask false) n ++ repeat Dialed n) fresh = Some (mkDb (Z.of_nat n) 0 (Z.of_nat n) 0 0 0 0).
Proof.
  intros E. rewrite run_app.
  assert (A : forall n m, 0 <= m -> pool_run l (repeat (Ask false) n) (mkDb m 0 0 m 0 0 0) = Some (mkDb (m + Z.of_nat n) 0 0 (m + Z.of_nat n) 0 0 0)).
  { clear n. induction n as [|n IH]; intros m Hm; cbn [repeat pool_run]; [f_equal; f_equal; lia|].
    cbn [pool_step]. change (0 <? 0) with false. rewrite E. change (0 <? 0) with false. cbn [negb andb]. rewrite IH by lia. f_equal; f_equal; lia. }
  change fresh with (mkDb 0 0 0 0 0 0 0). rewrite (A n 0) by lia.
  assert (D : forall n m, 0 <= m -> pool_run l (repeat Dialed n) (mkDb (m + Z.of_nat n) 0 m (Z.of_nat n) 0 0 0) = Some (mkDb (m + Z.of_nat n) 0 (m + Z.of_nat n) 0 0 0 0)).
  { clear. induction n as [|n IH]; intros m Hm; cbn [repeat pool_run]; [f_equal; f_equal; lia|].
    cbn [pool_step]. assert (P : (0 <? Z.of_nat (S n)) = true) by (apply Z.ltb_lt; lia). rewrite P. replace (Z.of_nat (S n) - 1) with (Z.of_nat n) by lia.
    replace (m + Z.of_nat (S n)) with (m + 1 + Z.of_nat n) by lia. apply IH. lia. }
  exact (D n 0 (Z.le_refl 0)).
Qed.
