(** Progress: calls come back, the task keeps running until it is stopped, and ends when it is stopped. *)
From Verif Require Import Common Threads ScheduleModel ScheduleSpec ScheduleProofs ScheduleTrace ScheduleRuns.
Local Open Scope list_scope.
Local Open Scope Z_scope.

Lemma texec_continue c t0 n sched sched' : texec c t0 n (sched ++ sched') =
  (fst (exec (tstep c) (fst (texec c t0 n sched)) sched'), snd (texec c t0 n sched) ++ snd (exec (tstep c) (fst (texec c t0 n sched)) sched')).
Proof.
  unfold texec. rewrite exec_app. destruct (exec (tstep c) (init t0 n) sched) as [s tr]. cbn [fst snd].
  destruct (exec (tstep c) s sched') as [s' es]. reflexivity.
Qed.

Lemma texec_cons c s l s1 es sched : tstep c s l = Some (s1, es) ->
  exec (tstep c) s (l :: sched) = (fst (exec (tstep c) s1 sched), es ++ snd (exec (tstep c) s1 sched)).
Proof. intros E. cbn [exec]. rewrite E. destruct (exec (tstep c) s1 sched). reflexivity. Qed.

(** ** Calls come back *)

Lemma append_wait c s i o : sinv c s -> nth_error (t_clients s) i = Some (CAppend o) -> t_cons s = [KWait].
Proof.
  intros HI H. pose proof (append_locked c s i o HI H) as EL. destruct (i_lockst c s HI EL) as (ES & ED).
  destruct (i_delay c s HI ED) as (_ & _ & C3 & _). unfold tokens in C3. rewrite (i_lock c s HI), EL in C3.
  pose proof (i_cons c s HI) as HC. rewrite ES in HC. change (started =? new) with false in HC.
  destruct (t_cons s) as [|x [|]] eqn:Ec; try discriminate. pose proof (live_nonneg (t_timers s)) as P. cbn [sumZ] in C3.
  assert (Hs : t_status s <> stopped) by (rewrite ES; discriminate). destruct (i_alive c s HI Hs) as (HA & _). rewrite Ec in HA.
  inversion HA as [|? ? H1 _]; subst. destruct x; cbn [busy] in C3; lia || congruence || reflexivity.
Qed.

Definition comes_back (c : cfg) (s : task) (i : nat) (o : op) : Prop :=
  exists sched', Forall (fun l => without_job l = true) sched' /\ exists r t, In (ERet i o r t) (snd (exec (tstep c) s sched')).

Lemma back_append c s i o : sinv c s -> nth_error (t_clients s) i = Some (CAppend o) -> comes_back c s i o.
Proof.
  intros HI H. pose proof (append_wait c s i o HI H) as Ec. exists [LClientSend i 0]. split; [repeat constructor|].
  exists Ok, (t_now s). cbn [exec tstep]. unfold receive. rewrite H, Ec. cbn. left. reflexivity.
Qed.

Lemma back_step c s l s1 es i o : tstep c s l = Some (s1, es) -> without_job l = true ->
  (exists r t, In (ERet i o r t) es) \/ comes_back c s1 i o -> comes_back c s i o.
Proof.
  intros E Hl [(r & t & H)|(sched' & HF & r & t & H)].
  - exists [l]. split; [repeat constructor; exact Hl|]. exists r, t. rewrite (texec_cons c s l s1 es [] E). cbn. rewrite app_nil_r. exact H.
  - exists (l :: sched'). split; [constructor; assumption|]. exists r, t. rewrite (texec_cons c s l s1 es _ E). cbn [snd]. apply in_app_iff. right. exact H.
Qed.

Lemma crit_some c s i o : exists s1 es, client_crit c i o s = Some (s1, es).
Proof.
  destruct o; cbn [client_crit]; unfold start_crit, stop_crit, mark_start, mark_stop, returns;
    repeat match goal with |- context [?a =? ?b] => destruct (a =? b) end; destruct (c_kind c); eauto.
Qed.

Lemma back_want c s i o : sinv c s -> nth_error (t_clients s) i = Some (CWant o) -> t_locked s = false -> comes_back c s i o.
Proof.
  intros HI H EL. destruct (crit_some c s i o) as (s1 & es & E).
  assert (Et : tstep c s (LClient i) = Some (s1, es)) by (cbn [tstep]; rewrite H, EL; exact E).
  apply (back_step c s (LClient i) s1 es i o Et eq_refl).
  pose proof (tstep_trans c s _ s1 es Et) as HT. pose proof (sinv_trans c s s1 es HI HT) as HI1.
  assert (K : (exists r t, In (ERet i o r t) es) \/ nth_error (t_clients s1) i = Some (CAppend o)).
  { clear -E H. destruct o; cbn [client_crit] in E; unfold start_crit, stop_crit, mark_start, mark_stop, returns in E;
      repeat match type of E with context [?a =? ?b] => destruct (a =? b) end; try destruct (c_kind c); injection E as <- <-;
      try (left; eexists; eexists; left; reflexivity); right; ss; apply (nth_error_upd_same _ _ _ _ H). }
  destruct K as [K|K]; [left; exact K|right; apply (back_append c s1 i o HI1 K)].
Qed.

Lemma calls_return c t0 n sched i o : pending i (snd (texec c t0 n sched)) = Some o ->
  exists sched' r t, Forall (fun l => without_job l = true) sched' /\
    In (ERet i o r t) (snd (exec (tstep c) (fst (texec c t0 n sched)) sched')).
Proof.
  intros H. destruct (task_jinv c t0 n sched) as (HI & HJ). set (s := fst (texec c t0 n sched)) in *. rewrite (j_pending c s _ HJ i) in H.
  enough (B : comes_back c s i o) by (destruct B as (sched' & HF & r & t & Hin); eauto).
  destruct (nth_error (t_clients s) i) as [[|o'|o']|] eqn:Ei; try discriminate; injection H as ->.
  - destruct (t_locked s) eqn:EL; [|apply (back_want c s i o HI Ei EL)].
    assert (K : exists k q, nth_error (t_clients s) k = Some (CAppend q)).
    { pose proof (i_lock c s HI) as HL. rewrite EL in HL. clear -HL. revert HL. generalize (t_clients s). induction l as [|x l IH]; cbn [sumZ]; [discriminate|].
      destruct x; cbn [app]; intros HL; [destruct (IH ltac:(lia)) as (k & q & H); exists (S k), q; exact H..|]. exists O, o. reflexivity. }
    destruct K as (k & q & Hk). pose proof (append_wait c s k q HI Hk) as Ec.
    assert (Hne : k <> i) by congruence.
    set (s1 := set_client k CIdle (set_locked false (set_cons 0 KCheck s))).
    assert (Et : tstep c s (LClientSend k 0) = Some (s1, [ERet k q Ok (t_now s)])).
    { cbn [tstep]. unfold receive. rewrite Hk, Ec. reflexivity. }
    apply (back_step c s _ _ _ i o Et eq_refl). right.
    apply back_want; [apply (sinv_trans c s s1 _ HI (tstep_trans c s _ _ _ Et))| |reflexivity].
    unfold s1. ss. rewrite nth_error_upd_other by exact Hne. exact Ei.
  - apply (back_append c s i o HI Ei).
Qed.

(** ** Cancellation is possible *)

Lemma cancel_on_stop c t0 n sched m t : let tr := snd (texec c t0 n sched) in
  existsb stop_ok tr = true -> In (EBegin m t) tr -> (forall t', ~ In (EEnd m t') tr) -> (forall t', ~ In (ECancel m t') tr) ->
  exists l t', without_job l = true /\ snd (texec c t0 n (sched ++ [l])) = tr ++ [ECancel m t'].
Proof.
  intros tr Hs Hb He Hc. destruct (task_jinv c t0 n sched) as (HI & HJ). fold tr in HJ. set (s := fst (texec c t0 n sched)) in *.
  assert (Hne : times GBegin m tr <> []) by (intros F; apply in_times_begin in Hb; rewrite F in Hb; destruct Hb).
  destruct (event_run c s tr GBegin m HI HJ Hne) as (j & r & Hj & <-).
  destruct (j_runs c s tr HJ j r Hj) as (_ & B & D & K & _). destruct (i_runno c s HI j r Hj) as (_ & RO).
  assert (ED : times GEnd (r_no r) tr = []).
  { destruct (times GEnd (r_no r) tr) as [|x l] eqn:F; [reflexivity|]. destruct (He x). apply in_times_end. rewrite F. left. reflexivity. }
  assert (EC : times GCancel (r_no r) tr = []).
  { destruct (times GCancel (r_no r) tr) as [|x l] eqn:F; [reflexivity|]. destruct (Hc x). apply in_times_cancel. rewrite F. left. reflexivity. }
  rewrite ED in D. rewrite EC in K. unfold endedW in D. unfold begunW in B.
  assert (Ejob : r_job r = JRun).
  { destruct (r_job r); try reflexivity; [|discriminate]. destruct (times GBegin (r_no r) tr); [contradiction|discriminate]. }
  assert (Edone : r_done r = false) by (destruct (r_done r); [discriminate|reflexivity]).
  unfold run_ok in RO. destruct (r_pc r) eqn:Ep; try congruence; try (destruct RO; congruence).
  assert (Esig : t_sig s = true) by (rewrite (i_sig c s HI), <- (j_stop c s tr HJ); exact Hs).
  exists (LRunStop j), (t_now s). split; [reflexivity|]. rewrite texec_continue. cbn [snd]. fold tr s.
  cbn [exec tstep]. rewrite Hj, Ep, Esig, (cancel_set j (with_pc RFin r) r s). unfold cancels. cbn [with_pc r_done r_no]. rewrite Edone. reflexivity.
Qed.

Lemma cancel_on_timeout c t0 n sched m t : let tr := snd (texec c t0 n sched) in
  In (ELog m t) tr -> (forall t', ~ In (ECancel m t') tr) ->
  exists l, without_job l = true /\
    snd (texec c t0 n (sched ++ [LTime (Z.max 0 (t + c_timeout c - t_now (fst (texec c t0 n sched)))); l])) =
      tr ++ [ECancel m (Z.max (t + c_timeout c) (t_now (fst (texec c t0 n sched))))].
Proof.
  intros tr Hb Hc. destruct (task_jinv c t0 n sched) as (HI & HJ). fold tr in HJ. set (s := fst (texec c t0 n sched)) in *.
  assert (Hne : times GLog m tr <> []) by (intros F; apply in_times_log in Hb; rewrite F in Hb; destruct Hb).
  destruct (event_run c s tr GLog m HI HJ Hne) as (j & r & Hj & <-).
  destruct (j_runs c s tr HJ j r Hj) as (L & _ & _ & K & _). destruct (i_runno c s HI j r Hj) as (_ & RO).
  assert (EC : times GCancel (r_no r) tr = []).
  { destruct (times GCancel (r_no r) tr) as [|x l] eqn:F; [reflexivity|]. destruct (Hc x). apply in_times_cancel. rewrite F. left. reflexivity. }
  rewrite EC in K. assert (Edone : r_done r = false) by (destruct (r_done r); [discriminate|reflexivity]).
  apply in_times_log in Hb. rewrite L in Hb. unfold run_ok in RO.
  exists (LExpire j). split; [reflexivity|]. rewrite texec_continue. cbn [snd]. fold tr s.
  rewrite (texec_cons c s (LTime (Z.max 0 (t + c_timeout c - t_now s))) (set_now (t_now s + Z.max 0 (t + c_timeout c - t_now s)) s) [])
    by (cbn [tstep]; rewrite (proj2 (Z.leb_le _ _)) by lia; reflexivity).
  cbn [snd]. f_equal. cbn [Datatypes.app exec tstep]. ss. rewrite Hj, Edone.
  destruct (r_pc r) eqn:Ep; try congruence; try (destruct RO; congruence); try destruct Hb as [Hb|[]]; try congruence.
  rewrite (proj2 (Z.leb_le _ _)) by lia. unfold cancel. rewrite Edone. cbn. do 2 f_equal. lia.
Qed.

(** ** The task keeps running until it is stopped *)

Definition soon (c : cfg) (s : task) (m budget : Z) : Prop :=
  exists sched', Forall (fun l => no_calls l = true) sched' /\ elapsed sched' <= budget /\
    exists t, In (EBegin m t) (snd (exec (tstep c) s sched')).

Lemma soon_step c s l s1 es m d b : tstep c s l = Some (s1, es) -> no_calls l = true -> soon c s1 m d ->
  elapsed [l] + d <= b -> soon c s m b.
Proof.
  intros E Hl (sched' & HF & He & t & Hin) Hb. exists (l :: sched'). split; [constructor; assumption|]. split; [unfold elapsed in *; cbn [sumZ] in *; lia|].
  exists t. rewrite (texec_cons c s l s1 es _ E). cbn [snd]. apply in_app_iff. right. exact Hin.
Qed.

Lemma soon_now c s l s1 es m t b : tstep c s l = Some (s1, es) -> no_calls l = true -> In (EBegin m t) es -> elapsed [l] <= b -> soon c s m b.
Proof.
  intros E Hl Hin Hb. exists [l]. split; [repeat constructor; exact Hl|]. split; [exact Hb|].
  exists t. rewrite (texec_cons c s l s1 es _ E). cbn [snd]. apply in_app_iff. left. exact Hin.
Qed.

Lemma soon_mono c s m b b' : soon c s m b -> b <= b' -> soon c s m b'.
Proof. intros (sched' & H1 & H2 & H3) H. exists sched'. split; [exact H1|]. split; [lia|exact H3]. Qed.

(** A run that has not begun. *)
Lemma soon_run c s j r : sinv c s -> nth_error (t_runs s) j = Some r -> r_job r = JNone -> soon c s (r_no r) 0.
Proof.
  intros HI Hj Hr.
  assert (K : forall s r, nth_error (t_runs s) j = Some r -> r_job r = JNone -> r_pc r <> RStart -> soon c s (r_no r) 0).
  { clear. intros s r Hj Hr Hp. eapply (soon_now c s (LJobBegin j) _ [EBegin (r_no r) (t_now s)] (r_no r) (t_now s) 0); [|reflexivity|left; reflexivity|cbn; lia].
    cbn [tstep]. rewrite Hj, Hr. destruct (r_pc r); [congruence|reflexivity..]. }
  destruct (r_pc r) eqn:Ep; try (apply (K s r Hj Hr); congruence).
  eapply (soon_step c s (LRun j) _ _ (r_no r) 0 0); [cbn [tstep]; rewrite Hj, Ep; reflexivity|reflexivity| |cbn; lia].
  apply (K _ (Run (r_no r) RSelect (r_job r) (t_now s + c_timeout c) false)).
  - ss. apply (nth_error_upd_same _ _ _ _ Hj).
  - exact Hr.
  - discriminate.
Qed.

Lemma soon_kno c s : sinv c s -> t_cons s = [KNo] -> t_locked s = false -> soon c s (t_no s + 1) 0.
Proof.
  intros HI Ec EL.
  assert (E : exists s1, tstep c s (LCons 0) = Some (s1, []) /\ nth_error (t_runs s1) (length (t_runs s)) = Some (Run (t_no s + 1) RStart JNone 0 false)).
  { cbn [tstep]. unfold cons_step. rewrite Ec, EL. cbn [nth_error].
    assert (H : nth_error (t_runs s ++ [Run (t_no s + 1) RStart JNone 0 false]) (length (t_runs s)) = Some (Run (t_no s + 1) RStart JNone 0 false)).
    { rewrite nth_error_app2, Nat.sub_diag by lia. reflexivity. }
    destruct (c_kind c); eexists; (split; [reflexivity|]); ss; exact H. }
  destruct E as (s1 & E & Hj). pose proof (sinv_trans c s s1 _ HI (tstep_trans c s _ _ _ E)) as HI1.
  apply (soon_step c s (LCons 0) s1 [] _ 0 0 E eq_refl); [|cbn; lia]. exact (soon_run c s1 _ _ HI1 Hj eq_refl).
Qed.

Lemma soon_kcheck c s : sinv c s -> t_cons s = [KCheck] -> t_locked s = false -> t_status s <> stopped -> soon c s (t_no s + 1) 0.
Proof.
  intros HI Ec EL Es.
  assert (E : tstep c s (LCons 0) = Some (set_cons 0 KNo s, [])).
  { cbn [tstep]. unfold cons_step. rewrite Ec, EL. cbn [nth_error]. rewrite (proj2 (Z.eqb_neq _ _) Es). reflexivity. }
  pose proof (sinv_trans c s _ _ HI (tstep_trans c s _ _ _ E)) as HI1.
  apply (soon_step c s (LCons 0) _ [] _ 0 0 E eq_refl); [|cbn; lia].
  apply (soon_kno c (set_cons 0 KNo s) HI1); ss; [rewrite Ec; reflexivity|exact EL].
Qed.

(** Timers and ticker are never set further ahead than the interval. *)
Definition ahead (c : cfg) (s : task) : Prop :=
  (forall j a, nth_error (t_timers s) j = Some (TArmed a) -> a <= t_now s + c_interval c) /\
  (forall next, t_tick s = Some next -> next <= t_now s + c_interval c).

Lemma ahead_same c s s1 : ahead c s -> t_now s <= t_now s1 -> t_timers s1 = t_timers s -> (t_tick s1 = t_tick s \/ t_tick s1 = None) -> ahead c s1.
Proof.
  intros (A & B) E1 E2 E3. split.
  - rewrite E2. intros j a H. specialize (A j a H). lia.
  - intros next H. destruct E3 as [E3|E3]; [|congruence]. rewrite E3 in H. specialize (B next H). lia.
Qed.

Lemma ahead_trans c s s1 es : 0 < c_interval c -> ahead c s -> trans c s s1 es -> ahead c s1.
Proof.
  intros HP HA HT. pose proof HA as (A & B). destruct HT; try (apply (ahead_same c s); auto; ss; lia).
  - split; ss; [exact A|]. intros next [=]. lia.
  - apply (ahead_same c s); auto; ss; [lia|]. destruct (c_kind c); auto.
  - split; ss; [|exact B]. intros j0 a. intros Ha. destruct (Nat.lt_ge_cases j0 (length (t_timers s))) as [Hlt|Hge]; [rewrite nth_error_app1 in Ha by exact Hlt; apply (A j0 a Ha)|]. rewrite nth_error_app2 in Ha by exact Hge. apply nth1 in Ha. destruct Ha; discriminate.
  - split; ss; [exact A|]. intros next' E. assert (E2 : next' = next + c_interval c * (1 + (t_now s - next) / c_interval c)) by congruence. clear E. subst next'.
    pose proof (Z.mul_div_le (t_now s - next) (c_interval c) HP). lia.
  - split; ss; [|exact B]. intros j0 a. rewrite (upd_idle j _ _ _ H). destruct (Nat.eq_dec j j0); [intros [=]; lia|apply A].
  - split; ss; [|exact B]. intros j0 a0. rewrite (upd_idle j _ _ _ H). destruct (Nat.eq_dec j j0); [discriminate|apply A].
  - split; ss; [|exact B]. intros j0 a0. rewrite (upd_idle j _ _ _ H). destruct (Nat.eq_dec j j0); [discriminate|apply A].
  - split; ss; [|exact B]. intros j0 a0. rewrite (upd_idle j _ _ _ H). destruct (Nat.eq_dec j j0); [discriminate|apply A].
Qed.

Lemma task_ahead c t0 n sched : 0 < c_interval c -> ahead c (fst (texec c t0 n sched)).
Proof.
  intros HP. unfold texec.
  assert (K : forall l s, ahead c s -> ahead c (fst (exec (tstep c) s l))).
  { induction l as [|x l IH]; intros s HA; [exact HA|]. cbn [exec]. destruct (tstep c s x) as [[s1 es]|] eqn:E; [|apply IH; exact HA].
    specialize (IH s1 (ahead_trans c s s1 es HP HA (tstep_trans c s _ _ _ E))). destruct (exec (tstep c) s1 l). exact IH. }
  apply K. unfold init. split; ss; [intros [|]; discriminate|discriminate].
Qed.

Definition again (c : cfg) (s : task) (budget : Z) : Prop := exists m, soon c s m budget.

Lemma again_step c s l s1 es d b : tstep c s l = Some (s1, es) -> no_calls l = true -> again c s1 d -> elapsed [l] + d <= b -> again c s b.
Proof. intros E Hl (m & H) Hb. exists m. exact (soon_step c s l s1 es m d b E Hl H Hb). Qed.

Lemma timer_alone c s j x : sinv c s -> c_kind c = Delay -> t_status s = started -> nth_error (t_timers s) j = Some x -> x <> TDone ->
  t_cons s = [KWait] /\ t_locked s = false.
Proof.
  intros HI Ek Es Hj Hx. destruct (i_delay c s HI Ek) as (_ & _ & C3 & _). unfold tokens in C3.
  assert (P : live x <= sumZ live (t_timers s)).
  { apply sumZ_ge_elem with j; [|exact Hj]. apply Forall_forall. intros [] _; cbn; lia. }
  assert (Hl : live x = 1) by (destruct x; [reflexivity..|congruence]).
  pose proof (app_nonneg (t_clients s)) as P1. pose proof (busy_nonneg (t_cons s)) as P2. rewrite (i_lock c s HI) in *.
  pose proof (i_cons c s HI) as HC. rewrite Es in HC. change (started =? new) with false in HC.
  assert (Hs : t_status s <> stopped) by (rewrite Es; discriminate). destruct (i_alive c s HI Hs) as (HA & _).
  destruct (t_cons s) as [|y [|]]; try discriminate. inversion HA as [|? ? H1 _]; subst. cbn [sumZ] in *.
  split; [destruct y; cbn [busy] in *; lia || congruence || reflexivity|destruct (t_locked s); [lia|reflexivity]].
Qed.

Ltac next c s E HI := let HT := fresh in pose proof (tstep_trans c s _ _ _ E) as HT; pose proof (sinv_trans c s _ _ HI HT).

Lemma again_send c s j : sinv c s -> c_kind c = Delay -> t_status s = started -> nth_error (t_timers s) j = Some TSend -> again c s 0.
Proof.
  intros HI Ek Es Hj. destruct (timer_alone c s j TSend HI Ek Es Hj ltac:(discriminate)) as (Ec & EL).
  assert (E : tstep c s (LTimerSend j 0) = Some (set_timer j TDone (set_cons 0 KCheck s), [])) by (cbn [tstep]; unfold receive; rewrite Hj, Ec; reflexivity).
  next c s E HI. apply (again_step c s _ _ _ 0 0 E eq_refl); [|cbn; lia]. eexists. apply soon_kcheck; [assumption|ss; rewrite Ec; reflexivity|exact EL|].
  ss. rewrite Es. discriminate.
Qed.

Lemma again_armed c s j a : sinv c s -> c_kind c = Delay -> 0 < c_interval c -> t_status s = started -> nth_error (t_timers s) j = Some (TArmed a) ->
  a <= t_now s + c_interval c -> again c s (c_interval c).
Proof.
  intros HI Ek HP Es Hj Ha. set (d := Z.max 0 (a - t_now s)).
  assert (E : tstep c s (LTime d) = Some (set_now (t_now s + d) s, [])) by (cbn [tstep]; rewrite (proj2 (Z.leb_le _ _)) by (unfold d; lia); reflexivity).
  next c s E HI. apply (again_step c s _ _ _ 0 _ E eq_refl); [|unfold elapsed; cbn [sumZ]; unfold d; lia].
  set (s1 := set_now (t_now s + d) s) in *.
  assert (E1 : tstep c s1 (LTimer j) = Some (set_timer j TSend s1, [])).
  { cbn [tstep]. unfold s1 at 1. ss. rewrite Hj. unfold s1 at 1. ss. rewrite (proj2 (Z.leb_le _ _)) by (unfold d; lia). reflexivity. }
  next c s1 E1 H0. apply (again_step c s1 _ _ _ 0 _ E1 eq_refl); [|cbn; lia].
  apply (again_send c _ j); [assumption..| |]; ss; [exact Es|apply (nth_error_upd_same _ _ _ _ Hj)].
Qed.

Lemma again_go c s j : sinv c s -> c_kind c = Delay -> 0 < c_interval c -> t_status s = started -> nth_error (t_timers s) j = Some TGo -> again c s (c_interval c).
Proof.
  intros HI Ek HP Es Hj.
  assert (E : tstep c s (LTimer j) = Some (set_timer j (TArmed (t_now s + c_interval c)) s, [])) by (cbn [tstep]; rewrite Hj; reflexivity).
  next c s E HI. apply (again_step c s _ _ _ (c_interval c) _ E eq_refl); [|cbn; lia].
  apply (again_armed c _ j (t_now s + c_interval c)); [assumption..| | |]; ss; [exact Es|apply (nth_error_upd_same _ _ _ _ Hj)|lia].
Qed.

Lemma again_ret c s j r : sinv c s -> c_kind c = Delay -> 0 < c_interval c -> t_status s = started -> t_cons s = [KRun j] ->
  nth_error (t_runs s) j = Some r -> r_pc r = RRet -> again c s (c_interval c).
Proof.
  intros HI Ek HP Es Ec Hj Hr.
  assert (E : tstep c s (LCons 0) = Some (set_timers (t_timers s ++ [TGo]) (set_cons 0 KWait s), [])).
  { cbn [tstep]. unfold cons_step. rewrite Ec. cbn [nth_error]. rewrite Hj, Hr. reflexivity. }
  next c s E HI. apply (again_step c s _ _ _ (c_interval c) _ E eq_refl); [|cbn; lia].
  apply (again_go c _ (length (t_timers s))); [assumption..| |]; ss; [exact Es|]. rewrite nth_error_app2, Nat.sub_diag by lia. reflexivity.
Qed.

Lemma again_done c s j r : sinv c s -> c_kind c = Delay -> 0 < c_interval c -> t_status s = started -> t_cons s = [KRun j] ->
  nth_error (t_runs s) j = Some r -> r_job r = JDone -> again c s (c_interval c).
Proof.
  intros HI Ek HP Es Ec Hj Hr. destruct (r_pc r) eqn:Ep.
  - destruct (i_runno c s HI j r Hj) as (_ & RO). unfold run_ok in RO. rewrite Ep in RO. destruct RO; congruence.
  - assert (E : exists s1 es, tstep c s (LRun j) = Some (s1, es)) by (cbn [tstep]; rewrite Hj, Ep, Hr; unfold run_returns; destruct (cancel _ _ _); eauto).
    destruct E as (s1 & es & E). next c s E HI. destruct (tstep_run c s (LRun j) j s1 es eq_refl E) as (r0 & r' & Hj0 & HR & ->).
    apply (again_step c s _ _ _ (c_interval c) _ E eq_refl); [|cbn; lia].
    apply (again_ret c _ j r'); [assumption..| | | |]; ss; auto; [apply (nth_error_upd_same _ _ _ _ Hj)|].
    cbn [tstep] in E. rewrite Hj, Ep, Hr in E. unfold run_returns in E. rewrite (cancel_set j (with_pc RRet r) r s), set_run_twice in E.
    injection E as E _. apply (f_equal (fun l => nth_error l j)) in E.
    rewrite !(nth_error_upd_same _ _ _ _ Hj) in E. injection E as <-. reflexivity.
  - assert (E : exists s1 es, tstep c s (LRun j) = Some (s1, es)) by (cbn [tstep]; rewrite Hj, Ep, Hr; unfold run_returns; destruct (cancel _ _ _); eauto).
    destruct E as (s1 & es & E). next c s E HI. destruct (tstep_run c s (LRun j) j s1 es eq_refl E) as (r0 & r' & Hj0 & HR & ->).
    apply (again_step c s _ _ _ (c_interval c) _ E eq_refl); [|cbn; lia].
    apply (again_ret c _ j r'); [assumption..| | | |]; ss; auto; [apply (nth_error_upd_same _ _ _ _ Hj)|].
    cbn [tstep] in E. rewrite Hj, Ep, Hr in E. unfold run_returns in E. rewrite (cancel_set j (with_pc RRet r) r s), set_run_twice in E.
    injection E as E _. apply (f_equal (fun l => nth_error l j)) in E.
    rewrite !(nth_error_upd_same _ _ _ _ Hj) in E. injection E as <-. reflexivity.
  - apply (again_ret c s j r); assumption.
Qed.

Lemma again_run c s j r : sinv c s -> c_kind c = Delay -> 0 < c_interval c -> t_status s = started -> t_cons s = [KRun j] ->
  nth_error (t_runs s) j = Some r -> again c s (c_interval c).
Proof.
  intros HI Ek HP Es Ec Hj. destruct (r_job r) eqn:Er.
  - exists (r_no r). apply (soon_mono c s _ 0); [|lia]. exact (soon_run c s j r HI Hj Er).
  - assert (E : tstep c s (LJobEnd j) = Some (set_run j (with_job JDone r) s, [EEnd (r_no r) (t_now s)])) by (cbn [tstep]; rewrite Hj, Er; reflexivity).
    next c s E HI. apply (again_step c s _ _ _ (c_interval c) _ E eq_refl); [|cbn; lia].
    apply (again_done c _ j (with_job JDone r)); [assumption..| | | |]; ss; auto. apply (nth_error_upd_same _ _ _ _ Hj).
  - apply (again_done c s j r); assumption.
Qed.

Lemma delay_again c s : sinv c s -> ahead c s -> c_kind c = Delay -> 0 < c_interval c -> t_status s = started -> t_locked s = false ->
  again c s (c_interval c).
Proof.
  intros HI HA Ek HP Es EL. destruct (i_delay c s HI Ek) as (_ & _ & _ & C4 & _). specialize (C4 Es). unfold tokens in C4. rewrite (i_lock c s HI), EL in C4.
  pose proof (i_cons c s HI) as HC. rewrite Es in HC. change (started =? new) with false in HC.
  assert (Hs : t_status s <> stopped) by (rewrite Es; discriminate). destruct (i_alive c s HI Hs) as (HAl & _).
  destruct (t_cons s) as [|y [|]] eqn:Ec; try discriminate. inversion HAl as [|? ? H1 _]; subst. cbn [sumZ] in *.
  destruct y.
  - assert (K : exists j x, nth_error (t_timers s) j = Some x /\ x <> TDone).
    { cbn [busy] in C4. clear -C4. assert (C : sumZ live (t_timers s) = 1) by lia. clear C4. revert C. generalize (t_timers s).
      induction l as [|x l IH]; cbn [sumZ]; [discriminate|]. intros C. destruct x; try (exists O; eexists; split; [reflexivity|discriminate]).
      destruct (IH ltac:(cbn [live] in C; lia)) as (j & x & H & Hx). exists (S j), x. auto. }
    destruct K as (j & x & Hj & Hx). destruct x.
    + apply (again_go c s j); assumption.
    + apply (again_armed c s j at_); try assumption. apply (proj1 HA j). exact Hj.
    + destruct (again_send c s j HI Ek Es Hj) as (m & H). exists m. apply (soon_mono c s m 0); [exact H|lia].
    + congruence.
  - eexists. apply (soon_mono c s _ 0); [|lia]. apply soon_kcheck; assumption.
  - eexists. apply (soon_mono c s _ 0); [|lia]. apply soon_kno; assumption.
  - assert (Hk : nth_error (t_cons s) 0 = Some (KRun j)) by (rewrite Ec; reflexivity). pose proof (i_krun c s HI 0 j Hk) as Hj.
    destruct (nth_error (t_runs s) j) as [r|] eqn:Er; [|apply nth_error_None in Er; lia]. apply (again_run c s j r); assumption.
  - congruence.
Qed.

Lemma rate_psend c s : sinv c s -> c_kind c = Rate -> t_status s = started -> t_cons s = [KWait] -> t_prov s = [PSend] -> again c s 0.
Proof.
  intros HI Ek Es Ec Ep.
  assert (E : tstep c s (LProvSend 0 0) = Some (set_prov 0 PTick (set_cons 0 KCheck s), [])) by (cbn [tstep]; unfold receive; rewrite Ep, Ec; reflexivity).
  next c s E HI. apply (again_step c s _ _ _ 0 0 E eq_refl); [|cbn; lia]. eexists.
  apply soon_kcheck; [assumption|ss; rewrite Ec; reflexivity| |ss; rewrite Es; discriminate].
  ss. destruct (t_locked s) eqn:EL; [|reflexivity]. destruct (i_lockst c s HI EL). congruence.
Qed.

Lemma rate_tick c s : sinv c s -> c_kind c = Rate -> t_status s = started -> t_cons s = [KWait] -> t_prov s = [PTick] -> t_tickbuf s = true -> again c s 0.
Proof.
  intros HI Ek Es Ec Ep Eb.
  assert (E : tstep c s (LProvTick 0) = Some (set_prov 0 PSend (set_tick (t_tick s) false s), [])) by (cbn [tstep]; rewrite Ep, Eb; reflexivity).
  next c s E HI. apply (again_step c s _ _ _ 0 0 E eq_refl); [|cbn; lia].
  apply (rate_psend c); ss; auto. rewrite Ep. reflexivity.
Qed.

Lemma rate_again c s : sinv c s -> ahead c s -> c_kind c = Rate -> 0 < c_interval c -> t_status s = started -> again c s (c_interval c).
Proof.
  intros HI HA Ek HP Es. pose proof (i_cons c s HI) as HC. pose proof (i_prov c s HI) as HPr. rewrite Es in HC, HPr. rewrite Ek in HPr. change (started =? new) with false in *.
  assert (EL : t_locked s = false) by (destruct (t_locked s) eqn:EL; [destruct (i_lockst c s HI EL); congruence|reflexivity]).
  assert (Hs : t_status s <> stopped) by (rewrite Es; discriminate). destruct (i_alive c s HI Hs) as (HA1 & HA2).
  destruct (i_rate c s HI Ek) as (_ & R2 & R3).
  destruct (t_cons s) as [|y [|]] eqn:Ec; try discriminate. destruct (t_prov s) as [|q [|]] eqn:Ep; try discriminate.
  inversion HA1 as [|? ? H1 _]; subst. inversion HA2 as [|? ? H2 _]; subst.
  assert (W : again c s 0 -> again c s (c_interval c)) by (intros (m & H); exists m; apply (soon_mono c s m 0); [exact H|lia]).
  destruct y.
  - destruct q; [apply W, rate_psend; assumption| |congruence].
    destruct (t_tickbuf s) eqn:Eb; [apply W, rate_tick; assumption|].
    destruct (t_tick s) as [next|] eqn:Et; [|destruct (proj1 R3 Es); reflexivity].
    pose proof (proj2 HA next Et) as Hn. set (d := Z.max 0 (next - t_now s)).
    assert (E : tstep c s (LTime d) = Some (set_now (t_now s + d) s, [])) by (cbn [tstep]; rewrite (proj2 (Z.leb_le _ _)) by (unfold d; lia); reflexivity).
    next c s E HI. apply (again_step c s _ _ _ 0 _ E eq_refl); [|unfold elapsed; cbn [sumZ]; unfold d; lia].
    set (s1 := set_now (t_now s + d) s) in *.
    assert (E1 : exists x, tstep c s1 LTicker = Some (set_tick x true s1, [])).
    { cbn [tstep]. unfold ticker_step, s1. ss. rewrite Et. rewrite (proj2 (Z.leb_le _ _)) by (unfold d; lia). eexists. reflexivity. }
    destruct E1 as (x & E1). next c s1 E1 H0. apply (again_step c s1 _ _ _ 0 _ E1 eq_refl); [|cbn; lia].
    apply (rate_tick c); ss; auto.
  - apply W. eexists. apply soon_kcheck; assumption.
  - apply W. eexists. apply soon_kno; assumption.
  - destruct (R2 O j). reflexivity.
  - congruence.
Qed.

Lemma keeps_going c t0 n sched : 0 < c_interval c -> let tr := snd (texec c t0 n sched) in
  existsb start_ok tr = true -> existsb stop_ok tr = false ->
  exists sched' m t, Forall (fun l => no_calls l = true) sched' /\ elapsed sched' <= c_interval c /\ ~ In m (begun tr) /\
    In (EBegin m t) (snd (exec (tstep c) (fst (texec c t0 n sched)) sched')).
Proof.
  intros HP tr H1 H2. destruct (task_jinv c t0 n sched) as (HI & HJ). fold tr in HJ. pose proof (task_ahead c t0 n sched HP) as HA.
  assert (Ex : again c (fst (texec c t0 n sched)) (c_interval c)).
  { set (s := fst (texec c t0 n sched)) in *. rewrite (j_start c s tr HJ) in H1. rewrite (j_stop c s tr HJ) in H2.
    apply andb_true_iff in H1. destruct H1 as (H1 & EL). apply negb_true_iff in EL. apply negb_true_iff in H1. apply Z.eqb_neq in H1, H2.
    assert (Es : t_status s = started) by (destruct (i_status c s HI) as [|[|]]; congruence).
    destruct (c_kind c) eqn:Ek; [apply delay_again|apply rate_again]; assumption. }
  destruct Ex as (m & sched' & HF & He & t & Hin). exists sched', m, t. split; [exact HF|]. split; [exact He|]. split; [|exact Hin].
  pose proof (runs_numbered c t0 n (sched ++ sched')) as ND. rewrite texec_continue in ND. cbn [snd] in ND. fold tr in ND.
  unfold begun in ND. rewrite flat_map_app in ND. fold (begun tr) in ND. intros Hm.
  assert (K : In m (begun (snd (exec (tstep c) (fst (texec c t0 n sched)) sched')))) by (unfold begun; apply in_flat_map; exists (EBegin m t); split; [exact Hin|left; reflexivity]).
  unfold begun in K at 1. revert ND Hm K. generalize (begun tr) as x. clear. induction x as [|y x IH]; [intros _ []|].
  cbn [Datatypes.app]. intros ND [->|Hm] K; inversion ND as [|? ? N1 N2]; subst; [apply N1, in_app_iff; right; exact K|exact (IH N2 Hm K)].
Qed.

(** ** The end after Stop *)

Definition wc (x : cpc) : Z := match x with CIdle => 0 | _ => 1 end.
Definition wk (x : kpc) : Z := match x with KDone => 0 | KCheck => 1 | KWait => 2 | KRun _ => 6 | KNo => 13 end.
Definition wp (x : ppc) : Z := match x with PDone => 0 | PTick => 1 | PSend => 2 end.
Definition wt (x : tpc) : Z := match x with TGo => 3 | TArmed _ => 2 | TSend => 1 | TDone => 0 end.
Definition wr (r : run) : Z :=
  match r_pc r with RStart => 3 | RSelect => 2 | RFin => 1 | RRet => 0 end + match r_job r with JNone => 2 | JRun => 1 | JDone => 0 end + if r_done r then 0 else 1.
Definition mu (s : task) : Z :=
  sumZ wc (t_clients s) + sumZ wk (t_cons s) + sumZ wp (t_prov s) + (if t_tickbuf s then 2 else 0) + sumZ wt (t_timers s) + sumZ wr (t_runs s).

Lemma mu_nonneg s : 0 <= mu s.
Proof.
  unfold mu.
  assert (0 <= sumZ wc (t_clients s)) by (apply sumZ_nonneg, Forall_forall; intros [] _; cbn; lia).
  assert (0 <= sumZ wk (t_cons s)) by (apply sumZ_nonneg, Forall_forall; intros [] _; cbn; lia).
  assert (0 <= sumZ wp (t_prov s)) by (apply sumZ_nonneg, Forall_forall; intros [] _; cbn; lia).
  assert (0 <= sumZ wt (t_timers s)) by (apply sumZ_nonneg, Forall_forall; intros [] _; cbn; lia).
  assert (0 <= sumZ wr (t_runs s)) by (apply sumZ_nonneg, Forall_forall; intros r _; unfold wr; destruct (r_pc r), (r_job r), (r_done r); lia).
  destruct (t_tickbuf s); lia.
Qed.

Lemma rtrans_wr c now sig r r' es : run_ok r -> rtrans c now sig r r' es -> wr r' < wr r.
Proof.
  unfold run_ok. intros RO HR. destruct HR; unfold wr; cbn [r_pc r_job r_done with_pc with_job];
    try match goal with H : r_pc r = _ |- _ => rewrite H in * end; try match goal with H : r_job r = _ |- _ => rewrite H in * end.
  - destruct RO as (-> & ->). lia.
  - destruct H as [->| ->]; destruct (r_done r); lia.
  - rewrite H0. lia.
  - destruct (r_done r); lia.
  - rewrite H0. lia.
  - destruct (r_done r); lia.
  - destruct (r_done r); lia.
Qed.

Lemma mu_step c s l s1 es : sinv c s -> t_status s = stopped -> internal l = true -> tstep c s l = Some (s1, es) -> mu s1 < mu s /\ t_status s1 = stopped.
Proof.
  intros HI Es Hl E.
  assert (EL : t_locked s = false) by (destruct (t_locked s) eqn:EL; [destruct (i_lockst c s HI EL); rewrite Es in *; discriminate|reflexivity]).
  destruct (run_label l) as [j|] eqn:Er.
  { destruct (tstep_run c s l j s1 es Er E) as (r & r' & Hj & HR & ->). destruct (i_runno c s HI j r Hj) as (_ & RO).
    pose proof (rtrans_wr c _ _ r r' es RO HR) as P. unfold mu. ss. rewrite (sumZ_upd wr j r' _ r Hj). split; [lia|exact Es]. }
  assert (U : forall k s0, receive k s = Some s0 -> sumZ wk (t_cons s0) = sumZ wk (t_cons s) - 1 /\ s0 = set_cons k KCheck s).
  { intros k s0 H. apply receive_some in H. destruct H as (H & ->). ss. rewrite (sumZ_upd wk k _ _ _ H). cbn [wk]. split; [lia|reflexivity]. }
  destruct l; try discriminate Hl; try discriminate Er; cbn [tstep] in E.
  - (* a call gets the lock *)
    destruct (nth_error (t_clients s) i) as [[|o|o]|] eqn:Ei; try discriminate. rewrite EL in E.
    assert (K : exists r, s1 = set_client i CIdle s /\ es = [ERet i o r (t_now s)]).
    { destruct o; cbn [client_crit] in E; unfold start_crit, stop_crit, mark_start, mark_stop, returns in E; rewrite Es in E;
        change (stopped =? started) with false in E; change (stopped =? stopped) with true in E; change (stopped =? new) with false in E; cbv iota in E;
        injection E as <- <-; eexists; split; reflexivity. }
    destruct K as (r & -> & _). unfold mu. ss. rewrite (sumZ_upd wc i _ _ _ Ei). cbn [wc]. split; [lia|exact Es].
  - destruct (nth_error (t_clients s) i) as [[|o|o]|] eqn:Ei; try discriminate.
    pose proof (append_locked c s i o HI Ei). congruence.
  - destruct (nth_error (t_clients s) i) as [[|o|o]|] eqn:Ei; try discriminate.
    pose proof (append_locked c s i o HI Ei). congruence.
  - unfold cons_step in E. destruct (nth_error (t_cons s) k) as [[| | |j|]|] eqn:Ek; try discriminate.
    + rewrite EL, Es in E. change (stopped =? stopped) with true in E. sub E. unfold mu. ss. rewrite (sumZ_upd wk k _ _ _ Ek). cbn [wk]. split; [lia|exact Es].
    + rewrite EL in E. destruct (c_kind c); sub E; unfold mu; ss; rewrite (sumZ_upd wk k _ _ _ Ek), sumZ_app; cbn [sumZ wk]; unfold wr at 2;
        cbn [r_pc r_job r_done]; (split; [lia|exact Es]).
    + destruct (nth_error (t_runs s) j) as [r|] eqn:Ej; [|discriminate]. destruct (r_pc r); try discriminate. sub E. unfold mu. ss.
      rewrite (sumZ_upd wk k _ _ _ Ek), sumZ_app. cbn [sumZ wk wt]. split; [lia|exact Es].
  - destruct (nth_error (t_cons s) k) as [[| | |j|]|] eqn:Ek; try discriminate. destruct (t_sig s); [|discriminate]. sub E. unfold mu. ss.
    rewrite (sumZ_upd wk k _ _ _ Ek). cbn [wk]. split; [lia|exact Es].
  - destruct (nth_error (t_prov s) p) as [[| |]|] eqn:Ep; try discriminate. destruct (receive k s) as [s2|] eqn:E2; [|discriminate]. sub E.
    destruct (U k s2 E2) as (E3 & ->). unfold mu. ss. rewrite (sumZ_upd wp p _ _ _ Ep). cbn [wp]. split; [lia|exact Es].
  - destruct (nth_error (t_prov s) p) as [[| |]|] eqn:Ep; try discriminate. destruct (t_tickbuf s) eqn:Eb; [|discriminate]. sub E.
    unfold mu. ss. rewrite (sumZ_upd wp p _ _ _ Ep), Eb. cbn [wp]. split; [lia|exact Es].
  - destruct (nth_error (t_prov s) p) as [[| |]|] eqn:Ep; try discriminate; (destruct (t_sig s); [|discriminate]); sub E;
      unfold mu; ss; rewrite (sumZ_upd wp p _ _ _ Ep); cbn [wp]; (split; [lia|exact Es]).
  - unfold ticker_step in E. destruct (t_tick s) as [next|] eqn:Et; [|discriminate]. destruct (c_kind c) eqn:Ek.
    + destruct (i_delay c s HI Ek) as (F & _). congruence.
    + destruct (i_rate c s HI Ek) as (_ & _ & R3). assert (F : t_status s = started) by (apply R3; congruence). rewrite Es in F. discriminate.
  - destruct (nth_error (t_timers s) j) as [[|a| |]|] eqn:Ej; try discriminate.
    + sub E. unfold mu. ss. rewrite (sumZ_upd wt j _ _ _ Ej). cbn [wt]. split; [lia|exact Es].
    + destruct (a <=? t_now s); [|discriminate]. sub E. unfold mu. ss. rewrite (sumZ_upd wt j _ _ _ Ej). cbn [wt]. split; [lia|exact Es].
  - destruct (nth_error (t_timers s) j) as [[|a| |]|] eqn:Ej; try discriminate. destruct (receive k s) as [s2|] eqn:E2; [|discriminate]. sub E.
    destruct (U k s2 E2) as (E3 & ->). unfold mu. ss. rewrite (sumZ_upd wt j _ _ _ Ej). cbn [wt]. split; [lia|exact Es].
  - destruct (nth_error (t_timers s) j) as [[|a| |]|] eqn:Ej; try discriminate. destruct (t_sig s); [|discriminate]. sub E.
    unfold mu. ss. rewrite (sumZ_upd wt j _ _ _ Ej). cbn [wt]. split; [lia|exact Es].
Qed.

Lemma mu_effective c sched' : Forall (fun l => internal l = true) sched' -> forall s, sinv c s -> t_status s = stopped ->
  Z.of_nat (effective (tstep c) s sched') <= mu s.
Proof.
  induction 1 as [|l sched' Hl _ IH]; intros s HI Es; cbn [effective]; [pose proof (mu_nonneg s); lia|].
  destruct (tstep c s l) as [[s1 es]|] eqn:E; [|apply IH; assumption].
  destruct (mu_step c s l s1 es HI Es Hl E) as (P & Es1). specialize (IH s1 (sinv_trans c s s1 es HI (tstep_trans c s _ _ _ E)) Es1). lia.
Qed.

Lemma nth_all {A} (P : A -> Prop) l : (forall j x, nth_error l j = Some x -> P x) -> Forall P l.
Proof. intros H. apply Forall_forall. intros x Hx. apply In_nth_error in Hx. destruct Hx as (j & Hj). exact (H j x Hj). Qed.

Lemma stuck_finished c s : sinv c s -> t_status s = stopped -> (forall l, internal l = true -> tstep c s l = None) -> finished s.
Proof.
  intros HI Es HS.
  assert (EL : t_locked s = false) by (destruct (t_locked s) eqn:EL; [destruct (i_lockst c s HI EL); rewrite Es in *; discriminate|reflexivity]).
  assert (Eg : t_sig s = true) by (rewrite (i_sig c s HI), Es; reflexivity).
  assert (HR : forall j r, nth_error (t_runs s) j = Some r -> r_pc r = RRet /\ r_job r = JDone).
  { intros j r Hj. destruct (i_runno c s HI j r Hj) as (_ & RO). unfold run_ok in RO.
    pose proof (HS (LRun j) eq_refl) as H1. pose proof (HS (LRunStop j) eq_refl) as H2. pose proof (HS (LJobBegin j) eq_refl) as H3. pose proof (HS (LJobEnd j) eq_refl) as H4.
    cbn [tstep] in *. rewrite Hj in *. rewrite Eg in *. destruct (r_pc r); try discriminate; destruct (r_job r); try discriminate; auto.
    exfalso. unfold run_returns in H1. destruct (cancel _ _ _). discriminate. }
  split; [|split; [|split; [|split]]]; apply nth_all.
  - intros i x Hi. pose proof (HS (LClient i) eq_refl) as H. cbn [tstep] in H. rewrite Hi, EL in H. destruct x as [|o|o]; [reflexivity| |].
    + destruct (crit_some c s i o) as (s1 & es & E). congruence.
    + pose proof (append_locked c s i o HI Hi). congruence.
  - intros k x Hk. pose proof (HS (LCons k) eq_refl) as H. pose proof (HS (LConsStop k) eq_refl) as H'. cbn [tstep] in *. unfold cons_step in H. rewrite Hk in *.
    rewrite EL, Eg in *. destruct x as [| | |j|]; try discriminate; try reflexivity.
    + destruct (t_status s =? stopped); discriminate.
    + destruct (c_kind c); discriminate.
    + pose proof (i_krun c s HI k j Hk) as Hj. destruct (nth_error (t_runs s) j) as [r|] eqn:Er; [|apply nth_error_None in Er; lia].
      destruct (HR j r Er) as (Ep & _). rewrite Ep in H. discriminate.
  - intros p x Hp. pose proof (HS (LProvStop p) eq_refl) as H. cbn [tstep] in H. rewrite Hp, Eg in H. destruct x; congruence.
  - intros j x Hj. pose proof (HS (LTimer j) eq_refl) as H. pose proof (HS (LTimerStop j) eq_refl) as H'. cbn [tstep] in *. rewrite Hj, ?Eg in *.
    destruct x as [|a| |]; try discriminate; [|left; reflexivity]. right. exists a. split; [reflexivity|]. destruct (a <=? t_now s) eqn:El; [discriminate|lia].
  - exact HR.
Qed.

Lemma exec_stopped c sched' : Forall (fun l => internal l = true) sched' -> forall s, sinv c s -> t_status s = stopped ->
  sinv c (fst (exec (tstep c) s sched')) /\ t_status (fst (exec (tstep c) s sched')) = stopped.
Proof.
  induction 1 as [|l sched' Hl _ IH]; intros s HI Es; cbn [exec fst]; [auto|].
  destruct (tstep c s l) as [[s1 es]|] eqn:E; [|apply IH; assumption].
  destruct (mu_step c s l s1 es HI Es Hl E) as (_ & Es1). specialize (IH s1 (sinv_trans c s s1 es HI (tstep_trans c s _ _ _ E)) Es1).
  destruct (exec (tstep c) s1 sched'). exact IH.
Qed.

Lemma ends_after_stop c t0 n sched : existsb stop_ok (snd (texec c t0 n sched)) = true ->
  exists N, forall sched', Forall (fun l => internal l = true) sched' ->
    (effective (tstep c) (fst (texec c t0 n sched)) sched' <= N)%nat /\
    ((forall l, internal l = true -> tstep c (fst (exec (tstep c) (fst (texec c t0 n sched)) sched')) l = None) ->
     finished (fst (exec (tstep c) (fst (texec c t0 n sched)) sched'))).
Proof.
  intros H. destruct (task_jinv c t0 n sched) as (HI & HJ). rewrite (j_stop c _ _ HJ) in H. apply Z.eqb_eq in H.
  exists (Z.to_nat (mu (fst (texec c t0 n sched)))). intros sched' HF. split.
  - pose proof (mu_effective c sched' HF _ HI H). pose proof (mu_nonneg (fst (texec c t0 n sched))). lia.
  - destruct (exec_stopped c sched' HF _ HI H) as (HI' & Es'). apply stuck_finished; assumption.
Qed.

(** When it is over, time may pass and calls may come: no job ever begins again. *)
Lemma finished_quiet c s : sinv c s -> t_status s = stopped -> finished s -> forall sched' m t, ~ In (EBegin m t) (snd (exec (tstep c) s sched')).
Proof.
  intros HI Es HF sched'. revert s HI Es HF.
  assert (Step : forall s l s1 es, sinv c s -> t_status s = stopped ->
    Forall (fun k => k = KDone) (t_cons s) /\ Forall (fun p => p = PDone) (t_prov s) /\ Forall (fun r => r_pc r = RRet /\ r_job r = JDone) (t_runs s) ->
    tstep c s l = Some (s1, es) ->
    t_status s1 = stopped /\ (Forall (fun k => k = KDone) (t_cons s1) /\ Forall (fun p => p = PDone) (t_prov s1) /\ Forall (fun r => r_pc r = RRet /\ r_job r = JDone) (t_runs s1)) /\
    forall m t, ~ In (EBegin m t) es).
  { intros s l s1 es HI Es (F1 & F2 & F3) E. pose proof (tstep_trans c s l s1 es E) as HT.
    assert (K1 : forall k x, nth_error (t_cons s) k = Some x -> x = KDone) by (intros k x; apply (Forall_nth _ _ _ _ F1)).
    assert (K2 : forall k x, nth_error (t_prov s) k = Some x -> x = PDone) by (intros k x; apply (Forall_nth _ _ _ _ F2)).
    assert (K3 : forall k x, nth_error (t_runs s) k = Some x -> r_pc x = RRet /\ r_job x = JDone) by (intros k x; apply (Forall_nth _ _ _ _ F3)).
    destruct HT; ss; try congruence;
      try (match goal with H : nth_error (t_cons s) _ = Some _ |- _ => apply K1 in H; discriminate end);
      try (match goal with H : nth_error (t_prov s) _ = Some _ |- _ => apply K2 in H; congruence end);
      try (split; [assumption|split; [split; [|split]; assumption|intros m t Hin; cbn in Hin; intuition congruence]]).
    destruct (K3 _ _ H) as (A & B). destruct H0; try congruence. destruct H0; congruence. destruct H0; congruence. }
  intros s HI Es (_ & F1 & F2 & _ & F3). assert (F : Forall (fun k => k = KDone) (t_cons s) /\ Forall (fun p => p = PDone) (t_prov s) /\ Forall (fun r => r_pc r = RRet /\ r_job r = JDone) (t_runs s)) by auto.
  clear F1 F2 F3. revert s HI Es F. induction sched' as [|l sched' IH]; intros s HI Es F m t; cbn [exec snd]; [intros []|].
  destruct (tstep c s l) as [[s1 es]|] eqn:E; [|apply IH; assumption].
  destruct (Step s l s1 es HI Es F E) as (Es1 & F1 & NB). specialize (IH s1 (sinv_trans c s s1 es HI (tstep_trans c s _ _ _ E)) Es1 F1 m t).
  destruct (exec (tstep c) s1 sched') as [s2 es2]. cbn [snd] in *. intros Hin. apply in_app_iff in Hin. destruct Hin as [Hin|Hin]; [exact (NB m t Hin)|exact (IH Hin)].
Qed.

Lemma quiet_after_end c t0 n sched sched' m t : let s := fst (texec c t0 n sched) in
  existsb stop_ok (snd (texec c t0 n sched)) = true -> finished s -> ~ In (EBegin m t) (snd (exec (tstep c) s sched')).
Proof.
  intros s H HF. destruct (task_jinv c t0 n sched) as (HI & HJ). rewrite (j_stop c _ _ HJ) in H. apply Z.eqb_eq in H.
  apply (finished_quiet c s HI H HF).
Qed.
