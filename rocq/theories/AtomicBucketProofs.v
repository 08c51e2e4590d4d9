From Verif Require Import Common Threads TokenBucketModel TokenBucketSpec TokenBucketProofs.
From Verif Require Import AtomicBucketModel AtomicBucketSpec.

(** * Sequential agreement with the mutex bucket (C04) *)

Definition same (b : sbucket) (s : astate) : Prop :=
  ab_capacity s = sb_capacity b /\ ab_rate s = sb_rate b /\ ab_tokens s = sb_tokens b /\
  ab_lit s = sb_last b /\ ab_threads s = [AIdle].

Ltac ev := cbn [solo_acquire solo_steps astep astep_thread nth_error ab_threads ab_capacity ab_tokens
   ab_lit ab_rate ab_clock set_pc set_tokens set_lit upd].

Lemma take_ok c rt tk lt cl f :
  solo_steps (S (S f)) (AState c rt tk lt cl [ATakeLoad]) =
  Some (if 0 <? tk then (AState c rt (i64 (tk - 1)) lt cl [AIdle], true)
        else (AState c rt tk lt cl [AIdle], false)).
Proof.
  ev. destruct (0 <? tk); ev; [|reflexivity]. rewrite Z.eqb_refl. ev. reflexivity.
Qed.

Lemma solo_acquire_same b s now :
  in64 (sb_capacity b) -> same b s ->
  exists s1, solo_acquire s now = Some (s1, snd (sync_acquire b now)) /\
             same (fst (sync_acquire b now)) s1.
Proof.
  intros Hcap (E1 & E2 & E3 & E4 & E5). destruct s as [c rt tk lt cl th]. cbn in E1, E2, E3, E4, E5.
  subst c rt tk lt th. destruct b as [c tk rt lt]. cbn [sb_capacity sb_tokens sb_rate sb_last] in *.
  unfold solo_acquire. cbn [astep nth_error ab_threads set_pc ab_capacity ab_tokens ab_lit ab_rate ab_clock upd].
  set (st tk lt pc := AState c rt tk lt now [pc]).
  assert (H : exists n, exists tk' lt',
    solo_steps 7 (st tk lt ALoadTok) = solo_steps (S (S n)) (st tk' lt' ATakeLoad) /\
    sync_issue (SBucket c tk rt lt) now = SBucket c tk' rt lt').
  { unfold sync_issue, st. cbn [sb_capacity sb_tokens sb_rate sb_last].
    cbn [solo_steps astep nth_error ab_threads astep_thread ab_capacity ab_tokens].
    destruct (c <=? tk) eqn:Efull.
    - exists 4%nat, tk, lt. split; reflexivity.
    - ev. unfold refill_delta.
      set (delta := i64 (Z.quot (i64 (now - lt)) second * rt)).
      destruct (delta =? 0) eqn:Ed.
      + exists 2%nat, tk, lt. ev. split; reflexivity.
      + ev. rewrite Z.eqb_refl. ev. rewrite Z.eqb_refl. ev.
        exists 0%nat. eexists _, _. split; [reflexivity|].
        f_equal. destruct (c <? i64 (tk + delta)); [|reflexivity].
        rewrite i64_add_r. replace (tk + (c - tk)) with c by lia. symmetry. apply i64_id. exact Hcap. }
  destruct H as (n & tk' & lt' & Hs & Hi).
  unfold st in *.
  change (set_pc _ 0 ALoadTok) with (AState c rt tk lt now [ALoadTok]).
  rewrite Hs, take_ok. unfold sync_acquire. rewrite Hi. cbn [sb_tokens sb_capacity sb_rate sb_last].
  destruct (0 <? tk'); eexists; (split; [reflexivity|]); repeat split.
Qed.

Lemma sync_acquire_capacity b now : sb_capacity (fst (sync_acquire b now)) = sb_capacity b.
Proof.
  unfold sync_acquire, sync_issue.
  destruct (sb_capacity b <=? sb_tokens b); [destruct (0 <? sb_tokens b); reflexivity|].
  destruct (_ =? 0); [destruct (0 <? sb_tokens b); reflexivity|].
  match goal with |- context [if 0 <? ?x then _ else _] => destruct (0 <? x) end; reflexivity.
Qed.

Lemma solo_run_same nows : forall b s, in64 (sb_capacity b) -> same b s ->
  solo_run s nows = Some (snd (sync_run b nows)).
Proof.
  induction nows as [|now nows IH]; intros b s Hc Hs; cbn [solo_run sync_run]; [reflexivity|].
  destruct (solo_acquire_same b s now Hc Hs) as (s1 & -> & Hs1).
  pose proof (sync_acquire_capacity b now) as Hcap.
  destruct (sync_acquire b now) as [b1 r]. cbn [fst snd] in *.
  rewrite (IH b1 s1); [|rewrite Hcap; exact Hc|exact Hs1].
  destruct (sync_run b1 nows). reflexivity.
Qed.

Lemma atomic_agrees capacity rate t0 nows : in64 capacity ->
  atomic_solo_results capacity rate t0 nows = Some (sync_bucket_results capacity rate t0 nows).
Proof.
  intros Hc. apply solo_run_same; [exact Hc|]. repeat split.
Qed.

(** * Conservation under all interleavings (C06) *)

Section Conservation.
Variables capacity rate t0 t : Z.
Hypothesis Hcap : 0 <= capacity.
Hypothesis Hrate : 0 <= rate.
Hypothesis Hov : no_overflow capacity rate t0 t.

Definition pcok (W clk : Z) (pc : apc) : Prop :=
  match pc with
  | AIdle | ALoadTok | ATakeLoad => True
  | ALoadLit old => - W <= old < capacity
  | ANow old oldLit => - W <= old < capacity /\ t0 <= oldLit <= clk
  | ACasTok old oldLit now d =>
      - W <= old /\ 0 < d /\ old + d <= capacity /\ t0 <= oldLit <= now /\ now <= clk /\
      d <= rate * whole_seconds (now - oldLit)
  | ACasLit oldLit now d =>
      0 < d <= capacity + W /\ t0 <= oldLit <= now /\ now <= clk /\ d <= rate * whole_seconds (now - oldLit)
  | ARollback d => 0 < d <= capacity + W
  | ATakeCas old => 0 < old <= capacity
  end.

Record core (s : astate) (tr : list aevent) : Prop := Core {
  core_cap : ab_capacity s = capacity;
  core_rate : ab_rate s = rate;
  core_time : t0 <= ab_lit s <= ab_clock s /\ ab_clock s <= t;
  core_tok : - withdrawn tr <= ab_tokens s <= capacity;
  core_cons : exists C, 0 <= C <= rate * whole_seconds (ab_lit s - t0) /\
      ab_tokens s + grants tr = capacity + C + in_flight s;
  core_pcs : Forall (pcok (withdrawn tr) (ab_clock s)) (ab_threads s);
}.

Lemma pcok_mono W W' c c' pc : W <= W' -> c <= c' -> pcok W c pc -> pcok W' c' pc.
Proof. destruct pc; cbn; intuition lia. Qed.

Lemma withdrawn_nonneg tr : 0 <= withdrawn tr.
Proof. apply sumZ_nonneg, Forall_forall. intros [|? d] _; lia. Qed.

Lemma withdrawn_app tr es : withdrawn (tr ++ es) = withdrawn tr + withdrawn es.
Proof. apply sumZ_app. Qed.

Lemma grants_app tr es : grants (tr ++ es) = grants tr + grants es.
Proof. apply count_app. Qed.

Lemma core_step s tr l s1 es :
  core s tr -> astep s l = Some (s1, es) ->
  (forall c, l = AClock c -> ab_clock s <= c <= t) ->
  withdrawn (tr ++ es) < 2 ^ 62 -> core s1 (tr ++ es).
Proof.
  intros [HC HR HT Htok (C & HCb & Hcons) Hpcs] Hstep Hclk HW.
  pose proof Hov as (Ho1 & Ho2 & Ho3 & Ho4).
  rewrite withdrawn_app in HW.
  pose proof (withdrawn_nonneg tr) as HW0. pose proof (withdrawn_nonneg es) as HW1.
  destruct l as [c|i|i]; cbn in Hstep.
  - injection Hstep as <- <-. specialize (Hclk c eq_refl). rewrite app_nil_r.
    constructor; cbn; try assumption; try lia.
    + exists C. split; assumption.
    + eapply Forall_impl; [|exact Hpcs]. intros pc. apply pcok_mono; lia.
  - destruct (nth_error (ab_threads s) i) as [[]|] eqn:En; try discriminate.
    injection Hstep as <- <-. rewrite app_nil_r.
    constructor; cbn; try assumption; try lia.
    + exists C. split; [assumption|]. unfold in_flight in *. cbn. rewrite (sumZ_upd _ _ _ _ _ En). lia.
    + apply Forall_upd; [assumption|exact I].
  - destruct (nth_error (ab_threads s) i) as [pc|] eqn:En; [|discriminate].
    pose proof (Forall_nth _ _ _ _ Hpcs En) as Hpc.
    assert (Hfl : forall tk lt pc', in_flight (set_pc (set_lit (set_tokens s tk) lt) i pc') =
       in_flight s - (match pc with ACasLit _ _ d | ARollback d => d | _ => 0 end)
                   + (match pc' with ACasLit _ _ d | ARollback d => d | _ => 0 end)).
    { intros tk lt pc'. unfold in_flight. cbn. rewrite (sumZ_upd _ _ _ _ _ En). reflexivity. }
    assert (Hlocal : forall pc', (match pc with ACasLit _ _ d | ARollback d => d | _ => 0 end) =
                            (match pc' with ACasLit _ _ d | ARollback d => d | _ => 0 end) ->
                     grants es = 0 -> pcok (withdrawn (tr ++ es)) (ab_clock s) pc' -> core (set_pc s i pc') (tr ++ es)).
    { intros pc' Heq Hg Hok. rewrite withdrawn_app in *.
      constructor; cbn; try assumption; try lia.
      - rewrite withdrawn_app; lia.
      - exists C. split; [assumption|]. rewrite grants_app. specialize (Hfl (ab_tokens s) (ab_lit s) pc').
        unfold in_flight in *; cbn in *. lia.
      - rewrite withdrawn_app. apply Forall_upd; [|assumption].
        eapply Forall_impl; [|exact Hpcs]. intros p. apply pcok_mono; lia. }
    destruct pc as [| |old|old oldLit|old oldLit now d|oldLit now d|d| |old]; cbn [astep_thread] in Hstep.
    + discriminate.
    + (* ALoadTok *)
      rewrite HC in Hstep. destruct (Z.leb_spec capacity (ab_tokens s)); injection Hstep as <- <-;
        apply Hlocal; rewrite ?app_nil_r; cbn; auto; lia.
    + (* ALoadLit *)
      injection Hstep as <- <-. apply Hlocal; rewrite ?app_nil_r; cbn; auto. cbn in Hpc. lia.
    + (* ANow *)
      cbn in Hpc. destruct Hpc as [Hold Hlit].
      rewrite HC, HR in Hstep. unfold refill_delta in Hstep.
      assert (Hsec : 0 <= whole_seconds (ab_clock s - oldLit) <= whole_seconds (t - t0)).
      { split; [apply whole_seconds_nonneg; lia|apply whole_seconds_mono; lia]. }
      rewrite (i64_id (ab_clock s - oldLit)) in Hstep by (unfold in64; lia).
      rewrite Z.quot_div_nonneg in Hstep by (unfold second; lia).
      fold (whole_seconds (ab_clock s - oldLit)) in Hstep.
      assert (Hr : 0 <= whole_seconds (ab_clock s - oldLit) * rate < 2 ^ 62).
      { split; [nia|]. eapply Z.le_lt_trans; [|exact Ho4]. rewrite Z.mul_comm.
        apply Z.mul_le_mono_nonneg_l; lia. }
      set (raw := whole_seconds (ab_clock s - oldLit) * rate) in *.
      assert (Hraw : raw = rate * whole_seconds (ab_clock s - oldLit)) by (unfold raw; lia).
      rewrite (i64_id raw) in Hstep by (unfold in64; lia).
      destruct (Z.eqb_spec raw 0).
      * injection Hstep as <- <-. apply Hlocal; rewrite ?app_nil_r; cbn; auto.
      * rewrite (i64_id (old + raw)) in Hstep by (unfold in64; lia).
        rewrite (i64_id (capacity - old)) in Hstep by (unfold in64; lia).
        destruct (Z.ltb_spec capacity (old + raw)); injection Hstep as <- <-;
          (apply Hlocal; rewrite ?app_nil_r; [reflexivity|reflexivity|cbn; lia]).
    + (* ACasTok *)
      cbn in Hpc. destruct Hpc as (H1 & H2 & H3 & H4 & H5 & H6).
      destruct (Z.eqb_spec (ab_tokens s) old) as [E|E]; injection Hstep as <- <-;
        [|apply Hlocal; rewrite ?app_nil_r; cbn; auto].
      rewrite app_nil_r. rewrite (i64_id (old + d)) by (unfold in64; lia).
      constructor; cbn; try assumption; try lia.
      * exists C. split; [assumption|].
        specialize (Hfl (old + d) (ab_lit s) (ACasLit oldLit now d)). cbn in Hfl. unfold in_flight in *. cbn in *. lia.
      * apply Forall_upd; [assumption|]. cbn. lia.
    + (* ACasLit *)
      cbn in Hpc. destruct Hpc as (H1 & H2 & H3 & H4).
      destruct (Z.eqb_spec (ab_lit s) oldLit) as [E|E]; injection Hstep as <- <-;
        [|apply Hlocal; rewrite ?app_nil_r; cbn; auto].
      rewrite app_nil_r. constructor; cbn; try assumption; try lia.
      * exists (C + d). split.
        -- pose proof (whole_seconds_add (ab_lit s - t0) (now - ab_lit s)) as Hadd.
           replace (ab_lit s - t0 + (now - ab_lit s)) with (now - t0) in Hadd by lia.
           subst oldLit.
           assert (rate * (whole_seconds (ab_lit s - t0) + whole_seconds (now - ab_lit s))
                   <= rate * whole_seconds (now - t0)) by (apply Z.mul_le_mono_nonneg_l; lia).
           lia.
        -- specialize (Hfl (ab_tokens s) now ATakeLoad). cbn in Hfl. unfold in_flight in *. cbn in *. lia.
      * apply Forall_upd; [assumption|exact I].
    + (* ARollback *)
      cbn in Hpc. injection Hstep as <- <-.
      cbn in HW. rewrite Z.abs_eq in HW by lia.
      rewrite (i64_id (ab_tokens s - d)) by (unfold in64; lia).
      constructor; cbn; try assumption; try lia; rewrite ?withdrawn_app, ?grants_app; cbn; rewrite ?Z.abs_eq by lia.
      * lia.
      * exists C. split; [assumption|].
        specialize (Hfl (ab_tokens s - d) (ab_lit s) ALoadTok). cbn in Hfl. unfold in_flight in *. cbn in *. lia.
      * apply Forall_upd; [|exact I]. eapply Forall_impl; [|exact Hpcs]. intros p. apply pcok_mono; lia.
    + (* ATakeLoad *)
      destruct (Z.ltb_spec 0 (ab_tokens s)); injection Hstep as <- <-;
        apply Hlocal; rewrite ?app_nil_r; cbn; auto; lia.
    + (* ATakeCas *)
      cbn in Hpc.
      destruct (Z.eqb_spec (ab_tokens s) old) as [E|E]; injection Hstep as <- <-;
        [|apply Hlocal; rewrite ?app_nil_r; cbn; auto].
      rewrite (i64_id (old - 1)) by (unfold in64; lia).
      constructor; cbn; try assumption; try lia; rewrite ?withdrawn_app, ?grants_app; cbn; rewrite ?Z.add_0_r.
      * lia.
      * exists C. split; [assumption|].
        specialize (Hfl (old - 1) (ab_lit s) AIdle). cbn in Hfl. unfold in_flight in *. cbn in *. lia.
      * apply Forall_upd; [assumption|exact I].
Qed.

Lemma core_exec sched : forall s tr,
  core s tr -> nondecreasing (ab_clock s :: clocks sched) -> Forall (fun x => x <= t) (clocks sched) ->
  withdrawn (tr ++ snd (exec astep s sched)) < 2 ^ 62 ->
  core (fst (exec astep s sched)) (tr ++ snd (exec astep s sched)).
Proof.
  induction sched as [|l sched IH]; intros s tr HC Hnd Hle HW; cbn [exec] in *.
  - cbn. rewrite app_nil_r. exact HC.
  - destruct (astep s l) as [[s1 es]|] eqn:E.
    + specialize (IH s1 (tr ++ es)).
      destruct (exec astep s1 sched) as [s2 es2]. cbn [fst snd] in *.
      rewrite app_assoc in *. 
      assert (HWp : withdrawn (tr ++ es) < 2 ^ 62).
      { rewrite withdrawn_app in HW. pose proof (withdrawn_nonneg es2). lia. }
      assert (Hclk : forall c, l = AClock c -> ab_clock s <= c <= t).
      { intros c ->. cbn in Hnd, Hle. destruct Hnd as [HF _]. inversion HF; inversion Hle; subst. lia. }
      apply IH; auto.
      * eapply core_step; eauto.
      * destruct l as [c|i|i]; cbn in E.
        -- injection E as <- <-. cbn. cbn in Hnd. tauto.
        -- destruct (nth_error (ab_threads s) i) as [[]|]; try discriminate. injection E as <- <-. exact Hnd.
        -- assert (ab_clock s1 = ab_clock s) as ->; [|exact Hnd].
           destruct (nth_error (ab_threads s) i) as [pc|]; [|discriminate].
           destruct pc; cbn in E; repeat match type of E with
             | context [if ?x then _ else _] => destruct x
             | context [match ?x with Some _ => _ | None => _ end] => destruct x
             end; try discriminate; injection E as <- <-; reflexivity.
      * destruct l; cbn in Hle; [inversion Hle|..]; assumption.
    + apply IH; auto; destruct l; cbn in *; try discriminate; assumption.
Qed.

Lemma core_init n : t0 <= t -> core (new_atomic capacity rate t0 n) [].
Proof.
  intros Ht. constructor; cbn; try lia.
  - exists 0. replace (t0 - t0) with 0 by lia. unfold whole_seconds. rewrite Zdiv_0_l. split; [lia|].
    unfold in_flight; cbn. rewrite sumZ_zero; [cbn; lia|]. clear. induction n; cbn; auto.
  - clear. induction n; cbn; constructor; auto; exact I.
Qed.
End Conservation.

Lemma atomic_conservation capacity rate t0 t n sched :
  0 <= capacity -> 0 <= rate -> t0 <= t -> no_overflow capacity rate t0 t ->
  nondecreasing (t0 :: clocks sched) -> Forall (fun x => x <= t) (clocks sched) ->
  let '(s, tr) := atomic_exec capacity rate t0 n sched in
  withdrawn tr < 2 ^ 62 ->
  core capacity rate t0 t s tr.
Proof.
  intros Hc Hr Htt Hov Hnd Hle. unfold atomic_exec.
  pose proof (core_exec capacity rate t0 t Hr Hov sched (new_atomic capacity rate t0 n) []
    (core_init capacity rate t0 t Hc n Htt)) as H. cbn [ab_clock new_atomic app] in H.
  destruct (exec astep (new_atomic capacity rate t0 n) sched) as [s tr]. cbn in H. auto.
Qed.

Lemma atomic_grants_bound capacity rate t0 t n sched :
  0 <= capacity -> 0 <= rate -> t0 <= t -> no_overflow capacity rate t0 t ->
  nondecreasing (t0 :: clocks sched) -> Forall (fun x => x <= t) (clocks sched) ->
  let '(s, tr) := atomic_exec capacity rate t0 n sched in
  withdrawn tr < 2 ^ 62 ->
  grants tr <= capacity + rate * whole_seconds (t - t0) + withdrawn tr + in_flight s /\
  ab_tokens s <= capacity /\ 0 <= in_flight s.
Proof.
  intros Hc Hr Htt Hov Hnd Hle.
  pose proof (atomic_conservation capacity rate t0 t n sched Hc Hr Htt Hov Hnd Hle) as H.
  destruct (atomic_exec capacity rate t0 n sched) as [s tr]. intros HW.
  destruct (H HW) as [_ _ HT Htok (C & HCb & Hcons) Hpcs].
  assert (rate * whole_seconds (ab_lit s - t0) <= rate * whole_seconds (t - t0)).
  { apply Z.mul_le_mono_nonneg_l; [lia|]. apply whole_seconds_mono. lia. }
  repeat split; try lia.
  apply sumZ_nonneg. eapply Forall_impl; [|exact Hpcs]. intros []; cbn; lia.
Qed.

Lemma quiet_in_flight s : quiet s -> in_flight s = 0.
Proof.
  intros H. apply sumZ_zero. eapply Forall_impl; [|exact H]. intros pc ->. reflexivity.
Qed.

Lemma atomic_quiet_bound capacity rate t0 t n sched :
  0 <= capacity -> 0 <= rate -> t0 <= t -> no_overflow capacity rate t0 t ->
  nondecreasing (t0 :: clocks sched) -> Forall (fun x => x <= t) (clocks sched) ->
  let '(s, tr) := atomic_exec capacity rate t0 n sched in
  quiet s -> withdrawn tr = 0 ->
  grants tr <= capacity + rate * whole_seconds (t - t0).
Proof.
  intros Hc Hr Htt Hov Hnd Hle.
  pose proof (atomic_grants_bound capacity rate t0 t n sched Hc Hr Htt Hov Hnd Hle) as H.
  destruct (atomic_exec capacity rate t0 n sched) as [s tr]. intros Hq HW.
  destruct H as (H & _); [lia|]. rewrite (quiet_in_flight s Hq) in H. lia.
Qed.
