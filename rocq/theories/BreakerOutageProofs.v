From Verif Require Import Common Threads BreakerModel BreakerSpec BreakerProofs BreakerOutageSpec.

Definition failure_since (a : Z) (e : bevent) : bool :=
  match e with EFailure t => a <=? t | _ => false end.
Definition busy_pc (pc : bpc) : Z :=
  match pc with BTask | BRunning | BFail _ => 1 | _ => 0 end.
Definition busy (s : bstate) : Z := sumZ busy_pc (cb_threads s).

Lemma busy_bound (l : list bpc) : sumZ busy_pc l <= Z.of_nat (length l).
Proof. induction l as [|pc l IH]; cbn [sumZ length]; [lia|]. destruct pc; cbn [busy_pc]; lia. Qed.

Lemma busy_nonneg (l : list bpc) : 0 <= sumZ busy_pc l.
Proof. induction l as [|pc l IH]; cbn [sumZ]; [lia|]. destruct pc; cbn [busy_pc]; lia. Qed.

Lemma busy_bound_less (l : list bpc) i pc : nth_error l i = Some pc -> busy_pc pc = 0 ->
  sumZ busy_pc l + 1 <= Z.of_nat (length l).
Proof.
  intros E H. pose proof (sumZ_upd busy_pc i BTask l pc E) as Hu.
  pose proof (busy_bound (upd i BTask l)) as Hb. rewrite upd_length in Hb. cbn [busy_pc] in Hu. lia.
Qed.

Section outage.
Variables (threshold timeout a bound : Z) (n : nat).

Definition room (s : bstate) : Prop :=
  threshold + Z.of_nat n - 1 <= bound \/ (threshold <= cb_failures s /\ Z.of_nat n <= bound).

Definition winv (s : bstate) (tr : list bevent) : Prop :=
  count (let_through a (a + timeout)) tr <= count (failure_since a) tr + busy s /\
  count (failure_since a) tr <= cb_failures s /\
  (0 < count (failure_since a) tr -> a <= cb_last s) /\
  (0 < count (let_through a (a + timeout)) tr -> a <= cb_clock s) /\
  Forall (fun pc => match pc with BState now => now <= cb_clock s | _ => True end) (cb_threads s) /\
  length (cb_threads s) = n /\ room s /\ Z.of_nat n <= bound /\ cb_last s <= cb_clock s /\
  count (let_through a (a + timeout)) tr <= bound.

Ltac cnt := rewrite ?count_app; cbn [count let_through failure_since andb]; rewrite ?Z.add_0_r.

Lemma winv_step k s l s1 es tr0 tr :
  (match l with BClock t => cb_clock s <= t | _ => True end) -> Z.of_nat k < 2 ^ 62 ->
  binv threshold timeout k s tr0 -> winv s tr -> bstep s l = Some (s1, es) -> all_fail es ->
  winv s1 (tr ++ es).
Proof.
  intros Hl Hk HB (H1 & H2 & H3 & H4 & H5 & H6 & H7 & H8 & H10 & H9) Hst HA.
  destruct HB as (Hth & Hto & _ & Hfr & Hlr & Hcr & Hpcs & _).
  destruct l as [t|i|i o|i]; cbn in Hst.
  - injection Hst as <- <-. rewrite app_nil_r. unfold winv, room, busy in *; cbn in *.
    splits; auto; try lia.
    eapply Forall_impl; [|exact H5]. intros [] H; auto; lia.
  - destruct (nth_error (cb_threads s) i) as [pc|] eqn:E; try discriminate. destruct pc; try discriminate.
    injection Hst as <- <-. unfold winv, room, busy in *. cnt. cbn in *.
    rewrite upd_length, (sumZ_upd _ _ _ _ _ E). cbn [busy_pc]. splits; auto; try lia.
    apply Forall_upd; auto.
  - destruct (nth_error (cb_threads s) i) as [pc|] eqn:E; try discriminate. destruct pc; try discriminate.
    injection Hst as <- <-. inversion HA as [|? ? Ho _]; subst.
    destruct o as [|e|]; try contradiction. unfold winv, room, busy in *. cnt. cbn in *.
    rewrite upd_length, (sumZ_upd _ _ _ _ _ E). cbn [busy_pc]. splits; auto; try lia.
    apply Forall_upd; auto.
  - destruct (nth_error (cb_threads s) i) as [pc|] eqn:E; try discriminate.
    pose proof (Forall_nth _ _ _ _ Hpcs E) as Hpc. pose proof (Forall_nth _ _ _ _ H5 E) as Hpc5.
    destruct pc; cbn in Hst; try discriminate.
    + injection Hst as <- <-. rewrite app_nil_r. unfold winv, room, busy in *; cbn in *.
      rewrite upd_length, (sumZ_upd _ _ _ _ _ E). cbn [busy_pc]. splits; auto; try lia.
      apply Forall_upd; auto; lia.
    + (* the decision *)
      pose proof (busy_bound_less _ _ _ E eq_refl) as Hbusy. rewrite H6 in Hbusy.
      destruct (cb_state s now) eqn:Ed; injection Hst as <- <-.
      * unfold winv, room, busy in *. cnt. cbn in *.
        rewrite upd_length, (sumZ_upd _ _ _ _ _ E). cbn [busy_pc]. splits; auto; try lia.
        apply Forall_upd; auto.
      * assert (Hc : cb_failures s < threshold).
        { unfold cb_state in Ed. rewrite Hth in Ed.
          destruct (Z.leb_spec threshold (cb_failures s)); [|lia].
          cbn in Ed. destruct (_ <? _) in Ed; discriminate. }
        unfold winv, room, busy in *. cnt. cbn in *.
        rewrite upd_length, (sumZ_upd _ _ _ _ _ E). cbn [busy_pc].
        destruct (Z.leb_spec a now), (Z.leb_spec now (a + timeout)); cbn; splits; auto; try lia;
          apply Forall_upd; auto.
      * assert (Hc : timeout < now - cb_last s).
        { unfold cb_state in Ed. rewrite Hto, i64_id in Ed by (unfold in64; lia).
          destruct (Z.ltb_spec timeout (now - cb_last s)); [assumption|].
          rewrite andb_false_r in Ed. destruct (_ <=? _) in Ed; discriminate. }
        unfold winv, room, busy in *. cnt. cbn in *.
        rewrite upd_length, (sumZ_upd _ _ _ _ _ E). cbn [busy_pc].
        pose proof (count_nonneg (failure_since a) tr).
        destruct (Z.leb_spec a now), (Z.leb_spec now (a + timeout)); cbn; splits; auto; try lia;
          apply Forall_upd; auto.
    + injection Hst as <- <-. unfold winv, room, busy in *. cnt. cbn in *.
      rewrite upd_length, (sumZ_upd _ _ _ _ _ E). cbn [busy_pc]. splits; auto; try lia.
      apply Forall_upd; auto.
    + injection Hst as <- <-. unfold winv, room, busy in *. cnt. cbn in *.
      rewrite upd_length, (sumZ_upd _ _ _ _ _ E). cbn [busy_pc]. splits; auto; try lia.
      apply Forall_upd; auto.
    + injection Hst as <- <-. unfold winv, room, busy in *. cnt. cbn in *.
      rewrite upd_length, (sumZ_upd _ _ _ _ _ E). cbn [busy_pc].
      rewrite i64_id by (unfold in64; lia).
      pose proof (busy_nonneg (cb_threads s)).
      pose proof (sumZ_ge_elem busy_pc (cb_threads s) i (BFail e)
        ltac:(apply Forall_forall; intros [] _; cbn; lia) E) as Hge. cbn [busy_pc] in Hge.
      pose proof (count_nonneg (failure_since a) tr).
      pose proof (count_nonneg (let_through a (a + timeout)) tr).
      destruct (Z.leb_spec a (cb_clock s)); splits; auto; try lia;
        apply Forall_upd; auto.
    + injection Hst as <- <-. unfold winv, room, busy in *. cnt. cbn in *.
      rewrite upd_length, (sumZ_upd _ _ _ _ _ E). cbn [busy_pc]. splits; auto; try lia.
      apply Forall_upd; auto.
    + injection Hst as <- <-. inversion HA; subst. contradiction.
Qed.

Lemma bstep_clock s l s1 es : bstep s l = Some (s1, es) ->
  cb_clock s1 = match l with BClock t => t | _ => cb_clock s end.
Proof.
  intros H. destruct l as [t|i|i o|i]; cbn in H.
  - injection H as <- <-. reflexivity.
  - destruct (nth_error _ _) as [[]|]; try discriminate. injection H as <- <-. reflexivity.
  - destruct (nth_error _ _) as [[]|]; try discriminate. injection H as <- <-. reflexivity.
  - destruct (nth_error _ _) as [[]|]; try discriminate; cbn in H;
      try (injection H as <- <-; reflexivity).
    destruct (cb_state s now); injection H as <- <-; reflexivity.
Qed.

Lemma winv_exec sched : forall k s tr0 tr,
  clock_forward (cb_clock s) sched -> Forall clock_ok sched -> Z.of_nat (k + length sched) < 2 ^ 62 ->
  binv threshold timeout k s tr0 -> winv s tr -> all_fail (snd (exec bstep s sched)) ->
  winv (fst (exec bstep s sched)) (tr ++ snd (exec bstep s sched)).
Proof.
  induction sched as [|l sched IH]; intros k s tr0 tr HC HF Hlen HB HW HA; cbn [exec] in *.
  - cbn [fst snd]. rewrite app_nil_r. exact HW.
  - inversion HF as [|? ? Hl HF']; subst. cbn [length] in Hlen.
    destruct (bstep s l) as [[s1 es]|] eqn:Est.
    + pose proof (bstep_clock _ _ _ _ Est) as Hclk.
      assert (HB1 : binv threshold timeout (S k) s1 (tr0 ++ es))
        by (eapply binv_step; [|exact HB|exact Est]; split; [exact Hl|lia]).
      assert (HC1 : clock_forward (cb_clock s1) sched).
      { rewrite Hclk. destruct l; cbn in HC; tauto. }
      assert (Hll : match l with BClock t => cb_clock s <= t | _ => True end)
        by (destruct l; cbn in HC; tauto).
      specialize (IH (S k) s1 (tr0 ++ es) (tr ++ es) HC1 HF' ltac:(lia) HB1).
      destruct (exec bstep s1 sched) as [s2 es2]. cbn [fst snd] in *.
      apply Forall_app in HA. destruct HA as [HA1 HA2]. rewrite app_assoc. apply IH; [|exact HA2].
      exact (winv_step k s l s1 es tr0 tr Hll ltac:(lia) HB HW Est HA1).
    + apply (IH (S k) s tr0 tr); auto; try lia.
      * destruct l; cbn in HC; auto. discriminate Est.
      * apply binv_mono. exact HB.
Qed.
End outage.

(** The clock along a schedule, and that no reading lies ahead of it. *)
Definition readings_past (s : bstate) : Prop :=
  Forall (fun pc => match pc with BState now => now <= cb_clock s | _ => True end) (cb_threads s) /\
  cb_last s <= cb_clock s /\ 0 <= cb_clock s.

Lemma readings_step s l s1 es :
  (match l with BClock t => cb_clock s <= t | _ => True end) ->
  readings_past s -> bstep s l = Some (s1, es) -> readings_past s1 /\ length (cb_threads s1) = length (cb_threads s).
Proof.
  unfold readings_past. intros Hl (H & Hlast & Hc0) Hst. destruct l as [t|i|i o|i]; cbn in Hst.
  - injection Hst as <- <-. cbn. split; [|reflexivity]. split; [|lia].
    eapply Forall_impl; [|exact H]. intros [] Hx; auto; lia.
  - destruct (nth_error _ _) as [[]|]; try discriminate. injection Hst as <- <-. cbn.
    rewrite upd_length. split; [split; [apply Forall_upd; auto|lia]|reflexivity].
  - destruct (nth_error _ _) as [[]|]; try discriminate. injection Hst as <- <-. cbn.
    rewrite upd_length. split; [split; [apply Forall_upd; auto; destruct o; exact I|lia]|reflexivity].
  - destruct (nth_error _ _) as [[]|]; try discriminate; cbn in Hst;
      try (injection Hst as <- <-; cbn; rewrite upd_length; split; [split; [apply Forall_upd; auto; lia|lia]|reflexivity]).
    destruct (cb_state s now); injection Hst as <- <-; cbn; rewrite upd_length;
      (split; [split; [apply Forall_upd; auto|lia]|reflexivity]).
Qed.

Lemma readings_exec sched1 : forall sched2 s,
  clock_forward (cb_clock s) (sched1 ++ sched2) -> readings_past s ->
  let s1 := fst (exec bstep s sched1) in
  clock_forward (cb_clock s1) sched2 /\ readings_past s1 /\ length (cb_threads s1) = length (cb_threads s).
Proof.
  induction sched1 as [|l sched1 IH]; intros sched2 s HC H; cbn [exec app] in *.
  - cbn. auto.
  - assert (Hll : match l with BClock t => cb_clock s <= t | _ => True end)
      by (destruct l; cbn in HC; tauto).
    destruct (bstep s l) as [[s1 es]|] eqn:Est.
    + destruct (readings_step _ _ _ _ Hll H Est) as [H1 Hn].
      assert (HC1 : clock_forward (cb_clock s1) (sched1 ++ sched2)).
      { rewrite (bstep_clock _ _ _ _ Est). destruct l; cbn in HC; tauto. }
      specialize (IH sched2 s1 HC1 H1). destruct (exec bstep s1 sched1) as [s2 es2]. cbn [fst] in *.
      rewrite <- Hn. exact IH.
    + apply IH; auto. destruct l; cbn in HC; auto. discriminate Est.
Qed.

Section together.
Variables (threshold timeout t0 a : Z) (n : nat) (sched1 sched2 : list blabel).
Hypothesis Ht : 0 <= t0 < 2 ^ 62.
Hypothesis HF : Forall clock_ok (sched1 ++ sched2).
Hypothesis Hlen : blength_ok (sched1 ++ sched2).
Hypothesis HC : clock_forward t0 (sched1 ++ sched2).

Lemma outage_bound bound :
  let '(s, tr1) := breaker_exec threshold timeout t0 n sched1 in
  let tr := snd (exec bstep s sched2) in
  all_fail tr -> Z.of_nat n <= bound -> 0 <= bound ->
  threshold + Z.of_nat n - 1 <= bound \/ (threshold <= failures_since_success tr1 /\ Z.of_nat n <= bound) ->
  count (let_through a (a + timeout)) tr <= bound.
Proof.
  pose proof (proj1 (Forall_app _ _ _) HF) as [HF1 HF2].
  unfold blength_ok in Hlen. rewrite app_length in Hlen.
  assert (Hl1 : blength_ok sched1) by (unfold blength_ok; lia).
  pose proof (binv_reach threshold timeout t0 n sched1 Ht HF1 Hl1) as HB.
  pose proof (readings_exec sched1 sched2 (new_breaker threshold timeout t0 n) HC) as HR.
  assert (H0 : readings_past (new_breaker threshold timeout t0 n)).
  { unfold readings_past. cbn. split; [|lia]. apply Forall_forall. intros x Hx. apply repeat_spec in Hx. subst. exact I. }
  specialize (HR H0). unfold breaker_exec in *.
  destruct (exec bstep (new_breaker threshold timeout t0 n) sched1) as [s tr1]. cbn [fst snd] in *.
  destruct HR as (HC2 & HR2 & Hn). cbn in Hn. rewrite repeat_length in Hn.
  intros HA Hnb Hb0 Hroom.
  assert (HW : winv threshold timeout a bound n s []).
  { pose proof HB as (_ & _ & Hf & Hfr & _). unfold winv. cbn [count]. destruct HR2 as (HR2 & Hlast & Hc0).
    splits; auto; try lia.
    - pose proof (busy_nonneg (cb_threads s)). unfold busy. lia.
    - unfold room. unfold failures_since_success in Hroom. rewrite Hf in Hroom. exact Hroom. }
  pose proof (winv_exec threshold timeout a bound n sched2 (length sched1) s tr1 [] HC2 HF2
    ltac:(lia) HB HW HA) as HW2.
  cbn [app] in HW2. unfold winv in HW2. tauto.
Qed.
End together.
