From Verif Require Import Common Threads BreakerModel BreakerSpec.

Lemma failures_from_app tr1 tr2 n l :
  failures_from n l (tr1 ++ tr2) = let '(n1, l1) := failures_from n l tr1 in failures_from n1 l1 tr2.
Proof.
  revert n l; induction tr1 as [|e tr1 IH]; intros n l; cbn [app failures_from]; [reflexivity|].
  destruct e; apply IH.
Qed.

Definition decision (threshold timeout : Z) (tr : list bevent) (now : Z) : bool :=
  (failures_since_success tr <? threshold) || (timeout <? now - latest_failure tr).

Definition consults_ok (threshold timeout : Z) (tr : list bevent) : Prop :=
  forall tr1 i now r tr2, tr = tr1 ++ EConsult i now r :: tr2 ->
    r = decision threshold timeout tr1 now /\ 0 <= now < 2 ^ 62.

Definition binv (threshold timeout : Z) (n : nat) (s : bstate) (tr : list bevent) : Prop :=
  cb_threshold s = threshold /\ cb_timeout s = timeout /\
  failures_from 0 0 tr = (cb_failures s, cb_last s) /\
  0 <= cb_failures s <= Z.of_nat n /\ 0 <= cb_last s < 2 ^ 62 /\ 0 <= cb_clock s < 2 ^ 62 /\
  Forall (fun pc => match pc with BState now => 0 <= now < 2 ^ 62 | _ => True end) (cb_threads s) /\
  consults_ok threshold timeout tr.

Lemma consults_ok_app threshold timeout tr es :
  consults_ok threshold timeout tr ->
  (forall es1 i now r es2, es = es1 ++ EConsult i now r :: es2 ->
     r = decision threshold timeout (tr ++ es1) now /\ 0 <= now < 2 ^ 62) ->
  consults_ok threshold timeout (tr ++ es).
Proof.
  intros H1 H2 tr1 i now r tr2 Heq.
  assert (Hsplit : (exists m, tr = tr1 ++ EConsult i now r :: m) \/
                   (exists es1, tr1 = tr ++ es1 /\ es = es1 ++ EConsult i now r :: tr2)).
  { clear H1 H2. revert tr1 Heq. induction tr as [|x tr IH]; intros [|y tr1] Heq; cbn in *.
    - right. exists []. auto.
    - right. exists (y :: tr1). auto.
    - injection Heq as -> _. left. eexists. reflexivity.
    - injection Heq as -> Heq. destruct (IH _ Heq) as [[m ->]|(es1 & -> & He)].
      + left. eexists. reflexivity.
      + right. exists es1. auto. }
  destruct Hsplit as [[m ->]|(es1 & -> & He)]; [eapply H1; reflexivity|eapply H2; exact He].
Qed.

Ltac no_consult := let H := fresh in
  intros ? ? ? ? ? H;
  repeat match type of H with
  | [] = ?l ++ _ => destruct l; discriminate H
  | _ :: _ = ?l ++ _ => destruct l; [discriminate H|injection H as ? H]
  end.

Ltac splits := repeat match goal with |- _ /\ _ => split end.

Lemma binv_step threshold timeout : forall n s l s1 es tr,
  (clock_ok l /\ Z.of_nat n < 2 ^ 62) -> binv threshold timeout n s tr -> bstep s l = Some (s1, es) ->
  binv threshold timeout (S n) s1 (tr ++ es).
Proof.
  intros n s l s1 es tr [Hl Hn] (Hth & Hto & Hf & Hfr & Hlr & Hcr & Hpcs & Hco) Hst.
  pose proof failures_from_app as Happ.
  destruct l as [t|i|i o|i]; cbn in Hst.
  - injection Hst as <- <-. rewrite app_nil_r. cbn in Hl. unfold binv; cbn. splits; auto; try lia.
  - destruct (nth_error (cb_threads s) i) as [[]|] eqn:E; try discriminate.
    injection Hst as <- <-. unfold binv; cbn.
    rewrite Happ, Hf. cbn. splits; auto; try lia.
    + apply Forall_upd; auto.
    + apply consults_ok_app; [exact Hco|no_consult].
  - destruct (nth_error (cb_threads s) i) as [[]|] eqn:E; try discriminate.
    injection Hst as <- <-. unfold binv; cbn.
    rewrite Happ, Hf. cbn. splits; auto; try lia.
    + apply Forall_upd; auto. destruct o; exact I.
    + apply consults_ok_app; [exact Hco|no_consult].
  - destruct (nth_error (cb_threads s) i) as [pc|] eqn:E; try discriminate.
    pose proof (Forall_nth _ _ _ _ Hpcs E) as Hpc.
    destruct pc; cbn in Hst; try discriminate.
    + injection Hst as <- <-. unfold binv; cbn. rewrite app_nil_r. splits; auto; try lia.
      apply Forall_upd; auto.
    + assert (Hdec : forall r, (match cb_state s now with CbOpen => false | _ => true end) = r ->
                r = decision threshold timeout tr now).
      { intros r <-. unfold cb_state, decision, failures_since_success, latest_failure. rewrite Hf. cbn.
        rewrite Hth, Hto, i64_id by (unfold in64; lia).
        destruct (Z.leb_spec threshold (cb_failures s)), (Z.ltb_spec (cb_failures s) threshold),
          (Z.ltb_spec timeout (now - cb_last s)); cbn; auto; lia. }
      assert (Hgo : exists pc r, s1 = b_pc s i pc /\ es = [EConsult i now r] /\
                 (match pc with BState _ => False | _ => True end) /\ r = decision threshold timeout tr now).
      { destruct (cb_state s now); injection Hst as <- <-; eexists _, _;
          (split; [reflexivity|]; split; [reflexivity|]; split; [exact I|]; apply Hdec; reflexivity). }
      destruct Hgo as (pc & r & -> & -> & Hp & Hr).
      unfold binv; cbn. rewrite Happ, Hf. cbn. splits; auto; try lia.
      * apply Forall_upd; auto. destruct pc; auto; contradiction.
      * apply consults_ok_app; [exact Hco|].
        intros [|x es1] j nw r' es2 Heq; [|destruct es1; discriminate Heq].
        injection Heq as -> -> -> _. rewrite app_nil_r. auto.
    + injection Hst as <- <-. unfold binv; cbn. rewrite Happ, Hf. cbn. splits; auto; try lia.
      * apply Forall_upd; auto.
      * apply consults_ok_app; [exact Hco|no_consult].
    + injection Hst as <- <-. unfold binv; cbn. rewrite Happ, Hf. cbn. splits; auto; try lia.
      * apply Forall_upd; auto.
      * apply consults_ok_app; [exact Hco|no_consult].
    + injection Hst as <- <-. unfold binv; cbn. rewrite Happ, Hf. cbn.
      rewrite i64_id by (unfold in64; lia). splits; auto; try lia.
      * apply Forall_upd; auto.
      * apply consults_ok_app; [exact Hco|no_consult].
    + injection Hst as <- <-. unfold binv; cbn. rewrite Happ, Hf. cbn. splits; auto; try lia.
      * apply Forall_upd; auto.
      * apply consults_ok_app; [exact Hco|no_consult].
    + injection Hst as <- <-. unfold binv; cbn. rewrite Happ, Hf. cbn. splits; auto; try lia.
      * apply Forall_upd; auto.
      * apply consults_ok_app; [exact Hco|no_consult].
Qed.

Lemma binv_mono threshold timeout n s tr : binv threshold timeout n s tr -> binv threshold timeout (S n) s tr.
Proof. intros (? & ? & ? & ? & ?). unfold binv. splits; try tauto; lia. Qed.

Lemma binv_new threshold timeout t0 k : 0 <= t0 < 2 ^ 62 ->
  binv threshold timeout 0 (new_breaker threshold timeout t0 k) [].
Proof.
  intros H. unfold binv, new_breaker; cbn. splits; try lia; try reflexivity.
  - apply Forall_forall. intros x Hx. apply repeat_spec in Hx. subst. exact I.
  - intros [|? ?] ? ? ? ? H0; discriminate H0.
Qed.

(** The invariant along a schedule of bounded length. *)
Lemma binv_exec threshold timeout sched : forall n s tr,
  Forall clock_ok sched -> Z.of_nat (n + length sched) < 2 ^ 62 -> binv threshold timeout n s tr ->
  binv threshold timeout (n + length sched) (fst (exec bstep s sched)) (tr ++ snd (exec bstep s sched)).
Proof.
  induction sched as [|l sched IH]; intros n s tr HF Hlen HI; cbn [exec length].
  - cbn [fst snd]. rewrite app_nil_r. rewrite Nat.add_0_r. exact HI.
  - inversion HF as [|? ? Hl HF']; subst. rewrite <- Nat.add_succ_comm. cbn [length] in Hlen.
    destruct (bstep s l) as [[s1 es]|] eqn:Est.
    + assert (Hn : Z.of_nat n < 2 ^ 62) by lia.
      assert (Hn' : Z.of_nat (S n + length sched) < 2 ^ 62) by lia.
      assert (HI1 := binv_step threshold timeout n s l s1 es tr (conj Hl Hn) HI Est).
      specialize (IH (S n) s1 (tr ++ es) HF' Hn' HI1).
      destruct (exec bstep s1 sched) as [s2 es2]. cbn [fst snd] in *. rewrite app_assoc. exact IH.
    + apply IH; [exact HF'|lia|apply binv_mono; exact HI].
Qed.

Lemma binv_reach threshold timeout t0 k sched :
  0 <= t0 < 2 ^ 62 -> Forall clock_ok sched -> blength_ok sched ->
  binv threshold timeout (length sched) (fst (breaker_exec threshold timeout t0 k sched))
    (snd (breaker_exec threshold timeout t0 k sched)).
Proof.
  intros Ht HF Hlen.
  exact (binv_exec threshold timeout sched 0 _ [] HF Hlen (binv_new threshold timeout t0 k Ht)).
Qed.

(** C21/C22: the exact decision. *)
Lemma breaker_decision threshold timeout t0 k sched tr1 i now r tr2 :
  0 <= t0 < 2 ^ 62 -> Forall clock_ok sched -> blength_ok sched ->
  snd (breaker_exec threshold timeout t0 k sched) = tr1 ++ EConsult i now r :: tr2 ->
  r = decision threshold timeout tr1 now /\ 0 <= now < 2 ^ 62.
Proof.
  intros Ht HF Hlen Heq. destruct (binv_reach threshold timeout t0 k sched Ht HF Hlen)
    as (_ & _ & _ & _ & _ & _ & _ & Hco). eapply Hco. exact Heq.
Qed.

Lemma failures_nonneg_from tr : forall n l, 0 <= n -> 0 <= fst (failures_from n l tr).
Proof. induction tr as [|e tr IH]; intros n l Hn; cbn; [exact Hn|]. destruct e; apply IH; lia. Qed.

Lemma failures_no_record tr : forallb (fun e => negb (is_record e)) tr = true ->
  forall n l, failures_from n l tr = (n, l).
Proof.
  induction tr as [|e tr IH]; intros H n l; cbn in *; [reflexivity|].
  apply andb_prop in H. destruct H as [He H]. destruct e; try discriminate He; apply IH; exact H.
Qed.

Lemma failures_le tr : forall n l,
  0 <= n -> fst (failures_from n l tr) <= n + count is_failure tr.
Proof.
  induction tr as [|e tr IH]; intros n l Hn; cbn [failures_from count]; [cbn; lia|].
  destruct e; cbn [is_failure];
    match goal with |- context [failures_from ?a ?b tr] => specialize (IH a b ltac:(lia)) end; lia.
Qed.

(** C21 *)
Lemma breaker_open threshold timeout t0 k sched tr1 i now r tr2 :
  0 <= t0 < 2 ^ 62 -> Forall clock_ok sched -> blength_ok sched ->
  snd (breaker_exec threshold timeout t0 k sched) = tr1 ++ EConsult i now r :: tr2 ->
  threshold <= failures_since_success tr1 -> now - latest_failure tr1 <= timeout -> r = false.
Proof.
  intros Ht HF Hlen Heq H1 H2.
  destruct (breaker_decision _ _ _ _ _ _ _ _ _ _ Ht HF Hlen Heq) as [-> _].
  unfold decision. apply orb_false_intro; apply Z.ltb_ge; lia.
Qed.

(** C22 *)
Lemma breaker_lets_through threshold timeout t0 k sched tr1 i now r tr2 :
  0 <= t0 < 2 ^ 62 -> Forall clock_ok sched -> blength_ok sched ->
  snd (breaker_exec threshold timeout t0 k sched) = tr1 ++ EConsult i now r :: tr2 ->
  failures_since_success tr1 < threshold \/ timeout < now - latest_failure tr1 -> r = true.
Proof.
  intros Ht HF Hlen Heq H.
  destruct (breaker_decision _ _ _ _ _ _ _ _ _ _ Ht HF Hlen Heq) as [-> _].
  unfold decision. destruct H as [H|H]; apply Z.ltb_lt in H; rewrite H; [reflexivity|apply orb_true_r].
Qed.

Lemma breaker_failure_reopens threshold timeout t0 k sched tr1 t tr2 i now r tr3 :
  0 <= t0 < 2 ^ 62 -> Forall clock_ok sched -> blength_ok sched ->
  snd (breaker_exec threshold timeout t0 k sched) = tr1 ++ EFailure t :: tr2 ++ EConsult i now r :: tr3 ->
  threshold <= failures_since_success tr1 + 1 -> existsb is_record tr2 = false ->
  r = (timeout <? now - t).
Proof.
  intros Ht HF Hlen Heq H1 H2.
  replace (tr1 ++ EFailure t :: tr2 ++ EConsult i now r :: tr3)
    with ((tr1 ++ EFailure t :: tr2) ++ EConsult i now r :: tr3) in Heq by (rewrite <- app_assoc; reflexivity).
  destruct (breaker_decision _ _ _ _ _ _ _ _ _ _ Ht HF Hlen Heq) as [-> _].
  assert (H2' : forallb (fun e => negb (is_record e)) tr2 = true).
  { clear -H2. induction tr2 as [|e tr2 IH]; cbn in *; [reflexivity|].
    apply orb_false_elim in H2. destruct H2 as [-> H2]. cbn. auto. }
  unfold decision, failures_since_success, latest_failure in *. rewrite failures_from_app.
  destruct (failures_from 0 0 tr1) as [n1 l1]. cbn in *. rewrite (failures_no_record tr2 H2'). cbn.
  destruct (Z.ltb_spec (n1 + 1) threshold); [lia|]. reflexivity.
Qed.

Lemma breaker_success_closes threshold timeout t0 k sched tr1 tr2 i now r tr3 :
  0 <= t0 < 2 ^ 62 -> Forall clock_ok sched -> blength_ok sched ->
  snd (breaker_exec threshold timeout t0 k sched) = tr1 ++ ESuccess :: tr2 ++ EConsult i now r :: tr3 ->
  count is_failure tr2 < threshold -> r = true.
Proof.
  intros Ht HF Hlen Heq H1.
  replace (tr1 ++ ESuccess :: tr2 ++ EConsult i now r :: tr3)
    with ((tr1 ++ ESuccess :: tr2) ++ EConsult i now r :: tr3) in Heq by (rewrite <- app_assoc; reflexivity).
  destruct (breaker_decision _ _ _ _ _ _ _ _ _ _ Ht HF Hlen Heq) as [-> _].
  unfold decision, failures_since_success, latest_failure in *. rewrite failures_from_app.
  destruct (failures_from 0 0 tr1) as [n1 l1]. cbn [failures_from].
  pose proof (failures_le tr2 0 0 ltac:(lia)) as Hle.
  destruct (Z.ltb_spec (fst (failures_from 0 0 tr2)) threshold); [reflexivity|lia].
Qed.

Lemma latest_default tr : forall n l, 0 <= n -> (n = 0 -> l = 0) ->
  fst (failures_from n l tr) = 0 -> snd (failures_from n l tr) = 0.
Proof.
  induction tr as [|e tr IH]; intros n l Hn Hl H; cbn in *; [auto|].
  destruct e; apply IH in H; auto; lia.
Qed.

(** A threshold of zero or less acts like one (for clock readings beyond the timeout). *)
Lemma breaker_small_threshold threshold timeout t0 k sched tr1 i now r tr2 :
  0 <= t0 < 2 ^ 62 -> Forall clock_ok sched -> blength_ok sched ->
  snd (breaker_exec threshold timeout t0 k sched) = tr1 ++ EConsult i now r :: tr2 ->
  threshold <= 1 -> timeout < now ->
  (r = false <-> 1 <= failures_since_success tr1 /\ now - latest_failure tr1 <= timeout).
Proof.
  intros Ht HF Hlen Heq H1 H2.
  destruct (breaker_decision _ _ _ _ _ _ _ _ _ _ Ht HF Hlen Heq) as [-> _].
  unfold decision, failures_since_success, latest_failure.
  pose proof (failures_nonneg_from tr1 0 0 ltac:(lia)) as Hnn.
  pose proof (latest_default tr1 0 0 ltac:(lia) ltac:(lia)) as Hd.
  destruct (failures_from 0 0 tr1) as [n l]. cbn in *.
  destruct (Z.eq_dec n 0) as [->|Hn].
  - rewrite (Hd eq_refl), Z.sub_0_r. apply Z.ltb_lt in H2. rewrite H2, orb_true_r.
    split; [discriminate|lia].
  - rewrite orb_false_iff, !Z.ltb_ge. lia.
Qed.

(** C20 *)
Lemma visible_app i tr1 tr2 : visible_of i (tr1 ++ tr2) = visible_of i tr1 ++ visible_of i tr2.
Proof. induction tr1 as [|e tr1 IH]; cbn; [reflexivity|]. rewrite IH, app_assoc. reflexivity. Qed.

Definition cur_ok (pc : bpc) (cur : list visible) : Prop :=
  match pc with
  | BIdle => cur = []
  | BNow | BState _ | BOpen | BTask => cur = [VCall]
  | BRunning => cur = [VCall; VTask]
  | BFail e | BOnError e => cur = [VCall; VTask; VDone (TaskErr e)]
  | BReset => cur = [VCall; VTask; VDone TaskOk]
  end.

Definition vinv (s : bstate) (tr : list bevent) : Prop :=
  forall i pc, nth_error (cb_threads s) i = Some pc ->
    exists dos cur, visible_of i tr = concat dos ++ cur /\ Forall whole_do dos /\ cur_ok pc cur.

Lemma vinv_frame s s1 i pc es tr :
  vinv s tr -> cb_threads s1 = upd i pc (cb_threads s) ->
  (forall j, i <> j -> visible_of j es = []) ->
  (forall o, nth_error (cb_threads s) i = Some o ->
     forall dos cur, visible_of i tr = concat dos ++ cur -> Forall whole_do dos -> cur_ok o cur ->
     exists dos cur', visible_of i tr ++ visible_of i es = concat dos ++ cur' /\ Forall whole_do dos /\ cur_ok pc cur') ->
  vinv s1 (tr ++ es).
Proof.
  intros HI Hth Hoth Hme j pcj Hj. rewrite Hth, nth_error_upd in Hj. rewrite visible_app.
  destruct (Nat.eq_dec i j) as [<-|Hij].
  - destruct (nth_error (cb_threads s) i) as [o|] eqn:E; [|discriminate]. injection Hj as <-.
    destruct (HI i o E) as (dos & cur & H1 & H2 & H3). eapply Hme; eauto.
  - rewrite (Hoth j Hij), app_nil_r. apply HI. exact Hj.
Qed.

Ltac eqb_clean :=
  repeat match goal with
  | |- context [Nat.eqb ?i ?i] => rewrite Nat.eqb_refl
  end.
Ltac other_nil := let j := fresh "j" in let H := fresh in
  intros j H; cbn; try reflexivity;
  match goal with |- context [Nat.eqb ?a ?b] => destruct (Nat.eqb_spec a b); [subst; congruence|reflexivity] end.

Lemma concat_snoc {A} (l : list (list A)) x : concat (l ++ [x]) = concat l ++ x.
Proof. rewrite concat_app. cbn. rewrite app_nil_r. reflexivity. Qed.

Lemma vinv_step : forall s l s1 es tr, vinv s tr -> bstep s l = Some (s1, es) -> vinv s1 (tr ++ es).
Proof.
  intros s l s1 es tr HI Hst. destruct l as [t|i|i o|i]; cbn in Hst.
  - injection Hst as <- <-. rewrite app_nil_r. exact HI.
  - destruct (nth_error (cb_threads s) i) as [[]|] eqn:E; try discriminate. injection Hst as <- <-.
    apply (vinv_frame s _ i BNow _ tr HI); [reflexivity|other_nil|].
    intros o Ho dos cur H1 H2 H3. rewrite E in Ho. injection Ho as <-. cbn in H3. subst cur.
    exists dos, [VCall]. cbn. eqb_clean. rewrite H1, app_nil_r. repeat split; auto.
  - destruct (nth_error (cb_threads s) i) as [[]|] eqn:E; try discriminate. injection Hst as <- <-.
    eapply (vinv_frame s _ i _ _ tr HI); [reflexivity|other_nil|].
    intros o' Ho dos cur H1 H2 H3. rewrite E in Ho. injection Ho as <-. cbn in H3. subst cur.
    cbn. eqb_clean. rewrite H1. destruct o as [|e|].
    + exists dos, [VCall; VTask; VDone TaskOk]. rewrite <- app_assoc. repeat split; auto.
    + exists dos, [VCall; VTask; VDone (TaskErr e)]. rewrite <- app_assoc. repeat split; auto.
    + exists (dos ++ [[VCall; VTask; VDone TaskPanic]]), []. rewrite concat_snoc, !app_nil_r, <- app_assoc.
      repeat split; auto. apply Forall_app. split; [exact H2|]. constructor; [|constructor].
      unfold whole_do. auto.
  - destruct (nth_error (cb_threads s) i) as [pc|] eqn:E; try discriminate.
    destruct pc; cbn in Hst; try discriminate.
    + injection Hst as <- <-. eapply (vinv_frame s _ i _ _ tr HI); [reflexivity|reflexivity|].
      intros o Ho dos cur H1 H2 H3. rewrite E in Ho. injection Ho as <-. cbn in H3. subst cur.
      exists dos, [VCall]. cbn. rewrite app_nil_r. auto.
    + assert (Hgo : exists pc r, s1 = b_pc s i pc /\ es = [EConsult i now r] /\ (pc = BOpen \/ pc = BTask)).
      { destruct (cb_state s now); injection Hst as <- <-; eexists _, _; eauto. }
      destruct Hgo as (pc & r & -> & -> & Hp).
      eapply (vinv_frame s _ i pc _ tr HI); [reflexivity|reflexivity|].
      intros o Ho dos cur H1 H2 H3. rewrite E in Ho. injection Ho as <-. cbn in H3. subst cur.
      exists dos, [VCall]. cbn. rewrite app_nil_r. destruct Hp as [-> | ->]; cbn; auto.
    + injection Hst as <- <-. eapply (vinv_frame s _ i _ _ tr HI); [reflexivity|other_nil|].
      intros o Ho dos cur H1 H2 H3. rewrite E in Ho. injection Ho as <-. cbn in H3. subst cur.
      exists (dos ++ [[VCall; VOnOpen]]), []. cbn. eqb_clean.
      rewrite H1, concat_snoc, !app_nil_r, <- app_assoc. repeat split; auto.
      apply Forall_app. split; [exact H2|]. constructor; [left; reflexivity|constructor].
    + injection Hst as <- <-. eapply (vinv_frame s _ i _ _ tr HI); [reflexivity|other_nil|].
      intros o Ho dos cur H1 H2 H3. rewrite E in Ho. injection Ho as <-. cbn in H3. subst cur.
      exists dos, [VCall; VTask]. cbn. eqb_clean. rewrite H1, <- app_assoc. auto.
    + injection Hst as <- <-. eapply (vinv_frame s _ i _ _ tr HI); [reflexivity|reflexivity|].
      intros o Ho dos cur H1 H2 H3. rewrite E in Ho. injection Ho as <-. cbn in H3.
      exists dos, cur. cbn. rewrite app_nil_r. auto.
    + injection Hst as <- <-. eapply (vinv_frame s _ i _ _ tr HI); [reflexivity|other_nil|].
      intros o Ho dos cur H1 H2 H3. rewrite E in Ho. injection Ho as <-. cbn in H3. subst cur.
      exists (dos ++ [[VCall; VTask; VDone (TaskErr e); VOnError e]]), []. cbn. eqb_clean.
      rewrite H1, concat_snoc, !app_nil_r, <- app_assoc. repeat split; auto.
      apply Forall_app. split; [exact H2|]. constructor; [|constructor].
      unfold whole_do. right. right. right. exists e. reflexivity.
    + injection Hst as <- <-. eapply (vinv_frame s _ i _ _ tr HI); [reflexivity|reflexivity|].
      intros o Ho dos cur H1 H2 H3. rewrite E in Ho. injection Ho as <-. cbn in H3. subst cur.
      exists (dos ++ [[VCall; VTask; VDone TaskOk]]), []. cbn.
      rewrite H1, concat_snoc, !app_nil_r. repeat split; auto.
      apply Forall_app. split; [exact H2|]. constructor; [|constructor]. unfold whole_do. auto.
Qed.

Lemma visible_bound n sched threshold timeout t0 i :
  (n <= i)%nat -> visible_of i (snd (breaker_exec threshold timeout t0 n sched)) = [].
Proof.
  intros Hi. unfold breaker_exec.
  pose (I := fun (s : bstate) tr => length (cb_threads s) = n /\ visible_of i tr = []).
  refine (proj2 (exec_inv bstep I _ sched (new_breaker threshold timeout t0 n) [] _)).
  2:{ split; [apply repeat_length|reflexivity]. }
  intros s l s1 es tr [HL HV] Hst.
  assert (Hlt : forall j pc, nth_error (cb_threads s) j = Some pc -> i <> j).
  { intros j pc Hj. assert (nth_error (cb_threads s) j <> None) by congruence.
    apply nth_error_Some in H. lia. }
  split.
  - destruct l as [t|j|j o|j]; cbn in Hst; [injection Hst as <- <-; exact HL|..];
      destruct (nth_error (cb_threads s) j) as [[]|]; try discriminate; cbn in Hst;
      try discriminate; try (destruct (cb_state s now)); injection Hst as <- <-; cbn; rewrite upd_length; exact HL.
  - rewrite visible_app, HV. cbn.
    destruct l as [t|j|j o|j]; cbn in Hst; [injection Hst as <- <-; reflexivity|..];
      destruct (nth_error (cb_threads s) j) as [pc|] eqn:E; try discriminate;
      pose proof (Hlt j pc E) as Hne; apply Nat.eqb_neq in Hne;
      destruct pc; cbn in Hst; try discriminate; try (destruct (cb_state s now));
      injection Hst as <- <-; cbn; try rewrite Hne; reflexivity.
Qed.

Lemma breaker_branches threshold timeout t0 n sched i :
  exists dos cur, visible_of i (snd (breaker_exec threshold timeout t0 n sched)) = concat dos ++ cur /\
    Forall whole_do dos /\ (cur = [] \/ part_do cur) /\
    (nth_error (cb_threads (fst (breaker_exec threshold timeout t0 n sched))) i = Some BIdle -> cur = []).
Proof.
  destruct (Nat.le_gt_cases n i) as [Hi|Hi].
  { exists [], []. rewrite visible_bound by exact Hi. cbn. auto. }
  pose proof (exec_inv bstep vinv vinv_step sched (new_breaker threshold timeout t0 n) []) as HV.
  cbn in HV.
  assert (H0 : vinv (new_breaker threshold timeout t0 n) []).
  { intros j pc Hj. cbn in Hj. exists [], []. repeat split; auto.
    apply nth_error_In in Hj. apply repeat_spec in Hj. subst. reflexivity. }
  specialize (HV H0). unfold breaker_exec.
  assert (Hlen : length (cb_threads (fst (exec bstep (new_breaker threshold timeout t0 n) sched))) = n).
  { refine (exec_inv bstep (fun s _ => length (cb_threads s) = n) _ sched _ [] _).
    - intros s l s1 es tr HL Hst.
      destruct l as [t|j|j o|j]; cbn in Hst; [injection Hst as <- <-; exact HL|..];
      destruct (nth_error (cb_threads s) j) as [[]|]; try discriminate; cbn in Hst;
      try discriminate; try (destruct (cb_state s now)); injection Hst as <- <-; cbn; rewrite upd_length; exact HL.
    - apply repeat_length. }
  destruct (nth_error (cb_threads (fst (exec bstep (new_breaker threshold timeout t0 n) sched))) i)
    as [pc|] eqn:E; [|apply nth_error_None in E; lia].
  destruct (HV i pc E) as (dos & cur & H1 & H2 & H3).
  destruct pc; cbn in H3; subst cur.
  - exists dos, []. repeat split; auto.
  - exists dos, [VCall]. repeat split; auto; [|discriminate]. right. exists [VOnOpen]. split; [discriminate|left; reflexivity].
  - exists dos, [VCall]. repeat split; auto; [|discriminate]. right. exists [VOnOpen]. split; [discriminate|left; reflexivity].
  - exists dos, [VCall]. repeat split; auto; [|discriminate]. right. exists [VOnOpen]. split; [discriminate|left; reflexivity].
  - exists dos, [VCall]. repeat split; auto; [|discriminate]. right. exists [VOnOpen]. split; [discriminate|left; reflexivity].
  - exists dos, [VCall; VTask]. repeat split; auto; [|discriminate]. right. exists [VDone TaskOk].
    split; [discriminate|]. unfold whole_do; cbn; auto.
  - exists dos, [VCall; VTask; VDone (TaskErr e)]. repeat split; auto; [|discriminate]. right. exists [VOnError e].
    split; [discriminate|]. unfold whole_do; cbn. right; right; right; exists e; reflexivity.
  - exists dos, [VCall; VTask; VDone (TaskErr e)]. repeat split; auto; [|discriminate]. right. exists [VOnError e].
    split; [discriminate|]. unfold whole_do; cbn. right; right; right; exists e; reflexivity.
  - exists (dos ++ [[VCall; VTask; VDone TaskOk]]), []. rewrite concat_snoc, app_nil_r.
    repeat split; auto. apply Forall_app. split; [exact H2|]. constructor; [|constructor]. unfold whole_do. auto.
Qed.

(** C20, link between the decision and what runs. *)
Lemma last_consult_app i tr1 tr2 a : last_consult i a (tr1 ++ tr2) = last_consult i (last_consult i a tr1) tr2.
Proof. revert a; induction tr1 as [|e tr1 IH]; intros a; cbn; [reflexivity|]. destruct e; apply IH. Qed.

Definition linv (s : bstate) (tr : list bevent) : Prop :=
  (forall i, (nth_error (cb_threads s) i = Some BOpen -> last_consult i None tr = Some false) /\
             (nth_error (cb_threads s) i = Some BTask -> last_consult i None tr = Some true)) /\
  (forall tr1 i tr2, tr = tr1 ++ EOnOpen i :: tr2 -> last_consult i None tr1 = Some false) /\
  (forall tr1 i tr2, tr = tr1 ++ ETask i :: tr2 -> last_consult i None tr1 = Some true).

Lemma split_snoc {A} (tr : list A) e tr1 x tr2 :
  tr ++ [e] = tr1 ++ x :: tr2 -> (exists m, tr = tr1 ++ x :: m) \/ (tr1 = tr /\ x = e).
Proof.
  revert tr1. induction tr as [|y tr IH]; intros [|z tr1] H; cbn in *.
  - injection H as <- _. right. auto.
  - injection H as _ H. destruct tr1; discriminate.
  - injection H as <- _. left. exists tr. reflexivity.
  - injection H as <- H. destruct (IH _ H) as [[m ->]|[-> ->]]; [left; eexists; reflexivity|right; auto].
Qed.

Lemma linv_step : forall s l s1 es tr, linv s tr -> bstep s l = Some (s1, es) -> linv s1 (tr ++ es).
Proof.
  intros s l s1 es tr (HA & HB & HC) Hst.
  assert (Hsilent : forall i pc' e, es = [e] ->
     nth_error (cb_threads s) i <> None -> cb_threads s1 = upd i pc' (cb_threads s) ->
     pc' <> BOpen -> pc' <> BTask ->
     (match e with
      | EConsult _ _ _ => False
      | EOnOpen j => last_consult j None tr = Some false
      | ETask j => last_consult j None tr = Some true
      | _ => True end) -> linv s1 (tr ++ es)).
  { intros i pc' e -> Hi Hth Hn1 Hn2 He.
    assert (Hlc : forall j, last_consult j None (tr ++ [e]) = last_consult j None tr).
    { intros j. rewrite last_consult_app. destruct e; try reflexivity. contradiction. }
    repeat split.
    - intros Hj. rewrite Hlc. rewrite Hth, nth_error_upd in Hj. destruct (Nat.eq_dec i i0) as [->|].
      + destruct (nth_error (cb_threads s) i0); congruence.
      + apply HA. exact Hj.
    - intros Hj. rewrite Hlc. rewrite Hth, nth_error_upd in Hj. destruct (Nat.eq_dec i i0) as [->|].
      + destruct (nth_error (cb_threads s) i0); congruence.
      + apply HA. exact Hj.
    - intros tr1 j tr2 Heq. destruct (split_snoc _ _ _ _ _ Heq) as [[m ->]|[-> <-]]; [eapply HB; reflexivity|exact He].
    - intros tr1 j tr2 Heq. destruct (split_snoc _ _ _ _ _ Heq) as [[m ->]|[-> <-]]; [eapply HC; reflexivity|exact He]. }
  destruct l as [t|i|i o|i]; cbn in Hst.
  - injection Hst as <- <-. rewrite app_nil_r. repeat split; try apply HA; auto.
  - destruct (nth_error (cb_threads s) i) as [[]|] eqn:E; try discriminate. injection Hst as <- <-.
    eapply (Hsilent i); try reflexivity; try congruence; try discriminate; auto.
  - destruct (nth_error (cb_threads s) i) as [[]|] eqn:E; try discriminate. injection Hst as <- <-.
    eapply (Hsilent i); try reflexivity; try congruence; try (destruct o; discriminate); auto.
  - destruct (nth_error (cb_threads s) i) as [pc|] eqn:E; try discriminate.
    destruct pc; cbn in Hst; try discriminate.
    + injection Hst as <- <-. rewrite app_nil_r. repeat split; try assumption.
      * intros Hj. cbn in Hj. rewrite nth_error_upd in Hj. destruct (Nat.eq_dec i i0) as [->|].
        -- rewrite E in Hj. discriminate.
        -- apply HA. exact Hj.
      * intros Hj. cbn in Hj. rewrite nth_error_upd in Hj. destruct (Nat.eq_dec i i0) as [->|].
        -- rewrite E in Hj. discriminate.
        -- apply HA. exact Hj.
    + assert (Hgo : exists pc r, s1 = b_pc s i pc /\ es = [EConsult i now r] /\
                (pc = BOpen /\ r = false \/ pc = BTask /\ r = true)).
      { destruct (cb_state s now); injection Hst as <- <-; eexists _, _; eauto. }
      destruct Hgo as (pc & r & -> & -> & Hp). repeat split.
      * intros Hj. cbn in Hj. rewrite nth_error_upd, E in Hj. rewrite last_consult_app. cbn.
        destruct (Nat.eq_dec i i0) as [->|Hne].
        -- rewrite Nat.eqb_refl. destruct Hp as [[-> ->]|[-> ->]]; congruence.
        -- destruct (Nat.eqb_spec i0 i); [congruence|]. apply HA. exact Hj.
      * intros Hj. cbn in Hj. rewrite nth_error_upd, E in Hj. rewrite last_consult_app. cbn.
        destruct (Nat.eq_dec i i0) as [->|Hne].
        -- rewrite Nat.eqb_refl. destruct Hp as [[-> ->]|[-> ->]]; congruence.
        -- destruct (Nat.eqb_spec i0 i); [congruence|]. apply HA. exact Hj.
      * intros tr1 j tr2 Heq. destruct (split_snoc _ _ _ _ _ Heq) as [[m ->]|[-> Hx]]; [eapply HB; reflexivity|discriminate].
      * intros tr1 j tr2 Heq. destruct (split_snoc _ _ _ _ _ Heq) as [[m ->]|[-> Hx]]; [eapply HC; reflexivity|discriminate].
    + injection Hst as <- <-. eapply (Hsilent i); try reflexivity; try congruence; try discriminate.
      apply HA. exact E.
    + injection Hst as <- <-. eapply (Hsilent i); try reflexivity; try congruence; try discriminate.
      apply HA. exact E.
    + injection Hst as <- <-. eapply (Hsilent i); try reflexivity; try congruence; try discriminate; auto.
    + injection Hst as <- <-. eapply (Hsilent i); try reflexivity; try congruence; try discriminate; auto.
    + injection Hst as <- <-. eapply (Hsilent i); try reflexivity; try congruence; try discriminate; auto.
Qed.

Lemma breaker_decision_followed threshold timeout t0 n sched :
  let tr := snd (breaker_exec threshold timeout t0 n sched) in
  (forall tr1 i tr2, tr = tr1 ++ EOnOpen i :: tr2 -> last_consult i None tr1 = Some false) /\
  (forall tr1 i tr2, tr = tr1 ++ ETask i :: tr2 -> last_consult i None tr1 = Some true).
Proof.
  cbn zeta. pose proof (exec_inv bstep linv linv_step sched (new_breaker threshold timeout t0 n) []) as H.
  cbn in H. apply H. repeat split.
  - intros Hj. cbn in Hj. apply nth_error_In, repeat_spec in Hj. discriminate.
  - intros Hj. cbn in Hj. apply nth_error_In, repeat_spec in Hj. discriminate.
  - destruct tr1; discriminate.
  - destruct tr1; discriminate.
Qed.

(** C23 *)
Definition seq_state threshold timeout failures last clock : bstate :=
  BSt threshold last failures timeout clock [BIdle].

Lemma one_do_refused threshold timeout failures last clock t1 o t2 :
  cb_state (seq_state threshold timeout failures last clock) t1 = CbOpen ->
  exec bstep (seq_state threshold timeout failures last clock) (one_do t1 o t2) =
  (seq_state threshold timeout failures last t2, [ECall 0; EConsult 0 t1 false; EOnOpen 0]).
Proof.
  intros H. unfold seq_state, one_do, cb_state in *.
  cbn [cb_threshold cb_last cb_failures cb_timeout] in H.
  cbn -[i64 Z.leb Z.ltb andb]. unfold cb_state. cbn [cb_threshold cb_last cb_failures cb_timeout b_pc].
  destruct ((threshold <=? failures) && (timeout <? i64 (t1 - last))); [discriminate H|].
  destruct (threshold <=? failures); [|discriminate H]. reflexivity.
Qed.

Lemma one_do_run threshold timeout failures last clock t1 o t2 :
  cb_state (seq_state threshold timeout failures last clock) t1 <> CbOpen ->
  exec bstep (seq_state threshold timeout failures last clock) (one_do t1 o t2) =
  (match o with
   | TaskOk => seq_state threshold timeout 0 0 t2
   | TaskErr _ => seq_state threshold timeout (i64 (failures + 1)) t2 t2
   | TaskPanic => seq_state threshold timeout failures last t2
   end,
   [ECall 0; EConsult 0 t1 true; ETask 0; EDone 0 o] ++
   match o with TaskOk => [ESuccess] | TaskErr e => [EFailure t2; EOnError 0 e] | TaskPanic => [] end).
Proof.
  intros H. unfold seq_state, one_do, cb_state in *.
  cbn [cb_threshold cb_last cb_failures cb_timeout] in H.
  cbn -[i64 Z.leb Z.ltb andb]. unfold cb_state. cbn [cb_threshold cb_last cb_failures cb_timeout b_pc].
  destruct ((threshold <=? failures) && (timeout <? i64 (t1 - last))).
  - destruct o; reflexivity.
  - destruct (threshold <=? failures); [congruence|]. destruct o; reflexivity.
Qed.

Definition rel (threshold : Z) (m : machine) (failures last : Z) : Prop :=
  match m with
  | MClosed k => failures = k /\ k < threshold
  | MOpen since => threshold <= failures /\ last = since
  end.

Lemma seq_refines threshold timeout calls : 1 <= threshold -> forall m failures last clock,
  times_ok calls -> rel threshold m failures last ->
  0 <= failures -> failures + Z.of_nat (length calls) < 2 ^ 62 -> 0 <= last < 2 ^ 62 ->
  seq_visible (seq_state threshold timeout failures last clock) calls =
  map result_visible (machine_run threshold timeout m calls).
Proof.
  intros Hthr. induction calls as [|[[t1 o] t2] calls IH]; intros m failures last clock Ht Hrel Hf Hlen Hl; [reflexivity|].
  inversion Ht as [|? ? Hc0 Ht']; subst. cbn in Hc0. destruct Hc0 as [Ht1 Ht2]. cbn [length] in Hlen.
  assert (Hst : cb_state (seq_state threshold timeout failures last clock) t1 =
     if failures <? threshold then CbClosed else if timeout <? t1 - last then CbHalfOpen else CbOpen).
  { unfold cb_state, seq_state; cbn. rewrite i64_id by (unfold in64; lia).
    destruct (Z.leb_spec threshold failures), (Z.ltb_spec failures threshold), (timeout <? t1 - last); cbn; auto; lia. }
  cbn [seq_visible machine_run].
  destruct m as [k|since]; cbn [rel] in Hrel.
  - destruct Hrel as [-> Hk].
    assert (Hne : cb_state (seq_state threshold timeout k last clock) t1 <> CbOpen).
    { rewrite Hst. destruct (Z.ltb_spec k threshold); [discriminate|lia]. }
    rewrite (one_do_run _ _ _ _ _ _ _ _ Hne). cbn [machine_do].
    destruct o as [|e|]; cbn [map result_visible]; f_equal; try reflexivity.
    + apply IH; cbn; try lia; auto.
    + rewrite i64_id by (unfold in64; lia).
      apply IH; try lia; auto. destruct (Z.ltb_spec (k + 1) threshold); cbn; lia.
    + apply IH; cbn; try lia; auto.
  - destruct Hrel as [Hk ->]. cbn [machine_do].
    destruct (Z.ltb_spec failures threshold); [lia|].
    destruct (Z.leb_spec t1 (since + timeout)) as [Hle|Hgt].
    + destruct (Z.ltb_spec timeout (t1 - since)); [lia|].
      rewrite (one_do_refused _ _ _ _ _ _ _ _ Hst). cbn [map result_visible]. f_equal.
      apply IH; cbn; try lia; auto.
    + destruct (Z.ltb_spec timeout (t1 - since)); [|lia].
      assert (Hne : cb_state (seq_state threshold timeout failures since clock) t1 <> CbOpen)
        by (rewrite Hst; discriminate).
      rewrite (one_do_run _ _ _ _ _ _ _ _ Hne).
      destruct o as [|e|]; cbn [map result_visible]; f_equal; try reflexivity.
      * apply IH; cbn; try lia; auto.
      * rewrite i64_id by (unfold in64; lia). apply IH; cbn; try lia; auto.
      * apply IH; cbn; try lia; auto.
Qed.

Lemma breaker_sequential threshold timeout t0 calls :
  1 <= threshold -> times_ok calls -> Z.of_nat (length calls) < 2 ^ 62 ->
  seq_visible (new_breaker threshold timeout t0 1) calls =
  map result_visible (machine_run threshold timeout (MClosed 0) calls).
Proof.
  intros H1 H2 H3. apply (seq_refines threshold timeout calls H1 (MClosed 0) 0 0 t0); cbn; auto; lia.
Qed.
