From Verif Require Import Common Threads SemaModel SemaSpec.

Lemma map_upd {A B} (f : A -> B) i x l : map f (upd i x l) = upd i (f x) (map f l).
Proof. revert i; induction l as [|y l IH]; intros [|i]; cbn; auto. rewrite IH. reflexivity. Qed.

Lemma upd_upd {A} i (x y : A) l : upd i x (upd i y l) = upd i x l.
Proof. revert i; induction l as [|z l IH]; intros [|i]; cbn; auto. rewrite IH. reflexivity. Qed.

Lemma upd_same {A} i (x : A) l : nth_error l i = Some x -> upd i x l = l.
Proof.
  revert i; induction l as [|z l IH]; intros [|i] H; cbn in *; try discriminate.
  - injection H as ->. reflexivity.
  - rewrite IH by exact H. reflexivity.
Qed.

Lemma nth_error_map {A B} (f : A -> B) l i : nth_error (map f l) i = option_map f (nth_error l i).
Proof. revert i; induction l; intros [|i]; cbn; auto. Qed.

Lemma pend_wake l : map pend (map wake l) = map pend l.
Proof. induction l as [|[] l IH]; cbn; congruence. Qed.

Lemma repeat_pend n : map pend (repeat SIdle n) = repeat None n.
Proof. induction n; cbn; congruence. Qed.

(** ** LockSemaphore *)
Definition linv_ok (s : lsema) : Prop :=
  in64 (ls_permits s) /\ 0 <= ls_count s <= Z.max 0 (ls_permits s).

Lemma lock_allowed sched : forall s, linv_ok s ->
  allowed (ls_permits s) (map pend (ls_threads s)) (ls_count s) (snd (exec lstep s sched)).
Proof.
  induction sched as [|l sched IH]; intros s [Hp Hc]; cbn [exec]; [constructor|].
  destruct (lstep s l) as [[s1 es]|] eqn:Est; [|apply IH; split; assumption].
  assert (Hgo : forall k tr, linv_ok s1 -> ls_permits s1 = ls_permits s -> ls_count s1 = k ->
     (allowed (ls_permits s) (map pend (ls_threads s1)) k tr ->
        allowed (ls_permits s) (map pend (ls_threads s)) (ls_count s) (es ++ tr)) ->
     tr = snd (exec lstep s1 sched) ->
     allowed (ls_permits s) (map pend (ls_threads s)) (ls_count s) (snd (let '(s2, es2) := exec lstep s1 sched in (s2, es ++ es2)))).
  { intros k tr H1 H2 H3 H4 ->. specialize (IH s1 H1). rewrite H2, H3 in IH.
    destruct (exec lstep s1 sched) as [s2 es2]. cbn in *. apply H4. exact IH. }
  unfold in64 in Hp.
  destruct l as [i o|i]; cbn in Est; destruct (nth_error (ls_threads s) i) as [pc|] eqn:E; try discriminate;
    assert (Hn : nth_error (map pend (ls_threads s)) i = Some (pend pc)) by (rewrite nth_error_map, E; reflexivity).
  - destruct pc; try discriminate. injection Est as <- <-.
    eapply Hgo; cbn; try reflexivity; [split; assumption|]. intros H. rewrite map_upd in H.
    constructor; [exact Hn|]. destruct o; exact H.
  - destruct pc; try discriminate.
    + unfold ls_full in Est. destruct (Z.leb_spec (ls_permits s) (ls_count s)); injection Est as <- <-.
      * eapply Hgo; cbn; try reflexivity; [split; assumption|]. intros H'. rewrite map_upd in H'.
        cbn in H'. rewrite upd_same in H' by exact Hn. exact H'.
      * eapply Hgo; cbn; try reflexivity.
        -- split; cbn; [exact Hp|]. rewrite i64_id; unfold in64; lia.
        -- rewrite i64_id by (unfold in64; lia). intros H'. rewrite map_upd in H'.
           apply al_acquired; auto.
    + destruct (Z.leb_spec (ls_count s) 0); injection Est as <- <-.
      * eapply Hgo; cbn; try reflexivity; [split; assumption|]. intros H'. rewrite map_upd in H'.
        apply al_released; [exact Hn|]. replace (Z.max 0 (ls_count s - 1)) with (ls_count s) by lia. exact H'.
      * eapply Hgo; cbn; try reflexivity.
        -- split; cbn; [exact Hp|]. rewrite i64_id; unfold in64; lia.
        -- rewrite i64_id by (unfold in64; lia). intros H'. rewrite pend_wake, map_upd in H'.
           apply al_released; [exact Hn|]. replace (Z.max 0 (ls_count s - 1)) with (ls_count s - 1) by lia. exact H'.
    + unfold ls_full in Est. destruct (Z.leb_spec (ls_permits s) (ls_count s)); injection Est as <- <-.
      * eapply Hgo; cbn; try reflexivity; [split; assumption|]. intros H'. rewrite map_upd in H'.
        apply al_refused; auto.
      * eapply Hgo; cbn; try reflexivity.
        -- split; cbn; [exact Hp|]. rewrite i64_id; unfold in64; lia.
        -- rewrite i64_id by (unfold in64; lia). intros H'. rewrite map_upd in H'.
           apply al_tried; auto.
Qed.

Lemma lock_history permits n sched : in64 permits ->
  semaphore_history permits n (snd (lock_exec permits n sched)).
Proof.
  intros Hp. unfold semaphore_history, lock_exec. rewrite <- repeat_pend.
  apply (lock_allowed sched (new_lock_sema permits n)). split; cbn; [exact Hp|]. lia.
Qed.

Definition awake (pc : spc) : Prop := pc <> SWait.

Lemma wake_awake l : Forall awake l -> map wake l = l.
Proof. induction 1 as [|[] l Hx HF IH]; cbn; try congruence; exfalso; apply Hx; reflexivity. Qed.

Lemma pend_acq pc : awake pc -> pend pc = Some OpAcquire -> pc = SAcq.
Proof. destruct pc; cbn; try discriminate; auto; intros H; exfalso; apply H; reflexivity. Qed.

Lemma history_lock permits tr : in64 permits -> forall p k, allowed permits p k tr ->
  forall threads, map pend threads = p -> Forall awake threads -> 0 <= k <= Z.max 0 permits ->
  exists sched, snd (exec lstep (LSema permits k threads) sched) = tr.
Proof.
  intros Hp p k Hal. unfold in64 in Hp. induction Hal; intros threads Hth HF Hk.
  - exists []. reflexivity.
  - rewrite <- Hth, nth_error_map in H. destruct (nth_error threads i) as [pc|] eqn:E; [|discriminate].
    cbn in H. destruct pc; try discriminate.
    destruct (IHHal (upd i (spc_of o) threads)) as [sched Hs].
    { rewrite map_upd, Hth. destruct o; reflexivity. }
    { apply Forall_upd; [exact HF|]. destruct o; discriminate. }
    { exact Hk. }
    exists (SCall i o :: sched). cbn. rewrite E. cbn.
    destruct (exec lstep (LSema permits k (upd i (spc_of o) threads)) sched) eqn:Ex. cbn in *. congruence.
  - rewrite <- Hth, nth_error_map in H. destruct (nth_error threads i) as [pc|] eqn:E; [|discriminate].
    cbn in H. injection H as H. apply pend_acq in H; [|eapply Forall_nth; eassumption]. subst pc.
    destruct (IHHal (upd i SIdle threads)) as [sched Hs].
    { rewrite map_upd, Hth. reflexivity. }
    { apply Forall_upd; [exact HF|discriminate]. }
    { lia. }
    exists (SStep i :: sched). cbn [exec lstep ls_threads]. rewrite E. unfold ls_full; cbn [ls_permits ls_count].
    destruct (Z.leb_spec permits k); [lia|]. rewrite i64_id by (unfold in64; lia).
    destruct (exec lstep _ sched) eqn:Ex. cbn in *. congruence.
  - rewrite <- Hth, nth_error_map in H. destruct (nth_error threads i) as [pc|] eqn:E; [|discriminate].
    destruct pc; try discriminate.
    destruct (IHHal (upd i SIdle threads)) as [sched Hs].
    { rewrite map_upd, Hth. reflexivity. }
    { apply Forall_upd; [exact HF|discriminate]. }
    { lia. }
    exists (SStep i :: sched). cbn [exec lstep ls_threads]. rewrite E. unfold ls_full; cbn [ls_permits ls_count].
    destruct (Z.leb_spec permits k); [lia|]. rewrite i64_id by (unfold in64; lia).
    destruct (exec lstep _ sched) eqn:Ex. cbn in *. congruence.
  - rewrite <- Hth, nth_error_map in H. destruct (nth_error threads i) as [pc|] eqn:E; [|discriminate].
    destruct pc; try discriminate.
    destruct (IHHal (upd i SIdle threads)) as [sched Hs].
    { rewrite map_upd, Hth. reflexivity. }
    { apply Forall_upd; [exact HF|discriminate]. }
    { lia. }
    exists (SStep i :: sched). cbn [exec lstep ls_threads]. rewrite E. unfold ls_full; cbn [ls_permits ls_count].
    destruct (Z.leb_spec permits k); [|lia].
    destruct (exec lstep _ sched) eqn:Ex. cbn in *. congruence.
  - rewrite <- Hth, nth_error_map in H. destruct (nth_error threads i) as [pc|] eqn:E; [|discriminate].
    destruct pc; try discriminate.
    assert (HF' : Forall awake (upd i SIdle threads)) by (apply Forall_upd; [exact HF|discriminate]).
    destruct (IHHal (upd i SIdle threads)) as [sched Hs].
    { rewrite map_upd, Hth. reflexivity. }
    { exact HF'. }
    { lia. }
    exists (SStep i :: sched). cbn [exec lstep ls_threads ls_count ls_permits]. rewrite E.
    destruct (Z.leb_spec k 0).
    + replace (Z.max 0 (k - 1)) with k in Hs by lia.
      destruct (exec lstep _ sched) eqn:Ex. cbn in *. congruence.
    + rewrite i64_id by (unfold in64; lia). rewrite wake_awake by exact HF'.
      replace (Z.max 0 (k - 1)) with (k - 1) in Hs by lia.
      destruct (exec lstep _ sched) eqn:Ex. cbn in *. congruence.
Qed.

(** ** ChanSemaphore *)
Definition cinv (s : csema) : Prop :=
  1 <= cs_cap s /\ 0 <= cs_len s <= cs_cap s /\
  NoDup (cs_queue s) /\
  (forall i, nth_error (cs_threads s) i = Some SWait <-> In i (cs_queue s)) /\
  (cs_queue s <> [] -> cs_len s = cs_cap s).

Lemma waiters_upd threads i pc queue :
  (forall j, nth_error threads j = Some SWait <-> In j queue) ->
  nth_error threads i <> Some SWait -> pc <> SWait ->
  forall j, nth_error (upd i pc threads) j = Some SWait <-> In j queue.
Proof.
  intros HQ Hi Hpc j. rewrite nth_error_upd. destruct (Nat.eq_dec i j) as [<-|]; [|apply HQ].
  split.
  - destruct (nth_error threads i); [intros [=]; contradiction|discriminate].
  - intros Hin. apply HQ in Hin. contradiction.
Qed.

Lemma cinv_step s l s1 es : cinv s -> cstep s l = Some (s1, es) -> cinv s1 /\ cs_cap s1 = cs_cap s.
Proof.
  intros (H1 & H2 & H3 & H4 & H5) Est.
  destruct l as [i o|i]; cbn in Est; destruct (nth_error (cs_threads s) i) as [pc|] eqn:E; try discriminate;
    destruct pc; try discriminate.
  - injection Est as <- <-. split; [|reflexivity]. unfold cinv; cbn [cs_cap cs_len cs_queue cs_threads]. split; [exact H1|]. split; [exact H2|].
    split; [exact H3|]. split; [|exact H5]. apply waiters_upd; auto; [congruence|destruct o; discriminate].
  - destruct (Z.ltb_spec (cs_len s) (cs_cap s)); injection Est as <- <-; (split; [|reflexivity]); unfold cinv; cbn [cs_cap cs_len cs_queue cs_threads].
    + split; [exact H1|]. split; [lia|]. split; [exact H3|]. split.
      * apply waiters_upd; auto; [congruence|discriminate].
      * intros Hq. specialize (H5 Hq). lia.
    + split; [exact H1|]. split; [lia|].
      assert (Hni : ~ In i (cs_queue s)) by (intros Hin; apply H4 in Hin; congruence).
      split; [|split].
      * apply NoDup_rev in H3. rewrite <- (rev_involutive (cs_queue s ++ [i])). apply NoDup_rev.
        rewrite rev_app_distr. cbn. constructor; [|exact H3]. rewrite <- in_rev. exact Hni.
      * intros j. rewrite nth_error_upd, in_app_iff. cbn. destruct (Nat.eq_dec i j) as [<-|Hne].
        -- rewrite E. split; auto.
        -- rewrite H4. split; [tauto|]. intros [|[|[]]]; [tauto|congruence].
      * intros _. lia.
  - destruct (cs_queue s) as [|j queue] eqn:EQ.
    + assert (cinv s1 /\ cs_cap s1 = cs_cap s); [|assumption].
      destruct (Z.ltb_spec 0 (cs_len s)); injection Est as <- <-; (split; [|reflexivity]); unfold cinv; cbn [cs_cap cs_len cs_queue cs_threads];
        (split; [exact H1|]); (split; [lia|]); (split; [exact H3|]); (split; [|congruence]);
        (apply waiters_upd; auto; [congruence|discriminate]).
    + injection Est as <- <-. split; [|reflexivity]. unfold cinv; cbn [cs_cap cs_len cs_queue cs_threads].
      inversion H3 as [|? ? Hnj Hnd]; subst.
      assert (Hj : nth_error (cs_threads s) j = Some SWait) by (apply H4; left; reflexivity).
      assert (Hij : i <> j) by congruence.
      split; [exact H1|]. split; [exact H2|]. split; [exact Hnd|]. split.
      * intros m. rewrite !nth_error_upd.
        destruct (Nat.eq_dec j m) as [<-|Hjm].
        -- destruct (Nat.eq_dec i j); [congruence|]. rewrite Hj. split; [discriminate|]. intros Hin; contradiction.
        -- destruct (Nat.eq_dec i m) as [<-|Him].
           ++ rewrite E. split; [discriminate|]. intros Hin. assert (In i (j :: queue)) by (right; exact Hin).
              apply H4 in H. congruence.
           ++ rewrite H4. cbn. split; [intros [|]; [congruence|assumption]|auto].
      * intros _. apply H5. discriminate.
  - destruct (Z.ltb_spec (cs_len s) (cs_cap s)); injection Est as <- <-; (split; [|reflexivity]); unfold cinv; cbn [cs_cap cs_len cs_queue cs_threads];
      (split; [exact H1|]); (split; [lia|]); (split; [exact H3|]); (split; [apply waiters_upd; auto; [congruence|discriminate]|]).
    + intros Hq. specialize (H5 Hq). lia.
    + exact H5.
Qed.

Lemma chan_allowed sched : forall s, cinv s ->
  allowed (cs_cap s) (map pend (cs_threads s)) (cs_len s) (snd (exec cstep s sched)).
Proof.
  induction sched as [|l sched IH]; intros s HI; cbn [exec]; [constructor|].
  destruct (cstep s l) as [[s1 es]|] eqn:Est; [|apply IH; assumption].
  destruct (cinv_step _ _ _ _ HI Est) as [HI1 Hcap]. specialize (IH s1 HI1). rewrite Hcap in IH.
  destruct (exec cstep s1 sched) as [s2 tr]. cbn [snd] in *.
  destruct HI as (H1 & H2 & H3 & H4 & H5).
  destruct l as [i o|i]; cbn in Est; destruct (nth_error (cs_threads s) i) as [pc|] eqn:E; try discriminate;
    assert (Hn : nth_error (map pend (cs_threads s)) i = Some (pend pc)) by (rewrite nth_error_map, E; reflexivity);
    destruct pc; try discriminate.
  - injection Est as <- <-. cbn in *. rewrite map_upd in IH. constructor; [exact Hn|]. destruct o; exact IH.
  - destruct (Z.ltb_spec (cs_len s) (cs_cap s)); injection Est as <- <-; cbn in *; rewrite map_upd in IH.
    + apply al_acquired; auto.
    + cbn in IH. rewrite upd_same in IH by exact Hn. exact IH.
  - destruct (cs_queue s) as [|j queue] eqn:EQ.
    + destruct (Z.ltb_spec 0 (cs_len s)); injection Est as <- <-; cbn in *; rewrite map_upd in IH.
      * apply al_released; [exact Hn|]. replace (Z.max 0 (cs_len s - 1)) with (cs_len s - 1) by lia. exact IH.
      * apply al_released; [exact Hn|]. replace (Z.max 0 (cs_len s - 1)) with (cs_len s) by lia. exact IH.
    + injection Est as <- <-. cbn in *.
      assert (Hj : nth_error (cs_threads s) j = Some SWait) by (apply H4; left; reflexivity).
      assert (Hij : i <> j) by congruence.
      assert (Hlen : cs_len s = cs_cap s) by (apply H5; discriminate).
      apply al_released; [exact Hn|]. apply al_acquired.
      * rewrite nth_error_upd_other by exact Hij. rewrite nth_error_map, Hj. reflexivity.
      * lia.
      * rewrite !map_upd in IH. replace (Z.max 0 (cs_len s - 1) + 1) with (cs_len s) by lia. exact IH.
  - destruct (Z.ltb_spec (cs_len s) (cs_cap s)); injection Est as <- <-; cbn in *; rewrite map_upd in IH.
    + apply al_tried; auto.
    + apply al_refused; auto.
Qed.

Lemma cinv_new permits n s : 1 <= permits -> new_chan_sema permits n = Some s -> cinv s.
Proof.
  intros Hp H. unfold new_chan_sema in H. destruct (Z.ltb_spec permits 0); [lia|]. injection H as <-.
  unfold cinv; cbn. split; [exact Hp|]. split; [lia|]. split; [constructor|]. split; [|congruence].
  intros i. split; [|contradiction]. intros Hi. apply nth_error_In, repeat_spec in Hi. discriminate.
Qed.

Lemma chan_history permits n sched s tr : 1 <= permits ->
  chan_exec permits n sched = Some (s, tr) -> semaphore_history permits n tr.
Proof.
  intros Hp H. unfold chan_exec in H. destruct (new_chan_sema permits n) as [s0|] eqn:E; [|discriminate].
  cbn in H. injection H as H. pose proof (chan_allowed sched s0 (cinv_new _ _ _ Hp E)) as HA.
  unfold new_chan_sema in E. destruct (permits <? 0); [discriminate|]. injection E as <-. cbn in HA.
  rewrite repeat_pend in HA. rewrite H in HA. exact HA.
Qed.

Lemma history_chan permits tr : forall p k, allowed permits p k tr ->
  forall threads, map pend threads = p -> Forall awake threads -> 0 <= k <= Z.max 0 permits ->
  exists sched, snd (exec cstep (CSema permits k [] threads) sched) = tr.
Proof.
  intros p k Hal. induction Hal; intros threads Hth HF Hk.
  - exists []. reflexivity.
  - rewrite <- Hth, nth_error_map in H. destruct (nth_error threads i) as [pc|] eqn:E; [|discriminate].
    cbn in H. destruct pc; try discriminate.
    destruct (IHHal (upd i (spc_of o) threads)) as [sched Hs].
    { rewrite map_upd, Hth. destruct o; reflexivity. }
    { apply Forall_upd; [exact HF|]. destruct o; discriminate. }
    { exact Hk. }
    exists (SCall i o :: sched). cbn. rewrite E. cbn.
    destruct (exec cstep _ sched) eqn:Ex. cbn in *. congruence.
  - rewrite <- Hth, nth_error_map in H. destruct (nth_error threads i) as [pc|] eqn:E; [|discriminate].
    cbn in H. injection H as H. apply pend_acq in H; [|eapply Forall_nth; eassumption]. subst pc.
    destruct (IHHal (upd i SIdle threads)) as [sched Hs].
    { rewrite map_upd, Hth. reflexivity. }
    { apply Forall_upd; [exact HF|discriminate]. }
    { lia. }
    exists (SStep i :: sched). cbn [exec cstep cs_threads cs_len cs_cap cs_queue]. rewrite E.
    destruct (Z.ltb_spec k permits); [|lia].
    destruct (exec cstep _ sched) eqn:Ex. cbn in *. congruence.
  - rewrite <- Hth, nth_error_map in H. destruct (nth_error threads i) as [pc|] eqn:E; [|discriminate].
    destruct pc; try discriminate.
    destruct (IHHal (upd i SIdle threads)) as [sched Hs].
    { rewrite map_upd, Hth. reflexivity. }
    { apply Forall_upd; [exact HF|discriminate]. }
    { lia. }
    exists (SStep i :: sched). cbn [exec cstep cs_threads cs_len cs_cap cs_queue]. rewrite E.
    destruct (Z.ltb_spec k permits); [|lia].
    destruct (exec cstep _ sched) eqn:Ex. cbn in *. congruence.
  - rewrite <- Hth, nth_error_map in H. destruct (nth_error threads i) as [pc|] eqn:E; [|discriminate].
    destruct pc; try discriminate.
    destruct (IHHal (upd i SIdle threads)) as [sched Hs].
    { rewrite map_upd, Hth. reflexivity. }
    { apply Forall_upd; [exact HF|discriminate]. }
    { lia. }
    exists (SStep i :: sched). cbn [exec cstep cs_threads cs_len cs_cap cs_queue]. rewrite E.
    destruct (Z.ltb_spec k permits); [lia|].
    destruct (exec cstep _ sched) eqn:Ex. cbn in *. congruence.
  - rewrite <- Hth, nth_error_map in H. destruct (nth_error threads i) as [pc|] eqn:E; [|discriminate].
    destruct pc; try discriminate.
    destruct (IHHal (upd i SIdle threads)) as [sched Hs].
    { rewrite map_upd, Hth. reflexivity. }
    { apply Forall_upd; [exact HF|discriminate]. }
    { lia. }
    exists (SStep i :: sched). cbn [exec cstep cs_threads cs_len cs_cap cs_queue]. rewrite E.
    destruct (Z.ltb_spec 0 k).
    + replace (Z.max 0 (k - 1)) with (k - 1) in Hs by lia.
      destruct (exec cstep _ sched) eqn:Ex. cbn in *. congruence.
    + replace (Z.max 0 (k - 1)) with k in Hs by lia.
      destruct (exec cstep _ sched) eqn:Ex. cbn in *. congruence.
Qed.

(** C29 *)
Lemma idle_awake n : Forall awake (repeat SIdle n).
Proof. apply Forall_forall. intros x Hx. apply repeat_spec in Hx. subst. discriminate. Qed.

Lemma lock_histories permits n tr : in64 permits ->
  ((exists sched, snd (lock_exec permits n sched) = tr) <-> semaphore_history permits n tr).
Proof.
  intros Hp. split.
  - intros [sched <-]. apply lock_history. exact Hp.
  - intros H. apply (history_lock permits tr Hp _ _ H (repeat SIdle n)); [apply repeat_pend|apply idle_awake|lia].
Qed.

Lemma chan_histories permits n tr : 1 <= permits ->
  ((exists sched s, chan_exec permits n sched = Some (s, tr)) <-> semaphore_history permits n tr).
Proof.
  intros Hp. split.
  - intros (sched & s & H). eapply chan_history; eassumption.
  - intros H. destruct (history_chan permits tr _ _ H (repeat SIdle n)) as [sched Hs];
      [apply repeat_pend|apply idle_awake|lia|].
    exists sched. unfold chan_exec, new_chan_sema. destruct (Z.ltb_spec permits 0); [lia|]. cbn.
    destruct (exec cstep _ sched) as [s tr'] eqn:Ex. cbn in Hs. subst tr'. exists s. reflexivity.
Qed.

(** ** Properties of all allowed histories *)
Lemma taken_from_bounds permits tr : forall p k, allowed permits p k tr -> 0 <= k <= Z.max 0 permits ->
  0 <= fold_left taken_step tr k <= Z.max 0 permits.
Proof. intros p k H. induction H; intros Hk; cbn in *; auto; apply IHallowed; lia. Qed.

Lemma allowed_app permits tr1 tr2 : forall p k, allowed permits p k (tr1 ++ tr2) ->
  allowed permits p k tr1 /\ exists p', allowed permits p' (fold_left taken_step tr1 k) tr2.
Proof.
  induction tr1 as [|e tr1 IH]; intros p k H; cbn in *.
  - split; [constructor|]. exists p. exact H.
  - inversion H; subst; cbn;
      match goal with HA : allowed _ _ _ (tr1 ++ tr2) |- _ => destruct (IH _ _ HA) as (HB & p' & HC) end;
      (split; [econstructor; eassumption|exists p'; exact HC]).
Qed.

(** C27 (exactness) *)
Lemma tried_exact permits n tr tr1 i b tr2 :
  semaphore_history permits n tr -> tr = tr1 ++ ESTried i b :: tr2 -> b = (taken tr1 <? permits).
Proof.
  intros H ->. destruct (allowed_app _ _ _ _ _ H) as (_ & p' & HA). unfold taken.
  inversion HA; subst; symmetry; [apply Z.ltb_lt|apply Z.ltb_ge]; assumption.
Qed.

Lemma acquired_exact permits n tr tr1 i tr2 :
  semaphore_history permits n tr -> tr = tr1 ++ ESAcquired i :: tr2 -> taken tr1 < permits.
Proof.
  intros H ->. destruct (allowed_app _ _ _ _ _ H) as (_ & p' & HA). inversion HA; subst. assumption.
Qed.

(** C26 *)
Lemma acquisitions_from permits tr : forall p k, allowed permits p k tr -> 0 <= k <= Z.max 0 permits ->
  releases_done tr = 0 -> acquisitions tr + k <= Z.max 0 permits.
Proof.
  unfold releases_done, acquisitions.
  intros p k H. induction H; intros Hk Hr; cbn [count] in *.
  - lia.
  - apply IHallowed; lia.
  - match goal with |- 1 + ?c + _ <= _ => enough (c + (k + 1) <= Z.max 0 permits) by lia end. apply IHallowed; lia.
  - match goal with |- 1 + ?c + _ <= _ => enough (c + (k + 1) <= Z.max 0 permits) by lia end. apply IHallowed; lia.
  - apply IHallowed; lia.
  - exfalso. match goal with Hr : 1 + ?c = 0 |- _ =>
      pose proof (count_nonneg (fun e : sevent => match e with ESReleased _ => true | _ => false end) tr) end. lia.
Qed.

Lemma no_extra_permits permits n tr1 tr2 :
  semaphore_history permits n (tr1 ++ tr2) -> releases_done tr2 = 0 ->
  acquisitions tr2 <= Z.max 0 permits - taken tr1 /\ 0 <= taken tr1 <= Z.max 0 permits.
Proof.
  intros H Hr. destruct (allowed_app _ _ _ _ _ H) as (HA & p' & HB).
  pose proof (taken_from_bounds _ _ _ _ HA ltac:(lia)) as Hk.
  pose proof (acquisitions_from _ _ _ _ HB Hk Hr). unfold taken. lia.
Qed.

(** C25 *)
Definition is_rel (o : option sop) : bool := match o with Some OpRelease => true | _ => false end.

Lemma count_upd {A} (f : A -> bool) i x l y :
  nth_error l i = Some y -> count f (upd i x l) = count f l - (if f y then 1 else 0) + (if f x then 1 else 0).
Proof.
  revert i; induction l as [|z l IH]; intros [|i] H; cbn [count upd nth_error] in *; try discriminate.
  - injection H as ->. lia.
  - rewrite (IH i H). lia.
Qed.

Lemma pending_count permits tr : forall p k, allowed permits p k tr ->
  0 <= count is_rel p + release_calls tr - releases_done tr.
Proof.
  unfold release_calls, releases_done. intros p k H. induction H; cbn [count].
  - pose proof (count_nonneg is_rel p). lia.
  - rewrite (count_upd is_rel i (Some o) p None H) in IHallowed. destruct o; cbn [count is_rel] in *; lia.
  - rewrite (count_upd is_rel i None p _ H) in IHallowed. cbn [count is_rel] in *. lia.
  - rewrite (count_upd is_rel i None p _ H) in IHallowed. cbn [count is_rel] in *. lia.
  - rewrite (count_upd is_rel i None p _ H) in IHallowed. cbn [count is_rel] in *. lia.
  - rewrite (count_upd is_rel i None p _ H) in IHallowed. cbn [count is_rel] in *. lia.
Qed.

Lemma held_app tr1 tr2 : held (tr1 ++ tr2) = held tr1 + held tr2.
Proof. unfold held, acquisitions, release_calls. rewrite !count_app. lia. Qed.

(** With [h] held before, a disciplined continuation keeps [taken = held + pending releases]. *)
Lemma held_from permits tr : forall p k h, allowed permits p k tr -> 0 <= h -> k = h + count is_rel p ->
  0 <= k <= Z.max 0 permits ->
  (forall tr1 tr2, tr = tr1 ++ tr2 -> 0 <= h + held tr1) ->
  h + held tr <= fold_left taken_step tr k.
Proof.
  intros p k h H. revert h. induction H; intros h Hh Hk Hb Hd.
  - cbn. pose proof (count_nonneg is_rel p). unfold held, acquisitions, release_calls. cbn. lia.
  - pose proof (Hd [ESCall i o] tr eq_refl) as H1.
    assert (E : held (ESCall i o :: tr) = held [ESCall i o] + held tr) by (apply (held_app [ESCall i o] tr)).
    rewrite E, Z.add_assoc. cbn [fold_left taken_step]. apply IHallowed; auto.
    + rewrite (count_upd is_rel i (Some o) p None H). destruct o; cbn; lia.
    + intros tr1 tr2 ->. specialize (Hd (ESCall i o :: tr1) tr2 eq_refl).
      rewrite (held_app [ESCall i o] tr1 : held (ESCall i o :: tr1) = _) in Hd. lia.
  - assert (E : forall t, held (ESAcquired i :: t) = 1 + held t) by (intros t; apply (held_app [ESAcquired i] t)).
    rewrite E. replace (h + (1 + held tr)) with ((h + 1) + held tr) by lia. cbn [fold_left taken_step].
    apply IHallowed; auto; try lia.
    + rewrite (count_upd is_rel i None p _ H). cbn. lia.
    + intros tr1 tr2 ->. specialize (Hd (ESAcquired i :: tr1) tr2 eq_refl). rewrite E in Hd. lia.
  - assert (E : forall t, held (ESTried i true :: t) = 1 + held t) by (intros t; apply (held_app [ESTried i true] t)).
    rewrite E. replace (h + (1 + held tr)) with ((h + 1) + held tr) by lia. cbn [fold_left taken_step].
    apply IHallowed; auto; try lia.
    + rewrite (count_upd is_rel i None p _ H). cbn. lia.
    + intros tr1 tr2 ->. specialize (Hd (ESTried i true :: tr1) tr2 eq_refl). rewrite E in Hd. lia.
  - assert (E : forall t, held (ESTried i false :: t) = held t) by (intros t; apply (held_app [ESTried i false] t)).
    rewrite E. cbn [fold_left taken_step]. apply IHallowed; auto; try lia.
    + rewrite (count_upd is_rel i None p _ H). cbn. lia.
    + intros tr1 tr2 ->. specialize (Hd (ESTried i false :: tr1) tr2 eq_refl). rewrite E in Hd. lia.
  - assert (E : forall t, held (ESReleased i :: t) = held t) by (intros t; apply (held_app [ESReleased i] t)).
    rewrite E. cbn [fold_left taken_step].
    assert (Hge : 1 <= count is_rel p).
    { pose proof (count_upd is_rel i None p _ H) as Hu. cbn in Hu.
      pose proof (count_nonneg is_rel (upd i None p)). lia. }
    apply IHallowed; auto; try lia.
    + rewrite (count_upd is_rel i None p _ H). cbn. lia.
    + intros tr1 tr2 ->. specialize (Hd (ESReleased i :: tr1) tr2 eq_refl). rewrite E in Hd. lia.
Qed.

Lemma holders_bound permits n tr :
  semaphore_history permits n tr -> disciplined tr -> held tr <= Z.max 0 permits.
Proof.
  intros H Hd. pose proof (taken_from_bounds _ _ _ _ H ltac:(lia)) as Hb.
  enough (0 + held tr <= fold_left taken_step tr 0) by lia.
  apply (held_from permits tr (repeat None n) 0 0 H); try lia.
  - clear. induction n; cbn; lia.
  - intros tr1 tr2 Heq. specialize (Hd tr1 tr2 Heq). lia.
Qed.

(** C28 *)
Lemma taken_snoc tr es : taken (tr ++ es) = fold_left taken_step es (taken tr).
Proof. unfold taken. apply fold_left_app. Qed.

Lemma allowed_taken_lock permits n sched : in64 permits ->
  let '(s, tr) := lock_exec permits n sched in
  ls_count s = taken tr /\ ls_permits s = permits /\ 0 <= ls_count s <= Z.max 0 permits /\
  (ls_count s < permits -> Forall awake (ls_threads s)).
Proof.
  intros Hp. unfold lock_exec.
  pose (I := fun (s : lsema) tr => ls_count s = taken tr /\ ls_permits s = permits /\
    0 <= ls_count s <= Z.max 0 permits /\ (ls_count s < permits -> Forall awake (ls_threads s))).
  assert (HI : I (fst (exec lstep (new_lock_sema permits n) sched)) ([] ++ snd (exec lstep (new_lock_sema permits n) sched))).
  { apply exec_inv.
    - clear n sched. intros s l s1 es tr (H1 & H2 & H3 & H4) Est. unfold in64 in Hp. unfold I.
      rewrite taken_snoc, <- H1.
      destruct l as [i o|i]; cbn in Est; destruct (nth_error (ls_threads s) i) as [pc|] eqn:E; try discriminate;
        destruct pc; try discriminate.
      + injection Est as <- <-. cbn. repeat split; auto; try lia. intros Hlt. apply Forall_upd; auto. destruct o; discriminate.
      + unfold ls_full in Est. destruct (Z.leb_spec (ls_permits s) (ls_count s)); injection Est as <- <-; cbn.
        * repeat split; auto; lia.
        * rewrite i64_id by (unfold in64; lia). repeat split; auto; try lia.
          intros Hlt. apply Forall_upd; [apply H4; lia|discriminate].
      + destruct (Z.leb_spec (ls_count s) 0); injection Est as <- <-; cbn.
        * repeat split; auto; try lia. intros Hlt. apply Forall_upd; auto. discriminate.
        * rewrite i64_id by (unfold in64; lia). repeat split; auto; try lia.
          intros _. apply Forall_forall. intros x Hx. apply in_map_iff in Hx. destruct Hx as (y & <- & _).
          destruct y; discriminate.
      + unfold ls_full in Est. destruct (Z.leb_spec (ls_permits s) (ls_count s)); injection Est as <- <-; cbn.
        * repeat split; auto; try lia.
        * rewrite i64_id by (unfold in64; lia). repeat split; auto; try lia.
          intros Hlt. apply Forall_upd; [apply H4; lia|discriminate].
    - unfold I; cbn. repeat split; auto; try lia. intros _. apply idle_awake. }
  destruct (exec lstep (new_lock_sema permits n) sched) as [s tr]. exact HI.
Qed.

Lemma lock_no_lost_wakeup permits n sched i pc : in64 permits ->
  let '(s, tr) := lock_exec permits n sched in
  taken tr < permits -> nth_error (ls_threads s) i = Some pc -> pend pc = Some OpAcquire ->
  exists s1, lstep s (SStep i) = Some (s1, [ESAcquired i]).
Proof.
  intros Hp. pose proof (allowed_taken_lock permits n sched Hp) as H.
  destruct (lock_exec permits n sched) as [s tr]. destruct H as (H1 & H2 & H3 & H4).
  intros Ht Hi Hpc. rewrite <- H1 in Ht. specialize (H4 Ht).
  apply pend_acq in Hpc; [|eapply Forall_nth; eassumption]. subst pc.
  cbn. rewrite Hi. unfold ls_full. destruct (Z.leb_spec (ls_permits s) (ls_count s)); [lia|].
  eexists. reflexivity.
Qed.

Lemma lock_try_never_blocks permits n sched i :
  let '(s, tr) := lock_exec permits n sched in
  nth_error (ls_threads s) i = Some STry -> exists s1 b, lstep s (SStep i) = Some (s1, [ESTried i b]).
Proof.
  destruct (lock_exec permits n sched) as [s tr]. intros Hi. cbn. rewrite Hi.
  destruct (ls_full s); eexists _, _; reflexivity.
Qed.

Lemma lock_release_never_blocks permits n sched i :
  let '(s, tr) := lock_exec permits n sched in
  nth_error (ls_threads s) i = Some SRel -> exists s1, lstep s (SStep i) = Some (s1, [ESReleased i]).
Proof.
  destruct (lock_exec permits n sched) as [s tr]. intros Hi. cbn. rewrite Hi.
  destruct (ls_count s <=? 0); eexists; reflexivity.
Qed.

Lemma chan_state permits n sched s tr : 1 <= permits ->
  chan_exec permits n sched = Some (s, tr) -> cinv s /\ cs_cap s = permits /\ cs_len s = taken tr.
Proof.
  intros Hp H. unfold chan_exec in H. destruct (new_chan_sema permits n) as [s0|] eqn:E; [|discriminate].
  cbn in H. injection H as H. pose proof (cinv_new _ _ _ Hp E) as HI0.
  assert (H0 : cs_cap s0 = permits /\ cs_len s0 = 0).
  { unfold new_chan_sema in E. destruct (permits <? 0); [discriminate|]. injection E as <-. auto. }
  pose (I := fun (s : csema) tr => cinv s /\ cs_cap s = permits /\ cs_len s = taken tr).
  assert (HI : I (fst (exec cstep s0 sched)) ([] ++ snd (exec cstep s0 sched))).
  { apply exec_inv; [|split; [exact HI0|exact H0]].
    intros c l c1 es tr0 (HC & Hcap & Hlen) Est. destruct (cinv_step _ _ _ _ HC Est) as [HC1 Hcap1].
    split; [exact HC1|]. split; [congruence|]. rewrite taken_snoc, <- Hlen.
    destruct HC as (H1 & H2 & H3 & H4 & H5).
    destruct l as [i o|i]; cbn in Est; destruct (nth_error (cs_threads c) i) as [pc|]; try discriminate;
      destruct pc; try discriminate.
    - injection Est as <- <-. reflexivity.
    - destruct (cs_len c <? cs_cap c); injection Est as <- <-; reflexivity.
    - destruct (cs_queue c) as [|j q] eqn:EQ.
      + destruct (Z.ltb_spec 0 (cs_len c)); injection Est as <- <-; cbn; lia.
      + injection Est as <- <-. cbn. assert (cs_len c = cs_cap c) by (apply H5; discriminate). lia.
    - destruct (cs_len c <? cs_cap c); injection Est as <- <-; reflexivity. }
  rewrite H in HI. exact HI.
Qed.

Lemma chan_no_lost_wakeup permits n sched s tr i pc : 1 <= permits ->
  chan_exec permits n sched = Some (s, tr) ->
  taken tr < permits -> nth_error (cs_threads s) i = Some pc -> pend pc = Some OpAcquire ->
  exists s1, cstep s (SStep i) = Some (s1, [ESAcquired i]).
Proof.
  intros Hp H Ht Hi Hpc. destruct (chan_state _ _ _ _ _ Hp H) as ((H1 & H2 & H3 & H4 & H5) & Hcap & Hlen).
  assert (Hq : cs_queue s = []).
  { destruct (cs_queue s) as [|j q]; [reflexivity|]. assert (cs_len s = cs_cap s) by (apply H5; discriminate). lia. }
  destruct pc; try discriminate.
  - cbn. rewrite Hi. destruct (Z.ltb_spec (cs_len s) (cs_cap s)); [|lia]. eexists. reflexivity.
  - apply H4 in Hi. rewrite Hq in Hi. contradiction.
Qed.

(** A Release while goroutines sleep hands the permit to the one that has slept longest. *)
Lemma chan_release_hands_over permits n sched s tr i j q : 1 <= permits ->
  chan_exec permits n sched = Some (s, tr) ->
  nth_error (cs_threads s) i = Some SRel -> cs_queue s = j :: q ->
  exists s1, cstep s (SStep i) = Some (s1, [ESReleased i; ESAcquired j]) /\ cs_queue s1 = q.
Proof. intros Hp H Hi Hq. cbn. rewrite Hi, Hq. eexists. split; reflexivity. Qed.

Lemma chan_try_never_blocks permits n sched s tr i :
  chan_exec permits n sched = Some (s, tr) ->
  nth_error (cs_threads s) i = Some STry -> exists s1 b, cstep s (SStep i) = Some (s1, [ESTried i b]).
Proof.
  intros H Hi. cbn. rewrite Hi. destruct (cs_len s <? cs_cap s); eexists _, _; reflexivity.
Qed.

Lemma chan_release_never_blocks permits n sched s tr i :
  chan_exec permits n sched = Some (s, tr) ->
  nth_error (cs_threads s) i = Some SRel ->
  exists s1 es, cstep s (SStep i) = Some (s1, ESReleased i :: es) .
Proof.
  intros H Hi. cbn. rewrite Hi. destruct (cs_queue s); [destruct (0 <? cs_len s)|]; eexists _, _; reflexivity.
Qed.
