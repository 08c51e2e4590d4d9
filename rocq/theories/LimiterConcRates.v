(** How many calls the limiters grant in real time when several goroutines use them. *)
From Verif Require Import Common Threads TokenBucketModel TokenBucketSpec TokenBucketProofs SlidingWindowModel SlidingWindowSpec SlidingWindowProofs MonitorModel MonitorSpec MonitorProofs MonitorRuns LimiterConcModel LimiterConcSpec LimiterConcProofs.

Definition is_grant {M} (c : M * lresult) : bool := match snd c with LBool true => true | _ => false end.
Lemma grants_finished {M} (evs : list (mevent lresult M)) : grants evs = count is_grant (finished evs).
Proof. reflexivity. Qed.

(** ** Token bucket *)
Definition gave {M} (e : M * list Z * lresult) : bool := is_grant (fst (fst e), snd e).
Definition bw (e : tbmethod * list Z * lresult) : bool := tb_writes (fst (fst e)).

Lemma bucket_filter l : forall b b', one_by_one bucket_call b l b' -> one_by_one bucket_call b (filter bw l) b'.
Proof.
  induction l as [|[[m zs] r] l IH]; intros b b' H; [exact H|]. apply obo_cons in H. destruct H as (b1 & H1 & H2). apply IH in H2. cbn [filter]. destruct m; cbn [bw fst tb_writes].
  - apply obo_cons. eauto.
  - destruct H1 as (-> & _). exact H2.
Qed.
Lemma bucket_count (Q : tbmethod * list Z * lresult -> bool) l : (forall e, Q e = true -> gave e = true) -> forall b b', one_by_one bucket_call b l b' -> count Q l = count Q (filter bw l).
Proof.
  intros HQ. induction l as [|[[m zs] r] l IH]; intros b b' H; [reflexivity|]. apply obo_cons in H. destruct H as (b1 & H1 & H2). apply IH in H2. cbn [filter]. destruct m; cbn [bw fst tb_writes count].
  - rewrite H2. reflexivity.
  - destruct H1 as (-> & -> & ->). rewrite H2. destruct (Q (BCapacity, [], LInt (sb_capacity b))) eqn:E; [|reflexivity]. apply HQ in E. discriminate.
Qed.

(** The time of each call: its clock reading, or the one before it when it has none. *)
Fixpoint nominal (z0 : Z) (l : list (tbmethod * list Z * lresult)) : list Z :=
  match l with [] => [] | (_, zs, _) :: l' => last zs z0 :: nominal (last zs z0) l' end.
Definition all_acquire (l : list (tbmethod * list Z * lresult)) : Prop := Forall (fun e => bw e = true) l.
Lemma filter_acquire l : all_acquire (filter bw l).
Proof. apply Forall_forall. intros e H. apply filter_In in H. tauto. Qed.

Lemma unread_any b now now' : sb_capacity b <= sb_tokens b -> sync_acquire b now = sync_acquire b now'.
Proof. intros H. unfold sync_acquire, sync_issue. apply Z.leb_le in H. rewrite H. reflexivity. Qed.
Lemma nominal_run l : forall z0 b b', all_acquire l -> one_by_one bucket_call b l b' ->
  exists rs, sync_run b (nominal z0 l) = (b', rs) /\ count gave l = granted rs.
Proof.
  induction l as [|[[m zs] r] l IH]; intros z0 b b' Ha H.
  - apply obo_nil in H. subst b'. exists []. auto.
  - inversion Ha as [|? ? Hm Ha']; subst. destruct m; [|discriminate]. apply obo_cons in H. destruct H as (b1 & (now & x & E & -> & Hz) & H2).
    destruct (IH (last zs z0) b1 b' Ha' H2) as (rs & E1 & E2). cbn [nominal sync_run].
    assert (E3 : sync_acquire b (last zs z0) = (b1, x)) by (destruct Hz as [->|[-> Hz]]; [exact E|rewrite <- E; apply unread_any; exact Hz]).
    rewrite E3, E1. exists (x :: rs). split; [reflexivity|]. cbn [count]. rewrite E2. unfold granted. cbn [count]. destruct x; reflexivity.
Qed.
Lemma last_split (zs : list Z) z0 rest : nondecreasing (z0 :: zs ++ rest) -> z0 <= last zs z0 /\ nondecreasing (last zs z0 :: rest) /\ In (last zs z0) (z0 :: zs).
Proof.
  revert z0. induction zs as [|z zs IH]; intros z0 H.
  - cbn in *. split; [lia|]. tauto.
  - cbn [app] in H. assert (H' : nondecreasing (z :: zs ++ rest)) by (exact (proj2 H)). destruct (IH z H') as (I1 & I2 & I3).
    assert (E : last (z :: zs) z0 = last zs z) by (destruct zs as [|y l]; [reflexivity|]; cbn [last]; clear; revert y; induction l as [|x l IH]; intros y; [reflexivity|cbn [last]; destruct l; [reflexivity|apply (IH x)]]).
    rewrite E. destruct H as [H1 _]. inversion H1; subst. split; [lia|]. split; [exact I2|]. right. exact I3.
Qed.
Lemma nominal_sorted l t : forall z0, nondecreasing (z0 :: readings l) -> Forall (fun z => z <= t) (z0 :: readings l) ->
  nondecreasing (z0 :: nominal z0 l) /\ Forall (fun z => z <= t) (nominal z0 l).
Proof.
  induction l as [|[[m zs] r] l IH]; intros z0 Hn Hf; [cbn; auto|].
  change (readings ((m, zs, r) :: l)) with (zs ++ readings l) in *. destruct (last_split zs z0 (readings l) Hn) as (L1 & L2 & L3).
  assert (Ft : last zs z0 <= t).
  { rewrite Forall_forall in Hf. apply Hf. destruct L3 as [<-|L3]; [left; reflexivity|right; apply in_or_app; left; exact L3]. }
  assert (Ff : Forall (fun z => z <= t) (last zs z0 :: readings l)).
  { constructor; [exact Ft|]. inversion Hf as [|? ? _ Hf']; subst. apply Forall_app in Hf'. tauto. }
  destruct (IH (last zs z0) L2 Ff) as [I1 I2]. cbn [nominal]. split; [|constructor; assumption].
  split; [|exact I1]. destruct I1 as [I1 _]. constructor; [exact L1|]. eapply Forall_impl; [|exact I1]. cbn. intros; lia.
Qed.

Section bucket_rates.
  Variables capacity rate t0 : Z.
  Hypothesis Hc : 0 <= capacity.
  Hypothesis Hr : 0 <= rate.

  Lemma nov_less t t' : t <= t' -> no_overflow capacity rate t0 t' -> no_overflow capacity rate t0 t.
  Proof.
    intros L (? & ? & ? & Hx). repeat split; try lia. eapply Z.le_lt_trans; [|exact Hx]. apply Z.mul_le_mono_nonneg_l; [lia|]. apply whole_seconds_mono. lia.
  Qed.
  Lemma bucket_reach l b a t : no_overflow capacity rate t0 t -> all_acquire l -> one_by_one bucket_call (new_sync_bucket capacity rate t0) l b ->
    nondecreasing (t0 :: readings l) -> Forall (fun z => z <= a) (t0 :: readings l) -> a <= t -> env capacity rate t0 t b a.
  Proof.
    intros Hov Ha H Hn Hf Hat. assert (T : t0 <= a) by (inversion Hf; assumption).
    destruct (nominal_sorted l a t0 Hn Hf) as [N1 N2]. destruct (nominal_run l t0 _ _ Ha H) as (rs & E & _).
    destruct (reachable_env capacity rate t0 a (nominal t0 l) Hc Hr T (nov_less _ _ Hat Hov) N1 N2) as (p & (E1 & E2 & E3 & E4 & E5) & Hin).
    rewrite E in *. cbn [fst] in *. repeat split; try tauto; lia.
  Qed.
  Lemma bucket_span l b b' a t : no_overflow capacity rate t0 t -> all_acquire l -> one_by_one bucket_call b l b' -> env capacity rate t0 t b a ->
    nondecreasing (a :: readings l) -> Forall (fun z => z <= t) (a :: readings l) -> count gave l <= capacity + rate * (whole_seconds (t - a) + 1).
  Proof.
    intros Hov Ha H He Hn Hf. destruct (nominal_sorted l t a Hn Hf) as [N1 N2]. destruct (nominal_run l a _ _ Ha H) as (rs & E & ->).
    replace rs with (snd (sync_run b (nominal a l))) by (rewrite E; reflexivity). inversion Hf; subst.
    apply (span_bound_from capacity rate t0 t b a); auto. lia.
  Qed.
  Lemma bucket_sum l b t : no_overflow capacity rate t0 t -> all_acquire l -> one_by_one bucket_call (new_sync_bucket capacity rate t0) l b ->
    nondecreasing (t0 :: readings l) -> Forall (fun z => z <= t) (t0 :: readings l) -> count gave l <= capacity + rate * whole_seconds (t - t0).
  Proof.
    intros Hov Ha H Hn Hf. destruct (nominal_sorted l t t0 Hn Hf) as [N1 N2]. destruct (nominal_run l t0 _ _ Ha H) as (rs & E & ->).
    inversion Hf; subst. pose proof (total_bound capacity rate t0 t (nominal t0 l) Hc Hr ltac:(assumption) Hov N1 N2) as B. unfold sync_bucket_results in B. rewrite E in B. exact B.
  Qed.
End bucket_rates.

Notation tlinv := (linv tbfield_eq tb_body tb_const false tb_writes).
Lemma tb_obo s0 l s : one_by_one (seq_call tbfield_eq tb_body) s0 l s -> one_by_one bucket_call (bucket_of s0) l (bucket_of s).
Proof. intros H. exact (proj2 (obo_map _ bucket_call bucket_of (fun _ => True) (fun s m zs r s' _ Hs => conj Logic.I (bucket_seq s m zs r s' Hs)) _ _ _ H Logic.I)). Qed.
Lemma chunk_start {R M} (writes : M -> bool) (y : list (obs R M)) p : chunk writes [] y p -> reads y = readings (sections writes y) ++ p.
Proof.
  intros [[E1 E2]|(m & q & r & rest & E1 & E2)]; rewrite E1, E2; [reflexivity|]. unfold readings. cbn [flat_map fst snd app]. rewrite app_assoc. reflexivity.
Qed.

Lemma bucket_exec_linv capacity rate t0 n sched : let r := bucket_exec capacity rate t0 n sched in steady_clock t0 sched ->
  exists tr A p, tlinv (tb_mem (new_sync_bucket capacity rate t0)) t0 (fst r) (snd r) tr A p /\
    mo_clock (fst r) = clock_at t0 sched /\ reads tr = readings (sections tb_writes tr) ++ p /\
    nondecreasing (t0 :: reads tr) /\ Forall (fun z => z <= clock_at t0 sched) (t0 :: reads tr) /\
    count is_grant (finished (snd r)) <= count gave (sections tb_writes tr).
Proof.
  intros r St. set (s0 := tb_mem (new_sync_bucket capacity rate t0)).
  destruct (stretch tbfield_eq tb_body tb_const false tb_writes tb_typed s0 t0 _ _ _ _ _ sched (linv0 tbfield_eq tb_body tb_const false tb_writes s0 t0 n)) as (y & A & p & I & C & Rc & Sn & Ct).
  cbn [app] in *. change (exec (mstep tbfield_eq tb_body) (mon0 s0 t0 n) sched) with r in *. exists y, A, p.
  assert (Ck : mo_clock (fst r) = clock_at t0 sched) by (exact (clock_of tbfield_eq tb_body tb_const false tb_writes tb_typed s0 t0 n sched)).
  assert (Rs : nondecreasing (t0 :: times (seen y))).
  { rewrite Sn. unfold r, bucket_exec, mon_exec. rewrite times_ticks. exact St. }
  destruct (reads_sorted t0 y Rc Rs) as [R1 R2].
  assert (Ca : clock_after t0 (seen y) = clock_at t0 sched).
  { rewrite Sn, clock_last. unfold r, bucket_exec, mon_exec. rewrite times_ticks. reflexivity. }
  rewrite Ca in R2.
  split; [exact I|]. split; [exact Ck|]. split; [exact (chunk_start _ _ _ (C eq_refl))|]. split; [exact R1|]. split; [exact R2|].
  specialize (Ct is_grant (fun _ => true) eq_refl (proj2 (Forall_forall _ _) (fun _ _ => eq_refl))).
  eapply Z.le_trans; [exact Ct|]. pose proof (tb_obo _ _ _ (li_seq _ _ _ _ _ _ _ _ _ _ _ _ I)) as O.
  rewrite (bucket_count _ (effects y) (fun e H => proj1 (andb_prop _ _ H)) _ _ O). apply count_le. intros e _ H. apply andb_prop in H. exact (proj1 H).
Qed.

Lemma bucket_total capacity rate t0 n sched : let t := clock_at t0 sched in
  0 <= capacity -> 0 <= rate -> no_overflow capacity rate t0 t -> steady_clock t0 sched ->
  grants (snd (bucket_exec capacity rate t0 n sched)) <= capacity + rate * whole_seconds (t - t0).
Proof.
  intros t Hc Hr Hov St. destruct (bucket_exec_linv capacity rate t0 n sched St) as (tr & A & p & I & Ck & Er & N & B & Ct).
  rewrite grants_finished. eapply Z.le_trans; [exact Ct|]. fold t in B. rewrite Er in N, B.
  pose proof (bucket_filter _ _ _ (tb_obo _ _ _ (li_seq _ _ _ _ _ _ _ _ _ _ _ _ I))) as O. rewrite bucket_of_mem in O.
  apply (bucket_sum capacity rate t0 Hc Hr (sections tb_writes tr) (bucket_of A)); auto.
  - apply filter_acquire.
  - exact (proj1 (nondecreasing_app (t0 :: readings (sections tb_writes tr)) p N)).
  - exact (proj1 (proj1 (Forall_app _ (t0 :: readings (sections tb_writes tr)) p) B)).
Qed.

Lemma ticks_app {M} (a b : list (mlabel M)) : ticks (a ++ b) = ticks a ++ ticks b.
Proof. apply flat_map_app. Qed.
Lemma last_app (l1 l2 : list Z) d : last (l1 ++ l2) d = last l2 (last l1 d).
Proof.
  revert d. induction l1 as [|x l1 IH]; intros d; [reflexivity|]. cbn [app]. assert (E : forall l, last (x :: l) d = last l x).
  { intros l. destruct l as [|y l]; [reflexivity|]. cbn [last]. clear. revert y. induction l as [|v l IH]; intros y; [reflexivity|cbn [last]; destruct l; [reflexivity|apply (IH v)]]. }
  rewrite !E. apply IH.
Qed.
Lemma steady_split {M} t0 (s1 s2 : list (mlabel M)) : steady_clock t0 (s1 ++ s2) -> steady_clock t0 s1 /\ steady_clock (clock_at t0 s1) s2 /\ t0 <= clock_at t0 s1 <= clock_at t0 (s1 ++ s2).
Proof.
  unfold steady_clock, clock_at. rewrite ticks_app, last_app. intros H. destruct (last_split (ticks s1) t0 (ticks s2) H) as (L1 & L2 & L3).
  split; [exact (proj1 (nondecreasing_app (t0 :: ticks s1) (ticks s2) H))|]. split; [exact L2|]. split; [exact L1|].
  rewrite <- (app_nil_r (ticks s2)) in L2. exact (proj1 (last_split (ticks s2) _ [] L2)).
Qed.

Lemma bucket_rate capacity rate t0 n sched1 sched2 : let a := clock_at t0 sched1 in let b := clock_at t0 (sched1 ++ sched2) in
  0 <= capacity -> 0 <= rate -> no_overflow capacity rate t0 b -> steady_clock t0 (sched1 ++ sched2) ->
  grants (snd (exec (mstep tbfield_eq tb_body) (fst (bucket_exec capacity rate t0 n sched1)) sched2)) <= capacity + rate * (whole_seconds (b - a) + 1).
Proof.
  intros a b Hc Hr Hov St. destruct (steady_split _ _ _ St) as (St1 & St2 & Tab). fold a b in St2, Tab.
  destruct (bucket_exec_linv capacity rate t0 n sched1 St1) as (tr & A & p & I & Ck & Er & N & B & _). fold a in Ck, B.
  set (w := fst (bucket_exec capacity rate t0 n sched1)) in *.
  destruct (stretch tbfield_eq tb_body tb_const false tb_writes tb_typed _ _ _ _ _ _ _ sched2 I) as (y & A' & p' & I' & C & Rc & Sn & Ct).
  set (r2 := exec (mstep tbfield_eq tb_body) w sched2) in *. specialize (C eq_refl). rewrite Ck in *.
  specialize (Ct is_grant (fun z => a <=? z) (proj2 (Z.leb_le a a) (Z.le_refl a))).
  assert (Ft : Forall (fun z => (a <=? z) = true) (ticks sched2)) by (destruct St2 as [S2 _]; eapply Forall_impl; [|exact S2]; cbn; intros z Hz; apply Z.leb_le; exact Hz).
  specialize (Ct Ft). rewrite grants_finished. eapply Z.le_trans; [exact Ct|]. clear Ct.
  assert (Rs : nondecreasing (a :: times (seen y))) by (rewrite Sn; unfold r2; rewrite times_ticks; exact St2).
  destruct (reads_sorted a y Rc Rs) as [R1 R2].
  assert (Ca : clock_after a (seen y) = b).
  { rewrite Sn, clock_last. unfold r2. rewrite times_ticks. unfold a, b, clock_at. rewrite ticks_app, last_app. reflexivity. }
  rewrite Ca in R2.
  pose proof (tb_obo _ _ _ (li_seq _ _ _ _ _ _ _ _ _ _ _ _ I)) as O1. rewrite bucket_of_mem in O1.
  pose proof (tb_obo _ _ _ (li_seq _ _ _ _ _ _ _ _ _ _ _ _ I')) as O2. rewrite bucket_of_mem, effects_app in O2. apply obo_app in O2. destruct O2 as (b1 & O1' & O2).
  assert (Eb : b1 = bucket_of A).
  { destruct (nominal_run _ 0 _ _ (filter_acquire (effects tr)) (bucket_filter _ _ _ O1)) as (rs & E & _). destruct (nominal_run _ 0 _ _ (filter_acquire (effects tr)) (bucket_filter _ _ _ O1')) as (rs' & E' & _). congruence. }
  subst b1. clear O1'. rewrite (bucket_count _ (effects y) (fun e H => proj1 (andb_prop _ _ H)) _ _ O2).
  apply bucket_filter in O1. apply bucket_filter in O2. change (filter bw (effects y)) with (sections tb_writes y) in *. change (filter bw (effects tr)) with (sections tb_writes tr) in *.
  assert (Al1 : all_acquire (sections tb_writes tr)) by apply filter_acquire. assert (Al2 : all_acquire (sections tb_writes y)) by apply filter_acquire.
  assert (Wl : forall l, count (fun e => is_grant (fst (fst e), snd e) && forallb (fun z => a <=? z) (snd (fst e))) l <= count (@gave tbmethod) l) by (intros l; apply count_le; intros e _ H; apply andb_prop in H; exact (proj1 H)).
  rewrite Er in N, B.
  assert (E1 : env capacity rate t0 b (bucket_of A) a).
  { apply (bucket_reach capacity rate t0 Hc Hr (sections tb_writes tr)); auto; [exact (proj1 (nondecreasing_app (t0 :: readings (sections tb_writes tr)) p N))| |lia].
    exact (proj1 (proj1 (Forall_app _ (t0 :: readings (sections tb_writes tr)) p) B)). }
  assert (Hw : 0 <= whole_seconds (b - a)) by (apply whole_seconds_nonneg; lia).
  destruct C as [[Ey _]|(m & q & r & rest & Ey & Eq)]; [rewrite Ey; cbn [count]; nia|].
  rewrite Ey in O2, Al2 |- *. rewrite Eq in R1, R2.
  assert (Sub : forall l1 l2, nondecreasing (a :: (l1 ++ l2)) -> nondecreasing (a :: l2)).
  { intros l1 l2 [X1 X2]. split; [apply Forall_app in X1; tauto|]. exact (proj2 (nondecreasing_app _ _ X2)). }
  assert (Pre : forall l1 l2, nondecreasing (a :: (l1 ++ l2)) -> nondecreasing (a :: l1)) by (intros l1 l2 X; exact (proj1 (nondecreasing_app (a :: l1) l2 X))).
  assert (SubF : forall l1 l2, Forall (fun z => z <= b) (a :: (l1 ++ l2)) -> Forall (fun z => z <= b) (a :: l2)) by (intros l1 l2 X; inversion X as [|? ? Xa X']; subst; constructor; [exact Xa|apply Forall_app in X'; tauto]).
  assert (PreF : forall l1 l2, Forall (fun z => z <= b) (a :: (l1 ++ l2)) -> Forall (fun z => z <= b) (a :: l1)) by (intros l1 l2 X; inversion X as [|? ? Xa X']; subst; constructor; [exact Xa|apply Forall_app in X'; tauto]).
  assert (Short : forall b1 m zs r b2, bucket_call b1 m zs r b2 -> zs = [] \/ exists z, zs = [z]).
  { intros b1 [] zs r' b2 H; [destruct H as (now & x & _ & _ & [->|[-> _]]); eauto|destruct H as (_ & -> & _); auto]. }
  assert (Hd : p ++ q = [] \/ exists z, p ++ q = [z]) by (apply obo_cons in O2; destruct O2 as (b2 & O2 & _); exact (Short _ _ _ _ _ O2)).
  destruct p as [|z p].
  - cbn [app] in *. eapply Z.le_trans; [apply Wl|]. rewrite app_assoc in R1, R2. apply (bucket_span capacity rate t0 Hc Hr _ (bucket_of A) (bucket_of A') a b); auto; [exact (Pre _ _ R1)|exact (PreF _ _ R2)].
  - assert (Hpq : p = [] /\ q = []) by (destruct Hd as [Hd|[z' Hd]]; [discriminate|injection Hd as _ Hd; apply app_eq_nil in Hd; exact Hd]). destruct Hpq as [-> ->]. cbn [app] in *.
    assert (Za : z <= a) by (rewrite Forall_forall in B; apply B; right; apply in_or_app; right; left; reflexivity).
    destruct (Z.eq_dec z a) as [->|Ne].
    + eapply Z.le_trans; [apply Wl|]. apply (bucket_span capacity rate t0 Hc Hr _ (bucket_of A) (bucket_of A') a b); auto.
      * change (readings ((m, [a], r) :: rest)) with (a :: readings rest). pose proof (Pre _ _ R1) as X. split; [constructor; [lia|exact (proj1 X)]|exact X].
      * change (readings ((m, [a], r) :: rest)) with (a :: readings rest). pose proof (PreF _ _ R2) as X. constructor; [lia|exact X].
    + cbn [count fst snd forallb]. replace (a <=? z) with false by (symmetry; apply Z.leb_gt; lia). rewrite andb_false_r, Z.add_0_l.
      eapply Z.le_trans; [apply Wl|]. apply obo_cons in O2. destruct O2 as (b2 & O2 & O3). inversion Al2 as [|? ? Alm Alr]; subst.
      apply (bucket_span capacity rate t0 Hc Hr _ b2 (bucket_of A') a b); auto; [|exact (Pre _ _ R1)|exact (PreF _ _ R2)].
      apply (bucket_reach capacity rate t0 Hc Hr (sections tb_writes tr ++ [(m, [z], r)])); auto; try lia.
      * apply Forall_app. split; [exact Al1|]. constructor; [exact Alm|constructor].
      * econstructor; eassumption.
      * rewrite readings_app. exact N.
      * rewrite readings_app. exact B.
Qed.

(** ** Clock readings of calls that have taken effect *)
Section read_values.
  Context {R M : Type}.
  Lemma in_reads_app t z (a b : list (obs R M)) : In (Reads t z) a -> In (Reads t z) (a ++ b).
  Proof. intros H. apply in_or_app. left. exact H. Qed.
  Lemma taken_reads t (y : list (obs R M)) : forall s, turns t Waiting y s ->
    (forall m zs, s = Called m zs -> forall z, In z zs -> In (Reads t z) y) /\
    forall m zs r, In (Takes t m zs r) y -> forall z, In z zs -> In (Reads t z) y.
  Proof.
    induction y as [|x y IH] using rev_ind; intros s H.
    - split; [|intros ? ? ? []]. assert (s = Waiting) by (rewrite (stages _ _ _ _ H); reflexivity). subst s. discriminate.
    - destruct (turns_split _ _ _ _ _ H) as (s1 & H1 & H2). destruct (IH _ H1) as [I1 I2]. apply turns_one in H2. split.
      + intros m zs -> z Hz. inversion H2; subst; try (apply in_reads_app; eapply I1; [reflexivity|exact Hz]).
        * destruct Hz.
        * apply in_app_or in Hz. destruct Hz as [Hz|[<-|[]]]; [apply in_reads_app; eapply I1; [reflexivity|exact Hz]|apply in_or_app; right; left; reflexivity].
      + intros m zs r Hi z Hz. apply in_app_or in Hi. destruct Hi as [Hi|[->|[]]]; [apply in_reads_app; eapply I2; eassumption|].
        apply in_reads_app. inversion H2; subst; [eapply I1; [reflexivity|exact Hz]|congruence].
  Qed.
  Lemma read_values t0 (y : list (obs R M)) m zs r : each_once y -> reads_clock t0 y -> In (m, zs, r) (effects y) -> forall z, In z zs -> In z (t0 :: times (seen y)).
  Proof.
    intros E Rc Hi z Hz. apply in_flat_map in Hi. destruct Hi as (x & Hx & Hi). destruct x as [e|t z'|t m' zs' r']; try (destruct Hi; fail). destruct Hi as [[= -> -> ->]|[]].
    destruct (E t) as [s Hs]. pose proof (proj2 (taken_reads t y s Hs) m zs r Hx z Hz) as Hr. apply in_split in Hr. destruct Hr as (y1 & y2 & Ey).
    rewrite (Rc y1 t z y2 Ey), clock_last, Ey. unfold MonitorSpec.seen. rewrite flat_map_app. unfold times at 2. rewrite flat_map_app. cbn [app].
    destruct (times (flat_map (fun x : obs R M => match x with Seen e => [e] | _ => [] end) y1)) as [|a l] eqn:El; [left; reflexivity|].
    right. apply in_or_app. left. fold (times (flat_map (fun x : obs R M => match x with Seen e => [e] | _ => [] end) y1)). rewrite El. apply last_in. discriminate.
  Qed.
End read_values.

(** ** Sliding window *)
Notation slinv := (linv swfield_eq sw_body (fun _ => false) true sw_writes).
Definition ops_of (l : list (swmethod * list Z * lresult)) : list swop :=
  flat_map (fun e => match fst (fst e), snd (fst e) with WAcquire, [now] => [SwAcquire now] | WUpdateConfig c w, _ => [SwUpdate c w] | _, _ => [] end) l.
Definition calls_of (l : list (swmethod * list Z * lresult)) : list (Z * bool) :=
  flat_map (fun e => match fst (fst e), snd (fst e), snd e with WAcquire, [now], LBool b => [(now, b)] | _, _, _ => [] end) l.

Lemma sliding_run l : forall s s', one_by_one sliding_call s l s' -> sw_run s (ops_of l) = Some (s', calls_of l).
Proof.
  induction l as [|[[m zs] r] l IH]; intros s s' H; [apply obo_nil in H; subst; reflexivity|].
  apply obo_cons in H. destruct H as (s1 & H1 & H2). apply IH in H2. unfold ops_of, calls_of in *. cbn [flat_map fst snd]. destruct m as [| | |c w]; cbn [sliding_call] in H1.
  - destruct H1 as (now & b & E & -> & ->). cbn [app sw_run]. rewrite E, H2. reflexivity.
  - destruct H1 as (-> & -> & ->). cbn [app]. exact H2.
  - destruct H1 as (-> & -> & ->). cbn [app]. exact H2.
  - destruct H1 as (-> & -> & ->). cbn [app sw_run]. exact H2.
Qed.
Lemma sliding_count x w l : forall s s', one_by_one sliding_call s l s' ->
  count (fun e => is_grant (fst (fst e), snd e) && forallb (fun z => (x <=? z) && (z <=? x + w)) (snd (fst e))) l <= granted_in x (x + w) (calls_of l).
Proof.
  induction l as [|[[m zs] r] l IH]; intros s s' H; [unfold granted_in; cbn; lia|].
  apply obo_cons in H. destruct H as (s1 & H1 & H2). apply IH in H2. cbn [count fst snd]. replace (calls_of ((m, zs, r) :: l)) with (calls_of [(m, zs, r)] ++ calls_of l) by (unfold calls_of; rewrite <- flat_map_app; reflexivity). rewrite granted_in_app.
  destruct m as [| | |c' w']; cbn [sliding_call] in H1.
  - destruct H1 as (now & b & E & -> & ->). unfold calls_of at 1. cbn [flat_map fst snd app]. unfold granted_in at 1. cbn [count fst snd]. unfold is_grant in *. cbn [forallb fst snd] in *. rewrite andb_true_r.
    destruct b; cbn [andb]; [destruct ((x <=? now) && (now <=? x + w))|]; lia.
  - destruct H1 as (-> & -> & ->). unfold is_grant at 1. cbn [snd andb]. unfold calls_of at 1. cbn [flat_map fst snd app]. unfold granted_in at 1. cbn [count]. lia.
  - destruct H1 as (-> & -> & ->). unfold is_grant at 1. cbn [snd andb]. unfold calls_of at 1. cbn [flat_map fst snd app]. unfold granted_in at 1. cbn [count]. lia.
  - destruct H1 as (-> & -> & ->). unfold is_grant at 1. cbn [snd andb]. unfold calls_of at 1. cbn [flat_map fst snd app]. unfold granted_in at 1. cbn [count]. lia.
Qed.
Lemma sw_obo c w l s : one_by_one (seq_call swfield_eq sw_body) (sw_mem (new_sw c w)) l s -> one_by_one sliding_call (new_sw c w) l (sliding_of s).
Proof.
  intros H. rewrite <- (sliding_of_mem (new_sw c w)).
  exact (proj2 (obo_map _ sliding_call sliding_of (fun s => 0 <= sw_capacity (sliding_of s)) (fun s m zs r s' Hi Hs => sliding_seq s m zs r s' Hi Hs) _ _ _ H (new_sw_cap c w))).
Qed.
Lemma ops_readable l : (forall m zs r, In (m, zs, r) l -> Forall readable zs) -> Forall op_readable (ops_of l).
Proof.
  intros H. apply Forall_forall. intros o Ho. apply in_flat_map in Ho. destruct Ho as ([[m zs] r] & Hi & Ho). cbn [fst snd] in Ho.
  destruct m as [| | |c w]; try (destruct Ho; fail).
  - destruct zs as [|z [|]]; try (destruct Ho; fail). destruct Ho as [<-|[]]. specialize (H _ _ _ Hi). inversion H; assumption.
  - destruct Ho as [<-|[]]. exact Logic.I.
Qed.
Lemma ops_grow l : forall c w, (forall c' w' zs r, ~ In (WUpdateConfig c' w', zs, r) l) -> grows c w (ops_of l).
Proof.
  intros c w H. unfold ops_of. induction l as [|[[m zs] r] l IH]; [exact Logic.I|]. assert (H' : forall c' w' zs r, ~ In (WUpdateConfig c' w', zs, r) l) by (intros c' w' zs' r' Hi; exact (H c' w' zs' r' (or_intror Hi))).
  cbn [flat_map fst snd]. destruct m as [| | |c' w']; try (apply IH; exact H').
  - destruct zs as [|z [|]]; try (apply IH; exact H').
  - exfalso. exact (H c' w' zs r (or_introl eq_refl)).
Qed.
Lemma ops_keep l : forall s s', (forall c' w' zs r, ~ In (WUpdateConfig c' w', zs, r) l) -> one_by_one sliding_call s l s' -> sw_capacity s' = sw_capacity s /\ sw_window s' = sw_window s.
Proof.
  induction l as [|[[m zs] r] l IH]; intros s s' H O; [apply obo_nil in O; subst; auto|].
  apply obo_cons in O. destruct O as (s1 & H1 & H2). destruct (IH _ _ (fun c' w' zs' r' Hi => H c' w' zs' r' (or_intror Hi)) H2) as [-> ->].
  destruct m as [| | |c' w']; cbn [sliding_call] in H1.
  - destruct H1 as (now & b & E & _). unfold sw_acquire in E. destruct (sw_capacity s =? 0); [injection E as <- <-; auto|]. destruct (sw_len s <? sw_capacity s); [injection E as <- <-; auto|].
    destruct (sw_records s); [discriminate|]. destruct (sw_window s <? i64 (now - z)); injection E as <- <-; auto.
  - destruct H1 as (-> & _). auto.
  - destruct H1 as (-> & _). auto.
  - exfalso. exact (H c' w' zs r (or_introl eq_refl)).
Qed.

Lemma sliding_rate c0 w0 t0 n sched0 sched1 sched2 c win x :
  let step := mstep swfield_eq sw_body in let m0 := fst (sliding_exec c0 w0 t0 n sched0) in let m1 := fst (exec step m0 sched1) in
  Forall readable (t0 :: ticks (sched0 ++ sched1 ++ sched2)) ->
  (forall t, ~ in_call m0 t) -> settings m0 c win -> 0 < c -> 0 <= win -> no_update (sched1 ++ sched2) ->
  Forall (fun z => x <= z <= x + win) (clock_at t0 (sched0 ++ sched1) :: ticks sched2) ->
  grants (snd (exec step m1 sched2)) <= c.
Proof.
  intros step m0 m1 Rd Id [Sc Sw] Hc Hw Nu Win. set (s0 := sw_mem (new_sw c0 w0)).
  destruct (linv_exec swfield_eq sw_body (fun _ => false) true sw_writes sw_typed s0 t0 n sched0) as (tr & A & p & I0). fold m0 in I0. change (fst (mon_exec swfield_eq sw_body s0 t0 n sched0)) with m0 in I0.
  set (e0 := snd (mon_exec swfield_eq sw_body s0 t0 n sched0)) in *.
  destruct (stretch swfield_eq sw_body (fun _ => false) true sw_writes sw_typed _ _ _ _ _ _ _ sched1 I0) as (y1 & A1 & p1 & I1 & _ & _ & Sn1 & _). fold step m1 in I1.
  destruct (stretch swfield_eq sw_body (fun _ => false) true sw_writes sw_typed _ _ _ _ _ _ _ sched2 I1) as (y2 & A2 & p2 & I2 & _ & _ & Sn2 & Ct).
  fold step in Sn1, Sn2, I2, Ct.
  assert (Ck : mo_clock m1 = clock_at t0 (sched0 ++ sched1)).
  { unfold clock_at. rewrite ticks_app, last_app. rewrite (mo_clock_last _ _ _ _ _ _ _ _ _ _ _ _ I1), times_app, last_app. unfold e0, mon_exec, step. rewrite !times_ticks. reflexivity. }
  specialize (Ct is_grant (fun z => (x <=? z) && (z <=? x + win))). rewrite Ck in Ct.
  assert (Ok : forall z, x <= z <= x + win -> ((x <=? z) && (z <=? x + win)) = true) by (intros z [? ?]; apply andb_true_intro; split; apply Z.leb_le; assumption).
  inversion Win as [|? ? Wc Wt]; subst. specialize (Ct (Ok _ Wc)).
  assert (Ft : Forall (fun z => ((x <=? z) && (z <=? x + win)) = true) (ticks sched2)) by (eapply Forall_impl; [|exact Wt]; exact Ok).
  specialize (Ct Ft). rewrite grants_finished. eapply Z.le_trans; [exact Ct|]. clear Ct.
  destruct (idle_waiting _ _ _ _ _ _ _ _ _ _ _ _ I0 Id) as [_ EA]. subst A.
  assert (I2' : slinv s0 t0 (fst (exec step m0 (sched1 ++ sched2))) (e0 ++ snd (exec step m0 (sched1 ++ sched2))) (tr ++ (y1 ++ y2)) A2 p2).
  { rewrite exec_app. unfold m1 in I2. destruct (exec step m0 sched1) as [u1 v1]. cbn [fst snd] in *. destruct (exec step u1 sched2) as [u2 v2]. cbn [fst snd] in *. rewrite !app_assoc in *. exact I2. }
  assert (NoUp : forall c' w' zs r, ~ In (WUpdateConfig c' w', zs, r) (effects (y1 ++ y2))).
  { intros c' w' zs r Hi. destruct (later_effects swfield_eq sw_body (fun _ => false) true sw_writes _ _ _ _ _ _ _ _ _ _ _ I0 Id I2' _ _ _ Hi) as [t Ht]. exact (Nu _ _ _ Ht). }
  pose proof (sw_obo _ _ _ _ (li_seq _ _ _ _ _ _ _ _ _ _ _ _ I0)) as O0.
  pose proof (sw_obo _ _ _ _ (li_seq _ _ _ _ _ _ _ _ _ _ _ _ I2')) as O2. rewrite effects_app in O2. apply obo_app in O2. destruct O2 as (b1 & O1 & O2).
  apply sliding_run in O0. pose proof (sliding_run _ _ _ O1) as O1r. assert (b1 = sliding_of (mo_mem m0)) by congruence. subst b1.
  assert (Rv : forall m zs r, In (m, zs, r) (effects (tr ++ y1 ++ y2)) -> Forall readable zs).
  { intros m zs r Hi. apply Forall_forall. intros z Hz. rewrite Forall_forall in Rd. apply Rd.
    pose proof (read_values t0 _ m zs r (each_once_linv _ _ _ _ _ _ _ _ _ _ _ _ I2') (li_reads _ _ _ _ _ _ _ _ _ _ _ _ I2') Hi z Hz) as Hin.
    rewrite (li_seen _ _ _ _ _ _ _ _ _ _ _ _ I2') in Hin. rewrite times_app in Hin. unfold e0, mon_exec, step in Hin. rewrite !times_ticks in Hin. rewrite <- ticks_app in Hin. exact Hin. }
  assert (Sok : sw_ok (sliding_of (mo_mem m0))).
  { destruct (sw_run_ok (ops_of (effects tr)) (new_sw c0 w0) (sw_ok_new c0 w0)) as (s1 & cs & E & Hk).
    - apply ops_readable. intros m zs r Hi. apply (Rv m zs r). rewrite effects_app. apply in_or_app. left. exact Hi.
    - rewrite O1r in E. injection E as <- _. exact Hk. }
  assert (Cc : sw_capacity (sliding_of (mo_mem m0)) = c) by (unfold sliding_of; cbn; rewrite Sc; reflexivity).
  assert (Cw : sw_window (sliding_of (mo_mem m0)) = win) by (unfold sliding_of; cbn; rewrite Sw; reflexivity).
  destruct (ops_keep _ _ _ NoUp O2) as [Kc Kw]. rewrite Cc in Kc. rewrite Cw in Kw.
  assert (Rop : Forall op_readable (ops_of (effects (y1 ++ y2)))).
  { apply ops_readable. intros m zs r Hi. apply (Rv m zs r). rewrite effects_app. apply in_or_app. right. exact Hi. }
  pose proof (bound_from _ _ _ _ x win Sok Rop ltac:(rewrite Cc; exact Hc) (ops_grow _ _ _ NoUp) (sliding_run _ _ _ O2) ltac:(rewrite Kw; lia)) as B. rewrite Kc in B.
  eapply Z.le_trans; [|exact B]. rewrite effects_app. unfold calls_of. rewrite flat_map_app, granted_in_app. fold (calls_of (effects y1)) (calls_of (effects y2)).
  rewrite effects_app in O2. apply obo_app in O2. destruct O2 as (b1 & _ & O3). pose proof (sliding_count x win _ _ _ O3) as Cn.
  assert (0 <= granted_in x (x + win) (calls_of (effects y1))) by apply count_nonneg. lia.
Qed.
