(** Consequences of the simulation. *)
From Verif Require Import Common Threads ScheduleModel ScheduleSpec ScheduleProofs ScheduleTrace ScheduleRuns ScheduleLive.
From Verif Require Import ScheduleFineModel ScheduleFineSpec ScheduleFineProofs ScheduleFineSim ScheduleFineTrace.
Local Open Scope list_scope.
Local Open Scope Z_scope.

(** ** Races *)
Lemma access_held s g f w : mutex s -> about_to s g = Some (f, w) ->
  match g with
  | Caller i => f_lock s = Some (Client i)
  | Consuming k => f_lock s = Some (Consumer k)
  | Providing p => f = Ticker /\ w = false /\ exists x, nth_error (t_prov (f_task s)) p = Some x
  end.
Proof.
  intros M A. destruct g as [i|k|p]; cbn [about_to] in A.
  - destruct (nth_error (f_in s) i) as [[v|]|] eqn:E; try discriminate. destruct (mx_in s M i v E) as [L|(e & ->)]; [exact L|discriminate].
  - destruct (nth_error (f_kin s) k) as [[v|]|] eqn:E; try discriminate. apply (mx_kin s M k v E).
  - destruct (nth_error (t_prov (f_task s)) p) as [x|]; [|discriminate]. destruct x; try discriminate. injection A as <- <-. eauto.
Qed.
Lemma ticker_written s g : about_to s g = Some (Ticker, true) -> exists i, g = Caller i /\ nth_error (f_in s) i = Some (Some FTicker).
Proof.
  destruct g as [i|k|p]; cbn [about_to].
  - destruct (nth_error (f_in s) i) as [[[]|]|] eqn:E; try discriminate. eauto.
  - destruct (nth_error (f_kin s) k) as [[[]|]|]; discriminate.
  - destruct (nth_error (t_prov (f_task s)) p) as [[]|]; discriminate.
Qed.
Lemma no_provider c t0 n sched i : let s := fst (ftexec c t0 n sched) in nth_error (f_in s) i = Some (Some FTicker) -> t_prov (f_task s) = [].
Proof.
  intros s E. destruct (ginv_exec c t0 n sched) as [M (tr & sched' & _ & _ & (ks & ps & R) & _)]. fold s in M, R.
  destruct (mx_in s M i _ E) as [L|(e & H)]; [|discriminate]. assert (Hh : holding s = HClient FTicker) by (unfold holding; rewrite L, E; reflexivity).
  rewrite Hh in R. destruct (rl_status _ _ _ _ _ _ R) as (_ & N1 & N2). pose proof (rl_prov _ _ _ _ _ _ R) as P. pose proof (rl_ps _ _ _ _ _ _ R) as Q.
  cbn [extra_p] in P. rewrite app_nil_r in P. destruct (task_jinv c t0 n sched') as [HI _]. pose proof (i_prov _ _ HI) as L'.
  assert (Hn : t_status (fst (texec c t0 n sched')) = new) by (destruct (i_status _ _ HI) as [H|[H|H]]; [exact H|contradiction..]).
  rewrite Hn, Z.eqb_refl in L'. rewrite P in L'. destruct ps; [inversion Q; reflexivity|destruct (c_kind c); discriminate].
Qed.
Lemma no_races c t0 n sched : ~ race (fst (ftexec c t0 n sched)).
Proof.
  pose proof (gi_mutex _ _ _ _ _ (ginv_exec c t0 n sched)) as M. pose proof (no_provider c t0 n sched) as NP. cbn zeta in NP.
  set (s := fst (ftexec c t0 n sched)) in *. intros (g & h & f & a & b & N & A & B & W).
  pose proof (access_held s g f a M A) as HA. pose proof (access_held s h f b M B) as HB.
  assert (K : forall g' p b', about_to s g' = Some (Ticker, true) -> about_to s (Providing p) = Some (Ticker, b') -> False).
  { intros g' p b' X Y. destruct (ticker_written s g' X) as (i & -> & E). destruct (access_held s _ _ _ M Y) as (_ & _ & x & E'). rewrite (NP i E) in E'. destruct p; discriminate. }
  destruct g as [i|k|p], h as [i'|k'|p']; try congruence;
    try (destruct HA as (-> & -> & _)); try (destruct HB as (-> & -> & _)); destruct W as [W|W]; try discriminate; subst; eauto.
Qed.

(** ** The lock comes free *)
Definition left_w (w : wpc) : nat :=
  match w with
  | FStarted => 7 | FStopped => 6 | FMark => 5 | FTicker => 4 | FCons => 3 | FProv | FAppend => 2
  | FNew => 6 | FOver => 5 | FMarkStop => 4 | FClose => 3 | FTickerStop => 2
  | FUnlock _ => 1 | FRet _ => 0
  end.
Definition left_k (w : kin) : nat := match w with INo => 4 | IWrite _ => 3 | IRead => 2 | IRet _ => 1 | IStatus => 2 | IGot _ => 1 end.
Lemma nth_upd_here {A} (l : list A) i x y : nth_error l i = Some x -> nth_error (upd i y l) i = Some y.
Proof. revert i. induction l as [|z l IH]; intros [|i] E; cbn in *; try discriminate; [reflexivity|eauto]. Qed.

Lemma client_moves c t0 n s h i w : ginv c t0 n s h -> f_lock s = Some (Client i) -> nth_error (f_in s) i = Some (Some w) ->
  exists l s1 es, step_of (Client i) l /\ fstep c s l = Some (s1, es) /\
    (f_lock s1 = None \/ f_lock s1 = Some (Client i) /\ exists w', nth_error (f_in s1) i = Some (Some w') /\ (left_w w' < left_w w)%nat).
Proof.
  intros G L E. destruct G as [M (tr & sched & _ & _ & (ks & ps & R) & _)]. destruct (mx_client s M i L) as (w0 & E0 & NG). rewrite E in E0. injection E0 as <-.
  destruct (all3_nth1 _ _ _ _ (rl_clients _ _ _ _ _ _ R) i _ E) as (a & b & Ea & Eb & (o & -> & -> & SU)).
  assert (K : w <> FAppend -> exists l s1 es, step_of (Client i) l /\ fstep c s l = Some (s1, es) /\
    (f_lock s1 = None \/ f_lock s1 = Some (Client i) /\ exists w', nth_error (f_in s1) i = Some (Some w') /\ (left_w w' < left_w w)%nat)).
  { intros NA. exists (LClient i). unfold fstep. cbn [fstep0]. rewrite E, Ea.
    assert (Q : forall w' t s0, f_in s0 = f_in s -> f_lock s0 = f_lock s -> (left_w w' < left_w w)%nat ->
      f_lock (client_at i w' t s0) = Some (Client i) /\ exists w', nth_error (f_in (client_at i w' t s0)) i = Some (Some w') /\ (left_w w' < left_w w)%nat).
    { intros w' t s0 I1 I2 I3. split; [cbn; congruence|]. exists w'. split; [|exact I3]. cbn. rewrite I1. apply (nth_upd_here _ _ _ _ E). }
    destruct w; cbn [wstep]; try (exfalso; apply NA; reflexivity); try (exfalso; apply NG; eexists; reflexivity);
      (eexists; eexists; split; [reflexivity|]; split; [reflexivity|]); try (left; reflexivity); right;
      (split; [cbn; exact L|]); cbn [f_in client_at]; eexists; (split; [eapply nth_upd_here; exact E|]);
      try (destruct (_ =? _)); try (destruct (c_kind c)); cbn; lia. }
  destruct w; try (apply K; discriminate). clear K.
  assert (Hh : holding s = HClient FAppend) by (unfold holding; rewrite L, E; reflexivity). rewrite Hh in R.
  destruct (task_jinv c t0 n sched) as [HI _]. cbn [after] in Eb. pose proof (append_wait c _ i o HI Eb) as Ec.
  pose proof (append_locked c _ i o HI Eb) as EL. destruct (i_lockst c _ HI EL) as (ES & ED).
  assert (Sg : t_sig (f_task s) = false).
  { destruct (t_sig (f_task s)) eqn:F; [|reflexivity]. rewrite (rl_over _ _ _ _ _ _ R F) in ES. discriminate. }
  pose proof (rl_cons _ _ _ _ _ _ R) as C1. cbn [extra_k] in C1. rewrite app_nil_r in C1. rewrite Ec in C1. subst ks.
  pose proof (rl_ks _ _ _ _ _ _ R) as C2. rewrite Sg in C2.
  assert (C3 : nth_error (t_cons (f_task s)) 0 = Some KWait).
  { inversion C2 as [|x a y la lb lc P Q]; subst. cbn. f_equal. destruct x as [[| | | | |]|]; cbn [krel] in P.
    - destruct P as (_ & [P|(P & _)]); discriminate.
    - destruct P as (_ & P). destruct (st =? stopped); discriminate.
    - destruct P; discriminate.
    - destruct P; discriminate.
    - destruct P; discriminate.
    - destruct P; discriminate.
    - destruct P as [P|(P & _)]; [symmetry; exact P|discriminate]. }
  exists (LClientSend i 0). unfold fstep. cbn [fstep0]. rewrite E. unfold receive. rewrite C3. eexists. eexists. split; [reflexivity|]. split; [reflexivity|].
  right. split; [exact L|]. eexists. split; [cbn; eapply nth_upd_here; exact E|]. cbn. lia.
Qed.
Lemma consumer_moves c t0 n s h k w : ginv c t0 n s h -> f_lock s = Some (Consumer k) -> nth_error (f_kin s) k = Some (Some w) ->
  exists l s1 es, step_of (Consumer k) l /\ fstep c s l = Some (s1, es) /\
    (f_lock s1 = None \/ f_lock s1 = Some (Consumer k) /\ exists w', nth_error (f_kin s1) k = Some (Some w') /\ (left_k w' < left_k w)%nat).
Proof.
  intros G L E. destruct G as [M (tr & sched & _ & _ & (ks & ps & R) & _)].
  destruct (all3_nth1 _ _ _ _ (rl_ks _ _ _ _ _ _ R) k _ E) as (a & b & Ea & Eb & _).
  exists (LCons k). unfold fstep. cbn [fstep0]. rewrite E, Ea.
  destruct w; cbn [kstep]; (eexists; eexists; split; [reflexivity|]; split; [reflexivity|]); try (left; reflexivity); right;
    (split; [exact L|]); cbn [f_kin consumer_at]; eexists; (split; [eapply nth_upd_here; exact E|]); cbn; lia.
Qed.

Definition frees (c : cfg) (s : ftask) (o : owner) (k : nat) : Prop :=
  exists ls, (length ls <= k)%nat /\ Forall (step_of o) ls /\ f_lock (fst (exec (fstep c) s ls)) = None.
Lemma frees_step c s o l s1 es k k' : step_of o l -> fstep c s l = Some (s1, es) -> frees c s1 o k -> (k < k')%nat -> frees c s o k'.
Proof.
  intros O E (ls & L & F & Z) K. exists (l :: ls). split; [cbn; lia|]. split; [constructor; assumption|]. cbn [exec]. rewrite E.
  destruct (exec (fstep c) s1 ls). exact Z.
Qed.
Lemma client_frees c t0 n i : forall k s h w, ginv c t0 n s h -> f_lock s = Some (Client i) -> nth_error (f_in s) i = Some (Some w) -> (left_w w <= k)%nat -> frees c s (Client i) k.
Proof.
  induction k as [|k IH]; intros s h w G L E K; destruct (client_moves c t0 n s h i w G L E) as (l & s1 & es & O & E1 & [F|(L1 & w' & E' & D)]).
  - exfalso. destruct (mx_client s (gi_mutex _ _ _ _ _ G) i L) as (w0 & E0 & NG). rewrite E in E0. injection E0 as <-. destruct w; cbn in K; try lia. apply NG. eexists; reflexivity.
  - lia.
  - apply (frees_step c s (Client i) l s1 es 0 _ O E1); [exists []; repeat split; [apply le_n|constructor|exact F]|lia].
  - apply (frees_step c s (Client i) l s1 es k _ O E1); [|lia]. apply (IH s1 (h ++ es) w'); auto; [eapply ginv_step; eassumption|lia].
Qed.
Lemma consumer_frees c t0 n i : forall k s h w, ginv c t0 n s h -> f_lock s = Some (Consumer i) -> nth_error (f_kin s) i = Some (Some w) -> (left_k w <= k)%nat -> frees c s (Consumer i) k.
Proof.
  induction k as [|k IH]; intros s h w G L E K; destruct (consumer_moves c t0 n s h i w G L E) as (l & s1 & es & O & E1 & [F|(L1 & w' & E' & D)]).
  - exfalso. destruct w; cbn in K; lia.
  - lia.
  - apply (frees_step c s (Consumer i) l s1 es 0 _ O E1); [exists []; repeat split; [apply le_n|constructor|exact F]|lia].
  - apply (frees_step c s (Consumer i) l s1 es k _ O E1); [|lia]. apply (IH s1 (h ++ es) w'); auto; [eapply ginv_step; eassumption|lia].
Qed.
Lemma lock_frees c t0 n sched o : f_lock (fst (ftexec c t0 n sched)) = Some o -> frees c (fst (ftexec c t0 n sched)) o 7.
Proof.
  intros L. pose proof (ginv_exec c t0 n sched) as G. pose proof (gi_mutex _ _ _ _ _ G) as M. destruct o as [i|k].
  - destruct (mx_client _ M i L) as (w & E & _). eapply client_frees; [exact G|exact L|exact E|]. destruct w; cbn; lia.
  - destruct (mx_consumer _ M k L) as (w & E). eapply consumer_frees; [exact G|exact L|exact E|]. destruct w; cbn; lia.
Qed.

(** ** Transfer *)
Definition events (h : list (Z * event)) : list event := map snd h.

Lemma fine_at c t0 n sched a t e b : snd (ftexec c t0 n sched) = a ++ (t, e) :: b ->
  exists x z y sched', seen x = a /\ seen y = b /\ effects (x ++ (t, z) :: y) = snd (texec c t0 n sched') /\ linear (x ++ (t, z) :: y) /\
    z = if is_ret e then Seen e else Both e.
Proof.
  intros E. destruct (fine_linear c t0 n sched) as (tr & sched' & Hs & He & Hl). rewrite E in Hs.
  destruct (seen_split tr _ _ _ _ Hs) as (x & z & y & -> & <- & <- & Z). exists x, z, y, sched'. split; [reflexivity|]. split; [reflexivity|].
  split; [exact He|]. split; [exact Hl|]. destruct Hl as (_ & _ & F). apply Forall_app in F as [_ F]. inversion F; subst. cbn in H1.
  destruct Z as [-> | ->]; rewrite H1; reflexivity.
Qed.
Lemma linear_proper tr : linear tr -> Forall (fun e : Z * tobs => proper (snd e)) tr.
Proof. intros (_ & _ & F). exact F. Qed.
Lemma proper_app a x b : Forall (fun e : Z * tobs => proper (snd e)) (a ++ x :: b) -> Forall (fun e : Z * tobs => proper (snd e)) a /\ Forall (fun e : Z * tobs => proper (snd e)) b.
Proof. intros F. apply Forall_app in F as [F G]. inversion G; auto. Qed.

(** An event other than a return happens when it is seen. *)
Lemma fine_inner c t0 n sched a t e b : is_ret e = false -> snd (ftexec c t0 n sched) = a ++ (t, e) :: b ->
  exists x y sched', seen x = a /\ seen y = b /\ snd (texec c t0 n sched') = effects x ++ e :: effects y /\ linear x /\
    Forall (fun e : Z * tobs => proper (snd e)) x /\ Forall (fun e : Z * tobs => proper (snd e)) y.
Proof.
  intros R E. destruct (fine_at c t0 n sched a t e b E) as (x & z & y & sched' & <- & <- & He & Hl & ->). rewrite R in *.
  exists x, y, sched'. split; [reflexivity|]. split; [reflexivity|]. split; [rewrite <- He, effects_app; reflexivity|].
  split; [eapply linear_prefix; exact Hl|]. apply (proper_app _ _ _ (linear_proper _ Hl)).
Qed.
(** A call took effect before it is seen to return. *)
Lemma fine_return c t0 n sched a t i o r t' b : snd (ftexec c t0 n sched) = a ++ (t, ERet i o r t') :: b ->
  exists x1 ts x2 y sched', seen (x1 ++ x2) = a /\ seen y = b /\ ts <= t /\ linear x1 /\
    snd (texec c t0 n sched') = effects x1 ++ ERet i o r ts :: effects (x2 ++ y) /\
    Forall (fun e : Z * tobs => proper (snd e)) x1 /\ Forall (fun e : Z * tobs => proper (snd e)) x2 /\ Forall (fun e : Z * tobs => proper (snd e)) y.
Proof.
  intros E. destruct (fine_at c t0 n sched a t _ b E) as (x & z & y & sched' & <- & <- & He & Hl & ->). cbn [is_ret] in *.
  destruct (linear_seen _ _ _ _ _ _ _ Hl) as (ts & I & Le). destruct (in_split _ _ I) as (x1 & x2 & ->).
  exists x1, ts, x2, y, sched'. split; [rewrite !seen_app; reflexivity|]. split; [reflexivity|]. split; [exact Le|].
  split; [apply linear_prefix in Hl; eapply linear_prefix; exact Hl|]. split.
  - rewrite <- He, !effects_app. cbn. rewrite <- app_assoc. reflexivity.
  - destruct (proper_app _ _ _ (linear_proper _ Hl)) as [P1 P2]. destruct (proper_app _ _ _ P1). auto.
Qed.

Lemma begin_inner e : is_begin e = true -> innerb e = true. Proof. destruct e; try discriminate; reflexivity. Qed.
Lemma end_inner e : is_end e = true -> innerb e = true. Proof. destruct e; try discriminate; reflexivity. Qed.
(** A call that took effect was made. *)
Lemma effect_called x f : linear x -> existsb f (effects x) = true -> (forall e, f e = true -> is_ret e = true) ->
  exists tc i o r t, In (tc, ECall i o) (seen x) /\ f (ERet i o r t) = true /\ tc <= t.
Proof.
  intros L H R. apply existsb_exists in H as (e & I & Fe). specialize (R e Fe). destruct e as [| i o r t | | | | |]; try discriminate.
  destruct (effect_ret x i o r t (linear_proper _ L) I) as (t' & J). destruct (linear_taken x t' i o r t L J) as (-> & tc & K & Le).
  exists tc, i, o, r, t'. auto.
Qed.
Lemma start_ret e : start_ok e = true -> is_ret e = true. Proof. destruct e; try discriminate; reflexivity. Qed.
Lemma stop_ret e : stop_ok e = true -> is_ret e = true. Proof. destruct e; try discriminate; reflexivity. Qed.

Lemma fine_delay_begin c t0 n sched a t' m t b : c_kind c = Delay -> snd (ftexec c t0 n sched) = a ++ (t', EBegin m t) :: b ->
  m = count is_begin (events a) + 1 /\ count is_end (events a) = count is_begin (events a) /\
  (exists tc i o, In (tc, ECall i o) a /\ starts o = true /\ tc <= t') /\
  (m <> 1 -> exists t1, In (EEnd (m - 1) t1) (events a) /\ t1 + c_interval c <= t).
Proof.
  intros HD E. destruct (fine_at c t0 n sched a t' _ b E) as (x & z & y & sched0 & <- & <- & He0 & Hl & ->). cbn [is_ret] in *.
  assert (Lx : linear x) by (eapply linear_prefix; exact Hl). destruct (proper_app _ _ _ (linear_proper _ Hl)) as [Px Py].
  rewrite effects_app in He0. cbn in He0. symmetry in He0.
  destruct (delay_begin c t0 n sched0 _ m t _ HD He0) as (A1 & A2 & A3 & A4). unfold events.
  rewrite !(count_same is_begin x begin_inner Px), (count_same is_end x end_inner Px). split; [exact A1|]. split; [exact A2|]. split.
  - destruct (effect_called x start_ok Lx A3 start_ret) as (tc & i & o & r & ts & I & S & _). exists tc, i, o. split; [exact I|].
    split; [destruct r; try discriminate; exact S|]. unfold seen in I. apply in_flat_map in I as ([u z] & I & J).
    assert (u = tc) as -> by (destruct z; cbn in J; intuition congruence). apply (sorted_between x _ y _ (proj1 Hl) I).
  - intros N. destruct (A4 N) as (t1 & I & Le). exists t1. split; [apply (in_same x); auto|exact Le].
Qed.
Lemma fine_delay_end c t0 n sched a t' m t b : c_kind c = Delay -> snd (ftexec c t0 n sched) = a ++ (t', EEnd m t) :: b ->
  m = count is_begin (events a) /\ count is_end (events a) = m - 1.
Proof.
  intros HD E. destruct (fine_inner c t0 n sched a t' (EEnd m t) b eq_refl E) as (x & y & sched' & <- & <- & He & Lx & Px & Py).
  unfold events. rewrite (count_same is_begin x begin_inner Px), (count_same is_end x end_inner Px). apply (delay_end c t0 n sched' _ m t _ HD He).
Qed.
Lemma fine_after_stop c t0 n sched a t i o t' b : c_kind c = Delay -> snd (ftexec c t0 n sched) = a ++ (t, ERet i o Ok t') :: b -> starts o = false ->
  count is_begin (events b) <= 1.
Proof.
  intros HD E S. destruct (fine_return c t0 n sched a t i o Ok t' b E) as (x1 & ts & x2 & y & sched' & _ & <- & _ & _ & He & _ & _ & Py).
  pose proof (delay_after_stop c t0 n sched' _ i o ts _ HD He S) as K. rewrite effects_app, count_app in K.
  unfold events. rewrite (count_same is_begin y begin_inner Py). pose proof (count_nonneg is_begin (effects x2)). lia.
Qed.
Lemma fine_cancel c t0 n sched a t' m t b : snd (ftexec c t0 n sched) = a ++ (t', ECancel m t) :: b ->
  (exists t1, In (EEnd m t1) (events a)) \/ (exists tc i o, In (tc, ECall i o) a /\ starts o = false) \/
  exists t1, In (ELog m t1) (events a) /\ t1 + c_timeout c <= t.
Proof.
  intros E. destruct (fine_inner c t0 n sched a t' (ECancel m t) b eq_refl E) as (x & y & sched' & <- & <- & He & Lx & Px & Py).
  destruct (cancel_cause c t0 n sched' _ m t _ He) as [(t1 & I)|[S|(t1 & I & Le)]].
  - left. exists t1. apply (in_same x); auto.
  - right. left. destruct (effect_called x stop_ok Lx S stop_ret) as (tc & i & o & r & ts & I & K & _). exists tc, i, o. split; [exact I|].
    destruct r; try discriminate. cbn in K. destruct (starts o); [discriminate|reflexivity].
  - right. right. exists t1. split; [apply (in_same x); auto|exact Le].
Qed.
Lemma fine_next c t0 n sched a t' m t b : snd (ftexec c t0 n sched) = a ++ (t', ENext m t) :: b -> exists t1, In (EEnd m t1) (events a).
Proof.
  intros E. destruct (fine_inner c t0 n sched a t' (ENext m t) b eq_refl E) as (x & y & sched' & <- & <- & He & Lx & Px & Py).
  destruct (next_after_end c t0 n sched' _ m t _ He) as (t1 & I). exists t1. apply (in_same x); auto.
Qed.
Lemma fine_rate_begin c t0 n sched a t' m t b : c_kind c = Rate -> 0 < c_interval c -> snd (ftexec c t0 n sched) = a ++ (t', EBegin m t) :: b ->
  exists tc i o, In (tc, ECall i o) a /\ starts o = true /\ 1 <= m /\ tc + (m - 1) * c_interval c <= t /\ tc + count is_begin (events a) * c_interval c <= t.
Proof.
  intros HR Hp E. destruct (fine_inner c t0 n sched a t' (EBegin m t) b eq_refl E) as (x & y & sched' & <- & <- & He & Lx & Px & Py).
  destruct (rate_begin c t0 n sched' _ m t _ HR Hp He) as (i & o & ts & I & S & A1 & A2 & A3).
  destruct (effect_ret x i o Ok ts Px I) as (u & J). destruct (linear_taken x u i o Ok ts Lx J) as (-> & tc & K & Le).
  exists tc, i, o. unfold events. rewrite (count_same is_begin x begin_inner Px). repeat split; auto; lia.
Qed.
Lemma fine_rate_stop c t0 n sched a t i o t' b : c_kind c = Rate -> 0 < c_interval c ->
  snd (ftexec c t0 n sched) = a ++ (t, ERet i o Ok t') :: b -> starts o = false ->
  exists tc j q, In (tc, ECall j q) a /\ starts q = true /\ tc + (count is_begin (events (a ++ b)) - 1) * c_interval c <= t.
Proof.
  intros HR Hp E S. destruct (fine_return c t0 n sched a t i o Ok t' b E) as (x1 & ts & x2 & y & sched' & <- & <- & Le & L1 & He & P1 & P2 & Py).
  destruct (rate_after_stop c t0 n sched' _ i o ts _ HR Hp He S) as (j & q & tq & I & Sq & A).
  destruct (effect_ret x1 j q Ok tq P1 I) as (u & J). destruct (linear_taken x1 u j q Ok tq L1 J) as (-> & tc & K & Le').
  exists tc, j, q. split; [rewrite seen_app; apply in_or_app; auto|]. split; [exact Sq|].
  rewrite count_app, effects_app, count_app in A. unfold events. rewrite map_app, count_app, seen_app, map_app, count_app.
  rewrite (count_same is_begin x1 begin_inner P1), (count_same is_begin x2 begin_inner P2), (count_same is_begin y begin_inner Py). lia.
Qed.
Lemma begun_inner l : begun l = begun (filter innerb l).
Proof. induction l as [|e l IH]; [reflexivity|]. destruct e; cbn; try exact IH. f_equal. exact IH. Qed.
Lemma fine_numbers c t0 n sched : NoDup (begun (events (snd (ftexec c t0 n sched)))).
Proof.
  destruct (fine_linear c t0 n sched) as (tr & sched' & <- & He & Hl). unfold events. rewrite begun_inner, (inner_same tr (linear_proper _ Hl)), <- begun_inner, He.
  apply runs_numbered.
Qed.

(** ** One Start and one Stop *)
Definition timeless (f : event -> bool) : Prop := forall e, f e = true -> exists i o r t, e = ERet i o r t /\ forall u, f (ERet i o r u) = true.
Lemma calls_counts f i tr st : timeless f -> calls i tr st -> count f (events (seen tr)) + match st with Taken o r => if f (ERet i o r 0) then 1 else 0 | _ => 0 end = count f (effects tr).
Proof.
  intros T. assert (U : forall i o r t u, f (ERet i o r t) = f (ERet i o r u)).
  { intros i0 o r t u. destruct (f (ERet i0 o r t)) eqn:E.
    - destruct (T _ E) as (i1 & o1 & r1 & t1 & [= <- <- <- <-] & H). symmetry. apply H.
    - destruct (f (ERet i0 o r u)) eqn:E'; [|reflexivity]. destruct (T _ E') as (i1 & o1 & r1 & t1 & [= <- <- <- <-] & H). rewrite H in E. discriminate. }
  assert (V : forall i o, f (ECall i o) = false).
  { intros i0 o. destruct (f (ECall i0 o)) eqn:E; [|reflexivity]. destruct (T _ E) as (? & ? & ? & ? & ? & _). discriminate. }
  unfold events. induction 1 as [|tr t o C IH|tr t o r C IH|tr t o r C IH]; [reflexivity|..]; rewrite seen_app, effects_app, map_app, !count_app; cbn; rewrite ?V.
  - lia.
  - rewrite (U i o r t 0). lia.
  - rewrite (U i o r t 0). destruct (f (ERet i o r 0)); lia.
Qed.
Lemma count_pos {A} f (l : list A) : 1 <= count f l -> exists a x b, l = a ++ x :: b /\ f x = true /\ count f a = 0.
Proof.
  induction l as [|x l IH]; cbn [count]; [lia|]. destruct (f x) eqn:E; intros H.
  - exists [], x, l. auto.
  - destruct (IH ltac:(lia)) as (a & y & b & -> & F & C). exists (x :: a), y, b. cbn. rewrite E. auto.
Qed.
Lemma in_count {A} f (l : list A) x : In x l -> f x = true -> 1 <= count f l.
Proof. intros I F. destruct (in_split _ _ I) as (a & b & ->). rewrite count_app. cbn. rewrite F. pose proof (count_nonneg f a). pose proof (count_nonneg f b). lia. Qed.
Lemma count_filter_le f i tr : count f (effects (filter (of_client i) tr)) <= count f (effects tr).
Proof.
  induction tr as [|x tr IH]; [cbn; lia|]. cbn [filter]. change (x :: tr) with ([x] ++ tr). rewrite (effects_app [x] tr), count_app.
  destruct (of_client i x); [change (x :: filter (of_client i) tr) with ([x] ++ filter (of_client i) tr); rewrite effects_app, count_app; lia|].
  pose proof (count_nonneg f (effects [x])). lia.
Qed.
Lemma seen_filter i tr : events (seen (filter (of_client i) tr)) = filter (fun e => of_client i (0, Both e)) (events (seen tr)).
Proof.
  unfold events. induction tr as [|[t z] tr IH]; [reflexivity|]. cbn [filter]. change ((t, z) :: tr) with ([(t, z)] ++ tr).
  rewrite (seen_app [(t, z)] tr), map_app, filter_app, <- IH. destruct z as [e|e|e]; unfold of_client at 1; cbn [snd].
  - destruct e; cbn; try reflexivity; destruct (Nat.eqb i i0); reflexivity.
  - destruct e; cbn; try reflexivity; destruct (Nat.eqb i i0); reflexivity.
  - destruct e; cbn; try reflexivity; destruct (Nat.eqb i i0); reflexivity.
Qed.

Lemma at_most_once f tr : timeless f -> linear tr -> count f (effects tr) <= 1 -> count f (events (seen tr)) <= 1.
Proof.
  intros T L C. destruct (Z.le_gt_cases (count f (events (seen tr))) 1) as [H|H]; [exact H|exfalso].
  destruct (count_pos f (events (seen tr)) ltac:(lia)) as (a & e1 & b & E1 & F1 & Ca). rewrite E1 in H. rewrite count_app in H. cbn [count] in H. rewrite F1, Ca in H.
  destruct (count_pos f b ltac:(lia)) as (b1 & e2 & b2 & -> & F2 & Cb). destruct (T _ F1) as (i & o & r & t & -> & U1). destruct (T _ F2) as (j & o' & r' & t' & -> & U2).
  (* the call of a return that is seen *)
  assert (K : forall i o r t, In (ERet i o r t) (events (seen tr)) -> exists ts, In (ts, Takes (ERet i o r ts)) tr).
  { intros i0 o0 r0 u I. apply in_map_iff in I as ([v e] & Ee & I). cbn in Ee. subst e. destruct (in_split _ _ I) as (p & q & Eq).
    destruct (seen_split tr _ _ _ _ Eq) as (x & z & y & -> & _ & _ & Z). assert (z = Seen (ERet i0 o0 r0 u)) as ->.
    { destruct Z as [-> | ->]; [|reflexivity]. pose proof (linear_proper _ L) as P. apply Forall_app in P as [_ P]. inversion P; subst. discriminate. }
    destruct (linear_seen _ _ _ _ _ _ _ L) as (ts & J & _). exists ts. apply in_or_app. auto. }
  destruct (Nat.eq_dec i j) as [->|N].
  - destruct L as (_ & L & _). destruct (L j) as (st & Cj). pose proof (calls_counts f j _ st T Cj) as Q. rewrite seen_filter, E1 in Q.
    pose proof (count_filter_le f j tr) as Q2. rewrite filter_app in Q. cbn [filter] in Q. unfold of_client at 2 in Q. cbn [snd] in Q. rewrite Nat.eqb_refl in Q.
    rewrite filter_app in Q. cbn [filter] in Q. unfold of_client at 3 in Q. cbn [snd] in Q. rewrite Nat.eqb_refl in Q.
    rewrite count_app in Q. cbn [count] in Q. rewrite count_app in Q. cbn [count] in Q. rewrite F1, F2 in Q.
    repeat match type of Q with context [count f (filter ?g ?l)] => pose proof (count_nonneg f (filter g l)); set (count f (filter g l)) in * end.
    destruct st as [| |o2 r2]; try destruct (f (ERet j o2 r2 0)); lia.
  - assert (I1 : In (ERet i o r t) (events (seen tr))) by (rewrite E1; apply in_or_app; right; left; reflexivity).
    assert (I2 : In (ERet j o' r' t') (events (seen tr))) by (rewrite E1; apply in_or_app; right; right; apply in_or_app; right; left; reflexivity).
    destruct (K _ _ _ _ I1) as (u & J1). destruct (K _ _ _ _ I2) as (v & J2). destruct (in_split _ _ J1) as (p & q & ->).
    rewrite effects_app, count_app in C. cbn in C. rewrite (U1 u) in C.
    apply in_app_or in J2 as [J2|[J2|J2]]; [|congruence|].
    + assert (X : In (ERet j o' r' v) (effects p)) by (apply in_flat_map; exists (v, Takes (ERet j o' r' v)); split; [exact J2|left; reflexivity]).
      pose proof (in_count f _ _ X (U2 v)). fold (effects q) in C. pose proof (count_nonneg f (effects q)). lia.
    + assert (X : In (ERet j o' r' v) (effects q)) by (apply in_flat_map; exists (v, Takes (ERet j o' r' v)); split; [exact J2|left; reflexivity]).
      pose proof (in_count f _ _ X (U2 v)). fold (effects q) in C. pose proof (count_nonneg f (effects p)). lia.
Qed.
Lemma fine_once c t0 n sched : count start_ok (events (snd (ftexec c t0 n sched))) <= 1 /\ count stop_ok (events (snd (ftexec c t0 n sched))) <= 1.
Proof.
  destruct (fine_linear c t0 n sched) as (tr & sched' & <- & He & Hl). destruct (start_once c t0 n sched') as [A B]. rewrite <- He in A, B.
  split; (apply at_most_once; [|assumption|assumption]); intros e; destruct e as [|i o r t| | | | |]; try discriminate; intros H; exists i, o, r, t;
    (split; [reflexivity|]); intros u; exact H.
Qed.
