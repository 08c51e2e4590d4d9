(** What the simulation says about histories. *)
From Verif Require Import Common Threads ScheduleModel ScheduleSpec ScheduleProofs ScheduleTrace ScheduleRuns ScheduleLive.
From Verif Require Import ScheduleFineModel ScheduleFineSpec ScheduleFineProofs ScheduleFineSim.
From Coq Require Import Sorting.Sorted.
Local Open Scope list_scope.
Local Open Scope Z_scope.

Definition earlier (x y : Z * tobs) : Prop := fst x <= fst y.
Definition proper (x : tobs) : Prop := match x with Both e => is_ret e = false | Takes e | Seen e => is_ret e = true end.

(** ** Lists *)
Lemma seen_app a b : seen (a ++ b) = seen a ++ seen b. Proof. apply flat_map_app. Qed.
Lemma effects_app a b : effects (a ++ b) = effects a ++ effects b. Proof. apply flat_map_app. Qed.
Lemma sorted_app a b : StronglySorted earlier a -> StronglySorted earlier b -> Forall (fun x => Forall (earlier x) b) a -> StronglySorted earlier (a ++ b).
Proof.
  induction 1 as [|x a S IH F]; intros B G; [exact B|]. inversion G; subst. cbn. constructor; [auto|]. apply Forall_app. auto.
Qed.
Lemma sorted_stamped now xs : StronglySorted earlier (stamped now xs).
Proof.
  induction xs as [|x xs IH]; [constructor|]. constructor; [exact IH|]. apply Forall_forall. intros y H. apply in_map_iff in H as (z & <- & _).
  unfold earlier. cbn. lia.
Qed.
Lemma sorted_prefix a b : StronglySorted earlier (a ++ b) -> StronglySorted earlier a.
Proof. induction a as [|x a IH]; intros H; [constructor|]. inversion H; subst. constructor; [auto|]. apply Forall_app in H3. tauto. Qed.
Lemma sorted_between a x b y : StronglySorted earlier (a ++ x :: b) -> In y a -> earlier y x.
Proof.
  induction a as [|z a IH]; intros S I; [destruct I|]. cbn in S. inversion S; subst. destruct I as [->|I]; [|auto].
  apply Forall_app in H2 as [_ H2]. inversion H2; assumption.
Qed.
Lemma sorted_filter f a : StronglySorted earlier a -> StronglySorted earlier (filter f a).
Proof.
  induction 1 as [|x a S IH F]; [constructor|]. cbn. destruct (f x); [|exact IH]. constructor; [exact IH|].
  apply Forall_forall. intros y I. apply filter_In in I as [I _]. rewrite Forall_forall in F. auto.
Qed.
Lemma snoc_inv {A} (a b : list A) x y : a ++ [x] = b ++ [y] -> a = b /\ x = y.
Proof. apply app_inj_tail. Qed.

(** ** Calls *)
Lemma calls_prefix i tr st : calls i tr st -> forall a b, tr = a ++ b -> exists st', calls i a st'.
Proof.
  induction 1 as [|tr t o C IH|tr t o r C IH|tr t o r C IH]; intros a b E.
  - destruct a; [|discriminate]. exists Idle. constructor.
  - destruct b as [|y b _] using rev_ind; [rewrite app_nil_r in E; subst a; eexists; constructor; exact C|].
    rewrite app_assoc in E. apply snoc_inv in E as [E _]. eauto.
  - destruct b as [|y b _] using rev_ind; [rewrite app_nil_r in E; subst a; eexists; constructor; exact C|].
    rewrite app_assoc in E. apply snoc_inv in E as [E _]. eauto.
  - destruct b as [|y b _] using rev_ind; [rewrite app_nil_r in E; subst a; eexists; constructor; exact C|].
    rewrite app_assoc in E. apply snoc_inv in E as [E _]. eauto.
Qed.
Lemma calls_last i tr st : calls i tr st ->
  match st with
  | Idle => True
  | Called o => exists tc, In (tc, Both (ECall i o)) tr
  | Taken o r => exists t, In (t, Takes (ERet i o r t)) tr
  end.
Proof. destruct 1; auto; eexists; apply in_or_app; right; left; reflexivity. Qed.
Lemma calls_taken i tr st : calls i tr st -> StronglySorted earlier tr -> forall t o r t', In (t, Takes (ERet i o r t')) tr ->
  t' = t /\ exists tc, In (tc, Both (ECall i o)) tr /\ tc <= t.
Proof.
  induction 1 as [|tr t0 o0 C IH|tr t0 o0 r0 C IH|tr t0 o0 r0 C IH]; intros S t o r t' I; [destruct I|..];
    apply in_app_or in I as [I|[I|[]]]; try discriminate I;
    try (destruct (IH (sorted_prefix _ _ S) _ _ _ _ I) as (-> & tc & J & L); split; [reflexivity|]; exists tc; split; [apply in_or_app; auto|exact L]).
  injection I as -> -> -> ->. split; [reflexivity|]. destruct (calls_last _ _ _ C) as (tc & J). exists tc. split; [apply in_or_app; auto|].
  apply (sorted_between tr _ [] _ S J).
Qed.
Lemma calls_seen i tr st t o r t' b : calls i tr st -> tr = b ++ [(t, Seen (ERet i o r t'))] -> exists ts, In (ts, Takes (ERet i o r ts)) b.
Proof.
  intros C E. destruct C; [destruct b; discriminate| | |]; apply snoc_inv in E as [-> E]; try discriminate E.
  injection E as -> -> -> ->. apply (calls_last _ _ _ C).
Qed.

Lemma linear_prefix a b : linear (a ++ b) -> linear a.
Proof.
  intros (S & C & F). split; [eapply sorted_prefix; exact S|]. split; [|apply Forall_app in F; tauto].
  intros i. destruct (C i) as (st & C'). rewrite filter_app in C'. eapply calls_prefix; [exact C'|reflexivity].
Qed.
Lemma linear_taken tr t i o r t' : linear tr -> In (t, Takes (ERet i o r t')) tr -> t' = t /\ exists tc, In (tc, ECall i o) (seen tr) /\ tc <= t.
Proof.
  intros (S & C & _) I. destruct (C i) as (st & C').
  destruct (calls_taken i _ st C' (sorted_filter _ _ S) t o r t') as (-> & tc & J & L).
  - apply filter_In. split; [exact I|]. cbn. apply Nat.eqb_refl.
  - split; [reflexivity|]. exists tc. split; [|exact L]. apply filter_In in J as [J _]. apply in_flat_map. exists (tc, Both (ECall i o)). split; [exact J|left; reflexivity].
Qed.
Lemma linear_seen a t i o r t' b : linear (a ++ (t, Seen (ERet i o r t')) :: b) -> exists ts, In (ts, Takes (ERet i o r ts)) a /\ ts <= t.
Proof.
  intros H. change ((t, Seen (ERet i o r t')) :: b) with ([(t, Seen (ERet i o r t'))] ++ b) in H. rewrite app_assoc in H. apply linear_prefix in H.
  destruct H as (S & C & _). destruct (C i) as (st & C'). rewrite filter_app in C'. cbn in C'. rewrite Nat.eqb_refl in C'.
  destruct (calls_seen i _ st t o r t' _ C' eq_refl) as (ts & I). apply filter_In in I as [I _]. exists ts. split; [exact I|].
  apply (sorted_between a _ [] _ S I).
Qed.

(** ** Events that are seen when they happen *)
Definition innerb (e : event) : bool := match e with ECall _ _ | ERet _ _ _ _ => false | _ => true end.
Lemma seen_split tr : forall a t e b, seen tr = a ++ (t, e) :: b -> exists x z y, tr = x ++ (t, z) :: y /\ seen x = a /\ seen y = b /\ (z = Both e \/ z = Seen e).
Proof.
  induction tr as [|[t0 z0] tr IH]; intros a t e b E; [destruct a; discriminate|].
  change (seen ((t0, z0) :: tr)) with ((match z0 with Both e | Seen e => [(t0, e)] | Takes _ => [] end) ++ seen tr) in E.
  assert (K : (exists e0, z0 = Both e0 \/ z0 = Seen e0) -> exists x z y, (t0, z0) :: tr = x ++ (t, z) :: y /\ seen x = a /\ seen y = b /\ (z = Both e \/ z = Seen e)).
  { intros (e0 & Q). assert (E' : (t0, e0) :: seen tr = a ++ (t, e) :: b) by (destruct Q as [-> | ->]; exact E).
    destruct a as [|u a]; cbn in E'.
    - injection E' as E1 E2 E3. subst t0 e0 b. exists [], z0, tr. split; [reflexivity|]. split; [reflexivity|]. split; [reflexivity|exact Q].
    - injection E' as <- E'. destruct (IH _ _ _ _ E') as (x & z & y & -> & <- & <- & Z). exists ((t0, z0) :: x), z, y. split; [reflexivity|].
      split; [destruct Q as [-> | ->]; reflexivity|]. split; [reflexivity|exact Z]. }
  destruct z0 as [e0|e0|e0]; [apply K; eauto| |apply K; eauto].
  cbn [app] in E. destruct (IH _ _ _ _ E) as (x & z & y & -> & <- & <- & Z). exists ((t0, Takes e0) :: x), z, y. split; [reflexivity|]. split; [reflexivity|]. split; [reflexivity|exact Z].
Qed.
Lemma inner_same tr : Forall (fun x => proper (snd x)) tr -> filter innerb (map snd (seen tr)) = filter innerb (effects tr).
Proof.
  induction 1 as [|[t z] tr P F IH]; [reflexivity|].
  destruct z as [e|e|e]; [|destruct e; try discriminate P; exact IH..].
  change (filter innerb ([e] ++ map snd (seen tr)) = filter innerb ([e] ++ effects tr)). rewrite !filter_app, IH. reflexivity.
Qed.
Lemma count_inner f tr : (forall e, f e = true -> innerb e = true) -> count f tr = count f (filter innerb tr).
Proof.
  intros H. induction tr as [|e tr IH]; [reflexivity|]. cbn. destruct (f e) eqn:E; [rewrite (H e E); cbn; rewrite E, IH; reflexivity|].
  destruct (innerb e); cbn; rewrite ?E, IH; reflexivity.
Qed.
Lemma count_same f tr : (forall e, f e = true -> innerb e = true) -> Forall (fun x => proper (snd x)) tr -> count f (map snd (seen tr)) = count f (effects tr).
Proof. intros H F. rewrite (count_inner f (map snd (seen tr)) H), (count_inner f (effects tr) H), (inner_same tr F). reflexivity. Qed.
Lemma in_same tr e : innerb e = true -> Forall (fun x => proper (snd x)) tr -> In e (map snd (seen tr)) <-> In e (effects tr).
Proof.
  intros H F. transitivity (In e (filter innerb (map snd (seen tr)))); [rewrite filter_In; tauto|]. rewrite (inner_same tr F), filter_In. tauto.
Qed.
Lemma effect_ret tr i o r t : Forall (fun x => proper (snd x)) tr -> In (ERet i o r t) (effects tr) -> exists t', In (t', Takes (ERet i o r t)) tr.
Proof.
  intros F I. apply in_flat_map in I as ([t' z] & J & K). exists t'. destruct z as [e|e|e]; [|destruct K as [->|[]]; exact J|destruct K].
  destruct K as [->|[]]. rewrite Forall_forall in F. specialize (F _ J). discriminate F.
Qed.

(** ** The invariant *)
Lemma now_mono c s l s1 es : fstep0 c s l = Some (s1, es) -> t_now (f_task s) <= t_now (f_task s1).
Proof.
  assert (K : forall b es, tstep c (f_task s) l = Some (b, es) -> t_now (f_task s) <= t_now b).
  { intros b es' E. apply tstep_trans in E. destruct E; cbn; lia. }
  intros E. destruct l; cbn [fstep0] in E; try (apply outside_some in E as (b & E & ->); cbn; eapply K; exact E).
  - destruct (nth_error (f_in s) i) as [[w|]|]; [| |discriminate]; (destruct (nth_error (t_clients (f_task s)) i) as [[|o|o]|]; try discriminate).
    + destruct w; cbn [wstep] in E; try discriminate; injection E as <- <-; cbn; lia.
    + destruct (f_lock s); [discriminate|]. injection E as <- <-. cbn. lia.
  - destruct (nth_error (f_in s) i) as [[w|]|]; try discriminate. destruct w; try discriminate. destruct (receive k (f_task s)) eqn:Hr; [|discriminate].
    apply receive_some in Hr as [_ ->]. injection E as <- <-. cbn. lia.
  - destruct (nth_error (f_in s) i) as [[w|]|]; try discriminate. destruct w; try discriminate. destruct (t_sig (f_task s)); [|discriminate].
    injection E as <- <-. cbn. lia.
  - destruct (nth_error (f_kin s) k) as [[w|]|]; [| |discriminate]; (destruct (nth_error (t_cons (f_task s)) k) as [x|]; [|discriminate]).
    + injection E as <- <-. destruct w; cbn; lia.
    + destruct x; try (apply outside_some in E as (b & E & ->); cbn; eapply (K b); exact E);
        (destruct (f_lock s); [discriminate|]; injection E as <- <-; cbn; lia).
Qed.

Record ginv (c : cfg) (t0 : Z) (n : nat) (s : ftask) (h : list (Z * event)) : Prop := {
  gi_mutex : mutex s;
  gi_main : exists tr sched, seen tr = h /\ effects tr = snd (texec c t0 n sched) /\ rels c s (fst (texec c t0 n sched)) /\
    StronglySorted earlier tr /\ Forall (fun x => fst x <= t_now (f_task s)) tr /\
    (forall i, calls i (filter (of_client i) tr) (stg c s i)) /\ Forall (fun x => proper (snd x)) tr
}.

Lemma all3_repeat c n : All3 (crel c) (repeat None n) (repeat CIdle n) (repeat CIdle n).
Proof. induction n; cbn; constructor; auto. cbn. auto. Qed.
Lemma stg_init c t0 n i : stg c (finit t0 n) i = Idle.
Proof.
  unfold stg. cbn. destruct (nth_error (repeat None n) i) as [x|] eqn:E; [|reflexivity]. apply nth_error_In, repeat_spec in E. subst x.
  destruct (nth_error (repeat CIdle n) i) as [x|] eqn:E; [|reflexivity]. apply nth_error_In, repeat_spec in E. subst x. reflexivity.
Qed.
Lemma ginv_init c t0 n : ginv c t0 n (finit t0 n) [].
Proof.
  constructor; [apply mutex_init|]. exists [], []. split; [reflexivity|]. split; [reflexivity|]. split.
  - exists [], []. constructor; cbn; auto; try discriminate; [apply all3_repeat|constructor].
  - split; [constructor|]. split; [constructor|]. split; [|constructor]. intros i. rewrite stg_init. constructor.
Qed.

Lemma calls_moves i tr st now xs st' : calls i tr st -> moves now i st xs st' -> calls i (tr ++ stamped now xs) st'.
Proof. intros C M. destruct M; cbn; [rewrite app_nil_r; exact C|constructor; exact C..]. Qed.
Lemma stamped_filter i now xs : filter (of_client i) (stamped now xs) = stamped now (map snd (filter (of_client i) (stamped now xs))).
Proof. unfold stamped. induction xs as [|x xs IH]; [reflexivity|]. cbn. destruct (of_client i (now, x)); cbn; rewrite <- ?IH; [f_equal; exact IH|reflexivity || exact IH]. Qed.

Lemma ginv_step c t0 n s l s1 es h : ginv c t0 n s h -> fstep c s l = Some (s1, es) -> ginv c t0 n s1 (h ++ es).
Proof.
  intros [M (tr & sched & Hs & He & R & S & B & C & P)] E. unfold fstep in E. destruct (fstep0 c s l) as [[s' es0]|] eqn:E0; [|discriminate].
  injection E as -> <-. constructor; [eapply mutex_step; eassumption|].
  destruct (sim_step c s _ l s1 es0 M R E0) as (ls & t1 & es' & xs & Ex & R1 & [O1 O2 O3 O4]). pose proof (now_mono c s l s1 es0 E0) as Hn.
  exists (tr ++ stamped (t_now (f_task s)) xs), (sched ++ ls).
  assert (Et : texec c t0 n (sched ++ ls) = (t1, snd (texec c t0 n sched) ++ es')).
  { unfold texec in *. rewrite exec_app. destruct (exec (tstep c) (init t0 n) sched) as [t et]. cbn [fst snd] in *. rewrite Ex. reflexivity. }
  rewrite Et. cbn [fst snd]. split; [rewrite seen_app, Hs, O1; reflexivity|]. split; [rewrite effects_app, He, O2; reflexivity|]. split; [exact R1|].
  assert (B2 : Forall (fun x => fst x = t_now (f_task s)) (stamped (t_now (f_task s)) xs)).
  { apply Forall_forall. intros y I. apply in_map_iff in I as (z & <- & _). reflexivity. }
  split; [|split; [|split]].
  - apply sorted_app; [exact S|apply sorted_stamped|]. eapply Forall_impl; [|exact B]. intros x Hx. eapply Forall_impl; [|exact B2]. intros y Hy.
    unfold earlier. cbn in Hx, Hy. lia.
  - apply Forall_app. split; [eapply Forall_impl; [|exact B]; intros y Hy; cbn in Hy |- *; lia|eapply Forall_impl; [|exact B2]; intros y Hy; cbn in Hy |- *; lia].
  - intros i. rewrite filter_app, stamped_filter. eapply calls_moves; [apply C|apply O3].
  - apply Forall_app. split; [exact P|]. apply Forall_forall. intros y I. apply in_map_iff in I as (z & <- & J). rewrite Forall_forall in O4. apply O4. exact J.
Qed.

Lemma ginv_exec c t0 n sched : ginv c t0 n (fst (ftexec c t0 n sched)) (snd (ftexec c t0 n sched)).
Proof.
  exact (exec_inv (fstep c) (ginv c t0 n) (fun s l s1 es tr I E => ginv_step c t0 n s l s1 es tr I E) sched (finit t0 n) [] (ginv_init c t0 n)).
Qed.

Lemma fine_linear c t0 n sched : exists tr sched', seen tr = snd (ftexec c t0 n sched) /\ effects tr = snd (texec c t0 n sched') /\ linear tr.
Proof.
  destruct (ginv_exec c t0 n sched) as [_ (tr & sched' & Hs & He & _ & S & _ & C & P)]. exists tr, sched'. split; [exact Hs|]. split; [exact He|].
  split; [exact S|]. split; [|exact P]. intros i. eexists. apply C.
Qed.
