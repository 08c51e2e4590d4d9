(** Lifecycle, numbering, spacing and cancellation of runs. *)
From Verif Require Import Common Threads ScheduleModel ScheduleSpec ScheduleProofs ScheduleTrace.
Local Open Scope list_scope.
Local Open Scope Z_scope.

Lemma cut1 {A} (x : A) a e b : [x] = a ++ e :: b -> a = [] /\ e = x.
Proof. destruct a as [|y [|]]; intros [=]; auto. Qed.

Lemma task_jinv c t0 n sched : sinv c (fst (texec c t0 n sched)) /\ jinv c (fst (texec c t0 n sched)) (snd (texec c t0 n sched)).
Proof.
  apply (task_inv (jinv c) c t0 n); [apply jinv_init|]. intros s tr s1 es HI HJ HT _. exact (jinv_trans c s tr s1 es HI HJ HT).
Qed.

Lemma task_trace' (Q : list event -> event -> Prop) c t0 n sched pre e post :
  (forall s tr s1 es, sinv c s -> jinv c s tr -> trans c s s1 es -> forall a e b, es = a ++ e :: b -> Q (tr ++ a) e) ->
  snd (texec c t0 n sched) = pre ++ e :: post -> Q pre e.
Proof.
  intros HQ. apply (task_trace Q (jinv c) c t0 n); [apply jinv_init|intros s tr s1 es HI HJ HT _; exact (jinv_trans c s tr s1 es HI HJ HT)|exact HQ].
Qed.

(** ** Lifecycle *)

Lemma lifecycle c t0 n sched a i o r t b : snd (texec c t0 n sched) = a ++ ERet i o r t :: b -> r = due a o.
Proof.
  apply (task_trace' (fun pre e => match e with ERet _ o r _ => r = due pre o | _ => True end)).
  clear. intros s tr s1 es HI HJ HT a e b Ees. pose proof (j_stop c s tr HJ) as J1. pose proof (j_start c s tr HJ) as J2.
  destruct HT; try (destruct a; discriminate Ees); try (apply cut1 in Ees; destruct Ees as (-> & ->); rewrite ?app_nil_r).
  - exact I.
  - unfold due. rewrite J1, J2, H0. inversion H1; subst; rewrite ?H2, ?H3; reflexivity.
  - unfold due. rewrite J1, J2, H0, H1. rewrite (proj2 (Z.eqb_neq _ _) H3).
    assert (E : t_status s = new) by (destruct (i_status c s HI) as [?|[?|?]]; congruence). rewrite E. reflexivity.
  - unfold due. rewrite J1, J2, H0, H1. rewrite (proj2 (Z.eqb_neq _ _) H3), (proj2 (Z.eqb_neq _ _) H2). reflexivity.
  - pose proof (append_locked c s i o HI H) as EL. destruct (i_lockst c s HI EL) as (ES & ED).
    unfold due. rewrite J1, J2, EL, ES, (j_append c s tr HJ i o H). reflexivity.
  - pose proof (append_locked c s i o HI H) as EL. destruct (i_lockst c s HI EL) as (ES & ED).
    unfold due. rewrite J1, J2, EL, ES, (j_append c s tr HJ i o H). reflexivity.
  - pose proof (rtrans_events c _ _ _ _ _ H0) as HF. rewrite Ees in HF. apply Forall_app in HF. destruct HF as (_ & HF). inversion HF as [|? ? He _]; subst.
    destruct e; cbn in He; contradiction || exact I.
Qed.

Lemma start_once c t0 n sched : count start_ok (snd (texec c t0 n sched)) <= 1 /\ count stop_ok (snd (texec c t0 n sched)) <= 1.
Proof.
  pose proof (fun a i o r t b => lifecycle c t0 n sched a i o r t b) as L. revert L. generalize (snd (texec c t0 n sched)) as tr. intros tr.
  assert (K : forall f : event -> bool, (forall e, f e = true -> exists i o t, e = ERet i o Ok t) ->
    (forall pre e post, tr = pre ++ e :: post -> f e = true -> existsb f pre = false) -> count f tr <= 1).
  { intros f Hf. revert tr. assert (K0 : forall l, existsb f l = false -> count f l = 0).
    { induction l as [|x l IH]; cbn; [auto|]. intros E. apply orb_false_iff in E. destruct E as (-> & E). rewrite IH; auto. }
    induction tr as [|x tr IH] using rev_ind; intros Hp; [cbn; lia|]. rewrite count_app. cbn.
    destruct (f x) eqn:E; [rewrite (K0 tr); [lia|]; apply (Hp tr x []); auto|].
    assert (count f tr <= 1); [|lia]. apply IH. intros pre e post Et. apply (Hp pre e (post ++ [x])). rewrite Et, <- app_assoc. reflexivity. }
  intros L. split; apply K; intros.
  - destruct e as [|i o [] t| | | | |]; try discriminate. eauto.
  - destruct e as [|i o [] t| | | | |]; try discriminate. cbn in H0. pose proof (L _ _ _ _ _ _ H) as D. unfold due in D. rewrite H0 in D.
    destruct (existsb stop_ok pre); [destruct o; discriminate|]. destruct (existsb start_ok pre); [destruct o; discriminate|reflexivity].
  - destruct e as [|i o [] t| | | | |]; try discriminate. eauto.
  - destruct e as [|i o [] t| | | | |]; try discriminate. cbn in H0. pose proof (L _ _ _ _ _ _ H) as D. unfold due in D.
    destruct (starts o) eqn:Eo; [discriminate|]. destruct (existsb stop_ok pre); [destruct o; discriminate|reflexivity].
Qed.

(** ** Times and events *)

Lemma in_times_end n t tr : In t (times GEnd n tr) <-> In (EEnd n t) tr.
Proof.
  unfold times. rewrite in_flat_map. split.
  - intros (e & He & Ht). destruct e; cbn in Ht; try contradiction. destruct (Z.eqb_spec n0 n); [|contradiction]. destruct Ht as [<-|[]]. subst. exact He.
  - intros H. exists (EEnd n t). split; [exact H|]. cbn. rewrite Z.eqb_refl. left. reflexivity.
Qed.
Lemma in_times_log n t tr : In t (times GLog n tr) <-> In (ELog n t) tr.
Proof.
  unfold times. rewrite in_flat_map. split.
  - intros (e & He & Ht). destruct e; cbn in Ht; try contradiction. destruct (Z.eqb_spec n0 n); [|contradiction]. destruct Ht as [<-|[]]. subst. exact He.
  - intros H. exists (ELog n t). split; [exact H|]. cbn. rewrite Z.eqb_refl. left. reflexivity.
Qed.
Lemma in_times_begin n t tr : In t (times GBegin n tr) <-> In (EBegin n t) tr.
Proof.
  unfold times. rewrite in_flat_map. split.
  - intros (e & He & Ht). destruct e; cbn in Ht; try contradiction. destruct (Z.eqb_spec n0 n); [|contradiction]. destruct Ht as [<-|[]]. subst. exact He.
  - intros H. exists (EBegin n t). split; [exact H|]. cbn. rewrite Z.eqb_refl. left. reflexivity.
Qed.
Lemma in_times_cancel n t tr : In t (times GCancel n tr) <-> In (ECancel n t) tr.
Proof.
  unfold times. rewrite in_flat_map. split.
  - intros (e & He & Ht). destruct e; cbn in Ht; try contradiction. destruct (Z.eqb_spec n0 n); [|contradiction]. destruct Ht as [<-|[]]. subst. exact He.
  - intros H. exists (ECancel n t). split; [exact H|]. cbn. rewrite Z.eqb_refl. left. reflexivity.
Qed.

Lemma ended_event c s tr j r : jinv c s tr -> nth_error (t_runs s) j = Some r -> r_job r = JDone -> exists t, In (EEnd (r_no r) t) tr.
Proof.
  intros HJ Hj Hr. destruct (j_runs c s tr HJ j r Hj) as (_ & _ & E & _). unfold endedW in E. rewrite Hr in E.
  destruct (times GEnd (r_no r) tr) as [|t l] eqn:Et; [discriminate|]. exists t. apply in_times_end. rewrite Et. left. reflexivity.
Qed.

(** The run an event belongs to. *)
Lemma event_run c s tr g n : sinv c s -> jinv c s tr -> times g n tr <> [] ->
  exists j r, nth_error (t_runs s) j = Some r /\ r_no r = n.
Proof.
  intros HI HJ Hn. pose proof (j_other c s tr HJ g n Hn) as Hb. pose proof (i_no c s HI) as HN.
  destruct (nth_error (t_runs s) (Z.to_nat (n - 1))) as [r|] eqn:E.
  - exists (Z.to_nat (n - 1)), r. split; [exact E|]. destruct (i_runno c s HI _ _ E) as (H & _). lia.
  - apply nth_error_None in E. lia.
Qed.

(** ** Fixed delay: one run after another *)

Lemma sum_last {A} (f : A -> Z) j r l : nth_error l j = Some r -> S j = length l ->
  (forall i x, nth_error l i = Some x -> i <> j -> f x = 1) -> sumZ f l = Z.of_nat j + f r.
Proof.
  revert j. induction l as [|x l IH]; intros [|j] Hj HL Hf; cbn [nth_error length sumZ] in *; try discriminate.
  - injection Hj as ->. destruct l; [cbn; lia|discriminate].
  - rewrite (IH j Hj ltac:(lia)); [|intros i y Hi Hne; apply (Hf (S i) y Hi); lia]. rewrite (Hf O x eq_refl ltac:(lia)), Nat2Z.inj_succ. lia.
Qed.

Lemma active c s j r : sinv c s -> c_kind c = Delay -> nth_error (t_runs s) j = Some r -> r_pc r <> RRet ->
  t_cons s = [KRun j] /\ S j = length (t_runs s) /\ t_locked s = false /\ t_status s <> new /\
  sumZ begunW (t_runs s) = Z.of_nat j + begunW r /\ sumZ endedW (t_runs s) = Z.of_nat j + endedW r /\
  (forall i x, nth_error (t_runs s) i = Some x -> i <> j -> r_pc x = RRet /\ r_job x = JDone).
Proof.
  intros HI HD Hj Hr. destruct (i_delay c s HI HD) as (C1 & C2 & C3 & C4 & C5). pose proof (C5 j r Hj Hr) as Hk.
  destruct (one_cons c s 0 _ HI Hk) as (_ & Ec & En). pose proof (i_krun c s HI _ _ Hk) as HL.
  assert (Hret : forall i x, nth_error (t_runs s) i = Some x -> i <> j -> r_pc x = RRet /\ r_job x = JDone).
  { intros i x Hi Hne. destruct (i_runno c s HI i x Hi) as (_ & RO). unfold run_ok in RO.
    destruct (r_pc x) eqn:Ep; try (assert (Hk' : nth_error (t_cons s) 0 = Some (KRun i)) by (apply (C5 i x Hi); congruence); congruence).
    split; [reflexivity|apply RO]. }
  split; [exact Ec|]. split; [exact HL|]. split; [|split; [exact En|]; split; [|split; [|exact Hret]]].
  - unfold tokens in C3. rewrite Ec in C3. cbn [sumZ busy] in C3. pose proof (live_nonneg (t_timers s)). pose proof (i_lock c s HI).
    destruct (t_locked s); [lia|reflexivity].
  - apply sum_last; auto. intros i x Hi Hne. unfold begunW. rewrite (proj2 (Hret i x Hi Hne)). reflexivity.
  - apply sum_last; auto. intros i x Hi Hne. unfold endedW. rewrite (proj2 (Hret i x Hi Hne)). reflexivity.
Qed.

(** Spacing. *)
Definition gap (c : cfg) (tr : list event) (n : Z) (now : Z) : Prop := forall t, In (EEnd n t) tr -> t + c_interval c <= now.

Record dinv (c : cfg) (s : task) (tr : list event) : Prop := DInv {
  d_cons : forall k x, nth_error (t_cons s) k = Some x -> x = KCheck \/ x = KNo -> gap c tr (t_no s) (t_now s);
  d_send : forall j, nth_error (t_timers s) j = Some TSend -> gap c tr (t_no s) (t_now s);
  d_armed : forall j a, nth_error (t_timers s) j = Some (TArmed a) -> gap c tr (t_no s) a;
  d_run : forall j r, nth_error (t_runs s) j = Some r -> r_job r = JNone -> gap c tr (r_no r - 1) (t_now s)
}.

Lemma gap_same c tr es n now now1 : gap c tr n now -> (forall t, ~ In (EEnd n t) es) -> now <= now1 -> gap c (tr ++ es) n now1.
Proof. intros H He Hn t Hin. apply in_app_iff in Hin. destruct Hin as [Hin|Hin]; [specialize (H t Hin); lia|]. destruct (He t Hin). Qed.

Lemma dinv_quiet c s s1 tr es : dinv c s tr -> (forall n t, ~ In (EEnd n t) es) ->
  t_now s <= t_now s1 -> t_no s1 = t_no s ->
  (forall k x, nth_error (t_cons s1) k = Some x -> x = KCheck \/ x = KNo -> gap c tr (t_no s) (t_now s)) ->
  (forall j, nth_error (t_timers s1) j = Some TSend -> gap c tr (t_no s) (t_now s)) ->
  (forall j a, nth_error (t_timers s1) j = Some (TArmed a) -> gap c tr (t_no s) a) ->
  t_runs s1 = t_runs s -> dinv c s1 (tr ++ es).
Proof.
  intros [A1 A2 A3 A4] He Hn E1 H1 H2 H3 E2. constructor; rewrite ?E1, ?E2.
  - intros k x Hk Hx. apply (gap_same c tr es _ (t_now s)); auto. apply (H1 k x Hk Hx).
  - intros j Hj. apply (gap_same c tr es _ (t_now s)); auto. apply (H2 j Hj).
  - intros j a Hj. apply (gap_same c tr es _ a); auto; [apply (H3 j a Hj)|lia].
  - intros j r Hj Hr. apply (gap_same c tr es _ (t_now s)); auto. apply (A4 j r Hj Hr).
Qed.

Lemma no_end es : Forall (fun e => is_end e = false) es -> forall n t, ~ In (EEnd n t) es.
Proof. intros HF n t Hin. rewrite Forall_forall in HF. specialize (HF _ Hin). discriminate. Qed.

Lemma gap_now c s tr n : jinv c s tr -> gap c tr n (t_now s + c_interval c).
Proof. intros HJ t Hin. apply in_times_end in Hin. pose proof (j_now c s tr HJ _ _ _ Hin). lia. Qed.

Lemma dinv_trans c s tr s1 es : c_kind c = Delay -> sinv c s -> jinv c s tr -> dinv c s tr -> trans c s s1 es -> dinv c s1 (tr ++ es).
Proof.
  intros HD HI HJ HG HT. pose proof HG as [A1 A2 A3 A4]. destruct HT.
  1-3: apply (dinv_quiet c s); auto; ss; try lia; apply no_end; repeat constructor.
  - (* start *)
    apply (dinv_quiet c s); auto; ss; try lia; try (apply no_end; repeat constructor). intros k x Hk Hx.
    assert (E : t_status s = new) by (destruct (i_status c s HI) as [?|[?|?]]; congruence).
    pose proof (i_cons c s HI) as HC. rewrite E in HC. destruct (t_cons s); [|discriminate].
    apply nth1 in Hk. destruct Hk as (_ & <-). destruct Hx; discriminate.
  - congruence.
  - apply (dinv_quiet c s); auto; ss; try lia; apply no_end; repeat constructor.
  - (* client send *)
    pose proof (append_locked c s i o HI H) as EL. destruct (i_lockst c s HI EL) as (ES & ED).
    destruct (i_delay c s HI HD) as (C1 & C2 & C3 & C4 & C5).
    apply (dinv_quiet c s); auto; ss; try lia; try (apply no_end; repeat constructor).
    intros k0 x Hk Hx t Hin. exfalso.
    destruct (event_run c s tr GEnd (t_no s) HI HJ) as (j & r & Hj & Hr).
    { intros E. apply in_times_end in Hin. rewrite E in Hin. destruct Hin. }
    rewrite (i_lockruns c s HI EL) in Hj. destruct j; discriminate.
  - exfalso. pose proof (append_locked c s i o HI H) as EL. destruct (i_lockst c s HI EL) as (ES & _). rewrite (i_sig c s HI), ES in H0. discriminate.
  - (* check stopped *)
    destruct (one_cons c s k _ HI H) as (-> & Ec & _).
    apply (dinv_quiet c s); auto; ss; try lia; try (apply no_end; repeat constructor). rewrite Ec. cbn [upd].
    intros k x Hk Hx. apply nth1 in Hk. destruct Hk as (_ & <-). destruct Hx; discriminate.
  - (* check *)
    destruct (one_cons c s k _ HI H) as (-> & Ec & _).
    apply (dinv_quiet c s); auto; ss; try lia; try (apply no_end; repeat constructor). intros k x Hk Hx. apply (A1 0%nat KCheck H). auto.
  - (* no *)
    destruct (one_cons c s k _ HI H) as (-> & Ec & _). destruct (i_delay c s HI HD) as (C1 & C2 & C3 & C4 & C5).
    rewrite HD. rewrite app_nil_r. unfold tokens in C3. rewrite Ec in C3. cbn [sumZ busy] in C3.
    pose proof (app_nonneg (t_clients s)) as P1. pose proof (live_nonneg (t_timers s)) as P2.
    assert (Tdone : forall j x, nth_error (t_timers s) j = Some x -> x = TDone).
    { intros j x Hj. pose proof (sumZ_ge_elem live (t_timers s) j x) as G. assert (live x <= 0).
      { eapply Z.le_trans; [apply G; [|exact Hj]|lia]. apply Forall_forall. intros [] _; cbn; lia. }
      destruct x; cbn in *; lia || reflexivity. }
    constructor; ss; rewrite ?Ec; cbn [upd].
    + intros k x Hk Hx. apply nth1 in Hk. destruct Hk as (_ & <-). destruct Hx; discriminate.
    + intros j Hj. apply Tdone in Hj. discriminate.
    + intros j a Hj. apply Tdone in Hj. discriminate.
    + intros j r Hj Hr. destruct (Nat.lt_ge_cases j (length (t_runs s))) as [Hlt|Hge].
      * rewrite nth_error_app1 in Hj by exact Hlt. apply (A4 j r Hj Hr).
      * rewrite nth_error_app2 in Hj by exact Hge. destruct (j - length (t_runs s))%nat as [|[|]] eqn:Ej; try discriminate.
        injection Hj as <-. cbn [r_no]. replace (t_no s + 1 - 1) with (t_no s) by lia. apply (A1 0%nat KNo H). auto.
  - (* ret *)
    destruct (one_cons c s k _ HI H) as (-> & Ec & _).
    apply (dinv_quiet c s); auto; ss; try lia; try (apply no_end; repeat constructor).
    + rewrite Ec. cbn [upd]. intros k x Hk Hx. apply nth1 in Hk. destruct Hk as (_ & <-). destruct Hx; discriminate.
    + intros j0 Hj. destruct (Nat.lt_ge_cases j0 (length (t_timers s))) as [Hlt|Hge].
      * rewrite nth_error_app1 in Hj by exact Hlt. apply (A2 j0 Hj).
      * rewrite nth_error_app2 in Hj by exact Hge. apply nth1 in Hj. destruct Hj; discriminate.
    + intros j0 a Hj. destruct (Nat.lt_ge_cases j0 (length (t_timers s))) as [Hlt|Hge].
      * rewrite nth_error_app1 in Hj by exact Hlt. apply (A3 j0 a Hj).
      * rewrite nth_error_app2 in Hj by exact Hge. apply nth1 in Hj. destruct Hj; discriminate.
  - (* cons stop *)
    destruct (one_cons c s k _ HI H) as (-> & Ec & _).
    apply (dinv_quiet c s); auto; ss; try lia; try (apply no_end; repeat constructor). rewrite Ec. cbn [upd].
    intros k x Hk Hx. apply nth1 in Hk. destruct Hk as (_ & <-). destruct Hx; discriminate.
  - destruct (one_prov c s p _ HI H) as (_ & _ & _ & ?). congruence.
  - destruct (one_prov c s p _ HI H) as (_ & _ & _ & ?). congruence.
  - destruct (one_prov c s p _ HI H) as (_ & _ & _ & ?). congruence.
  - destruct (i_delay c s HI HD) as (C1 & _). congruence.
  - (* arm *)
    apply (dinv_quiet c s); auto; ss; try lia; try (apply no_end; repeat constructor).
    + intros j0. rewrite (upd_idle j _ _ _ H). destruct (Nat.eq_dec j j0); [discriminate|]. apply A2.
    + intros j0 a. rewrite (upd_idle j _ _ _ H). destruct (Nat.eq_dec j j0); [intros [=]; subst; apply (gap_now c s tr _ HJ)|]. apply A3.
  - (* fire *)
    apply (dinv_quiet c s); auto; ss; try lia; try (apply no_end; repeat constructor).
    + intros j0. rewrite (upd_idle j _ _ _ H). destruct (Nat.eq_dec j j0); [intros _|apply A2].
      intros t Hin. pose proof (A3 j a H t Hin). lia.
    + intros j0 a0. rewrite (upd_idle j _ _ _ H). destruct (Nat.eq_dec j j0); [discriminate|]. apply A3.
  - (* timer send *)
    destruct (one_cons c s k _ HI H0) as (-> & Ec & _).
    apply (dinv_quiet c s); auto; ss; try lia; try (apply no_end; repeat constructor).
    + intros k x Hk Hx. apply (A2 j H).
    + intros j0. rewrite (upd_idle j _ _ _ H). destruct (Nat.eq_dec j j0); [discriminate|]. apply A2.
    + intros j0 a. rewrite (upd_idle j _ _ _ H). destruct (Nat.eq_dec j j0); [discriminate|]. apply A3.
  - (* timer stop *)
    apply (dinv_quiet c s); auto; ss; try lia; try (apply no_end; repeat constructor).
    + intros j0. rewrite (upd_idle j _ _ _ H). destruct (Nat.eq_dec j j0); [discriminate|]. apply A2.
    + intros j0 a. rewrite (upd_idle j _ _ _ H). destruct (Nat.eq_dec j j0); [discriminate|]. apply A3.
  - (* run *)
    destruct (i_runno c s HI j r H) as (N & RO). destruct (rtrans_ok c _ _ _ _ _ H0 RO) as (RO' & N' & NR).
    destruct (active c s j r HI HD H NR) as (Ec & HL & _ & _ & _ & _ & Hret).
    pose proof (rtrans_events c _ _ _ _ _ H0) as HF. destruct (i_delay c s HI HD) as (C1 & C2 & C3 & C4 & C5).
    unfold tokens in C3. rewrite Ec in C3. cbn [sumZ busy] in C3.
    pose proof (app_nonneg (t_clients s)) as P1.
    assert (Tdone : forall j x, nth_error (t_timers s) j = Some x -> x = TDone).
    { intros j0 x Hj. pose proof (sumZ_ge_elem live (t_timers s) j0 x) as G. assert (live x <= 0).
      { eapply Z.le_trans; [apply G; [|exact Hj]|lia]. apply Forall_forall. intros [] _; cbn; lia. }
      destruct x; cbn in *; lia || reflexivity. }
    constructor; ss.
    + rewrite Ec. intros k x Hk Hx. apply nth1 in Hk. destruct Hk as (_ & <-). destruct Hx; discriminate.
    + intros j0 Hj. apply Tdone in Hj. discriminate.
    + intros j0 a Hj. apply Tdone in Hj. discriminate.
    + intros j0 r0 Hj Hr. rewrite (upd_idle j _ _ _ H) in Hj. destruct (Nat.eq_dec j j0) as [<-|Hne].
      * injection Hj as <-. rewrite N'. apply (gap_same c tr es _ (t_now s)); [|intros t Hin|lia].
        { apply (A4 j r H). destruct H0; cbn [r_job with_pc with_job] in Hr; congruence. }
        rewrite Forall_forall in HF. specialize (HF _ Hin). cbn in HF. lia.
      * destruct (Hret j0 r0 Hj ltac:(congruence)). congruence.
Qed.

Lemma delay_inv c t0 n sched : c_kind c = Delay ->
  let s := fst (texec c t0 n sched) in let tr := snd (texec c t0 n sched) in sinv c s /\ jinv c s tr /\ dinv c s tr.
Proof.
  intros HD. apply (task_inv (fun s tr => jinv c s tr /\ dinv c s tr) c t0 n).
  - split; [apply jinv_init|]. unfold init. constructor; ss; intros [|]; discriminate.
  - intros s tr s1 es HI (HJ & HG) HT _. split; [exact (jinv_trans c s tr s1 es HI HJ HT)|exact (dinv_trans c s tr s1 es HD HI HJ HG HT)].
Qed.

Lemma delay_trace (Q : list event -> event -> Prop) c t0 n sched pre e post : c_kind c = Delay ->
  (forall s tr s1 es, sinv c s -> jinv c s tr -> dinv c s tr -> trans c s s1 es -> forall a e b, es = a ++ e :: b -> Q (tr ++ a) e) ->
  snd (texec c t0 n sched) = pre ++ e :: post -> Q pre e.
Proof.
  intros HD HQ. apply (task_trace Q (fun s tr => jinv c s tr /\ dinv c s tr) c t0 n).
  - split; [apply jinv_init|]. unfold init. constructor; ss; intros [|]; discriminate.
  - intros s tr s1 es HI (HJ & HG) HT _. split; [exact (jinv_trans c s tr s1 es HI HJ HT)|exact (dinv_trans c s tr s1 es HD HI HJ HG HT)].
  - intros s tr s1 es HI (HJ & HG) HT. exact (HQ s tr s1 es HI HJ HG HT).
Qed.

(** Only a run's own steps have a run's events. *)
Lemma run_step c s s1 es a e b m : trans c s s1 es -> es = a ++ e :: b -> run_event m e ->
  exists j r r', nth_error (t_runs s) j = Some r /\ rtrans c (t_now s) (t_sig s) r r' es /\ r_no r = m.
Proof.
  intros HT E He. destruct HT; try (destruct a; discriminate E); try (apply cut1 in E; destruct E as (-> & ->); destruct He).
  exists j, r, r'. split; [exact H|]. split; [exact H0|]. pose proof (rtrans_events c _ _ _ _ _ H0) as HF. rewrite E in HF.
  apply Forall_app in HF. destruct HF as (_ & HF). inversion HF as [|? ? H1 _]; subst. destruct e; cbn in *; congruence || contradiction.
Qed.

Lemma rtrans_begin c now sig r r' es a n t b : rtrans c now sig r r' es -> es = a ++ EBegin n t :: b ->
  a = [] /\ n = r_no r /\ t = now /\ r_job r = JNone /\ r_pc r <> RStart.
Proof.
  intros HT E. destruct HT; unfold cancels in *; try (destruct (r_done r)); try (destruct a as [|? [|? [|]]]; cbn [Datatypes.app] in E; discriminate E).
  all: destruct a as [|? [|]]; try discriminate E; injection E as <- <- _; auto.
Qed.
Lemma rtrans_end c now sig r r' es a n t b : rtrans c now sig r r' es -> es = a ++ EEnd n t :: b ->
  a = [] /\ n = r_no r /\ t = now /\ r_job r = JRun.
Proof.
  intros HT E. destruct HT; unfold cancels in *; try (destruct (r_done r)); try (destruct a as [|? [|? [|]]]; cbn [Datatypes.app] in E; discriminate E).
  all: destruct a as [|? [|]]; try discriminate E; injection E as <- <- _; auto.
Qed.

Lemma delay_begin c t0 n sched a m t b : c_kind c = Delay -> snd (texec c t0 n sched) = a ++ EBegin m t :: b ->
  m = count is_begin a + 1 /\ count is_end a = count is_begin a /\ existsb start_ok a = true /\
  (m <> 1 -> exists t', In (EEnd (m - 1) t') a /\ t' + c_interval c <= t).
Proof.
  intros HD. apply (delay_trace (fun a e => match e with EBegin m t => m = count is_begin a + 1 /\ count is_end a = count is_begin a /\ existsb start_ok a = true /\
    (m <> 1 -> exists t', In (EEnd (m - 1) t') a /\ t' + c_interval c <= t) | _ => True end) c t0 n sched a (EBegin m t) b HD).
  clear -HD. intros s tr s1 es HI HJ HG HT a e b E. destruct e as [| | |m t| | |]; try exact I.
  destruct (run_step c s s1 es a _ b m HT E eq_refl) as (j & r & r' & Hj & Hr & Hm).
  destruct (rtrans_begin _ _ _ _ _ _ _ _ _ _ Hr E) as (-> & -> & -> & Hn & Hp). rewrite app_nil_r.
  destruct (i_runno c s HI j r Hj) as (N & RO). destruct (rtrans_ok c _ _ _ _ _ Hr RO) as (_ & _ & NR).
  destruct (active c s j r HI HD Hj NR) as (Ec & HL & El & En & B & D & Hret).
  rewrite (j_begins c s tr HJ), (j_ends c s tr HJ), B, D. unfold begunW, endedW. rewrite Hn.
  split; [lia|]. split; [lia|]. split.
  - rewrite (j_start c s tr HJ), El. rewrite (proj2 (Z.eqb_neq _ _) En). reflexivity.
  - intros H1. destruct j as [|j]; [lia|].
    destruct (nth_error (t_runs s) j) as [x|] eqn:Ex; [|apply nth_error_None in Ex; lia].
    destruct (Hret j x Ex ltac:(lia)) as (_ & Hx). destruct (ended_event c s tr j x HJ Ex Hx) as (t' & Ht').
    destruct (i_runno c s HI j x Ex) as (Nx & _). exists t'. replace (r_no r - 1) with (r_no x) by lia. split; [exact Ht'|].
    apply (d_run c s tr HG (S j) r Hj Hn). replace (r_no r - 1) with (r_no x) by lia. exact Ht'.
Qed.

Lemma delay_end c t0 n sched a m t b : c_kind c = Delay -> snd (texec c t0 n sched) = a ++ EEnd m t :: b ->
  m = count is_begin a /\ count is_end a = m - 1.
Proof.
  intros HD. apply (delay_trace (fun a e => match e with EEnd m t => m = count is_begin a /\ count is_end a = m - 1 | _ => True end) c t0 n sched a (EEnd m t) b HD).
  clear -HD. intros s tr s1 es HI HJ HG HT a e b E. destruct e as [| | | | |m t|]; try exact I.
  destruct (run_step c s s1 es a _ b m HT E eq_refl) as (j & r & r' & Hj & Hr & Hm).
  destruct (rtrans_end _ _ _ _ _ _ _ _ _ _ Hr E) as (-> & -> & -> & Hn). rewrite app_nil_r.
  destruct (i_runno c s HI j r Hj) as (N & RO). destruct (rtrans_ok c _ _ _ _ _ Hr RO) as (_ & _ & NR).
  destruct (active c s j r HI HD Hj NR) as (Ec & HL & El & En & B & D & Hret).
  rewrite (j_begins c s tr HJ), (j_ends c s tr HJ), B, D. unfold begunW, endedW. rewrite Hn. lia.
Qed.

(** ** Cancellation *)

Lemma cancel_cause c t0 n sched a m t b : snd (texec c t0 n sched) = a ++ ECancel m t :: b ->
  (exists t', In (EEnd m t') a) \/ existsb stop_ok a = true \/ exists t', In (ELog m t') a /\ t' + c_timeout c <= t.
Proof.
  apply (task_trace' (fun a e => match e with ECancel m t => (exists t', In (EEnd m t') a) \/ existsb stop_ok a = true \/
    exists t', In (ELog m t') a /\ t' + c_timeout c <= t | _ => True end) c t0 n sched a (ECancel m t) b).
  clear. intros s tr s1 es HI HJ HT a e b E. destruct e as [| | | |m t| |]; try exact I.
  destruct (run_step c s s1 es a _ b m HT E eq_refl) as (j & r & r' & Hj & Hr & Hm).
  assert (Ha : a = []).
  { destruct Hr; unfold cancels in *; try (destruct (r_done r)); destruct a as [|? [|? [|]]]; cbn [Datatypes.app] in E; try discriminate E; reflexivity. }
  subst a. rewrite app_nil_r. cbn [Datatypes.app] in E.
  destruct Hr; unfold cancels in *; try discriminate E.
  - left. subst m. apply (ended_event c s tr j r HJ Hj H0).
  - right. left. rewrite (j_stop c s tr HJ), <- (i_sig c s HI). exact H0.
  - right. right. injection E as E1 E2 E3. destruct (j_runs c s tr HJ j r Hj) as (L & _).
    exists (r_deadline r - c_timeout c). split; [|lia]. apply in_times_log. rewrite <- E1, L. destruct H as [-> | ->]; left; reflexivity.
Qed.

Lemma next_after_end c t0 n sched a m t b : snd (texec c t0 n sched) = a ++ ENext m t :: b -> exists t', In (EEnd m t') a.
Proof.
  apply (task_trace' (fun a e => match e with ENext m t => exists t', In (EEnd m t') a | _ => True end) c t0 n sched a (ENext m t) b).
  clear. intros s tr s1 es HI HJ HT a e b E. destruct e as [| | | | | |m t]; try exact I.
  destruct (run_step c s s1 es a _ b m HT E eq_refl) as (j & r & r' & Hj & Hr & Hm).
  assert (Hd : r_job r = JDone).
  { destruct Hr; unfold cancels in *; try (destruct (r_done r)); try (destruct a as [|? [|? [|]]]; cbn [Datatypes.app] in E; discriminate E); assumption. }
  destruct (ended_event c s tr j r HJ Hj Hd) as (t' & Ht). subst m. exists t'. apply in_app_iff. left. exact Ht.
Qed.

(** ** After Stop *)

Definition kno (x : kpc) : Z := match x with KNo => 1 | _ => 0 end.
(** Runs begun or bound to begin. *)
Definition committed (s : task) : Z := t_no s + sumZ kno (t_cons s).

Lemma kno_nonneg l : 0 <= sumZ kno l. Proof. apply sumZ_nonneg, Forall_forall. intros [] _; cbn; lia. Qed.

Definition stop_inv (G : list event -> Z -> Z -> Prop) (s : task) (tr : list event) : Prop :=
  t_status s = stopped -> exists a i o t b, tr = a ++ ERet i o Ok t :: b /\ starts o = false /\ G a t (committed s).

Lemma stop_inv_keep (G : list event -> Z -> Z -> Prop) s s1 tr es :
  (forall a t x y, G a t x -> y <= x -> G a t y) ->
  stop_inv G s tr -> t_status s1 = t_status s -> committed s1 <= committed s -> stop_inv G s1 (tr ++ es).
Proof.
  intros HG HS E Hc Hs. rewrite E in Hs. destruct (HS Hs) as (a & i & o & t & b & -> & Ho & H).
  exists a, i, o, t, (b ++ es). rewrite <- app_assoc. split; [reflexivity|]. split; [exact Ho|]. apply (HG a t (committed s)); assumption.
Qed.

Lemma stop_inv_trans (G : list event -> Z -> Z -> Prop) c s tr s1 es :
  (forall a t x y, G a t x -> y <= x -> G a t y) -> sinv c s -> G tr (t_now s) (committed s) ->
  stop_inv G s tr -> trans c s s1 es -> stop_inv G s1 (tr ++ es).
Proof.
  intros HG HI H0 HS HT. unfold committed in *.
  destruct HT; try (apply (stop_inv_keep G s); auto; unfold committed; ss; lia).
  - intros E. discriminate.
  - intros E. discriminate.
  - intros _. exists tr, i, o, (t_now s), []. split; [reflexivity|]. split; [assumption|]. exact H0.
  - apply (stop_inv_keep G s); auto; unfold committed; ss. rewrite (sumZ_upd kno _ _ _ _ H1). cbn. lia.
  - apply (stop_inv_keep G s); auto; unfold committed; ss. rewrite (sumZ_upd kno _ _ _ _ H). cbn. lia.
  - intros E. contradiction.
  - apply (stop_inv_keep G s); auto; unfold committed; ss. rewrite (sumZ_upd kno _ _ _ _ H). destruct (c_kind c); cbn; lia.
  - apply (stop_inv_keep G s); auto; unfold committed; ss. rewrite (sumZ_upd kno _ _ _ _ H). cbn. lia.
  - apply (stop_inv_keep G s); auto; unfold committed; ss. rewrite (sumZ_upd kno _ _ _ _ H). cbn. lia.
  - apply (stop_inv_keep G s); auto; unfold committed; ss. rewrite (sumZ_upd kno _ _ _ _ H1). cbn. lia.
  - apply (stop_inv_keep G s); auto; unfold committed; ss. rewrite (sumZ_upd kno _ _ _ _ H1). cbn. lia.
Qed.

Lemma begun_le c s : sinv c s -> sumZ begunW (t_runs s) <= t_no s.
Proof.
  intros HI. rewrite (i_no c s HI). clear HI. induction (t_runs s) as [|r l IH]; cbn [sumZ length]; [lia|].
  rewrite Nat2Z.inj_succ. unfold begunW at 1. destruct (r_job r); lia.
Qed.

Lemma count_once {A} (f : A -> bool) a e b a' e' b' : a ++ e :: b = a' ++ e' :: b' -> f e = true -> f e' = true ->
  count f (a ++ e :: b) <= 1 -> a = a' /\ e = e' /\ b = b'.
Proof.
  revert a'. induction a as [|x a IH]; intros [|y a'] E He He' Hc; cbn [Datatypes.app] in *.
  - injection E as -> ->. auto.
  - injection E as -> ->. cbn [count] in Hc. rewrite He, count_app in Hc. cbn [count] in Hc. rewrite He' in Hc.
    pose proof (count_nonneg f a'). pose proof (count_nonneg f b'). lia.
  - injection E as -> <-. cbn [count] in Hc. rewrite He', count_app in Hc. cbn [count] in Hc. rewrite He in Hc.
    pose proof (count_nonneg f a). pose proof (count_nonneg f b). lia.
  - injection E as -> E. cbn [count] in Hc. destruct (IH a' E He He') as (-> & H); [|auto].
    destruct (f y); lia.
Qed.

Lemma stopped_unique c t0 n sched a i o t b a' i' o' t' b' :
  snd (texec c t0 n sched) = a ++ ERet i o Ok t :: b -> starts o = false ->
  snd (texec c t0 n sched) = a' ++ ERet i' o' Ok t' :: b' -> starts o' = false -> a = a' /\ t = t' /\ b = b'.
Proof.
  intros E Ho E' Ho'. destruct (count_once stop_ok a (ERet i o Ok t) b a' (ERet i' o' Ok t') b') as (H1 & H2 & H3).
  - congruence.
  - cbn. rewrite Ho. reflexivity.
  - cbn. rewrite Ho'. reflexivity.
  - rewrite <- E. apply start_once.
  - injection H2 as _ _ H2. auto.
Qed.

Lemma existsb_mid {A} (f : A -> bool) a e b : f e = true -> existsb f (a ++ e :: b) = true.
Proof. intros H. rewrite existsb_app. cbn. rewrite H. apply orb_true_r. Qed.

Lemma delay_committed c s tr : sinv c s -> jinv c s tr -> c_kind c = Delay -> committed s <= count is_begin tr + 1.
Proof.
  intros HI HJ HD. rewrite (j_begins c s tr HJ). unfold committed. pose proof (i_no c s HI) as HN.
  assert (K1 : sumZ kno (t_cons s) <= 1).
  { pose proof (i_cons c s HI) as HC. destruct (t_cons s) as [|x [|]]; [cbn; lia| |destruct (t_status s =? new); discriminate].
    cbn. destruct x; cbn; lia. }
  assert (K2 : (exists j r, nth_error (t_runs s) j = Some r /\ r_pc r <> RRet) \/ Forall (fun r => r_pc r = RRet) (t_runs s)).
  { clear. induction (t_runs s) as [|r l IH]; [right; constructor|]. destruct (r_pc r) eqn:E.
    1-3: left; exists O, r; split; [reflexivity|congruence].
    destruct IH as [(j & x & H)|H]; [left; exists (S j), x; exact H|right; constructor; assumption]. }
  destruct K2 as [(j & r & Hj & Hr)|HF].
  - destruct (active c s j r HI HD Hj Hr) as (Ec & HL & _ & _ & B & _). rewrite Ec, B. cbn [sumZ kno]. unfold begunW. destruct (r_job r); lia.
  - assert (B : sumZ begunW (t_runs s) = Z.of_nat (length (t_runs s))); [|lia].
    assert (HF' : Forall (fun r => begunW r = 1) (t_runs s)).
    { apply Forall_forall. intros r Hin. apply In_nth_error in Hin. destruct Hin as (j & Hj). destruct (i_runno c s HI j r Hj) as (_ & RO).
      unfold run_ok in RO. rewrite (Forall_nth _ _ _ _ HF Hj) in RO. unfold begunW. rewrite (proj1 RO). reflexivity. }
    clear -HF'. induction HF' as [|r l H _ IH]; cbn [sumZ length]; [lia|]. rewrite H, IH. lia.
Qed.

Lemma delay_after_stop c t0 n sched a i o t b : c_kind c = Delay -> snd (texec c t0 n sched) = a ++ ERet i o Ok t :: b -> starts o = false ->
  count is_begin b <= 1.
Proof.
  intros HD E Ho.
  destruct (task_inv (fun s tr => jinv c s tr /\ stop_inv (fun a _ x => x <= count is_begin a + 1) s tr) c t0 n) with (sched := sched) as (HI & HJ & HS).
  - split; [apply jinv_init|intros F; discriminate].
  - intros s tr s1 es HI (HJ & HS) HT _. split; [exact (jinv_trans c s tr s1 es HI HJ HT)|].
    apply (stop_inv_trans _ c s tr s1 es); auto; [intros; lia|apply (delay_committed c s tr HI HJ HD)].
  - destruct HS as (a' & i' & o' & t' & b' & E' & Ho' & HG).
    { pose proof (j_stop _ _ _ HJ) as H. rewrite E, existsb_mid in H by (cbn; rewrite Ho; reflexivity). symmetry in H. apply Z.eqb_eq. exact H. }
    destruct (stopped_unique c t0 n sched _ _ _ _ _ _ _ _ _ _ E Ho E' Ho') as (<- & <- & <-).
    pose proof (j_begins _ _ _ HJ) as HB. pose proof (begun_le _ _ HI) as HL. rewrite E, count_app in HB. cbn [count is_begin] in HB.
    unfold committed in HG. pose proof (kno_nonneg (t_cons (fst (texec c t0 n sched)))). lia.
Qed.

(** ** Fixed rate: runs against ticks *)

Definition psend (x : ppc) : Z := match x with PSend => 1 | _ => 0 end.
(** Triggers given out so far. *)
Definition triggers (s : task) : Z := t_no s + sumZ busy (t_cons s) + sumZ psend (t_prov s).

Definition rate_inv (c : cfg) (s : task) (tr : list event) : Prop :=
  (t_status s <> new -> exists i o ts, In (ERet i o Ok ts) tr /\ starts o = true /\
    ts + (triggers s - 1) * c_interval c <= t_now s /\
    (forall next, t_tick s = Some next -> ts + (triggers s + (if t_tickbuf s then 1 else 0)) * c_interval c <= next) /\
    (t_tickbuf s = true -> ts + triggers s * c_interval c <= t_now s)).

Lemma psend_nonneg l : 0 <= sumZ psend l. Proof. apply sumZ_nonneg, Forall_forall. intros [] _; cbn; lia. Qed.

Lemma rate_keep c s s1 tr es : 0 < c_interval c -> rate_inv c s tr -> t_status s1 = t_status s -> triggers s1 <= triggers s -> t_now s <= t_now s1 ->
  (t_tick s1 = t_tick s \/ t_tick s1 = None) -> t_tickbuf s1 = t_tickbuf s -> rate_inv c s1 (tr ++ es).
Proof.
  intros HP HR E1 E2 E3 E4 E5 Hs. rewrite E1 in Hs. destruct (HR Hs) as (i & o & ts & Hin & Ho & H1 & H2 & H3).
  exists i, o, ts. split; [apply in_app_iff; left; exact Hin|]. split; [exact Ho|]. rewrite E5. split; [nia|]. split.
  - intros next Hn. destruct E4 as [E4|E4]; [|congruence]. rewrite E4 in Hn. specialize (H2 next Hn). nia.
  - intros Hb. specialize (H3 Hb). nia.
Qed.

Lemma rate_trans c s tr s1 es : c_kind c = Rate -> 0 < c_interval c -> sinv c s -> rate_inv c s tr -> trans c s s1 es -> rate_inv c s1 (tr ++ es).
Proof.
  intros HK HP HI HR HT. destruct HT; try (apply (rate_keep c s); auto; unfold triggers; ss; lia).
  - congruence.
  - (* start *)
    assert (E : t_status s = new) by (destruct (i_status c s HI) as [?|[?|?]]; congruence).
    pose proof (i_cons c s HI) as HC. pose proof (i_prov c s HI) as HV. pose proof (i_no c s HI) as HN. rewrite HK, E in *. change (new =? new) with true in *.
    destruct (i_new c s HI E) as (_ & Er & _). rewrite Er in HN. cbn in HN.
    destruct (t_cons s) eqn:Ec; [|discriminate]. destruct (t_prov s) eqn:Ep; [|discriminate].
    intros _. exists i, o, (t_now s). ss. unfold triggers; ss. rewrite ?Ec, ?Ep, HN. cbn [sumZ busy psend Datatypes.app].
    split; [apply in_app_iff; right; left; reflexivity|]. split; [assumption|]. split; [lia|]. split; [intros next [=]; lia|discriminate].
  - (* stop *)
    assert (E : t_status s = started) by (destruct (i_status c s HI) as [?|[?|?]]; congruence).
    assert (Hs : t_status s <> new) by (rewrite E; discriminate).
    intros _. destruct (HR Hs) as (i' & o' & ts & Hin & Ho & A1 & A2 & A3). exists i', o', ts.
    split; [apply in_app_iff; left; exact Hin|]. split; [exact Ho|]. unfold triggers in *. ss. rewrite HK. split; [exact A1|]. split; [discriminate|exact A3].
  - (* client send *)
    pose proof (append_locked c s i o HI H) as EL. destruct (i_lockst c s HI EL). congruence.
  - apply (rate_keep c s); auto; unfold triggers; ss; try lia. rewrite (sumZ_upd busy _ _ _ _ H). cbn. lia.
  - apply (rate_keep c s); auto; unfold triggers; ss; try lia. rewrite (sumZ_upd busy _ _ _ _ H). cbn. lia.
  - apply (rate_keep c s); auto; unfold triggers; ss; try lia. rewrite HK, (sumZ_upd busy _ _ _ _ H). cbn. lia.
  - apply (rate_keep c s); auto; unfold triggers; ss; try lia. rewrite (sumZ_upd busy _ _ _ _ H). cbn. lia.
  - apply (rate_keep c s); auto; unfold triggers; ss; try lia. rewrite (sumZ_upd busy _ _ _ _ H). cbn. lia.
  - apply (rate_keep c s); auto; unfold triggers; ss; try lia. rewrite (sumZ_upd busy _ _ _ _ H0), (sumZ_upd psend _ _ _ _ H). cbn. lia.
  - (* provider takes a tick *)
    destruct (one_prov c s p _ HI H) as (-> & Ep & En & _). intros _. destruct (HR En) as (i' & o' & ts & Hin & Ho & A1 & A2 & A3). exists i', o', ts.
    split; [apply in_app_iff; left; exact Hin|]. split; [exact Ho|]. unfold triggers in *. ss. rewrite Ep, H0 in *. cbn [upd sumZ psend] in *.
    specialize (A3 eq_refl). split; [lia|]. split; [|discriminate]. intros next Hn. specialize (A2 next Hn). lia.
  - apply (rate_keep c s); auto; unfold triggers; ss; try lia. rewrite (sumZ_upd psend _ _ _ _ H). cbn. destruct x; cbn; lia.
  - (* ticker *)
    intros Hs. ss. destruct (HR Hs) as (i' & o' & ts & Hin & Ho & A1 & A2 & A3). exists i', o', ts.
    split; [apply in_app_iff; left; exact Hin|]. split; [exact Ho|]. unfold triggers in *. ss. specialize (A2 next H).
    assert (0 <= (t_now s - next) / c_interval c) by (apply Z.div_pos; lia).
    split; [exact A1|]. split.
    + intros next' E'. assert (E2 : next' = next + c_interval c * (1 + (t_now s - next) / c_interval c)) by congruence.
      clear E'. subst next'. cbv iota. set (q := (t_now s - next) / c_interval c) in *.
      assert (0 <= c_interval c * q) by nia. destruct (t_tickbuf s); lia.
    + intros _. destruct (t_tickbuf s); lia.
  - apply (rate_keep c s); auto; unfold triggers; ss; try lia. rewrite (sumZ_upd busy _ _ _ _ H0). 
    destruct (i_rate c s HI HK) as (Et & _). rewrite Et in H. destruct j; discriminate.
Qed.

Lemma begun_count n tr : count_occ Z.eq_dec (begun tr) n = length (times GBegin n tr).
Proof.
  unfold begun, times. induction tr as [|e tr IH]; [reflexivity|]. cbn [flat_map]. rewrite count_occ_app, app_length, IH.
  f_equal. destruct e; try reflexivity. cbn. destruct (Z.eq_dec n0 n) as [->|Hne]; [rewrite Z.eqb_refl|rewrite (proj2 (Z.eqb_neq _ _) Hne)]; reflexivity.
Qed.

Lemma begun_nodup c s tr : sinv c s -> jinv c s tr -> NoDup (begun tr).
Proof.
  intros HI HJ. apply (NoDup_count_occ Z.eq_dec). intros n. rewrite begun_count.
  destruct (times GBegin n tr) as [|t l] eqn:E; [cbn; lia|]. rewrite <- E.
  destruct (event_run c s tr GBegin n HI HJ ltac:(congruence)) as (j & r & Hj & <-).
  destruct (j_runs c s tr HJ j r Hj) as (_ & B & _). unfold begunW in B. destruct (r_job r); lia.
Qed.

Lemma in_begun n tr : In n (begun tr) <-> times GBegin n tr <> [].
Proof.
  rewrite (count_occ_In Z.eq_dec), begun_count. destruct (times GBegin n tr); cbn; split; intros; congruence || lia.
Qed.

Lemma runs_numbered c t0 n sched : NoDup (begun (snd (texec c t0 n sched))).
Proof. destruct (task_jinv c t0 n sched) as (HI & HJ). apply (begun_nodup c _ _ HI HJ). Qed.

Lemma all_numbers c t0 n sched : finished (fst (texec c t0 n sched)) ->
  exists N, forall m, In m (begun (snd (texec c t0 n sched))) <-> 1 <= m <= Z.of_nat N.
Proof.
  intros (_ & _ & _ & _ & HF). destruct (task_jinv c t0 n sched) as (HI & HJ). set (s := fst (texec c t0 n sched)) in *.
  exists (length (t_runs s)). intros m. rewrite in_begun. rewrite <- (i_no c s HI). split; [apply (j_other c s _ HJ)|].
  intros Hm. rewrite (i_no c s HI) in Hm. destruct (nth_error (t_runs s) (Z.to_nat (m - 1))) as [r|] eqn:E; [|apply nth_error_None in E; lia].
  destruct (i_runno c s HI _ _ E) as (N & _). destruct (j_runs c s _ HJ _ _ E) as (_ & B & _).
  pose proof (Forall_nth _ _ _ _ HF E) as (_ & Hd). unfold begunW in B. rewrite Hd in B. replace (r_no r) with m in B by lia.
  intros F. rewrite F in B. discriminate.
Qed.

Lemma rate_all c t0 n sched : c_kind c = Rate -> 0 < c_interval c ->
  let s := fst (texec c t0 n sched) in let tr := snd (texec c t0 n sched) in sinv c s /\ jinv c s tr /\ rate_inv c s tr.
Proof.
  intros HK HP. apply (task_inv (fun s tr => jinv c s tr /\ rate_inv c s tr) c t0 n).
  - split; [apply jinv_init|]. intros F. destruct (F eq_refl).
  - intros s tr s1 es HI (HJ & HG) HT _. split; [exact (jinv_trans c s tr s1 es HI HJ HT)|exact (rate_trans c s tr s1 es HK HP HI HG HT)].
Qed.

Lemma rate_begin c t0 n sched a m t b : c_kind c = Rate -> 0 < c_interval c -> snd (texec c t0 n sched) = a ++ EBegin m t :: b ->
  exists i o ts, In (ERet i o Ok ts) a /\ starts o = true /\ 1 <= m /\ ts + (m - 1) * c_interval c <= t /\ ts + count is_begin a * c_interval c <= t.
Proof.
  intros HK HP.
  apply (task_trace (fun a e => match e with EBegin m t => exists i o ts, In (ERet i o Ok ts) a /\ starts o = true /\ 1 <= m /\
    ts + (m - 1) * c_interval c <= t /\ ts + count is_begin a * c_interval c <= t | _ => True end) (fun s tr => jinv c s tr /\ rate_inv c s tr) c t0 n) with (post := b) (e := EBegin m t).
  - split; [apply jinv_init|]. intros F. destruct (F eq_refl).
  - intros s tr s1 es HI (HJ & HG) HT _. split; [exact (jinv_trans c s tr s1 es HI HJ HT)|exact (rate_trans c s tr s1 es HK HP HI HG HT)].
  - clear -HK HP. intros s tr s1 es HI (HJ & HG) HT a e b E. destruct e as [| | |m t| | |]; try exact I.
    pose proof (begun_le c s1 (sinv_trans c s s1 es HI HT)) as HL. pose proof (j_begins c s1 _ (jinv_trans c s tr s1 es HI HJ HT)) as HB.
    pose proof HT as HT'.
    destruct (run_step c s s1 es a _ b m HT E eq_refl) as (j & r & r' & Hj & Hr & Hm).
    destruct (rtrans_begin _ _ _ _ _ _ _ _ _ _ Hr E) as (-> & -> & -> & Hn & Hp). rewrite app_nil_r. cbn [Datatypes.app] in E. subst es.
    destruct (i_runno c s HI j r Hj) as (N & RO). assert (Hlt : (j < length (t_runs s))%nat) by (apply nth_error_Some; congruence).
    assert (En : t_status s <> new). { intros F. destruct (i_new c s HI F) as (_ & F' & _). rewrite F' in Hlt. cbn in Hlt. lia. }
    destruct (HG En) as (i' & o' & ts & Hin & Ho & A1 & _). exists i', o', ts. split; [exact Hin|]. split; [exact Ho|]. split; [lia|].
    pose proof (i_no c s HI) as HN. unfold triggers in A1. pose proof (busy_nonneg (t_cons s)). pose proof (psend_nonneg (t_prov s)).
    split; [nia|]. rewrite count_app in HB. cbn [count is_begin] in HB. pose proof (count_nonneg is_begin b).
    assert (E1 : t_no s1 = t_no s). { clear -HT'. inversion HT'; subst; ss; reflexivity. }
    assert (count is_begin tr <= t_no s - 1) by lia. nia.
Qed.

Lemma rate_after_stop c t0 n sched a i o t b : c_kind c = Rate -> 0 < c_interval c ->
  snd (texec c t0 n sched) = a ++ ERet i o Ok t :: b -> starts o = false ->
  exists i' o' ts, In (ERet i' o' Ok ts) a /\ starts o' = true /\ ts + (count is_begin (a ++ b) - 1) * c_interval c <= t.
Proof.
  intros HK HP E Ho.
  set (G := fun (a : list event) (t x : Z) => exists i' o' ts, In (ERet i' o' Ok ts) a /\ starts o' = true /\ ts + (x - 1) * c_interval c <= t).
  destruct (task_inv (fun s tr => jinv c s tr /\ rate_inv c s tr /\ (t_status s = new \/ stop_inv G s tr)) c t0 n) with (sched := sched) as (HI & HJ & HR & HS).
  - split; [apply jinv_init|]. split; [intros F; destruct (F eq_refl)|left; reflexivity].
  - intros s tr s1 es HI (HJ & HR & HS) HT _. split; [exact (jinv_trans c s tr s1 es HI HJ HT)|]. split; [exact (rate_trans c s tr s1 es HK HP HI HR HT)|].
    destruct (Z.eq_dec (t_status s) new) as [En|En].
    + clear HS. destruct HT; ss; try (left; exact En); right; intros F; solve [discriminate|contradiction].
    + right. destruct HS as [HS|HS]; [contradiction|]. apply (stop_inv_trans G c s tr s1 es); auto.
      * intros x y z w (i1 & o1 & ts & H1 & H2 & H3) Hle. exists i1, o1, ts. split; [exact H1|]. split; [exact H2|]. nia.
      * destruct (HR En) as (i1 & o1 & ts & H1 & H2 & H3 & _). exists i1, o1, ts. split; [exact H1|]. split; [exact H2|].
        unfold triggers, committed in *. pose proof (psend_nonneg (t_prov s)).
        assert (sumZ kno (t_cons s) <= sumZ busy (t_cons s)) by (apply sumZ_le, Forall_forall; intros [] _; cbn; lia). nia.
  - assert (Es : t_status (fst (texec c t0 n sched)) = stopped).
    { pose proof (j_stop _ _ _ HJ) as H. rewrite E, existsb_mid in H by (cbn; rewrite Ho; reflexivity). symmetry in H. apply Z.eqb_eq. exact H. }
    destruct HS as [HS|HS]; [rewrite Es in HS; discriminate|]. destruct (HS Es) as (a' & i' & o' & t' & b' & E' & Ho' & i1 & o1 & ts & H1 & H2 & H3).
    destruct (stopped_unique c t0 n sched _ _ _ _ _ _ _ _ _ _ E Ho E' Ho') as (<- & <- & <-).
    exists i1, o1, ts. split; [exact H1|]. split; [exact H2|].
    pose proof (j_begins _ _ _ HJ) as HB. pose proof (begun_le _ _ HI) as HL. rewrite E, count_app in HB. cbn [count is_begin] in HB. rewrite count_app.
    unfold committed in H3. pose proof (kno_nonneg (t_cons (fst (texec c t0 n sched)))). nia.
Qed.
