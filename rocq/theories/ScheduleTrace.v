(** What the trace of a task says about its state. *)
From Verif Require Import Common Threads ScheduleModel ScheduleSpec ScheduleProofs.
Local Open Scope list_scope.
Local Open Scope Z_scope.

Inductive tag := GLog | GBegin | GCancel | GEnd | GNext.

(** The times of the events of one sort for run [n]. *)
Definition ev_times (g : tag) (n : Z) (e : event) : list Z :=
  match g, e with
  | GLog, ELog m t | GBegin, EBegin m t | GCancel, ECancel m t | GEnd, EEnd m t | GNext, ENext m t => if m =? n then [t] else []
  | _, _ => []
  end.
Definition times (g : tag) (n : Z) (tr : list event) : list Z := flat_map (ev_times g n) tr.

Lemma times_app g n a b : times g n (a ++ b) = times g n a ++ times g n b.
Proof. unfold times. apply flat_map_app. Qed.

Definition begunW (r : run) : Z := match r_job r with JNone => 0 | _ => 1 end.
Definition endedW (r : run) : Z := match r_job r with JDone => 1 | _ => 0 end.

Definition run_times (c : cfg) (r : run) (tr : list event) : Prop :=
  times GLog (r_no r) tr = match r_pc r with RStart => [] | _ => [r_deadline r - c_timeout c] end /\
  Z.of_nat (length (times GBegin (r_no r) tr)) = begunW r /\
  Z.of_nat (length (times GEnd (r_no r) tr)) = endedW r /\
  length (times GCancel (r_no r) tr) = (if r_done r then 1 else 0)%nat /\
  length (times GNext (r_no r) tr) = (match r_pc r with RRet => 1 | _ => 0 end)%nat.

Definition call_of (x : option cpc) : option op :=
  match x with Some (CWant o) | Some (CAppend o) => Some o | _ => None end.

Record jinv (c : cfg) (s : task) (tr : list event) : Prop := JInv {
  j_stop : existsb stop_ok tr = (t_status s =? stopped);
  j_start : existsb start_ok tr = negb (t_status s =? new) && negb (t_locked s);
  j_pending : forall i, pending i tr = call_of (nth_error (t_clients s) i);
  j_append : forall i o, nth_error (t_clients s) i = Some (CAppend o) -> starts o = true;
  j_runs : forall j r, nth_error (t_runs s) j = Some r -> run_times c r tr;
  j_other : forall g n, times g n tr <> [] -> 1 <= n <= t_no s;
  j_now : forall g n t, In t (times g n tr) -> t <= t_now s;
  j_begins : count is_begin tr = sumZ begunW (t_runs s);
  j_ends : count is_end tr = sumZ endedW (t_runs s)
}.

Lemma pending_app i a b : pending i (a ++ b) = fold_left (fun acc e =>
    match e with
    | ECall j o => if Nat.eqb i j then Some o else acc
    | ERet j _ _ _ => if Nat.eqb i j then None else acc
    | _ => acc
    end) b (pending i a).
Proof. unfold pending. apply fold_left_app. Qed.

Lemma jinv_init c t0 n : jinv c (init t0 n) [].
Proof.
  unfold init. constructor; ss; auto.
  - intros i. destruct (nth_error (repeat CIdle n) i) eqn:E; [|reflexivity]. apply nth_error_In, repeat_spec in E. subst. reflexivity.
  - intros i o E. apply nth_error_In, repeat_spec in E. discriminate.
  - intros [|]; discriminate.
  - intros g k H. destruct g; contradiction.
  - intros g k t H. destruct g; contradiction.
Qed.

(** The events of a run. *)
Definition run_event (n : Z) (e : event) : Prop :=
  match e with ELog m _ | EBegin m _ | ECancel m _ | EEnd m _ | ENext m _ => m = n | _ => False end.

Lemma rtrans_events c now sig r r' es : rtrans c now sig r r' es -> Forall (run_event (r_no r)) es.
Proof. intros []; unfold cancels; try destruct (r_done r); repeat constructor. Qed.

Lemma times_run g n es : Forall (run_event n) es -> forall m, m <> n -> times g m es = [].
Proof.
  intros HF m Hne. induction HF as [|e es He _ IH]; [reflexivity|]. unfold times in *. cbn [flat_map]. rewrite IH, app_nil_r.
  destruct e; cbn in He; try contradiction; subst; destruct g; cbn; try reflexivity; destruct (Z.eqb_spec n m); congruence.
Qed.

Lemma run_pending n es : Forall (run_event n) es -> forall i a, pending i (a ++ es) = pending i a.
Proof.
  intros HF i a. rewrite pending_app. revert HF. generalize (pending i a). induction es as [|e es IH]; intros x HF; [reflexivity|].
  inversion HF; subst. cbn [fold_left]. rewrite IH by assumption. destruct e; cbn in *; contradiction || reflexivity.
Qed.

Lemma run_status n es : Forall (run_event n) es -> existsb stop_ok es = false /\ existsb start_ok es = false.
Proof.
  induction 1 as [|e es He _ (A & B)]; [auto|]. cbn [existsb]. rewrite A, B. destruct e; cbn in *; contradiction || auto.
Qed.

Lemma rtrans_times c now sig r r' es tr : rtrans c now sig r r' es -> run_ok r -> run_times c r tr -> run_times c r' (tr ++ es).
Proof.
  intros HT HO (A & B & D & E & F). pose proof (Z.eqb_refl (r_no r)) as HZ. unfold run_times, run_ok, begunW, endedW in *.
  destruct HT; cbn [r_no r_pc r_job r_deadline r_done with_pc with_job]; rewrite !times_app, !app_length;
    unfold cancels, times; repeat match goal with H : _ \/ _ |- _ => destruct H end;
    repeat match goal with H : r_pc r = _ |- _ => rewrite H in * | H : r_job r = _ |- _ => rewrite H in * | H : r_done r = _ |- _ => rewrite H in * end;
    try (destruct (r_done r) eqn:Ed); cbn [flat_map ev_times app length Datatypes.app]; rewrite ?HZ; cbn [app length Datatypes.app]; fold (times GLog (r_no r) tr);
    fold (times GBegin (r_no r) tr); fold (times GEnd (r_no r) tr); fold (times GCancel (r_no r) tr); fold (times GNext (r_no r) tr);
    rewrite ?A, ?app_nil_r; repeat split; try reflexivity; try lia;
    try (cbn; f_equal; lia); try (destruct (r_pc r); [congruence|reflexivity..]); try (destruct (r_pc r); congruence).
Qed.

Lemma rtrans_counts c now sig r r' es : rtrans c now sig r r' es ->
  count is_begin es = begunW r' - begunW r /\ count is_end es = endedW r' - endedW r.
Proof.
  intros []; unfold cancels, begunW, endedW; try destruct (r_done r); cbn [r_job with_pc with_job count is_begin is_end app Datatypes.app];
    rewrite ?H0, ?H; split; destruct (r_job r); try reflexivity; try lia; congruence.
Qed.

Lemma rtrans_now c now sig r r' es : rtrans c now sig r r' es -> forall g n t, In t (times g n es) -> t = now.
Proof.
  intros [] g n t; unfold cancels; try destruct (r_done r); destruct g; cbn; destruct (r_no r =? n); cbn; intuition congruence.
Qed.

(** Steps that are no steps of a run. *)
Lemma jinv_quiet c s s1 tr es :
  jinv c s tr -> (forall g n, times g n es = []) -> count is_begin es = 0 -> count is_end es = 0 ->
  existsb stop_ok (tr ++ es) = (t_status s1 =? stopped) ->
  existsb start_ok (tr ++ es) = negb (t_status s1 =? new) && negb (t_locked s1) ->
  (forall i, pending i (tr ++ es) = call_of (nth_error (t_clients s1) i)) ->
  (forall i o, nth_error (t_clients s1) i = Some (CAppend o) -> starts o = true) ->
  t_now s <= t_now s1 ->
  t_no s1 = t_no s -> t_runs s1 = t_runs s -> jinv c s1 (tr ++ es).
Proof.
  intros [A1 A2 A3 A4 A5 A6 A7 A8 A9] H1 H2 H3 H4 H5 H6 H7 H8 H9 H10.
  constructor; auto.
  - rewrite H10. intros j r Hj. specialize (A5 j r Hj). unfold run_times in *. rewrite !times_app, !H1, !app_nil_r. exact A5.
  - rewrite H9. intros g n. rewrite times_app, H1, app_nil_r. apply A6.
  - intros g n t. rewrite times_app, H1, app_nil_r. intros Hin. specialize (A7 g n t Hin). lia.
  - rewrite count_app, H10. lia.
  - rewrite count_app, H10. lia.
Qed.

Lemma jinv_silent c s s1 tr : jinv c s tr -> t_status s1 = t_status s -> t_locked s1 = t_locked s -> t_clients s1 = t_clients s ->
  t_now s <= t_now s1 -> t_no s1 = t_no s -> t_runs s1 = t_runs s -> jinv c s1 (tr ++ []).
Proof.
  intros HJ E1 E2 E3 E4 E5 E6. pose proof HJ as [A1 A2 A3 A4 A5 A6 A7 A8 A9].
  apply (jinv_quiet c s s1 tr [] HJ); auto; rewrite ?app_nil_r, ?E1, ?E2, ?E3; auto.
Qed.

Lemma append_locked c s i o : sinv c s -> nth_error (t_clients s) i = Some (CAppend o) -> t_locked s = true.
Proof.
  intros HI H. pose proof (i_lock c s HI) as A3. pose proof (sumZ_ge_elem app (t_clients s) i (CAppend o)) as G. cbn in G. rewrite A3 in G.
  destruct (t_locked s); [reflexivity|]. assert (1 <= 0); [apply G; [|exact H]|lia]. apply Forall_forall. intros [] _; cbn; lia.
Qed.

Lemma ret_pending c s tr s1 i o' r t x es : jinv c s tr -> nth_error (t_clients s) i = Some x ->
  (forall k, nth_error (t_clients s1) k = if Nat.eq_dec i k then Some CIdle else nth_error (t_clients s) k) ->
  es = [ERet i o' r t] -> (forall k, pending k (tr ++ es) = call_of (nth_error (t_clients s1) k)) /\
  (forall k q, nth_error (t_clients s1) k = Some (CAppend q) -> starts q = true).
Proof.
  intros HJ Hi Hc ->. split.
  - intros k. rewrite pending_app, (j_pending c s tr HJ k), Hc. cbn [fold_left]. destruct (Nat.eq_dec i k) as [<-|Hne].
    + rewrite Nat.eqb_refl. reflexivity.
    + destruct (Nat.eqb_spec k i); [congruence|reflexivity].
  - intros k q. rewrite Hc. destruct (Nat.eq_dec i k); [discriminate|]. apply (j_append c s tr HJ).
Qed.

Lemma upd_idle {A} i (x : A) l y : nth_error l i = Some y -> forall k, nth_error (upd i x l) k = if Nat.eq_dec i k then Some x else nth_error l k.
Proof. intros H k. rewrite nth_error_upd. destruct (Nat.eq_dec i k); [|reflexivity]. rewrite H. reflexivity. Qed.

Lemma fails_ok o e : fails o e <> Ok. Proof. destruct o; discriminate. Qed.

Ltac ret_case c s tr i o x H HJ :=
  match goal with |- jinv _ ?s1 (_ ++ ?es) =>
    destruct (ret_pending c s tr s1 i o _ _ x es HJ H (upd_idle i CIdle _ _ H) eq_refl) as (HP & HA)
  end.

Lemma jinv_trans c s tr s1 es : sinv c s -> jinv c s tr -> trans c s s1 es -> jinv c s1 (tr ++ es).
Proof.
  intros HI HJ HT. pose proof HJ as [A1 A2 A3 A4 A5 A6 A7 A8 A9].
  destruct HT; try (apply (jinv_silent c s); auto; ss; lia).
  - (* call *)
    apply (jinv_quiet c s _ tr _ HJ); ss; rewrite ?existsb_app; cbn [existsb start_ok stop_ok]; rewrite ?orb_false_r; try (intros [] ?; reflexivity); auto; try lia.
    + intros k. rewrite pending_app, A3, (upd_idle i _ _ _ H). cbn [fold_left]. destruct (Nat.eq_dec i k) as [<-|Hne].
      * rewrite Nat.eqb_refl. reflexivity.
      * destruct (Nat.eqb_spec k i); [congruence|reflexivity].
    + intros k q. rewrite (upd_idle i _ _ _ H). destruct (Nat.eq_dec i k); [discriminate|]. apply A4.
  - (* fail *)
    ret_case c s tr i o (CWant o) H HJ.
    assert (E : stop_ok (ERet i o (fails o e) (t_now s)) = false /\ start_ok (ERet i o (fails o e) (t_now s)) = false) by (destruct o; auto).
    apply (jinv_quiet c s _ tr _ HJ); auto; ss; rewrite ?existsb_app; cbn [existsb]; rewrite ?(proj1 E), ?(proj2 E), ?orb_false_r; try (intros [] ?; reflexivity); auto; try lia.
  - (* start delay *)
    assert (E : t_status s = new) by (destruct (i_status c s HI) as [?|[?|?]]; congruence). rewrite E in *.
    apply (jinv_quiet c s _ tr _ HJ); auto; ss; rewrite ?app_nil_r; try (intros [] ?; reflexivity); auto; try lia.
    + intros k. rewrite A3, (upd_idle i _ _ _ H). destruct (Nat.eq_dec i k) as [<-|Hne]; [rewrite H; reflexivity|reflexivity].
    + intros k q. rewrite (upd_idle i _ _ _ H). destruct (Nat.eq_dec i k); [intros [=]; subst; assumption|]. apply A4.
  - (* start rate *)
    assert (E : t_status s = new) by (destruct (i_status c s HI) as [?|[?|?]]; congruence). rewrite E in *.
    ret_case c s tr i o (CWant o) H HJ.
    apply (jinv_quiet c s _ tr _ HJ); auto; ss; rewrite ?existsb_app; cbn [existsb stop_ok start_ok]; rewrite ?H1, ?H0; cbn [negb]; rewrite ?orb_false_r, ?orb_true_r; try (intros [] ?; reflexivity); auto; try lia.
  - (* stop *)
    ret_case c s tr i o (CWant o) H HJ.
    apply (jinv_quiet c s _ tr _ HJ); auto; ss; rewrite ?existsb_app; cbn [existsb stop_ok start_ok]; rewrite ?H1; cbn [negb]; rewrite ?orb_false_r, ?orb_true_r; try (intros [] ?; reflexivity); auto; try lia.
    + rewrite A2, H0. rewrite (proj2 (Z.eqb_neq _ _) H2). reflexivity.
  - (* client send *)
    pose proof (append_locked c s i o HI H) as EL. destruct (i_lockst c s HI EL) as (ES & ED). pose proof (A4 i o H) as Ho.
    ret_case c s tr i o (CAppend o) H HJ.
    apply (jinv_quiet c s _ tr _ HJ); auto; ss; rewrite ?existsb_app; cbn [existsb stop_ok start_ok]; rewrite ?Ho, ?ES in *; cbn [negb]; rewrite ?orb_false_r, ?orb_true_r; try (intros [] ?; reflexivity); auto; try lia.
  - (* client stop *)
    pose proof (append_locked c s i o HI H) as EL. destruct (i_lockst c s HI EL) as (ES & ED). exfalso. rewrite (i_sig c s HI), ES in H0. discriminate.
  - (* no *)
    rewrite app_nil_r. pose proof (i_no c s HI) as HN.
    constructor; ss; auto.
    + intros j r Hj. destruct (Nat.lt_ge_cases j (length (t_runs s))) as [Hlt|Hge].
      * rewrite nth_error_app1 in Hj by exact Hlt. apply (A5 j r Hj).
      * rewrite nth_error_app2 in Hj by exact Hge. destruct (j - length (t_runs s))%nat as [|[|]] eqn:Ej; try discriminate.
        injection Hj as <-.
        assert (Z0 : forall g, times g (t_no s + 1) tr = []).
        { intros g. destruct (times g (t_no s + 1) tr) eqn:Et; [reflexivity|]. assert (1 <= t_no s + 1 <= t_no s); [|lia]. apply (A6 g). congruence. }
        unfold run_times. cbn [r_no r_pc r_job r_deadline r_done]. rewrite !Z0. repeat split; reflexivity.
    + intros g n Hn. specialize (A6 g n Hn). lia.
    + rewrite sumZ_app. cbn. lia.
    + rewrite sumZ_app. cbn. lia.
  - (* run *)
    destruct (i_runno c s HI j r H) as (N & RO). destruct (rtrans_ok c _ _ _ _ _ H0 RO) as (RO' & N' & NR).
    pose proof (rtrans_events c _ _ _ _ _ H0) as HF. destruct (run_status _ _ HF) as (S1 & S2). destruct (rtrans_counts c _ _ _ _ _ H0) as (C1 & C2).
    constructor; ss.
    + rewrite existsb_app, S1, orb_false_r. exact A1.
    + rewrite existsb_app, S2, orb_false_r. exact A2.
    + intros k. rewrite (run_pending _ _ HF). apply A3.
    + exact A4.
    + intros j0 r0 Hj. rewrite nth_error_upd in Hj. destruct (Nat.eq_dec j j0) as [<-|Hne].
      * rewrite H in Hj. injection Hj as <-. apply (rtrans_times c _ _ _ _ _ _ H0 RO (A5 j r H)).
      * specialize (A5 j0 r0 Hj). destruct (i_runno c s HI j0 r0 Hj) as (N0 & _).
        assert (Z0 : forall g, times g (r_no r0) es = []) by (intros g; apply (times_run g _ _ HF); lia).
        unfold run_times in *. rewrite !times_app, !Z0, !app_nil_r. exact A5.
    + intros g n Hn. rewrite times_app in Hn. destruct (Z.eq_dec n (r_no r)) as [->|Hne].
      * pose proof (i_no c s HI). assert (j < length (t_runs s))%nat by (apply nth_error_Some; congruence). lia.
      * rewrite (times_run g _ _ HF n Hne), app_nil_r in Hn. apply (A6 g n Hn).
    + intros g n t Hin. rewrite times_app, in_app_iff in Hin. destruct Hin as [Hin|Hin]; [apply (A7 g n t Hin)|].
      rewrite (rtrans_now c _ _ _ _ _ H0 g n t Hin). lia.
    + rewrite count_app, (sumZ_upd begunW _ _ _ _ H). lia.
    + rewrite count_app, (sumZ_upd endedW _ _ _ _ H). lia.
Qed.
