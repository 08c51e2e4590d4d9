(** Proofs for C115. *)
From Verif Require Import Common Threads ScheduleModel ScheduleSpec SchedulePromptSpec ScheduleProofs ScheduleTrace ScheduleRuns.
Local Open Scope list_scope.
Local Open Scope Z_scope.

(** ** Executions piece by piece *)

Lemma pieces_ind (P : task -> list event -> Prop) c lag :
  (forall s tr p, P s tr -> let s1 := fst (exec (tstep c) s p) in t_now s1 <= t_now s + lag -> caught_up c s1 ->
     P s1 (tr ++ snd (exec (tstep c) s p))) ->
  forall pieces s tr, P s tr -> keeps_up c lag s pieces ->
    P (fst (exec (tstep c) s (concat pieces))) (tr ++ snd (exec (tstep c) s (concat pieces))).
Proof.
  intros Hstep. induction pieces as [|p pieces IH]; intros s tr HP HK; cbn [concat exec keeps_up] in *.
  - cbn. rewrite app_nil_r. exact HP.
  - destruct HK as (H1 & H2 & H3). rewrite exec_app. pose proof (Hstep s tr p HP H1 H2) as H4.
    destruct (exec (tstep c) s p) as [s1 e1]. cbn [fst snd] in *. specialize (IH s1 (tr ++ e1) H4 H3).
    destruct (exec (tstep c) s1 (concat pieces)) as [s2 e2]. cbn [fst snd] in *. rewrite app_assoc. exact IH.
Qed.

Lemma trans_now c s s1 es : trans c s s1 es -> t_now s <= t_now s1.
Proof. intros []; ss; lia. Qed.

(** Events carry the time of their step. *)
Definition ev_at (e : event) : option Z :=
  match e with ECall _ _ => None | ERet _ _ _ t | ELog _ t | EBegin _ t | ECancel _ t | EEnd _ t | ENext _ t => Some t end.

Lemma trans_at c s s1 es e t : trans c s s1 es -> In e es -> ev_at e = Some t -> t = t_now s.
Proof.
  intros HT Hin He. destruct HT; try contradiction; try (destruct Hin as [<-|[]]; cbn in He; congruence).
  destruct H0; unfold cancels in Hin; try destruct (r_done r); cbn in Hin; intuition subst; cbn in He; congruence.
Qed.

(** Within a piece: the invariants so far, the clock and the times of the new events. *)
Lemma piece_inv (K : task -> list event -> Prop) c s tr p :
  sinv c s -> jinv c s tr -> K s tr ->
  (forall x a x1 es, sinv c x -> jinv c x a -> t_now s <= t_now x -> K x a -> trans c x x1 es -> K x1 (a ++ es)) ->
  let s1 := fst (exec (tstep c) s p) in let es := snd (exec (tstep c) s p) in
  sinv c s1 /\ jinv c s1 (tr ++ es) /\ K s1 (tr ++ es) /\ t_now s <= t_now s1 /\
  (forall e t, In e es -> ev_at e = Some t -> t_now s <= t <= t_now s1).
Proof.
  intros HI HJ HK Hstep.
  assert (A : let s1 := fst (exec (tstep c) s p) in let a := tr ++ snd (exec (tstep c) s p) in
    sinv c s1 /\ jinv c s1 a /\ K s1 a /\ t_now s <= t_now s1).
  { apply (exec_inv (tstep c) (fun x a => sinv c x /\ jinv c x a /\ K x a /\ t_now s <= t_now x)).
    - intros x l x1 es a (B1 & B2 & B3 & B4) Hst. pose proof (tstep_trans c x l x1 es Hst) as HT.
      split; [exact (sinv_trans c x x1 es B1 HT)|]. split; [exact (jinv_trans c x a x1 es B1 B2 HT)|].
      split; [exact (Hstep x a x1 es B1 B2 B4 B3 HT)|]. pose proof (trans_now c x x1 es HT). lia.
    - split; [exact HI|]. split; [exact HJ|]. split; [exact HK|lia]. }
  assert (B : let s1 := fst (exec (tstep c) s p) in let a := [] ++ snd (exec (tstep c) s p) in
    t_now s <= t_now s1 /\ forall e t, In e a -> ev_at e = Some t -> t_now s <= t <= t_now s1).
  { apply (exec_inv (tstep c) (fun x a => t_now s <= t_now x /\ forall e t, In e a -> ev_at e = Some t -> t_now s <= t <= t_now x)).
    - intros x l x1 es a (B1 & B2) Hst. pose proof (tstep_trans c x l x1 es Hst) as HT. pose proof (trans_now c x x1 es HT).
      split; [lia|]. intros e t Hin He. apply in_app_iff in Hin. destruct Hin as [Hin|Hin].
      + specialize (B2 e t Hin He). lia.
      + rewrite (trans_at c x x1 es e t HT Hin He). lia.
    - split; [lia|]. intros e t []. }
  cbn [Datatypes.app] in B. destruct A as (A1 & A2 & A3 & A4). destruct B as (_ & B2). auto.
Qed.

(** ** What being caught up means *)

Lemma up_runs c s j r : caught_up c s -> sinv c s -> nth_error (t_runs s) j = Some r ->
  r_job r <> JNone /\ r_pc r <> RStart /\ (r_job r = JDone -> r_pc r = RRet).
Proof.
  intros HU HI Hj. pose proof (HU (LRun j) eq_refl) as H1. pose proof (HU (LJobBegin j) eq_refl) as H2. cbn [tstep] in H1, H2.
  rewrite Hj in H1, H2. unfold run_returns, cancel in H1. cbn in H1. destruct (i_runno c s HI j r Hj) as (_ & RO). unfold run_ok in RO.
  destruct (r_pc r), (r_job r); try (destruct (r_done r)); repeat split; congruence || (intros; discriminate) || (destruct RO; discriminate).
Qed.

Lemma all_begun l : (forall j r, nth_error l j = Some r -> r_job r <> JNone) -> sumZ begunW l = Z.of_nat (length l).
Proof.
  induction l as [|r l IH]; intros H; [reflexivity|]. cbn [sumZ length]. rewrite IH by (intros j x Hj; apply (H (S j) x Hj)).
  pose proof (H O r eq_refl). unfold begunW. rewrite Nat2Z.inj_succ. destruct (r_job r); congruence || lia.
Qed.

Lemma up_begun c s tr : caught_up c s -> sinv c s -> jinv c s tr -> count is_begin tr = t_no s.
Proof.
  intros HU HI HJ. rewrite (j_begins c s tr HJ), (i_no c s HI). apply all_begun. intros j r Hj. apply (up_runs c s j r HU HI Hj).
Qed.

Lemma up_begin_event c s tr m : caught_up c s -> sinv c s -> jinv c s tr -> 1 <= m <= t_no s ->
  exists t, In (EBegin m t) tr /\ t <= t_now s.
Proof.
  intros HU HI HJ Hm. rewrite (i_no c s HI) in Hm. destruct (nth_error (t_runs s) (Z.to_nat (m - 1))) as [r|] eqn:E.
  - destruct (i_runno c s HI _ r E) as (N & _). assert (Em : r_no r = m) by lia. destruct (up_runs c s _ r HU HI E) as (B & _).
    destruct (j_runs c s tr HJ _ r E) as (_ & C & _). rewrite Em in C. unfold begunW in C.
    destruct (times GBegin m tr) as [|t l] eqn:Et; [destruct (r_job r); discriminate || congruence|].
    assert (Hin : In t (times GBegin m tr)) by (rewrite Et; left; reflexivity).
    exists t. split; [apply in_times_begin; exact Hin|apply (j_now c s tr HJ _ _ _ Hin)].
  - apply nth_error_None in E. lia.
Qed.

Lemma started_of c s tr : sinv c s -> jinv c s tr -> existsb stop_ok tr = false -> existsb start_ok tr = true ->
  t_status s = started /\ t_locked s = false.
Proof.
  intros HI HJ H1 H2. rewrite (j_stop c s tr HJ) in H1. rewrite (j_start c s tr HJ) in H2. apply andb_true_iff in H2. destruct H2 as (H2 & H3).
  apply Z.eqb_neq in H1. apply negb_true_iff in H2, H3. apply Z.eqb_neq in H2. destruct (i_status c s HI) as [?|[?|?]]; auto; congruence.
Qed.

Lemma in_start tr i o ts : In (ERet i o Ok ts) tr -> starts o = true -> existsb start_ok tr = true.
Proof. intros H Ho. apply existsb_exists. exists (ERet i o Ok ts). split; [exact H|exact Ho]. Qed.

(** ** Fixed rate *)

(** Runs asked for: triggers and the tick that waits in the channel. *)
Definition asked (s : task) : Z := triggers s + (if t_tickbuf s then 1 else 0).

(** [q] is the last moment at which nothing was owed. *)
Definition rate_piece (c : cfg) (q : Z) (s : task) (tr : list event) : Prop :=
  t_status s = started -> t_now s <= q + c_interval c -> exists next, t_tick s = Some next /\
    q < next /\ next - c_interval c <= t_now s /\ (t_tickbuf s = true -> q + c_interval c < next) /\
    forall i o ts, In (ERet i o Ok ts) tr -> starts o = true -> next = ts + asked s * c_interval c.

Lemma rate_piece_keep c q s s1 tr es : rate_piece c q s tr -> t_status s1 = t_status s -> t_now s <= t_now s1 ->
  t_tick s1 = t_tick s -> asked s1 = asked s -> (t_tickbuf s1 = true -> t_tickbuf s = true) ->
  (forall i o ts, In (ERet i o Ok ts) es -> starts o = false) -> rate_piece c q s1 (tr ++ es).
Proof.
  intros HR E1 E2 E3 E4 E5 He Hs Hn. rewrite E1 in Hs. destruct (HR Hs ltac:(lia)) as (next & A1 & A2 & A3 & A4 & A5).
  exists next. rewrite E3, E4. repeat split; auto; try lia. intros i o ts Hin Ho. apply in_app_iff in Hin. destruct Hin as [Hin|Hin]; [apply (A5 i o ts Hin Ho)|].
  rewrite (He i o ts Hin) in Ho. discriminate.
Qed.

Lemma no_rets n es : Forall (run_event n) es -> forall i o ts, In (ERet i o Ok ts) es -> starts o = false.
Proof. intros HF i o ts Hin. rewrite Forall_forall in HF. destruct (HF _ Hin). Qed.

Lemma rate_piece_trans c q s tr s1 es : c_kind c = Rate -> 0 < c_interval c -> sinv c s -> jinv c s tr -> q <= t_now s ->
  rate_piece c q s tr -> trans c s s1 es -> rate_piece c q s1 (tr ++ es).
Proof.
  intros HK HP HI HJ Hq HR HT. pose proof (trans_now c s s1 es HT) as Hnow.
  destruct HT; try (apply (rate_piece_keep c q s); auto; unfold asked, triggers; ss; auto; (reflexivity || (intros ? ? ? Hin; cbn in Hin; intuition discriminate))).
  - (* fail *) apply (rate_piece_keep c q s); auto. intros i' o' ts [Hin|[]]. destruct o, e; discriminate Hin.
  - congruence.
  - (* start *)
    assert (E : t_status s = new) by (destruct (i_status c s HI) as [?|[?|?]]; congruence).
    pose proof (i_cons c s HI) as HC. pose proof (i_prov c s HI) as HV. pose proof (i_no c s HI) as HN. rewrite HK, E in *. change (new =? new) with true in *.
    destruct (i_new c s HI E) as (_ & Er & _). rewrite Er in HN. cbn in HN.
    destruct (t_cons s) eqn:Ec; [|discriminate]. destruct (t_prov s) eqn:Ep; [|discriminate].
    intros _ _. exists (t_now s + c_interval c). ss. split; [reflexivity|]. split; [lia|]. split; [lia|]. split; [discriminate|].
    intros i' o' ts Hin Ho. unfold asked, triggers; ss. rewrite ?Ec, ?Ep, HN. cbn [sumZ busy psend Datatypes.app].
    apply in_app_iff in Hin. destruct Hin as [Hin|[Hin|[]]].
    + pose proof (in_start tr i' o' ts Hin Ho) as F. rewrite (j_start c s tr HJ), E in F. discriminate.
    + injection Hin as _ _ <-. lia.
  - (* stop *) intros Hs. ss. discriminate.
  - (* client send *)
    pose proof (append_locked c s i o HI H) as EL. destruct (i_lockst c s HI EL). congruence.
  - pose proof (append_locked c s i o HI H) as EL. destruct (i_lockst c s HI EL). congruence.
  - intros Hs. ss. rewrite H1 in Hs. discriminate.
  - apply (rate_piece_keep c q s); auto; unfold asked, triggers; ss; try (intros ? ? ? []). rewrite (sumZ_upd busy _ _ _ _ H). cbn. lia.
  - apply (rate_piece_keep c q s); auto; unfold asked, triggers; ss; try (intros ? ? ? []). rewrite HK, (sumZ_upd busy _ _ _ _ H). cbn. lia.
  - destruct (i_rate c s HI HK) as (_ & F & _). destruct (F k j H).
  - intros Hs. ss. rewrite (i_sig c s HI), Hs in H0. discriminate.
  - apply (rate_piece_keep c q s); auto; unfold asked, triggers; ss; try (intros ? ? ? []). rewrite (sumZ_upd busy _ _ _ _ H0), (sumZ_upd psend _ _ _ _ H). cbn. lia.
  - apply (rate_piece_keep c q s); auto; unfold asked, triggers; ss; try (intros ? ? ? []); try discriminate. rewrite H0, (sumZ_upd psend _ _ _ _ H). cbn. lia.
  - intros Hs. ss. rewrite (i_sig c s HI), Hs in H1. discriminate.
  - (* ticker *)
    intros Hs Hn. ss. destruct (HR Hs Hn) as (next' & A1 & A2 & A3 & A4 & A5). assert (next' = next) by congruence. subst next'.
    destruct (t_tickbuf s) eqn:Eb; [specialize (A4 eq_refl); lia|].
    assert (Ed : (t_now s - next) / c_interval c = 0) by (apply Z.div_small; lia).
    exists (next + c_interval c). rewrite Ed. split; [f_equal; lia|]. split; [lia|]. split; [lia|]. split; [lia|].
    intros i o ts Hin Ho. rewrite app_nil_r in Hin. specialize (A5 i o ts Hin Ho). unfold asked, triggers in *. ss. rewrite Eb in A5. lia.
  - destruct (i_rate c s HI HK) as (Et & _). rewrite Et in H. destruct j; discriminate.
  - (* run *) apply (rate_piece_keep c q s); auto. apply (no_rets (r_no r)). apply (rtrans_events c _ _ _ _ _ H0).
Qed.

Lemma up_rate c s : c_kind c = Rate -> caught_up c s -> sinv c s -> t_status s = started ->
  asked s = t_no s /\ t_tickbuf s = false /\ forall next, t_tick s = Some next -> t_now s < next.
Proof.
  intros HK HU HI Hs. pose proof (i_cons c s HI) as HC. pose proof (i_prov c s HI) as HV. rewrite HK, Hs in *. change (started =? new) with false in *.
  destruct (i_alive c s HI) as (KA & PA); [rewrite Hs; discriminate|]. destruct (i_rate c s HI HK) as (_ & NR & _).
  assert (EL : t_locked s = false). { destruct (t_locked s) eqn:E; [|reflexivity]. destruct (i_lockst c s HI E). congruence. }
  destruct (t_cons s) as [|y [|]] eqn:Ec; try discriminate. destruct (t_prov s) as [|x [|]] eqn:Ep; try discriminate.
  inversion KA as [|? ? Ky _]; inversion PA as [|? ? Px _]; subst.
  assert (Ey : y = KWait).
  { pose proof (HU (LCons 0) eq_refl) as H. cbn [tstep] in H. unfold cons_step in H. rewrite Ec in H. cbn [nth_error] in H.
    destruct y as [| | |j|]; try congruence.
    - rewrite EL, Hs in H. discriminate.
    - rewrite EL, HK in H. discriminate.
    - destruct (NR O j). reflexivity. }
  subst y.
  assert (Ex : x = PTick).
  { pose proof (HU (LProvSend 0 0) eq_refl) as H. cbn [tstep] in H. unfold receive in H. rewrite Ec, Ep in H. cbn [nth_error] in H. destruct x; congruence. }
  subst x.
  assert (Eb : t_tickbuf s = false).
  { pose proof (HU (LProvTick 0) eq_refl) as H. cbn [tstep] in H. rewrite Ep in H. cbn [nth_error] in H. destruct (t_tickbuf s); congruence. }
  split; [unfold asked, triggers; rewrite Ec, Ep, Eb; cbn; lia|]. split; [exact Eb|].
  intros next Hn. pose proof (HU LTicker eq_refl) as H. cbn [tstep] in H. unfold ticker_step in H. rewrite Hn in H.
  destruct (next <=? t_now s) eqn:E; [discriminate|lia].
Qed.

(** At the moments at which nothing is owed. *)
Definition rate_moment (c : cfg) (lag : Z) (s : task) (tr : list event) : Prop :=
  sinv c s /\ jinv c s tr /\ (t_status s = started -> t_tickbuf s = false) /\ rate_piece c (t_now s) s tr /\
  (t_status s = started -> asked s = t_no s) /\ (forall m, 1 <= m <= t_no s -> In m (begun tr)) /\
  forall i o ts, t_status s = started -> In (ERet i o Ok ts) tr -> starts o = true ->
    forall m t, In (EBegin m t) tr -> t <= ts + (m - 1) * c_interval c + lag.

Lemma rate_piece_later c q q' s tr : rate_piece c q s tr -> 0 < c_interval c -> (t_status s = started -> t_tickbuf s = false) ->
  (forall next, t_tick s = Some next -> q' < next) -> t_now s <= q + c_interval c -> rate_piece c q' s tr.
Proof.
  intros HR HP Hb Hq Hn Hs Hn'. destruct (HR Hs Hn) as (next & A1 & A2 & A3 & A4 & A5). exists next. split; [exact A1|].
  split; [apply (Hq next A1)|]. split; [exact A3|]. split; [rewrite (Hb Hs); discriminate|exact A5].
Qed.

Lemma begin_range c s tr m t : jinv c s tr -> In (EBegin m t) tr -> 1 <= m <= t_no s.
Proof.
  intros HJ Hin. apply (j_other c s tr HJ GBegin m). intros E. apply in_times_begin in Hin. rewrite E in Hin. destruct Hin.
Qed.

Lemma in_begun_event m t tr : In (EBegin m t) tr -> In m (begun tr).
Proof. intros H. unfold begun. apply in_flat_map. exists (EBegin m t). split; [exact H|left; reflexivity]. Qed.

(** A run has one beginning. *)
Lemma begin_new c s tr es m t : sinv c s -> jinv c s (tr ++ es) -> In m (begun tr) -> ~ In (EBegin m t) es.
Proof.
  intros HI HJ H1 H2. pose proof (begun_nodup c s _ HI HJ) as HN. unfold begun in HN. rewrite flat_map_app in HN. fold (begun tr) in HN. fold (begun es) in HN.
  apply in_begun_event in H2. clear HI HJ. induction (begun tr) as [|x l IH]; [destruct H1|]. inversion HN; subst.
  destruct H1 as [->|H1]; [|apply IH; assumption]. apply H3, in_app_iff. right. exact H2.
Qed.

(** Once started, there is no second Start that succeeds. *)
Definition no_restart (tr : list event) (s : task) (a : list event) : Prop :=
  t_status s <> new /\ t_locked s = false /\ forall i o ts, In (ERet i o Ok ts) a -> starts o = true -> In (ERet i o Ok ts) tr.

Lemma no_restart_trans c tr s a s1 es : sinv c s -> no_restart tr s a -> trans c s s1 es -> no_restart tr s1 (a ++ es).
Proof.
  intros HI (H1 & H2 & H3) HT.
  assert (K : t_status s1 <> new -> t_locked s1 = false -> (forall i o ts, In (ERet i o Ok ts) es -> starts o = false) -> no_restart tr s1 (a ++ es)).
  { intros K1 K2 K3. split; [exact K1|]. split; [exact K2|]. intros i o ts Hin Ho. apply in_app_iff in Hin. destruct Hin as [Hin|Hin]; [apply (H3 i o ts Hin Ho)|].
    rewrite (K3 i o ts Hin) in Ho. discriminate. }
  assert (N : t_status s <> started -> t_status s <> stopped -> False) by (intros; destruct (i_status c s HI) as [?|[?|?]]; congruence).
  destruct HT; try (apply K; ss; auto; intros ? ? ? Hin; cbn in Hin; intuition discriminate); try (destruct N; assumption).
  - apply K; ss; auto. intros i' o' ts [Hin|[]]. destruct o, e; discriminate Hin.
  - apply K; ss; auto; [discriminate|]. intros i' o' ts [Hin|[]]. injection Hin as <- <- _. assumption.
  - pose proof (append_locked c s i o HI H). congruence.
  - pose proof (append_locked c s i o HI H). congruence.
  - apply K; ss; auto. apply (no_rets (r_no r)). apply (rtrans_events c _ _ _ _ _ H0).
Qed.

Lemma rate_moments c lag t0 n pieces : c_kind c = Rate -> 0 < c_interval c -> lag <= c_interval c ->
  keeps_up c lag (init t0 n) pieces -> rate_moment c lag (fst (texec c t0 n (concat pieces))) (snd (texec c t0 n (concat pieces))).
Proof.
  intros HK HP HL HU. unfold texec. apply (pieces_ind (rate_moment c lag) c lag) with (tr := []); [|clear HU|exact HU].
  2: { split; [apply sinv_init|]. split; [apply jinv_init|]. unfold rate_piece, init; ss. repeat split; intros; try discriminate; lia. }
  clear HU t0 n pieces. intros s tr p (HI & HJ & Hb & HR & Ha & Hg & HT) s1 Hn HU.
  destruct (piece_inv (fun x a => rate_piece c (t_now s) x a /\ (t_status s <> new -> no_restart tr x a)) c s tr p HI HJ) as (HI1 & HJ1 & (HR1 & HS1) & Hn1 & Ht1).
  { split; [exact HR|]. intros En. split; [exact En|]. split; [|auto]. destruct (t_locked s) eqn:E; [|reflexivity]. destruct (i_lockst c s HI E). congruence. }
  { intros x a x1 es B1 B2 B3 (B4 & B5) B6. split; [apply (rate_piece_trans c (t_now s) x); auto|]. intros En. apply (no_restart_trans c tr x a); auto. }
  fold s1 in HI1, HJ1, HR1, HS1, Hn1, Ht1. set (es := snd (exec (tstep c) s p)) in *.
  split; [exact HI1|]. split; [exact HJ1|].
  assert (U : t_status s1 = started -> asked s1 = t_no s1 /\ t_tickbuf s1 = false /\ forall next, t_tick s1 = Some next -> t_now s1 < next)
    by (intros Hs; apply (up_rate c s1 HK HU HI1 Hs)).
  split; [intros Hs; apply (U Hs)|]. split.
  { intros Hs Hn'. destruct (U Hs) as (U1 & U2 & U3).
    apply (rate_piece_later c (t_now s) (t_now s1) s1 (tr ++ es) HR1 HP ltac:(intros; exact U2) U3 ltac:(lia) Hs Hn'). }
  split; [intros Hs; apply (U Hs)|]. split.
  { intros m Hm. destruct (up_begin_event c s1 _ m HU HI1 HJ1 Hm) as (t & Hin & _). apply (in_begun_event m t _ Hin). }
  intros i o ts Hs Hin Ho m t Hm.
  assert (S0 : t_status s <> stopped).
  { intros E. pose proof (j_stop c s tr HJ) as F. rewrite E in F. pose proof (j_stop c s1 (tr ++ es) HJ1) as F1. rewrite existsb_app, F, Hs in F1. discriminate. }
  destruct (Z.eq_dec (t_status s) started) as [Es|Ene].
  - destruct (HS1 ltac:(rewrite Es; discriminate)) as (_ & _ & Hin'). specialize (Hin' i o ts Hin Ho).
    apply in_app_iff in Hm. destruct Hm as [Hm|Hm]; [apply (HT i o ts Es Hin' Ho m t Hm)|].
    destruct (HR Es ltac:(lia)) as (next & A1 & A2 & A3 & A4 & A5). specialize (A5 i o ts Hin' Ho). rewrite (Ha Es) in A5.
    specialize (Ht1 _ t Hm eq_refl).
    assert (B : 1 <= m <= t_no s1) by (apply (begin_range c s1 (tr ++ es) m t HJ1); apply in_app_iff; right; exact Hm).
    assert (t_no s + 1 <= m).
    { destruct (Z.le_gt_cases (t_no s + 1) m); [assumption|]. destruct (begin_new c s1 tr es m t HI1 HJ1 (Hg m ltac:(lia)) Hm). }
    nia.
  - assert (En : t_status s = new) by (destruct (i_status c s HI) as [?|[?|?]]; congruence).
    assert (Hin' : In (ERet i o Ok ts) es).
    { apply in_app_iff in Hin. destruct Hin as [Hin|Hin]; [|exact Hin]. pose proof (in_start tr i o ts Hin Ho) as F. rewrite (j_start c s tr HJ), En in F. discriminate. }
    pose proof (Ht1 _ ts Hin' eq_refl).
    pose proof (begin_range c s1 (tr ++ es) m t HJ1 Hm).
    assert (t <= t_now s1) by (apply (j_now c s1 _ HJ1 GBegin m t), in_times_begin; exact Hm). nia.
Qed.

Lemma start_unique c t0 n sched i o ts i' o' ts' : let tr := snd (texec c t0 n sched) in
  In (ERet i o Ok ts) tr -> starts o = true -> In (ERet i' o' Ok ts') tr -> starts o' = true -> ts = ts'.
Proof.
  intros tr H Ho H' Ho'. destruct (start_once c t0 n sched) as (HC & _). fold tr in HC.
  apply in_split in H, H'. destruct H as (a & b & E). destruct H' as (a' & b' & E').
  destruct (count_once start_ok a (ERet i o Ok ts) b a' (ERet i' o' Ok ts') b') as (_ & F & _); auto; [congruence|rewrite <- E; exact HC|congruence].
Qed.

Lemma rate_on_time c lag t0 n pieces i o ts : c_kind c = Rate -> 0 < c_interval c -> lag <= c_interval c ->
  keeps_up c lag (init t0 n) pieces ->
  let s := fst (texec c t0 n (concat pieces)) in let tr := snd (texec c t0 n (concat pieces)) in
  existsb stop_ok tr = false -> In (ERet i o Ok ts) tr -> starts o = true ->
  count is_begin tr = 1 + (t_now s - ts) / c_interval c /\
  forall m t, In (EBegin m t) tr -> ts + (m - 1) * c_interval c <= t <= ts + (m - 1) * c_interval c + lag.
Proof.
  intros HK HP HL HU s tr Hno Hin Ho.
  destruct (rate_moments c lag t0 n pieces HK HP HL HU) as (HI & HJ & Hb & HR & Ha & Hg & HT). fold s in HI, HJ, Hb, HR, Ha, Hg, HT. fold tr in HJ, HR, Hg, HT.
  destruct (started_of c s tr HI HJ Hno (in_start tr i o ts Hin Ho)) as (Es & _). split.
  - destruct (HR Es ltac:(lia)) as (next & A1 & A2 & A3 & A4 & A5). specialize (A5 i o ts Hin Ho). rewrite (Ha Es) in A5.
    assert (EB : count is_begin tr = t_no s).
    { rewrite (j_begins c s tr HJ), (i_no c s HI). apply all_begun. intros j r Hj F.
      destruct (i_runno c s HI j r Hj) as (Nr & _). assert (Lj : (j < length (t_runs s))%nat) by (apply nth_error_Some; congruence).
      pose proof (Hg (r_no r)) as G. rewrite (i_no c s HI) in G. specialize (G ltac:(lia)). apply in_begun in G.
      destruct (j_runs c s tr HJ j r Hj) as (_ & B & _). unfold begunW in B. rewrite F in B. destruct (times GBegin (r_no r) tr); [contradiction|discriminate]. }
    rewrite EB. assert (ED : (t_now s - ts) / c_interval c = t_no s - 1); [|lia].
    symmetry. apply (Z.div_unique _ _ _ (t_now s - ts - c_interval c * (t_no s - 1))); lia.
  - intros m t Hm. split; [|apply (HT i o ts Es Hin Ho m t Hm)].
    apply in_split in Hm. destruct Hm as (a & b & E). destruct (rate_begin c t0 n (concat pieces) a m t b HK HP E) as (i' & o' & ts' & Hin' & Ho' & _ & H & _).
    rewrite (start_unique c t0 n (concat pieces) i o ts i' o' ts'); auto. fold tr in E. fold tr. rewrite E. apply in_app_iff. left. exact Hin'.
Qed.

(** ** Fixed delay *)

(** Timers are set for at most one interval from now, and only after a run. *)
Definition armed_ok (c : cfg) (s : task) : Prop :=
  (forall j a, nth_error (t_timers s) j = Some (TArmed a) -> a <= t_now s + c_interval c) /\ (t_timers s <> [] -> 1 <= t_no s).

Lemma armed_ok_trans c s s1 es : sinv c s -> armed_ok c s -> trans c s s1 es -> armed_ok c s1.
Proof.
  intros HI (H1 & H2) HT. pose proof (trans_now c s s1 es HT) as Hn. pose proof (i_no c s HI) as HN.
  assert (K : (forall j a, nth_error (t_timers s1) j = Some (TArmed a) -> nth_error (t_timers s) j = Some (TArmed a)) ->
              (t_timers s1 <> [] -> t_timers s <> []) -> t_no s <= t_no s1 -> armed_ok c s1).
  { intros K1 K2 K3. split; [intros j a Hj; specialize (H1 j a (K1 j a Hj)); lia|intros Hne; specialize (H2 (K2 Hne)); lia]. }
  assert (NE : forall j x, nth_error (t_timers s) j = Some x -> t_timers s <> []) by (intros j x E F; rewrite F in E; destruct j; discriminate).
  assert (UP : forall j x y, nth_error (t_timers s) j = Some y -> (forall a, x <> TArmed a) ->
    forall j' a, nth_error (upd j x (t_timers s)) j' = Some (TArmed a) -> nth_error (t_timers s) j' = Some (TArmed a)).
  { intros j x y Hy Hx j' a. rewrite nth_error_upd. destruct (Nat.eq_dec j j'); [|auto]. rewrite Hy. intros [=]. destruct (Hx a); assumption. }
  destruct HT; try (apply K; ss; auto; lia).
  - (* ret *) split; ss.
    + intros j' a Hj. destruct (Nat.lt_ge_cases j' (length (t_timers s))) as [L|L].
      * rewrite nth_error_app1 in Hj by exact L. apply (H1 j' a Hj).
      * rewrite nth_error_app2 in Hj by exact L. destruct (j' - length (t_timers s))%nat as [|[|]]; discriminate.
    + intros _. assert (j < length (t_runs s))%nat by (apply nth_error_Some; congruence). lia.
  - (* arm *) split; ss.
    + intros j' a. rewrite nth_error_upd. destruct (Nat.eq_dec j j'); [|apply H1]. rewrite H. intros [=]. lia.
    + intros _. apply H2. apply (NE _ _ H).
  - ss. apply K; ss; try lia; [apply (UP j TSend (TArmed a) H); discriminate|intros _; apply (NE _ _ H)].
  - ss. apply K; ss; try lia; [apply (UP j TDone TSend H); discriminate|intros _; apply (NE _ _ H)].
  - ss. apply K; ss; try lia; [apply (UP j TDone TSend H); discriminate|intros _; apply (NE _ _ H)].
Qed.

(** After all runs have ended, the timer that is set stays the only one until the next run. *)
Definition waiting (m a0 : Z) (s : task) : Prop :=
  m <= t_no s /\ (t_no s = m ->
    (forall j a, nth_error (t_timers s) j = Some (TArmed a) -> a = a0) /\ (forall j, nth_error (t_timers s) j <> Some TGo) /\
    (forall k j, nth_error (t_cons s) k <> Some (KRun j))).

Lemma waiting_trans c m a0 s s1 es : c_kind c = Delay -> sinv c s -> t_status s <> new -> waiting m a0 s -> trans c s s1 es -> waiting m a0 s1.
Proof.
  intros HD HI Hne (H1 & H2) HT.
  assert (K : t_no s1 = t_no s -> (forall j, nth_error (t_timers s1) j = nth_error (t_timers s) j) ->
     (forall k j, nth_error (t_cons s1) k = Some (KRun j) -> nth_error (t_cons s) k = Some (KRun j)) -> waiting m a0 s1).
  { intros K1 K2 K3. split; [lia|]. intros E. destruct (H2 ltac:(lia)) as (A1 & A2 & A3). split; [intros j a; rewrite K2; apply A1|].
    split; [intros j; rewrite K2; apply A2|]. intros k j F. apply (A3 k j (K3 k j F)). }
  assert (N : t_status s <> started -> t_status s <> stopped -> False) by (intros; destruct (i_status c s HI) as [?|[?|?]]; congruence).
  assert (UP : forall k x, (forall j, x <> KRun j) -> forall k' j, nth_error (upd k x (t_cons s)) k' = Some (KRun j) -> nth_error (t_cons s) k' = Some (KRun j)).
  { intros k x Hx k' j. rewrite nth_error_upd. destruct (Nat.eq_dec k k') as [<-|]; [|auto]. destruct (nth_error (t_cons s) k) eqn:E; [|discriminate].
    intros [=]. destruct (Hx j). assumption. }
  assert (UT : forall j x y, nth_error (t_timers s) j = Some y -> x <> TGo -> (forall a, x <> TArmed a) ->
     (forall k j', nth_error (t_cons s1) k = Some (KRun j') -> nth_error (t_cons s) k = Some (KRun j')) -> t_no s1 = t_no s -> t_timers s1 = upd j x (t_timers s) -> waiting m a0 s1).
  { intros j x y Hy Hg Ha K3 K1 ET. split; [lia|]. intros E. destruct (H2 ltac:(lia)) as (A1 & A2 & A3). rewrite ET. split; [|split].
    - intros j' a. rewrite nth_error_upd. destruct (Nat.eq_dec j j'); [|apply A1]. rewrite Hy. intros [=]. destruct (Ha a). assumption.
    - intros j'. rewrite nth_error_upd. destruct (Nat.eq_dec j j'); [|apply A2]. rewrite Hy. intros [=]. contradiction.
    - intros k j' F. apply (A3 k j' (K3 k j' F)). }
  destruct HT; try (destruct N; assumption); try (apply K; ss; auto; fail).
  - apply K; ss; auto. apply UP. discriminate.
  - apply K; ss; auto. apply UP. discriminate.
  - apply K; ss; auto. apply UP. discriminate.
  - ss. split; ss; [lia|]. intros E. lia.
  - ss. split; ss; [lia|]. intros E. destruct (H2 E) as (_ & _ & A3). destruct (A3 k j H).
  - apply K; ss; auto. apply UP. discriminate.
  - apply K; ss; auto. apply UP. discriminate.
  - ss. split; ss; [lia|]. intros E. destruct (H2 E) as (_ & A2 & _). destruct (A2 j H).
  - apply (UT j TSend (TArmed a)); ss; auto; discriminate.
  - apply (UT j TDone TSend); ss; auto; try discriminate. apply UP. discriminate.
  - apply (UT j TDone TSend); ss; auto; discriminate.
Qed.

Lemma sum_pos_in {A} (f : A -> Z) l : 0 < sumZ f l -> exists i x, nth_error l i = Some x /\ 0 < f x.
Proof.
  induction l as [|y l IH]; cbn [sumZ]; [lia|]. intros H. destruct (Z.le_gt_cases (f y) 0) as [L|L].
  - destruct IH as (i & x & E & F); [lia|]. exists (S i), x. auto.
  - exists O, y. split; [reflexivity|lia].
Qed.

Lemma ended_run c s tr m t : sinv c s -> jinv c s tr -> In (EEnd m t) tr ->
  1 <= m <= t_no s /\ exists r, nth_error (t_runs s) (Z.to_nat (m - 1)) = Some r /\ r_job r = JDone.
Proof.
  intros HI HJ Hin. apply in_times_end in Hin.
  assert (NE : times GEnd m tr <> []) by (intros F; rewrite F in Hin; destruct Hin).
  pose proof (j_other c s tr HJ GEnd m NE) as B. split; [exact B|].
  destruct (event_run c s tr GEnd m HI HJ NE) as (j & r & Hj & Hm). destruct (i_runno c s HI j r Hj) as (N & _).
  replace (Z.to_nat (m - 1)) with j by lia. exists r. split; [exact Hj|]. destruct (j_runs c s tr HJ j r Hj) as (_ & _ & E & _). rewrite Hm in E.
  unfold endedW in E. destruct (times GEnd m tr); [congruence|]. cbn [length] in E. destruct (r_job r); lia || reflexivity.
Qed.

(** Caught up, started and not stopped: a run in progress, or a timer set for later. *)
Lemma up_delay c s : c_kind c = Delay -> caught_up c s -> sinv c s -> t_status s = started ->
  t_locked s = false /\
  ((exists j r, t_cons s = [KRun j] /\ S j = length (t_runs s) /\ nth_error (t_runs s) j = Some r /\ r_job r = JRun) \/
   (exists j a, t_cons s = [KWait] /\ nth_error (t_timers s) j = Some (TArmed a) /\ t_now s < a /\ (forall j', nth_error (t_timers s) j' <> Some TGo))).
Proof.
  intros HD HU HI Hs. destruct (i_delay c s HI HD) as (_ & _ & _ & TK & _). specialize (TK Hs). unfold tokens in TK.
  pose proof (i_cons c s HI) as HC. rewrite Hs in HC. change (started =? new) with false in HC.
  destruct (i_alive c s HI) as (KA & _); [rewrite Hs; discriminate|].
  destruct (t_cons s) as [|y [|]] eqn:Ec; try discriminate. inversion KA as [|? ? Ky _]; subst.
  pose proof (app_nonneg (t_clients s)) as N1. pose proof (live_nonneg (t_timers s)) as N3.
  assert (EL : t_locked s = false).
  { destruct (t_locked s) eqn:El; [|reflexivity]. exfalso. pose proof (i_lock c s HI) as LK. rewrite El in LK. rewrite LK in TK. cbn [sumZ] in TK.
    assert (y = KWait) by (destruct y; cbn [busy] in TK; lia || congruence). subst y.
    destruct (sum_pos_in app (t_clients s)) as (i & x & Hi & Hx); [lia|]. destruct x as [|?|o]; cbn in Hx; try lia.
    pose proof (HU (LClientSend i 0) eq_refl) as H. cbn [tstep] in H. unfold receive in H. rewrite Hi, Ec in H. discriminate. }
  split; [exact EL|].
  pose proof (HU (LCons 0) eq_refl) as H. cbn [tstep] in H. unfold cons_step in H. rewrite Ec in H. cbn [nth_error] in H.
  destruct y as [| | |j|]; try congruence.
  - right. pose proof (i_lock c s HI) as LK. rewrite EL in LK. rewrite LK in TK. cbn [sumZ busy] in TK.
    destruct (sum_pos_in live (t_timers s)) as (j & x & Hj & Hx); [lia|].
    assert (NG : forall j', nth_error (t_timers s) j' <> Some TGo).
    { intros j' F. pose proof (HU (LTimer j') eq_refl) as H'. cbn [tstep] in H'. rewrite F in H'. discriminate. }
    destruct x as [|a| |]; cbn in Hx; try lia.
    + destruct (NG j Hj).
    + exists j, a. split; [reflexivity|]. split; [exact Hj|]. split; [|exact NG].
      pose proof (HU (LTimer j) eq_refl) as H'. cbn [tstep] in H'. rewrite Hj in H'. destruct (a <=? t_now s) eqn:Ea; [discriminate|lia].
    + pose proof (HU (LTimerSend j 0) eq_refl) as H'. cbn [tstep] in H'. unfold receive in H'. rewrite Hj, Ec in H'. discriminate.
  - rewrite EL, Hs in H. discriminate.
  - rewrite EL, HD in H. discriminate.
  - left. assert (Hk : nth_error (t_cons s) 0 = Some (KRun j)) by (rewrite Ec; reflexivity). pose proof (i_krun c s HI 0%nat j Hk) as HL.
    destruct (nth_error (t_runs s) j) as [r|] eqn:Ej; [|apply nth_error_None in Ej; lia].
    exists j, r. split; [reflexivity|]. split; [exact HL|]. split; [exact Ej|]. destruct (up_runs c s j r HU HI Ej) as (U1 & U2 & U3).
    destruct (r_job r) eqn:Eb; [contradiction|reflexivity|]. rewrite (U3 eq_refl) in H. discriminate.
Qed.

Definition delay_moment (c : cfg) (lag : Z) (s : task) (tr : list event) : Prop :=
  sinv c s /\ jinv c s tr /\ armed_ok c s /\
  (t_status s = started -> t_locked s = false /\ t_no s >= 1 /\
    (forall m t', In (EEnd m t') tr ->
      (exists t, In (EBegin (m + 1) t) tr /\ t <= t' + c_interval c + 2 * lag) \/
      (m = t_no s /\ exists a, t_now s < a /\ a <= t' + c_interval c + lag /\ waiting m a s)) /\
    (forall i o ts, In (ERet i o Ok ts) tr -> starts o = true -> exists t, In (EBegin 1 t) tr /\ t <= ts + lag)).

Lemma delay_moments c lag t0 n pieces : c_kind c = Delay -> 0 <= lag -> 0 <= c_interval c ->
  keeps_up c lag (init t0 n) pieces -> delay_moment c lag (fst (texec c t0 n (concat pieces))) (snd (texec c t0 n (concat pieces))).
Proof.
  intros HK HL HP HU. unfold texec. apply (pieces_ind (delay_moment c lag) c lag) with (tr := []); [|clear HU|exact HU].
  2: { split; [apply sinv_init|]. split; [apply jinv_init|]. split; [|unfold init; ss; discriminate].
       split; unfold init; ss; [intros [|] a; discriminate|congruence]. }
  clear HU t0 n pieces. intros s tr p (HI & HJ & HA & HM) s1 Hn HU.
  destruct (piece_inv (fun x _ => armed_ok c x /\ (t_status s = started -> t_status x <> new) /\ (forall m a, waiting m a s -> t_status s = started -> waiting m a x)) c s tr p HI HJ)
    as (HI1 & HJ1 & (HA1 & _ & HW1) & Hn1 & Ht1).
  { split; [exact HA|]. split; [intros ->; discriminate|]. auto. }
  { intros x a x1 es B1 B2 B3 (B4 & B5 & B6) B7. split; [apply (armed_ok_trans c x x1 es); auto|]. split.
    - intros Hs. specialize (B5 Hs). destruct B7; ss; auto; discriminate.
    - intros m a0 Hw Hs. apply (waiting_trans c m a0 x x1 es); auto. }
  fold s1 in HI1, HJ1, HA1, HW1, Hn1, Ht1. set (es := snd (exec (tstep c) s p)) in *.
  split; [exact HI1|]. split; [exact HJ1|]. split; [exact HA1|]. intros Hs.
  destruct (up_delay c s1 HK HU HI1 Hs) as (EL & UD). split; [exact EL|].
  assert (S0 : t_status s <> stopped).
  { intros E. pose proof (j_stop c s tr HJ) as F. rewrite E in F. pose proof (j_stop c s1 (tr ++ es) HJ1) as F1. rewrite existsb_app, F, Hs in F1. discriminate. }
  assert (P1 : 1 <= t_no s1).
  { destruct UD as [(j & r & _ & HLn & _)|(j & a & _ & Hj & _)].
    - rewrite (i_no c s1 HI1). lia.
    - destruct HA1 as (_ & HA1). apply HA1. intros F. rewrite F in Hj. destruct j; discriminate. }
  split; [lia|].
  assert (Last : forall t', In (EEnd (t_no s1) t') (tr ++ es) -> exists a, t_now s1 < a /\ a <= t_now s1 + c_interval c /\ waiting (t_no s1) a s1 /\
     exists j, nth_error (t_timers s1) j = Some (TArmed a)).
  { intros t' Hin. destruct (ended_run c s1 _ _ _ HI1 HJ1 Hin) as (_ & r' & Hr' & Ed). destruct UD as [(j & r & _ & HLn & Hj & Er)|(j & a & Ec & Hj & Ha & NG)].
    - rewrite (i_no c s1 HI1) in Hr'. replace (Z.to_nat (Z.of_nat (length (t_runs s1)) - 1)) with j in Hr' by lia. congruence.
    - exists a. split; [exact Ha|]. split; [apply (proj1 HA1 j a Hj)|]. split; [|exists j; exact Hj].
      split; [lia|]. intros _. split; [|split; [exact NG|intros [|[|]] j'; rewrite Ec; discriminate]].
      intros j' a' Hj'. destruct (i_delay c s1 HI1 HK) as (_ & _ & TK & _). unfold tokens in TK. rewrite Ec in TK. cbn [sumZ busy] in TK.
      pose proof (app_nonneg (t_clients s1)). destruct (Nat.eq_dec j j') as [<-|Hne]; [congruence|]. exfalso.
      assert (2 <= sumZ live (t_timers s1)); [|lia]. clear -Hj Hj' Hne. revert j j' Hj Hj' Hne.
      induction (t_timers s1) as [|x l IH]; intros [|j] [|j'] Hj Hj' Hne; cbn [nth_error sumZ] in *; try discriminate; try lia.
      + injection Hj as ->. pose proof (sumZ_ge_elem live l j' _ ltac:(apply Forall_forall; intros [] _; cbn; lia) Hj') as G. cbn [live] in *. lia.
      + injection Hj' as ->. pose proof (sumZ_ge_elem live l j _ ltac:(apply Forall_forall; intros [] _; cbn; lia) Hj) as G. cbn [live] in *. lia.
      + specialize (IH j j' Hj Hj' ltac:(lia)). pose proof (live_nonneg [x]). cbn [sumZ] in H. lia. }
  split.
  - intros m t' Hin. destruct (ended_run c s1 _ _ _ HI1 HJ1 Hin) as (Bm & _).
    destruct (Z.eq_dec m (t_no s1)) as [->|Hne].
    + destruct (Last t' Hin) as (a & L1 & L2 & L3 & j & L4). right. split; [reflexivity|]. exists a. split; [exact L1|]. split; [|exact L3].
      apply in_app_iff in Hin. destruct Hin as [Hin|Hin].
      * destruct (Z.eq_dec (t_status s) started) as [Es|Es].
        -- destruct (HM Es) as (_ & _ & HM1 & _). destruct (HM1 _ _ Hin) as [(t & Hb & _)|(Em & a0 & W1 & W2 & W3)].
           ++ exfalso. pose proof (begin_range c s1 (tr ++ es) _ t HJ1 ltac:(apply in_app_iff; left; exact Hb)). lia.
           ++ destruct (HW1 _ _ W3 Es) as (_ & W4). destruct (W4 eq_refl) as (W5 & _). rewrite (W5 j a L4). exact W2.
        -- assert (En : t_status s = new) by (destruct (i_status c s HI) as [?|[?|?]]; congruence).
           destruct (ended_run c s tr _ _ HI HJ Hin) as (_ & r & Hr & _). destruct (i_new c s HI En) as (_ & Er & _). rewrite Er in Hr. destruct (Z.to_nat _); discriminate.
      * specialize (Ht1 _ t' Hin eq_refl). lia.
    + left. destruct (up_begin_event c s1 _ (m + 1) HU HI1 HJ1 ltac:(lia)) as (t & Hb & Ht). pose proof Hin as Hin0.
      apply in_app_iff in Hin. destruct Hin as [Hin|Hin].
      * destruct (Z.eq_dec (t_status s) started) as [Es|Es].
        -- destruct (HM Es) as (_ & _ & HM1 & _). destruct (HM1 _ _ Hin) as [(t1 & Hb1 & Hb2)|(Em & a0 & W1 & W2 & W3)].
           ++ exists t1. split; [apply in_app_iff; left; exact Hb1|exact Hb2].
           ++ exists t. split; [exact Hb|lia].
        -- assert (En : t_status s = new) by (destruct (i_status c s HI) as [?|[?|?]]; congruence).
           destruct (ended_run c s tr _ _ HI HJ Hin) as (_ & r & Hr & _). destruct (i_new c s HI En) as (_ & Er & _). rewrite Er in Hr. destruct (Z.to_nat _); discriminate.
      * exists t. split; [exact Hb|]. specialize (Ht1 _ t' Hin eq_refl). lia.
  - intros i o ts Hin Ho. apply in_app_iff in Hin. destruct Hin as [Hin|Hin].
    + pose proof (in_start tr i o ts Hin Ho) as F. rewrite (j_start c s tr HJ) in F. apply andb_true_iff in F. destruct F as (F & _). apply negb_true_iff, Z.eqb_neq in F.
      assert (Es : t_status s = started) by (destruct (i_status c s HI) as [?|[?|?]]; congruence).
      destruct (HM Es) as (_ & _ & _ & HM2). destruct (HM2 i o ts Hin Ho) as (t & Hb & Ht). exists t. split; [apply in_app_iff; left; exact Hb|exact Ht].
    + destruct (up_begin_event c s1 _ 1 HU HI1 HJ1 ltac:(lia)) as (t & Hb & Ht). exists t. split; [exact Hb|]. specialize (Ht1 _ ts Hin eq_refl). lia.
Qed.

Lemma end_once c s tr m t t' : sinv c s -> jinv c s tr -> In (EEnd m t) tr -> In (EEnd m t') tr -> t = t'.
Proof.
  intros HI HJ H H'. apply in_times_end in H, H'.
  destruct (event_run c s tr GEnd m HI HJ) as (j & r & Hj & Hm); [intros E; rewrite E in H; destruct H|].
  destruct (j_runs c s tr HJ j r Hj) as (_ & _ & B & _). rewrite Hm in B. unfold endedW in B.
  destruct (times GEnd m tr) as [|x [|y l]]; [destruct H| |cbn [length] in B; destruct (r_job r); lia].
  destruct H as [<-|[]], H' as [<-|[]]. reflexivity.
Qed.

Lemma delay_on_time c lag t0 n pieces : c_kind c = Delay -> 0 <= lag -> 0 <= c_interval c ->
  keeps_up c lag (init t0 n) pieces ->
  let s := fst (texec c t0 n (concat pieces)) in let tr := snd (texec c t0 n (concat pieces)) in
  existsb stop_ok tr = false ->
  (forall i o ts, In (ERet i o Ok ts) tr -> starts o = true -> exists t, In (EBegin 1 t) tr /\ t <= ts + lag) /\
  (forall m t', In (EEnd m t') tr ->
    (exists t, In (EBegin (m + 1) t) tr /\ t' + c_interval c <= t <= t' + c_interval c + 2 * lag) \/ t_now s < t' + c_interval c + lag).
Proof.
  intros HK HL HP HU s tr Hno.
  destruct (delay_moments c lag t0 n pieces HK HL HP HU) as (HI & HJ & HA & HM). fold s in HI, HJ, HA, HM. fold tr in HJ, HM. split.
  - intros i o ts Hin Ho. destruct (started_of c s tr HI HJ Hno (in_start tr i o ts Hin Ho)) as (Es & _).
    destruct (HM Es) as (_ & _ & _ & H). apply (H i o ts Hin Ho).
  - intros m t' Hin.
    assert (Es : t_status s = started).
    { pose proof (j_stop c s tr HJ) as F. rewrite Hno in F. symmetry in F. apply Z.eqb_neq in F. destruct (i_status c s HI) as [En|[?|?]]; try congruence.
      destruct (ended_run c s tr _ _ HI HJ Hin) as (_ & r & Hr & _). destruct (i_new c s HI En) as (_ & Er & _). rewrite Er in Hr. destruct (Z.to_nat _); discriminate. }
    destruct (HM Es) as (_ & _ & H & _). destruct (H m t' Hin) as [(t & Hb & Ht)|(_ & a & W1 & W2 & _)]; [left|right; lia].
    exists t. split; [exact Hb|]. split; [|exact Ht]. pose proof Hb as Hb0. apply in_split in Hb0. destruct Hb0 as (x & y & E).
    destruct (delay_begin c t0 n (concat pieces) x (m + 1) t y HK E) as (_ & _ & _ & G).
    destruct (ended_run c s tr _ _ HI HJ Hin) as (Bm & _). destruct (G ltac:(lia)) as (t2 & Hin2 & Ht2).
    replace (m + 1 - 1) with m in Hin2 by lia.
    rewrite (end_once c s tr m t' t2 HI HJ Hin); [lia|]. rewrite E. apply in_app_iff. left. exact Hin2.
Qed.

(** ** A check for being caught up, for the examples *)

Definition upto (n : nat) : list nat := seq 0 n.
Definition owed_labels (s : task) : list label :=
  let cl := upto (length (t_clients s)) in let co := upto (length (t_cons s)) in let pr := upto (length (t_prov s)) in
  let ti := upto (length (t_timers s)) in let ru := upto (length (t_runs s)) in
  map LClient cl ++ flat_map (fun i => map (LClientSend i) co) cl ++ map LClientStop cl ++ map LCons co ++ map LConsStop co ++
  flat_map (fun p => map (LProvSend p) co) pr ++ map LProvTick pr ++ map LProvStop pr ++ [LTicker] ++
  map LTimer ti ++ flat_map (fun j => map (LTimerSend j) co) ti ++ map LTimerStop ti ++
  map LRun ru ++ map LRunDone ru ++ map LRunStop ru ++ map LExpire ru ++ map LJobBegin ru.
Definition up_check (c : cfg) (s : task) : bool :=
  forallb (fun l => match tstep c s l with None => true | Some _ => false end) (owed_labels s).

Lemma in_upto {A} (l : list A) i x : nth_error l i = Some x -> In i (upto (length l)).
Proof. intros H. apply in_seq. split; [lia|]. apply nth_error_Some. congruence. Qed.

Lemma up_checked c s : up_check c s = true -> caught_up c s.
Proof.
  intros H l Hl. unfold up_check in H. rewrite forallb_forall in H.
  enough (G : tstep c s l <> None -> In l (owed_labels s)).
  { destruct (tstep c s l) as [x|] eqn:E; [|reflexivity]. specialize (H l (G ltac:(discriminate))). cbv beta in H. rewrite E in H. discriminate. }
  intros G. unfold owed_labels. rewrite !in_app_iff. rewrite !in_flat_map.
  assert (R : forall k s1, receive k s = Some s1 -> In k (upto (length (t_cons s)))).
  { intros k s1 E. apply receive_some in E. destruct E as (E & _). apply (in_upto _ _ _ E). }
  destruct l; try discriminate Hl; cbn [tstep] in G.
  - destruct (nth_error (t_clients s) i) eqn:E; [|congruence]. pose proof (in_upto _ _ _ E). left. apply in_map. assumption.
  - destruct (nth_error (t_clients s) i) as [[| |]|] eqn:E; try congruence. destruct (receive k s) eqn:E2; [|congruence].
    right. left. exists i. split; [apply (in_upto _ _ _ E)|apply in_map, (R _ _ E2)].
  - destruct (nth_error (t_clients s) i) eqn:E; [|congruence]. pose proof (in_upto _ _ _ E). do 2 right. left. apply in_map. assumption.
  - unfold cons_step in G. destruct (nth_error (t_cons s) k) eqn:E; [|congruence]. pose proof (in_upto _ _ _ E). do 3 right. left. apply in_map. assumption.
  - destruct (nth_error (t_cons s) k) eqn:E; [|congruence]. pose proof (in_upto _ _ _ E). do 4 right. left. apply in_map. assumption.
  - destruct (nth_error (t_prov s) p) as [[| |]|] eqn:E; try congruence. destruct (receive k s) eqn:E2; [|congruence].
    do 5 right. left. exists p. split; [apply (in_upto _ _ _ E)|apply in_map, (R _ _ E2)].
  - destruct (nth_error (t_prov s) p) eqn:E; [|congruence]. pose proof (in_upto _ _ _ E). do 6 right. left. apply in_map. assumption.
  - destruct (nth_error (t_prov s) p) eqn:E; [|congruence]. pose proof (in_upto _ _ _ E). do 7 right. left. apply in_map. assumption.
  - do 8 right. left. left. reflexivity.
  - destruct (nth_error (t_timers s) j) eqn:E; [|congruence]. pose proof (in_upto _ _ _ E). do 9 right. left. apply in_map. assumption.
  - destruct (nth_error (t_timers s) j) as [[| | |]|] eqn:E; try congruence. destruct (receive k s) eqn:E2; [|congruence].
    do 10 right. left. exists j. split; [apply (in_upto _ _ _ E)|apply in_map, (R _ _ E2)].
  - destruct (nth_error (t_timers s) j) eqn:E; [|congruence]. pose proof (in_upto _ _ _ E). do 11 right. left. apply in_map. assumption.
  - destruct (nth_error (t_runs s) j) eqn:E; [|congruence]. pose proof (in_upto _ _ _ E). do 12 right. left. apply in_map. assumption.
  - destruct (nth_error (t_runs s) j) eqn:E; [|congruence]. pose proof (in_upto _ _ _ E). do 13 right. left. apply in_map. assumption.
  - destruct (nth_error (t_runs s) j) eqn:E; [|congruence]. pose proof (in_upto _ _ _ E). do 14 right. left. apply in_map. assumption.
  - destruct (nth_error (t_runs s) j) eqn:E; [|congruence]. pose proof (in_upto _ _ _ E). do 15 right. left. apply in_map. assumption.
  - destruct (nth_error (t_runs s) j) eqn:E; [|congruence]. pose proof (in_upto _ _ _ E). do 16 right. apply in_map. assumption.
Qed.
