(** What follows for the traces of the event bus at the level of single steps. *)
From Verif Require Import Common Bytes Threads BusModel BusSpec BusProofs BusTrace BusLive BusLockModel BusFineModel BusFineSpec BusFineProofs.
Local Open Scope list_scope.
Local Open Scope Z_scope.

Lemma nonlock_enter b i k p : nth_error (b_clients b) i = Some p -> enter p = None -> nonlock b (LClient i k).
Proof. intros Hp E q Hq. rewrite Hp in Hq. injection Hq as <-. destruct p; cbn in *; congruence. Qed.

Lemma ginv_step cap n s l s' es F : ginv cap n s F -> fbstep s l = Some (s', es) -> ginv cap n s' (F ++ es).
Proof.
  intros G E.
  assert (OUT : nonlock (f_bus s) l -> outside_step s (bstep (f_bus s) l) = Some (s', es) -> ginv cap n s' (F ++ es)).
  { intros NL H. unfold outside_step in H. destruct (bstep (f_bus s) l) as [(b', e')|] eqn:Eb; [|discriminate]. injection H as <- <-.
    exact (ginv_outside cap n s F l b' e' G NL Eb). }
  destruct l as [i o|i k|i|d k i]; cbn [fbstep] in E.
  - apply OUT; [exact I|exact E].
  - destruct (nth_error (f_in s) i) as [[w|]|] eqn:Hi; [|destruct (nth_error (b_clients (f_bus s)) i) as [p|] eqn:Hp; [|discriminate]|discriminate].
    + destruct (nth_error (b_clients (f_bus s)) i) as [p|]; [|discriminate]. exact (ginv_wstep cap n s F i k w s' es G Hi E).
    + destruct (enter p) as [w|] eqn:En; [|apply OUT; [eapply nonlock_enter; eassumption|exact E]].
      destruct (f_lock s) eqn:HL; [discriminate|]. destruct (existsb reading (b_disp (f_bus s))) eqn:Er; [discriminate|].
      injection E as <- <-. rewrite app_nil_r. eapply ginv_lock; eauto. intros d p0. apply (proj1 (existsb_nth _ _) Er).
  - apply OUT; [exact I|exact E].
  - destruct (nth_error (b_disp (f_bus s)) d) as [p|] eqn:Ed.
    2:{ apply OUT; [intros v; congruence|]. destruct (f_lock s); exact E. }
    destruct p as [|v| | | |]; try (apply OUT; [intros v'; congruence|destruct (f_lock s); exact E]).
    destruct (f_lock s) eqn:HL; [discriminate|]. unfold outside_step in E.
    destruct (bstep (f_bus s) (LDisp d k i)) as [(b', e')|] eqn:Eb; [|discriminate]. injection E as <- <-.
    eapply ginv_rlock; eauto.
Qed.

Lemma ginv_new cap n : ginv cap n (new_fbus cap n) [].
Proof.
  assert (NN : forall i, nth_error (repeat (@None wpc) n) i <> Some (Some WDead) /\ forall w, nth_error (repeat (@None wpc) n) i <> Some (Some w)).
  { intros i. split; [|intros w]; intros H; apply nth_error_In, repeat_spec in H; discriminate. }
  split.
  - constructor; cbn.
    + intros i w H. exfalso. exact (proj2 (NN i) w H).
    + discriminate.
    + rewrite !repeat_length. reflexivity.
    + congruence.
    + intros i w H. exfalso. exact (proj2 (NN i) w H).
  - exists (new_bus cap n), [], [], [], None, None. split; [exists []; reflexivity|]. split; [reflexivity|]. split; [reflexivity|].
    split; [constructor|]. split; [|constructor; reflexivity].
    constructor; cbn; try reflexivity.
    + intros r. destruct r; reflexivity.
    + intros j p _ Hj. exists p. split; [exact Hj|constructor].
Qed.

Lemma fine_ginv cap n sched : ginv cap n (fst (fbus_exec cap n sched)) (snd (fbus_exec cap n sched)).
Proof.
  unfold fbus_exec. apply (exec_inv fbstep (ginv cap n)) with (tr := []); [|apply ginv_new].
  intros s l s1 es tr G E. exact (ginv_step cap n s l s1 es tr G E).
Qed.

Lemma fine_explained cap n sched : exists tr p sched',
  seen tr = snd (fbus_exec cap n sched) /\ effects tr = snd (bus_exec cap n sched') /\ delayed tr p.
Proof.
  destruct (fine_ginv cap n sched) as (_ & c & T & tr & pend & own & dp & (sched' & R) & Sn & Ef & D & _).
  exists tr, dp, sched'. rewrite R. auto.
Qed.

(** ** Races and the loops of the dispatchers *)

Lemma fine_finv cap n sched : finv (fst (fbus_exec cap n sched)).
Proof. exact (proj1 (fine_ginv cap n sched)). Qed.

Lemma about_client s i a : finv s -> about_to s (Client i) = Some a -> f_lock s = Some i.
Proof.
  intros V H. cbn in H. destruct (nth_error (f_in s) i) as [[w|]|] eqn:E; try discriminate. exact (v_in _ V i w E).
Qed.
Lemma about_disp s d a : finv s -> about_to s (Dispatcher d) = Some a -> a = false /\ f_lock s = None.
Proof.
  intros V H. cbn in H. destruct (nth_error (b_disp (f_bus s)) d) as [[]|] eqn:E; try discriminate. injection H as <-. split; [reflexivity|].
  destruct (f_lock s) eqn:HL; [|reflexivity]. pose proof (v_reads _ V ltac:(congruence) d _ E). discriminate.
Qed.

Lemma fine_no_race cap n sched : ~ race (fst (fbus_exec cap n sched)).
Proof.
  pose proof (fine_finv cap n sched) as V. intros (g & h & a & b & Hne & Hg & Hh & Hw). destruct g as [i|d], h as [j|e].
  - pose proof (about_client _ _ _ V Hg). pose proof (about_client _ _ _ V Hh). congruence.
  - pose proof (about_client _ _ _ V Hg). destruct (about_disp _ _ _ V Hh). congruence.
  - pose proof (about_client _ _ _ V Hh). destruct (about_disp _ _ _ V Hg). congruence.
  - destruct (about_disp _ _ _ V Hg), (about_disp _ _ _ V Hh). destruct Hw; congruence.
Qed.

Lemma bstep_map b l b' es : nonlock b l -> bstep b l = Some (b', es) -> b_map b' = b_map b.
Proof.
  intros NL E. destruct l as [j o|j d|j|d k i]; cbn [bstep] in E.
  - destruct (nth_error (b_clients b) j) as [[]|]; try discriminate. destruct (call b j o) as [(b1, e1)|] eqn:Ec; [|discriminate]. injection E as <- <-.
    destruct o; cbn [call] in Ec; repeat match type of Ec with match ?x with _ => _ end = _ => destruct x; try discriminate end; injection Ec as <- <-; reflexivity.
  - destruct (nth_error (b_clients b) j) as [p|] eqn:Hj; [|discriminate]. specialize (NL p Hj).
    assert (TM : forall r ov b1 e1, take b r d = Some (ov, b1, e1) -> b_map b1 = b_map b).
    { intros r ov b1 e1 T. unfold take in T. repeat match type of T with match ?x with _ => _ end = _ => destruct x; try discriminate end; injection T as <- <- <-; reflexivity. }
    destruct p; cbn [needs_lock] in NL; try discriminate; cbn [client_step] in E; try discriminate;
      repeat match type of E with match ?x with _ => _ end = _ => destruct x eqn:?; try discriminate end; injection E as <- <-; try reflexivity; cbn; eapply TM; eassumption.
  - destruct (nth_error (b_clients b) j) as [[]|]; try discriminate. injection E as <- <-. reflexivity.
  - destruct (nth_error (b_disp b) d) as [p|]; [|discriminate].
    assert (OM : forall v r todo i again b1 e1, offer b d v r todo i again = Some (b1, e1) -> b_map b1 = b_map b).
    { intros v r todo i0 again b1 e1 T. unfold offer in T. repeat match type of T with match ?x with _ => _ end = _ => destruct x; try discriminate end; injection T as <- <-; reflexivity. }
    destruct p; cbn [disp_step] in E; try discriminate; repeat match type of E with match ?x with _ => _ end = _ => destruct x; try discriminate end;
      try (injection E as <- <-; reflexivity); eapply OM; eassumption.
Qed.

(** The map does not change while a dispatcher is in its loop. *)
Lemma fine_loop_stable cap n sched l s1 es d : in_loop (fst (fbus_exec cap n sched)) d ->
  fbstep (fst (fbus_exec cap n sched)) l = Some (s1, es) -> b_map (f_bus s1) = b_map (f_bus (fst (fbus_exec cap n sched))).
Proof.
  set (s := fst (fbus_exec cap n sched)). intros HL E. pose proof (fine_finv cap n sched) as V. fold s in V.
  assert (NL : f_lock s = None).
  { destruct (f_lock s) eqn:H; [|reflexivity]. pose proof (v_reads _ V ltac:(congruence) d) as R. unfold in_loop in HL.
    destruct (nth_error (b_disp (f_bus s)) d) as [[]|]; try contradiction; specialize (R _ eq_refl); discriminate. }
  assert (OUT : (forall i k, l = LClient i k -> forall p, nth_error (b_clients (f_bus s)) i = Some p -> needs_lock p = false) ->
     outside_step s (bstep (f_bus s) l) = Some (s1, es) -> b_map (f_bus s1) = b_map (f_bus s)).
  { intros NN H. unfold outside_step in H. destruct (bstep (f_bus s) l) as [(b', e')|] eqn:Eb; [|discriminate]. injection H as <- <-. cbn.
    destruct l as [i o|i k|i|d' k i]; try (eapply bstep_map; [|exact Eb]; exact I).
    - eapply bstep_map; [|exact Eb]. exact (NN i k eq_refl).
    - cbn [bstep] in Eb. destruct (nth_error (b_disp (f_bus s)) d') as [p|] eqn:Ed; [|discriminate].
      destruct p as [|v| | | |]; try (eapply (bstep_map _ (LDisp d' k i)); [intros v'; congruence|cbn [bstep]; rewrite Ed; exact Eb]).
      cbn [disp_step] in Eb. destruct (b_stuck (f_bus s)); [discriminate|]. injection Eb as <- <-. reflexivity. }
  destruct l as [i o|i k|i|d' k i]; cbn [fbstep] in E.
  - apply OUT; [discriminate|exact E].
  - destruct (nth_error (f_in s) i) as [[w|]|] eqn:Hi; [pose proof (v_in _ V _ _ Hi); congruence| |discriminate].
    destruct (nth_error (b_clients (f_bus s)) i) as [p|] eqn:Hp; [|discriminate].
    destruct (enter p) as [w|] eqn:En.
    + rewrite NL in E. destruct (existsb reading (b_disp (f_bus s))); [discriminate|]. injection E as <- <-. reflexivity.
    + apply OUT; [|exact E]. intros i' k' [= <- <-] q Hq. rewrite Hp in Hq. injection Hq as <-. destruct p; cbn in *; congruence.
  - apply OUT; [discriminate|exact E].
  - rewrite NL in E. apply OUT; [discriminate|]. destruct (nth_error (b_disp (f_bus s)) d') as [[]|]; exact E.
Qed.

(** ** Effects and sights *)

Definition fine_events (e : bevent) : Prop := ~ lags e /\ match e with EWaits _ _ => False | _ => True end.

Lemma seen_mtakes rs : seen (map (fun r => Takes (EClosedRecv r)) rs) = [].
Proof. induction rs as [|r rs IH]; cbn; [reflexivity|exact IH]. Qed.
Lemma effects_mtakes rs : effects (map (fun r => Takes (EClosedRecv r)) rs) = map EClosedRecv rs.
Proof. induction rs as [|r rs IH]; cbn; [reflexivity|]. f_equal. exact IH. Qed.

Lemma same_events {B} (f : bevent -> list B) tr p : delayed tr p ->
  (forall e, ~ fine_events e -> f e = []) -> flat_map f (seen tr) = flat_map f (effects tr).
Proof.
  intros D Hf. assert (L : forall e, lags e -> f e = []) by (intros e He; apply Hf; intros (H & _); tauto).
  induction D as [|tr e D IH NL|tr rs i ret e D IH Bs|tr rs i ret D IH Hr ND|tr rs1 r rs2 i ret D IH|tr i ret D IH|tr rs i ret j r D IH Hin Hj];
    rewrite ?seen_app, ?effects_app, ?flat_map_app; try rewrite IH; try reflexivity.
  - rewrite seen_mtakes, effects_mtakes. cbn. rewrite (L ret) by (destruct ret; cbn in Hr; try contradiction; exact I).
    rewrite !app_nil_r. replace (flat_map f (map EClosedRecv rs)) with (@nil B); [rewrite app_nil_r; reflexivity|].
    clear ND. induction rs as [|r rs IHr]; cbn; [reflexivity|]. rewrite (L (EClosedRecv r)) by exact I. exact IHr.
  - cbn. rewrite (L (EClosedRecv r)) by exact I. reflexivity.
  - cbn. assert (Lr : lags ret).
    { clear -D. remember (Some ([], i, ret)) as p eqn:Ep. assert (G : forall rs, p = Some (rs, i, ret) -> lags ret); [|eauto].
      clear Ep. intros rs Ep. revert rs Ep. induction D; intros rs0 Ep; try discriminate; eauto.
      - injection Ep as <- <- <-. destruct ret0; cbn in *; try contradiction; exact I.
      - injection Ep as <- <- <-. eauto. }
    rewrite (L ret Lr). reflexivity.
  - cbn. rewrite (Hf (EWaits j r)) by (intros (_ & H); exact H). reflexivity.
Qed.

Lemma delayed_ret tr rs i ret : delayed tr (Some (rs, i, ret)) -> returns i ret.
Proof.
  intros D. remember (Some (rs, i, ret)) as p eqn:Ep. revert rs Ep.
  induction D; intros rs0 Ep; try discriminate; eauto; injection Ep as <- <- <-; eauto.
Qed.
Lemma returns_lags i e : returns i e -> lags e. Proof. destruct e; cbn; tauto. Qed.

Definition closings (r : nat) (l : list bevent) : Z := count (fun e => match e with EClosedRecv r' => Nat.eqb r' r | _ => false end) l.
Definition still (p : option (list nat * nat * bevent)) : list nat := match p with Some (rs, _, _) => rs | None => [] end.

Lemma closings_app r a b : closings r (a ++ b) = closings r a + closings r b.
Proof. apply count_app. Qed.
Lemma closings_map r rs : closings r (map EClosedRecv rs) = count (fun r' => Nat.eqb r' r) rs.
Proof. unfold closings. induction rs as [|r0 rs IH]; cbn; [reflexivity|]. rewrite IH. reflexivity. Qed.
Lemma closings_other r e : (forall r', e <> EClosedRecv r') -> closings r [e] = 0.
Proof. intros H. unfold closings. cbn. destruct e; try reflexivity. destruct (H r0 eq_refl). Qed.

Lemma delayed_closings r tr p : delayed tr p -> closings r (effects tr) = closings r (seen tr) + count (fun r' => Nat.eqb r' r) (still p).
Proof.
  intros D. induction D as [|tr e D IH NL|tr rs i ret e D IH Bs|tr rs i ret D IH Hr ND|tr rs1 x rs2 i ret D IH|tr i ret D IH|tr rs i ret j x D IH Hin Hj];
    rewrite ?seen_app, ?effects_app, ?closings_app; try rewrite IH; cbn [still] in *.
  - reflexivity.
  - change (seen [Both e]) with [e]. change (effects [Both e]) with [e]. lia.
  - change (seen [Both e]) with [e]. change (effects [Both e]) with [e]. lia.
  - rewrite effects_mtakes, seen_mtakes, closings_map. change (effects [Takes ret]) with [ret]. change (seen [Takes ret]) with (@nil bevent).
    rewrite (closings_other r ret) by (intros r' ->; exact Hr).
    change (closings r []) with 0. change (count (fun r' => Nat.eqb r' r) []) with 0. lia.
  - change (seen [Seen (EClosedRecv x)]) with [EClosedRecv x]. change (effects [Seen (EClosedRecv x)]) with (@nil bevent).
    rewrite !count_app. unfold closings. cbn [count]. lia.
  - change (seen [Seen ret]) with [ret]. change (effects [Seen ret]) with (@nil bevent). rewrite (closings_other r ret); [unfold closings; cbn; lia|].
    intros r' ->. exact (delayed_ret _ _ _ _ D).
  - change (seen [Seen (EWaits j x)]) with [EWaits j x]. change (effects [Seen (EWaits j x)]) with (@nil bevent). unfold closings; cbn; lia.
Qed.

Lemma closings_in r l : In (EClosedRecv r) l <-> 0 < closings r l.
Proof.
  unfold closings. induction l as [|e l IH]; [cbn; split; [intros []|lia]|].
  pose proof (count_nonneg (fun e => match e with EClosedRecv r' => Nat.eqb r' r | _ => false end) l) as P. cbn [count In].
  rewrite IH. destruct e; try (split; [intros [H|H]; [discriminate|lia]|intros H; right; lia]).
  destruct (Nat.eqb_spec r0 r) as [->|Hne]; split; intros H; [lia|left; reflexivity| |right; lia].
  destruct H as [[= H]|H]; [congruence|lia].
Qed.

Lemma closings_once cap n sched r : closings r (snd (bus_exec cap n sched)) <= 1.
Proof.
  destruct (Z_le_gt_dec (closings r (snd (bus_exec cap n sched))) 1) as [H|H]; [exact H|exfalso].
  assert (P : forall l, 1 < closings r l -> exists a b, l = a ++ EClosedRecv r :: b /\ In (EClosedRecv r) a).
  { intros l. assert (G : forall l, 0 < closings r l -> exists a b, l = a ++ EClosedRecv r :: b /\ closings r b = 0).
    { intros l0. induction l0 as [|e l0 IH] using rev_ind; [unfold closings; cbn; lia|]. intros Hl. rewrite closings_app in Hl.
      destruct (Z_lt_dec 0 (closings r [e])) as [He|He].
      - unfold closings in He. cbn in He. destruct e; try lia. destruct (Nat.eqb_spec r0 r) as [->|]; [|lia]. exists l0, []. split; reflexivity.
      - pose proof (count_nonneg (fun e => match e with EClosedRecv r' => Nat.eqb r' r | _ => false end) [e]) as P0. fold (closings r [e]) in P0.
        destruct IH as (a & b & -> & Hb); [lia|]. exists a, (b ++ [e]). split; [rewrite <- app_assoc; reflexivity|]. rewrite closings_app. lia. }
    intros Hl. destruct (G l) as (a & b & -> & Hb); [lia|]. exists a, b. split; [reflexivity|]. apply closings_in.
    rewrite closings_app in Hl. change (EClosedRecv r :: b) with ([EClosedRecv r] ++ b) in Hl. rewrite closings_app in Hl.
    unfold closings in Hl at 2. cbn in Hl. rewrite Nat.eqb_refl in Hl. lia. }
  destruct (P (snd (bus_exec cap n sched)) ltac:(lia)) as (a & b & E & Hin).
  apply (proj2 (concerns_registered cap n sched a (EClosedRecv r) b r E eq_refl)). exact Hin.
Qed.

(** Where something is seen, the part before it is a trace of its own. *)
Definition sight (x : bobs) : Prop := match x with Takes _ => False | _ => True end.
Lemma delayed_prefix tr p : delayed tr p -> forall tr1 x tr2, tr = tr1 ++ x :: tr2 -> sight x ->
  exists p1 p2, delayed tr1 p1 /\ delayed (tr1 ++ [x]) p2.
Proof.
  assert (CUT : forall t0 (y : bobs) tr1 x tr2, t0 ++ [y] = tr1 ++ x :: tr2 -> (exists t, t0 = tr1 ++ x :: t) \/ (t0 = tr1 /\ y = x)).
  { intros t0 y tr1 x tr2 E. destruct tr2 as [|z tr2] using rev_ind.
    - apply app_inj_tail in E. destruct E as (-> & ->). right. auto.
    - left. exists tr2. clear IHtr2. rewrite app_comm_cons, app_assoc in E. apply app_inj_tail in E. exact (proj1 E). }
  intros D. induction D as [|tr e D IH NL|tr rs i ret e D IH Bs|tr rs i ret D IH Hr ND|tr rs1 r rs2 i ret D IH|tr i ret D IH|tr rs i ret j r D IH Hin Hj]; intros tr1 x tr2 E Hx.
  - destruct tr1; discriminate.
  - destruct (CUT _ _ _ _ _ E) as [(t & ->)|(-> & <-)]; [eapply IH; eauto|]. eexists _, _. split; [exact D|]. constructor; eassumption.
  - destruct (CUT _ _ _ _ _ E) as [(t & ->)|(-> & <-)]; [eapply IH; eauto|]. eexists _, _. split; [exact D|]. constructor; eassumption.
  - assert (G : forall g tr2, (forall y, In y g -> ~ sight y) -> tr ++ g = tr1 ++ x :: tr2 -> exists t, tr = tr1 ++ x :: t).
    { induction g as [|y g IHg] using rev_ind; intros t2 Hg Eg; [rewrite app_nil_r in Eg; eauto|]. rewrite app_assoc in Eg.
      destruct (CUT _ _ _ _ _ Eg) as [(t & Et)|(_ & ->)].
      - apply (IHg t); [|exact Et]. intros z Hz. apply Hg. apply in_or_app. auto.
      - exfalso. apply (Hg x); [apply in_or_app; right; left; reflexivity|exact Hx]. }
    destruct (G (map (fun r => Takes (EClosedRecv r)) rs ++ [Takes ret]) tr2) as (t & ->); [|exact E|eapply IH; eauto].
    intros y Hy. apply in_app_iff in Hy. destruct Hy as [Hy|[<-|[]]]; [|exact (fun f => f)].
    apply in_map_iff in Hy. destruct Hy as (r & <- & _). exact (fun f => f).
  - destruct (CUT _ _ _ _ _ E) as [(t & ->)|(-> & <-)]; [eapply IH; eauto|]. eexists _, _. split; [exact D|]. constructor; eassumption.
  - destruct (CUT _ _ _ _ _ E) as [(t & ->)|(-> & <-)]; [eapply IH; eauto|]. eexists _, _. split; [exact D|]. econstructor; eassumption.
  - destruct (CUT _ _ _ _ _ E) as [(t & ->)|(-> & <-)]; [eapply IH; eauto|]. eexists _, _. split; [exact D|]. constructor; eassumption.
Qed.

Lemma seen_split tr : forall pre e post, seen tr = pre ++ e :: post ->
  exists tr1 x tr2, tr = tr1 ++ x :: tr2 /\ seen tr1 = pre /\ (x = Both e \/ x = Seen e).
Proof.
  induction tr as [|y tr IH]; intros pre e post E; [destruct pre; discriminate|].
  assert (G : forall e0, (y = Both e0 \/ y = Seen e0) -> exists tr1 x tr2, y :: tr = tr1 ++ x :: tr2 /\ seen tr1 = pre /\ (x = Both e \/ x = Seen e)).
  { intros e0 Hy. assert (E' : e0 :: seen tr = pre ++ e :: post) by (destruct Hy as [-> | ->]; exact E).
    destruct pre as [|p0 pre]; injection E' as -> E'; [exists [], y, tr; auto|].
    destruct (IH _ _ _ E') as (tr1 & x & tr2 & -> & <- & Hx). exists (y :: tr1), x, tr2. destruct Hy as [-> | ->]; auto. }
  destruct y as [e0|e0|e0]; [apply (G e0); auto| |apply (G e0); auto].
  destruct (IH _ _ _ E) as (tr1 & x & tr2 & -> & <- & Hx). exists (Takes e0 :: tr1), x, tr2. auto.
Qed.

Lemma seen_effects tr p e : delayed tr p -> lags e -> In e (seen tr) -> In e (effects tr).
Proof.
  intros D L. assert (G : (In e (seen tr) -> In e (effects tr)) /\
    match p with Some (rs, i, ret) => In ret (effects tr) /\ forall r, In r rs -> In (EClosedRecv r) (effects tr) | None => True end); [|tauto].
  induction D as [|tr e0 D IH NL|tr rs i ret e0 D IH Bs|tr rs i ret D IH Hr ND|tr rs1 r rs2 i ret D IH|tr i ret D IH|tr rs i ret j r D IH Hin Hj];
    rewrite ?seen_app, ?effects_app, ?in_app_iff.
  - split; [intros []|exact I].
  - split; [cbn; tauto|exact I].
  - destruct IH as (IH & I1 & I2). split; [cbn; tauto|]. split; [tauto|]. intros r0 H0. apply in_or_app. auto.
  - split; [|split].
    + intros [H|[H|H]]; [tauto| |destruct H]. rewrite seen_mtakes in H. destruct H.
    + right. right. left. reflexivity.
    + intros r0 H0. apply in_or_app. right. rewrite effects_mtakes. apply in_or_app. left. apply in_map. exact H0.
  - destruct IH as (IH & I1 & I2). split; [|split].
    + intros [H|[<-|[]]]; [left; tauto|]. left. apply I2. apply in_or_app. right. left. reflexivity.
    + tauto.
    + intros r0 H0. apply in_or_app. left. apply I2. apply in_app_iff in H0. apply in_or_app. cbn. tauto.
  - destruct IH as (IH & I1 & I2). split; [|exact I]. intros [H|[<-|[]]]; tauto.
  - destruct IH as (IH & I1 & I2). split; [|split].
    + intros [H|[<-|[]]]; [tauto|destruct L].
    + tauto.
    + intros r0 H0. apply in_or_app. auto.
Qed.

(** ** The guarantees of the bus *)

Ltac fe := let e := fresh in let He := fresh in intros e He; destruct e; try reflexivity; exfalso; apply He; split; [exact (fun f => f)|exact I].
Lemma lags_dec e : {lags e} + {~ lags e}.
Proof. destruct e; cbn; auto. Qed.

Lemma fine_no_disp_panic cap n sched d : ~ In (EDispPanic d) (snd (fbus_exec cap n sched)).
Proof.
  destruct (fine_explained cap n sched) as (tr & p & sched' & Sn & Ef & D). intros H.
  apply (no_disp_panic cap n sched' d). rewrite <- Ef. rewrite <- Sn in H.
  pose (f := fun e => match e with EDispPanic d' => if Nat.eqb d' d then [d] else [] | _ => [] end).
  assert (Hs : In d (flat_map f (seen tr))) by (apply in_flat_map; exists (EDispPanic d); split; [exact H|cbn; rewrite Nat.eqb_refl; left; reflexivity]).
  rewrite (same_events f tr p D) in Hs.
  - apply in_flat_map in Hs. destruct Hs as (e & He & Hd). unfold f in Hd. destruct e; try destruct Hd.
    destruct (Nat.eqb_spec d0 d) as [->|]; [exact He|destruct Hd].
  - fe.
Qed.

Lemma same_count (f : bevent -> bool) tr p : delayed tr p -> (forall e, ~ fine_events e -> f e = false) -> count f (seen tr) = count f (effects tr).
Proof.
  intros D Hf. assert (G : forall l, count f l = Z.of_nat (length (flat_map (fun e => if f e then [tt] else []) l))).
  { induction l as [|e l IH]; cbn [count flat_map]; [reflexivity|]. rewrite app_length, IH. destruct (f e); cbn [length]; lia. }
  rewrite !G. rewrite (same_events _ tr p D); [reflexivity|]. intros e He. rewrite (Hf e He). reflexivity.
Qed.

Lemma fine_order cap n sched d r : let tr := snd (fbus_exec cap n sched) in subseq (delivered d r tr) (sent tr).
Proof.
  destruct (fine_explained cap n sched) as (tr & p & sched' & Sn & Ef & D). cbn zeta. rewrite <- Sn. unfold delivered, sent.
  rewrite !(same_events _ tr p D) by fe. rewrite Ef. apply order.
Qed.
Lemma fine_order_one cap n sched r : let tr := snd (fbus_exec cap n sched) in dispatchers tr <= 1 -> subseq (delivered_to r tr) (sent tr).
Proof.
  destruct (fine_explained cap n sched) as (tr & p & sched' & Sn & Ef & D). cbn zeta. rewrite <- Sn. unfold delivered_to, sent, dispatchers.
  rewrite !(same_events _ tr p D) by fe. rewrite (same_count _ tr p D) by fe. rewrite Ef. apply order_one.
Qed.
Lemma fine_no_duplicates cap n sched r v :
  let tr := snd (fbus_exec cap n sched) in count (Z.eqb v) (delivered_to r tr) <= count (Z.eqb v) (sent tr).
Proof.
  destruct (fine_explained cap n sched) as (tr & p & sched' & Sn & Ef & D). cbn zeta. rewrite <- Sn. unfold delivered_to, sent.
  rewrite !(same_events _ tr p D) by fe. rewrite Ef. apply no_duplicates.
Qed.
Lemma fine_fifo cap n sched r : let tr := snd (fbus_exec cap n sched) in
  exists rest, delivered_to r tr = got r tr ++ rest /\ forall name rcap st, made tr r name rcap st -> Z.of_nat (length rest) <= rcap.
Proof.
  destruct (fine_explained cap n sched) as (tr & p & sched' & Sn & Ef & D). cbn zeta. rewrite <- Sn.
  destruct (receiver_fifo cap n sched' r) as (rest & E & Hr). exists rest. unfold delivered_to, got in *.
  rewrite !(same_events _ tr p D) by fe. rewrite Ef. split; [exact E|].
  intros name rcap st (i & Hi). apply (Hr name rcap st). exists i. rewrite <- Ef. apply (seen_effects tr p); [exact D|exact I|exact Hi].
Qed.

Lemma fine_closed_left_alone cap n sched pre e post r :
  snd (fbus_exec cap n sched) = pre ++ e :: post -> concerns r e -> ~ In (EClosedRecv r) pre.
Proof.
  destruct (fine_explained cap n sched) as (tr & p & sched' & Sn & Ef & D). rewrite <- Sn. intros E Hc Hin.
  destruct (seen_split tr pre e post E) as (tr1 & x & tr2 & Et & Ep & Hx).
  assert (Sx : sight x) by (destruct Hx as [-> | ->]; exact I).
  destruct (delayed_prefix tr p D tr1 x tr2 Et Sx) as (p1 & p2 & D1 & D2). rewrite <- Ep in Hin.
  pose proof (seen_effects tr1 p1 _ D1 (I : lags (EClosedRecv r)) Hin) as Hin'.
  destruct (lags_dec e) as [L|L].
  - assert (Ee : e = EClosedRecv r) by (destruct e; cbn in Hc, L; try contradiction; congruence). subst e.
    pose proof (delayed_closings r _ _ D) as K. pose proof (closings_once cap n sched' r) as O. rewrite <- Ef in O.
    rewrite E, closings_app in K. change (EClosedRecv r :: post) with ([EClosedRecv r] ++ post) in K. rewrite closings_app in K.
    apply closings_in in Hin. rewrite Ep in Hin.
    assert (C1 : closings r [EClosedRecv r] = 1) by (unfold closings; cbn; rewrite Nat.eqb_refl; reflexivity).
    pose proof (count_nonneg (fun r' => Nat.eqb r' r) (still p)). unfold closings in K, Hin, O, C1 |- *.
    pose proof (count_nonneg (fun e => match e with EClosedRecv r' => Nat.eqb r' r | _ => false end) post). lia.
  - assert (Ex : x = Both e).
    { destruct Hx as [-> | ->]; [reflexivity|exfalso]. remember (tr1 ++ [Seen e]) as t eqn:Eq. destruct D2;
        try (apply app_inj_tail in Eq; destruct Eq as (_ & [=]); subst; try (apply L; exact I); try (exact Hc)).
      - destruct tr1; discriminate.
      - rewrite app_assoc in Eq. apply app_inj_tail in Eq. destruct Eq as (_ & [=]).
      - apply L. eapply returns_lags. eapply delayed_ret. eassumption. }
    subst x. apply (proj2 (concerns_registered cap n sched' (effects tr1) e (effects tr2) r ltac:(rewrite <- Ef, Et, effects_app; reflexivity) Hc)).
    exact Hin'.
Qed.

(** *** FanOutBus.Close *)
Definition is_reg (e : bevent) : bool := match e with EReg _ _ _ _ _ => true | _ => false end.
Definition due (p : option (list nat * nat * bevent)) : list bevent := match p with Some (_, _, ret) => filter is_reg [ret] | None => [] end.

Lemma is_reg_lags e : ~ lags e -> is_reg e = false. Proof. destruct e; cbn; tauto. Qed.
Lemma is_reg_beside i e : beside i e -> is_reg e = false. Proof. destruct e; cbn; tauto. Qed.

Lemma delayed_regs tr p : delayed tr p -> filter is_reg (effects tr) = filter is_reg (seen tr) ++ due p.
Proof.
  intros D. induction D as [|tr e D IH NL|tr rs i ret e D IH Bs|tr rs i ret D IH Hr ND|tr rs1 r rs2 i ret D IH|tr i ret D IH|tr rs i ret j r D IH Hin Hj];
    rewrite ?seen_app, ?effects_app, ?filter_app; cbn [due] in *; try rewrite IH.
  - reflexivity.
  - cbn. rewrite (is_reg_lags e NL). rewrite !app_nil_r. reflexivity.
  - change (effects [Both e]) with [e]. change (seen [Both e]) with [e]. cbn [filter]. rewrite (is_reg_beside i e Bs). rewrite !app_nil_r. reflexivity.
  - rewrite effects_mtakes, seen_mtakes. change (effects [Takes ret]) with [ret]. change (seen [Takes ret]) with (@nil bevent).
    replace (filter is_reg (map EClosedRecv rs)) with (@nil bevent); [cbn [filter app]; rewrite !app_nil_r; reflexivity|].
    clear ND. induction rs as [|r rs IHr]; cbn; [reflexivity|exact IHr].
  - change (effects [Seen (EClosedRecv r)]) with (@nil bevent). change (seen [Seen (EClosedRecv r)]) with [EClosedRecv r]. cbn [filter is_reg]. rewrite !app_nil_r. reflexivity.
  - change (effects [Seen ret]) with (@nil bevent). change (seen [Seen ret]) with [ret]. cbn [filter]. rewrite !app_nil_r. reflexivity.
  - change (effects [Seen (EWaits j r)]) with (@nil bevent). change (seen [Seen (EWaits j r)]) with [EWaits j r]. cbn [filter is_reg]. rewrite !app_nil_r. reflexivity.
Qed.

Lemma filter_split {A} (f : A -> bool) l : forall u x v, filter f l = u ++ x :: v -> exists a b, l = a ++ x :: b /\ filter f b = v.
Proof.
  induction l as [|y l IH]; intros u x v E; [destruct u; discriminate|]. cbn in E. destruct (f y).
  - destruct u as [|u0 u]; injection E as -> E; [exists [], l; auto|]. destruct (IH _ _ _ E) as (a & b & -> & Hb). exists (u0 :: a), b. auto.
  - destruct (IH _ _ _ E) as (a & b & -> & Hb). exists (y :: a), b. auto.
Qed.

Lemma delayed_mid tr rs i ret : delayed tr (Some (rs, i, ret)) -> exists tr0 rs0 mid,
  tr = tr0 ++ (map (fun r => Takes (EClosedRecv r)) rs0 ++ [Takes ret]) ++ mid /\ delayed tr0 None /\
  forall e, In e (seen mid) -> is_reg e = false.
Proof.
  intros D. remember (Some (rs, i, ret)) as p eqn:Ep. revert rs Ep.
  induction D as [|tr e D IH NL|tr rs' i' ret' e D IH Bs|tr rs' i' ret' D IH Hr ND|tr rs1 r rs2 i' ret' D IH|tr i' ret' D IH|tr rs' i' ret' j r D IH Hin Hj];
    intros rs Ep; try discriminate; injection Ep as <- -> ->.
  - destruct (IH _ eq_refl) as (tr0 & rs0 & mid & -> & D0 & Hm). exists tr0, rs0, (mid ++ [Both e]).
    split; [rewrite <- !app_assoc; reflexivity|]. split; [exact D0|]. intros e0. rewrite seen_app, in_app_iff. intros [H|[<-|[]]]; [auto|eapply is_reg_beside; exact Bs].
  - exists tr, rs', []. rewrite app_nil_r. split; [reflexivity|]. split; [exact D|intros e []].
  - destruct (IH _ eq_refl) as (tr0 & rs0 & mid & -> & D0 & Hm). exists tr0, rs0, (mid ++ [Seen (EClosedRecv r)]).
    split; [rewrite <- !app_assoc; reflexivity|]. split; [exact D0|]. intros e0. rewrite seen_app, in_app_iff. intros [H|[<-|[]]]; [auto|reflexivity].
  - destruct (IH _ eq_refl) as (tr0 & rs0 & mid & -> & D0 & Hm). exists tr0, rs0, (mid ++ [Seen (EWaits j r)]).
    split; [rewrite <- !app_assoc; reflexivity|]. split; [exact D0|]. intros e0. rewrite seen_app, in_app_iff. intros [H|[<-|[]]]; [auto|reflexivity].
Qed.

Lemma delayed_at_return tr1 e p2 : delayed (tr1 ++ [Seen e]) p2 -> lags e -> (forall r, e <> EClosedRecv r) -> exists i, delayed tr1 (Some ([], i, e)).
Proof.
  intros D L Nc. remember (tr1 ++ [Seen e]) as t eqn:Eq. destruct D as [|tr e0 D NL|tr rs i ret e0 D Bs|tr rs i ret D Hr ND|tr rs1 r rs2 i ret D|tr i ret D|tr rs i ret j r D Hin Hj].
  - destruct tr1; discriminate.
  - apply app_inj_tail in Eq. destruct Eq as (_ & [=]).
  - apply app_inj_tail in Eq. destruct Eq as (_ & [=]).
  - rewrite app_assoc in Eq. apply app_inj_tail in Eq. destruct Eq as (_ & [=]).
  - apply app_inj_tail in Eq. destruct Eq as (_ & [= <-]). destruct (Nc r eq_refl).
  - apply app_inj_tail in Eq. destruct Eq as (-> & [= ->]). eauto.
  - apply app_inj_tail in Eq. destruct Eq as (_ & [= <-]). destruct L.
Qed.
Lemma delayed_not_both tr1 e p2 : delayed (tr1 ++ [Both e]) p2 -> ~ lags e.
Proof.
  intros D L. remember (tr1 ++ [Both e]) as t eqn:Eq. destruct D as [|tr e0 D NL|tr rs i ret e0 D Bs|tr rs i ret D Hr ND|tr rs1 r rs2 i ret D|tr i ret D|tr rs i ret j r D Hin Hj].
  - destruct tr1; discriminate.
  - apply app_inj_tail in Eq. destruct Eq as (_ & [= <-]). tauto.
  - apply app_inj_tail in Eq. destruct Eq as (_ & [= <-]). destruct e0; cbn in *; tauto.
  - rewrite app_assoc in Eq. apply app_inj_tail in Eq. destruct Eq as (_ & [=]).
  - apply app_inj_tail in Eq. destruct Eq as (_ & [=]).
  - apply app_inj_tail in Eq. destruct Eq as (_ & [=]).
  - apply app_inj_tail in Eq. destruct Eq as (_ & [=]).
Qed.

Lemma fine_close_closes_all cap n sched pre i post r name rcap st :
  snd (fbus_exec cap n sched) = pre ++ EBusClosed i :: post -> made pre r name rcap st ->
  In (EClosedRecv r) pre \/
  exists a j b j' r' rcap' st', pre = a ++ EReg j r name rcap st :: b /\ In (EReg j' r' name rcap' st') b.
Proof.
  destruct (fine_explained cap n sched) as (tr & p & sched' & Sn & Ef & D). rewrite <- Sn. intros E (j0 & Hm).
  destruct (seen_split tr pre _ post E) as (tr1 & x & tr2 & Et & Ep & Hx).
  assert (Sx : sight x) by (destruct Hx as [-> | ->]; exact I).
  destruct (delayed_prefix tr p D tr1 x tr2 Et Sx) as (p1 & p2 & _ & D2).
  destruct Hx as [-> | ->]; [destruct (delayed_not_both _ _ _ D2 I)|].
  destruct (delayed_at_return _ _ _ D2 I ltac:(discriminate)) as (i' & D1).
  destruct (delayed_mid _ _ _ _ D1) as (tr0 & rs0 & mid & E1 & D0 & Hmid).
  assert (Ec : snd (bus_exec cap n sched') = (effects tr0 ++ map EClosedRecv rs0) ++ EBusClosed i :: effects mid ++ effects tr2).
  { rewrite <- Ef, Et, E1. change (Seen (EBusClosed i) :: tr2) with ([Seen (EBusClosed i)] ++ tr2).
    rewrite !effects_app, effects_mtakes. change (effects [Takes (EBusClosed i)]) with [EBusClosed i]. change (effects [Seen (EBusClosed i)]) with (@nil bevent).
    rewrite <- !app_assoc. reflexivity. }
  assert (Es : pre = seen tr0 ++ seen mid) by (rewrite <- Ep, E1, !seen_app, seen_mtakes; reflexivity).
  assert (Hm0 : In (EReg j0 r name rcap st) (seen tr0)).
  { rewrite Es in Hm. apply in_app_iff in Hm. destruct Hm as [H|H]; [exact H|]. specialize (Hmid _ H). discriminate. }
  destruct (close_closes_all cap n sched' _ i _ r name rcap st Ec) as [Hc|(a & j & b & j' & r' & rcap' & st' & Ea & Hb)].
  - exists j0. apply in_or_app. left. apply (seen_effects tr0 None); [exact D0|exact I|exact Hm0].
  - left. rewrite <- Ep. apply closings_in. pose proof (delayed_closings r _ _ D1) as K. cbn [still count] in K.
    assert (H1 : In (EClosedRecv r) (effects tr1)).
    { rewrite E1, !effects_app, effects_mtakes. apply in_app_iff in Hc. rewrite !in_app_iff. tauto. }
    apply closings_in in H1. lia.
  - right. assert (Er : filter is_reg (seen tr0) = filter is_reg a ++ EReg j r name rcap st :: filter is_reg b).
    { pose proof (delayed_regs _ _ D0) as Hr. cbn [due] in Hr. rewrite app_nil_r in Hr. rewrite <- Hr.
      transitivity (filter is_reg (effects tr0 ++ map EClosedRecv rs0)).
      - rewrite filter_app. replace (filter is_reg (map EClosedRecv rs0)) with (@nil bevent); [rewrite app_nil_r; reflexivity|].
        clear. induction rs0 as [|r rs IHr]; cbn; [reflexivity|exact IHr].
      - rewrite Ea, filter_app. reflexivity. }
    destruct (filter_split _ _ _ _ _ Er) as (a' & b' & Ea' & Hb'). exists a', j, (b' ++ seen mid), j', r', rcap', st'.
    split; [rewrite Es, Ea', <- app_assoc; reflexivity|]. apply in_or_app. left.
    assert (Hf : In (EReg j' r' name rcap' st') (filter is_reg b')) by (rewrite Hb'; apply filter_In; auto).
    apply filter_In in Hf. tauto.
Qed.

(** ** The write lock comes free *)

Lemma dead_event cap n sched i : nth_error (f_in (fst (fbus_exec cap n sched))) i = Some (Some WDead) ->
  In (EClosePanic i) (snd (fbus_exec cap n sched)).
Proof.
  revert i. unfold fbus_exec.
  apply (exec_inv fbstep (fun s tr => forall i, nth_error (f_in s) i = Some (Some WDead) -> In (EClosePanic i) tr)) with (tr := []).
  2:{ cbn. intros i H. apply nth_error_In, repeat_spec in H. discriminate. }
  intros s l s1 es tr IH E i Hi. apply in_or_app.
  assert (OUT : forall o, outside_step s o = Some (s1, es) -> In (EClosePanic i) tr).
  { intros o H. unfold outside_step in H. destruct o as [(b, e)|]; [|discriminate]. injection H as <- <-. apply IH. exact Hi. }
  destruct l as [j o|j k|j|d k j]; cbn [fbstep] in E.
  - left. eapply OUT. exact E.
  - destruct (nth_error (f_in s) j) as [[w|]|] eqn:Hj; [|destruct (nth_error (b_clients (f_bus s)) j) as [p|]; [|discriminate]|discriminate].
    + destruct (nth_error (b_clients (f_bus s)) j) as [p|]; [|discriminate].
      destruct w; cbn [wstep] in E; unfold panic in E;
        repeat match type of E with match ?x with _ => _ end = _ => destruct x; try discriminate end; try discriminate;
        injection E as <- <-; cbn [goto f_in] in Hi; apply nth_error_upd_Some in Hi;
        (destruct Hi as [(-> & Hw & _)|(_ & Hi)]; [first [discriminate Hw|right; left; reflexivity]|left; apply IH; exact Hi]).
    + destruct (enter p) as [w|] eqn:En; [|left; eapply OUT; exact E]. destruct (f_lock s); [discriminate|].
      destruct (existsb _ _); [discriminate|]. injection E as <- <-. cbn [f_in] in Hi. apply nth_error_upd_Some in Hi.
      destruct Hi as [(-> & [= <-] & _)|(_ & Hi)]; [destruct p; discriminate|left; apply IH; exact Hi].
  - left. eapply OUT. exact E.
  - left. destruct (nth_error (b_disp (f_bus s)) d) as [[]|]; destruct (f_lock s); try discriminate; eapply OUT; exact E.
Qed.

Definition rank (b : bus) (w : wpc) : nat :=
  match w with
  | WDead => 0
  | WUnlock _ => 1
  | WPut _ _ _ | WDel _ => 2
  | WShut _ _ => 3
  | WFind _ => 4
  | WNext => 3 * length (b_map b) + 2
  | WShutNext _ _ => 3 * length (b_map b) + 1
  | WDelNext _ _ => 3 * length (b_map b)
  end.

Lemma classic_dead w : w = WDead \/ w <> WDead.
Proof. destruct w; first [left; reflexivity|right; discriminate]. Qed.

Lemma wstep_enabled cap n s F i w : ginv cap n s F -> nth_error (f_in s) i = Some (Some w) -> w <> WDead ->
  exists s' es, wstep s i 0 w = Some (s', es) /\
    (f_lock s' = None \/ exists w', nth_error (f_in s') i = Some (Some w') /\ (rank (f_bus s') w' < rank (f_bus s) w)%nat).
Proof.
  intros (V & c & T & tr & pend & own & dp & R & Sn & Ef & D & K & W) Hi Nd.
  pose proof (reach_binv _ _ _ _ R) as BI. rewrite (holder_in _ _ _ V Hi) in W.
  assert (GO : forall b w', nth_error (f_in (goto s b i w')) i = Some (Some w')) by (intros b w'; cbn; eapply nth_error_upd_same; exact Hi).
  destruct w as [name rcap st|r|r r'|r| |name r|name r|e|]; cbn [wstep rank]; [..|congruence].
  - eexists _, _. split; [reflexivity|]. right. eexists. split; [apply GO|cbn; lia].
  - inversion W; subst; names s c. destruct (k_clients _ _ _ _ K i _ ltac:(discriminate) Hcl) as (q & Hq & Rq). inversion Rq; subst q.
    pose proof (i_refs _ BI i _ Hq) as Hr. cbn in Hr. rewrite (same_recvs _ _ _ K) in Hr.
    destruct (nth_error (b_recvs (f_bus s)) r) as [me|]; [|congruence].
    destruct (lookup (b_map (f_bus s)) (r_name me)); unfold panic; eexists _, _; (split; [reflexivity|]); right; eexists; (split; [apply GO|cbn; lia]).
  - inversion W; subst; names s c. apply lookup_In in Hlk. rewrite <- Hm in Hlk. destruct (i_map _ BI _ _ Hlk) as (x & Hx & _).
    rewrite (same_recvs _ _ _ K) in Hx. rewrite Hx.
    destruct (r_closed x); unfold panic; eexists _, _; (split; [reflexivity|]); right; eexists; (split; [apply GO|cbn; lia]).
  - inversion W; subst; names s c. destruct (face_nth _ _ _ _ Hfa) as (me & Em & _). rewrite Em.
    eexists _, _. split; [reflexivity|]. right. eexists. split; [apply GO|cbn; lia].
  - destruct (b_map (f_bus s)) as [|(name, r) m] eqn:Em.
    + eexists _, _. split; [reflexivity|]. right. eexists. split; [apply GO|cbn; lia].
    + cbn [nth_error]. eexists _, _. split; [reflexivity|]. right. eexists. split; [apply GO|]. cbn [rank goto f_bus]. rewrite Em. lia.
  - assert (Hx : exists x, nth_error (b_recvs (f_bus s)) r = Some x).
    { inversion W; subst; names s c.
      - rewrite <- Hm in Hmem. destruct (i_map _ BI _ _ Hmem) as (x & Hx & _). rewrite (same_recvs _ _ _ K) in Hx. eauto.
      - destruct (Hop0 _ _ Hmem) as (nm & Hn). destruct (face_nth _ _ _ _ Hn) as (x & Hx & _). eauto. }
    destruct Hx as (x & Hx). rewrite Hx.
    destruct (r_closed x); unfold panic; eexists _, _; (split; [reflexivity|]); right; eexists; (split; [apply GO|cbn; lia]).
  - eexists _, _. split; [reflexivity|]. right. eexists. split; [apply GO|]. cbn [rank goto f_bus set_map b_map].
    inversion W; subst; names s c. destruct (remove_split _ _ _ Hk1 Hmem) as (m1 & m2 & Em & Er). rewrite Er, Em, !app_length. cbn [length]. lia.
  - eexists _, _. split; [reflexivity|]. left. reflexivity.
Qed.

Lemma finishes cap n i : forall m s F, ginv cap n s F -> (exists w, nth_error (f_in s) i = Some (Some w) /\ w <> WDead /\ (rank (f_bus s) w <= m)%nat) ->
  exists k, (k <= m)%nat /\ let s' := fst (exec fbstep s (repeat (LClient i 0) k)) in
    f_lock s' = None \/ nth_error (f_in s') i = Some (Some WDead).
Proof.
  induction m as [|m IH]; intros s F G (w & Hi & Nd & Hr).
  { assert (rank (f_bus s) w = 0)%nat by lia. destruct w; cbn in *; try lia; try congruence.
    destruct G as (V & c & T & tr & pend & own & dp & _ & _ & _ & _ & _ & W). rewrite (holder_in _ _ _ V Hi) in W. inversion W; subst; names s c.
    destruct (b_map (f_bus s)); [destruct Hmem|cbn in *; lia]. }
  destruct (wstep_enabled cap n s F i w G Hi Nd) as (s' & es & E & Hs).
  destruct (v_needs _ (proj1 G) i w Hi) as (p & Hp & _).
  assert (E' : fbstep s (LClient i 0) = Some (s', es)) by (cbn [fbstep]; rewrite Hi, Hp; exact E).
  destruct Hs as [HL|(w' & Hw' & Hlt)].
  - exists 1%nat. split; [lia|]. cbn [repeat exec]. rewrite E'. cbn. left. exact HL.
  - destruct (classic_dead w') as [->|Nd'].
    + exists 1%nat. split; [lia|]. cbn [repeat exec]. rewrite E'. cbn. right. exact Hw'.
    + destruct (IH s' (F ++ es) (ginv_step _ _ _ _ _ _ _ G E')) as (k & Hk & HH); [exists w'; repeat split; auto; lia|].
      exists (S k). split; [lia|]. cbn [repeat exec]. rewrite E'. cbn zeta in *.
      destruct (exec fbstep s' (repeat (LClient i 0) k)) as (s2, e2). exact HH.
Qed.

Lemma rank_bound b w : (rank b w <= 3 * length (b_map b) + 4)%nat.
Proof. destruct w; cbn [rank]; lia. Qed.

Lemma fine_lock_free cap n sched i : f_lock (fst (fbus_exec cap n sched)) = Some i -> ~ In (EClosePanic i) (snd (fbus_exec cap n sched)) ->
  exists k, (k <= 3 * length (b_map (f_bus (fst (fbus_exec cap n sched)))) + 4)%nat /\
    let '(s, tr) := fbus_exec cap n (sched ++ repeat (LClient i 0) k) in f_lock s = None \/ In (EClosePanic i) tr.
Proof.
  intros HL NP. pose proof (fine_ginv cap n sched) as G. destruct (v_hold _ (proj1 G) i HL) as (w & Hw).
  assert (Nd : w <> WDead) by (intros ->; apply NP; apply dead_event; exact Hw).
  destruct (finishes cap n i _ _ _ G (ex_intro _ w (conj Hw (conj Nd (rank_bound _ w))))) as (k & Hk & HH). exists k. split; [exact Hk|].
  assert (Es : fst (fbus_exec cap n (sched ++ repeat (LClient i 0) k)) = fst (exec fbstep (fst (fbus_exec cap n sched)) (repeat (LClient i 0) k))).
  { unfold fbus_exec. rewrite exec_app. destruct (exec fbstep (new_fbus cap n) sched) as (s1, e1). cbn [fst].
    destruct (exec fbstep s1 (repeat (LClient i 0) k)); reflexivity. }
  pose proof (dead_event cap n (sched ++ repeat (LClient i 0) k) i) as DE. cbn zeta in HH. rewrite <- Es in HH.
  destruct (fbus_exec cap n (sched ++ repeat (LClient i 0) k)) as (s2, t2). cbn [fst snd] in *. tauto.
Qed.
