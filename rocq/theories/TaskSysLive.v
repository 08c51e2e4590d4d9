(** Proofs about the manager together with its tasks: what the tasks do after they are unregistered, and that
    all calls return. *)
From Verif Require Import Common Threads Bytes ScheduleModel ScheduleSpec ScheduleProofs ScheduleTrace ScheduleRuns ScheduleLive
  TaskMgrModel TaskMgrSpec TaskMgrProofs TaskSysModel TaskSysSpec TaskSysProofs.
Local Open Scope list_scope.
Local Open Scope Z_scope.

Section Sys.
Variables (cfgs : nat -> cfg) (name : nat -> string) (t0 : Z) (n : nat).
Notation inv := (yinv cfgs name t0 n).
Notation run := (exec (ystep cfgs name)).

(** ** Stopped tasks *)
Definition proper_event (e : yevent) : Prop := match e with YM (VStopped _ _) => False | _ => True end.
Lemma into_proper i t o p y y1 es : into cfgs i t o p y = Some (y1, es) -> Forall proper_event es.
Proof. intros E. apply into_some in E as (s & _ & _ & ->). repeat constructor. Qed.
Lemma back_proper i r y : Forall proper_event (snd (back i r y)).
Proof. unfold back. destruct (nth_error (y_pcs y) i) as [[]|]; cbn; repeat constructor. Qed.
Lemma map_proper t es : Forall proper_event (map (YT t) es).
Proof. apply Forall_forall. intros e H. apply in_map_iff in H as (x & <- & _). exact I. Qed.
Lemma ystep_proper y l y1 es : ystep cfgs name y l = Some (y1, es) -> Forall proper_event es.
Proof.
  intros E. destruct l as [i o|i k|t l|d]; cbn [ystep] in E.
  - destruct (nth_error (y_pcs y) i) as [[]|]; try discriminate. injection E as <- <-. repeat constructor.
  - destruct (nth_error (y_pcs y) i) as [[|w|w x|x|nm x|rest|rest j x]|]; try discriminate.
    + destruct w as [t|nm| |t|t]; try (exact (into_proper _ _ _ _ _ _ _ E)); destruct (y_locked y); try discriminate.
      * destruct (find_task (name t) (y_map y)); [|exact (into_proper _ _ _ _ _ _ _ E)]. injection E as <- <-. repeat constructor.
      * destruct (find_task nm (y_map y)); [exact (into_proper _ _ _ _ _ _ _ E)|]. injection E as <- <-. repeat constructor.
      * injection E as <- <-. constructor.
    + destruct rest as [|a rest]; [injection E as <- <-; repeat constructor|]. destruct (nth_error (a :: rest) k); [exact (into_proper _ _ _ _ _ _ _ E)|discriminate].
  - assert (K : exists s es1, match es1 with [ERet i _ r _] => let '(y2, more) := back i r (put_task t s y) in Some (y2, map (YT t) es1 ++ more) | _ => Some (put_task t s y, map (YT t) es1) end = Some (y1, es)).
    { destruct l; try discriminate; (match type of E with match ?x with _ => _ end = _ => destruct x as [[s es1]|]; [|discriminate] end; exists s, es1; exact E). }
    clear E. destruct K as (s & es1 & E).
    assert (D : Some (put_task t s y, map (YT t) es1) = Some (y1, es) \/ exists i r, (let '(y2, more) := back i r (put_task t s y) in Some (y2, map (YT t) es1 ++ more)) = Some (y1, es)).
    { destruct es1 as [|e [|]]; [left; exact E| |left; destruct e; exact E]. destruct e; try (left; exact E). right. eexists _, _. exact E. }
    destruct D as [D|(i & r & D)].
    + injection D as <- <-. apply map_proper.
    + pose proof (back_proper i r (put_task t s y)) as B. destruct (back i r (put_task t s y)) as [y2 more]. injection D as <- <-. apply Forall_app. split; [apply map_proper|exact B].
  - destruct (0 <=? d); [|discriminate]. injection E as <- <-. constructor.
Qed.
Lemma yexec_proper sched : Forall proper_event (snd (yexec cfgs name t0 n sched)).
Proof.
  apply (exec_inv (ystep cfgs name) (fun _ tr => Forall proper_event tr)) with (tr := []); [|constructor].
  intros s l s1 es tr H E. apply Forall_app. split; [exact H|exact (ystep_proper _ _ _ _ E)].
Qed.
Lemma stopped_event t a : Forall proper_event a -> was_stopped t (of_manager a) = true -> exists a1 i u a2, a = a1 ++ YT t (ERet i OStop Ok u) :: a2.
Proof.
  induction 1 as [|e a P F IH]; [discriminate|]. change (e :: a) with ([e] ++ a). rewrite of_manager_app. unfold was_stopped. rewrite existsb_app. intros H. apply orb_prop in H as [H|H].
  - destruct e as [e|x e]; [destruct e; try discriminate; destruct P|]. destruct e; try discriminate. destruct o; try discriminate. destruct r; try discriminate. cbn in H.
    rewrite orb_false_r in H. apply Nat.eqb_eq in H. subst x. exists [], i, t1, a. reflexivity.
  - destruct (IH H) as (a1 & i & u & a2 & ->). exists (e :: a1), i, u, a2. reflexivity.
Qed.

Lemma winds_down sched a b t : snd (yexec cfgs name t0 n sched) = a ++ b -> was_stopped t (of_manager a) = true -> winding_down cfgs t a b.
Proof.
  intros E S. pose proof (yexec_proper sched) as F. rewrite E in F. apply Forall_app in F as [F _]. destruct (stopped_event t a F S) as (a1 & i & u & a2 & ->).
  destruct (yi_tasks _ _ _ _ _ _ (yexec_inv cfgs name t0 n sched) t) as (ts & T). rewrite E in T.
  assert (T1 : snd (texec (cfgs t) t0 n ts) = of_task t a1 ++ ERet i OStop Ok u :: (of_task t a2 ++ of_task t b)).
  { rewrite T. cbn [snd]. rewrite <- app_assoc. cbn [app]. rewrite of_task_app. change (YT t (ERet i OStop Ok u) :: a2 ++ b) with ([YT t (ERet i OStop Ok u)] ++ a2 ++ b).
    rewrite !of_task_app. cbn. rewrite Nat.eqb_refl. reflexivity. }
  assert (Ea : of_task t (a1 ++ YT t (ERet i OStop Ok u) :: a2) = of_task t a1 ++ ERet i OStop Ok u :: of_task t a2).
  { rewrite of_task_app. change (YT t (ERet i OStop Ok u) :: a2) with ([YT t (ERet i OStop Ok u)] ++ a2). rewrite of_task_app. cbn. rewrite Nat.eqb_refl. reflexivity. }
  split.
  - intros K. pose proof (delay_after_stop (cfgs t) t0 n ts _ i OStop u _ K T1 eq_refl) as H. rewrite count_app in H. pose proof (count_nonneg is_begin (of_task t a2)). lia.
  - intros K P. destruct (rate_after_stop (cfgs t) t0 n ts _ i OStop u _ K P T1 eq_refl) as (i1 & o1 & t1 & H1 & H2 & H3).
    exists i1, o1, t1, i, OStop, u. rewrite (of_task_app t (_ ++ _) b), Ea. split; [apply in_or_app; left; exact H1|]. split; [exact H2|]. split; [apply in_or_app; right; left; reflexivity|]. split; [reflexivity|].
    rewrite !count_app in *. change (ERet i OStop Ok u :: of_task t a2) with ([ERet i OStop Ok u] ++ of_task t a2). rewrite count_app.
    change (count is_begin [ERet i OStop Ok u]) with 0. lia.
Qed.

Lemma man_trace sched : exists ms, snd (mexec name n ms) = of_manager (snd (yexec cfgs name t0 n sched)).
Proof. destruct (yi_mgr _ _ _ _ _ _ (yexec_inv cfgs name t0 n sched)) as (ms & m & E & _). exists ms. rewrite E. reflexivity. Qed.

Lemma unregister_winds_down sched a i nm r b t : snd (yexec cfgs name t0 n sched) = a ++ YM (VRet i (MUnregister nm) r) :: b ->
  registered name (of_manager a) nm = Some t -> r = MOk /\ winding_down cfgs t a b.
Proof.
  intros E R. destruct (man_trace sched) as (ms & M). rewrite E, of_manager_app in M.
  destruct (results name n ms _ (VRet i (MUnregister nm) r) _ M) as [-> H]. split; [reflexivity|]. pose proof (winds_down sched a _ t E (H t R)) as W.
  destruct W as [W1 W2]. split; [exact W1|]. intros K P. destruct (W2 K P) as (i1 & o1 & ts & i2 & o2 & te & Q). exists i1, o1, ts, i2, o2, te.
  change (YM (VRet i (MUnregister nm) MOk) :: b) with ([YM (VRet i (MUnregister nm) MOk)] ++ b) in Q. rewrite !of_task_app in *. exact Q.
Qed.
Lemma unregister_all_winds_down sched a i r b nm t : snd (yexec cfgs name t0 n sched) = a ++ YM (VRet i MUnregisterAll r) :: b ->
  registered name (of_manager a) nm = Some t -> r = MOk /\ winding_down cfgs t a b.
Proof.
  intros E R. destruct (man_trace sched) as (ms & M). rewrite E, of_manager_app in M.
  destruct (results name n ms _ (VRet i MUnregisterAll r) _ M) as [-> H]. split; [reflexivity|]. pose proof (winds_down sched a _ t E (H nm t R)) as W.
  destruct W as [W1 W2]. split; [exact W1|]. intros K P. destruct (W2 K P) as (i1 & o1 & ts & i2 & o2 & te & Q). exists i1, o1, ts, i2, o2, te.
  change (YM (VRet i MUnregisterAll MOk) :: b) with ([YM (VRet i MUnregisterAll MOk)] ++ b) in Q. rewrite !of_task_app in *. exact Q.
Qed.

(** ** Steps of one task as steps of all *)
Definition on (t : nat) (l : label) : ylabel := match l with LTime d => YTime d | l => YTask t l end.

Lemma back_tasks i r y : y_tasks (fst (back i r y)) = y_tasks y.
Proof. unfold back. destruct (nth_error (y_pcs y) i) as [[]|]; reflexivity. Qed.
Lemma back_no_task i r y t : of_task t (snd (back i r y)) = [].
Proof. unfold back. destruct (nth_error (y_pcs y) i) as [[]|]; reflexivity. Qed.
Lemma back_pcs i r y j : j <> i -> nth_error (y_pcs (fst (back i r y))) j = nth_error (y_pcs y) j.
Proof. intros N. unfold back. destruct (nth_error (y_pcs y) i) as [[]|]; cbn; try reflexivity; apply nth_error_upd_other; congruence. Qed.

Lemma task_step y t l : internal l = true -> match tstep (cfgs t) (y_tasks y t) l with
  | Some (s, [ERet i o r u]) => ystep cfgs name y (YTask t l) = Some (fst (back i r (put_task t s y)), YT t (ERet i o r u) :: snd (back i r (put_task t s y)))
  | Some (s, es) => ystep cfgs name y (YTask t l) = Some (put_task t s y, map (YT t) es)
  | None => ystep cfgs name y (YTask t l) = None
  end.
Proof.
  intros N. destruct l; try discriminate; cbn [ystep];
    match goal with |- context [tstep ?c ?s ?l] => destruct (tstep c s l) as [[s1 es]|]; [|reflexivity] end;
    destruct es as [|e [|e' es]]; try reflexivity; destruct e; try reflexivity; (match goal with |- context [back ?a ?b ?c] => destruct (back a b c) end; reflexivity).
Qed.

Lemma lift_step y t l : no_calls l = true -> match tstep (cfgs t) (y_tasks y t) l with
  | Some (s, es) => exists y1 es1, ystep cfgs name y (on t l) = Some (y1, es1) /\ y_tasks y1 t = s /\ of_task t es1 = es
  | None => ystep cfgs name y (on t l) = None
  end.
Proof.
  intros N. assert (K : internal l = true \/ exists d, l = LTime d) by (destruct l; eauto; discriminate). destruct K as [K|[d ->]].
  - pose proof (task_step y t l K) as E. replace (on t l) with (YTask t l) by (destruct l; try reflexivity; discriminate).
    destruct (tstep (cfgs t) (y_tasks y t) l) as [[s es]|]; [|exact E].
    assert (D : ystep cfgs name y (YTask t l) = Some (put_task t s y, map (YT t) es) \/ exists i o r u, es = [ERet i o r u] /\
      ystep cfgs name y (YTask t l) = Some (fst (back i r (put_task t s y)), YT t (ERet i o r u) :: snd (back i r (put_task t s y)))).
    { destruct es as [|e [|e' es]]; [left; exact E| |left; destruct e; exact E]. destruct e; try (left; exact E). right. eauto 8. }
    destruct D as [D|(i & o & r & u & -> & D)]; eexists _, _; (split; [exact D|]).
    + cbn. rewrite Nat.eqb_refl. split; [reflexivity|]. apply of_task_same.
    + rewrite back_tasks. cbn. rewrite !Nat.eqb_refl. split; [reflexivity|]. cbn. f_equal. apply back_no_task.
  - cbn [tstep on ystep]. destruct (0 <=? d) eqn:D; [|reflexivity]. eexists _, _. split; [reflexivity|]. split; reflexivity.
Qed.

Lemma lift t sched : forall y, Forall (fun l => no_calls l = true) sched ->
  y_tasks (fst (run y (map (on t) sched))) t = fst (exec (tstep (cfgs t)) (y_tasks y t) sched) /\
  of_task t (snd (run y (map (on t) sched))) = snd (exec (tstep (cfgs t)) (y_tasks y t) sched).
Proof.
  induction sched as [|l sched IH]; intros y F; [split; reflexivity|]. inversion F as [|? ? Hl Hs]; subst. pose proof (lift_step y t l Hl) as E. cbn [map exec].
  destruct (tstep (cfgs t) (y_tasks y t) l) as [[s es]|].
  - destruct E as (y1 & es1 & -> & E1 & E2). destruct (IH y1 Hs) as [I1 I2]. rewrite E1 in *.
    destruct (run y1 (map (on t) sched)) as [y2 es2]. destruct (exec (tstep (cfgs t)) s sched) as [s2 es3]. cbn [fst snd] in *. split; [exact I1|].
    rewrite of_task_app, E2, I2. reflexivity.
  - rewrite E. apply IH, Hs.
Qed.

(** ** Calls return *)
Definition ends_with (y : sys) (P : sys -> list yevent -> Prop) : Prop :=
  exists ys, Forall (fun l => quiet_step l = true) ys /\ P (fst (run y ys)) (snd (run y ys)).

Lemma ends_now y (P : sys -> list yevent -> Prop) : P y [] -> ends_with y P.
Proof. intros H. exists []. split; [constructor|exact H]. Qed.
Lemma ends_step y tr l y1 es (P : sys -> list yevent -> Prop) : inv y tr -> quiet_step l = true -> ystep cfgs name y l = Some (y1, es) ->
  (inv y1 (tr ++ es) -> ends_with y1 (fun y2 es2 => P y2 (es ++ es2))) -> ends_with y P.
Proof.
  intros Y Q E K. destruct (K (ystep_inv _ _ _ _ _ _ _ _ _ Y E)) as (ys & F & H). exists (l :: ys). split; [constructor; assumption|]. cbn [exec]. rewrite E.
  destruct (run y1 ys) as [y2 es2]. exact H.
Qed.
Lemma ends_then y tr (P Q : sys -> list yevent -> Prop) : inv y tr -> ends_with y Q ->
  (forall y1 es, inv y1 (tr ++ es) -> Q y1 es -> ends_with y1 (fun y2 es2 => P y2 (es ++ es2))) -> ends_with y P.
Proof.
  intros Y (ys & F & H) K. assert (Y1 : inv (fst (run y ys)) (tr ++ snd (run y ys))).
  { apply (exec_inv (ystep cfgs name) inv); [|exact Y]. intros s l s1 es tr1 I E. exact (ystep_inv _ _ _ _ _ _ _ _ _ I E). }
  destruct (K _ _ Y1 H) as (ys2 & F2 & H2). exists (ys ++ ys2). split; [apply Forall_app; split; assumption|]. rewrite exec_app.
  destruct (run y ys) as [y1 es]. cbn [fst snd] in *. destruct (run y1 ys2) as [y2 es2]. exact H2.
Qed.

Definition resting (y y1 : sys) (i : nat) : Prop := forall j q, j <> i -> nth_error (y_pcs y) j = Some q -> in_task q = None -> nth_error (y_pcs y1) j = Some q.

Lemma until_back t o i p r u sched : forall y tr, inv y tr -> nth_error (y_pcs y) i = Some p -> in_task p = Some (t, o) -> Forall (fun l => without_job l = true) sched ->
  In (ERet i o r u) (snd (exec (tstep (cfgs t)) (y_tasks y t) sched)) ->
  ends_with y (fun y1 es => exists y0 r es0, nth_error (y_pcs y0) i = Some p /\ y1 = fst (back i r y0) /\ es = es0 ++ snd (back i r y0) /\ resting y y1 i).
Proof.
  induction sched as [|l sched IH]; intros y tr Y Ep Ip F H; [destruct H|]. inversion F as [|? ? Hl Hs]; subst.
  assert (Hi : internal l = true) by (destruct l; try discriminate; reflexivity).
  assert (Hc : forall j q, l <> LCall j q) by (intros j q ->; discriminate).
  pose proof (task_step y t l Hi) as E. cbn [exec] in H. destruct (tstep (cfgs t) (y_tasks y t) l) as [[s es]|] eqn:Es.
  2:{ exact (IH y tr Y Ep Ip Hs H). }
  destruct (tasks_jinv _ _ _ _ _ t (yi_tasks _ _ _ _ _ _ Y)) as [_ J].
  destruct (step_events _ _ _ _ _ _ J Es Hc) as [(j & o' & r' & -> & Hp)|Fi].
  - destruct (Nat.eq_dec j i) as [->|N].
    + apply (ends_step y tr (YTask t l) _ _ _ Y Hl E). intros _. apply ends_now. exists (put_task t s y), r', [YT t (ERet i o' r' (t_now (y_tasks y t)))]. split; [exact Ep|]. split; [reflexivity|].
      split; [rewrite app_nil_r; reflexivity|]. intros k q Nk Ek _. rewrite back_pcs by exact Nk. exact Ek.
    + apply (ends_step y tr (YTask t l) _ _ _ Y Hl E). intros Y1. set (y1 := fst (back j r' (put_task t s y))) in *.
      assert (T1 : y_tasks y1 t = s) by (unfold y1; rewrite back_tasks; cbn; rewrite Nat.eqb_refl; reflexivity).
      assert (E1 : nth_error (y_pcs y1) i = Some p) by (unfold y1; rewrite back_pcs by congruence; exact Ep).
      destruct (exec (tstep (cfgs t)) s sched) as [s2 es2] eqn:Ex. cbn [fst snd] in H. destruct H as [H|H]; [congruence|].
      assert (H' : In (ERet i o r u) (snd (exec (tstep (cfgs t)) (y_tasks y1 t) sched))) by (rewrite T1, Ex; exact H).
      apply (ends_then _ _ _ _ Y1 (IH y1 _ Y1 E1 Ip Hs H')). intros y2 es' _ (y0 & r0 & es0 & Q1 & Q2 & Q3 & Q4). apply ends_now. exists y0, r0, (YT t (ERet j o' r' (t_now (y_tasks y t))) :: snd (back j r' (put_task t s y)) ++ es0).
      split; [exact Q1|]. split; [exact Q2|]. split.
      * rewrite app_nil_r, Q3. cbn. rewrite app_assoc. reflexivity.
      * intros k q Nk Ek Ik. apply Q4; [exact Nk| |exact Ik]. unfold y1. rewrite back_pcs; [exact Ek|]. intros ->.
        pose proof (yi_pend _ _ _ _ _ _ Y j t) as P. rewrite Hp, Ek in P. cbn in P. rewrite Ik in P. discriminate.
  - assert (E' : ystep cfgs name y (YTask t l) = Some (put_task t s y, map (YT t) es)).
    { destruct es as [|e [|e' es]]; [exact E| |destruct e; exact E]. inversion Fi as [|? ? He _]; subst. destruct e; try destruct He; exact E. }
    apply (ends_step y tr (YTask t l) _ _ _ Y Hl E'). intros Y1. set (y1 := put_task t s y) in *.
    assert (T1 : y_tasks y1 t = s) by (unfold y1; cbn; rewrite Nat.eqb_refl; reflexivity).
    destruct (exec (tstep (cfgs t)) s sched) as [s2 es2] eqn:Ex. cbn [fst snd] in H. apply in_app_or in H as [H|H].
    { rewrite Forall_forall in Fi. destruct (Fi _ H). }
    assert (H' : In (ERet i o r u) (snd (exec (tstep (cfgs t)) (y_tasks y1 t) sched))) by (rewrite T1, Ex; exact H).
    apply (ends_then _ _ _ _ Y1 (IH y1 _ Y1 Ep Ip Hs H')). intros y2 es' _ (y0 & r0 & es0 & Q1 & Q2 & Q3 & Q4). apply ends_now. exists y0, r0, (map (YT t) es ++ es0).
    split; [exact Q1|]. split; [exact Q2|]. split; [rewrite app_nil_r, Q3, app_assoc; reflexivity|exact Q4].
Qed.

(** The call of a task that [i] is in comes back. *)
Lemma comes_back_sys y tr i p t o : inv y tr -> nth_error (y_pcs y) i = Some p -> in_task p = Some (t, o) ->
  ends_with y (fun y1 es => exists y0 r es0, nth_error (y_pcs y0) i = Some p /\ y1 = fst (back i r y0) /\ es = es0 ++ snd (back i r y0) /\ resting y y1 i).
Proof.
  intros Y Ep Ip. destruct (yi_tasks _ _ _ _ _ _ Y t) as (ts & T). pose proof (yi_pend _ _ _ _ _ _ Y i t) as P. rewrite Ep in P. cbn in P. rewrite Ip, Nat.eqb_refl in P.
  destruct (calls_return (cfgs t) t0 n ts i o) as (sched & r & u & F & H); [rewrite T; exact P|]. rewrite T in H. exact (until_back t o i p r u sched y tr Y Ep Ip F H).
Qed.

Lemma texec_clients c sched : length (t_clients (fst (texec c t0 n sched))) = n.
Proof.
  refine (exec_inv (tstep c) (fun s _ => length (t_clients s) = n) _ sched (init t0 n) [] _).
  - intros s l s1 es tr H E. rewrite (trans_clients _ _ _ _ (tstep_trans _ _ _ _ _ E)). exact H.
  - apply repeat_length.
Qed.
Lemma mexec_length ms : length (m_pcs (fst (mexec name n ms))) = n.
Proof.
  refine (exec_inv (mstep name) (fun m _ => length (m_pcs m) = n) _ ms (minit n) [] _); [|apply repeat_length].
  intros m l m1 es tr H E. rewrite <- H. destruct l as [i o|i k]; cbn [mstep] in E; destruct (nth_error (m_pcs m) i) as [p|] eqn:Ep; try discriminate.
  - destruct p; try discriminate. injection E as <- <-. apply upd_length.
  - unfold do_start, do_stop in E. destruct p as [|w|x|nm x|rest]; try discriminate; [destruct w as [x|nm| |x|x]| | |destruct rest as [|a rest]; [|destruct (nth_error (a :: rest) k)]];
      repeat match type of E with
      | context [if ?b then _ else _] => destruct b
      | context [match find_task ?a ?b with _ => _ end] => destruct (find_task a b)
      end; try discriminate; injection E as <- <-; cbn; apply upd_length.
Qed.
Lemma pcs_length y tr : inv y tr -> length (y_pcs y) = n.
Proof.
  intros Y. destruct (yi_mgr _ _ _ _ _ _ Y) as (ms & m & E & _ & _ & P & _). pose proof (mexec_length ms) as L. rewrite E in L. cbn [fst] in L. rewrite P, map_length in L. exact L.
Qed.

Lemma into_ready y tr i p t o q y' : inv y tr -> nth_error (y_pcs y) i = Some p -> in_task p = None -> y_tasks y' = y_tasks y ->
  exists s, into cfgs i t o q y' = Some (at_pc i q (put_task t s y'), [YT t (ECall i o)]).
Proof.
  intros Y Ep Ip T. pose proof (yi_pend _ _ _ _ _ _ Y i t) as P. rewrite Ep in P. cbn in P. rewrite Ip in P. destruct (tasks_jinv _ _ _ _ _ t (yi_tasks _ _ _ _ _ _ Y)) as [_ J].
  rewrite (j_pending _ _ _ J i) in P. destruct (yi_tasks _ _ _ _ _ _ Y t) as (ts & E). pose proof (texec_clients (cfgs t) ts) as L. rewrite E in L. cbn [fst] in L.
  unfold into. cbn [tstep]. rewrite T. destruct (nth_error (t_clients (y_tasks y t)) i) as [[| |]|] eqn:Ec; try discriminate; [eexists; reflexivity|].
  apply nth_error_None in Ec. pose proof (pcs_length y tr Y). assert (nth_error (y_pcs y) i <> None) by congruence. apply nth_error_Some in H0. lia.
Qed.

Lemma at_pc_here i p y : nth_error (y_pcs y) i <> None -> nth_error (y_pcs (at_pc i p y)) i = Some p.
Proof. intros H. cbn. destruct (nth_error (y_pcs y) i) eqn:E; [|congruence]. exact (nth_error_upd_same i p _ _ E). Qed.
Lemma at_pc_there i p y j : j <> i -> nth_error (y_pcs (at_pc i p y)) j = nth_error (y_pcs y) j.
Proof. intros H. cbn. apply nth_error_upd_other. congruence. Qed.

(** UnregisterAll gets through its tasks. *)
Definition done (i : nat) (o : mop) (y : sys) (y1 : sys) (es : list yevent) : Prop :=
  (exists r, In (YM (VRet i o r)) es) /\ resting y y1 i /\ match o with MStart _ | MStop _ => True | _ => y_locked y1 = false end.
Lemma done_later i o y y1 es0 y2 es : resting y y1 i -> done i o y1 y2 es -> done i o y y2 (es0 ++ es).
Proof.
  intros R ((r & H) & R1 & L). split; [exists r; apply in_or_app; right; exact H|]. split; [|exact L]. intros j q N E I. apply R1; [exact N|apply R; assumption|exact I].
Qed.
Lemma resting_at i p y y' : y_pcs y' = y_pcs y -> resting y (at_pc i p y') i.
Proof. intros E j q N Ej _. rewrite at_pc_there by exact N. rewrite E. exact Ej. Qed.

Lemma all_done i k : forall rest y tr, length rest = k -> inv y tr -> nth_error (y_pcs y) i = Some (YAll rest) -> ends_with y (done i MUnregisterAll y).
Proof.
  induction k as [|k IH]; intros rest y tr L Y Ep.
  - destruct rest; [|discriminate]. eapply (ends_step y tr (YStep i 0)); [exact Y|reflexivity|cbn [ystep]; rewrite Ep; reflexivity|]. intros _. apply ends_now.
    split; [exists MOk; left; reflexivity|]. split; [apply resting_at; reflexivity|reflexivity].
  - destruct rest as [|x rest]; [discriminate|]. destruct (into_ready y tr i _ x OStop (YAllIn (x :: rest) 0 x) y Y Ep eq_refl eq_refl) as (s & Ei).
    eapply (ends_step y tr (YStep i 0)); [exact Y|reflexivity|cbn [ystep]; rewrite Ep; exact Ei|]. intros Y1. set (y1 := at_pc i (YAllIn (x :: rest) 0 x) (put_task x s y)) in *.
    assert (E1 : nth_error (y_pcs y1) i = Some (YAllIn (x :: rest) 0 x)) by (apply at_pc_here; cbn; congruence).
    apply (ends_then y1 _ _ _ Y1 (comes_back_sys y1 _ i _ x OStop Y1 E1 eq_refl)). intros y2 es Y2 (y0 & r & es0 & Q1 & Q2 & Q3 & Q4).
    assert (E2 : nth_error (y_pcs y2) i = Some (YAll rest)).
    { rewrite Q2. unfold back. rewrite Q1. cbn [fst]. apply (at_pc_here i (YAll (remove_nth 0 (x :: rest))) y0). congruence. }
    apply (ends_then y2 _ _ _ Y2 (IH rest y2 _ (eq_add_S _ _ L) Y2 E2)). intros y3 es3 _ D. apply ends_now. rewrite app_nil_r, app_assoc.
    apply (done_later i _ y y2); [|exact D]. intros j q N E I. apply Q4; [exact N| |exact I]. unfold y1. rewrite at_pc_there by exact N. exact E.
Qed.

(** A goroutine inside a call gets through it, except for waiting for the lock. *)
Lemma inside_done i p y tr : inv y tr -> nth_error (y_pcs y) i = Some p -> (exists t o, in_task p = Some (t, o)) \/ (exists rest, p = YAll rest) ->
  exists o, opcall (abs_pc p) = Some o /\ ends_with y (done i o y).
Proof.
  intros Y Ep [(t & o & Ip)|(rest & ->)].
  2:{ exists MUnregisterAll. split; [reflexivity|]. exact (all_done i _ rest y tr eq_refl Y Ep). }
  pose proof (comes_back_sys y tr i p t o Y Ep Ip) as B. destruct p as [|w|w x|x|nm x|rest|rest k x]; try discriminate.
  - exists w. split; [reflexivity|]. apply (ends_then y tr _ _ Y B). intros y1 es _ (y0 & r & es0 & Q1 & Q2 & Q3 & Q4). apply ends_now. rewrite app_nil_r.
    assert (Wp : wf (YDirect w x)) by (pose proof (yi_wf _ _ _ _ _ _ Y) as W; rewrite Forall_forall in W; apply W, (nth_error_In _ _ Ep)).
    split; [|split; [exact Q4|destruct Wp as [->| ->]; exact I]]. unfold back in Q3. rewrite Q1 in Q3. cbn [snd] in Q3. eexists. rewrite Q3. apply in_or_app. right. left. reflexivity.
  - exists (MRegister x). split; [reflexivity|]. apply (ends_then y tr _ _ Y B). intros y1 es _ (y0 & r & es0 & Q1 & Q2 & Q3 & Q4). apply ends_now. rewrite app_nil_r.
    unfold back in Q2, Q3. rewrite Q1 in Q2, Q3. cbn [fst snd] in Q2, Q3. split; [|split; [exact Q4|rewrite Q2; reflexivity]]. eexists. rewrite Q3. apply in_or_app. right. left. reflexivity.
  - exists (MUnregister nm). split; [reflexivity|]. apply (ends_then y tr _ _ Y B). intros y1 es _ (y0 & r & es0 & Q1 & Q2 & Q3 & Q4). apply ends_now. rewrite app_nil_r.
    unfold back in Q2, Q3. rewrite Q1 in Q2, Q3. cbn [fst snd] in Q2, Q3. split; [|split; [exact Q4|rewrite Q2; reflexivity]]. eexists. rewrite Q3. apply in_or_app. right. left. reflexivity.
  - exists MUnregisterAll. split; [reflexivity|]. apply (ends_then y tr _ _ Y B). intros y1 es Y1 (y0 & r & es0 & Q1 & Q2 & Q3 & Q4).
    assert (E1 : nth_error (y_pcs y1) i = Some (YAll (remove_nth k rest))).
    { rewrite Q2. unfold back. rewrite Q1. cbn [fst]. apply at_pc_here. congruence. }
    apply (ends_then y1 _ _ _ Y1 (all_done i _ _ y1 _ eq_refl Y1 E1)). intros y2 es2 _ D. apply ends_now. rewrite app_nil_r. exact (done_later i _ y y1 es y2 es2 Q4 D).
Qed.

(** Who holds the lock. *)
Lemma lock_holder y tr : inv y tr -> y_locked y = true -> exists h p, nth_error (y_pcs y) h = Some p /\ holds (abs_pc p) = 1.
Proof.
  intros Y L. destruct (yi_mgr _ _ _ _ _ _ Y) as (ms & m & E & A1 & _ & A3 & _). pose proof (mgr_inv name n ms) as M. rewrite E in M. cbn [fst snd] in M.
  pose proof (v_lock _ _ _ M) as V. rewrite A1, L, A3 in V. clear -V. induction (y_pcs y) as [|p l IH]; [discriminate|]. cbn [map sumZ] in V.
  destruct (Z.eq_dec (holds (abs_pc p)) 1) as [H|H]; [exists 0%nat, p; auto|]. assert (holds (abs_pc p) = 0) by (destruct p; cbn in *; congruence).
  destruct IH as (h & q & H1 & H2); [cbn in V; lia|]. exists (S h), q. auto.
Qed.

Lemma frees y tr i w : inv y tr -> nth_error (y_pcs y) i = Some (YWant w) -> ends_with y (fun y1 _ => y_locked y1 = false /\ nth_error (y_pcs y1) i = Some (YWant w)).
Proof.
  intros Y Ep. destruct (y_locked y) eqn:L; [|apply ends_now; auto]. destruct (lock_holder y tr Y L) as (h & p & Eh & H).
  assert (N : i <> h) by (intros ->; rewrite Ep in Eh; injection Eh as <-; discriminate).
  destruct (inside_done h p y tr Y Eh) as (o & Eo & D).
  { destruct p; try discriminate; [| |right; eauto|]; left; cbn; eauto. }
  apply (ends_then y tr _ _ Y D). intros y1 es _ (_ & R & F). apply ends_now. split; [|exact (R i _ N Ep eq_refl)].
  destruct p; try discriminate; injection Eo as <-; exact F.
Qed.

Definition answers (i : nat) (o : mop) (y : sys) : Prop := ends_with y (fun _ es => exists r, In (YM (VRet i o r)) es).
Lemma answers_done i o y tr : inv y tr -> ends_with y (done i o y) -> answers i o y.
Proof. intros Y D. apply (ends_then y tr _ _ Y D). intros y1 es _ (H & _). apply ends_now. rewrite app_nil_r. exact H. Qed.
Lemma answers_step i o y tr l y1 es : inv y tr -> quiet_step l = true -> ystep cfgs name y l = Some (y1, es) ->
  ((exists r, In (YM (VRet i o r)) es) \/ (inv y1 (tr ++ es) -> answers i o y1)) -> answers i o y.
Proof.
  intros Y Q E K. apply (ends_step y tr l y1 es _ Y Q E). intros Y1. destruct K as [(r & H)|K].
  - apply ends_now. exists r. rewrite app_nil_r. exact H.
  - apply (ends_then y1 _ _ _ Y1 (K Y1)). intros y2 es2 _ (r & H). apply ends_now. exists r. rewrite app_nil_r. apply in_or_app. right. exact H.
Qed.
Lemma answers_inside i o y tr p : inv y tr -> nth_error (y_pcs y) i = Some p -> opcall (abs_pc p) = Some o -> (exists t q, in_task p = Some (t, q)) \/ (exists rest, p = YAll rest) -> answers i o y.
Proof.
  intros Y Ep Eo H. destruct (inside_done i p y tr Y Ep H) as (o' & Eo' & D). rewrite Eo in Eo'. injection Eo' as <-. exact (answers_done i o y tr Y D).
Qed.

Lemma want_free i w y tr : inv y tr -> nth_error (y_pcs y) i = Some (YWant w) -> y_locked y = false -> answers i w y.
Proof.
  intros Y Ep L. assert (NN : forall y', y_pcs y' = y_pcs y -> nth_error (y_pcs y') i <> None) by (intros y' ->; congruence). destruct w as [t|nm| |t|t].
  - destruct (find_task (name t) (y_map y)) eqn:F.
    + eapply (answers_step i _ y tr (YStep i 0)); [exact Y|reflexivity|cbn [ystep]; rewrite Ep, L, F; reflexivity|]. left. eexists. left. reflexivity.
    + destruct (into_ready y tr i _ t OMustStart (YReg t) (put_lock true (put_map ((name t, t) :: y_map y) y)) Y Ep eq_refl eq_refl) as (s & Ei).
      eapply (answers_step i _ y tr (YStep i 0)); [exact Y|reflexivity|cbn [ystep]; rewrite Ep, L, F; exact Ei|]. right. intros Y1.
      apply (answers_inside _ _ _ _ (YReg t) Y1); [apply at_pc_here, NN; reflexivity|reflexivity|left; cbn; eauto].
  - destruct (find_task nm (y_map y)) as [t|] eqn:F.
    + destruct (into_ready y tr i _ t OStop (YUnreg nm t) (put_lock true y) Y Ep eq_refl eq_refl) as (s & Ei).
      eapply (answers_step i _ y tr (YStep i 0)); [exact Y|reflexivity|cbn [ystep]; rewrite Ep, L, F; exact Ei|]. right. intros Y1.
      apply (answers_inside _ _ _ _ (YUnreg nm t) Y1); [apply at_pc_here, NN; reflexivity|reflexivity|left; cbn; eauto].
    + eapply (answers_step i _ y tr (YStep i 0)); [exact Y|reflexivity|cbn [ystep]; rewrite Ep, L, F; reflexivity|]. left. eexists. left. reflexivity.
  - eapply (answers_step i _ y tr (YStep i 0)); [exact Y|reflexivity|cbn [ystep]; rewrite Ep, L; reflexivity|]. right. intros Y1.
    apply (answers_inside _ _ _ _ (YAll (map snd (y_map y))) Y1); [apply at_pc_here, NN; reflexivity|reflexivity|right; eauto].
  - destruct (into_ready y tr i _ t OStart (YDirect (MStart t) t) y Y Ep eq_refl eq_refl) as (s & Ei).
    eapply (answers_step i _ y tr (YStep i 0)); [exact Y|reflexivity|cbn [ystep]; rewrite Ep; exact Ei|]. right. intros Y1.
    apply (answers_inside _ _ _ _ (YDirect (MStart t) t) Y1); [apply at_pc_here, NN; reflexivity|reflexivity|left; cbn; eauto].
  - destruct (into_ready y tr i _ t OStop (YDirect (MStop t) t) y Y Ep eq_refl eq_refl) as (s & Ei).
    eapply (answers_step i _ y tr (YStep i 0)); [exact Y|reflexivity|cbn [ystep]; rewrite Ep; exact Ei|]. right. intros Y1.
    apply (answers_inside _ _ _ _ (YDirect (MStop t) t) Y1); [apply at_pc_here, NN; reflexivity|reflexivity|left; cbn; eauto].
Qed.

Lemma all_answer i o y tr : inv y tr -> calling i (of_manager tr) = Some o -> answers i o y.
Proof.
  intros Y C. destruct (yi_mgr _ _ _ _ _ _ Y) as (ms & m & E & A1 & _ & A3 & _). pose proof (mgr_inv name n ms) as M. rewrite E in M. cbn [fst snd] in M.
  rewrite (v_call _ _ _ M i), A3, nth_error_map in C. destruct (nth_error (y_pcs y) i) as [p|] eqn:Ep; [|discriminate]. cbn [option_map] in C.
  destruct p as [|w|w x|x|nm x|rest|rest k x]; [discriminate| | | | | |].
  - injection C as ->. apply (ends_then y tr _ _ Y (frees y tr i o Y Ep)). intros y1 es Y1 [L E1].
    apply (ends_then y1 _ _ _ Y1 (want_free i o y1 _ Y1 E1 L)). intros y2 es2 _ (r & H). apply ends_now. exists r. rewrite app_nil_r. apply in_or_app. right. exact H.
  - apply (answers_inside i o y tr _ Y Ep C). left. destruct w; cbn; eauto.
  - apply (answers_inside i o y tr _ Y Ep C). left. cbn; eauto.
  - apply (answers_inside i o y tr _ Y Ep C). left. cbn; eauto.
  - apply (answers_inside i o y tr _ Y Ep C). right. eauto.
  - apply (answers_inside i o y tr _ Y Ep C). left. cbn; eauto.
Qed.

Lemma system_returns sched i o : calling i (of_manager (snd (yexec cfgs name t0 n sched))) = Some o ->
  exists sched' r, Forall (fun l => quiet_step l = true) sched' /\ In (YM (VRet i o r)) (snd (run (fst (yexec cfgs name t0 n sched)) sched')).
Proof. intros C. destruct (all_answer i o _ _ (yexec_inv cfgs name t0 n sched) C) as (ys & F & r & H). eauto. Qed.

(** A registered task that is not stopped keeps running. *)
Lemma started_event t tr : stat tr t = started -> existsb start_ok (of_task t tr) = true /\ existsb stop_ok (of_task t tr) = false.
Proof. unfold stat. destruct (existsb stop_ok (of_task t tr)); [discriminate|]. destruct (existsb start_ok (of_task t tr)); [auto|discriminate]. Qed.
Lemma status_of sched t : stat (snd (yexec cfgs name t0 n sched)) t =
  let tr := of_manager (snd (yexec cfgs name t0 n sched)) in if was_stopped t tr then stopped else if was_started t tr then started else new.
Proof.
  destruct (yi_mgr _ _ _ _ _ _ (yexec_inv cfgs name t0 n sched)) as (ms & m & E & _ & _ & _ & A4). pose proof (mgr_inv name n ms) as M. rewrite E in M. cbn [fst snd] in M.
  rewrite <- A4, (v_status _ _ _ M t). reflexivity.
Qed.
Lemma registered_runs sched nm t : let tr := snd (yexec cfgs name t0 n sched) in 0 < c_interval (cfgs t) ->
  registered name (of_manager tr) nm = Some t -> was_stopped t (of_manager tr) = false ->
  exists sched' m u, Forall (fun l => match l with YCall _ _ => False | _ => True end) sched' /\ time_passed sched' <= c_interval (cfgs t) /\ ~ In m (begun (of_task t tr)) /\
    In (EBegin m u) (of_task t (snd (run (fst (yexec cfgs name t0 n sched)) sched'))).
Proof.
  intros tr P R S. destruct (man_trace sched) as (ms & M). pose proof (registry name n ms nm t) as RG. rewrite M in RG. destruct (RG R) as [_ ST].
  pose proof (status_of sched t) as St. cbv zeta in St. fold tr in St, ST. rewrite S, ST in St. apply started_event in St as [St1 St2].
  destruct (yi_tasks _ _ _ _ _ _ (yexec_inv cfgs name t0 n sched) t) as (ts & T). fold tr in T.
  destruct (keeps_going (cfgs t) t0 n ts P) as (s' & m & u & F & El & N & H); [rewrite T; exact St1|rewrite T; exact St2|]. rewrite T in N, H. cbn [fst snd] in N, H.
  exists (map (on t) s'), m, u. split; [|split; [|split; [exact N|]]].
  - apply Forall_forall. intros l Hl. apply in_map_iff in Hl as (x & <- & _). destruct x; exact I.
  - replace (time_passed (map (on t) s')) with (elapsed s'); [exact El|]. clear. induction s' as [|l s IH]; [reflexivity|]. unfold time_passed in *. cbn [map sumZ]. rewrite <- IH. destruct l; reflexivity.
  - rewrite (proj2 (lift t s' _ F)). exact H.
Qed.
End Sys.
