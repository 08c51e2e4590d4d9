(** Proofs about the manager together with its tasks. *)
From Verif Require Import Common Threads Bytes ScheduleModel ScheduleSpec ScheduleProofs ScheduleTrace ScheduleRuns ScheduleLive.
From Verif Require Import TaskMgrModel TaskMgrSpec TaskMgrProofs TaskSysModel TaskSysSpec.
Local Open Scope list_scope.
Local Open Scope Z_scope.

(** ** Events of a step of a task *)
Definition inner (e : event) : Prop := match e with ECall _ _ | ERet _ _ _ _ => False | _ => True end.
Lemma run_inner m es : Forall (run_event m) es -> Forall inner es.
Proof. apply Forall_impl. intros e. destruct e; cbn; tauto. Qed.
Lemma no_call c s l s1 es : tstep c s l = Some (s1, es) -> (forall i o, l <> LCall i o) -> forall i o, ~ In (ECall i o) es.
Proof.
  intros E N i o I. destruct (run_label l) as [j|] eqn:El.
  { destruct (tstep_run c s l j s1 es El E) as (r & r' & _ & Hr & _). apply rtrans_events, run_inner in Hr. rewrite Forall_forall in Hr. apply (Hr _ I). }
  destruct l; try discriminate El; cbn [tstep] in E.
  - destruct (0 <=? d); [|discriminate]. injection E as <- <-. destruct I.
  - destruct (N i0 o0 eq_refl).
  - destruct (nth_error (t_clients s) i0) as [[|o'|o']|]; try discriminate. destruct (t_locked s); [discriminate|].
    unfold client_crit, start_crit, stop_crit, mark_start, mark_stop, returns in E. destruct o'; repeat match type of E with context [?a =? ?b] => destruct (a =? b) end;
      try destruct (c_kind c); injection E as <- <-; repeat destruct I as [I|I]; try discriminate; destruct I.
  - destruct (nth_error (t_clients s) i0) as [[| |]|]; try discriminate. destruct (receive k s); [|discriminate]. injection E as <- <-. destruct I as [I|[]]. discriminate.
  - destruct (nth_error (t_clients s) i0) as [[| |]|]; try discriminate. destruct (t_sig s); [|discriminate]. injection E as <- <-. destruct I as [I|[]]. discriminate.
  - unfold cons_step in E. destruct (nth_error (t_cons s) k) as [[| | |j|]|]; try discriminate.
    + destruct (t_locked s); [discriminate|]. destruct (t_status s =? stopped); injection E as <- <-; destruct I.
    + destruct (t_locked s); [discriminate|]. destruct (c_kind c); injection E as <- <-; destruct I.
    + destruct (nth_error (t_runs s) j) as [r|]; [|discriminate]. destruct (r_pc r); try discriminate. injection E as <- <-. destruct I.
  - destruct (nth_error (t_cons s) k) as [[| | |j|]|]; try discriminate. destruct (t_sig s); [|discriminate]. injection E as <- <-. destruct I.
  - destruct (nth_error (t_prov s) p) as [[| |]|]; try discriminate. destruct (receive k s); [|discriminate]. injection E as <- <-. destruct I.
  - destruct (nth_error (t_prov s) p) as [[| |]|]; try discriminate. destruct (t_tickbuf s); [|discriminate]. injection E as <- <-. destruct I.
  - destruct (nth_error (t_prov s) p) as [[| |]|]; try discriminate; (destruct (t_sig s); [|discriminate]); injection E as <- <-; destruct I.
  - unfold ticker_step in E. destruct (t_tick s) as [next|]; [|discriminate]. destruct (next <=? t_now s); [|discriminate]. injection E as <- <-. destruct I.
  - destruct (nth_error (t_timers s) j) as [[|a| |]|]; try discriminate; [injection E as <- <-; destruct I|].
    destruct (a <=? t_now s); [|discriminate]. injection E as <- <-. destruct I.
  - destruct (nth_error (t_timers s) j) as [[|a| |]|]; try discriminate. destruct (receive k s); [|discriminate]. injection E as <- <-. destruct I.
  - destruct (nth_error (t_timers s) j) as [[|a| |]|]; try discriminate. destruct (t_sig s); [|discriminate]. injection E as <- <-. destruct I.
Qed.
Lemma trans_events c s s1 es : trans c s s1 es -> (exists i o, es = [ECall i o]) \/ (exists i o r, es = [ERet i o r (t_now s)] /\ call_of (nth_error (t_clients s) i) = Some o) \/ Forall inner es.
Proof.
  intros T. destruct T; try (right; right; constructor; fail);
    try (left; eexists; eexists; reflexivity);
    try (right; left; eexists; eexists; eexists; split; [reflexivity|]; match goal with H : nth_error (t_clients s) _ = Some _ |- _ => rewrite H; reflexivity end).
  right. right. apply rtrans_events, run_inner in H0. exact H0.
Qed.
Lemma step_events c s tr l s1 es : jinv c s tr -> tstep c s l = Some (s1, es) -> (forall i o, l <> LCall i o) ->
  (exists i o r, es = [ERet i o r (t_now s)] /\ pending i tr = Some o) \/ Forall inner es.
Proof.
  intros J E N. destruct (trans_events c s s1 es (tstep_trans c s l s1 es E)) as [(i & o & ->)|[(i & o & r & -> & H)|H]].
  - destruct (no_call c s l s1 _ E N i o). left. reflexivity.
  - left. exists i, o, r. split; [reflexivity|]. rewrite (j_pending c s tr J i). exact H.
  - right. exact H.
Qed.
Lemma inner_pending i tr es : Forall inner es -> pending i (tr ++ es) = pending i tr.
Proof.
  intros F. rewrite pending_app. generalize (pending i tr). induction F as [|e es H F IH]; intros x; [reflexivity|]. cbn [fold_left]. destruct e; try destruct H; apply IH.
Qed.
Lemma inner_start es : Forall inner es -> existsb start_ok es = false.
Proof. induction 1 as [|e es H F IH]; [reflexivity|]. destruct e; try destruct H; exact IH. Qed.
Lemma inner_stop es : Forall inner es -> existsb stop_ok es = false.
Proof. induction 1 as [|e es H F IH]; [reflexivity|]. destruct e; try destruct H; exact IH. Qed.
Lemma trans_clients c s s1 es : trans c s s1 es -> length (t_clients s1) = length (t_clients s).
Proof. intros T. destruct T; ss; rewrite ?upd_length; reflexivity. Qed.

(** ** The invariant *)
Section Sys.
Variables (cfgs : nat -> cfg) (name : nat -> string) (t0 : Z) (n : nat).

Definition in_task (p : ypc) : option (nat * op) :=
  match p with
  | YDirect (MStart _) t => Some (t, OStart)
  | YDirect _ t => Some (t, OStop)
  | YReg t => Some (t, OMustStart)
  | YUnreg _ t => Some (t, OStop)
  | YAllIn _ _ t => Some (t, OStop)
  | _ => None
  end.
Definition waits (p : option ypc) (t : nat) : option op :=
  match p with
  | Some p => match in_task p with Some (x, o) => if Nat.eqb x t then Some o else None | None => None end
  | None => None
  end.
Definition wf (p : ypc) : Prop :=
  match p with
  | YDirect o t => o = MStart t \/ o = MStop t
  | YAllIn rest k t => nth_error rest k = Some t
  | _ => True
  end.
Definition abs_pc (p : ypc) : mpc :=
  match p with
  | YIdle => PIdle
  | YWant o | YDirect o _ => PWant o
  | YReg t => PReg t
  | YUnreg nm t => PUnreg nm t
  | YAll rest | YAllIn rest _ _ => PAll rest
  end.
Definition stat (tr : list yevent) (t : nat) : Z :=
  if existsb stop_ok (of_task t tr) then stopped else if existsb start_ok (of_task t tr) then started else new.

Definition tasks_ok (ts : nat -> task) (tr : list yevent) : Prop := forall t, exists sched, texec (cfgs t) t0 n sched = (ts t, of_task t tr).
Definition pend_ok (pcs : list ypc) (tr : list yevent) : Prop := forall i t, pending i (of_task t tr) = waits (nth_error pcs i) t.
Definition absd (m : mgr) (y : sys) (tr : list yevent) : Prop :=
  m_locked m = y_locked y /\ m_map m = y_map y /\ m_pcs m = map abs_pc (y_pcs y) /\ forall t, m_status m t = stat tr t.
Definition mgr_ok (y : sys) (tr : list yevent) : Prop := exists ms m, mexec name n ms = (m, of_manager tr) /\ absd m y tr.
Record yinv (y : sys) (tr : list yevent) : Prop := {
  yi_tasks : tasks_ok (y_tasks y) tr;
  yi_pend : pend_ok (y_pcs y) tr;
  yi_wf : Forall wf (y_pcs y);
  yi_mgr : mgr_ok y tr
}.

Lemma of_task_app t a b : of_task t (a ++ b) = of_task t a ++ of_task t b. Proof. apply flat_map_app. Qed.
Lemma of_manager_app a b : of_manager (a ++ b) = of_manager a ++ of_manager b. Proof. apply flat_map_app. Qed.
Lemma of_task_same t es : of_task t (map (YT t) es) = es.
Proof. induction es as [|e es IH]; [reflexivity|]. cbn. rewrite Nat.eqb_refl. cbn. f_equal. exact IH. Qed.
Lemma of_task_other t x es : t <> x -> of_task t (map (YT x) es) = [].
Proof. intros N. induction es as [|e es IH]; [reflexivity|]. cbn. destruct (Nat.eqb_spec t x); [congruence|]. exact IH. Qed.
Lemma of_manager_inner t es : Forall inner es -> of_manager (map (YT t) es) = [].
Proof. induction 1 as [|e es H F IH]; [reflexivity|]. destruct e; try destruct H; exact IH. Qed.

(** One task makes a step. *)
Lemma tasks_step ts tr t l s es xs : tasks_ok ts tr -> tstep (cfgs t) (ts t) l = Some (s, es) -> of_task t xs = es -> (forall x, x <> t -> of_task x xs = []) ->
  tasks_ok (fun x => if Nat.eqb x t then s else ts x) (tr ++ xs).
Proof.
  intros T E E1 E2 x. destruct (T x) as (sched & H). rewrite of_task_app. destruct (Nat.eqb_spec x t) as [->|N].
  - exists (sched ++ [l]). unfold texec in *. rewrite exec_app, H. cbn [exec]. rewrite E, E1, app_nil_r. reflexivity.
  - exists sched. rewrite (E2 x N), app_nil_r. exact H.
Qed.
Lemma tasks_jinv ts tr t : tasks_ok ts tr -> sinv (cfgs t) (ts t) /\ jinv (cfgs t) (ts t) (of_task t tr).
Proof. intros T. destruct (T t) as (sched & H). pose proof (task_jinv (cfgs t) t0 n sched) as K. rewrite H in K. exact K. Qed.
Lemma tasks_due ts tr t l s i o r u : tasks_ok ts tr -> tstep (cfgs t) (ts t) l = Some (s, [ERet i o r u]) -> r = due (of_task t tr) o.
Proof.
  intros T E. destruct (T t) as (sched & H). apply (lifecycle (cfgs t) t0 n (sched ++ [l]) (of_task t tr) i o r u []).
  unfold texec in *. rewrite exec_app, H. cbn [exec]. rewrite E. reflexivity.
Qed.
Lemma tasks_quiet ts tr xs : tasks_ok ts tr -> (forall t, of_task t xs = []) -> tasks_ok ts (tr ++ xs).
Proof. intros T H t. rewrite of_task_app, H, app_nil_r. apply T. Qed.

(** The waiting goroutines. *)
Lemma pend_keep pcs tr xs i p q : pend_ok pcs tr -> (forall t, of_task t xs = []) -> nth_error pcs i = Some p -> in_task p = in_task q -> pend_ok (upd i q pcs) (tr ++ xs).
Proof.
  intros P H E Q j t. rewrite of_task_app, H, app_nil_r, (P j t), nth_error_upd. destruct (Nat.eq_dec i j) as [<-|N]; [|reflexivity].
  rewrite E. cbn. rewrite Q. reflexivity.
Qed.
Lemma pend_call pcs tr i t o p q xs : pend_ok pcs tr -> nth_error pcs i = Some p -> in_task p = None -> in_task q = Some (t, o) ->
  of_task t xs = [ECall i o] -> (forall x, x <> t -> of_task x xs = []) -> pend_ok (upd i q pcs) (tr ++ xs).
Proof.
  intros P E Q R X1 X2 j x. rewrite of_task_app, nth_error_upd. pose proof (P j x) as Pj. destruct (Nat.eq_dec x t) as [->|Nx].
  - rewrite X1, pending_app. cbn [fold_left]. destruct (Nat.eq_dec i j) as [<-|N].
    + rewrite Nat.eqb_refl, E. cbn. rewrite R, Nat.eqb_refl. reflexivity.
    + destruct (Nat.eqb_spec j i); [congruence|]. exact Pj.
  - rewrite (X2 x Nx), app_nil_r. destruct (Nat.eq_dec i j) as [<-|N]; [|exact Pj]. rewrite E in *. cbn in Pj |- *. rewrite R, Q in *.
    destruct (Nat.eqb_spec t x); [congruence|]. exact Pj.
Qed.
Lemma pend_ret pcs tr i t o r u p q xs : pend_ok pcs tr -> nth_error pcs i = Some p -> in_task p = Some (t, o) -> in_task q = None ->
  of_task t xs = [ERet i o r u] -> (forall x, x <> t -> of_task x xs = []) -> pend_ok (upd i q pcs) (tr ++ xs).
Proof.
  intros P E Q R X1 X2 j x. rewrite of_task_app, nth_error_upd. pose proof (P j x) as Pj. destruct (Nat.eq_dec x t) as [->|Nx].
  - rewrite X1, pending_app. cbn [fold_left]. destruct (Nat.eq_dec i j) as [<-|N].
    + rewrite Nat.eqb_refl, E. cbn. rewrite R. reflexivity.
    + destruct (Nat.eqb_spec j i); [congruence|]. exact Pj.
  - rewrite (X2 x Nx), app_nil_r. destruct (Nat.eq_dec i j) as [<-|N]; [|exact Pj]. rewrite E in *. cbn in Pj |- *. rewrite R, Q in *.
    destruct (Nat.eqb_spec t x); [congruence|]. exact Pj.
Qed.
Lemma pend_inner pcs tr t es : pend_ok pcs tr -> Forall inner es -> pend_ok pcs (tr ++ map (YT t) es).
Proof.
  intros P F i x. rewrite of_task_app. destruct (Nat.eq_dec x t) as [->|N].
  - rewrite of_task_same, (inner_pending i _ _ F). apply P.
  - rewrite (of_task_other x t es N), app_nil_r. apply P.
Qed.

(** The manager. *)
Lemma stat_quiet tr xs t : existsb stop_ok (of_task t xs) = false -> existsb start_ok (of_task t xs) = false -> stat (tr ++ xs) t = stat tr t.
Proof. intros A B. unfold stat. rewrite of_task_app, !existsb_app, A, B, !orb_false_r. reflexivity. Qed.
Lemma mgr_step y tr y1 xs l m1 : (forall m, absd m y tr -> exists m1 es, mstep name m l = Some (m1, es) /\ es = of_manager xs /\ absd m1 y1 (tr ++ xs)) -> m1 = tt -> mgr_ok y tr -> mgr_ok y1 (tr ++ xs).
Proof.
  intros H _ (ms & m & E & A). destruct (H m A) as (m1' & es & E1 & -> & A1). exists (ms ++ [l]), m1'. split; [|exact A1].
  unfold mexec in *. rewrite exec_app, E. cbn [exec]. rewrite E1, of_manager_app, app_nil_r. reflexivity.
Qed.
Lemma mgr_same y tr y1 xs : of_manager xs = [] -> (forall m, absd m y tr -> absd m y1 (tr ++ xs)) -> mgr_ok y tr -> mgr_ok y1 (tr ++ xs).
Proof. intros Q H (ms & m & E & A). exists ms, m. rewrite of_manager_app, Q, app_nil_r. auto. Qed.
Lemma map_upd {A B} (f : A -> B) i x l : map f (upd i x l) = upd i (f x) (map f l).
Proof. revert i. induction l as [|y l IH]; intros [|i]; cbn; congruence. Qed.
Lemma upd_here {A} (l : list A) i x : nth_error l i = Some x -> upd i x l = l.
Proof. revert i. induction l as [|y l IH]; intros [|i] E; cbn in *; try discriminate; [injection E as <-; reflexivity|f_equal; auto]. Qed.
Lemma abs_nth m y tr i p : absd m y tr -> nth_error (y_pcs y) i = Some p -> nth_error (m_pcs m) i = Some (abs_pc p).
Proof. intros (_ & _ & -> & _) E. rewrite nth_error_map, E. reflexivity. Qed.
Lemma map_abs_same i p q l : nth_error l i = Some p -> abs_pc q = abs_pc p -> map abs_pc (upd i q l) = map abs_pc l.
Proof. intros E Q. rewrite map_upd, Q. apply upd_here. rewrite nth_error_map, E. reflexivity. Qed.

Lemma into_some i t o p y y1 es : into cfgs i t o p y = Some (y1, es) -> exists s, tstep (cfgs t) (y_tasks y t) (LCall i o) = Some (s, [ECall i o]) /\
  y1 = at_pc i p (put_task t s y) /\ es = [YT t (ECall i o)].
Proof.
  unfold into. cbn [tstep]. destruct (nth_error (t_clients (y_tasks y t)) i) as [[| |]|]; try discriminate. intros [= <- <-]. eauto.
Qed.
Lemma one_call t i o x : x <> t -> of_task x [YT t (ECall i o)] = [].
Proof. intros N. cbn. destruct (Nat.eqb_spec x t); [congruence|reflexivity]. Qed.
Lemma call_here t i o : of_task t [YT t (ECall i o)] = [ECall i o].
Proof. cbn. rewrite Nat.eqb_refl. reflexivity. Qed.
Lemma call_stat tr t i o x : stat (tr ++ [YT t (ECall i o)]) x = stat tr x.
Proof. apply stat_quiet; cbn; destruct (Nat.eqb x t); reflexivity. Qed.

(** A step that calls a task; [y'] is the state in which the call is made. *)
Lemma into_inv y tr i t o p q y' y1 es : yinv y tr -> nth_error (y_pcs y) i = Some p -> in_task p = None -> in_task q = Some (t, o) -> wf q ->
  y_tasks y' = y_tasks y -> y_pcs y' = y_pcs y -> into cfgs i t o q y' = Some (y1, es) ->
  ((exists k, forall m, absd m y tr -> exists m1, mstep name m (MStep i k) = Some (m1, []) /\ m_locked m1 = y_locked y' /\ m_map m1 = y_map y' /\ m_pcs m1 = upd i (abs_pc q) (m_pcs m) /\ m_status m1 = m_status m) \/
   abs_pc q = abs_pc p /\ y_locked y' = y_locked y /\ y_map y' = y_map y) ->
  yinv y1 (tr ++ es).
Proof.
  intros [T P W M] E Q R Wq I1 I2 E1 H. apply into_some in E1 as (s & Es & -> & ->). rewrite I1 in Es. constructor; cbn [y_tasks y_pcs at_pc put_task].
  - rewrite I1. apply (tasks_step _ _ _ _ _ _ _ T Es); [apply call_here|apply one_call].
  - rewrite I2. apply (pend_call _ _ _ _ _ _ _ _ P E Q R); [apply call_here|apply one_call].
  - rewrite I2. apply Forall_upd; assumption.
  - destruct H as [(k & H)|(A1 & A2 & A3)].
    + apply (mgr_step y tr _ _ (MStep i k) tt); [|reflexivity|exact M]. intros m A. destruct (H m A) as (m1 & S1 & L1 & M1 & P1 & St). exists m1, [].
      split; [exact S1|]. split; [reflexivity|]. destruct A as (_ & _ & A3 & A4). split; [exact L1|]. split; [exact M1|]. split.
      * cbn. rewrite P1, A3, I2, map_upd. reflexivity.
      * intros x. rewrite St, A4, call_stat. reflexivity.
    + apply (mgr_same y tr); [reflexivity| |exact M]. intros m (B1 & B2 & B3 & B4). split; [cbn; congruence|]. split; [cbn; congruence|]. split.
      * cbn. rewrite I2, (map_abs_same i p q _ E A1). exact B3.
      * intros x. rewrite call_stat. apply B4.
Qed.

Lemma m_only xs : (forall t, of_task t (map YM xs) = []) /\ of_manager (map YM xs) = xs.
Proof. split; [intros t; induction xs; [reflexivity|exact IHxs]|]. induction xs as [|x xs IH]; [reflexivity|]. cbn. f_equal. exact IH. Qed.
(** A step of the manager without tasks. *)
Lemma plain_inv y tr i p q y' xs l : yinv y tr -> nth_error (y_pcs y) i = Some p -> in_task p = None -> in_task q = None -> wf q ->
  y_tasks y' = y_tasks y -> y_pcs y' = y_pcs y ->
  (forall m, absd m y tr -> exists m1, mstep name m l = Some (m1, xs) /\ m_locked m1 = y_locked y' /\ m_map m1 = y_map y' /\ m_pcs m1 = upd i (abs_pc q) (m_pcs m) /\ m_status m1 = m_status m) ->
  yinv (at_pc i q y') (tr ++ map YM xs).
Proof.
  intros [T P W M] E Q R Wq I1 I2 H. destruct (m_only xs) as [X1 X2]. constructor; cbn [y_tasks y_pcs at_pc].
  - rewrite I1. apply (tasks_quiet _ _ _ T X1).
  - rewrite I2. apply (pend_keep _ _ _ _ p q P X1 E). congruence.
  - rewrite I2. apply Forall_upd; assumption.
  - apply (mgr_step y tr _ _ l tt); [|reflexivity|exact M]. intros m A. destruct (H m A) as (m1 & S1 & L1 & M1 & P1 & St). exists m1, xs.
    split; [exact S1|]. split; [symmetry; exact X2|]. destruct A as (_ & _ & A3 & A4). split; [exact L1|]. split; [exact M1|]. split.
    * cbn. rewrite P1, A3, I2, map_upd. reflexivity.
    * intros x. rewrite St, A4. unfold stat. rewrite of_task_app, X1, app_nil_r. reflexivity.
Qed.

(** The outcome of a call as the manager's model has it. *)
Definition good (r : result) : bool := match r with Ok => true | _ => false end.
Lemma due_start past o : starts o = true -> good (due past o) = negb (existsb stop_ok past) && negb (existsb start_ok past).
Proof. intros S. unfold due. rewrite S. destruct (existsb stop_ok past), (existsb start_ok past); destruct o; try discriminate; reflexivity. Qed.
Lemma due_stop past o : starts o = false -> good (due past o) = negb (existsb stop_ok past) && existsb start_ok past.
Proof. intros S. unfold due. rewrite S. destruct (existsb stop_ok past), (existsb start_ok past); destruct o; try discriminate; reflexivity. Qed.
Lemma abs_start m tr t past o : m_status m t = stat tr t -> past = of_task t tr -> starts o = true ->
  do_start t m = (if good (due past o) then set_st t started m else m, good (due past o)).
Proof.
  intros St -> S. unfold do_start. rewrite St, (due_start _ _ S). unfold stat. destruct (existsb stop_ok (of_task t tr)); [reflexivity|].
  destruct (existsb start_ok (of_task t tr)); reflexivity.
Qed.
Lemma abs_stop m tr t past o i : m_status m t = stat tr t -> past = of_task t tr -> starts o = false ->
  do_stop i t m = (if good (due past o) then (set_st t stopped m, [VStopped i t], true) else (m, [], false)).
Proof.
  intros St -> S. unfold do_stop. rewrite St, (due_stop _ _ S). unfold stat. destruct (existsb stop_ok (of_task t tr)); [reflexivity|].
  destruct (existsb start_ok (of_task t tr)); reflexivity.
Qed.
Lemma stat_start tr t i o u x ys : starts o = true -> good (due (of_task t tr) o) = true -> (forall z, of_task z ys = []) ->
  stat (tr ++ YT t (ERet i o Ok u) :: ys) x = if Nat.eqb x t then started else stat tr x.
Proof.
  intros S G Y. unfold stat. change (YT t (ERet i o Ok u) :: ys) with ([YT t (ERet i o Ok u)] ++ ys). rewrite !of_task_app, Y, app_nil_r. cbn [of_task flat_map].
  rewrite (due_start _ _ S) in G. apply andb_prop in G as [G1 G2]. destruct (Nat.eqb_spec x t) as [->|N]; [|rewrite !app_nil_r; reflexivity].
  rewrite !existsb_app. cbn. rewrite S. cbn. destruct (existsb stop_ok (of_task t tr)); [discriminate|]. destruct (existsb start_ok (of_task t tr)); reflexivity.
Qed.
Lemma stat_stop tr t i o u x ys : starts o = false -> (forall z, of_task z ys = []) ->
  stat (tr ++ YT t (ERet i o Ok u) :: ys) x = if Nat.eqb x t then stopped else stat tr x.
Proof.
  intros S Y. unfold stat. change (YT t (ERet i o Ok u) :: ys) with ([YT t (ERet i o Ok u)] ++ ys). rewrite !of_task_app, Y, app_nil_r. cbn [of_task flat_map].
  destruct (Nat.eqb_spec x t) as [->|N]; [|rewrite !app_nil_r; reflexivity].
  rewrite !existsb_app. cbn. rewrite S. cbn. rewrite orb_true_r. reflexivity.
Qed.
Lemma stat_fail tr t i o r u x ys : good r = false -> (forall z, of_task z ys = []) -> stat (tr ++ YT t (ERet i o r u) :: ys) x = stat tr x.
Proof.
  intros G Y. unfold stat. change (YT t (ERet i o r u) :: ys) with ([YT t (ERet i o r u)] ++ ys). rewrite !of_task_app, Y, app_nil_r. cbn [of_task flat_map].
  destruct (Nat.eqb x t); [|rewrite !app_nil_r; reflexivity]. rewrite !existsb_app. destruct r; try discriminate; cbn; rewrite !orb_false_r; reflexivity.
Qed.

Lemma waits_some p t o : waits p t = Some o -> exists q, p = Some q /\ in_task q = Some (t, o).
Proof.
  destruct p as [q|]; [|discriminate]. cbn. destruct (in_task q) as [[x a]|] eqn:E; [|discriminate].
  destruct (Nat.eqb_spec x t) as [->|]; [|discriminate]. intros [= ->]. eauto.
Qed.
Lemma ret_of_task t i o r u ys : (forall x, of_task x ys = []) ->
  of_task t (YT t (ERet i o r u) :: ys) = [ERet i o r u] /\ forall x, x <> t -> of_task x (YT t (ERet i o r u) :: ys) = [].
Proof.
  intros Y. change (YT t (ERet i o r u) :: ys) with ([YT t (ERet i o r u)] ++ ys). split.
  - rewrite of_task_app, Y. cbn. rewrite Nat.eqb_refl. reflexivity.
  - intros x N. rewrite of_task_app, Y. cbn. destruct (Nat.eqb_spec x t); [congruence|reflexivity].
Qed.

(** A call of a task comes back. *)
Lemma ret_inv y tr t l s i o r u : yinv y tr -> tstep (cfgs t) (y_tasks y t) l = Some (s, [ERet i o r u]) -> pending i (of_task t tr) = Some o ->
  yinv (fst (back i r (put_task t s y))) (tr ++ YT t (ERet i o r u) :: snd (back i r (put_task t s y))).
Proof.
  intros [T P W M] E Hp. rewrite (P i t) in Hp. apply waits_some in Hp as (p & Ep & Ip).
  pose proof (tasks_due _ _ _ _ _ _ _ _ _ T E) as D. assert (Wp : wf p) by (rewrite Forall_forall in W; apply W, (nth_error_In _ _ Ep)).
  assert (B : exists q y' ys, back i r (put_task t s y) = (at_pc i q y', map YM ys) /\ y_tasks y' = y_tasks (put_task t s y) /\ y_pcs y' = y_pcs y /\ in_task q = None /\ wf q /\
    exists k, forall m, absd m y tr -> exists m1 es, mstep name m (MStep i k) = Some (m1, es) /\ es = of_manager (YT t (ERet i o r u) :: map YM ys) /\
      absd m1 (at_pc i q y') (tr ++ YT t (ERet i o r u) :: map YM ys)).
  { unfold back. cbn [y_pcs put_task]. rewrite Ep. destruct p as [|w|w x|x|nm x|rest|rest k x]; cbn in Ip; try discriminate.
    - destruct Wp as [->| ->]; injection Ip as <- <-.
      + exists YIdle, (put_task x s y), [VRet i (MStart x) (if good r then MOk else MErr)]. do 5 (split; [first [exact I|reflexivity]|]). exists 0%nat.
        intros m A. pose proof (abs_nth _ _ _ _ _ A Ep) as Em. destruct A as (A1 & A2 & A3 & A4). cbn [mstep]. rewrite Em. cbn [abs_pc].
        rewrite (abs_start m tr x _ OStart (A4 x) eq_refl eq_refl), <- D. eexists _, _. split; [reflexivity|]. split; [reflexivity|].
        split; [|split; [|split]].
        * destruct (good r); exact A1.
        * destruct (good r); exact A2.
        * cbn. rewrite map_upd. cbn. destruct (good r); cbn; rewrite A3; reflexivity.
        * intros z. destruct (good r) eqn:G.
          -- destruct r; try discriminate. rewrite stat_start; [|reflexivity|rewrite <- D; reflexivity|intros; reflexivity]. cbn. destruct (Nat.eqb z x); [reflexivity|apply A4].
          -- rewrite stat_fail; [apply A4|exact G|intros; reflexivity].
      + exists YIdle, (put_task x s y), [VRet i (MStop x) (if good r then MOk else MErr)]. do 5 (split; [first [exact I|reflexivity]|]). exists 0%nat.
        intros m A. pose proof (abs_nth _ _ _ _ _ A Ep) as Em. destruct A as (A1 & A2 & A3 & A4). cbn [mstep]. rewrite Em. cbn [abs_pc].
        rewrite (abs_stop m tr x _ OStop i (A4 x) eq_refl eq_refl), <- D. destruct (good r) eqn:G.
        * destruct r; try discriminate. eexists _, _. split; [reflexivity|]. split; [reflexivity|]. split; [exact A1|]. split; [exact A2|]. split; [cbn; rewrite map_upd, A3; reflexivity|].
          intros z. rewrite stat_stop; [|reflexivity|intros; reflexivity]. cbn. destruct (Nat.eqb z x); [reflexivity|apply A4].
        * eexists _, _. split; [reflexivity|]. split; [destruct r; try discriminate; reflexivity|]. split; [exact A1|]. split; [exact A2|]. split; [cbn; rewrite map_upd, A3; reflexivity|].
          intros z. rewrite stat_fail; [apply A4|exact G|intros; reflexivity].
    - injection Ip as <- <-. exists YIdle, (put_lock false (put_task x s y)), [VRet i (MRegister x) (if good r then MOk else MPanic)].
      do 5 (split; [first [exact I|reflexivity]|]). exists 0%nat.
      intros m A. pose proof (abs_nth _ _ _ _ _ A Ep) as Em. destruct A as (A1 & A2 & A3 & A4). cbn [mstep]. rewrite Em. cbn [abs_pc].
      rewrite (abs_start m tr x _ OMustStart (A4 x) eq_refl eq_refl), <- D. eexists _, _. split; [reflexivity|]. split; [reflexivity|].
      split; [|split; [|split]].
      + reflexivity.
      + destruct (good r); exact A2.
      + cbn. rewrite map_upd. cbn. destruct (good r); cbn; rewrite A3; reflexivity.
      + intros z. destruct (good r) eqn:G.
        * destruct r; try discriminate. rewrite stat_start; [|reflexivity|rewrite <- D; reflexivity|intros; reflexivity]. cbn. destruct (Nat.eqb z x); [reflexivity|apply A4].
        * rewrite stat_fail; [apply A4|exact G|intros; reflexivity].
    - injection Ip as <- <-. exists YIdle, (put_lock false (put_map (delete_task nm (y_map y)) (put_task x s y))), [VRet i (MUnregister nm) MOk].
      do 5 (split; [first [exact I|reflexivity]|]). exists 0%nat.
      intros m A. pose proof (abs_nth _ _ _ _ _ A Ep) as Em. destruct A as (A1 & A2 & A3 & A4). cbn [mstep]. rewrite Em. cbn [abs_pc].
      rewrite (abs_stop m tr x _ OStop i (A4 x) eq_refl eq_refl), <- D. destruct (good r) eqn:G.
      + destruct r; try discriminate. eexists _, _. split; [reflexivity|]. split; [reflexivity|]. split; [reflexivity|]. split; [cbn; rewrite A2; reflexivity|]. split; [cbn; rewrite map_upd, A3; reflexivity|].
        intros z. rewrite stat_stop; [|reflexivity|intros; reflexivity]. cbn. destruct (Nat.eqb z x); [reflexivity|apply A4].
      + eexists _, _. split; [reflexivity|]. split; [destruct r; try discriminate; reflexivity|]. split; [reflexivity|]. split; [cbn; rewrite A2; reflexivity|]. split; [cbn; rewrite map_upd, A3; reflexivity|].
        intros z. rewrite stat_fail; [apply A4|exact G|intros; reflexivity].
    - injection Ip as <- <-. exists (YAll (remove_nth k rest)), (put_task x s y), (@nil mevent).
      do 5 (split; [first [exact I|reflexivity]|]). exists k. cbn in Wp.
      intros m A. pose proof (abs_nth _ _ _ _ _ A Ep) as Em. destruct A as (A1 & A2 & A3 & A4). cbn [mstep]. rewrite Em. cbn [abs_pc].
      destruct rest as [|a rest]; [destruct k; discriminate|]. rewrite Wp.
      rewrite (abs_stop m tr x _ OStop i (A4 x) eq_refl eq_refl), <- D. destruct (good r) eqn:G.
      + destruct r; try discriminate. eexists _, _. split; [reflexivity|]. split; [reflexivity|]. split; [exact A1|]. split; [exact A2|]. split; [cbn [y_pcs at_pc with_mpc m_pcs put_task]; rewrite map_upd; cbn; rewrite A3; reflexivity|].
        intros z. rewrite stat_stop; [|reflexivity|intros; reflexivity]. cbn. destruct (Nat.eqb z x); [reflexivity|apply A4].
      + eexists _, _. split; [reflexivity|]. split; [destruct r; try discriminate; reflexivity|]. split; [exact A1|]. split; [exact A2|]. split; [cbn [y_pcs at_pc with_mpc m_pcs put_task]; rewrite map_upd; cbn; rewrite A3; reflexivity|].
        intros z. rewrite stat_fail; [apply A4|exact G|intros; reflexivity]. }
  destruct B as (q & y' & ys & -> & I1 & I2 & Q & Wq & k & H). cbn [fst snd]. destruct (m_only ys) as [Y1 _].
  destruct (ret_of_task t i o r u (map YM ys) Y1) as [X1 X2]. constructor; cbn [y_tasks y_pcs at_pc].
  - rewrite I1. apply (tasks_step _ _ _ _ _ _ _ T E X1 X2).
  - rewrite I2. apply (pend_ret _ _ _ _ _ _ _ _ _ _ P Ep Ip Q X1 X2).
  - rewrite I2. apply Forall_upd; assumption.
  - exact (mgr_step y tr _ _ (MStep i k) tt H eq_refl M).
Qed.

Lemma put_task_inv y tr t l s es : yinv y tr -> tstep (cfgs t) (y_tasks y t) l = Some (s, es) -> Forall inner es -> yinv (put_task t s y) (tr ++ map (YT t) es).
Proof.
  intros [T P W M] E F. constructor; cbn [y_tasks y_pcs put_task].
  - apply (tasks_step _ _ _ _ _ _ _ T E); [apply of_task_same|intros x N; apply of_task_other; exact N].
  - apply pend_inner; assumption.
  - exact W.
  - apply (mgr_same y tr); [apply of_manager_inner; exact F| |exact M]. intros m (A1 & A2 & A3 & A4). split; [exact A1|]. split; [exact A2|]. split; [exact A3|].
    intros x. rewrite stat_quiet; [apply A4| |].
    + destruct (Nat.eq_dec x t) as [->|N]; [rewrite of_task_same; apply inner_stop; exact F|rewrite of_task_other by exact N; reflexivity].
    + destruct (Nat.eq_dec x t) as [->|N]; [rewrite of_task_same; apply inner_start; exact F|rewrite of_task_other by exact N; reflexivity].
Qed.

Lemma yinit_inv : yinv (yinit t0 n) [].
Proof.
  constructor.
  - intros t. exists []. reflexivity.
  - intros i t. cbn [yinit y_pcs of_task flat_map]. destruct (nth_error (repeat YIdle n) i) as [p|] eqn:E; [|reflexivity].
    apply nth_error_In, repeat_spec in E. subst p. reflexivity.
  - apply Forall_forall. intros p Hp. apply repeat_spec in Hp. subst p. exact I.
  - exists [], (minit n). split; [reflexivity|]. split; [reflexivity|]. split; [reflexivity|]. split; [|intros t; reflexivity].
    cbn. induction n; cbn; congruence.
Qed.

Lemma time_inv y tr d : yinv y tr -> 0 <= d ->
  yinv (Sys (y_locked y) (y_map y) (fun t => match tstep (cfgs t) (y_tasks y t) (LTime d) with Some (s, _) => s | None => y_tasks y t end) (y_pcs y)) (tr ++ []).
Proof.
  intros [T P W M] D. rewrite app_nil_r. constructor; cbn [y_tasks y_pcs]; try assumption. intros t. destruct (T t) as (sched & H). exists (sched ++ [LTime d]).
  unfold texec in *. rewrite exec_app, H. cbn [exec tstep]. destruct (Z.leb_spec 0 d); [|lia]. rewrite !app_nil_r. reflexivity.
Qed.

Lemma ystep_inv y tr l y1 es : yinv y tr -> ystep cfgs name y l = Some (y1, es) -> yinv y1 (tr ++ es).
Proof.
  intros Y E. destruct l as [i o|i k|t l|d].
  - cbn [ystep] in E. destruct (nth_error (y_pcs y) i) as [p|] eqn:Ep; [|discriminate]. destruct p; try discriminate. injection E as <- <-.
    apply (plain_inv y tr i YIdle (YWant o) y [VCall i o] (MCall i o) Y Ep); try reflexivity. intros m A.
    pose proof (abs_nth _ _ _ _ _ A Ep) as Em. cbn [mstep]. rewrite Em. cbn [abs_pc]. destruct A as (A1 & A2 & A3 & A4). eexists. split; [reflexivity|]. auto.
  - cbn [ystep] in E. destruct (nth_error (y_pcs y) i) as [p|] eqn:Ep; [|discriminate]. destruct p as [|w|w x|x|nm x|rest|rest j x]; try discriminate.
    + destruct w as [t|nm| |t|t].
      * destruct (y_locked y) eqn:L; [discriminate|]. destruct (find_task (name t) (y_map y)) eqn:F.
        -- injection E as <- <-. apply (plain_inv y tr i _ YIdle y [VRet i (MRegister t) MErr] (MStep i 0) Y Ep); try reflexivity. intros m A.
           pose proof (abs_nth _ _ _ _ _ A Ep) as Em. destruct A as (A1 & A2 & A3 & A4). cbn [mstep]. rewrite Em. cbn [abs_pc]. rewrite A1, L, A2, F. eexists. split; [reflexivity|]. cbn. rewrite L in A1. auto.
        -- eapply (into_inv y tr i t OMustStart _ _ _ y1 es Y Ep) in E; try reflexivity; [exact E|]. left. exists 0%nat. intros m A.
           pose proof (abs_nth _ _ _ _ _ A Ep) as Em. destruct A as (A1 & A2 & A3 & A4). cbn [mstep]. rewrite Em. cbn [abs_pc]. rewrite A1, L, A2, F. eexists. split; [reflexivity|]. cbn. rewrite ?A2. auto.
      * destruct (y_locked y) eqn:L; [discriminate|]. destruct (find_task nm (y_map y)) as [t|] eqn:F.
        -- eapply (into_inv y tr i t OStop _ _ _ y1 es Y Ep) in E; try reflexivity; [exact E|]. left. exists 0%nat. intros m A.
           pose proof (abs_nth _ _ _ _ _ A Ep) as Em. destruct A as (A1 & A2 & A3 & A4). cbn [mstep]. rewrite Em. cbn [abs_pc]. rewrite A1, L, A2, F. eexists. split; [reflexivity|]. cbn. auto.
        -- injection E as <- <-. apply (plain_inv y tr i _ YIdle y [VRet i (MUnregister nm) MOk] (MStep i 0) Y Ep); try reflexivity. intros m A.
           pose proof (abs_nth _ _ _ _ _ A Ep) as Em. destruct A as (A1 & A2 & A3 & A4). cbn [mstep]. rewrite Em. cbn [abs_pc]. rewrite A1, L, A2, F. eexists. split; [reflexivity|]. cbn. rewrite L in A1. auto.
      * destruct (y_locked y) eqn:L; [discriminate|]. injection E as <- <-.
        apply (plain_inv y tr i _ (YAll (map snd (y_map y))) (put_lock true y) [] (MStep i 0) Y Ep); try reflexivity. intros m A.
        pose proof (abs_nth _ _ _ _ _ A Ep) as Em. destruct A as (A1 & A2 & A3 & A4). cbn [mstep]. rewrite Em. cbn [abs_pc]. rewrite A1, L. eexists. split; [reflexivity|]. cbn. rewrite ?A2. auto.
      * apply (into_inv y tr i t OStart _ _ y y1 es Y Ep) in E; try reflexivity; [exact E|left; reflexivity|right; auto].
      * apply (into_inv y tr i t OStop _ _ y y1 es Y Ep) in E; try reflexivity; [exact E|right; reflexivity|right; auto].
    + destruct rest as [|a rest].
      * injection E as <- <-. apply (plain_inv y tr i _ YIdle (put_lock false (put_map [] y)) [VRet i MUnregisterAll MOk] (MStep i 0) Y Ep); try reflexivity. intros m A.
        pose proof (abs_nth _ _ _ _ _ A Ep) as Em. destruct A as (A1 & A2 & A3 & A4). cbn [mstep]. rewrite Em. cbn [abs_pc]. eexists. split; [reflexivity|]. auto.
      * destruct (nth_error (a :: rest) k) as [t|] eqn:F; [|discriminate].
        apply (into_inv y tr i t OStop _ _ y y1 es Y Ep) in E; try reflexivity; [exact E|exact F|right; auto].
  - assert (E1 : exists s es1, tstep (cfgs t) (y_tasks y t) l = Some (s, es1) /\ (forall i o, l <> LCall i o) /\
      match es1 with [ERet i _ r _] => let '(y2, more) := back i r (put_task t s y) in Some (y2, map (YT t) es1 ++ more) | _ => Some (put_task t s y, map (YT t) es1) end = Some (y1, es)).
    { destruct l; cbn [ystep] in E; try discriminate;
        (match type of E with match ?x with _ => _ end = _ => destruct x as [[s es1]|] eqn:Es; [|discriminate] end; exists s, es1; split; [reflexivity|]; split; [discriminate|exact E]). }
    destruct E1 as (s & es1 & Es & N & E1). destruct (tasks_jinv _ _ t (yi_tasks _ _ Y)) as [_ J].
    destruct (step_events _ _ _ _ _ _ J Es N) as [(i & o & r & -> & Hp)|F].
    + pose proof (ret_inv y tr t l s i o r _ Y Es Hp) as K. destruct (back i r (put_task t s y)) as [y2 more]. injection E1 as <- <-. exact K.
    + assert (E2 : Some (put_task t s y, map (YT t) es1) = Some (y1, es)).
      { destruct es1 as [|e [|e' es1]]; [exact E1| |destruct e; exact E1]. inversion F as [|? ? He _]; subst. destruct e; try destruct He; exact E1. }
      injection E2 as <- <-. apply (put_task_inv y tr t l s es1 Y Es F).
  - cbn [ystep] in E. destruct (Z.leb_spec 0 d); [|discriminate]. injection E as <- <-. apply time_inv; assumption.
Qed.
Lemma yexec_inv sched : yinv (fst (yexec cfgs name t0 n sched)) (snd (yexec cfgs name t0 n sched)).
Proof.
  apply (exec_inv (ystep cfgs name) yinv (fun s l s1 es tr I E => ystep_inv s tr l s1 es I E) sched (yinit t0 n) [] yinit_inv).
Qed.
End Sys.
