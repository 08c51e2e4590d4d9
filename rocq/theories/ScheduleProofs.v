(** The steps of a task, its state invariants and its trace invariants. *)
From Verif Require Import Common Threads ScheduleModel ScheduleSpec SemaProofs.
Local Open Scope list_scope.
Local Open Scope Z_scope.

(** ** The steps *)

Inductive refused (s : task) : op -> error -> Prop :=
| Ref_twice o : starts o = true -> t_status s = started -> refused s o StartedTwice
| Ref_over o : starts o = true -> t_status s = stopped -> refused s o StartedStopped
| Ref_new o : starts o = false -> t_status s = new -> refused s o NotStarted
| Ref_stopped o : starts o = false -> t_status s = stopped -> refused s o StoppedTwice.

Definition cancels (r : run) (now : Z) : list event := if r_done r then [] else [ECancel (r_no r) now].

Inductive rtrans (c : cfg) (now : Z) (sig : bool) (r : run) : run -> list event -> Prop :=
| RT_start : r_pc r = RStart ->
    rtrans c now sig r (Run (r_no r) RSelect (r_job r) (now + c_timeout c) false) [ELog (r_no r) now]
| RT_ret : r_pc r = RSelect \/ r_pc r = RFin -> r_job r = JDone ->
    rtrans c now sig r (Run (r_no r) RRet (r_job r) (r_deadline r) true) (cancels r now ++ [ENext (r_no r) now])
| RT_done : r_pc r = RSelect -> r_done r = true -> rtrans c now sig r (with_pc RFin r) []
| RT_stop : r_pc r = RSelect -> sig = true ->
    rtrans c now sig r (Run (r_no r) RFin (r_job r) (r_deadline r) true) (cancels r now)
| RT_expire : r_pc r = RSelect \/ r_pc r = RFin -> r_done r = false -> r_deadline r <= now ->
    rtrans c now sig r (Run (r_no r) (r_pc r) (r_job r) (r_deadline r) true) [ECancel (r_no r) now]
| RT_begin : r_pc r <> RStart -> r_job r = JNone -> rtrans c now sig r (with_job JRun r) [EBegin (r_no r) now]
| RT_end : r_job r = JRun -> rtrans c now sig r (with_job JDone r) [EEnd (r_no r) now].

Inductive trans (c : cfg) (s : task) : task -> list event -> Prop :=
| T_time d : 0 <= d -> trans c s (set_now (t_now s + d) s) []
| T_call i o : nth_error (t_clients s) i = Some CIdle -> trans c s (set_client i (CWant o) s) [ECall i o]
| T_fail i o e : nth_error (t_clients s) i = Some (CWant o) -> t_locked s = false -> refused s o e ->
    trans c s (set_client i CIdle s) [ERet i o (fails o e) (t_now s)]
| T_start_delay i o : nth_error (t_clients s) i = Some (CWant o) -> t_locked s = false -> starts o = true ->
    t_status s <> started -> t_status s <> stopped -> c_kind c = Delay ->
    trans c s (set_client i (CAppend o) (set_locked true (set_conss (t_cons s ++ [KWait]) (set_status started s)))) []
| T_start_rate i o : nth_error (t_clients s) i = Some (CWant o) -> t_locked s = false -> starts o = true ->
    t_status s <> started -> t_status s <> stopped -> c_kind c = Rate ->
    trans c s (set_client i CIdle (set_provs (t_prov s ++ [PSend]) (set_conss (t_cons s ++ [KWait])
                (set_tick (Some (t_now s + c_interval c)) false (set_status started s)))))
      [ERet i o Ok (t_now s)]
| T_stop i o : nth_error (t_clients s) i = Some (CWant o) -> t_locked s = false -> starts o = false ->
    t_status s <> new -> t_status s <> stopped ->
    trans c s (set_client i CIdle (set_tick (match c_kind c with Delay => t_tick s | Rate => None end) (t_tickbuf s)
                (set_sig (set_status stopped s)))) [ERet i o Ok (t_now s)]
| T_client_send i o k : nth_error (t_clients s) i = Some (CAppend o) -> nth_error (t_cons s) k = Some KWait ->
    trans c s (set_client i CIdle (set_locked false (set_cons k KCheck s))) [ERet i o Ok (t_now s)]
| T_client_stop i o : nth_error (t_clients s) i = Some (CAppend o) -> t_sig s = true ->
    trans c s (set_client i CIdle (set_locked false s)) [ERet i o Ok (t_now s)]
| T_check_stopped k : nth_error (t_cons s) k = Some KCheck -> t_locked s = false -> t_status s = stopped ->
    trans c s (set_cons k KDone s) []
| T_check k : nth_error (t_cons s) k = Some KCheck -> t_locked s = false -> t_status s <> stopped ->
    trans c s (set_cons k KNo s) []
| T_no k : nth_error (t_cons s) k = Some KNo -> t_locked s = false ->
    trans c s (set_cons k (match c_kind c with Delay => KRun (length (t_runs s)) | Rate => KWait end)
                (set_runs (t_runs s ++ [Run (t_no s + 1) RStart JNone 0 false]) (set_no (t_no s + 1) s))) []
| T_ret k j r : nth_error (t_cons s) k = Some (KRun j) -> nth_error (t_runs s) j = Some r -> r_pc r = RRet ->
    trans c s (set_timers (t_timers s ++ [TGo]) (set_cons k KWait s)) []
| T_cons_stop k : nth_error (t_cons s) k = Some KWait -> t_sig s = true -> trans c s (set_cons k KDone s) []
| T_prov_send p k : nth_error (t_prov s) p = Some PSend -> nth_error (t_cons s) k = Some KWait ->
    trans c s (set_prov p PTick (set_cons k KCheck s)) []
| T_prov_tick p : nth_error (t_prov s) p = Some PTick -> t_tickbuf s = true ->
    trans c s (set_prov p PSend (set_tick (t_tick s) false s)) []
| T_prov_stop p x : nth_error (t_prov s) p = Some x -> x <> PDone -> t_sig s = true -> trans c s (set_prov p PDone s) []
| T_ticker next : t_tick s = Some next -> next <= t_now s ->
    trans c s (set_tick (Some (next + c_interval c * (1 + (t_now s - next) / c_interval c))) true s) []
| T_timer_arm j : nth_error (t_timers s) j = Some TGo -> trans c s (set_timer j (TArmed (t_now s + c_interval c)) s) []
| T_timer_fire j a : nth_error (t_timers s) j = Some (TArmed a) -> a <= t_now s -> trans c s (set_timer j TSend s) []
| T_timer_send j k : nth_error (t_timers s) j = Some TSend -> nth_error (t_cons s) k = Some KWait ->
    trans c s (set_timer j TDone (set_cons k KCheck s)) []
| T_timer_stop j : nth_error (t_timers s) j = Some TSend -> t_sig s = true -> trans c s (set_timer j TDone s) []
| T_run j r r' es : nth_error (t_runs s) j = Some r -> rtrans c (t_now s) (t_sig s) r r' es ->
    trans c s (set_run j r' s) es.

Lemma outcome_fails o e : outcome o (Some e) = fails o e.
Proof. destruct o; reflexivity. Qed.

Lemma client_crit_trans c s i o s1 es : nth_error (t_clients s) i = Some (CWant o) -> t_locked s = false ->
  client_crit c i o s = Some (s1, es) -> trans c s s1 es.
Proof.
  intros Hi Hl E. destruct o; cbn [client_crit] in E; unfold start_crit, stop_crit, mark_start, mark_stop, returns in E;
    repeat match type of E with context [?a =? ?b] => destruct (a =? b) eqn:? end;
    repeat match goal with H : (_ =? _) = true |- _ => apply Z.eqb_eq in H | H : (_ =? _) = false |- _ => apply Z.eqb_neq in H end;
    try (injection E as <- <-;
      first [ refine (T_fail c s i _ StartedTwice Hi Hl _); constructor; [reflexivity|assumption]
            | refine (T_fail c s i _ StartedStopped Hi Hl _); constructor; [reflexivity|assumption]
            | refine (T_fail c s i _ NotStarted Hi Hl _); constructor; [reflexivity|assumption]
            | refine (T_fail c s i _ StoppedTwice Hi Hl _); constructor; [reflexivity|assumption] ]).
  - destruct (c_kind c) eqn:Ek; injection E as <- <-.
    + apply T_start_delay; auto.
    + apply T_start_rate; auto.
  - destruct (c_kind c) eqn:Ek; injection E as <- <-.
    + apply T_start_delay; auto.
    + apply T_start_rate; auto.
  - pose proof (T_stop c s i OStop Hi Hl eq_refl Heqb Heqb0) as T. destruct (c_kind c) eqn:Ek; injection E as <- <-; exact T.
  - pose proof (T_stop c s i OMustStop Hi Hl eq_refl Heqb Heqb0) as T. destruct (c_kind c) eqn:Ek; injection E as <- <-; exact T.
Qed.

Lemma set_run_twice j r r' s : set_run j r (set_run j r' s) = set_run j r s.
Proof. unfold set_run, set_runs. cbn. rewrite upd_upd. reflexivity. Qed.

Lemma cancel_set j r r0 s : cancel j r (set_run j r s) = (set_run j (Run (r_no r) (r_pc r) (r_job r) (r_deadline r) true) (set_run j r0 s), cancels r (t_now s)).
Proof.
  rewrite set_run_twice. unfold cancel, cancels. destruct (r_done r) eqn:E.
  - destruct r as [a b d e f]. cbn in *. rewrite E. reflexivity.
  - rewrite set_run_twice. reflexivity.
Qed.

Lemma receive_some k s s1 : receive k s = Some s1 -> nth_error (t_cons s) k = Some KWait /\ s1 = set_cons k KCheck s.
Proof. unfold receive. destruct (nth_error (t_cons s) k) as [[| | | |]|]; intros [=]; subst; auto. Qed.

Ltac sub E := injection E as <- <-.

Definition run_label (l : label) : option nat :=
  match l with LRun j | LRunDone j | LRunStop j | LExpire j | LJobBegin j | LJobEnd j => Some j | _ => None end.

Lemma tstep_run c s l j s1 es : run_label l = Some j -> tstep c s l = Some (s1, es) ->
  exists r r', nth_error (t_runs s) j = Some r /\ rtrans c (t_now s) (t_sig s) r r' es /\ s1 = set_run j r' s.
Proof.
  intros El E. destruct l as [| | | | | | | | | | | | | |j0|j0|j0|j0|j0|j0]; try discriminate El; injection El as ->; cbn [tstep] in E;
    (destruct (nth_error (t_runs s) j) as [r|] eqn:Ej; [|discriminate]); exists r.
  - assert (Ret : (r_pc r = RSelect \/ r_pc r = RFin) -> r_job r = JDone -> run_returns j r s = Some (s1, es) -> exists r', Some r = Some r /\ rtrans c (t_now s) (t_sig s) r r' es /\ s1 = set_run j r' s).
    { intros Hp Hj HE. unfold run_returns in HE. rewrite (cancel_set j (with_pc RRet r) r s), set_run_twice in HE. sub HE.
      eexists; split; [reflexivity|]; split; [|reflexivity]. cbn [with_pc r_no r_pc r_job r_deadline]. apply (RT_ret c (t_now s) (t_sig s) r Hp Hj). }
    destruct (r_pc r) eqn:Ep; [|destruct (r_job r) eqn:Eb; try discriminate; auto..|discriminate].
    sub E. eexists; split; [reflexivity|]; split; [|reflexivity]. apply RT_start. exact Ep.
  - destruct (r_pc r) eqn:Ep; try discriminate.
    destruct (r_done r) eqn:Ed; [|discriminate]. sub E. eexists; split; [reflexivity|]; split; [|reflexivity]. apply RT_done; auto.
  - destruct (r_pc r) eqn:Ep; try discriminate.
    destruct (t_sig s) eqn:Es; [|discriminate]. rewrite (cancel_set j (with_pc RFin r) r s), set_run_twice in E. sub E.
    eexists; split; [reflexivity|]; split; [|reflexivity]. exact (RT_stop c (t_now s) true r Ep eq_refl).
  - assert (Exp : (r_pc r = RSelect \/ r_pc r = RFin) ->
      (if r_done r then None else if r_deadline r <=? t_now s then Some (cancel j r s) else None) = Some (s1, es) -> exists r', Some r = Some r /\ rtrans c (t_now s) (t_sig s) r r' es /\ s1 = set_run j r' s).
    { intros Hp HE. destruct (r_done r) eqn:Ed; [discriminate|]. destruct (r_deadline r <=? t_now s) eqn:El; [|discriminate].
      unfold cancel in HE. rewrite Ed in HE. sub HE. eexists; split; [reflexivity|]; split; [|reflexivity]. apply RT_expire; [exact Hp|exact Ed|lia]. }
    destruct (r_pc r) eqn:Ep; try discriminate; auto.
  - destruct (r_pc r) eqn:Ep; try discriminate; (destruct (r_job r) eqn:Eb; try discriminate); sub E; (eexists; split; [reflexivity|]; split; [|reflexivity]);
      apply RT_begin; congruence.
  - destruct (r_job r) eqn:Eb; try discriminate. sub E.
    eexists; split; [reflexivity|]; split; [|reflexivity]. apply RT_end; auto.
Qed.



Lemma tstep_trans c s l s1 es : tstep c s l = Some (s1, es) -> trans c s s1 es.
Proof.
  destruct (run_label l) as [j|] eqn:El.
  { intros E. destruct (tstep_run c s l j s1 es El E) as (r & r' & Hj & Hr & ->). exact (T_run c s j r r' es Hj Hr). }
  destruct l; try discriminate El; clear El; cbn [tstep]; intros E.
  - destruct (0 <=? d) eqn:Ed; [|discriminate]. sub E. apply T_time. lia.
  - destruct (nth_error (t_clients s) i) as [[|?|?]|] eqn:Ei; try discriminate. sub E. apply T_call. exact Ei.
  - destruct (nth_error (t_clients s) i) as [[|?|?]|] eqn:Ei; try discriminate. destruct (t_locked s) eqn:El; [discriminate|].
    apply (client_crit_trans c s i o s1 es Ei El E).
  - destruct (nth_error (t_clients s) i) as [[|?|?]|] eqn:Ei; try discriminate. destruct (receive k s) as [s2|] eqn:Er; [|discriminate].
    apply receive_some in Er. destruct Er as (Ek & ->). sub E. apply (T_client_send c s i o k Ei Ek).
  - destruct (nth_error (t_clients s) i) as [[|?|?]|] eqn:Ei; try discriminate. destruct (t_sig s) eqn:Es; [|discriminate].
    sub E. apply (T_client_stop c s i o Ei Es).
  - unfold cons_step in E. destruct (nth_error (t_cons s) k) as [[| | |j|]|] eqn:Ek; try discriminate.
    + destruct (t_locked s) eqn:El; [discriminate|]. destruct (t_status s =? stopped) eqn:Est; sub E.
      * apply T_check_stopped; auto. apply Z.eqb_eq. exact Est.
      * apply T_check; auto. apply Z.eqb_neq. exact Est.
    + destruct (t_locked s) eqn:El; [discriminate|]. pose proof (T_no c s k Ek El) as T.
      destruct (c_kind c); sub E; exact T.
    + destruct (nth_error (t_runs s) j) as [r|] eqn:Ej; [|discriminate]. destruct (r_pc r) eqn:Ep; try discriminate. sub E.
      apply (T_ret c s k j r Ek Ej Ep).
  - destruct (nth_error (t_cons s) k) as [[| | |j|]|] eqn:Ek; try discriminate. destruct (t_sig s) eqn:Es; [|discriminate]. sub E.
    apply T_cons_stop; auto.
  - destruct (nth_error (t_prov s) p) as [[| |]|] eqn:Ep; try discriminate. destruct (receive k s) as [s2|] eqn:Er; [|discriminate].
    apply receive_some in Er. destruct Er as (Ek & ->). sub E. apply T_prov_send; auto.
  - destruct (nth_error (t_prov s) p) as [[| |]|] eqn:Ep; try discriminate. destruct (t_tickbuf s) eqn:Es; [|discriminate]. sub E.
    apply T_prov_tick; auto.
  - destruct (nth_error (t_prov s) p) as [[| |]|] eqn:Ep; try discriminate; (destruct (t_sig s) eqn:Es; [|discriminate]); sub E;
      apply (T_prov_stop c s p _ Ep); auto; discriminate.
  - unfold ticker_step in E. destruct (t_tick s) as [next|] eqn:Et; [|discriminate]. destruct (next <=? t_now s) eqn:En; [|discriminate]. sub E.
    apply T_ticker; [exact Et|lia].
  - destruct (nth_error (t_timers s) j) as [[|a| |]|] eqn:Ej; try discriminate.
    + sub E. apply T_timer_arm; auto.
    + destruct (a <=? t_now s) eqn:Ea; [|discriminate]. sub E. apply (T_timer_fire c s j a); [exact Ej|lia].
  - destruct (nth_error (t_timers s) j) as [[|a| |]|] eqn:Ej; try discriminate. destruct (receive k s) as [s2|] eqn:Er; [|discriminate].
    apply receive_some in Er. destruct Er as (Ek & ->). sub E. apply T_timer_send; auto.
  - destruct (nth_error (t_timers s) j) as [[|a| |]|] eqn:Ej; try discriminate. destruct (t_sig s) eqn:Es; [|discriminate]. sub E.
    apply T_timer_stop; auto.
Qed.

(** ** State invariant *)

Definition app (x : cpc) : Z := match x with CAppend _ => 1 | _ => 0 end.
Definition busy (x : kpc) : Z := match x with KCheck | KNo | KRun _ => 1 | _ => 0 end.
Definition live (x : tpc) : Z := match x with TDone => 0 | _ => 1 end.

Definition tokens (s : task) : Z := sumZ app (t_clients s) + sumZ busy (t_cons s) + sumZ live (t_timers s).

Definition run_ok (r : run) : Prop :=
  match r_pc r with
  | RStart => r_job r = JNone /\ r_done r = false
  | RSelect => True
  | RFin => r_done r = true
  | RRet => r_job r = JDone /\ r_done r = true
  end.

Record sinv (c : cfg) (s : task) : Prop := SInv {
  i_status : t_status s = new \/ t_status s = started \/ t_status s = stopped;
  i_sig : t_sig s = (t_status s =? stopped);
  i_lock : sumZ app (t_clients s) = if t_locked s then 1 else 0;
  i_lockst : t_locked s = true -> t_status s = started /\ c_kind c = Delay;
  i_cons : length (t_cons s) = if t_status s =? new then O else 1%nat;
  i_prov : length (t_prov s) = match c_kind c with Delay => O | Rate => if t_status s =? new then O else 1%nat end;
  i_delay : c_kind c = Delay -> t_tick s = None /\ t_tickbuf s = false /\ tokens s <= 1 /\ (t_status s = started -> tokens s = 1) /\
    forall j r, nth_error (t_runs s) j = Some r -> r_pc r <> RRet -> nth_error (t_cons s) 0 = Some (KRun j);
  i_rate : c_kind c = Rate -> t_timers s = [] /\ (forall k j, nth_error (t_cons s) k <> Some (KRun j)) /\
    (t_status s = started <-> t_tick s <> None);
  i_no : t_no s = Z.of_nat (length (t_runs s));
  i_runno : forall j r, nth_error (t_runs s) j = Some r -> r_no r = Z.of_nat j + 1 /\ run_ok r;
  i_krun : forall k j, nth_error (t_cons s) k = Some (KRun j) -> S j = length (t_runs s);
  i_new : t_status s = new -> t_timers s = [] /\ t_runs s = [] /\ t_tickbuf s = false;
  i_alive : t_status s <> stopped -> Forall (fun k => k <> KDone) (t_cons s) /\ Forall (fun p => p <> PDone) (t_prov s);
  i_lockruns : t_locked s = true -> t_runs s = []
}.

Ltac ss := cbn [t_now t_status t_sig t_no t_locked t_clients t_cons t_prov t_tick t_tickbuf t_timers t_runs
  set_now set_status set_sig set_no set_locked set_client set_conss set_cons set_provs set_prov set_tick set_timers set_timer set_runs set_run] in *.

Lemma sumZ_repeat0 {A} (f : A -> Z) x n : f x = 0 -> sumZ f (repeat x n) = 0.
Proof. intros H. induction n; cbn [repeat sumZ]; lia. Qed.

Lemma sinv_init c t0 n : sinv c (init t0 n).
Proof.
  unfold init. constructor; ss; auto.
  - apply sumZ_repeat0. reflexivity.
  - discriminate.
  - destruct (c_kind c); reflexivity.
  - intros _. unfold tokens. ss. rewrite sumZ_repeat0 by reflexivity. cbn. split; [auto|]. split; [auto|]. split; [lia|].
    split; [discriminate|]. intros [|] r; discriminate.
  - intros _. split; [reflexivity|]. split; [intros [|]; discriminate|]. split; [discriminate|congruence].
  - intros [|]; discriminate.
  - intros [|]; discriminate.
Qed.

Lemma app_nonneg l : 0 <= sumZ app l. Proof. apply sumZ_nonneg, Forall_forall. intros [] _; cbn; lia. Qed.
Lemma busy_nonneg l : 0 <= sumZ busy l. Proof. apply sumZ_nonneg, Forall_forall. intros [] _; cbn; lia. Qed.
Lemma live_nonneg l : 0 <= sumZ live l. Proof. apply sumZ_nonneg, Forall_forall. intros [] _; cbn; lia. Qed.

(** The one consumer. *)
Lemma one_cons c s k x : sinv c s -> nth_error (t_cons s) k = Some x -> k = O /\ t_cons s = [x] /\ t_status s <> new.
Proof.
  intros HI H. pose proof (i_cons c s HI) as HL. destruct (t_status s =? new) eqn:E.
  - destruct (t_cons s); [destruct k; discriminate|discriminate].
  - apply Z.eqb_neq in E. destruct (t_cons s) as [|y [|]]; try discriminate. destruct k as [|[|]]; try discriminate.
    injection H as ->. auto.
Qed.
Lemma one_prov c s k x : sinv c s -> nth_error (t_prov s) k = Some x -> k = O /\ t_prov s = [x] /\ t_status s <> new /\ c_kind c = Rate.
Proof.
  intros HI H. pose proof (i_prov c s HI) as HL. destruct (c_kind c).
  - destruct (t_prov s); [destruct k; discriminate|discriminate].
  - destruct (t_status s =? new) eqn:E.
    + destruct (t_prov s); [destruct k; discriminate|discriminate].
    + apply Z.eqb_neq in E. destruct (t_prov s) as [|y [|]]; try discriminate. destruct k as [|[|]]; try discriminate.
      injection H as ->. auto.
Qed.

Lemma rtrans_ok c now sig r r' es : rtrans c now sig r r' es -> run_ok r -> run_ok r' /\ r_no r' = r_no r /\ r_pc r <> RRet.
Proof.
  intros HT. unfold run_ok. destruct HT; cbn [r_pc r_job r_done r_no with_pc with_job].
  - rewrite H. intros _. repeat split; congruence.
  - intros _. repeat split; auto. destruct H; congruence.
  - intros _. repeat split; auto. congruence.
  - intros _. repeat split; auto. congruence.
  - intros _. destruct H as [-> | ->]; repeat split; congruence.
  - intros HR. destruct (r_pc r); try congruence; try (destruct HR as (? & ?); congruence); repeat split; auto; congruence.
  - intros HR. destruct (r_pc r); try (destruct HR as (? & ?); congruence); repeat split; auto; congruence.
Qed.

Lemma sinv_same c s s1 : sinv c s -> t_status s1 = t_status s -> t_sig s1 = t_sig s -> t_no s1 = t_no s -> t_locked s1 = t_locked s ->
  sumZ app (t_clients s1) = sumZ app (t_clients s) -> t_cons s1 = t_cons s -> t_prov s1 = t_prov s -> t_tick s1 = t_tick s ->
  t_tickbuf s1 = t_tickbuf s -> sumZ live (t_timers s1) = sumZ live (t_timers s) -> (t_timers s = [] -> t_timers s1 = []) ->
  t_runs s1 = t_runs s -> sinv c s1.
Proof.
  intros [A1 A2 A3 A4 A5 A6 A7 A8 A9 A10 A11 A12 A13 A14] E1 E2 E3 E4 E5 E6 E7 E8 E9 E10 E10' E11.
  constructor; unfold tokens in *; rewrite ?E1, ?E2, ?E3, ?E4, ?E5, ?E6, ?E7, ?E8, ?E9, ?E10, ?E11; auto.
  - intros HR. destruct (A8 HR) as (B1 & B2). auto.
  - intros HN. destruct (A12 HN) as (B1 & B2). auto.
Qed.

Lemma sumZ_upd_eq {A} (f : A -> Z) i x l o : nth_error l i = Some o -> f x = f o -> sumZ f (upd i x l) = sumZ f l.
Proof. intros H E. rewrite (sumZ_upd f i x l o H). lia. Qed.

Lemma upd_nil {A} i (x : A) l : l = [] -> upd i x l = [].
Proof. intros ->. destruct i; reflexivity. Qed.

Lemma nth0 {A} (x : A) : nth_error [x] 0 = Some x. Proof. reflexivity. Qed.
Lemma nth1 {A} (x y : A) k : nth_error [x] k = Some y -> k = O /\ x = y.
Proof. destruct k as [|[|]]; intros [=]; auto. Qed.

Lemma sinv_trans c s s1 es : sinv c s -> trans c s s1 es -> sinv c s1.
Proof.
  intros HI HT. pose proof HI as [A1 A2 A3 A4 A5 A6 A7 A8 A9 A10 A11 A12 A13 A14]. unfold tokens in *.
  destruct HT.
  - (* time *) apply (sinv_same c s); auto.
  - (* call *) apply (sinv_same c s); auto. ss. apply (sumZ_upd_eq _ _ _ _ CIdle); auto.
  - (* fail *) apply (sinv_same c s); auto. ss. apply (sumZ_upd_eq _ _ _ _ (CWant o)); auto.
  - (* start delay *)
    assert (E : t_status s = new) by (destruct A1 as [?|[?|?]]; congruence). rewrite E in *. change (new =? new) with true in *.
    destruct (A12 eq_refl) as (B1 & B2 & B3). destruct (t_cons s) eqn:Ec; [|discriminate]. rewrite H0 in A3.
    constructor; ss; rewrite ?B1, ?B2 in *; auto; try discriminate; try congruence.
    + rewrite (sumZ_upd app _ _ _ _ H), A3. reflexivity.
    + rewrite H4 in *. exact A6.
    + destruct (A7 H4) as (C1 & C2 & C3 & C4 & C5). intros _. repeat split; auto.
      * unfold tokens; ss. rewrite (sumZ_upd app _ _ _ _ H), A3, B1. cbn. lia.
      * intros _. unfold tokens; ss. rewrite (sumZ_upd app _ _ _ _ H), A3, B1. cbn. lia.
      * intros [|]; discriminate.
    + intros [|[|]] j; discriminate.
    + intros _. split; [repeat constructor; discriminate|]. apply A13. discriminate.
  - (* start rate *)
    assert (E : t_status s = new) by (destruct A1 as [?|[?|?]]; congruence). rewrite E in *. change (new =? new) with true in *.
    destruct (A12 eq_refl) as (B1 & B2 & B3). destruct (t_cons s) eqn:Ec; [|discriminate]. rewrite H0 in A3.
    rewrite H4 in *. destruct (t_prov s) eqn:Ep; [|discriminate].
    constructor; ss; rewrite ?B1, ?B2, ?H4, ?Ep in *; auto; try discriminate; try congruence.
    + rewrite (sumZ_upd app _ _ _ _ H), A3, H0. reflexivity.
    + intros _. split; [reflexivity|]. split; [|split; [discriminate|reflexivity]]. intros [|[|]] j; discriminate.
    + intros [|[|]] j; discriminate.
    + intros _. split; repeat constructor; discriminate.
  - (* stop *)
    assert (E : t_status s = started) by (destruct A1 as [?|[?|?]]; congruence). rewrite E in *. rewrite H0 in A3.
    constructor; ss; auto; try discriminate; try congruence.
    + rewrite (sumZ_upd app _ _ _ _ H), A3, H0. reflexivity.
    + intros HD. destruct (A7 HD) as (C1 & C2 & C3 & C4 & C5). rewrite HD. repeat split; auto.
      * unfold tokens; ss. rewrite (sumZ_upd app _ _ _ _ H), A3. cbn. specialize (C4 eq_refl). rewrite A3 in C4. lia.
      * discriminate.
    + intros HR. destruct (A8 HR) as (C1 & C2 & C3). rewrite HR. repeat split; auto; congruence.
  - (* client send *)
    destruct (one_cons c s k _ HI H0) as (-> & Ec & Hn).
    assert (E1 : t_locked s = true).
    { pose proof (sumZ_ge_elem app (t_clients s) i (CAppend o)) as G. cbn in G. rewrite A3 in G. destruct (t_locked s); [reflexivity|].
      assert (1 <= 0); [apply G; [|exact H]|lia]. apply Forall_forall. intros [] _; cbn; lia. }
    destruct (A4 E1) as (E2 & E3). rewrite E1 in A3. destruct (A7 E3) as (C1 & C2 & C3 & C4 & C5). rewrite Ec in *.
    constructor; ss; rewrite ?Ec; cbn [upd]; auto; try discriminate; try congruence.
    + rewrite (sumZ_upd app _ _ _ _ H), A3. reflexivity.
    + intros _. unfold tokens; ss. rewrite Ec, (sumZ_upd app _ _ _ _ H), A3 in *. cbn [upd sumZ app busy] in *. specialize (C4 E2).
      repeat split; auto; try lia. intros j r Hj Hr. specialize (C5 j r Hj Hr). discriminate.
    + intros [|[|]] j; discriminate.
    + intros Hns. split; [repeat constructor; discriminate|]. apply A13. exact Hns.
  - (* client stop *)
    exfalso. assert (E1 : t_locked s = true).
    { pose proof (sumZ_ge_elem app (t_clients s) i (CAppend o)) as G. cbn in G. rewrite A3 in G. destruct (t_locked s); [reflexivity|].
      assert (1 <= 0); [apply G; [|exact H]|lia]. apply Forall_forall. intros [] _; cbn; lia. }
    destruct (A4 E1) as (E2 & E3). rewrite E2 in A2. rewrite A2 in H0. discriminate.
  - (* check stopped *)
    destruct (one_cons c s k _ HI H) as (-> & Ec & Hn). rewrite Ec in *. rewrite H1 in *.
    constructor; ss; rewrite ?Ec, ?H1; cbn [upd]; auto; try discriminate; try congruence.
    + intros HD. destruct (A7 HD) as (C1 & C2 & C3 & C4 & C5). unfold tokens; ss. rewrite Ec. cbn [upd sumZ busy] in *.
      repeat split; auto; try lia; [discriminate|]. intros j r Hj Hr. specialize (C5 j r Hj Hr). discriminate.
    + intros HR. destruct (A8 HR) as (C1 & C2 & C3). repeat split; auto; try apply C3. intros [|[|]] j; discriminate.
    + intros [|[|]] j; discriminate.
  - (* check *)
    destruct (one_cons c s k _ HI H) as (-> & Ec & Hn). rewrite Ec in *.
    constructor; ss; rewrite ?Ec; cbn [upd]; auto; try discriminate; try congruence.
    + intros HD. destruct (A7 HD) as (C1 & C2 & C3 & C4 & C5). unfold tokens; ss. rewrite Ec. cbn [upd sumZ busy] in *.
      repeat split; auto; try lia. intros j r Hj Hr. specialize (C5 j r Hj Hr). discriminate.
    + intros HR. destruct (A8 HR) as (C1 & C2 & C3). repeat split; auto; try apply C3. intros [|[|]] j; discriminate.
    + intros [|[|]] j; discriminate.
    + intros Hns. split; [repeat constructor; discriminate|]. apply A13. exact Hns.
  - (* no *)
    destruct (one_cons c s k _ HI H) as (-> & Ec & Hn). rewrite Ec in *.
    assert (Hn' : (t_status s =? new) = false) by (apply Z.eqb_neq; exact Hn). rewrite Hn' in *.
    constructor; ss; rewrite ?Ec, ?Hn'; cbn [upd]; auto; try discriminate; try congruence.
    + intros HD. destruct (A7 HD) as (C1 & C2 & C3 & C4 & C5). unfold tokens; ss. rewrite Ec, HD. cbn [upd sumZ busy] in *.
      repeat split; auto; try lia. intros j r Hj Hr. cbn [nth_error].
      assert (~ (j < length (t_runs s))%nat).
      { intros Hlt. rewrite nth_error_app1 in Hj by exact Hlt. specialize (C5 j r Hj Hr). discriminate. }
      assert (j < length (t_runs s ++ [Run (t_no s + 1) RStart JNone 0 false]))%nat by (apply nth_error_Some; congruence).
      rewrite app_length in *. cbn in *. replace j with (length (t_runs s)) by lia. reflexivity.
    + intros HR. rewrite HR. destruct (A8 HR) as (C1 & C2 & C3). repeat split; auto; try apply C3. intros [|[|]] j; discriminate.
    + rewrite app_length. cbn. lia.
    + intros j r Hj. destruct (Nat.lt_ge_cases j (length (t_runs s))) as [Hlt|Hge].
      * rewrite nth_error_app1 in Hj by exact Hlt. auto.
      * rewrite nth_error_app2 in Hj by exact Hge. destruct (j - length (t_runs s))%nat as [|[|]] eqn:Ej; try discriminate.
        injection Hj as <-. cbn. split; [lia|]. unfold run_ok. cbn. auto.
    + intros k j Hk. apply nth1 in Hk. destruct Hk as (_ & Hk). rewrite app_length. cbn. destruct (c_kind c); [injection Hk as <-; lia|discriminate].
    + intros Hns. split; [|apply A13; exact Hns]. repeat constructor. destruct (c_kind c); discriminate.
  - (* ret *)
    destruct (one_cons c s k _ HI H) as (-> & Ec & Hn). rewrite Ec in *.
    assert (HD : c_kind c = Delay). { destruct (c_kind c) eqn:E; [reflexivity|]. destruct (A8 eq_refl) as (_ & C & _). specialize (C _ _ H). contradiction. }
    destruct (A7 HD) as (C1 & C2 & C3 & C4 & C5).
    constructor; ss; rewrite ?Ec; cbn [upd]; auto; try discriminate; try congruence.
    + intros _. unfold tokens; ss. rewrite Ec, sumZ_app. cbn [upd sumZ busy live] in *.
      repeat split; auto; try lia.
      intros j0 r0 Hj Hr. pose proof (C5 j0 r0 Hj Hr) as E. injection E as <-. congruence.
    + intros [|[|]] j0; discriminate.
    + intros Hns. split; [repeat constructor; discriminate|]. apply A13. exact Hns.
  - (* cons stop *)
    destruct (one_cons c s k _ HI H) as (-> & Ec & Hn). rewrite Ec in *.
    assert (Es : t_status s = stopped) by (apply Z.eqb_eq; congruence).
    constructor; ss; rewrite ?Ec; cbn [upd]; auto; try discriminate; try congruence.
    + intros HD. destruct (A7 HD) as (C1 & C2 & C3 & C4 & C5). unfold tokens; ss. rewrite Ec. cbn [upd sumZ busy] in *.
      repeat split; auto; try lia. intros j r Hj Hr. specialize (C5 j r Hj Hr). discriminate.
    + intros HR. destruct (A8 HR) as (C1 & C2 & C3). repeat split; auto; try apply C3. intros [|[|]] j; discriminate.
    + intros [|[|]] j; discriminate.
  - (* prov send *)
    destruct (one_cons c s k _ HI H0) as (-> & Ec & Hn). destruct (one_prov c s p _ HI H) as (-> & Ep & _ & HR). rewrite Ec, Ep in *.
    destruct (A8 HR) as (C1 & C2 & C3). rewrite HR in *.
    constructor; ss; rewrite ?Ec, ?Ep; cbn [upd]; rewrite ?HR; auto; try discriminate; try congruence.
    + intros _. repeat split; auto; try apply C3. intros [|[|]] j; discriminate.
    + intros [|[|]] j; discriminate.
    + intros Hns. split; repeat constructor; discriminate.
  - (* prov tick *)
    destruct (one_prov c s p _ HI H) as (-> & Ep & Hn & HR). rewrite Ep in *.
    destruct (A8 HR) as (C1 & C2 & C3). rewrite HR in *.
    constructor; ss; rewrite ?Ep; cbn [upd]; rewrite ?HR; auto; try discriminate; try congruence.
    + intros Hns. split; [apply A13; exact Hns|]. repeat constructor; discriminate.
  - (* prov stop *)
    destruct (one_prov c s p _ HI H) as (-> & Ep & Hn & HR). rewrite Ep in *.
    assert (Es : t_status s = stopped) by (apply Z.eqb_eq; congruence).
    constructor; ss; rewrite ?Ep; cbn [upd]; auto; try discriminate; try congruence.
  - (* ticker *)
    constructor; ss; auto; try discriminate; try congruence.
    + intros HD. destruct (A7 HD) as (C1 & _). congruence.
    + intros HR. destruct (A8 HR) as (C1 & C2 & C3). repeat split; auto; try congruence. intros _. apply C3. congruence.
    + intros En. destruct (A12 En) as (C1 & C2 & C3). repeat split; auto. exfalso. destruct (c_kind c) eqn:Ek.
      * destruct (A7 eq_refl) as (C & _). congruence.
      * destruct (A8 eq_refl) as (_ & _ & C). assert (F : t_status s = started) by (apply C; congruence). rewrite F in En. discriminate.
  - apply (sinv_same c s); auto; ss; [|apply upd_nil]. apply (sumZ_upd_eq _ _ _ _ _ H). reflexivity.
  - apply (sinv_same c s); auto; ss; [|apply upd_nil]. apply (sumZ_upd_eq _ _ _ _ _ H). reflexivity.
  - (* timer send *)
    destruct (one_cons c s k _ HI H0) as (-> & Ec & Hn). rewrite Ec in *.
    assert (HD : c_kind c = Delay). { destruct (c_kind c) eqn:E; [reflexivity|]. destruct (A8 eq_refl) as (C & _). rewrite C in H. destruct j; discriminate. }
    destruct (A7 HD) as (C1 & C2 & C3 & C4 & C5).
    constructor; ss; rewrite ?Ec; cbn [upd]; auto; try discriminate; try congruence.
    + intros _. unfold tokens; ss. rewrite Ec, (sumZ_upd live _ _ _ _ H). cbn [upd sumZ busy live] in *.
      repeat split; auto; try lia.
      intros j0 r0 Hj Hr. pose proof (C5 j0 r0 Hj Hr) as E. discriminate.
    + intros [|[|]] j0; discriminate.
    + intros Hns. split; [repeat constructor; discriminate|]. apply A13. exact Hns.
  - (* timer stop *)
    assert (HD : c_kind c = Delay). { destruct (c_kind c) eqn:E; [reflexivity|]. destruct (A8 eq_refl) as (C & _). rewrite C in H. destruct j; discriminate. }
    assert (Es : t_status s = stopped) by (apply Z.eqb_eq; congruence).
    destruct (A7 HD) as (C1 & C2 & C3 & C4 & C5).
    constructor; ss; auto; try discriminate; try congruence.
    + intros _. unfold tokens; ss. rewrite (sumZ_upd live _ _ _ _ H). cbn [live].
      repeat split; auto; try lia. rewrite Es. discriminate.
    + rewrite Es. discriminate.
  - (* run *)
    destruct (A10 j r H) as (N & RO). destruct (rtrans_ok c _ _ _ _ _ H0 RO) as (RO' & N' & NR).
    constructor; ss; rewrite ?upd_length; auto; try discriminate; try congruence.
    + intros HD. destruct (A7 HD) as (C1 & C2 & C3 & C4 & C5). repeat split; auto. intros j0 r0 Hj Hr.
      rewrite nth_error_upd in Hj. destruct (Nat.eq_dec j j0) as [<-|Hne]; [apply (C5 j r H NR)|apply (C5 j0 r0 Hj Hr)].
    + intros j0 r0 Hj. rewrite nth_error_upd in Hj. destruct (Nat.eq_dec j j0) as [<-|Hne]; [|auto].
      rewrite H in Hj. injection Hj as <-. split; [congruence|exact RO'].
    + intros En. destruct (A12 En) as (C1 & C2 & C3). repeat split; auto. rewrite C2. destruct j; reflexivity.
    + intros EL. rewrite (A14 EL). destruct j; reflexivity.
Qed.

Lemma task_inv (J : task -> list event -> Prop) c t0 n :
  J (init t0 n) [] ->
  (forall s tr s1 es, sinv c s -> J s tr -> trans c s s1 es -> sinv c s1 -> J s1 (tr ++ es)) ->
  forall sched, sinv c (fst (texec c t0 n sched)) /\ J (fst (texec c t0 n sched)) (snd (texec c t0 n sched)).
Proof.
  intros H0 Hstep sched. unfold texec.
  apply (exec_inv (tstep c) (fun s tr => sinv c s /\ J s tr)) with (tr := []).
  - intros s l s1 es tr (HB & HJ) Hst. pose proof (tstep_trans c s l s1 es Hst) as HT.
    pose proof (sinv_trans c s s1 es HB HT) as HB1. split; [exact HB1|]. exact (Hstep s tr s1 es HB HJ HT HB1).
  - split; [apply sinv_init|exact H0].
Qed.

Lemma cut_event {E} (a b : list E) pre e post : a ++ b = pre ++ e :: post ->
  (exists x, a = pre ++ e :: x) \/ exists x, pre = a ++ x /\ b = x ++ e :: post.
Proof.
  revert pre. induction a as [|y a IH]; intros [|p pre] H; cbn in *.
  - right. exists []. auto.
  - right. exists (p :: pre). auto.
  - injection H as -> H. left. exists a. reflexivity.
  - injection H as -> H. destruct (IH _ H) as [(x & ->)|(x & -> & ->)]; [left; exists x; reflexivity|right; exists x; auto].
Qed.

Lemma task_trace (Q : list event -> event -> Prop) (J : task -> list event -> Prop) c t0 n :
  J (init t0 n) [] ->
  (forall s tr s1 es, sinv c s -> J s tr -> trans c s s1 es -> sinv c s1 -> J s1 (tr ++ es)) ->
  (forall s tr s1 es, sinv c s -> J s tr -> trans c s s1 es -> forall a e b, es = a ++ e :: b -> Q (tr ++ a) e) ->
  forall sched pre e post, snd (texec c t0 n sched) = pre ++ e :: post -> Q pre e.
Proof.
  intros H0 Hstep HQ sched.
  enough (HH : forall pre e post, snd (texec c t0 n sched) = pre ++ e :: post -> Q pre e) by exact HH.
  apply (task_inv (fun s tr => J s tr /\ forall pre e post, tr = pre ++ e :: post -> Q pre e) c t0 n).
  - split; [exact H0|]. intros pre e post Ep. destruct pre; discriminate Ep.
  - intros s tr s1 es HB (HJ & HP) HT HB1. split; [apply (Hstep s tr s1 es HB HJ HT HB1)|].
    intros pre e post E. destruct (cut_event _ _ _ _ _ E) as [(x & ->)|(x & -> & ->)].
    + apply (HP pre e x). reflexivity.
    + apply (HQ s tr s1 (x ++ e :: post) HB HJ HT x e post eq_refl).
Qed.
