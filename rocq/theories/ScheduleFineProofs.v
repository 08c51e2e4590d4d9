(** The fine machine of the tasks is simulated by that of ScheduleModel.v. *)
From Verif Require Import Common Threads ScheduleModel ScheduleSpec ScheduleProofs ScheduleLive ScheduleFineModel ScheduleFineSpec.
Local Open Scope list_scope.
Local Open Scope Z_scope.

(** ** Lists *)
Inductive All3 {A B C : Type} (P : A -> B -> C -> Prop) : list A -> list B -> list C -> Prop :=
| all3_nil : All3 P [] [] []
| all3_cons a b c la lb lc : P a b c -> All3 P la lb lc -> All3 P (a :: la) (b :: lb) (c :: lc).

Lemma all3_nth1 {A B C} (P : A -> B -> C -> Prop) la lb lc : All3 P la lb lc -> forall i a, nth_error la i = Some a ->
  exists b c, nth_error lb i = Some b /\ nth_error lc i = Some c /\ P a b c.
Proof.
  induction 1 as [|a b c la lb lc H H3 IH]; intros i x E; [destruct i; discriminate|].
  destruct i as [|i]; cbn [nth_error] in *; [injection E as <-; eauto|eauto].
Qed.
Lemma all3_nth2 {A B C} (P : A -> B -> C -> Prop) la lb lc : All3 P la lb lc -> forall i b, nth_error lb i = Some b ->
  exists a c, nth_error la i = Some a /\ nth_error lc i = Some c /\ P a b c.
Proof.
  induction 1 as [|a b c la lb lc H H3 IH]; intros i x E; [destruct i; discriminate|].
  destruct i as [|i]; cbn [nth_error] in *; [injection E as <-; eauto|eauto].
Qed.
Lemma all3_upd {A B C} (P : A -> B -> C -> Prop) la lb lc : All3 P la lb lc -> forall i a b c, P a b c ->
  All3 P (upd i a la) (upd i b lb) (upd i c lc).
Proof.
  induction 1 as [|a b c la lb lc H H3 IH]; intros i x y z Q; [destruct i; constructor|].
  destruct i as [|i]; cbn [upd]; constructor; auto.
Qed.
Lemma upd_same {A} (l : list A) i x : nth_error l i = Some x -> upd i x l = l.
Proof. revert i. induction l as [|y l IH]; intros [|i] E; cbn in *; try discriminate; [injection E as <-; reflexivity|f_equal; auto]. Qed.
Lemma all3_app {A B C} (P : A -> B -> C -> Prop) la lb lc a b c : All3 P la lb lc -> P a b c -> All3 P (la ++ [a]) (lb ++ [b]) (lc ++ [c]).
Proof. induction 1; intros Q; cbn [app]; repeat constructor; auto. Qed.
Lemma all3_mono {A B C} (P Q : A -> B -> C -> Prop) la lb lc : (forall a b c, P a b c -> Q a b c) -> All3 P la lb lc -> All3 Q la lb lc.
Proof. induction 2; constructor; auto. Qed.
Lemma all2_nth {A B} (P : A -> B -> Prop) la lb : Forall2 P la lb -> forall i a, nth_error la i = Some a -> exists b, nth_error lb i = Some b /\ P a b.
Proof.
  induction 1 as [|a b la lb H H2 IH]; intros i x E; [destruct i; discriminate|].
  destruct i as [|i]; cbn [nth_error] in *; [injection E as <-; eauto|eauto].
Qed.
Lemma all2_upd {A B} (P : A -> B -> Prop) la lb : Forall2 P la lb -> forall i a b, P a b -> Forall2 P (upd i a la) (upd i b lb).
Proof. induction 1 as [|a b la lb H H2 IH]; intros i x y Q; [destruct i; constructor|]. destruct i as [|i]; cbn [upd]; constructor; auto. Qed.
Lemma all2_app {A B} (P : A -> B -> Prop) la lb a b : Forall2 P la lb -> P a b -> Forall2 P (la ++ [a]) (lb ++ [b]).
Proof. induction 1; intros Q; cbn [app]; repeat constructor; auto. Qed.
Lemma all2_mono {A B} (P Q : A -> B -> Prop) la lb : (forall a b, P a b -> Q a b) -> Forall2 P la lb -> Forall2 Q la lb.
Proof. induction 2; constructor; auto. Qed.
Lemma upd_app_l {A} (l m : list A) i x y : nth_error l i = Some y -> upd i x (l ++ m) = upd i x l ++ m.
Proof. revert i. induction l as [|z l IH]; intros [|i] E; cbn in *; try discriminate; [reflexivity|f_equal; eauto]. Qed.
Lemma nth_app_l {A} (l m : list A) i y : nth_error l i = Some y -> nth_error (l ++ m) i = Some y.
Proof. intros E. rewrite nth_error_app1; [exact E|]. apply nth_error_Some. congruence. Qed.

(** ** Who holds the lock *)
Inductive hold := HNone | HClient (w : wpc) | HCons (w : kin).
Definition holding (s : ftask) : hold :=
  match f_lock s with
  | None => HNone
  | Some (Client i) => match nth_error (f_in s) i with Some (Some w) => HClient w | _ => HNone end
  | Some (Consumer k) => match nth_error (f_kin s) k with Some (Some w) => HCons w | _ => HNone end
  end.
Definition gone (w : wpc) : Prop := exists e, w = FRet e.
Record mutex (s : ftask) : Prop := {
  mx_in : forall i w, nth_error (f_in s) i = Some (Some w) -> f_lock s = Some (Client i) \/ gone w;
  mx_kin : forall k w, nth_error (f_kin s) k = Some (Some w) -> f_lock s = Some (Consumer k);
  mx_client : forall i, f_lock s = Some (Client i) -> exists w, nth_error (f_in s) i = Some (Some w) /\ ~ gone w;
  mx_consumer : forall k, f_lock s = Some (Consumer k) -> exists w, nth_error (f_kin s) k = Some (Some w)
}.

Definition after (c : cfg) (w : wpc) (o : op) : cpc :=
  match w with
  | FStarted | FStopped | FMark | FTicker | FNew | FOver | FMarkStop | FClose => CWant o
  | FCons => match c_kind c with Delay => CWant o | Rate => CIdle end
  | FAppend => CAppend o
  | FProv | FTickerStop | FUnlock _ | FRet _ => CIdle
  end.
Definition stage_of (c : cfg) (w : wpc) (o : op) : stage :=
  match w with
  | FStarted | FStopped | FMark | FTicker | FNew | FOver | FMarkStop | FClose | FAppend => Called o
  | FCons => match c_kind c with Delay => Called o | Rate => Taken o Ok end
  | FProv | FTickerStop => Taken o Ok
  | FUnlock e | FRet e => Taken o (outcome o e)
  end.
Definition suits (c : cfg) (w : wpc) (o : op) : Prop :=
  match w with
  | FStarted | FStopped | FMark | FCons => starts o = true
  | FTicker | FProv => starts o = true /\ c_kind c = Rate
  | FAppend => starts o = true /\ c_kind c = Delay
  | FNew | FOver | FMarkStop | FClose => starts o = false
  | FTickerStop => starts o = false /\ c_kind c = Rate
  | FUnlock _ | FRet _ => True
  end.

(** ** The relation *)
Definition crel (c : cfg) (x : option wpc) (a b : cpc) : Prop :=
  match x with
  | None => b = a /\ (a = CIdle \/ exists o, a = CWant o)
  | Some w => exists o, a = CWant o /\ b = after c w o /\ suits c w o
  end.
Definition krel (sig : bool) (x : option kin) (a b : kpc) : Prop :=
  match x with
  | None => b = a \/ sig = true /\ a = KCheck /\ b = KWait
  | Some IStatus => a = KCheck /\ (b = KCheck \/ sig = true /\ b = KWait)
  | Some (IGot v) => a = KCheck /\ b = if v =? stopped then KDone else KNo
  | Some _ => a = KNo /\ b = KNo
  end.
Definition prel (sig : bool) (a b : ppc) : Prop := b = a \/ sig = true /\ a <> PDone /\ b <> PDone.
Definition status_rel (c : cfg) (h : hold) (a b : Z) : Prop :=
  match h with
  | HClient FTicker => a = started /\ b <> started /\ b <> stopped
  | HClient FCons => match c_kind c with Delay => a = started /\ b <> started /\ b <> stopped | Rate => b = a end
  | HClient FStopped => b = a /\ a <> started
  | HClient FMark => b = a /\ a <> started /\ a <> stopped
  | HClient FOver => b = a /\ a <> new
  | HClient FMarkStop => b = a /\ a <> new /\ a <> stopped
  | HClient FClose => a = stopped /\ b <> new /\ b <> stopped
  | _ => b = a
  end.
Definition no_rel (h : hold) (a b : Z) : Prop :=
  match h with
  | HCons (IWrite n) => b = a /\ n = a + 1
  | HCons IRead => a = b + 1
  | HCons (IRet n) => a = b + 1 /\ n = a
  | _ => b = a
  end.
Definition extra_k (c : cfg) (h : hold) : list kpc :=
  match h, c_kind c with HClient FCons, Rate => [KWait] | _, _ => [] end.
Definition extra_p (c : cfg) (h : hold) : list ppc :=
  match h, c_kind c with HClient FCons, Rate | HClient FProv, _ => [PSend] | _, _ => [] end.
Definition at_append (h : hold) : bool := match h with HClient FAppend => true | _ => false end.

Record rel (c : cfg) (h : hold) (s : ftask) (t : task) (ks : list kpc) (ps : list ppc) : Prop := {
  rl_now : t_now t = t_now (f_task s);
  rl_runs : t_runs t = t_runs (f_task s);
  rl_timers : t_timers t = t_timers (f_task s);
  rl_sig : t_sig t = t_sig (f_task s);
  rl_free : t_locked (f_task s) = false;
  rl_locked : t_locked t = at_append h;
  rl_status : status_rel c h (t_status (f_task s)) (t_status t);
  rl_no : no_rel h (t_no (f_task s)) (t_no t);
  rl_tick : t_sig (f_task s) = false -> t_tick t = t_tick (f_task s) /\ t_tickbuf t = t_tickbuf (f_task s);
  rl_over : t_sig (f_task s) = true -> t_status t = stopped;
  rl_stop : h = HClient FTickerStop -> t_sig (f_task s) = true;
  rl_clients : All3 (crel c) (f_in s) (t_clients (f_task s)) (t_clients t);
  rl_cons : t_cons t = ks ++ extra_k c h;
  rl_ks : All3 (krel (t_sig (f_task s))) (f_kin s) (t_cons (f_task s)) ks;
  rl_prov : t_prov t = ps ++ extra_p c h;
  rl_ps : Forall2 (prel (t_sig (f_task s))) (t_prov (f_task s)) ps
}.
Definition rels (c : cfg) (s : ftask) (t : task) : Prop := exists ks ps, rel c (holding s) s t ks ps.

(** ** Stages *)
Definition stg (c : cfg) (s : ftask) (i : nat) : stage :=
  match nth_error (f_in s) i, nth_error (t_clients (f_task s)) i with
  | Some None, Some (CWant o) => Called o
  | Some (Some w), Some (CWant o) => stage_of c w o
  | _, _ => Idle
  end.
Inductive moves (now : Z) (i : nat) : stage -> list tobs -> stage -> Prop :=
| mv_none st : moves now i st [] st
| mv_call o : moves now i Idle [Both (ECall i o)] (Called o)
| mv_takes o r : moves now i (Called o) [Takes (ERet i o r now)] (Taken o r)
| mv_returns o r : moves now i (Taken o r) [Seen (ERet i o r now)] Idle.

(** The events of one step. *)
Definition stamped {A} (now : Z) (l : list A) : list (Z * A) := map (pair now) l.
Record observed (c : cfg) (s s1 : ftask) (es es' : list event) (xs : list tobs) : Prop := {
  ob_seen : seen (stamped (t_now (f_task s)) xs) = stamped (t_now (f_task s)) es;
  ob_effects : effects (stamped (t_now (f_task s)) xs) = es';
  ob_moves : forall i, moves (t_now (f_task s)) i (stg c s i) (map snd (filter (of_client i) (stamped (t_now (f_task s)) xs))) (stg c s1 i);
  ob_ok : Forall (fun x => match x with Both e => is_ret e = false | Takes e | Seen e => is_ret e = true end) xs
}.

(** ** Steps of the coarse machine *)
Lemma c_fail c t i o e : nth_error (t_clients t) i = Some (CWant o) -> t_locked t = false -> refused t o e ->
  tstep c t (LClient i) = Some (set_client i CIdle t, [ERet i o (outcome o (Some e)) (t_now t)]).
Proof.
  intros Hi Hl R. cbn [tstep]. rewrite Hi, Hl. unfold client_crit, start_crit, stop_crit, mark_start, mark_stop, returns.
  destruct R as [o H1 H2|o H1 H2|o H1 H2|o H1 H2]; destruct o; try discriminate H1; rewrite H2; reflexivity.
Qed.
Lemma neqb a b : a <> b -> (a =? b) = false.
Proof. apply Z.eqb_neq. Qed.
Lemma c_start c t i o : nth_error (t_clients t) i = Some (CWant o) -> t_locked t = false -> starts o = true ->
  t_status t <> started -> t_status t <> stopped ->
  tstep c t (LClient i) = match c_kind c with
    | Delay => Some (set_client i (CAppend o) (set_locked true (set_conss (t_cons t ++ [KWait]) (set_status started t))), [])
    | Rate => Some (set_client i CIdle (set_provs (t_prov t ++ [PSend]) (set_conss (t_cons t ++ [KWait])
                (set_tick (Some (t_now t + c_interval c)) false (set_status started t)))), [ERet i o Ok (t_now t)])
    end.
Proof.
  intros Hi Hl Ho H1 H2. cbn [tstep]. rewrite Hi, Hl. unfold client_crit, start_crit, mark_start, returns.
  destruct o; try discriminate Ho; rewrite (neqb _ _ H1), (neqb _ _ H2); destruct (c_kind c); reflexivity.
Qed.
Lemma c_stop c t i o : nth_error (t_clients t) i = Some (CWant o) -> t_locked t = false -> starts o = false ->
  t_status t <> new -> t_status t <> stopped ->
  tstep c t (LClient i) = Some (set_client i CIdle (set_tick (match c_kind c with Delay => t_tick t | Rate => None end) (t_tickbuf t)
                (set_sig (set_status stopped t))), [ERet i o Ok (t_now t)]).
Proof.
  intros Hi Hl Ho H1 H2. cbn [tstep]. rewrite Hi, Hl. unfold client_crit, stop_crit, mark_stop, returns.
  destruct o; try discriminate Ho; rewrite (neqb _ _ H1), (neqb _ _ H2); destruct (c_kind c); reflexivity.
Qed.

Lemma run_same c b t l j b1 es : run_label l = Some j -> t_runs t = t_runs b -> t_now t = t_now b -> t_sig t = t_sig b ->
  tstep c b l = Some (b1, es) -> exists rs, b1 = set_runs rs b /\ tstep c t l = Some (set_runs rs t, es).
Proof.
  intros El Hr Hn Hs E. destruct l as [| | | | | | | | | | | | | |j0|j0|j0|j0|j0|j0]; try discriminate El; cbn [tstep] in *; rewrite Hr;
    (destruct (nth_error (t_runs b) j0) as [r|]; [|discriminate]); unfold run_returns, cancel in *; rewrite ?Hn, ?Hs;
    destruct r as [no pc jb dl dn]; cbn [r_no r_pc r_job r_deadline r_done with_pc with_job] in *;
    destruct pc, jb, dn; try discriminate; cbn [app] in *;
    try (destruct (t_sig b); [|discriminate]); try (destruct (dl <=? t_now b); [|discriminate]);
    injection E as <- <-; eexists; (split; [reflexivity|]); unfold set_run, set_runs; cbn; rewrite ?Hr, ?Hn; reflexivity.
Qed.

(** ** Mutual exclusion *)
Lemma outside_some s r s1 es : outside s r = Some (s1, es) -> exists b, r = Some (b, es) /\ s1 = FTask b (f_lock s) (f_in s) (f_kin s).
Proof. destruct r as [[b e]|]; cbn; intros [=]; subst; eauto. Qed.

Lemma mutex_outside s b : mutex s -> mutex (FTask b (f_lock s) (f_in s) (f_kin s)).
Proof. intros [A B C D]. constructor; assumption. Qed.
Lemma nth_upd {A} i j (x y : A) l : nth_error (upd i x l) j = Some y -> i = j /\ y = x \/ i <> j /\ nth_error l j = Some y.
Proof.
  intros E. destruct (Nat.eq_dec i j) as [->|N]; [left|right; rewrite nth_error_upd_other in E by exact N; auto].
  split; [reflexivity|]. destruct (nth_error l j) as [z|] eqn:Ez; [rewrite (nth_error_upd_same j x l z Ez) in E; congruence|].
  exfalso. apply nth_error_None in Ez. rewrite <- (upd_length j x l) in Ez. apply nth_error_None in Ez. congruence.
Qed.
Lemma mutex_client s i w w' b kin : mutex s -> nth_error (f_in s) i = Some (Some w) -> ~ gone w -> ~ gone w' ->
  (forall k, nth_error kin k = nth_error (f_kin s) k \/ nth_error kin k = Some None) ->
  mutex (FTask b (f_lock s) (upd i (Some w') (f_in s)) kin).
Proof.
  intros [A B C D] Hi Hw Hw' Hk. assert (L : f_lock s = Some (Client i)) by (destruct (A _ _ Hi); [assumption|contradiction]).
  constructor; cbn; intros.
  - apply nth_upd in H as [[-> E]|[_ H]]; [auto|eauto].
  - destruct (Hk k) as [E|E]; [eapply B; rewrite <- E; eassumption|congruence].
  - assert (i0 = i) as -> by congruence. exists w'. split; [eapply nth_error_upd_same; eassumption|exact Hw'].
  - congruence.
Qed.
Lemma mutex_release_client s i w e b : mutex s -> nth_error (f_in s) i = Some (Some w) -> ~ gone w ->
  mutex (FTask b None (upd i (Some (FRet e)) (f_in s)) (f_kin s)).
Proof.
  intros [A B C D] Hi Hw. assert (L : f_lock s = Some (Client i)) by (destruct (A _ _ Hi); [assumption|contradiction]).
  constructor; cbn; intros; try discriminate.
  - apply nth_upd in H as [[-> E]|[N H]]; [right; injection E as ->; red; eauto|].
    destruct (A _ _ H) as [F|F]; [congruence|auto].
  - apply B in H. congruence.
Qed.
Lemma mutex_return s i e b : mutex s -> nth_error (f_in s) i = Some (Some (FRet e)) ->
  mutex (FTask b (f_lock s) (upd i None (f_in s)) (f_kin s)).
Proof.
  intros [A B C D] Hi. constructor; cbn; intros; eauto.
  - apply nth_upd in H as [[_ E]|[_ H]]; [discriminate|eauto].
  - destruct (C _ H) as (w & Hw & G). exists w. split; [|exact G]. rewrite nth_error_upd_other; [exact Hw|].
    intros ->. apply G. exists e. congruence.
Qed.
Lemma mutex_take_client s i w b : mutex s -> f_lock s = None -> nth_error (f_in s) i = Some None -> ~ gone w ->
  mutex (FTask b (Some (Client i)) (upd i (Some w) (f_in s)) (f_kin s)).
Proof.
  intros [A B C D] L Hi Hw. constructor; cbn; intros.
  - apply nth_upd in H as [[-> E]|[_ H]]; [auto|]. destruct (A _ _ H); [congruence|auto].
  - apply B in H. congruence.
  - injection H as <-. exists w. split; [eapply nth_error_upd_same; eassumption|exact Hw].
  - discriminate.
Qed.
Lemma mutex_take_consumer s k w b : mutex s -> f_lock s = None -> nth_error (f_kin s) k = Some None ->
  mutex (FTask b (Some (Consumer k)) (f_in s) (upd k (Some w) (f_kin s))).
Proof.
  intros [A B C D] L Hi. constructor; cbn; intros.
  - destruct (A _ _ H); [congruence|auto].
  - apply nth_upd in H as [[-> E]|[_ H]]; [auto|]. apply B in H. congruence.
  - discriminate.
  - injection H as <-. exists w. eapply nth_error_upd_same; eassumption.
Qed.
Lemma mutex_consumer s k w w' b : mutex s -> nth_error (f_kin s) k = Some (Some w) -> mutex (consumer_at k w' b s).
Proof.
  intros [A B C D] Hi. pose proof (B _ _ Hi) as L. constructor; cbn; intros.
  - eauto.
  - apply nth_upd in H as [[-> E]|[_ H]]; [auto|eauto].
  - congruence.
  - assert (k0 = k) as -> by congruence. exists w'. eapply nth_error_upd_same; eassumption.
Qed.
Lemma mutex_leave s k w b : mutex s -> nth_error (f_kin s) k = Some (Some w) -> mutex (leave k b s).
Proof.
  intros [A B C D] Hi. pose proof (B _ _ Hi) as L. constructor; cbn; intros; try discriminate.
  - destruct (A _ _ H); [congruence|auto].
  - apply nth_upd in H as [[-> E]|[N H]]; [discriminate|]. apply B in H. congruence.
Qed.

Ltac ng := let e := fresh in intros [e ?]; discriminate.
Lemma mutex_step c s l s1 es : mutex s -> fstep0 c s l = Some (s1, es) -> mutex s1.
Proof.
  intros M E. destruct l; cbn [fstep0] in E;
    try (apply outside_some in E as (b & _ & ->); apply mutex_outside; exact M).
  - destruct (nth_error (f_in s) i) as [[w|]|] eqn:Hi; [| |discriminate];
      (destruct (nth_error (t_clients (f_task s)) i) as [[|o|o]|] eqn:Hc; try discriminate).
    + destruct w; cbn [wstep] in E; try discriminate; injection E as <- <-; unfold client_at; cbn [f_lock f_in f_kin];
        try (eapply mutex_client; [exact M|exact Hi|ng| |intros; left; reflexivity]);
        try (match goal with |- ~ gone (if ?b then _ else _) => destruct b | |- ~ gone (match ?b with _ => _ end) => destruct b | _ => idtac end; ng).
      * eapply mutex_client; [exact M|exact Hi|ng|destruct (c_kind c); ng|].
        intros k. destruct (lt_eq_lt_dec k (length (f_kin s))) as [[L|E]|L]; [|subst k|].
        -- left. apply nth_error_app1. exact L.
        -- right. rewrite nth_error_app2, Nat.sub_diag by lia. reflexivity.
        -- left. rewrite (proj2 (nth_error_None (f_kin s) k)) by lia. apply nth_error_None. rewrite app_length. cbn. lia.
      * eapply mutex_release_client; [exact M|exact Hi|ng].
      * eapply mutex_return; [exact M|exact Hi].
    + destruct (f_lock s) as [ow|] eqn:L; [discriminate|]. injection E as <- <-. apply mutex_take_client; auto. destruct o; ng.
  - destruct (nth_error (f_in s) i) as [[w|]|] eqn:Hi; try discriminate. destruct w; try discriminate. destruct (receive k (f_task s)) as [b|]; [|discriminate].
    injection E as <- <-. unfold client_at. eapply mutex_client; [exact M|exact Hi|ng|ng|intros; left; reflexivity].
  - destruct (nth_error (f_in s) i) as [[w|]|] eqn:Hi; try discriminate. destruct w; try discriminate. destruct (t_sig (f_task s)); [|discriminate].
    injection E as <- <-. unfold client_at. eapply mutex_client; [exact M|exact Hi|ng|ng|intros; left; reflexivity].
  - destruct (nth_error (f_kin s) k) as [[w|]|] eqn:Hk; [| |discriminate];
      (destruct (nth_error (t_cons (f_task s)) k) as [x|] eqn:Hc; [|discriminate]).
    + injection E as <- <-. destruct w; cbn [kstep]; first [eapply mutex_consumer; eassumption|eapply mutex_leave; eassumption].
    + destruct x; try (apply outside_some in E as (b & _ & ->); apply mutex_outside; exact M);
        (destruct (f_lock s) as [ow|] eqn:L; [discriminate|]; injection E as <- <-; apply mutex_take_consumer; auto).
Qed.

Lemma mutex_init t0 n : mutex (finit t0 n).
Proof.
  constructor; cbn; intros; try discriminate.
  - apply nth_error_In, repeat_spec in H. discriminate.
  - destruct k; discriminate.
Qed.
