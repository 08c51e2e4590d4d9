From Verif Require Import Common SlidingWindowModel SlidingWindowSpec.

Definition sw_ok (s : sw) : Prop :=
  0 <= sw_capacity s /\ sw_len s <= sw_capacity s /\ Forall readable (sw_records s).

Lemma sw_ok_new c w : sw_ok (new_sw c w).
Proof. unfold sw_ok, new_sw, sw_len; cbn. destruct (Z.ltb_spec c 0); cbn; repeat split; auto; lia. Qed.

Lemma sw_drop_spec c l : 0 <= c ->
  exists d, l = d ++ sw_drop c l /\ Z.of_nat (length (sw_drop c l)) <= c /\
    (Z.of_nat (length l) <= c -> sw_drop c l = l).
Proof.
  intros Hc. induction l as [|x l IH]; cbn [sw_drop].
  - exists []. cbn. repeat split; auto; lia.
  - destruct (Z.ltb_spec c (Z.of_nat (length (x :: l)))).
    + destruct IH as (d & E & Hlen & _). exists (x :: d). cbn. rewrite <- E. repeat split; auto.
      intros. cbn in *. lia.
    + exists []. cbn [app]. repeat split; auto.
Qed.

Lemma sw_ok_update s c w : sw_ok s -> sw_ok (sw_update s c w).
Proof.
  intros (H0 & H1 & H2). unfold sw_ok, sw_update, sw_len in *. cbn.
  set (c' := if c <? 0 then 0 else c).
  assert (Hc' : 0 <= c') by (unfold c'; destruct (Z.ltb_spec c 0); lia).
  destruct (sw_drop_spec c' (sw_records s) Hc') as (d & E & Hlen & _).
  repeat split; auto.
  rewrite E in H2. apply Forall_app in H2. tauto.
Qed.

Lemma sw_acquire_ok s now : sw_ok s -> readable now ->
  exists s1 r, sw_acquire s now = Some (s1, r) /\ sw_ok s1 /\
    sw_capacity s1 = sw_capacity s /\ sw_window s1 = sw_window s.
Proof.
  intros (H0 & H1 & H2) Hn. unfold sw_acquire, sw_ok, sw_len in *.
  destruct (Z.eqb_spec (sw_capacity s) 0).
  { eexists _, _. split; [reflexivity|]. repeat split; auto. }
  destruct (Z.ltb_spec (Z.of_nat (length (sw_records s))) (sw_capacity s)).
  { eexists _, _. split; [reflexivity|]. cbn. rewrite app_length. cbn.
    repeat split; auto; try lia. apply Forall_app; auto. }
  destruct (sw_records s) as [|o rest] eqn:E; [cbn in *; lia|].
  inversion H2; subst.
  destruct (sw_window s <? i64 (now - o)).
  - eexists _, _. split; [reflexivity|]. cbn in *. rewrite app_length. cbn.
    repeat split; auto; try lia. apply Forall_app; auto.
  - eexists _, _. split; [reflexivity|]. rewrite E. repeat split; auto.
Qed.

Lemma sw_run_ok ops : forall s, sw_ok s -> Forall op_readable ops ->
  exists s1 calls, sw_run s ops = Some (s1, calls) /\ sw_ok s1.
Proof.
  induction ops as [|[now|c w] ops IH]; intros s Hs Hops; cbn [sw_run].
  - eauto.
  - inversion Hops; subst.
    destruct (sw_acquire_ok s now Hs ltac:(assumption)) as (s1 & r & -> & Hs1 & _).
    destruct (IH s1 Hs1 ltac:(assumption)) as (s2 & calls & -> & Hs2). eauto.
  - inversion Hops; subst. apply IH; auto. apply sw_ok_update; exact Hs.
Qed.

Definition recent (x : Z) (l : list Z) : Z := count (fun r => x <=? r) l.

Lemma granted_in_cons x y c calls :
  granted_in x y (c :: calls) =
  (if snd c && (x <=? fst c) && (fst c <=? y) then 1 else 0) + granted_in x y calls.
Proof. reflexivity. Qed.

Lemma granted_in_app x y a b : granted_in x y (a ++ b) = granted_in x y a + granted_in x y b.
Proof. apply count_app. Qed.

(** One call: grants in [x, x+W] so far are covered by the records at or after [x]. *)
Lemma acquire_cover s now s1 r x W N :
  sw_ok s -> readable now -> 0 < sw_capacity s -> 0 <= W <= sw_window s ->
  sw_acquire s now = Some (s1, r) ->
  N <= recent x (sw_records s) ->
  N + (if r && (x <=? now) && (now <=? x + W) then 1 else 0) <= recent x (sw_records s1).
Proof.
  intros (H0 & H1 & H2) Hn Hpos HW Hacq HN. unfold sw_acquire, sw_len in *.
  destruct (Z.eqb_spec (sw_capacity s) 0); [lia|].
  destruct (Z.ltb_spec (Z.of_nat (length (sw_records s))) (sw_capacity s)).
  { injection Hacq as <- <-. cbn [sw_records]. unfold recent in *. rewrite count_app. cbn.
    destruct (x <=? now); cbn; [destruct (now <=? x + W)|]; lia. }
  destruct (sw_records s) as [|o rest] eqn:E; [discriminate|].
  inversion H2; subst. unfold readable in *.
  rewrite i64_id in Hacq by (unfold in64; lia).
  destruct (Z.ltb_spec (sw_window s) (now - o)); injection Hacq as <- <-.
  - cbn [sw_records]. unfold recent in *. rewrite count_app. cbn in *.
    destruct (Z.leb_spec x now); destruct (Z.leb_spec x o); cbn; try destruct (Z.leb_spec now (x + W)); lia.
  - rewrite E. cbn [andb]. lia.
Qed.

Lemma recent_le x l : recent x l <= Z.of_nat (length l).
Proof. apply count_le_length. Qed.

Lemma grows_window c w ops : grows c w ops -> forall s s1 calls, sw_window s = w ->
  sw_ok s -> Forall op_readable ops -> sw_run s ops = Some (s1, calls) -> sw_window s1 <= w.
Proof.
  revert c w; induction ops as [|[now|c' w'] ops IH]; intros c w Hg s s1 calls Hw Hs Hops Hrun; cbn in *.
  - injection Hrun as <- <-. lia.
  - inversion Hops; subst.
    destruct (sw_acquire_ok s now Hs ltac:(assumption)) as (s2 & r & Hacq & Hs2 & _ & Hw2).
    rewrite Hacq in Hrun.
    destruct (sw_run s2 ops) as [[s3 calls3]|] eqn:E; [|discriminate]. injection Hrun as <- <-.
    eapply IH; eauto.
  - inversion Hops; subst. destruct Hg as (Hc & Hw' & Hg).
    etransitivity; [|exact Hw']. apply (IH c' w' Hg (sw_update s c' w') s1 calls); auto. apply sw_ok_update; exact Hs.
Qed.

Lemma run_cover ops : forall s c w s1 calls x W N,
  sw_ok s -> Forall op_readable ops -> 0 < sw_capacity s -> c = sw_capacity s -> w = sw_window s ->
  grows c w ops -> sw_run s ops = Some (s1, calls) -> 0 <= W <= sw_window s1 ->
  N <= recent x (sw_records s) ->
  N + granted_in x (x + W) calls <= recent x (sw_records s1) /\ sw_ok s1.
Proof.
  induction ops as [|[now|c' w'] ops IH]; intros s c w s1 calls x W N Hs Hops Hpos -> -> Hg Hrun HW HN; cbn in *.
  - injection Hrun as <- <-. split; [unfold granted_in; cbn; lia|exact Hs].
  - inversion Hops; subst.
    destruct (sw_acquire_ok s now Hs ltac:(assumption)) as (s2 & r & Hacq & Hs2 & Hc2 & Hw2).
    rewrite Hacq in Hrun.
    destruct (sw_run s2 ops) as [[s3 calls3]|] eqn:E; [|discriminate]. injection Hrun as <- <-.
    assert (HW2 : sw_window s3 <= sw_window s).
    { eapply grows_window; eauto. }
    pose proof (acquire_cover s now s2 r x W N Hs ltac:(assumption) Hpos ltac:(lia) Hacq HN) as Hcov.
    specialize (IH s2 (sw_capacity s) (sw_window s) s3 calls3 x W _ Hs2 ltac:(assumption) ltac:(lia)
      ltac:(lia) ltac:(lia) Hg E HW Hcov).
    rewrite granted_in_cons. cbn [fst snd]. split; [lia|tauto].
  - inversion Hops; subst. destruct Hg as (Hc & Hw' & Hg).
    destruct Hs as (Hs0 & Hs1 & Hs2).
    assert (Hrec : sw_records (sw_update s c' w') = sw_records s /\ sw_capacity (sw_update s c' w') = c').
    { unfold sw_update; cbn. destruct (Z.ltb_spec c' 0); [lia|]. split; [|reflexivity].
      destruct (sw_drop_spec c' (sw_records s) ltac:(lia)) as (d & _ & _ & Hid). apply Hid.
      unfold sw_len in Hs1. lia. }
    destruct Hrec as [Hrec Hcap].
    eapply (IH (sw_update s c' w') c' w'); eauto.
    + apply sw_ok_update. repeat split; assumption.
    + lia.
    + rewrite Hrec. exact HN.
Qed.

(** Bound for a stretch that starts in any state. *)
Lemma bound_from s ops s1 calls x W :
  sw_ok s -> Forall op_readable ops -> 0 < sw_capacity s -> grows (sw_capacity s) (sw_window s) ops ->
  sw_run s ops = Some (s1, calls) -> 0 <= W <= sw_window s1 ->
  granted_in x (x + W) calls <= sw_capacity s1.
Proof.
  intros Hs Hops Hpos Hg Hrun HW.
  destruct (run_cover ops s _ _ s1 calls x W 0 Hs Hops Hpos eq_refl eq_refl Hg Hrun HW
    ltac:(unfold recent; apply count_nonneg)) as [H Hok].
  pose proof (recent_le x (sw_records s1)) as Hr. destruct Hok as (_ & Hl & _). unfold sw_len in Hl. lia.
Qed.

Lemma grows_acquires c w nows : grows c w (map SwAcquire nows).
Proof. induction nows; cbn; auto. Qed.

Lemma readable_acquires nows : Forall readable nows -> Forall op_readable (map SwAcquire nows).
Proof. induction 1; cbn; constructor; auto. Qed.

Lemma run_acquires_config s nows s1 calls : sw_ok s -> Forall readable nows ->
  sw_run s (map SwAcquire nows) = Some (s1, calls) ->
  sw_capacity s1 = sw_capacity s /\ sw_window s1 = sw_window s.
Proof.
  revert s calls; induction nows as [|now nows IH]; intros s calls Hs Hn Hrun; cbn in *.
  - injection Hrun as <- <-. auto.
  - inversion Hn; subst.
    destruct (sw_acquire_ok s now Hs ltac:(assumption)) as (s2 & r & Hacq & Hs2 & Hc2 & Hw2).
    rewrite Hacq in Hrun.
    destruct (sw_run s2 (map SwAcquire nows)) as [[s3 calls3]|] eqn:E; [|discriminate]. injection Hrun as <- <-.
    destruct (IH s2 calls3 Hs2 ltac:(assumption) E). split; congruence.
Qed.

Lemma sw_run_app a : forall s b,
  sw_run s (a ++ b) =
  match sw_run s a with
  | None => None
  | Some (s1, c1) => match sw_run s1 b with
                     | None => None
                     | Some (s2, c2) => Some (s2, c1 ++ c2)
                     end
  end.
Proof.
  induction a as [|[now|c w] a IH]; intros s b; cbn [app sw_run].
  - destruct (sw_run s b) as [[]|]; reflexivity.
  - destruct (sw_acquire s now) as [[s1 r]|]; [|reflexivity]. rewrite IH.
    destruct (sw_run s1 a) as [[s2 c2]|]; [|reflexivity].
    destruct (sw_run s2 b) as [[s3 c3]|]; reflexivity.
  - apply IH.
Qed.

(** C11 *)
Lemma any_order_bound c w nows x :
  0 < c -> 0 <= w -> Forall readable nows ->
  exists s calls, sw_run (new_sw c w) (map SwAcquire nows) = Some (s, calls) /\
    map fst calls = nows /\ granted_in x (x + w) calls <= c.
Proof.
  intros Hc Hw Hn.
  destruct (sw_run_ok _ (new_sw c w) (sw_ok_new c w) (readable_acquires _ Hn)) as (s & calls & Hrun & Hok).
  exists s, calls. split; [exact Hrun|].
  destruct (run_acquires_config _ _ _ _ (sw_ok_new c w) Hn Hrun) as [Hcap Hwin].
  unfold new_sw in Hcap, Hwin. destruct (Z.ltb_spec c 0); [lia|]. cbn in Hcap, Hwin.
  split.
  - clear - Hrun. revert Hrun. generalize (new_sw c w). revert calls.
    induction nows as [|n nows IH]; intros calls s0 Hrun; cbn in Hrun.
    + injection Hrun as <- <-. reflexivity.
    + destruct (sw_acquire s0 n) as [[s2 r]|]; [|discriminate].
      destruct (sw_run s2 (map SwAcquire nows)) as [[s3 c3]|] eqn:E; [|discriminate].
      injection Hrun as <- <-. cbn. f_equal. eapply IH. rewrite E. reflexivity.
  - transitivity (sw_capacity s); [|lia].
    apply (bound_from (new_sw c w) (map SwAcquire nows)).
    + apply sw_ok_new.
    + apply readable_acquires. exact Hn.
    + unfold new_sw. destruct (Z.ltb_spec c 0); cbn; lia.
    + apply grows_acquires.
    + exact Hrun.
    + lia.
Qed.

(** C13: after any history and a reconfiguration. *)
Lemma after_update_bound c0 w0 pre c w nows x :
  0 < c -> 0 <= w -> Forall op_readable pre -> Forall readable nows ->
  exists s calls0 calls, sw_run (new_sw c0 w0) (pre ++ SwUpdate c w :: map SwAcquire nows) = Some (s, calls0 ++ calls) /\
    length calls = length nows /\ granted_in x (x + w) calls <= c.
Proof.
  intros Hc Hw Hp Hn.
  destruct (sw_run_ok _ (new_sw c0 w0) (sw_ok_new c0 w0) Hp) as (s0 & calls0 & Hrun0 & Hok0).
  pose proof (sw_ok_update s0 c w Hok0) as Hok1.
  destruct (sw_run_ok _ _ Hok1 (readable_acquires _ Hn)) as (s & calls & Hrun & Hok).
  exists s, calls0, calls.
  destruct (run_acquires_config _ _ _ _ Hok1 Hn Hrun) as [Hcap Hwin]. cbn in Hcap, Hwin.
  destruct (Z.ltb_spec c 0) in Hcap; [lia|].
  repeat split.
  - rewrite sw_run_app, Hrun0. cbn [sw_run]. rewrite Hrun. reflexivity.
  - clear - Hrun. revert Hrun. generalize (sw_update s0 c w). revert calls.
    induction nows as [|n nows IH]; intros calls s1 Hrun; cbn in Hrun.
    + injection Hrun as <- <-. reflexivity.
    + destruct (sw_acquire s1 n) as [[s2 r]|]; [|discriminate].
      destruct (sw_run s2 (map SwAcquire nows)) as [[s3 c3]|] eqn:E; [|discriminate].
      injection Hrun as <- <-. cbn. f_equal. eapply IH. rewrite E. reflexivity.
  - transitivity (sw_capacity s); [|lia].
    apply (bound_from (sw_update s0 c w) (map SwAcquire nows)); auto.
    + apply readable_acquires. exact Hn.
    + cbn. destruct (Z.ltb_spec c 0); lia.
    + apply grows_acquires.
    + rewrite Hwin. lia.
Qed.

Lemma growing_bound c0 w0 ops x :
  0 < c0 -> Forall op_readable ops -> grows c0 w0 ops ->
  exists s calls, sw_run (new_sw c0 w0) ops = Some (s, calls) /\
    (0 <= sw_get_window s -> granted_in x (x + sw_get_window s) calls <= sw_get_capacity s).
Proof.
  intros Hc Hp Hg.
  destruct (sw_run_ok _ (new_sw c0 w0) (sw_ok_new c0 w0) Hp) as (s0 & calls0 & Hrun0 & Hok0).
  exists s0, calls0. split; [exact Hrun0|]. intros Hw. unfold sw_get_window, sw_get_capacity in *.
  apply (bound_from (new_sw c0 w0) ops); auto.
  - apply sw_ok_new.
  - unfold new_sw. destruct (Z.ltb_spec c0 0); cbn; lia.
  - unfold new_sw. destruct (Z.ltb_spec c0 0); [lia|]. exact Hg.
  - lia.
Qed.

Lemma unlimited_run nows : forall s, sw_capacity s = 0 ->
  sw_run s (map SwAcquire nows) = Some (s, map (fun t => (t, true)) nows).
Proof.
  induction nows as [|n nows IH]; intros s H; cbn; [reflexivity|].
  unfold sw_acquire. rewrite H. cbn. rewrite (IH s H). reflexivity.
Qed.

Lemma new_window c w : sw_get_capacity (new_sw c w) = Z.max 0 c /\ sw_get_window (new_sw c w) = w /\
  (c <= 0 -> forall nows, exists s, sw_run (new_sw c w) (map SwAcquire nows) = Some (s, map (fun t => (t, true)) nows)).
Proof.
  assert (H : sw_capacity (new_sw c w) = Z.max 0 c) by (unfold new_sw; destruct (Z.ltb_spec c 0); cbn; lia).
  split; [exact H|]. split; [reflexivity|]. intros Hc nows. eexists. apply unlimited_run. lia.
Qed.

Lemma unlimited c0 w0 pre c w nows :
  c <= 0 -> Forall op_readable pre ->
  exists s calls0, sw_run (new_sw c0 w0) (pre ++ SwUpdate c w :: map SwAcquire nows) =
    Some (s, calls0 ++ map (fun t => (t, true)) nows) /\ sw_get_capacity s = 0 /\ sw_get_window s = w.
Proof.
  intros Hc Hp.
  destruct (sw_run_ok _ (new_sw c0 w0) (sw_ok_new c0 w0) Hp) as (s0 & calls0 & Hrun0 & Hok0).
  eexists _, _. rewrite sw_run_app, Hrun0. cbn [sw_run].
  assert (Hz : sw_capacity (sw_update s0 c w) = 0).
  { cbn. destruct (Z.ltb_spec c 0); lia. }
  rewrite (unlimited_run nows _ Hz). split; [reflexivity|]. split; [exact Hz|reflexivity].
Qed.

Lemma update_getters c0 w0 pre c w s calls :
  sw_run (new_sw c0 w0) (pre ++ [SwUpdate c w]) = Some (s, calls) ->
  sw_get_capacity s = Z.max 0 c /\ sw_get_window s = w.
Proof.
  rewrite sw_run_app. destruct (sw_run (new_sw c0 w0) pre) as [[s1 c1]|]; [|discriminate].
  cbn. intros H. injection H as <- <-. cbn. destruct (Z.ltb_spec c 0); split; try reflexivity; lia.
Qed.

(** C12: exact decision for ordered calls. *)
Definition lastn_inv (c w : Z) (s : sw) (hist : list (Z * bool)) (prev : Z) : Prop :=
  sw_capacity s = c /\ sw_window s = w /\ sw_ok s /\
  exists old, map fst (filter snd hist) = old ++ sw_records s /\
    (old <> [] -> sw_len s = c) /\
    nondecreasing (old ++ sw_records s) /\ Forall (fun t => t <= prev) (old ++ sw_records s) /\
    Forall readable (old ++ sw_records s).

Lemma granted_in_filter x y hist :
  granted_in x y hist = count (fun t => (x <=? t) && (t <=? y)) (map fst (filter snd hist)).
Proof.
  induction hist as [|[t b] hist IH]; [reflexivity|].
  rewrite granted_in_cons, IH. cbn. destruct b; cbn; [|lia]. reflexivity.
Qed.

Lemma nondecreasing_snoc l now : nondecreasing l -> Forall (fun t => t <= now) l -> nondecreasing (l ++ [now]).
Proof.
  induction l as [|x l IH]; cbn; intros Hn HF; [auto|]. destruct Hn as [H1 H2]. inversion HF; subst.
  split; [apply Forall_app; auto|auto].
Qed.

Lemma count_all {A} (f : A -> bool) l : (forall x, In x l -> f x = true) -> count f l = Z.of_nat (length l).
Proof.
  induction l as [|x l IH]; intros H; [reflexivity|]. cbn [count length].
  rewrite (H x (or_introl eq_refl)), IH; [lia|]. intros y Hy; apply H; right; exact Hy.
Qed.

Lemma count_none {A} (f : A -> bool) l : (forall x, In x l -> f x = false) -> count f l = 0.
Proof.
  induction l as [|x l IH]; intros H; [reflexivity|]. cbn [count].
  rewrite (H x (or_introl eq_refl)), IH; [lia|]. intros y Hy; apply H; right; exact Hy.
Qed.

Lemma exact_step c w s hist prev now :
  0 < c -> 0 <= w < 2 ^ 63 -> lastn_inv c w s hist prev -> prev <= now -> readable now ->
  exists s1, sw_acquire s now = Some (s1, granted_in (now - w) now hist <? c) /\
    lastn_inv c w s1 (hist ++ [(now, granted_in (now - w) now hist <? c)]) now.
Proof.
  intros Hc Hw (Ec & Ew & Hok & old & Emap & Hold & Hnd & Hle & Hrd) Hpn Hnr.
  rewrite granted_in_filter, Emap.
  assert (Hle' : Forall (fun t => t <= now) (old ++ sw_records s)).
  { eapply Forall_impl; [|exact Hle]. cbn; intros; lia. }
  pose proof Hok as (Hk0 & Hk1 & Hk2).
  unfold sw_acquire. rewrite Ec, Ew in *. unfold sw_len in *.
  destruct (Z.eqb_spec c 0); [lia|].
  rewrite count_app.
  set (f := fun t => (now - w <=? t) && (t <=? now)).
  destruct (Z.ltb_spec (Z.of_nat (length (sw_records s))) c) as [Hlt|Hge].
  - assert (old = []) as -> by (destruct old; [reflexivity|exfalso; specialize (Hold ltac:(discriminate)); lia]).
    pose proof (count_le_length f (sw_records s)). cbn [count].
    replace (0 + count f (sw_records s) <? c) with true by (symmetry; apply Z.ltb_lt; lia).
    eexists. split; [reflexivity|]. unfold lastn_inv, sw_ok, sw_len; cbn [sw_capacity sw_window sw_records].
    rewrite app_length. cbn [length].
    repeat split; try lia; auto.
    + apply Forall_app; auto.
    + exists []. rewrite filter_app, map_app, Emap. cbn.
      repeat split; try congruence.
      * apply nondecreasing_snoc; assumption.
      * apply Forall_app; split; [exact Hle'|constructor; [lia|constructor]].
      * apply Forall_app; split; [exact Hrd|constructor; [exact Hnr|constructor]].
  - destruct (sw_records s) as [|o rest] eqn:E; [cbn in *; lia|].
    assert (Ho : readable o) by (rewrite Forall_app in Hrd; destruct Hrd as [_ Hrd]; inversion Hrd; assumption).
    unfold readable in Ho, Hnr. rewrite i64_id by (unfold in64; lia).
    assert (Horest : forall y, In y rest -> o <= y).
    { intros y Hy. destruct (nondecreasing_app _ _ Hnd) as [_ Hnd2]. cbn in Hnd2.
      destruct Hnd2 as [HF _]. rewrite Forall_forall in HF. apply HF. exact Hy. }
    assert (Holdo : forall y, In y old -> y <= o).
    { intros y Hy. eapply nondecreasing_app_le; [exact Hnd|exact Hy|left; reflexivity]. }
    assert (Hall : forall y, In y (old ++ o :: rest) -> y <= now).
    { intros y Hy. rewrite Forall_forall in Hle'. apply Hle'. exact Hy. }
    destruct (Z.ltb_spec w (now - o)) as [Hgr|Hrf].
    + rewrite (count_none f old).
      2:{ intros y Hy. specialize (Holdo y Hy). unfold f. apply andb_false_iff. left. apply Z.leb_gt. lia. }
      assert (Hfo : f o = false) by (unfold f; apply andb_false_iff; left; apply Z.leb_gt; lia).
      cbn [count]. rewrite Hfo.
      pose proof (count_le_length f rest).
      assert (Hlr : Z.of_nat (length (o :: rest)) = 1 + Z.of_nat (length rest)) by (cbn [length]; lia).
      replace (0 + (0 + count f rest) <? c) with true by (symmetry; apply Z.ltb_lt; lia).
      eexists. split; [reflexivity|].
      unfold lastn_inv, sw_ok, sw_len; cbn [sw_capacity sw_window sw_records].
      rewrite app_length. cbn [length].
      inversion Hk2; subst.
      repeat split; try lia; auto.
      * apply Forall_app; auto.
      * exists (old ++ [o]). rewrite filter_app, map_app, Emap. cbn.
        rewrite <- !app_assoc. cbn. repeat split; try lia.
        -- replace (old ++ o :: rest ++ [now]) with ((old ++ o :: rest) ++ [now]) by (rewrite <- app_assoc; reflexivity).
           apply nondecreasing_snoc; assumption.
        -- replace (old ++ o :: rest ++ [now]) with ((old ++ o :: rest) ++ [now]) by (rewrite <- app_assoc; reflexivity).
           apply Forall_app; split; [exact Hle'|constructor; [lia|constructor]].
        -- replace (old ++ o :: rest ++ [now]) with ((old ++ o :: rest) ++ [now]) by (rewrite <- app_assoc; reflexivity).
           apply Forall_app; split; [exact Hrd|constructor; [unfold readable; lia|constructor]].
    + pose proof (count_nonneg f old).
      rewrite (count_all f (o :: rest)).
      2:{ intros y Hy. unfold f. apply andb_true_iff. split; apply Z.leb_le.
          - destruct Hy as [<-|Hy]; [lia|specialize (Horest y Hy); lia].
          - apply Hall. apply in_or_app. right. exact Hy. }
      replace (count f old + Z.of_nat (length (o :: rest)) <? c) with false by (symmetry; apply Z.ltb_ge; lia).
      eexists. split; [reflexivity|].
      unfold lastn_inv, sw_len. rewrite E. repeat split; auto; try lia; try (unfold sw_len; rewrite E; lia).
      * rewrite E. auto.
      * exists old. rewrite filter_app, map_app, Emap. cbn. rewrite app_nil_r. repeat split; auto.
Qed.

Lemma exact_run c w nows : 0 < c -> 0 <= w < 2 ^ 63 -> forall s hist prev,
  lastn_inv c w s hist prev -> nondecreasing (prev :: nows) -> Forall readable nows ->
  exists s1, sw_run s (map SwAcquire nows) = Some (s1, ideal_sliding c w hist nows).
Proof.
  intros Hc Hw. induction nows as [|now nows IH]; intros s hist prev Hinv Hnd Hrd; cbn [map sw_run ideal_sliding].
  - eauto.
  - destruct Hnd as [HF [HF2 Hnd]]. inversion HF; subst. inversion Hrd; subst.
    destruct (exact_step c w s hist prev now Hc Hw Hinv ltac:(assumption) ltac:(assumption)) as (s1 & -> & Hinv1).
    destruct (IH s1 _ now Hinv1 (conj HF2 Hnd) ltac:(assumption)) as (s2 & ->). eauto.
Qed.

Lemma exact_decision c w nows :
  0 < c -> 0 <= w < 2 ^ 63 -> nondecreasing nows -> Forall readable nows ->
  exists s, sw_run (new_sw c w) (map SwAcquire nows) = Some (s, ideal_sliding c w [] nows).
Proof.
  intros Hc Hw Hnd Hrd. destruct nows as [|t nows].
  - cbn. eauto.
  - apply (exact_run c w (t :: nows) Hc Hw _ _ t).
    + unfold lastn_inv, new_sw, sw_ok, sw_len. destruct (Z.ltb_spec c 0); [lia|]. cbn.
      repeat split; auto; try lia. exists []. cbn. repeat split; auto. congruence.
    + cbn in *. destruct Hnd as [H1 H2]. repeat split; auto. constructor; [lia|exact H1].
    + exact Hrd.
Qed.
