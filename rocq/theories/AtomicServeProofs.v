From Verif Require Import Common Threads TokenBucketModel TokenBucketSpec TokenBucketProofs.
From Verif Require Import AtomicBucketModel AtomicBucketSpec AtomicBucketProofs AtomicProgressSpec.

(** * After a quiet second the first call to return is granted *)
Section first.
Variables capacity rate t0 t tk0 lit0 c : Z.
Hypothesis Hcap : 1 <= capacity.
Hypothesis Hrate : 1 <= rate.
Hypothesis Hov : no_overflow capacity rate t0 t.
Hypothesis Htk : 0 <= tk0.
Hypothesis Hc : t0 <= lit0 /\ lit0 + second <= c.

Definition fpc (kept clk : Z) (pc : apc) : Prop :=
  match pc with
  | AIdle | ALoadTok | ATakeLoad | ATakeCas _ => True
  | ALoadLit old => 0 <= old < capacity
  | ANow old ol => 0 <= old < capacity /\ t0 <= ol <= clk /\ (kept = 0 -> ol = lit0)
  | ACasTok old ol now d => 0 <= old /\ 0 < d /\ old + d <= capacity /\ (kept = 0 -> ol = lit0) /\ t0 <= now <= clk
  | ACasLit ol now d => 0 < d /\ (kept = 0 -> ol = lit0) /\ t0 <= now <= clk
  | ARollback d => 0 < d /\ 0 < kept
  end.

Definition taking (pc : apc) : Prop := match pc with ATakeLoad | ATakeCas _ => True | _ => False end.

Record fserve (kept : Z) (s : astate) : Prop := FServe {
  fs_cap : ab_capacity s = capacity;
  fs_rate : ab_rate s = rate;
  fs_clk : c <= ab_clock s <= t;
  fs_lit : t0 <= ab_lit s <= ab_clock s;
  fs_kept : 0 <= kept;
  fs_fresh : kept = 0 -> ab_lit s = lit0;
  fs_tok : ab_tokens s = tk0 + kept + in_flight s;
  fs_max : ab_tokens s <= capacity;
  fs_pcs : Forall (fpc kept (ab_clock s)) (ab_threads s);
  fs_take : Forall (fun pc => taking pc -> 1 <= ab_tokens s) (ab_threads s);
}.

Lemma flight_nonneg kept clk l : Forall (fpc kept clk) l ->
  0 <= sumZ (fun pc => match pc with ACasLit _ _ d | ARollback d => d | _ => 0 end) l.
Proof. intros H. apply sumZ_nonneg. eapply Forall_impl; [|exact H]. intros []; cbn; lia. Qed.

Lemma fpc_mono kept kept' clk clk' pc : 0 <= kept <= kept' -> clk <= clk' -> fpc kept clk pc -> fpc kept' clk' pc.
Proof. intros H1 H2. destruct pc; cbn; intuition lia. Qed.

Lemma fserve_step kept s l s1 es :
  fserve kept s -> astep s l = Some (s1, es) -> (forall x, l = AClock x -> ab_clock s <= x <= t) ->
  (exists i, es = [ARet i true]) \/
  (no_return es /\ exists kept', fserve kept' s1).
Proof.
  intros [HC HR Hclk Hlit Hk Hfr Htok Hmax Hpcs Htake] Hst Hl.
  pose proof Hov as (Ho1 & Ho2 & Ho3 & Ho4).
  pose proof (flight_nonneg _ _ _ Hpcs) as Hfl0. fold (in_flight s) in Hfl0.
  destruct l as [x|i|i]; cbn in Hst.
  - injection Hst as <- <-. right. split; [constructor|]. exists kept. specialize (Hl x eq_refl).
    constructor; cbn; auto; try lia.
    eapply Forall_impl; [|exact Hpcs]. intros pc. apply fpc_mono; lia.
  - destruct (nth_error (ab_threads s) i) as [pc|] eqn:E; try discriminate. destruct pc; try discriminate.
    injection Hst as <- <-. right. split; [constructor|]. exists kept.
    constructor; cbn; auto.
    + rewrite Htok. unfold in_flight; cbn. rewrite (sumZ_upd _ _ _ _ _ E). lia.
    + apply Forall_upd; [exact Hpcs|exact I].
    + apply Forall_upd; [exact Htake|intros []].
  - destruct (nth_error (ab_threads s) i) as [pc|] eqn:E; [|discriminate].
    pose proof (Forall_nth _ _ _ _ Hpcs E) as Hpc. pose proof (Forall_nth _ _ _ _ Htake E) as Htk1.
    cbn beta in Htk1.
    assert (Hlocal : forall pc', (match pc with ACasLit _ _ d | ARollback d => d | _ => 0 end) =
                            (match pc' with ACasLit _ _ d | ARollback d => d | _ => 0 end) ->
                     fpc kept (ab_clock s) pc' -> (taking pc' -> 1 <= ab_tokens s) -> fserve kept (set_pc s i pc')).
    { intros pc' Heq Hok Ht. constructor; cbn; auto.
      - rewrite Htok. unfold in_flight; cbn. rewrite (sumZ_upd _ _ _ _ _ E). lia.
      - apply Forall_upd; assumption.
      - apply Forall_upd; assumption. }
    destruct pc as [| |old|old oldLit|old oldLit now d|oldLit now d|d| |old]; cbn [astep_thread] in Hst.
    + discriminate.
    + rewrite HC in Hst. destruct (Z.leb_spec capacity (ab_tokens s)); injection Hst as <- <-;
        (right; split; [constructor|]; exists kept; apply Hlocal; cbn; auto; try lia; intros []).
    + injection Hst as <- <-. cbn in Hpc.
      right; split; [constructor|]; exists kept; apply Hlocal; cbn; auto; intros [].
    + cbn in Hpc. destruct Hpc as (Hold & Hol & Hkl).
      rewrite HC, HR in Hst. unfold refill_delta in Hst.
      assert (Hsec : 0 <= whole_seconds (ab_clock s - oldLit) <= whole_seconds (t - t0)).
      { split; [apply whole_seconds_nonneg; lia|apply whole_seconds_mono; lia]. }
      rewrite (i64_id (ab_clock s - oldLit)) in Hst by (unfold in64; lia).
      rewrite Z.quot_div_nonneg in Hst by (unfold second; lia).
      fold (whole_seconds (ab_clock s - oldLit)) in Hst.
      assert (Hr : 0 <= whole_seconds (ab_clock s - oldLit) * rate < 2 ^ 62).
      { split; [nia|]. eapply Z.le_lt_trans; [|exact Ho4]. rewrite Z.mul_comm.
        apply Z.mul_le_mono_nonneg_l; lia. }
      set (raw := whole_seconds (ab_clock s - oldLit) * rate) in *.
      rewrite (i64_id raw) in Hst by (unfold in64; lia).
      destruct (Z.eqb_spec raw 0) as [Hz|Hz].
      * assert (0 < kept).
        { destruct (Z.eq_dec kept 0) as [K|K]; [|lia]. exfalso. specialize (Hkl K). subst oldLit.
          assert (1 <= whole_seconds (ab_clock s - lit0)).
          { unfold whole_seconds. apply Z.div_le_lower_bound; unfold second in *; lia. }
          unfold raw in Hz. nia. }
        injection Hst as <- <-. right; split; [constructor|]; exists kept; apply Hlocal; cbn; auto; lia.
      * rewrite (i64_id (old + raw)) in Hst by (unfold in64; lia).
        rewrite (i64_id (capacity - old)) in Hst by (unfold in64; lia).
        destruct (Z.ltb_spec capacity (old + raw)); injection Hst as <- <-;
          (right; split; [constructor|]; exists kept; apply Hlocal; cbn; [reflexivity|intuition lia|intros []]).
    + cbn in Hpc. destruct Hpc as (H1 & H2 & H3 & H4 & H5).
      destruct (Z.eqb_spec (ab_tokens s) old) as [Et|Et]; injection Hst as <- <-;
        (right; split; [constructor|]; exists kept); [|apply Hlocal; cbn; auto; intros []].
      rewrite (i64_id (old + d)) by (unfold in64; lia).
      constructor; cbn; auto; try lia.
      * unfold in_flight in *; cbn. rewrite (sumZ_upd _ _ _ _ _ E). lia.
      * apply Forall_upd; [exact Hpcs|]. cbn. auto.
      * apply Forall_upd; [|intros []]. eapply Forall_impl; [|exact Htake]. cbn. intros pc H Hp. specialize (H Hp). lia.
    + cbn in Hpc. destruct Hpc as (H1 & H2 & H3).
      pose proof (sumZ_ge_elem (fun pc => match pc with ACasLit _ _ d | ARollback d => d | _ => 0 end) (ab_threads s) i
        (ACasLit oldLit now d)
        ltac:(eapply Forall_impl; [|exact Hpcs]; intros []; cbn; lia) E) as Hge. cbn beta iota in Hge.
      fold (in_flight s) in Hge.
      destruct (Z.eqb_spec (ab_lit s) oldLit) as [El|El]; injection Hst as <- <-;
        (right; split; [constructor|]).
      * exists (kept + d). constructor; cbn; auto; try lia.
        -- unfold in_flight in *; cbn. rewrite (sumZ_upd _ _ _ _ _ E). lia.
        -- apply Forall_upd; [|exact I]. eapply Forall_impl; [|exact Hpcs]. intros pc. apply fpc_mono; lia.
        -- apply Forall_upd; [exact Htake|]. intros _. lia.
      * exists kept. apply Hlocal; [reflexivity| |intros []]. cbn. split; [exact H1|].
        destruct (Z.eq_dec kept 0) as [K|K]; [|lia]. exfalso. apply El. rewrite (Hfr K), (H2 K). reflexivity.
    + cbn in Hpc. injection Hst as <- <-. right. split; [repeat constructor|]. exists kept.
      pose proof (sumZ_ge_elem (fun pc => match pc with ACasLit _ _ d | ARollback d => d | _ => 0 end) (ab_threads s) i
        (ARollback d)
        ltac:(eapply Forall_impl; [|exact Hpcs]; intros []; cbn; lia) E) as Hge. cbn beta iota in Hge.
      fold (in_flight s) in Hge.
      rewrite (i64_id (ab_tokens s - d)) by (unfold in64; lia).
      constructor; cbn; auto; try lia.
      * unfold in_flight in *; cbn. rewrite (sumZ_upd _ _ _ _ _ E). lia.
      * apply Forall_upd; [exact Hpcs|exact I].
      * apply Forall_upd; [|intros []]. eapply Forall_impl; [|exact Htake]. cbn. intros pc _ _. lia.
    + specialize (Htk1 I). destruct (Z.ltb_spec 0 (ab_tokens s)); [|lia]. injection Hst as <- <-.
      right; split; [constructor|]; exists kept; apply Hlocal; cbn; auto.
    + destruct (Z.eqb_spec (ab_tokens s) old) as [Et|Et]; injection Hst as <- <-.
      * left. eexists. reflexivity.
      * right; split; [constructor|]; exists kept; apply Hlocal; cbn; auto.
Qed.

Lemma astep_clock s l s1 es : astep s l = Some (s1, es) ->
  ab_clock s1 = match l with AClock x => x | _ => ab_clock s end.
Proof.
  intros H. destruct l as [x|i|i]; cbn in H.
  - injection H as <- <-. reflexivity.
  - destruct (nth_error (ab_threads s) i) as [[]|]; try discriminate. injection H as <- <-. reflexivity.
  - destruct (nth_error (ab_threads s) i) as [pc|]; [|discriminate].
    destruct pc; cbn in H; repeat match type of H with
      | context [if ?x then _ else _] => destruct x
      | context [match ?x with Some _ => _ | None => _ end] => destruct x
      end; try discriminate; injection H as <- <-; reflexivity.
Qed.

Lemma fserve_exec sched : forall kept s,
  fserve kept s -> nondecreasing (ab_clock s :: clocks sched) -> Forall (fun x => x <= t) (clocks sched) ->
  forall pre i post, snd (exec astep s sched) = pre ++ ARet i false :: post -> exists j, In (ARet j true) pre.
Proof.
  induction sched as [|l sched IH]; intros kept s HS Hnd Hle pre i post Heq; cbn [exec] in Heq.
  - destruct pre; discriminate Heq.
  - destruct (astep s l) as [[s1 es]|] eqn:Est.
    + assert (Hl : forall x, l = AClock x -> ab_clock s <= x <= t).
      { intros x ->. cbn in Hnd, Hle. destruct Hnd as [HF _]. inversion HF; inversion Hle; subst. lia. }
      assert (Hnd1 : nondecreasing (ab_clock s1 :: clocks sched)).
      { rewrite (astep_clock _ _ _ _ Est). destruct l; cbn in Hnd |- *; tauto. }
      assert (Hle1 : Forall (fun x => x <= t) (clocks sched))
        by (destruct l; cbn in Hle; [inversion Hle|..]; assumption).
      destruct (fserve_step kept s l s1 es HS Est Hl) as [[j ->]|[HR [kept' HS1]]].
      * destruct (exec astep s1 sched) as [s2 es2]. cbn [snd app] in Heq.
        destruct pre as [|e pre]; [discriminate Heq|]. injection Heq as <- _. exists j. left. reflexivity.
      * specialize (IH kept' s1 HS1 Hnd1 Hle1).
        destruct (exec astep s1 sched) as [s2 es2]. cbn [snd] in *.
        assert (Hsp : exists pre', pre = es ++ pre' /\ es2 = pre' ++ ARet i false :: post).
        { clear -HR Heq. revert pre Heq. induction es as [|e es IHe]; intros pre Heq; cbn in Heq.
          - exists pre. auto.
          - inversion HR as [|? ? He HR']; subst. destruct pre as [|e' pre].
            + injection Heq as -> _. destruct He.
            + injection Heq as <- Heq. destruct (IHe HR' pre Heq) as (p & -> & ->). exists p. auto. }
        destruct Hsp as (pre' & -> & He2). destruct (IH pre' i post He2) as [j Hj].
        exists j. apply in_or_app. right. exact Hj.
    + apply (IH kept s HS) with (i := i) (post := post); auto.
      * destruct l; cbn in Hnd; try discriminate Est; exact Hnd.
      * destruct l; cbn in Hle; try discriminate Est; exact Hle.
Qed.
End first.

Lemma clocks_app s1 s2 : clocks (s1 ++ s2) = clocks s1 ++ clocks s2.
Proof. induction s1 as [|[x|i|i] s1 IH]; cbn; congruence. Qed.

Lemma exec_clock sched : forall s,
  ab_clock (fst (exec astep s sched)) = last (clocks sched) (ab_clock s).
Proof.
  induction sched as [|l sched IH]; intros s; cbn [exec]; [reflexivity|].
  destruct (astep s l) as [[s1 es]|] eqn:Est.
  - pose proof (astep_clock _ _ _ _ Est) as Hc. specialize (IH s1).
    destruct (exec astep s1 sched) as [s2 es2]. cbn [fst] in *. rewrite IH, Hc.
    destruct l as [x|i|i]; cbn [clocks]; [|reflexivity|reflexivity].
    destruct (clocks sched) as [|y ys] eqn:Ec; [reflexivity|]. cbn [last].
    clear. revert y. induction ys as [|z ys IHy]; intros y; cbn in *; [reflexivity|apply IHy].
  - rewrite IH. destruct l; cbn in *; [discriminate|reflexivity|reflexivity].
Qed.

Section after_quiet.
Variables (capacity rate t0 t c : Z) (n : nat) (sched1 sched2 : list alabel).
Hypothesis Hcap : 1 <= capacity.
Hypothesis Hrate : 1 <= rate.
Hypothesis Htt : t0 <= t.
Hypothesis Hov : no_overflow capacity rate t0 t.
Hypothesis Hnd : nondecreasing (t0 :: clocks (sched1 ++ AClock c :: sched2)).
Hypothesis Hle : Forall (fun x => x <= t) (clocks (sched1 ++ AClock c :: sched2)).

Lemma split_clocks :
  nondecreasing (t0 :: clocks sched1) /\ Forall (fun x => x <= t) (clocks sched1) /\
  nondecreasing (c :: clocks sched2) /\ Forall (fun x => x <= t) (c :: clocks sched2).
Proof.
  pose proof Hnd as H1. pose proof Hle as H2. rewrite clocks_app in H1, H2. cbn [clocks] in H1, H2.
  change (t0 :: clocks sched1 ++ c :: clocks sched2) with ((t0 :: clocks sched1) ++ c :: clocks sched2) in H1.
  apply nondecreasing_app in H1. apply Forall_app in H2. tauto.
Qed.

Lemma atomic_first_served :
  let '(s, tr1) := atomic_exec capacity rate t0 n sched1 in
  quiet s -> withdrawn tr1 = 0 -> ab_clock s + second <= c ->
  forall pre i post, snd (exec astep s (AClock c :: sched2)) = pre ++ ARet i false :: post ->
  exists j, In (ARet j true) pre.
Proof.
  destruct split_clocks as (Hn1 & Hl1 & Hn2 & Hl2).
  pose proof (atomic_conservation capacity rate t0 t n sched1 ltac:(lia) ltac:(lia) Htt Hov Hn1 Hl1) as HC.
  destruct (atomic_exec capacity rate t0 n sched1) as [s tr1].
  intros Hq Hw Hcl. specialize (HC ltac:(lia)). destruct HC as [HC HR HT Htok _ _].
  intros pre i post. cbn [exec astep].
  set (s1 := AState _ _ _ _ _ _). intros Heq.
  assert (HF : fserve capacity rate t0 t (ab_tokens s) (ab_lit s) c 0 s1).
  { assert (Hfl : in_flight s1 = 0) by exact (quiet_in_flight s Hq).
    assert (0 < second) by (unfold second; lia).
    pose proof (Forall_inv Hl2) as Hct; pose proof (Forall_inv_tail Hl2); cbn beta in Hct. constructor; rewrite ?Hfl; cbn; auto; try lia.
    - eapply Forall_impl; [|exact Hq]. intros pc ->. exact I.
    - eapply Forall_impl; [|exact Hq]. intros pc -> []. }
  pose proof (Forall_inv Hl2) as Hct; pose proof (Forall_inv_tail Hl2); cbn beta in Hct.
  apply (fserve_exec capacity rate t0 t (ab_tokens s) (ab_lit s) c Hcap Hrate Hov ltac:(lia) ltac:(lia)
           sched2 0 s1 HF) with (i := i) (post := post); auto.
  destruct (exec astep s1 sched2). exact Heq.
Qed.

(** A lone caller, whatever happened before. *)
Lemma atomic_lone_served i :
  let '(s, tr1) := atomic_exec capacity rate t0 n sched1 in
  quiet s -> withdrawn tr1 < 2 ^ 61 -> (i < n)%nat ->
  withdrawn tr1 + 1 <= rate * whole_seconds (c - ab_clock s) ->
  snd (exec astep s (AClock c :: ACall i :: repeat (AStep i) 8)) = [ARet i true].
Proof.
  destruct split_clocks as (Hn1 & Hl1 & Hn2 & Hl2).
  pose proof (atomic_conservation capacity rate t0 t n sched1 ltac:(lia) ltac:(lia) Htt Hov Hn1 Hl1) as HC.
  assert (Hlen : length (ab_threads (fst (atomic_exec capacity rate t0 n sched1))) = n).
  { unfold atomic_exec.
    assert (HI := exec_inv astep (fun s _ => length (ab_threads s) = n)).
    refine (HI _ sched1 (new_atomic capacity rate t0 n) [] (repeat_length _ _)).
    intros s l s1 es _ <- H. destruct l as [x|j|j]; cbn in H.
    - injection H as <- <-. reflexivity.
    - destruct (nth_error (ab_threads s) j) as [[]|]; try discriminate. injection H as <- <-. apply upd_length.
    - destruct (nth_error (ab_threads s) j) as [pc|]; [|discriminate].
      destruct pc; cbn in H; repeat match type of H with
        | context [if ?x then _ else _] => destruct x
        | context [match ?x with Some _ => _ | None => _ end] => destruct x
        end; try discriminate; injection H as <- <-; apply upd_length. }
  destruct (atomic_exec capacity rate t0 n sched1) as [s tr1]. cbn [fst] in Hlen.
  intros Hq Hw Hi Hwait. specialize (HC ltac:(lia)). destruct HC as [HC HR HT Htok _ _].
  pose proof Hov as (Ho1 & Ho2 & Ho3 & Ho4). pose proof (Forall_inv Hl2) as Hct; cbn beta in Hct.
  pose proof (withdrawn_nonneg tr1) as Hw0.
  assert (Hcs : ab_clock s <= c).
  { destruct (Z.le_gt_cases (ab_clock s) c); [assumption|].
    assert (whole_seconds (c - ab_clock s) < 0) by (unfold whole_seconds; apply Z.div_lt_upper_bound; unfold second; lia).
    nia. }
  assert (Ei : nth_error (ab_threads s) i = Some AIdle).
  { destruct (nth_error (ab_threads s) i) as [pc|] eqn:E; [|apply nth_error_None in E; lia].
    unfold quiet in Hq. rewrite (Forall_nth _ _ _ _ Hq E). reflexivity. }
  assert (Hw1 : whole_seconds (c - ab_clock s) <= whole_seconds (c - ab_lit s)) by (apply whole_seconds_mono; lia).
  assert (Hw2 : 0 <= whole_seconds (c - ab_lit s) <= whole_seconds (t - t0)).
  { split; [apply whole_seconds_nonneg; lia|apply whole_seconds_mono; lia]. }
  (* run the goroutine *)
  destruct s as [cp rt tk lt ck th]. cbn [ab_capacity ab_rate ab_tokens ab_lit ab_clock ab_threads] in *. subst cp rt.
  assert (Step : forall tk lt th pc tk' lt' pc' es rest,
    nth_error th i = Some pc ->
    astep_thread (AState capacity rate tk lt c th) i pc = Some (AState capacity rate tk' lt' c (upd i pc' th), es) ->
    snd (exec astep (AState capacity rate tk lt c th) (AStep i :: rest)) =
    es ++ snd (exec astep (AState capacity rate tk' lt' c (upd i pc' th)) rest) /\ nth_error (upd i pc' th) i = Some pc').
  { intros tk0 lt0 th0 pc tk' lt' pc' es rest En Est. split; [|eapply nth_error_upd_same; exact En].
    cbn [exec astep ab_threads]. rewrite En, Est. destruct (exec _ _ _). reflexivity. }
  assert (Idle : forall f tk lt th, nth_error th i = Some AIdle ->
            snd (exec astep (AState capacity rate tk lt c th) (repeat (AStep i) f)) = []).
  { induction f as [|f IH]; intros tk0 lt0 th0 En; [reflexivity|]. cbn [repeat exec astep ab_threads].
    rewrite En. cbn [astep_thread]. apply IH. exact En. }
  assert (Take : forall tk lt th f, 1 <= tk -> nth_error th i = Some ATakeLoad ->
            snd (exec astep (AState capacity rate tk lt c th) (repeat (AStep i) (2 + f))) = [ARet i true]).
  { intros tk0 lt0 th0 f Hpos En. cbn [repeat Nat.add].
    edestruct (Step tk0 lt0 th0 ATakeLoad tk0 lt0 (ATakeCas tk0)) as [-> E1]; [exact En| |].
    { cbn [astep_thread ab_tokens]. destruct (Z.ltb_spec 0 tk0); [reflexivity|lia]. }
    edestruct (Step tk0 lt0 (upd i (ATakeCas tk0) th0) (ATakeCas tk0)) as [-> E2]; [exact E1| |].
    { cbn [astep_thread ab_tokens]. rewrite Z.eqb_refl. reflexivity. }
    rewrite Idle by exact E2. reflexivity. }
  assert (E0 : nth_error (upd i ALoadTok th) i = Some ALoadTok) by (eapply nth_error_upd_same; exact Ei).
  assert (Start : snd (exec astep (AState capacity rate tk lt ck th) (AClock c :: ACall i :: repeat (AStep i) 8)) =
                  snd (exec astep (AState capacity rate tk lt c (upd i ALoadTok th)) (repeat (AStep i) 8))).
  { cbn [exec astep ab_threads ab_capacity ab_rate ab_tokens ab_lit ab_clock]. rewrite Ei.
    cbn [set_pc ab_threads ab_capacity ab_rate ab_tokens ab_lit ab_clock]. destruct (exec _ _ _). reflexivity. }
  rewrite Start. clear Start. set (th1 := upd i ALoadTok th) in *. cbn [repeat].
  destruct (Z.le_gt_cases capacity tk) as [Hfull|Hless].
  - edestruct (Step tk lt th1 ALoadTok tk lt ATakeLoad) as [-> E1]; [exact E0| |].
    { cbn [astep_thread ab_tokens ab_capacity]. destruct (Z.leb_spec capacity tk); [reflexivity|lia]. }
    exact (Take tk lt _ 5%nat ltac:(lia) E1).
  - edestruct (Step tk lt th1 ALoadTok tk lt (ALoadLit tk)) as [-> E1]; [exact E0| |].
    { cbn [astep_thread ab_tokens ab_capacity]. destruct (Z.leb_spec capacity tk); [lia|reflexivity]. }
    set (th2 := upd i (ALoadLit tk) th1) in *.
    edestruct (Step tk lt th2 (ALoadLit tk) tk lt (ANow tk lt)) as [-> E2]; [exact E1|reflexivity|].
    set (th3 := upd i (ANow tk lt) th2) in *.
    set (d := Z.min (rate * whole_seconds (c - lt)) (capacity - tk)).
    assert (Hmul : rate * whole_seconds (c - ck) <= rate * whole_seconds (c - lt) <= rate * whole_seconds (t - t0)) by nia.
    edestruct (Step tk lt th3 (ANow tk lt) tk lt (ACasTok tk lt c d)) as [-> E3]; [exact E2| |].
    { cbn [astep_thread ab_tokens ab_capacity ab_rate ab_clock]. unfold refill_delta.
      rewrite (i64_id (c - lt)) by (unfold in64; lia).
      rewrite Z.quot_div_nonneg by (unfold second; lia). fold (whole_seconds (c - lt)).
      rewrite (Z.mul_comm (whole_seconds (c - lt)) rate).
      rewrite (i64_id (rate * whole_seconds (c - lt))) by (unfold in64; lia).
      destruct (Z.eqb_spec (rate * whole_seconds (c - lt)) 0); [lia|].
      rewrite (i64_id (tk + _)) by (unfold in64; lia). rewrite (i64_id (capacity - tk)) by (unfold in64; lia).
      unfold d. destruct (Z.ltb_spec capacity (tk + rate * whole_seconds (c - lt)));
        [rewrite Z.min_r by lia|rewrite Z.min_l by lia]; reflexivity. }
    set (th4 := upd i (ACasTok tk lt c d) th3) in *.
    edestruct (Step tk lt th4 (ACasTok tk lt c d) (tk + d) lt (ACasLit lt c d)) as [-> E4]; [exact E3| |].
    { cbn [astep_thread ab_tokens]. rewrite Z.eqb_refl, i64_id by (unfold in64, d; lia). reflexivity. }
    set (th5 := upd i (ACasLit lt c d) th4) in *.
    edestruct (Step (tk + d) lt th5 (ACasLit lt c d) (tk + d) c ATakeLoad) as [-> E5]; [exact E4| |].
    { cbn [astep_thread ab_lit]. rewrite Z.eqb_refl. reflexivity. }
    exact (Take (tk + d) c _ 1%nat ltac:(unfold d; lia) E5).
Qed.
End after_quiet.
