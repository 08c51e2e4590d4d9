From Verif Require Import Common TokenBucketModel TokenBucketSpec.

(** The refill without wrap-around. *)
Definition ideal_issue (b : sbucket) (now : Z) : sbucket :=
  if sb_capacity b <=? sb_tokens b then b
  else
    let delta := (now - sb_last b) / second * sb_rate b in
    if delta =? 0 then b
    else SBucket (sb_capacity b) (Z.min (sb_capacity b) (sb_tokens b + delta)) (sb_rate b) now.

(** Well-formed bucket at a moment [now], with room before the int64 limits. *)
Definition wf_at (b : sbucket) (now : Z) : Prop :=
  0 <= sb_tokens b <= sb_capacity b /\ sb_capacity b < 2 ^ 62 /\ 0 <= sb_rate b /\
  - 2 ^ 62 <= sb_last b <= now /\ now < 2 ^ 62 /\
  (now - sb_last b) / second * sb_rate b < 2 ^ 62.

Lemma delta_nonneg b now : wf_at b now -> 0 <= (now - sb_last b) / second * sb_rate b.
Proof.
  intros (_ & _ & Hr & Hl & _ & _).
  apply Z.mul_nonneg_nonneg; [|exact Hr]. apply Z.div_pos; unfold second; lia.
Qed.

Lemma sync_issue_ideal b now : wf_at b now -> sync_issue b now = ideal_issue b now.
Proof.
  intros Hwf. pose proof (delta_nonneg _ _ Hwf) as Hd.
  destruct Hwf as (Ht & Hc & Hr & Hl & Hn & Hov).
  unfold sync_issue, ideal_issue.
  destruct (Z.leb_spec (sb_capacity b) (sb_tokens b)) as [?|Hlt]; [reflexivity|].
  rewrite (i64_id (now - sb_last b)) by (unfold in64; lia).
  rewrite Z.quot_div_nonneg by (unfold second; lia).
  set (delta := (now - sb_last b) / second * sb_rate b) in *.
  rewrite (i64_id delta) by (unfold in64; lia).
  destruct (delta =? 0); [reflexivity|].
  rewrite (i64_id (sb_tokens b + delta)) by (unfold in64; lia).
  f_equal. destruct (Z.ltb_spec (sb_capacity b) (sb_tokens b + delta)); lia.
Qed.

Lemma whole_seconds_mono x y : x <= y -> whole_seconds x <= whole_seconds y.
Proof. unfold whole_seconds, second. intros H. apply Z.div_le_mono; lia. Qed.

Lemma whole_seconds_add x y : whole_seconds x + whole_seconds y <= whole_seconds (x + y).
Proof.
  unfold whole_seconds, second.
  pose proof (Z.div_mod x 1000000000 ltac:(lia)). pose proof (Z.mod_pos_bound x 1000000000 ltac:(lia)).
  pose proof (Z.div_mod y 1000000000 ltac:(lia)). pose proof (Z.mod_pos_bound y 1000000000 ltac:(lia)).
  apply Z.div_le_lower_bound; lia.
Qed.

Lemma whole_seconds_nonneg x : 0 <= x -> 0 <= whole_seconds x.
Proof. unfold whole_seconds, second. intros H. apply Z.div_pos; lia. Qed.

(** The configuration-and-time envelope that every reachable bucket stays in. *)
Definition env (capacity rate t0 t : Z) (b : sbucket) (now : Z) : Prop :=
  sb_capacity b = capacity /\ sb_rate b = rate /\ 0 <= sb_tokens b <= capacity /\
  t0 <= sb_last b <= now /\ now <= t.

Lemma env_wf capacity rate t0 t b now :
  0 <= capacity -> 0 <= rate -> no_overflow capacity rate t0 t -> env capacity rate t0 t b now ->
  wf_at b now.
Proof.
  intros Hc Hr (Hov1 & Hov2 & Hov3 & Hov4) (<- & <- & Ht & Hl & Hn).
  unfold wf_at. repeat split; try lia.
  eapply Z.le_lt_trans; [|exact Hov4]. rewrite Z.mul_comm.
  apply Z.mul_le_mono_nonneg_l; [exact Hr|]. apply whole_seconds_mono. lia.
Qed.

(** One call, described without wrap-around. *)
Lemma sync_acquire_spec capacity rate t0 t b now :
  0 <= capacity -> 0 <= rate -> no_overflow capacity rate t0 t -> env capacity rate t0 t b now ->
  exists b1 r, sync_acquire b now = (b1, r) /\
    let b' := ideal_issue b now in
    r = (0 <? sb_tokens b') /\
    sb_tokens b1 = sb_tokens b' - (if r then 1 else 0) /\
    sb_last b1 = sb_last b' /\ sb_capacity b1 = capacity /\ sb_rate b1 = rate /\
    env capacity rate t0 t b' now /\ env capacity rate t0 t b1 now.
Proof.
  intros Hc Hr Hov Henv.
  pose proof (env_wf _ _ _ _ _ _ Hc Hr Hov Henv) as Hwf.
  unfold sync_acquire. rewrite (sync_issue_ideal _ _ Hwf).
  pose proof (delta_nonneg _ _ Hwf) as Hd.
  assert (Henv' : env capacity rate t0 t (ideal_issue b now) now).
  { destruct Henv as (He1 & He2 & Ht & Hl & Hn). unfold ideal_issue.
    destruct (Z.leb_spec (sb_capacity b) (sb_tokens b)); [repeat split; tauto|].
    destruct (Z.eqb_spec ((now - sb_last b) / second * sb_rate b) 0); [repeat split; tauto|].
    unfold env; cbn. repeat split; try lia; assumption. }
  set (b' := ideal_issue b now) in *.
  destruct Henv' as (He1 & He2 & Ht & Hl & Hn).
  destruct Hov as (Hov1 & _).
  destruct (Z.ltb_spec 0 (sb_tokens b')) as [Hp|Hp].
  - eexists _, _. split; [reflexivity|]. cbn.
    rewrite i64_id by (unfold in64; lia).
    repeat split; try assumption; try lia; cbn; try assumption; try lia.
  - eexists _, _. split; [reflexivity|]. cbn. rewrite Z.sub_0_r.
    repeat split; try assumption; try lia.
Qed.

(** A generic induction principle over histories: an invariant of (grants so far, bucket, last time)
    preserved by each call holds at the end. *)
Lemma sync_run_ind capacity rate t0 t (I : Z -> sbucket -> Z -> Prop) :
  0 <= capacity -> 0 <= rate -> no_overflow capacity rate t0 t ->
  (forall G b prev now, I G b prev -> env capacity rate t0 t b prev -> prev <= now <= t ->
     let b' := ideal_issue b now in
     forall b1, sb_capacity b1 = capacity -> sb_rate b1 = rate -> sb_last b1 = sb_last b' ->
     env capacity rate t0 t b' now -> env capacity rate t0 t b1 now ->
     (0 < sb_tokens b' /\ sb_tokens b1 = sb_tokens b' - 1 -> I (G + 1) b1 now) /\
     (sb_tokens b' <= 0 /\ sb_tokens b1 = sb_tokens b' -> I G b1 now)) ->
  forall nows b G prev, I G b prev -> env capacity rate t0 t b prev ->
    nondecreasing (prev :: nows) -> Forall (fun x => x <= t) nows ->
    let '(b1, rs) := sync_run b nows in
    exists prev1, I (G + granted rs) b1 prev1 /\ env capacity rate t0 t b1 prev1 /\
      prev <= prev1 /\ Forall (fun x => x <= prev1) nows /\ In prev1 (prev :: nows).
Proof.
  intros Hc Hr Hov Hstep. induction nows as [|now nows IH]; intros b G prev HI Henv Hnd Hle.
  - cbn. exists prev. rewrite Z.add_0_r. repeat split; try apply Henv; auto. lia.
  - cbn [sync_run].
    destruct Hnd as [HF [HF2 Hnd2]]. inversion HF as [|? ? Hpn HF']; subst.
    inversion Hle as [|? ? Hnt Hle']; subst.
    assert (Henvn : env capacity rate t0 t b now).
    { destruct Henv as (? & ? & ? & ? & ?). repeat split; auto; lia. }
    destruct (sync_acquire_spec _ _ _ _ _ _ Hc Hr Hov Henvn)
      as (b1 & r & Heq & Hr1 & Htok & Hlast & Hcap & Hrate & Henv' & Henv1).
    rewrite Heq.
    assert (HI1 : I (G + (if r then 1 else 0)) b1 now).
    { destruct (Hstep G b prev now HI Henv (conj Hpn Hnt) b1 Hcap Hrate Hlast Henv' Henv1) as [HA HB].
      rewrite Hr1 in *. destruct (Z.ltb_spec 0 (sb_tokens (ideal_issue b now))).
      - apply HA. split; assumption.
      - rewrite Z.add_0_r. apply HB. split; [assumption|lia]. }
    specialize (IH b1 _ now HI1 Henv1 (conj HF2 Hnd2) Hle').
    destruct (sync_run b1 nows) as [b2 rs]. destruct IH as (prev1 & HI2 & Henv2 & Hpp & HFp & Hin).
    exists prev1. unfold granted in *. cbn [count].
    replace (G + ((if r then 1 else 0) + count (fun r0 => r0) rs))
      with (G + (if r then 1 else 0) + count (fun r0 => r0) rs) by lia.
    repeat split; try apply HI2; try apply Henv2; try lia.
    + constructor; [lia|exact HFp].
    + right. exact Hin.
Qed.

Lemma env_new capacity rate t0 t : 0 <= capacity -> t0 <= t ->
  env capacity rate t0 t (new_sync_bucket capacity rate t0) t0.
Proof. intros; unfold env; cbn; repeat split; lia. Qed.

(** C01 *)
Lemma total_bound capacity rate t0 t nows :
  0 <= capacity -> 0 <= rate -> t0 <= t -> no_overflow capacity rate t0 t ->
  nondecreasing (t0 :: nows) -> Forall (fun x => x <= t) nows ->
  granted (sync_bucket_results capacity rate t0 nows) <= capacity + rate * whole_seconds (t - t0).
Proof.
  intros Hc Hr Htt Hov Hnd Hle.
  pose (I := fun G (b : sbucket) (_ : Z) =>
    G + sb_tokens b <= capacity + rate * whole_seconds (sb_last b - t0)).
  pose proof (sync_run_ind capacity rate t0 t I Hc Hr Hov) as H.
  unfold sync_bucket_results.
  assert (Hstep : forall G b prev now, I G b prev -> env capacity rate t0 t b prev -> prev <= now <= t ->
     let b' := ideal_issue b now in
     G + sb_tokens b' <= capacity + rate * whole_seconds (sb_last b' - t0)).
  { clear H. intros G b prev now HI Henv Hpn. cbn. unfold I in HI. unfold ideal_issue.
    destruct Henv as (E1 & E2 & E3 & E4 & E5).
    destruct (sb_capacity b <=? sb_tokens b); [exact HI|].
    destruct (Z.eqb_spec ((now - sb_last b) / second * sb_rate b) 0); [exact HI|]. cbn.
    pose proof (whole_seconds_add (sb_last b - t0) (now - sb_last b)) as Hadd.
    replace (sb_last b - t0 + (now - sb_last b)) with (now - t0) in Hadd by lia.
    fold (whole_seconds (now - sb_last b)). rewrite E2 in *.
    assert (rate * (whole_seconds (sb_last b - t0) + whole_seconds (now - sb_last b))
            <= rate * whole_seconds (now - t0)) by (apply Z.mul_le_mono_nonneg_l; lia).
    lia. }
  specialize (H ltac:(intros G b prev now HI Henv Hpn b' b1 _ _ Hl1 _ _;
    pose proof (Hstep G b prev now HI Henv Hpn) as HS; cbn in HS; unfold I; rewrite Hl1; unfold b';
    split; intros [? ?]; unfold b' in *; lia)).
  specialize (H nows (new_sync_bucket capacity rate t0) 0 t0).
  assert (HI0 : I 0 (new_sync_bucket capacity rate t0) t0).
  { unfold I; cbn. replace (t0 - t0) with 0 by lia. unfold whole_seconds. rewrite Zdiv_0_l. lia. }
  specialize (H HI0 (env_new capacity rate t0 t Hc Htt) Hnd Hle).
  destruct (sync_run (new_sync_bucket capacity rate t0) nows) as [b1 rs]. cbn [snd].
  destruct H as (prev1 & HI1 & Henv1 & _ & _ & _). unfold I in HI1.
  destruct Henv1 as (_ & _ & E3 & E4 & E5).
  assert (rate * whole_seconds (sb_last b1 - t0) <= rate * whole_seconds (t - t0)).
  { apply Z.mul_le_mono_nonneg_l; [lia|]. apply whole_seconds_mono. lia. }
  lia.
Qed.

(** Every reachable bucket is inside the envelope. *)
Lemma reachable_env capacity rate t0 t nows :
  0 <= capacity -> 0 <= rate -> t0 <= t -> no_overflow capacity rate t0 t ->
  nondecreasing (t0 :: nows) -> Forall (fun x => x <= t) nows ->
  exists prev, env capacity rate t0 t (fst (sync_run (new_sync_bucket capacity rate t0) nows)) prev /\
     In prev (t0 :: nows).
Proof.
  intros Hc Hr Htt Hov Hnd Hle.
  pose proof (sync_run_ind capacity rate t0 t (fun _ _ _ => True) Hc Hr Hov
    ltac:(intros; split; auto) nows (new_sync_bucket capacity rate t0) 0 t0 I
    (env_new capacity rate t0 t Hc Htt) Hnd Hle) as H.
  destruct (sync_run (new_sync_bucket capacity rate t0) nows) as [b1 rs].
  destruct H as (prev1 & _ & Henv1 & _ & _ & Hin). exists prev1. cbn. tauto.
Qed.

Lemma sync_run_app b l1 l2 :
  sync_run b (l1 ++ l2) =
  (let '(b1, r1) := sync_run b l1 in let '(b2, r2) := sync_run b1 l2 in (b2, r1 ++ r2)).
Proof.
  revert b; induction l1 as [|x l1 IH]; intros b; cbn [app sync_run].
  - destruct (sync_run b l2); reflexivity.
  - destruct (sync_acquire b x) as [b1 r]. rewrite IH.
    destruct (sync_run b1 l1) as [b2 r1]. destruct (sync_run b2 l2). reflexivity.
Qed.

Lemma sync_run_length b l : length (snd (sync_run b l)) = length l.
Proof.
  revert b; induction l as [|x l IH]; intros b; cbn [sync_run]; [reflexivity|].
  destruct (sync_acquire b x) as [b1 r]. specialize (IH b1). destruct (sync_run b1 l). cbn in *. lia.
Qed.

Lemma sync_results_app capacity rate t0 l1 l2 :
  skipn (length l1) (sync_bucket_results capacity rate t0 (l1 ++ l2)) =
  snd (sync_run (fst (sync_run (new_sync_bucket capacity rate t0) l1)) l2).
Proof.
  unfold sync_bucket_results. rewrite sync_run_app.
  pose proof (sync_run_length (new_sync_bucket capacity rate t0) l1) as HL.
  destruct (sync_run (new_sync_bucket capacity rate t0) l1) as [b1 r1]. cbn [fst snd] in *.
  destruct (sync_run b1 l2) as [b2 r2]. cbn [snd].
  rewrite <- HL. rewrite skipn_app, skipn_all, Nat.sub_diag. reflexivity.
Qed.

(** C02: a stretch of calls from any envelope state. *)
Lemma span_bound_from capacity rate t0 t b a seg bT :
  0 <= capacity -> 0 <= rate -> no_overflow capacity rate t0 t ->
  env capacity rate t0 t b a -> a <= bT <= t ->
  nondecreasing (a :: seg) -> Forall (fun x => x <= bT) seg ->
  granted (snd (sync_run b seg)) <= capacity + rate * (whole_seconds (bT - a) + 1).
Proof.
  intros Hc Hr Hov Henv Hab Hnd Hle.
  pose (k := sb_tokens b). pose (L := sb_last b).
  pose (I := fun G (s : sbucket) (p : Z) => a <= p /\ 0 <= G /\
    ((sb_last s = L /\ G + sb_tokens s = k /\ (second <= a - L -> 0 < rate -> G <= 1)) \/
     (a <= sb_last s /\ G + sb_tokens s <= capacity + rate * (whole_seconds (sb_last s - a) + 1)))).
  assert (Hov' : no_overflow capacity rate t0 bT).
  { destruct Hov as (? & ? & ? & Hx). repeat split; try lia.
    eapply Z.le_lt_trans; [|exact Hx]. apply Z.mul_le_mono_nonneg_l; [lia|]. apply whole_seconds_mono. lia. }
  assert (Henv0 : env capacity rate t0 bT b a).
  { destruct Henv as (? & ? & ? & ? & ?). repeat split; auto; lia. }
  assert (Hkc : 0 <= k <= capacity) by (destruct Henv as (? & ? & ? & ?); unfold k; lia).
  assert (HLa : L <= a) by (destruct Henv as (? & ? & ? & ? & ?); unfold L; lia).
  pose proof (sync_run_ind capacity rate t0 bT I Hc Hr Hov') as H.
  assert (Hstep : forall G s p now, I G s p -> env capacity rate t0 bT s p -> p <= now <= bT ->
     forall s1, sb_last s1 = sb_last (ideal_issue s now) ->
     (0 < sb_tokens (ideal_issue s now) /\ sb_tokens s1 = sb_tokens (ideal_issue s now) - 1 -> I (G + 1) s1 now) /\
     (sb_tokens (ideal_issue s now) <= 0 /\ sb_tokens s1 = sb_tokens (ideal_issue s now) -> I G s1 now)).
  { clear H. intros G s p now HI Hes Hpn s1 Hl1.
    destruct HI as (Hap & HG & HI). destruct Hes as (E1 & E2 & E3 & E4 & E5).
    unfold I, ideal_issue in *. rewrite E1, E2 in *.
    destruct (Z.leb_spec capacity (sb_tokens s)) as [Hfull|Hnf].
    - (* full: no refill *)
      rewrite Hl1. split; intros [Hp Ht1]; (split; [lia|split; [lia|]]); rewrite Ht1.
      + destruct HI as [(HL & HGk & Hst)|(HL & HGk)]; [left|right].
        * repeat split; try lia.
        * split; [exact HL|lia].
      + destruct HI as [(HL & HGk & Hst)|(HL & HGk)]; [left|right]; repeat split; auto; lia.
    - destruct (Z.eqb_spec ((now - sb_last s) / second * rate) 0) as [Hd0|Hd0].
      + (* not full but nothing to issue *)
        assert (Hstale : second <= a - L -> 0 < rate -> sb_last s = L -> False).
        { intros Hs Hrp HLs. rewrite HLs in Hd0.
          assert (1 <= (now - L) / second).
          { apply Z.div_le_lower_bound; unfold second in *; lia. }
          nia. }
        rewrite Hl1. split; intros [Hp Ht1]; (split; [lia|split; [lia|]]); rewrite Ht1.
        * destruct HI as [(HL & HGk & Hst)|(HL & HGk)]; [left|right].
          -- repeat split; auto; try lia; intros; exfalso; auto.
          -- split; [exact HL|lia].
        * destruct HI as [(HL & HGk & Hst)|(HL & HGk)]; [left|right]; repeat split; auto; lia.
      + (* refill *)
        cbn [sb_last sb_tokens] in *.
        assert (Hnew : G + Z.min capacity (sb_tokens s + (now - sb_last s) / second * rate)
                       <= capacity + rate * (whole_seconds (now - a) + 1)).
        { pose proof (whole_seconds_nonneg (now - a) ltac:(lia)) as Hws.
          destruct HI as [(HL & HGk & Hst)|(HL & HGk)].
          - rewrite HL in *.
            destruct (Z.le_gt_cases second (a - L)) as [Hs|Hs].
            + assert (0 < rate).
              { destruct (Z.eq_dec rate 0) as [->|]; [|lia]. rewrite Z.mul_0_r in Hd0. lia. }
              specialize (Hst Hs H). nia.
            + assert ((now - L) / second <= whole_seconds (now - a) + 1).
              { unfold whole_seconds. transitivity ((now - a + 1 * second) / second).
                - apply Z.div_le_mono; unfold second in *; lia.
                - rewrite Z.div_add by (unfold second; lia). lia. }
              nia.
          - pose proof (whole_seconds_add (sb_last s - a) (now - sb_last s)) as Hadd.
            replace (sb_last s - a + (now - sb_last s)) with (now - a) in Hadd by lia.
            fold (whole_seconds (now - sb_last s)). nia. }
        rewrite Hl1. split; intros [Hp Ht1]; (split; [lia|split; [lia|]]); rewrite Ht1;
          right; split; lia. }
  specialize (H ltac:(intros G s p now HI Hes Hpn b' b1 _ _ Hl1 _ _;
                      exact (Hstep G s p now HI Hes Hpn b1 Hl1))).
  assert (HI0 : I 0 b a).
  { unfold I, k, L. split; [lia|split; [lia|]]; left; repeat split; lia. }
  specialize (H seg b 0 a HI0 Henv0 Hnd Hle).
  destruct (sync_run b seg) as [b1 rs]. cbn [snd].
  destruct H as (p1 & HI1 & Henv1 & _ & _ & _). destruct HI1 as (Hap1 & HG1 & HI1).
  destruct Henv1 as (_ & _ & E3 & E4 & E5). cbn [Z.add] in HI1.
  pose proof (whole_seconds_nonneg (bT - a) ltac:(lia)) as Hws.
  destruct HI1 as [(HL & HGk & _)|(HL & HGk)].
  - nia.
  - assert (whole_seconds (sb_last b1 - a) <= whole_seconds (bT - a)) by (apply whole_seconds_mono; lia).
    nia.
Qed.

Lemma span_bound capacity rate t0 pre a rest bT :
  0 <= capacity -> 0 <= rate -> no_overflow capacity rate t0 bT ->
  nondecreasing (t0 :: pre ++ a :: rest) -> Forall (fun x => x <= bT) (a :: rest) ->
  granted (skipn (length pre) (sync_bucket_results capacity rate t0 (pre ++ a :: rest)))
    <= capacity + rate * (whole_seconds (bT - a) + 1).
Proof.
  intros Hc Hr Hov Hnd Hle. rewrite sync_results_app.
  assert (Hpa : Forall (fun x => x <= a) (t0 :: pre)).
  { apply Forall_forall. intros x Hx.
    apply (nondecreasing_app_le (t0 :: pre) (a :: rest)); [exact Hnd|exact Hx|left; reflexivity]. }
  assert (Hab : a <= bT) by (inversion Hle; assumption).
  assert (Ht0a : t0 <= a) by (inversion Hpa; assumption).
  change (t0 :: pre ++ a :: rest) with ((t0 :: pre) ++ a :: rest) in Hnd.
  destruct (nondecreasing_app _ _ Hnd) as [Hnd1 Hnd2].
  assert (Hov' : no_overflow capacity rate t0 a).
  { destruct Hov as (? & ? & ? & Hx). repeat split; try lia.
    eapply Z.le_lt_trans; [|exact Hx]. apply Z.mul_le_mono_nonneg_l; [lia|]. apply whole_seconds_mono. lia. }
  destruct (reachable_env capacity rate t0 a pre Hc Hr Ht0a Hov' Hnd1) as (p & Henv & Hin).
  { inversion Hpa; assumption. }
  apply (span_bound_from capacity rate t0 bT _ a); auto; try lia.
  - destruct Henv as (? & ? & ? & ? & ?). repeat split; auto; lia.
  - cbn. cbn in Hnd2. split; [|exact Hnd2]. constructor; [lia|tauto].
Qed.

(** C03 *)
Lemma waiting_served capacity rate t0 nows t :
  1 <= capacity -> 1 <= rate -> no_overflow capacity rate t0 t ->
  nondecreasing (t0 :: nows) -> Forall (fun x => x + second <= t) (t0 :: nows) ->
  snd (sync_acquire (fst (sync_run (new_sync_bucket capacity rate t0) nows)) t) = true.
Proof.
  intros Hc Hr Hov Hnd Hle.
  assert (Hle' : Forall (fun x => x <= t) nows).
  { apply Forall_forall. intros x Hx. rewrite Forall_forall in Hle.
    specialize (Hle x (or_intror Hx)). unfold second in Hle. lia. }
  assert (Htt : t0 <= t) by (inversion Hle; unfold second in *; lia).
  destruct (reachable_env capacity rate t0 t nows ltac:(lia) ltac:(lia) Htt Hov Hnd Hle') as (p & Henv & Hin).
  set (b := fst (sync_run (new_sync_bucket capacity rate t0) nows)) in *.
  assert (Hp : p + second <= t) by (rewrite Forall_forall in Hle; apply Hle; exact Hin).
  assert (Henvt : env capacity rate t0 t b t).
  { destruct Henv as (? & ? & ? & ? & ?). repeat split; auto; lia. }
  destruct (sync_acquire_spec capacity rate t0 t b t ltac:(lia) ltac:(lia) Hov Henvt)
    as (b1 & r & Heq & Hr1 & _). rewrite Heq. cbn. rewrite Hr1. apply Z.ltb_lt.
  destruct Henv as (E1 & E2 & E3 & E4 & E5). unfold ideal_issue. rewrite E1, E2.
  destruct (Z.leb_spec capacity (sb_tokens b)); [lia|].
  assert (1 <= (t - sb_last b) / second).
  { apply Z.div_le_lower_bound; unfold second in *; lia. }
  destruct (Z.eqb_spec ((t - sb_last b) / second * rate) 0); [nia|]. cbn. nia.
Qed.

Lemma results_snoc capacity rate t0 nows t :
  sync_bucket_results capacity rate t0 (nows ++ [t]) =
  sync_bucket_results capacity rate t0 nows ++
  [snd (sync_acquire (fst (sync_run (new_sync_bucket capacity rate t0) nows)) t)].
Proof.
  unfold sync_bucket_results. rewrite sync_run_app.
  destruct (sync_run (new_sync_bucket capacity rate t0) nows) as [b r]. cbn [fst].
  cbn [sync_run]. destruct (sync_acquire b t). reflexivity.
Qed.

(** C03, bursts: enough tokens for every remaining call. *)
Lemma burst_from capacity rate t0 t : 0 <= capacity -> 0 <= rate -> no_overflow capacity rate t0 t ->
  forall nows b prev, env capacity rate t0 t b prev ->
    nondecreasing (prev :: nows) -> Forall (fun x => x <= t) nows ->
    Z.of_nat (length nows) <= sb_tokens b ->
    snd (sync_run b nows) = repeat true (length nows).
Proof.
  intros Hc Hr Hov. induction nows as [|now nows IH]; intros b prev Henv Hnd Hle Hlen; [reflexivity|].
  destruct Hnd as [HF [HF2 Hnd2]]. inversion HF as [|? ? Hpn HF']; subst.
  inversion Hle as [|? ? Hnt Hle']; subst. cbn [length] in Hlen.
  assert (Henvn : env capacity rate t0 t b now).
  { destruct Henv as (? & ? & ? & ? & ?). repeat split; auto; lia. }
  pose proof (delta_nonneg _ _ (env_wf _ _ _ _ _ _ Hc Hr Hov Henvn)) as Hd.
  destruct (sync_acquire_spec _ _ _ _ _ _ Hc Hr Hov Henvn)
    as (b1 & r & Heq & Hr1 & Htok & _ & _ & _ & _ & Henv1).
  assert (Hge : sb_tokens b <= sb_tokens (ideal_issue b now)).
  { destruct Henv as (E1 & E2 & E3 & E4 & E5). unfold ideal_issue.
    destruct (sb_capacity b <=? sb_tokens b); [lia|].
    destruct ((now - sb_last b) / second * sb_rate b =? 0); [lia|]. cbn. lia. }
  assert (r = true) as -> by (rewrite Hr1; apply Z.ltb_lt; lia).
  cbn [sync_run length repeat]. rewrite Heq.
  specialize (IH b1 now Henv1 (conj HF2 Hnd2) Hle' ltac:(lia)).
  destruct (sync_run b1 nows) as [b2 rs]. cbn in *. rewrite IH. reflexivity.
Qed.

Lemma initial_burst capacity rate t0 t nows :
  0 <= capacity -> 0 <= rate -> t0 <= t -> no_overflow capacity rate t0 t ->
  nondecreasing (t0 :: nows) -> Forall (fun x => x <= t) nows ->
  Z.of_nat (length nows) <= capacity ->
  sync_bucket_results capacity rate t0 nows = repeat true (length nows).
Proof.
  intros Hc Hr Htt Hov Hnd Hle Hlen. unfold sync_bucket_results.
  apply (burst_from capacity rate t0 t Hc Hr Hov nows _ t0 (env_new _ _ _ _ Hc Htt) Hnd Hle).
  cbn. exact Hlen.
Qed.

Lemma waiting_burst capacity rate t0 nows s a burst t :
  0 <= capacity -> 0 <= rate -> 0 <= s -> no_overflow capacity rate t0 t ->
  nondecreasing (t0 :: nows ++ a :: burst) -> Forall (fun x => x <= t) (a :: burst) ->
  Forall (fun x => x + s * second <= a) (t0 :: nows) ->
  Z.of_nat (length (a :: burst)) <= capacity -> Z.of_nat (length (a :: burst)) <= rate * s ->
  sync_bucket_results capacity rate t0 (nows ++ a :: burst) =
  sync_bucket_results capacity rate t0 nows ++ repeat true (length (a :: burst)).
Proof.
  intros Hc Hr Hs Hov Hnd Hle Hw Hl1 Hl2.
  inversion Hle as [|? ? Hat Hle2]; subst.
  assert (Hss : 0 <= s * second) by (unfold second; lia).
  assert (Hle' : Forall (fun x => x <= t) nows).
  { apply Forall_forall. intros x Hx. rewrite Forall_forall in Hw.
    specialize (Hw x (or_intror Hx)). lia. }
  assert (Htt : t0 <= t) by (inversion Hw; lia).
  rewrite app_comm_cons in Hnd. destruct (nondecreasing_app _ _ Hnd) as [Hnd1 Hnd2].
  destruct (reachable_env capacity rate t0 t nows Hc Hr Htt Hov Hnd1 Hle') as (p & Henv & Hin).
  unfold sync_bucket_results. rewrite sync_run_app.
  destruct (sync_run (new_sync_bucket capacity rate t0) nows) as [b rs0] eqn:Hrun. cbn [fst] in Henv.
  cbn [sync_run].
  assert (Hp : p + s * second <= a) by (rewrite Forall_forall in Hw; apply Hw; exact Hin).
  assert (Henva : env capacity rate t0 t b a).
  { destruct Henv as (? & ? & ? & ? & ?). repeat split; auto; lia. }
  destruct (sync_acquire_spec capacity rate t0 t b a Hc Hr Hov Henva)
    as (b1 & r & Heq & Hr1 & Htok & _ & _ & _ & _ & Henv1). rewrite Heq.
  assert (Hn : Z.of_nat (length (a :: burst)) <= sb_tokens (ideal_issue b a)).
  { destruct Henv as (E1 & E2 & E3 & E4 & E5). unfold ideal_issue. rewrite E1, E2.
    destruct (Z.leb_spec capacity (sb_tokens b)); [lia|].
    assert (s <= (a - sb_last b) / second).
    { apply Z.div_le_lower_bound; unfold second in *; lia. }
    assert (rate * s <= (a - sb_last b) / second * rate) by nia.
    cbn [length] in *.
    destruct (Z.eqb_spec ((a - sb_last b) / second * rate) 0); [lia|]. cbn [sb_tokens]. lia. }
  cbn [length] in Hn.
  assert (r = true) as -> by (rewrite Hr1; apply Z.ltb_lt; lia).
  pose proof (burst_from capacity rate t0 t Hc Hr Hov burst b1 a Henv1 Hnd2 Hle2 ltac:(lia)) as Hb.
  destruct (sync_run b1 burst) as [b2 rs]. cbn in *. rewrite Hb. reflexivity.
Qed.
