From Verif Require Import Common Float64Model Float64Proofs FixedWindowModel FixedWindowSpec.

Section Fixed.
Variables c u w used : Z.
Hypothesis Hw : 0 < w < 2 ^ 62.
Hypothesis Hu : - 2 ^ 61 <= u.
Hypothesis Hused : 0 <= used.
Hypothesis Hc : c < 2 ^ 62.

Lemma window_of_nonneg t : 0 <= window_of u w t.
Proof.
  unfold window_of. destruct (Z.leb_spec t u); [lia|]. apply Z.div_pos; lia.
Qed.

Lemma window_of_mono a b : a <= b -> window_of u w a <= window_of u w b.
Proof.
  intros H. unfold window_of at 1. destruct (Z.leb_spec a u); [apply window_of_nonneg|].
  unfold window_of. destruct (Z.leb_spec b u); [lia|]. apply Z.div_le_mono; lia.
Qed.

(** The edge after a call at [t] covers [t] and is less than one window ahead of it. *)
Lemma window_edge t : u < t -> t <= u + window_of u w t * w < t + w.
Proof.
  intros H. unfold window_of. destruct (Z.leb_spec t u); [lia|].
  pose proof (Z.div_mod (t - u + w - 1) w ltac:(lia)). pose proof (Z.mod_pos_bound (t - u + w - 1) w ltac:(lia)). nia.
Qed.

(** Advancing from the edge of window [k] to a later call lands on the edge of the call's window. *)
Lemma advance_edge k t : 0 <= k -> u + k * w < t ->
  u + k * w + (t - (u + k * w) + w - 1) / w * w = u + window_of u w t * w /\ k < window_of u w t.
Proof.
  intros Hk Ht. unfold window_of. destruct (Z.leb_spec t u); [nia|].
  replace (t - (u + k * w) + w - 1) with (t - u + w - 1 + (- k) * w) by ring.
  rewrite Z.div_add by lia. split; [ring|].
  enough (k + 1 <= (t - u + w - 1) / w) by lia. apply Z.div_le_lower_bound; nia.
Qed.

Definition already (history : list (Z * bool)) (k : Z) : Z :=
  (if k =? 0 then used else 0) + granted_in_window u w k history.

Definition fw_inv (s : fw) (history : list (Z * bool)) (k prev : Z) : Prop :=
  fw_capacity s = c /\ fw_window s = w /\ fw_until s = u + k * w /\ 0 <= k /\ k <= window_of u w prev /\
  (prev <= u \/ k = window_of u w prev) /\
  fw_count s = already history k /\
  Forall (fun call => window_of u w (fst call) <= k) history.

Lemma granted_in_window_later history k k' :
  Forall (fun call => window_of u w (fst call) <= k) history -> k < k' ->
  granted_in_window u w k' history = 0.
Proof.
  intros HF Hk. unfold granted_in_window. induction HF as [|call history Hcall HF IH]; [reflexivity|].
  cbn [count]. rewrite IH. destruct (Z.eqb_spec (window_of u w (fst call)) k'); [lia|].
  rewrite andb_false_r. lia.
Qed.

Lemma already_snoc history now b k :
  already (history ++ [(now, b)]) k = already history k + (if b && (window_of u w now =? k) then 1 else 0).
Proof.
  unfold already, granted_in_window. rewrite count_app. cbn. lia.
Qed.

Lemma fw_step s history k prev now :
  fw_inv s history k prev -> prev <= now -> now < 2 ^ 61 -> now - prev < 2 ^ 53 -> now - u < 2 ^ 53 \/ u <= prev ->
  already history (window_of u w now) < 2 ^ 62 ->
  let r := already history (window_of u w now) <? c in
  exists s1, fw_acquire s now = (s1, r) /\
    fw_inv s1 (history ++ [(now, r)]) (window_of u w now) now.
Proof.
  intros (E1 & E2 & E3 & Hk & Hkp & Hkeq & Ecnt & HF) Hpn Hmax Hgap Hgap0 Hcnt r.
  assert (Hkn : k <= window_of u w now).
  { pose proof (window_of_mono prev now Hpn). lia. }
  unfold fw_acquire, fw_contains. rewrite E3.
  set (n := window_of u w now) in *.
  assert (Hdone : forall s', fw_capacity s' = c -> fw_window s' = w -> fw_until s' = u + n * w ->
     fw_count s' = already history n ->
     exists s1, (if fw_count s' <? fw_capacity s'
                 then (Fw (fw_capacity s') (fw_window s') (fw_until s') (i64 (fw_count s' + 1)), true)
                 else (s', false)) = (s1, r) /\ fw_inv s1 (history ++ [(now, r)]) n now).
  { intros s' F1 F2 F3 F4. rewrite F4, F1.
    assert (Hnn : 0 <= n) by apply window_of_nonneg.
    assert (HF' : Forall (fun call => window_of u w (fst call) <= n) (history ++ [(now, r)])).
    { apply Forall_app. split.
      - eapply Forall_impl; [|exact HF]. cbn. intros; lia.
      - constructor; [cbn; unfold n; lia|constructor]. }
    assert (Hsn : already (history ++ [(now, r)]) n = already history n + (if r then 1 else 0)).
    { rewrite already_snoc. unfold n. rewrite Z.eqb_refl, andb_true_r. reflexivity. }
    assert (Ha0 : 0 <= already history n).
    { unfold already, granted_in_window. pose proof (count_nonneg (fun call => snd call && (window_of u w (fst call) =? n)) history).
      destruct (n =? 0); lia. }
    assert (Hr : r = (already history n <? c)) by reflexivity. clearbody r.
    destruct (Z.ltb_spec (already history n) c) as [Hlt|Hge]; subst r; eexists; (split; [reflexivity|]);
      unfold fw_inv; cbn [fw_capacity fw_window fw_until fw_count].
    - rewrite Hsn, i64_id by (unfold in64; lia). rewrite F2, F3. repeat split; auto; lia.
    - rewrite F1, F2, F3, F4, Hsn. repeat split; auto; lia. }
  destruct (Z.leb_spec now (u + k * w)) as [Hin|Hout]; cbn [negb].
  - (* same window *)
    assert (Hnk : n = k).
    { enough (n <= k) by lia. unfold n, window_of.
      destruct (Z.leb_spec now u); [lia|]. 
      assert ((now - u + w - 1) / w < k + 1); [|lia]. apply Z.div_lt_upper_bound; nia. }
    apply Hdone; auto; rewrite Hnk; auto.
  - unfold fw_reset, fw_contains. rewrite E3.
    destruct (Z.leb_spec now (u + k * w)); [lia|].
    assert (Hd : 0 < now - (u + k * w) < 2 ^ 53).
    { split; [lia|]. destruct Hkeq as [Hpu|Hkeq].
      - destruct Hgap0 as [Hg|Hg]; [nia|]. assert (prev = u) by lia. nia.
      - destruct (Z.le_gt_cases prev u) as [Hpu|Hpu].
        + destruct Hgap0 as [Hg|Hg]; [nia|]. assert (prev = u) by lia. nia.
        + pose proof (window_edge prev Hpu). rewrite <- Hkeq in *. lia. }
    destruct (advance_edge k now Hk ltac:(lia)) as [Hadv Hlt]. fold n in Hadv, Hlt.
    assert (Hnu : u < now) by nia.
    pose proof (window_edge now Hnu) as Hedge. fold n in Hedge.
    assert (Hk2 : u <= u + k * w) by nia.
    rewrite E2. rewrite (i64_id (now - (u + k * w))) by (unfold in64; lia).
    rewrite ceil_div_exact by lia.
    set (st := (now - (u + k * w) + w - 1) / w) in *.
    assert (Hst : u + k * w + st * w = u + n * w) by exact Hadv.
    rewrite (i64_id (st * w)) by (unfold in64; lia).
    rewrite (i64_id (u + k * w + st * w)) by (unfold in64; lia).
    rewrite Hst. apply Hdone; auto. cbn [fw_count].
    unfold already. rewrite (granted_in_window_later history k n HF Hlt).
    destruct (Z.eqb_spec n 0); lia.
Qed.

Lemma already_le history k : already history k <= used + Z.of_nat (length history).
Proof.
  unfold already, granted_in_window.
  pose proof (count_le_length (fun call => snd call && (window_of u w (fst call) =? k)) history).
  destruct (k =? 0); lia.
Qed.

Lemma fw_run_ideal nows : forall s history k prev,
  fw_inv s history k prev -> nondecreasing (prev :: nows) -> Forall (fun t => t < 2 ^ 61) nows ->
  steady prev nows -> (u <= prev) ->
  used + Z.of_nat (length history + length nows) < 2 ^ 62 ->
  snd (fw_run s nows) = ideal_fixed c u w used history nows.
Proof.
  induction nows as [|now nows IH]; intros s history k prev Hinv Hnd Hmax Hst Hup Hlen;
    cbn [fw_run ideal_fixed]; [reflexivity|].
  destruct Hnd as [HF [HF2 Hnd]]. inversion HF; subst. inversion Hmax; subst. destruct Hst as [Hg Hst].
  destruct (fw_step s history k prev now Hinv ltac:(assumption) ltac:(assumption) Hg ltac:(right; assumption))
    as (s1 & Hacq & Hinv1).
  { pose proof (already_le history (window_of u w now)). lia. }
  rewrite Hacq. fold (already history (window_of u w now)).
  specialize (IH s1 _ _ now Hinv1 (conj HF2 Hnd) ltac:(assumption) Hst ltac:(lia)).
  destruct (fw_run s1 nows) as [s2 calls]. cbn [snd] in *. f_equal. apply IH.
  rewrite app_length. cbn [length] in *. lia.
Qed.

(** From any state whose edge is [u] and whose window has used [used] permits; the calls may start
    before the edge. *)
Lemma fw_run_from nows :
  nondecreasing nows -> Forall (fun t => - 2 ^ 61 <= t < 2 ^ 61) nows -> steady u nows ->
  used + Z.of_nat (length nows) < 2 ^ 62 ->
  snd (fw_run (Fw c w u used) nows) = ideal_fixed c u w used [] nows.
Proof.
  intros Hnd Hmax Hst Hlen.
  assert (Hgen : forall nows s history prev,
    fw_inv s history 0 prev -> prev <= u ->
    nondecreasing (prev :: nows) -> Forall (fun t => - 2 ^ 61 <= t < 2 ^ 61) nows -> steady u nows ->
    used + Z.of_nat (length history + length nows) < 2 ^ 62 ->
    snd (fw_run s nows) = ideal_fixed c u w used history nows).
  { clear nows Hnd Hmax Hst Hlen.
    induction nows as [|now nows IH]; intros s history prev Hinv Hpu Hnd Hmax Hst Hlen; [reflexivity|].
    destruct Hst as [Hg Hst].
    pose proof Hnd as [HF [HF2 Hnd2]]. inversion HF; subst. inversion Hmax; subst.
    destruct (Z.le_gt_cases now u) as [Hin|Hout].
    - cbn [fw_run ideal_fixed].
      assert (Hn0 : window_of u w now = 0) by (unfold window_of; destruct (Z.leb_spec now u); lia).
      (* inside the current window: no advance *)
      destruct Hinv as (E1 & E2 & E3 & Hk & Hkp & Hkeq & Ecnt & HFh).
      assert (Hinv' : fw_inv s history 0 now).
      { pose proof (window_of_nonneg now). repeat split; auto; lia. }
      assert (Hr : exists s1, fw_acquire s now = (s1, already history 0 <? c) /\
                fw_inv s1 (history ++ [(now, already history 0 <? c)]) 0 now).
      { unfold fw_acquire, fw_contains. rewrite E3.
        destruct (Z.leb_spec now (u + 0 * w)); [cbn [negb]|lia].
        rewrite Ecnt, E1.
        assert (HF' : forall b, Forall (fun call => window_of u w (fst call) <= 0) (history ++ [(now, b)])).
        { intros b. apply Forall_app. split; [exact HFh|]. constructor; [cbn; lia|constructor]. }
        assert (Hsn : forall b, already (history ++ [(now, b)]) 0 = already history 0 + (if b then 1 else 0)).
        { intros b. rewrite already_snoc, Hn0. cbn. rewrite andb_true_r. reflexivity. }
        pose proof (already_le history 0).
        assert (0 <= already history 0).
        { unfold already, granted_in_window. pose proof (count_nonneg (fun call => snd call && (window_of u w (fst call) =? 0)) history). cbn. lia. }
        destruct (Z.ltb_spec (already history 0) c); eexists; (split; [reflexivity|]); unfold fw_inv;
          cbn [fw_capacity fw_window fw_until fw_count]; rewrite ?E1, ?E2, ?E3, ?Ecnt, Hsn, ?i64_id by (unfold in64; lia);
          repeat split; auto; try lia. }
      destruct Hr as (s1 & Hacq & Hinv1). rewrite Hacq.
      specialize (IH s1 _ now Hinv1 Hin (conj HF2 Hnd2) ltac:(assumption)).
      destruct (fw_run s1 nows) as [s2 calls]. cbn [snd] in *. rewrite Hn0. cbn [Z.eqb].
      fold (already history 0) in *. unfold already in *. cbn [Z.eqb] in *. f_equal. apply IH.
      + clear - Hst Hin Hg. destruct nows as [|n nows]; [exact I|]. cbn in *. destruct Hst. split; [lia|assumption].
      + rewrite app_length. cbn [length] in *. lia.
    - (* first call beyond the edge: continue with the general lemma, as if the previous call was at u *)
      apply (fw_run_ideal (now :: nows) s history 0 u).
      + destruct Hinv as (E1 & E2 & E3 & Hk & Hkp & Hkeq & Ecnt & HFh).
        repeat split; auto; try lia. apply window_of_nonneg.
      + cbn. repeat split; auto. constructor; [lia|]. eapply Forall_impl; [|exact HF2]. cbn; lia.
      + constructor; [lia|]. eapply Forall_impl; [|eassumption]. cbn; lia.
      + cbn. split; assumption.
      + lia.
      + exact Hlen. }
  apply (Hgen nows _ [] (match nows with [] => u | n :: _ => Z.min n u end)).
  - unfold fw_inv, already, granted_in_window. cbn. repeat split; try lia; auto.
    apply window_of_nonneg.
    left. destruct nows; lia.
  - destruct nows; lia.
  - destruct nows as [|n nows]; cbn in *; [auto|]. destruct Hnd as [H1 H2]. repeat split; auto.
    constructor; [lia|]. eapply Forall_impl; [|exact H1]. cbn; lia.
  - exact Hmax.
  - exact Hst.
  - cbn. lia.
Qed.
End Fixed.

(** ** Consequences for the ideal limiter *)
Section Ideal.
Variables c u w used : Z.
Hypothesis Hc : 0 <= c.
Hypothesis Hused : 0 <= used.

Lemma ideal_window_bound nows : forall history k,
  (forall k, granted_in_window u w k history <= c) ->
  granted_in_window u w k (history ++ ideal_fixed c u w used history nows) <= c.
Proof.
  induction nows as [|now nows IH]; intros history k Hh; cbn [ideal_fixed].
  - rewrite app_nil_r. apply Hh.
  - match goal with |- context [(now, ?b)] => set (r := b) end.
    change ((now, r) :: ideal_fixed c u w used (history ++ [(now, r)]) nows)
      with ([(now, r)] ++ ideal_fixed c u w used (history ++ [(now, r)]) nows).
    rewrite app_assoc. apply IH. intros k'.
    unfold granted_in_window. rewrite count_app. cbn [count snd fst].
    fold (granted_in_window u w k' history).
    destruct (Z.eqb_spec (window_of u w now) k') as [E|E].
    + rewrite andb_true_r. destruct r eqn:Er.
      * unfold r in Er. apply Z.ltb_lt in Er. rewrite E in Er. destruct (k' =? 0); lia.
      * specialize (Hh k'). lia.
    + rewrite andb_false_r. specialize (Hh k'). lia.
Qed.

Lemma count_disjoint_le {A} (f g h : A -> bool) l :
  (forall x, f x = true -> g x = true \/ h x = true) -> count f l <= count g l + count h l.
Proof.
  intros H. induction l as [|x l IH]; cbn [count]; [lia|].
  specialize (H x). destruct (f x), (g x), (h x); try lia.
Qed.

Lemma window_span x y t : 0 < w -> x <= t <= y -> y <= x + w ->
  window_of u w t = window_of u w x \/ window_of u w t = window_of u w x + 1.
Proof.
  intros Hw Ht Hy. unfold window_of.
  destruct (Z.leb_spec t u); destruct (Z.leb_spec x u); try lia.
  - right. assert (t - u <= w) by lia.
    assert ((t - u + w - 1) / w = 1); [|lia].
    symmetry. apply (Z.div_unique _ _ 1 (t - u - 1)); lia.
  - set (a := x - u + w - 1).
    assert (a / w <= (t - u + w - 1) / w <= (a + 1 * w) / w).
    { split; apply Z.div_le_mono; unfold a; lia. }
    rewrite Z.div_add in * by lia. lia.
Qed.

Lemma granted_span x y calls : 0 < w -> y <= x + w ->
  (forall k, granted_in_window u w k calls <= c) -> granted_between x y calls <= 2 * c.
Proof.
  intros Hw Hy Hb.
  pose proof (Hb (window_of u w x)) as H1. pose proof (Hb (window_of u w x + 1)) as H2.
  unfold granted_in_window in *. unfold granted_between.
  etransitivity; [apply (count_disjoint_le _ (fun call => snd call && (window_of u w (fst call) =? window_of u w x))
     (fun call => snd call && (window_of u w (fst call) =? window_of u w x + 1)))|lia].
  intros [t b]. cbn. intros H. apply andb_true_iff in H. destruct H as [H Ht2]. apply andb_true_iff in H.
  destruct H as [-> Ht1]. apply Z.leb_le in Ht1, Ht2. cbn.
  destruct (window_span x y t Hw ltac:(lia) Hy) as [->| ->]; [left|right]; apply Z.eqb_refl.
Qed.
End Ideal.

Lemma fixed_window_decision c u w used nows :
  0 < w < 2 ^ 62 -> - 2 ^ 61 <= u -> 0 <= used -> c < 2 ^ 62 ->
  nondecreasing nows -> Forall (fun t => - 2 ^ 61 <= t < 2 ^ 61) nows -> steady u nows ->
  used + Z.of_nat (length nows) < 2 ^ 62 ->
  snd (fw_run (Fw c w u used) nows) = ideal_fixed c u w used [] nows.
Proof. intros; apply fw_run_from; assumption. Qed.

Lemma fixed_window_bound c u w used nows k :
  0 < w < 2 ^ 62 -> - 2 ^ 61 <= u -> 0 <= used -> 0 <= c < 2 ^ 62 ->
  nondecreasing nows -> Forall (fun t => - 2 ^ 61 <= t < 2 ^ 61) nows -> steady u nows ->
  used + Z.of_nat (length nows) < 2 ^ 62 ->
  granted_in_window u w k (snd (fw_run (Fw c w u used) nows)) <= c.
Proof.
  intros Hw Hu Hused Hc Hnd Hm Hst Hlen.
  rewrite fixed_window_decision by (assumption || lia).
  apply (ideal_window_bound c u w used ltac:(lia) nows [] k). intros; unfold granted_in_window; cbn; lia.
Qed.

Lemma fixed_window_span c u w used nows x y :
  0 < w < 2 ^ 62 -> - 2 ^ 61 <= u -> 0 <= used -> 0 <= c < 2 ^ 62 ->
  nondecreasing nows -> Forall (fun t => - 2 ^ 61 <= t < 2 ^ 61) nows -> steady u nows ->
  used + Z.of_nat (length nows) < 2 ^ 62 -> y <= x + w ->
  granted_between x y (snd (fw_run (Fw c w u used) nows)) <= 2 * c.
Proof.
  intros Hw Hu Hused Hc Hnd Hm Hst Hlen Hy.
  apply (granted_span c u w); [lia|exact Hy|].
  intros k. apply fixed_window_bound; assumption.
Qed.

(** The first call on a fresh limiter. *)
Lemma fresh_first_call c w t :
  0 < w < 2 ^ 61 -> 0 < t < 2 ^ 62 ->
  let '(s, r) := fw_acquire (new_fw c w) t in
  r = (0 <? c) /\ t - 2 ^ 11 <= fw_until s < t + w + 2 ^ 11.
Proof.
  intros Hw Ht. unfold fw_acquire, fw_contains, new_fw. cbn [fw_until fw_window].
  destruct (Z.leb_spec t 0); [lia|]. cbn [negb]. unfold fw_reset, fw_contains. cbn [fw_until fw_window].
  destruct (Z.leb_spec t 0); [lia|].
  rewrite Z.sub_0_r, (i64_id t) by (unfold in64; lia).
  destruct (ceil_div_error t w Ht ltac:(lia)) as [Hk Hkw].
  set (k := f64_ceil_int64 (f64_div (f64_of_int t) (f64_of_int w))) in *.
  cbn [fw_count fw_capacity].
  rewrite (i64_id (k * w)) by (unfold in64; lia). rewrite Z.add_0_l, (i64_id (k * w)) by (unfold in64; lia).
  destruct (0 <? c); cbn [fw_until]; split; auto.
Qed.

Lemma steady_weaken a b nows : a <= b -> steady a nows -> steady b nows.
Proof. destruct nows; cbn; intuition lia. Qed.

(** The whole life of a new limiter. *)
Lemma fresh_history c w t rest :
  0 < w < 2 ^ 60 -> 0 < t < 2 ^ 61 -> c < 2 ^ 62 ->
  nondecreasing (t :: rest) -> Forall (fun x => x < 2 ^ 61) rest -> steady (t - 2 ^ 11) rest ->
  Z.of_nat (length rest) < 2 ^ 61 ->
  exists u, t - 2 ^ 11 <= u < t + w + 2 ^ 11 /\
    snd (fw_run (new_fw c w) (t :: rest)) =
    (t, 0 <? c) :: ideal_fixed c u w (if 0 <? c then 1 else 0) [] rest.
Proof.
  intros Hw Ht Hc Hnd Hm Hst Hlen.
  pose proof (fresh_first_call c w t ltac:(lia) ltac:(lia)) as H. cbn [fw_run].
  assert (Hshape : exists u, fst (fw_acquire (new_fw c w) t) = Fw c w u (if 0 <? c then 1 else 0)).
  { unfold fw_acquire, fw_contains, new_fw. cbn [fw_until].
    destruct (Z.leb_spec t 0); [lia|]. cbn [negb]. unfold fw_reset, fw_contains. cbn [fw_until].
    destruct (Z.leb_spec t 0); [lia|]. cbn [fw_count fw_capacity].
    destruct (0 <? c); eexists; reflexivity. }
  destruct Hshape as (u & Hs).
  destruct (fw_acquire (new_fw c w) t) as [s r]. cbn [fst] in Hs. subst s. destruct H as [-> Hu].
  cbn [fw_until] in Hu. exists u. split; [exact Hu|].
  pose proof (fixed_window_decision c u w (if 0 <? c then 1 else 0) rest ltac:(lia) ltac:(lia)) as Hdec.
  destruct (fw_run (Fw c w u (if 0 <? c then 1 else 0)) rest) as [s2 calls]. cbn [snd] in *.
  f_equal. apply Hdec.
  - destruct (0 <? c); lia.
  - exact Hc.
  - apply Hnd.
  - destruct Hnd as [HF _]. rewrite Forall_forall in *. intros x Hx. specialize (HF x Hx). specialize (Hm x Hx). lia.
  - apply (steady_weaken (t - 2 ^ 11)); [lia|exact Hst].
  - destruct (0 <? c); lia.
Qed.

Lemma ideal_fixed_bound c u w used nows k :
  0 <= c -> 0 <= used -> granted_in_window u w k (ideal_fixed c u w used [] nows) <= c.
Proof.
  intros Hc Hused. apply (ideal_window_bound c u w used Hused nows [] k).
  intros; unfold granted_in_window; cbn; lia.
Qed.

Lemma fresh_span c w t rest x y :
  0 < w < 2 ^ 60 -> 0 < t < 2 ^ 61 -> 0 <= c < 2 ^ 62 ->
  nondecreasing (t :: rest) -> Forall (fun x => x < 2 ^ 61) rest -> steady (t - 2 ^ 11) rest ->
  Z.of_nat (length rest) < 2 ^ 61 -> y <= x + w ->
  granted_between x y (snd (fw_run (new_fw c w) (t :: rest))) <= 2 * c + 1.
Proof.
  intros Hw Ht Hc Hnd Hm Hst Hlen Hy.
  destruct (fresh_history c w t rest Hw Ht ltac:(lia) Hnd Hm Hst Hlen) as (u & Hu & ->).
  assert (granted_between x y (ideal_fixed c u w (if 0 <? c then 1 else 0) [] rest) <= 2 * c).
  { apply (granted_span c u w); [lia|exact Hy|]. intros k. apply ideal_fixed_bound; [lia|destruct (0 <? c); lia]. }
  unfold granted_between in *. cbn [count]. destruct (_ && _ && _); lia.
Qed.
