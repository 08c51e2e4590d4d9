(** Correctness of the float64 detour [ceil(float(d) / float(w))]. *)
From Coq Require Import Reals Lra.
From Coq Require Import Floats.SpecFloat.
From Flocq Require Import Core BinarySingleNaN Relative.
From Verif Require Import Common Float64Model.
Local Open Scope Z_scope.

Lemma Hprec : Prec_gt_0 53. Proof. reflexivity. Qed.
Lemma Hmax : Prec_lt_emax 53 1024. Proof. reflexivity. Qed.
#[local] Existing Instance Hprec.
#[local] Existing Instance Hmax.

Notation fexp64 := (SpecFloat.fexp 53 1024).
Notation rnd := (round radix2 fexp64 ZnearestE).

Lemma fexp64_FLT : forall e, fexp64 e = FLT_exp (-1074) 53 e.
Proof. intros e. reflexivity. Qed.

#[local] Instance valid_fexp64 : Valid_exp fexp64.
Proof. apply (fexp_correct 53 1024). reflexivity. Qed.
#[local] Instance mono_fexp64 : Monotone_exp fexp64.
Proof. intros a b H. unfold SpecFloat.fexp. lia. Qed.

Lemma round_nearest_even_equiv s m l :
  SpecFloat.round_nearest_even m l = choice_mode mode_NE s m l.
Proof.
  case l; [reflexivity|intro c]. case c; [ | reflexivity..].
  now simpl; unfold Round.cond_incr; case Z.even.
Qed.

Lemma binary_round_aux_equiv sx mx ex lx :
  SpecFloat.binary_round_aux 53 1024 sx mx ex lx = binary_round_aux 53 1024 mode_NE sx mx ex lx.
Proof.
  unfold SpecFloat.binary_round_aux, binary_round_aux.
  set (mrse' := shr_fexp _ _ _ _ _). case mrse'; intros mrs' e'; simpl.
  now rewrite (round_nearest_even_equiv sx).
Qed.

Lemma binary_round_equiv s m e :
  SpecFloat.binary_round 53 1024 s m e = binary_round 53 1024 mode_NE s m e.
Proof.
  unfold SpecFloat.binary_round, binary_round, shl_align_fexp.
  set (mez := shl_align _ _ _); case mez as [mz ez]. apply binary_round_aux_equiv.
Qed.

(** ** Values *)
Notation val := (SF2R radix2).

Lemma rnd_mono x y : (x <= y)%R -> (rnd x <= rnd y)%R.
Proof. apply round_le; typeclasses eauto. Qed.

Lemma format_int z : (Z.abs z <= 2 ^ 53) -> generic_format radix2 fexp64 (IZR z).
Proof.
  intros Hz. destruct (Z.eq_dec (Z.abs z) (2 ^ 53)) as [E|E].
  - assert (Hb : generic_format radix2 fexp64 (bpow radix2 53)).
    { apply generic_format_bpow. unfold SpecFloat.fexp, SpecFloat.emin. lia. }
    rewrite <- (IZR_Zpower radix2 53) in Hb by lia. change (radix2 ^ 53) with (2 ^ 53) in Hb.
    destruct (Z.abs_eq_or_opp z) as [E2|E2].
    + rewrite <- E2, E. exact Hb.
    + replace z with (- (2 ^ 53)) by lia. rewrite opp_IZR. apply generic_format_opp. exact Hb.
  - apply generic_format_FLT. exists (Float radix2 z 0).
    + unfold F2R. cbn. ring.
    + cbn. change (Z.pow_pos 2 53) with (2 ^ 53). lia.
    + cbn. lia.
Qed.

Lemma rnd_int z : Z.abs z <= 2 ^ 53 -> rnd (IZR z) = IZR z.
Proof. intros H. apply round_generic; [typeclasses eauto|]. apply format_int. exact H. Qed.

(** Conversion of a positive int64. *)
Lemma of_int_pos z : 0 < z < 2 ^ 63 ->
  exists m e, f64_of_int z = S754_finite false m e /\ val (S754_finite false m e) = rnd (IZR z).
Proof.
  intros Hz. unfold f64_of_int. destruct z as [|p|p]; try lia.
  cbn [SpecFloat.binary_normalize]. rewrite binary_round_equiv.
  pose proof (binary_round_correct 53 1024 Hprec Hmax mode_NE false p 0) as H. cbn zeta in H.
  destruct H as [_ H]. cbn [cond_Zopp] in H.
  replace (F2R (Float radix2 (Z.pos p) 0)) with (IZR (Z.pos p)) in H by (unfold F2R; cbn; ring).
  assert (Hlo : (1 <= rnd (IZR (Z.pos p)))%R).
  { rewrite <- (rnd_int 1) by lia. apply rnd_mono. apply IZR_le. lia. }
  assert (Hhi : (rnd (IZR (Z.pos p)) <= bpow radix2 63)%R).
  { rewrite <- (round_generic radix2 fexp64 ZnearestE (bpow radix2 63)).
    - apply rnd_mono. rewrite <- (IZR_Zpower radix2 63) by lia. apply IZR_le.
      change (radix2 ^ 63) with (2 ^ 63). lia.
    - apply generic_format_bpow. unfold SpecFloat.fexp, SpecFloat.emin. lia. }
  cbn [round_mode] in H.
  rewrite Rlt_bool_true in H.
  2:{ rewrite Rabs_pos_eq by lra. apply Rle_lt_trans with (1 := Hhi). apply bpow_lt. lia. }
  destruct H as (Hv & Hf & Hs).
  destruct (binary_round 53 1024 mode_NE false p 0) as [s|s| |s m e]; try discriminate Hf.
  - cbn in Hv. lra.
  - cbn in Hs. subst s. exists m, e. split; [reflexivity|exact Hv].
Qed.

(** Division of two positive finite numbers with a quotient between 2^-64 and 2^63. *)
Lemma div_pos mx ex my ey :
  let x := val (S754_finite false mx ex) in
  let y := val (S754_finite false my ey) in
  (0 < y)%R -> (bpow radix2 (-64) <= x / y <= bpow radix2 63)%R ->
  exists m e, f64_div (S754_finite false mx ex) (S754_finite false my ey) = S754_finite false m e /\
    val (S754_finite false m e) = rnd (x / y).
Proof.
  intros x y Hy [Hlo Hhi].
  unfold f64_div, SFdiv.
  pose proof (Bdiv_correct_aux 53 1024 Hprec Hmax mode_NE false mx ex false my ey) as H. cbn zeta in H.
  destruct H as [_ H]. cbn [cond_Zopp xorb] in *.
  change (F2R (Float radix2 (Z.pos mx) ex)) with x in H.
  change (F2R (Float radix2 (Z.pos my) ey)) with y in H.
  destruct (SFdiv_core_binary 53 1024 (Z.pos mx) ex (Z.pos my) ey) as [[mz ez] lz].
  rewrite binary_round_aux_equiv. cbn [round_mode] in H.
  assert (Hlo' : (bpow radix2 (-64) <= rnd (x / y))%R).
  { rewrite <- (round_generic radix2 fexp64 ZnearestE (bpow radix2 (-64))).
    - apply rnd_mono. exact Hlo.
    - apply generic_format_bpow. unfold SpecFloat.fexp, SpecFloat.emin. lia. }
  assert (Hhi' : (rnd (x / y) <= bpow radix2 63)%R).
  { rewrite <- (round_generic radix2 fexp64 ZnearestE (bpow radix2 63)).
    - apply rnd_mono. exact Hhi.
    - apply generic_format_bpow. unfold SpecFloat.fexp, SpecFloat.emin. lia. }
  pose proof (bpow_gt_0 radix2 (-64)) as Hp.
  rewrite Rlt_bool_true in H.
  2:{ rewrite Rabs_pos_eq by lra. apply Rle_lt_trans with (1 := Hhi'). apply bpow_lt. lia. }
  destruct H as (Hv & Hf & Hs).
  destruct (binary_round_aux 53 1024 mode_NE false mz ez lz) as [s|s| |s m e]; try discriminate Hf.
  - change (0%R = rnd (x / y)) in Hv. lra.
  - cbn in Hs. subst s. exists m, e. split; [reflexivity|exact Hv].
Qed.

(** The integer ceiling from the real value. *)
Lemma ceil_val m e k : -2 ^ 63 <= k < 2 ^ 63 ->
  (IZR (k - 1) < val (S754_finite false m e) <= IZR k)%R ->
  f64_ceil_int64 (S754_finite false m e) = k.
Proof.
  intros Hk [Hlo Hhi].
  assert (Hc : ceil_scaled (Z.pos m) e = k).
  { unfold ceil_scaled. cbn in Hlo, Hhi. unfold F2R in Hlo, Hhi. cbn [Fnum Fexp] in Hlo, Hhi.
    destruct (Z.leb_spec 0 e).
    - rewrite <- IZR_Zpower in Hlo, Hhi by lia. rewrite <- mult_IZR in Hlo, Hhi.
      apply lt_IZR in Hlo. apply le_IZR in Hhi. change (Z.of_nat 2) with 2 in *.
      change (Zpower radix2 e) with (2 ^ e) in *. lia.
    - assert (Hpos : (0 < IZR (2 ^ (- e)))%R) by (apply IZR_lt; apply Z.pow_pos_nonneg; lia).
      assert (Hbp : (bpow radix2 e * IZR (2 ^ (- e)) = 1)%R).
      { change (2 ^ (- e)) with (Zpower radix2 (- e)). rewrite IZR_Zpower by lia.
        rewrite <- bpow_plus. replace (e + - e) with 0 by lia. reflexivity. }
      assert (H1 : (IZR ((k - 1) * 2 ^ (- e)) < IZR (Z.pos m))%R).
      { rewrite mult_IZR.
        replace (IZR (Z.pos m)) with (IZR (Z.pos m) * bpow radix2 e * IZR (2 ^ (- e)))%R
          by (rewrite Rmult_assoc, Hbp; ring).
        apply Rmult_lt_compat_r; assumption. }
      assert (H2 : (IZR (Z.pos m) <= IZR (k * 2 ^ (- e)))%R).
      { rewrite mult_IZR.
        replace (IZR (Z.pos m)) with (IZR (Z.pos m) * bpow radix2 e * IZR (2 ^ (- e)))%R
          by (rewrite Rmult_assoc, Hbp; ring).
        apply Rmult_le_compat_r; [lra|assumption]. }
      apply lt_IZR in H1. apply le_IZR in H2.
      assert (Hp2 : 0 < 2 ^ (- e)) by (apply Z.pow_pos_nonneg; lia).
      set (P := 2 ^ (- e)) in *.
      enough (- Z.pos m / P = - k) by lia.
      symmetry. apply (Z.div_unique (- Z.pos m) P (- k) (- Z.pos m + k * P)); [left; nia|lia]. }
  unfold f64_ceil_int64. rewrite Hc.
  destruct (Z.leb_spec (- 2 ^ 63) k); destruct (Z.ltb_spec k (2 ^ 63)); cbn; lia.
Qed.

(** Rounding never crosses the integer below when [j * w < 2^53]. *)
Lemma rnd_gt_int j w q :
  0 <= j <= 2 ^ 52 \/ 0 <= j < 2 ^ 53 -> 0 < w -> j * w < 2 ^ 53 ->
  (IZR j + / IZR w <= q)%R -> (bpow radix2 (-64) <= q)%R -> (IZR j < rnd q)%R.
Proof.
  intros Hj Hw Hjw Hq Hq64.
  assert (Hj' : 0 <= j < 2 ^ 53) by lia. clear Hj.
  destruct (Z.eq_dec j 0) as [->|Hj0].
  - apply Rlt_le_trans with (bpow radix2 (-64)); [apply bpow_gt_0|].
    rewrite <- (round_generic radix2 fexp64 ZnearestE (bpow radix2 (-64))).
    + apply rnd_mono. exact Hq64.
    + apply generic_format_bpow. unfold SpecFloat.fexp, SpecFloat.emin. lia.
  - assert (Fj : generic_format radix2 fexp64 (IZR j)) by (apply format_int; lia).
    assert (Hjp : (0 < IZR j)%R) by (apply IZR_lt; lia).
    assert (Hwp : (0 < IZR w)%R) by (apply IZR_lt; lia).
    assert (Hsucc : succ radix2 fexp64 (IZR j) = (IZR j + ulp radix2 fexp64 (IZR j))%R).
    { apply succ_eq_pos. lra. }
    assert (Hulp : (ulp radix2 fexp64 (IZR j) <= IZR j * bpow radix2 (1 - 53))%R).
    { rewrite <- (Rabs_pos_eq (IZR j)) at 2 by lra.
      change fexp64 with (FLT_exp (-1074) 53). apply ulp_FLT_le.
      rewrite Rabs_pos_eq by lra. apply Rle_trans with 1%R.
      - change 1%R with (bpow radix2 0). apply bpow_le. lia.
      - apply (IZR_le 1). lia. }
    apply Rlt_le_trans with (succ radix2 fexp64 (IZR j)).
    { apply succ_gt_id. lra. }
    apply round_N_ge_midp; [typeclasses eauto|apply generic_format_succ; [typeclasses eauto|exact Fj]|].
    rewrite pred_succ by (typeclasses eauto || exact Fj).
    rewrite Hsucc.
    apply Rlt_le_trans with (IZR j + / IZR w)%R; [|exact Hq].
    assert (Hkey : (IZR j * bpow radix2 (1 - 53) / 2 < / IZR w)%R).
    { replace (bpow radix2 (1 - 53)) with (2 * / IZR (2 ^ 53))%R.
      2:{ change (2 ^ 53) with (Zpower radix2 53). rewrite IZR_Zpower by lia.
          rewrite <- bpow_opp. change 2%R with (bpow radix2 1). rewrite <- bpow_plus. reflexivity. }
      assert (HP : (0 < IZR (2 ^ 53))%R) by (apply IZR_lt; lia).
      replace (IZR j * (2 * / IZR (2 ^ 53)) / 2)%R with (IZR j * / IZR (2 ^ 53))%R by (field; lra).
      apply Rmult_lt_reg_r with (IZR (2 ^ 53)); [exact HP|].
      rewrite Rmult_assoc, Rinv_l, Rmult_1_r by lra.
      apply Rmult_lt_reg_l with (IZR w); [exact Hwp|].
      rewrite <- Rmult_assoc, Rinv_r, Rmult_1_l by lra.
      rewrite <- mult_IZR. apply IZR_lt. lia. }
    lra.
Qed.

Lemma bpow64_le d y : (1 <= IZR d)%R -> (0 < y <= bpow radix2 63)%R -> (bpow radix2 (-64) <= IZR d / y)%R.
Proof.
  intros Hd [Hy0 Hy].
  apply Rmult_le_reg_r with y; [exact Hy0|].
  unfold Rdiv. rewrite Rmult_assoc, Rinv_l, Rmult_1_r by lra.
  apply Rle_trans with (bpow radix2 (-64) * bpow radix2 63)%R.
  - apply Rmult_le_compat_l; [apply bpow_ge_0|exact Hy].
  - rewrite <- bpow_plus. apply Rle_trans with 1%R; [|exact Hd].
    change 1%R with (bpow radix2 0). apply bpow_le. lia.
Qed.

Lemma rnd_of_int_bounds w : 0 < w < 2 ^ 63 -> (1 <= rnd (IZR w) <= bpow radix2 63)%R.
Proof.
  intros Hw. split.
  - rewrite <- (rnd_int 1) by lia. apply rnd_mono. apply IZR_le. lia.
  - rewrite <- (round_generic radix2 fexp64 ZnearestE (bpow radix2 63)).
    + apply rnd_mono. rewrite <- (IZR_Zpower radix2 63) by lia. apply IZR_le.
      change (radix2 ^ 63) with (2 ^ 63). lia.
    + apply generic_format_bpow. unfold SpecFloat.fexp, SpecFloat.emin. lia.
Qed.

(** The detour is exact for distances below 2^53. *)
Theorem ceil_div_exact d w : 0 < d < 2 ^ 53 -> 0 < w < 2 ^ 63 ->
  f64_ceil_int64 (f64_div (f64_of_int d) (f64_of_int w)) = (d + w - 1) / w.
Proof.
  intros Hd Hw.
  destruct (of_int_pos d ltac:(lia)) as (mx & ex & -> & Hx).
  destruct (of_int_pos w Hw) as (my & ey & -> & Hy).
  rewrite rnd_int in Hx by lia.
  pose proof (rnd_of_int_bounds w Hw) as Hyb. rewrite <- Hy in Hyb.
  assert (Hdp : (1 <= IZR d)%R) by (apply (IZR_le 1); lia).
  assert (Hlo : (bpow radix2 (-64) <= IZR d / val (S754_finite false my ey))%R).
  { apply bpow64_le; lra. }
  assert (Hq0 : (0 < IZR d / val (S754_finite false my ey))%R).
  { pose proof (bpow_gt_0 radix2 (-64)). lra. }
  assert (Hhi : (IZR d / val (S754_finite false my ey) <= IZR d)%R).
  { apply Rmult_le_reg_r with (val (S754_finite false my ey)); [lra|].
    unfold Rdiv. rewrite Rmult_assoc, Rinv_l, Rmult_1_r by lra.
    rewrite <- (Rmult_1_r (IZR d)) at 1. apply Rmult_le_compat_l; lra. }
  assert (Hd53 : (IZR d <= bpow radix2 63)%R).
  { rewrite <- (IZR_Zpower radix2 63) by lia. apply IZR_le. change (radix2 ^ 63) with (2 ^ 63). lia. }
  destruct (div_pos mx ex my ey) as (mq & eq & Heq & Hv).
  { lra. }
  { rewrite Hx. lra. }
  rewrite Heq. rewrite Hx in Hv.
  set (k := (d + w - 1) / w).
  assert (Hk : (k - 1) * w < d <= k * w).
  { unfold k. pose proof (Z.div_mod (d + w - 1) w ltac:(lia)). pose proof (Z.mod_pos_bound (d + w - 1) w ltac:(lia)). nia. }
  assert (Hk1 : 1 <= k <= d) by nia.
  apply ceil_val; [lia|]. rewrite Hv.
  destruct (Z.lt_ge_cases w (2 ^ 53)) as [Hw53|Hw53].
  - (* w exact *)
    rewrite rnd_int in Hy by lia. rewrite Hy in *.
    assert (Hwp : (0 < IZR w)%R) by (apply IZR_lt; lia).
    split.
    + apply (rnd_gt_int (k - 1) w); try lia; [|exact Hlo].
      apply Rmult_le_reg_r with (IZR w); [exact Hwp|].
      unfold Rdiv. rewrite Rmult_assoc, Rinv_l, Rmult_1_r by lra.
      rewrite Rmult_plus_distr_r, Rinv_l by lra. rewrite <- mult_IZR. rewrite <- (plus_IZR _ 1).
      apply IZR_le. lia.
    + rewrite <- (rnd_int k) by lia. apply rnd_mono.
      apply Rmult_le_reg_r with (IZR w); [exact Hwp|].
      unfold Rdiv. rewrite Rmult_assoc, Rinv_l, Rmult_1_r by lra.
      rewrite <- mult_IZR. apply IZR_le. lia.
  - (* w so large that the quotient is below one *)
    assert (k = 1) as -> by nia.
    assert (Hy53 : (IZR (2 ^ 53) <= val (S754_finite false my ey))%R).
    { rewrite Hy. rewrite <- (rnd_int (2 ^ 53)) by lia. apply rnd_mono. apply IZR_le. lia. }
    split.
    + apply (rnd_gt_int 0 (2 ^ 63)); try lia; [|exact Hlo].
      rewrite Rplus_0_l. replace (/ IZR (2 ^ 63))%R with (bpow radix2 (-63)).
      * apply Rmult_le_reg_r with (val (S754_finite false my ey)); [lra|].
        unfold Rdiv. rewrite Rmult_assoc, Rinv_l, Rmult_1_r by lra.
        apply Rle_trans with (bpow radix2 (-63) * bpow radix2 63)%R.
        -- apply Rmult_le_compat_l; [apply bpow_ge_0|lra].
        -- rewrite <- bpow_plus. cbn. lra.
      * change (2 ^ 63) with (Zpower radix2 63). rewrite IZR_Zpower by lia. rewrite <- bpow_opp. reflexivity.
    + rewrite <- (rnd_int 1) by lia. apply rnd_mono.
      apply Rmult_le_reg_r with (val (S754_finite false my ey)); [lra|].
      unfold Rdiv. rewrite Rmult_assoc, Rinv_l, Rmult_1_r, Rmult_1_l by lra.
      apply Rle_trans with (2 := Hy53). apply IZR_le. lia.
Qed.

(** In general the detour is off by a relative error below 2^-51. *)
Lemma rel_err x : (bpow radix2 (-100) <= x)%R ->
  exists eps, (Rabs eps <= bpow radix2 (-53))%R /\ rnd x = (x * (1 + eps))%R.
Proof.
  intros Hx.
  destruct (relative_error_N_FLT_ex radix2 (-1074) 53 Hprec (fun z => negb (Z.even z)) x) as (eps & He & Hr).
  - rewrite Rabs_pos_eq.
    + apply Rle_trans with (2 := Hx). apply bpow_le. lia.
    + pose proof (bpow_gt_0 radix2 (-100)). lra.
  - exists eps. split; [|exact Hr].
    replace (bpow radix2 (-53)) with (/ 2 * bpow radix2 (- 53 + 1))%R; [exact He|].
    change (/ 2)%R with (bpow radix2 (-1)). rewrite <- bpow_plus. reflexivity.
Qed.

Theorem ceil_div_error d w : 0 < d < 2 ^ 62 -> 0 < w < 2 ^ 62 ->
  let k := f64_ceil_int64 (f64_div (f64_of_int d) (f64_of_int w)) in
  0 < k <= 2 ^ 62 /\ d - 2 ^ 11 <= k * w < d + w + 2 ^ 11.
Proof.
  intros Hd Hw.
  destruct (of_int_pos d ltac:(lia)) as (mx & ex & -> & Hx).
  destruct (of_int_pos w ltac:(lia)) as (my & ey & -> & Hy).
  pose proof (rnd_of_int_bounds w ltac:(lia)) as Hyb. rewrite <- Hy in Hyb.
  assert (Hxb : (1 <= val (S754_finite false mx ex) <= bpow radix2 62)%R).
  { rewrite Hx. split.
    - rewrite <- (rnd_int 1) by lia. apply rnd_mono. apply IZR_le. lia.
    - rewrite <- (round_generic radix2 fexp64 ZnearestE (bpow radix2 62)).
      + apply rnd_mono. rewrite <- (IZR_Zpower radix2 62) by lia. apply IZR_le.
        change (radix2 ^ 62) with (2 ^ 62). lia.
      + apply generic_format_bpow. unfold SpecFloat.fexp, SpecFloat.emin. lia. }
  set (x := val (S754_finite false mx ex)) in *. set (y := val (S754_finite false my ey)) in *.
  assert (Hqb : (bpow radix2 (-64) <= x / y <= bpow radix2 62)%R).
  { split.
    - apply Rmult_le_reg_r with y; [lra|].
      unfold Rdiv. rewrite Rmult_assoc, Rinv_l, Rmult_1_r by lra.
      apply Rle_trans with (bpow radix2 (-64) * bpow radix2 63)%R.
      + apply Rmult_le_compat_l; [apply bpow_ge_0|lra].
      + rewrite <- bpow_plus. apply Rle_trans with 1%R; [|lra].
        change 1%R with (bpow radix2 0). apply bpow_le. lia.
    - apply Rle_trans with x; [|lra].
      apply Rmult_le_reg_r with y; [lra|].
      unfold Rdiv. rewrite Rmult_assoc, Rinv_l, Rmult_1_r by lra.
      rewrite <- (Rmult_1_r x) at 1. apply Rmult_le_compat_l; lra. }
  destruct (div_pos mx ex my ey) as (mq & eq & Heq & Hv).
  { fold y. lra. }
  { fold x y. split; [lra|]. apply Rle_trans with (bpow radix2 62); [lra|apply bpow_le; lia]. }
  fold x y in Hv. rewrite Heq.
  set (q := val (S754_finite false mq eq)) in *.
  assert (Hq62 : (q <= IZR (2 ^ 62))%R).
  { rewrite Hv. change (2 ^ 62) with (Zpower radix2 62). rewrite IZR_Zpower by lia.
    rewrite <- (round_generic radix2 fexp64 ZnearestE (bpow radix2 62)).
    - apply rnd_mono. lra.
    - apply generic_format_bpow. unfold SpecFloat.fexp, SpecFloat.emin. lia. }
  assert (Hq0 : (0 < q)%R).
  { rewrite Hv. apply Rlt_le_trans with (bpow radix2 (-64)); [apply bpow_gt_0|].
    rewrite <- (round_generic radix2 fexp64 ZnearestE (bpow radix2 (-64))).
    - apply rnd_mono. lra.
    - apply generic_format_bpow. unfold SpecFloat.fexp, SpecFloat.emin. lia. }
  assert (Hkb : 0 < Zceil q <= 2 ^ 62).
  { split.
    - apply lt_IZR. apply Rlt_le_trans with q; [exact Hq0|apply Zceil_ub].
    - apply Zceil_glb. exact Hq62. }
  assert (Hk : f64_ceil_int64 (S754_finite false mq eq) = Zceil q).
  { apply ceil_val; [lia|]. fold q. split; [|apply Zceil_ub].
    rewrite minus_IZR. pose proof (Zceil_lb q). lra. }
  cbn zeta. rewrite Hk. split; [exact Hkb|].
  (* error analysis *)
  destruct (rel_err (IZR d)) as (e1 & He1 & Hr1).
  { apply Rle_trans with (bpow radix2 0); [apply bpow_le; lia|]. apply (IZR_le 1). lia. }
  destruct (rel_err (IZR w)) as (e2 & He2 & Hr2).
  { apply Rle_trans with (bpow radix2 0); [apply bpow_le; lia|]. apply (IZR_le 1). lia. }
  destruct (rel_err (x / y)) as (e3 & He3 & Hr3).
  { apply Rle_trans with (bpow radix2 (-64)); [apply bpow_le; lia|]. lra. }
  rewrite <- Hx in Hr1. rewrite <- Hy in Hr2. rewrite <- Hv in Hr3.
  set (u := bpow radix2 (-53)) in *.
  assert (Hu : (0 < u <= / 1000)%R).
  { unfold u. split; [apply bpow_gt_0|]. apply Rle_trans with (bpow radix2 (-10)); [apply bpow_le; lia|].
    cbn. lra. }
  apply Rabs_le_inv in He1, He2, He3.
  assert (Hwp : (1 <= IZR w)%R) by (apply (IZR_le 1); lia).
  assert (Hdp : (1 <= IZR d)%R) by (apply (IZR_le 1); lia).
  (* q * w * (1 + e2) = d (1 + e1) (1 + e3) *)
  assert (Hqw : (q * IZR w * (1 + e2) = IZR d * (1 + e1) * (1 + e3))%R).
  { rewrite Hr3. replace (x / y * (1 + e3) * IZR w * (1 + e2))%R with (x * (1 + e3) * ((IZR w * (1 + e2)) / y))%R
      by (field; lra).
    rewrite <- Hr2. unfold Rdiv. rewrite Rinv_r by lra. rewrite Hr1. ring. }
  assert (Hqw0 : (0 < q * IZR w)%R) by (apply Rmult_lt_0_compat; lra).
  assert (Hd4 : (IZR d * u <= 512)%R).
  { apply Rle_trans with (bpow radix2 62 * u)%R.
    - apply Rmult_le_compat_r; [lra|]. rewrite <- (IZR_Zpower radix2 62) by lia. apply IZR_le.
      change (radix2 ^ 62) with (2 ^ 62). lia.
    - unfold u. rewrite <- bpow_plus. cbn. lra. }
  assert (Hprod : ((1 - u) * (1 - u) <= (1 + e1) * (1 + e3) <= (1 + u) * (1 + u))%R).
  { split; apply Rmult_le_compat; lra. }
  assert (Hduu : (0 <= IZR d * u * u <= 512 * / 1000)%R).
  { split; [repeat apply Rmult_le_pos; lra|]. apply Rmult_le_compat; try lra. apply Rmult_le_pos; lra. }
  assert (Hlow : (IZR d - 2048 <= q * IZR w)%R).
  { apply Rnot_lt_le. intros Hc.
    assert (Hdp' : (0 < IZR d - 2048)%R) by lra.
    assert (q * IZR w * (1 + e2) <= q * IZR w * (1 + u))%R by (apply Rmult_le_compat_l; lra).
    assert (q * IZR w * (1 + u) < (IZR d - 2048) * (1 + u))%R by (apply Rmult_lt_compat_r; lra).
    assert (IZR d * ((1 - u) * (1 - u)) <= IZR d * ((1 + e1) * (1 + e3)))%R by (apply Rmult_le_compat_l; lra).
    lra. }
  assert (Hup : (q * IZR w < IZR d + 2048)%R).
  { apply Rnot_le_lt. intros Hc.
    assert (q * IZR w * (1 - u) <= q * IZR w * (1 + e2))%R by (apply Rmult_le_compat_l; lra).
    assert ((IZR d + 2048) * (1 - u) <= q * IZR w * (1 - u))%R by (apply Rmult_le_compat_r; lra).
    assert (IZR d * ((1 + e1) * (1 + e3)) <= IZR d * ((1 + u) * (1 + u)))%R by (apply Rmult_le_compat_l; lra).
    lra. }
  split.
  - apply le_IZR. rewrite minus_IZR, mult_IZR. change (IZR (2 ^ 11)) with 2048%R.
    apply Rle_trans with (1 := Hlow). apply Rmult_le_compat_r; [lra|apply Zceil_ub].
  - apply lt_IZR. rewrite !plus_IZR, mult_IZR. change (IZR (2 ^ 11)) with 2048%R.
    pose proof (Zceil_lb q) as Hcl.
    apply Rlt_trans with ((q + 1) * IZR w)%R; [apply Rmult_lt_compat_r; lra|]. lra.
Qed.
