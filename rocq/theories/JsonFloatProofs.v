(** Proofs about rounding and about the texts of float64 numbers. *)
From Verif Require Import Common Bytes ProcsModel ProcsSpec ProcsProofs ConfNamesProofs ConfsModel ConfsProofs JsonModel JsonSpec JsonProofs JsonEncode JsonFloatModel JsonFloatSpec.
From Coq Require Import QArith Qround Qabs Qpower Lqa Lia.
Local Open Scope string_scope.
Local Open Scope list_scope.
Local Open Scope Z_scope.
Local Notation chr := String.String.

(** * Powers *)

Lemma pow2_pos e : (0 < pow2 e)%Q.
Proof. apply Qpower_0_lt. reflexivity. Qed.
Lemma pow2_plus a b : (pow2 (a + b) == pow2 a * pow2 b)%Q.
Proof. apply Qpower_plus. discriminate. Qed.
Lemma pow2_le a b : a <= b -> (pow2 a <= pow2 b)%Q.
Proof. intros H. apply Qpower_le_compat_l; [exact H|discriminate]. Qed.
Lemma pow2_lt_inv a b : (pow2 a < pow2 b)%Q -> a < b.
Proof. intros H. apply (Qpower_lt_compat_l_inv 2); [exact H|reflexivity]. Qed.
Lemma pow2_Z n : 0 <= n -> (pow2 n == inject_Z (2 ^ n))%Q.
Proof. intros H. unfold pow2. change (2 # 1) with (inject_Z 2). now rewrite Zpower_Qpower. Qed.
Lemma pow10_pos e : (0 < pow10 e)%Q.
Proof. apply Qpower_0_lt. reflexivity. Qed.
Lemma pow10_plus a b : (pow10 (a + b) == pow10 a * pow10 b)%Q.
Proof. apply Qpower_plus. discriminate. Qed.
Lemma pow10_le a b : a <= b -> (pow10 a <= pow10 b)%Q.
Proof. intros H. apply Qpower_le_compat_l; [exact H|discriminate]. Qed.
Lemma pow10_lt_inv a b : (pow10 a < pow10 b)%Q -> a < b.
Proof. intros H. apply (Qpower_lt_compat_l_inv 10); [exact H|reflexivity]. Qed.
Lemma pow10_Z n : 0 <= n -> (pow10 n == inject_Z (10 ^ n))%Q.
Proof. intros H. unfold pow10. change (10 # 1) with (inject_Z 10). now rewrite Zpower_Qpower. Qed.

Lemma qdiv_mul x p : (0 < p)%Q -> (x / p * p == x)%Q.
Proof. intros H. field. intros E. rewrite E in H. discriminate H. Qed.

Lemma inj_succ z : (inject_Z (z + 1) == inject_Z z + 1)%Q.
Proof. rewrite inject_Z_plus. reflexivity. Qed.

(** * The nearest integer *)

Section HalfEven.
Variable y : Q.
Let q := Qfloor y.
Lemma floor_bounds : (inject_Z q <= y /\ y < inject_Z q + 1)%Q.
Proof. split; [apply Qfloor_le|]. pose proof (Qlt_floor y) as H. fold q in H. rewrite inj_succ in H. exact H. Qed.

Lemma half_even_cases :
  (half_even y = q /\ (y - inject_Z q < 1 # 2)%Q) \/ (half_even y = q + 1 /\ (1 # 2 < y - inject_Z q)%Q) \/
  ((y - inject_Z q == 1 # 2)%Q /\ Z.even (half_even y) = true /\ (half_even y = q \/ half_even y = q + 1)).
Proof.
  unfold half_even. fold q. destruct (Qcompare_spec (y - inject_Z q) (1 # 2)) as [E|L|G].
  - right. right. split; [exact E|]. destruct (Z.even q) eqn:V; [auto|]. split; [|auto]. rewrite Z.even_add, V. reflexivity.
  - left. auto.
  - right. left. auto.
Qed.
Lemma half_even_near : (y - (1 # 2) <= inject_Z (half_even y) <= y + (1 # 2))%Q.
Proof.
  pose proof floor_bounds as [F1 F2]. destruct half_even_cases as [[E L]|[[E L]|(L & _ & [E|E])]]; rewrite E, ?inj_succ; split; lra.
Qed.
Lemma int_le_floor k : (inject_Z k <= y)%Q -> k <= q.
Proof. intros H. pose proof floor_bounds as [_ F]. assert (L : (inject_Z k < inject_Z (q + 1))%Q) by (rewrite inj_succ; lra). rewrite <- Zlt_Qlt in L. lia. Qed.
Lemma int_gt_floor k : (y < inject_Z k)%Q -> q + 1 <= k.
Proof. intros H. pose proof floor_bounds as [F _]. assert (L : (inject_Z q < inject_Z k)%Q) by lra. rewrite <- Zlt_Qlt in L. lia. Qed.
(** No integer is nearer; if one is as near, the chosen one is even. *)
Lemma half_even_best k : (Qabs (y - inject_Z (half_even y)) <= Qabs (y - inject_Z k))%Q /\
  (Qabs (y - inject_Z (half_even y)) == Qabs (y - inject_Z k) -> k = half_even y \/ Z.even (half_even y) = true)%Q.
Proof.
  pose proof floor_bounds as [F1 F2].
  assert (D : (k <= q /\ (inject_Z k <= inject_Z q)%Q) \/ (q + 1 <= k /\ (inject_Z q + 1 <= inject_Z k)%Q)).
  { destruct (Z_le_gt_dec k q) as [L|L]; [left|right]; (split; [lia|]).
    - now rewrite <- Zle_Qle.
    - change (inject_Z q + 1)%Q with (inject_Z q + inject_Z 1)%Q. rewrite <- inject_Z_plus, <- Zle_Qle. lia. }
  assert (I1 : (inject_Z (q + 1) == inject_Z q + 1)%Q) by apply inj_succ.
  destruct half_even_cases as [[E L]|[[E L]|(L & V & E)]].
  - rewrite E. rewrite (Qabs_pos (y - inject_Z q)) by lra. split.
    + destruct D as [[_ D]|[_ D]]; [rewrite Qabs_pos by lra; lra|rewrite Qabs_neg by lra; lra].
    + intros T. left. destruct D as [[D' D]|[D' D]]; [rewrite Qabs_pos in T by lra|rewrite Qabs_neg in T by lra; exfalso; lra].
      assert (K : (inject_Z q <= inject_Z k)%Q) by lra. rewrite <- Zle_Qle in K. lia.
  - rewrite E, I1. rewrite (Qabs_neg (y - (inject_Z q + 1))) by lra. split.
    + destruct D as [[_ D]|[_ D]]; [rewrite Qabs_pos by lra; lra|rewrite Qabs_neg by lra; lra].
    + intros T. left. destruct D as [[D' D]|[D' D]]; [rewrite Qabs_pos in T by lra; exfalso; lra|rewrite Qabs_neg in T by lra].
      assert (K : (inject_Z k <= inject_Z (q + 1))%Q) by lra. rewrite <- Zle_Qle in K. lia.
  - split; [|auto]. assert (A : (Qabs (y - inject_Z (half_even y)) == 1 # 2)%Q).
    { destruct E as [E|E]; rewrite E, ?I1; [rewrite Qabs_pos by lra; lra|rewrite Qabs_neg by lra; lra]. }
    rewrite A. destruct D as [[_ D]|[_ D]]; [rewrite Qabs_pos by lra; lra|rewrite Qabs_neg by lra; lra].
Qed.
End HalfEven.

Lemma half_even_mono y1 y2 : (y1 <= y2)%Q -> half_even y1 <= half_even y2.
Proof.
  intros H. pose proof (Qfloor_resp_le _ _ H) as F.
  pose proof (half_even_cases y1) as C1. pose proof (half_even_cases y2) as C2.
  destruct (Z.eq_dec (Qfloor y1) (Qfloor y2)) as [E|E].
  - rewrite <- E in C2.
    destruct C1 as [[E1 L1]|[[E1 L1]|(L1 & V1 & E1)]], C2 as [[E2 L2]|[[E2 L2]|(L2 & V2 & E2)]]; try lia; try (exfalso; lra).
    destruct E1 as [E1|E1], E2 as [E2|E2]; try lia. exfalso. rewrite E1, Z.even_add in V1. rewrite E2 in V2. rewrite V2 in V1. discriminate.
  - assert (half_even y1 <= Qfloor y1 + 1) by (destruct C1 as [[-> _]|[[-> _]|(_ & _ & [->| ->])]]; lia).
    assert (Qfloor y2 <= half_even y2) by (destruct C2 as [[-> _]|[[-> _]|(_ & _ & [->| ->])]]; lia). lia.
Qed.
Lemma half_even_eq y1 y2 : (y1 == y2)%Q -> half_even y1 = half_even y2.
Proof. intros H. apply Z.le_antisymm; apply half_even_mono; rewrite H; apply Qle_refl. Qed.
Lemma half_even_int y k : (y == inject_Z k)%Q -> half_even y = k.
Proof.
  intros H. destruct (half_even_near y) as [A B].
  assert (A' : (inject_Z k < inject_Z (half_even y + 1))%Q) by (rewrite inj_succ; lra).
  assert (B' : (inject_Z (half_even y) < inject_Z (k + 1))%Q) by (rewrite inj_succ; lra).
  rewrite <- Zlt_Qlt in A', B'. lia.
Qed.

(** * Magnitudes *)

Lemma log2_bounds n : 0 < n -> (pow2 (Z.log2 n) <= inject_Z n /\ inject_Z n < pow2 (Z.log2 n + 1))%Q.
Proof.
  intros H. pose proof (Z.log2_spec n H) as [A B]. pose proof (Z.log2_nonneg n).
  rewrite !pow2_Z by lia. split; [rewrite <- Zle_Qle; exact A|rewrite <- Zlt_Qlt; exact B].
Qed.
Lemma magnitude_spec x : (0 < x)%Q -> (pow2 (magnitude x - 1) <= x /\ x < pow2 (magnitude x))%Q.
Proof.
  intros H. assert (N : 0 < Qnum x) by (unfold Qlt in H; cbn in H; lia).
  destruct (log2_bounds _ N) as [N1 N2]. destruct (log2_bounds (Zpos (Qden x)) eq_refl) as [D1 D2].
  set (n := Z.log2 (Qnum x)) in *. set (d := Z.log2 (Zpos (Qden x))) in *.
  assert (E : (x * inject_Z (Zpos (Qden x)) == inject_Z (Qnum x))%Q).
  { destruct x as [a b]. unfold Qeq. cbn. rewrite ?Pos.mul_1_r. lia. }
  assert (U : (x < pow2 (n - d + 1))%Q).
  { apply Qmult_lt_r with (z := pow2 d); [apply pow2_pos|]. rewrite <- pow2_plus. replace (n - d + 1 + d) with (n + 1) by ring.
    eapply Qle_lt_trans; [|exact N2]. rewrite <- E. rewrite !(Qmult_comm x). apply Qmult_le_compat_r; [exact D1|lra]. }
  assert (L : (pow2 (n - d - 1) <= x)%Q).
  { apply Qmult_le_r with (z := pow2 (d + 1)); [apply pow2_pos|]. rewrite <- pow2_plus. replace (n - d - 1 + (d + 1)) with n by ring.
    eapply Qle_trans; [exact N1|]. rewrite <- E. rewrite !(Qmult_comm x). apply Qmult_le_compat_r; [lra|lra]. }
  unfold magnitude. fold n d. destruct (Qle_bool (pow2 (n - d)) x) eqn:B.
  - apply Qle_bool_iff in B. replace (n - d + 1 - 1) with (n - d) by ring. auto.
  - split; [exact L|]. apply Qnot_le_lt. intros C. apply Qle_bool_iff in C. congruence.
Qed.
Lemma magnitude_unique x a : (pow2 (a - 1) <= x)%Q -> (x < pow2 a)%Q -> magnitude x = a.
Proof.
  intros A B. assert (P : (0 < x)%Q) by (pose proof (pow2_pos (a - 1)); lra). destruct (magnitude_spec x P) as [C D].
  assert (a - 1 < magnitude x) by (apply pow2_lt_inv; lra). assert (magnitude x - 1 < a) by (apply pow2_lt_inv; lra). lia.
Qed.
Lemma magnitude_eq x x' : (0 < x)%Q -> (x == x')%Q -> magnitude x = magnitude x'.
Proof. intros H E. symmetry. apply magnitude_unique; destruct (magnitude_spec x H); rewrite <- E; assumption. Qed.
Lemma magnitude_mono x x' : (0 < x)%Q -> (x <= x')%Q -> magnitude x <= magnitude x'.
Proof.
  intros H L. destruct (magnitude_spec x H) as [A _]. assert (H' : (0 < x')%Q) by lra. destruct (magnitude_spec x' H') as [_ B].
  assert (magnitude x - 1 < magnitude x') by (apply pow2_lt_inv; lra). lia.
Qed.

(** * Rounding *)

Definition val (p : Z * Z) : Q := (inject_Z (fst p) * pow2 (snd p))%Q.
Definition canonical64 (p : Z * Z) : Prop := 0 <= fst p < 2 ^ 53 /\ -1074 <= snd p /\ (fst p < 2 ^ 52 -> snd p = -1074).
(** The exponent used for [x]. *)
Definition scale (x : Q) : Z := Z.max (-1074) (magnitude x - 53).

Lemma scale_bounds x : (0 < x)%Q -> (x < pow2 53 * pow2 (scale x))%Q /\ (-1074 < scale x -> (pow2 52 * pow2 (scale x) <= x)%Q) /\ -1074 <= scale x.
Proof.
  intros H. destruct (magnitude_spec x H) as [A B]. unfold scale. rewrite <- !pow2_plus. split; [|split; [|lia]].
  - eapply Qlt_le_trans; [exact B|]. apply pow2_le. lia.
  - intros L. eapply Qle_trans; [|exact A]. apply pow2_le. lia.
Qed.
Lemma scaled_bounds x : (0 < x)%Q -> (0 < x / pow2 (scale x))%Q /\ (x / pow2 (scale x) < inject_Z (2 ^ 53))%Q /\
  (-1074 < scale x -> (inject_Z (2 ^ 52) <= x / pow2 (scale x))%Q).
Proof.
  intros H. destruct (scale_bounds x H) as (A & B & _). pose proof (pow2_pos (scale x)) as P. rewrite <- !pow2_Z by lia. split; [|split].
  - apply Qlt_shift_div_l; [exact P|]. lra.
  - apply Qlt_shift_div_r; [exact P|]. exact A.
  - intros L. apply Qle_shift_div_l; [exact P|]. exact (B L).
Qed.

Definition zero64 : Z * Z := (0, -1074).
Lemma val_zero : (val zero64 == 0)%Q.
Proof. apply Qmult_0_l. Qed.
Lemma nearest_zero x : (x <= 0)%Q -> nearest x = zero64.
Proof. intros H. unfold nearest. destruct (Z.leb_spec (Qnum x) 0) as [L|L]; [reflexivity|]. unfold Qle in H. cbn in H. lia. Qed.
Lemma nearest_pos x : (0 < x)%Q -> nearest x = (let q := half_even (x / pow2 (scale x)) in if q =? 2 ^ 53 then (2 ^ 52, scale x + 1) else (q, scale x)).
Proof. intros H. unfold nearest. destruct (Z.leb_spec (Qnum x) 0) as [L|L]; [|reflexivity]. unfold Qlt in H. cbn in H. lia. Qed.

Lemma rounded_bounds x : (0 < x)%Q -> 0 <= half_even (x / pow2 (scale x)) <= 2 ^ 53 /\ (-1074 < scale x -> 2 ^ 52 <= half_even (x / pow2 (scale x))).
Proof.
  intros H. destruct (scaled_bounds x H) as (A & B & C). split; [split|].
  - rewrite <- (half_even_int (inject_Z 0) 0 (Qeq_refl _)) at 1. apply half_even_mono. apply Qlt_le_weak, A.
  - eapply Z.le_trans; [apply half_even_mono, Qlt_le_weak, B|]. rewrite (half_even_int _ (2 ^ 53) (Qeq_refl _)). lia.
  - intros L. rewrite <- (half_even_int (inject_Z (2 ^ 52)) (2 ^ 52) (Qeq_refl _)) at 1. apply half_even_mono, C, L.
Qed.
Lemma nearest_val x : (0 < x)%Q -> (val (nearest x) == inject_Z (half_even (x / pow2 (scale x))) * pow2 (scale x))%Q.
Proof.
  intros H. rewrite (nearest_pos x H). cbv zeta. destruct (Z.eqb_spec (half_even (x / pow2 (scale x))) (2 ^ 53)) as [E|E]; [|reflexivity].
  unfold val. cbn [fst snd]. rewrite E, <- !pow2_Z, <- !pow2_plus by lia. replace (52 + (scale x + 1)) with (53 + scale x) by ring. reflexivity.
Qed.
Lemma nearest_canonical x : canonical64 (nearest x).
Proof.
  destruct (Qlt_le_dec 0 x) as [H|H]; [|rewrite (nearest_zero x H); unfold canonical64, zero64; cbn [fst snd]; lia].
  rewrite (nearest_pos x H). cbv zeta. destruct (rounded_bounds x H) as [A B]. destruct (scale_bounds x H) as (_ & _ & C).
  destruct (Z.eqb_spec (half_even (x / pow2 (scale x))) (2 ^ 53)) as [E|E]; unfold canonical64; cbn [fst snd]; [lia|].
  split; [lia|]. split; [exact C|]. intros L. destruct (Z_lt_le_dec (-1074) (scale x)) as [G|G]; [specialize (B G); lia|lia].
Qed.
Lemma nearest_eq x x' : (x == x')%Q -> nearest x = nearest x'.
Proof.
  intros E. destruct (Qlt_le_dec 0 x) as [H|H].
  - assert (H' : (0 < x')%Q) by now rewrite <- E. rewrite !nearest_pos by assumption.
    assert (S : scale x = scale x') by (unfold scale; now rewrite (magnitude_eq x x' H E)). rewrite S.
    rewrite (half_even_eq (x / pow2 (scale x')) (x' / pow2 (scale x'))); [reflexivity|]. now rewrite E.
  - assert (H' : (x' <= 0)%Q) by now rewrite <- E. now rewrite !nearest_zero.
Qed.

Lemma val_nonneg p : canonical64 p -> (0 <= val p)%Q.
Proof.
  intros [H _]. unfold val. apply Qmult_le_0_compat; [|apply Qlt_le_weak, pow2_pos]. change 0%Q with (inject_Z 0). rewrite <- Zle_Qle. lia.
Qed.

Lemma abs_scaled a b p : (0 < p)%Q -> (Qabs (a * p - b * p) == Qabs (a - b) * p)%Q.
Proof. intros H. setoid_replace (a * p - b * p)%Q with ((a - b) * p)%Q by ring. rewrite Qabs_Qmult, (Qabs_pos p) by lra. reflexivity. Qed.

Definition even_result (p : Z * Z) : Prop := Z.even (fst p) = true.
Lemma nearest_even x : (0 < x)%Q -> Z.even (half_even (x / pow2 (scale x))) = true -> even_result (nearest x).
Proof.
  intros H V. rewrite (nearest_pos x H). cbv zeta. destruct (Z.eqb_spec (half_even (x / pow2 (scale x))) (2 ^ 53)) as [E|E]; [reflexivity|exact V].
Qed.
(** The value of a canonical pair, as a multiple of a smaller power. *)
Lemma val_multiple p s : s <= snd p -> (val p == inject_Z (fst p * 2 ^ (snd p - s)) * pow2 s)%Q.
Proof.
  intros H. unfold val. rewrite inject_Z_mult, <- pow2_Z by lia. rewrite <- Qmult_assoc, <- pow2_plus. replace (snd p - s + s) with (snd p) by ring. reflexivity.
Qed.
Lemma val_below p s : canonical64 p -> snd p < s -> (val p <= inject_Z (2 ^ 52) * pow2 s - pow2 (s - 1))%Q.
Proof.
  intros (A & _) H. unfold val.
  assert (L : (inject_Z (fst p) * pow2 (snd p) <= inject_Z (2 ^ 53 - 1) * pow2 (s - 1))%Q).
  { apply Qmult_le_compat_nonneg; split; try (apply Qlt_le_weak, pow2_pos); [change 0%Q with (inject_Z 0); rewrite <- Zle_Qle; lia|rewrite <- Zle_Qle; lia|apply pow2_le; lia]. }
  eapply Qle_trans; [exact L|]. apply Qle_lteq. right. replace s with (1 + (s - 1)) at 2 by ring. rewrite pow2_plus. rewrite (pow2_Z 1) by lia.
  rewrite Qmult_assoc, <- inject_Z_mult. change (2 ^ 53 - 1) with (2 ^ 52 * 2 ^ 1 + -1). rewrite inject_Z_plus. change (inject_Z (-1)) with (-1)%Q. ring.
Qed.

Lemma nearest_best x p : (0 <= x)%Q -> canonical64 p ->
  (Qabs (x - val (nearest x)) <= Qabs (x - val p))%Q /\
  (Qabs (x - val (nearest x)) == Qabs (x - val p) -> val p == val (nearest x) \/ even_result (nearest x))%Q.
Proof.
  intros H C. destruct (Qlt_le_dec 0 x) as [Hp|Hz].
  2:{ rewrite (nearest_zero x Hz). assert (E : (x == 0)%Q) by lra. pose proof val_zero as V.
      assert (A : (Qabs (x - val zero64) == 0)%Q) by (rewrite E, V; reflexivity). rewrite A. split; [apply Qabs_nonneg|].
      intros T. left. rewrite V. pose proof (val_nonneg p C). rewrite Qabs_neg in T by lra. lra. }
  pose proof (pow2_pos (scale x)) as P. set (s := scale x) in *. set (y := (x / pow2 s)%Q).
  assert (X : (x == y * pow2 s)%Q) by (unfold y; now rewrite qdiv_mul).
  pose proof (nearest_val x Hp) as NV. fold s y in NV. rewrite NV.
  assert (A1 : (Qabs (x - inject_Z (half_even y) * pow2 s) == Qabs (y - inject_Z (half_even y)) * pow2 s)%Q) by (rewrite X at 1; apply abs_scaled, P).
  rewrite A1.
  destruct (Z_le_gt_dec s (snd p)) as [L|L].
  - pose proof (val_multiple p s L) as M. set (k := fst p * 2 ^ (snd p - s)) in *. rewrite M.
    assert (A2 : (Qabs (x - inject_Z k * pow2 s) == Qabs (y - inject_Z k) * pow2 s)%Q) by (rewrite X at 1; apply abs_scaled, P).
    rewrite A2. destruct (half_even_best y k) as [B1 B2]. split.
    + apply Qmult_le_compat_r; [exact B1|lra].
    + intros T. apply Qmult_inj_r in T; [|lra]. destruct (B2 T) as [E|E]; [left; rewrite E; reflexivity|right]. apply nearest_even; assumption.
  - assert (S : -1074 < s) by (destruct C as (_ & C & _); lia). destruct (scaled_bounds x Hp) as (_ & _ & B). specialize (B S). fold s y in B.
    assert (V : (val p < inject_Z (2 ^ 52) * pow2 s)%Q) by (pose proof (val_below p s C ltac:(lia)); pose proof (pow2_pos (s - 1)); lra).
    destruct (half_even_best y (2 ^ 52)) as [B1 _]. rewrite (Qabs_pos (y - inject_Z (2 ^ 52))) in B1 by lra.
    assert (B1' : (Qabs (y - inject_Z (half_even y)) * pow2 s <= (y - inject_Z (2 ^ 52)) * pow2 s)%Q) by (apply Qmult_le_compat_r; [exact B1|lra]).
    assert (B1'' : ((y - inject_Z (2 ^ 52)) * pow2 s == x - inject_Z (2 ^ 52) * pow2 s)%Q) by (rewrite X at 1; ring). rewrite B1'' in B1'.
    assert (XB : (inject_Z (2 ^ 52) * pow2 s <= x)%Q) by (rewrite X; apply Qmult_le_compat_r; [exact B|lra]).
    rewrite (Qabs_pos (x - val p)) by lra. split; [lra|]. intros T. exfalso. lra.
Qed.

Lemma nearest_mono x x' : (0 <= x)%Q -> (x <= x')%Q -> (val (nearest x) <= val (nearest x'))%Q.
Proof.
  intros H L. destruct (Qlt_le_dec 0 x) as [Hp|Hz].
  2:{ rewrite (nearest_zero x Hz). pose proof val_zero as V. rewrite V. apply val_nonneg, nearest_canonical. }
  assert (Hp' : (0 < x')%Q) by lra. rewrite !nearest_val by assumption.
  destruct (rounded_bounds x Hp) as [A _]. destruct (rounded_bounds x' Hp') as [_ B].
  assert (S : scale x <= scale x') by (unfold scale; pose proof (magnitude_mono x x' Hp L); lia).
  destruct (Z.eq_dec (scale x) (scale x')) as [E|E].
  - rewrite E. apply Qmult_le_compat_r; [|apply Qlt_le_weak, pow2_pos]. rewrite <- Zle_Qle. apply half_even_mono.
    apply Qmult_le_compat_r; [exact L|]. apply Qlt_le_weak, Qinv_lt_0_compat, pow2_pos.
  - destruct (scale_bounds x Hp) as (_ & _ & G). specialize (B ltac:(lia)).
    apply Qle_trans with (inject_Z (2 ^ 53) * pow2 (scale x))%Q.
    + apply Qmult_le_compat_r; [rewrite <- Zle_Qle; lia|apply Qlt_le_weak, pow2_pos].
    + apply Qle_trans with (inject_Z (2 ^ 52) * pow2 (scale x'))%Q.
      * rewrite <- !pow2_Z, <- !pow2_plus by lia. apply pow2_le. lia.
      * apply Qmult_le_compat_r; [rewrite <- Zle_Qle; lia|apply Qlt_le_weak, pow2_pos].
Qed.

(** Different numbers are apart. *)
Lemma gap p q : canonical64 p -> canonical64 q -> p <> q -> (val p * pow2 (-53) <= Qabs (val p - val q))%Q.
Proof.
  intros Cp Cq N. pose proof (pow2_pos (snd p)) as P.
  assert (U : (val p * pow2 (-53) < pow2 (snd p))%Q).
  { destruct Cp as (A & _). unfold val. assert (E : (pow2 (-53) == / inject_Z (2 ^ 53))%Q) by reflexivity.
    assert (Lt : (inject_Z (fst p) * pow2 (-53) < 1)%Q).
    { rewrite E. apply Qlt_shift_div_r; [reflexivity|]. rewrite Qmult_1_l, <- Zlt_Qlt. lia. }
    setoid_replace (inject_Z (fst p) * pow2 (snd p) * pow2 (-53))%Q with (inject_Z (fst p) * pow2 (-53) * pow2 (snd p))%Q by ring.
    setoid_replace (pow2 (snd p)) with (1 * pow2 (snd p))%Q at 2 by ring. apply Qmult_lt_r; assumption. }
  destruct (Z_le_gt_dec (snd p) (snd q)) as [L|L].
  - apply Qlt_le_weak. eapply Qlt_le_trans; [exact U|]. rewrite (val_multiple q (snd p) L).
    set (k := fst q * 2 ^ (snd q - snd p)). unfold val. rewrite abs_scaled by exact P.
    assert (K : fst p <> k).
    { intros E. subst k. destruct (Z.eq_dec (snd q) (snd p)) as [S|S].
      - rewrite S, Z.sub_diag, Z.mul_1_r in E. apply N. destruct p, q; cbn in *; congruence.
      - destruct Cp as (A & Ap & _), Cq as (A' & _ & B'). assert (2 ^ 52 <= fst q) by (destruct (Z_lt_le_dec (fst q) (2 ^ 52)) as [X|X]; [specialize (B' X); lia|exact X]).
        assert (2 ^ 1 <= 2 ^ (snd q - snd p)) by (apply Z.pow_le_mono_r; lia). nia. }
    setoid_replace (pow2 (snd p)) with (1 * pow2 (snd p))%Q at 1 by ring. apply Qmult_le_compat_r; [|lra].
    unfold Qminus. rewrite <- inject_Z_opp, <- inject_Z_plus.
    change (Qabs (inject_Z (fst p + - k))) with (inject_Z (Z.abs (fst p + - k))). change 1%Q with (inject_Z 1). rewrite <- Zle_Qle. lia.
  - assert (M : 2 ^ 52 <= fst p) by (destruct Cp as (A & B & D), Cq as (_ & B' & _); destruct (Z_lt_le_dec (fst p) (2 ^ 52)) as [X|X]; [specialize (D X); lia|exact X]).
    pose proof (val_below q (snd p) Cq ltac:(lia)) as V.
    assert (VP : (val p == inject_Z (fst p - 2 ^ 52) * pow2 (snd p) + inject_Z (2 ^ 52) * pow2 (snd p))%Q).
    { unfold val. rewrite <- Qmult_plus_distr_l, <- inject_Z_plus. replace (fst p - 2 ^ 52 + 2 ^ 52) with (fst p) by ring. reflexivity. }
    assert (H1 : (pow2 (snd p) == 2 * pow2 (snd p - 1))%Q) by (replace (snd p) with (1 + (snd p - 1)) at 1 by ring; rewrite pow2_plus; reflexivity).
    pose proof (pow2_pos (snd p - 1)) as P1.
    destruct (Z.eq_dec (fst p) (2 ^ 52)) as [E|E].
    + rewrite E, Z.sub_diag, Qmult_0_l, Qplus_0_l in VP.
      assert (X : (val p * pow2 (-53) == pow2 (snd p - 1))%Q).
      { rewrite VP, <- pow2_Z, <- !pow2_plus by lia. replace (52 + snd p + -53) with (snd p - 1) by ring. reflexivity. }
      rewrite X, Qabs_pos by lra. lra.
    + assert (I : (1 <= inject_Z (fst p - 2 ^ 52))%Q) by (change 1%Q with (inject_Z 1); rewrite <- Zle_Qle; lia).
      assert (I' : (1 * pow2 (snd p) <= inject_Z (fst p - 2 ^ 52) * pow2 (snd p))%Q) by (apply Qmult_le_compat_r; lra).
      rewrite Qabs_pos by lra. lra.
Qed.
Lemma val_positive p : canonical64 p -> 0 < fst p -> (0 < val p)%Q.
Proof. intros _ H. unfold val. apply Qmult_lt_0_compat; [|apply pow2_pos]. change 0%Q with (inject_Z 0). now rewrite <- Zlt_Qlt. Qed.
Lemma canonical_unique p q : canonical64 p -> canonical64 q -> (val p == val q)%Q -> p = q.
Proof.
  intros Cp Cq E. destruct (Z.eq_dec (fst p) 0) as [Z0|Z0].
  - assert (V : (val q == 0)%Q) by (rewrite <- E; unfold val; rewrite Z0; apply Qmult_0_l).
    assert (Z1 : fst q = 0).
    { destruct (Z.eq_dec (fst q) 0) as [X|X]; [exact X|]. pose proof (val_positive q Cq ltac:(destruct Cq; lia)). lra. }
    destruct Cp as (_ & _ & Bp), Cq as (_ & _ & Bq). destruct p as [m e], q as [m' e']. cbn [fst snd] in *. subst. rewrite Bp, Bq by lia. reflexivity.
  - assert (D : p = q \/ p <> q).
    { destruct p as [m e], q as [m' e']. destruct (Z.eq_dec m m'), (Z.eq_dec e e'); [left; congruence|right; congruence..]. }
    destruct D as [D|D]; [exact D|]. exfalso. pose proof (gap p q Cp Cq D) as G. pose proof (val_positive p Cp ltac:(destruct Cp; lia)) as V.
    assert (0 < val p * pow2 (-53))%Q by (apply Qmult_lt_0_compat; [exact V|apply pow2_pos]). rewrite Qabs_pos in G by lra. lra.
Qed.
Lemma nearest_self p x : canonical64 p -> (x == val p)%Q -> nearest x = p.
Proof.
  intros C E. pose proof (val_nonneg p C) as V. apply canonical_unique; [apply nearest_canonical|exact C|].
  destruct (nearest_best x p) as [L _]; [lra|exact C|]. rewrite (Qabs_pos (x - val p)) in L by lra.
  pose proof (Qle_Qabs (x - val (nearest x))). pose proof (Qle_Qabs (- (x - val (nearest x)))) as P. rewrite Qabs_opp in P. lra.
Qed.

(** * The range *)

Lemma round64_some x p : round64 x = Some p <-> nearest x = p /\ snd p <= 971.
Proof.
  unfold round64. destruct (nearest x) as [m e] eqn:E. destruct (Z.ltb_spec 971 e) as [L|L].
  - split; [discriminate|]. intros [<- H]. cbn in H. lia.
  - split; [intros [= <-]; auto|]. intros [<- _]. reflexivity.
Qed.
Lemma round64_none x : (0 <= x)%Q -> round64 x = None <-> out_of_range x.
Proof.
  intros H. unfold out_of_range. rewrite (Qabs_pos x H). change (Qpower 2 970) with (pow2 970).
  assert (Lim : (inject_Z (2 ^ 54 - 1) * pow2 970 == (inject_Z (2 ^ 53) - (1 # 2)) * pow2 971)%Q).
  { change 971 with (1 + 970). rewrite pow2_plus. change (pow2 1) with (2 # 1). rewrite Qmult_assoc. apply Qmult_comp; reflexivity. }
  destruct (Qlt_le_dec 0 x) as [Hp|Hz].
  2:{ unfold round64. rewrite (nearest_zero x Hz). cbn [zero64]. split; [discriminate|]. intros L. exfalso.
      assert (0 < inject_Z (2 ^ 54 - 1) * pow2 970)%Q by (apply Qmult_lt_0_compat; [reflexivity|apply pow2_pos]). lra. }
  destruct (scale_bounds x Hp) as (B1 & B2 & B3). destruct (scaled_bounds x Hp) as (C1 & C2 & C3).
  unfold round64. rewrite (nearest_pos x Hp). cbv zeta.
  pose proof (qdiv_mul x (pow2 (scale x)) (pow2_pos _)) as X. set (y := (x / pow2 (scale x))%Q) in *.
  assert (Small : scale x < 971 -> ~ (inject_Z (2 ^ 54 - 1) * pow2 970 <= x)%Q).
  { intros L C. rewrite Lim in C. assert ((pow2 53 * pow2 (scale x) <= pow2 52 * pow2 971)%Q) by (rewrite <- !pow2_plus; apply pow2_le; lia).
    assert (pow2 52 * pow2 971 < (inject_Z (2 ^ 53) - (1 # 2)) * pow2 971)%Q by (apply Qmult_lt_r; [apply pow2_pos|reflexivity]). lra. }
  assert (Large : 971 < scale x -> (inject_Z (2 ^ 54 - 1) * pow2 970 <= x)%Q).
  { intros L. rewrite Lim. specialize (B2 ltac:(lia)). eapply Qle_trans; [|exact B2].
    apply Qle_trans with (pow2 53 * pow2 971)%Q; [apply Qmult_le_compat_r; [discriminate|apply Qlt_le_weak, pow2_pos]|].
    rewrite <- !pow2_plus. apply pow2_le. lia. }
  assert (Edge : scale x = 971 -> (half_even y = 2 ^ 53 <-> (inject_Z (2 ^ 54 - 1) * pow2 970 <= x)%Q)).
  { intros E. rewrite Lim, <- X, E in *. split.
    - intros Hh. apply Qmult_le_compat_r; [|apply Qlt_le_weak, pow2_pos]. pose proof (half_even_near y) as [_ N]. rewrite Hh in N. lra.
    - intros L. apply Qmult_le_r in L; [|apply pow2_pos]. apply Z.le_antisymm.
      + eapply Z.le_trans; [apply half_even_mono, Qlt_le_weak, C2|]. rewrite (half_even_int _ (2 ^ 53) (Qeq_refl _)). lia.
      + eapply Z.le_trans; [|apply half_even_mono, L]. vm_compute. discriminate. }
  destruct (Z.eqb_spec (half_even y) (2 ^ 53)) as [E|E].
  - destruct (Z.ltb_spec 971 (scale x + 1)) as [L|L].
    + split; [intros _|reflexivity]. destruct (Z.eq_dec (scale x) 971) as [S|S]; [now apply Edge|apply Large; lia].
    + split; [discriminate|]. intros C. exfalso. apply Small in C; [exact C|lia].
  - destruct (Z.ltb_spec 971 (scale x)) as [L|L].
    + split; [intros _; now apply Large|reflexivity].
    + split; [discriminate|]. intros C. exfalso. destruct (Z.eq_dec (scale x) 971) as [S|S]; [apply Edge in C; [contradiction|exact S]|apply Small in C; [exact C|lia]].
Qed.

Lemma round64_eq x x' : (x == x')%Q -> round64 x = round64 x'.
Proof. intros E. unfold round64. now rewrite (nearest_eq x x' E). Qed.

Lemma signed_abs neg x y : (Qabs (signed neg x - signed neg y) == Qabs (x - y))%Q.
Proof. destruct neg; cbn [signed]; [|reflexivity]. rewrite <- Qabs_opp. apply Qabs_wd. ring. Qed.
Lemma round64_rounds neg x m e : (0 <= x)%Q -> round64 x = Some (m, e) -> rounds_to (signed neg x) (Fin neg m e).
Proof.
  intros H R. apply round64_some in R. destruct R as [N Le]. cbn [snd] in Le. pose proof (nearest_canonical x) as C. rewrite N in C.
  destruct C as (C1 & C2 & C3). cbn [fst snd] in *. split; [cbn [finite]; repeat split; try lia|].
  intros g G. destruct g as [neg' m' e'| |]; try contradiction. destruct G as (G1 & G2 & G3).
  assert (CG : canonical64 (m', e')) by (unfold canonical64; cbn [fst snd]; lia).
  pose proof (nearest_best x (m', e') H CG) as [B1 B2]. rewrite N in B1, B2. pose proof (val_nonneg _ CG) as VG.
  cbn [value]. change (inject_Z m * Qpower 2 e)%Q with (val (m, e)). change (inject_Z m' * Qpower 2 e')%Q with (val (m', e')). rewrite signed_abs.
  destruct (Bool.bool_dec neg neg') as [<-|D].
  - rewrite signed_abs. split; [exact B1|]. intros T. destruct (B2 T) as [E|E]; [left; destruct neg; cbn [signed]; rewrite E; reflexivity|right; exact E].
  - assert (A : (Qabs (signed neg x - signed neg' (val (m', e'))) == x + val (m', e'))%Q).
    { destruct neg, neg'; try congruence; cbn [signed]; [rewrite Qabs_neg by lra; ring|rewrite Qabs_pos by lra; ring]. }
    rewrite A. assert (CZ : canonical64 zero64) by (unfold canonical64, zero64; cbn [fst snd]; lia).
    pose proof (nearest_best x zero64 H CZ) as [Z1 Z2]. rewrite N in Z1, Z2.
    assert (XZ : (Qabs (x - val zero64) == x)%Q) by (rewrite val_zero, Qabs_pos by lra; ring). rewrite XZ in Z1, Z2. split; [lra|].
    intros T. destruct Z2 as [E|E]; [lra| |right; exact E]. left. rewrite val_zero in E. assert (V0 : (val (m', e') == 0)%Q) by lra.
    destruct neg, neg'; cbn [signed]; lra.
Qed.

(** * Digits *)

Lemma strlen_app a b : strlen (a +++ b) = strlen a + strlen b.
Proof. unfold strlen. rewrite length_app_s. lia. Qed.
Lemma strlen_chr c s : strlen (chr c s) = strlen s + 1.
Proof. unfold strlen. cbn [String.length]. lia. Qed.
Lemma strlen_nonneg s : 0 <= strlen s.
Proof. unfold strlen. lia. Qed.
Lemma digits_value_app a b : digits_value (a +++ b) = digits_value a * 10 ^ strlen b + digits_value b.
Proof.
  induction a as [|c a IH]; [reflexivity|]. rewrite app_chr. cbn [digits_value]. rewrite IH, strlen_app, Z.pow_add_r by apply strlen_nonneg. ring.
Qed.
Lemma digits_from_value s : forall n, digits_from n s = n * 10 ^ strlen s + digits_value s.
Proof.
  induction s as [|c s IH]; intros n; [cbn; ring|]. cbn [digits_from digits_value]. rewrite IH, strlen_chr, Z.pow_add_r by (pose proof (strlen_nonneg s); lia). ring.
Qed.
Lemma digits_from_0 s : digits_from 0 s = digits_value s.
Proof. rewrite digits_from_value. ring. Qed.
Lemma all_chars_app P a b : all_chars P (a +++ b) <-> all_chars P a /\ all_chars P b.
Proof. induction a as [|c a IH]; cbn [String.append all_chars]; tauto. Qed.
Lemma digits_value_nonneg s : all_chars is_digit s -> 0 <= digits_value s.
Proof.
  induction s as [|c s IH]; cbn [all_chars digits_value]; [lia|]. intros [H K]. apply digit_range in H. specialize (IH K).
  assert (0 < 10 ^ strlen s) by (apply Z.pow_pos_nonneg; [lia|apply strlen_nonneg]). nia.
Qed.

Lemma zeros_value n : digits_value (zeros n) = 0 /\ strlen (zeros n) = Z.of_nat n /\ all_chars is_digit (zeros n).
Proof.
  induction n as [|n (A & B & C)]; [cbn; auto|]. cbn [zeros digits_value all_chars]. rewrite A, strlen_chr, B. split; [cbn; ring|]. split; [lia|].
  split; [cbn; tauto|exact C].
Qed.

Lemma of_uint_acc_value d : forall acc, Z.pos (Pos.of_uint_acc d acc) =
  Z.pos acc * 10 ^ strlen (DecimalString.NilEmpty.string_of_uint d) + digits_value (DecimalString.NilEmpty.string_of_uint d).
Proof.
  induction d as [|d IH|d IH|d IH|d IH|d IH|d IH|d IH|d IH|d IH|d IH]; intros acc;
    cbn [Pos.of_uint_acc DecimalString.NilEmpty.string_of_uint digits_value]; [cbn; lia|..];
    rewrite IH, strlen_chr, Z.pow_add_r by (pose proof (strlen_nonneg (DecimalString.NilEmpty.string_of_uint d)); lia);
    match goal with |- context [byte ?c] => let v := eval vm_compute in (byte c) in change (byte c) with v end;
    rewrite ?Pos2Z.inj_add, ?Pos2Z.inj_mul; ring.
Qed.
Lemma of_uint_value d : Z.of_N (Pos.of_uint d) = digits_value (DecimalString.NilEmpty.string_of_uint d).
Proof.
  induction d as [|d IH|d IH|d IH|d IH|d IH|d IH|d IH|d IH|d IH|d IH]; cbn [Pos.of_uint DecimalString.NilEmpty.string_of_uint digits_value]; [reflexivity|..];
    match goal with |- context [byte ?c] => let v := eval vm_compute in (byte c) in change (byte c) with v end; [rewrite IH; ring|..];
    cbn [Z.of_N]; rewrite of_uint_acc_value; ring.
Qed.
Lemma itoa_value z : 0 <= z -> digits_value (itoa z) = z /\ all_chars is_digit (itoa z) /\ itoa z <> "".
Proof.
  intros H. pose proof (DecimalZ.of_to z) as O. unfold itoa. destruct (Z.to_int z) as [d|d] eqn:E.
  - cbn [DecimalString.NilZero.string_of_int]. unfold Z.of_int, Z.of_uint in O. rewrite of_uint_value in O.
    unfold DecimalString.NilZero.string_of_uint. destruct d; [cbn in O; subst z; split; [reflexivity|]; split; [cbn; tauto|discriminate]|..];
      (split; [exact O|]); (split; [apply uint_digits|discriminate]).
  - exfalso. destruct z; cbn in E; try discriminate. lia.
Qed.
(** The first digit of a positive number is not zero. *)
Lemma itoa_first z : 0 < z -> exists c t, itoa z = chr c t /\ is_digit c /\ c <> "0"%char /\ all_chars is_digit t.
Proof.
  intros H. destruct (itoa_value z) as (V & A & _); [lia|].
  destruct (itoa_number z) as (m & i & f & e & Hm & Hi & Hf & He & E).
  destruct Hm as [->| ->].
  2:{ exfalso. rewrite E in A. destruct A as [A _]. cbn in A. intuition discriminate. }
  rewrite app_nil in E. destruct Hi as [->|(c & d & Hc & Hn & Hd & ->)].
  - exfalso. assert (N : f +++ e = "").
    { rewrite E in A. apply all_chars_app in A. destruct A as [_ A]. apply all_chars_app in A. destruct A as [A1 A2].
      destruct Hf as [->|(d & _ & ->)]; [|exfalso; destruct A1 as [A1 _]; cbn in A1; intuition discriminate].
      destruct He as [->|(x & sg & d & Hx & _ & _ & ->)]; [reflexivity|]. exfalso. cbn in Hx. destruct Hx as [<-|[<-|[]]]; destruct A2 as [A2 _]; cbn in A2; intuition discriminate. }
    rewrite N in E. rewrite E in V. cbn in V. lia.
  - rewrite E in A. rewrite app_chr in E, A. destruct A as [_ A]. exists c, (d +++ f +++ e). auto.
Qed.
Lemma itoa_length z : 0 < z -> 10 ^ (strlen (itoa z) - 1) <= z < 10 ^ strlen (itoa z).
Proof.
  intros H. destruct (itoa_value z) as (V & A & _); [lia|]. destruct (itoa_first z H) as (c & t & E & Hc & Hn & Ht).
  pose proof (digits_value_nonneg t Ht) as T. assert (B : digits_value t < 10 ^ strlen t) by now apply digits_value_bounds.
  rewrite E in V, A |- *. rewrite <- V. cbn [digits_value]. rewrite strlen_chr. replace (strlen t + 1 - 1) with (strlen t) by ring.
  rewrite Z.pow_add_r by (pose proof (strlen_nonneg t); lia). apply digit_range in Hc.
  assert (byte c <> 48) by (intros X; apply Hn, byte_inj; exact X).
  assert (0 < 10 ^ strlen t) by (apply Z.pow_pos_nonneg; [lia|apply strlen_nonneg]). nia.
Qed.

(** * The shortest decimal *)

Lemma decimal_exponent_spec p : canonical64 p -> 0 < fst p ->
  (pow10 (decimal_exponent (val p)) <= val p)%Q /\ (val p < pow10 (decimal_exponent (val p) + 1))%Q.
Proof.
  intros C H. set (x := val p). assert (X : (pow2 (-1074) <= x)%Q).
  { unfold x, val. destruct C as (_ & C & _). setoid_replace (pow2 (-1074)) with (1 * pow2 (-1074))%Q by ring.
    apply Qmult_le_compat_nonneg; (split; [|]); [discriminate|change 1%Q with (inject_Z 1); rewrite <- Zle_Qle; lia|apply Qlt_le_weak, pow2_pos|now apply pow2_le]. }
  assert (B : (1 <= x * pow10 400)%Q).
  { apply Qle_trans with (pow2 (-1074) * pow10 400)%Q; [apply Qle_bool_iff; vm_compute; reflexivity|].
    apply Qmult_le_compat_r; [exact X|apply Qlt_le_weak, pow10_pos]. }
  unfold decimal_exponent. set (w := Qfloor (x * pow10 400)). assert (W : 0 < w) by (assert (1 <= w) by (apply int_le_floor; exact B); lia).
  destruct (itoa_length w W) as [L1 L2]. change (Z.of_nat (String.length (itoa w))) with (strlen (itoa w)). set (n := strlen (itoa w)) in *.
  assert (N : 1 <= n) by (destruct (itoa_first w W) as (c & t & E & _); unfold n; rewrite E, strlen_chr; pose proof (strlen_nonneg t); lia).
  destruct (floor_bounds (x * pow10 400)) as [F1 F2]. fold w in F1, F2.
  split.
  - apply Qmult_le_r with (z := pow10 400); [apply pow10_pos|]. rewrite <- pow10_plus. replace (n - 401 + 400) with (n - 1) by ring.
    rewrite (pow10_Z (n - 1)) by lia. eapply Qle_trans; [|exact F1]. now rewrite <- Zle_Qle.
  - apply Qmult_lt_r with (z := pow10 400); [apply pow10_pos|]. rewrite <- pow10_plus. replace (n - 401 + 1 + 400) with n by ring.
    rewrite (pow10_Z n) by lia. eapply Qlt_le_trans; [exact F2|]. assert (LL : (inject_Z (w + 1) <= inject_Z (10 ^ n))%Q) by (rewrite <- Zle_Qle; lia). rewrite inj_succ in LL. exact LL.
Qed.

Definition dec (d k : Z) : Q := (inject_Z d * pow10 k)%Q.
Lemma read_as_spec f d k : canonical64 f -> snd f <= 971 -> read_as f d k = true <-> nearest (dec d k) = f.
Proof.
  intros _ Le. unfold read_as. fold (dec d k). unfold round64. destruct (nearest (dec d k)) as [m e] eqn:E. destruct (Z.ltb_spec 971 e) as [L|L].
  - split; [discriminate|]. intros <-. cbn in Le. lia.
  - rewrite andb_true_iff, !Z.eqb_eq. destruct f as [m' e']. cbn [fst snd]. split; [intros [-> ->]; reflexivity|intros [= -> ->]; auto].
Qed.
Lemma dec_le a b k : a <= b -> (dec a k <= dec b k)%Q.
Proof. intros H. apply Qmult_le_compat_r; [now rewrite <- Zle_Qle|apply Qlt_le_weak, pow10_pos]. Qed.
Lemma dec_nonneg a k : 0 <= a -> (0 <= dec a k)%Q.
Proof. intros H. apply Qmult_le_0_compat; [change 0%Q with (inject_Z 0); now rewrite <- Zle_Qle|apply Qlt_le_weak, pow10_pos]. Qed.
(** A decimal as a multiple of a smaller power of ten. *)
Lemma dec_shift d k j : 0 <= j -> (dec d k == dec (d * 10 ^ j) (k - j))%Q.
Proof.
  intros H. unfold dec. rewrite inject_Z_mult, <- pow10_Z by lia. rewrite <- Qmult_assoc, <- pow10_plus. replace (j + (k - j)) with k by ring. reflexivity.
Qed.

Lemma pair_dec (p q : Z * Z) : p = q \/ p <> q.
Proof. destruct p as [m e], q as [m' e']. destruct (Z.eq_dec m m'), (Z.eq_dec e e'); [left; congruence|right; congruence..]. Qed.

Section Shortest.
Variable f : Z * Z.
Hypothesis Cf : canonical64 f.
Hypothesis Pf : 0 < fst f.
Hypothesis Ef : snd f <= 971.
Let x := val f.
Variable p : Z.
Hypothesis Hp1 : (pow10 p <= x)%Q.
Hypothesis Hp2 : (x < pow10 (p + 1))%Q.

Let k n := p - n + 1.
Let y n := (x / pow10 (k n))%Q.
Let lo n := Qfloor (y n).

Lemma x_y n : (x == y n * pow10 (k n))%Q.
Proof. unfold y. now rewrite (qdiv_mul x _ (pow10_pos _)). Qed.
Lemma y_bounds n : 1 <= n -> (inject_Z (10 ^ (n - 1)) <= y n /\ y n < inject_Z (10 ^ n))%Q.
Proof.
  intros H. rewrite <- !pow10_Z by lia. split.
  - apply Qmult_le_r with (z := pow10 (k n)); [apply pow10_pos|]. rewrite <- pow10_plus, <- x_y. unfold k. replace (n - 1 + (p - n + 1)) with p by ring. exact Hp1.
  - apply Qmult_lt_r with (z := pow10 (k n)); [apply pow10_pos|]. rewrite <- pow10_plus, <- x_y. unfold k. replace (n + (p - n + 1)) with (p + 1) by ring. exact Hp2.
Qed.
Lemma lo_bounds n : 1 <= n -> 10 ^ (n - 1) <= lo n < 10 ^ n.
Proof.
  intros H. destruct (y_bounds n H) as [A B]. split; [now apply int_le_floor|].
  destruct (floor_bounds (y n)) as [F _]. fold (lo n) in F. rewrite Zlt_Qlt. lra.
Qed.
Lemma lo_le n : (dec (lo n) (k n) <= x)%Q.
Proof. rewrite (x_y n). unfold dec. apply Qmult_le_compat_r; [apply floor_bounds|apply Qlt_le_weak, pow10_pos]. Qed.
Lemma hi_gt n : (x < dec (lo n + 1) (k n))%Q.
Proof. rewrite (x_y n). unfold dec. apply Qmult_lt_r; [apply pow10_pos|]. rewrite inj_succ. apply floor_bounds. Qed.
Lemma nearest_x : nearest x = f.
Proof. apply nearest_self; [exact Cf|reflexivity]. Qed.

(** What lies between a decimal that is read as [f] and [f] is read as [f]. *)
Lemma between_below a b : (0 <= a)%Q -> (a <= b)%Q -> (b <= x)%Q -> nearest a = f -> nearest b = f.
Proof.
  intros A L1 L2 E. apply canonical_unique; [apply nearest_canonical|exact Cf|]. apply Qle_antisym.
  - rewrite <- nearest_x at 1. apply nearest_mono; [lra|exact L2].
  - rewrite <- E. apply nearest_mono; assumption.
Qed.
Lemma between_above a b : (x <= b)%Q -> (b <= a)%Q -> nearest a = f -> nearest b = f.
Proof.
  intros L1 L2 E. pose proof (val_nonneg f Cf) as V. fold x in V. apply canonical_unique; [apply nearest_canonical|exact Cf|]. apply Qle_antisym.
  - rewrite <- E at 1. apply nearest_mono; [lra|exact L2].
  - rewrite <- nearest_x at 1. apply nearest_mono; assumption.
Qed.
(** A decimal with at most [n] digits is not between the two that are tried. *)
Lemma grid n d j : 1 <= n -> 0 < d < 10 ^ n -> (dec d j <= dec (lo n) (k n) \/ dec (lo n + 1) (k n) <= dec d j)%Q.
Proof.
  intros Hn Hd. destruct (Z_le_gt_dec (k n) j) as [L|L].
  - assert (E : (dec d j == dec (d * 10 ^ (j - k n)) (k n))%Q) by (rewrite (dec_shift d j (j - k n)) by lia; replace (j - (j - k n)) with (k n) by ring; reflexivity).
    rewrite E. destruct (Z_le_gt_dec (d * 10 ^ (j - k n)) (lo n)) as [M|M]; [left|right]; apply dec_le; lia.
  - left. apply Qle_trans with (pow10 p).
    + apply Qle_trans with (inject_Z (10 ^ n) * pow10 j)%Q; [apply Qmult_le_compat_r; [rewrite <- Zle_Qle; lia|apply Qlt_le_weak, pow10_pos]|].
      rewrite <- pow10_Z, <- pow10_plus by lia. apply pow10_le. unfold k in L. lia.
    + destruct (lo_bounds n Hn) as [B _]. apply Qle_trans with (dec (10 ^ (n - 1)) (k n)); [|apply dec_le, B].
      unfold dec. rewrite <- pow10_Z, <- pow10_plus by lia. apply pow10_le. unfold k. lia.
Qed.
(** If some decimal with at most [n] digits is read as [f], one of the two is. *)
Lemma tried_enough n d j : 1 <= n -> 0 < d < 10 ^ n -> nearest (dec d j) = f ->
  (nearest (dec (lo n) (k n)) = f /\ (dec d j <= dec (lo n) (k n))%Q) \/ (nearest (dec (lo n + 1) (k n)) = f /\ (dec (lo n + 1) (k n) <= dec d j)%Q).
Proof.
  intros Hn Hd E. destruct (grid n d j Hn Hd) as [G|G]; [left|right]; (split; [|exact G]).
  - apply (between_below (dec d j)); [apply dec_nonneg; lia|exact G|apply lo_le|exact E].
  - apply (between_above (dec d j)); [apply Qlt_le_weak, hi_gt|exact G|exact E].
Qed.

(** Seventeen digits are enough. *)
Lemma seventeen : nearest (dec (half_even (y 17)) (k 17)) = f.
Proof.
  pose proof (val_positive f Cf Pf) as V. fold x in V. set (h := half_even (y 17)). set (P := pow10 (k 17)). pose proof (pow10_pos (k 17)) as PP. fold P in PP.
  destruct (half_even_near (y 17)) as [N1 N2]. fold h in N1, N2. pose proof (x_y 17) as X. fold P in X.
  assert (Z1 : (Qabs (dec h (k 17) - x) <= (1 # 2) * P)%Q).
  { rewrite X. unfold dec. fold P. rewrite abs_scaled by exact PP. apply Qmult_le_compat_r; [|lra]. apply Qabs_Qle_condition. split; lra. }
  assert (PX : (P <= x * pow10 (-16))%Q).
  { apply Qle_trans with (pow10 p * pow10 (-16))%Q; [|apply Qmult_le_compat_r; [exact Hp1|apply Qlt_le_weak, pow10_pos]].
    rewrite <- pow10_plus. apply pow10_le. unfold k. lia. }
  assert (H0 : 0 <= h). { unfold h. rewrite <- (half_even_int (inject_Z 0) 0 (Qeq_refl _)). apply half_even_mono. destruct (y_bounds 17 ltac:(lia)) as [A _]. eapply Qle_trans; [|exact A]. discriminate. }
  destruct (nearest_best (dec h (k 17)) f (dec_nonneg h _ H0) Cf) as [B _]. fold x in B.
  destruct (Z.eq_dec (fst (nearest (dec h (k 17)))) (fst f)) as [E1|E1]; [destruct (Z.eq_dec (snd (nearest (dec h (k 17)))) (snd f)) as [E2|E2]|].
  { destruct (nearest (dec h (k 17))), f. cbn in *. congruence. }
  all: exfalso; assert (D : f <> nearest (dec h (k 17))) by congruence; pose proof (gap f _ Cf (nearest_canonical _) D) as G; fold x in G;
    assert (T : (Qabs (x - val (nearest (dec h (k 17)))) <= Qabs (x - dec h (k 17)) + Qabs (dec h (k 17) - val (nearest (dec h (k 17)))))%Q)
      by (eapply Qle_trans; [|apply Qabs_triangle]; apply Qle_lteq; right; apply Qabs_wd; ring);
    rewrite (Qabs_Qminus x (dec h (k 17))) in T;
    assert (K : (x * pow10 (-16) < x * pow2 (-53))%Q) by (rewrite !(Qmult_comm x); apply Qmult_lt_r; [exact V|reflexivity]);
    lra.
Qed.
Lemma half_even_lo n : half_even (y n) = lo n \/ half_even (y n) = lo n + 1.
Proof. unfold lo. destruct (half_even_cases (y n)) as [[E _]|[[E _]|(_ & _ & E)]]; auto. Qed.

(** The decimal that is found. *)
Definition found n d : Prop :=
  (nearest (dec (lo n) (k n)) = f /\ nearest (dec (lo n + 1) (k n)) = f /\ d = half_even (y n)) \/
  (nearest (dec (lo n) (k n)) = f /\ nearest (dec (lo n + 1) (k n)) <> f /\ d = lo n) \/
  (nearest (dec (lo n) (k n)) <> f /\ nearest (dec (lo n + 1) (k n)) = f /\ d = lo n + 1).
Lemma shortest_from_spec fuel : forall n, 1 <= n -> n + Z.of_nat fuel = 18 ->
  (forall d, n <= 17 \/ ~ found 17 d) ->
  exists m d, n <= m <= 17 /\ shortest_from fuel n f x p = Some (d, k m) /\ found m d /\ (forall i d', n <= i < m -> ~ found i d').
Proof.
  induction fuel as [|fuel IH]; intros n Hn Hf Hx.
  - exfalso. assert (F : found 17 (half_even (y 17)) \/ found 17 (lo 17) \/ found 17 (lo 17 + 1)).
    { unfold found. pose proof seventeen as S.
      destruct (pair_dec (nearest (dec (lo 17) (k 17))) f) as [A|A], (pair_dec (nearest (dec (lo 17 + 1) (k 17))) f) as [B|B].
      - left. left. auto.
      - right. left. right. left. auto.
      - right. right. right. right. auto.
      - exfalso. destruct (half_even_lo 17) as [E|E]; rewrite E in S; contradiction. }
    destruct F as [F|[F|F]]; match type of F with found _ ?d => destruct (Hx d) as [H|H]; [lia|exact (H F)] end.
  - cbn [shortest_from]. change (p - n + 1) with (k n). change (x / pow10 (k n))%Q with (y n). change (Qfloor (y n)) with (lo n).
    destruct (read_as f (lo n) (k n)) eqn:A, (read_as f (lo n + 1) (k n)) eqn:B; cbn [andb];
      rewrite ?(read_as_spec f _ _ Cf Ef) in A; rewrite ?(read_as_spec f _ _ Cf Ef) in B.
    + exists n, (half_even (y n)). split; [lia|]. split; [reflexivity|]. split; [left; auto|]. intros i d' Hi. lia.
    + exists n, (lo n). split; [lia|]. split; [reflexivity|]. split; [right; left; split; [exact A|split; [|reflexivity]]|intros i d' Hi; lia].
      intros C. apply (read_as_spec f _ _ Cf Ef) in C. congruence.
    + exists n, (lo n + 1). split; [lia|]. split; [reflexivity|]. split; [right; right; split; [|split; [exact B|reflexivity]]|intros i d' Hi; lia].
      intros C. apply (read_as_spec f _ _ Cf Ef) in C. congruence.
    + assert (NF : forall d, ~ found n d).
      { intros d [(C & _)|[(C & _)|(_ & C & _)]]; apply (read_as_spec f _ _ Cf Ef) in C; congruence. }
      destruct (IH (n + 1)) as (m & d & H1 & H2 & H3 & H4); [lia|lia| |].
      { intros d. destruct (Z.eq_dec n 17) as [->|N]; [right; apply NF|left]. destruct (Hx d) as [H|H]; [lia|]. lia. }
      exists m, d. split; [lia|]. split; [exact H2|]. split; [exact H3|]. intros i d' Hi. destruct (Z.eq_dec i n) as [->|N]; [apply NF|apply H4; lia].
Qed.
Lemma half_even_dec n d : (Qabs (x - dec (half_even (y n)) (k n)) <= Qabs (x - dec d (k n)))%Q.
Proof.
  rewrite (x_y n). unfold dec. rewrite !abs_scaled by apply pow10_pos. apply Qmult_le_compat_r; [apply half_even_best|apply Qlt_le_weak, pow10_pos].
Qed.
Lemma found_near n d : 1 <= n -> found n d ->
  nearest (dec d (k n)) = f /\ 10 ^ (n - 1) <= d <= 10 ^ n /\
  (forall d' j, 0 < d' < 10 ^ n -> nearest (dec d' j) = f -> (Qabs (x - dec d (k n)) <= Qabs (x - dec d' j))%Q).
Proof.
  intros Hn F. pose proof (lo_bounds n Hn) as B. pose proof (lo_le n) as L. pose proof (hi_gt n) as G.
  split; [|split].
  - destruct F as [(A1 & A2 & ->)|[(A1 & A2 & ->)|(A1 & A2 & ->)]]; [|assumption..].
    destruct (half_even_lo n) as [E|E]; rewrite E; assumption.
  - destruct F as [(A1 & A2 & ->)|[(A1 & A2 & ->)|(A1 & A2 & ->)]]; [|lia..].
    destruct (half_even_lo n) as [E|E]; rewrite E; lia.
  - intros d' j Hd E. destruct (tried_enough n d' j Hn Hd E) as [[N Le]|[N Le]].
    + apply Qle_trans with (Qabs (x - dec (lo n) (k n))); [|rewrite !Qabs_pos by lra; lra].
      destruct F as [(A1 & A2 & ->)|[(A1 & A2 & ->)|(A1 & A2 & ->)]]; [apply half_even_dec|apply Qle_refl|contradiction].
    + apply Qle_trans with (Qabs (x - dec (lo n + 1) (k n))); [|rewrite !Qabs_neg by lra; lra].
      destruct F as [(A1 & A2 & ->)|[(A1 & A2 & ->)|(A1 & A2 & ->)]]; [apply half_even_dec|contradiction|apply Qle_refl].
Qed.
Lemma found_some n d j : 1 <= n -> 0 < d < 10 ^ n -> nearest (dec d j) = f -> exists d', found n d'.
Proof.
  intros Hn Hd E. unfold found. destruct (pair_dec (nearest (dec (lo n) (k n))) f) as [A|A], (pair_dec (nearest (dec (lo n + 1) (k n))) f) as [B|B].
  - exists (half_even (y n)). auto.
  - exists (lo n). auto.
  - exists (lo n + 1). auto.
  - exfalso. destruct (tried_enough n d j Hn Hd E) as [[N _]|[N _]]; contradiction.
Qed.
End Shortest.

Lemma drop_zeros_dec fuel : forall d k, 0 < d ->
  let (d', k') := drop_zeros fuel d k in 0 < d' <= d /\ (dec d' k' == dec d k)%Q.
Proof.
  induction fuel as [|fuel IH]; intros d k H; cbn [drop_zeros]; [split; [lia|reflexivity]|].
  destruct (Z.eqb_spec (d mod 10) 0) as [M|M]; [|split; [lia|reflexivity]].
  assert (D : d = d / 10 * 10) by (pose proof (Z.div_mod d 10 ltac:(lia)); lia).
  specialize (IH (d / 10) (k + 1) ltac:(lia)). destruct (drop_zeros fuel (d / 10) (k + 1)) as [d' k']. destruct IH as [B E]. split; [lia|].
  rewrite E, (dec_shift (d / 10) (k + 1) 1) by lia. rewrite Z.pow_1_r, <- D. replace (k + 1 - 1) with k by ring. reflexivity.
Qed.
Lemma drop_zeros_ten j : forall fuel k, (j < fuel)%nat -> fst (drop_zeros fuel (10 ^ Z.of_nat j) k) = 1.
Proof.
  induction j as [|j IH]; intros fuel k H; (destruct fuel as [|fuel]; [lia|]); cbn [drop_zeros]; [reflexivity|].
  rewrite Nat2Z.inj_succ, Z.pow_succ_r, Z.mul_comm by lia. rewrite Z_mod_mult, Z_div_mult by lia. cbn [Z.eqb]. apply IH. lia.
Qed.

(** The decimal for a positive float64: it is read as this float64, no decimal with fewer digits is, and of those with
    as many digits it is the nearest. *)
Lemma shortest_spec m e : canonical64 (m, e) -> 0 < m -> e <= 971 ->
  exists d k, shortest m e = Some (d, k) /\ 0 < d /\ d < 10 ^ 17 /\ nearest (dec d k) = (m, e) /\
    (forall n d' j, 0 <= n -> 0 < d' < 10 ^ n -> nearest (dec d' j) = (m, e) -> d < 10 ^ n) /\
    (forall n d' j, 10 ^ n <= d -> 0 <= n -> 0 < d' < 10 ^ (n + 1) -> nearest (dec d' j) = (m, e) ->
       (Qabs (val (m, e) - dec d k) <= Qabs (val (m, e) - dec d' j))%Q).
Proof.
  intros C P Le. destruct (decimal_exponent_spec (m, e) C P) as [P1 P2].
  destruct (shortest_from_spec (m, e) C P Le (decimal_exponent (val (m, e))) P1 P2 17 1 ltac:(lia) ltac:(lia) ltac:(intros; left; lia))
    as (n & d & Hn & S & F & Min).
  set (p := decimal_exponent (val (m, e))) in *.
  destruct (found_near (m, e) C p P1 P2 n d ltac:(lia) F) as (F1 & F2 & F3).
  assert (Pn : 0 < 10 ^ (n - 1)) by (apply Z.pow_pos_nonneg; lia).
  unfold shortest. change (inject_Z m * pow2 e)%Q with (val (m, e)). fold p. rewrite S.
  pose proof (drop_zeros_dec 18 d (p - n + 1) ltac:(lia)) as DZ. destruct (drop_zeros 18 d (p - n + 1)) as [d' k'] eqn:ED. destruct DZ as [D1 D2].
  assert (Small : d' < 10 ^ n).
  { destruct (Z.eq_dec d (10 ^ n)) as [->|N]; [|lia].
    pose proof (drop_zeros_ten (Z.to_nat n) 18 (p - n + 1) ltac:(lia)) as T. rewrite Z2Nat.id, ED in T by lia. cbn [fst] in T. subst d'.
    change 1 with (10 ^ 0). apply Z.pow_lt_mono_r; lia. }
  exists d', k'. split; [reflexivity|]. split; [lia|]. split; [|split; [|split]].
  - eapply Z.lt_le_trans; [exact Small|]. apply Z.pow_le_mono_r; lia.
  - rewrite (nearest_eq _ _ D2). exact F1.
  - intros j d2 j2 Hj Hd E. destruct (Z_lt_le_dec j n) as [L|L]; [|eapply Z.lt_le_trans; [exact Small|apply Z.pow_le_mono_r; lia]].
    assert (J : 1 <= j) by (destruct (Z.eq_dec j 0) as [->|]; [cbn in Hd; lia|lia]).
    destruct (found_some (m, e) C p P1 P2 j d2 j2 J Hd E) as (d3 & F'). exfalso. exact (Min j d3 ltac:(lia) F').
  - intros j d2 j2 Hj J0 Hd E. rewrite D2. apply F3; [|exact E]. split; [lia|]. eapply Z.lt_le_trans; [apply Hd|]. apply Z.pow_le_mono_r; [lia|].
    destruct (Z_lt_le_dec j n) as [L|L]; [lia|]. exfalso. assert (10 ^ n <= 10 ^ j) by (apply Z.pow_le_mono_r; lia). lia.
Qed.
