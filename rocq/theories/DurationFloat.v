(** How far the float64 arithmetic of durations is from exact arithmetic. *)
From Verif Require Import Common Bytes ProcsModel ProcsSpec ProcsProofs ConfsModel ConfsProofs JsonModel JsonSpec JsonProofs JsonFloatModel JsonFloatSpec
  JsonFloatProofs JsonFloatText DurationModel DurationSpec.
From Coq Require Import QArith Qabs Qround Lqa.
Local Open Scope string_scope.
Local Open Scope list_scope.
Local Open Scope Z_scope.

Lemma fl_val_val p : fl_val p = val p.
Proof. reflexivity. Qed.

(** * Integers are exact *)

Definition is_fl (a : fl) (x : Q) : Prop := exists p, a = Some p /\ canonical64 p /\ (val p == x)%Q.
Lemma round_int x z : 0 <= z <= 2 ^ 53 -> (x == inject_Z z)%Q -> is_fl (round64 x) (inject_Z z).
Proof.
  intros H E. destruct (int_float z H) as (m & e & F & V). apply finite_canonical in F. destruct F as [C L].
  exists (m, e). split; [|now split]. apply round64_some. split; [|exact L]. apply nearest_self; [exact C|]. now rewrite V.
Qed.
Lemma fl_of_int z : 0 <= z <= 2 ^ 53 -> is_fl (fl_of z) (inject_Z z).
Proof. intros H. apply round_int; [exact H|reflexivity]. Qed.
Lemma fl_mul_int a b x y : is_fl a (inject_Z x) -> is_fl b (inject_Z y) -> 0 <= x * y <= 2 ^ 53 -> is_fl (fl_mul a b) (inject_Z (x * y)).
Proof.
  intros (p & -> & _ & V) (q & -> & _ & W) H. cbn [fl_mul]. apply round_int; [exact H|]. change fl_val with val. rewrite V, W, inject_Z_mult. reflexivity.
Qed.
Lemma fl_div_int a b x y : is_fl a (inject_Z (x * y)) -> is_fl b (inject_Z y) -> 0 < y -> 0 <= x <= 2 ^ 53 -> is_fl (fl_div a b) (inject_Z x).
Proof.
  intros (p & -> & _ & V) (q & -> & _ & W) Hy H. cbn [fl_div]. apply round_int; [exact H|]. change fl_val with val. rewrite V, W, inject_Z_mult.
  apply Qdiv_mult_l. assert (P : (0 < inject_Z y)%Q) by (change 0%Q with (inject_Z 0); now rewrite <- Zlt_Qlt). lra.
Qed.
Lemma fl_trunc_int a z : is_fl a (inject_Z z) -> fl_trunc a = z.
Proof. intros (p & -> & _ & V). cbn [fl_trunc]. rewrite fl_val_val, V. apply Qfloor_Z. Qed.

Fixpoint scale_pow (k : nat) : fl := match k with O => fl_of 1 | S k => fl_mul (scale_pow k) (fl_of 10) end.
Lemma scale_small k : (k <= 15)%nat -> is_fl (scale_pow k) (inject_Z (10 ^ Z.of_nat k)).
Proof.
  induction k as [|k IH]; intros H; cbn [scale_pow]; [now apply fl_of_int|]. specialize (IH ltac:(lia)).
  replace (10 ^ Z.of_nat (S k)) with (10 ^ Z.of_nat k * 10) by (rewrite Nat2Z.inj_succ, Z.pow_succ_r by lia; ring).
  apply fl_mul_int; [exact IH|now apply fl_of_int|]. assert (10 ^ Z.of_nat k <= 10 ^ 14) by (apply Z.pow_le_mono_r; lia). lia.
Qed.

(** A fraction that counts whole nanoseconds is exact. *)
Lemma fraction_exact f k unit : 0 <= f -> 0 < unit <= 2 ^ 53 -> (10 ^ Z.of_nat k | unit) -> f < 10 ^ Z.of_nat k ->
  fraction_ns f (scale_pow k) unit * 10 ^ Z.of_nat k = f * unit.
Proof.
  intros Hf Hu [q ->] L. assert (P : 0 < 10 ^ Z.of_nat k) by (apply Z.pow_pos_nonneg; lia).
  assert (K : (k <= 15)%nat).
  { destruct (Nat.le_gt_cases k 15) as [A|A]; [exact A|]. exfalso. assert (10 ^ 16 <= 10 ^ Z.of_nat k) by (apply Z.pow_le_mono_r; lia).
    assert (0 < q) by nia. set (P10 := 10 ^ Z.of_nat k) in *. change (10 ^ 16) with 10000000000000000 in *. change (2 ^ 53) with 9007199254740992 in *. nia. }
  unfold fraction_ns. destruct (Z.ltb_spec 0 f) as [F|F]; [|nia].
  assert (Q0 : 0 < q) by nia. assert (Q1 : q <= q * 10 ^ Z.of_nat k) by nia. assert (Q2 : f * q <= q * 10 ^ Z.of_nat k) by nia.
  assert (Q3 : 10 ^ Z.of_nat k <= q * 10 ^ Z.of_nat k) by nia. assert (Q4 : 0 <= f * q) by nia.
  rewrite (fl_trunc_int _ (f * q)); [ring|]. apply fl_mul_int; [apply fl_of_int; lia| |lia].
  apply (fl_div_int _ _ q (10 ^ Z.of_nat k)); [apply fl_of_int; lia|now apply scale_small|exact P|lia].
Qed.

(** * Relative errors *)

Definition ulp : Q := pow2 (-53).
Lemma ulp_val : (ulp == 1 # 9007199254740992)%Q.
Proof. reflexivity. Qed.

(** [y] is [x] up to the factor 1 + a/2^53. *)
Definition near (a x y : Q) : Prop := (x * (1 - a * ulp) <= y /\ y <= x * (1 + a * ulp))%Q.

Section Algebra.
Variable e : Q.
Hypothesis He : (0 < e)%Q.
Hypothesis Hs : (1000000 * e <= 1)%Q.

Lemma err_up a b : (0 <= a <= 1000 -> 0 <= b <= 1000 -> (1 + a * e) * (1 + b * e) <= 1 + (a + b + 1) * e)%Q.
Proof.
  intros Ha Hb. assert (A : (a * b * e <= 1)%Q).
  { apply Qle_trans with (1000 * 1000 * e)%Q; [|lra]. apply Qmult_le_compat_r; [|lra].
    apply Qle_trans with (1000 * b)%Q; [apply Qmult_le_compat_r; lra|apply Qmult_le_l; lra]. }
  assert (B : (a * b * e * e <= 1 * e)%Q) by (apply Qmult_le_compat_r; lra).
  setoid_replace ((1 + a * e) * (1 + b * e))%Q with (1 + (a + b) * e + a * b * e * e)%Q by ring. lra.
Qed.
Lemma err_down a b : (0 <= a <= 1000 -> 0 <= b <= 1000 -> 1 - (a + b + 1) * e <= (1 - a * e) * (1 - b * e))%Q.
Proof.
  intros Ha Hb. assert (A : (0 <= a * b * (e * e))%Q) by (apply Qmult_le_0_compat; apply Qmult_le_0_compat; lra).
  setoid_replace ((1 - a * e) * (1 - b * e))%Q with (1 - (a + b) * e + a * b * (e * e))%Q by ring. lra.
Qed.
Lemma err_small a : (0 <= a <= 1000 -> 0 <= a * e <= 1 # 1000)%Q.
Proof.
  intros Ha. split; [apply Qmult_le_0_compat; lra|]. apply Qle_trans with (1000 * e)%Q; [apply Qmult_le_compat_r; lra|lra].
Qed.
End Algebra.
Lemma ulp_pos : (0 < ulp)%Q.
Proof. reflexivity. Qed.
Lemma ulp_small : (1000000 * ulp <= 1)%Q.
Proof. vm_compute. discriminate. Qed.

Lemma near_refl a x : (0 <= a <= 1000)%Q -> (0 <= x)%Q -> near a x x.
Proof.
  intros Ha Hx. destruct (err_small ulp ulp_pos ulp_small a Ha) as [A B]. unfold near. set (t := (a * ulp)%Q) in *.
  assert (0 <= x * t)%Q by (apply Qmult_le_0_compat; lra). split; lra.
Qed.
Lemma near_nonneg a x y : (0 <= a <= 1000)%Q -> (0 <= x)%Q -> near a x y -> (0 <= y)%Q.
Proof.
  intros Ha Hx [H _]. destruct (err_small ulp ulp_pos ulp_small a Ha) as [A B]. apply Qle_trans with (2 := H). apply Qmult_le_0_compat; lra.
Qed.
Lemma near_mult a b x y u v : (0 <= a <= 1000)%Q -> (0 <= b <= 1000)%Q -> (0 <= x)%Q -> (0 <= u)%Q -> near a x y -> near b u v ->
  near (a + b + 1) (x * u) (y * v).
Proof.
  intros Ha Hb Hx Hu N M. pose proof (near_nonneg _ _ _ Ha Hx N) as Hy. pose proof (near_nonneg _ _ _ Hb Hu M) as Hv.
  pose proof (err_up ulp ulp_pos ulp_small a b Ha Hb) as U. pose proof (err_down ulp ulp_pos a b Ha Hb) as D.
  destruct (err_small ulp ulp_pos ulp_small a Ha) as [A1 A2]. destruct (err_small ulp ulp_pos ulp_small b Hb) as [B1 B2].
  destruct N as [N1 N2], M as [M1 M2]. assert (P : (0 <= x * u)%Q) by now apply Qmult_le_0_compat. split.
  - apply Qle_trans with (x * u * ((1 - a * ulp) * (1 - b * ulp)))%Q.
    + rewrite (Qmult_comm (x * u) (1 - _)), (Qmult_comm (x * u) (_ * _)). now apply Qmult_le_compat_r.
    + setoid_replace (x * u * ((1 - a * ulp) * (1 - b * ulp)))%Q with ((x * (1 - a * ulp)) * (u * (1 - b * ulp)))%Q by ring.
      apply Qmult_le_compat_nonneg; (split; [|assumption]); apply Qmult_le_0_compat; lra.
  - apply Qle_trans with (x * u * ((1 + a * ulp) * (1 + b * ulp)))%Q.
    + setoid_replace (x * u * ((1 + a * ulp) * (1 + b * ulp)))%Q with ((x * (1 + a * ulp)) * (u * (1 + b * ulp)))%Q by ring.
      apply Qmult_le_compat_nonneg; split; assumption.
    + rewrite (Qmult_comm (x * u) (1 + _)), (Qmult_comm (x * u) (_ * _)). now apply Qmult_le_compat_r.
Qed.
Lemma near_eq a x x' y y' : (x == x')%Q -> (y == y')%Q -> near a x y -> near a x' y'.
Proof. intros E F [A B]. rewrite E in A, B. rewrite F in A, B. now split. Qed.
Lemma near_trans a b x y z : (0 <= a <= 1000)%Q -> (0 <= b <= 1000)%Q -> (0 <= x)%Q -> near a x y -> near b y z -> near (a + b + 1) x z.
Proof.
  intros Ha Hb Hx N [M1 M2]. pose proof (near_nonneg _ _ _ Ha Hx N) as Hy.
  assert (N0 : near b 1 (1 + b * ulp)).
  { destruct (err_small ulp ulp_pos ulp_small b Hb) as [B1 B2]. split; lra. }
  assert (N3 : near b 1 (1 - b * ulp)).
  { destruct (err_small ulp ulp_pos ulp_small b Hb) as [B1 B2]. split; lra. }
  pose proof (near_mult a b x y 1 _ Ha Hb Hx ltac:(lra) N N0) as [_ U]. pose proof (near_mult a b x y 1 _ Ha Hb Hx ltac:(lra) N N3) as [D _].
  rewrite Qmult_1_r in U, D. split; [now apply Qle_trans with (1 := D)|now apply Qle_trans with (2 := U)].
Qed.
Lemma near_inv a x y : (0 <= a <= 1000)%Q -> (0 < x)%Q -> near a x y -> near (a + 1) (/ x) (/ y).
Proof.
  intros Ha Hx [A B]. destruct (err_small ulp ulp_pos ulp_small a Ha) as [E1 E2]. set (t := (a * ulp)%Q) in *.
  assert (Hy : (0 < y)%Q) by (apply Qlt_le_trans with (2 := A); apply Qmult_lt_0_compat; lra).
  assert (I : (0 < / x)%Q) by now apply Qinv_lt_0_compat. assert (J : (0 < / y)%Q) by now apply Qinv_lt_0_compat.
  assert (X : (x * / x == 1)%Q) by (field; lra). assert (Y : (y * / y == 1)%Q) by (field; lra).
  set (ix := (/ x)%Q) in *. set (iy := (/ y)%Q) in *.
  assert (T : ((a + 1) * ulp == t + ulp)%Q) by (unfold t; ring).
  assert (Tt : (t * (t + ulp) <= ulp)%Q).
  { assert (A1 : (t + ulp <= 1001 * ulp)%Q) by (unfold t; setoid_replace (a * ulp + ulp)%Q with ((a + 1) * ulp)%Q by ring; apply Qmult_le_compat_r; [lra|discriminate]).
    apply Qle_trans with ((1 # 2000) * (t + ulp))%Q; [|pose proof ulp_pos; lra]. apply Qmult_le_compat_r; [|pose proof ulp_pos; lra].
    unfold t. apply Qle_trans with (1000 * ulp)%Q; [apply Qmult_le_compat_r; [lra|discriminate]|vm_compute; discriminate]. }
  split.
  - (* ix * (1 - (t+ulp)) <= iy *)
    rewrite T. assert (K : (iy * y * ix * (1 - (t + ulp)) <= iy * (x * (1 + t)) * ix * (1 - (t + ulp)))%Q).
    { apply Qmult_le_compat_r; [|pose proof ulp_small; pose proof ulp_pos; lra]. apply Qmult_le_compat_r; [|lra]. apply Qmult_le_l; assumption. }
    setoid_replace (iy * y)%Q with 1%Q in K by (rewrite Qmult_comm; exact Y). rewrite Qmult_1_l in K.
    apply Qle_trans with (1 := K). setoid_replace (iy * (x * (1 + t)) * ix * (1 - (t + ulp)))%Q with ((x * ix) * (iy * ((1 + t) * (1 - (t + ulp)))))%Q by ring.
    rewrite X, Qmult_1_l. rewrite <- (Qmult_1_r iy) at 2. apply Qmult_le_l; [exact J|].
    setoid_replace ((1 + t) * (1 - (t + ulp)))%Q with (1 - ulp - t * (t + ulp))%Q by ring.
    assert (0 <= t * (t + ulp))%Q by (apply Qmult_le_0_compat; pose proof ulp_pos; lra). pose proof ulp_pos. lra.
  - rewrite T. assert (K : (iy * (x * (1 - t)) * ix * (1 + (t + ulp)) <= iy * y * ix * (1 + (t + ulp)))%Q).
    { apply Qmult_le_compat_r; [|pose proof ulp_pos; lra]. apply Qmult_le_compat_r; [|lra]. apply Qmult_le_l; assumption. }
    setoid_replace (iy * y)%Q with 1%Q in K by (rewrite Qmult_comm; exact Y). rewrite Qmult_1_l in K.
    apply Qle_trans with (2 := K). setoid_replace (iy * (x * (1 - t)) * ix * (1 + (t + ulp)))%Q with ((x * ix) * (iy * ((1 - t) * (1 + (t + ulp)))))%Q by ring.
    rewrite X, Qmult_1_l. rewrite <- (Qmult_1_r iy) at 1. apply Qmult_le_l; [exact J|].
    setoid_replace ((1 - t) * (1 + (t + ulp)))%Q with (1 + ulp - t * (t + ulp))%Q by ring. lra.
Qed.

(** * One rounding *)

Lemma nearest_rel x : (pow2 (-1022) <= x)%Q -> near 1 x (val (nearest x)).
Proof.
  intros L. assert (Hx : (0 < x)%Q) by (pose proof (pow2_pos (-1022)); lra).
  pose proof (nearest_val x Hx) as V. destruct (scale_bounds x Hx) as (_ & S1 & S2). set (s := JsonFloatProofs.scale x) in *.
  assert (B : (pow2 52 * pow2 s <= x)%Q).
  { destruct (Z.eq_dec s (-1074)) as [->|N]; [|apply S1; lia]. rewrite <- pow2_plus. exact L. }
  pose proof (half_even_near (x / pow2 s)) as [H1 H2]. set (h := inject_Z (half_even (x / pow2 s))) in *.
  pose proof (pow2_pos s) as P. assert (E : (x / pow2 s * pow2 s == x)%Q) by now apply qdiv_mul.
  assert (U : ((1 # 2) * pow2 s == ulp * (pow2 52 * pow2 s))%Q).
  { unfold ulp. rewrite Qmult_assoc, <- pow2_plus. reflexivity. }
  assert (W : (ulp * (pow2 52 * pow2 s) <= ulp * x)%Q) by (apply Qmult_le_l; [reflexivity|exact B]).
  assert (A1 : (x / pow2 s * pow2 s <= (h + (1 # 2)) * pow2 s)%Q) by (apply Qmult_le_compat_r; lra).
  assert (A2 : (h * pow2 s <= (x / pow2 s + (1 # 2)) * pow2 s)%Q) by (apply Qmult_le_compat_r; lra).
  rewrite E in A1. rewrite Qmult_plus_distr_l, E in A2. rewrite Qmult_plus_distr_l in A1. rewrite U in A1, A2.
  unfold near. rewrite V. setoid_replace (x * (1 - 1 * ulp))%Q with (x - ulp * x)%Q by ring.
  setoid_replace (x * (1 + 1 * ulp))%Q with (x + ulp * x)%Q by ring. split; lra.
Qed.
(** The float64 nearest to a number that is not tiny. *)
Lemma round_near x p : (pow2 (-1022) <= x)%Q -> round64 x = Some p -> near 1 x (val p).
Proof. intros L R. apply round64_some in R. destruct R as [<- _]. now apply nearest_rel. Qed.
Lemma round_upper x p : (0 <= x)%Q -> round64 x = Some p -> (val p <= 2 * x + pow2 (-1021))%Q.
Proof.
  intros H R. apply round64_some in R. destruct R as [<- _]. destruct (Qlt_le_dec x (pow2 (-1022))) as [L|L].
  - apply Qle_trans with (val (nearest (pow2 (-1022)))); [apply nearest_mono; lra|].
    destruct (nearest_rel (pow2 (-1022)) (Qle_refl _)) as [_ U]. apply Qle_trans with (1 := U). apply Qle_trans with (pow2 (-1021)); [vm_compute; discriminate|lra].
  - destruct (nearest_rel x L) as [_ U]. apply Qle_trans with (1 := U). pose proof (pow2_pos (-1021)). pose proof ulp_small.
    pose proof (pow2_pos (-1022)). assert (x * ulp <= x * 1)%Q by (apply Qmult_le_l; lra). lra.
Qed.
Lemma round_finite x : (0 <= x)%Q -> (x <= pow10 100)%Q -> exists p, round64 x = Some p /\ canonical64 p.
Proof.
  intros H L. destruct (round64 x) as [p|] eqn:R.
  - exists p. split; [reflexivity|]. apply round64_some in R. destruct R as [<- _]. apply nearest_canonical.
  - exfalso. apply round64_none in R; [|exact H]. unfold out_of_range in R. rewrite (Qabs_pos x H) in R.
    apply (Qle_trans _ _ _ R) in L. vm_compute in L. now apply L.
Qed.
Lemma round_canonical x p : round64 x = Some p -> canonical64 p.
Proof. intros R. apply round64_some in R. destruct R as [<- _]. apply nearest_canonical. Qed.

(** * The powers of ten *)

Lemma pow10_S k : (pow10 (Z.of_nat (S k)) == pow10 (Z.of_nat k) * 10)%Q.
Proof. rewrite Nat2Z.inj_succ. unfold Z.succ. rewrite pow10_plus. reflexivity. Qed.
Lemma ten : exists t, fl_of 10 = Some t /\ (val t == 10)%Q.
Proof. destruct (fl_of_int 10) as (p & E & _ & V); [lia|]. exists p. now split. Qed.

Lemma scale_near k : (k <= 40)%nat -> exists p, scale_pow k = Some p /\ near (inject_Z (2 * Z.of_nat k)) (pow10 (Z.of_nat k)) (val p).
Proof.
  induction k as [|k IH]; intros H.
  - destruct (fl_of_int 1) as (p & E & _ & V); [lia|]. exists p. split; [exact E|]. unfold near. rewrite V. split; vm_compute; discriminate.
  - destruct (IH ltac:(lia)) as (p & E & N). destruct ten as (t & T & V).
    assert (A : (0 <= inject_Z (2 * Z.of_nat k) <= 1000)%Q) by (change 0%Q with (inject_Z 0); change 1000%Q with (inject_Z 1000); rewrite <- !Zle_Qle; lia).
    pose proof (pow10_pos (Z.of_nat k)) as P. pose proof (near_nonneg _ _ _ A (Qlt_le_weak _ _ P) N) as Nn.
    assert (N10 : near (inject_Z (2 * Z.of_nat k)) (pow10 (Z.of_nat (S k))) (val p * val t)).
    { destruct N as [N1 N2]. split; rewrite pow10_S, V.
      - setoid_replace (pow10 (Z.of_nat k) * 10 * (1 - inject_Z (2 * Z.of_nat k) * ulp))%Q with (pow10 (Z.of_nat k) * (1 - inject_Z (2 * Z.of_nat k) * ulp) * 10)%Q by ring.
        apply Qmult_le_compat_r; [exact N1|discriminate].
      - setoid_replace (pow10 (Z.of_nat k) * 10 * (1 + inject_Z (2 * Z.of_nat k) * ulp))%Q with (pow10 (Z.of_nat k) * (1 + inject_Z (2 * Z.of_nat k) * ulp) * 10)%Q by ring.
        apply Qmult_le_compat_r; [exact N2|discriminate]. }
    assert (P' : (1 <= pow10 (Z.of_nat (S k)) /\ pow10 (Z.of_nat (S k)) <= pow10 40)%Q).
    { split; [change 1%Q with (pow10 0)|]; apply pow10_le; lia. }
    destruct (err_small ulp ulp_pos ulp_small _ A) as [A1 A2].
    assert (Lo : ((9 # 10) <= val p * val t)%Q).
    { destruct N10 as [N1 _]. apply Qle_trans with (2 := N1). apply Qle_trans with (1 * (1 - inject_Z (2 * Z.of_nat k) * ulp))%Q; [lra|].
      apply Qmult_le_compat_r; lra. }
    assert (Hi : (val p * val t <= pow10 41)%Q).
    { destruct N10 as [_ N2]. apply Qle_trans with (1 := N2). apply Qle_trans with (pow10 40 * 2)%Q; [|vm_compute; discriminate].
      apply Qmult_le_compat_nonneg; split; lra. }
    destruct (round_finite (val p * val t)) as (q & R & C); [lra|apply Qle_trans with (1 := Hi); apply pow10_le; lia|].
    exists q. cbn [scale_pow]. rewrite E, T. cbn [fl_mul]. change fl_val with val. split; [exact R|].
    assert (M : near 1 (val p * val t) (val q)) by (apply round_near; [apply Qle_trans with (2 := Lo); vm_compute; discriminate|exact R]).
    pose proof (near_trans _ 1 (pow10 (Z.of_nat (S k))) _ _ A ltac:(split; discriminate) ltac:(lra) N10 M) as F.
    replace (2 * Z.of_nat (S k)) with (2 * Z.of_nat k + 2) by lia. rewrite inject_Z_plus.
    destruct F as [F1 F2]. change (inject_Z 2) with (2#1)%Q. setoid_replace (inject_Z (2 * Z.of_nat k) + 1 + 1)%Q with (inject_Z (2 * Z.of_nat k) + 2)%Q in F1 by ring.
    setoid_replace (inject_Z (2 * Z.of_nat k) + 1 + 1)%Q with (inject_Z (2 * Z.of_nat k) + 2)%Q in F2 by ring. now split.
Qed.

(** Larger powers are infinite or at least 10^39. *)
Lemma scale_large k : (40 <= k)%nat -> forall p, scale_pow k = Some p -> (pow10 39 <= val p)%Q.
Proof.
  induction 1 as [|k Hk IH]; intros p E.
  - destruct (scale_near 40) as (q & E' & N & _); [lia|]. rewrite E' in E. injection E as <-. apply Qle_trans with (2 := N). vm_compute. discriminate.
  - cbn [scale_pow] in E. destruct (scale_pow k) as [q|]; [|discriminate]. destruct ten as (t & T & V). rewrite T in E. cbn [fl_mul] in E.
    specialize (IH q eq_refl). change fl_val with val in E.
    assert (L : (10 * pow10 39 <= val q * val t)%Q) by (rewrite V; lra).
    apply round_near in E; [|apply Qle_trans with (2 := L); vm_compute; discriminate]. destruct E as [E _]. apply Qle_trans with (2 := E).
    apply Qle_trans with (10 * pow10 39 * (1 - 1 * ulp))%Q; [vm_compute; discriminate|]. apply Qmult_le_compat_r; [exact L|vm_compute; discriminate].
Qed.

(** * The fraction *)

Lemma inj_le a b : a <= b -> (inject_Z a <= inject_Z b)%Q.
Proof. now rewrite <- Zle_Qle. Qed.
Lemma floor_near y : (inject_Z (Qfloor y) <= y /\ y - 1 <= inject_Z (Qfloor y))%Q.
Proof. destruct (floor_bounds y) as [A B]. split; lra. Qed.

Lemma fraction_error_small f k unit : 0 < f -> f <= 2 ^ 63 -> f < 10 ^ Z.of_nat k -> 0 < unit <= 3600 * 10 ^ 9 -> (k <= 40)%nat ->
  (Qabs (inject_Z (fraction_ns f (scale_pow k) unit) - inject_Z f / pow10 (Z.of_nat k) * inject_Z unit) <= 21 # 20)%Q.
Proof.
  intros Hf Hf2 Lf Hu Hk. unfold fraction_ns. destruct (Z.ltb_spec 0 f) as [_|?]; [|lia].
  destruct (scale_near k Hk) as (s & Es & Ns). rewrite Es.
  destruct (fl_of_int unit) as (u & Eu & _ & Vu); [lia|]. rewrite Eu.
  assert (Uq : (1 <= inject_Z unit /\ inject_Z unit <= inject_Z (3600 * 10 ^ 9))%Q) by (split; [change 1%Q with (inject_Z 1)|]; apply inj_le; lia).
  assert (Fq : (1 <= inject_Z f /\ inject_Z f <= inject_Z (2 ^ 63))%Q) by (split; [change 1%Q with (inject_Z 1)|]; apply inj_le; lia).
  assert (A : (0 <= inject_Z (2 * Z.of_nat k) <= 80)%Q) by (change 0%Q with (inject_Z 0); change 80%Q with (inject_Z 80); rewrite <- !Zle_Qle; lia).
  set (a := inject_Z (2 * Z.of_nat k)) in *.
  assert (A' : (0 <= a <= 1000)%Q) by lra.
  pose proof (pow10_pos (Z.of_nat k)) as PR. assert (R1 : (1 <= pow10 (Z.of_nat k) /\ pow10 (Z.of_nat k) <= pow10 40)%Q).
  { split; [change 1%Q with (pow10 0)|]; apply pow10_le; lia. }
  assert (FR : (inject_Z f <= pow10 (Z.of_nat k))%Q) by (rewrite pow10_Z by lia; apply inj_le; lia).
  set (R := pow10 (Z.of_nat k)) in *.
  (* the power of ten *)
  pose proof (near_inv a R (val s) A' PR Ns) as Ni.
  assert (S1 : ((99 # 100) <= val s /\ val s <= pow10 41)%Q).
  { destruct Ns as [N1 N2]. destruct (err_small ulp ulp_pos ulp_small a A') as [E1 E2]. split.
    - apply Qle_trans with (2 := N1). apply Qle_trans with (1 * (1 - a * ulp))%Q; [lra|]. apply Qmult_le_compat_r; lra.
    - apply Qle_trans with (1 := N2). apply Qle_trans with (pow10 40 * 2)%Q; [|vm_compute; discriminate]. apply Qmult_le_compat_nonneg; split; lra. }
  assert (Sinv : (/ val s <= 2 /\ pow10 (-41) <= / val s)%Q).
  { assert (I : (0 < / val s)%Q) by (apply Qinv_lt_0_compat; lra). assert (X : (val s * / val s == 1)%Q) by (field; lra). split.
    - assert (((99 # 100) * / val s <= val s * / val s)%Q) by (apply Qmult_le_compat_r; lra). lra.
    - assert ((val s * / val s <= pow10 41 * / val s)%Q) by (apply Qmult_le_compat_r; lra). assert (Q1 : (1 <= pow10 41 * / val s)%Q) by lra.
      apply Qmult_lt_0_le_reg_r with (pow10 41); [reflexivity|]. rewrite (Qmult_comm (/ val s)). apply Qle_trans with (2 := Q1). vm_compute. discriminate. }
  (* the quotient *)
  assert (N1 : near (a + 1 + 0 + 1) (/ R * inject_Z unit) (/ val s * inject_Z unit)).
  { apply near_mult; [lra|lra|apply Qlt_le_weak, Qinv_lt_0_compat; lra|lra|exact Ni|apply near_refl; lra]. }
  assert (Q1 : (pow10 (-41) <= / val s * inject_Z unit /\ / val s * inject_Z unit <= 2 * inject_Z (3600 * 10 ^ 9))%Q).
  { split.
    - apply Qle_trans with (pow10 (-41) * 1)%Q; [lra|]. apply Qmult_le_compat_nonneg; (split; [|lra]); [vm_compute|]; discriminate.
    - apply Qmult_le_compat_nonneg; split; try lra. pose proof (pow10_pos (-41)). lra. }
  cbn [fl_div]. change fl_val with val.
  assert (Ediv : (val u / val s == / val s * inject_Z unit)%Q) by (rewrite Vu; unfold Qdiv; apply Qmult_comm).
  rewrite (round64_eq _ _ Ediv).
  destruct (round_finite (/ val s * inject_Z unit)) as (q & Rq & Cq); [pose proof (pow10_pos (-41)); lra|apply Qle_trans with (1 := proj2 Q1); vm_compute; discriminate|].
  rewrite Rq. assert (Mq : near 1 (/ val s * inject_Z unit) (val q)) by (apply round_near; [apply Qle_trans with (2 := proj1 Q1); vm_compute; discriminate|exact Rq]).
  assert (N2 : near (a + 1 + 0 + 1 + 1 + 1) (/ R * inject_Z unit) (val q)).
  { apply (near_trans _ 1 _ (/ val s * inject_Z unit)); [lra|lra| |exact N1|exact Mq]. apply Qmult_le_0_compat; [apply Qlt_le_weak, Qinv_lt_0_compat|]; lra. }
  (* the digits *)
  destruct (round_finite (inject_Z f)) as (g & Rg & Cg); [lra|apply Qle_trans with (1 := proj2 Fq); vm_compute; discriminate|].
  unfold fl_of at 1. rewrite Rg. cbn [fl_mul]. change fl_val with val.
  assert (Mg : near 1 (inject_Z f) (val g)) by (apply round_near; [apply Qle_trans with (2 := proj1 Fq); vm_compute; discriminate|exact Rg]).
  assert (N3 : near (1 + (a + 1 + 0 + 1 + 1 + 1) + 1) (inject_Z f * (/ R * inject_Z unit)) (val g * val q)).
  { apply near_mult; [lra|lra|lra| |exact Mg|exact N2]. apply Qmult_le_0_compat; [apply Qlt_le_weak, Qinv_lt_0_compat|]; lra. }
  set (b := (1 + (a + 1 + 0 + 1 + 1 + 1) + 1)%Q) in *. assert (Hb : (0 <= b <= 86)%Q) by (unfold b; lra).
  set (X := (inject_Z f * (/ R * inject_Z unit))%Q) in *.
  assert (EX : (inject_Z f / R * inject_Z unit == X)%Q) by (unfold X, Qdiv; ring).
  assert (Ri : (0 < / R)%Q) by (now apply Qinv_lt_0_compat).
  assert (X0 : (pow10 (-40) <= X)%Q).
  { assert (RR : (R * / R == 1)%Q) by (field; lra). assert (RL : (R * / R <= pow10 40 * / R)%Q) by (apply Qmult_le_compat_r; lra).
    assert (RI : (pow10 (-40) <= / R)%Q).
    { apply Qmult_lt_0_le_reg_r with (pow10 40); [reflexivity|]. rewrite (Qmult_comm (/ R)). apply Qle_trans with 1%Q; [vm_compute; discriminate|lra]. }
    unfold X. apply Qle_trans with (1 * (pow10 (-40) * 1))%Q; [lra|]. pose proof (pow10_pos (-40)) as P40. apply Qmult_le_compat_nonneg; split; try lra.
    apply Qmult_le_compat_nonneg; split; lra. }
  assert (X1 : (X <= inject_Z unit)%Q).
  { unfold X. setoid_replace (inject_Z f * (/ R * inject_Z unit))%Q with ((inject_Z f * / R) * inject_Z unit)%Q by ring.
    apply Qle_trans with (1 * inject_Z unit)%Q; [|lra]. apply Qmult_le_compat_r; [|lra]. apply Qle_trans with (R * / R)%Q; [apply Qmult_le_compat_r; lra|].
    setoid_replace (R * / R)%Q with 1%Q by (field; lra). lra. }
  destruct (err_small ulp ulp_pos ulp_small b ltac:(lra)) as [Eb1 Eb2].
  assert (Y0 : (pow10 (-41) <= val g * val q)%Q).
  { destruct N3 as [N3 _]. apply Qle_trans with (2 := N3). apply Qle_trans with (pow10 (-40) * (9 # 10))%Q; [vm_compute; discriminate|].
    apply Qmult_le_compat_nonneg; (split; [|lra]); vm_compute; discriminate. }
  destruct (round_finite (val g * val q)) as (y & Ry & Cy); [pose proof (pow10_pos (-41)); lra| |].
  { destruct N3 as [_ N3]. apply Qle_trans with (1 := N3). apply Qle_trans with (inject_Z (3600 * 10 ^ 9) * 2)%Q; [|vm_compute; discriminate].
    pose proof (pow10_pos (-40)). apply Qmult_le_compat_nonneg; split; lra. }
  rewrite Ry. cbn [fl_trunc]. rewrite fl_val_val.
  assert (My : near 1 (val g * val q) (val y)) by (apply round_near; [apply Qle_trans with (2 := Y0); vm_compute; discriminate|exact Ry]).
  assert (N4 : near (b + 1 + 1) X (val y)) by (apply (near_trans _ 1 _ (val g * val q)); [lra|lra|pose proof (pow10_pos (-40)); lra|exact N3|exact My]).
  destruct N4 as [N4 N5]. rewrite EX.
  assert (Err : (X * ((b + 1 + 1) * ulp) <= 1 # 20)%Q).
  { apply Qle_trans with (inject_Z (3600 * 10 ^ 9) * (88 * ulp))%Q; [|vm_compute; discriminate]. pose proof (pow10_pos (-40)).
    apply Qmult_le_compat_nonneg; split; try lra.
    - apply Qmult_le_0_compat; [lra|discriminate].
    - apply Qmult_le_compat_r; [lra|discriminate]. }
  setoid_replace (X * (1 - (b + 1 + 1) * ulp))%Q with (X - X * ((b + 1 + 1) * ulp))%Q in N4 by ring.
  setoid_replace (X * (1 + (b + 1 + 1) * ulp))%Q with (X + X * ((b + 1 + 1) * ulp))%Q in N5 by ring.
  destruct (floor_near (val y)) as [F1 F2]. apply Qabs_Qle_condition. split; lra.
Qed.

(** With many digits nothing is added. *)
Lemma fraction_large f k unit : 0 < f -> f <= 2 ^ 63 -> 0 < unit <= 3600 * 10 ^ 9 -> (40 <= k)%nat -> fraction_ns f (scale_pow k) unit = 0.
Proof.
  intros Hf Hf2 Hu Hk. unfold fraction_ns. destruct (Z.ltb_spec 0 f) as [_|?]; [|lia].
  destruct (fl_of_int unit) as (u & Eu & _ & Vu); [lia|]. rewrite Eu.
  assert (Uq : (1 <= inject_Z unit /\ inject_Z unit <= inject_Z (3600 * 10 ^ 9))%Q) by (split; [change 1%Q with (inject_Z 1)|]; apply inj_le; lia).
  assert (Fq : (1 <= inject_Z f /\ inject_Z f <= inject_Z (2 ^ 63))%Q) by (split; [change 1%Q with (inject_Z 1)|]; apply inj_le; lia).
  destruct (round_finite (inject_Z f)) as (g & Rg & Cg); [lra|apply Qle_trans with (1 := proj2 Fq); vm_compute; discriminate|].
  unfold fl_of. rewrite Rg. assert (Mg : (val g <= inject_Z (2 ^ 64) + 1)%Q).
  { pose proof (round_upper (inject_Z f) _ ltac:(lra) Rg) as U. apply Qle_trans with (1 := U). apply Qle_trans with (2 * inject_Z (2 ^ 63) + pow2 (-1021))%Q; [lra|vm_compute; discriminate]. }
  pose proof (val_nonneg g Cg) as G0.
  assert (Q : exists q, fl_div (Some u) (scale_pow k) = Some q /\ (0 <= val q /\ val q <= pow10 (-25))%Q).
  { destruct (scale_pow k) as [s|] eqn:Es.
    - pose proof (scale_large k Hk s Es) as Ls. assert (S0 : (0 < val s)%Q) by (pose proof (pow10_pos 39); lra).
      assert (B : (0 <= val u / val s /\ val u / val s <= pow10 (-26))%Q).
      { split; [apply Qle_shift_div_l; [exact S0|rewrite Vu; lra]|]. apply Qle_shift_div_r; [exact S0|]. rewrite Vu.
        apply Qle_trans with (pow10 (-26) * pow10 39)%Q; [apply Qle_trans with (1 := proj2 Uq); vm_compute; discriminate|]. apply Qmult_le_l; [reflexivity|exact Ls]. }
      destruct (round_finite (val u / val s)) as (q & Rq & Cq); [lra|apply Qle_trans with (1 := proj2 B); vm_compute; discriminate|].
      exists q. cbn [fl_div]. change fl_val with val. split; [exact Rq|]. split; [now apply val_nonneg|].
      pose proof (round_upper _ _ (proj1 B) Rq) as U. apply Qle_trans with (1 := U).
      apply Qle_trans with (2 * pow10 (-26) + pow2 (-1021))%Q; [lra|vm_compute; discriminate].
    - exists (0, -1074). split; [reflexivity|]. split; vm_compute; discriminate. }
  destruct Q as (q & -> & Q0 & Q1). cbn [fl_mul]. change fl_val with val.
  assert (B : (0 <= val g * val q /\ val g * val q <= pow10 (-5))%Q).
  { split; [now apply Qmult_le_0_compat|]. apply Qle_trans with ((inject_Z (2 ^ 64) + 1) * pow10 (-25))%Q; [|vm_compute; discriminate]. apply Qmult_le_compat_nonneg; split; assumption. }
  destruct (round_finite (val g * val q)) as (y & Ry & Cy); [lra|apply Qle_trans with (1 := proj2 B); vm_compute; discriminate|].
  rewrite Ry. cbn [fl_trunc]. rewrite fl_val_val. pose proof (val_nonneg y Cy) as Y0. pose proof (round_upper _ _ (proj1 B) Ry) as U.
  assert (Y1 : (val y < 1)%Q).
  { apply Qle_lt_trans with (1 := U). apply Qle_lt_trans with (2 * pow10 (-5) + pow2 (-1021))%Q; [lra|vm_compute; reflexivity]. }
  destruct (floor_bounds (val y)) as [F1 F2]. assert (L1 : (inject_Z (Qfloor (val y)) < inject_Z 1)%Q) by (change (inject_Z 1) with 1%Q; lra).
  assert (L2 : (inject_Z (-1) < inject_Z (Qfloor (val y)))%Q) by (change (inject_Z (-1)) with (-1)%Q; lra).
  rewrite <- Zlt_Qlt in L1, L2. lia.
Qed.

Lemma fraction_error f k unit : 0 <= f -> f <= 2 ^ 63 -> f < 10 ^ Z.of_nat k -> 0 < unit <= 3600 * 10 ^ 9 ->
  (Qabs (inject_Z (fraction_ns f (scale_pow k) unit) - inject_Z f / pow10 (Z.of_nat k) * inject_Z unit) <= 21 # 20)%Q /\ 0 <= fraction_ns f (scale_pow k) unit.
Proof.
  intros Hf Hf2 Lf Hu. assert (N : 0 <= fraction_ns f (scale_pow k) unit).
  { unfold fraction_ns. destruct (0 <? f); [|lia]. destruct (fl_mul _ _) as [p|] eqn:E; cbn [fl_trunc]; [|lia].
    unfold fl_mul in E. destruct (fl_of f), (fl_div (fl_of unit) (scale_pow k)); try discriminate E. apply round_canonical, val_nonneg in E. rewrite fl_val_val.
    destruct (floor_bounds (val p)) as [_ F]. assert (L : (inject_Z (-1) < inject_Z (Qfloor (val p)))%Q) by (change (inject_Z (-1)) with (-1)%Q; lra).
    rewrite <- Zlt_Qlt in L. lia. }
  split; [|exact N]. destruct (Z.eq_dec f 0) as [->|Nz].
  - unfold fraction_ns. cbn [Z.ltb Z.compare]. setoid_replace (inject_Z 0 - inject_Z 0 / pow10 (Z.of_nat k) * inject_Z unit)%Q with 0%Q; [discriminate|].
    unfold Qdiv. change (inject_Z 0) with 0%Q. ring.
  - destruct (Nat.le_gt_cases k 40) as [K|K]; [apply fraction_error_small; lia|]. rewrite fraction_large by lia.
    assert (B : (0 <= inject_Z f / pow10 (Z.of_nat k) * inject_Z unit /\ inject_Z f / pow10 (Z.of_nat k) * inject_Z unit <= 1)%Q).
    { pose proof (pow10_pos (Z.of_nat k)) as P.
      assert (L : (pow10 40 <= pow10 (Z.of_nat k))%Q) by (apply pow10_le; lia).
      assert (B1 : (0 <= inject_Z f / pow10 (Z.of_nat k) /\ inject_Z f / pow10 (Z.of_nat k) <= pow10 (-20))%Q).
      { split; [apply Qle_shift_div_l; [exact P|]; rewrite Qmult_0_l; change 0%Q with (inject_Z 0); now apply inj_le|].
        apply Qle_shift_div_r; [exact P|]. apply Qle_trans with (inject_Z (2 ^ 63)); [now apply inj_le|].
        apply Qle_trans with (pow10 (-20) * pow10 40)%Q; [vm_compute; discriminate|]. apply Qmult_le_l; [reflexivity|exact L]. }
      assert (U : (0 <= inject_Z unit /\ inject_Z unit <= inject_Z (3600 * 10 ^ 9))%Q) by (split; [change 0%Q with (inject_Z 0)|]; apply inj_le; lia).
      split; [now apply Qmult_le_0_compat|]. apply Qle_trans with (pow10 (-20) * inject_Z (3600 * 10 ^ 9))%Q; [|vm_compute; discriminate].
      apply Qmult_le_compat_nonneg; split; tauto. }
    apply Qabs_Qle_condition. change (inject_Z 0) with 0%Q. split; lra.
Qed.
