(** Proofs about parsing and printing durations. *)
From Verif Require Import Common Bytes ProcsModel ProcsSpec ProcsProofs ConfNamesProofs ConfsModel ConfsProofs JsonModel JsonSpec JsonProofs JsonFloatModel
  JsonFloatSpec JsonFloatProofs JsonFloatText DurationModel DurationSpec DurationFloat.
From Coq Require Import QArith Qabs Qround Lqa.
Local Open Scope string_scope.
Local Open Scope list_scope.
Local Open Scope Z_scope.
Local Notation chr := String.String.

Lemma version_bounds lim : version lim -> 2 ^ 63 - 1 <= lim <= 2 ^ 63 /\ lim / 10 = (2 ^ 63 - 1) / 10.
Proof. intros [->| ->]; vm_compute; intuition congruence. Qed.

(** * Digits *)

Lemma leading_int_at lim ds rest : version lim -> all_chars is_digit ds -> starts_not is_digit rest -> forall x, 0 <= x <= lim ->
  leading_int lim x (ds +++ rest) = if lim <? x * 10 ^ strlen ds + digits_value ds then None else Some (x * 10 ^ strlen ds + digits_value ds, rest).
Proof.
  intros V. apply version_bounds in V. destruct V as [V V10]. induction ds as [|c ds IH]; intros A N x Hx.
  - rewrite app_nil. cbn [digits_value]. change (strlen "") with 0. rewrite Z.pow_0_r, Z.mul_1_r, Z.add_0_r.
    destruct (Z.ltb_spec lim x); [lia|]. destruct rest as [|c r]; [reflexivity|]. cbn [leading_int]. cbn in N. apply json_digit_not in N. now rewrite N.
  - destruct A as [D A]. rewrite app_chr. cbn [leading_int]. rewrite (proj2 (json_digit_spec c) D). rewrite strlen_chr. cbn [digits_value].
    apply digit_range in D. pose proof (strlen_nonneg ds) as L0. pose proof (digits_value_nonneg ds A) as V0.
    assert (P : 0 < 10 ^ strlen ds) by (apply Z.pow_pos_nonneg; lia).
    rewrite Z.pow_add_r by lia. replace (x * (10 ^ strlen ds * 10 ^ 1) + ((byte c - 48) * 10 ^ strlen ds + digits_value ds))
      with ((x * 10 + (byte c - 48)) * 10 ^ strlen ds + digits_value ds) by ring.
    set (y := x * 10 + (byte c - 48)) in *.
    assert (G : y <= lim \/ lim < y) by lia. destruct (Z.ltb_spec (lim / 10) x) as [Lx|Lx].
    + assert (lim < y) by (unfold y; pose proof (Z.div_mod lim 10 ltac:(lia)); pose proof (Z.mod_pos_bound lim 10 ltac:(lia)); lia).
      destruct (Z.ltb_spec lim (y * 10 ^ strlen ds + digits_value ds)); [reflexivity|nia].
    + cbv zeta. destruct (Z.ltb_spec lim y) as [Ly|Ly].
      * destruct (Z.ltb_spec lim (y * 10 ^ strlen ds + digits_value ds)); [reflexivity|nia].
      * apply IH; [exact A|exact N|unfold y; lia].
Qed.

Lemma leading_fraction_at lim ds rest : all_chars is_digit ds -> starts_not is_digit rest -> forall x sc o,
  leading_fraction lim x sc o (ds +++ rest) = (let '(f, s, _) := leading_fraction lim x sc o ds in (f, s, rest)).
Proof.
  induction ds as [|c ds IH]; intros A N x sc o.
  - rewrite app_nil. cbn [leading_fraction]. destruct rest as [|c r]; [reflexivity|]. cbn [leading_fraction]. cbn in N. apply json_digit_not in N. now rewrite N.
  - destruct A as [D A]. rewrite app_chr. cbn [leading_fraction]. rewrite (proj2 (json_digit_spec c) D). cbv zeta.
    destruct o; [now apply IH|]. destruct ((2 ^ 63 - 1) / 10 <? x); [now apply IH|]. destruct (lim <? x * 10 + (byte c - 48)); now apply IH.
Qed.

(** The digits after the dot that count. *)
Lemma leading_fraction_skip lim ds : all_chars is_digit ds -> forall x sc, leading_fraction lim x sc true ds = (x, sc, "").
Proof. induction ds as [|c ds IH]; intros A x sc; [reflexivity|]. destruct A as [D A]. cbn [leading_fraction]. rewrite (proj2 (json_digit_spec c) D). now apply IH. Qed.
Lemma leading_fraction_kept lim ds : version lim -> all_chars is_digit ds -> forall x k, 0 <= x <= lim ->
  exists d1 d2, ds = d1 +++ d2 /\
    leading_fraction lim x (scale_pow k) false ds = (x * 10 ^ strlen d1 + digits_value d1, scale_pow (k + String.length d1), "") /\
    x * 10 ^ strlen d1 + digits_value d1 <= lim /\ (d2 = "" \/ 9 * 10 ^ 17 <= x * 10 ^ strlen d1 + digits_value d1).
Proof.
  intros V. apply version_bounds in V. destruct V as [V V10].
  induction ds as [|c ds IH]; intros A x k Hx.
  - exists "", "". cbn [leading_fraction digits_value String.length]. change (strlen "") with 0. rewrite Z.pow_0_r, Z.mul_1_r, Z.add_0_r, Nat.add_0_r.
    repeat split; try lia. now left.
  - destruct A as [D A]. cbn [leading_fraction]. rewrite (proj2 (json_digit_spec c) D). apply digit_range in D. cbv zeta.
    assert (Stop : 9 * 10 ^ 17 <= x -> exists d1 d2, chr c ds = d1 +++ d2 /\
       leading_fraction lim x (scale_pow k) true ds = (x * 10 ^ strlen d1 + digits_value d1, scale_pow (k + String.length d1), "") /\
       x * 10 ^ strlen d1 + digits_value d1 <= lim /\ (d2 = "" \/ 9 * 10 ^ 17 <= x * 10 ^ strlen d1 + digits_value d1)).
    { intros G. exists "", (chr c ds). rewrite (leading_fraction_skip lim ds A). cbn [digits_value String.length]. change (strlen "") with 0.
      rewrite Z.pow_0_r, Z.mul_1_r, Z.add_0_r, Nat.add_0_r. repeat split; try lia. }
    change ((2 ^ 63 - 1) / 10) with 922337203685477580. destruct (Z.ltb_spec 922337203685477580 x) as [L|L]; [apply Stop; lia|].
    destruct (Z.ltb_spec lim (x * 10 + (byte c - 48))) as [Ly|Ly]; [apply Stop; lia|].
    destruct (IH A (x * 10 + (byte c - 48)) (S k) ltac:(lia)) as (d1 & d2 & -> & E & B & C).
    exists (chr c d1), d2. cbn [scale_pow] in E. rewrite E. rewrite strlen_chr. cbn [digits_value String.length].
    replace (x * 10 ^ (strlen d1 + 1) + ((byte c - 48) * 10 ^ strlen d1 + digits_value d1)) with ((x * 10 + (byte c - 48)) * 10 ^ strlen d1 + digits_value d1)
      by (rewrite Z.pow_add_r by (pose proof (strlen_nonneg d1); lia); ring).
    replace (k + S (String.length d1))%nat with (S k + String.length d1)%nat by lia. repeat split; assumption.
Qed.

(** * One number with its unit *)

Definition frac_ns (lim : Z) (ds : string) (unit : Z) : Z := let '(f, sc, _) := leading_fraction lim 0 (fl_of 1) false ds in fraction_ns f sc unit.
Definition part_ns (lim : Z) (p : part) : Z := digits_value (whole p) * unit_ns p + frac_ns lim (frac_digits p) (unit_ns p).

Lemma unit_bounds p : good_part p -> 0 < unit_ns p <= 3600 * 10 ^ 9.
Proof.
  intros (_ & _ & _ & H). generalize dependent (unit_ns p). generalize (unit_name p). intros n z H. cbn [units In] in H.
  repeat (destruct H as [H|H]; [injection H as <- <-; lia|]). destruct H.
Qed.

Lemma frac_spec lim ds unit : version lim -> all_chars is_digit ds -> 0 < unit <= 3600 * 10 ^ 9 ->
  0 <= frac_ns lim ds unit /\
  (Qabs (inject_Z (frac_ns lim ds unit) - inject_Z (digits_value ds) / pow10 (strlen ds) * inject_Z unit) <= 11 # 10)%Q /\
  ((10 ^ strlen ds | unit) -> frac_ns lim ds unit * 10 ^ strlen ds = digits_value ds * unit).
Proof.
  intros V A U. pose proof (version_bounds lim V) as [VB _]. destruct (leading_fraction_kept lim ds V A 0 0%nat ltac:(lia)) as (d1 & d2 & E & L & B & C).
  unfold frac_ns. change (fl_of 1) with (scale_pow 0). rewrite L. clear L. rewrite Z.mul_0_l, Z.add_0_l in *. cbn [Nat.add] in *.
  subst ds. apply all_chars_app in A. destruct A as [A1 A2].
  destruct (digits_value_bounds d1 A1) as [P1 P2]. destruct (digits_value_bounds d2 A2) as [P3 P4].
  change (strlen d1) with (Z.of_nat (String.length d1)) in *.
  destruct (fraction_error (digits_value d1) (String.length d1) unit P1 ltac:(lia) P2 U) as [E0 E1]. split; [exact E1|]. split.
  - (* the digits that do not count *)
    set (F := inject_Z (fraction_ns (digits_value d1) (scale_pow (String.length d1)) unit)) in *.
    rewrite digits_value_app, strlen_app. change (strlen d1) with (Z.of_nat (String.length d1)).
    set (k1 := Z.of_nat (String.length d1)) in *. set (k2 := strlen d2) in *. assert (K2 : 0 <= k2) by apply strlen_nonneg.
    assert (X : (inject_Z (digits_value d1 * 10 ^ k2 + digits_value d2) / pow10 (k1 + k2) ==
      inject_Z (digits_value d1) / pow10 k1 + inject_Z (digits_value d2) / (pow10 k1 * pow10 k2))%Q).
    { rewrite inject_Z_plus, inject_Z_mult, <- pow10_Z by exact K2. rewrite pow10_plus. pose proof (pow10_pos k1). pose proof (pow10_pos k2). field. split; lra. }
    rewrite X. assert (Uq : (0 <= inject_Z unit /\ inject_Z unit <= inject_Z (3600 * 10 ^ 9))%Q) by (split; [change 0%Q with (inject_Z 0)|]; apply DurationFloat.inj_le; lia).
    assert (T : (0 <= inject_Z (digits_value d2) / (pow10 k1 * pow10 k2) * inject_Z unit /\ inject_Z (digits_value d2) / (pow10 k1 * pow10 k2) * inject_Z unit <= 1 # 20)%Q).
    { destruct C as [->|C].
      - cbn [digits_value]. setoid_replace (inject_Z 0 / (pow10 k1 * pow10 k2) * inject_Z unit)%Q with 0%Q by (unfold Qdiv; change (inject_Z 0) with 0%Q; ring). split; discriminate.
      - assert (K1 : 17 <= k1).
        { destruct (Z_lt_le_dec k1 17) as [G|G]; [|exact G]. assert (10 ^ k1 <= 10 ^ 17) by (apply Z.pow_le_mono_r; lia). lia. }
        assert (P17 : (pow10 17 <= pow10 k1)%Q) by now apply pow10_le. pose proof (pow10_pos k1) as Q1. pose proof (pow10_pos k2) as Q2. pose proof (pow10_pos 17) as Q17.
        assert (D2 : (0 <= inject_Z (digits_value d2) /\ inject_Z (digits_value d2) <= pow10 k2)%Q).
        { split; [change 0%Q with (inject_Z 0)|rewrite pow10_Z by exact K2]; apply DurationFloat.inj_le; lia. }
        assert (PP : (0 < pow10 k1 * pow10 k2)%Q) by now apply Qmult_lt_0_compat.
        assert (W : (0 <= inject_Z (digits_value d2) / (pow10 k1 * pow10 k2) /\ inject_Z (digits_value d2) / (pow10 k1 * pow10 k2) <= pow10 (-17))%Q).
        { split; [apply Qle_shift_div_l; [exact PP|lra]|]. apply Qle_shift_div_r; [exact PP|].
          apply Qle_trans with (pow10 (-17) * (pow10 17 * pow10 k2))%Q.
          - rewrite Qmult_assoc, <- pow10_plus. change (pow10 (-17 + 17)) with 1%Q. lra.
          - apply Qmult_le_l; [reflexivity|]. now apply Qmult_le_compat_r; [|lra]. }
        split; [apply Qmult_le_0_compat; tauto|]. apply Qle_trans with (pow10 (-17) * inject_Z (3600 * 10 ^ 9))%Q; [|vm_compute; discriminate].
        apply Qmult_le_compat_nonneg; split; tauto. }
    apply Qabs_Qle_condition in E0. destruct E0 as [E2 E3]. apply Qabs_Qle_condition.
    rewrite Qmult_plus_distr_l. set (t := (inject_Z (digits_value d2) / (pow10 k1 * pow10 k2) * inject_Z unit)%Q) in *.
    set (z := (inject_Z (digits_value d1) / pow10 k1 * inject_Z unit)%Q) in *. split; lra.
  - intros Dv. destruct C as [->|C].
    + rewrite append_empty. apply fraction_exact; [exact P1|lia|rewrite append_empty in Dv; exact Dv|exact P2].
    + exfalso. rewrite strlen_app in Dv. apply Z.divide_pos_le in Dv; [|lia]. assert (0 <= strlen d2) by apply strlen_nonneg.
      assert (17 <= Z.of_nat (String.length d1)).
      { destruct (Z_lt_le_dec (Z.of_nat (String.length d1)) 17) as [G|G]; [|exact G]. assert (10 ^ Z.of_nat (String.length d1) <= 10 ^ 17) by (apply Z.pow_le_mono_r; lia). lia. }
      assert (10 ^ 17 <= 10 ^ (strlen d1 + strlen d2)) by (apply Z.pow_le_mono_r; [lia|]; change (strlen d1) with (Z.of_nat (String.length d1)); lia). lia.
Qed.

Definition starts_ok (s : string) : Prop := match s with String.EmptyString => True | chr c _ => digit_or_dot c = true end.
Definition no_number (c : ascii) : Prop := digit_or_dot c = false.

Lemma unit_facts n z : In (n, z) units -> lookup_unit unit_map n = Some z /\ all_chars no_number n /\ n <> "".
Proof.
  intros H. cbn [units In] in H. repeat (destruct H as [H|H]; [injection H as <- <-; repeat split; discriminate|]). destruct H.
Qed.
Lemma no_number_digit c : no_number c -> ~ is_digit c /\ c <> "."%char.
Proof.
  unfold no_number, digit_or_dot. intros H. apply Bool.orb_false_iff in H. destruct H as [H1 H2]. split; [now apply json_digit_not|]. now apply Ascii.eqb_neq.
Qed.
Lemma take_unit_at u rest : all_chars no_number u -> starts_ok rest -> take_unit (u +++ rest) = (u, rest).
Proof.
  induction u as [|c u IH]; intros A N.
  - rewrite app_nil. destruct rest as [|c r]; [reflexivity|]. cbn [take_unit]. cbn in N. now rewrite N.
  - destruct A as [D A]. rewrite app_chr. cbn [take_unit]. unfold no_number in D. now rewrite D, (IH A N).
Qed.
Lemma take_unit_some s : forall u rest, take_unit s = (u, rest) -> s = u +++ rest /\ starts_ok rest.
Proof.
  induction s as [|c s IH]; intros u rest H; cbn [take_unit] in H.
  - injection H as <- <-. now split.
  - destruct (digit_or_dot c) eqn:E; [injection H as <- <-; now split|]. destruct (take_unit s) as [u' r'] eqn:T. injection H as <- <-.
    destruct (IH u' r' eq_refl) as [-> S]. now split.
Qed.

Lemma length_neq a b : negb (Nat.eqb (String.length (a +++ b)) (String.length b)) = negb (a =? "")%string.
Proof.
  rewrite length_app_s. destruct a as [|c a]; cbn [String.length Nat.add]; [now rewrite Nat.eqb_refl|].
  destruct (Nat.eqb_spec (S (String.length a + String.length b)) (String.length b)); [lia|reflexivity].
Qed.
Lemma starts_unit n rest : all_chars no_number n -> n <> "" -> starts_not is_digit (n +++ rest) /\ after_dot (n +++ rest) = None.
Proof.
  intros A N. destruct n as [|c n]; [congruence|]. destruct A as [A _]. apply no_number_digit in A. destruct A as [A1 A2].
  split; [exact A1|]. rewrite app_chr. cbn [after_dot]. now rewrite (proj2 (Ascii.eqb_neq c ".") A2).
Qed.

Lemma part_ns_whole lim p : version lim -> good_part p -> digits_value (whole p) * unit_ns p <= part_ns lim p /\ 0 <= digits_value (whole p) /\ 0 < unit_ns p.
Proof.
  intros V G. pose proof (unit_bounds p G) as U. destruct G as (A & B & _). destruct (frac_spec lim _ _ V B U) as (F & _).
  pose proof (digits_value_nonneg _ A). unfold part_ns. lia.
Qed.

Lemma part_text_first p rest : good_part p -> exists c t, part_text p +++ rest = chr c t /\ digit_or_dot c = true /\ c <> "-"%char /\ c <> "+"%char.
Proof.
  intros (A & B & N & _). unfold part_text, frac_digits in *. destruct (whole p) as [|c w].
  - destruct (frac p) as [f|]; [|destruct N as [N|N]; now contradiction N]. rewrite app_nil. eexists "."%char, _. split; [reflexivity|]. repeat split; discriminate.
  - rewrite !app_chr. eexists c, _. split; [reflexivity|]. destruct A as [A _]. destruct (digit_not_sign c A) as (N1 & N2 & _).
    unfold digit_or_dot. rewrite (proj2 (json_digit_spec c) A). repeat split; assumption.
Qed.

Lemma parse_part_at lim p rest : version lim -> good_part p -> starts_ok rest ->
  parse_part lim (part_text p +++ rest) = if lim <? part_ns lim p then None else Some (part_ns lim p, rest).
Proof.
  intros V G S. pose proof (part_ns_whole lim p V G) as (W1 & W2 & W3). pose proof (version_bounds lim V) as [VB _].
  destruct (part_text_first p rest G) as (c & t & E & D & _).
  unfold parse_part. rewrite E, D. rewrite <- E. clear c t E D. destruct G as (A & B & N & U). destruct (unit_facts _ _ U) as (Lu & Nu & Eu).
  unfold part_text. rewrite !append_assoc'.
  set (tail := (match frac p with Some f => "." +++ f | None => "" end) +++ unit_name p +++ rest).
  assert (T : starts_not is_digit tail).
  { unfold tail. destruct (frac p) as [f|]; [rewrite app_chr; cbn; intros K; apply digit_not_sign in K; tauto|]. rewrite app_nil. now apply starts_unit. }
  rewrite (leading_int_at lim (whole p) tail V A T 0) by lia. rewrite Z.mul_0_l, Z.add_0_l.
  assert (Big : lim < digits_value (whole p) -> lim < part_ns lim p) by (intros; nia).
  destruct (Z.ltb_spec lim (digits_value (whole p))) as [L|L]; [destruct (Z.ltb_spec lim (part_ns lim p)); [reflexivity|lia]|].
  rewrite length_neq.
  assert (Q : forall f sc, frac_ns lim (frac_digits p) (unit_ns p) = fraction_ns f sc (unit_ns p) ->
     (let (u, rest0) := take_unit (unit_name p +++ rest) in
      match lookup_unit unit_map u with
      | Some unit => if lim / unit <? digits_value (whole p) then None
                     else let n := digits_value (whole p) * unit + fraction_ns f sc unit in if lim <? n then None else Some (n, rest0)
      | None => None
      end) = (if lim <? part_ns lim p then None else Some (part_ns lim p, rest))).
  { intros f sc Ef. rewrite take_unit_at by assumption. rewrite Lu. cbv zeta. rewrite <- Ef. fold (part_ns lim p).
    destruct (Z.ltb_spec (lim / unit_ns p) (digits_value (whole p))) as [K|K]; [|reflexivity].
    destruct (Z.ltb_spec lim (part_ns lim p)) as [K2|K2]; [reflexivity|exfalso].
    assert (digits_value (whole p) <= lim / unit_ns p) by (apply Z.div_le_lower_bound; [exact W3|lia]). lia. }
  unfold tail, frac_digits in *. destruct (frac p) as [f|].
  - rewrite append_assoc', app_chr, app_nil. change (after_dot (chr "." (f +++ unit_name p +++ rest))) with (Some (f +++ unit_name p +++ rest)). cbv iota.
    rewrite (leading_fraction_at lim f (unit_name p +++ rest) B) by now apply starts_unit.
    destruct (leading_fraction lim 0 (fl_of 1) false f) as [[x sc] r] eqn:LF. rewrite length_neq.
    assert (negb (whole p =? "")%string || negb (f =? "")%string = true) as ->.
    { destruct (whole p) as [|? ?]; [|reflexivity]. destruct f as [|? ?]; [|reflexivity]. destruct N as [N|N]; now contradiction N. }
    apply Q. unfold frac_ns. now rewrite LF.
  - rewrite app_nil. destruct (starts_unit (unit_name p) rest Nu Eu) as [_ ->].
    assert (negb (whole p =? "")%string || false = true) as ->.
    { destruct (whole p) as [|? ?]; [|reflexivity]. destruct N as [N|N]; now contradiction N. }
    apply Q. reflexivity.
Qed.

(** What is read has the form of a number with a unit. *)
Lemma leading_int_some lim s : forall x v r, leading_int lim x s = Some (v, r) -> exists ds, s = ds +++ r /\ all_chars is_digit ds /\ starts_not is_digit r.
Proof.
  induction s as [|c s IH]; intros x v r H; cbn [leading_int] in H.
  - injection H as <- <-. exists "". repeat split.
  - destruct (json_digit c) eqn:D.
    + destruct (lim / 10 <? x); [discriminate|]. cbv zeta in H. destruct (lim <? _); [discriminate|]. apply IH in H. destruct H as (ds & -> & A & S).
      exists (chr c ds). apply json_digit_spec in D. repeat split; assumption.
    + injection H as <- <-. apply json_digit_not in D. exists "". repeat split. exact D.
Qed.
Lemma leading_fraction_some lim s : forall x sc o f sc' r, leading_fraction lim x sc o s = (f, sc', r) -> exists ds, s = ds +++ r /\ all_chars is_digit ds /\ starts_not is_digit r.
Proof.
  induction s as [|c s IH]; intros x sc o f sc' r H; cbn [leading_fraction] in H.
  - injection H as <- <- <-. exists "". repeat split.
  - destruct (json_digit c) eqn:D.
    + assert (H' : exists x' sc0 o', leading_fraction lim x' sc0 o' s = (f, sc', r)).
      { cbv zeta in H. destruct o; [eauto|]. destruct (_ <? x); [eauto|]. destruct (lim <? _); eauto. }
      destruct H' as (x' & sc0 & o' & H'). apply IH in H'. destruct H' as (ds & -> & A & S). exists (chr c ds). apply json_digit_spec in D. repeat split; assumption.
    + injection H as <- <- <-. apply json_digit_not in D. exists "". repeat split. exact D.
Qed.
Lemma lookup_units u z : lookup_unit unit_map u = Some z -> In (u, z) units.
Proof.
  unfold unit_map. cbn [lookup_unit]. intros H.
  repeat match type of H with (if (?n =? u)%string then _ else _) = _ => destruct (String.eqb_spec n u) as [<-|_]; [injection H as <-; cbn [units In]; tauto|] end.
  discriminate.
Qed.
Lemma parse_part_some lim s n rest : parse_part lim s = Some (n, rest) -> exists p, good_part p /\ s = part_text p +++ rest /\ starts_ok rest.
Proof.
  unfold parse_part. intros H. destruct s as [|c s0]; [discriminate|]. set (s := chr c s0) in *. destruct (digit_or_dot c); [|discriminate].
  destruct (leading_int lim 0 s) as [[v s1]|] eqn:L; [|discriminate]. apply leading_int_some in L. destruct L as (w & E & A & S). rewrite E in *. rewrite length_neq in H.
  destruct (after_dot s1) as [s1'|] eqn:Ad.
  - assert (E1 : s1 = "." +++ s1').
    { destruct s1 as [|d s1]; [discriminate|]. cbn [after_dot] in Ad. destruct (Ascii.eqb_spec d "."); [|discriminate]. subst d. injection Ad as ->. reflexivity. }
    destruct (leading_fraction lim 0 (fl_of 1) false s1') as [[f sc] s2] eqn:LF. apply leading_fraction_some in LF. destruct LF as (fd & -> & B & _).
    rewrite length_neq in H. destruct (_ || _) eqn:N in H; [|discriminate]. destruct (take_unit s2) as [u r] eqn:T. apply take_unit_some in T. destruct T as [-> So].
    destruct (lookup_unit unit_map u) as [z|] eqn:Lu; [|discriminate]. apply lookup_units in Lu.
    assert (r = rest). { destruct (_ <? v); [discriminate|]. cbv zeta in H. destruct (lim <? _); [discriminate|]. congruence. } subst r.
    exists (mkPart w (Some fd) u z). unfold good_part, part_text, frac_digits. cbn [whole frac unit_name unit_ns]. repeat split; try assumption.
    + apply Bool.orb_true_iff in N. destruct N as [N|N]; [left|right]; intros ->; discriminate N.
    + rewrite E1. now rewrite !append_assoc'.
  - rewrite Bool.orb_false_r in H. destruct (negb _) eqn:N in H; [|discriminate]. destruct (take_unit s1) as [u r] eqn:T. apply take_unit_some in T. destruct T as [-> So].
    destruct (lookup_unit unit_map u) as [z|] eqn:Lu; [|discriminate]. apply lookup_units in Lu.
    assert (r = rest). { destruct (_ <? v); [discriminate|]. cbv zeta in H. destruct (lim <? _); [discriminate|]. congruence. } subst r.
    exists (mkPart w None u z). unfold good_part, part_text, frac_digits. cbn [whole frac unit_name unit_ns]. repeat split; try assumption.
    + left. intros ->. discriminate N.
    + now rewrite !append_assoc'.
Qed.

(** * All of them *)

Fixpoint sum_parts (lim d : Z) (ps : list part) : option Z :=
  match ps with
  | [] => Some d
  | p :: ps => if lim <? part_ns lim p then None
               else let d' := (d + part_ns lim p) mod 2 ^ 64 in if lim <? d' then None else sum_parts lim d' ps
  end.

Lemma parts_starts ps : Forall good_part ps -> starts_ok (parts_text ps).
Proof.
  intros F. destruct F as [|p ps G F]; [exact I|]. cbn [parts_text]. destruct (part_text_first p (parts_text ps) G) as (c & t & -> & D & _). exact D.
Qed.
Lemma parse_parts_at lim ps : version lim -> Forall good_part ps -> forall fuel d, (String.length (parts_text ps) < fuel)%nat ->
  parse_parts fuel lim d (parts_text ps) = sum_parts lim d ps.
Proof.
  intros V F. induction F as [|p ps G F IH]; intros fuel d L; (destruct fuel as [|fuel]; [lia|]); [reflexivity|].
  cbn [parts_text parse_parts sum_parts]. pose proof (parts_starts ps F) as So. destruct (part_text_first p (parts_text ps) G) as (c & t & E & _).
  rewrite (parse_part_at lim p (parts_text ps) V G So). cbn [parts_text] in L.
  assert (L' : (String.length (parts_text ps) < String.length (part_text p +++ parts_text ps))%nat).
  { rewrite length_app_s. destruct G as (_ & _ & _ & U). destruct (unit_facts _ _ U) as (_ & _ & N). unfold part_text. rewrite !length_app_s.
    destruct (unit_name p); [congruence|]. cbn [String.length]. lia. }
  rewrite E at 1. cbn [String.eqb]. destruct (lim <? part_ns lim p); [reflexivity|]. cbv zeta. destruct (lim <? _); [reflexivity|]. apply IH. lia.
Qed.
Lemma parse_parts_some lim fuel : forall d s r, parse_parts fuel lim d s = Some r -> exists ps, Forall good_part ps /\ s = parts_text ps.
Proof.
  induction fuel as [|fuel IH]; intros d s r H; cbn [parse_parts] in H; [discriminate|].
  destruct (String.eqb_spec s "") as [->|N]; [exists []; now split|].
  destruct (parse_part lim s) as [[n rest]|] eqn:P; [|discriminate]. apply parse_part_some in P. destruct P as (p & G & -> & _).
  cbv zeta in H. destruct (lim <? _); [discriminate|]. apply IH in H. destruct H as (ps & F & ->). exists (p :: ps). split; [now constructor|reflexivity].
Qed.

Lemma parts_text_first ps : ps <> [] -> Forall good_part ps -> exists c t, parts_text ps = chr c t /\ c <> "-"%char /\ c <> "+"%char.
Proof.
  intros N F. destruct F as [|p ps G F]; [congruence|]. destruct (part_text_first p (parts_text ps) G) as (c & t & E & _ & A & B). exists c, t. now split.
Qed.
Lemma take_sign_at sg neg c t : sign_text sg neg -> c <> "-"%char -> c <> "+"%char -> take_sign (sg +++ chr c t) = (neg, chr c t).
Proof.
  intros H N1 N2. destruct H as [[-> ->]|[[->| ->] ->]]; [reflexivity| |reflexivity]. rewrite app_nil. cbn [take_sign].
  now rewrite (proj2 (Ascii.eqb_neq c "-") N1), (proj2 (Ascii.eqb_neq c "+") N2).
Qed.
Lemma take_sign_some s neg r : take_sign s = (neg, r) -> exists sg, sign_text sg neg /\ s = sg +++ r.
Proof.
  unfold take_sign. destruct s as [|c s]; [intros H; injection H as <- <-; exists ""; split; [right; split; [now left|reflexivity]|reflexivity]|].
  destruct (Ascii.eqb_spec c "-") as [->|N1]; [intros H; injection H as <- <-; exists "-"; split; [now left|reflexivity]|].
  destruct (Ascii.eqb_spec c "+") as [->|N2]; intros H; injection H as <- <-; [exists "+"|exists ""]; (split; [right; split; [tauto|reflexivity]|reflexivity]).
Qed.

Lemma parts_not_zero ps : Forall good_part ps -> parts_text ps <> "0".
Proof.
  intros F E. destruct F as [|p ps G F]; [discriminate|]. destruct G as (A & B & N & U). destruct (unit_facts _ _ U) as (_ & Nu & Eu).
  cbn [parts_text] in E. unfold part_text in E. apply (f_equal String.length) in E as EL. rewrite !length_app_s in EL.
  destruct (unit_name p) as [|c u]; [congruence|]. cbn [String.length] in EL. destruct Nu as [Nc _].
  assert (W : whole p = "") by (destruct (whole p); [reflexivity|cbn [String.length] in EL; lia]). rewrite W in *.
  destruct (frac p) as [f|] eqn:Ef; [cbn in EL; lia|]. unfold frac_digits in N. rewrite Ef in N. destruct N as [N|N]; now contradiction N.
Qed.

Lemma parse_duration_at lim s neg ps : version lim -> duration_text s neg ps ->
  parse_duration lim s = match sum_parts lim 0 ps with
                         | None => None
                         | Some d => if neg then Some (- d) else if 2 ^ 63 - 1 <? d then None else Some d
                         end.
Proof.
  intros V (Ne & F & sg & Sg & ->). destruct (parts_text_first ps Ne F) as (c & t & E & N1 & N2). unfold parse_duration. rewrite E.
  rewrite (take_sign_at sg neg c t Sg N1 N2). rewrite <- E. pose proof (parts_not_zero ps F) as Z0.
  destruct (String.eqb_spec (parts_text ps) "0") as [K|_]; [contradiction|]. destruct (String.eqb_spec (parts_text ps) "") as [K|_]; [rewrite K in E; discriminate|].
  rewrite (parse_parts_at lim ps V F) by lia. reflexivity.
Qed.
Lemma parse_zero lim s : zero_text s -> parse_duration lim s = Some 0.
Proof. intros (sg & neg & Sg & ->). unfold parse_duration. rewrite (take_sign_at sg neg "0" "" Sg) by discriminate. reflexivity. Qed.
Lemma parse_duration_some lim s d : parse_duration lim s = Some d -> (zero_text s /\ d = 0) \/ exists neg ps, duration_text s neg ps.
Proof.
  unfold parse_duration. destruct (take_sign s) as [neg r] eqn:T. apply take_sign_some in T. destruct T as (sg & Sg & ->).
  destruct (String.eqb_spec r "0") as [->|_]; [intros H; injection H as <-; left; split; [now exists sg, neg|reflexivity]|].
  destruct (String.eqb_spec r "") as [->|Nr]; [discriminate|]. destruct (parse_parts _ lim 0 r) as [v|] eqn:P; [|discriminate]. intros _.
  apply parse_parts_some in P. destruct P as (ps & F & ->). right. exists neg, ps. split; [intros ->; now apply Nr|]. split; [exact F|now exists sg].
Qed.

(** * Values *)

Fixpoint ns_sum (lim : Z) (ps : list part) : Z := match ps with [] => 0 | p :: ps => part_ns lim p + ns_sum lim ps end.

Lemma part_ns_nonneg lim p : version lim -> good_part p -> 0 <= part_ns lim p.
Proof. intros V G. destruct (part_ns_whole lim p V G) as (A & B & C). nia. Qed.
Lemma ns_sum_nonneg lim ps : version lim -> Forall good_part ps -> 0 <= ns_sum lim ps.
Proof. intros V F. induction F as [|p ps G F IH]; cbn [ns_sum]; [lia|]. pose proof (part_ns_nonneg lim p V G). lia. Qed.

Lemma sum_parts_some lim ps : version lim -> Forall good_part ps -> forall d r, 0 <= d <= lim -> lim = go1_17 \/ d + ns_sum lim ps < 2 ^ 64 ->
  sum_parts lim d ps = Some r -> r = d + ns_sum lim ps /\ r <= lim.
Proof.
  intros V F. pose proof (version_bounds lim V) as [VB _]. induction F as [|p ps G F IH]; intros d r Hd W H; cbn [sum_parts ns_sum] in *.
  - injection H as <-. lia.
  - pose proof (part_ns_nonneg lim p V G) as P. pose proof (ns_sum_nonneg lim ps V F) as Q.
    destruct (Z.ltb_spec lim (part_ns lim p)) as [L|L]; [discriminate|]. cbv zeta in H.
    assert (E : (d + part_ns lim p) mod 2 ^ 64 = d + part_ns lim p) by (apply Z.mod_small; destruct W as [->|W]; [unfold go1_17 in *|]; lia).
    rewrite E in H. destruct (Z.ltb_spec lim (d + part_ns lim p)) as [L2|L2]; [discriminate|].
    apply IH in H; [lia|lia|destruct W; [now left|right; lia]].
Qed.
Lemma sum_parts_fits lim ps : version lim -> Forall good_part ps -> forall d, 0 <= d -> d + ns_sum lim ps <= lim -> sum_parts lim d ps = Some (d + ns_sum lim ps).
Proof.
  intros V F. pose proof (version_bounds lim V) as [VB _]. induction F as [|p ps G F IH]; intros d Hd W; cbn [sum_parts ns_sum] in *; [f_equal; lia|].
  pose proof (part_ns_nonneg lim p V G) as P. pose proof (ns_sum_nonneg lim ps V F) as Q.
  destruct (Z.ltb_spec lim (part_ns lim p)) as [L|L]; [lia|]. cbv zeta. rewrite Z.mod_small by lia.
  destruct (Z.ltb_spec lim (d + part_ns lim p)) as [L2|L2]; [lia|]. rewrite IH by lia. f_equal. lia.
Qed.
Lemma sum_parts_range lim ps : version lim -> forall d r, 0 <= d <= lim -> sum_parts lim d ps = Some r -> 0 <= r <= lim.
Proof.
  intros V. induction ps as [|p ps IH]; intros d r Hd H; cbn [sum_parts] in H; [injection H as <-; exact Hd|].
  destruct (lim <? _); [discriminate|]. cbv zeta in H. destruct (Z.ltb_spec lim ((d + part_ns lim p) mod 2 ^ 64)) as [L|L]; [discriminate|].
  apply IH in H; [exact H|]. pose proof (Z.mod_pos_bound (d + part_ns lim p) (2 ^ 64) ltac:(lia)). lia.
Qed.

Lemma part_error lim p : version lim -> good_part p ->
  (Qabs (inject_Z (part_ns lim p) - part_value p) <= 11 # 10)%Q /\ (whole_ns p -> inject_Z (part_ns lim p) == part_value p)%Q.
Proof.
  intros V G. pose proof (unit_bounds p G) as U. destruct G as (A & B & _). destruct (frac_spec lim _ _ V B U) as (_ & E & X).
  unfold part_ns, part_value, whole_ns. rewrite inject_Z_plus, inject_Z_mult. change (Qpower 10 (strlen (frac_digits p))) with (pow10 (strlen (frac_digits p))).
  set (F := inject_Z (frac_ns lim (frac_digits p) (unit_ns p))) in *. pose proof (pow10_pos (strlen (frac_digits p))) as P. split.
  - eapply Qle_trans; [|exact E]. apply Qle_lteq. right. apply Qabs_wd. field. lra.
  - intros D. specialize (X D). assert (Y : (inject_Z (frac_ns lim (frac_digits p) (unit_ns p) * 10 ^ strlen (frac_digits p)) == inject_Z (digits_value (frac_digits p) * unit_ns p))%Q) by (rewrite X; reflexivity).
    clear X. rename Y into X. rewrite !inject_Z_mult in X. rewrite <- pow10_Z in X by apply strlen_nonneg. fold F in X.
    set (r := pow10 (strlen (frac_digits p))) in *. set (f := inject_Z (digits_value (frac_digits p))) in *. set (u := inject_Z (unit_ns p)) in *.
    assert (X' : (F == f / r * u)%Q).
    { setoid_replace (f / r * u)%Q with (f * u / r)%Q by (field; lra). rewrite <- X. field. lra. }
    rewrite X'. ring.
Qed.

Lemma inj_count ps p : (inject_Z (count (p :: ps)) == inject_Z (count ps) + 1)%Q.
Proof. unfold count. cbn [List.length]. rewrite Nat2Z.inj_succ. unfold Z.succ. rewrite inject_Z_plus. reflexivity. Qed.
Lemma sum_error lim ps : version lim -> Forall good_part ps ->
  (Qabs (inject_Z (ns_sum lim ps) - total ps) <= (11 # 10) * inject_Z (count ps))%Q /\
  (Forall whole_ns ps -> inject_Z (ns_sum lim ps) == total ps)%Q.
Proof.
  intros V F. induction F as [|p ps G F [IH1 IH2]]; cbn [ns_sum total].
  - split; [vm_compute; discriminate|reflexivity].
  - destruct (part_error lim p V G) as [E X]. rewrite inject_Z_plus, inj_count. apply Qabs_Qle_condition in E, IH1. split.
    + apply Qabs_Qle_condition. lra.
    + intros H. inversion H as [|? ? W Ws]; subst. rewrite (X W), (IH2 Ws). reflexivity.
Qed.


Lemma signed_opp (neg : bool) (z : Z) x : (Qabs (inject_Z (if neg then - z else z)%Z - signed neg x) == Qabs (inject_Z z - x))%Q.
Proof.
  destruct neg; cbn [signed]; [|reflexivity]. rewrite inject_Z_opp. setoid_replace (- inject_Z z - - x)%Q with (- (inject_Z z - x))%Q by ring. apply Qabs_opp.
Qed.

Lemma count_bound ps b : (total ps + 2 * inject_Z (count ps) <= inject_Z b)%Q -> forall lim, version lim -> Forall good_part ps -> ns_sum lim ps <= b.
Proof.
  intros H lim V F. destruct (sum_error lim ps V F) as [E _]. apply Qabs_Qle_condition in E.
  assert (C : (0 <= inject_Z (count ps))%Q) by (change 0%Q with (inject_Z 0); apply DurationFloat.inj_le; unfold count; lia).
  rewrite Zle_Qle. lra.
Qed.

Lemma parsed_value lim s neg ps d : version lim -> duration_text s neg ps ->
  lim = go1_17 \/ (total ps + 2 * inject_Z (count ps) <= inject_Z (2 ^ 64 - 1))%Q -> parse_duration lim s = Some d ->
  near_total d neg ps /\ (Forall whole_ns ps -> inject_Z d == signed neg (total ps))%Q.
Proof.
  intros V T W H. rewrite (parse_duration_at lim s neg ps V T) in H. destruct T as (_ & F & _). pose proof (version_bounds lim V) as [VB _].
  destruct (sum_parts lim 0 ps) as [r|] eqn:E; [|discriminate].
  apply sum_parts_some in E; [|exact V|exact F|lia|destruct W as [W|W]; [now left|right]].
  2:{ pose proof (count_bound ps _ W lim V F). lia. }
  destruct E as [E _]. rewrite Z.add_0_l in E. assert (D : d = if neg then - r else r).
  { destruct neg; [congruence|]. destruct (_ <? r); [discriminate|congruence]. }
  destruct (sum_error lim ps V F) as [S1 S2]. unfold near_total. rewrite D, signed_opp, E. split; [exact S1|].
  intros Wn. specialize (S2 Wn). destruct neg; cbn [signed]; [rewrite inject_Z_opp|]; now rewrite S2.
Qed.
Lemma parsed_range lim s d : version lim -> parse_duration lim s = Some d -> - 2 ^ 63 <= d < 2 ^ 63.
Proof.
  intros V H. destruct (parse_duration_some lim s d H) as [[_ ->]|(neg & ps & T)]; [lia|]. rewrite (parse_duration_at lim s neg ps V T) in H.
  pose proof (version_bounds lim V) as [VB _]. destruct (sum_parts lim 0 ps) as [r|] eqn:E; [|discriminate]. apply sum_parts_range in E; [|exact V|lia].
  destruct neg; [injection H as <-; lia|]. destruct (Z.ltb_spec (2 ^ 63 - 1) r); [discriminate|]. injection H as <-. lia.
Qed.
Lemma parse_fits lim s neg ps : version lim -> duration_text s neg ps -> ns_sum lim ps <= lim -> neg = true \/ ns_sum lim ps <= 2 ^ 63 - 1 ->
  parse_duration lim s = Some (if neg then - ns_sum lim ps else ns_sum lim ps).
Proof.
  intros V T L N. rewrite (parse_duration_at lim s neg ps V T). destruct T as (_ & F & _). rewrite (sum_parts_fits lim ps V F) by lia. rewrite Z.add_0_l.
  destruct neg; [reflexivity|]. destruct (Z.ltb_spec (2 ^ 63 - 1) (ns_sum lim ps)); [|reflexivity]. destruct N; [discriminate|lia].
Qed.
Lemma parse_complete lim s neg ps : version lim -> duration_text s neg ps ->
  (total ps + 2 * inject_Z (count ps) <= inject_Z (2 ^ 63 - 1))%Q \/ (Forall whole_ns ps /\ (total ps <= inject_Z (2 ^ 63 - 1))%Q) ->
  exists d, parse_duration lim s = Some d.
Proof.
  intros V T H. pose proof (version_bounds lim V) as [VB _]. assert (B : ns_sum lim ps <= 2 ^ 63 - 1).
  { destruct T as (_ & F & _). destruct H as [H|[Wn H]]; [now apply count_bound|]. destruct (sum_error lim ps V F) as [_ E]. specialize (E Wn).
    rewrite Zle_Qle. now rewrite E. }
  eexists. apply (parse_fits lim s neg ps V T); [lia|now right].
Qed.

(** * Printing *)

Lemma pow10_nat_S n : 10 ^ Z.of_nat (S n) = 10 * 10 ^ Z.of_nat n.
Proof. rewrite Nat2Z.inj_succ, Z.pow_succ_r by lia. reflexivity. Qed.
Lemma digit_char k : 0 <= k < 10 -> is_digit (char_of (k + 48)) /\ byte (char_of (k + 48)) = k + 48.
Proof.
  intros H. assert (C : k = 0 \/ k = 1 \/ k = 2 \/ k = 3 \/ k = 4 \/ k = 5 \/ k = 6 \/ k = 7 \/ k = 8 \/ k = 9) by lia.
  repeat (destruct C as [->|C]; [split; [cbn; tauto|reflexivity]|]). subst k. split; [cbn; tauto|reflexivity].
Qed.
Lemma mod_split v n : v mod 10 ^ Z.of_nat (S n) = (v / 10) mod 10 ^ Z.of_nat n * 10 + v mod 10 /\ v / 10 / 10 ^ Z.of_nat n = v / 10 ^ Z.of_nat (S n).
Proof.
  rewrite pow10_nat_S. assert (P : 0 < 10 ^ Z.of_nat n) by (apply Z.pow_pos_nonneg; lia). split; [|apply Z.div_div; lia].
  rewrite Z.rem_mul_r by lia. ring.
Qed.
Lemma snoc_value a c : digits_value (a +++ chr c "") = digits_value a * 10 + (byte c - 48).
Proof. rewrite digits_value_app. cbn [digits_value]. change (strlen (chr c "")) with 1. change (strlen "") with 0. ring. Qed.

Lemma fmt_frac_print n : forall v acc, exists ds, fmt_frac n v acc true = (chr "." (ds +++ acc), v / 10 ^ Z.of_nat n) /\
  all_chars is_digit ds /\ strlen ds = Z.of_nat n /\ digits_value ds = v mod 10 ^ Z.of_nat n.
Proof.
  induction n as [|n IH]; intros v acc; cbn [fmt_frac].
  - exists "". rewrite app_nil. change (10 ^ Z.of_nat 0) with 1. rewrite Z.div_1_r, Z.mod_1_r. repeat split.
  - cbn [orb]. destruct (IH (v / 10) (chr (char_of (v mod 10 + 48)) acc)) as (ds & E & A & L & D). rewrite E.
    destruct (digit_char (v mod 10)) as [C1 C2]; [apply Z.mod_pos_bound; lia|]. destruct (mod_split v n) as [M1 M2].
    exists (ds +++ chr (char_of (v mod 10 + 48)) ""). rewrite append_assoc', app_chr, app_nil. repeat split.
    + now rewrite M2.
    + apply all_chars_app. repeat split; assumption.
    + rewrite strlen_app, L, strlen_chr. change (strlen "") with 0. lia.
    + rewrite snoc_value, D, C2, M1. lia.
Qed.
Lemma fmt_frac_spec n : forall v, exists t, fmt_frac n v "" false = (t, v / 10 ^ Z.of_nat n) /\
  ((t = "" /\ v mod 10 ^ Z.of_nat n = 0) \/
   exists ds, t = chr "." ds /\ all_chars is_digit ds /\ ds <> "" /\ (forall u, ds <> u +++ "0") /\ strlen ds <= Z.of_nat n /\
     digits_value ds * 10 ^ (Z.of_nat n - strlen ds) = v mod 10 ^ Z.of_nat n).
Proof.
  induction n as [|n IH]; intros v; cbn [fmt_frac].
  - exists "". change (10 ^ Z.of_nat 0) with 1. rewrite Z.div_1_r, Z.mod_1_r. split; [reflexivity|now left].
  - cbn [orb]. destruct (mod_split v n) as [M1 M2]. destruct (Z.eqb_spec (v mod 10) 0) as [Z0|Z0]; cbn [negb].
    + destruct (IH (v / 10)) as (t & E & C). exists t. rewrite E, M2. split; [reflexivity|]. rewrite M1, Z0.
      destruct C as [[C1 C2]|(ds & C1 & C2 & C3 & C4 & C5 & C6)]; [left; split; [exact C1|lia]|]. right. exists ds. repeat split; try assumption; [lia|].
      rewrite Nat2Z.inj_succ. replace (Z.succ (Z.of_nat n) - strlen ds) with (1 + (Z.of_nat n - strlen ds)) by lia. rewrite Z.pow_add_r by lia. lia.
    + destruct (fmt_frac_print n (v / 10) (chr (char_of (v mod 10 + 48)) "")) as (ds & E & A & L & D). rewrite E, M2.
      destruct (digit_char (v mod 10)) as [C1 C2]; [apply Z.mod_pos_bound; lia|].
      eexists. split; [reflexivity|]. right. exists (ds +++ chr (char_of (v mod 10 + 48)) ""). split; [reflexivity|]. split; [apply all_chars_app; repeat split; assumption|].
      split; [intros K; apply (f_equal String.length) in K; rewrite length_app_s in K; cbn in K; lia|].
      split.
      { intros u K. assert (KV : digits_value (ds +++ chr (char_of (v mod 10 + 48)) "") mod 10 = digits_value (u +++ "0") mod 10) by now rewrite K.
        rewrite !snoc_value, C2 in KV. change (byte "0" - 48) with 0 in KV. pose proof (Z.mod_pos_bound v 10 ltac:(lia)).
        rewrite (Z.add_comm (digits_value ds * 10)), (Z.add_comm (digits_value u * 10)), !Z_mod_plus_full in KV. rewrite Z.mod_small in KV by lia. change (0 mod 10) with 0 in KV. lia. }
      rewrite strlen_app, L, strlen_chr. change (strlen "") with 0. split; [lia|]. rewrite snoc_value, D, C2, M1.
      replace (Z.of_nat (S n) - (Z.of_nat n + (0 + 1))) with 0 by lia. rewrite Z.pow_0_r. lia.
Qed.

(** A number of units with the last [n] digits of [v]. *)
Lemma shown_part n v w name f rest : In (name, 10 ^ Z.of_nat n) units -> 0 <= w -> fmt_frac n v "" false = (f, rest) ->
  exists p, good_part p /\ whole_ns p /\ tidy p /\ part_text p = itoa w +++ f +++ name /\ whole p = itoa w /\ unit_name p = name /\ unit_ns p = 10 ^ Z.of_nat n /\
    (part_value p == inject_Z (w * 10 ^ Z.of_nat n + v mod 10 ^ Z.of_nat n))%Q /\ rest = v / 10 ^ Z.of_nat n.
Proof.
  intros U Hw E. destruct (itoa_value w Hw) as (V & A & N). destruct (fmt_frac_spec n v) as (t & E' & C). rewrite E in E'. injection E' as <- ->.
  pose proof (pow10_Z (Z.of_nat n) ltac:(lia)) as PZ.
  destruct C as [[-> C]|(ds & -> & C2 & C3 & C4 & C5 & C6)].
  - exists (mkPart (itoa w) None name (10 ^ Z.of_nat n)). unfold good_part, whole_ns, tidy, part_text, part_value, frac_digits. cbn [whole frac unit_name unit_ns].
    rewrite V, C. split; [repeat split; auto; exact U|]. split; [apply Z.divide_1_l|]. split; [split; [now exists w|exact I]|].
    repeat split. rewrite Z.add_0_r, inject_Z_mult. cbn [digits_value]. change (Qpower 10 (strlen "")) with 1%Q. change (inject_Z 0 / 1)%Q with 0%Q. ring.
  - exists (mkPart (itoa w) (Some ds) name (10 ^ Z.of_nat n)). unfold good_part, whole_ns, tidy, part_text, part_value, frac_digits. cbn [whole frac unit_name unit_ns].
    split; [repeat split; auto; exact U|].
    split; [exists (10 ^ (Z.of_nat n - strlen ds)); rewrite <- Z.pow_add_r by (pose proof (strlen_nonneg ds); lia); f_equal; lia|].
    split; [split; [now exists w|now split]|]. repeat split. rewrite V, <- C6, inject_Z_plus, !inject_Z_mult.
    change (Qpower 10 (strlen ds)) with (pow10 (strlen ds)). rewrite <- !pow10_Z by lia. pose proof (pow10_pos (strlen ds)) as P. pose proof (pow10_pos (Z.of_nat n - strlen ds)) as P2.
    assert (S : (pow10 (Z.of_nat n) == pow10 (Z.of_nat n - strlen ds) * pow10 (strlen ds))%Q) by (rewrite <- pow10_plus; replace (Z.of_nat n - strlen ds + strlen ds) with (Z.of_nat n) by lia; reflexivity).
    rewrite S. field. lra.
Qed.
Lemma shown_int w name z : In (name, z) units -> 0 <= w ->
  exists p, good_part p /\ whole_ns p /\ tidy p /\ part_text p = itoa w +++ name /\ whole p = itoa w /\ unit_name p = name /\ (part_value p == inject_Z (w * z))%Q.
Proof.
  intros U Hw. destruct (itoa_value w Hw) as (V & A & N). exists (mkPart (itoa w) None name z). unfold good_part, whole_ns, tidy, part_text, part_value, frac_digits.
  cbn [whole frac unit_name unit_ns]. rewrite V. split; [repeat split; auto; exact U|]. split; [apply Z.divide_1_l|]. split; [split; [now exists w|exact I]|].
  repeat split. rewrite inject_Z_mult. cbn [digits_value]. change (Qpower 10 (strlen "")) with 1%Q. change (inject_Z 0 / 1)%Q with 0%Q. ring.
Qed.

(** The printed text. *)
Definition shown (u : Z) (t : string) (ps : list part) : Prop :=
  ps <> [] /\ Forall good_part ps /\ t = parts_text ps /\ (total ps == inject_Z u)%Q /\ Forall whole_ns ps /\ Forall tidy ps /\
  map unit_name ps = chosen_units u /\ Forall below_60 (tl ps).

Lemma chosen_seconds u : 10 ^ 9 <= u -> chosen_units u = if u <? 60 * 10 ^ 9 then ["s"] else if u <? 3600 * 10 ^ 9 then ["m"; "s"] else ["h"; "m"; "s"].
Proof.
  intros H. unfold chosen_units. destruct (Z.eqb_spec u 0); [lia|]. destruct (Z.ltb_spec u (10 ^ 3)); [lia|]. destruct (Z.ltb_spec u (10 ^ 6)); [lia|].
  destruct (Z.ltb_spec u (10 ^ 9)); [lia|]. reflexivity.
Qed.
Lemma show_seconds_shown u : 10 ^ 9 <= u -> exists ps, shown u (show_seconds u) ps.
Proof.
  intros H. unfold show_seconds. destruct (fmt_frac 9 u "" false) as [f s] eqn:E. pose proof (Z.mod_pos_bound s 60 ltac:(lia)) as B60.
  destruct (shown_part 9 u (s mod 60) "s" f s) as (ps & Gs & Ws & Ts & Xs & Hs & Us & _ & Vs & Es); [cbn; tauto|lia|exact E|].
  change (Z.of_nat 9) with 9 in *. destruct (itoa_value (s mod 60)) as (Is & _); [lia|].
  pose proof (Z.div_mod u (10 ^ 9) ltac:(lia)) as Du. rewrite <- Es in Du. pose proof (Z.mod_pos_bound u (10 ^ 9) ltac:(lia)) as Bu.
  pose proof (Z.div_mod s 60 ltac:(lia)) as Ds. assert (S0 : 1 <= s) by lia.
  assert (Bs : below_60 ps) by (unfold below_60; rewrite Hs, Is; lia).
  cbv zeta. destruct (Z.ltb_spec 0 (s / 60)) as [L|L].
  - set (m := s / 60) in *. pose proof (Z.mod_pos_bound m 60 ltac:(lia)) as Bm. pose proof (Z.div_mod m 60 ltac:(lia)) as Dm.
    destruct (shown_int (m mod 60) "m" (60 * 10 ^ 9)) as (pm & Gm & Wm & Tm & Xm & Hm & Um & Vm); [cbn; tauto|lia|]. destruct (itoa_value (m mod 60)) as (Im & _); [lia|].
    assert (Bpm : below_60 pm) by (unfold below_60; rewrite Hm, Im; lia).
    destruct (Z.ltb_spec 0 (m / 60)) as [L2|L2].
    + destruct (shown_int (m / 60) "h" (3600 * 10 ^ 9)) as (ph & Gh & Wh & Th & Xh & Hh & Uh & Vh); [cbn; tauto|lia|].
      exists [ph; pm; ps]. unfold shown. rewrite chosen_seconds by lia. destruct (Z.ltb_spec u (60 * 10 ^ 9)); [lia|]. destruct (Z.ltb_spec u (3600 * 10 ^ 9)); [lia|].
      repeat split; try discriminate; auto 10.
      * cbn [parts_text]. rewrite Xh, Xm, Xs, !append_assoc', append_empty. reflexivity.
      * cbn [total]. rewrite Vh, Vm, Vs, Qplus_0_r, <- !inject_Z_plus. apply inject_Z_injective. lia.
      * cbn [map]. now rewrite Uh, Um, Us.
      * cbn [tl]. auto.
    + exists [pm; ps]. unfold shown. rewrite chosen_seconds by lia. destruct (Z.ltb_spec u (60 * 10 ^ 9)); [lia|]. destruct (Z.ltb_spec u (3600 * 10 ^ 9)); [|lia].
      repeat split; try discriminate; auto 10.
      * cbn [parts_text]. rewrite Xm, Xs, !append_assoc', append_empty. reflexivity.
      * cbn [total]. rewrite Vm, Vs, Qplus_0_r, <- !inject_Z_plus. apply inject_Z_injective. lia.
      * cbn [map]. now rewrite Um, Us.
      * cbn [tl]. auto.
  - exists [ps]. unfold shown. rewrite chosen_seconds by lia. destruct (Z.ltb_spec u (60 * 10 ^ 9)); [|lia].
    repeat split; try discriminate; auto 10.
    + cbn [parts_text]. now rewrite Xs, append_empty.
    + cbn [total]. rewrite Vs, Qplus_0_r. apply inject_Z_injective. lia.
    + cbn [map]. now rewrite Us.
    + cbn [tl]. auto.
Qed.
Lemma show_small_shown u : 0 < u < 10 ^ 9 -> exists ps, shown u (show_small u) ps.
Proof.
  intros H. unfold show_small, shown, chosen_units. destruct (Z.eqb_spec u 0); [lia|]. change 1000 with (10 ^ 3). change 1000000 with (10 ^ 6).
  destruct (Z.ltb_spec u (10 ^ 3)) as [L1|L1]; [|destruct (Z.ltb_spec u (10 ^ 6)) as [L2|L2]; [|destruct (Z.ltb_spec u (10 ^ 9)); [|lia]]].
  - destruct (shown_int u "ns" 1) as (p & G & W & T & X & _ & U & V); [cbn; tauto|lia|]. exists [p]. repeat split; try discriminate; auto.
    + cbn [parts_text]. now rewrite X, append_empty.
    + cbn [total]. rewrite V, Qplus_0_r, Z.mul_1_r. reflexivity.
    + cbn [map]. now rewrite U.
    + cbn [tl]. auto.
  - destruct (fmt_frac 3 u "" false) as [f v] eqn:E. destruct (fmt_frac_spec 3 u) as (t & E' & _). rewrite E in E'. injection E' as _ Ev'. assert (Ev : v = u / 10 ^ 3) by exact Ev'. clear Ev'.
    pose proof (Z.div_mod u (10 ^ 3) ltac:(lia)) as D. rewrite <- Ev in D. pose proof (Z.mod_pos_bound u (10 ^ 3) ltac:(lia)).
    destruct (shown_part 3 u v micro f v) as (p & G & W & T & X & _ & U & _ & V & _); [cbn; tauto|lia|exact E|]. change (Z.of_nat 3) with 3 in *. exists [p]. repeat split; try discriminate; auto.
    + cbn [parts_text]. now rewrite X, append_empty.
    + cbn [total]. rewrite V, Qplus_0_r. apply inject_Z_injective. lia.
    + cbn [map]. now rewrite U.
    + cbn [tl]. auto.
  - destruct (fmt_frac 6 u "" false) as [f v] eqn:E. destruct (fmt_frac_spec 6 u) as (t & E' & _). rewrite E in E'. injection E' as _ Ev'. assert (Ev : v = u / 10 ^ 6) by exact Ev'. clear Ev'.
    pose proof (Z.div_mod u (10 ^ 6) ltac:(lia)) as D. rewrite <- Ev in D. pose proof (Z.mod_pos_bound u (10 ^ 6) ltac:(lia)).
    destruct (shown_part 6 u v "ms" f v) as (p & G & W & T & X & _ & U & _ & V & _); [cbn; tauto|lia|exact E|]. change (Z.of_nat 6) with 6 in *. exists [p]. repeat split; try discriminate; auto.
    + cbn [parts_text]. now rewrite X, append_empty.
    + cbn [total]. rewrite V, Qplus_0_r. apply inject_Z_injective. lia.
    + cbn [map]. now rewrite U.
    + cbn [tl]. auto.
Qed.

Lemma show_shown d : exists t ps, shown (Z.abs d) t ps /\ show_duration d = (if d <? 0 then "-" else "") +++ t.
Proof.
  unfold show_duration. cbv zeta. destruct (Z.eqb_spec (Z.abs d) 0) as [E|E].
  - assert (d = 0) as -> by lia. exists "0s", [mkPart "0" None "s" (10 ^ 9)]. split; [|reflexivity]. unfold shown.
    assert (G : good_part (mkPart "0" None "s" (10 ^ 9))) by (split; [cbn; tauto|]; split; [exact I|]; split; [left; discriminate|cbn; tauto]).
    assert (T : tidy (mkPart "0" None "s" (10 ^ 9))) by (split; [exists 0; split; [lia|reflexivity]|exact I]).
    assert (W : whole_ns (mkPart "0" None "s" (10 ^ 9))) by apply Z.divide_1_l.
    split; [discriminate|]. split; [now constructor|]. split; [reflexivity|]. split; [reflexivity|]. split; [now constructor|]. split; [now constructor|].
    split; [reflexivity|constructor].
  - change 1000000000 with (10 ^ 9). destruct (Z.ltb_spec (Z.abs d) (10 ^ 9)) as [L|L].
    + destruct (show_small_shown (Z.abs d)) as [ps S]; [lia|]. now exists (show_small (Z.abs d)), ps.
    + destruct (show_seconds_shown (Z.abs d) L) as [ps S]. now exists (show_seconds (Z.abs d)), ps.
Qed.
Lemma show_text d : exists ps, duration_text (show_duration d) (d <? 0) ps /\ (total ps == inject_Z (Z.abs d))%Q /\ Forall whole_ns ps /\ Forall tidy ps /\
  map unit_name ps = chosen_units (Z.abs d) /\ Forall below_60 (tl ps).
Proof.
  destruct (show_shown d) as (t & ps & (N & F & -> & R) & E). exists ps. split; [|exact R]. split; [exact N|]. split; [exact F|].
  exists (if d <? 0 then "-" else ""). split; [|exact E]. destruct (d <? 0); [now left|right; split; [now left|reflexivity]].
Qed.

Lemma round_trip lim d : version lim -> - 2 ^ 63 <= d < 2 ^ 63 -> - d <= lim -> parse_duration lim (show_duration d) = Some d.
Proof.
  intros V R L. pose proof (version_bounds lim V) as [VB _]. destruct (show_text d) as (ps & T & E & W & _).
  assert (S : ns_sum lim ps = Z.abs d).
  { destruct T as (_ & F & _). destruct (sum_error lim ps V F) as [_ X]. specialize (X W). rewrite E in X. apply (proj1 (inject_Z_injective _ _)). exact X. }
  rewrite (parse_fits lim _ _ ps V T); rewrite S; [|lia|destruct (Z.ltb_spec d 0); [now left|right; lia]]. f_equal. destruct (Z.ltb_spec d 0); lia.
Qed.

Lemma parse_exceeds lim s neg ps : version lim -> duration_text s neg ps -> no_wrap lim ps -> exceeds_int64 neg ps -> parse_duration lim s = None.
Proof.
  intros V T W X. destruct (parse_duration lim s) as [d|] eqn:E; [exfalso|reflexivity]. pose proof (parsed_range lim s d V E) as R.
  destruct (parsed_value lim s neg ps d V T W E) as [N Ex].
  assert (C : (1 <= inject_Z (count ps))%Q).
  { change 1%Q with (inject_Z 1). apply DurationFloat.inj_le. destruct T as (Ne & _). destruct ps; [congruence|]. unfold count. cbn [List.length]. lia. }
  assert (D : (- inject_Z (2 ^ 63) <= inject_Z d <= inject_Z (2 ^ 63 - 1))%Q) by (rewrite <- inject_Z_opp; split; apply DurationFloat.inj_le; lia).
  assert (P : (inject_Z (2 ^ 63 - 1) <= inject_Z (2 ^ 63))%Q) by (apply DurationFloat.inj_le; lia).
  destruct X as [X|[Wn X]].
  - unfold near_total in N. apply Qabs_Qle_condition in N. destruct neg; cbn [signed] in N; lra.
  - specialize (Ex Wn). destruct neg; cbn [signed] in Ex.
    + assert (K : (inject_Z (2 ^ 63 + 1) <= - inject_Z d)%Q) by lra. rewrite <- inject_Z_opp, <- Zle_Qle in K. lia.
    + rewrite Z.add_0_r, <- Ex, <- Zle_Qle in X. lia.
Qed.
Lemma parse_wraps : parse_duration go1_18 "9223372036854775808ns9223372036854775808ns" = Some 0.
Proof. vm_compute. reflexivity. Qed.
