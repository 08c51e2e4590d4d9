(** Lemmas about base64 and the guards of the pprof endpoints. *)
From Verif Require Import Common Bytes ProcsModel ProcsProofs ConfNamesSpec ConfNamesProofs ConfsModel ConfsSpec ConfsProofs PprofModel PprofSpec.
Local Open Scope string_scope.
Local Open Scope list_scope.
Local Open Scope Z_scope.

(** * Bits *)

Lemma bits_length n z : length (bits n z) = n.
Proof. induction n as [|n IH]; cbn [bits length]; [reflexivity|]. rewrite IH. reflexivity. Qed.

Lemma bits_app m k a b : 0 <= b < 2 ^ Z.of_nat k -> bits (m + k) (a * 2 ^ Z.of_nat k + b) = bits m a ++ bits k b.
Proof.
  intros Hb. induction m as [|m IH].
  - cbn [Nat.add bits Datatypes.app].
    assert (H : forall j, (j <= k)%nat -> bits j (a * 2 ^ Z.of_nat k + b) = bits j b).
    { induction j as [|j IHj]; intros Hj; cbn [bits]; [reflexivity|]. rewrite IHj by lia. f_equal.
      rewrite <- (Z.mod_pow2_bits_low (a * 2 ^ Z.of_nat k + b) (Z.of_nat k)) by lia.
      rewrite Z.add_comm, Z_mod_plus_full, Z.mod_small by lia. reflexivity. }
    apply H. lia.
  - cbn [Nat.add bits Datatypes.app]. rewrite IH. f_equal.
    replace (Z.of_nat (m + k)) with (Z.of_nat m + Z.of_nat k) by lia.
    rewrite <- Z.shiftr_spec by lia. rewrite Z.shiftr_div_pow2 by lia.
    rewrite Z.div_add_l by (apply Z.pow_nonzero; lia). rewrite Z.div_small by lia. f_equal. lia.
Qed.

Lemma bits_cut m k z : bits (m + k) z = bits m (z / 2 ^ Z.of_nat k) ++ bits k (z mod 2 ^ Z.of_nat k).
Proof.
  rewrite <- bits_app by (apply Z.mod_pos_bound; apply Z.pow_pos_nonneg; lia). f_equal.
  rewrite Z.mul_comm. apply Z.div_mod. apply Z.pow_nonzero; lia.
Qed.

Lemma bits_inj n a b : 0 <= a < 2 ^ Z.of_nat n -> 0 <= b < 2 ^ Z.of_nat n -> bits n a = bits n b -> a = b.
Proof.
  intros Ha Hb H. apply Z.bits_inj'. intros i Hi. destruct (Z_lt_ge_dec i (Z.of_nat n)) as [Hlt|Hge].
  - clear Ha Hb. assert (Hin : (Z.to_nat i < n)%nat) by lia. rewrite <- (Z2Nat.id i) by lia. revert H Hin. generalize (Z.to_nat i) as j. clear.
    induction n as [|n IH]; intros j H Hj; [lia|]. cbn [bits] in H. injection H as H1 H2.
    destruct (Nat.eq_dec j n) as [->|Hne]; [exact H1|]. apply IH; [exact H2|lia].
  - destruct (Z.eq_dec a 0) as [->|Na]; destruct (Z.eq_dec b 0) as [->|Nb]; [reflexivity|..];
      rewrite ?Z.bits_0; try (rewrite Z.bits_above_log2 by (try apply Z.log2_lt_pow2; try lia; apply Z.log2_lt_cancel; lia)).
    + symmetry. apply Z.bits_above_log2; [lia|]. apply Z.log2_lt_pow2; [lia|]. apply Z.lt_le_trans with (2 ^ Z.of_nat n); [lia|]. apply Z.pow_le_mono_r; lia.
    + apply Z.bits_above_log2; [lia|]. apply Z.log2_lt_pow2; [lia|]. apply Z.lt_le_trans with (2 ^ Z.of_nat n); [lia|]. apply Z.pow_le_mono_r; lia.
    + transitivity false; [|symmetry]; apply Z.bits_above_log2; try lia; (apply Z.log2_lt_pow2; [lia|]; apply Z.lt_le_trans with (2 ^ Z.of_nat n); [lia|]; apply Z.pow_le_mono_r; lia).
Qed.

(** A quantum of four digits is three bytes. *)
Lemma byte1_bits w x : 0 <= x < 64 -> bits 8 (w * 4 + x / 16) = bits 6 w ++ bits 2 (x / 16).
Proof. intros H. apply (bits_app 6 2). change (2 ^ Z.of_nat 2) with 4. split; [apply Z.div_pos; lia|apply Z.div_lt_upper_bound; lia]. Qed.

Lemma byte2_bits x y : 0 <= y < 64 -> bits 8 ((x mod 16) * 16 + y / 4) = bits 4 (x mod 16) ++ bits 4 (y / 4).
Proof. intros H. apply (bits_app 4 4). change (2 ^ Z.of_nat 4) with 16. split; [apply Z.div_pos; lia|apply Z.div_lt_upper_bound; lia]. Qed.

Lemma byte3_bits y z : 0 <= z < 64 -> bits 8 ((y mod 4) * 64 + z) = bits 2 (y mod 4) ++ bits 6 z.
Proof. intros H. apply (bits_app 2 6). exact H. Qed.

Lemma digit_cut24 x : bits 6 x = bits 2 (x / 16) ++ bits 4 (x mod 16).
Proof. exact (bits_cut 2 4 x). Qed.

Lemma digit_cut42 y : bits 6 y = bits 4 (y / 4) ++ bits 2 (y mod 4).
Proof. exact (bits_cut 4 2 y). Qed.

Lemma quantum_bits w x y z : 0 <= w < 64 -> 0 <= x < 64 -> 0 <= y < 64 -> 0 <= z < 64 ->
  bits 6 w ++ bits 6 x ++ bits 6 y ++ bits 6 z =
  bits 8 (w * 4 + x / 16) ++ bits 8 ((x mod 16) * 16 + y / 4) ++ bits 8 ((y mod 4) * 64 + z).
Proof.
  intros Hw Hx Hy Hz. rewrite byte1_bits, byte2_bits, byte3_bits by assumption.
  rewrite (digit_cut24 x), (digit_cut42 y), <- !app_assoc. reflexivity.
Qed.

Lemma byte1_range w x : 0 <= w < 64 -> 0 <= x < 64 -> 0 <= w * 4 + x / 16 < 256.
Proof. intros. pose proof (Z.div_pos x 16 ltac:(lia) ltac:(lia)). pose proof (Z.div_lt_upper_bound x 16 4 ltac:(lia) ltac:(lia)). lia. Qed.

Lemma byte2_range x y : 0 <= x < 64 -> 0 <= y < 64 -> 0 <= (x mod 16) * 16 + y / 4 < 256.
Proof. intros. pose proof (Z.mod_pos_bound x 16 ltac:(lia)). pose proof (Z.div_pos y 4 ltac:(lia) ltac:(lia)). pose proof (Z.div_lt_upper_bound y 4 16 ltac:(lia) ltac:(lia)). lia. Qed.

Lemma byte3_range y z : 0 <= y < 64 -> 0 <= z < 64 -> 0 <= (y mod 4) * 64 + z < 256.
Proof. intros. pose proof (Z.mod_pos_bound y 4 ltac:(lia)). lia. Qed.

(** * The alphabet *)

Lemma b64_value_get c z : b64_value c = Some z -> exists d, (d < 64)%nat /\ z = Z.of_nat d /\ String.get d alphabet = Some c.
Proof.
  intros H. exists (Z.to_nat z).
  assert (E : match b64_value c with
              | None => True
              | Some z => (Z.to_nat z < 64)%nat /\ z = Z.of_nat (Z.to_nat z) /\ String.get (Z.to_nat z) alphabet = Some c
              end).
  { clear. destruct c as [[|] [|] [|] [|] [|] [|] [|] [|]]; vm_compute; try exact I; (split; [lia|split; reflexivity]). }
  rewrite H in E. exact E.
Qed.

Lemma get_b64_value c d : (d < 64)%nat -> String.get d alphabet = Some c -> b64_value c = Some (Z.of_nat d).
Proof.
  intros Hd. do 64 (destruct d as [|d]; [intros H; injection H as <-; reflexivity|]). lia.
Qed.

Lemma get_alphabet d : (d < 64)%nat -> String.get d alphabet = Some (b64_char (Z.of_nat d)).
Proof. intros Hd. do 64 (destruct d as [|d]; [reflexivity|]). lia. Qed.

Lemma get_not_pad d : (d < 64)%nat -> String.get d alphabet <> Some "="%char.
Proof. intros Hd H. apply (get_b64_value _ _ Hd) in H. discriminate. Qed.

Lemma letters_skip s : letters (skip_newlines s) = filter counts (letters s).
Proof.
  induction s as [|c s IH]; cbn [skip_newlines letters filter]; [reflexivity|]. unfold counts at 1.
  destruct ((byte c =? 10) || (byte c =? 13)); cbn [negb letters]; [exact IH|]. rewrite IH. reflexivity.
Qed.

(** * Decoding *)

Definition groups (digits : list nat) (pad : nat) (data : string) (rest : list bool) : Prop :=
  flat_map (fun d => bits 6 (Z.of_nat d)) digits = flat_map (fun c => bits 8 (byte c)) (letters data) ++ rest /\
  length rest = (2 * pad)%nat.

Lemma decode_some_len n : forall s r, (String.length s <= n)%nat -> decode_quanta s = Some r ->
  exists digits pad rest, Forall (fun d => (d < 64)%nat) digits /\ (pad <= 2)%nat /\ Nat.modulo (length digits + pad) 4 = 0%nat /\
    map Some (letters s) = map (fun d => String.get d alphabet) digits ++ repeat (Some "="%char) pad /\ groups digits pad r rest.
Proof.
  induction n as [|n IH]; intros s r Hn H.
  - destruct s; [|cbn in Hn; lia]. injection H as <-. exists [], 0%nat, []. repeat split; [constructor|lia].
  - destruct s as [|c1 s]; [injection H as <-; exists [], 0%nat, []; repeat split; [constructor|lia]|].
    destruct s as [|c2 [|c3 [|c4 s]]]; try discriminate. cbn [decode_quanta] in H. cbn [String.length] in Hn.
    destruct (b64_value c1) as [w|] eqn:E1; [|discriminate]. destruct (b64_value c2) as [x|] eqn:E2; [|discriminate].
    destruct (b64_value_get _ _ E1) as (d1 & L1 & -> & G1). destruct (b64_value_get _ _ E2) as (d2 & L2 & -> & G2).
    destruct (b64_value c3) as [y|] eqn:E3.
    + destruct (b64_value_get _ _ E3) as (d3 & L3 & -> & G3). destruct (b64_value c4) as [z|] eqn:E4.
      * destruct (b64_value_get _ _ E4) as (d4 & L4 & -> & G4). destruct (decode_quanta s) as [r'|] eqn:Er; [|discriminate].
        destruct (IH s r' ltac:(lia) Er) as (digits & pad & rest & F & P & M & T & B & R). injection H as <-.
        exists (d1 :: d2 :: d3 :: d4 :: digits), pad, rest. split; [repeat (apply Forall_cons; [assumption|]); first [assumption|apply Forall_nil]|]. split; [exact P|].
        split; [cbn [length Nat.add]; change (S (S (S (S (length digits + pad))))) with (4 + (length digits + pad))%nat;
          rewrite <- Nat.add_mod_idemp_r, M by lia; reflexivity|].
        split; [cbn [letters map Datatypes.app]; rewrite G1, G2, G3, G4, T; reflexivity|].
        split; [|exact R]. cbn [letters flat_map]. rewrite B.
        rewrite !byte_char_of by (first [apply byte1_range|apply byte2_range|apply byte3_range]; lia).
        rewrite <- !app_assoc. rewrite !(app_assoc _ _ (flat_map _ _ ++ rest)), <- !app_assoc.
        rewrite (app_assoc (bits 6 (Z.of_nat d3))), (app_assoc (bits 6 (Z.of_nat d2))), (app_assoc (bits 6 (Z.of_nat d1))).
        rewrite quantum_bits by lia. rewrite <- !app_assoc. reflexivity.
      * destruct (Ascii.eqb c4 "=" && (s =? "")%string) eqn:Ep; [|discriminate]. apply andb_true_iff in Ep. destruct Ep as [P4 Ps].
        apply Ascii.eqb_eq in P4. apply String.eqb_eq in Ps. subst c4 s. injection H as <-.
        exists [d1; d2; d3], 1%nat, (bits 2 (Z.of_nat d3 mod 4)). split; [repeat (apply Forall_cons; [assumption|]); first [assumption|apply Forall_nil]|]. split; [lia|]. split; [reflexivity|].
        split; [cbn [letters map Datatypes.app repeat]; rewrite G1, G2, G3; reflexivity|].
        split; [|apply bits_length]. cbn [letters flat_map]. rewrite !app_nil_r.
        rewrite !byte_char_of by (first [apply byte1_range|apply byte2_range]; lia).
        rewrite byte1_bits, byte2_bits by lia. rewrite (digit_cut24 (Z.of_nat d2)), (digit_cut42 (Z.of_nat d3)), <- !app_assoc. reflexivity.
    + destruct (Ascii.eqb c3 "=" && Ascii.eqb c4 "=" && (s =? "")%string) eqn:Ep; [|discriminate].
      apply andb_true_iff in Ep. destruct Ep as [Ep Ps]. apply andb_true_iff in Ep. destruct Ep as [P3 P4].
      apply Ascii.eqb_eq in P3, P4. apply String.eqb_eq in Ps. subst c3 c4 s. injection H as <-.
      exists [d1; d2], 2%nat, (bits 4 (Z.of_nat d2 mod 16)). split; [repeat (apply Forall_cons; [assumption|]); first [assumption|apply Forall_nil]|]. split; [lia|]. split; [reflexivity|].
      split; [cbn [letters map Datatypes.app repeat]; rewrite G1, G2; reflexivity|].
      split; [|apply bits_length]. cbn [letters flat_map]. rewrite !app_nil_r.
      rewrite !byte_char_of by (apply byte1_range; lia).
      rewrite byte1_bits by lia. rewrite (digit_cut24 (Z.of_nat d2)), <- !app_assoc. reflexivity.
Qed.

(** Well-formed text is decoded. *)
Lemma decode_defined n : forall digits pad s, (length digits <= n)%nat ->
  Forall (fun d => (d < 64)%nat) digits -> (pad <= 2)%nat -> Nat.modulo (length digits + pad) 4 = 0%nat ->
  map Some (letters s) = map (fun d => String.get d alphabet) digits ++ repeat (Some "="%char) pad ->
  exists r, decode_quanta s = Some r.
Proof.
  induction n as [|n IH]; intros digits pad s Hn F P M T.
  - destruct digits; [|cbn in Hn; lia]. destruct pad as [|[|[|pad]]]; try discriminate; [|lia].
    destruct s; [|discriminate]. exists "". reflexivity.
  - destruct digits as [|d1 [|d2 [|d3 [|d4 digits]]]].
    + destruct pad as [|[|[|pad]]]; try discriminate; [|lia]. destruct s; [|discriminate]. exists "". reflexivity.
    + destruct pad as [|[|[|pad]]]; try discriminate; lia.
    + destruct pad as [|[|[|pad]]]; try discriminate; [|lia]. cbn [map Datatypes.app repeat] in T.
      destruct s as [|c1 [|c2 [|c3 [|c4 [|c5 s]]]]]; try discriminate. cbn [letters map] in T. injection T as T1 T2 T3 T4.
      inversion F as [|? ? L1 F1]; subst. inversion F1 as [|? ? L2 F2]; subst.
      cbn [decode_quanta]. rewrite (get_b64_value c1 d1 L1 (eq_sym T1)), (get_b64_value c2 d2 L2 (eq_sym T2)). eexists. reflexivity.
    + destruct pad as [|[|[|pad]]]; try discriminate; [|lia]. cbn [map Datatypes.app repeat] in T.
      destruct s as [|c1 [|c2 [|c3 [|c4 [|c5 s]]]]]; try discriminate. cbn [letters map] in T. injection T as T1 T2 T3 T4.
      inversion F as [|? ? L1 F1]; subst. inversion F1 as [|? ? L2 F2]; subst. inversion F2 as [|? ? L3 F3]; subst.
      cbn [decode_quanta]. rewrite (get_b64_value c1 d1 L1 (eq_sym T1)), (get_b64_value c2 d2 L2 (eq_sym T2)), (get_b64_value c3 d3 L3 (eq_sym T3)).
      eexists. reflexivity.
    + destruct s as [|c1 [|c2 [|c3 [|c4 s]]]]; try discriminate. cbn [letters map Datatypes.app] in T. injection T as T1 T2 T3 T4 T.
      inversion F as [|? ? L1 F1]; subst. inversion F1 as [|? ? L2 F2]; subst. inversion F2 as [|? ? L3 F3]; subst. inversion F3 as [|? ? L4 F4]; subst.
      cbn [decode_quanta].
      rewrite (get_b64_value c1 d1 L1 (eq_sym T1)), (get_b64_value c2 d2 L2 (eq_sym T2)), (get_b64_value c3 d3 L3 (eq_sym T3)), (get_b64_value c4 d4 L4 (eq_sym T4)).
      destruct (IH digits pad s) as [r Hr]; [cbn [length] in Hn; lia|assumption|assumption| |exact T|rewrite Hr; eexists; reflexivity].
      cbn [length Nat.add] in M. change (S (S (S (S (length digits + pad))))) with (4 + (length digits + pad))%nat in M.
      rewrite <- Nat.add_mod_idemp_l in M by lia. exact M.
Qed.

(** Text has only one shape. *)
Lemma shape_unique dg1 p1 dg2 p2 : Forall (fun d => (d < 64)%nat) dg1 -> Forall (fun d => (d < 64)%nat) dg2 ->
  map (fun d => String.get d alphabet) dg1 ++ repeat (Some "="%char) p1 = map (fun d => String.get d alphabet) dg2 ++ repeat (Some "="%char) p2 ->
  dg1 = dg2 /\ p1 = p2.
Proof.
  revert dg2. induction dg1 as [|d1 dg1 IH]; intros [|d2 dg2] F1 F2 H; cbn [map Datatypes.app] in H.
  - split; [reflexivity|]. apply (f_equal (@length _)) in H. rewrite !repeat_length in H. exact H.
  - destruct p1; cbn [repeat] in H; [discriminate|]. inversion F2; subst. injection H as H _. exfalso. exact (get_not_pad d2 ltac:(assumption) (eq_sym H)).
  - destruct p2; cbn [repeat] in H; [discriminate|]. inversion F1; subst. injection H as H _. exfalso. exact (get_not_pad d1 ltac:(assumption) H).
  - inversion F1 as [|? ? L1 F1']; subst. inversion F2 as [|? ? L2 F2']; subst. pose proof (f_equal (hd None) H) as Hd. pose proof (f_equal (@tl _) H) as Ht. cbn [hd tl] in Hd, Ht.
    destruct (IH dg2 F1' F2' Ht) as [-> ->]. split; [|reflexivity]. f_equal.
    rewrite (get_alphabet d1 L1) in Hd. symmetry in Hd. apply (get_b64_value _ _ L2) in Hd.
    pose proof (get_b64_value _ _ L1 (get_alphabet d1 L1)) as Hv. rewrite Hv in Hd. injection Hd as Hd. lia.
Qed.

Lemma bytes_unique : forall a b (r1 r2 : list bool), length r1 = length r2 ->
  flat_map (fun c => bits 8 (byte c)) (letters a) ++ r1 = flat_map (fun c => bits 8 (byte c)) (letters b) ++ r2 -> a = b.
Proof.
  assert (Hl : forall a, length (flat_map (fun c => bits 8 (byte c)) (letters a)) = (8 * String.length a)%nat).
  { induction a as [|c a IH]; [reflexivity|]. cbn [letters flat_map String.length]. rewrite app_length, bits_length, IH. lia. }
  induction a as [|c a IH]; intros b r1 r2 Hr H.
  - destruct b as [|d b]; [reflexivity|]. apply (f_equal (@length _)) in H. rewrite !app_length, !Hl in H. cbn [String.length] in H. lia.
  - destruct b as [|d b]; [apply (f_equal (@length _)) in H; rewrite !app_length, !Hl in H; cbn [String.length] in H; lia|].
    cbn [letters flat_map] in H. rewrite <- !app_assoc in H.
    assert (Hs : forall (x y z w : list bool), length x = length y -> x ++ z = y ++ w -> x = y /\ z = w).
    { clear. induction x as [|i x IH]; intros [|j y] z w L E; cbn [length] in L; try discriminate; [auto|].
      injection E as -> E. destruct (IH y z w ltac:(lia) E) as [-> ->]. auto. }
    apply Hs in H; [|rewrite !bits_length; reflexivity]. destruct H as [H1 H2]. f_equal; [|exact (IH b r1 r2 Hr H2)].
    apply byte_inj. apply (bits_inj 8); [exact (byte_range c)|exact (byte_range d)|exact H1].
Qed.

Lemma decode_spec text data : decode_string text = Some data <-> base64_of text data.
Proof.
  unfold decode_string, base64_of. rewrite <- letters_skip. split.
  - intros H. destruct (decode_some_len _ _ _ (le_n _) H) as (digits & pad & rest & F & P & M & T & B & R).
    exists digits, pad, rest. auto 7.
  - intros (digits & pad & rest & F & P & M & T & B & R).
    destruct (decode_defined _ digits pad _ (le_n _) F P M T) as [r Hr]. rewrite Hr. f_equal.
    destruct (decode_some_len _ _ _ (le_n _) Hr) as (digits' & pad' & rest' & F' & P' & M' & T' & B' & R').
    rewrite T in T'. apply (shape_unique _ _ _ _ F F') in T'. destruct T' as [<- <-].
    apply (bytes_unique r data rest' rest); congruence.
Qed.

(** * Encoding *)

Lemma b64_char_value z : 0 <= z < 64 -> b64_value (b64_char z) = Some z.
Proof.
  intros H. rewrite <- (Z2Nat.id z) by lia. apply get_b64_value; [lia|]. apply get_alphabet. lia.
Qed.

Lemma decode_encode_len n : forall s, (String.length s <= n)%nat -> decode_quanta (encode_string s) = Some s.
Proof.
  assert (Hr : forall c, 0 <= byte c < 256) by exact byte_range.
  assert (D4 : forall c, 0 <= byte c / 4 < 64).
  { intros c. specialize (Hr c). split; [apply Z.div_pos; lia|apply Z.div_lt_upper_bound; lia]. }
  assert (D16 : forall c, 0 <= byte c / 16 < 16).
  { intros c. specialize (Hr c). split; [apply Z.div_pos; lia|apply Z.div_lt_upper_bound; lia]. }
  assert (D64 : forall c, 0 <= byte c / 64 < 4).
  { intros c. specialize (Hr c). split; [apply Z.div_pos; lia|apply Z.div_lt_upper_bound; lia]. }
  assert (M4 : forall c, 0 <= byte c mod 4 < 4) by (intros c; apply Z.mod_pos_bound; lia).
  assert (M16 : forall c, 0 <= byte c mod 16 < 16) by (intros c; apply Z.mod_pos_bound; lia).
  assert (M64 : forall c, 0 <= byte c mod 64 < 64) by (intros c; apply Z.mod_pos_bound; lia).
  assert (E1 : forall c k, 0 <= k < 16 -> char_of (byte c / 4 * 4 + ((byte c mod 4) * 16 + k) / 16) = c).
  { intros c k Hk. rewrite Z.div_add_l, (Z.div_small k) by lia. rewrite <- (char_of_byte c) at 3. f_equal.
    rewrite (Z.div_mod (byte c) 4) at 3 by lia. lia. }
  assert (E2 : forall c b k, 0 <= k < 4 -> char_of (((byte b mod 4) * 16 + byte c / 16) mod 16 * 16 + ((byte c mod 16) * 4 + k) / 4) = c).
  { intros c b k Hk. rewrite Z.div_add_l, (Z.div_small k) by lia. rewrite Z.add_comm with (m := byte c / 16), Z_mod_plus_full, Z.mod_small by apply D16.
    rewrite <- (char_of_byte c) at 3. f_equal. rewrite (Z.div_mod (byte c) 16) at 3 by lia. lia. }
  assert (E3 : forall c b, char_of (((byte b mod 16) * 4 + byte c / 64) mod 4 * 64 + byte c mod 64) = c).
  { intros c b. rewrite Z.add_comm with (m := byte c / 64), Z_mod_plus_full, Z.mod_small by apply D64.
    rewrite <- (char_of_byte c) at 3. f_equal. rewrite (Z.div_mod (byte c) 64) at 3 by lia. lia. }
  induction n as [|n IH]; intros s Hn; [destruct s; [reflexivity|cbn in Hn; lia]|].
  destruct s as [|a [|b [|c s]]].
  - reflexivity.
  - cbn [encode_string decode_quanta]. pose proof (M4 a). rewrite !b64_char_value by (try apply D4; lia).
    cbn [b64_value Ascii.eqb]. change (b64_value "=") with (@None Z). cbn [andb Bool.eqb String.eqb].
    specialize (E1 a 0 ltac:(lia)). rewrite Z.add_0_r in E1. rewrite E1. reflexivity.
  - cbn [encode_string decode_quanta]. pose proof (M4 a). pose proof (D16 b). pose proof (M16 b). rewrite !b64_char_value by (try apply D4; lia).
    change (b64_value "=") with (@None Z). cbn [Ascii.eqb andb Bool.eqb String.eqb].
    rewrite (E1 a _ (D16 b)). specialize (E2 b a 0 ltac:(lia)). rewrite Z.add_0_r in E2. rewrite E2. reflexivity.
  - cbn [encode_string decode_quanta]. pose proof (M4 a). pose proof (D16 b). pose proof (M16 b). pose proof (D64 c). pose proof (M64 c).
    rewrite !b64_char_value by (try apply D4; lia).
    rewrite IH by (cbn [String.length] in Hn; lia). rewrite (E1 a _ (D16 b)), (E2 b a _ (D64 c)), E3. reflexivity.
Qed.

Lemma skip_char z s : 0 <= z < 64 -> skip_newlines (String.String (b64_char z) s) = String.String (b64_char z) (skip_newlines s).
Proof.
  intros H. cbn [skip_newlines]. pose proof (b64_char_value z H) as Hv.
  destruct (byte (b64_char z) =? 10) eqn:E1; [exfalso|destruct (byte (b64_char z) =? 13) eqn:E2; [exfalso|reflexivity]];
    [apply Z.eqb_eq in E1; unfold b64_value in Hv; rewrite E1 in Hv|apply Z.eqb_eq in E2; unfold b64_value in Hv; rewrite E2 in Hv]; discriminate.
Qed.

(** The digits of the encoded text. *)
Fixpoint digits_of (s : string) : list Z :=
  match s with
  | String.EmptyString => []
  | String.String a String.EmptyString => [byte a / 4; (byte a mod 4) * 16]
  | String.String a (String.String b String.EmptyString) => [byte a / 4; (byte a mod 4) * 16 + byte b / 16; (byte b mod 16) * 4]
  | String.String a (String.String b (String.String c s')) =>
    byte a / 4 :: (byte a mod 4) * 16 + byte b / 16 :: (byte b mod 16) * 4 + byte c / 64 :: byte c mod 64 :: digits_of s'
  end.
Fixpoint pad_of (s : string) : nat :=
  match s with
  | String.EmptyString => 0
  | String.String a String.EmptyString => 2
  | String.String a (String.String b String.EmptyString) => 1
  | String.String a (String.String b (String.String c s')) => pad_of s'
  end.

Lemma encode_shape n : forall s, (String.length s <= n)%nat ->
  Forall (fun d => 0 <= d < 64) (digits_of s) /\ (pad_of s <= 2)%nat /\ Nat.modulo (length (digits_of s) + pad_of s) 4 = 0%nat /\
  letters (encode_string s) = map b64_char (digits_of s) ++ repeat "="%char (pad_of s) /\
  flat_map (bits 6) (digits_of s) = flat_map (fun c => bits 8 (byte c)) (letters s) ++ repeat false (2 * pad_of s).
Proof.
  assert (Hr : forall c, 0 <= byte c < 256) by exact byte_range.
  assert (D4 : forall c, 0 <= byte c / 4 < 64).
  { intros c. specialize (Hr c). split; [apply Z.div_pos; lia|apply Z.div_lt_upper_bound; lia]. }
  assert (D16 : forall c, 0 <= byte c / 16 < 16).
  { intros c. specialize (Hr c). split; [apply Z.div_pos; lia|apply Z.div_lt_upper_bound; lia]. }
  assert (D64 : forall c, 0 <= byte c / 64 < 4).
  { intros c. specialize (Hr c). split; [apply Z.div_pos; lia|apply Z.div_lt_upper_bound; lia]. }
  assert (M4 : forall c, 0 <= byte c mod 4 < 4) by (intros c; apply Z.mod_pos_bound; lia).
  assert (M16 : forall c, 0 <= byte c mod 16 < 16) by (intros c; apply Z.mod_pos_bound; lia).
  assert (M64 : forall c, 0 <= byte c mod 64 < 64) by (intros c; apply Z.mod_pos_bound; lia).
  assert (B2 : forall x y, 0 <= y < 16 -> bits 6 (x * 16 + y) = bits 2 x ++ bits 4 y) by (intros x y Hy; apply (bits_app 2 4); exact Hy).
  assert (B3 : forall x y, 0 <= y < 4 -> bits 6 (x * 4 + y) = bits 4 x ++ bits 2 y) by (intros x y Hy; apply (bits_app 4 2); exact Hy).
  assert (C1 : forall c, bits 8 (byte c) = bits 6 (byte c / 4) ++ bits 2 (byte c mod 4)) by (intros c; exact (bits_cut 6 2 (byte c))).
  assert (C2 : forall c, bits 8 (byte c) = bits 4 (byte c / 16) ++ bits 4 (byte c mod 16)) by (intros c; exact (bits_cut 4 4 (byte c))).
  assert (C3 : forall c, bits 8 (byte c) = bits 2 (byte c / 64) ++ bits 6 (byte c mod 64)) by (intros c; exact (bits_cut 2 6 (byte c))).
  induction n as [|n IH]; intros s Hn; [destruct s; [cbn; repeat split; [constructor|lia]|cbn in Hn; lia]|].
  destruct s as [|a [|b [|c s]]].
  - cbn. repeat split; [constructor|lia].
  - pose proof (M4 a). cbn [digits_of pad_of]. split; [repeat (apply Forall_cons; [try apply D4; lia|]); apply Forall_nil|]. split; [lia|]. split; [reflexivity|].
    split; [reflexivity|]. cbn [flat_map letters]. rewrite !app_nil_r. rewrite (C1 a).
    specialize (B2 (byte a mod 4) 0 ltac:(lia)). rewrite Z.add_0_r in B2. rewrite B2, <- app_assoc. reflexivity.
  - pose proof (M4 a). pose proof (D16 b). pose proof (M16 b). cbn [digits_of pad_of].
    split; [repeat (apply Forall_cons; [try apply D4; lia|]); apply Forall_nil|]. split; [lia|]. split; [reflexivity|].
    split; [reflexivity|]. cbn [flat_map letters]. rewrite !app_nil_r. rewrite (C1 a), (C2 b).
    specialize (B3 (byte b mod 16) 0 ltac:(lia)). rewrite Z.add_0_r in B3. rewrite B3, B2 by lia. rewrite <- !app_assoc. reflexivity.
  - pose proof (M4 a). pose proof (D16 b). pose proof (M16 b). pose proof (D64 c). pose proof (M64 c).
    destruct (IH s ltac:(cbn [String.length] in Hn; lia)) as (F & P & M & L & B). cbn [digits_of pad_of].
    split; [repeat (apply Forall_cons; [try apply D4; lia|]); exact F|]. split; [exact P|].
    split; [cbn [length Nat.add]; change (S (S (S (S (length (digits_of s) + pad_of s))))) with (4 + (length (digits_of s) + pad_of s))%nat;
      rewrite <- Nat.add_mod_idemp_r, M by lia; reflexivity|].
    split; [cbn [encode_string letters map Datatypes.app]; rewrite L; reflexivity|].
    cbn [flat_map letters]. rewrite B, (C1 a), (C2 b), (C3 c), B2, B3 by lia. rewrite <- !app_assoc. reflexivity.
Qed.

Lemma encode_canonical s : canonical (encode_string s) s.
Proof.
  destruct (encode_shape _ s (le_n _)) as (F & P & M & L & B).
  exists (map Z.to_nat (digits_of s)), (pad_of s).
  split; [apply Forall_map; revert F; apply Forall_impl; intros d Hd; lia|]. split; [exact P|].
  split; [rewrite map_length; exact M|]. rewrite L, map_app, !map_map. split.
  - f_equal.
    + clear - F. induction F as [|d ds Hd F IH]; [reflexivity|]. cbn [map]. rewrite IH, get_alphabet, Z2Nat.id by lia. reflexivity.
    + clear. induction (pad_of s) as [|p IH]; [reflexivity|]. cbn [repeat map]. rewrite IH. reflexivity.
  - rewrite <- B. clear - F. induction F as [|d ds Hd F IH]; [reflexivity|]. cbn [map flat_map]. rewrite IH, Z2Nat.id by lia. reflexivity.
Qed.

Lemma letters_inj a b : letters a = letters b -> a = b.
Proof. revert b. induction a as [|x a IH]; intros [|y b] H; try discriminate; [reflexivity|]. cbn [letters] in H. f_equal; [congruence|apply IH; congruence]. Qed.

Lemma app_cut (x y z w : list bool) : length x = length y -> x ++ z = y ++ w -> x = y /\ z = w.
Proof.
  revert y. induction x as [|i x IH]; intros [|j y] L E; cbn [length] in L; try discriminate; [auto|].
  injection E as -> E. destruct (IH y ltac:(lia) E) as [-> ->]. auto.
Qed.

Lemma digits_unique d1 d2 : Forall (fun d => (d < 64)%nat) d1 -> Forall (fun d => (d < 64)%nat) d2 ->
  flat_map (fun d => bits 6 (Z.of_nat d)) d1 = flat_map (fun d => bits 6 (Z.of_nat d)) d2 -> d1 = d2.
Proof.
  revert d2. induction d1 as [|a d1 IH]; intros [|b d2] F1 F2 H; try discriminate; [reflexivity|].
  inversion F1; subst. inversion F2; subst. cbn [flat_map] in H. apply app_cut in H; [|rewrite !bits_length; reflexivity].
  destruct H as [Ha Hb]. f_equal; [|apply IH; assumption]. apply (bits_inj 6) in Ha; [lia|change (2 ^ Z.of_nat 6) with 64; lia..].
Qed.

Lemma digit_bits_length ds : length (flat_map (fun d => bits 6 (Z.of_nat d)) ds) = (6 * length ds)%nat.
Proof. induction ds as [|d ds IH]; [reflexivity|]. cbn [flat_map length]. rewrite app_length, bits_length, IH. lia. Qed.

Lemma canonical_unique t1 t2 data : canonical t1 data -> canonical t2 data -> t1 = t2.
Proof.
  intros (d1 & p1 & F1 & P1 & M1 & T1 & B1) (d2 & p2 & F2 & P2 & M2 & T2 & B2).
  assert (Hp : p1 = p2).
  { apply (f_equal (@length _)) in B1, B2. rewrite digit_bits_length, app_length, repeat_length in B1, B2. lia. }
  subst p2. rewrite <- B2 in B1. apply (digits_unique _ _ F1 F2) in B1. subst d2.
  apply letters_inj. assert (E : map Some (letters t1) = map Some (letters t2)) by congruence. revert E. clear.
  generalize (letters t1) (letters t2). induction l as [|x l IH]; intros [|y l'] H; try discriminate; [reflexivity|].
  cbn [map] in H. f_equal; [congruence|apply IH; congruence].
Qed.

Lemma canonical_encode text data : canonical text data <-> text = encode_string data.
Proof. split; [intros H; exact (canonical_unique _ _ _ H (encode_canonical data))|intros ->; apply encode_canonical]. Qed.

Lemma alphabet_counts d c : (d < 64)%nat -> String.get d alphabet = Some c -> counts c = true.
Proof. intros Hd. do 64 (destruct d as [|d]; [intros H; injection H as <-; reflexivity|]). lia. Qed.

Lemma canonical_base64 text data : canonical text data -> base64_of text data.
Proof.
  intros (digits & pad & F & P & M & T & B). exists digits, pad, (repeat false (2 * pad)).
  split; [exact F|]. split; [exact P|]. split; [exact M|]. split; [|split; [exact B|apply repeat_length]].
  assert (Hc : forall c, In c (letters text) -> counts c = true).
  { intros c Hc. apply (in_map Some) in Hc. rewrite T in Hc. apply in_app_or in Hc. destruct Hc as [Hc|Hc].
    - apply in_map_iff in Hc. destruct Hc as (d & Hd & Hin). apply (alphabet_counts d); [|exact Hd].
      rewrite Forall_forall in F. exact (F d Hin).
    - apply repeat_spec in Hc. injection Hc as ->. reflexivity. }
  rewrite <- T. f_equal. revert Hc. clear. induction (letters text) as [|x l IH]; intros H; [reflexivity|].
  cbn [filter]. rewrite (H x (or_introl eq_refl)). f_equal. apply IH. intros c Hc. apply H. right. exact Hc.
Qed.

(** * Guards *)

Lemma trim_prefix_app p s : trim_prefix (p +++ s) p = s.
Proof.
  unfold trim_prefix. assert (Hp : String.prefix p (p +++ s) = true).
  { clear. induction p as [|c p IH]; [destruct s; reflexivity|]. cbn. destruct (ascii_dec c c); [exact IH|congruence]. }
  rewrite Hp. assert (Hl : String.length (p +++ s) = (String.length p + String.length s)%nat).
  { clear. induction p as [|c p IH]; cbn [String.append String.length]; [reflexivity|]. rewrite IH. reflexivity. }
  rewrite Hl. replace (String.length p + String.length s - String.length p)%nat with (String.length s) by lia. clear.
  induction p as [|c p IH]; cbn [String.append String.length String.substring]; [|exact IH].
  induction s as [|c s IH]; cbn [String.length String.substring]; [reflexivity|]. f_equal. exact IH.
Qed.

Lemma prefix_split p s : String.prefix p s = true -> exists t, s = p +++ t.
Proof.
  revert s. induction p as [|c p IH]; intros s H; [exists s; reflexivity|]. destruct s as [|d s]; [discriminate|].
  cbn in H. destruct (ascii_dec c d) as [->|]; [|discriminate]. destruct (IH s H) as [t ->]. exists t. reflexivity.
Qed.

Lemma carries_spec header text : carries header text <-> trim_prefix header "Basic " = text.
Proof.
  unfold carries. split.
  - intros [->|[-> H]]; [apply (trim_prefix_app "Basic ")|]. unfold trim_prefix. rewrite H. reflexivity.
  - intros <-. destruct (String.prefix "Basic " header) eqn:E.
    + destruct (prefix_split _ _ E) as [t ->]. left. rewrite (trim_prefix_app "Basic "). reflexivity.
    + right. unfold trim_prefix. rewrite E. auto.
Qed.

Lemma fasthttp_served conf header : fasthttp_pprof conf header = Served <->
  pp_user conf <> "" /\ pp_pass conf <> "" /\ ~ mentions ":" (pp_user conf) /\ ~ mentions ":" (pp_pass conf) /\
  exists text, carries header text /\ base64_of text (pp_user conf ++ ":" ++ pp_pass conf)%string.
Proof.
  unfold fasthttp_pprof.
  destruct (pp_user conf =? "")%string eqn:Eu; [apply String.eqb_eq in Eu; split; [discriminate|intros (H & _); congruence]|].
  destruct (pp_pass conf =? "")%string eqn:Ep; [apply String.eqb_eq in Ep; split; [discriminate|intros (_ & H & _); congruence]|].
  apply String.eqb_neq in Eu, Ep. cbn [orb]. split.
  - intros H. destruct (trim_prefix header "Basic " =? "")%string; [discriminate|].
    destruct (decode_string (trim_prefix header "Basic ")) as [b|] eqn:Ed; [|discriminate].
    pose proof (split_cuts ":" b) as (_ & H2 & H3). destruct (split ":" b) as [|u [|p [|? ?]]]; try discriminate.
    destruct (u =? pp_user conf)%string eqn:E1; [|discriminate]. destruct (p =? pp_pass conf)%string eqn:E2; [|discriminate].
    apply String.eqb_eq in E1, E2. subst u p.
    split; [exact Eu|]. split; [exact Ep|]. split; [apply H3; left; reflexivity|]. split; [apply H3; right; left; reflexivity|].
    exists (trim_prefix header "Basic "). split; [apply carries_spec; reflexivity|]. apply decode_spec. rewrite Ed, H2. reflexivity.
  - intros (_ & _ & Hu & Hp & text & Hc & Hb). apply carries_spec in Hc. rewrite Hc.
    destruct (text =? "")%string eqn:Et.
    + exfalso. apply String.eqb_eq in Et. rewrite Et in Hb. apply decode_spec in Hb. assert (E : "" = pp_user conf +++ ":" +++ pp_pass conf) by (cbn [decode_string skip_newlines decode_quanta] in Hb; congruence).
      destruct (pp_user conf); discriminate.
    + apply decode_spec in Hb. rewrite Hb.
      assert (Hs : split ":" (pp_user conf +++ ":" +++ pp_pass conf) = [pp_user conf; pp_pass conf]).
      { apply cuts_split. split; [discriminate|]. split; [reflexivity|]. intros q [<-|[<-|[]]]; assumption. }
      rewrite Hs, !String.eqb_refl. reflexivity.
Qed.

Lemma gin_served conf header : gin_pprof conf header = Served <->
  pp_user conf <> "" /\ pp_pass conf <> "" /\
  exists text, header = ("Basic " ++ text)%string /\ canonical text (pp_user conf ++ ":" ++ pp_pass conf)%string.
Proof.
  unfold gin_pprof.
  destruct (pp_user conf =? "")%string eqn:Eu; [apply String.eqb_eq in Eu; split; [discriminate|intros (H & _); congruence]|].
  destruct (pp_pass conf =? "")%string eqn:Ep; [apply String.eqb_eq in Ep; split; [discriminate|intros (_ & H & _); congruence]|].
  apply String.eqb_neq in Eu, Ep. cbn [orb]. split.
  - intros H. destruct (header =? "")%string; [discriminate|].
    destruct (header =? "Basic " ++ encode_string (pp_user conf ++ ":" ++ pp_pass conf))%string eqn:E; [|discriminate].
    apply String.eqb_eq in E. split; [exact Eu|]. split; [exact Ep|]. eexists. split; [exact E|]. apply encode_canonical.
  - intros (_ & _ & text & -> & Hc). apply canonical_encode in Hc. subst text.
    assert (E : ("Basic " ++ encode_string (pp_user conf ++ ":" ++ pp_pass conf) =? "")%string = false) by reflexivity.
    rewrite E, String.eqb_refl. reflexivity.
Qed.

Lemma guard_answers conf header :
  (fasthttp_pprof conf header = Empty <-> pp_user conf = "" \/ pp_pass conf = "") /\
  (gin_pprof conf header = NotFound <-> pp_user conf = "" \/ pp_pass conf = "") /\
  fasthttp_pprof conf header <> NotFound /\ gin_pprof conf header <> Empty.
Proof.
  rewrite <- !String.eqb_eq. unfold fasthttp_pprof, gin_pprof.
  destruct (pp_user conf =? "")%string, (pp_pass conf =? "")%string; cbn [orb];
    try (split; [tauto|]; split; [tauto|]; split; discriminate).
  assert (A : forall a b : answer, a <> b -> (a = b <-> false = true \/ false = true)) by (intros; intuition discriminate).
  split; [apply A|split; [apply A|split]].
  - destruct (trim_prefix header "Basic " =? "")%string; [discriminate|]. destruct (decode_string _) as [b|]; [|discriminate].
    destruct (split ":" b) as [|u [|p [|? ?]]]; try discriminate. destruct (_ || _); discriminate.
  - destruct (header =? "")%string; [discriminate|]. destruct (header =? _)%string; discriminate.
  - destruct (trim_prefix header "Basic " =? "")%string; [discriminate|]. destruct (decode_string _) as [b|]; [|discriminate].
    destruct (split ":" b) as [|u [|p [|? ?]]]; try discriminate. destruct (_ || _); discriminate.
  - destruct (header =? "")%string; [discriminate|]. destruct (header =? _)%string; discriminate.
Qed.
