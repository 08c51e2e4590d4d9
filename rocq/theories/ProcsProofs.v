(** Proofs about the value processors. *)
From Verif Require Import Common Bytes Threads StoreModel StoreSpec ProcsModel ProcsSpec.
Local Open Scope string_scope.

Lemma byte_range c : 0 <= byte c < 256.
Proof.
  unfold byte. pose proof (N_ascii_bounded c). lia.
Qed.

Lemma digit_iff c : is_digit c <-> 48 <= byte c <= 57.
Proof.
  split.
  - unfold is_digit. cbn [In]. intros H. repeat (destruct H as [<-|H]; [vm_compute; split; congruence|]). destruct H.
  - intros H. destruct c as [b0 b1 b2 b3 b4 b5 b6 b7].
    destruct b0, b1, b2, b3, b4, b5, b6, b7; try (vm_compute in H; exfalso; destruct H; congruence);
      unfold is_digit; cbn [In]; tauto.
Qed.

Lemma strlen_nonneg s : 0 <= strlen s. Proof. unfold strlen. lia. Qed.
Lemma strlen_cons c s : strlen (String.String c s) = strlen s + 1.
Proof. unfold strlen. cbn [String.length]. lia. Qed.

Lemma digits_value_bounds s : all_chars is_digit s -> 0 <= digits_value s < 10 ^ strlen s.
Proof.
  induction s as [|c s IH]; [cbn; lia|]. cbn [all_chars digits_value]. intros (Hc & Hs).
  specialize (IH Hs). apply digit_iff in Hc. rewrite strlen_cons, Z.pow_add_r, Z.pow_1_r by (try apply strlen_nonneg; lia).
  pose proof (Z.pow_pos_nonneg 10 (strlen s)). pose proof (strlen_nonneg s). nia.
Qed.

(** Horner evaluation from the left, as the parsers do, gives the place value. *)
Lemma atoi_loop_spec s : forall n k, 0 <= n < 10 ^ k -> 0 <= k -> k + strlen s <= 18 ->
  (all_chars is_digit s -> atoi_loop n s = Some (n * 10 ^ strlen s + digits_value s)) /\
  (~ all_chars is_digit s -> atoi_loop n s = None).
Proof.
  induction s as [|c s IH]; intros n k Hn Hk Hl.
  - cbn. split; [intros _; f_equal; lia|intros H; exfalso; apply H; exact I].
  - rewrite strlen_cons in Hl. cbn [atoi_loop all_chars digits_value]. pose proof (strlen_nonneg s) as Hs0.
    pose proof (byte_range c) as Hb.
    destruct (Z.ltb_spec 9 ((byte c - 48) mod 256)) as [H9|H9].
    + assert (Hnd : ~ is_digit c).
      { intros H. apply digit_iff in H. rewrite Z.mod_small in H9; lia. }
      split; [tauto|reflexivity].
    + assert (Hd : 48 <= byte c <= 57).
      { destruct (Z.le_gt_cases 48 (byte c)) as [H48|H48]; [rewrite Z.mod_small in H9; lia|].
        exfalso. replace (byte c - 48) with (byte c - 48 + 256 + (-1) * 256) in H9 by lia.
        rewrite Z_mod_plus_full, Z.mod_small in H9; lia. }
      rewrite Z.mod_small by lia.
      assert (Hp : 10 ^ (k + 1) = 10 * 10 ^ k) by (rewrite Z.pow_add_r by lia; lia).
      assert (Hbound : n * 10 + (byte c - 48) < 10 ^ (k + 1)) by lia.
      assert (H18 : 10 ^ (k + 1) <= 10 ^ 18) by (apply Z.pow_le_mono_r; lia).
      assert (Hi : i64 (n * 10 + (byte c - 48)) = n * 10 + (byte c - 48)) by (apply i64_id; unfold in64; lia).
      rewrite Hi. destruct (IH (n * 10 + (byte c - 48)) (k + 1)) as (A & B); [lia|lia|lia|].
      split.
      * intros (_ & Hs). rewrite (A Hs). f_equal. rewrite strlen_cons, Z.pow_add_r by lia. lia.
      * intros H. apply B. intros Hs. apply H. split; [apply digit_iff; exact Hd|exact Hs].
Qed.

Lemma parse_uint_loop_spec s : forall n, 0 <= n < 2 ^ 64 ->
  (all_chars is_digit s -> parse_uint_loop n s =
     if n * 10 ^ strlen s + digits_value s <? 2 ^ 64 then Some (n * 10 ^ strlen s + digits_value s) else None) /\
  (~ all_chars is_digit s -> parse_uint_loop n s = None).
Proof.
  induction s as [|c s IH]; intros n Hn.
  - cbn [parse_uint_loop digits_value all_chars]. replace (n * 10 ^ strlen "" + 0) with n by (change (strlen "") with 0; lia).
    split; [intros _; destruct (Z.ltb_spec n (2 ^ 64)); [reflexivity|lia]|intros H; exfalso; apply H; exact I].
  - cbn [parse_uint_loop all_chars digits_value]. pose proof (strlen_nonneg s) as Hs0.
    pose proof (Z.pow_pos_nonneg 10 (strlen s) ltac:(lia) Hs0) as Hpow.
    rewrite strlen_cons, Z.pow_add_r, Z.pow_1_r by lia.
    destruct (Z.leb_spec 48 (byte c)) as [H1|H1], (Z.leb_spec (byte c) 57) as [H2|H2]; cbn [andb].
    2,3,4: split; [intros (Hc & _); apply digit_iff in Hc; lia|reflexivity].
    destruct (Z.leb_spec 1844674407370955162 n) as [H3|H3].
    + split; [|reflexivity]. intros (_ & Hs). pose proof (digits_value_bounds s Hs).
      destruct (Z.ltb_spec (n * (10 ^ strlen s * 10) + ((byte c - 48) * 10 ^ strlen s + digits_value s)) (2 ^ 64)); [|reflexivity].
      exfalso. nia.
    + assert (Hm : u64 (n * 10) = n * 10) by (unfold u64; rewrite Z.mod_small; lia). rewrite Hm.
      destruct (Z.lt_ge_cases (n * 10 + (byte c - 48)) (2 ^ 64)) as [H4|H4].
      * assert (Hm2 : u64 (n * 10 + (byte c - 48)) = n * 10 + (byte c - 48)) by (unfold u64; rewrite Z.mod_small; lia).
        rewrite Hm2.
        destruct (Z.ltb_spec (n * 10 + (byte c - 48)) (n * 10)); [lia|].
        destruct (Z.ltb_spec (2 ^ 64 - 1) (n * 10 + (byte c - 48))); [lia|]. cbn [orb].
        destruct (IH (n * 10 + (byte c - 48)) ltac:(lia)) as (A & B). split.
        -- intros (_ & Hs). rewrite (A Hs).
           replace ((n * 10 + (byte c - 48)) * 10 ^ strlen s + digits_value s)
             with (n * (10 ^ strlen s * 10) + ((byte c - 48) * 10 ^ strlen s + digits_value s)) by ring. reflexivity.
        -- intros Hbad. apply B. intros Hs. apply Hbad. split; [apply digit_iff; lia|exact Hs].
      * assert (Hm2 : u64 (n * 10 + (byte c - 48)) = n * 10 + (byte c - 48) - 2 ^ 64).
        { unfold u64. replace (n * 10 + (byte c - 48)) with (n * 10 + (byte c - 48) - 2 ^ 64 + 1 * 2 ^ 64) at 1 by ring.
          rewrite Z_mod_plus_full, Z.mod_small; lia. }
        rewrite Hm2. destruct (Z.ltb_spec (n * 10 + (byte c - 48) - 2 ^ 64) (n * 10)); [|lia]. cbn [orb].
        split; [|reflexivity]. intros (_ & Hs). pose proof (digits_value_bounds s Hs).
        destruct (Z.ltb_spec (n * (10 ^ strlen s * 10) + ((byte c - 48) * 10 ^ strlen s + digits_value s)) (2 ^ 64)); [|reflexivity].
        exfalso. nia.
Qed.

Lemma digits_dec s : {all_chars is_digit s} + {~ all_chars is_digit s}.
Proof.
  induction s as [|c s IH]; [left; exact I|].
  destruct (in_dec ascii_dec c ["0"; "1"; "2"; "3"; "4"; "5"; "6"; "7"; "8"; "9"]%char) as [Hc|Hc].
  - destruct IH as [IH|IH]; [left; split; assumption|right; intros (_ & H); exact (IH H)].
  - right. intros (H & _). exact (Hc H).
Qed.

(** Splitting off the sign. *)
Lemma take_sign_spec s : forall neg rest, take_sign s = (neg, rest) ->
  (neg = true /\ s = "-" ++ rest) \/ (neg = false /\ s = "+" ++ rest) \/
  (neg = false /\ s = rest /\ forall r, s <> "-" ++ r /\ s <> "+" ++ r).
Proof.
  intros neg rest H. destruct s as [|c s].
  - cbn in H. injection H as <- <-. right. right. repeat split; discriminate.
  - unfold take_sign in H.
    destruct (ascii_dec c "-") as [->|H1]; [injection H as <- <-; left; auto|].
    destruct (ascii_dec c "+") as [->|H2]; [injection H as <- <-; right; left; auto|].
    right. right.
    assert (Hr : (neg, rest) = (false, String.String c s)).
    { destruct c as [b0 b1 b2 b3 b4 b5 b6 b7].
      destruct b0, b1, b2, b3, b4, b5, b6, b7; try (symmetry; exact H); exfalso; auto. }
    injection Hr as -> ->. split; [reflexivity|]. split; [reflexivity|].
    intros r. cbn. split; intros [= -> ->]; auto.
Qed.

Lemma decimal_sign s v neg rest : take_sign s = (neg, rest) ->
  (decimal s v <-> rest <> "" /\ all_chars is_digit rest /\ v = if neg then - digits_value rest else digits_value rest).
Proof.
  intros H. apply take_sign_spec in H. split.
  - intros (ds & Hne & Hd & Hs). destruct H as [(-> & ->)|[(-> & ->)|(-> & -> & Hno)]].
    + destruct Hs as [(<- & ->)|[([=] & _)|(Heq & ->)]].
      * exfalso. cbn in Hd. destruct Hd as (Hd & _). apply digit_iff in Hd. vm_compute in Hd. destruct Hd. congruence.
      * injection Heq as <-. auto.
    + destruct Hs as [(<- & ->)|[(Heq & ->)|([=] & _)]].
      * exfalso. cbn in Hd. destruct Hd as (Hd & _). apply digit_iff in Hd. vm_compute in Hd. destruct Hd. congruence.
      * injection Heq as <-. auto.
    + destruct Hs as [(-> & ->)|[(-> & ->)|(-> & ->)]]; [auto| |]; exfalso; destruct (Hno ds) as (A & B); auto.
  - intros (Hne & Hd & ->). exists rest. split; [exact Hne|]. split; [exact Hd|].
    destruct H as [(-> & ->)|[(-> & ->)|(-> & -> & Hno)]]; auto.
Qed.

Lemma take_sign_len s neg rest : take_sign s = (neg, rest) -> strlen rest <= strlen s.
Proof.
  intros H. apply take_sign_spec in H. destruct H as [(_ & ->)|[(_ & ->)|(_ & -> & _)]];
    unfold strlen; cbn [String.append String.length]; lia.
Qed.

(** Atoi accepts exactly the decimal strings whose value fits. *)
Lemma atoi_spec s v : atoi s = Some v <-> decimal s v /\ in64 v.
Proof.
  unfold atoi. destruct (take_sign s) as [neg rest] eqn:Es.
  rewrite (decimal_sign s v neg rest Es). pose proof (take_sign_len _ _ _ Es) as Hlen. pose proof (strlen_nonneg rest) as Hr0.
  destruct ((0 <? strlen s) && (strlen s <? 19)) eqn:Ef.
  - apply andb_prop in Ef. destruct Ef as (E1 & E2). apply Z.ltb_lt in E1, E2.
    destruct (String.eqb_spec rest "") as [->|Hne].
    + split; [discriminate|]. intros ((H & _) & _). congruence.
    + destruct (atoi_loop_spec rest 0 0 ltac:(lia) ltac:(lia) ltac:(lia)) as (A & B).
      destruct (digits_dec rest) as [Hd|Hd].
      * rewrite (A Hd). pose proof (digits_value_bounds rest Hd) as Hb.
        assert (H18 : 10 ^ strlen rest <= 10 ^ 18) by (apply Z.pow_le_mono_r; lia).
        rewrite Z.mul_0_l, Z.add_0_l.
        assert (Hi : i64 (- digits_value rest) = - digits_value rest) by (apply i64_id; unfold in64; lia).
        rewrite Hi. split.
        -- intros [= <-]. split; [split; [exact Hne|split; [exact Hd|reflexivity]]|]. unfold in64. destruct neg; lia.
        -- intros ((_ & _ & ->) & _). destruct neg; reflexivity.
      * rewrite (B Hd). split; [discriminate|]. intros ((_ & H & _) & _). exfalso. exact (Hd H).
  - unfold parse_int. destruct (String.eqb_spec s "") as [->|Hs].
    + cbn in Es. injection Es as <- <-. split; [discriminate|]. intros ((H & _) & _). congruence.
    + rewrite Es. unfold parse_uint. destruct (String.eqb_spec rest "") as [->|Hne].
      * split; [discriminate|]. intros ((H & _) & _). congruence.
      * destruct (parse_uint_loop_spec rest 0 ltac:(lia)) as (A & B).
        destruct (digits_dec rest) as [Hd|Hd].
        -- rewrite (A Hd), Z.mul_0_l, Z.add_0_l. pose proof (digits_value_bounds rest Hd) as Hb.
           set (u := digits_value rest) in *.
           destruct (Z.ltb_spec u (2 ^ 64)) as [H64|H64].
           ++ destruct neg; cbn [negb andb].
              ** destruct (Z.ltb_spec (2 ^ 63) u) as [H63|H63].
                 { split; [discriminate|]. intros ((_ & _ & ->) & H). unfold in64 in H. lia. }
                 assert (Hi : i64 (- i64 u) = - u).
                 { destruct (Z.eq_dec u (2 ^ 63)) as [->|Hu]; [vm_compute; reflexivity|].
                   rewrite (i64_id u) by (unfold in64; lia). apply i64_id. unfold in64. lia. }
                 rewrite Hi. split.
                 { intros [= <-]. split; [auto|]. unfold in64. lia. }
                 { intros ((_ & _ & ->) & _). reflexivity. }
              ** destruct (Z.leb_spec (2 ^ 63) u) as [H63|H63].
                 { split; [discriminate|]. intros ((_ & _ & ->) & H). unfold in64 in H. lia. }
                 rewrite (i64_id u) by (unfold in64; lia). split.
                 { intros [= <-]. split; [auto|]. unfold in64. lia. }
                 { intros ((_ & _ & ->) & _). reflexivity. }
           ++ split; [discriminate|]. intros ((_ & _ & Hv) & H). exfalso. unfold in64 in H. destruct neg; lia.
        -- rewrite (B Hd). split; [discriminate|]. intros ((_ & H & _) & _). exfalso. exact (Hd H).
Qed.

Lemma int_processor_exact min mi max ma s :
  (accepts (int_processor min mi max ma) s = true <->
   exists v, decimal s v /\ in64 v /\ in_range min mi max ma v) /\
  (forall v, decimal s v -> in64 v -> p_convert (int_processor min mi max ma) s = v).
Proof.
  assert (Hu : forall v, decimal s v -> in64 v -> atoi s = Some v) by (intros v H1 H2; apply atoi_spec; auto).
  split.
  - unfold accepts, int_processor. cbn [p_validate]. destruct (atoi s) as [v|] eqn:Ea.
    + apply atoi_spec in Ea. destruct Ea as (H1 & H2).
      assert (Hex : (exists v, decimal s v /\ in64 v /\ in_range min mi max ma v) <-> in_range min mi max ma v).
      { split; [|intros H; exists v; auto]. intros (v' & A & B & C).
        specialize (Hu v H1 H2) as E1. specialize (Hu v' A B). congruence. }
      rewrite Hex. unfold in_range.
      destruct mi, ma; cbn [negb andb];
        repeat match goal with |- context [if ?a <? ?b then _ else _] => destruct (Z.ltb_spec a b)
                          | |- context [if ?a <=? ?b then _ else _] => destruct (Z.leb_spec a b) end;
        cbn [fst]; split; intros; try discriminate; try reflexivity; try split; lia.
    + cbn. split; [discriminate|]. intros (v & A & B & _). pose proof (Hu v A B). congruence.
  - intros v H1 H2. cbn. rewrite (Hu v H1 H2). reflexivity.
Qed.

Lemma string_processor_exact a b s :
  (accepts (string_processor a b) s = true <-> a <= Z.of_nat (String.length s) <= b) /\
  p_convert (string_processor a b) s = s.
Proof.
  split; [|reflexivity]. unfold accepts. cbn. unfold strlen.
  destruct (Z.leb_spec a (Z.of_nat (String.length s))), (Z.leb_spec (Z.of_nat (String.length s)) b); cbn;
    split; intros; try discriminate; try reflexivity; lia.
Qed.

Lemma bool_processor_exact s :
  (accepts bool_proc s = true <-> s = "true" \/ s = "false") /\
  p_convert bool_proc "true" = true /\ p_convert bool_proc "false" = false.
Proof.
  split; [|split; reflexivity]. unfold accepts. cbn [bool_proc p_validate].
  destruct (String.eqb_spec s "true") as [->|H1]; [cbn; tauto|].
  destruct (String.eqb_spec s "false") as [->|H2]; [cbn; tauto|]. cbn. split; [discriminate|tauto].
Qed.

Lemma enum_processor_exact enums s :
  (accepts (enum_processor enums) s = true <-> In s enums) /\ p_convert (enum_processor enums) s = s.
Proof.
  split; [|reflexivity]. unfold accepts. cbn [enum_processor p_validate fst]. rewrite existsb_exists. split.
  - intros (x & H1 & H2). apply String.eqb_eq in H2. subst. exact H1.
  - intros H. exists s. split; [exact H|apply seqb_refl].
Qed.

Lemma is_hex_iff c : is_hex c = true <-> hex_digit c.
Proof.
  split.
  - destruct c as [b0 b1 b2 b3 b4 b5 b6 b7].
    destruct b0, b1, b2, b3, b4, b5, b6, b7; intros H; try (vm_compute in H; discriminate);
      unfold hex_digit; cbn [In]; tauto.
  - unfold hex_digit. cbn [In]. intros H. repeat (destruct H as [<-|H]; [reflexivity|]). destruct H.
Qed.

Lemma hex_prefix_spec n s : hex_prefix n s = true <->
  exists d r, s = d ++ r /\ String.length d = n /\ all_chars hex_digit d.
Proof.
  revert s. induction n as [|n IH]; intros s; cbn [hex_prefix].
  - split; [|reflexivity]. intros _. exists "", s. repeat split.
  - destruct s as [|c s].
    + split; [discriminate|]. intros (d & r & H1 & H2 & _). destruct d; discriminate.
    + rewrite andb_true_iff, is_hex_iff, IH. split.
      * intros (Hc & d & r & -> & Hd & Ha). exists (String.String c d), r. cbn. repeat split; try assumption. congruence.
      * intros (d & r & H1 & H2 & H3). destruct d as [|c' d]; [discriminate|]. cbn in H1, H2. destruct H3 as (H3 & H4).
        injection H1 as -> ->. split; [exact H3|]. exists d, r. repeat split; [congruence|exact H4].
Qed.

Lemma css_search_spec s : css_search s = true <-> exists a c b, s = a ++ c ++ b /\ colour c.
Proof.
  induction s as [|x s IH]; cbn [css_search].
  - split; [discriminate|]. intros (a & c & b & H & d & -> & _). destruct a; discriminate.
  - rewrite orb_true_iff, andb_true_iff, hex_prefix_spec, IH. split.
    + intros [(Hx & d & r & -> & Hl & Ha)|(a & c & b & -> & Hc)].
      * apply Ascii.eqb_eq in Hx. subst x. exists "", ("#" ++ d), r. split; [reflexivity|]. exists d. auto.
      * exists (String.String x a), c, b. split; [reflexivity|exact Hc].
    + intros (a & c & b & H & Hc). destruct a as [|y a].
      * left. destruct Hc as (d & -> & Hl & Ha). cbn in H. injection H as -> ->. split; [reflexivity|].
        exists d, b. auto.
      * cbn in H. injection H as -> ->. right. exists a, c, b. auto.
Qed.

Lemma css_exact s : accepts css_color_hex s = true <-> s = "" \/ exists a c b, s = a ++ c ++ b /\ colour c.
Proof.
  unfold accepts. cbn [css_color_hex p_validate]. rewrite <- css_search_spec.
  destruct (String.eqb_spec s "") as [->|H]; [cbn; tauto|]. destruct (css_search s); cbn; [tauto|].
  split; [discriminate|]. intros [?|?]; [congruence|discriminate].
Qed.

Lemma parser_exact {T} (parse : string -> option T) msg blank zero s :
  (accepts (parser_processor parse msg blank zero) s = true <->
   (s = "" /\ blank <> None) \/ exists v, parse s = Some v) /\
  (forall v, (s <> "" \/ blank = None) -> parse s = Some v ->
     p_convert (parser_processor parse msg blank zero) s = v) /\
  (forall n, s = "" -> blank = Some n -> p_convert (parser_processor parse msg blank zero) s = n).
Proof.
  unfold accepts, parser_processor. cbn [p_validate p_convert].
  split; [|split].
  - destruct blank as [n|].
    + destruct (String.eqb_spec s "") as [->|H].
      * cbn. split; [left; split; congruence|reflexivity].
      * destruct (parse s) as [v|]; cbn; split; intros; try reflexivity; try discriminate; eauto.
        destruct H0 as [(A & _)|(v & [=])]. congruence.
    + destruct (parse s) as [v|]; cbn; split; intros; try reflexivity; try discriminate; eauto.
      destruct H as [(_ & A)|(v & [=])]. congruence.
  - intros v Hs ->. destruct blank as [n|]; [|reflexivity].
    destruct (String.eqb_spec s "") as [->|H]; [destruct Hs; congruence|reflexivity].
  - intros n -> ->. reflexivity.
Qed.

Lemma int_presets s :
  (accepts int_proc s = true <-> exists v, decimal s v /\ -2147483648 <= v <= 2147483647) /\
  (accepts int_gt_zero s = true <-> exists v, decimal s v /\ 0 < v <= 2147483647) /\
  (accepts int_gt_eq_zero s = true <-> exists v, decimal s v /\ 0 <= v <= 2147483647).
Proof.
  unfold int_proc, int_gt_zero, int_gt_eq_zero.
  repeat split; (rewrite (proj1 (int_processor_exact _ _ _ _ s)); intros (v & Hv);
    exists v; unfold in_range, in64 in *; intuition lia) ||
  (intros H; apply int_processor_exact in H; destruct H as (v & Hv); exists v; unfold in_range in Hv; intuition lia).
Qed.

Lemma string_preset s :
  (accepts string_proc s = true <-> Z.of_nat (String.length s) <= 2147483647) /\ p_convert string_proc s = s.
Proof.
  destruct (string_processor_exact 0 (2 ^ 31 - 1) s) as (H & H2). split; [|exact H2].
  unfold string_proc. rewrite H. lia.
Qed.
