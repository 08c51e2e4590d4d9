(** Proofs about the texts of float64 numbers. *)
From Verif Require Import Common Bytes ProcsModel ProcsSpec ProcsProofs ConfNamesSpec ConfNamesProofs ConfsModel ConfsProofs PprofSpec JsonModel JsonSpec JsonProofs JsonEncode JsonFloatModel JsonFloatSpec JsonFloatProofs.
From Coq Require Import QArith Qround Qabs Qpower Lqa Lia.
Local Open Scope string_scope.
Local Open Scope list_scope.
Local Open Scope Z_scope.
Local Notation chr := String.String.

(** * Reading *)

Lemma fraction_read f fd : fraction_digits f fd -> fraction_part f /\ after_first f = fd /\ all_chars is_digit fd.
Proof.
  intros [[-> ->]|[H ->]]; [split; [left; reflexivity|split; [reflexivity|exact I]]|].
  split; [right; eauto|]. split; [reflexivity|apply H].
Qed.
(** Reading with all digits of the exponent. *)
Definition exponent_exact (s : string) : Z :=
  let (sg, d) := lex_sign (after_first s) in
  if (sg =? "-")%string then - digits_from 0 d else digits_from 0 d.
Definition read_exact (s : string) : option (bool * Z * Z) :=
  let (m, s) := lex_minus s in
  match lex_int s with
  | None => None
  | Some (i, s) =>
    match lex_frac s with
    | None => None
    | Some (f, s) =>
      match lex_exp s with
      | None => None
      | Some (e, s) =>
        if (s =? "")%string then
          Some ((m =? "-")%string, digits_from 0 (i ++ after_first f)%string,
                exponent_exact e - Z.of_nat (String.length (after_first f)))
        else None
      end
    end
  end.

(** The cap on exponents. *)
Lemma capped_stop s : forall n, 10000 <= n -> capped_from n s = n.
Proof. induction s as [|c s IH]; intros n H; [reflexivity|]. cbn [capped_from]. destruct (Z.ltb_spec n 10000); [lia|now apply IH]. Qed.
Lemma capped_digits s : all_chars is_digit s -> forall n, 0 <= n < 10000 ->
  let v := n * 10 ^ strlen s + digits_value s in
  (v < 100000 -> capped_from n s = v) /\ (100000 <= v -> 10000 <= capped_from n s <= v).
Proof.
  induction s as [|c s IH]; intros A n Hn; [cbn; lia|]. destruct A as [Hc A]. cbn [capped_from digits_value]. destruct (Z.ltb_spec n 10000); [|lia].
  apply digit_range in Hc. rewrite strlen_chr, Z.pow_add_r, Z.pow_1_r by (apply strlen_nonneg || lia). set (n' := n * 10 + (byte c - 48)).
  replace (n * (10 ^ strlen s * 10) + ((byte c - 48) * 10 ^ strlen s + digits_value s)) with (n' * 10 ^ strlen s + digits_value s) by (unfold n'; ring).
  destruct (Z_lt_le_dec n' 10000) as [L|L]; [apply IH; [exact A|unfold n' in *; lia]|]. cbv zeta. rewrite (capped_stop s n' L).
  pose proof (digits_value_bounds s A) as B. destruct s as [|c' s']; [cbn [digits_value] in *; change (10 ^ strlen "") with 1; unfold n' in *; lia|].
  assert (P : 10 <= 10 ^ strlen (chr c' s')).
  { rewrite strlen_chr, Z.pow_add_r, Z.pow_1_r by (apply strlen_nonneg || lia). pose proof (Z.pow_pos_nonneg 10 (strlen s') ltac:(lia) (strlen_nonneg s')). lia. }
  split; nia.
Qed.
Lemma capped_exact d : all_chars is_digit d ->
  (digits_value d < 100000 -> capped_from 0 d = digits_value d) /\ (100000 <= digits_value d -> 10000 <= capped_from 0 d).
Proof. intros A. pose proof (capped_digits d A 0 ltac:(lia)) as H. cbv zeta in H. rewrite Z.mul_0_l, Z.add_0_l in H. split; [tauto|]. intros L. apply H in L. lia. Qed.

Lemma exponent_read e v : exponent_of e v -> exponent_part e /\ exponent_exact e = v /\
  (Z.abs v < 100000 -> exponent_value e = v) /\ (100000 <= v -> 10000 <= exponent_value e) /\ (v <= - 100000 -> exponent_value e <= - 10000).
Proof.
  intros [[-> ->]|(x & sg & d & Hx & Hd & -> & H)]; [split; [left; reflexivity|split; [reflexivity|cbn; lia]]|].
  assert (S : In sg [""; "+"; "-"]) by (cbn; destruct H as [[[->| ->] _]|[-> _]]; auto).
  split; [right; exists x, sg, d; auto|].
  assert (A : after_first (x +++ sg +++ d) = sg +++ d) by (cbn in Hx; destruct Hx as [<-|[<-|[]]]; reflexivity).
  unfold exponent_exact, exponent_value. rewrite A.
  assert (L : lex_sign (sg +++ d) = (sg, d)).
  { unfold lex_sign. destruct (digits_chr d Hd) as (c & t & -> & Hc). destruct (digit_not_sign c Hc) as (C1 & C2 & _).
    cbn in S. destruct S as [<-|[<-|[<-|[]]]]; cbn [String.append].
    - rewrite (strip_one_not "+"), (strip_one_not "-"); [reflexivity|cbn; congruence..].
    - reflexivity.
    - reflexivity. }
  rewrite L, digits_from_0. destruct (capped_exact d (proj2 Hd)) as [C1 C2]. pose proof (digits_value_bounds d (proj2 Hd)) as B.
  destruct H as [[[->| ->] ->]|[-> ->]]; cbn [String.eqb Ascii.eqb Bool.eqb]; (split; [reflexivity|]).
  - rewrite Z.abs_eq by lia. split; [exact C1|]. split; [exact C2|]. lia.
  - rewrite Z.abs_eq by lia. split; [exact C1|]. split; [exact C2|]. lia.
  - rewrite Z.abs_neq, Z.opp_involutive by lia. split; [intros K; now rewrite C1|]. split; [lia|]. intros K. specialize (C2 ltac:(lia)). lia.
Qed.
Lemma whole_digits i : whole_part i -> all_chars is_digit i.
Proof. intros [->|(c & d & Hc & _ & Hd & ->)]; cbn; [tauto|auto]. Qed.

Lemma literal_number s neg ds k : literal s neg ds k -> number s.
Proof.
  intros (i & f & fd & e & v & Hi & Hf & He & -> & _). exists (if neg then "-" else ""), i, f, e.
  split; [destruct neg; auto|]. split; [exact Hi|]. split; [apply (fraction_read _ _ Hf)|]. split; [apply (exponent_read _ _ He)|reflexivity].
Qed.
Lemma literal_digits s neg ds k : literal s neg ds k -> all_chars is_digit ds.
Proof.
  intros (i & f & fd & e & v & Hi & Hf & He & _ & -> & _). apply all_chars_app. split; [now apply whole_digits|apply (fraction_read _ _ Hf)].
Qed.
Definition no_e (c : ascii) : Prop := c <> "e"%char /\ c <> "E"%char.
Lemma no_e_letters p : (~ In "e"%char (letters p) /\ ~ In "E"%char (letters p)) <-> all_chars no_e p.
Proof.
  induction p as [|c p IH]; cbn [letters all_chars In]; [tauto|]. rewrite <- IH. unfold no_e. intuition congruence.
Qed.
Lemma digits_no_e d : all_chars is_digit d -> all_chars no_e d.
Proof.
  induction d as [|c d IH]; cbn [all_chars]; [tauto|]. intros [H K]. split; [|now apply IH].
  cbn [is_digit In] in H. repeat (destruct H as [<-|H]; [split; discriminate|]). destruct H.
Qed.
Lemma exponent_first e v : exponent_of e v -> e = "" \/ exists c t, e = chr c t /\ (c = "e"%char \/ c = "E"%char).
Proof. intros [[-> _]|(x & sg & d & Hx & _ & -> & _)]; [now left|]. right. cbn in Hx. destruct Hx as [<-|[<-|[]]]; [exists "e"%char|exists "E"%char]; eexists; (split; [reflexivity|tauto]). Qed.
Lemma no_e_split p : forall q a b, all_chars no_e p -> all_chars no_e q -> (a = "" \/ exists c t, a = chr c t /\ (c = "e"%char \/ c = "E"%char)) ->
  (b = "" \/ exists c t, b = chr c t /\ (c = "e"%char \/ c = "E"%char)) -> p +++ a = q +++ b -> a = b.
Proof.
  induction p as [|c p IH]; intros [|c' q] a b P Q A B E; cbn [String.append] in E.
  - exact E.
  - subst a. destruct A as [A|(x & t & A & X)]; [discriminate|]. injection A as <- _. destruct Q as [[Q1 Q2] _]. destruct X as [-> | ->]; congruence.
  - subst b. destruct B as [B|(x & t & B & X)]; [discriminate|]. injection B as <- _. destruct P as [[P1 P2] _]. destruct X as [-> | ->]; congruence.
  - injection E as _ E. destruct P as [_ P], Q as [_ Q]. now apply (IH q).
Qed.
Lemma exponent_unique s p e v w : s = p +++ e -> exponent_of e v -> all_chars no_e p -> exponent_at s w -> w = v.
Proof.
  intros -> E P (q & b & S & B & Q1 & Q2). assert (Q : all_chars no_e q) by now apply no_e_letters.
  pose proof (no_e_split p q e b P Q (exponent_first _ _ E) (exponent_first _ _ B) S) as ->. apply exponent_read in E, B.
  destruct E as (_ & E & _), B as (_ & B & _). congruence.
Qed.

Lemma literal_read s neg ds k : literal s neg ds k -> read_exact s = Some (neg, digits_value ds, k) /\
  exists v fd e p, s = p +++ e /\ exponent_of e v /\ all_chars no_e p /\ k = v - strlen fd /\
    strlen fd <= strlen s /\ strlen ds <= strlen s /\ all_chars is_digit ds /\ read_decimal s = Some (neg, digits_value ds, exponent_value e - strlen fd).
Proof.
  intros (i & f & fd & e & v & Hi & Hf & He & -> & -> & ->). unfold read_exact, read_decimal.
  assert (M : lex_minus ((if neg then "-" else "") +++ i +++ f +++ e) = (if neg then "-" else "", i +++ f +++ e)).
  { unfold lex_minus. destruct neg; cbn [String.append].
    - rewrite strip_one. reflexivity.
    - destruct (whole_chr i Hi) as (c & t & -> & Hc). rewrite strip_one_not; [reflexivity|].
      cbn. destruct (digit_not_sign c Hc) as (C & _). congruence. }
  destruct (fraction_read f fd Hf) as (F1 & F2 & _). destruct (exponent_read e v He) as (E1 & E2 & _).
  destruct (exp_starts e "" E1) as [N1 N2]; [split; exact I|]. rewrite append_empty in N1, N2.
  rewrite M, lex_int_at by (assumption || (apply frac_starts; assumption)).
  rewrite lex_frac_at by assumption. assert (X : lex_exp e = Some (e, "")) by (rewrite <- (append_empty e) at 1; apply lex_exp_at; [assumption|split; exact I]).
  rewrite X. cbn [String.eqb]. rewrite F2, E2, digits_from_0. split; [destruct neg; reflexivity|].
  assert (W : all_chars is_digit i) by now apply whole_digits. assert (D : all_chars is_digit fd) by apply (fraction_read f fd Hf).
  exists v, fd, e, ((if neg then "-" else "") +++ i +++ f). split; [now rewrite !append_assoc'|]. split; [exact He|]. split.
  { rewrite !all_chars_app. split; [|split; [now apply digits_no_e|]].
    - destruct neg; cbn; [|exact I]. split; [split; discriminate|exact I].
    - destruct Hf as [[-> _]|[_ ->]]; [exact I|]. cbn [String.append all_chars]. split; [split; discriminate|now apply digits_no_e]. }
  split; [reflexivity|]. assert (LF : strlen fd <= strlen f) by (destruct Hf as [[-> ->]|[_ ->]]; [lia|cbn [String.append]; rewrite strlen_chr; lia]).
  rewrite !strlen_app. pose proof (strlen_nonneg e). pose proof (strlen_nonneg i). pose proof (strlen_nonneg (if neg then "-" else "")).
  split; [lia|]. split; [lia|]. split; [now apply all_chars_app|]. destruct neg; reflexivity.
Qed.
Lemma number_literal s : number s -> exists neg ds k, literal s neg ds k.
Proof.
  intros (m & i & f & e & Hm & Hi & Hf & He & ->).
  assert (F : exists fd, fraction_digits f fd) by (destruct Hf as [->|(d & H & ->)]; [exists ""; left; auto|exists d; right; auto]).
  destruct F as (fd & F).
  assert (E : exists v, exponent_of e v).
  { destruct He as [->|(x & sg & d & Hx & Hs & Hd & ->)]; [exists 0; left; auto|]. cbn in Hs.
    destruct Hs as [<-|[<-|[<-|[]]]]; [exists (digits_value d)|exists (digits_value d)|exists (- digits_value d)]; right;
      exists x; eexists; exists d; (split; [exact Hx|]); (split; [exact Hd|]); (split; [reflexivity|]); auto. }
  destruct E as (v & E). exists (if String.eqb m "-" then true else false), (i +++ fd), (v - strlen fd), i, f, fd, e, v.
  split; [exact Hi|]. split; [exact F|]. split; [exact E|]. split; [destruct Hm as [->| ->]; reflexivity|]. split; reflexivity.
Qed.

Lemma literal_dec neg ds k : (literal_value neg ds k == signed neg (dec (digits_value ds) k))%Q.
Proof. reflexivity. Qed.

(** Very large and very small numbers. *)
Lemma round_huge D k : 1 <= D -> 400 <= k -> round64 (dec D k) = None.
Proof.
  intros H K. apply round64_none; [apply dec_nonneg; lia|]. unfold out_of_range. rewrite Qabs_pos by (apply dec_nonneg; lia).
  apply Qle_trans with (pow10 400); [vm_compute; discriminate|]. apply Qle_trans with (pow10 k); [now apply pow10_le|].
  unfold dec. rewrite <- (Qmult_1_l (pow10 k)) at 1. apply Qmult_le_compat_r; [change 1%Q with (inject_Z 1); rewrite <- Zle_Qle; lia|apply Qlt_le_weak, pow10_pos].
Qed.
Lemma nearest_tiny x : (0 <= x)%Q -> (x <= pow10 (-400))%Q -> nearest x = zero64.
Proof.
  intros H L. apply canonical_unique; [apply nearest_canonical|unfold canonical64, zero64; cbn [fst snd]; lia|].
  pose proof (nearest_mono x (pow10 (-400)) H L) as M. assert (T : nearest (pow10 (-400)) = zero64) by (vm_compute; reflexivity). rewrite T in M.
  pose proof val_zero as V. pose proof (val_nonneg (nearest x) (nearest_canonical x)). lra.
Qed.
Lemma round_tiny D k : 0 <= D -> forall n, D < 10 ^ n -> 0 <= n -> n + k <= -400 -> round64 (dec D k) = Some zero64.
Proof.
  intros H n L N K. apply round64_some. split; [|cbn; lia]. apply nearest_tiny; [now apply dec_nonneg|].
  apply Qle_trans with (pow10 (n + k)); [|now apply pow10_le]. unfold dec. rewrite pow10_plus, (pow10_Z n N).
  apply Qmult_le_compat_r; [rewrite <- Zle_Qle; lia|apply Qlt_le_weak, pow10_pos].
Qed.
Lemma round_zero k : round64 (dec 0 k) = Some zero64.
Proof. apply round64_some. split; [|cbn; lia]. apply nearest_zero. unfold dec. change (inject_Z 0) with 0%Q. rewrite Qmult_0_l. apply Qle_refl. Qed.

Lemma parse_literal s neg ds k : literal s neg ds k -> moderate s ->
  parse_float64 s = match round64 (dec (digits_value ds) k) with Some (m, e) => Some (Fin neg m e) | None => None end.
Proof.
  intros L M. destruct (literal_read s neg ds k L) as (_ & v & fd & e & p & S & E & P & -> & B1 & B2 & A & R). unfold parse_float64. rewrite R.
  fold (dec (digits_value ds) (exponent_value e - strlen fd)). destruct (exponent_read e v E) as (_ & _ & X1 & X2 & X3).
  destruct (Z_lt_le_dec (Z.abs v) 100000) as [V|V]; [now rewrite (X1 V)|]. destruct M as [M|(w & W & V')].
  2:{ pose proof (exponent_unique s p e v w S E P W) as ->. lia. }
  replace (round64 (dec (digits_value ds) (exponent_value e - strlen fd))) with (round64 (dec (digits_value ds) (v - strlen fd))); [reflexivity|].
  pose proof (digits_value_bounds ds A) as D. pose proof (strlen_nonneg ds). pose proof (strlen_nonneg fd).
  destruct (Z.eq_dec (digits_value ds) 0) as [->|N]; [now rewrite !round_zero|]. destruct (Z_lt_le_dec 0 v) as [G|G].
  - specialize (X2 ltac:(lia)). rewrite !round_huge by lia. reflexivity.
  - specialize (X3 ltac:(lia)). rewrite !(round_tiny _ _ (proj1 D) (strlen ds)) by lia. reflexivity.
Qed.

Lemma signed_abs1 neg x : (0 <= x)%Q -> (Qabs (signed neg x) == x)%Q.
Proof. intros H. destruct neg; cbn [signed]; [rewrite Qabs_opp|]; now apply Qabs_pos. Qed.

Lemma parse_rounds s neg ds k f : literal s neg ds k -> moderate s -> parse_float64 s = Some f ->
  rounds_to (literal_value neg ds k) f /\ negative f = neg.
Proof.
  intros L M P. rewrite (parse_literal s neg ds k L M) in P. destruct (round64 (dec (digits_value ds) k)) as [[m e]|] eqn:R; [|discriminate].
  injection P as <-. split; [|reflexivity]. unfold literal_value. apply round64_rounds; [|exact R].
  apply dec_nonneg, digits_value_nonneg, (literal_digits _ _ _ _ L).
Qed.
Lemma parse_none s neg ds k : literal s neg ds k -> moderate s -> parse_float64 s = None <-> out_of_range (literal_value neg ds k).
Proof.
  intros L M. rewrite (parse_literal s neg ds k L M).
  assert (D : (0 <= dec (digits_value ds) k)%Q) by apply dec_nonneg, digits_value_nonneg, (literal_digits _ _ _ _ L).
  assert (O : out_of_range (literal_value neg ds k) <-> out_of_range (dec (digits_value ds) k)).
  { unfold out_of_range. rewrite (Qabs_pos _ D). unfold literal_value. fold (pow10 k). fold (dec (digits_value ds) k). rewrite (signed_abs1 neg _ D). reflexivity. }
  rewrite O, <- (round64_none _ D). destruct (round64 (dec (digits_value ds) k)) as [[m e]|]; split; congruence.
Qed.

(** * Writing *)

Lemma substring_all s : String.substring 0 (String.length s) s = s.
Proof. induction s as [|c s IH]; [reflexivity|]. cbn [String.length String.substring]. now rewrite IH. Qed.
Lemma substring_split n : forall s, (n <= String.length s)%nat ->
  String.substring 0 n s +++ String.substring n (String.length s - n) s = s /\ String.length (String.substring 0 n s) = n.
Proof.
  induction n as [|n IH]; intros s H.
  - rewrite Nat.sub_0_r, substring_all. destruct s; auto.
  - destruct s as [|c s]; [cbn in H; lia|]. cbn [String.length] in H |- *. cbn [String.substring]. rewrite app_chr. cbn [Nat.sub].
    destruct (IH s) as [A B]; [lia|]. cbn [String.length]. rewrite A, B. auto.
Qed.

Definition sign (neg : bool) : string := if neg then "-" else "".

(** The text has the digits of [d], with zeros, and the value [d] * 10^[k]. *)
Definition shows (neg : bool) (t : string) (d k : Z) : Prop :=
  exists ds j, literal (sign neg +++ t) neg ds (k - j) /\ digits_value ds = d * 10 ^ j /\ 0 <= j.
Lemma no_exponent s : all_chars no_e s -> moderate s.
Proof.
  intros H. right. exists 0. split; [|lia]. exists s, "". split; [now rewrite append_empty|]. split; [left; split; reflexivity|]. now apply no_e_letters.
Qed.

Lemma plain_shows neg d k : 0 < d -> shows neg (plain (itoa d) k) d k.
Proof.
  intros H. destruct (itoa_value d) as (V & A & _); [lia|]. destruct (itoa_first d H) as (c & t & E & Hc & Hn & Ht).
  unfold plain. destruct (Z.leb_spec 0 k) as [K|K].
  - destruct (zeros_value (Z.to_nat k)) as (Z1 & Z2 & Z3). rewrite Z2Nat.id in Z2 by lia.
    exists (itoa d +++ zeros (Z.to_nat k)), k. split; [|split; [|exact K]].
    + exists (itoa d +++ zeros (Z.to_nat k)), "", "", "", 0. split; [|split; [left; auto|split; [left; auto|split; [|split; [|cbn; lia]]]]].
      * right. exists c, (t +++ zeros (Z.to_nat k)). split; [exact Hc|]. split; [exact Hn|]. rewrite E, app_chr. split; [apply all_chars_app; auto|reflexivity].
      * cbn [String.append]. rewrite !append_empty. reflexivity.
      * rewrite append_empty. reflexivity.
    + rewrite digits_value_app, Z1, Z2, V. ring.
  - set (nd := Z.of_nat (String.length (itoa d))). destruct (Z.leb_spec (nd + k) 0) as [D|D].
    + destruct (zeros_value (Z.to_nat (- (nd + k)))) as (Z1 & Z2 & Z3). rewrite Z2Nat.id in Z2 by lia. set (z := zeros (Z.to_nat (- (nd + k)))) in *.
      exists ("0" +++ z +++ itoa d), 0. split; [|split; [|lia]].
      * exists "0", ("." +++ z +++ itoa d), (z +++ itoa d), "", 0. split; [left; reflexivity|]. split; [right; split; [split|reflexivity]|split; [left; auto|split; [|split; [reflexivity|]]]].
        -- rewrite E. destruct z; discriminate.
        -- apply all_chars_app. auto.
        -- rewrite !append_empty. reflexivity.
        -- rewrite strlen_app, Z2. unfold strlen. fold nd. lia.
      * cbn [String.append]. cbn [digits_value]. rewrite digits_value_app, Z1, V. cbn. ring.
    + destruct (substring_split (Z.to_nat (nd + k)) (itoa d)) as [S1 S2]; [unfold nd; lia|].
      set (a := String.substring 0 (Z.to_nat (nd + k)) (itoa d)) in *. set (b := String.substring (Z.to_nat (nd + k)) (String.length (itoa d) - Z.to_nat (nd + k)) (itoa d)) in *.
      assert (Lb : strlen b = - k) by (unfold strlen; assert (X : String.length (a +++ b) = String.length (itoa d)) by (rewrite S1; reflexivity); rewrite length_app_s, S2 in X; unfold nd in *; lia).
      pose proof A as AB. rewrite <- S1 in AB. apply all_chars_app in AB. destruct AB as [Aa Ab].
      exists (itoa d), 0. split; [|split; [rewrite V; ring|lia]].
      exists a, ("." +++ b), b, "", 0. split; [|split; [right; split; [split|reflexivity]|split; [left; auto|split; [|split; [now rewrite S1|lia]]]]].
      * destruct a as [|c' a']; [exfalso; cbn in S2; lia|]. rewrite E, app_chr in S1. injection S1 as -> S1. right. exists c, a'. cbn in Aa. tauto.
      * intros ->. cbn in Lb. lia.
      * exact Ab.
      * rewrite append_empty. reflexivity.
Qed.

Lemma exponent_shows x : exponent_of (if x <? 0 then "e-" +++ itoa (- x) else "e+" +++ (if x <? 10 then "0" else "") +++ itoa x) x.
Proof.
  right. destruct (Z.ltb_spec x 0) as [L|L].
  - destruct (itoa_value (- x)) as (V & A & N); [lia|]. exists "e", "-", (itoa (- x)). split; [left; reflexivity|]. split; [split; assumption|]. split; [reflexivity|].
    right. split; [reflexivity|lia].
  - destruct (itoa_value x) as (V & A & N); [lia|]. exists "e", "+", ((if x <? 10 then "0" else "") +++ itoa x). split; [left; reflexivity|].
    assert (D : all_chars is_digit (if x <? 10 then "0" else "") /\ digits_value (if x <? 10 then "0" else "") = 0) by (destruct (x <? 10); cbn; tauto).
    destruct D as [D1 D2]. split; [split|]; [|apply all_chars_app; auto|split; [reflexivity|]].
    + destruct (x <? 10); [discriminate|exact N].
    + left. split; [right; reflexivity|]. rewrite digits_value_app, D2, V. ring.
Qed.
Lemma plain_moderate neg d k : 0 < d -> moderate (sign neg +++ plain (itoa d) k).
Proof.
  intros H. apply no_exponent. destruct (itoa_value d) as (V & A & _); [lia|]. apply all_chars_app.
  split; [destruct neg; cbn; [split; [split; discriminate|exact I]|exact I]|].
  assert (Z0 : forall n, all_chars no_e (zeros n)) by (intros n; apply digits_no_e, (zeros_value n)). apply digits_no_e in A.
  unfold plain. destruct (0 <=? k); [apply all_chars_app; split; [exact A|apply Z0]|].
  destruct (_ <=? 0); [apply all_chars_app; split; [cbn; repeat split; discriminate|apply all_chars_app; split; [apply Z0|exact A]]|].
  set (n := Z.to_nat (Z.of_nat (String.length (itoa d)) + k)).
  assert (SB : forall s a b, all_chars no_e s -> all_chars no_e (String.substring a b s)).
  { induction s as [|c s IH]; intros a b Q; destruct a, b; cbn [String.substring]; try exact I; destruct Q as [Q1 Q2].
    - split; [exact Q1|now apply IH].
    - now apply IH.
    - now apply IH. }
  apply all_chars_app. split; [now apply SB|]. apply all_chars_app. split; [cbn; repeat split; discriminate|now apply SB].
Qed.
Lemma scientific_moderate neg d k : 0 < d < 10 ^ 17 -> Z.abs k < 90000 -> moderate (sign neg +++ scientific (itoa d) k).
Proof.
  intros H K. destruct (itoa_value d) as (V & A & _); [lia|]. destruct (itoa_first d ltac:(lia)) as (c & t & E & Hc & Hn & Ht).
  right. unfold scientific. set (x := Z.of_nat (String.length (itoa d)) - 1 + k). exists x. split.
  - set (fr := match after_first (itoa d) with String.EmptyString => "" | d => chr "." d end).
    exists (sign neg +++ chr c "" +++ fr), (if x <? 0 then "e-" +++ itoa (- x) else "e+" +++ (if x <? 10 then "0" else "") +++ itoa x).
    split; [|split; [apply exponent_shows|]].
    + rewrite E. cbn [String.append]. rewrite !append_assoc'. cbn [String.append]. reflexivity.
    + apply no_e_letters. rewrite !all_chars_app. split; [destruct neg; cbn; [split; [split; discriminate|exact I]|exact I]|].
      split; [apply digits_no_e; cbn; tauto|]. unfold fr. rewrite E. cbn [after_first]. apply digits_no_e in Ht. destruct t; [exact I|].
      cbn [all_chars]. split; [split; discriminate|exact Ht].
  - pose proof (itoa_length d ltac:(lia)) as [L1 L2]. unfold strlen in *. unfold x.
    assert (Z.of_nat (String.length (itoa d)) - 1 < 17); [|lia].
    apply (Z.pow_lt_mono_r_iff 10); [lia|lia|]. lia.
Qed.
(** The powers of ten of float64 numbers other than zero. *)
Lemma power_bounds d k m e : 0 < d < 10 ^ 17 -> nearest (dec d k) = (m, e) -> 0 < m -> e <= 971 -> Z.abs k < 1000.
Proof.
  intros D N M Le. assert (R : round64 (dec d k) = Some (m, e)) by (apply round64_some; auto).
  destruct (Z_lt_le_dec (Z.abs k) 1000) as [L|L]; [exact L|exfalso]. destruct (Z_lt_le_dec 0 k) as [G|G].
  - rewrite round_huge in R by lia. discriminate.
  - rewrite (round_tiny d k ltac:(lia) 17) in R by lia. injection R as <- <-. lia.
Qed.
Lemma scientific_shows neg d k : 0 < d -> shows neg (scientific (itoa d) k) d k.
Proof.
  intros H. destruct (itoa_value d) as (V & A & _); [lia|]. destruct (itoa_first d H) as (c & t & E & Hc & Hn & Ht).
  exists (itoa d), 0. split; [|split; [rewrite V; ring|lia]]. unfold scientific.
  set (x := Z.of_nat (String.length (itoa d)) - 1 + k). pose proof (exponent_shows x) as X.
  set (e := if x <? 0 then "e-" +++ itoa (- x) else "e+" +++ (if x <? 10 then "0" else "") +++ itoa x) in *.
  assert (L : Z.of_nat (String.length (itoa d)) = strlen t + 1) by (rewrite E; unfold strlen; cbn [String.length]; lia).
  exists (chr c ""), (match t with String.EmptyString => "" | t => chr "." t end), t, e, x.
  split; [right; exists c, ""; cbn; auto|]. split; [|split; [exact X|split; [rewrite E; destruct t; reflexivity|split; [rewrite E; reflexivity|unfold x; rewrite L; lia]]]].
  destruct t as [|c' t']; [left; auto|right]. split; [|reflexivity]. split; [discriminate|exact Ht].
Qed.

Lemma finite_canonical neg m e : finite (Fin neg m e) -> canonical64 (m, e) /\ e <= 971.
Proof. unfold finite, canonical64. cbn [fst snd]. tauto. Qed.

Lemma zero_literal neg : literal (sign neg +++ "0") neg "0" 0.
Proof.
  exists "0", "", "", "", 0. split; [left; reflexivity|]. split; [left; auto|]. split; [left; auto|]. split; [destruct neg; reflexivity|]. split; reflexivity.
Qed.
Lemma zero_moderate neg : moderate (sign neg +++ "0").
Proof. left. destruct neg; cbn; lia. Qed.
Lemma show_zero neg e : show_float64 (Fin neg 0 e) = Some (sign neg +++ "0").
Proof. reflexivity. Qed.

(** The text of a float64 other than zero. *)
Lemma show_spec neg m e : finite (Fin neg m e) -> 0 < m ->
  exists t d k, show_float64 (Fin neg m e) = Some (sign neg +++ t) /\ shortest m e = Some (d, k) /\ 0 < d /\ shows neg t d k /\ moderate (sign neg +++ t) /\
    (t = if Qle_bool (val (nearest (1 # 1000000))) (val (m, e)) && negb (Qle_bool (pow10 21) (val (m, e))) then plain (itoa d) k else scientific (itoa d) k).
Proof.
  intros Fn P. destruct (finite_canonical _ _ _ Fn) as [C Le]. destruct (shortest_spec m e C P Le) as (d & k & S & D & D17 & Nr & _).
  pose proof (power_bounds d k m e (conj D D17) Nr P Le) as K. unfold show_float64. destruct (Z.eqb_spec m 0) as [->|_]; [lia|]. rewrite S.
  eexists. exists d, k. split; [reflexivity|]. split; [reflexivity|]. split; [exact D|].
  split; [|split; [|reflexivity]]; match goal with |- context [if ?b then plain _ _ else _] => destruct b end.
  - now apply plain_shows.
  - now apply scientific_shows.
  - now apply plain_moderate.
  - apply scientific_moderate; lia.
Qed.

Lemma shows_dec neg t d k : shows neg t d k -> exists ds k', literal (sign neg +++ t) neg ds k' /\ (dec (digits_value ds) k' == dec d k)%Q.
Proof.
  intros (ds & j & L & V & J). exists ds, (k - j). split; [exact L|]. rewrite V. symmetry. now apply dec_shift.
Qed.

Lemma show_parse f : finite f -> exists t, show_float64 f = Some t /\ number t /\ parse_float64 t = Some f.
Proof.
  destruct f as [neg m e| |]; try contradiction. intros Fn. destruct (finite_canonical _ _ _ Fn) as [C Le].
  destruct (Z.eq_dec m 0) as [->|N].
  - exists (sign neg +++ "0"). split; [reflexivity|]. split; [exact (literal_number _ _ _ _ (zero_literal neg))|].
    rewrite (parse_literal _ _ _ _ (zero_literal neg) (zero_moderate neg)). assert (E : e = -1074) by (apply C; cbn; lia). subst e. reflexivity.
  - assert (P : 0 < m) by (destruct C as [C _]; cbn in C; lia).
    destruct (show_spec neg m e Fn P) as (t & d & k & S & Sh & D & Sw & Md & _). destruct (shortest_spec m e C P Le) as (d' & k' & Sh' & _ & _ & Nr & _).
    assert (EE : d' = d /\ k' = k) by (rewrite Sh in Sh'; split; congruence). destruct EE as [-> ->].
    exists (sign neg +++ t). split; [exact S|]. destruct (shows_dec neg t d k Sw) as (ds & j & L & V).
    split; [exact (literal_number _ _ _ _ L)|]. rewrite (parse_literal _ _ _ _ L Md).
    assert (R : round64 (dec (digits_value ds) j) = Some (m, e)) by (apply round64_some; rewrite (nearest_eq _ _ V); auto). now rewrite R.
Qed.

(** Whatever is written is a number. *)
Lemma read_as_canonical f d k : read_as f d k = true -> canonical64 f /\ snd f <= 971.
Proof.
  unfold read_as. destruct (round64 (inject_Z d * pow10 k)) as [[m e]|] eqn:R; [|discriminate]. apply round64_some in R. destruct R as [R Le].
  rewrite andb_true_iff, !Z.eqb_eq. intros [-> ->]. pose proof (nearest_canonical (inject_Z d * pow10 k)) as C. rewrite R in C. destruct f as [m e]. auto.
Qed.
Lemma shortest_from_canonical fuel : forall n f x p r, shortest_from fuel n f x p = Some r -> canonical64 f /\ snd f <= 971.
Proof.
  induction fuel as [|fuel IH]; intros n f x p r; cbn [shortest_from]; [discriminate|].
  destruct (read_as f _ _) eqn:A; [intros _; exact (read_as_canonical _ _ _ A)|]. cbn [andb].
  destruct (read_as f (_ + 1) _) eqn:B; [intros _; exact (read_as_canonical _ _ _ B)|]. apply IH.
Qed.
Lemma show_finite f t : show_float64 f = Some t -> (exists neg e, f = Fin neg 0 e) \/ finite f.
Proof.
  destruct f as [neg m e| |]; try discriminate. destruct (Z.eq_dec m 0) as [->|N]; [left; eauto|]. cbn [show_float64].
  destruct (Z.eqb_spec m 0) as [E|_]; [contradiction|]. destruct (shortest m e) as [[d k]|] eqn:S; [|discriminate]. intros _. right.
  unfold shortest in S. destruct (shortest_from _ _ _ _ _) as [[d' k']|] eqn:G in S; [|discriminate].
  apply shortest_from_canonical in G. unfold canonical64 in G. cbn [fst snd] in G. cbn [finite]. lia.
Qed.
Lemma show_number f t : show_float64 f = Some t -> number t.
Proof.
  intros H. destruct (show_finite f t H) as [(neg & e & ->)|Fn].
  - rewrite show_zero in H. injection H as <-. exact (literal_number _ _ _ _ (zero_literal neg)).
  - destruct (show_parse f Fn) as (t' & H' & N & _). congruence.
Qed.

(** * Shortness *)

Lemma parse_nearest s neg ds k b m e : literal s neg ds k -> moderate s -> parse_float64 s = Some (Fin b m e) -> nearest (dec (digits_value ds) k) = (m, e) /\ b = neg.
Proof.
  intros L Md P. rewrite (parse_literal _ _ _ _ L Md) in P. destruct (round64 (dec (digits_value ds) k)) as [[m' e']|] eqn:R; [|discriminate].
  injection P as <- <- <-. apply round64_some in R. tauto.
Qed.

Lemma literal_same s neg ds k neg' ds' k' : literal s neg ds k -> literal s neg' ds' k' -> neg = neg' /\ digits_value ds = digits_value ds' /\ k = k'.
Proof. intros A B. apply literal_read in A, B. destruct A as [A _], B as [B _]. rewrite A in B. injection B as -> -> ->. auto. Qed.

(** A text that is read as [f] has a positive significand, with the power of ten it has. *)
Lemma fits_dec s neg ds k b m e n : literal s neg ds k -> moderate s -> parse_float64 s = Some (Fin b m e) -> m <> 0 -> fits n ds ->
  exists d j, 0 < d < 10 ^ n /\ (dec (digits_value ds) k == dec d j)%Q /\ nearest (dec d j) = (m, e).
Proof.
  intros L Md P N (d & j & J & V & D). destruct (parse_nearest _ _ _ _ _ _ _ L Md P) as [Nr ->].
  assert (E : (dec (digits_value ds) k == dec d (k + j))%Q) by (rewrite V; rewrite (dec_shift d (k + j) j) by exact J; replace (k + j - j) with k by ring; reflexivity).
  exists d, (k + j). rewrite <- (nearest_eq _ _ E). split; [split; [|exact D]|auto].
  destruct (Z_lt_le_dec 0 d) as [G|G]; [exact G|]. exfalso.
  assert (Q0 : (dec d (k + j) <= 0)%Q) by (apply Qle_trans with (dec 0 (k + j)); [now apply JsonFloatProofs.dec_le|unfold dec; rewrite Qmult_0_l; apply Qle_refl]).
  rewrite (nearest_eq _ _ E), (nearest_zero _ Q0) in Nr. injection Nr as <- _. apply N. reflexivity.
Qed.

Lemma pow_small d n : 0 < d -> d < 10 ^ n -> 0 <= n.
Proof. intros A B. destruct (Z_lt_le_dec n 0) as [L|L]; [|exact L]. rewrite Z.pow_neg_r in B by exact L. lia. Qed.

(** What is written of a float64 other than zero. *)
Lemma shown neg m e t b ds k : finite (Fin neg m e) -> m <> 0 -> show_float64 (Fin neg m e) = Some t -> literal t b ds k ->
  exists d k', b = neg /\ shortest m e = Some (d, k') /\ 0 < d /\ (exists j, 0 <= j /\ digits_value ds = d * 10 ^ j) /\ (dec (digits_value ds) k == dec d k')%Q.
Proof.
  intros Fn N S L. assert (P : 0 < m) by (cbn in Fn; lia). destruct (show_spec neg m e Fn P) as (t' & d & k' & S' & Sh & D & (ds' & j & L' & V & J) & _).
  assert (E : t = sign neg +++ t') by congruence. subst t. destruct (literal_same _ _ _ _ _ _ _ L L') as (-> & Vd & ->).
  exists d, k'. split; [reflexivity|]. split; [exact Sh|]. split; [exact D|]. split; [exists j; split; [exact J|congruence]|].
  rewrite Vd, V. symmetry. now apply dec_shift.
Qed.
Lemma shown_short neg m e t b ds k s b' ds' k' n : finite (Fin neg m e) -> m <> 0 -> show_float64 (Fin neg m e) = Some t -> literal t b ds k ->
  literal s b' ds' k' -> moderate s -> parse_float64 s = Some (Fin neg m e) -> fits n ds' -> fits n ds.
Proof.
  intros Fn N S L L' Md P' Ft. destruct (shown _ _ _ _ _ _ _ Fn N S L) as (d & j & _ & Sh & D & (i & I & V) & _).
  destruct (finite_canonical _ _ _ Fn) as [C Le]. assert (P : 0 < m) by (cbn in Fn; lia).
  destruct (shortest_spec m e C P Le) as (d0 & k0 & Sh' & _ & _ & _ & Min & _). assert (d0 = d) by congruence. subst d0.
  destruct (fits_dec _ _ _ _ _ _ _ _ L' Md P' N Ft) as (d' & j' & D' & _ & Nr).
  exists d, i. split; [exact I|]. split; [exact V|]. apply (Min n d' j'); [exact (pow_small d' n (proj1 D') (proj2 D'))|exact D'|exact Nr].
Qed.
Lemma shown_seventeen neg m e t b ds k : finite (Fin neg m e) -> m <> 0 -> show_float64 (Fin neg m e) = Some t -> literal t b ds k -> fits 17 ds.
Proof.
  intros Fn N S L. destruct (shown _ _ _ _ _ _ _ Fn N S L) as (d & j & _ & Sh & D & (i & I & V) & _).
  destruct (finite_canonical _ _ _ Fn) as [C Le]. assert (P : 0 < m) by (cbn in Fn; lia).
  destruct (shortest_spec m e C P Le) as (d0 & k0 & Sh' & _ & B & _). assert (d0 = d) by congruence. subst d0. exists d, i. auto.
Qed.
Lemma shown_near neg m e t b ds k s b' ds' k' n : finite (Fin neg m e) -> m <> 0 -> show_float64 (Fin neg m e) = Some t -> literal t b ds k ->
  literal s b' ds' k' -> moderate s -> parse_float64 s = Some (Fin neg m e) -> fits n ds' -> ~ fits (n - 1) ds ->
  (Qabs (value (Fin neg m e) - literal_value b ds k) <= Qabs (value (Fin neg m e) - literal_value b' ds' k'))%Q.
Proof.
  intros Fn N S L L' Md P' Ft Nf. destruct (shown _ _ _ _ _ _ _ Fn N S L) as (d & j & -> & Sh & D & (i & I & V) & E).
  destruct (finite_canonical _ _ _ Fn) as [C Le]. assert (P : 0 < m) by (cbn in Fn; lia).
  destruct (shortest_spec m e C P Le) as (d0 & k0 & Sh' & _ & _ & _ & _ & Near). assert (d0 = d) by congruence. assert (k0 = j) by congruence. subst d0 k0.
  destruct (fits_dec _ _ _ _ _ _ _ _ L' Md P' N Ft) as (d' & j' & D' & E' & Nr).
  destruct (parse_nearest _ _ _ _ _ _ _ L' Md P') as [_ ->].
  unfold literal_value. cbn [value]. change (inject_Z m * Qpower 2 e)%Q with (val (m, e)). rewrite !signed_abs.
  fold (pow10 k) (pow10 k'). fold (dec (digits_value ds) k) (dec (digits_value ds') k'). rewrite E, E'.
  pose proof (pow_small d' n (proj1 D') (proj2 D')) as N0.
  assert (N1 : 0 <= n - 1) by (destruct (Z.eq_dec n 0) as [->|]; [cbn in D'; lia|lia]).
  apply (Near (n - 1)); [|exact N1|replace (n - 1 + 1) with n by ring; exact D'|exact Nr].
  destruct (Z_lt_le_dec d (10 ^ (n - 1))) as [G|G]; [|exact G]. exfalso. apply Nf. exists d, i. auto.
Qed.

(** * With or without an exponent *)

Lemma no_e_digits s : all_chars is_digit s -> ~ In "e"%char (letters s).
Proof.
  induction s as [|c s IH]; cbn [all_chars letters In]; [tauto|]. intros [H K] [->|I]; [|exact (IH K I)].
  destruct (digit_not_sign _ H) as (_ & _ & _ & X & _). apply X. reflexivity.
Qed.
Lemma letters_app a b : letters (a +++ b) = letters a ++ letters b.
Proof. induction a as [|c a IH]; [reflexivity|]. rewrite app_chr. cbn [letters]. rewrite IH. reflexivity. Qed.
Lemma plain_no_e d k : 0 < d -> ~ In "e"%char (letters (plain (itoa d) k)).
Proof.
  intros H. destruct (itoa_value d) as (V & A & _); [lia|]. unfold plain. destruct (Z.leb_spec 0 k) as [K|K].
  - apply no_e_digits, all_chars_app. split; [exact A|apply zeros_value].
  - set (nd := Z.of_nat (String.length (itoa d))). destruct (Z.leb_spec (nd + k) 0) as [D|D].
    + rewrite !letters_app, !in_app_iff. intros [I|[I|I]]; [cbn in I; intuition discriminate|revert I; apply no_e_digits, zeros_value|revert I; now apply no_e_digits].
    + destruct (substring_split (Z.to_nat (nd + k)) (itoa d)) as [S1 _]; [unfold nd; lia|]. pose proof A as AB. rewrite <- S1 in AB. apply all_chars_app in AB. destruct AB as [Aa Ab].
      rewrite !letters_app, !in_app_iff. intros [I|[I|I]]; [revert I; now apply no_e_digits|cbn in I; intuition discriminate|revert I; now apply no_e_digits].
Qed.
Lemma scientific_e d k : In "e"%char (letters (scientific (itoa d) k)).
Proof.
  unfold scientific. rewrite !letters_app, !in_app_iff. right. right. destruct (_ <? 0); rewrite ?letters_app, ?in_app_iff; left; left; reflexivity.
Qed.
Lemma small_limit g : parse_float64 "1e-6" = Some g -> (value g == val (nearest (1 # 1000000)))%Q.
Proof. intros H. vm_compute in H. injection H as <-. vm_compute. reflexivity. Qed.
Lemma sign_no_e neg : ~ In "e"%char (letters (sign neg)).
Proof. destruct neg; cbn; intuition discriminate. Qed.
Lemma shown_exponent f t g : finite f -> ~ (value f == 0)%Q -> show_float64 f = Some t -> parse_float64 "1e-6" = Some g ->
  In "e"%char (letters t) <-> ~ (value g <= Qabs (value f) /\ Qabs (value f) < Qpower 10 21)%Q.
Proof.
  destruct f as [neg m e| |]; try contradiction. intros Fn N S G.
  assert (V : (Qabs (value (Fin neg m e)) == val (m, e))%Q).
  { cbn [value]. apply signed_abs1. apply (val_nonneg (m, e)). apply (finite_canonical _ _ _ Fn). }
  assert (P : 0 < m).
  { destruct (Z.eq_dec m 0) as [->|M]; [|cbn in Fn; lia]. exfalso. apply N. cbn [value]. destruct neg; cbn [signed]; rewrite Qmult_0_l; reflexivity. }
  destruct (show_spec neg m e Fn P) as (t' & d & k & S' & _ & D & _ & _ & Ht). rewrite S' in S. injection S as <-.
  rewrite V, (small_limit g G). change (Qpower 10 21) with (pow10 21). rewrite letters_app, in_app_iff.
  pose proof (sign_no_e neg) as Ns. rewrite Ht. clear Ht S'.
  destruct (Qle_bool (val (nearest (1 # 1000000))) (val (m, e))) eqn:A; [destruct (Qle_bool (pow10 21) (val (m, e))) eqn:B|]; cbn [andb negb].
  - apply Qle_bool_iff in B. split; [intros _ [_ X]; lra|intros _; right; apply scientific_e].
  - assert (L : (val (m, e) < pow10 21)%Q) by (apply Qnot_le_lt; intros X; apply Qle_bool_iff in X; congruence). apply Qle_bool_iff in A.
    split; [intros [I|I]; [contradiction|exfalso; revert I; now apply plain_no_e]|intros X; exfalso; apply X; auto].
  - split; [intros _ [X _]; apply Qle_bool_iff in X; congruence|intros _; right; apply scientific_e].
Qed.

(** * Integers *)

Lemma itoa_literal z : literal (itoa z) (z <? 0) (itoa (Z.abs z)) 0.
Proof.
  destruct (Z.ltb_spec z 0) as [L|L].
  - destruct (itoa_first (- z)) as (c & t & E & Hc & Hn & Ht); [lia|].
    exists (itoa (- z)), "", "", "", 0. rewrite Z.abs_neq by lia. split; [right; exists c, t; auto|]. split; [left; auto|]. split; [left; auto|].
    split; [|split; [now rewrite append_empty|reflexivity]]. rewrite !append_empty. destruct z as [|q|q]; try lia. reflexivity.
  - rewrite Z.abs_eq by lia. exists (itoa z), "", "", "", 0. split; [|split; [left; auto|split; [left; auto|split; [|split; [now rewrite append_empty|reflexivity]]]]].
    + destruct (Z.eq_dec z 0) as [->|N]; [left; reflexivity|]. destruct (itoa_first z) as (c & t & E & Hc & Hn & Ht); [lia|]. right. exists c, t. auto.
    + cbn [String.append]. rewrite !append_empty. reflexivity.
Qed.
Lemma itoa_literal_value z : (literal_value (z <? 0) (itoa (Z.abs z)) 0 == inject_Z z)%Q.
Proof.
  unfold literal_value. destruct (itoa_value (Z.abs z)) as (V & _); [lia|]. rewrite V. change (Qpower 10 0) with 1%Q. 
  destruct (Z.ltb_spec z 0) as [L|L]; cbn [signed].
  - rewrite Z.abs_neq, inject_Z_opp by lia. ring.
  - rewrite Z.abs_eq by lia. ring.
Qed.
Lemma rounds_to_eq x x' f : (x == x')%Q -> rounds_to x f -> rounds_to x' f.
Proof.
  intros E [Fn H]. split; [exact Fn|]. intros g G. destruct (H g G) as [A B]. rewrite <- E. auto.
Qed.

(** Integers up to 2^53 are float64s. *)
Lemma int_float z : 0 <= z <= 2 ^ 53 -> exists m e, finite (Fin false m e) /\ (val (m, e) == inject_Z z)%Q.
Proof.
  intros H. destruct (Z.eq_dec z 0) as [->|N]; [exists 0, (-1074); cbn; split; [lia|reflexivity]|].
  destruct (Z.eq_dec z (2 ^ 53)) as [->|N2]; [exists (2 ^ 52), 1; cbn [finite]; split; [lia|unfold val; cbn [fst snd]; change (pow2 1) with (inject_Z 2); rewrite <- inject_Z_mult; reflexivity]|].
  assert (L : 0 <= Z.log2 z <= 52).
  { split; [apply Z.log2_nonneg|]. apply Z.lt_succ_r. apply Z.log2_lt_pow2; lia. }
  destruct (Z.log2_spec z ltac:(lia)) as [L1 L2]. set (j := 52 - Z.log2 z). exists (z * 2 ^ j), (- j).
  assert (J : 2 ^ 52 = 2 ^ Z.log2 z * 2 ^ j) by (rewrite <- Z.pow_add_r by lia; f_equal; lia).
  assert (J2 : 2 ^ 53 = 2 ^ Z.succ (Z.log2 z) * 2 ^ j) by (rewrite <- Z.pow_add_r by lia; f_equal; lia).
  assert (Pj : 0 < 2 ^ j) by (apply Z.pow_pos_nonneg; lia).
  split.
  - cbn [finite]. rewrite J, J2. split; [nia|]. split; [lia|]. intros X. exfalso. nia.
  - unfold val. cbn [fst snd]. rewrite inject_Z_mult, <- pow2_Z, <- Qmult_assoc, <- pow2_plus by lia. replace (j + - j) with 0 by ring. change (pow2 0) with 1%Q. ring.
Qed.
Lemma int_range z : - 2 ^ 64 < z < 2 ^ 64 -> ~ out_of_range (inject_Z z).
Proof.
  intros H O. unfold out_of_range in O. assert (A : (Qabs (inject_Z z) <= inject_Z (2 ^ 64))%Q) by (apply Qabs_Qle_condition; rewrite <- inject_Z_opp, <- !Zle_Qle; lia).
  assert (B : (inject_Z (2 ^ 64) < inject_Z (2 ^ 54 - 1) * Qpower 2 970)%Q) by (vm_compute; reflexivity). lra.
Qed.
Lemma itoa_moderate z : moderate (itoa z).
Proof.
  apply no_exponent. assert (N : all_chars no_e (itoa (Z.abs z))) by (apply digits_no_e, itoa_value; lia).
  destruct z as [|q|q]; [exact N|exact N|]. change (itoa (Zneg q)) with ("-" +++ itoa (Zpos q)). cbn [String.append all_chars].
  split; [split; discriminate|exact N].
Qed.
Lemma int_parse z : - 2 ^ 64 < z < 2 ^ 64 -> exists f, parse_float64 (itoa z) = Some f /\ rounds_to (inject_Z z) f /\ (Z.abs z <= 2 ^ 53 -> (value f == inject_Z z)%Q).
Proof.
  intros H. pose proof (itoa_literal z) as L. pose proof (itoa_literal_value z) as V.
  destruct (parse_float64 (itoa z)) as [f|] eqn:E.
  - exists f. split; [reflexivity|]. destruct (parse_rounds _ _ _ _ _ L (itoa_moderate z) E) as [R _]. split; [exact (rounds_to_eq _ _ _ V R)|].
    intros B. destruct (int_float (Z.abs z)) as (m & e & Fn & Vm); [lia|].
    apply (rounds_to_eq _ _ _ V) in R. destruct R as [_ R].
    destruct (R (Fin (z <? 0) m e)) as [A _]; [exact Fn|].
    assert (W : (value (Fin (z <? 0) m e) == inject_Z z)%Q).
    { cbn [value]. change (inject_Z m * Qpower 2 e)%Q with (val (m, e)). destruct (Z.ltb_spec z 0) as [G|G]; cbn [signed]; rewrite Vm.
      - rewrite Z.abs_neq, inject_Z_opp by lia. ring.
      - rewrite Z.abs_eq by lia. ring. }
    rewrite W in A. assert (Q0 : (Qabs (inject_Z z - inject_Z z) == 0)%Q) by (rewrite Qabs_pos; lra). rewrite Q0 in A.
    apply Qabs_Qle_condition in A. lra.
  - exfalso. apply (parse_none _ _ _ _ L (itoa_moderate z)) in E. apply (int_range z H). unfold out_of_range in *. rewrite <- V. exact E.
Qed.

(** * Values *)

Lemma plain_json v : plain_value v -> json_value float64 parse_float64 show_float64 v.
Proof.
  revert v. fix IH 2. intros v H. destruct H as [|b|f Hf|s Hs|l Hl|l Hd Hl].
  - apply json_nil.
  - apply json_bool.
  - destruct (show_parse f Hf) as (t & A & B & C). exact (json_float _ _ _ f t A B C).
  - apply json_str. exact Hs.
  - apply json_slice. induction Hl as [|v l Hv Hl IHl]; constructor; [exact (IH v Hv)|exact IHl].
  - apply json_map; [exact Hd|]. clear Hd. induction Hl as [|[k v] l [Hk Hv] Hl IHl]; constructor; [split; [exact Hk|exact (IH v Hv)]|exact IHl].
Qed.

Lemma sendable_encodable v : sendable v -> encodable float64 parse_float64 show_float64 v.
Proof.
  revert v. fix IH 2. intros v H. destruct H as [| | |b|z Hz|f Hf|s|s|l Hl|l Hd Hl].
  - apply enc_nil.
  - apply enc_nil_slice.
  - apply enc_nil_map.
  - apply enc_bool.
  - destruct (int_parse z) as (f & A & _); [lia|]. exact (enc_int _ _ _ z f A).
  - destruct (show_parse f Hf) as (t & A & B & C). exact (enc_float _ _ _ f t A B C).
  - apply enc_str.
  - apply enc_bytes.
  - apply enc_slice. induction Hl as [|v l Hv Hl IHl]; constructor; [exact (IH v Hv)|exact IHl].
  - apply enc_map; [exact Hd|]. clear Hd. induction Hl as [|[k v] l [Hk Hv] Hl IHl]; constructor; [split; [exact Hk|exact (IH v Hv)]|exact IHl].
Qed.

(** * One nearest number *)

Lemma val_order p q : canonical64 p -> canonical64 q -> (val p < val q)%Q -> snd p <= snd q.
Proof.
  intros Cp Cq L. destruct (Z_le_gt_dec (snd p) (snd q)) as [G|G]; [exact G|]. exfalso.
  pose proof (val_below q (snd p) Cq ltac:(lia)) as B. destruct Cp as (P1 & P2 & P3). assert (N : 2 ^ 52 <= fst p) by (destruct Cq as (_ & Q2 & _); lia).
  assert (V : (inject_Z (2 ^ 52) * pow2 (snd p) <= val p)%Q) by (unfold val; apply Qmult_le_compat_r; [now rewrite <- Zle_Qle|apply Qlt_le_weak, pow2_pos]).
  pose proof (pow2_pos (snd p - 1)). lra.
Qed.
(** Between two numbers with even mantissas there is another one. *)
Lemma even_between p q : canonical64 p -> canonical64 q -> even_result p -> even_result q -> (val p < val q)%Q ->
  exists r, canonical64 r /\ snd r = snd p /\ (val p < val r)%Q /\ (val r < val q)%Q.
Proof.
  intros Cp Cq Ep Eq L. pose proof (val_order p q Cp Cq L) as O. destruct p as [m e]. unfold even_result in *. cbn [fst snd] in *.
  exists (m + 1, e). assert (N : m <> 2 ^ 53 - 1) by (intros ->; discriminate Ep).
  assert (C : canonical64 (m + 1, e)) by (destruct Cp as (P1 & P2 & P3); unfold canonical64; cbn [fst snd] in *; repeat split; lia).
  split; [exact C|]. split; [reflexivity|]. pose proof (pow2_pos e) as Pe.
  assert (V : (val (m + 1, e)%Z == val (m, e) + pow2 e)%Q) by (unfold val; cbn [fst snd]; rewrite inj_succ; ring).
  split; [lra|]. pose proof (val_multiple q e O) as M. cbn [fst snd] in M. set (w := fst q * 2 ^ (snd q - e)) in *.
  assert (W : m < w). { rewrite Zlt_Qlt. rewrite <- (Qmult_lt_r _ _ (pow2 e) Pe), <- M. exact L. }
  destruct (Z.eq_dec w (m + 1)) as [E|E].
  - exfalso. assert (X : q = (m + 1, e)) by (apply canonical_unique; [exact Cq|exact C|rewrite M, E; reflexivity]). subst q. cbn [fst] in Eq.
    rewrite Z.even_add, Ep in Eq. discriminate Eq.
  - rewrite M. unfold val. cbn [fst snd]. apply Qmult_lt_r; [exact Pe|]. rewrite <- Zlt_Qlt. lia.
Qed.

Lemma signed_le neg x y : (0 <= x)%Q -> (0 <= y)%Q -> (signed neg x == signed neg y)%Q -> (x == y)%Q.
Proof. destruct neg; cbn [signed]; intros; lra. Qed.
Lemma rounds_value x f g : rounds_to x f -> rounds_to x g -> (value f == value g)%Q.
Proof.
  intros [Ff Hf] [Fg Hg]. destruct (Hf g Fg) as [A1 A2]. destruct (Hg f Ff) as [B1 B2].
  assert (E : (Qabs (x - value f) == Qabs (x - value g))%Q) by (apply Qle_antisym; assumption).
  destruct (A2 E) as [X|Ef]; [now symmetry|]. destruct (B2 (Qeq_sym _ _ E)) as [X|Eg]; [exact X|].
  destruct f as [nf mf ef| |]; try contradiction. destruct g as [ng mg eg| |]; try contradiction.
  destruct (finite_canonical _ _ _ Ff) as [Cf Lf]. destruct (finite_canonical _ _ _ Fg) as [Cg Lg].
  pose proof (val_nonneg _ Cf) as Vf. pose proof (val_nonneg _ Cg) as Vg. cbn [value even_mantissa] in *.
  change (inject_Z mf * Qpower 2 ef)%Q with (val (mf, ef)) in *. change (inject_Z mg * Qpower 2 eg)%Q with (val (mg, eg)) in *.
  set (vf := val (mf, ef)) in *. set (vg := val (mg, eg)) in *.
  (* a number strictly between the two would be nearer *)
  assert (Btw : forall n m e, finite (Fin n m e) -> forall w, (w == signed n (val (m, e)))%Q ->
    (signed nf vf < w /\ w < signed ng vg \/ signed ng vg < w /\ w < signed nf vf)%Q -> False).
  { intros n m e Fn w W O. destruct (Hf _ Fn) as [C _]. cbn [value] in C. change (inject_Z m * Qpower 2 e)%Q with (val (m, e)) in C. rewrite <- W in C.
    revert C E. apply Qabs_case; apply Qabs_case; apply Qabs_case; intros; destruct O; lra. }
  destruct (Qlt_le_dec (signed nf vf) (signed ng vg)) as [L|L]; [|destruct (Qlt_le_dec (signed ng vg) (signed nf vf)) as [L'|L']; [|lra]].
  - destruct nf, ng; cbn [signed] in *.
    + destruct (even_between (mg, eg) (mf, ef) Cg Cf Eg Ef) as ([m e] & C & S & P & Q); [fold vf vg; lra|]. exfalso. cbn [snd] in S.
      apply (Btw true m e) with (w := (- val (m, e))%Q); [unfold canonical64 in C; cbn [fst snd finite] in *; lia|reflexivity|]. left. fold vf vg in P, Q. split; lra.
    + destruct (Qlt_le_dec 0 vf) as [Z1|Z1], (Qlt_le_dec 0 vg) as [Z2|Z2]; try lra.
      * exfalso. apply (Btw false 0 (-1074)) with (w := 0%Q); [cbn; lia|cbn [signed]; now rewrite val_zero|left; lra].
      * destruct (even_between (mg, eg) (mf, ef) Cg Cf Eg Ef) as ([m e] & C & S & P & Q); [fold vf vg; lra|]. exfalso. cbn [snd] in S.
        apply (Btw true m e) with (w := (- val (m, e))%Q); [unfold canonical64 in C; cbn [fst snd finite] in *; lia|reflexivity|]. left. fold vf vg in P, Q. split; lra.
      * destruct (even_between (mf, ef) (mg, eg) Cf Cg Ef Eg) as ([m e] & C & S & P & Q); [fold vf vg; lra|]. exfalso. cbn [snd] in S.
        apply (Btw false m e) with (w := (val (m, e))%Q); [unfold canonical64 in C; cbn [fst snd finite] in *; lia|reflexivity|]. left. fold vf vg in P, Q. split; lra.
    + exfalso. lra.
    + destruct (even_between (mf, ef) (mg, eg) Cf Cg Ef Eg) as ([m e] & C & S & P & Q); [fold vf vg; lra|]. exfalso. cbn [snd] in S.
      apply (Btw false m e) with (w := (val (m, e))%Q); [unfold canonical64 in C; cbn [fst snd finite] in *; lia|reflexivity|]. left. fold vf vg in P, Q. split; lra.
  - destruct nf, ng; cbn [signed] in *.
    + destruct (even_between (mf, ef) (mg, eg) Cf Cg Ef Eg) as ([m e] & C & S & P & Q); [fold vf vg; lra|]. exfalso. cbn [snd] in S.
      apply (Btw true m e) with (w := (- val (m, e))%Q); [unfold canonical64 in C; cbn [fst snd finite] in *; lia|reflexivity|]. right. fold vf vg in P, Q. split; lra.
    + exfalso. lra.
    + destruct (Qlt_le_dec 0 vf) as [Z1|Z1], (Qlt_le_dec 0 vg) as [Z2|Z2]; try lra.
      * exfalso. apply (Btw false 0 (-1074)) with (w := 0%Q); [cbn; lia|cbn [signed]; now rewrite val_zero|right; lra].
      * destruct (even_between (mg, eg) (mf, ef) Cg Cf Eg Ef) as ([m e] & C & S & P & Q); [fold vf vg; lra|]. exfalso. cbn [snd] in S.
        apply (Btw false m e) with (w := (val (m, e))%Q); [unfold canonical64 in C; cbn [fst snd finite] in *; lia|reflexivity|]. right. fold vf vg in P, Q. split; lra.
      * destruct (even_between (mf, ef) (mg, eg) Cf Cg Ef Eg) as ([m e] & C & S & P & Q); [fold vf vg; lra|]. exfalso. cbn [snd] in S.
        apply (Btw true m e) with (w := (- val (m, e))%Q); [unfold canonical64 in C; cbn [fst snd finite] in *; lia|reflexivity|]. right. fold vf vg in P, Q. split; lra.
    + destruct (even_between (mg, eg) (mf, ef) Cg Cf Eg Ef) as ([m e] & C & S & P & Q); [fold vf vg; lra|]. exfalso. cbn [snd] in S.
      apply (Btw false m e) with (w := (val (m, e))%Q); [unfold canonical64 in C; cbn [fst snd finite] in *; lia|reflexivity|]. right. fold vf vg in P, Q. split; lra.
Qed.
Lemma rounds_unique x f g : rounds_to x f -> rounds_to x g -> negative f = negative g -> f = g.
Proof.
  intros A B N. pose proof (rounds_value x f g A B) as V. destruct A as [A _], B as [B _].
  destruct f as [nf mf ef| |]; try contradiction. destruct g as [ng mg eg| |]; try contradiction. cbn [negative] in N. subst ng.
  destruct (finite_canonical _ _ _ A) as [Cf _]. destruct (finite_canonical _ _ _ B) as [Cg _].
  assert (E : (mf, ef) = (mg, eg)).
  { apply canonical_unique; [exact Cf|exact Cg|]. cbn [value] in V. destruct nf; cbn [signed] in V; unfold val, pow2; cbn [fst snd]; lra. }
  congruence.
Qed.
Lemma parse_exact s neg ds k f : literal s neg ds k -> moderate s ->
  parse_float64 s = Some f <-> rounds_to (literal_value neg ds k) f /\ negative f = neg /\ ~ out_of_range (literal_value neg ds k).
Proof.
  intros L M. split.
  - intros P. destruct (parse_rounds _ _ _ _ _ L M P) as [R N]. split; [exact R|]. split; [exact N|]. intros O. apply (parse_none _ _ _ _ L M) in O. congruence.
  - intros (R & N & O). destruct (parse_float64 s) as [g|] eqn:P; [|exfalso; apply O; now apply (parse_none _ _ _ _ L M)].
    destruct (parse_rounds _ _ _ _ _ L M P) as [R' N']. f_equal. apply (rounds_unique (literal_value neg ds k)); congruence.
Qed.

(** * Integers written as floats *)

Lemma digits_inj a : forall b, all_chars is_digit a -> all_chars is_digit b -> strlen a = strlen b -> digits_value a = digits_value b -> a = b.
Proof.
  induction a as [|c a IH]; intros [|c' b] Ha Hb L V; [reflexivity|rewrite strlen_chr in L; pose proof (strlen_nonneg b); cbn in L; lia|rewrite strlen_chr in L; pose proof (strlen_nonneg a); cbn in L; lia|].
  rewrite !strlen_chr in L. cbn [all_chars] in Ha, Hb. destruct Ha as [H1 H2], Hb as [K1 K2]. cbn [digits_value] in V.
  assert (Ls : strlen a = strlen b) by lia. rewrite Ls in V.
  pose proof (digits_value_nonneg a H2). pose proof (digits_value_nonneg b K2).
  assert (digits_value a < 10 ^ strlen b) by (rewrite <- Ls; now apply digits_value_bounds). assert (digits_value b < 10 ^ strlen b) by now apply digits_value_bounds.
  assert (E : byte c = byte c') by nia. rewrite E in V. f_equal; [now apply byte_inj|]. apply IH; [exact H2|exact K2|exact Ls|lia].
Qed.
Lemma first_length c s : all_chars is_digit (chr c s) -> c <> "0"%char -> 10 ^ strlen s <= digits_value (chr c s) < 10 ^ (strlen s + 1).
Proof.
  intros [H K] N. cbn [digits_value]. apply digit_range in H. assert (byte c <> 48) by (intros X; apply N, byte_inj; exact X).
  assert (digits_value s < 10 ^ strlen s) by now apply digits_value_bounds. pose proof (digits_value_nonneg s K). rewrite Z.pow_add_r by (pose proof (strlen_nonneg s); lia). nia.
Qed.
Lemma itoa_unique s c t z : s = chr c t -> all_chars is_digit s -> c <> "0"%char -> digits_value s = z -> itoa z = s.
Proof.
  intros -> A N V. pose proof (first_length c t A N) as B. pose proof (strlen_nonneg t) as T. assert (Pt : 0 < 10 ^ strlen t) by (apply Z.pow_pos_nonneg; lia).
  assert (Z0 : 0 < z) by lia. destruct (itoa_value z) as (V' & A' & _); [lia|]. destruct (itoa_first z Z0) as (c' & t' & E & Hc & Hn & Ht).
  pose proof (itoa_length z Z0) as Lz. rewrite E, strlen_chr in Lz. replace (strlen t' + 1 - 1) with (strlen t') in Lz by ring.
  apply digits_inj; [exact A'|exact A| |congruence]. rewrite E, !strlen_chr. pose proof (strlen_nonneg t') as T'.
  assert (strlen t < strlen t' + 1) by (apply (Z.pow_lt_mono_r_iff 10); lia). assert (strlen t' < strlen t + 1) by (apply (Z.pow_lt_mono_r_iff 10); lia). lia.
Qed.
Lemma itoa_zeros d k : 0 < d -> 0 <= k -> itoa (d * 10 ^ k) = itoa d +++ zeros (Z.to_nat k).
Proof.
  intros D K. destruct (itoa_value d) as (V & A & _); [lia|]. destruct (itoa_first d D) as (c & t & E & Hc & Hn & Ht). destruct (zeros_value (Z.to_nat k)) as (Z1 & Z2 & Z3).
  apply (itoa_unique _ c (t +++ zeros (Z.to_nat k))); [now rewrite E, app_chr|now apply all_chars_app|exact Hn|].
  rewrite digits_value_app, Z1, Z2, V, Z2Nat.id by lia. ring.
Qed.

Lemma drop_zeros_odd fuel : forall d k, 0 < d < 10 ^ Z.of_nat fuel -> fst (drop_zeros fuel d k) mod 10 <> 0.
Proof.
  induction fuel as [|fuel IH]; intros d k H; [cbn in H; lia|]. cbn [drop_zeros]. destruct (Z.eqb_spec (d mod 10) 0) as [M|M]; [|exact M].
  apply IH. rewrite Nat2Z.inj_succ, Z.pow_succ_r in H by lia. pose proof (Z.div_mod d 10 ltac:(lia)). lia.
Qed.
Lemma dec_int d k z : 0 < d -> d mod 10 <> 0 -> (dec d k == inject_Z z)%Q -> 0 <= k /\ z = d * 10 ^ k.
Proof.
  intros D M E. assert (K : 0 <= k).
  { destruct (Z_lt_le_dec k 0) as [L|L]; [|exact L]. exfalso. apply M.
    assert (X : (inject_Z d == inject_Z (z * 10 ^ (- k)))%Q).
    { rewrite inject_Z_mult, <- E, <- (pow10_Z (- k)) by lia. unfold dec. rewrite <- Qmult_assoc, <- pow10_plus. replace (k + - k) with 0 by ring. change (pow10 0) with 1%Q. ring. }
    rewrite inject_Z_injective in X. rewrite X. replace (- k) with (1 + (- k - 1)) by ring. rewrite Z.pow_add_r by lia. rewrite Z.pow_1_r.
    replace (z * (10 * 10 ^ (- k - 1))) with (z * 10 ^ (- k - 1) * 10) by ring. apply Z_mod_mult. }
  split; [exact K|]. unfold dec in E. rewrite (pow10_Z k K), <- inject_Z_mult, inject_Z_injective in E. now symmetry.
Qed.
(** A decimal that is read as the integer [z] and has no more digits than [z] is [z]. *)
Lemma int_shortest z m e : 0 < z < 2 ^ 53 -> canonical64 (m, e) -> (val (m, e) == inject_Z z)%Q ->
  exists d k, shortest m e = Some (d, k) /\ 0 < d /\ 0 <= k /\ z = d * 10 ^ k.
Proof.
  intros Hz C V. assert (P : 0 < m).
  { destruct (Z_lt_le_dec 0 m) as [L|L]; [exact L|]. exfalso. assert (M0 : m = 0) by (destruct C as [C _]; cbn in C; lia). subst m.
    assert (X : (inject_Z 0 == inject_Z z)%Q) by (rewrite <- V; unfold val; cbn [fst snd]; rewrite Qmult_0_l; reflexivity). rewrite inject_Z_injective in X. lia. }
  assert (Le : e <= 971).
  { destruct (Z_lt_le_dec 971 e) as [L|L]; [|exact L]. exfalso. assert (X : (pow2 971 <= val (m, e))%Q).
    { unfold val. cbn [fst snd]. apply Qle_trans with (1 * pow2 e)%Q; [rewrite Qmult_1_l; apply pow2_le; lia|]. apply Qmult_le_compat_r; [|apply Qlt_le_weak, pow2_pos].
      change 1%Q with (inject_Z 1). rewrite <- Zle_Qle. lia. }
    rewrite V, pow2_Z, <- Zle_Qle in X by lia. assert (2 ^ 53 <= 2 ^ 971) by (apply Z.pow_le_mono_r; lia). lia. }
  destruct (shortest_spec m e C P Le) as (d & k & S & D & D17 & Nr & Min & Near). exists d, k. split; [exact S|]. split; [exact D|].
  assert (Nz : nearest (dec z 0) = (m, e)).
  { apply nearest_self; [exact C|]. rewrite V. unfold dec. change (pow10 0) with 1%Q. ring. }
  assert (M10 : d mod 10 <> 0).
  { unfold shortest in S. destruct (shortest_from _ _ _ _ _) as [[d0 k0]|] eqn:SF; [|discriminate].
    destruct (decimal_exponent_spec (m, e) C P) as [P1 P2].
    destruct (shortest_from_spec (m, e) C P Le _ P1 P2 17 1 ltac:(lia) ltac:(lia) ltac:(intros; left; lia)) as (n & d1 & Hn & SF' & F & _).
    change (inject_Z m * pow2 e)%Q with (val (m, e)) in SF. rewrite SF in SF'. assert (Ed : d1 = d0) by congruence. subst d1. 
    destruct (found_near (m, e) C _ P1 P2 n d0 ltac:(lia) F) as (_ & B & _).
    assert (B2 : 10 ^ n <= 10 ^ 17) by (apply Z.pow_le_mono_r; lia). assert (0 < 10 ^ (n - 1)) by (apply Z.pow_pos_nonneg; lia).
    pose proof (drop_zeros_odd 18 d0 k0) as O. assert (Es : drop_zeros 18 d0 k0 = (d, k)) by congruence. rewrite Es in O. apply O. split; [lia|]. change (Z.of_nat 18) with 18. lia. }
  assert (Exact : (dec d k == inject_Z z)%Q -> 0 <= k /\ z = d * 10 ^ k) by (apply dec_int; assumption).
  (* the digits of z *)
  pose proof (itoa_length z ltac:(lia)) as Lz. set (n := strlen (itoa z)) in *.
  assert (N1 : 1 <= n) by (destruct (itoa_first z ltac:(lia)) as (c & t & E & _); unfold n; rewrite E, strlen_chr; pose proof (strlen_nonneg t); lia).
  pose proof (Min n z 0 ltac:(lia) ltac:(lia) Nz) as Dn.
  destruct (Z_lt_le_dec d (10 ^ (n - 1))) as [Small|Big].
  - destruct (Z_lt_le_dec k 0) as [Kn|Kp].
    + exfalso. assert (N2 : 2 <= n) by (destruct (Z.eq_dec n 1) as [E|E]; [rewrite E in Small; cbn in Small; lia|lia]).
      assert (B : (dec d k <= dec (10 ^ (n - 2)) 0)%Q).
      { apply Qle_trans with (dec (10 ^ (n - 1)) (-1)).
        - apply Qle_trans with (dec (10 ^ (n - 1)) k); [apply JsonFloatProofs.dec_le; lia|]. unfold dec. rewrite !(Qmult_comm (inject_Z _)).
          apply Qmult_le_compat_r; [apply pow10_le; lia|]. change 0%Q with (inject_Z 0). rewrite <- Zle_Qle. apply Z.pow_nonneg. lia.
        - apply Qle_lteq. right. rewrite (dec_shift (10 ^ (n - 2)) 0 1) by lia. rewrite <- Z.pow_add_r by lia. replace (n - 2 + 1) with (n - 1) by ring. reflexivity. }
      assert (Lt : 0 <= 10 ^ (n - 2) < z).
      { split; [apply Z.pow_nonneg; lia|]. eapply Z.lt_le_trans; [|apply Lz]. apply Z.pow_lt_mono_r; lia. }
      destruct (int_float (10 ^ (n - 2)) ltac:(lia)) as (m2 & e2 & F2 & V2). destruct (finite_canonical _ _ _ F2) as [C2 _].
      assert (E2 : nearest (dec (10 ^ (n - 2)) 0) = (m2, e2)) by (apply nearest_self; [exact C2|]; rewrite V2; unfold dec; change (pow10 0) with 1%Q; ring).
      pose proof (nearest_mono _ _ (dec_nonneg d k ltac:(lia)) B) as Mo. rewrite Nr, E2, V, V2, <- Zle_Qle in Mo. lia.
    + apply Exact. assert (E : (dec d k == inject_Z (d * 10 ^ k))%Q) by (unfold dec; rewrite (pow10_Z k Kp), <- inject_Z_mult; reflexivity).
      rewrite E. destruct (Z_le_gt_dec (d * 10 ^ k) (2 ^ 53)) as [G|G].
      * assert (P10 : 0 < 10 ^ k) by (apply Z.pow_pos_nonneg; lia). destruct (int_float (d * 10 ^ k) ltac:(nia)) as (m2 & e2 & F2 & V2). destruct (finite_canonical _ _ _ F2) as [C2 _].
        assert (E2 : nearest (dec d k) = (m2, e2)) by (apply nearest_self; [exact C2|]; now rewrite V2). rewrite Nr in E2.
        assert (Em : m2 = m /\ e2 = e) by (split; congruence). destruct Em as [-> ->]. now rewrite <- V, V2.
      * exfalso. destruct (int_float (2 ^ 53) ltac:(lia)) as (m2 & e2 & F2 & V2). destruct (finite_canonical _ _ _ F2) as [C2 _].
        assert (E2 : nearest (inject_Z (2 ^ 53)) = (m2, e2)) by (apply nearest_self; [exact C2|]; now rewrite V2).
        assert (B : (inject_Z (2 ^ 53) <= dec d k)%Q) by (rewrite E, <- Zle_Qle; lia).
        pose proof (nearest_mono (inject_Z (2 ^ 53)) _ ltac:(discriminate) B) as Mo. rewrite Nr, E2, V, V2, <- Zle_Qle in Mo. lia.
  - apply Exact. pose proof (Near (n - 1) z 0 Big ltac:(lia) ltac:(replace (n - 1 + 1) with n by ring; lia) Nz) as Nd.
    assert (Z0 : (dec z 0 == inject_Z z)%Q) by (unfold dec; change (pow10 0) with 1%Q; ring). rewrite Z0, V in Nd.
    assert (Q0 : (Qabs (inject_Z z - inject_Z z) == 0)%Q) by (rewrite Qabs_pos; lra). rewrite Q0 in Nd. apply Qabs_Qle_condition in Nd. lra.
Qed.

Lemma integer_text z f : Z.abs z < 2 ^ 53 -> finite f -> (value f == inject_Z z)%Q -> negative f = (z <? 0) -> show_float64 f = Some (itoa z).
Proof.
  intros Hz Fn V N. destruct f as [neg m e| |]; try contradiction. cbn [negative] in N. destruct (finite_canonical _ _ _ Fn) as [C Le].
  assert (Va : (val (m, e) == inject_Z (Z.abs z))%Q).
  { cbn [value] in V. change (inject_Z m * Qpower 2 e)%Q with (val (m, e)) in V. destruct (Z.ltb_spec z 0) as [G|G]; subst neg; cbn [signed] in V.
    - rewrite Z.abs_neq, inject_Z_opp by lia. lra.
    - rewrite Z.abs_eq by lia. exact V. }
  destruct (Z.eq_dec z 0) as [->|Nz].
  - assert (M0 : m = 0).
    { destruct (Z.eq_dec m 0) as [E|E]; [exact E|]. exfalso. pose proof (val_positive (m, e) C) as X. cbn [fst] in X. destruct C as [C _]. cbn [fst] in C. specialize (X ltac:(lia)).
      change (inject_Z (Z.abs 0)) with 0%Q in Va. lra. }
    subst m neg. reflexivity.
  - destruct (int_shortest (Z.abs z) m e ltac:(lia) C Va) as (d & k & S & D & K & Ez).
    assert (P : 0 < m).
    { destruct (Z.eq_dec m 0) as [E|E]; [|destruct C as [C _]; cbn [fst] in C; lia]. subst m. exfalso.
      assert (X : (inject_Z 0 == inject_Z (Z.abs z))%Q) by (rewrite <- Va; unfold val; cbn [fst snd]; rewrite Qmult_0_l; reflexivity). rewrite inject_Z_injective in X. lia. }
    destruct (show_spec neg m e Fn P) as (t & d' & k' & Sh & S' & _ & _ & _ & Ht). rewrite Sh. rewrite S in S'. assert (Ed : d' = d /\ k' = k) by (split; congruence). destruct Ed as [-> ->].
    assert (B1 : Qle_bool (val (nearest (1 # 1000000))) (val (m, e)) = true).
    { apply Qle_bool_iff. rewrite Va. apply Qle_trans with 1%Q; [vm_compute; discriminate|]. change 1%Q with (inject_Z 1). rewrite <- Zle_Qle. lia. }
    assert (B2 : Qle_bool (pow10 21) (val (m, e)) = false).
    { destruct (Qle_bool (pow10 21) (val (m, e))) eqn:B; [|reflexivity]. exfalso. apply Qle_bool_iff in B. rewrite Va, (pow10_Z 21), <- Zle_Qle in B by lia.
      assert (2 ^ 53 < 10 ^ 21) by reflexivity. lia. }
    rewrite B1, B2 in Ht. cbn [andb negb] in Ht. unfold plain in Ht. apply Z.leb_le in K. rewrite K in Ht. apply Z.leb_le in K. rewrite <- itoa_zeros, <- Ez in Ht by assumption.
    rewrite Ht. f_equal. destruct (Z.ltb_spec z 0) as [G|G]; subst neg; cbn [sign].
    + rewrite Z.abs_neq by lia. destruct z as [|q|q]; try lia. reflexivity.
    + rewrite Z.abs_eq by lia. reflexivity.
Qed.

Lemma plain_proper v : plain_value v -> proper v.
Proof.
  revert v. fix IH 2. intros v H. destruct H as [|b|f Hf|s Hs|l Hl|l Hd Hl]; [apply proper_leaf; discriminate..| |].
  - apply proper_slice. induction Hl as [|v l Hv Hl IHl]; constructor; [exact (IH v Hv)|exact IHl].
  - apply proper_map; [exact Hd|]. clear Hd. induction Hl as [|[k v] l [Hk Hv] Hl IHl]; constructor; [exact (IH v Hv)|exact IHl].
Qed.

(** * A long exponent *)

Definition long_one (n : nat) : string := "0." +++ zeros n +++ "1e" +++ itoa (Z.of_nat n + 1).
Lemma long_literal n : literal (long_one n) false ("0" +++ zeros n +++ "1") 0 /\ (literal_value false ("0" +++ zeros n +++ "1") 0 == 1)%Q.
Proof.
  destruct (zeros_value n) as (Z1 & Z2 & Z3). destruct (itoa_value (Z.of_nat n + 1) ltac:(lia)) as (V & A & N). split.
  - exists "0", ("." +++ zeros n +++ "1"), (zeros n +++ "1"), ("e" +++ itoa (Z.of_nat n + 1)), (Z.of_nat n + 1). split; [left; reflexivity|].
    assert (D : all_chars is_digit (zeros n +++ "1")) by (apply all_chars_app; split; [exact Z3|cbn; tauto]).
    split; [right; split; [split; [destruct n; discriminate|exact D]|reflexivity]|].
    split; [right; exists "e", "", (itoa (Z.of_nat n + 1)); split; [left; reflexivity|]; split; [split; assumption|]; split; [reflexivity|]; left; split; [now left|now symmetry]|].
    split; [unfold long_one; cbn [String.append]; now rewrite !append_assoc'|]. split; [reflexivity|]. rewrite strlen_app, Z2. cbn. lia.
  - unfold literal_value. cbn [signed String.append digits_value]. rewrite digits_value_app, Z1. reflexivity.
Qed.
Lemma long_read n : 100000 <= Z.of_nat n + 1 -> 100000 <= Z.of_nat n -> itoa (Z.of_nat n + 1) = "100001" ->
  parse_float64 (long_one n) = Some (Fin false 0 (-1074)).
Proof.
  intros H1 H2 H3. destruct (long_literal n) as [L _]. destruct (literal_read _ _ _ _ L) as (_ & v & fd & e & p & S & E & P & K & B1 & B2 & A & R).
  destruct (zeros_value n) as (Z1 & Z2 & Z3). unfold parse_float64. rewrite R.
  assert (X : exponent_value e = 10000).
  { assert (Ee : e = "e100001").
    { apply (no_e_split p ("0." +++ zeros n +++ "1")); [exact P| |exact (exponent_first _ _ E)|right; exists "e"%char; eexists; split; [reflexivity|tauto]|].
      - cbn [String.append all_chars]. split; [split; discriminate|]. split; [split; discriminate|]. apply all_chars_app. split; [now apply digits_no_e|cbn; repeat split; discriminate].
      - rewrite <- S. unfold long_one. rewrite H3. cbn [String.append]. rewrite !append_assoc'. reflexivity. }
    rewrite Ee. reflexivity. }
  assert (V : v = Z.of_nat n + 1).
  { symmetry. apply (exponent_unique _ p e v _ S E P). exists ("0." +++ zeros n +++ "1"), ("e" +++ itoa (Z.of_nat n + 1)).
    split; [unfold long_one; cbn [String.append]; now rewrite !append_assoc'|]. destruct (itoa_value (Z.of_nat n + 1) ltac:(lia)) as (Vi & Ai & Ni). split.
    - right. exists "e", "", (itoa (Z.of_nat n + 1)). split; [left; reflexivity|]. split; [split; assumption|]. split; [reflexivity|]. left. split; [now left|now symmetry].
    - apply no_e_letters. cbn [String.append all_chars]. split; [split; discriminate|]. split; [split; discriminate|]. apply all_chars_app. split; [now apply digits_no_e|cbn; repeat split; discriminate]. }
  fold (dec (digits_value ("0" +++ zeros n +++ "1")) (exponent_value e - strlen fd)). rewrite X.
  assert (D1 : digits_value ("0" +++ zeros n +++ "1") = 1) by (cbn [String.append digits_value]; rewrite digits_value_app, Z1; reflexivity). rewrite D1.
  rewrite (round_tiny 1 _ ltac:(lia) 1); [reflexivity|reflexivity|lia|lia].
Qed.
Lemma long_read_at : exists s, literal s false ("0" +++ zeros (Z.to_nat 100000) +++ "1") 0 /\ (literal_value false ("0" +++ zeros (Z.to_nat 100000) +++ "1") 0 == 1)%Q /\
  parse_float64 s = Some (Fin false 0 (-1074)).
Proof.
  assert (N : Z.of_nat (Z.to_nat 100000) = 100000) by (apply Z2Nat.id; lia). generalize dependent (Z.to_nat 100000). intros n N.
  exists (long_one n). destruct (long_literal n) as [L V]. split; [exact L|]. split; [exact V|]. apply long_read; [lia|lia|rewrite N; reflexivity].
Qed.
