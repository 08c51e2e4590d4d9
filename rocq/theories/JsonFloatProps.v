(** Theorems about numbers in JSON texts (C75, C77, C78, C79, C80). *)
From Verif Require Import Common Bytes ProcsModel ProcsSpec ConfsModel ConfsSpec PprofSpec JsonModel JsonSpec JsonProofs JsonEncode JsonProps JsonFloatModel JsonFloatSpec JsonFloatProofs JsonFloatText.
From Coq Require Import QArith Qabs.
Local Open Scope string_scope.
Local Open Scope list_scope.
Local Open Scope Z_scope.

(** * Reading *)

(** Every number literal has a sign, digits and a power of ten; its value depends on nothing else. *)
Theorem number_value : forall s, number s -> exists neg ds k, literal s neg ds k /\
  forall neg' ds' k', literal s neg' ds' k' -> neg' = neg /\ digits_value ds' = digits_value ds /\ k' = k.
Proof.
  intros s H. destruct (number_literal s H) as (neg & ds & k & L). exists neg, ds, k. split; [exact L|].
  intros neg' ds' k' L'. exact (literal_same s _ _ _ _ _ _ L' L).
Qed.
Print Assumptions number_value.

Example number_value_case : number "-12.50e+3" /\ literal "-12.50e+3" true "1250" 1 /\ (literal_value true "1250" 1 == inject_Z (-12500))%Q.
Proof.
  assert (L : literal "-12.50e+3" true "1250" 1).
  { exists "12", ".50", "50", "e+3", 3. split; [right; exists "1"%char, "2"; split; [cbn; tauto|split; [discriminate|split; [cbn; tauto|reflexivity]]]|].
    split; [right; split; [split; [discriminate|cbn; tauto]|reflexivity]|].
    split; [right; exists "e", "+", "3"; split; [left; reflexivity|split; [split; [discriminate|cbn; tauto]|split; [reflexivity|left; auto]]]|]. repeat split; reflexivity. }
  split; [exact (literal_number _ _ _ _ L)|]. split; [exact L|reflexivity].
Qed.

(** A number is read as the nearest float64, of two the one with even mantissa; as an error if and only if it is out
    of range.  This holds for all texts of at most 9000 characters, and for all without an exponent or with one
    below 100000. *)
Theorem number_rounding : forall s neg ds k, literal s neg ds k -> moderate s ->
  (forall f, parse_float64 s = Some f <->
     rounds_to (literal_value neg ds k) f /\ negative f = neg /\ ~ out_of_range (literal_value neg ds k)) /\
  (parse_float64 s = None <-> out_of_range (literal_value neg ds k)).
Proof. intros s neg ds k L M. split; [intros f; exact (parse_exact s neg ds k f L M)|exact (parse_none s neg ds k L M)]. Qed.
Print Assumptions number_rounding.

(** It does not hold for all texts: a 1 written with an exponent of six digits is read as 0. *)
Theorem number_rounding_refuted : exists s neg ds k, literal s neg ds k /\ (literal_value neg ds k == 1)%Q /\
  exists f, parse_float64 s = Some f /\ (value f == 0)%Q.
Proof.
  destruct long_read_at as (s & L & V & P). exists s, false. eexists. exists 0. split; [exact L|]. split; [exact V|].
  exists (Fin false 0 (-1074)). split; [exact P|reflexivity].
Qed.
Print Assumptions number_rounding_refuted.

(** There is just one such float64. *)
Theorem rounding_unique : forall x f g, rounds_to x f -> rounds_to x g -> negative f = negative g -> f = g.
Proof. exact rounds_unique. Qed.
Print Assumptions rounding_unique.

Example number_rounding_case :
  parse_float64 "0.1" = Some (Fin false 7205759403792794 (-56)) /\ parse_float64 "-1e23" = Some (Fin true 5960464477539062 24) /\
  parse_float64 "9007199254740993" = Some (Fin false (2 ^ 52) 1) /\ parse_float64 "9007199254740995" = Some (Fin false (2 ^ 52 + 2) 1) /\
  parse_float64 "2.4e-324" = Some (Fin false 0 (-1074)) /\ parse_float64 "-2.5e-324" = Some (Fin true 1 (-1074)) /\
  parse_float64 "1.7976931348623158e308" = Some (Fin false (2 ^ 53 - 1) 971) /\ parse_float64 "1.7976931348623159e308" = None /\
  parse_float64 "1e400" = None.
Proof. vm_compute. repeat split; reflexivity. Qed.
Example number_moderate_case : moderate "1e400" /\ moderate ("0." ++ zeros (Z.to_nat 9001) ++ "1e9002")%string.
Proof.
  split; [left; vm_compute; discriminate|]. right. exists 9002. split; [|lia].
  exists ("0." ++ zeros (Z.to_nat 9001) ++ "1")%string, "e9002". split; [vm_compute; reflexivity|].
  split; [right; exists "e", "", "9002"; split; [left; reflexivity|split; [split; [discriminate|cbn; tauto]|split; [reflexivity|left; split; [now left|reflexivity]]]]|].
  assert (Z0 : forall c n, c <> "0"%char -> ~ In c (letters (zeros n))).
  { intros c n H. induction n as [|n IH]; cbn [zeros letters In]; [tauto|]. intros [E|E]; [congruence|now apply IH]. }
  assert (Ap : forall a b, letters (a ++ b)%string = letters a ++ letters b) by (induction a as [|x a IH]; intros b; cbn; [reflexivity|now rewrite IH]).
  rewrite !Ap. split; intros H; apply in_app_iff in H; destruct H as [H|H]; [cbn in H; intuition discriminate| |cbn in H; intuition discriminate|];
    apply in_app_iff in H; (destruct H as [H|H]; [apply Z0 in H; [exact H|discriminate]|cbn in H; intuition discriminate]).
Qed.
Example rounding_unique_case : rounds_to (1 # 10) (Fin false 7205759403792794 (-56)).
Proof.
  assert (L : literal "0.1" false "01" (-1)).
  { exists "0", ".1", "1", "", 0. split; [left; reflexivity|]. split; [right; split; [split; [discriminate|cbn; tauto]|reflexivity]|].
    split; [left; auto|]. repeat split; reflexivity. }
  assert (M : moderate "0.1") by (left; vm_compute; discriminate). destruct (number_rounding _ _ _ _ L M) as [R _]. destruct (R (Fin false 7205759403792794 (-56))) as [R1 _].
  destruct (R1 ltac:(vm_compute; reflexivity)) as [H _]. exact (rounds_to_eq _ _ _ (Qeq_refl (1 # 10)) H).
Qed.

(** * Writing *)

(** Each finite float64 has a text, which is a number that is read as this float64, also for -0. *)
Theorem float_round_trip : forall f, finite f -> exists t, show_float64 f = Some t /\ number t /\ parse_float64 t = Some f.
Proof. exact show_parse. Qed.
Print Assumptions float_round_trip.

(** Infinities and NaN have none. *)
Theorem float_no_text : forall f, is_float64 f -> (show_float64 f = None <-> ~ finite f).
Proof.
  intros f [H|[->|[->| ->]]]; [|cbn; tauto..]. destruct (show_parse f H) as (t & E & _). rewrite E. split; [discriminate|contradiction].
Qed.
Print Assumptions float_no_text.

(** Different float64s have different texts. *)
Theorem float_text_injective : forall f g t, finite f -> finite g -> show_float64 f = Some t -> show_float64 g = Some t -> f = g.
Proof.
  intros f g t Hf Hg F G. destruct (show_parse f Hf) as (t1 & E1 & _ & P1). destruct (show_parse g Hg) as (t2 & E2 & _ & P2). congruence.
Qed.
Print Assumptions float_text_injective.

(** The text has as few digits as possible: no number with fewer digits is read as this float64. *)
Theorem float_text_shortest : forall f t neg ds k, finite f -> ~ (value f == 0)%Q -> show_float64 f = Some t -> literal t neg ds k ->
  fits 17 ds /\
  forall s neg' ds' k' n, literal s neg' ds' k' -> moderate s -> parse_float64 s = Some f -> fits n ds' -> fits n ds.
Proof.
  intros f t neg ds k Hf N S L. destruct f as [b m e| |]; try contradiction.
  assert (M : m <> 0) by (intros ->; apply N; cbn [value]; destruct b; cbn [signed]; rewrite Qmult_0_l; reflexivity).
  split; [exact (shown_seventeen _ _ _ _ _ _ _ Hf M S L)|].
  intros s neg' ds' k' n L' Md P Ft. exact (shown_short _ _ _ _ _ _ _ _ _ _ _ _ Hf M S L L' Md P Ft).
Qed.
Print Assumptions float_text_shortest.

(** Of the numbers with as many digits that are read as this float64 it is the nearest. *)
Theorem float_text_nearest : forall f t neg ds k n, finite f -> ~ (value f == 0)%Q -> show_float64 f = Some t -> literal t neg ds k ->
  ~ fits (n - 1) ds ->
  forall s neg' ds' k', literal s neg' ds' k' -> moderate s -> parse_float64 s = Some f -> fits n ds' ->
    (Qabs (value f - literal_value neg ds k) <= Qabs (value f - literal_value neg' ds' k'))%Q.
Proof.
  intros f t neg ds k n Hf N S L Nf s neg' ds' k' L' Md P Ft. destruct f as [b m e| |]; try contradiction.
  assert (M : m <> 0) by (intros ->; apply N; cbn [value]; destruct b; cbn [signed]; rewrite Qmult_0_l; reflexivity).
  exact (shown_near _ _ _ _ _ _ _ _ _ _ _ _ Hf M S L L' Md P Ft Nf).
Qed.
Print Assumptions float_text_nearest.

(** Numbers from 1e-6 to below 1e21 are written without an exponent, all others but 0 with one. *)
Theorem float_text_exponent : forall f t g, finite f -> ~ (value f == 0)%Q -> show_float64 f = Some t -> parse_float64 "1e-6" = Some g ->
  (In "e"%char (letters t) <-> ~ (value g <= Qabs (value f) /\ Qabs (value f) < Qpower 10 21)%Q).
Proof. exact shown_exponent. Qed.
Print Assumptions float_text_exponent.

Example float_text_case :
  finite (Fin false 7205759403792794 (-56)) /\ ~ (value (Fin false 7205759403792794 (-56)) == 0)%Q /\
  show_float64 (Fin false 7205759403792794 (-56)) = Some "0.1" /\
  show_float64 (Fin true 5960464477539062 24) = Some "-1e+23" /\
  show_float64 (Fin false 1 (-1074)) = Some "5e-324" /\
  show_float64 (Fin false (2 ^ 53 - 1) 971) = Some "1.7976931348623157e+308" /\
  show_float64 (Fin true 0 (-1074)) = Some "-0" /\
  show_float64 (Fin false (3 * 2 ^ 51) (-51)) = Some "3" /\
  show_float64 (Fin false 5404319552844596 (-54)) = Some "0.30000000000000004" /\
  show_float64 (Fin false (5 ^ 20 * 2 ^ 6) 15) = Some "200000000000000000000" /\
  parse_float64 "1e-6" = Some (Fin false 4722366482869645 (-72)) /\
  show_float64 (Fin false 4722366482869645 (-72)) = Some "0.000001" /\
  show_float64 (Fin false 4722366482869644 (-72)) = Some "9.999999999999997e-7" /\
  show_float64 (Inf true) = None.
Proof. split; [cbn; lia|]. split; [vm_compute; discriminate|]. vm_compute. repeat split; reflexivity. Qed.
Example float_text_nearest_case : ~ fits (1 - 1) "01" /\ fits 1 "01" /\ ~ fits 1 "12".
Proof.
  assert (P10 : forall j, 0 <= j -> 0 < 10 ^ j) by (intros j J; apply Z.pow_pos_nonneg; lia).
  split; [|split].
  - intros (d & j & J & V & D). specialize (P10 j J). cbn in V, D. nia.
  - exists 1, 0. split; [lia|]. split; reflexivity.
  - intros (d & j & J & V & D). change (digits_value "12") with 12 in V. destruct (Z.eq_dec j 0) as [->|N]; [cbn in V, D; lia|].
    destruct (Z.eq_dec j 1) as [->|N1]; [cbn in V, D; lia|]. assert (100 <= 10 ^ j) by (change 100 with (10 ^ 2); apply Z.pow_le_mono_r; lia).
    destruct (Z_lt_le_dec 0 d); nia.
Qed.

(** * Integers *)

(** An integer of 64 bits comes back as the nearest float64; up to 2^53 with the same value. *)
Theorem integer_read : forall z, - 2 ^ 63 <= z < 2 ^ 64 -> exists f, parse_float64 (itoa z) = Some f /\
  rounds_to (inject_Z z) f /\ (Z.abs z <= 2 ^ 53 -> (value f == inject_Z z)%Q).
Proof. intros z H. apply int_parse. lia. Qed.
Print Assumptions integer_read.

Example integer_read_case : parse_float64 (itoa (-9007199254740991)) = Some (Fin true 9007199254740991 0) /\
  Z.abs (-9007199254740991) <= 2 ^ 53.
Proof. split; [vm_compute; reflexivity|lia]. Qed.

(** "Integers keep their values" does not hold beyond: 2^53 + 1 and 2^53 become the same number. *)
Theorem integer_exact_refuted : exists t1 t2 m, t1 <> t2 /\
  marshal_m float64 show_float64 (GMap [("n", GInt (2 ^ 53))]) = Some t1 /\
  marshal_m float64 show_float64 (GMap [("n", GInt (2 ^ 53 + 1))]) = Some t2 /\
  unmarshal_m float64 parse_float64 t1 = Some m /\ unmarshal_m float64 parse_float64 t2 = Some m.
Proof.
  exists "{""n"":9007199254740992}", "{""n"":9007199254740993}", (GMap [("n", GFloat (Fin false (2 ^ 52) 1))]).
  split; [discriminate|]. repeat split; vm_compute; reflexivity.
Qed.
Print Assumptions integer_exact_refuted.

(** A float64 that holds an integer below 2^53 is written as that integer: no dot, no exponent. *)
Theorem integer_written : forall z f, Z.abs z < 2 ^ 53 -> finite f -> (value f == inject_Z z)%Q -> negative f = (z <? 0) ->
  show_float64 f = Some (itoa z).
Proof. exact integer_text. Qed.
Print Assumptions integer_written.

Example integer_written_case : finite (Fin true (3 * 2 ^ 51) (-51)) /\ (value (Fin true (3 * 2 ^ 51) (-51)) == inject_Z (-3))%Q /\
  show_float64 (Fin true (3 * 2 ^ 51) (-51)) = Some "-3" /\
  show_float64 (Fin false 9007199254740991 0) = Some "9007199254740991".
Proof. split; [cbn; lia|]. vm_compute. repeat split; reflexivity. Qed.

(** * Maps with real numbers *)

(** A map of nil, bools, finite floats, UTF-8 strings, slices and maps, at most 10000 deep, comes back as it was. *)
Theorem real_round_trip : forall l, plain_value (GMap l) -> depth float64 (GMap l) <= 10000 ->
  exists t m, marshal_m float64 show_float64 (GMap l) = Some t /\ unmarshal_m float64 parse_float64 t = Some m /\ same (GMap l) m.
Proof. intros l P D. exact (map_round_trip _ _ _ l (plain_json _ P) D). Qed.
Print Assumptions real_round_trip.

(** Written once more, it has the same text. *)
Theorem real_stable : forall l t m, plain_value (GMap l) -> marshal_m float64 show_float64 (GMap l) = Some t ->
  unmarshal_m float64 parse_float64 t = Some m -> marshal_m float64 show_float64 m = Some t.
Proof.
  intros l t m P M U. destruct (map_conversions _ _ _ l (json_encodable _ _ _ _ (plain_json _ P))) as (t' & m' & M' & B & U').
  assert (t' = t) by congruence. subst t'. rewrite U in U'. destruct (depth float64 (GMap l) <=? 10000); [|discriminate].
  assert (m' = m) by congruence. subst m'. pose proof (json_back _ _ _ _ (plain_json _ P) m B) as S.
  rewrite <- (marshal_deterministic float64 show_float64 (GMap l) m (plain_proper _ P) S). exact M.
Qed.
Print Assumptions real_stable.

(** Other maps come back converted. *)
Theorem real_conversions : forall l, sendable (GMap l) ->
  exists t m, marshal_m float64 show_float64 (GMap l) = Some t /\ comes_back float64 parse_float64 (GMap l) m /\
    unmarshal_m float64 parse_float64 t = (if depth float64 (GMap l) <=? 10000 then Some m else None).
Proof. intros l S. exact (map_conversions _ _ _ l (sendable_encodable _ S)). Qed.
Print Assumptions real_conversions.

Lemma ascii_text s : (forall c, In c (letters s) -> byte c < 128) -> utf8_text s.
Proof.
  induction s as [|c s IH]; intros H; [constructor|]. change (utf8_text (String.append (String.String c "") s)).
  apply (utf8_more (byte c)); [apply utf8_char, H; left; reflexivity|]. apply IH. intros x Hx. apply H. right. exact Hx.
Qed.
Definition real_map : list (string * gvalue float64) :=
  [("z", GFloat (Fin true 7205759403792794 (-56))); ("a", GSlice [GNil; GFloat (Fin false 5960464477539062 24)])].
Example real_round_trip_case : plain_value (GMap real_map) /\ depth float64 (GMap real_map) = 2 /\
  marshal_m float64 show_float64 (GMap real_map) = Some "{""a"":[null,1e+23],""z"":-0.1}" /\
  unmarshal_m float64 parse_float64 "{""a"":[null,1e+23],""z"":-0.1}" = Some (GMap (rev real_map)).
Proof.
  split; [|split; [reflexivity|split; vm_compute; reflexivity]]. constructor.
  - constructor; [intros [E|[]]; discriminate|]. constructor; [intros []|constructor].
  - constructor; [split|constructor; [split|constructor]].
    + apply ascii_text. intros c [<-|[]]; reflexivity.
    + constructor. cbn; lia.
    + apply ascii_text. intros c [<-|[]]; reflexivity.
    + constructor. constructor; [constructor|]. constructor; [|constructor]. constructor. cbn; lia.
Qed.
Example real_conversions_case : sendable (GMap [("n", GInt (-1)); ("b", GNilSlice)]) /\
  unmarshal_m float64 parse_float64 "{""b"":null,""n"":-1}" = Some (GMap [("b", GNil); ("n", GFloat (Fin true (2 ^ 52) (-52)))]).
Proof.
  split; [|vm_compute; reflexivity]. constructor.
  - constructor; [intros [E|[]]; discriminate|]. constructor; [intros []|constructor].
  - constructor; [split|constructor; [split|constructor]].
    + apply ascii_text. intros c [<-|[]]; reflexivity.
    + constructor. lia.
    + apply ascii_text. intros c [<-|[]]; reflexivity.
    + constructor.
Qed.

(** The text of any map can be put into a web page. *)
Theorem real_page_safe : forall m t, marshal_m float64 show_float64 m = Some t -> page_safe t.
Proof. exact (marshal_page_safe float64 show_float64 show_number). Qed.
Print Assumptions real_page_safe.

Example real_page_safe_case : marshal_m float64 show_float64 (GMap [("<", GFloat (Fin false 1 (-1074)))]) = Some "{""\u003c"":5e-324}".
Proof. vm_compute. reflexivity. Qed.
