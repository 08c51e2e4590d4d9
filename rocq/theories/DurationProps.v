(** Theorems about durations as text (C81, C82). *)
From Verif Require Import Common Bytes StoreModel ProcsModel ProcsSpec ProcsProofs StoreSpec ConfsModel JsonSpec JsonFloatSpec DurationModel DurationSpec DurationFloat DurationProofs.
From Coq Require Import QArith Qabs.
Local Open Scope string_scope.
Local Open Scope list_scope.
Local Open Scope Z_scope.

(** * C81 *)

(** Only numbers with units, and zero, are accepted. *)
Theorem duration_accepts : forall lim s d, parse_duration lim s = Some d ->
  (zero_text s /\ d = 0) \/ exists neg ps, duration_text s neg ps.
Proof. exact parse_duration_some. Qed.
Print Assumptions duration_accepts.

(** They are accepted if they fit, and refused if they do not. *)
Theorem duration_fits : forall lim s, version lim ->
  (zero_text s -> parse_duration lim s = Some 0) /\
  forall neg ps, duration_text s neg ps ->
    (fits_int64 ps -> exists d, parse_duration lim s = Some d) /\
    (no_wrap lim ps -> exceeds_int64 neg ps -> parse_duration lim s = None).
Proof.
  intros lim s V. split; [apply parse_zero|]. intros neg ps T.
  split; [exact (parse_complete lim s neg ps V T)|exact (parse_exceeds lim s neg ps V T)].
Qed.
Print Assumptions duration_fits.

(** The result is what the text says: up to 1.1 nanoseconds for each number, exactly if the numbers do not have more
    digits after the dot than whole nanoseconds need; and it is an int64. *)
Theorem duration_value : forall lim s neg ps d, version lim -> duration_text s neg ps -> no_wrap lim ps ->
  parse_duration lim s = Some d ->
  near_total d neg ps /\ (Forall whole_ns ps -> inject_Z d == signed neg (total ps))%Q /\ - 2 ^ 63 <= d < 2 ^ 63.
Proof.
  intros lim s neg ps d V T W H. destruct (parsed_value lim s neg ps d V T W H) as [A B].
  split; [exact A|]. split; [exact B|exact (parsed_range lim s d V H)].
Qed.
Print Assumptions duration_value.

(** More digits may be off, also where the exact value is a whole number of nanoseconds. *)
Theorem duration_exact_refuted : forall lim, version lim -> exists s ps z d,
  duration_text s false ps /\ (total ps == inject_Z z)%Q /\ parse_duration lim s = Some d /\ d <> z.
Proof.
  intros lim V. exists "0.29724369509000h", [mkPart "0" (Some "29724369509000") "h" (3600 * 10 ^ 9)], 1070077302324, 1070077302323.
  split; [|split; [reflexivity|split; [destruct V as [->| ->]; vm_compute; reflexivity|discriminate]]].
  split; [discriminate|]. split; [|exists ""; split; [right; split; [now left|reflexivity]|reflexivity]].
  constructor; [|constructor]. split; [cbn; tauto|]. split; [cbn; tauto|]. split; [left; discriminate|cbn; tauto].
Qed.
Print Assumptions duration_exact_refuted.

(** From Go 1.18 on, not all durations that are too long are refused. *)
Theorem duration_overflow_refuted : exists s ps,
  duration_text s false ps /\ exceeds_int64 false ps /\ parse_duration go1_18 s = Some 0.
Proof.
  exists "9223372036854775808ns9223372036854775808ns", [mkPart "9223372036854775808" None "ns" 1; mkPart "9223372036854775808" None "ns" 1].
  assert (G : good_part (mkPart "9223372036854775808" None "ns" 1)).
  { split; [cbn; tauto|]. split; [exact I|]. split; [left; discriminate|cbn; tauto]. }
  split; [|split; [left; vm_compute; discriminate|exact parse_wraps]].
  split; [discriminate|]. split; [constructor; [exact G|constructor; [exact G|constructor]]|exists ""; split; [right; split; [now left|reflexivity]|reflexivity]].
Qed.
Print Assumptions duration_overflow_refuted.

(** Config values of type Duration. *)
Theorem duration_processor_exact : forall lim s,
  (accepts (duration_processor lim) s = true <-> exists d, parse_duration lim s = Some d) /\
  (forall d, parse_duration lim s = Some d -> p_convert (duration_processor lim) s = d) /\
  (parse_duration lim s = None -> p_convert (duration_processor lim) s = 0).
Proof.
  intros lim s. unfold accepts, duration_processor, parser_processor. cbn [p_validate p_convert fst].
  destruct (parse_duration lim s) as [v|]; cbn [fst]; (split; [split|split]); try congruence.
  - intros _. now exists v.
  - intros [d H]. discriminate.
Qed.
Print Assumptions duration_processor_exact.

Example duration_value_case : exists ps, duration_text "-1h2.5m.25s" true ps /\ Forall whole_ns ps /\ no_wrap go1_18 ps /\ fits_int64 ps /\
  (total ps == inject_Z 3750250000000)%Q /\ parse_duration go1_18 "-1h2.5m.25s" = Some (-3750250000000).
Proof.
  exists [mkPart "1" None "h" (3600 * 10 ^ 9); mkPart "2" (Some "5") "m" (60 * 10 ^ 9); mkPart "" (Some "25") "s" (10 ^ 9)].
  split; [|split].
  - split; [discriminate|]. split; [|exists "-"; split; [now left|reflexivity]].
    constructor; [|constructor; [|constructor; [|constructor]]]; (split; [cbn; tauto|]; split; [cbn; tauto|]; split; [|cbn; tauto]); [left|left|right]; discriminate.
  - constructor; [apply Z.divide_1_l|constructor; [exists (6 * 10 ^ 9); reflexivity|constructor; [exists (10 ^ 7); reflexivity|constructor]]].
  - split; [right; vm_compute; discriminate|]. split; [left; vm_compute; discriminate|]. split; [reflexivity|vm_compute; reflexivity].
Qed.
Example duration_exceeds_case : exists ps, duration_text "2562048h" false ps /\ no_wrap go1_17 ps /\ exceeds_int64 false ps /\ parse_duration go1_17 "2562048h" = None /\
  parse_duration go1_17 "3" = None /\ parse_duration go1_17 "" = None /\ parse_duration go1_17 "+0" = Some 0.
Proof.
  exists [mkPart "2562048" None "h" (3600 * 10 ^ 9)]. split; [|split; [now left|split; [left; vm_compute; discriminate|vm_compute; tauto]]].
  split; [discriminate|]. split; [|exists ""; split; [right; split; [now left|reflexivity]|reflexivity]].
  constructor; [|constructor]. split; [cbn; tauto|]. split; [exact I|]. split; [left; discriminate|cbn; tauto].
Qed.

(** * C82 *)

(** A printed duration says exactly the number of nanoseconds, in the largest unit below a second and in hours, minutes
    and seconds above, without needless digits. *)
Theorem duration_printed : forall d, exists ps,
  duration_text (show_duration d) (d <? 0) ps /\ (total ps == inject_Z (Z.abs d))%Q /\
  Forall whole_ns ps /\ Forall tidy ps /\ map unit_name ps = chosen_units (Z.abs d) /\ Forall below_60 (tl ps).
Proof. exact show_text. Qed.
Print Assumptions duration_printed.

(** It is read back, except the least int64 up to Go 1.17. *)
Theorem duration_round_trip : forall lim d, version lim -> - 2 ^ 63 <= d < 2 ^ 63 -> lim = go1_18 \/ d <> - 2 ^ 63 ->
  parse_duration lim (show_duration d) = Some d.
Proof.
  intros lim d V R N. apply (round_trip lim d V R). destruct V as [->| ->]; unfold go1_17, go1_18 in *; [|lia].
  destruct N as [N|N]; [discriminate N|lia].
Qed.
Print Assumptions duration_round_trip.

Theorem duration_round_trip_refuted : parse_duration go1_17 (show_duration (- 2 ^ 63)) = None.
Proof. vm_compute. reflexivity. Qed.
Print Assumptions duration_round_trip_refuted.

Theorem duration_text_injective : forall d d', - 2 ^ 63 <= d < 2 ^ 63 -> - 2 ^ 63 <= d' < 2 ^ 63 ->
  show_duration d = show_duration d' -> d = d'.
Proof.
  intros d d' R R' E. assert (A : Some d = Some d'); [|congruence].
  rewrite <- (duration_round_trip go1_18 d), <- (duration_round_trip go1_18 d') by (try assumption; now (left + right)). now rewrite E.
Qed.
Print Assumptions duration_text_injective.

Example duration_printed_case :
  show_duration 0 = "0s" /\ show_duration 1500 = ("1.5" ++ micro)%string /\ show_duration (-90000000000) = "-1m30s" /\
  show_duration 3600000000001 = "1h0m0.000000001s" /\ show_duration (2 ^ 63 - 1) = "2562047h47m16.854775807s".
Proof. vm_compute. repeat split. Qed.
