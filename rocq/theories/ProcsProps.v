(** Property theorems for the value processors (C48-C50). *)
From Verif Require Import Common Bytes Threads StoreModel StoreSpec ProcsModel ProcsSpec ProcsProofs.
Local Open Scope string_scope.

(** C48.  IntProcessor accepts exactly the signed decimal numbers that fit in int64 and lie in the
    interval, and converts them to their value. *)
Theorem int_processor_accepts_exactly : forall min mi max ma s,
  (accepts (int_processor min mi max ma) s = true <->
   exists v, decimal s v /\ in64 v /\ in_range min mi max ma v) /\
  (forall v, decimal s v -> in64 v -> p_convert (int_processor min mi max ma) s = v).
Proof. exact int_processor_exact. Qed.
Print Assumptions int_processor_accepts_exactly.

(** The presets: Int is the int32 range, IntGtZero and IntGtEqZero its positive and non-negative part. *)
Theorem int_presets_accept_exactly : forall s,
  (accepts int_proc s = true <-> exists v, decimal s v /\ -2147483648 <= v <= 2147483647) /\
  (accepts int_gt_zero s = true <-> exists v, decimal s v /\ 0 < v <= 2147483647) /\
  (accepts int_gt_eq_zero s = true <-> exists v, decimal s v /\ 0 <= v <= 2147483647).
Proof. exact int_presets. Qed.
Print Assumptions int_presets_accept_exactly.

Example int_processor_case :
  decimal "-0017" (-17) /\ in64 (-17) /\ in_range (-17) true 5 false (-17) /\
  accepts (int_processor (-17) true 5 false) "-0017" = true /\
  accepts (int_processor (-17) false 5 false) "-0017" = false /\
  accepts int_proc "2147483648" = false /\ accepts int_proc "+2147483647" = true /\
  accepts int_gt_zero "0" = false /\ accepts int_gt_eq_zero "0" = true /\
  accepts (int_processor (- 2 ^ 63) true (2 ^ 63 - 1) true) "-9223372036854775808" = true /\
  accepts (int_processor (- 2 ^ 63) true (2 ^ 63 - 1) true) "9223372036854775808" = false /\
  accepts (int_processor (- 2 ^ 63) true (2 ^ 63 - 1) true) "99999999999999999999999" = false /\
  accepts int_proc "1_000" = false /\ accepts int_proc "0x10" = false /\ accepts int_proc " 1" = false /\
  accepts int_proc "" = false /\ accepts int_proc "-" = false.
Proof.
  split.
  { exists "0017". split; [discriminate|]. split; [cbn; unfold is_digit; cbn [In]; tauto|]. right. right. split; reflexivity. }
  split; [unfold in64; lia|]. split; [unfold in_range; lia|]. vm_compute. repeat split.
Qed.

(** C49.  String, bool and enum processors. *)
Theorem string_processor_accepts_exactly : forall a b s,
  (accepts (string_processor a b) s = true <-> a <= Z.of_nat (String.length s) <= b) /\
  p_convert (string_processor a b) s = s.
Proof. exact string_processor_exact. Qed.
Print Assumptions string_processor_accepts_exactly.

Theorem string_preset_accepts_exactly : forall s,
  (accepts string_proc s = true <-> Z.of_nat (String.length s) <= 2147483647) /\ p_convert string_proc s = s.
Proof. exact string_preset. Qed.
Print Assumptions string_preset_accepts_exactly.

Theorem bool_processor_accepts_exactly : forall s,
  (accepts bool_proc s = true <-> s = "true" \/ s = "false") /\
  p_convert bool_proc "true" = true /\ p_convert bool_proc "false" = false.
Proof. exact bool_processor_exact. Qed.
Print Assumptions bool_processor_accepts_exactly.

Theorem enum_processor_accepts_exactly : forall enums s,
  (accepts (enum_processor enums) s = true <-> In s enums) /\ p_convert (enum_processor enums) s = s.
Proof. exact enum_processor_exact. Qed.
Print Assumptions enum_processor_accepts_exactly.

Example simple_processors_case :
  accepts (string_processor 1 3) "" = false /\ accepts (string_processor 1 3) "abc" = true /\
  accepts (string_processor 1 3) "abcd" = false /\ accepts bool_proc "TRUE" = false /\
  accepts (enum_processor ["a"; "b"]) "b" = true /\ accepts (enum_processor ["a"; "b"]) "a,b" = false.
Proof. vm_compute. repeat split. Qed.

(** Processors around a parser accept exactly what the parser accepts (and, all but Duration, the
    empty string), and convert to what it returns. *)
Theorem parser_processor_exact : forall T (parse : string -> option T) msg blank zero s,
  (accepts (parser_processor parse msg blank zero) s = true <->
   (s = "" /\ blank <> None) \/ exists v, parse s = Some v) /\
  (forall v, (s <> "" \/ blank = None) -> parse s = Some v ->
     p_convert (parser_processor parse msg blank zero) s = v) /\
  (forall n, s = "" -> blank = Some n -> p_convert (parser_processor parse msg blank zero) s = n).
Proof. exact @parser_exact. Qed.
Print Assumptions parser_processor_exact.

(** C50.  CssColorHex accepts the empty string and exactly the strings that contain a colour... *)
Theorem css_accepts_exactly : forall s,
  accepts css_color_hex s = true <-> s = "" \/ exists a c b, s = a ++ c ++ b /\ colour c.
Proof. exact css_exact. Qed.
Print Assumptions css_accepts_exactly.

(** ...so not only colours. *)
Theorem css_accepts_only_colours_refuted :
  exists s, s <> "" /\ accepts css_color_hex s = true /\ ~ colour s.
Proof.
  exists "x#0a1B2c;}". split; [discriminate|]. split; [reflexivity|]. intros (d & H & _). discriminate.
Qed.
Print Assumptions css_accepts_only_colours_refuted.

Example css_case : colour "#0a1B2c" /\ accepts css_color_hex "#0a1B2" = false /\ accepts css_color_hex "#0a1B2cff" = true.
Proof.
  split; [|split; reflexivity]. exists "0a1B2c". split; [reflexivity|]. split; [reflexivity|].
  unfold all_chars, hex_digit. cbn [In]. tauto.
Qed.
