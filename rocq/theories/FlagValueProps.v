(** Theorems about the values of flags and environment variables (C83, C84, C85). *)
From Verif Require Import Common Bytes ProcsModel ProcsSpec ConfsModel ConfNamesModel ConfNamesSpec JsonModel JsonSpec JsonFloatModel JsonFloatSpec JsonFloatText JsonFloatProps DurationModel DurationSpec DurationProofs DurationProps
  ConfLoadModel ConfLoadSpec ConfLoadEnd ConfLoadProps FlagValueModel FlagValueSpec FlagValueProofs FlagFloatProofs.
From Coq Require Import QArith Qabs.
Local Open Scope string_scope.
Local Open Scope list_scope.
Local Open Scope Z_scope.

(** * Booleans and integers *)

(** Unsigned integers: the literals of the Go language that fit, and nothing else. *)
Theorem flag_uint_exact : forall s v, parse_uint s = Some v <-> integer_literal s v /\ v < 2 ^ 64.
Proof. exact uint_read. Qed.
Print Assumptions flag_uint_exact.

(** Integers: the same with a sign. *)
Theorem flag_int_exact : forall s v, parse_int s = Some v <-> signed_literal s v /\ - 2 ^ 63 <= v < 2 ^ 63.
Proof. exact int_read. Qed.
Print Assumptions flag_int_exact.

(** A text is the literal of at most one number. *)
Theorem flag_int_unique : forall s v w,
  (signed_literal s v -> signed_literal s w -> v = w) /\ (integer_literal s v -> integer_literal s w -> v = w).
Proof.
  intros s v w. split; [intros H K; now rewrite (signed_fun _ _ _ H K)|]. intros H K. now rewrite (literal_fun _ _ _ H K).
Qed.
Print Assumptions flag_int_unique.

Theorem flag_bool_exact : forall s b, parse_bool s = Some b <-> (In s true_texts /\ b = true) \/ (In s false_texts /\ b = false).
Proof. intros s b. rewrite bool_read. fold true_texts false_texts. tauto. Qed.
Print Assumptions flag_bool_exact.

(** Numbers as they are printed are read back. *)
Theorem flag_int_round_trip : forall z,
  (- 2 ^ 63 <= z < 2 ^ 63 -> parse_int (itoa z) = Some z) /\ (0 <= z < 2 ^ 64 -> parse_uint (itoa z) = Some z).
Proof.
  intros z. split; intros H; [apply int_read; split; [apply itoa_signed|exact H]|apply uint_read; split; [apply itoa_literal; lia|lia]].
Qed.
Print Assumptions flag_int_round_trip.

(** Zeros in front do matter: they make the number octal. *)
Theorem leading_zero_refuted :
  (exists s v w, parse_int s = Some v /\ parse_int ("0" ++ s)%string = Some w /\ v <> w) /\
  (exists s v, parse_int s = Some v /\ parse_int ("0" ++ s)%string = None).
Proof. split; [exists "10", 10, 8; split; [vm_compute; reflexivity|split; [vm_compute; reflexivity|discriminate]]|exists "8", 8; split; vm_compute; reflexivity]. Qed.
Print Assumptions leading_zero_refuted.

Example flag_int_case :
  signed_literal "-0x_7f" (-127) /\ integer_literal "0b1_01" 5 /\ integer_literal "0755" 493 /\
  map parse_int ["+12_000"; "-0x_7f"; "0b101"; "0O17"; "0_7"; "-9223372036854775808"] = [Some 12000; Some (-127); Some 5; Some 15; Some 7; Some (- 2 ^ 63)] /\
  map parse_int ["9223372036854775808"; "1__0"; "_1"; "1_"; "0x"; "1e3"; " 1"; ""; "-"; "08"] = repeat None 10 /\
  map parse_uint ["18446744073709551615"; "18446744073709551616"; "+1"; "-0"] = [Some (2 ^ 64 - 1); None; None; None].
Proof.
  split; [|split; [|split; [|vm_compute; repeat split; reflexivity]]].
  - apply (flag_int_exact "-0x_7f" (-127)). vm_compute. reflexivity.
  - apply (flag_uint_exact "0b1_01" 5). vm_compute. reflexivity.
  - apply (flag_uint_exact "0755" 493). vm_compute. reflexivity.
Qed.

(** * Floating-point numbers *)

(** The numbers of the Go language are read as the nearest float64, of two the one with even mantissa; they are
    refused if and only if they are out of range.  This holds for all texts of at most 2000 characters, and for all
    without an exponent or with one below 100000. *)
Theorem flag_float_rounding : forall s neg q v, float_text s neg q v -> tame s v ->
  (forall f, parse_float s = Some f <-> rounds_to (signed neg q) f /\ negative f = neg /\ ~ out_of_range (signed neg q)) /\
  (parse_float s = None <-> out_of_range (signed neg q)).
Proof. intros s neg q v H T. split; [intros f; exact (parse_text_some s neg q v f H T)|exact (parse_text_none s neg q v H T)]. Qed.
Print Assumptions flag_float_rounding.

(** It does not hold for all texts. *)
Theorem flag_float_rounding_refuted : exists s q v, float_text s false q v /\ (q == 1)%Q /\
  exists f, parse_float s = Some f /\ (value f == 0)%Q.
Proof.
  destruct long_read_at as (s & L & V & P). destruct (json_text _ _ _ _ L) as (E & v & T). exists s. eexists. exists v. split; [exact T|]. split; [exact V|].
  exists (Fin false 0 (-1074)). split; [now rewrite E|reflexivity].
Qed.
Print Assumptions flag_float_rounding_refuted.

(** inf, infinity and nan are read, too, and nothing else is. *)
Theorem flag_float_accepts : forall s,
  (forall f, special_text s f -> parse_float s = Some f) /\
  (forall f, parse_float s = Some f -> special_text s f \/ exists neg q v, float_text s neg q v).
Proof. intros s. split; [exact (parse_special s)|exact (parse_only s)]. Qed.
Print Assumptions flag_float_accepts.

(** A text has at most one sign, value and exponent. *)
Theorem flag_float_unique : forall s neg q v neg' q' v',
  float_text s neg q v -> float_text s neg' q' v' -> neg' = neg /\ q' = q /\ v' = v.
Proof. exact text_unique. Qed.
Print Assumptions flag_float_unique.

(** Numbers of JSON are read as by encoding/json. *)
Theorem flag_float_json : forall s, number s -> parse_float s = parse_float64 s.
Proof. intros s H. destruct (number_literal s H) as (neg & ds & k & L). apply (json_text s neg ds k L). Qed.
Print Assumptions flag_float_json.

(** All finite numbers can be given: as they are written in JSON. *)
Theorem flag_float_round_trip : forall f, finite f -> exists t, show_float64 f = Some t /\ parse_float t = Some f.
Proof. intros f F. destruct (float_round_trip f F) as (t & S & N & P). exists t. split; [exact S|]. now rewrite (flag_float_json t N). Qed.
Print Assumptions flag_float_round_trip.

(** The bits are those of IEEE 754. *)
Theorem flag_float_bits : forall s f, parse_float s = Some f -> is_float64 f /\ 0 <= float_bits f < 2 ^ 64 /\ float_of_bits (float_bits f) = f.
Proof. intros s f H. pose proof (parse_is_float s f H) as F. split; [exact F|]. destruct (bits_decode f F). split; assumption. Qed.
Print Assumptions flag_float_bits.

Lemma one_half : float_text "+0x_1.8p-1" false (inject_Z 24 * Qpower 2 (-1 - 4 * 1)) (-1).
Proof.
  exists "0x_1.8p-1". split; [|right; left; split; reflexivity].
  apply (float_hex "0x" "_" "1.8" 24 1 "p-1" (-1)); [now left|right; split; [reflexivity|discriminate]| |].
  - apply (mantissa_both 16 "1" "8" 1 24); [apply (grouped_one 16 "1" 1 0); split; [cbn; tauto|lia]|apply (grouped_one 16 "8" 8 1); split; [cbn; tauto|lia]].
  - apply (exponent_minus _ "p" "1" 1); [now left|]. apply (grouped_one 10 "1" 1 0); split; [cbn; tauto|lia].
Qed.
Example flag_float_case :
  (float_text "+0x_1.8p-1" false (inject_Z 24 * Qpower 2 (-1 - 4 * 1)) (-1) /\ tame "+0x_1.8p-1" (-1) /\
   (inject_Z 24 * Qpower 2 (-1 - 4 * 1) == 3 # 4)%Q) /\
  map (fun s => option_map float_bits (parse_float s)) ["+0x_1.8p-1"; "1_000.5"; ".5e1"; "5."; "-0"; "-Inf"; "iNfInItY"; "nan"] =
    map Some [4604930618986332160; 4652011706887700480; 4617315517961601024; 4617315517961601024; 2 ^ 63; 2 ^ 63 + 2047 * 2 ^ 52; 2047 * 2 ^ 52; 2047 * 2 ^ 52 + 2 ^ 51 + 1] /\
  map parse_float ["1e400"; "0x1p1024"; "1e"; "."; "0x1.8"; "1_.5"; "1__0"; "_1"; "1e1_"; "infin"; "+nan"; " 1"; ""] = repeat None 13 /\
  option_map float_bits (parse_float "0x1p-1075") = Some 0 /\ option_map float_bits (parse_float "0x1.8p-1075") = Some 1.
Proof.
  split; [split; [exact one_half|split; [left; reflexivity|reflexivity]]|]. vm_compute. repeat split; reflexivity.
Qed.

(** * Config fields *)

(** Every value that a flag or an environment variable gives to a field is one that its text stands for. *)
Theorem flag_value_meaning : forall lim k s x, version lim -> flag_value lim k s = Some x -> stands_for lim k s x.
Proof.
  intros lim k s x V. assert (D : forall (f : Z -> scalar) o, option_map f o = Some x -> exists v, o = Some v /\ x = f v).
  { intros f [v|] H; [injection H as <-; now exists v|discriminate]. }
  destruct k; cbn [flag_value stands_for].
  - destruct (parse_bool s) as [b|] eqn:E; [|discriminate]. apply flag_bool_exact in E. intros H. injection H as <-. destruct E as [[E ->]|[E ->]]; tauto.
  - destruct (parse_float s) as [f|] eqn:E; [|discriminate]. intros H. injection H as <-. destruct (flag_float_bits s f E) as (_ & B & U). exists (float_bits f). split; [reflexivity|]. split; [exact B|].
    rewrite U. destruct (parse_only s f E) as [S|(neg & q & v & T)]; [now left|]. right. exists neg, q, v. split; [exact T|]. intros Tm. apply (parse_text_some s neg q v f T Tm) in E. tauto.
  - intros H. apply D in H. destruct H as (v & H & ->). apply int_read in H. exists v. tauto.
  - intros H. apply D in H. destruct H as (v & H & ->). apply int_read in H. exists v. tauto.
  - intros H. now injection H as <-.
  - intros H. apply D in H. destruct H as (v & H & ->). apply uint_read in H. exists v. destruct H as [H L]. pose proof (literal_nonneg s v H). split; [reflexivity|]. split; [exact H|lia].
  - intros H. apply D in H. destruct H as (v & H & ->). apply uint_read in H. exists v. destruct H as [H L]. pose proof (literal_nonneg s v H). split; [reflexivity|]. split; [exact H|lia].
  - intros H. apply D in H. destruct H as (d & H & ->). exists d. split; [reflexivity|]. split; [exact (parsed_range lim s d V H)|].
    destruct (parse_duration_some lim s d H) as [Z0|(neg & ps & T)]; [now left|]. right. exists neg, ps. split; [exact T|]. intros W. exact (parsed_value lim s neg ps d V T W H).
Qed.
Print Assumptions flag_value_meaning.

(** Texts that are well-formed and in range are accepted. *)
Theorem flag_value_accepts : forall lim k s, version lim -> acceptable k s -> flag_value lim k s <> None.
Proof.
  intros lim k s V A. assert (D : forall (f : Z -> scalar) o v, o = Some v -> option_map f o <> None) by (intros f o v ->; discriminate).
  destruct k; cbn [flag_value acceptable] in *.
  - apply in_app_or in A. destruct A as [A|A]; [rewrite (proj2 (flag_bool_exact s true))|rewrite (proj2 (flag_bool_exact s false))]; try discriminate; tauto.
  - destruct A as [[f S]|(neg & q & v & T & Tm & O)]; [rewrite (parse_special s f S); discriminate|].
    rewrite <- (out_of_signed neg), <- (parse_text_none s neg q v T Tm) in O. destruct (parse_float s); [discriminate|congruence].
  - destruct A as [v A]. apply (D _ _ v), int_read. exact A.
  - destruct A as [v A]. apply (D _ _ v), int_read. exact A.
  - discriminate.
  - destruct A as [v A]. apply (D _ _ v), uint_read. exact A.
  - destruct A as [v A]. apply (D _ _ v), uint_read. exact A.
  - destruct (duration_fits lim s V) as [Z0 F]. destruct A as [A|(neg & ps & T & Ft)]; [rewrite (Z0 A); discriminate|].
    destruct (F neg ps T) as [F1 _]. destruct (F1 Ft) as [d E]. rewrite E. discriminate.
Qed.
Print Assumptions flag_value_accepts.

(** After Load each field that a flag, or else an environment variable, says something about holds a value that the
    text stands for. *)
Theorem load_field_values : forall fuel lim w E m l s yname, version lim -> w_parse w = flag_value lim ->
  mem_ok m -> allocated m l -> unshared E m l (TStruct s) ->
  names_ok E -> keys_ok (w_key w) -> NoDup (map fst (w_pre w)) ->
  forall m', load fuel w E m l (TStruct s) yname = Loaded m' ->
  exists asg doc,
    gives (known_flag w E s yname) (w_args w) asg /\ config_doc w yname asg = Some doc /\
    forall names p k named, visible E s names p k named ->
      no_null_on (w_key w) E (TStruct s) doc p ->
      exists lp, walk E m' l (TStruct s) p = Some (lp, TScalar k named) /\
        forall v, (last_given asg (flag_style (dotted names)) = Some v \/
                   (last_given asg (flag_style (dotted names)) = None /\ w_env w (env_style (dotted names)) = Some v)) ->
        exists x, cells m' lp = CVal x /\ stands_for lim k v x.
Proof.
  intros fuel lim w E m l s yname V P H1 H2 H3 H4 H5 H6 m' L.
  destruct (load_precedence fuel w E m l s yname H1 H2 H3 H4 H5 H6 m' L) as (asg & doc & G & C & F). exists asg, doc. split; [now apply G|]. split; [exact C|].
  intros names p k named Vs N. destruct (F names p k named Vs N) as (lp & W & X). exists lp. split; [exact W|]. unfold expected in X. rewrite P in X. intros v [A|[A B]].
  - rewrite A in X. destruct X as (x & X & Y). exists x. split; [exact Y|]. now apply flag_value_meaning.
  - rewrite A, B in X. destruct X as (x & X & Y). exists x. split; [exact Y|]. now apply flag_value_meaning.
Qed.
Print Assumptions load_field_values.

(** Load succeeds if all texts are well-formed and in range and nothing else is wrong; it fails if a text stands for
    nothing. *)
Theorem load_field_texts : forall fuel lim w E m l s yname, version lim -> w_parse w = flag_value lim ->
  mem_ok m -> allocated m l -> unshared E m l (TStruct s) ->
  names_ok E -> keys_ok (w_key w) -> NoDup (map fst (w_pre w)) ->
  load fuel w E m l (TStruct s) yname <> OutOfFuel ->
  (~ conflict w E s yname -> forall asg doc,
     gives (known_flag w E s yname) (w_args w) asg -> config_doc w yname asg = Some doc -> ConfLoadSpec.fits w E (TStruct s) doc ->
     (forall n b acc v, In (n, (b, acc)) (w_pre w) -> In (n, v) asg -> acc v = true) ->
     (forall names p k named v, visible E s names p k named ->
        In (flag_style (dotted names), v) asg \/ w_env w (env_style (dotted names)) = Some v -> acceptable k v) ->
     exists m', load fuel w E m l (TStruct s) yname = Loaded m') /\
  (forall names p k named v, visible E s names p k named -> (forall x, ~ stands_for lim k v x) ->
     (w_env w (env_style (dotted names)) = Some v \/
      forall asg, gives (known_flag w E s yname) (w_args w) asg -> In (flag_style (dotted names), v) asg) ->
     forall m', load fuel w E m l (TStruct s) yname <> Loaded m').
Proof.
  intros fuel lim w E m l s yname V P H1 H2 H3 H4 H5 H6 F. pose proof (load_succeeds fuel w E m l s yname H1 H2 H3 H4 H5 H6 F) as S. split.
  - intros NC asg doc G C Ft Pre A. apply S. split; [exact NC|]. exists asg, doc. repeat (split; [assumption|]). intros names p k named v Vs X. rewrite P.
    apply flag_value_accepts; [exact V|]. exact (A names p k named v Vs X).
  - intros names p k named v Vs No X m' L. destruct (proj1 S (ex_intro _ m' L)) as (_ & asg & doc & G & _ & _ & _ & A).
    assert (Q : w_parse w k v <> None) by (apply (A names p k named v Vs); destruct X as [X|X]; [now right|left; now apply X]).
    rewrite P in Q. destruct (flag_value lim k v) as [x|] eqn:Ex; [|congruence]. exact (No x (flag_value_meaning lim k v x V Ex)).
Qed.
Print Assumptions load_field_texts.

(** A program with the flags -port (default from the file), -ratio, -ttl and -debug. *)
Definition num_env (s : nat) : list field :=
  match s with
  | O => [mkField "Port" false true (TScalar KInt false); mkField "Ratio" false true (TScalar KFloat64 false);
          mkField "Ttl" false true (TScalar KDuration false); mkField "Debug" false true (TScalar KBool false);
          mkField "Mask" false true (TScalar KUint64 false)]
  | _ => []
  end.
Definition num_world (args : list string) (env : string -> option string) : world :=
  mkWorld (flag_value go1_18) env args [] (fun _ => None) (fun _ _ => None) (fun _ _ => None) (fun _ => None).
Definition num_environ (n : string) : option string :=
  if (n =? "RATIO")%string then Some "1e-1" else if (n =? "PORT")%string then Some "80" else None.
Definition num_values (args : list string) : option (list cell) :=
  match load 5 (num_world args num_environ) num_env (mkMem (fun _ => CZero) 1) (0%nat, []) (TStruct 0) "c" with
  | Loaded m' => Some (map (fun i => cells m' (0%nat, [i])) [0; 1; 2; 3; 4]%nat)
  | _ => None
  end.
Example load_numbers_case :
  num_values ["-port=0x1F90"; "-ttl"; "1m30s"; "-debug"; "-mask=0b1_0000"] =
    Some [CVal (SInt 8080); CVal (SFloat 4591870180066957722); CVal (SInt 90000000000); CVal (SBool true); CVal (SInt 16)] /\
  num_values [] = Some [CVal (SInt 80); CVal (SFloat 4591870180066957722); CZero; CZero; CZero] /\
  num_values ["-port=eighty"] = None /\ num_values ["-mask=-1"] = None /\ num_values ["-debug=yes"] = None /\ num_values ["-ttl=90"] = None.
Proof. vm_compute. repeat split; reflexivity. Qed.

(** The premises hold in the example. *)
Example load_numbers_premises :
  let m := mkMem (fun _ => CZero) 1 in
  version go1_18 /\ mem_ok m /\ allocated m (0%nat, []) /\ unshared num_env m (0%nat, []) (TStruct 0) /\ names_ok num_env /\
  keys_ok (fun _ _ => None) /\ acceptable KInt "0x1F90" /\ acceptable KFloat64 "+0x_1.8p-1" /\ (forall x, ~ stands_for go1_18 KUint64 "-1" x).
Proof.
  cbv zeta. split; [now right|]. split; [intros a b H; discriminate|]. split; [unfold allocated; cbn; lia|]. split; [apply ConfLoadEnd.unshared_plain; discriminate|]. split.
  { intros [|s] f Hf; cbn [num_env In] in Hf; repeat (destruct Hf as [<-|Hf]; [discriminate|]); destruct Hf. }
  split; [intros s n1 n2 i1 i2 r H; discriminate|]. split; [exists 8080; apply int_read; vm_compute; reflexivity|]. split.
  - right. exists false. eexists. exists (-1). split; [exact one_half|]. split; [left; reflexivity|]. unfold out_of_range. vm_compute. intros H. now apply H.
  - intros x (v & _ & L & R). assert (K : parse_uint "-1" = Some v) by (apply uint_read; split; [exact L|lia]). vm_compute in K. discriminate.
Qed.
