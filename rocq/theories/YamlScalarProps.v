(** Theorems about the scalars of config files (C127). *)
From Verif Require Import Common Bytes ProcsModel ProcsSpec ConfsModel ConfNamesModel ConfNamesSpec JsonModel JsonSpec JsonFloatModel JsonFloatSpec JsonFloatProofs DurationModel DurationSpec DurationProofs DurationProps
  ConfLoadModel ConfLoadSpec ConfLoadEnd ConfLoadProps FlagValueModel FlagValueSpec FlagValueProofs FlagFloatProofs FlagValueProps YamlScalarModel YamlScalarSpec YamlScalarProofs.
From Coq Require Import QArith Qabs.
Local Open Scope string_scope.
Local Open Scope list_scope.
Local Open Scope Z_scope.

(** Every value that the file gives to a field is one that the text allows. *)
Theorem yaml_scalar_meaning : forall lim quoted k s x, version lim -> decode lim quoted k s = Put x -> file_sets lim quoted k s x.
Proof. exact decode_sets. Qed.
Print Assumptions yaml_scalar_meaning.

(** Fields keep their value for null, which must not be in quotes, and for nothing else; quoted texts are no nulls. *)
Theorem yaml_null : forall lim quoted k s, decode lim quoted k s = Keep <-> quoted = false /\ In s nulls.
Proof.
  intros lim quoted k s. destruct quoted.
  - split; [|intros [H _]; discriminate]. unfold decode. destruct k; try discriminate; [|destruct (parse_duration lim s); discriminate].
    destruct (existsb _ _); [discriminate|]. destruct (existsb _ _); discriminate.
  - split.
    + intros H. split; [reflexivity|]. apply resolve_null. unfold decode in H. destruct (resolve s) as [|b|z|f|]; [reflexivity| | | |];
        destruct k; try discriminate; repeat match type of H with context [if ?c then _ else _] => destruct c; try discriminate end.
      destruct (parse_duration lim s); discriminate.
    + intros [_ H]. apply resolve_null in H. unfold decode. now rewrite H.
Qed.
Print Assumptions yaml_null.

(** Text fields get the text as it is. *)
Theorem yaml_string : forall lim quoted s, decode lim quoted KString s = if negb quoted && existsb (String.eqb s) nulls then Keep else Put (SStr s).
Proof.
  intros lim quoted s. destruct (negb quoted && existsb (String.eqb s) nulls) eqn:E.
  - apply yaml_null. apply andb_true_iff in E. destruct E as [E1 E2]. split; [now destruct quoted|now apply existsb_in].
  - destruct (decode lim quoted KString s) as [|x|] eqn:D.
    + apply yaml_null in D. destruct D as [-> D]. apply existsb_in in D. rewrite D in E. discriminate.
    + unfold decode in D. destruct (if quoted then RText else resolve s); congruence.
    + unfold decode in D. destruct (if quoted then RText else resolve s); congruence.
Qed.
Print Assumptions yaml_string.

(** Boolean fields: exactly these words. *)
Theorem yaml_bool : forall lim quoted s b, decode lim quoted KBool s = Put (SBool b) <->
  (quoted = false /\ In s (if b then file_true else file_false)) \/ In s (if b then old_true else old_false).
Proof.
  intros lim quoted s b. split.
  - unfold decode. destruct (if quoted then RText else resolve s) as [|b'|z|f|] eqn:R; try discriminate.
    + intros H. injection H as ->. left. destruct quoted; [discriminate|]. split; [reflexivity|]. now apply resolve_bool in R.
    + destruct (existsb (String.eqb s) true_words) eqn:E1; [apply existsb_in in E1; intros H; injection H as <-; now right|].
      destruct (existsb (String.eqb s) false_words) eqn:E2; [apply existsb_in in E2; intros H; injection H as <-; now right|discriminate].
  - intros [[-> H]|H].
    + unfold decode. rewrite (proj2 (resolve_bool s b)); [reflexivity|exact H].
    + destruct b, quoted; cbn [old_true old_false In] in H; repeat (destruct H as [<-|H]; [vm_compute; reflexivity|]); destruct H.
Qed.
Print Assumptions yaml_bool.

(** Integer fields take all integer literals of the Go language that fit, with any underscores. *)
Theorem yaml_int : forall lim s v, whole_number s v -> - 2 ^ 63 <= v < 2 ^ 63 ->
  decode lim false KInt s = Put (SInt v) /\ decode lim false KInt64 s = Put (SInt v).
Proof. intros lim s v W R. unfold decode. rewrite (whole_read s v W R). rewrite (proj2 (Z.ltb_lt v (2 ^ 63))) by lia. split; reflexivity. Qed.
Print Assumptions yaml_int.

Theorem yaml_uint : forall lim s v, whole_number s v -> 0 <= v -> v < 2 ^ 63 \/ (integer_literal (strip s) v /\ v < 2 ^ 64) ->
  decode lim false KUint s = Put (SInt v) /\ decode lim false KUint64 s = Put (SInt v).
Proof.
  intros lim s v W P R. assert (E : resolve s = RInt v) by (destruct R as [R|[L R]]; [apply whole_read; [exact W|lia]|apply literal_read; [apply W|exact L|exact R]]).
  unfold decode. rewrite E. rewrite (proj2 (Z.leb_le 0 v)) by lia. split; reflexivity.
Qed.
Print Assumptions yaml_uint.

(** Floating-point fields: integer literals mean what they mean for integers, other decimal numbers are rounded to the
    nearest. *)
Theorem yaml_float : forall lim s,
  (forall v, whole_number s v -> - 2 ^ 63 <= v < 2 ^ 63 -> exists b, decode lim false KFloat64 s = Put (SFloat b) /\ rounds_to (inject_Z v) (float_of_bits b)) /\
  (forall neg q, plain_decimal s neg q ->
     exists b, decode lim false KFloat64 s = Put (SFloat b) /\ rounds_to (signed neg q) (float_of_bits b) /\ negative (float_of_bits b) = neg) /\
  (forall f, In (s, f) special_words -> decode lim false KFloat64 s = Put (SFloat (float_bits f)) /\ float_of_bits (float_bits f) = f).
Proof.
  intros lim s. split; [|split].
  - intros v W R. unfold decode. rewrite (whole_read s v W R). destruct (float_int v ltac:(lia)) as [Rd _]. destruct (bits_decode (float_of_int v)) as [D _]; [left; apply Rd|].
    eexists. split; [reflexivity|]. now rewrite D.
  - intros neg q (v & T & Tm & R & N1 & N2 & N3 & Ni). destruct (real_read s neg q v T Tm R N1 N2 N3 Ni) as (f & E & Rd & Ng). unfold decode. rewrite E.
    destruct (bits_decode f) as [D _]; [left; apply Rd|]. eexists. split; [reflexivity|]. now rewrite D.
  - intros f H. unfold special_words in H. cbn [In] in H. repeat (destruct H as [H|H]; [injection H as <- <-; split; vm_compute; reflexivity|]). destruct H.
Qed.
Print Assumptions yaml_float.

(** Numbers with a fraction in integer fields: the fraction is cut off; numbers that are too large are refused. *)
Theorem yaml_fraction : forall lim s neg q, plain_decimal s neg q -> exists f, rounds_to (signed neg q) f /\ negative f = neg /\
  (forall k, k = KInt \/ k = KInt64 ->
     (at_most f (2 ^ 63) -> exists z, decode lim false k s = Put (SInt z) /\ cut_to_int f z) /\ (~ at_most f (2 ^ 63) -> decode lim false k s = Fail)) /\
  (forall k, k = KUint \/ k = KUint64 ->
     (at_most f (2 ^ 64) -> exists z, decode lim false k s = Put (SInt z) /\ cut_to_uint f z) /\ (~ at_most f (2 ^ 64) -> decode lim false k s = Fail)).
Proof.
  intros lim s neg q (v & T & Tm & R & N1 & N2 & N3 & Ni). destruct (real_read s neg q v T Tm R N1 N2 N3 Ni) as (f & E & Rd & Ng).
  assert (F : is_float64 f) by (left; apply Rd). exists f. split; [exact Rd|]. split; [exact Ng|].
  pose proof (float_le_spec f 63 ltac:(lia) F) as L63. pose proof (float_le_spec f 64 ltac:(lia) F) as L64.
  split; intros k [->| ->]; unfold decode; rewrite E; [destruct (float_le f 63)|destruct (float_le f 63)|destruct (float_le f 64)|destruct (float_le f 64)];
    (split; intros H; [first [eexists; split; [reflexivity|first [now apply cut_int|apply cut_uint]]|exfalso; intuition discriminate]|first [reflexivity|exfalso; tauto]]).
Qed.
Print Assumptions yaml_fraction.

(** Durations are read like those of flags, but 0 needs a unit or quotes. *)
Theorem yaml_duration : forall lim quoted s d, decode lim quoted KDuration s = Put (SInt d) <->
  parse_duration lim s = Some d /\ (quoted = true \/ ~ zero_text s).
Proof.
  intros lim quoted s d. unfold decode. destruct quoted.
  - destruct (parse_duration lim s) as [d'|]; split; intros H; [injection H as ->; tauto|destruct H as [H _]; congruence|discriminate|destruct H as [H _]; discriminate].
  - split.
    + destruct (resolve s) as [|b|z|f|] eqn:R; try discriminate. destruct (parse_duration lim s) as [d'|]; [|discriminate]. intros H. injection H as ->.
      split; [reflexivity|]. right. intros Zt. apply zero_read in Zt. congruence.
    + intros [P [H|H]]; [discriminate|]. destruct (parse_duration_some lim s d P) as [[Zt _]|(neg & ps & T)]; [contradiction|].
      rewrite (duration_resolve s neg ps T), P. reflexivity.
Qed.
Print Assumptions yaml_duration.

(** What flags and environment variables take for integers, the file takes without quotes, with the same value; the same
    for texts that are no nulls, and for durations other than 0. *)
Theorem yaml_like_flags : forall lim k s x, version lim -> flag_value lim k s = Some x ->
  (In k [KInt; KInt64; KUint; KUint64] -> decode lim false k s = Put x) /\
  (k = KString -> ~ In s nulls -> decode lim false k s = Put x) /\
  (k = KDuration -> ~ zero_text s -> decode lim false k s = Put x) /\
  (k = KBool -> ~ In s ["1"; "t"; "T"; "0"; "f"; "F"] -> decode lim false k s = Put x).
Proof.
  intros lim k s x V H. pose proof (flag_value_meaning lim k s x V H) as M. split; [|split; [|split]].
  - intros K. cbn [In] in K. destruct K as [<-|[<-|[<-|[<-|[]]]]]; cbn [stands_for] in M; destruct M as (v & -> & L & R).
    1, 2: apply signed_whole in L; now apply yaml_int.
    1, 2: assert (W : whole_number s v) by (apply signed_whole; exists s, v; tauto); apply strip_literal in L; apply yaml_uint; [exact W|lia|right; split; [exact L|lia]].
  - intros -> N. cbn [stands_for] in M. subst x. rewrite yaml_string. cbn [negb andb]. now rewrite (proj2 (existsb_not s nulls) N).
  - intros -> N. cbn [flag_value] in H. destruct (parse_duration lim s) as [d|] eqn:P; [|discriminate]. injection H as <-. apply yaml_duration. tauto.
  - intros -> N. cbn [stands_for true_texts false_texts In] in M, N.
    destruct M as [[M ->]|[M ->]]; repeat (destruct M as [<-|M]; [first [exfalso; apply N; tauto|vm_compute; reflexivity]|]); destruct M.
Qed.
Print Assumptions yaml_like_flags.

(** A field that neither flags nor environment variables say anything about holds what the file's text for it allows;
    [quoted] says which texts of the file are in quotes. *)
Definition file_scalar (lim : Z) (quoted : string -> bool) (k : kind) (s : string) : option scalar :=
  match decode lim (quoted s) k s with Put x => Some x | _ => None end.
Theorem yaml_load_values : forall fuel lim quoted w E m l s yname, version lim -> w_yscalar w = file_scalar lim quoted ->
  mem_ok m -> allocated m l -> unshared E m l (TStruct s) ->
  names_ok E -> keys_ok (w_key w) -> NoDup (map fst (w_pre w)) ->
  forall m', load fuel w E m l (TStruct s) yname = Loaded m' ->
  exists asg doc,
    gives (known_flag w E s yname) (w_args w) asg /\ config_doc w yname asg = Some doc /\
    forall names p k named, visible E s names p k named ->
      no_null_on (w_key w) E (TStruct s) doc p ->
      last_given asg (flag_style (dotted names)) = None -> w_env w (env_style (dotted names)) = None ->
      exists lp, walk E m' l (TStruct s) p = Some (lp, TScalar k named) /\
        forall v, says (w_key w) E (TStruct s) doc p (Said v) -> exists x, cells m' lp = CVal x /\ file_sets lim (quoted v) k v x.
Proof.
  intros fuel lim quoted w E m l s yname V P H1 H2 H3 H4 H5 H6 m' L.
  destruct (load_precedence fuel w E m l s yname H1 H2 H3 H4 H5 H6 m' L) as (asg & doc & G & C & F). exists asg, doc. split; [now apply G|]. split; [exact C|].
  intros names p k named Vs N Fl En. destruct (F names p k named Vs N) as (lp & W & X). exists lp. split; [exact W|]. unfold expected in X. rewrite Fl, En, P in X. destruct X as [X _].
  intros v Sd. destruct (X v Sd) as (x & Y & Z1). exists x. split; [exact Z1|]. unfold file_scalar in Y. destruct (decode lim (quoted v) k v) as [|x'|] eqn:D; try discriminate. injection Y as ->.
  now apply yaml_scalar_meaning.
Qed.
Print Assumptions yaml_load_values.

(** Files and flags do not agree on all texts, and integer fields take texts that are no integers. *)
Theorem yaml_agrees_refuted :
  (decode go1_18 false KInt "80.9" = Put (SInt 80) /\ flag_value go1_18 KInt "80.9" = None) /\
  (decode go1_18 false KInt "-1e30" = Put (SInt (- 2 ^ 63)) /\ decode go1_18 false KInt "-.inf" = Put (SInt (- 2 ^ 63))) /\
  decode go1_18 false KInt "+9223372036854775808" = Put (SInt (- 2 ^ 63)) /\
  (decode go1_18 false KUint "-1.5" = Put (SInt (2 ^ 64 - 1)) /\ decode go1_18 false KUint "18446744073709551616" = Put (SInt 0)) /\
  (exists a b, decode go1_18 false KFloat64 "010" = Put (SFloat a) /\ flag_value go1_18 KFloat64 "010" = Some (SFloat b) /\
     (value (float_of_bits a) == 8)%Q /\ (value (float_of_bits b) == 10)%Q) /\
  decode go1_18 false KInt "0b-101" = Put (SInt (-5)) /\
  (decode go1_18 false KDuration "0" = Fail /\ flag_value go1_18 KDuration "0" = Some (SInt 0)) /\
  (decode go1_18 false KBool "1" = Fail /\ flag_value go1_18 KBool "1" = Some (SBool true)) /\
  (decode go1_18 true KInt "80" = Fail /\ flag_value go1_18 KInt "80" = Some (SInt 80)).
Proof.
  split; [vm_compute; split; reflexivity|]. split; [vm_compute; split; reflexivity|]. split; [vm_compute; reflexivity|]. split; [vm_compute; split; reflexivity|].
  split; [|vm_compute; repeat split; reflexivity]. eexists. eexists. split; [vm_compute; reflexivity|]. split; [vm_compute; reflexivity|]. split; vm_compute; reflexivity.
Qed.
Print Assumptions yaml_agrees_refuted.

Example yaml_cases :
  map (decode go1_18 false KInt) ["8080"; "0x1F90"; "1_000"; "_1"; "1__0"; "-0b11"; "0o17"; "9223372036854775808"; "08"; "1e3"; "0x1p4"; "~"; "yes"] =
    [Put (SInt 8080); Put (SInt 8080); Put (SInt 1000); Fail; Put (SInt 10); Put (SInt (-3)); Put (SInt 15); Fail; Put (SInt 8); Put (SInt 1000); Fail; Keep; Fail] /\
  map (decode go1_18 false KUint64) ["18446744073709551615"; "18446744073709551616"; "-1"; "7.5"] = [Put (SInt (2 ^ 64 - 1)); Put (SInt 0); Fail; Put (SInt 7)] /\
  map (decode go1_18 false KString) ["1_000"; "null"; "yes"; "010"; "nil"] = [Put (SStr "1_000"); Keep; Put (SStr "yes"); Put (SStr "010"); Put (SStr "nil")] /\
  map (decode go1_18 false KDuration) ["90s"; "1m30s"; "90"; "0s"] = [Put (SInt 90000000000); Put (SInt 90000000000); Fail; Put (SInt 0)] /\
  decode go1_18 true KDuration "0" = Put (SInt 0) /\ decode go1_18 true KString "null" = Put (SStr "null") /\ decode go1_18 true KBool "true" = Fail /\ decode go1_18 true KBool "on" = Put (SBool true).
Proof. vm_compute. repeat split; reflexivity. Qed.

(** The premises hold in the examples. *)
Example yaml_premises :
  whole_number "1__0" 10 /\ plain_decimal "80.9" false (inject_Z 809 * Qpower 10 (0 - 1)) /\ ~ zero_text "90s" /\ parse_duration go1_18 "90s" = Some 90000000000 /\
  integer_literal (strip "18446744073709551615") 18446744073709551615.
Proof.
  split; [|split; [|split; [|split]]].
  - split; [exists "1"%char, "__0"; split; [reflexivity|left; cbn; tauto]|]. apply (int_read "10" 10). vm_compute. reflexivity.
  - exists 0. split.
    { exists "80.9". split; [|tauto]. apply (float_plain "80.9" 809 1). apply (mantissa_both 10 "80" "9" 80 809).
      - apply (grouped_next 10 "8" 8 "0" 0 80); [split; [cbn; tauto|lia]|]. apply (grouped_one 10 "0" 0 8). split; [cbn; tauto|lia].
      - apply (grouped_one 10 "9" 9 80). split; [cbn; tauto|lia]. }
    split; [left; reflexivity|]. split; [unfold out_of_range; vm_compute; intros H; now apply H|].
    split; [|split; [|split]]; try (intros H; unfold mentions in H; cbn [has_char] in H; intuition discriminate).
    intros n S R. destruct (Z.lt_ge_cases n (2 ^ 63)) as [L|L].
    + assert (P : parse_int "80.9" = Some n) by (apply int_read; split; [exact S|lia]). vm_compute in P. discriminate.
    + destruct S as (t & n' & Li & [[<- ->]|[[K _]|[K _]]]); [|discriminate|discriminate].
      assert (P : parse_uint "80.9" = Some n') by (apply uint_read; split; [exact Li|lia]). vm_compute in P. discriminate.
  - intros (sg & neg & S & K). destruct S as [[-> _]|[[->| ->] _]]; discriminate.
  - vm_compute. reflexivity.
  - apply uint_read. vm_compute. reflexivity.
Qed.

(** Load with a file. *)
Definition file_world (doc : ynode) : world :=
  mkWorld (flag_value go1_18) (fun _ => None) ["-c=app.yaml"] [] (fun n => if (n =? "app.yaml")%string then Some doc else None)
    (fun _ n => if (n =? "port")%string then Some [0%nat] else if (n =? "ratio")%string then Some [1%nat] else if (n =? "ttl")%string then Some [2%nat]
                else if (n =? "debug")%string then Some [3%nat] else if (n =? "mask")%string then Some [4%nat] else None)
    (file_scalar go1_18 (fun s => (s =? "0")%string)) (fun _ => None).
Definition file_values (kvs : list (string * ynode)) : option (list cell) :=
  match load 9 (file_world (YMap kvs)) num_env (mkMem (fun _ => CZero) 1) (0%nat, []) (TStruct 0) "c" with
  | Loaded m' => Some (map (fun i => cells m' (0%nat, [i])) [0; 1; 2; 3; 4]%nat)
  | _ => None
  end.
Example yaml_load_case :
  file_values [("port", YScalar "8_080"); ("ratio", YScalar "1e-1"); ("ttl", YScalar "90s"); ("debug", YScalar "on"); ("mask", YScalar "0x10")] =
    Some [CVal (SInt 8080); CVal (SFloat 4591870180066957722); CVal (SInt 90000000000); CVal (SBool true); CVal (SInt 16)] /\
  file_values [("ttl", YScalar "0")] = Some [CZero; CZero; CVal (SInt 0); CZero; CZero] /\
  file_values [("ttl", YScalar "90")] = None /\ file_values [("mask", YScalar "-1")] = None.
Proof. vm_compute. repeat split; reflexivity. Qed.
