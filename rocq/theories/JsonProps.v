(** Theorems about maps and their JSON texts (C75, C76, C77). *)
From Verif Require Import Common Bytes ProcsModel ProcsSpec ConfsModel ConfsSpec ConfsProofs PprofModel PprofSpec JsonModel JsonSpec JsonProofs JsonEncode.
From Coq Require Import Permutation.
Local Open Scope string_scope.
Local Open Scope list_scope.
Local Open Scope Z_scope.

(** * Reading *)

(** What UnmarshalM accepts: JSON texts of objects, with white space around them, nested at most 10000 deep; and
    the text null, which yields a nil map. *)
Theorem unmarshal_accepts : forall F parse_float s m, unmarshal_m F parse_float s = Some m <->
  exists a t b, s = (a ++ t ++ b)%string /\ blanks a /\ blanks b /\
    ((t = "null" /\ m = GNilMap) \/ exists l, m = GMap l /\ reads F parse_float 10000 t m).
Proof. exact unmarshal_m_spec. Qed.
Print Assumptions unmarshal_accepts.

(** Numbers are kept as their texts in the cases. *)
Definition as_text (s : string) : option string := Some s.

Example unmarshal_accepts_case :
  unmarshal_m string as_text " { ""a"" : [ 1.5e3 , ""\u00e9\ud83d\ude00\n"" ] , ""b"":null,""a"":true} "
    = Some (GMap [("b", GNil); ("a", GBool true)]) /\
  unmarshal_m string as_text "{""a"":[-0,""\uD83d\uDE00""]}"
    = Some (GMap [("a", GSlice [GFloat "-0"; GStr (of_bytes [240; 159; 152; 128])])]) /\
  unmarshal_m string as_text "{""a"":01}" = None /\ unmarshal_m string as_text "{""a"":1,}" = None /\
  unmarshal_m string as_text "{} x" = None /\ unmarshal_m string as_text "[1]" = None /\
  unmarshal_m string as_text "" = None.
Proof. vm_compute. repeat split; reflexivity. Qed.

(** A text has one meaning: at whatever depth it is read, it is read as the same value. *)
Theorem json_one_meaning : forall F parse_float d1 d2 s v1 v2,
  reads F parse_float d1 s v1 -> reads F parse_float d2 s v2 -> v1 = v2.
Proof. exact reads_fun. Qed.
Print Assumptions json_one_meaning.

Example json_one_meaning_case : reads string as_text 1 "{}" (GMap []) /\ reads string as_text 2 "{}" (GMap []).
Proof. split; apply (reads_empty_object _ _ _ ""); [lia|exact I|lia|exact I]. Qed.

(** "No error means a map that can be used" does not hold: the text null gives a nil map without an error. *)
Theorem unmarshal_usable_refuted : ~ (forall F parse_float s m, unmarshal_m F parse_float s = Some m -> exists l, m = GMap l).
Proof. intros H. destruct (H string as_text "null" GNilMap eq_refl) as (l & E). discriminate E. Qed.
Print Assumptions unmarshal_usable_refuted.

(** * Writing *)

(** What MarshalM writes is a JSON text of the map. *)
Theorem marshal_reads_back : forall F parse_float show_float v, encodable F parse_float show_float v ->
  exists t v', marshal F show_float v = Some t /\ comes_back F parse_float v v' /\ reads F parse_float (depth F v) t v'.
Proof. exact marshal_reads. Qed.
Print Assumptions marshal_reads_back.

(** It fails only for values that have no JSON text. *)
Theorem marshal_errors : forall F show_float m, marshal_m F show_float m = None <-> unsupported show_float m.
Proof. exact marshal_none. Qed.
Print Assumptions marshal_errors.

Definition demo_map : gvalue string :=
  GMap [("z", GInt (-12)); ("a<b", GSlice [GStr "&"; GNil; GBool true; GFloat "1e+21"]);
        ("m", GMap [("k", GBytes "abc"); ("", GNilSlice)])].
Example marshal_case : marshal_m string as_text demo_map =
  Some "{""a\u003cb"":[""\u0026"",null,true,1e+21],""m"":{"""":null,""k"":""YWJj""},""z"":-12}" /\
  marshal_m string as_text (GMap [("a", GSlice [GOther])]) = None.
Proof. split; vm_compute; reflexivity. Qed.

(** Maps with the same content have the same text. *)
Theorem marshal_deterministic : forall F show_float m m', proper m -> same m m' ->
  marshal_m F show_float m = marshal_m F show_float m'.
Proof. intros F show_float m m' P S. exact (marshal_same F show_float m m' P S). Qed.
Print Assumptions marshal_deterministic.

Example marshal_deterministic_case :
  @same string (GMap [("b", GInt 1); ("a", GInt 2)]) (GMap [("a", GInt 2); ("b", GInt 1)]) /\
  @proper string (GMap [("b", GInt 1); ("a", GInt 2)]) /\
  marshal_m string as_text (GMap [("b", GInt 1); ("a", GInt 2)]) = Some "{""a"":2,""b"":1}".
Proof.
  split; [|split; [|reflexivity]].
  - apply (same_map _ [("a", GInt 2); ("b", GInt 1)]); [apply perm_swap|]. repeat (constructor; [split; [reflexivity|constructor]|]). constructor.
  - apply proper_map.
    + constructor; [intros [E|[]]; discriminate|]. constructor; [intros []|constructor].
    + repeat (apply Forall_cons; [apply proper_leaf; discriminate|]). constructor.
Qed.

(** The text is UTF-8 and can be put into a web page: it has no control characters, no < > & and no U+2028 or
    U+2029, whatever the strings in the map hold. *)
Theorem marshal_page_safe : forall F show_float, (forall f t, show_float f = Some t -> number t) ->
  forall m t, marshal_m F show_float m = Some t -> page_safe t.
Proof. intros F show_float H m t. exact (marshal_safe F (fun _ => None) show_float H m t). Qed.
Print Assumptions marshal_page_safe.

Definition no_float (f : Empty_set) : option string := match f with end.
Example marshal_page_safe_case : (forall f t, no_float f = Some t -> number t) /\
  marshal_m Empty_set no_float (GMap [("k", GStr (String.append "</script>" (of_bytes [10; 1; 226; 128; 168; 255; 195; 169])))]) =
    Some ("{""k"":""\u003c/script\u003e\n\u0001\u2028\ufffd" ++ of_bytes [195; 169] ++ """}")%string.
Proof. split; [intros []|vm_compute; reflexivity]. Qed.

(** * There and back *)

(** A map of JSON values at most 10000 deep comes back with the same content. *)
Theorem map_round_trip : forall F parse_float show_float l,
  json_value F parse_float show_float (GMap l) -> depth F (GMap l) <= 10000 ->
  exists t m, marshal_m F show_float (GMap l) = Some t /\ unmarshal_m F parse_float t = Some m /\ same (GMap l) m.
Proof.
  intros F p sh l J D. destruct (round_trip F p sh l (json_encodable F p sh _ J)) as (t & m & H1 & H2 & H3).
  exists t, m. split; [exact H1|]. split; [|exact (json_back F p sh _ J m H2)]. rewrite H3.
  apply Z.leb_le in D. unfold max_depth. rewrite D. reflexivity.
Qed.
Print Assumptions map_round_trip.

Definition demo_json : list (string * gvalue string) :=
  [("z", GStr "x&y"); ("a", GSlice [GNil; GBool true; GFloat "-1"; GMap []])].
Example map_round_trip_case : json_value string as_text as_text (GMap demo_json) /\ depth string (GMap demo_json) = 3 /\
  unmarshal_m string as_text "{""a"":[null,true,-1,{}],""z"":""x\u0026y""}" = Some (GMap (rev demo_json)).
Proof.
  assert (U : forall s, (forall c, In c (letters s) -> byte c < 128) -> utf8_text s).
  { induction s as [|c s IH]; intros H; [constructor|]. change (utf8_text (String.append (String.String c "") s)).
    apply (utf8_more (byte c)); [apply utf8_char, H; left; reflexivity|]. apply IH. intros x Hx. apply H. right. exact Hx. }
  split; [|split; reflexivity]. constructor.
  - constructor; [intros [E|[]]; discriminate|]. constructor; [intros []|constructor].
  - constructor; [split|constructor; [split|constructor]].
    + apply U. intros c [<-|[]]; reflexivity.
    + constructor. apply U. intros c H; cbn in H; destruct H as [<-|[<-|[<-|[]]]]; reflexivity.
    + apply U. intros c [<-|[]]; reflexivity.
    + constructor. constructor; [constructor|]. constructor; [constructor|]. constructor; [|constructor; [|constructor]].
      * apply (json_float _ _ _ _ "-1"); [reflexivity| |reflexivity]. exact (itoa_number (-1)).
      * constructor; constructor.
Qed.

(** What other maps become: integers become float64, []byte becomes base64 text, nil slices and nil maps become
    nil, broken UTF-8 is replaced; deeper maps are written, but refused when read. *)
Theorem map_conversions : forall F parse_float show_float l, encodable F parse_float show_float (GMap l) ->
  exists t m, marshal_m F show_float (GMap l) = Some t /\ comes_back F parse_float (GMap l) m /\
    unmarshal_m F parse_float t = (if depth F (GMap l) <=? 10000 then Some m else None).
Proof. exact round_trip. Qed.
Print Assumptions map_conversions.

Example map_conversions_case :
  unmarshal_m string as_text "{""a\u003cb"":[""\u0026"",null,true,1e+21],""m"":{"""":null,""k"":""YWJj""},""z"":-12}" =
    Some (GMap [("a<b", GSlice [GStr "&"; GNil; GBool true; GFloat "1e+21"]);
                ("m", GMap [("", GNil); ("k", GStr "YWJj")]); ("z", GFloat "-12")]).
Proof. vm_compute. reflexivity. Qed.

(** A nil map comes back as a nil map. *)
Theorem nil_map_round_trip : forall F parse_float show_float,
  exists t, marshal_m F show_float GNilMap = Some t /\ unmarshal_m F parse_float t = Some GNilMap.
Proof. exact nil_round_trip. Qed.
Print Assumptions nil_map_round_trip.

(** "What can be written can be read" does not hold beyond 10000 levels. *)
Theorem deep_round_trip_refuted : ~ (forall F parse_float show_float l t, json_value F parse_float show_float (GMap l) ->
  marshal_m F show_float (GMap l) = Some t -> exists m, unmarshal_m F parse_float t = Some m).
Proof.
  intros H.
  assert (W : forall n, exists l, json_value string as_text as_text (GMap l) /\ depth string (GMap l) = 1 + Z.of_nat n).
  { induction n as [|n (l & J & D)].
    - exists []. split; [constructor; constructor|reflexivity].
    - exists [("a", GMap l)]. split.
      + constructor; [constructor; [intros []|constructor]|]. constructor; [|constructor]. split; [|exact J].
        apply (utf8_more 97 "a" ""); [apply (utf8_char "a"); reflexivity|constructor].
      + change (1 + Z.max (depth string (GMap l)) 0 = 1 + Z.of_nat (S n)). rewrite D. lia. }
  destruct (W (Z.to_nat 10000)) as (l & J & D). clear W. rewrite Z2Nat.id in D by discriminate.
  destruct (map_conversions string as_text as_text l (json_encodable _ _ _ _ J)) as (t & m & M & _ & U).
  destruct (H string as_text as_text l t J M) as (m' & E). rewrite U in E.
  rewrite D in E. discriminate E.
Qed.
Print Assumptions deep_round_trip_refuted.

(** "Two names stay two names" does not hold for names that are not UTF-8: both become U+FFFD, one entry is lost. *)
Theorem keys_stay_apart_refuted : exists k1 k2 t, k1 <> k2 /\
  marshal_m string as_text (GMap [(k1, GBool true); (k2, GBool false)]) = Some t /\
  unmarshal_m string as_text t = Some (GMap [(of_bytes [239; 191; 189], GBool false)]).
Proof.
  exists (of_bytes [254]), (of_bytes [255]), "{""\ufffd"":true,""\ufffd"":false}".
  split; [discriminate|]. split; vm_compute; reflexivity.
Qed.
Print Assumptions keys_stay_apart_refuted.
