(** Specification of JSON texts (RFC 8259, UTF-8 as in RFC 3629) and of what becomes of a map in them. *)
From Verif Require Import Common Bytes ProcsModel ProcsSpec ConfsModel ConfsSpec PprofSpec JsonModel.
From Coq Require Import Permutation.
Local Open Scope string_scope.
Local Open Scope list_scope.
Local Open Scope Z_scope.

(** * Characters *)

Fixpoint of_bytes (l : list Z) : string :=
  match l with
  | [] => ""
  | b :: l' => String.String (char_of b) (of_bytes l')
  end.

(** [enc] is the UTF-8 encoding of the code point [r]. *)
Inductive utf8 : Z -> string -> Prop :=
| utf8_1 : forall x, 0 <= x < 128 -> utf8 x (of_bytes [x])
| utf8_2 : forall r x y, r = x * 64 + y -> 0 <= y < 64 -> 128 <= r < 2048 ->
    utf8 r (of_bytes [192 + x; 128 + y])
| utf8_3 : forall r x y z, r = (x * 64 + y) * 64 + z -> 0 <= y < 64 -> 0 <= z < 64 ->
    2048 <= r < 65536 -> ~ 55296 <= r < 57344 ->
    utf8 r (of_bytes [224 + x; 128 + y; 128 + z])
| utf8_4 : forall r w x y z, r = ((w * 64 + x) * 64 + y) * 64 + z -> 0 <= x < 64 -> 0 <= y < 64 -> 0 <= z < 64 ->
    65536 <= r < 1114112 ->
    utf8 r (of_bytes [240 + w; 128 + x; 128 + y; 128 + z]).

(** A text of such characters. *)
Inductive utf8_text : string -> Prop :=
| utf8_end : utf8_text ""
| utf8_more : forall r enc s, utf8 r enc -> utf8_text s -> utf8_text (enc ++ s).

(** No character starts here. *)
Definition broken (s : string) : Prop := forall r enc t, utf8 r enc -> s <> (enc ++ t)%string.
(** U+FFFD *)
Definition replacement : string := of_bytes [239; 191; 189].

(** [v] is [s] with U+FFFD for each byte that belongs to no character. *)
Inductive repaired : string -> string -> Prop :=
| repaired_end : repaired "" ""
| repaired_rune : forall r enc s v, utf8 r enc -> repaired s v -> repaired (enc ++ s) (enc ++ v)
| repaired_byte : forall c s v, broken (String.String c s) -> repaired s v ->
    repaired (String.String c s) (replacement ++ v).

(** * Strings *)

(** A hexadecimal digit and its value. *)
Definition hex_of (c : ascii) (z : Z) : Prop :=
  0 <= z < 16 /\
  (String.get (Z.to_nat z) "0123456789abcdef" = Some c \/ String.get (Z.to_nat z) "0123456789ABCDEF" = Some c).
(** Four of them. *)
Definition four_hex (s : string) (r : Z) : Prop :=
  exists a b c d w x y z, s = String.String a (String.String b (String.String c (String.String d ""))) /\
    hex_of a w /\ hex_of b x /\ hex_of c y /\ hex_of d z /\ r = w * 4096 + x * 256 + y * 16 + z.

(** What a backslash and a letter stand for. *)
Definition escapes : list (ascii * Z) :=
  [(""""%char, 34); ("\"%char, 92); ("/"%char, 47); ("b"%char, 8); ("f"%char, 12); ("n"%char, 10); ("r"%char, 13);
   ("t"%char, 9)].

Definition high (r : Z) : Prop := 55296 <= r < 56320.
Definition low (r : Z) : Prop := 56320 <= r < 57344.

(** [raw], between quotes, stands for the text [v]. *)
Inductive spells : string -> string -> Prop :=
| spells_end : spells "" ""
| spells_rune : forall r enc raw v, utf8 r enc -> 32 <= r -> r <> 34 -> r <> 92 -> spells raw v ->
    spells (enc ++ raw) (enc ++ v)
| spells_byte : forall c raw v, broken (String.String c raw) -> spells raw v ->
    spells (String.String c raw) (replacement ++ v)
| spells_escape : forall e x raw v, In (e, x) escapes -> spells raw v ->
    spells (String.String "\" (String.String e raw)) (String.String (char_of x) v)
| spells_code : forall h r enc raw v, four_hex h r -> utf8 r enc -> spells raw v ->
    spells ("\u" ++ h ++ raw) (enc ++ v)
| spells_pair : forall h1 r1 h2 r2 enc raw v, four_hex h1 r1 -> high r1 -> four_hex h2 r2 -> low r2 ->
    utf8 (65536 + (r1 - 55296) * 1024 + (r2 - 56320)) enc -> spells raw v ->
    spells ("\u" ++ h1 ++ "\u" ++ h2 ++ raw) (enc ++ v)
| spells_lone : forall h r raw v, four_hex h r -> high r \/ low r ->
    (forall h2 r2 t, high r -> four_hex h2 r2 -> low r2 -> raw <> ("\u" ++ h2 ++ t)%string) -> spells raw v ->
    spells ("\u" ++ h ++ raw) (replacement ++ v).

(** * Numbers *)

Definition digits (s : string) : Prop := s <> "" /\ all_chars is_digit s.
Definition whole_part (s : string) : Prop :=
  s = "0" \/ exists c d, is_digit c /\ c <> "0"%char /\ all_chars is_digit d /\ s = String.String c d.
Definition fraction_part (s : string) : Prop := s = "" \/ exists d, digits d /\ s = ("." ++ d)%string.
Definition exponent_part (s : string) : Prop :=
  s = "" \/ exists e sg d, In e ["e"; "E"] /\ In sg [""; "+"; "-"] /\ digits d /\ s = (e ++ sg ++ d)%string.
Definition number (s : string) : Prop :=
  exists m i f e, (m = "" \/ m = "-") /\ whole_part i /\ fraction_part f /\ exponent_part e /\
    s = (m ++ i ++ f ++ e)%string.

(** * Texts *)

Definition blank_char (c : ascii) : Prop := In c [" "%char; char_of 9; char_of 10; char_of 13].
Definition blanks (s : string) : Prop := all_chars blank_char s.

(** The members of an object: of those with one name, the last counts. *)
Fixpoint last_wins {A} (l : list (string * A)) : list (string * A) :=
  match l with
  | [] => []
  | (k, v) :: l' => if existsb (fun p => (fst p =? k)%string) l' then last_wins l' else (k, v) :: last_wins l'
  end.

Section Reads.
Variable F : Type.
Variable parse_float : string -> option F.

(** [s] is a JSON text for the value [v] with at most [d] arrays and objects nested in each other.  A number
    must be in the range of float64. *)
Inductive reads : Z -> string -> gvalue F -> Prop :=
| reads_null : forall d, reads d "null" GNil
| reads_true : forall d, reads d "true" (GBool true)
| reads_false : forall d, reads d "false" (GBool false)
| reads_number : forall d s f, number s -> parse_float s = Some f -> reads d s (GFloat f)
| reads_string : forall d raw v, spells raw v -> reads d ("""" ++ raw ++ """") (GStr v)
| reads_empty_array : forall d w, 0 < d -> blanks w -> reads d ("[" ++ w ++ "]") (GSlice [])
| reads_array : forall d s l, 0 < d -> elements (d - 1) s l -> reads d ("[" ++ s ++ "]") (GSlice l)
| reads_empty_object : forall d w, 0 < d -> blanks w -> reads d ("{" ++ w ++ "}") (GMap [])
| reads_object : forall d s l, 0 < d -> members (d - 1) s l -> reads d ("{" ++ s ++ "}") (GMap (last_wins l))
with elements : Z -> string -> list (gvalue F) -> Prop :=
| elements_one : forall d a s b v, blanks a -> blanks b -> reads d s v -> elements d (a ++ s ++ b) [v]
| elements_more : forall d a s b v s' l, blanks a -> blanks b -> reads d s v -> elements d s' l ->
    elements d (a ++ s ++ b ++ "," ++ s') (v :: l)
with members : Z -> string -> list (string * gvalue F) -> Prop :=
| members_one : forall d a raw b c s e k v, blanks a -> blanks b -> blanks c -> blanks e ->
    spells raw k -> reads d s v ->
    members d (a ++ """" ++ raw ++ """" ++ b ++ ":" ++ c ++ s ++ e) [(k, v)]
| members_more : forall d a raw b c s e k v s' l, blanks a -> blanks b -> blanks c -> blanks e ->
    spells raw k -> reads d s v -> members d s' l ->
    members d (a ++ """" ++ raw ++ """" ++ b ++ ":" ++ c ++ s ++ e ++ "," ++ s') ((k, v) :: l).

Variable show_float : F -> option string.

(** * Maps *)

(** How many maps and slices are nested in each other. *)
Fixpoint depth (v : gvalue F) : Z :=
  match v with
  | GSlice l => 1 + fold_right Z.max 0 (map depth l)
  | GMap l => 1 + fold_right Z.max 0 (map (fun p => depth (snd p)) l)
  | _ => 0
  end.

(** What json can encode: names are UTF-8 and distinct (as in every map), floats are finite and read back
    from their texts, integers are in the range of float64. *)
Inductive encodable : gvalue F -> Prop :=
| enc_nil : encodable GNil
| enc_nil_slice : encodable GNilSlice
| enc_nil_map : encodable GNilMap
| enc_bool : forall b, encodable (GBool b)
| enc_int : forall z f, parse_float (itoa z) = Some f -> encodable (GInt z)
| enc_float : forall f t, show_float f = Some t -> number t -> parse_float t = Some f -> encodable (GFloat f)
| enc_str : forall s, encodable (GStr s)
| enc_bytes : forall s, encodable (GBytes s)
| enc_slice : forall l, Forall encodable l -> encodable (GSlice l)
| enc_map : forall l, NoDup (map fst l) -> Forall (fun p => utf8_text (fst p) /\ encodable (snd p)) l ->
    encodable (GMap l).

(** What a value is after encoding and decoding: nothing but nil, bool, float64, string, []interface{} and
    map[string]interface{}. *)
Inductive comes_back : gvalue F -> gvalue F -> Prop :=
| back_nil : comes_back GNil GNil
| back_nil_slice : comes_back GNilSlice GNil
| back_nil_map : comes_back GNilMap GNil
| back_bool : forall b, comes_back (GBool b) (GBool b)
| back_int : forall z f, parse_float (itoa z) = Some f -> comes_back (GInt z) (GFloat f)
| back_float : forall f, comes_back (GFloat f) (GFloat f)
| back_str : forall s v, repaired s v -> comes_back (GStr s) (GStr v)
| back_bytes : forall s v, canonical v s -> comes_back (GBytes s) (GStr v)
| back_slice : forall l l', Forall2 comes_back l l' -> comes_back (GSlice l) (GSlice l')
| back_map : forall l p l', Permutation l p ->
    Forall2 (fun a b => fst a = fst b /\ comes_back (snd a) (snd b)) p l' -> comes_back (GMap l) (GMap l').

(** Values made of what decoding yields, with texts in UTF-8. *)
Inductive json_value : gvalue F -> Prop :=
| json_nil : json_value GNil
| json_bool : forall b, json_value (GBool b)
| json_float : forall f t, show_float f = Some t -> number t -> parse_float t = Some f -> json_value (GFloat f)
| json_str : forall s, utf8_text s -> json_value (GStr s)
| json_slice : forall l, Forall json_value l -> json_value (GSlice l)
| json_map : forall l, NoDup (map fst l) -> Forall (fun p => utf8_text (fst p) /\ json_value (snd p)) l ->
    json_value (GMap l).
End Reads.

(** Equal content: maps have no order. *)
Inductive same {F} : gvalue F -> gvalue F -> Prop :=
| same_refl : forall v, same v v
| same_slice : forall l l', Forall2 same l l' -> same (GSlice l) (GSlice l')
| same_map : forall l p l', Permutation l p ->
    Forall2 (fun a b => fst a = fst b /\ same (snd a) (snd b)) p l' -> same (GMap l) (GMap l').

(** The names in a map are distinct, as they are in every map. *)
Inductive proper {F} : gvalue F -> Prop :=
| proper_leaf : forall v, (forall l, v <> GSlice l) -> (forall l, v <> GMap l) -> proper v
| proper_slice : forall l, Forall proper l -> proper (GSlice l)
| proper_map : forall l, NoDup (map fst l) -> Forall (fun p => proper (snd p)) l -> proper (GMap l).

(** The code points of a UTF-8 text. *)
Inductive code_points : string -> list Z -> Prop :=
| points_end : code_points "" []
| points_more : forall r enc s l, utf8 r enc -> code_points s l -> code_points (enc ++ s) (r :: l).

(** UTF-8 that may be put into an HTML page or a script as it is: no control characters, no angle brackets,
    no ampersand, no U+2028 and no U+2029. *)
Definition page_safe (s : string) : Prop :=
  exists l, code_points s l /\ forall r, In r l -> 32 <= r /\ ~ In r [60; 62; 38; 8232; 8233].

(** A value json.Marshal refuses: it holds an unsupported value (such as a channel or a function) or a float
    that is not finite. *)
Inductive unsupported {F} (show_float : F -> option string) : gvalue F -> Prop :=
| unsupported_other : unsupported show_float GOther
| unsupported_float : forall f, show_float f = None -> unsupported show_float (GFloat f)
| unsupported_slice : forall l v, In v l -> unsupported show_float v -> unsupported show_float (GSlice l)
| unsupported_map : forall l k v, In (k, v) l -> unsupported show_float v -> unsupported show_float (GMap l).
