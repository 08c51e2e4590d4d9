(** Executable model of /repo/dto/m.go with the parts of encoding/json it uses: decoding into a
    map[string]interface{} and encoding of one.  [F] is the type of float64 values; [parse_float] is
    strconv.ParseFloat (with [None] for an error), [show_float] is the text json writes for a float64 (with
    [None] for NaN and the infinities). *)
From Verif Require Import Common Bytes ProcsModel ConfsModel PprofModel RsaModel.
Local Open Scope string_scope.
Local Open Scope list_scope.
Local Open Scope Z_scope.

(** * Values *)

(** The dynamic value of an interface{}.  A map is a list of its entries, in the order of some range over it.
    [GInt] is a value of any integer type, [GBytes] a []byte, [GOther] a value json does not support (a channel,
    a function or a complex number).  Structs, pointers, other maps and marshalers are not modelled. *)
Inductive gvalue (F : Type) : Type :=
| GNil | GNilSlice | GNilMap
| GBool (b : bool)
| GInt (z : Z)
| GFloat (f : F)
| GStr (s : string)
| GBytes (s : string)
| GSlice (l : list (gvalue F))
| GMap (l : list (string * gvalue F))
| GOther.
Arguments GNil {F}. Arguments GNilSlice {F}. Arguments GNilMap {F}. Arguments GBool {F} b. Arguments GInt {F} z.
Arguments GFloat {F} f. Arguments GStr {F} s. Arguments GBytes {F} s. Arguments GSlice {F} l.
Arguments GMap {F} l. Arguments GOther {F}.

(** [m[k] = v] *)
Definition put {A} (l : list (string * A)) (k : string) (v : A) : list (string * A) :=
  filter (fun p => negb (fst p =? k)%string) l ++ [(k, v)].

(** * unicode/utf8 *)

Definition between (lo hi : Z) (c : ascii) : bool := (lo <=? byte c) && (byte c <=? hi).

(** utf8.DecodeRuneInString: the rune at the start of [s] and what follows it; [None] for RuneError with
    size 1. *)
Definition rune_at (s : string) : option (Z * string) :=
  match s with
  | String.EmptyString => None
  | String.String a s1 =>
    let x := byte a in
    if x <? 128 then Some (x, s1)
    else match s1 with
    | String.EmptyString => None
    | String.String b s2 =>
      if between 194 223 a then
        if between 128 191 b then Some ((x mod 32) * 64 + byte b mod 64, s2) else None
      else match s2 with
      | String.EmptyString => None
      | String.String c s3 =>
        if between 224 239 a then
          if between (if x =? 224 then 160 else 128) (if x =? 237 then 159 else 191) b && between 128 191 c
          then Some ((x mod 16) * 4096 + (byte b mod 64) * 64 + byte c mod 64, s3) else None
        else match s3 with
        | String.EmptyString => None
        | String.String d s4 =>
          if between 240 244 a then
            if between (if x =? 240 then 144 else 128) (if x =? 244 then 143 else 191) b
               && between 128 191 c && between 128 191 d
            then Some ((x mod 8) * 262144 + (byte b mod 64) * 4096 + (byte c mod 64) * 64 + byte d mod 64, s4)
            else None
          else None
        end
      end
    end
  end.

Definition surrogate (r : Z) : bool := (55296 <=? r) && (r <? 57344).
Definition rune_error : Z := 65533.

(** utf8.EncodeRune *)
Definition encode_rune (r : Z) : string :=
  if (0 <=? r) && (r <? 128) then String.String (char_of r) ""
  else if (0 <=? r) && (r <? 2048) then
    String.String (char_of (192 + r / 64)) (String.String (char_of (128 + r mod 64)) "")
  else
    let r := if (r <? 0) || (1114111 <? r) || surrogate r then rune_error else r in
    if r <? 65536 then
      String.String (char_of (224 + r / 4096)) (String.String (char_of (128 + (r / 64) mod 64))
        (String.String (char_of (128 + r mod 64)) ""))
    else
      String.String (char_of (240 + r / 262144)) (String.String (char_of (128 + (r / 4096) mod 64))
        (String.String (char_of (128 + (r / 64) mod 64)) (String.String (char_of (128 + r mod 64)) ""))).

(** * encoding/json: scanning *)

Definition json_space (c : ascii) : bool :=
  (byte c =? 32) || (byte c =? 9) || (byte c =? 13) || (byte c =? 10).
Definition json_digit (c : ascii) : bool := between 48 57 c.

Fixpoint take_digits (s : string) : string * string :=
  match s with
  | String.String c s' => if json_digit c then let (d, r) := take_digits s' in (String.String c d, r) else ("", s)
  | String.EmptyString => ("", "")
  end.
(** The digits before the dot: state1 and state0 of the scanner. *)
Definition lex_int (s : string) : option (string * string) :=
  match s with
  | String.EmptyString => None
  | String.String c s' =>
    if byte c =? 48 then Some (String.String c "", s')
    else if json_digit c then let (d, r) := take_digits s' in Some (String.String c d, r)
    else None
  end.
(** stateDot, stateDot0 *)
Definition lex_frac (s : string) : option (string * string) :=
  match strip "." s with
  | Some s' =>
    match take_digits s' with
    | (String.EmptyString, _) => None
    | (d, r) => Some (String.String "." d, r)
    end
  | None => Some ("", s)
  end.
(** stateE, stateESign, stateE0 *)
Definition lex_sign (s : string) : string * string :=
  match strip "+" s with
  | Some s' => ("+", s')
  | None =>
    match strip "-" s with
    | Some s' => ("-", s')
    | None => ("", s)
    end
  end.
Definition lex_exp (s : string) : option (string * string) :=
  match s with
  | String.EmptyString => Some ("", s)
  | String.String c s' =>
    if Ascii.eqb c "e" || Ascii.eqb c "E" then
      let (sg, s'') := lex_sign s' in
      match take_digits s'' with
      | (String.EmptyString, _) => None
      | (d, r) => Some (String.String c (sg ++ d)%string, r)
      end
    else Some ("", s)
  end.
Definition lex_minus (s : string) : string * string :=
  match strip "-" s with
  | Some s' => ("-", s')
  | None => ("", s)
  end.
(** A number literal and what follows it. *)
Definition lex_number (s : string) : option (string * string) :=
  let (m, s) := lex_minus s in
  match lex_int s with
  | None => None
  | Some (i, s) =>
    match lex_frac s with
    | None => None
    | Some (f, s) =>
      match lex_exp s with
      | None => None
      | Some (e, s) => Some ((m ++ i ++ f ++ e)%string, s)
      end
    end
  end.

(** The characters after a backslash other than 'u': stateInStringEsc. *)
Definition escape_meaning (c : ascii) : option ascii :=
  if Ascii.eqb c """" then Some """"%char
  else if Ascii.eqb c "\" then Some "\"%char
  else if Ascii.eqb c "/" then Some "/"%char
  else if Ascii.eqb c "b" then Some (char_of 8)
  else if Ascii.eqb c "f" then Some (char_of 12)
  else if Ascii.eqb c "n" then Some (char_of 10)
  else if Ascii.eqb c "r" then Some (char_of 13)
  else if Ascii.eqb c "t" then Some (char_of 9)
  else None.
Definition is_hex (c : ascii) : bool := match hex_value c with Some _ => true | None => false end.

(** A string literal after its opening quote: what is between the quotes and what follows: stateInString,
    stateInStringEsc, stateInStringEscU, ... *)
Fixpoint lex_string (s : string) : option (string * string) :=
  match s with
  | String.EmptyString => None
  | String.String c s' =>
    if Ascii.eqb c """" then Some ("", s')
    else if Ascii.eqb c "\" then
      match s' with
      | String.EmptyString => None
      | String.String e s'' =>
        if Ascii.eqb e "u" then
          match s'' with
          | String.String h1 (String.String h2 (String.String h3 (String.String h4 s3))) =>
            if is_hex h1 && is_hex h2 && is_hex h3 && is_hex h4 then
              match lex_string s3 with
              | Some (b, r) => Some (String.String c (String.String e (String.String h1 (String.String h2
                                       (String.String h3 (String.String h4 b))))), r)
              | None => None
              end
            else None
          | _ => None
          end
        else match escape_meaning e with
             | None => None
             | Some _ =>
               match lex_string s'' with
               | Some (b, r) => Some (String.String c (String.String e b), r)
               | None => None
               end
             end
      end
    else if byte c <? 32 then None
    else match lex_string s' with
         | Some (b, r) => Some (String.String c b, r)
         | None => None
         end
  end.

(** * encoding/json: unquote *)

(** Four hexadecimal digits and what follows them. *)
Definition hex4 (s : string) : option (Z * string) :=
  match s with
  | String.String h1 (String.String h2 (String.String h3 (String.String h4 s'))) =>
    match hex_value h1, hex_value h2, hex_value h3, hex_value h4 with
    | Some a, Some b, Some c, Some d => Some (((a * 16 + b) * 16 + c) * 16 + d, s')
    | _, _, _, _ => None
    end
  | _ => None
  end.
(** getu4 *)
Definition getu4 (s : string) : option (Z * string) :=
  match strip "\u" s with
  | Some s' => hex4 s'
  | None => None
  end.
(** utf16.DecodeRune; [None] for the replacement character. *)
Definition decode_pair (r1 r2 : Z) : option Z :=
  if (55296 <=? r1) && (r1 <? 56320) && (56320 <=? r2) && (r2 <? 57344)
  then Some ((r1 - 55296) * 1024 + (r2 - 56320) + 65536) else None.

(** unquoteBytes on what is between the quotes of a scanned literal; [fuel] bounds the number of steps. *)
Fixpoint unquote_from (fuel : nat) (s : string) : string :=
  match fuel with
  | O => ""
  | S fuel =>
    match s with
    | String.EmptyString => ""
    | String.String c s' =>
      if Ascii.eqb c "\" then
        match getu4 s with
        | Some (r, t) =>
          if surrogate r then
            match getu4 t with
            | Some (r1, t1) =>
              match decode_pair r r1 with
              | Some rr => (encode_rune rr ++ unquote_from fuel t1)%string
              | None => (encode_rune rune_error ++ unquote_from fuel t)%string
              end
            | None => (encode_rune rune_error ++ unquote_from fuel t)%string
            end
          else (encode_rune r ++ unquote_from fuel t)%string
        | None =>
          match s' with
          | String.EmptyString => ""
          | String.String e s'' =>
            match escape_meaning e with
            | Some x => String.String x (unquote_from fuel s'')
            | None => ""
            end
          end
        end
      else if byte c <? 128 then String.String c (unquote_from fuel s')
      else match rune_at s with
           | Some (r, t) => (encode_rune r ++ unquote_from fuel t)%string
           | None => (encode_rune rune_error ++ unquote_from fuel s')%string
           end
    end
  end.
Definition unquote (s : string) : string := unquote_from (String.length s) s.

(** * encoding/json: decoding *)

(** A string literal after its opening quote: its content and what follows. *)
Definition parse_string (s : string) : option (string * string) :=
  match lex_string s with
  | Some (b, r) => Some (unquote b, r)
  | None => None
  end.

Section Decode.
Variable F : Type.
Variable parse_float : string -> option F.

(** valueInterface, arrayInterface, objectInterface and the scanner's stack: the value at the start of [s] and
    what follows it.  [depth] is how many more arrays and objects may be opened (maxNestingDepth of Go 1.15 and
    later); [fuel] bounds the number of calls.  An error anywhere (a syntax error, or a number out of range,
    which Go notes and reports at the end) makes Unmarshal fail. *)
Fixpoint parse_value (fuel : nat) (depth : Z) (s : string) : option (gvalue F * string) :=
  match fuel with
  | O => None
  | S fuel =>
    match s with
    | String.EmptyString => None
    | String.String c s' =>
      if Ascii.eqb c "n" then option_map (pair GNil) (strip "ull" s')
      else if Ascii.eqb c "t" then option_map (pair (GBool true)) (strip "rue" s')
      else if Ascii.eqb c "f" then option_map (pair (GBool false)) (strip "alse" s')
      else if Ascii.eqb c """" then
        match parse_string s' with Some (v, r) => Some (GStr v, r) | None => None end
      else if Ascii.eqb c "[" then
        if depth <=? 0 then None
        else match strip "]" (trim_front json_space s') with
             | Some r => Some (GSlice [], r)
             | None =>
               match parse_elements fuel (depth - 1) s' with
               | Some (l, r) => Some (GSlice l, r)
               | None => None
               end
             end
      else if Ascii.eqb c "{" then
        if depth <=? 0 then None
        else match strip "}" (trim_front json_space s') with
             | Some r => Some (GMap [], r)
             | None =>
               match parse_members fuel (depth - 1) [] s' with
               | Some (l, r) => Some (GMap l, r)
               | None => None
               end
             end
      else
        match lex_number s with
        | Some (n, r) => match parse_float n with Some f => Some (GFloat f, r) | None => None end
        | None => None
        end
    end
  end
with parse_elements (fuel : nat) (depth : Z) (s : string) : option (list (gvalue F) * string) :=
  match fuel with
  | O => None
  | S fuel =>
    match parse_value fuel depth (trim_front json_space s) with
    | None => None
    | Some (v, r) =>
      let r := trim_front json_space r in
      match strip "," r with
      | Some r' =>
        match parse_elements fuel depth r' with
        | Some (l, r'') => Some (v :: l, r'')
        | None => None
        end
      | None => option_map (pair [v]) (strip "]" r)
      end
    end
  end
with parse_members (fuel : nat) (depth : Z) (m : list (string * gvalue F)) (s : string)
    : option (list (string * gvalue F) * string) :=
  match fuel with
  | O => None
  | S fuel =>
    match strip """" (trim_front json_space s) with
    | None => None
    | Some s1 =>
      match parse_string s1 with
      | None => None
      | Some (k, s2) =>
        match strip ":" (trim_front json_space s2) with
        | None => None
        | Some s3 =>
          match parse_value fuel depth (trim_front json_space s3) with
          | None => None
          | Some (v, r) =>
            let m := put m k v in
            let r := trim_front json_space r in
            match strip "," r with
            | Some r' => parse_members fuel depth m r'
            | None => option_map (pair m) (strip "}" r)
            end
          end
        end
      end
    end
  end.

Definition max_depth : Z := 10000.

(** json.Unmarshal of a whole text: the value and nothing but white space after it. *)
Definition parse_text (s : string) : option (gvalue F) :=
  match parse_value (2 * String.length s) max_depth (trim_front json_space s) with
  | Some (v, r) => if (trim_front json_space r =? "")%string then Some v else None
  | None => None
  end.

(** dto/m.go:8-14 UnmarshalM; [None]: an error.  The text "null" sets the map to nil; other values than objects
    are an error (UnmarshalTypeError). *)
Definition unmarshal_m (s : string) : option (gvalue F) :=
  match parse_text s with
  | Some (GMap l) => Some (GMap l)
  | Some GNil => Some GNilMap
  | _ => None
  end.
End Decode.

(** * encoding/json: encoding *)

Definition hex_digits : string := "0123456789abcdef".
Definition hex_char (z : Z) : ascii :=
  match String.get (Z.to_nat z) hex_digits with Some c => c | None => "0"%char end.

(** htmlSafeSet *)
Definition html_safe (c : ascii) : bool :=
  (32 <=? byte c) && (byte c <? 128) && negb (Ascii.eqb c """") && negb (Ascii.eqb c "\")
  && negb (Ascii.eqb c "<") && negb (Ascii.eqb c ">") && negb (Ascii.eqb c "&").

(** An ASCII character in a string literal: encodeState.string with HTML escaping (json.Marshal). *)
Definition quote_ascii (c : ascii) : string :=
  if html_safe c then String.String c ""
  else if Ascii.eqb c "\" || Ascii.eqb c """" then String.String "\" (String.String c "")
  else if byte c =? 10 then "\n"
  else if byte c =? 13 then "\r"
  else if byte c =? 9 then "\t"
  else ("\u00" ++ String.String (hex_char (byte c / 16)) (String.String (hex_char (byte c mod 16)) ""))%string.

Fixpoint quote_from (fuel : nat) (s : string) : string :=
  match fuel with
  | O => ""
  | S fuel =>
    match s with
    | String.EmptyString => ""
    | String.String c s' =>
      if byte c <? 128 then (quote_ascii c ++ quote_from fuel s')%string
      else match rune_at s with
           | None => ("\ufffd" ++ quote_from fuel s')%string
           | Some (r, t) =>
             if (r =? 8232) || (r =? 8233)
             then ("\u202" ++ String.String (hex_char (r mod 16)) (quote_from fuel t))%string
             else (String.substring 0 (String.length s - String.length t) s ++ quote_from fuel t)%string
           end
    end
  end.
Definition quote (s : string) : string :=
  (String.String """" (quote_from (String.length s) s) ++ """")%string.

(** The keys of a map are sorted. *)
Fixpoint insert_key {A} (p : string * A) (l : list (string * A)) : list (string * A) :=
  match l with
  | [] => [p]
  | q :: l' => if String.leb (fst p) (fst q) then p :: l else q :: insert_key p l'
  end.
Definition sort_keys {A} (l : list (string * A)) : list (string * A) := fold_right insert_key [] l.

(** All of the results, or an error. *)
Fixpoint all_some {A} (l : list (option A)) : option (list A) :=
  match l with
  | [] => Some []
  | None :: _ => None
  | Some x :: l' => option_map (cons x) (all_some l')
  end.

Section Encode.
Variable F : Type.
Variable show_float : F -> option string.

(** encodeState.marshal; [None]: an error (an unsupported type or value). *)
Fixpoint marshal (v : gvalue F) : option string :=
  match v with
  | GNil | GNilSlice | GNilMap => Some "null"
  | GBool b => Some (if b then "true" else "false")
  | GInt z => Some (itoa z)
  | GFloat f => show_float f
  | GStr s => Some (quote s)
  | GBytes s => Some (String.String """" (encode_string s) ++ """")%string
  | GSlice l =>
    match all_some (map marshal l) with
    | Some ts => Some ("[" ++ String.concat "," ts ++ "]")%string
    | None => None
    end
  | GMap l =>
    match all_some (map (fun p => option_map (pair (fst p)) (marshal (snd p))) l) with
    | Some ts =>
      Some ("{" ++ String.concat "," (map (fun p => (quote (fst p) ++ ":" ++ snd p)%string) (sort_keys ts)) ++ "}")%string
    | None => None
    end
  | GOther => None
  end.

(** dto/m.go:16-18 MarshalM *)
Definition marshal_m (m : gvalue F) : option string := marshal m.
End Encode.
