(** Executable model of what a scalar in a config file sets (/repo/conf/yaml.go:29-41 yamlFileResolver.Resolve): the
    functions resolve (resolve.go) and decoder.scalar (decode.go) of gopkg.in/yaml.v3 in the version of /repo/go.mod,
    whose source is not in the repo, for fields of the eight kinds that flags also have.
    Simplifications: no tags like !!str; timestamps count as texts (both go into strings only, no number, boolean or
    duration looks like one); int and uint have 64 bits; conversions of floating-point numbers that do not fit follow
    amd64. *)
From Verif Require Import Common Bytes ProcsModel JsonModel JsonFloatModel DurationModel ConfLoadModel FlagValueModel.
From Coq Require Import QArith.
Local Open Scope string_scope.
Local Open Scope list_scope.
Local Open Scope Z_scope.

(** * resolve.go *)

(** strings.Replace(in, "_", "", -1) *)
Fixpoint strip (s : string) : string :=
  match s with
  | String.EmptyString => ""
  | String.String c s' => if Ascii.eqb c "_" then strip s' else String.String c (strip s')
  end.

(** The regexp yamlStyleFloat: a sign or none; digits with a dot before, between, after them or none; an exponent or
    none. *)
Fixpoint skip_digits (some : bool) (s : string) : bool * string :=
  match s with
  | String.EmptyString => (some, s)
  | String.String c s' => if (48 <=? byte c) && (byte c <=? 57) then skip_digits true s' else (some, s)
  end.
Definition style_mantissa (s : string) : bool * string :=
  let '(d, r) := skip_digits false s in
  match r with
  | String.String c r' => if Ascii.eqb c "." then skip_digits d r' else (d, r)
  | String.EmptyString => (d, r)
  end.
Definition style_float (s : string) : bool :=
  let '(d, r) := style_mantissa (drop_sign s) in
  d && match r with
       | String.EmptyString => true
       | String.String c r' =>
         (Ascii.eqb c "e" || Ascii.eqb c "E") && let '(d, r) := skip_digits false (drop_sign r') in d && (r =? "")%string
       end.

(** strconv.ParseInt with base 2 or 8 and 64 bits, of texts without underscores. *)
Definition parse_based (base : Z) (s : string) : option Z :=
  let (neg, s) := int_sign s in
  if (s =? "")%string then None
  else match uint_loop base 0 false s with
       | None => None
       | Some (n, _) => if neg then if 2 ^ 63 <? n then None else Some (- n) else if 2 ^ 63 <=? n then None else Some n
       end.

(** What a text is taken for. *)
Inductive resolved := RNull | RBool (b : bool) | RInt (z : Z) | RFloat (f : float64) | RText.

Definition null_words : list string := [""; "~"; "null"; "Null"; "NULL"].
(** resolveMap, without "<<" *)
Definition word (s : string) : option resolved :=
  if existsb (String.eqb s) ["true"; "True"; "TRUE"] then Some (RBool true)
  else if existsb (String.eqb s) ["false"; "False"; "FALSE"] then Some (RBool false)
  else if existsb (String.eqb s) null_words then Some RNull
  else if existsb (String.eqb s) [".nan"; ".NaN"; ".NAN"] then Some (RFloat NaN)
  else if existsb (String.eqb s) [".inf"; ".Inf"; ".INF"; "+.inf"; "+.Inf"; "+.INF"] then Some (RFloat (Inf false))
  else if existsb (String.eqb s) ["-.inf"; "-.Inf"; "-.INF"] then Some (RFloat (Inf true))
  else None.

(** The case 'D', 'S'. *)
Definition resolve_number (s : string) : resolved :=
  let plain := strip s in
  match parse_int plain with
  | Some z => RInt z
  | None =>
    match parse_uint plain with
    | Some z => RInt z
    | None =>
      match (if style_float plain then parse_float plain else None) with
      | Some f => RFloat f
      | None =>
        match plain with
        | String.String a (String.String b rest) =>
          if Ascii.eqb a "0" && Ascii.eqb b "b" then match parse_based 2 rest with Some z => RInt z | None => RText end
          else if Ascii.eqb a "0" && Ascii.eqb b "o" then match parse_based 8 rest with Some z => RInt z | None => RText end
          else match rest with
               | String.String c rest' =>
                 if Ascii.eqb a "-" && Ascii.eqb b "0" && Ascii.eqb c "b"
                 then match parse_based 2 (String.String "-" rest') with Some z => RInt z | None => RText end
                 else if Ascii.eqb a "-" && Ascii.eqb b "0" && Ascii.eqb c "o"
                 then match parse_based 8 (String.String "-" rest') with Some z => RInt z | None => RText end
                 else RText
               | String.EmptyString => RText
               end
        | _ => RText
        end
      end
    end
  end.
(** resolve without a tag; the first character is the hint. *)
Definition resolve (s : string) : resolved :=
  match s with
  | String.EmptyString => RNull
  | String.String c _ =>
    let digit := (48 <=? byte c) && (byte c <=? 57) in
    let sign := Ascii.eqb c "+" || Ascii.eqb c "-" in
    let dot := Ascii.eqb c "." in
    if digit || sign || dot || existsb (Ascii.eqb c) ["y"; "Y"; "n"; "N"; "t"; "T"; "f"; "F"; "o"; "O"; "~"]%char then
      match word s with
      | Some r => r
      | None =>
        if digit || sign then resolve_number s
        else if dot then match parse_float s with Some f => RFloat f | None => RText end
        else RText
      end
    else RText
  end.

(** * decode.go *)

(** float64(z) *)
Definition float_of_int (z : Z) : float64 :=
  match round64 (inject_Z (Z.abs z)) with Some (m, e) => Fin (z <? 0) m e | None => NaN end.
(** f <= 2^k, for k of at least 63 *)
Definition float_le (f : float64) (k : Z) : bool :=
  match f with
  | Fin neg m e => neg || if 0 <=? e then m * 2 ^ e <=? 2 ^ k else m <=? 2 ^ (k - e)
  | Inf neg => neg
  | NaN => false
  end.
(** Without the fraction; [None]: not finite. *)
Definition trunc (f : float64) : option Z :=
  match f with
  | Fin neg m e => let n := if 0 <=? e then m * 2 ^ e else m / 2 ^ (- e) in Some (if neg then - n else n)
  | _ => None
  end.
(** int64(f) and uint64(f) on amd64 *)
Definition to_int64 (f : float64) : Z :=
  match trunc f with
  | Some n => if (- 2 ^ 63 <=? n) && (n <? 2 ^ 63) then n else - 2 ^ 63
  | None => - 2 ^ 63
  end.
Definition to_uint64 (f : float64) : Z :=
  match trunc f with
  | Some n => if n <? 2 ^ 63 then to_int64 f mod 2 ^ 64 else if n <? 2 ^ 64 then n else 0
  | None => 2 ^ 63
  end.

(** What becomes of the field. *)
Inductive outcome := Keep | Put (x : scalar) | Fail.

Definition true_words : list string := ["y"; "Y"; "yes"; "Yes"; "YES"; "on"; "On"; "ON"].
Definition false_words : list string := ["n"; "N"; "no"; "No"; "NO"; "off"; "Off"; "OFF"].

(** decoder.scalar; [quoted]: the scalar is in quotes or a block. *)
Definition decode (lim : Z) (quoted : bool) (k : kind) (s : string) : outcome :=
  match (if quoted then RText else resolve s) with
  | RNull => Keep
  | r =>
    match k with
    | KString => Put (SStr s)
    | KInt | KInt64 =>
      match r with
      | RInt z => if z <? 2 ^ 63 then Put (SInt z) else Fail
      | RFloat f => if float_le f 63 then Put (SInt (to_int64 f)) else Fail
      | _ => Fail
      end
    | KDuration =>
      match r with
      | RText => match parse_duration lim s with Some d => Put (SInt d) | None => Fail end
      | _ => Fail
      end
    | KUint | KUint64 =>
      match r with
      | RInt z => if 0 <=? z then Put (SInt z) else Fail
      | RFloat f => if float_le f 64 then Put (SInt (to_uint64 f)) else Fail
      | _ => Fail
      end
    | KBool =>
      match r with
      | RBool b => Put (SBool b)
      | RText => if existsb (String.eqb s) true_words then Put (SBool true)
                 else if existsb (String.eqb s) false_words then Put (SBool false) else Fail
      | _ => Fail
      end
    | KFloat64 =>
      match r with
      | RInt z => Put (SFloat (float_bits (float_of_int z)))
      | RFloat f => Put (SFloat (float_bits f))
      | _ => Fail
      end
    end
  end.
