(** Executable model of how package flag turns texts into values, for the flags of /repo/conf/flag.go:52-71 and the
    environment variables of /repo/conf/env.go:51-70: strconv.ParseBool, ParseInt and ParseUint with base 0 and 64
    bits, ParseFloat with 64 bits, time.ParseDuration.  int and uint have 64 bits.  ParseFloat is modelled step by
    step as far as the syntax goes; the rounding is to the nearest float64, as documented. *)
From Verif Require Import Common Bytes ProcsModel JsonModel JsonFloatModel DurationModel ConfLoadModel.
From Coq Require Import QArith.
Local Open Scope string_scope.
Local Open Scope list_scope.
Local Open Scope Z_scope.

(** strconv.ParseBool *)
Definition parse_bool (s : string) : option bool :=
  if existsb (String.eqb s) ["1"; "t"; "T"; "true"; "TRUE"; "True"] then Some true
  else if existsb (String.eqb s) ["0"; "f"; "F"; "false"; "FALSE"; "False"] then Some false
  else None.

(** strconv.lower: c | ('x' - 'X') *)
Definition lower (c : ascii) : Z := Z.lor (byte c) 32.
Definition is_lower (c : ascii) (z : Z) : bool := lower c =? z.

(** The value of the digits and letters; [None] for other characters. *)
Definition digit_of (c : ascii) : option Z :=
  if (48 <=? byte c) && (byte c <=? 57) then Some (byte c - 48)
  else if (97 <=? lower c) && (lower c <=? 122) then Some (lower c - 97 + 10)
  else None.

(** The last thing underscoreOK has seen: '^', '0', '_', '!'. *)
Inductive seen := SStart | SDigit | SUnder | SOther.
Fixpoint under_loop (hex : bool) (saw : seen) (s : string) : bool :=
  match s with
  | String.EmptyString => match saw with SUnder => false | _ => true end
  | String.String c s' =>
    if ((48 <=? byte c) && (byte c <=? 57)) || (hex && ((97 <=? lower c) && (lower c <=? 102)))
    then under_loop hex SDigit s'
    else if Ascii.eqb c "_" then match saw with SDigit => under_loop hex SUnder s' | _ => false end
    else match saw with SUnder => false | _ => under_loop hex SOther s' end
  end.
Definition drop_sign (s : string) : string :=
  match s with
  | String.String c s' => if Ascii.eqb c "-" || Ascii.eqb c "+" then s' else s
  | String.EmptyString => s
  end.
(** strconv.underscoreOK *)
Definition underscore_ok (s : string) : bool :=
  match drop_sign s with
  | String.String a (String.String b s') =>
    if Ascii.eqb a "0" && (is_lower b 98 || is_lower b 111 || is_lower b 120)
    then under_loop (is_lower b 120) SDigit s'
    else under_loop false SStart (drop_sign s)
  | s => under_loop false SStart s
  end.

(** The base and the digits: strconv.ParseUint with base 0. *)
Definition base_prefix (s : string) : Z * string :=
  match s with
  | String.String a s1 =>
    if Ascii.eqb a "0" then
      match s1 with
      | String.String b (String.String _ _ as s2) =>
        if is_lower b 98 then (2, s2) else if is_lower b 111 then (8, s2) else if is_lower b 120 then (16, s2) else (8, s1)
      | _ => (8, s1)
      end
    else (10, s)
  | String.EmptyString => (10, s)
  end.
(** The loop over the digits: the value and whether there were underscores. *)
Fixpoint uint_loop (base n : Z) (under : bool) (s : string) : option (Z * bool) :=
  match s with
  | String.EmptyString => Some (n, under)
  | String.String c s' =>
    if Ascii.eqb c "_" then uint_loop base n true s'
    else match digit_of c with
         | None => None
         | Some d =>
           if base <=? d then None
           else if (2 ^ 64 - 1) / base + 1 <=? n then None
           else let n' := u64 (n * base) in
                let n1 := u64 (n' + d) in
                if (n1 <? n') || (2 ^ 64 - 1 <? n1) then None else uint_loop base n1 under s'
         end
  end.
Definition parse_uint (s : string) : option Z :=
  if (s =? "")%string then None
  else let (base, digits) := base_prefix s in
       match uint_loop base 0 false digits with
       | None => None
       | Some (n, under) => if under && negb (underscore_ok s) then None else Some n
       end.

(** strconv.ParseInt with base 0 and 64 bits *)
Definition int_sign (s : string) : bool * string :=
  match s with
  | String.String c s' => if Ascii.eqb c "+" then (false, s') else if Ascii.eqb c "-" then (true, s') else (false, s)
  | String.EmptyString => (false, s)
  end.
Definition parse_int (s : string) : option Z :=
  if (s =? "")%string then None
  else let (neg, s) := int_sign s in
       match parse_uint s with
       | None => None
       | Some n =>
         if negb neg && (2 ^ 63 <=? n) then None
         else if neg && (2 ^ 63 <? n) then None
         else Some (i64 (if neg then - i64 n else i64 n))
       end.

(** * strconv.ParseFloat with 64 bits *)

(** strconv.commonPrefixLenIgnoreCase(s, p), where [p] is in lower case. *)
Definition fold_case (c : ascii) : Z := if (65 <=? byte c) && (byte c <=? 90) then byte c + 32 else byte c.
Fixpoint common_prefix (s p : string) : nat :=
  match s, p with
  | String.String c s', String.String d p' => if fold_case c =? byte d then S (common_prefix s' p') else O
  | _, _ => O
  end.
(** strconv.special: the value and how many bytes were read. *)
Definition special_inf (neg : bool) (nsign : nat) (s : string) : option (float64 * nat) :=
  let n := common_prefix s "infinity" in
  let n := if Nat.ltb 3 n && Nat.ltb n 8 then 3%nat else n in
  if Nat.eqb n 3 || Nat.eqb n 8 then Some (Inf neg, (nsign + n)%nat) else None.
Definition special (s : string) : option (float64 * nat) :=
  match s with
  | String.EmptyString => None
  | String.String c s' =>
    if Ascii.eqb c "+" then special_inf false 1 s'
    else if Ascii.eqb c "-" then special_inf true 1 s'
    else if Ascii.eqb c "i" || Ascii.eqb c "I" then special_inf false 0 s
    else if Ascii.eqb c "n" || Ascii.eqb c "N" then
      if Nat.eqb (common_prefix s "nan") 3 then Some (NaN, 3%nat) else None
    else None
  end.

(** The loop over the mantissa in strconv.readFloat: the digits as a number, how many come after the dot, whether
    there were digits and underscores, and the rest. *)
Record mant := mkMant { m_value : Z; m_frac : Z; m_digits : bool; m_under : bool; m_rest : string }.
Fixpoint mant_loop (hex dot : bool) (n k : Z) (digits under : bool) (s : string) : mant :=
  match s with
  | String.EmptyString => mkMant n k digits under ""
  | String.String c s' =>
    if Ascii.eqb c "_" then mant_loop hex dot n k digits true s'
    else if Ascii.eqb c "." then
      if dot then mkMant n k digits under s else mant_loop hex true n k digits under s'
    else if (48 <=? byte c) && (byte c <=? 57) then
      mant_loop hex dot (n * (if hex then 16 else 10) + (byte c - 48)) (if dot then k + 1 else k) true under s'
    else if hex && ((97 <=? lower c) && (lower c <=? 102)) then
      mant_loop hex dot (n * 16 + (lower c - 97 + 10)) (if dot then k + 1 else k) true under s'
    else mkMant n k digits under s
  end.
(** The digits of the exponent: the value, whether there were underscores, and the rest. *)
Fixpoint exp_loop (e : Z) (under : bool) (s : string) : Z * bool * string :=
  match s with
  | String.EmptyString => (e, under, "")
  | String.String c s' =>
    if (48 <=? byte c) && (byte c <=? 57) then exp_loop (if e <? 10000 then e * 10 + (byte c - 48) else e) under s'
    else if Ascii.eqb c "_" then exp_loop e true s'
    else (e, under, s)
  end.
Definition starts_digit (s : string) : bool :=
  match s with String.String c _ => (48 <=? byte c) && (byte c <=? 57) | String.EmptyString => false end.
(** The exponent after the letter; [None]: it has no digits. *)
Definition read_exp (s : string) : option (Z * bool * string) :=
  let (neg, s) := int_sign s in
  if starts_digit s then let '(e, under, rest) := exp_loop 0 false s in Some (if neg then - e else e, under, rest)
  else None.
(** strconv.readFloat of the whole text: the sign, whether hexadecimal, the digits, how many come after the dot, the
    exponent.  [None]: a syntax error, or not the whole text is a number. *)
Definition read_float (s : string) : option (bool * bool * Z * Z * Z) :=
  let (neg, t) := int_sign s in
  let (hex, t) :=
    match t with
    | String.String a (String.String b (String.String _ _ as t')) =>
      if Ascii.eqb a "0" && is_lower b 120 then (true, t') else (false, t)
    | _ => (false, t)
    end in
  let r := mant_loop hex false 0 0 false false t in
  if m_digits r then
    let found :=
      match m_rest r with
      | String.String c rest =>
        if is_lower c (if hex then 112 else 101) then read_exp rest
        else if hex then None else Some (0, false, m_rest r)
      | String.EmptyString => if hex then None else Some (0, false, "")
      end in
    match found with
    | None => None
    | Some (e, under, rest) =>
      if (rest =? "")%string then
        if (m_under r || under) && negb (underscore_ok s) then None
        else Some (neg, hex, m_value r, m_frac r, e)
      else None
    end
  else None.

Definition parse_float (s : string) : option float64 :=
  match special s with
  | Some (f, n) => if Nat.eqb n (String.length s) then Some f else None
  | None =>
    match read_float s with
    | None => None
    | Some (neg, hex, d, k, e) =>
      match round64 (if hex then inject_Z d * pow2 (e - 4 * k) else inject_Z d * pow10 (e - k))%Q with
      | Some (m, x) => Some (Fin neg m x)
      | None => None
      end
    end
  end.

(** math.Float64bits; the NaN of package math. *)
Definition float_bits (f : float64) : Z :=
  match f with
  | Fin neg m e => (if neg then 2 ^ 63 else 0) + (if m <? 2 ^ 52 then m else (e + 1075) * 2 ^ 52 + (m - 2 ^ 52))
  | Inf neg => (if neg then 2 ^ 63 else 0) + 2047 * 2 ^ 52
  | NaN => 2047 * 2 ^ 52 + 2 ^ 51 + 1
  end.

(** flag.Value.Set for the flags of the eight kinds; [lim] is the version of Go, see DurationModel. *)
Definition flag_value (lim : Z) (k : kind) (s : string) : option scalar :=
  match k with
  | KBool => option_map SBool (parse_bool s)
  | KFloat64 => option_map (fun f => SFloat (float_bits f)) (parse_float s)
  | KInt | KInt64 => option_map SInt (parse_int s)
  | KString => Some (SStr s)
  | KUint | KUint64 => option_map SInt (parse_uint s)
  | KDuration => option_map SInt (parse_duration lim s)
  end.
