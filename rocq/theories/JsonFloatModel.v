(** Executable model of the conversions between float64 and text that encoding/json uses for
    /repo/dto/m.go:8-18: strconv.ParseFloat (nearest float64, ties to even; an error if out of range) and
    strconv.AppendFloat with the shortest text, as in floatEncoder of encoding/json.  They are modelled by their
    documented meaning with rational numbers, not by the algorithms of package strconv; but for exponents of more than
    five digits, where they differ from it. *)
From Verif Require Import Common Bytes ProcsModel JsonModel.
From Coq Require Import QArith Qround Qabs.
Local Open Scope string_scope.
Local Open Scope list_scope.
Local Open Scope Z_scope.

(** [Fin neg m e] is m * 2^e, or its negation. *)
Inductive float64 : Type :=
| Fin (neg : bool) (m e : Z)
| Inf (neg : bool)
| NaN.

Definition pow2 (e : Z) : Q := Qpower 2 e.
Definition pow10 (e : Z) : Q := Qpower 10 e.

(** The nearest integer, ties to even. *)
Definition half_even (y : Q) : Z :=
  let q := Qfloor y in
  match Qcompare (y - inject_Z q) (1 # 2) with
  | Lt => q
  | Gt => q + 1
  | Eq => if Z.even q then q else q + 1
  end.

(** The least [e] with x < 2^e, for positive [x]. *)
Definition magnitude (x : Q) : Z :=
  let d := Z.log2 (Qnum x) - Z.log2 (Zpos (Qden x)) in
  if Qle_bool (pow2 d) x then d + 1 else d.

(** The mantissa and exponent of the float64 nearest to [x], which is not negative; without a bound on the
    exponent. *)
Definition nearest (x : Q) : Z * Z :=
  if Qnum x <=? 0 then (0, -1074)
  else
    let e := Z.max (-1074) (magnitude x - 53) in
    let q := half_even (x / pow2 e) in
    if q =? 2 ^ 53 then (2 ^ 52, e + 1) else (q, e).
(** [None]: out of range. *)
Definition round64 (x : Q) : option (Z * Z) :=
  let (m, e) := nearest x in if 971 <? e then None else Some (m, e).

(** * strconv.ParseFloat *)

Fixpoint digits_from (n : Z) (s : string) : Z :=
  match s with
  | String.EmptyString => n
  | String.String c s' => digits_from (n * 10 + (byte c - 48)) s'
  end.
(** The digits after the first character, if there are any. *)
Definition after_first (s : string) : string :=
  match s with String.EmptyString => "" | String.String _ d => d end.
(** strconv.readFloat: once the exponent is 10000 or more, further digits are dropped. *)
Fixpoint capped_from (n : Z) (s : string) : Z :=
  match s with
  | String.EmptyString => n
  | String.String c s' => capped_from (if n <? 10000 then n * 10 + (byte c - 48) else n) s'
  end.
Definition exponent_value (s : string) : Z :=
  let (sg, d) := lex_sign (after_first s) in
  if (sg =? "-")%string then - capped_from 0 d else capped_from 0 d.
(** The sign, the digits as a number and the power of ten of a number literal. *)
Definition read_decimal (s : string) : option (bool * Z * Z) :=
  let (m, s) := lex_minus s in
  match lex_int s with
  | None => None
  | Some (i, s) =>
    match lex_frac s with
    | None => None
    | Some (f, s) =>
      match lex_exp s with
      | None => None
      | Some (e, s) =>
        if (s =? "")%string then
          Some ((m =? "-")%string, digits_from 0 (i ++ after_first f)%string,
                exponent_value e - Z.of_nat (String.length (after_first f)))
        else None
      end
    end
  end.

Definition parse_float64 (s : string) : option float64 :=
  match read_decimal s with
  | None => None
  | Some (neg, d, k) =>
    match round64 (inject_Z d * pow10 k) with
    | Some (m, e) => Some (Fin neg m e)
    | None => None
    end
  end.

(** * strconv.AppendFloat *)

(** The [p] with 10^p <= x < 10^(p+1), for the positive float64 [x]. *)
Definition decimal_exponent (x : Q) : Z :=
  Z.of_nat (String.length (itoa (Qfloor (x * pow10 400)))) - 401.

(** Whether [d] * 10^[k] is read as the float64 [f]. *)
Definition read_as (f : Z * Z) (d k : Z) : bool :=
  match round64 (inject_Z d * pow10 k) with
  | Some (m, e) => (m =? fst f) && (e =? snd f)
  | None => false
  end.

(** The decimal with [n] digits, or with more, that is read as [f]; [x] is the value of [f], [p] its decimal
    exponent.  Of two such decimals with [n] digits the nearer one. *)
Fixpoint shortest_from (fuel : nat) (n : Z) (f : Z * Z) (x : Q) (p : Z) : option (Z * Z) :=
  match fuel with
  | O => None
  | S fuel =>
    let k := p - n + 1 in
    let y := (x / pow10 k)%Q in
    let lo := Qfloor y in
    if read_as f lo k && read_as f (lo + 1) k then Some (half_even y, k)
    else if read_as f lo k then Some (lo, k)
    else if read_as f (lo + 1) k then Some (lo + 1, k)
    else shortest_from fuel (n + 1) f x p
  end.
Fixpoint drop_zeros (fuel : nat) (d k : Z) : Z * Z :=
  match fuel with
  | O => (d, k)
  | S fuel => if d mod 10 =? 0 then drop_zeros fuel (d / 10) (k + 1) else (d, k)
  end.
Definition shortest (m e : Z) : option (Z * Z) :=
  let x := (inject_Z m * pow2 e)%Q in
  match shortest_from 17 1 (m, e) x (decimal_exponent x) with
  | Some (d, k) => Some (drop_zeros 18 d k)
  | None => None
  end.

Fixpoint zeros (n : nat) : string := match n with O => "" | S n => String.String "0" (zeros n) end.

(** Format 'f' of the decimal digits [ds] times 10^[k]. *)
Definition plain (ds : string) (k : Z) : string :=
  let nd := Z.of_nat (String.length ds) in
  let dp := nd + k in
  if 0 <=? k then (ds ++ zeros (Z.to_nat k))%string
  else if dp <=? 0 then ("0." ++ zeros (Z.to_nat (- dp)) ++ ds)%string
  else (String.substring 0 (Z.to_nat dp) ds ++ "."
        ++ String.substring (Z.to_nat dp) (String.length ds - Z.to_nat dp) ds)%string.
(** Format 'e'; floatEncoder removes the zero from "e-09". *)
Definition scientific (ds : string) (k : Z) : string :=
  let x := Z.of_nat (String.length ds) - 1 + k in
  let frac := match after_first ds with String.EmptyString => "" | d => String.String "." d end in
  let first := match ds with String.EmptyString => "0" | String.String c _ => String.String c "" end in
  let ex := if x <? 0 then ("e-" ++ itoa (- x))%string
            else ("e+" ++ (if x <? 10 then "0" else "") ++ itoa x)%string in
  (first ++ frac ++ ex)%string.

(** The text json writes: floatEncoder.encode; the limits are the float64s 1e-6 and 1e21. *)
Definition show_float64 (f : float64) : option string :=
  match f with
  | NaN | Inf _ => None
  | Fin neg m e =>
    let sign := if neg then "-" else "" in
    if m =? 0 then Some (sign ++ "0")%string
    else match shortest m e with
         | None => None
         | Some (d, k) =>
           let x := (inject_Z m * pow2 e)%Q in
           let small := (inject_Z (fst (nearest (1 # 1000000))) * pow2 (snd (nearest (1 # 1000000))))%Q in
           Some (sign ++ (if Qle_bool small x && negb (Qle_bool (pow10 21) x) then plain (itoa d) k
                          else scientific (itoa d) k))%string
         end
  end.
