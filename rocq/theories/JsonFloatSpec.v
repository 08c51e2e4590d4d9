(** Specification of float64 numbers, of decimal texts and of rounding. *)
From Verif Require Import Common Bytes ProcsModel ProcsSpec PprofSpec JsonModel JsonSpec JsonFloatModel.
From Coq Require Import QArith Qabs.
Local Open Scope string_scope.
Local Open Scope list_scope.
Local Open Scope Z_scope.

(** * IEEE 754 binary64 *)

(** The finite numbers: 53 bits, with exponent at least -1074; the leading bit is set unless the exponent is the
    least one. *)
Definition finite (f : float64) : Prop :=
  match f with
  | Fin _ m e => 0 <= m < 2 ^ 53 /\ -1074 <= e <= 971 /\ (m < 2 ^ 52 -> e = -1074)
  | _ => False
  end.
Definition signed (neg : bool) (x : Q) : Q := if neg then (- x)%Q else x.
Definition value (f : float64) : Q :=
  match f with
  | Fin neg m e => signed neg (inject_Z m * Qpower 2 e)
  | _ => 0
  end.
Definition negative (f : float64) : bool :=
  match f with Fin neg _ _ => neg | Inf neg => neg | NaN => false end.
Definition even_mantissa (f : float64) : Prop :=
  match f with Fin _ m _ => Z.even m = true | _ => False end.

(** [f] is nearest to [x]; of two that are equally near the one with even mantissa. *)
Definition rounds_to (x : Q) (f : float64) : Prop :=
  finite f /\ forall g, finite g ->
    (Qabs (x - value f) <= Qabs (x - value g))%Q /\
    (Qabs (x - value f) == Qabs (x - value g) -> value g == value f \/ even_mantissa f)%Q.

(** From here on numbers are out of range: the largest float64 and half a unit. *)
Definition out_of_range (x : Q) : Prop := (inject_Z (2 ^ 54 - 1) * Qpower 2 970 <= Qabs x)%Q.

(** * Decimal texts *)

(** The digits of a number: those before and those after the dot. *)
Definition fraction_digits (f fd : string) : Prop := (f = "" /\ fd = "") \/ (digits fd /\ f = ("." ++ fd)%string).
Definition exponent_of (e : string) (v : Z) : Prop :=
  (e = "" /\ v = 0) \/
  exists x sg d, In x ["e"; "E"] /\ digits d /\ e = (x ++ sg ++ d)%string /\
    (((sg = "" \/ sg = "+") /\ v = digits_value d) \/ (sg = "-" /\ v = - digits_value d)).
(** The number literal [s] has the sign [neg], the digits [ds] and the power of ten [k]. *)
Definition literal (s : string) (neg : bool) (ds : string) (k : Z) : Prop :=
  exists i f fd e v, whole_part i /\ fraction_digits f fd /\ exponent_of e v /\
    s = ((if neg then "-" else "") ++ i ++ f ++ e)%string /\ ds = (i ++ fd)%string /\ k = v - strlen fd.
Definition literal_value (neg : bool) (ds : string) (k : Z) : Q :=
  signed neg (inject_Z (digits_value ds) * Qpower 10 k).

(** What follows the first "e" of the number is the exponent [v]. *)
Definition exponent_at (s : string) (v : Z) : Prop :=
  exists p e, s = (p ++ e)%string /\ exponent_of e v /\ ~ In "e"%char (letters p) /\ ~ In "E"%char (letters p).
(** The text is not very long, or the exponent does not have more than five digits. *)
Definition moderate (s : string) : Prop := strlen s <= 9000 \/ exists v, exponent_at s v /\ Z.abs v < 100000.

(** The number can be written with at most [n] digits and a power of ten. *)
Definition fits (n : Z) (ds : string) : Prop :=
  exists d j, 0 <= j /\ digits_value ds = d * 10 ^ j /\ d < 10 ^ n.

(** * Values with real numbers *)

(** Values made of what decoding yields: nil, bool, finite floats, texts in UTF-8, slices and maps of such. *)
Inductive plain_value : gvalue float64 -> Prop :=
| plain_nil : plain_value GNil
| plain_bool : forall b, plain_value (GBool b)
| plain_float : forall f, finite f -> plain_value (GFloat f)
| plain_str : forall s, utf8_text s -> plain_value (GStr s)
| plain_slice : forall l, Forall plain_value l -> plain_value (GSlice l)
| plain_map : forall l, NoDup (map fst l) -> Forall (fun p => utf8_text (fst p) /\ plain_value (snd p)) l ->
    plain_value (GMap l).

(** Values a program may put into a map: integers of 64 bits, finite floats, any strings and bytes. *)
Inductive sendable : gvalue float64 -> Prop :=
| send_nil : sendable GNil
| send_nil_slice : sendable GNilSlice
| send_nil_map : sendable GNilMap
| send_bool : forall b, sendable (GBool b)
| send_int : forall z, - 2 ^ 63 <= z < 2 ^ 64 -> sendable (GInt z)
| send_float : forall f, finite f -> sendable (GFloat f)
| send_str : forall s, sendable (GStr s)
| send_bytes : forall s, sendable (GBytes s)
| send_slice : forall l, Forall sendable l -> sendable (GSlice l)
| send_map : forall l, NoDup (map fst l) -> Forall (fun p => utf8_text (fst p) /\ sendable (snd p)) l ->
    sendable (GMap l).

(** The float64 values there are. *)
Definition is_float64 (f : float64) : Prop := finite f \/ f = Inf false \/ f = Inf true \/ f = NaN.
