(** Specification of the scalars of config files. *)
From Verif Require Import Common Bytes ProcsModel ProcsSpec JsonModel JsonSpec JsonFloatModel JsonFloatSpec ConfLoadModel DurationSpec FlagValueSpec ConfNamesSpec YamlScalarModel.
From Coq Require Import QArith Qabs.
Local Open Scope string_scope.
Local Open Scope list_scope.
Local Open Scope Z_scope.

(** The text starts like a number. *)
Definition numeric (s : string) : Prop := exists c t, s = String.String c t /\ (is_digit c \/ c = "+"%char \/ c = "-"%char).

(** [whole_number s v]: with its underscores removed, [s] is an integer literal of Go with the value [v]. *)
Definition whole_number (s : string) (v : Z) : Prop := numeric s /\ signed_literal (strip s) v.
(** A sign may also come after the prefix for binary and octal numbers. *)
Definition odd_number (s : string) (v : Z) : Prop :=
  exists p base sg t n, In (p, base) [("0b", 2); ("0o", 8)] /\ strip s = (p ++ sg ++ t)%string /\
    ((sg = "+" /\ v = n) \/ (sg = "-" /\ v = - n)) /\ grouped base t 0 n.

(** [real_number s f]: the float64 [f] for the decimal number [s]. *)
Definition special_words : list (string * float64) :=
  [(".nan", NaN); (".NaN", NaN); (".NAN", NaN); (".inf", Inf false); (".Inf", Inf false); (".INF", Inf false);
   ("+.inf", Inf false); ("+.Inf", Inf false); ("+.INF", Inf false); ("-.inf", Inf true); ("-.Inf", Inf true); ("-.INF", Inf true)].
Definition real_number (s : string) (f : float64) : Prop :=
  In (s, f) special_words \/
  exists neg q v, (float_text s neg q v \/ float_text (strip s) neg q v) /\
    (tame s v -> rounds_to (signed neg q) f /\ negative f = neg).

(** [toward_zero f n]: the whole number next to [f] in direction of 0. *)
Definition toward_zero (f : float64) (n : Z) : Prop :=
  finite f /\ (Qabs (inject_Z n) <= Qabs (value f))%Q /\ (Qabs (value f) < Qabs (inject_Z n) + 1)%Q /\ (0 <= inject_Z n * value f)%Q.

(** What a number with a fraction or an exponent becomes in an integer field: the fraction is cut off.  What int64
    cannot hold becomes -2^63. *)
Definition cut_to_int (f : float64) (z : Z) : Prop :=
  (forall n, toward_zero f n -> z = if (- 2 ^ 63 <=? n) && (n <? 2 ^ 63) then n else - 2 ^ 63) /\ (~ finite f -> z = - 2 ^ 63).
(** The same for unsigned fields; negative numbers wrap. *)
Definition cut_to_uint (f : float64) (z : Z) : Prop :=
  0 <= z < 2 ^ 64 /\ (forall n, toward_zero f n -> 0 <= n < 2 ^ 64 -> z = n) /\ (forall n, toward_zero f n -> - 2 ^ 63 <= n < 0 -> z = n + 2 ^ 64).
(** Negative infinity counts as small. *)
Definition at_most (f : float64) (z : Z) : Prop := (finite f /\ (value f <= inject_Z z)%Q) \/ f = Inf true.

Definition file_true : list string := ["true"; "True"; "TRUE"].
Definition file_false : list string := ["false"; "False"; "FALSE"].
Definition old_true : list string := ["y"; "Y"; "yes"; "Yes"; "YES"; "on"; "On"; "ON"].
Definition old_false : list string := ["n"; "N"; "no"; "No"; "NO"; "off"; "Off"; "OFF"].
Definition nulls : list string := [""; "~"; "null"; "Null"; "NULL"].

(** [file_sets lim quoted k s x]: what the value [x] of a field of kind [k] has to do with the scalar [s] of a config
    file, which is in quotes or not. *)
Definition file_sets (lim : Z) (quoted : bool) (k : kind) (s : string) (x : scalar) : Prop :=
  match k with
  | KString => x = SStr s
  | KBool => exists b, x = SBool b /\
      ((quoted = false /\ In s (if b then file_true else file_false)) \/ In s (if b then old_true else old_false))
  | KInt | KInt64 => quoted = false /\ exists z, x = SInt z /\ - 2 ^ 63 <= z < 2 ^ 63 /\
      (whole_number s z \/ odd_number s z \/ exists f, real_number s f /\ at_most f (2 ^ 63) /\ cut_to_int f z)
  | KUint | KUint64 => quoted = false /\ exists z, x = SInt z /\ 0 <= z < 2 ^ 64 /\
      ((whole_number s z /\ (z < 2 ^ 63 \/ integer_literal (strip s) z)) \/ (odd_number s z /\ z < 2 ^ 63) \/
       exists f, real_number s f /\ at_most f (2 ^ 64) /\ cut_to_uint f z)
  | KFloat64 => quoted = false /\ exists b, x = SFloat b /\ 0 <= b < 2 ^ 64 /\
      ((exists z, - 2 ^ 63 <= z < 2 ^ 64 /\ (whole_number s z \/ odd_number s z) /\
          rounds_to (inject_Z z) (float_of_bits b) /\ negative (float_of_bits b) = (z <? 0)) \/
       real_number s (float_of_bits b))
  | KDuration => exists d, x = SInt d /\ - 2 ^ 63 <= d < 2 ^ 63 /\
      ((quoted = true /\ zero_text s /\ d = 0) \/
       exists neg ps, duration_text s neg ps /\
         (no_wrap lim ps -> near_total d neg ps /\ (Forall whole_ns ps -> inject_Z d == signed neg (total ps))%Q))
  end.

(** A decimal number with digits, a dot or an exponent, that is no integer literal in range. *)
Definition plain_decimal (s : string) (neg : bool) (q : Q) : Prop :=
  exists v, float_text s neg q v /\ tame s v /\ ~ out_of_range (signed neg q) /\
    ~ mentions "_" s /\ ~ mentions "x" s /\ ~ mentions "X" s /\ forall n, signed_literal s n -> ~ (- 2 ^ 63 <= n < 2 ^ 64).
