(** Specification of numbers on the command line and in the environment: the literals of the Go language. *)
From Verif Require Import Common Bytes ProcsModel ProcsSpec PprofSpec JsonModel JsonSpec JsonFloatModel JsonFloatSpec ConfLoadModel DurationSpec.
From Coq Require Import QArith Qabs.
Local Open Scope string_scope.
Local Open Scope list_scope.
Local Open Scope Z_scope.

(** Digits of all bases. *)
Definition digits_table : list (ascii * Z) :=
  [("0", 0); ("1", 1); ("2", 2); ("3", 3); ("4", 4); ("5", 5); ("6", 6); ("7", 7); ("8", 8); ("9", 9);
   ("a", 10); ("b", 11); ("c", 12); ("d", 13); ("e", 14); ("f", 15);
   ("A", 10); ("B", 11); ("C", 12); ("D", 13); ("E", 14); ("F", 15)]%char.
Definition digit_in (base : Z) (c : ascii) (d : Z) : Prop := In (c, d) digits_table /\ d < base.

(** [grouped base s n v]: [s] is a non-empty sequence of digits, with single underscores only between two of them;
    after the number [n] it makes the number [v]. *)
Inductive grouped (base : Z) : string -> Z -> Z -> Prop :=
| grouped_one c d n : digit_in base c d -> grouped base (String.String c "") n (n * base + d)
| grouped_next c d s n v : digit_in base c d -> grouped base s (n * base + d) v -> grouped base (String.String c s) n v
| grouped_under c d s n v : digit_in base c d -> grouped base s (n * base + d) v ->
    grouped base (String.String c (String.String "_" s)) n v.

(** A literal without sign: decimal, not starting with 0; or 0; or octal after 0; or binary, octal or hexadecimal
    after 0b, 0o, 0x. *)
Inductive integer_literal : string -> Z -> Prop :=
| int_decimal c s v : c <> "0"%char -> grouped 10 (String.String c s) 0 v -> integer_literal (String.String c s) v
| int_zero : integer_literal "0" 0
| int_octal s u v : In u [""; "_"] -> grouped 8 s 0 v -> integer_literal ("0" ++ u ++ s)%string v
| int_prefix p base s u v : In (p, base) [("0b", 2); ("0B", 2); ("0o", 8); ("0O", 8); ("0x", 16); ("0X", 16)] ->
    In u [""; "_"] -> grouped base s 0 v -> integer_literal (p ++ u ++ s)%string v.
Definition signed_literal (s : string) (v : Z) : Prop :=
  exists t n, integer_literal t n /\
    ((s = t /\ v = n) \/ (s = ("+" ++ t)%string /\ v = n) \/ (s = ("-" ++ t)%string /\ v = - n)).

(** * Floating-point numbers *)

(** How many digits a text has; underscores do not count. *)
Fixpoint digit_count (s : string) : Z :=
  match s with
  | String.EmptyString => 0
  | String.String c s' => (if Ascii.eqb c "_" then 0 else 1) + digit_count s'
  end.
(** Digits with a dot before, between or after them, or none: all digits as a number, and how many come after the
    dot. *)
Inductive mantissa (base : Z) : string -> Z -> Z -> Prop :=
| mantissa_whole a n : grouped base a 0 n -> mantissa base a n 0
| mantissa_dot a n : grouped base a 0 n -> mantissa base (a ++ ".")%string n 0
| mantissa_both a b n m : grouped base a 0 n -> grouped base b n m -> mantissa base (a ++ "." ++ b)%string m (digit_count b)
| mantissa_frac b m : grouped base b 0 m -> mantissa base ("." ++ b)%string m (digit_count b).
(** A letter, a sign or none, and decimal digits. *)
Inductive exponent (marks : list string) : string -> Z -> Prop :=
| exponent_plus x sg d v : In x marks -> In sg [""; "+"] -> grouped 10 d 0 v -> exponent marks (x ++ sg ++ d)%string v
| exponent_minus x d v : In x marks -> grouped 10 d 0 v -> exponent marks (x ++ "-" ++ d)%string (- v).
(** A number without sign: its value, and its exponent (0 if it has none). *)
Inductive float_literal : string -> Q -> Z -> Prop :=
| float_plain s n k : mantissa 10 s n k -> float_literal s (inject_Z n * Qpower 10 (- k)) 0
| float_exp s n k e v : mantissa 10 s n k -> exponent ["e"; "E"] e v ->
    float_literal (s ++ e)%string (inject_Z n * Qpower 10 (v - k)) v
| float_hex p u s n k e v : In p ["0x"; "0X"] -> (u = "" \/ u = "_" /\ forall t, s <> ("." ++ t)%string) ->
    mantissa 16 s n k -> exponent ["p"; "P"] e v ->
    float_literal (p ++ u ++ s ++ e)%string (inject_Z n * Qpower 2 (v - 4 * k)) v.
(** With a sign or none. *)
Definition float_text (s : string) (neg : bool) (q : Q) (v : Z) : Prop :=
  exists t, float_literal t q v /\
    ((s = t /\ neg = false) \/ (s = ("+" ++ t)%string /\ neg = false) \/ (s = ("-" ++ t)%string /\ neg = true)).
(** The exponent has at most five digits, or the text is short. *)
Definition tame (s : string) (v : Z) : Prop := Z.abs v < 100000 \/ strlen s <= 2000.

(** The texts of the other numbers: some of the words below, in lower or upper case. *)
Definition upper_case (c : ascii) : ascii := if (97 <=? byte c) && (byte c <=? 122) then ConfsModel.char_of (byte c - 32) else c.
Fixpoint cased (w s : string) : Prop :=
  match w, s with
  | String.EmptyString, String.EmptyString => True
  | String.String c w', String.String d s' => (d = c \/ d = upper_case c) /\ cased w' s'
  | _, _ => False
  end.
Definition special_text (s : string) (f : float64) : Prop :=
  (exists t, (cased "inf" t \/ cased "infinity" t) /\
     ((s = t /\ f = Inf false) \/ (s = ("+" ++ t)%string /\ f = Inf false) \/ (s = ("-" ++ t)%string /\ f = Inf true))) \/
  (cased "nan" s /\ f = NaN).

(** * Values of config fields *)

(** The number that 64 bits stand for: IEEE 754 binary64. *)
Definition float_of_bits (b : Z) : float64 :=
  let neg := 2 ^ 63 <=? b in
  let e := (b / 2 ^ 52) mod 2 ^ 11 in
  let m := b mod 2 ^ 52 in
  if e =? 2047 then if m =? 0 then Inf neg else NaN
  else if e =? 0 then Fin neg m (-1074)
  else Fin neg (2 ^ 52 + m) (e - 1075).

Definition true_texts : list string := ["1"; "t"; "T"; "true"; "TRUE"; "True"].
Definition false_texts : list string := ["0"; "f"; "F"; "false"; "FALSE"; "False"].
(** [stands_for lim k s x]: what the value [x] of a field of kind [k] has to do with the text [s]. *)
Definition stands_for (lim : Z) (k : kind) (s : string) (x : scalar) : Prop :=
  match k with
  | KBool => (In s true_texts /\ x = SBool true) \/ (In s false_texts /\ x = SBool false)
  | KInt | KInt64 => exists v, x = SInt v /\ signed_literal s v /\ - 2 ^ 63 <= v < 2 ^ 63
  | KUint | KUint64 => exists v, x = SInt v /\ integer_literal s v /\ 0 <= v < 2 ^ 64
  | KString => x = SStr s
  | KFloat64 => exists b, x = SFloat b /\ 0 <= b < 2 ^ 64 /\
      (special_text s (float_of_bits b) \/
       exists neg q v, float_text s neg q v /\
         (tame s v -> rounds_to (signed neg q) (float_of_bits b) /\ negative (float_of_bits b) = neg))
  | KDuration => exists d, x = SInt d /\ - 2 ^ 63 <= d < 2 ^ 63 /\
      ((zero_text s /\ d = 0) \/
       exists neg ps, duration_text s neg ps /\
         (no_wrap lim ps -> near_total d neg ps /\ (Forall whole_ns ps -> inject_Z d == signed neg (total ps))%Q))
  end.
(** Texts that must be accepted. *)
Definition acceptable (k : kind) (s : string) : Prop :=
  match k with
  | KBool => In s (true_texts ++ false_texts)
  | KInt | KInt64 => exists v, signed_literal s v /\ - 2 ^ 63 <= v < 2 ^ 63
  | KUint | KUint64 => exists v, integer_literal s v /\ v < 2 ^ 64
  | KString => True
  | KFloat64 => (exists f, special_text s f) \/ exists neg q v, float_text s neg q v /\ tame s v /\ ~ out_of_range q
  | KDuration => zero_text s \/ exists neg ps, duration_text s neg ps /\ fits_int64 ps
  end.
