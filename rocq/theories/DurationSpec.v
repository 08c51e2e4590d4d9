(** Specification of durations written as text. *)
From Verif Require Import Common Bytes ProcsModel ProcsSpec JsonSpec JsonFloatSpec ConfsModel DurationModel.
From Coq Require Import QArith Qabs.
Local Open Scope string_scope.
Local Open Scope list_scope.
Local Open Scope Z_scope.

(** Go up to 1.17, or from 1.18 on. *)
Definition version (lim : Z) : Prop := lim = go1_17 \/ lim = go1_18.

(** The units and their nanoseconds; the second and third way to write microseconds are the micro sign (U+00B5)
    and the Greek mu (U+03BC) in UTF-8. *)
Definition units : list (string * Z) :=
  [("ns", 1); ("us", 10 ^ 3); (String.String (char_of 194) (String.String (char_of 181) "s"), 10 ^ 3);
   (String.String (char_of 206) (String.String (char_of 188) "s"), 10 ^ 3); ("ms", 10 ^ 6); ("s", 10 ^ 9);
   ("m", 60 * 10 ^ 9); ("h", 3600 * 10 ^ 9)].

(** A number with a unit: the digits before the dot, those after it if there is one, the unit. *)
Record part := mkPart { whole : string; frac : option string; unit_name : string; unit_ns : Z }.
Definition part_text (p : part) : string :=
  (whole p ++ match frac p with Some f => "." ++ f | None => "" end ++ unit_name p)%string.
Definition frac_digits (p : part) : string := match frac p with Some f => f | None => "" end.
Definition good_part (p : part) : Prop :=
  all_chars is_digit (whole p) /\ all_chars is_digit (frac_digits p) /\ (whole p <> "" \/ frac_digits p <> "") /\
  In (unit_name p, unit_ns p) units.

Fixpoint parts_text (ps : list part) : string :=
  match ps with [] => "" | p :: ps => (part_text p ++ parts_text ps)%string end.

Definition sign_text (sg : string) (neg : bool) : Prop :=
  (sg = "-" /\ neg = true) \/ ((sg = "" \/ sg = "+") /\ neg = false).
(** [s] is a sign and numbers with units. *)
Definition duration_text (s : string) (neg : bool) (ps : list part) : Prop :=
  ps <> [] /\ Forall good_part ps /\ exists sg, sign_text sg neg /\ s = (sg ++ parts_text ps)%string.
(** The one text without unit. *)
Definition zero_text (s : string) : Prop := exists sg neg, sign_text sg neg /\ s = (sg ++ "0")%string.

(** The nanoseconds that the digits stand for. *)
Definition part_value (p : part) : Q :=
  ((inject_Z (digits_value (whole p)) + inject_Z (digits_value (frac_digits p)) / Qpower 10 (strlen (frac_digits p)))
   * inject_Z (unit_ns p))%Q.
Fixpoint total (ps : list part) : Q := match ps with [] => 0 | p :: ps => (part_value p + total ps)%Q end.

(** The last digit after the dot still counts whole nanoseconds. *)
Definition whole_ns (p : part) : Prop := (10 ^ strlen (frac_digits p) | unit_ns p).

(** [d] is off by at most 1.1 nanoseconds for each number. *)
Definition count (ps : list part) : Z := Z.of_nat (List.length ps).
Definition near_total (d : Z) (neg : bool) (ps : list part) : Prop :=
  (Qabs (inject_Z d - signed neg (total ps)) <= (11 # 10) * inject_Z (count ps))%Q.
(** No sum of two numbers of int64 can be 2^64; for Go 1.18 the text must not come near that. *)
Definition no_wrap (lim : Z) (ps : list part) : Prop :=
  lim = go1_17 \/ (total ps + 2 * inject_Z (count ps) <= inject_Z (2 ^ 64 - 1))%Q.
(** In the range of int64, or outside of it. *)
Definition fits_int64 (ps : list part) : Prop :=
  (total ps + 2 * inject_Z (count ps) <= inject_Z (2 ^ 63 - 1))%Q \/
  (Forall whole_ns ps /\ (total ps <= inject_Z (2 ^ 63 - 1))%Q).
Definition exceeds_int64 (neg : bool) (ps : list part) : Prop :=
  (inject_Z (2 ^ 63) + 2 * inject_Z (count ps) <= total ps)%Q \/
  (Forall whole_ns ps /\ (inject_Z (2 ^ 63 + if neg then 1 else 0) <= total ps)%Q).

(** * Printing *)

(** The units used for a number of nanoseconds. *)
Definition chosen_units (u : Z) : list string :=
  if u =? 0 then ["s"]
  else if u <? 10 ^ 3 then ["ns"]
  else if u <? 10 ^ 6 then [String.String (char_of 194) (String.String (char_of 181) "s")]
  else if u <? 10 ^ 9 then ["ms"]
  else if u <? 60 * 10 ^ 9 then ["s"]
  else if u <? 3600 * 10 ^ 9 then ["m"; "s"]
  else ["h"; "m"; "s"].
(** No needless zeros. *)
Definition tidy (p : part) : Prop :=
  (exists n, 0 <= n /\ whole p = itoa n) /\
  match frac p with None => True | Some f => f <> "" /\ forall t, f <> (t ++ "0")%string end.
Definition below_60 (p : part) : Prop := digits_value (whole p) < 60.
