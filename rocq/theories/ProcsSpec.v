(** Specification of the value processors. *)
From Verif Require Import Common Bytes Threads StoreModel StoreSpec ProcsModel.
Local Open Scope string_scope.

Definition is_digit (c : ascii) : Prop := In c ["0"; "1"; "2"; "3"; "4"; "5"; "6"; "7"; "8"; "9"]%char.

(** Place value of a digit string. *)
Fixpoint digits_value (s : string) : Z :=
  match s with
  | String.EmptyString => 0
  | String.String c s' => (byte c - 48) * 10 ^ strlen s' + digits_value s'
  end.

Fixpoint all_chars (P : ascii -> Prop) (s : string) : Prop :=
  match s with
  | String.EmptyString => True
  | String.String c s' => P c /\ all_chars P s'
  end.

(** [s] is an optionally signed non-empty decimal digit string with value [v]. *)
Definition decimal (s : string) (v : Z) : Prop :=
  exists ds, ds <> "" /\ all_chars is_digit ds /\
    ((s = ds /\ v = digits_value ds) \/ (s = "+" ++ ds /\ v = digits_value ds) \/
     (s = "-" ++ ds /\ v = - digits_value ds)).

(** [v] is in the interval with the given bounds. *)
Definition in_range (min : Z) (min_incl : bool) (max : Z) (max_incl : bool) (v : Z) : Prop :=
  (if min_incl then min <= v else min < v) /\ (if max_incl then v <= max else v < max).

Definition hex_digit (c : ascii) : Prop :=
  In c ["0"; "1"; "2"; "3"; "4"; "5"; "6"; "7"; "8"; "9"; "a"; "b"; "c"; "d"; "e"; "f";
        "A"; "B"; "C"; "D"; "E"; "F"]%char.

(** [s] is a colour "#rrggbb". *)
Definition colour (s : string) : Prop :=
  exists d, s = "#" ++ d /\ String.length d = 6%nat /\ all_chars hex_digit d.
