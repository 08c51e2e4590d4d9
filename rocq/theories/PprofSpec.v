(** Specification of base64 text as a sequence of bits. *)
From Verif Require Import Common Bytes ProcsModel.
Local Open Scope string_scope.
Local Open Scope list_scope.
Local Open Scope Z_scope.

Definition alphabet : string := "ABCDEFGHIJKLMNOPQRSTUVWXYZabcdefghijklmnopqrstuvwxyz0123456789+/".

(** The [n] lowest bits of a number, the highest of them first. *)
Fixpoint bits (n : nat) (z : Z) : list bool :=
  match n with
  | O => []
  | S n' => Z.testbit z (Z.of_nat n') :: bits n' z
  end.

Fixpoint letters (s : string) : list ascii :=
  match s with String.EmptyString => [] | String.String c s' => c :: letters s' end.

(** Line breaks do not count. *)
Definition counts (c : ascii) : bool := negb ((byte c =? 10) || (byte c =? 13)).

(** [text] stands for [data]: apart from line breaks it consists of digits of the alphabet, then at most two
    '=' that fill the last group of four; the digits, six bits each, are the bytes, eight bits each, plus
    two bits per '='. *)
Definition base64_of (text data : string) : Prop :=
  exists (digits : list nat) (pad : nat) (rest : list bool),
    Forall (fun d => (d < 64)%nat) digits /\ (pad <= 2)%nat /\ Nat.modulo (length digits + pad) 4 = 0%nat /\
    map Some (filter counts (letters text)) =
      map (fun d => String.get d alphabet) digits ++ repeat (Some "="%char) pad /\
    flat_map (fun d => bits 6 (Z.of_nat d)) digits = flat_map (fun c => bits 8 (byte c)) (letters data) ++ rest /\
    length rest = (2 * pad)%nat.

(** The text of a header, with or without the name of the scheme. *)
Definition carries (header text : string) : Prop :=
  header = ("Basic " ++ text)%string \/ header = text /\ String.prefix "Basic " header = false.

(** The one text that encoders produce: no line breaks, and the bits left over are 0. *)
Definition canonical (text data : string) : Prop :=
  exists (digits : list nat) (pad : nat),
    Forall (fun d => (d < 64)%nat) digits /\ (pad <= 2)%nat /\ Nat.modulo (length digits + pad) 4 = 0%nat /\
    map Some (letters text) = map (fun d => String.get d alphabet) digits ++ repeat (Some "="%char) pad /\
    flat_map (fun d => bits 6 (Z.of_nat d)) digits =
      flat_map (fun c => bits 8 (byte c)) (letters data) ++ repeat false (2 * pad).
