(** Specification of PEM text. *)
From Verif Require Import Common Bytes ProcsModel PprofSpec.
Local Open Scope string_scope.
Local Open Scope list_scope.
Local Open Scope Z_scope.

Definition contains (p s : string) : Prop := exists a b, s = (a ++ p ++ b)%string.
Definition has_markers (s : string) : Prop := contains "-----BEGIN" s /\ contains "-----END" s.

Definition newline : string := String.String (ascii_of_N 10) "".

(** Text between BEGIN and END lines. *)
Definition armored (typ body : string) : string :=
  ("-----BEGIN " ++ typ ++ "-----" ++ newline ++ body ++ newline ++ "-----END " ++ typ ++ "-----")%string.

(** [text] is base64 for [data], with line breaks, blanks and tabs anywhere. *)
Definition blank (c : ascii) : bool := (byte c =? 32) || (byte c =? 9).
Definition spelled (text data : string) : Prop :=
  exists t, letters t = filter (fun c => negb (blank c)) (letters text) /\ base64_of t data.

(** [s] ends here or with this line. *)
Definition line_end (s : string) : Prop := s = "" \/ exists r, s = (newline ++ r)%string.
(** Text before the BEGIN line. *)
Definition preamble (s : string) : Prop := s = "" \/ (exists p, s = (p ++ newline)%string) /\ ~ contains "-----BEGIN " s.

(** [s] has lines that begin and end a block of type [typ] with contents [d]. *)
Definition holds_block (s typ d : string) : Prop :=
  exists before between body after,
    s = (before ++ "-----BEGIN " ++ typ ++ "-----" ++ between ++ body ++ "-----END " ++ typ ++ "-----" ++ after)%string /\
    spelled body d.
