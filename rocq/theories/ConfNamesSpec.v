(** Specification of the naming convention: words joined by '-' or '_'. *)
From Verif Require Import Common Bytes.
Local Open Scope string_scope.

Definition uppers : list ascii := String.list_ascii_of_string "ABCDEFGHIJKLMNOPQRSTUVWXYZ".
Definition lowers : list ascii := String.list_ascii_of_string "abcdefghijklmnopqrstuvwxyz".

Definition upper (c : ascii) : Prop := In c uppers.
Definition upper_dec (c : ascii) : {upper c} + {~ upper c} := in_dec ascii_dec c uppers.

(** The partner of [c] in the second list, if [c] is in the first. *)
Fixpoint translate (from to : list ascii) (c : ascii) : ascii :=
  match from, to with
  | f :: from', t :: to' => if Ascii.eqb c f then t else translate from' to' c
  | _, _ => c
  end.

Fixpoint smap_chars (f : ascii -> ascii) (s : string) : string :=
  match s with
  | String.EmptyString => ""
  | String.String c s' => String.String (f c) (smap_chars f s')
  end.
Definition to_lower : string -> string := smap_chars (translate uppers lowers).
Definition to_upper : string -> string := smap_chars (translate lowers uppers).

Fixpoint has_char (P : ascii -> Prop) (s : string) : Prop :=
  match s with
  | String.EmptyString => False
  | String.String c s' => P c \/ has_char P s'
  end.
Definition mentions (c : ascii) (s : string) : Prop := has_char (fun x => x = c) s.

(** The words of a field name: every upper-case letter starts one. *)
Fixpoint words (s : string) : list string :=
  match s with
  | String.EmptyString => [""]
  | String.String c s' =>
    match s' with
    | String.EmptyString => [String.String c ""]
    | String.String c' _ =>
      if upper_dec c' then String.String c "" :: words s'
      else match words s' with
           | w :: ws => String.String c w :: ws
           | [] => [String.String c ""]
           end
    end
  end.

(** The words of a field path. *)
Definition path_words (segs : list string) : list string := flat_map words segs.

(** A field path as the code writes it. *)
Definition dotted (segs : list string) : string := String.concat "." segs.

(** A field name with one upper-case letter, the first, and none of '.', '-', '_'. *)
Definition one_word (s : string) : Prop :=
  exists c r, s = String.String c r /\ upper c /\ ~ has_char upper r /\
    ~ mentions "." r /\ ~ mentions "-" r /\ ~ mentions "_" r.
