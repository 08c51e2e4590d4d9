(** Specification of the keys of config files. *)
From Verif Require Import Common Bytes ConfNamesSpec ConfLoadModel ConfLoadSpec YamlKeyModel.
Local Open Scope string_scope.
Local Open Scope list_scope.

(** A tag: a name, perhaps empty, and flags, separated by commas. *)
Definition tag_parts (t name : string) (flags : list string) : Prop :=
  t = String.concat "," (name :: flags) /\ ~ mentions "," name /\ Forall (fun x => ~ mentions "," x) flags.
(** The field takes part. *)
Definition counts (tags : ytags) (E : tenv) (s i : nat) (f : field) : Prop :=
  nth_error (E s) i = Some f /\ (fexp f = true \/ fanon f = true) /\ tags s i <> "-".
(** Any number of pointers, then a struct. *)
Inductive leads : ty -> nat -> Prop :=
| leads_struct s : leads (TStruct s) s
| leads_ptr t s : leads t s -> leads (TPtr t) s.

(** [keyed tags E s k idx]: in a mapping for struct [s] the key [k] selects the field at [idx]: the name in the tag, or
    the name of the field in lower case; for an inlined struct its keys. *)
Inductive keyed (tags : ytags) (E : tenv) : nat -> string -> list nat -> Prop :=
| keyed_own s i f name flags : counts tags E s i f -> tag_parts (tags s i) name flags -> ~ In "inline" flags ->
    keyed tags E s (if (name =? "")%string then to_lower (fname f) else name) [i]
| keyed_inline s i f name flags s' k idx : counts tags E s i f -> tag_parts (tags s i) name flags -> In "inline" flags ->
    leads (fty f) s' -> keyed tags E s' k idx -> keyed tags E s k (i :: idx).

(** What is wrong with a type: a key twice, an unknown flag in a tag, something inlined that is no struct. *)
Inductive wrong (tags : ytags) (E : tenv) : nat -> Prop :=
| wrong_twice s k i1 i2 : keyed tags E s k i1 -> keyed tags E s k i2 -> i1 <> i2 -> wrong tags E s
| wrong_flag s i f name flags x : counts tags E s i f -> tag_parts (tags s i) name flags -> In x flags ->
    ~ In x ["omitempty"; "flow"; "inline"] -> wrong tags E s
| wrong_inline s i f name flags : counts tags E s i f -> tag_parts (tags s i) name flags -> In "inline" flags ->
    (forall s', ~ leads (fty f) s') -> wrong tags E s
| wrong_below s i f name flags s' : counts tags E s i f -> tag_parts (tags s i) name flags -> In "inline" flags ->
    leads (fty f) s' -> wrong tags E s' -> wrong tags E s.

(** [entry doc ks v]: the document has the value [v] below the keys [ks]. *)
Inductive entry : ynode -> list string -> string -> Prop :=
| entry_here v : entry (YScalar v) [] v
| entry_below kvs k n ks v : In (k, n) kvs -> entry n ks v -> entry (YMap kvs) (k :: ks) v.
(** [key_path tags E s ks p]: the keys [ks] lead from a struct [s] to the value at [p]. *)
Inductive key_path (tags : ytags) (E : tenv) : nat -> list string -> list step -> Prop :=
| key_here s key idx q t q2 k named : keyed tags E s key idx -> index_path E (TStruct s) idx q t ->
    through t q2 (TScalar k named) -> key_path tags E s [key] (q ++ q2)
| key_below s key idx q t q2 s' ks p : keyed tags E s key idx -> index_path E (TStruct s) idx q t ->
    through t q2 (TStruct s') -> key_path tags E s' ks p -> key_path tags E s (key :: ks) (q ++ q2 ++ p).

(** The only tags are on embedded structs, which are inlined. *)
Definition conventional (tags : ytags) (E : tenv) : Prop :=
  forall s i f, nth_error (E s) i = Some f ->
    if fanon f then tags s i = ",inline" /\ exists q s', through (fty f) q (TStruct s') else tags s i = "".

(** One struct inlined in another. *)
Definition inlines (tags : ytags) (E : tenv) (s' s : nat) : Prop :=
  exists i f name flags, counts tags E s i f /\ tag_parts (tags s i) name flags /\ In "inline" flags /\ leads (fty f) s'.
