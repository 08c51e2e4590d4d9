(** Specification of the way of an Oracle configuration to the driver. *)
From Verif Require Import Common Bytes ProcsModel ProcsSpec ConfNamesSpec ConfsModel ConfsSpec OraDsnModel.
From Verif Require UrlSpec.
Local Open Scope string_scope.
Local Open Scope list_scope.
Local Open Scope Z_scope.

(** The values that the query has for a key, in order. *)
Definition values_of (k : string) (kvs : list (string * string)) : list string :=
  map snd (filter (fun kv => (fst kv =? k)%string) kvs).
(** [ps] are the parts of [v] between commas, freed from white space around them. *)
Definition comma_parts (v : string) (ps : list string) : Prop := exists raws, cuts "," v raws /\ Forall2 padded raws ps.

(** Names of options: letters, digits, "-._~" and blanks. *)
Definition key_name (k : string) : Prop := all_chars (fun c => unreserved c = true \/ c = " "%char) k.
(** Servers: in addition colons and brackets. *)
Definition server_text (v : string) : Prop := all_chars (fun c => unreserved c = true \/ UrlSpec.among ":,[] " c) v.
(** The name of the option for servers, in any case. *)
Definition server_name (k : string) : Prop := to_lower k = "server".

(** What the url has room for; the password may be any text. *)
Record ora_readable (conf : oracle_conf) (ps : list (string * string)) : Prop := {
  or_plain_host : plain (or_host conf);
  or_some_port : 0 <= or_port conf;
  or_user_text : ~ mentions ":" (or_user conf);
  or_service_front : forall r, or_service conf <> ("/" ++ r)%string;
  or_service_back : forall r, or_service conf <> (r ++ "/")%string;
  or_keys : forall k v, In (k, v) ps -> key_name k /\ (server_name k -> server_text v) }.

(** A server with its port, and a list of servers; empty parts of the list do not count. *)
Inductive server_at : string -> string * string -> Prop :=
| at_name h p : ~ mentions ":" h -> ~ mentions "[" h -> ~ mentions "]" h -> ~ mentions ":" p -> ~ mentions "[" p -> ~ mentions "]" p ->
    server_at (h ++ ":" ++ p)%string (h, p)
| at_brackets h p : ~ mentions "[" h -> ~ mentions "]" h -> ~ mentions ":" p -> ~ mentions "[" p -> ~ mentions "]" p ->
    server_at ("[" ++ h ++ "]:" ++ p)%string (h, p).
Inductive servers_at : list string -> list (string * string) -> Prop :=
| servers_end : servers_at [] []
| servers_blank parts l : servers_at parts l -> servers_at ("" :: parts) l
| servers_one s hp parts l : server_at s hp -> servers_at parts l -> servers_at (s :: parts) (hp :: l).
(** "server" is the only option for servers. *)
Definition one_server_option (ps : list (string * string)) : Prop := forall k, In k (map fst ps) -> server_name k -> k = "server".
