(** Specification of the way of a PostgreSQL configuration to the driver: which settings the driver ends up with. *)
From Verif Require Import Common Bytes ProcsModel ProcsSpec ConfNamesSpec ConfsModel.
From Verif Require UrlSpec MysqlDsnSpec.
From Verif Require Import ConfsSpec.
Local Open Scope string_scope.
Local Open Scope list_scope.
Local Open Scope Z_scope.

(** [p] is what stands before the first comma of [v], freed from white space around it. *)
Definition leads (v p : string) : Prop :=
  exists a r, v = (a ++ r)%string /\ padded a p /\ (r = "" \/ exists r', r = String.String "," r').

(** What the text of a host and a port is understood as: a name or an IPv4 address, an IPv6 address in brackets, and
    an IPv6 address without brackets, whose port is taken for a part of it. *)
Inductive endpoint (port : Z) : string -> string -> option string -> Prop :=
| endpoint_name h : ~ mentions ":" h -> ~ mentions "[" h -> ~ mentions "]" h -> endpoint port h h (Some (itoa port))
| endpoint_brackets x : ~ mentions "[" x -> ~ mentions "]" x -> endpoint port ("[" ++ x ++ "]")%string x (Some (itoa port))
| endpoint_bare h : mentions ":" h -> ~ mentions "[" h -> ~ mentions "]" h -> endpoint port h (h ++ ":" ++ itoa port)%string None.

(** The text has room for the parts: [user], [password] and [db] are what the configured texts stand for once percent
    escapes are undone, [host] and [port] what the host and port are understood as. *)
Record readable (conf : pg_conf) (user password host : string) (port : option string) (db : string) : Prop := {
  rd_user : all_chars UrlSpec.user_char (pg_user conf) /\ ~ mentions ":" (pg_user conf) /\ UrlSpec.path_text (pg_user conf) user;
  rd_password : all_chars UrlSpec.user_char (pg_pass conf) /\ UrlSpec.path_text (pg_pass conf) password;
  rd_host : all_chars UrlSpec.host_char (pg_host conf) /\ endpoint (pg_port conf) (pg_host conf) host port /\ host <> "";
  rd_port : 0 <= pg_port conf;
  rd_db : ~ mentions "?" (pg_db conf) /\ ~ mentions "#" (pg_db conf) /\ all_chars (fun c => ~ UrlSpec.control c) (pg_db conf) /\
          UrlSpec.path_text (pg_db conf) db }.

(** Settings that have a field of their own in the config. *)
Definition own_names : list string := ["user"; "password"; "host"; "port"; "dbname"].

(** What is configured for a setting: the fields, and the first parts of the options.  Empty is not configured. *)
Definition configures (user password host : string) (port : option string) (db : string) (options : smap string)
    (k : string) (r : option string) : Prop :=
  if (k =? "user")%string then r = unless_empty user
  else if (k =? "password")%string then r = unless_empty password
  else if (k =? "host")%string then r = unless_empty host
  else if (k =? "port")%string then r = port
  else if (k =? "dbname")%string then r = unless_empty db
  else match options k with
       | Some v => exists p, leads v p /\ r = unless_empty p
       | None => r = None
       end.

Definition or_else (a b : option string) : option string := match a with Some _ => a | None => b end.
(** The driver's own value, unless the environment says something. *)
Definition otherwise (env : smap string) (k : string) : option string :=
  or_else (env k) (if (k =? "host")%string then Some "localhost" else if (k =? "port")%string then Some "5432"
                   else if (k =? "extra_float_digits")%string then Some "2" else None).

(** Names of UTF-8: its letters and digits are "utf8" or "unicode", in any case. *)
Definition letters_digits (s : string) : string :=
  String.string_of_list_ascii (filter (fun c => if in_dec ascii_dec c (uppers ++ lowers ++ String.list_ascii_of_string "0123456789") then true else false)
                                  (String.list_ascii_of_string s)).
Definition utf8_name (s : string) : Prop := to_lower (letters_digits s) = "utf8" \/ to_lower (letters_digits s) = "unicode".

(** [m] says what each setting is before the driver's last changes.  The driver accepts it ... *)
Definition acceptable (os_user : option string) (m : string -> option string) : Prop :=
  (forall e, m "client_encoding" = Some e -> utf8_name e) /\
  (forall d, m "datestyle" = Some d -> d = "ISO, MDY") /\
  (m "user" = None -> os_user <> None).
(** ... and makes of it: *)
Definition completed (os_user : option string) (m : string -> option string) (k : string) : option string :=
  if (k =? "client_encoding")%string then Some "UTF8"
  else if (k =? "datestyle")%string then Some "ISO, MDY"
  else if (k =? "user")%string then or_else (m k) os_user
  else if (k =? "application_name")%string then or_else (m k) (m "fallback_application_name")
  else m k.
