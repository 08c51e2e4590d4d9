(** Specification of the way of a MySQL configuration to the driver: the driver gets what is configured. *)
From Verif Require Import Common Bytes ProcsModel ConfNamesSpec ConfsModel ConfsSpec MysqlDsnModel.
Local Open Scope string_scope.
Local Open Scope list_scope.
Local Open Scope Z_scope.

(** Names in Params that are settings of the driver and not variables of the MySQL session. *)
Definition settings : list string :=
  ["allowAllFiles"; "allowCleartextPasswords"; "allowNativePasswords"; "allowOldPasswords"; "checkConnLiveness"; "clientFoundRows";
   "columnsWithAlias"; "interpolateParams"; "multiStatements"; "parseTime"; "rejectReadOnly"; "collation"; "compress"; "loc";
   "readTimeout"; "serverPubKey"; "strict"; "timeout"; "tls"; "writeTimeout"; "maxAllowedPacket"].
Definition switches : list string := firstn 11 settings.

(** [ps] lists the entries of [m], in any order. *)
Definition lists (ps : list (string * string)) (m : smap string) : Prop :=
  NoDup (map fst ps) /\ forall k v, In (k, v) ps <-> m k = Some v.

Definition int64 (z : Z) : Prop := - 2 ^ 63 <= z < 2 ^ 63.
Definition durations_ok (conf : mysql_conf) : Prop := int64 (my_timeout conf) /\ int64 (my_read conf) /\ int64 (my_write conf).

(** A name, an IPv4 address, or an IPv6 address in brackets. *)
Definition good_host (h : string) : Prop :=
  (~ mentions ":" h /\ ~ mentions "[" h /\ ~ mentions "]" h) \/
  (exists x, h = ("[" ++ x ++ "]")%string /\ ~ mentions "[" x /\ ~ mentions "]" x).

(** What the text has room for.  The password may be any text. *)
Definition plain_target (conf : mysql_conf) : Prop :=
  ~ mentions "@" (my_host conf) /\ ~ mentions "/" (my_db conf) /\ ~ mentions "?" (my_db conf).
Definition plain_user (conf : mysql_conf) : Prop := ~ mentions ":" (my_user conf) /\ (my_user conf = "" -> my_pass conf = "").

Definition address (conf : mysql_conf) : string := (my_host conf ++ ":" ++ itoa (my_port conf))%string.
Definition the_zone (l : string) : string := if (l =? "")%string then "UTC" else l.
Definition own_switch (conf : mysql_conf) (k : string) : option bool :=
  if (k =? "parseTime")%string then (if my_parse conf then Some true else None)
  else if (k =? "allowNativePasswords")%string || (k =? "checkConnLiveness")%string then Some true else None.

(** The driver has exactly the configured values, and its own defaults for the rest. *)
Record delivered (conf : mysql_conf) (m : smap string) (c : driver_config) : Prop := {
  del_user : g_user c = my_user conf;
  del_pass : g_passwd c = my_pass conf;
  del_net : g_net c = "tcp";
  del_addr : g_addr c = address conf;
  del_db : g_db c = my_db conf;
  del_timeout : g_timeout c = Z.max 0 (my_timeout conf);
  del_read : g_read c = Z.max 0 (my_read conf);
  del_write : g_write c = Z.max 0 (my_write conf);
  del_loc : g_loc c = the_zone (my_loc conf);
  del_switch : forall k, g_flags c k = own_switch conf k;
  del_params : forall k, g_params c k = m k;
  del_rest : g_collation c = "utf8mb4_general_ci" /\ g_packet c = 4194304 /\ g_pubkey c = "" /\ g_tls c = "" }.

(** The same when Params names settings of the driver: they win over the fields of the config.  [parse_dur]:
    time.ParseDuration. *)
Record delivered_with (parse_dur : string -> option Z) (conf : mysql_conf) (m : smap string) (c : driver_config) : Prop := {
  dw_user : g_user c = my_user conf;
  dw_pass : g_passwd c = my_pass conf;
  dw_net : g_net c = "tcp";
  dw_addr : g_addr c = address conf;
  dw_db : g_db c = my_db conf;
  dw_timeout : match m "timeout" with Some v => parse_dur (query_escape v) = Some (g_timeout c) | None => g_timeout c = Z.max 0 (my_timeout conf) end;
  dw_read : match m "readTimeout" with Some v => parse_dur (query_escape v) = Some (g_read c) | None => g_read c = Z.max 0 (my_read conf) end;
  dw_write : match m "writeTimeout" with Some v => parse_dur (query_escape v) = Some (g_write c) | None => g_write c = Z.max 0 (my_write conf) end;
  dw_loc : g_loc c = the_zone (match m "loc" with Some l => l | None => my_loc conf end);
  dw_switch : forall k, In k switches ->
    match m k with
    | Some v => In (v, g_flags c k) [("1", Some true); ("true", Some true); ("TRUE", Some true); ("True", Some true);
                                     ("0", Some false); ("false", Some false); ("FALSE", Some false); ("False", Some false)]
    | None => g_flags c k = own_switch conf k
    end;
  dw_params : forall k, g_params c k = if existsb (String.eqb k) settings then None else m k;
  dw_collation : g_collation c = match m "collation" with Some v => query_escape v | None => "utf8mb4_general_ci" end;
  dw_refused : m "compress" = None /\ m "strict" = None }.

(** What url escaping leaves alone. *)
Definition alphabet : string := "ABCDEFGHIJKLMNOPQRSTUVWXYZabcdefghijklmnopqrstuvwxyz0123456789-_.~".
