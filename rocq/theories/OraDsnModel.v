(** Executable model of the way of an Oracle configuration to the driver: the connection url that
    /repo/confs/oracle.go:69-70 and 130-131 (NewOracleDb, NewOracleDbWithTracer) have built by BuildUrl of
    github.com/sijms/go-ora/v2 (the version in /repo/go.mod), read by newConnectionStringFromUrl of that driver with
    net/url and net of the Go standard library.  The source of the driver is not in the repo.
    Simplifications: keys are ASCII, white space is ASCII white space; the host is written as it is (BuildUrl escapes it
    or puts brackets around IPv6 addresses, depending on the version). *)
From Verif Require Import Common Bytes ProcsModel ConfsModel RsaModel UrlModel PgDsnModel.
Local Open Scope string_scope.
Local Open Scope list_scope.
Local Open Scope Z_scope.

(** url.PathEscape *)
Definition segment_plain (c : ascii) : bool := unreserved c || one_of "$&+=:@" c.
Fixpoint path_escape (s : string) : string :=
  match s with
  | String.EmptyString => ""
  | String.String c s' =>
    if segment_plain c then String.String c (path_escape s')
    else String.String "%" (String.String (upper_hex (byte c / 16))
           (String.String (upper_hex (byte c mod 16)) (path_escape s')))
  end.

(** strings.ToUpper(key) == "SERVER" *)
Definition is_server (k : string) : bool := (lower_text k =? "server")%string.
Definition option_text (k temp : string) : string :=
  sprintf itoa "%s=%s&" [AStr k; AStr (if is_server k then trim_space temp else query_escape (trim_space temp))].

(** BuildUrl; [options] lists the map in the order in which it is ranged over, which is any order. *)
Definition build_url (conf : oracle_conf) (options : list (string * string)) : string :=
  let ret := sprintf itoa "oracle://%s:%s@%s:%d/%s?"
    [AStr (path_escape (or_user conf)); AStr (path_escape (or_pass conf)); AStr (or_host conf); AInt (or_port conf);
     AStr (path_escape (or_service conf))] in
  let ret := fold_left (fun ret kv =>
    fold_left (fun ret temp => (ret ++ option_text (fst kv) temp)%string) (split "," (trim_space (snd kv))) ret) options ret in
  trim_back (Ascii.eqb "&") ret.

(** What the driver takes from the url: user, password, first server, service, and the query with the values of each
    key in order. *)
Record ora_conn := mkOra {
  oc_user : string; oc_pass : string; oc_host : string; oc_port : string; oc_service : string;
  oc_options : list (string * string) }.
Definition read_conn (raw : string) : option ora_conn :=
  match parse_url raw with
  | None => None
  | Some u =>
    match split_host_port (u_host u) with
    | None => None
    | Some (host, port) =>
      let '(user, pass) := match u_user u with
                           | Some (n, Some p) => (n, p)
                           | Some (n, None) => (n, "")
                           | None => ("", "")
                           end in
      let is_slash := Ascii.eqb "/" in
      Some (mkOra user pass host port (trim_back is_slash (trim_front is_slash (u_path u))) (parse_query (u_query u)))
    end
  end.
(** The servers of the option "server"; [None]: an error. *)
Fixpoint more_servers (kvs : list (string * string)) : option (list (string * string)) :=
  match kvs with
  | [] => Some []
  | (k, v) :: kvs' =>
    if is_server k && negb (trim_space v =? "")%string then
      match split_host_port (trim_space v), more_servers kvs' with
      | Some hp, Some l => Some (hp :: l)
      | _, _ => None
      end
    else more_servers kvs'
  end.
