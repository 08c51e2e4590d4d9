(** Executable model of the connection configs (/repo/confs/{mysql,oracle,postgresql,redis,es,
    fasthttpclient}.go and
    the printing of confs/pprof.go).

    Maps are total functions into [option] ([smap]).  Drivers, files and time zones are inputs.
    Pinging the server and logging are not modelled. *)
From Verif Require Import Common Bytes ProcsModel.
Local Open Scope string_scope.
Local Open Scope list_scope.
Local Open Scope Z_scope.

(** * fmt.Sprintf *)

Inductive arg := AStr (s : string) | AInt (z : Z) | ABool (b : bool) | ADur (z : Z).

(** How an argument is printed by %s, %d and %v; [dur] is time.Duration.String. *)
Definition show (dur : Z -> string) (a : arg) : string :=
  match a with
  | AStr s => s
  | AInt z => itoa z
  | ABool true => "true"
  | ABool false => "false"
  | ADur z => dur z
  end.

(** fmt.Sprintf for formats with one-letter verbs. *)
Fixpoint sprintf (dur : Z -> string) (fmt : string) (args : list arg) : string :=
  match fmt with
  | String.EmptyString => match args with [] => "" | _ => "%!(EXTRA)" end
  | String.String c fmt' =>
    if Ascii.eqb c "%" then
      match fmt' with
      | String.EmptyString => "%!(NOVERB)"
      | String.String v fmt'' =>
        match args with
        | [] => ("%!" ++ String.String v "(MISSING)" ++ sprintf dur fmt'' [])%string
        | a :: args' => (show dur a ++ sprintf dur fmt'' args')%string
        end
      end
    else String.String c (sprintf dur fmt' args)
  end.

(** * strings and net/url *)

(** strings.Split for a separator of one character. *)
Fixpoint split (c : ascii) (s : string) : list string :=
  match s with
  | String.EmptyString => [""]
  | String.String x s' =>
    if Ascii.eqb x c then "" :: split c s'
    else match split c s' with
         | p :: ps => String.String x p :: ps
         | [] => [String.String x ""]
         end
  end.

(** strings.TrimSpace on ASCII text (other Unicode white space is not modelled). *)
Definition is_space (c : ascii) : bool := ((9 <=? byte c) && (byte c <=? 13)) || (byte c =? 32).
Fixpoint trim_front (f : ascii -> bool) (s : string) : string :=
  match s with
  | String.EmptyString => ""
  | String.String c s' => if f c then trim_front f s' else s
  end.
Fixpoint trim_back (f : ascii -> bool) (s : string) : string :=
  match s with
  | String.EmptyString => ""
  | String.String c s' =>
    match trim_back f s' with
    | String.EmptyString => if f c then "" else String.String c ""
    | r => String.String c r
    end
  end.
Definition trim_space (s : string) : string := trim_back is_space (trim_front is_space s).

(** net/url ishex, unhex. *)
Definition hex_value (c : ascii) : option Z :=
  let b := byte c in
  if (48 <=? b) && (b <=? 57) then Some (b - 48)
  else if (97 <=? b) && (b <=? 102) then Some (b - 97 + 10)
  else if (65 <=? b) && (b <=? 70) then Some (b - 65 + 10)
  else None.
Definition char_of (z : Z) : ascii := ascii_of_N (Z.to_N z).

(** url.QueryUnescape; [None]: an error. *)
Fixpoint query_unescape (s : string) : option string :=
  match s with
  | String.EmptyString => Some ""
  | String.String c s' =>
    if Ascii.eqb c "%" then
      match s' with
      | String.String a (String.String b s'') =>
        match hex_value a, hex_value b, query_unescape s'' with
        | Some x, Some y, Some r => Some (String.String (char_of (x * 16 + y)) r)
        | _, _, _ => None
        end
      | _ => None
      end
    else
      match query_unescape s' with
      | Some r => Some (String.String (if Ascii.eqb c "+" then " " else c) r)
      | None => None
      end
  end.

(** url.QueryEscape. *)
Definition unreserved (c : ascii) : bool :=
  let b := byte c in
  ((48 <=? b) && (b <=? 57)) || ((65 <=? b) && (b <=? 90)) || ((97 <=? b) && (b <=? 122)) ||
  Ascii.eqb c "-" || Ascii.eqb c "_" || Ascii.eqb c "." || Ascii.eqb c "~".
Definition upper_hex (z : Z) : ascii := if z <? 10 then char_of (48 + z) else char_of (65 + z - 10).
Fixpoint query_escape (s : string) : string :=
  match s with
  | String.EmptyString => ""
  | String.String c s' =>
    if unreserved c then String.String c (query_escape s')
    else if Ascii.eqb c " " then String.String "+" (query_escape s')
    else String.String "%" (String.String (upper_hex (byte c / 16))
           (String.String (upper_hex (byte c mod 16)) (query_escape s')))
  end.

(** The loop over Params that is the same in mysql.go:167-180, oracle.go:110-123 and
    postgresql.go:113-126; [options] is the map that is filled. *)
Definition params_loop (options : smap string) (items : list string) : smap string :=
  fold_left (fun options str =>
    match split "=" str with
    | [k; e] =>
      match query_unescape e with
      | Some v => mset options k v
      | None => options
      end
    | _ => options
    end) items options.
Definition add_params (options : smap string) (params : string) : smap string :=
  if (params =? "")%string then options else params_loop options (split "&" params).

(** The pool settings of a sql.DB: SetMaxOpenConns, SetMaxIdleConns, SetConnMaxLifetime. *)
Record pool := mkPool { p_open : Z; p_idle : Z; p_life : Z }.

(** * MySQL *)

(** confs/mysql.go:65-84 *)
Record mysql_conf := mkMysql {
  my_host : string; my_port : Z; my_user : string; my_pass : string; my_db : string;
  my_open : Z; my_idle : Z; my_life : Z;
  my_read : Z; my_write : Z; my_timeout : Z;
  my_loc : string; my_parse : bool; my_params : string }.

(** confs/mysql.go:86-90 *)
Definition mysql_string (dur : Z -> string) (m : mysql_conf) : string :=
  sprintf dur "{Host: %s, Port: %d, Username: ***, Password: ***, Database: %s, MaxOpenConns: %v, MaxIdleConns: %v, ConnMaxLifetime: %v, ReadTimeout: %v, WriteTimeout: %v, Timeout: %v, Loc: %v, ParseTime: %v, Params: %v}"
    [AStr (my_host m); AInt (my_port m); AStr (my_db m); AInt (my_idle m); AInt (my_idle m); ADur (my_life m); ADur (my_read m);
     ADur (my_write m); ADur (my_timeout m); AStr (my_loc m); ABool (my_parse m); AStr (my_params m)].

(** The fields of mysql.Config that are set; [mn_loc] is [None] for the driver's default. *)
Record mysql_native := mkMysqlNative {
  mn_user : string; mn_passwd : string; mn_net : string; mn_addr : string; mn_db : string;
  mn_timeout : Z; mn_read : Z; mn_write : Z;
  mn_loc : option string; mn_parse : bool; mn_params : smap string }.

(** confs/mysql.go:146-186 prepareMySqlNativeConfig.  [zone]: whether time.LoadLocation finds a zone.
    [None]: the process ends. *)
Definition mysql_prepare (zone : string -> bool) (conf : mysql_conf)
  (customizer : option (mysql_native -> mysql_native)) : option mysql_native :=
  let loc :=
    if (my_loc conf =? "")%string then Some None
    else if zone (my_loc conf) then Some (Some (my_loc conf)) else None in
  match loc with
  | None => None
  | Some loc =>
    let mc := mkMysqlNative (my_user conf) (my_pass conf) "tcp"
                (sprintf itoa "%s:%d" [AStr (my_host conf); AInt (my_port conf)]) (my_db conf)
                (my_timeout conf) (my_read conf) (my_write conf) loc (my_parse conf)
                (add_params mempty (my_params conf)) in
    Some (match customizer with Some f => f mc | None => mc end)
  end.

(** confs/mysql.go:104-106 and 132-134 *)
Definition mysql_pool (conf : mysql_conf) : pool := mkPool (my_open conf) (my_idle conf) (my_life conf).

(** * Oracle *)

(** confs/oracle.go:45-59 *)
Record oracle_conf := mkOracle {
  or_host : string; or_port : Z; or_user : string; or_pass : string;
  or_service : string; or_sid : string; or_servers : string; or_timeout : Z; or_params : string;
  or_open : Z; or_idle : Z; or_life : Z }.

(** confs/oracle.go:61-65 *)
Definition oracle_string (dur : Z -> string) (c : oracle_conf) : string :=
  sprintf dur "{Host: %s, Port: %d, Username: ***, Password: ***, Service: %s, Sid: %s, Servers: %s, MaxOpenConns: %v, MaxIdleConns: %v, ConnMaxLifetime: %v, ConnectTimeout: %v, Params: %v}"
    [AStr (or_host c); AInt (or_port c); AStr (or_service c); AStr (or_sid c); AStr (or_servers c); AInt (or_idle c); AInt (or_idle c);
     ADur (or_life c); AInt (or_timeout c); AStr (or_params c)].

(** confs/oracle.go:92-126 prepareUrlOptions.  [None]: a panic. *)
Definition oracle_options (conf : oracle_conf) (customizer : option (smap string -> smap string))
  : option (smap string) :=
  if (or_sid conf =? "")%string && (or_service conf =? "")%string then None
  else
    let o := mempty in
    let o := if (or_sid conf =? "")%string then o else mset o "SID" (or_sid conf) in
    let o := if (or_servers conf =? "")%string then o else mset o "server" (or_servers conf) in
    let o := if or_timeout conf =? 0 then o else mset o "CONNECTION TIMEOUT" (itoa (or_timeout conf)) in
    let o := match customizer with Some f => f o | None => o end in
    Some (add_params o (or_params conf)).

(** confs/oracle.go:78-80 and 140-142 *)
Definition oracle_pool (conf : oracle_conf) : pool := mkPool (or_open conf) (or_idle conf) (or_life conf).

(** * PostgreSQL *)

(** confs/postgresql.go:45-57 *)
Record pg_conf := mkPg {
  pg_host : string; pg_port : Z; pg_user : string; pg_pass : string; pg_db : string;
  pg_timeout : Z; pg_params : string;
  pg_open : Z; pg_idle : Z; pg_life : Z }.

(** confs/postgresql.go:59-63 *)
Definition pg_string (dur : Z -> string) (c : pg_conf) : string :=
  sprintf dur "{Host: %s, Port: %d, Username: ***, Password: ***, Database: %s, MaxOpenConns: %v, MaxIdleConns: %v, ConnMaxLifetime: %v, ConnectTimeout: %v, Params: %v}"
    [AStr (pg_host c); AInt (pg_port c); AStr (pg_db c); AInt (pg_idle c); AInt (pg_idle c);
     ADur (pg_life c); AInt (pg_timeout c); AStr (pg_params c)].

(** confs/postgresql.go:103-129 preparePgUrlOptions *)
Definition pg_options (conf : pg_conf) (customizer : option (smap string -> smap string)) : smap string :=
  let o := mempty in
  let o := if pg_timeout conf =? 0 then o else mset o "connect_timeout" (itoa (pg_timeout conf)) in
  let o := match customizer with Some f => f o | None => o end in
  add_params o (pg_params conf).

(** confs/postgresql.go:90-101 buildPgDsn.  [options] lists the map in the order in which it is ranged
    over, which is any order. *)
Definition pg_dsn (conf : pg_conf) (options : list (string * string)) : string :=
  let ret := sprintf itoa "postgres://%s:%s@%s:%d/%s?"
    [AStr (pg_user conf); AStr (pg_pass conf); AStr (pg_host conf); AInt (pg_port conf); AStr (pg_db conf)] in
  let ret := fold_left (fun ret kv =>
    fold_left (fun ret temp =>
        (ret ++ sprintf itoa "%s=%s&" [AStr (fst kv); AStr (query_escape (trim_space temp))])%string)
      (split "," (trim_space (snd kv))) ret) options ret in
  trim_back (Ascii.eqb "&") ret.

(** confs/postgresql.go:76-78 and 144-146 *)
Definition pg_pool (conf : pg_conf) : pool := mkPool (pg_open conf) (pg_idle conf) (pg_life conf).

(** * Redis *)

(** confs/redis.go:37-44 *)
Record redis_conf := mkRedis {
  re_host : string; re_port : Z; re_pass : string; re_pool : Z; re_min_idle : Z; re_db : Z }.

(** confs/redis.go:63-66 *)
Definition redis_string (dur : Z -> string) (r : redis_conf) : string :=
  sprintf dur "{Host: %s, Port: %d, Password: ***, Pool: %d, MinIdle: %d}"
    [AStr (re_host r); AInt (re_port r); AInt (re_pool r); AInt (re_min_idle r)].

(** The fields of redis.Options that are set. *)
Record redis_native := mkRedisNative {
  rn_addr : string; rn_password : string; rn_pool : Z; rn_min_idle : Z; rn_db : Z }.

(** confs/redis.go:68-80 prepareRedisNativeConfig *)
Definition redis_prepare (rc : redis_conf) (customizer : option (redis_native -> redis_native)) : redis_native :=
  let o := mkRedisNative (re_host rc ++ ":" ++ itoa (re_port rc))%string (re_pass rc) (re_pool rc)
             (re_min_idle rc) (re_db rc) in
  match customizer with Some f => f o | None => o end.

(** * Elasticsearch *)

(** confs/es.go:13-19 *)
Record es_conf := mkEs {
  es_addrs : string; es_user : string; es_pass : string; es_conns : Z; es_idle : Z }.

(** confs/es.go:21-24 *)
Definition es_string (dur : Z -> string) (m : es_conf) : string :=
  sprintf dur "{Addrs: %s, Username: ***, Password: ***, MaxConnsPerHost: %v, MaxIdleConnsPerHost: %v}"
    [AStr (es_addrs m); AInt (es_conns m); AInt (es_idle m)].

(** The fields of http.Transport that matter; http.DefaultTransport has 100 for [tr_idle] and 0
    (no limit, respectively the default of 2) for the others. *)
Record transport := mkTransport {
  tr_conns_per_host : Z; tr_idle_per_host : Z; tr_idle : Z; tr_header_timeout : Z }.
Record es_native := mkEsNative {
  en_addrs : list string; en_user : string; en_pass : string; en_transport : transport }.

(** confs/es.go:28-44 NewEsClient up to the creation of the client. *)
Definition es_prepare (conf : es_conf) (customizer : option (es_native -> es_native)) : es_native :=
  let tr := mkTransport 0 0 100 0 in
  let tr := mkTransport (tr_conns_per_host tr) (es_conns conf) (tr_idle tr) (tr_header_timeout tr) in
  let tr := mkTransport (tr_conns_per_host tr) (tr_idle_per_host tr) (es_idle conf) (tr_header_timeout tr) in
  let tr := mkTransport (tr_conns_per_host tr) (tr_idle_per_host tr) (tr_idle tr) (60 * 1000000000) in
  let c := mkEsNative (split "," (es_addrs conf)) (es_user conf) (es_pass conf) tr in
  match customizer with Some f => f c | None => c end.

(** * pprof *)

(** confs/pprof.go:32-37 *)
Record pprof_conf := mkPprof { pp_user : string; pp_pass : string; pp_block : Z; pp_mutex : Z }.

(** confs/pprof.go:39-42 *)
Definition pprof_string (dur : Z -> string) (p : pprof_conf) : string :=
  sprintf dur "{Username: ***, Password: ***, BlockProfileRate: %d, MutexProfileFraction: %d}"
    [AInt (pp_block p); AInt (pp_mutex p)].

(** * HTTP client *)

(** confs/fasthttpclient.go:57-69 *)
Record http_conf := mkHttp {
  hc_cert_chain : string; hc_private_key : string; hc_trust_mode : string; hc_trust_certs : string;
  hc_read : Z; hc_write : Z; hc_conn : Z; hc_conns_per_host : Z; hc_idle : Z; hc_wait : Z }.

(** confs/fasthttpclient.go:71-76 *)
Definition http_string (dur : Z -> string) (c : http_conf) : string :=
  sprintf dur "{CertChain: %s, PrivateKey: %s, SslTrustMode: %s, SslTrustCerts: %s, ReadTimeout:%s, WriteTimeout: %s, MaxConnDuration: %s, MaxConnsPerHost: %d, MaxIdleConnDuration: %s, MaxConnWaitTimeout: %s}"
    [AStr (hc_cert_chain c); AStr (hc_private_key c); AStr (hc_trust_mode c); AStr (hc_trust_certs c);
     ADur (hc_read c); ADur (hc_write c); ADur (hc_conn c); AInt (hc_conns_per_host c);
     ADur (hc_idle c); ADur (hc_wait c)].

(** tls.Config: the client certificate, the pool of root certificates ([None]: the host's) and
    InsecureSkipVerify.  Certificates are what was loaded from the files. *)
Record tls_config := mkTls {
  tls_cert : option nat; tls_roots : option (list nat); tls_insecure : bool }.
Record http_client := mkClient {
  cl_tls : option tls_config;
  cl_conns_per_host : Z; cl_idle : Z; cl_conn : Z; cl_read : Z; cl_write : Z; cl_wait : Z }.

(** appendCertPool over the files, confs/fasthttpclient.go:96-98 and 124-132.  [read]: the certificates
    in a file; [None] if it cannot be read or has none (the process ends). *)
Fixpoint append_certs (read : string -> option (list nat)) (pool : list nat) (files : list string)
  : option (list nat) :=
  match files with
  | [] => Some pool
  | f :: files' =>
    match read f with
    | Some cs => append_certs read (pool ++ cs) files'
    | None => None
    end
  end.

(** confs/fasthttpclient.go:80-122 NewFastHttpClient.  [load]: tls.LoadX509KeyPair.  [None]: a panic or
    the end of the process. *)
Definition new_http_client (load : string -> string -> option nat) (read : string -> option (list nat))
  (c : http_conf) (customizer : option (http_client -> http_client)) : option http_client :=
  let step1 :=
    if negb (hc_cert_chain c =? "")%string || negb (hc_private_key c =? "")%string then
      match load (hc_cert_chain c) (hc_private_key c) with
      | Some kp => Some (mkTls (Some kp) None false, true)
      | None => None
      end
    else Some (mkTls None None false, false) in
  match step1 with
  | None => None
  | Some (t, configured) =>
    let step2 :=
      if (hc_trust_mode c =? "CUSTOM")%string && negb (hc_trust_certs c =? "")%string then
        match append_certs read [] (split "," (hc_trust_certs c)) with
        | Some pool => Some (mkTls (tls_cert t) (Some pool) (tls_insecure t), configured)
        | None => None
        end
      else if (hc_trust_mode c =? "INSECURE")%string then
        Some (mkTls (tls_cert t) (tls_roots t) true, true)
      else Some (t, configured) in
    match step2 with
    | None => None
    | Some (t, configured) =>
      let client := mkClient (if configured then Some t else None)
        (hc_conns_per_host c) (hc_idle c) (hc_conn c) (hc_read c) (hc_write c) (hc_wait c) in
      Some (match customizer with Some f => f client | None => client end)
    end
  end.
