(** Specification of the connection configs: labelled values, url-encoded parameters, connection urls,
    trust in servers. *)
From Verif Require Import Common Bytes ProcsModel ConfNamesSpec ConfsModel.
Local Open Scope string_scope.
Local Open Scope list_scope.
Local Open Scope Z_scope.

(** * String() *)

(** "{A: x, B: y}" *)
Definition labelled (items : list (string * string)) : string :=
  ("{" ++ String.concat ", " (map (fun x => fst x ++ " " ++ snd x)%string items) ++ "}")%string.
Definition show_bool (b : bool) : string := if b then "true" else "false".
Definition hidden : string := "***".

Definition mysql_items (dur : Z -> string) (m : mysql_conf) : list (string * string) :=
  [("Host:", my_host m); ("Port:", itoa (my_port m)); ("Username:", hidden); ("Password:", hidden);
   ("Database:", my_db m); ("MaxOpenConns:", itoa (my_open m)); ("MaxIdleConns:", itoa (my_idle m));
   ("ConnMaxLifetime:", dur (my_life m)); ("ReadTimeout:", dur (my_read m)); ("WriteTimeout:", dur (my_write m));
   ("Timeout:", dur (my_timeout m)); ("Loc:", my_loc m); ("ParseTime:", show_bool (my_parse m)); ("Params:", my_params m)].
Definition oracle_items (dur : Z -> string) (c : oracle_conf) : list (string * string) :=
  [("Host:", or_host c); ("Port:", itoa (or_port c)); ("Username:", hidden); ("Password:", hidden);
   ("Service:", or_service c); ("Sid:", or_sid c); ("Servers:", or_servers c);
   ("MaxOpenConns:", itoa (or_open c)); ("MaxIdleConns:", itoa (or_idle c)); ("ConnMaxLifetime:", dur (or_life c));
   ("ConnectTimeout:", itoa (or_timeout c)); ("Params:", or_params c)].
Definition pg_items (dur : Z -> string) (c : pg_conf) : list (string * string) :=
  [("Host:", pg_host c); ("Port:", itoa (pg_port c)); ("Username:", hidden); ("Password:", hidden);
   ("Database:", pg_db c); ("MaxOpenConns:", itoa (pg_open c)); ("MaxIdleConns:", itoa (pg_idle c));
   ("ConnMaxLifetime:", dur (pg_life c)); ("ConnectTimeout:", itoa (pg_timeout c)); ("Params:", pg_params c)].
Definition redis_items (r : redis_conf) : list (string * string) :=
  [("Host:", re_host r); ("Port:", itoa (re_port r)); ("Password:", hidden); ("Pool:", itoa (re_pool r));
   ("MinIdle:", itoa (re_min_idle r))].
Definition es_items (m : es_conf) : list (string * string) :=
  [("Addrs:", es_addrs m); ("Username:", hidden); ("Password:", hidden);
   ("MaxConnsPerHost:", itoa (es_conns m)); ("MaxIdleConnsPerHost:", itoa (es_idle m))].
Definition pprof_items (p : pprof_conf) : list (string * string) :=
  [("Username:", hidden); ("Password:", hidden); ("BlockProfileRate:", itoa (pp_block p)); ("MutexProfileFraction:", itoa (pp_mutex p))].
(** ReadTimeout is printed without a space. *)
Definition http_items (dur : Z -> string) (c : http_conf) : list (string * string) :=
  [("CertChain:", hc_cert_chain c); ("PrivateKey:", hc_private_key c); ("SslTrustMode:", hc_trust_mode c);
   ("SslTrustCerts:", (hc_trust_certs c ++ ", ReadTimeout:" ++ dur (hc_read c))%string); ("WriteTimeout:", dur (hc_write c));
   ("MaxConnDuration:", dur (hc_conn c)); ("MaxConnsPerHost:", itoa (hc_conns_per_host c));
   ("MaxIdleConnDuration:", dur (hc_idle c)); ("MaxConnWaitTimeout:", dur (hc_wait c))].

(** The same config with other credentials. *)
Definition mysql_creds (m : mysql_conf) (user pass : string) : mysql_conf :=
  mkMysql (my_host m) (my_port m) user pass (my_db m) (my_open m) (my_idle m) (my_life m) (my_read m) (my_write m)
    (my_timeout m) (my_loc m) (my_parse m) (my_params m).
Definition oracle_creds (c : oracle_conf) (user pass : string) : oracle_conf :=
  mkOracle (or_host c) (or_port c) user pass (or_service c) (or_sid c) (or_servers c) (or_timeout c) (or_params c)
    (or_open c) (or_idle c) (or_life c).
Definition pg_creds (c : pg_conf) (user pass : string) : pg_conf :=
  mkPg (pg_host c) (pg_port c) user pass (pg_db c) (pg_timeout c) (pg_params c) (pg_open c) (pg_idle c) (pg_life c).
Definition redis_creds (r : redis_conf) (pass : string) : redis_conf :=
  mkRedis (re_host r) (re_port r) pass (re_pool r) (re_min_idle r) (re_db r).
Definition es_creds (m : es_conf) (user pass : string) : es_conf :=
  mkEs (es_addrs m) user pass (es_conns m) (es_idle m).
Definition pprof_creds (p : pprof_conf) (user pass : string) : pprof_conf :=
  mkPprof user pass (pp_block p) (pp_mutex p).

(** * Params *)

(** [s] consists of [parts], separated by [c]. *)
Definition cuts (c : ascii) (s : string) (parts : list string) : Prop :=
  parts <> [] /\ s = String.concat (String.String c "") parts /\ forall p, In p parts -> ~ mentions c p.

Definition hex_digits (c1 c2 : ascii) (z : Z) : Prop :=
  exists x y, hex_value c1 = Some x /\ hex_value c2 = Some y /\ z = x * 16 + y.

(** Url-encoded text and what it stands for. *)
Inductive unescapes : string -> string -> Prop :=
| unescapes_end : unescapes "" ""
| unescapes_plus s r : unescapes s r -> unescapes (String.String "+" s) (String.String " " r)
| unescapes_hex a b c s r :
    hex_digits a b (byte c) -> unescapes s r ->
    unescapes (String.String "%" (String.String a (String.String b s))) (String.String c r)
| unescapes_char c s r :
    c <> "+"%char -> c <> "%"%char -> unescapes s r -> unescapes (String.String c s) (String.String c r).

(** A well-formed item "k=v". *)
Definition item_says (item k v : string) : Prop :=
  exists e, item = (k ++ "=" ++ e)%string /\ ~ mentions "=" k /\ ~ mentions "=" e /\ unescapes e v.

(** What the last well-formed item for [k] says. *)
Definition params_say (params k v : string) : Prop :=
  exists before item after, cuts "&" params (before ++ item :: after) /\ item_says item k v /\
    forall item' v', In item' after -> ~ item_says item' k v'.

(** [m] holds exactly what [base] holds, overridden by what Params says. *)
Definition overridden (base : smap string) (params : string) (m : smap string) : Prop :=
  forall k, (forall v, params_say params k v -> m k = Some v) /\
            ((forall v, ~ params_say params k v) -> m k = base k).

(** Params made from keys and values by url-encoding the values. *)
Definition params_of (kvs : list (string * string)) : string :=
  String.concat "&" (map (fun kv => fst kv ++ "=" ++ query_escape (snd kv))%string kvs).
Fixpoint last_value (kvs : list (string * string)) (k : string) : option string :=
  match kvs with
  | [] => None
  | (k', v) :: kvs' =>
    match last_value kvs' k with
    | Some v' => Some v'
    | None => if (k =? k')%string then Some v else None
    end
  end.

(** * Connection urls *)

(** Up to and after the first [c]. *)
Fixpoint cut_first (c : ascii) (s : string) : string * option string :=
  match s with
  | String.EmptyString => ("", None)
  | String.String x s' =>
    if Ascii.eqb x c then ("", Some s')
    else let '(a, b) := cut_first c s' in (String.String x a, b)
  end.
(** Up to and after the last [c]. *)
Fixpoint cut_last (c : ascii) (s : string) : option (string * string) :=
  match s with
  | String.EmptyString => None
  | String.String x s' =>
    match cut_last c s' with
    | Some (a, b) => Some (String.String x a, b)
    | None => if Ascii.eqb x c then Some ("", s') else None
    end
  end.
Definition strip_prefix (p s : string) : option string :=
  if String.prefix p s then Some (String.substring (String.length p) (String.length s) s) else None.

(** The parts of a url, before percent-decoding. *)
Record url := mkUrl {
  u_user : option (string * option string); u_host : string; u_port : option string;
  u_path : string; u_query : list (string * string) }.

Definition read_query (q : string) : list (string * string) :=
  if (q =? "")%string then []
  else map (fun item => let '(k, e) := cut_first "=" item in
                        (k, match e with
                            | Some e => match query_unescape e with Some v => v | None => "" end
                            | None => ""
                            end)) (split "&" q).

(** How net/url takes a "postgres" url apart: the fragment, then the query, then the authority up to
    the first '/', in it the credentials up to the last '@', in them the name up to the first ':'. *)
Definition read_url (s : string) : option url :=
  match strip_prefix "postgres://" (fst (cut_first "#" s)) with
  | None => None
  | Some rest =>
    let '(hier, query) := cut_first "?" rest in
    let '(authority, path) := cut_first "/" hier in
    let '(userinfo, hostport) :=
      match cut_last "@" authority with Some (u, h) => (Some u, h) | None => (None, authority) end in
    let '(host, port) :=
      match cut_last ":" hostport with Some (h, p) => (h, Some p) | None => (hostport, None) end in
    Some (mkUrl (option_map (cut_first ":") userinfo) host port
            (match path with Some p => p | None => "" end)
            (match query with Some q => read_query q | None => [] end))
  end.

(** Text of characters that mean nothing in a url: letters, digits, "-", "_", "." and "~". *)
Fixpoint plain (s : string) : Prop :=
  match s with
  | String.EmptyString => True
  | String.String c s' => unreserved c = true /\ plain s'
  end.

(** White space: tab, line feed, vertical tab, form feed, carriage return and blank. *)
Definition white (c : ascii) : Prop := In (byte c) [9; 10; 11; 12; 13; 32].
(** [s] is [core] between white space, and [core] neither begins nor ends with it; no commas. *)
Definition padded (s core : string) : Prop :=
  ~ mentions "," s /\
  (exists a b, s = (a ++ core ++ b)%string /\ (forall c, mentions c a \/ mentions c b -> white c)) /\
  (forall c r, core = String.String c r -> ~ white c) /\ (forall c r, core = (r ++ String.String c "")%string -> ~ white c).

(** * Trust *)

(** What a client does when it talks to a server; without a TLS config it does what the defaults say. *)
Definition verifies (c : http_client) : bool :=
  match cl_tls c with Some t => negb (tls_insecure t) | None => true end.
Definition roots (c : http_client) : option (list nat) :=
  match cl_tls c with Some t => tls_roots t | None => None end.
Definition own_cert (c : http_client) : option nat :=
  match cl_tls c with Some t => tls_cert t | None => None end.

(** The certificates of all the files. *)
Inductive all_certs (read : string -> option (list nat)) : list string -> list nat -> Prop :=
| all_certs_end : all_certs read [] []
| all_certs_file f cs fs cs' : read f = Some cs -> all_certs read fs cs' -> all_certs read (f :: fs) (cs ++ cs').

(** * Driver options *)

Definition unless_empty (s : string) : option string := if (s =? "")%string then None else Some s.
Definition unless_zero (z : Z) : option string := if z =? 0 then None else Some (itoa z).

(** The options that stem from the fields of the config. *)
Definition oracle_own (conf : oracle_conf) (k : string) : option string :=
  if (k =? "SID")%string then unless_empty (or_sid conf)
  else if (k =? "server")%string then unless_empty (or_servers conf)
  else if (k =? "CONNECTION TIMEOUT")%string then unless_zero (or_timeout conf)
  else None.
Definition pg_own (conf : pg_conf) (k : string) : option string :=
  if (k =? "connect_timeout")%string then unless_zero (pg_timeout conf) else None.

Definition custom {A} (customizer : option (A -> A)) (x : A) : A :=
  match customizer with Some f => f x | None => x end.

(** A client certificate is configured. *)
Definition has_cert (c : http_conf) : Prop := hc_cert_chain c <> "" \/ hc_private_key c <> "".
(** A pool of roots is configured. *)
Definition has_roots (c : http_conf) : Prop := hc_trust_mode c = "CUSTOM" /\ hc_trust_certs c <> "".
