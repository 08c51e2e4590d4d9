(** Theorems about the connection configs (C62-C66, C70, C71).  [dur] is how durations are printed, [zone]
    which time zones exist, [load] and [read] what is in the certificate files. *)
From Verif Require Import Common Bytes ProcsModel ConfNamesSpec ConfNamesProofs ConfsModel ConfsSpec ConfsProofs.
Local Open Scope string_scope.
Local Open Scope list_scope.
Local Open Scope Z_scope.

(** Cases used below. *)
Definition demo_mysql : mysql_conf :=
  mkMysql "db.local" 3306 "root" "secret" "app" 20 5 0 1 2 3 "UTC" true "charset=utf8&x=a%20b&bad&y=%zz&x=c%2Bd".
Definition demo_oracle : oracle_conf :=
  mkOracle "ora.local" 1521 "scott" "tiger" "" "XE" "" 7 "server=b&SID=Y" 20 5 0.
Definition demo_pg : pg_conf := mkPg "pg.local" 5432 "bob" "pw" "app" 3 "sslmode=disable" 20 5 0.
Definition demo_redis : redis_conf := mkRedis "redis.local" 6379 "secret" 10 2 1.
Definition demo_es : es_conf := mkEs "http://a:9200,http://b:9200" "elastic" "secret" 50 7.

(** ** C62: credentials are not printed *)

Theorem creds_hidden :
  (forall dur m user pass, mysql_string dur (mysql_creds m user pass) = mysql_string dur m) /\
  (forall dur c user pass, oracle_string dur (oracle_creds c user pass) = oracle_string dur c) /\
  (forall dur c user pass, pg_string dur (pg_creds c user pass) = pg_string dur c) /\
  (forall dur r pass, redis_string dur (redis_creds r pass) = redis_string dur r) /\
  (forall dur m user pass, es_string dur (es_creds m user pass) = es_string dur m) /\
  (forall dur p user pass, pprof_string dur (pprof_creds p user pass) = pprof_string dur p).
Proof.
  split; [|split; [|split; [|split; [|split]]]]; intros;
    unfold mysql_string, oracle_string, pg_string, redis_string, es_string, pprof_string;
    cbn [my_host my_port my_db my_idle my_open my_life my_read my_write my_timeout my_loc my_parse my_params mysql_creds
         or_host or_port or_service or_sid or_servers or_idle or_open or_life or_timeout or_params oracle_creds
         pg_host pg_port pg_db pg_idle pg_open pg_life pg_timeout pg_params pg_creds
         re_host re_port re_pool re_min_idle redis_creds es_addrs es_conns es_idle es_creds pp_block pp_mutex pprof_creds];
    match goal with |- ?a = ?a => exact eq_refl end.
Qed.
Print Assumptions creds_hidden.

Example creds_hidden_case : mysql_string itoa demo_mysql =
  "{Host: db.local, Port: 3306, Username: ***, Password: ***, Database: app, MaxOpenConns: 5, MaxIdleConns: 5, ConnMaxLifetime: 0, ReadTimeout: 1, WriteTimeout: 2, Timeout: 3, Loc: UTC, ParseTime: true, Params: charset=utf8&x=a%20b&bad&y=%zz&x=c%2Bd}" /\
  redis_string itoa demo_redis = "{Host: redis.local, Port: 6379, Password: ***, Pool: 10, MinIdle: 2}" /\
  mysql_creds demo_mysql "x" "y" <> demo_mysql.
Proof. split; [vm_compute; reflexivity|]. split; [vm_compute; reflexivity|discriminate]. Qed.

(** ** C63: printed values are the configured ones *)

(** The printed text is that of the labelled values exactly if both limits are the same: MaxOpenConns shows
    MaxIdleConns. *)
Theorem mysql_string_iff : forall dur m,
  mysql_string dur m = labelled (mysql_items dur m) <-> my_open m = my_idle m.
Proof. exact mysql_shows. Qed.
Print Assumptions mysql_string_iff.

Theorem oracle_string_iff : forall dur c,
  oracle_string dur c = labelled (oracle_items dur c) <-> or_open c = or_idle c.
Proof. exact oracle_shows. Qed.
Print Assumptions oracle_string_iff.

Theorem pg_string_iff : forall dur c,
  pg_string dur c = labelled (pg_items dur c) <-> pg_open c = pg_idle c.
Proof. exact pg_shows. Qed.
Print Assumptions pg_string_iff.

(** The other configs print what their labels say. *)
Theorem other_strings :
  (forall dur r, redis_string dur r = labelled (redis_items r)) /\
  (forall dur m, es_string dur m = labelled (es_items m)) /\
  (forall dur p, pprof_string dur p = labelled (pprof_items p)) /\
  (forall dur c, http_string dur c = labelled (http_items dur c)).
Proof. split; [exact redis_shows|]. split; [exact es_shows|]. split; [exact pprof_shows|exact http_shows]. Qed.
Print Assumptions other_strings.

Theorem strings_refuted :
  (exists m, forall dur, mysql_string dur m <> labelled (mysql_items dur m)) /\
  (exists c, forall dur, oracle_string dur c <> labelled (oracle_items dur c)) /\
  (exists c, forall dur, pg_string dur c <> labelled (pg_items dur c)).
Proof.
  split; [exists demo_mysql; intros dur H; apply mysql_shows in H; discriminate|].
  split; [exists demo_oracle; intros dur H; apply oracle_shows in H; discriminate|].
  exists demo_pg. intros dur H. apply pg_shows in H. discriminate.
Qed.
Print Assumptions strings_refuted.

Example string_case : my_open (mkMysql "h" 1 "u" "p" "d" 5 5 0 0 0 0 "" false "") = 5 /\
  labelled (redis_items demo_redis) = "{Host: redis.local, Port: 6379, Password: ***, Pool: 10, MinIdle: 2}" /\
  labelled (es_items demo_es) =
    "{Addrs: http://a:9200,http://b:9200, Username: ***, Password: ***, MaxConnsPerHost: 50, MaxIdleConnsPerHost: 7}".
Proof. split; [reflexivity|]. split; vm_compute; reflexivity. Qed.

(** ** C64: Params *)

(** The MySQL driver gets exactly what Params says; the customizer is then applied to the whole config. *)
Theorem mysql_params : forall zone conf f n, mysql_prepare zone conf f = Some n ->
  exists n0, mysql_prepare zone conf None = Some n0 /\ n = custom f n0 /\
    overridden mempty (my_params conf) (mn_params n0).
Proof.
  intros zone conf f n H. unfold mysql_prepare in *.
  destruct (if (my_loc conf =? "")%string then _ else _) as [loc|]; [|discriminate].
  eexists. split; [reflexivity|]. split; [destruct f; unfold custom; congruence|]. apply add_params_spec.
Qed.
Print Assumptions mysql_params.

(** The Oracle and PostgreSQL drivers get what the fields of the config say, changed by the customizer,
    overridden by what Params says. *)
Theorem oracle_params : forall conf f o, oracle_options conf f = Some o ->
  exists base, (forall k, base k = oracle_own conf k) /\ overridden (custom f base) (or_params conf) o.
Proof. intros conf f o H. exact (proj2 (oracle_options_spec conf f o H)). Qed.
Print Assumptions oracle_params.

Theorem pg_params_override : forall conf f,
  exists base, (forall k, base k = pg_own conf k) /\ overridden (custom f base) (pg_params conf) (pg_options conf f).
Proof. exact pg_options_spec. Qed.
Print Assumptions pg_params_override.

(** An Oracle config without SID and service is refused, a MySQL config with an unknown time zone ends the
    process; nothing else fails. *)
Theorem prepare_fails :
  (forall conf f, oracle_options conf f = None <-> or_sid conf = "" /\ or_service conf = "") /\
  (forall zone conf f, mysql_prepare zone conf f = None <-> my_loc conf <> "" /\ zone (my_loc conf) = false).
Proof. split; [exact oracle_panics|exact mysql_loc_spec]. Qed.
Print Assumptions prepare_fails.

(** Params leaves nothing open. *)
Theorem params_determine : forall base params m1 m2,
  overridden base params m1 -> overridden base params m2 -> forall k, m1 k = m2 k.
Proof. exact overridden_fun. Qed.
Print Assumptions params_determine.

(** Params made by url-encoding values arrive unchanged, whatever bytes the values consist of. *)
Theorem params_round_trip : forall kvs base,
  (forall k v, In (k, v) kvs -> ~ mentions "&" k /\ ~ mentions "=" k) ->
  forall k, add_params base (params_of kvs) k = match last_value kvs k with Some v => Some v | None => base k end.
Proof. intros kvs base H. exact (params_of_says kvs H base). Qed.
Print Assumptions params_round_trip.

Example mysql_params_case : exists n, mysql_prepare (fun _ => true) demo_mysql None = Some n /\
  map (mn_params n) ["charset"; "x"; "y"; "bad"] = [Some "utf8"; Some "c+d"; None; None].
Proof. eexists. split; [reflexivity|]. vm_compute. reflexivity. Qed.

Example oracle_params_case : exists o, oracle_options demo_oracle (Some (fun o => mset o "server" "a")) = Some o /\
  map o ["SID"; "server"; "CONNECTION TIMEOUT"] = [Some "Y"; Some "b"; Some "7"].
Proof. eexists. split; [reflexivity|]. vm_compute. reflexivity. Qed.

Example pg_params_case : map (pg_options demo_pg (Some (fun o => mset o "connect_timeout" "9"))) ["connect_timeout"; "sslmode"] =
  [Some "9"; Some "disable"].
Proof. vm_compute. reflexivity. Qed.

Example params_round_trip_case : params_of [("a", "1&2=3 %"); ("b", "")] = "a=1%262%3D3+%25&b=" /\
  add_params mempty "a=1%262%3D3+%25&b=" "a" = Some "1&2=3 %".
Proof. split; vm_compute; reflexivity. Qed.

Example prepare_fails_case :
  mysql_prepare (fun _ => false) demo_mysql None = None /\ oracle_options (mkOracle "" 0 "" "" "" "" "" 0 "" 0 0 0) None = None.
Proof. split; reflexivity. Qed.

(** ** C65: the PostgreSQL url *)

(** Values of options are encoded byte by byte: letters, digits and -_.~ stay, a space becomes +, all others become %
    and two digits. *)
Definition kept : string := "ABCDEFGHIJKLMNOPQRSTUVWXYZabcdefghijklmnopqrstuvwxyz0123456789-_.~".
Definition hex_digit (n : nat) : string := String.substring n 1 "0123456789ABCDEF".
Definition encoded (c : ascii) : string :=
  match String.index 0 (String.String c "") kept with
  | Some _ => String.String c ""
  | None => if Ascii.eqb c " " then "+" else ("%" ++ hex_digit (Ascii.nat_of_ascii c / 16) ++ hex_digit (Ascii.nat_of_ascii c mod 16))%string
  end.
Theorem pg_value_encoding : query_escape "" = "" /\ forall c s, query_escape (String.String c s) = (encoded c ++ query_escape s)%string.
Proof.
  split; [reflexivity|]. intros c s.
  assert (H : query_escape (String.String c "") = encoded c) by (destruct c as [[] [] [] [] [] [] [] []]; vm_compute; reflexivity).
  rewrite <- H. cbn [query_escape]. destruct (unreserved c); [reflexivity|]. destruct (Ascii.eqb c " "); reflexivity.
Qed.
Print Assumptions pg_value_encoding.

Example pg_value_encoding_case : map encoded ["z"; "{"; "`"; "A"; "9"; ":"; "~"; " "; "+"; "/"; "010"]%char =
  ["z"; "%7B"; "%60"; "A"; "9"; "%3A"; "~"; "+"; "%2B"; "%2F"; "%0A"].
Proof. vm_compute. reflexivity. Qed.


(** Read as a url, the dsn gives back credentials, host, port, database and options (any byte in the values,
    cut at commas and freed from white space around the parts), provided that credentials, host, database and
    option names are free of special characters. *)
Theorem pg_dsn_reads : forall conf options,
  plain (pg_user conf) -> plain (pg_pass conf) -> plain (pg_host conf) -> plain (pg_db conf) ->
  (forall k parts, In (k, parts) options -> plain k /\ parts <> [] /\ forall raw core, In (raw, core) parts -> padded raw core) ->
  read_url (pg_dsn conf (map (fun o => (fst o, String.concat "," (map fst (snd o)))) options)) =
  Some (mkUrl (Some (pg_user conf, Some (pg_pass conf))) (pg_host conf) (Some (itoa (pg_port conf))) (pg_db conf)
         (flat_map (fun o => map (fun p => (fst o, snd p)) (snd o)) options)).
Proof.
  intros conf options A B C D H. apply pg_dsn_url; try assumption. intros k parts Hin. destruct (H k parts Hin) as (H1 & H2 & H3).
  split; [exact H1|]. split; [exact H2|]. intros [raw core]. exact (H3 raw core).
Qed.
Print Assumptions pg_dsn_reads.

(** In general the dsn does not determine the credentials, and it can name another host. *)
Theorem pg_dsn_refuted :
  (exists c1 c2, pg_dsn c1 [] = pg_dsn c2 [] /\ pg_user c1 <> pg_user c2 /\ pg_pass c1 <> pg_pass c2) /\
  (exists c u, read_url (pg_dsn c []) = Some u /\ u_host u <> pg_host c /\ u_user u = None).
Proof.
  split.
  - exists (mkPg "h" 1 "a:b" "c" "d" 0 "" 0 0 0), (mkPg "h" 1 "a" "b:c" "d" 0 "" 0 0 0).
    split; [vm_compute; reflexivity|]. split; discriminate.
  - exists (mkPg "db.local" 5432 "evil" "1/q" "d" 0 "" 0 0 0). eexists.
    split; [vm_compute; reflexivity|]. split; [discriminate|reflexivity].
Qed.
Print Assumptions pg_dsn_refuted.

Example pg_dsn_case : pg_dsn demo_pg [("connect_timeout", "3"); ("hosts", "a, b&c")] =
  "postgres://bob:pw@pg.local:5432/app?connect_timeout=3&hosts=a&hosts=b%26c" /\
  read_url "postgres://bob:pw@pg.local:5432/app?connect_timeout=3&hosts=a&hosts=b%26c" =
    Some (mkUrl (Some ("bob", Some "pw")) "pg.local" (Some "5432") "app" [("connect_timeout", "3"); ("hosts", "a"); ("hosts", "b&c")]) /\
  plain "pg.local" /\ padded " b&c" "b&c".
Proof.
  split; [vm_compute; reflexivity|]. split; [vm_compute; reflexivity|].
  split; [vm_compute; repeat split|]. split; [vm_compute; intuition discriminate|]. split.
  - exists " ", "". split; [reflexivity|]. intros c [[<-|[]]|[]]. vm_compute. tauto.
  - split; intros c r H.
    + assert (Hc : c = "b"%char) by congruence. subst c. vm_compute. intuition discriminate.
    + assert (Hc : c = "c"%char) by (destruct r as [|a [|b [|d [|e r]]]]; cbn in H; congruence). subst c. vm_compute. intuition discriminate.
Qed.

(** ** C66: trust *)

(** Which certificates the client accepts and sends. *)
Theorem http_trust : forall load read c cl, new_http_client load read c None = Some cl ->
  (verifies cl = false <-> hc_trust_mode c = "INSECURE") /\
  (forall kp, own_cert cl = Some kp <-> has_cert c /\ load (hc_cert_chain c) (hc_private_key c) = Some kp) /\
  (forall r, roots cl = Some r <-> has_roots c /\ has_cert c /\
     exists files, cuts "," (hc_trust_certs c) files /\ all_certs read files r).
Proof. exact http_spec. Qed.
Print Assumptions http_trust.

(** No client is made exactly if a configured certificate cannot be loaded. *)
Theorem http_refuses : forall load read c, new_http_client load read c None = None <->
  (has_cert c /\ load (hc_cert_chain c) (hc_private_key c) = None) \/
  (has_roots c /\ forall files r, cuts "," (hc_trust_certs c) files -> ~ all_certs read files r).
Proof. exact http_fails. Qed.
Print Assumptions http_refuses.

(** Limits and timeouts are the configured ones; the customizer has the last word. *)
Theorem http_settings : forall load read c cl, new_http_client load read c None = Some cl ->
  cl_conns_per_host cl = hc_conns_per_host c /\ cl_idle cl = hc_idle c /\ cl_conn cl = hc_conn c /\
  cl_read cl = hc_read c /\ cl_write cl = hc_write c /\ cl_wait cl = hc_wait c.
Proof. exact http_limits. Qed.
Print Assumptions http_settings.

Theorem http_customizer : forall load read c f,
  new_http_client load read c (Some f) = option_map f (new_http_client load read c None).
Proof. exact http_custom. Qed.
Print Assumptions http_customizer.

(** Custom roots are ignored if there is no client certificate: the host's roots are trusted. *)
Theorem http_roots_refuted : exists load read c cl r,
  new_http_client load read c None = Some cl /\ has_roots c /\ all_certs read [hc_trust_certs c] r /\
  roots cl = None /\ verifies cl = true.
Proof.
  exists (fun _ _ => None), (fun _ => Some [7%nat]), (mkHttp "" "" "CUSTOM" "ca.pem" 1 2 3 4 5 6). eexists. exists [7%nat].
  split; [reflexivity|]. split; [split; [reflexivity|discriminate]|].
  split; [apply (all_certs_file _ _ [7%nat] [] []); [reflexivity|constructor]|]. split; reflexivity.
Qed.
Print Assumptions http_roots_refuted.

Example http_trust_case : exists cl,
  new_http_client (fun _ _ => Some 9%nat) (fun f => if (f =? "a.pem")%string then Some [1; 2]%nat else Some [3%nat])
    (mkHttp "c.pem" "k.pem" "CUSTOM" "a.pem,b.pem" 1 2 3 4 5 6) None = Some cl /\
  roots cl = Some [1; 2; 3]%nat /\ own_cert cl = Some 9%nat /\ verifies cl = true.
Proof. eexists. split; [reflexivity|]. repeat split. Qed.

Example http_refuses_case : new_http_client (fun _ _ => None) (fun _ => None) (mkHttp "" "" "CUSTOM" "x" 0 0 0 0 0 0) None = None /\
  has_roots (mkHttp "" "" "CUSTOM" "x" 0 0 0 0 0 0).
Proof. split; [reflexivity|]. split; [reflexivity|discriminate]. Qed.

(** ** C70: Elasticsearch limits *)

(** The number of connections per host is never limited, the number of idle ones per host is
    MaxConnsPerHost, the number of all idle ones MaxIdleConnsPerHost. *)
Theorem es_limits : forall conf f, exists n0,
  es_prepare conf f = custom f n0 /\
  tr_conns_per_host (en_transport n0) = 0 /\ tr_idle_per_host (en_transport n0) = es_conns conf /\
  tr_idle (en_transport n0) = es_idle conf /\ tr_header_timeout (en_transport n0) = 60 * 1000000000 /\
  en_user n0 = es_user conf /\ en_pass n0 = es_pass conf /\ cuts "," (es_addrs conf) (en_addrs n0).
Proof. intros conf f. eexists. split; [destruct f; reflexivity|]. cbn. repeat (split; [reflexivity|]). apply split_cuts. Qed.
Print Assumptions es_limits.

Theorem es_limits_refuted : exists conf,
  tr_conns_per_host (en_transport (es_prepare conf None)) <> es_conns conf /\
  tr_idle_per_host (en_transport (es_prepare conf None)) <> es_idle conf.
Proof. exists demo_es. split; discriminate. Qed.
Print Assumptions es_limits_refuted.

Example es_limits_case : en_addrs (es_prepare demo_es None) = ["http://a:9200"; "http://b:9200"].
Proof. reflexivity. Qed.

(** ** C71: drivers get what is configured *)

Theorem mysql_driver : forall zone conf n, mysql_prepare zone conf None = Some n ->
  mn_user n = my_user conf /\ mn_passwd n = my_pass conf /\ mn_net n = "tcp" /\ mn_db n = my_db conf /\
  mn_addr n = (my_host conf ++ ":" ++ itoa (my_port conf))%string /\
  mn_timeout n = my_timeout conf /\ mn_read n = my_read conf /\ mn_write n = my_write conf /\
  mn_loc n = unless_empty (my_loc conf) /\ mn_parse n = my_parse conf.
Proof.
  intros zone conf n H. unfold mysql_prepare, unless_empty in *. destruct (my_loc conf =? "")%string; [|destruct (zone (my_loc conf)); [|discriminate]];
    injection H as <-; cbn [mn_user mn_passwd mn_net mn_db mn_addr mn_timeout mn_read mn_write mn_loc mn_parse];
    repeat (split; [reflexivity|]); (split; [cbn; rewrite append_empty; reflexivity|]); repeat (split; [reflexivity|]); reflexivity.
Qed.
Print Assumptions mysql_driver.

Theorem redis_driver : forall rc f, exists n0, redis_prepare rc f = custom f n0 /\
  rn_addr n0 = (re_host rc ++ ":" ++ itoa (re_port rc))%string /\ rn_password n0 = re_pass rc /\
  rn_pool n0 = re_pool rc /\ rn_min_idle n0 = re_min_idle rc /\ rn_db n0 = re_db rc.
Proof. intros rc f. eexists. split; [destruct f; reflexivity|]. cbn. repeat split. Qed.
Print Assumptions redis_driver.

(** Different hosts or ports give different addresses. *)
Theorem addresses_differ : forall h1 h2 p1 p2,
  (h1 ++ ":" ++ itoa p1)%string = (h2 ++ ":" ++ itoa p2)%string -> h1 = h2 /\ p1 = p2.
Proof. exact addr_inj. Qed.
Print Assumptions addresses_differ.

(** The pools of the SQL drivers have the configured limits (also where String() shows others). *)
Theorem pools :
  (forall m, p_open (mysql_pool m) = my_open m /\ p_idle (mysql_pool m) = my_idle m /\ p_life (mysql_pool m) = my_life m) /\
  (forall c, p_open (oracle_pool c) = or_open c /\ p_idle (oracle_pool c) = or_idle c /\ p_life (oracle_pool c) = or_life c) /\
  (forall c, p_open (pg_pool c) = pg_open c /\ p_idle (pg_pool c) = pg_idle c /\ p_life (pg_pool c) = pg_life c).
Proof. repeat split. Qed.
Print Assumptions pools.

Example drivers_case : rn_addr (redis_prepare demo_redis None) = "redis.local:6379" /\
  option_map mn_addr (mysql_prepare (fun _ => true) demo_mysql None) = Some "db.local:3306" /\
  mysql_pool demo_mysql = mkPool 20 5 0.
Proof. split; [vm_compute; reflexivity|]. split; vm_compute; reflexivity. Qed.
