(** C123: the MySQL driver gets the configuration through a text; it reads back what was configured. *)
From Verif Require Import Common Bytes ProcsModel ConfNamesSpec ConfsModel ConfsSpec DurationModel DurationSpec MysqlDsnModel MysqlDsnSpec
  MysqlDsnProofs.
Local Open Scope string_scope.
Local Open Scope list_scope.
Local Open Scope Z_scope.

(** Any password, and any user, host, database and parameters that the text has room for: the driver accepts the
    text and has exactly the configured values. *)
Theorem mysql_dsn_delivers : forall lim zone atoi tls_known key_known conf n ps,
  version lim -> mysql_prepare zone conf None = Some n -> lists ps (mn_params n) -> durations_ok conf ->
  plain_target conf -> plain_user conf -> good_host (my_host conf) ->
  (forall k v, mn_params n k = Some v -> ~ mentions "/" k /\ ~ In k settings) ->
  exists c, parse_dsn lim zone atoi tls_known key_known (format_dsn n ps) = DOk c /\ delivered conf (mn_params n) c.
Proof. exact delivers. Qed.
Print Assumptions mysql_dsn_delivers.

(** Params may also name settings of the driver.  If the driver accepts them they win over the config's fields; the
    target is still the configured one. *)
Theorem mysql_dsn_settings : forall lim zone atoi tls_known key_known conf n ps c,
  version lim -> mysql_prepare zone conf None = Some n -> lists ps (mn_params n) -> durations_ok conf ->
  plain_target conf -> plain_user conf -> good_host (my_host conf) ->
  (forall k v, mn_params n k = Some v -> ~ mentions "/" k) ->
  parse_dsn lim zone atoi tls_known key_known (format_dsn n ps) = DOk c ->
  delivered_with (parse_duration lim) conf (mn_params n) c.
Proof. intros lim zone atoi tk kk conf n ps c V P L D T U G K E. exact (proj1 (delivers_with _ _ _ _ _ _ _ _ _ V P L D T U G K E)). Qed.
Print Assumptions mysql_dsn_settings.

(** The parameters can always be listed. *)
Theorem mysql_params_listed : forall zone conf n, mysql_prepare zone conf None = Some n -> exists ps, lists ps (mn_params n).
Proof. intros zone conf n P. destruct (prepare_fields _ _ _ P) as (_ & _ & _ & _ & _ & _ & _ & _ & _ & _ & -> & _). exact (listable zone (fun _ => None) zone zone _). Qed.
Print Assumptions mysql_params_listed.

(** No text whatsoever gives the driver a user with ":" or a database with "/" or "?". *)
Theorem mysql_dsn_limits : forall lim zone atoi tls_known key_known text c,
  parse_dsn lim zone atoi tls_known key_known text = DOk c ->
  ~ mentions ":" (g_user c) /\ ~ mentions "/" (g_db c) /\ ~ mentions "?" (g_db c).
Proof. exact limits. Qed.
Print Assumptions mysql_dsn_limits.

(** A password without a user is dropped. *)
Theorem mysql_dsn_anonymous : forall lim zone atoi tls_known key_known conf n ps c,
  mysql_prepare zone conf None = Some n -> lists ps (mn_params n) -> plain_target conf ->
  (forall k v, mn_params n k = Some v -> ~ mentions "/" k) ->
  parse_dsn lim zone atoi tls_known key_known (format_dsn n ps) = DOk c -> my_user conf = "" ->
  g_user c = "" /\ g_passwd c = "".
Proof.
  intros lim zone atoi tk kk conf n ps c P L T K E U. destruct (login_read _ _ _ _ _ _ _ _ _ P L T K E) as (E1 & E2 & _).
  rewrite U in E1, E2. now split.
Qed.
Print Assumptions mysql_dsn_anonymous.

(** An IPv6 address without brackets: the port becomes part of the address, and the driver calls port 3306. *)
Theorem mysql_dsn_ipv6 : forall lim zone atoi tls_known key_known conf n ps c,
  mysql_prepare zone conf None = Some n -> lists ps (mn_params n) -> plain_target conf ->
  (forall k v, mn_params n k = Some v -> ~ mentions "/" k) ->
  parse_dsn lim zone atoi tls_known key_known (format_dsn n ps) = DOk c ->
  mentions ":" (my_host conf) -> (forall h, my_host conf <> String.String "[" h) ->
  g_addr c = ("[" ++ address conf ++ "]:3306")%string.
Proof.
  intros lim zone atoi tk kk conf n ps c P L T K E M B. destruct (login_read _ _ _ _ _ _ _ _ _ P L T K E) as (_ & _ & E3 & _).
  rewrite E3. apply (port_bad zone atoi tk kk); [exact M|]. destruct (my_host conf) as [|a h]; [reflexivity|]. cbn [starts_with].
  destruct (Ascii.eqb_spec a "[") as [->|]; [destruct (B h eq_refl)|reflexivity].
Qed.
Print Assumptions mysql_dsn_ipv6.

(** Values of parameters are escaped one character at a time: letters, digits and -_.~ stay as they are, a space becomes
    "+", every other one becomes "%" and its two hexadecimal digits. *)
Theorem mysql_dsn_escaping :
  (forall a b, query_escape (a ++ b) = (query_escape a ++ query_escape b)%string) /\
  (forall c, mentions c alphabet -> query_escape (String.String c "") = String.String c "") /\
  query_escape " " = "+" /\
  (forall c, ~ mentions c alphabet -> c <> " "%char -> exists x y, hex_digits x y (byte c) /\ mentions x "0123456789ABCDEF" /\
     mentions y "0123456789ABCDEF" /\ query_escape (String.String c "") = String.String "%" (String.String x (String.String y ""))).
Proof. exact escaping. Qed.
Print Assumptions mysql_dsn_escaping.

(** ** Cases *)

Definition dsn_demo (host : string) (port : Z) (user pass db params : string) : mysql_conf :=
  mkMysql host port user pass db 20 5 0 1500000000 2000000 (-1) "Asia/Shanghai" true params.
Definition dsn_read (conf : mysql_conf) (ps : list (string * string)) : option parsed :=
  option_map (fun n => parse_dsn go1_17 (fun _ => true) (fun _ => None) (fun _ => false) (fun _ => false) (format_dsn n ps))
    (mysql_prepare (fun _ => true) conf None).

Definition dsn_fields (c : driver_config) : string * string * string * string * string * Z :=
  (g_user c, g_passwd c, g_addr c, g_db c, g_loc c, g_read c).
Definition dsn_gets (conf : mysql_conf) (ps : list (string * string)) : option (string * string * string * string * string * Z) :=
  match dsn_read conf ps with Some (DOk c) => Some (dsn_fields c) | _ => None end.

Example mysql_dsn_case :
  let conf := dsn_demo "db.local" 3307 "root" "p:@/(?" "app" "charset=utf8&x=a%20%2F" in
  let ps := [("charset", "utf8"); ("x", "a /")] in
  (exists n, mysql_prepare (fun _ => true) conf None = Some n /\ lists ps (mn_params n) /\
     (forall k v, mn_params n k = Some v -> ~ mentions "/" k /\ ~ In k settings) /\
     format_dsn n ps =
     "root:p:@/(?@tcp(db.local:3307)/app?loc=Asia%2FShanghai&parseTime=true&readTimeout=1.5s&writeTimeout=2ms&charset=utf8&x=a+%2F") /\
  version go1_17 /\ durations_ok conf /\ plain_target conf /\ plain_user conf /\ good_host (my_host conf) /\
  dsn_gets conf ps = Some ("root", "p:@/(?", "db.local:3307", "app", "Asia/Shanghai", 1500000000).
Proof.
  intros conf ps. split; [|split; [now left|split; [repeat split; vm_compute; congruence|]]].
  - destruct (mysql_prepare (fun _ => true) conf None) as [n|] eqn:P; [|discriminate P]. exists n.
    assert (M : forall k, mn_params n k = if (k =? "x")%string then Some "a /" else if (k =? "charset")%string then Some "utf8" else None).
    { intros k. replace (mn_params n) with (add_params mempty "charset=utf8&x=a%20%2F") by (symmetry; apply (prepare_fields _ _ _ P)). reflexivity. }
    split; [reflexivity|]. split; [|split].
    + split; [repeat constructor; cbn; intuition discriminate|]. intros k v. rewrite M. cbn [In ps].
      destruct (String.eqb_spec k "x") as [->|N]; [split; [intros [E|[E|[]]]; congruence|intros E; right; left; congruence]|].
      destruct (String.eqb_spec k "charset") as [->|N']; [split; [intros [E|[E|[]]]; congruence|intros E; left; congruence]|].
      split; [intros [E|[E|[]]]; congruence|discriminate].
    + intros k v. rewrite M. destruct (String.eqb_spec k "x") as [->|N]; [|destruct (String.eqb_spec k "charset") as [->|N']; [|discriminate]];
        (intros _; split; [cbn; intuition discriminate|cbn; intuition discriminate]).
    + injection P as <-. vm_compute. reflexivity.
  - split; [repeat split; cbn; intuition discriminate|]. split; [split; [cbn; intuition discriminate|discriminate]|].
    split; [left; repeat split; cbn; intuition discriminate|]. vm_compute. reflexivity.
Qed.

(** Without these limits the configured values do not arrive: the user up to the ":", no password, another address,
    another database and time zone; the process ends; the process panics. *)
Theorem mysql_dsn_refuted :
  dsn_gets (dsn_demo "db" 3307 "a:b" "c" "app" "") [] = Some ("a", "b:c", "db:3307", "app", "Asia/Shanghai", 1500000000) /\
  dsn_gets (dsn_demo "db" 3307 "" "c" "app" "") [] = Some ("", "", "db:3307", "app", "Asia/Shanghai", 1500000000) /\
  dsn_gets (dsn_demo "::1" 3307 "a" "c" "app" "") [] = Some ("a", "c", "[::1:3307]:3306", "app", "Asia/Shanghai", 1500000000) /\
  dsn_gets (dsn_demo "db" 3307 "a" "c" "x)/y" "") [] = Some ("a", "c", "db:3307)/x", "y", "Asia/Shanghai", 1500000000) /\
  dsn_gets (dsn_demo "db" 3307 "a" "c" "app?x=1" "") [] = Some ("a", "c", "db:3307", "app", "UTC", 1500000000) /\
  dsn_read (dsn_demo "db" 3307 "a" "c" "x/y" "") [] = Some DErr /\
  dsn_read (dsn_demo "db" 3307 "a" "c" "app" "a/b=1") [("a/b", "1")] = Some DErr /\
  dsn_read (dsn_demo "db" 3307 "a" "c" "app" "strict=true") [("strict", "true")] = Some DPanic.
Proof. repeat split; vm_compute; reflexivity. Qed.
Print Assumptions mysql_dsn_refuted.

(** Params names a setting of the driver. *)
Example mysql_dsn_settings_case :
  dsn_gets (dsn_demo "[::1]" 3307 "a" "c" "app" "readTimeout=3ms&loc=UTC") [("loc", "UTC"); ("readTimeout", "3ms")] =
    Some ("a", "c", "[::1]:3307", "app", "UTC", 3000000) /\
  good_host "[::1]" /\ plain_user (dsn_demo "[::1]" 3307 "a" "c" "app" "readTimeout=3ms&loc=UTC").
Proof.
  split; [vm_compute; reflexivity|]. split; [right; exists "::1"; split; [reflexivity|split; cbn; intuition discriminate]|].
  split; [cbn; intuition discriminate|discriminate].
Qed.
