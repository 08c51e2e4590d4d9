(** The way of a MySQL configuration to the driver (/repo/confs/mysql.go:94-116, 118-144): NewMySqlDb writes it as a
    text with [mc.FormatDSN()] and hands that to [sql.Open], where the driver reads it with ParseDSN.  FormatDSN and
    ParseDSN as in go-sql-driver/mysql v1.6.0 (dsn.go), step by step; registered TLS configurations and server keys
    are inputs, as are the time zones; errors are not told apart. *)
From Verif Require Import Common Bytes ProcsModel DurationModel ConfsModel ConfsSpec.
Local Open Scope string_scope.
Local Open Scope list_scope.
Local Open Scope Z_scope.

(** The driver's configuration, as far as a text can set it.  [g_flags] holds the boolean options by name. *)
Record driver_config := mkDriver {
  g_user : string; g_passwd : string; g_net : string; g_addr : string; g_db : string;
  g_params : smap string; g_collation : string; g_loc : string; g_packet : Z; g_pubkey : string; g_tls : string;
  g_timeout : Z; g_read : Z; g_write : Z; g_flags : smap bool }.

(** dsn.go NewConfig *)
Definition new_config : driver_config :=
  mkDriver "" "" "" "" "" mempty "utf8mb4_general_ci" "UTC" 4194304 "" "" 0 0 0
    (mset (mset mempty "allowNativePasswords" true) "checkConnLiveness" true).

(** * FormatDSN *)

(** dsn.go writeDSNParam *)
Definition write_param (buf : string * bool) (kv : string * string) : string * bool :=
  ((fst buf ++ (if snd buf then "&" else "?") ++ fst kv ++ "=" ++ snd kv)%string, true).

(** dsn.go FormatDSN of what prepareMySqlNativeConfig sets, the other fields as in NewConfig.  [ps] lists the map
    Params in the order of the sorted keys. *)
Definition fixed_items (n : mysql_native) : list (string * string) :=
  (match mn_loc n with Some l => if (l =? "UTC")%string then [] else [("loc", query_escape l)] | None => [] end) ++
  (if mn_parse n then [("parseTime", "true")] else []) ++
  (if 0 <? mn_read n then [("readTimeout", show_duration (mn_read n))] else []) ++
  (if 0 <? mn_timeout n then [("timeout", show_duration (mn_timeout n))] else []) ++
  (if 0 <? mn_write n then [("writeTimeout", show_duration (mn_write n))] else []).
Definition format_dsn (n : mysql_native) (ps : list (string * string)) : string :=
  let buf := if (mn_user n =? "")%string then ""
             else (mn_user n ++ (if (mn_passwd n =? "")%string then "" else ":" ++ mn_passwd n) ++ "@")%string in
  let buf := if (mn_net n =? "")%string then buf
             else (buf ++ mn_net n ++ (if (mn_addr n =? "")%string then "" else "(" ++ mn_addr n ++ ")"))%string in
  let buf := (buf ++ "/" ++ mn_db n)%string in
  fst (fold_left write_param (fixed_items n ++ map (fun kv => (fst kv, query_escape (snd kv))) ps) (buf, false)).

(** * ParseDSN *)

Inductive parsed := DOk (c : driver_config) | DErr | DPanic.

(** utils.go readBool *)
Definition read_bool (v : string) : option bool :=
  if existsb (String.eqb v) ["1"; "true"; "TRUE"; "True"] then Some true
  else if existsb (String.eqb v) ["0"; "false"; "FALSE"; "False"] then Some false
  else None.
Definition bool_options : list string :=
  ["allowAllFiles"; "allowCleartextPasswords"; "allowNativePasswords"; "allowOldPasswords"; "checkConnLiveness"; "clientFoundRows";
   "columnsWithAlias"; "interpolateParams"; "multiStatements"; "parseTime"; "rejectReadOnly"].

(** strings.ToLower on ASCII text. *)
Definition lower (c : ascii) : ascii := if (65 <=? byte c) && (byte c <=? 90) then char_of (byte c + 32) else c.
Fixpoint to_lower (s : string) : string :=
  match s with
  | String.EmptyString => ""
  | String.String c s' => String.String (lower c) (to_lower s')
  end.

Definition set_flag c k b := mkDriver (g_user c) (g_passwd c) (g_net c) (g_addr c) (g_db c) (g_params c) (g_collation c) (g_loc c) (g_packet c) (g_pubkey c) (g_tls c) (g_timeout c) (g_read c) (g_write c) (mset (g_flags c) k b).
Definition set_param c k v := mkDriver (g_user c) (g_passwd c) (g_net c) (g_addr c) (g_db c) (mset (g_params c) k v) (g_collation c) (g_loc c) (g_packet c) (g_pubkey c) (g_tls c) (g_timeout c) (g_read c) (g_write c) (g_flags c).
Definition set_collation c v := mkDriver (g_user c) (g_passwd c) (g_net c) (g_addr c) (g_db c) (g_params c) v (g_loc c) (g_packet c) (g_pubkey c) (g_tls c) (g_timeout c) (g_read c) (g_write c) (g_flags c).
Definition set_loc c v := mkDriver (g_user c) (g_passwd c) (g_net c) (g_addr c) (g_db c) (g_params c) (g_collation c) v (g_packet c) (g_pubkey c) (g_tls c) (g_timeout c) (g_read c) (g_write c) (g_flags c).
Definition set_packet c v := mkDriver (g_user c) (g_passwd c) (g_net c) (g_addr c) (g_db c) (g_params c) (g_collation c) (g_loc c) v (g_pubkey c) (g_tls c) (g_timeout c) (g_read c) (g_write c) (g_flags c).
Definition set_pubkey c v := mkDriver (g_user c) (g_passwd c) (g_net c) (g_addr c) (g_db c) (g_params c) (g_collation c) (g_loc c) (g_packet c) v (g_tls c) (g_timeout c) (g_read c) (g_write c) (g_flags c).
Definition set_tls c v := mkDriver (g_user c) (g_passwd c) (g_net c) (g_addr c) (g_db c) (g_params c) (g_collation c) (g_loc c) (g_packet c) (g_pubkey c) v (g_timeout c) (g_read c) (g_write c) (g_flags c).
Definition set_timeout c v := mkDriver (g_user c) (g_passwd c) (g_net c) (g_addr c) (g_db c) (g_params c) (g_collation c) (g_loc c) (g_packet c) (g_pubkey c) (g_tls c) v (g_read c) (g_write c) (g_flags c).
Definition set_read c v := mkDriver (g_user c) (g_passwd c) (g_net c) (g_addr c) (g_db c) (g_params c) (g_collation c) (g_loc c) (g_packet c) (g_pubkey c) (g_tls c) (g_timeout c) v (g_write c) (g_flags c).
Definition set_write c v := mkDriver (g_user c) (g_passwd c) (g_net c) (g_addr c) (g_db c) (g_params c) (g_collation c) (g_loc c) (g_packet c) (g_pubkey c) (g_tls c) (g_timeout c) (g_read c) v (g_flags c).
Definition set_target c user passwd net addr db := mkDriver user passwd net addr db (g_params c) (g_collation c) (g_loc c) (g_packet c) (g_pubkey c) (g_tls c) (g_timeout c) (g_read c) (g_write c) (g_flags c).

Section parse.
  (** Limit of time.ParseDuration (see DurationModel.v); time.LoadLocation; strconv.Atoi; registered names. *)
  Variable lim : Z.
  Variable zone : string -> bool.
  Variable atoi : string -> option Z.
  Variable tls_known : string -> bool.
  Variable key_known : string -> bool.

  Definition when {A} (o : option A) (f : A -> parsed) : parsed := match o with Some a => f a | None => DErr end.

  (** dsn.go parseDSNParams, one parameter. *)
  Definition parse_param (c : driver_config) (k v : string) : parsed :=
    if existsb (String.eqb k) bool_options then when (read_bool v) (fun b => DOk (set_flag c k b))
    else if (k =? "collation")%string then DOk (set_collation c v)
    else if (k =? "compress")%string then DErr
    else if (k =? "loc")%string then when (query_unescape v) (fun l => if (l =? "")%string || zone l then DOk (set_loc c (if (l =? "")%string then "UTC" else l)) else DErr)
    else if (k =? "readTimeout")%string then when (parse_duration lim v) (fun d => DOk (set_read c d))
    else if (k =? "serverPubKey")%string then when (query_unescape v) (fun name => DOk (set_pubkey c name))
    else if (k =? "strict")%string then DPanic
    else if (k =? "timeout")%string then when (parse_duration lim v) (fun d => DOk (set_timeout c d))
    else if (k =? "tls")%string then
      match read_bool v with
      | Some b => DOk (set_tls c (if b then "true" else "false"))
      | None =>
        if (to_lower v =? "skip-verify")%string || (to_lower v =? "preferred")%string then DOk (set_tls c (to_lower v))
        else when (query_unescape v) (fun name => DOk (set_tls c name))
      end
    else if (k =? "writeTimeout")%string then when (parse_duration lim v) (fun d => DOk (set_write c d))
    else if (k =? "maxAllowedPacket")%string then when (atoi v) (fun z => DOk (set_packet c z))
    else when (query_unescape v) (fun v' => DOk (set_param c k v')).

  (** The loop; a part without "=" is skipped. *)
  Fixpoint parse_params (c : driver_config) (items : list string) : parsed :=
    match items with
    | [] => DOk c
    | item :: rest =>
      match cut_first "=" item with
      | (k, Some v) => match parse_param c k v with DOk c' => parse_params c' rest | e => e end
      | (_, None) => parse_params c rest
      end
    end.

  (** net.SplitHostPort: whether the address is a host and a port. *)
  Definition has_char_b (c : ascii) (s : string) : bool := match cut_first c s with (_, Some _) => true | (_, None) => false end.
  Definition starts_with (c : ascii) (s : string) : option string :=
    match s with String.String x s' => if Ascii.eqb x c then Some s' else None | String.EmptyString => None end.
  Definition split_host_port_ok (addr : string) : bool :=
    match cut_last ":" addr with
    | None => false
    | Some (host, _) =>
      match starts_with "[" addr with
      | Some inner =>
        match cut_first "]" inner with
        | (_, None) => false
        | (_, Some rest) =>
          (* the ":" after the "]" is the last one *)
          match starts_with ":" rest with
          | Some port => negb (has_char_b ":" port) && negb (has_char_b "[" inner) && negb (has_char_b "]" rest)
          | None => false
          end
        end
      | None => negb (has_char_b ":" host) && negb (has_char_b "[" addr) && negb (has_char_b "]" addr)
      end
    end.
  (** net.JoinHostPort *)
  Definition join_host_port (host port : string) : string :=
    if has_char_b ":" host then ("[" ++ host ++ "]:" ++ port)%string else (host ++ ":" ++ port)%string.
  (** dsn.go ensureHavePort *)
  Definition ensure_have_port (addr : string) : string := if split_host_port_ok addr then addr else join_host_port addr "3306".

  (** dsn.go normalize *)
  Definition normalize (c : driver_config) : parsed :=
    let net := if (g_net c =? "")%string then "tcp" else g_net c in
    let addr :=
      if (g_addr c =? "")%string then
        (if (net =? "tcp")%string then Some "127.0.0.1:3306" else if (net =? "unix")%string then Some "/tmp/mysql.sock" else None)
      else Some (if (net =? "tcp")%string then ensure_have_port (g_addr c) else g_addr c) in
    when addr (fun addr =>
      if existsb (String.eqb (g_tls c)) ["false"; ""; "true"; "skip-verify"; "preferred"] || tls_known (g_tls c) then
        if (g_pubkey c =? "")%string || key_known (g_pubkey c) then DOk (set_target c (g_user c) (g_passwd c) net addr (g_db c))
        else DErr
      else DErr).

  (** The address in [net(address)]: the text after "(" without the ")" at its end. *)
  Fixpoint closing (a : string) : option string :=
    match a with
    | String.EmptyString => None
    | String.String c "" => if Ascii.eqb c ")" then Some "" else None
    | String.String c a' => match closing a' with Some b => Some (String.String c b) | None => None end
    end.

  (** dsn.go ParseDSN *)
  Definition parse_dsn (dsn : string) : parsed :=
    match cut_last "/" dsn with
    | None => if (dsn =? "")%string then normalize new_config else DErr
    | Some (lft, rgt) =>
      let '(user, passwd, rest) :=
        match cut_last "@" lft with
        | Some (up, rest) => match cut_first ":" up with (u, Some p) => (u, p, rest) | (u, None) => (u, "", rest) end
        | None => ("", "", lft)
        end in
      let target :=
        match cut_first "(" rest with
        | (net, Some a) => match closing a with Some addr => Some (net, addr) | None => None end
        | (net, None) => Some (net, "")
        end in
      when target (fun '(net, addr) =>
        let (db, ps) := cut_first "?" rgt in
        match match ps with Some ps => parse_params new_config (split "&" ps) | None => DOk new_config end with
        | DOk c => normalize (set_target c user passwd net addr db)
        | e => e
        end)
    end.
End parse.
