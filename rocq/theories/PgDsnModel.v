(** Executable model of the way of a PostgreSQL configuration to the driver: the connection url of
    /repo/confs/postgresql.go:90-101 ([pg_dsn] in ConfsModel.v), read by lib/pq v1.10.9 (the version in /repo/go.mod;
    url.go ParseURL, conn.go parseOpts, connector.go NewConnector) with net/url and net of the Go standard library.
    Simplifications: the driver's texts are byte strings ([]rune conversions keep valid UTF-8), white space is
    ASCII white space; the environment is what the driver's parseEnviron returned. *)
From Verif Require Import Common Bytes ProcsModel ConfsModel RsaModel UrlModel.
Local Open Scope string_scope.
Local Open Scope list_scope.
Local Open Scope Z_scope.

(** * net/url and net *)

(** url.Parse on a text with a scheme; without one the driver's check of the scheme fails anyway.  The fragment is
    cut off at the first '#' and must be well escaped. *)
Definition parse_url (raw : string) : option url :=
  let '(s, frag) := match cut "#" raw with Some (a, b) => (a, b) | None => (raw, "") end in
  if any_char is_ctl s then None
  else match get_scheme true s with
       | MissingScheme | NoScheme => None
       | Scheme sch rest =>
         match parse_rest (lower_text sch) rest, unescape EncodePath frag with
         | Some u, Some _ => Some u
         | _, _ => None
         end
       end.

(** url.ParseQuery, which skips what it cannot read; the entries in order. *)
Definition query_item (item : string) : option (string * string) :=
  if one_of item ";" then None
  else if (item =? "")%string then None
  else let '(k, v) := match cut "=" item with Some (k, v) => (k, v) | None => (item, "") end in
       match query_unescape k, query_unescape v with
       | Some k', Some v' => Some (k', v')
       | _, _ => None
       end.
Fixpoint collect (items : list string) : list (string * string) :=
  match items with
  | [] => []
  | item :: items' => match query_item item with Some kv => kv :: collect items' | None => collect items' end
  end.
Definition parse_query (q : string) : list (string * string) := collect (split "&" q).
(** Every key of url.Values with what Get returns for it: the first value. *)
Fixpoint firsts (keys : list string) (kvs : list (string * string)) : list (string * string) :=
  match kvs with
  | [] => []
  | (k, v) :: kvs' => if existsb (String.eqb k) keys then firsts keys kvs' else (k, v) :: firsts (k :: keys) kvs'
  end.

(** net.SplitHostPort; [None]: an error. *)
Definition split_host_port (addr : string) : option (string * string) :=
  match cut_last ":" addr with
  | None => None
  | Some (host, port) =>
    match strip "[" addr with
    | Some inside =>
      match cut "]" inside with
      | None => None
      | Some (h, rest) =>
        match strip ":" rest with
        | Some p => if one_of p ":" || one_of inside "[" || one_of p "]" then None else Some (h, p)
        | None => None
        end
      end
    | None => if one_of host ":" || one_of addr "[" || one_of addr "]" then None else Some (host, port)
    end
  end.

(** * url.go ParseURL *)

(** The replacer of ParseURL: a backslash before quotes and backslashes. *)
Definition quote : ascii := "'".
Definition backslash : ascii := "\".
Fixpoint escape_value (s : string) : string :=
  match s with
  | String.EmptyString => ""
  | String.String c s' =>
    if Ascii.eqb c quote || Ascii.eqb c backslash then String.String backslash (String.String c (escape_value s'))
    else String.String c (escape_value s')
  end.
Definition setting (kv : string * string) : string := (fst kv ++ "='" ++ escape_value (snd kv) ++ "'")%string.
(** accrue leaves out empty values. *)
Definition accrued (kvs : list (string * string)) : list (string * string) :=
  filter (fun kv => negb (snd kv =? "")%string) kvs.

(** sort.Strings: byte by byte. *)
Definition str_le (a b : string) : bool := match String.compare a b with Gt => false | _ => true end.
Fixpoint insert_str (x : string) (l : list string) : list string :=
  match l with
  | [] => [x]
  | y :: l' => if str_le x y then x :: l else y :: insert_str x l'
  end.
Definition sort_str (l : list string) : list string := fold_right insert_str [] l.

Definition url_settings (u : url) : list (string * string) :=
  accrued (
    match u_user u with
    | Some (name, password) => [("user", name); ("password", match password with Some p => p | None => "" end)]
    | None => []
    end ++
    match split_host_port (u_host u) with
    | Some (host, port) => [("host", host); ("port", port)]
    | None => [("host", u_host u)]
    end ++
    match u_path u with String.String _ path => [("dbname", path)] | String.EmptyString => [] end ++
    firsts [] (parse_query (u_query u))).

Definition pq_parse_url (raw : string) : option string :=
  match parse_url raw with
  | None => None
  | Some u =>
    if (u_scheme u =? "postgres")%string || (u_scheme u =? "postgresql")%string
    then Some (String.concat " " (sort_str (map setting (url_settings u))))
    else None
  end.

(** * conn.go parseOpts *)

(** Where the scanner is: before a key, in a key, between a key and its "=", after the "=", in a value (after a
    backslash), in a quoted value (after a backslash). *)
Inductive scan_state :=
| PSkip | PKey (k : string) | PEq (k : string) | PAfter (k : string)
| PRaw (k v : string) | PRawEsc (k v : string) | PQuote (k v : string) | PQuoteEsc (k v : string).

Definition snoc (s : string) (c : ascii) : string := (s ++ String.String c "")%string.

(** One character; [None]: an error. *)
Definition scan (st : scan_state) (o : smap string) (c : ascii) : option (scan_state * smap string) :=
  match st with
  | PSkip => if is_space c then Some (PSkip, o) else if Ascii.eqb c "=" then Some (PAfter "", o) else Some (PKey (snoc "" c), o)
  | PKey k => if is_space c then Some (PEq k, o) else if Ascii.eqb c "=" then Some (PAfter k, o) else Some (PKey (snoc k c), o)
  | PEq k => if is_space c then Some (PEq k, o) else if Ascii.eqb c "=" then Some (PAfter k, o) else None
  | PAfter k =>
    if is_space c then Some (PAfter k, o)
    else if Ascii.eqb c quote then Some (PQuote k "", o)
    else if Ascii.eqb c backslash then Some (PRawEsc k "", o)
    else Some (PRaw k (snoc "" c), o)
  | PRaw k v =>
    if is_space c then Some (PSkip, mset o k v)
    else if Ascii.eqb c backslash then Some (PRawEsc k v, o)
    else Some (PRaw k (snoc v c), o)
  | PRawEsc k v => Some (PRaw k (snoc v c), o)
  | PQuote k v =>
    if Ascii.eqb c quote then Some (PSkip, mset o k v)
    else if Ascii.eqb c backslash then Some (PQuoteEsc k v, o)
    else Some (PQuote k (snoc v c), o)
  | PQuoteEsc k v => Some (PQuote k (snoc v c), o)
  end.
(** At the end of the text. *)
Definition scan_end (st : scan_state) (o : smap string) : option (smap string) :=
  match st with
  | PSkip => Some o
  | PAfter k => Some (mset o k "")
  | PRaw k v => Some (mset o k v)
  | _ => None
  end.
Fixpoint scan_all (s : string) (st : scan_state) (o : smap string) : option (smap string) :=
  match s with
  | String.EmptyString => scan_end st o
  | String.String c s' => match scan st o c with Some (st', o') => scan_all s' st' o' | None => None end
  end.
Definition parse_opts (s : string) (o : smap string) : option (smap string) := scan_all s PSkip o.

(** * connector.go NewConnector *)

Definition over (low high : smap string) : smap string := fun k => match high k with Some v => Some v | None => low k end.
Definition driver_defaults : smap string :=
  mset (mset (mset mempty "host" "localhost") "port" "5432") "extra_float_digits" "2".

(** isUTF8 *)
Fixpoint alnum_lower (s : string) : string :=
  match s with
  | String.EmptyString => ""
  | String.String c s' => if is_letter c || is_num c then String.String c (alnum_lower s') else alnum_lower s'
  end.
Definition is_utf8 (name : string) : bool :=
  let s := lower_text (alnum_lower name) in (s =? "utf8")%string || (s =? "unicode")%string.

(** The "fallback" application name, if necessary. *)
Definition name_application (o : smap string) : smap string :=
  match o "fallback_application_name", o "application_name" with
  | Some f, None => mset o "application_name" f
  | _, _ => o
  end.
(** What follows parseOpts; [os_user]: what the operating system says the user is. *)
Definition finish (os_user : option string) (o : smap string) : option (smap string) :=
  let o := name_application o in
  if match o "client_encoding" with Some enc => negb (is_utf8 enc) | None => false end then None
  else
    let o := mset o "client_encoding" "UTF8" in
    if match o "datestyle" with Some d => negb (d =? "ISO, MDY")%string | None => false end then None
    else
      let o := match o "datestyle" with Some _ => o | None => mset o "datestyle" "ISO, MDY" end in
      match (match o "user" with Some _ => Some o | None => option_map (mset o "user") os_user end) with
      | None => None
      | Some o =>
        Some (match o "host" with
              | Some h => match strip "/" h with Some _ => mset o "sslmode" "disable" | None => o end
              | None => o
              end)
      end.

Definition new_connector (env : smap string) (os_user : option string) (dsn : string) : option (smap string) :=
  let o := over driver_defaults env in
  match (match strip "postgres://" dsn, strip "postgresql://" dsn with
         | None, None => Some dsn
         | _, _ => pq_parse_url dsn
         end) with
  | None => None
  | Some text => match parse_opts text o with Some o' => finish os_user o' | None => None end
  end.
