(** Executable model of the processors for URLs and RSA keys (/repo/confstore/procs.go:122-159, 182-224) with
    net/url's ParseRequestURI (Go standard library, 1.13 to 1.23). *)
From Verif Require Import Common Bytes ProcsModel ConfsModel RsaModel StoreModel.
Local Open Scope string_scope.
Local Open Scope list_scope.
Local Open Scope Z_scope.

(** The fields of url.URL that parsing sets, but for the hints for printing RawPath and OmitHost.
    [u_user] is the user name and the password, if there is one. *)
Record url := Url {
  u_scheme : string; u_opaque : string; u_user : option (string * option string); u_host : string;
  u_path : string; u_force_query : bool; u_query : string }.

(** * strings *)

(** What is before and after the last [c] (strings.LastIndex and slicing). *)
Fixpoint cut_last (c : ascii) (s : string) : option (string * string) :=
  match s with
  | String.EmptyString => None
  | String.String x s' =>
    match cut_last c s' with
    | Some (a, b) => Some (String.String x a, b)
    | None => if Ascii.eqb x c then Some ("", s') else None
    end
  end.
(** strings.Count for one character. *)
Fixpoint count (c : ascii) (s : string) : nat :=
  match s with
  | String.EmptyString => O
  | String.String x s' => if Ascii.eqb x c then S (count c s') else count c s'
  end.
Fixpoint any_char (f : ascii -> bool) (s : string) : bool :=
  match s with
  | String.EmptyString => false
  | String.String x s' => f x || any_char f s'
  end.
Definition one_of (s : string) (c : ascii) : bool := any_char (Ascii.eqb c) s.
(** strings.ToLower on ASCII text. *)
Fixpoint lower_text (s : string) : string :=
  match s with
  | String.EmptyString => ""
  | String.String c s' =>
    String.String (if (65 <=? byte c) && (byte c <=? 90) then char_of (byte c + 32) else c) (lower_text s')
  end.
Definition is_letter (c : ascii) : bool :=
  ((97 <=? byte c) && (byte c <=? 122)) || ((65 <=? byte c) && (byte c <=? 90)).
Definition is_num (c : ascii) : bool := (48 <=? byte c) && (byte c <=? 57).
Definition dquote : ascii := ascii_of_N 34.

(** * net/url *)

(** stringContainsCTLByte *)
Definition is_ctl (c : ascii) : bool := (byte c <? 32) || (byte c =? 127).

(** getScheme: there is none, it is missing (an error), or it and what follows the colon.  [first]: at the
    first character. *)
Inductive scheme_res := NoScheme | MissingScheme | Scheme (s rest : string).
Fixpoint get_scheme (first : bool) (s : string) : scheme_res :=
  let more c s' := match get_scheme false s' with Scheme a r => Scheme (String.String c a) r | x => x end in
  match s with
  | String.EmptyString => NoScheme
  | String.String c s' =>
    if is_letter c then more c s'
    else if is_num c || one_of "+-." c then if first then NoScheme else more c s'
    else if Ascii.eqb c ":" then if first then MissingScheme else Scheme "" s'
    else NoScheme
  end.

(** The modes of escaping that matter here. *)
Inductive mode := EncodePath | EncodeUserPassword | EncodeHost | EncodeZone.

(** shouldEscape for hosts and zones. *)
Definition should_escape_host (c : ascii) : bool :=
  if is_letter c || is_num c then false
  else if one_of "!$&'()*+,;=:[]<>" c || Ascii.eqb c dquote then false
  else if one_of "-_.~" c then false
  else true.

(** The two checks of unescape; [x], [y] are the digits after '%'. *)
Definition bad_escape (m : mode) (x y : Z) : bool :=
  let is25 := (x =? 2) && (y =? 5) in
  match m with
  | EncodeHost => (x <? 8) && negb is25
  | EncodeZone => negb is25 && negb (x * 16 + y =? 32) && should_escape_host (char_of (x * 16 + y))
  | _ => false
  end.
Definition bad_plain (m : mode) (c : ascii) : bool :=
  match m with
  | EncodeHost | EncodeZone => (byte c <? 128) && should_escape_host c
  | _ => false
  end.
(** unescape; [None]: an error.  Checking and decoding happen in one pass here. *)
Fixpoint unescape (m : mode) (s : string) : option string :=
  match s with
  | String.EmptyString => Some ""
  | String.String c s' =>
    if Ascii.eqb c "%" then
      match s' with
      | String.String a (String.String b s'') =>
        match hex_value a, hex_value b with
        | Some x, Some y =>
          if bad_escape m x y then None
          else option_map (String.String (char_of (x * 16 + y))) (unescape m s'')
        | _, _ => None
        end
      | _ => None
      end
    else if bad_plain m c then None
    else option_map (String.String c) (unescape m s')
  end.

(** validOptionalPort *)
Definition valid_optional_port (s : string) : bool :=
  match s with
  | String.EmptyString => true
  | String.String c s' => Ascii.eqb c ":" && negb (any_char (fun x => negb (is_num x)) s')
  end.

(** parseHost *)
Definition parse_host (host : string) : option string :=
  match strip "[" host with
  | Some _ =>
    match cut_last "]" host with
    | None => None
    | Some (inside, colon_port) =>
      if negb (valid_optional_port colon_port) then None
      else match cut "%25" inside with
           | Some (addr, zone) =>
             match unescape EncodeHost addr, unescape EncodeZone ("%25" ++ zone)%string,
                   unescape EncodeHost ("]" ++ colon_port)%string with
             | Some h1, Some h2, Some h3 => Some (h1 ++ h2 ++ h3)%string
             | _, _, _ => None
             end
           | None => unescape EncodeHost host
           end
    end
  | None =>
    match cut_last ":" host with
    | Some (_, port) => if negb (valid_optional_port (":" ++ port)%string) then None else unescape EncodeHost host
    | None => unescape EncodeHost host
    end
  end.

(** validUserinfo *)
Definition valid_userinfo (s : string) : bool :=
  negb (any_char (fun c => negb (is_letter c || is_num c || one_of "-._:~!$&'()*+,;=%@" c)) s).

(** parseAuthority *)
Definition parse_authority (s : string) : option (option (string * option string) * string) :=
  match cut_last "@" s with
  | None => option_map (pair None) (parse_host s)
  | Some (info, host) =>
    match parse_host host with
    | None => None
    | Some h =>
      if negb (valid_userinfo info) then None
      else match cut ":" info with
           | None => option_map (fun n => (Some (n, None), h)) (unescape EncodeUserPassword info)
           | Some (name, password) =>
             match unescape EncodeUserPassword name, unescape EncodeUserPassword password with
             | Some n, Some p => Some (Some (n, Some p), h)
             | _, _ => None
             end
           end
    end
  end.

(** parse after the scheme, with viaRequest = true. *)
Definition parse_rest (scheme rest0 : string) : option url :=
  let '(rest, force, query) :=
    match strip_suffix "?" rest0 with
    | Some r => if Nat.eqb (count "?" rest0) 1 then (r, true, "")
                else match cut "?" rest0 with Some (a, b) => (a, false, b) | None => (rest0, false, "") end
    | None => match cut "?" rest0 with Some (a, b) => (a, false, b) | None => (rest0, false, "") end
    end in
  match strip "/" rest with
  | None => if (scheme =? "")%string then None else Some (Url scheme rest None "" "" force query)
  | Some _ =>
    match (if (scheme =? "")%string then None else strip "//" rest) with
    | Some auth0 =>
      let '(auth, path) := match cut "/" auth0 with Some (a, b) => (a, ("/" ++ b)%string) | None => (auth0, "") end in
      match parse_authority auth, unescape EncodePath path with
      | Some (user, host), Some p => Some (Url scheme "" user host p force query)
      | _, _ => None
      end
    | None => option_map (fun p => Url scheme "" None "" p force query) (unescape EncodePath rest)
    end
  end.

(** ParseRequestURI; [None]: an error. *)
Definition parse_request_uri (s : string) : option url :=
  if any_char is_ctl s then None
  else if (s =? "")%string then None
  else if (s =? "*")%string then Some (Url "" "" None "" "*" false "")
  else match get_scheme true s with
       | MissingScheme => None
       | NoScheme => parse_rest "" s
       | Scheme sch rest => parse_rest (lower_text sch) rest
       end.

(** * procs.go *)

(** Lines 122-142 urlProcessor: the value is a pointer, [None] is nil. *)
Definition url_processor : proc (option url) :=
  parser_processor (fun s => option_map Some (parse_request_uri s)) (fun _ => "not url value") (Some None) None.

(** Lines 144-159 urlStringProcessor *)
Definition url_string_processor : proc string :=
  Proc (fun value => if (value =? "")%string then (true, "")
                     else match parse_request_uri value with Some _ => (true, "") | None => (false, "not url value") end)
       (fun value => value).

(** Lines 182-202 rsaPrivateKeyPkcs1 and 204-224 rsaPublicKey: Validate and Convert with [read] for the function
    of util/rsa and [show] for the texts of its errors.  A panic of [read] is one of the processor. *)
Definition rsa_validate {K} (read : string -> outcome K) (show : error -> string) (value : string) : outcome (bool * string) :=
  if (value =? "")%string then Ok (true, "")
  else match read value with
       | Ok _ => Ok (true, "")
       | Err e => Ok (false, show e)
       | Panic => Panic
       end.
Definition rsa_convert {K} (read : string -> outcome K) (value : string) : outcome (option K) :=
  if (value =? "")%string then Ok None
  else match read value with
       | Ok k => Ok (Some k)
       | Err _ => Ok None
       | Panic => Panic
       end.
