(** Executable model of the guards of the pprof endpoints (/repo/confs/pprof.go:44-119). *)
From Verif Require Import Common Bytes ProcsModel ConfsModel.
Local Open Scope string_scope.
Local Open Scope list_scope.
Local Open Scope Z_scope.

(** * encoding/base64, StdEncoding *)

(** The value of a character ("decodeMap"). *)
Definition b64_value (c : ascii) : option Z :=
  let b := byte c in
  if (65 <=? b) && (b <=? 90) then Some (b - 65)
  else if (97 <=? b) && (b <=? 122) then Some (b - 97 + 26)
  else if (48 <=? b) && (b <=? 57) then Some (b - 48 + 52)
  else if b =? 43 then Some 62
  else if b =? 47 then Some 63
  else None.
(** The character of a value ("encode"). *)
Definition b64_char (z : Z) : ascii :=
  if z <? 26 then char_of (65 + z)
  else if z <? 52 then char_of (97 + z - 26)
  else if z <? 62 then char_of (48 + z - 52)
  else if z =? 62 then "+"%char
  else "/"%char.

(** Carriage returns and line feeds are skipped everywhere. *)
Fixpoint skip_newlines (s : string) : string :=
  match s with
  | String.EmptyString => ""
  | String.String c s' =>
    if (byte c =? 10) || (byte c =? 13) then skip_newlines s' else String.String c (skip_newlines s')
  end.

(** Quanta of four characters; only the last one may end with one or two '='; the bits that are left over
    there are ignored (the encoding is not "Strict").  [None]: an error. *)
Fixpoint decode_quanta (s : string) : option string :=
  match s with
  | String.EmptyString => Some ""
  | String.String c1 (String.String c2 (String.String c3 (String.String c4 s'))) =>
    match b64_value c1, b64_value c2 with
    | Some w, Some x =>
      let b1 := char_of (w * 4 + x / 16) in
      match b64_value c3 with
      | Some y =>
        let b2 := char_of ((x mod 16) * 16 + y / 4) in
        match b64_value c4 with
        | Some z =>
          match decode_quanta s' with
          | Some r => Some (String.String b1 (String.String b2 (String.String (char_of ((y mod 4) * 64 + z)) r)))
          | None => None
          end
        | None =>
          if Ascii.eqb c4 "=" && (s' =? "")%string then Some (String.String b1 (String.String b2 "")) else None
        end
      | None =>
        if Ascii.eqb c3 "=" && Ascii.eqb c4 "=" && (s' =? "")%string then Some (String.String b1 "") else None
      end
    | _, _ => None
    end
  | _ => None
  end.
(** StdEncoding.DecodeString *)
Definition decode_string (s : string) : option string := decode_quanta (skip_newlines s).

(** StdEncoding.EncodeToString *)
Fixpoint encode_string (s : string) : string :=
  match s with
  | String.EmptyString => ""
  | String.String a String.EmptyString =>
    String.String (b64_char (byte a / 4)) (String.String (b64_char ((byte a mod 4) * 16)) "==")
  | String.String a (String.String b String.EmptyString) =>
    String.String (b64_char (byte a / 4)) (String.String (b64_char ((byte a mod 4) * 16 + byte b / 16))
      (String.String (b64_char ((byte b mod 16) * 4)) "="))
  | String.String a (String.String b (String.String c s')) =>
    String.String (b64_char (byte a / 4)) (String.String (b64_char ((byte a mod 4) * 16 + byte b / 16))
      (String.String (b64_char ((byte b mod 16) * 4 + byte c / 64)) (String.String (b64_char (byte c mod 64))
        (encode_string s'))))
  end.

(** strings.TrimPrefix *)
Definition trim_prefix (s p : string) : string :=
  if String.prefix p s then String.substring (String.length p) (String.length s - String.length p) s else s.

(** * The guards *)

(** What a request gets: the profiling data (the next handler), status 401 with a WWW-Authenticate header,
    status 404, or an empty answer. *)
Inductive answer := Served | Unauthorized | NotFound | Empty.

(** confs/pprof.go:74-119 NewFasthttpRoutingPprofHandler; [header] is the Authorization header, empty if
    there is none. *)
Definition fasthttp_pprof (conf : pprof_conf) (header : string) : answer :=
  if (pp_user conf =? "")%string || (pp_pass conf =? "")%string then Empty
  else
    let auth := trim_prefix header "Basic " in
    if (auth =? "")%string then Unauthorized
    else
      match decode_string auth with
      | None => Unauthorized
      | Some b =>
        match split ":" b with
        | [user; pass] =>
          if negb (user =? pp_user conf)%string || negb (pass =? pp_pass conf)%string then Unauthorized
          else Served
        | _ => Unauthorized
        end
      end.

(** confs/pprof.go:45-65 NewGinPprofBasicAuthFilter with gin.BasicAuth (gin 1.7.7): the header must be the
    one prepared for the account. *)
Definition gin_pprof (conf : pprof_conf) (header : string) : answer :=
  if (pp_user conf =? "")%string || (pp_pass conf =? "")%string then NotFound
  else if (header =? "")%string then Unauthorized
  else if (header =? "Basic " ++ encode_string (pp_user conf ++ ":" ++ pp_pass conf))%string then Served
  else Unauthorized.

(** Lines 56-58 and 82-84: the profiling rates that are set when a guard is made. *)
Definition profile_rates (conf : pprof_conf) : option (Z * Z) :=
  if (pp_user conf =? "")%string || (pp_pass conf =? "")%string then None
  else Some (pp_block conf, pp_mutex conf).
