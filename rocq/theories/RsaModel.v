(** Executable model of /repo/util/rsa/util.go with encoding/pem. *)
From Verif Require Import Common Bytes ProcsModel ConfsModel PprofModel.
Local Open Scope string_scope.
Local Open Scope list_scope.
Local Open Scope Z_scope.

Definition lf : ascii := ascii_of_N 10.
Definition cr : ascii := ascii_of_N 13.
Definition tab : ascii := ascii_of_N 9.
Definition nl : string := String.String lf "".

(** * bytes and strings *)

(** What follows the prefix [p] (bytes.HasPrefix and slicing). *)
Fixpoint strip (p s : string) : option string :=
  match p, s with
  | String.EmptyString, _ => Some s
  | String.String a p', String.String b s' => if Ascii.eqb a b then strip p' s' else None
  | _, _ => None
  end.
(** What is before and after the first [p] (strings.Index, bytes.Index and slicing). *)
Fixpoint cut (p s : string) : option (string * string) :=
  match strip p s with
  | Some r => Some ("", r)
  | None =>
    match s with
    | String.EmptyString => None
    | String.String c s' =>
      match cut p s' with
      | Some (a, b) => Some (String.String c a, b)
      | None => None
      end
    end
  end.
(** What precedes the suffix [p] (bytes.HasSuffix and slicing). *)
Fixpoint strip_suffix (p s : string) : option string :=
  if (s =? p)%string then Some ""
  else match s with
       | String.EmptyString => None
       | String.String c s' => option_map (String.String c) (strip_suffix p s')
       end.
(** bytes.TrimRight(s, " \t") *)
Definition is_blank (c : ascii) : bool := Ascii.eqb c " " || Ascii.eqb c tab.
(** removeSpacesAndTabs *)
Fixpoint drop_blanks (s : string) : string :=
  match s with
  | String.EmptyString => ""
  | String.String c s' => if is_blank c then drop_blanks s' else String.String c (drop_blanks s')
  end.

(** getLine: the first line without its end and trailing blanks, and what follows it. *)
Definition get_line (s : string) : string * string :=
  match cut nl s with
  | None => (trim_back is_blank s, "")
  | Some (a, b) =>
    let a' := match strip_suffix (String.String cr "") a with Some x => x | None => a end in
    (trim_back is_blank a', b)
  end.

(** * encoding/pem *)

(** The lines with a colon at the start are headers; [None]: the text ends.  The result tells whether there
    were any. *)
Fixpoint skip_headers (fuel : nat) (any : bool) (rest : string) : option (bool * string) :=
  match fuel with
  | O => None
  | S fuel' =>
    if (rest =? "")%string then None
    else let '(line, next) := get_line rest in
         match cut ":" line with
         | None => Some (any, rest)
         | Some _ => skip_headers fuel' true next
         end
  end.

(** The contents up to the END line of type [typ]; the END line must end with white space only. *)
Definition block_body (typ : string) (any : bool) (rest : string) : option string :=
  match (match (if any then None else strip "-----END " rest) with
         | Some trailer => Some ("", trailer)
         | None => cut (nl ++ "-----END ")%string rest
         end) with
  | None => None
  | Some (body, trailer) =>
    match strip (typ ++ "-----")%string trailer with
    | None => None
    | Some after => if (fst (get_line after) =? "")%string then decode_string (drop_blanks body) else None
    end
  end.

(** pem.Decode: type and contents of the first block; after a malformed block it starts again. *)
Fixpoint pem_decode_from (fuel : nat) (data : string) : option (string * string) :=
  match fuel with
  | O => None
  | S fuel' =>
    match (match strip "-----BEGIN " data with
           | Some r => Some r
           | None => option_map snd (cut (nl ++ "-----BEGIN ")%string data)
           end) with
    | None => None
    | Some rest =>
      let '(type_line, rest) := get_line rest in
      match strip_suffix "-----" type_line with
      | None => pem_decode_from fuel' rest
      | Some typ =>
        match skip_headers (S (String.length rest)) false rest with
        | None => None
        | Some (any, rest) =>
          match block_body typ any rest with
          | None => pem_decode_from fuel' rest
          | Some b => Some (typ, b)
          end
        end
      end
    end
  end.
Definition pem_decode (data : string) : option (string * string) :=
  pem_decode_from (S (String.length data)) data.

(** The line breaker of pem.Encode: lines of 64 characters, each followed by a line feed. *)
Fixpoint break_lines (room : nat) (s : string) : string :=
  match s with
  | String.EmptyString => if Nat.eqb room 64 then "" else nl
  | String.String c s' =>
    match room with
    | O => String.String lf (String.String c (break_lines 63 s'))
    | S room' => String.String c (break_lines room' s')
    end
  end.
(** pem.Encode without headers *)
Definition pem_encode (typ b : string) : string :=
  ("-----BEGIN " ++ typ ++ "-----" ++ nl ++ break_lines 64 (encode_string b) ++ "-----END " ++ typ ++ "-----" ++ nl)%string.

(** * util/rsa/util.go *)

Inductive error := NoBlock | WrongType (typ : string) | BadContents.
Inductive outcome (A : Type) := Ok (a : A) | Err (e : error) | Panic.
Arguments Ok {A}. Arguments Err {A}. Arguments Panic {A}.

(** Lines 13-19 and the other Must functions. *)
Definition must {A} (o : outcome A) : outcome A := match o with Err _ => Panic | _ => o end.

(** Lines 112-117 normalizePem *)
Definition normalize_pem (s typ : string) : string :=
  match cut "-----BEGIN" s, cut "-----END" s with
  | Some _, Some _ => s
  | _, _ => ("-----BEGIN " ++ typ ++ "-----" ++ nl ++ s ++ nl ++ "-----END " ++ typ ++ "-----")%string
  end.

(** Lines 35-44 ReadPrivateKeyBytes; [parse] is x509.ParsePKCS1PrivateKey. *)
Definition read_private_bytes {K} (parse : string -> option K) (s : string) : outcome K :=
  match pem_decode s with
  | None => Err NoBlock
  | Some (typ, b) =>
    if (typ =? "RSA PRIVATE KEY")%string then
      match parse b with Some k => Ok k | None => Err BadContents end
    else Err (WrongType typ)
  end.
(** Lines 21-25 *)
Definition read_private {K} (parse : string -> option K) (s : string) : outcome K :=
  read_private_bytes parse (normalize_pem s "RSA PRIVATE KEY").

(** What x509.ParsePKIXPublicKey returns. *)
Inductive pub_key (K : Type) := RsaKey (k : K) | OtherKey.
Arguments RsaKey {K}. Arguments OtherKey {K}.

(** Lines 68-81 ReadPublicKeyBytes: the type assertion at the end panics for other keys. *)
Definition read_public_bytes {K} (parse : string -> option (pub_key K)) (s : string) : outcome K :=
  match pem_decode s with
  | None => Err NoBlock
  | Some (typ, b) =>
    if (typ =? "PUBLIC KEY")%string then
      match parse b with
      | Some (RsaKey k) => Ok k
      | Some OtherKey => Panic
      | None => Err BadContents
      end
    else Err (WrongType typ)
  end.
(** Lines 54-58 *)
Definition read_public {K} (parse : string -> option (pub_key K)) (s : string) : outcome K :=
  read_public_bytes parse (normalize_pem s "PUBLIC KEY").

(** Lines 97-110 ReadX509CertificateBytes *)
Definition read_cert_bytes {K} (parse : string -> option K) (s : string) : outcome K :=
  match pem_decode s with
  | None => Err NoBlock
  | Some (typ, b) =>
    if (typ =? "CERTIFICATE")%string then
      match parse b with Some k => Ok k | None => Err BadContents end
    else Err (WrongType typ)
  end.
(** Lines 83-87 *)
Definition read_cert {K} (parse : string -> option K) (s : string) : outcome K :=
  read_cert_bytes parse (normalize_pem s "CERTIFICATE").

(** Lines 119-134 ExtractPublicKeyPem; [marshal] is x509.MarshalPKIXPublicKey of the public key. *)
Definition extract_public_pem {K} (marshal : K -> option string) (k : K) : option string :=
  option_map (pem_encode "PUBLIC KEY") (marshal k).
