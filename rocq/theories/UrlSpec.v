(** Specification of URLs as values of a config store. *)
From Verif Require Import Common Bytes ProcsModel ProcsSpec ConfNamesSpec RsaSpec UrlModel.
Local Open Scope string_scope.
Local Open Scope list_scope.
Local Open Scope Z_scope.

Definition starts (p s : string) : Prop := exists r, s = (p ++ r)%string.
Definition among (s : string) (c : ascii) : Prop := In c (String.list_ascii_of_string s).

Definition alpha (c : ascii) : Prop := In c uppers \/ In c lowers.
Definition control (c : ascii) : Prop := byte c < 32 \/ byte c = 127.

(** * Percent encoding *)

Definition hex_val (c : ascii) (x : nat) : Prop :=
  nth_error (String.list_ascii_of_string "0123456789abcdef") x = Some c \/
  nth_error (String.list_ascii_of_string "0123456789ABCDEF") x = Some c.

(** [s] stands for [t]: characters that satisfy [plain] stand for themselves, "%xx" for the character with that
    code, which must satisfy [coded]. *)
Inductive decoded (plain coded : ascii -> Prop) : string -> string -> Prop :=
| decoded_end : decoded plain coded "" ""
| decoded_plain c s t : c <> "%"%char -> plain c -> decoded plain coded s t ->
    decoded plain coded (String.String c s) (String.String c t)
| decoded_hex a b x y c s t : hex_val a x -> hex_val b y -> byte c = 16 * Z.of_nat x + Z.of_nat y -> coded c ->
    decoded plain coded s t ->
    decoded plain coded (String.String "%" (String.String a (String.String b s))) (String.String c t).

Definition anything (c : ascii) : Prop := True.
Definition path_text : string -> string -> Prop := decoded anything anything.

(** Characters of a host that stand for themselves. *)
Definition host_char (c : ascii) : Prop :=
  alpha c \/ is_digit c \/ among "-_.~!$&'()*+,;=:[]<>" c \/ byte c = 34.
Definition host_or_high (c : ascii) : Prop := host_char c \/ 128 <= byte c.
Definition name_text : string -> string -> Prop := decoded host_or_high (fun c => 128 <= byte c \/ c = "%"%char).
(** The zone of an IPv6 address. *)
Definition zone_text : string -> string -> Prop :=
  decoded host_or_high (fun c => host_char c \/ c = "%"%char \/ c = " "%char).

(** * Authority *)

Definition port_text (s : string) : Prop := s = "" \/ exists d, s = (":" ++ d)%string /\ all_chars is_digit d.

(** A host with an optional port, and how it is kept. *)
Inductive host_text : string -> string -> Prop :=
| host_name s h : ~ starts "[" s ->
    (~ mentions ":" s \/ exists a d, s = (a ++ ":" ++ d)%string /\ all_chars is_digit d) ->
    name_text s h -> host_text s h
| host_brackets a p h : port_text p -> ~ contains "%25" a ->
    name_text ("[" ++ a ++ "]" ++ p)%string h -> host_text ("[" ++ a ++ "]" ++ p)%string h
| host_zone a z p h1 h2 : port_text p -> ~ contains "%25" a ->
    name_text ("[" ++ a)%string h1 -> zone_text ("%25" ++ z)%string h2 ->
    host_text ("[" ++ a ++ "%25" ++ z ++ "]" ++ p)%string (h1 ++ h2 ++ "]" ++ p)%string.

Definition user_char (c : ascii) : Prop := alpha c \/ is_digit c \/ among "-._:~!$&'()*+,;=%@" c.

(** A user name with an optional password. *)
Inductive user_text : string -> string * option string -> Prop :=
| user_name s n : ~ mentions ":" s -> path_text s n -> user_text s (n, None)
| user_password s t n p : ~ mentions ":" s -> path_text s n -> path_text t p ->
    user_text (s ++ ":" ++ t)%string (n, Some p).

Inductive authority : string -> option (string * option string) -> string -> Prop :=
| authority_host s h : ~ mentions "@" s -> host_text s h -> authority s None h
| authority_user i s u h : ~ mentions "@" s -> all_chars user_char i -> user_text i u -> host_text s h ->
    authority (i ++ "@" ++ s)%string (Some u) h.

(** * URLs *)

Definition scheme_char (c : ascii) : Prop := alpha c \/ is_digit c \/ among "+-." c.
Definition scheme_name (s : string) : Prop :=
  exists c r, s = String.String c r /\ alpha c /\ all_chars scheme_char r.

(** The end of a URL from its first '?' on. *)
Inductive query_text : string -> bool -> string -> Prop :=
| query_none : query_text "" false ""
| query_empty : query_text "?" true ""
| query_some q : q <> "" -> query_text ("?" ++ q)%string false q.

Inductive request_uri : string -> url -> Prop :=
| uri_star : request_uri "*" (Url "" "" None "" "*" false "")
| uri_path s e p f q : starts "/" s -> ~ mentions "?" s -> path_text s p -> query_text e f q ->
    request_uri (s ++ e)%string (Url "" "" None "" p f q)
| uri_opaque n s e f q : scheme_name n -> ~ starts "/" s -> ~ mentions "?" s -> query_text e f q ->
    request_uri (n ++ ":" ++ s ++ e)%string (Url (to_lower n) s None "" "" f q)
| uri_rooted n s e p f q : scheme_name n -> starts "/" s -> ~ starts "//" s -> ~ mentions "?" s ->
    path_text s p -> query_text e f q ->
    request_uri (n ++ ":" ++ s ++ e)%string (Url (to_lower n) "" None "" p f q)
| uri_full n a s e u h p f q : scheme_name n -> ~ mentions "/" a -> ~ mentions "?" a -> authority a u h ->
    (s = "" \/ starts "/" s) -> ~ mentions "?" s -> path_text s p -> query_text e f q ->
    request_uri (n ++ "://" ++ a ++ s ++ e)%string (Url (to_lower n) "" u h p f q).

(** [s] is a URL with the parts [u]. *)
Definition is_url (s : string) (u : url) : Prop := all_chars (fun c => ~ control c) s /\ request_uri s u.

(** [s] with every character as "%xx". *)
Definition upper_digit (z : Z) : ascii := nth (Z.to_nat z) (String.list_ascii_of_string "0123456789ABCDEF") "0"%char.
Fixpoint percent (s : string) : string :=
  match s with
  | String.EmptyString => ""
  | String.String c s' =>
    String.String "%" (String.String (upper_digit (byte c / 16)) (String.String (upper_digit (byte c mod 16)) (percent s')))
  end.
