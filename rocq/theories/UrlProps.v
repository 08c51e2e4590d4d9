(** Theorems about URLs and RSA keys as values of a config store (C86, C87). *)
From Verif Require Import Common Bytes StoreModel StoreSpec ProcsModel ProcsSpec ConfNamesSpec PprofSpec RsaModel RsaSpec RsaProofs RsaProps UrlModel UrlSpec UrlProofs.
Local Open Scope string_scope.
Local Open Scope list_scope.
Local Open Scope Z_scope.

(** Reading a URL: exactly the texts of the grammar, with their parts. *)
Theorem url_exact : forall s u, parse_request_uri s = Some u <-> is_url s u.
Proof. exact parse_iff. Qed.
Print Assumptions url_exact.

(** A text has the parts of one URL at most. *)
Theorem url_unique : forall s u v, is_url s u -> is_url s v -> u = v.
Proof. intros s u v Hu Hv. apply parse_iff in Hu, Hv. congruence. Qed.
Print Assumptions url_unique.

Example url_exact_case : is_url "HTTPS://joe:p%40ss@[fe80::1%25en0]:8080/a%20b?x=1#y"
  (Url "https" "" (Some ("joe", Some "p@ss")) "[fe80::1%en0]:8080" "/a b" false "x=1#y") /\
  ~ exists u, is_url "http://h:80x/" u.
Proof.
  split; [apply parse_iff; vm_compute; reflexivity|]. intros [u H]. apply parse_iff in H. vm_compute in H. discriminate.
Qed.

(** The processors accept the empty text and the texts of URLs; one gives the parts, the other the text. *)
Theorem url_processor_exact : forall s,
  (accepts url_processor s = true <-> s = "" \/ exists u, is_url s u) /\
  (accepts url_string_processor s = true <-> s = "" \/ exists u, is_url s u) /\
  p_validate url_string_processor s = p_validate url_processor s /\
  (accepts url_processor s = false -> p_validate url_processor s = (false, "not url value")) /\
  (forall u, p_convert url_processor s = Some u <-> is_url s u) /\
  p_convert url_string_processor s = s.
Proof.
  intros s. unfold accepts, url_processor, url_string_processor, parser_processor. cbn [p_validate p_convert].
  destruct (String.eqb_spec s "") as [->|N].
  - repeat split; auto; try discriminate. intros H. apply parse_iff in H. vm_compute in H. discriminate.
  - assert (A : (exists u, is_url s u) <-> parse_request_uri s <> None).
    { split; [intros [u H]; apply parse_iff in H; congruence|]. intros H. destruct (parse_request_uri s) as [u|] eqn:E; [|congruence].
      exists u. apply parse_iff. exact E. }
    rewrite A. setoid_rewrite <- parse_iff. destruct (parse_request_uri s) as [u|]; cbn; intuition congruence.
Qed.
Print Assumptions url_processor_exact.

Example url_processor_case : accepts url_processor "http://h/" = true /\ accepts url_processor "h/x" = false /\
  p_convert url_processor "" = None /\ p_convert url_processor "h/x" = None.
Proof. repeat split. Qed.

(** A URL in the usual form is accepted as its parts. *)
Theorem url_usual : forall n h d path p q, scheme_name n ->
  all_chars host_char h -> ~ mentions ":" h -> ~ starts "[" h -> all_chars is_digit d ->
  ~ mentions "?" path -> path_text ("/" ++ path)%string p ->
  all_chars (fun c => ~ control c) path -> all_chars (fun c => ~ control c) q -> q <> "" ->
  is_url (n ++ "://" ++ (h ++ ":" ++ d) ++ ("/" ++ path) ++ ("?" ++ q))%string
         (Url (to_lower n) "" None (h ++ ":" ++ d)%string p false q).
Proof. exact full_url. Qed.
Print Assumptions url_usual.

(** Every path can be written: with all its characters encoded. *)
Theorem url_any_path : forall n h d p q, scheme_name n ->
  all_chars host_char h -> ~ mentions ":" h -> ~ starts "[" h -> all_chars is_digit d ->
  all_chars (fun c => ~ control c) q -> q <> "" ->
  is_url (n ++ "://" ++ (h ++ ":" ++ d) ++ ("/" ++ percent p) ++ ("?" ++ q))%string
         (Url (to_lower n) "" None (h ++ ":" ++ d)%string ("/" ++ p)%string false q).
Proof.
  intros n h d p q Hn Hh Nc Nb Hd Cq Hq. apply full_url; try assumption.
  - apply percent_safe; [vm_compute; intuition discriminate|discriminate].
  - constructor; [discriminate|exact I|apply percent_decodes].
  - apply percent_no_control.
Qed.
Print Assumptions url_any_path.

Example url_usual_case : scheme_name "http" /\ all_chars host_char "example.com" /\ ~ mentions ":" "example.com" /\
  ~ starts "[" "example.com" /\ all_chars is_digit "80" /\ percent "a/?" = "%61%2F%3F" /\
  parse_request_uri "http://example.com:80/%61%2F%3F?k=v" = Some (Url "http" "" None "example.com:80" "/a/?" false "k=v").
Proof.
  split; [exists "h"%char, "ttp"; split; [reflexivity|]; split; [right; vm_compute; tauto|]|].
  - split; [left; right; vm_compute; tauto|]. split; [left; right; vm_compute; tauto|]. split; [left; right; vm_compute; tauto|exact I].
  - split; [|split; [|split; [|split; [vm_compute; tauto|split; reflexivity]]]].
    + apply (all_chars_iff (fun c => should_escape_host c = false)); [apply should_escape_iff|vm_compute; tauto].
    + apply not_mentions. cbn. intuition discriminate.
    + intros [r E]. discriminate.
Qed.

(** The host has no character that would end it, and no control character. *)
Theorem url_host_safe : forall s u c, is_url s u -> among "/?#@\^`{|}" c \/ control c -> ~ mentions c (u_host u).
Proof. exact host_safe. Qed.
Print Assumptions url_host_safe.

(** The scheme is in lower case and is what the text begins with. *)
Theorem url_scheme_lower : forall s u, is_url s u ->
  u_scheme u = "" \/ exists n, scheme_name n /\ u_scheme u = to_lower n /\ starts (n ++ ":")%string s.
Proof. exact scheme_lower. Qed.
Print Assumptions url_scheme_lower.

Example url_host_safe_case : is_url "http://a%c3%bc/" (Url "http" "" None (String.String "a" (String.String (ascii_of_N 195) (String.String (ascii_of_N 188) ""))) "/" false "") /\
  (forall u, ~ is_url "http://a%2fb/" u) /\ among "/?#@\^`{|}" "/".
Proof.
  split; [apply parse_iff; vm_compute; reflexivity|]. split; [|vm_compute; tauto].
  intros u H. apply parse_iff in H. vm_compute in H. discriminate.
Qed.

(** Not every accepted text has a scheme and a host: paths, "*", and texts like "mailto:x" and "http:" are accepted. *)
Theorem url_complete_refuted : ~ forall s u, is_url s u -> u_scheme u <> "" /\ u_host u <> "".
Proof.
  intros H. destruct (H "javascript:x" (Url "javascript" "x" None "" "" false "")) as [_ E]; [|exact (E eq_refl)].
  apply parse_iff. vm_compute. reflexivity.
Qed.
Print Assumptions url_complete_refuted.

(** A path may get control characters by decoding, and a fragment is not cut off. *)
Theorem url_path_safe_refuted : ~ forall s u c, is_url s u -> c = "#"%char \/ control c -> ~ mentions c (u_path u).
Proof.
  intros H. apply (H "http://h/a#b" (Url "http" "" None "h" "/a#b" false "") "#"%char); [apply parse_iff; vm_compute; reflexivity|left; reflexivity|].
  right. right. left. reflexivity.
Qed.
Print Assumptions url_path_safe_refuted.

(** Without a scheme no host is read: "//h/x" is a path. *)
Theorem url_no_scheme_no_host : forall s u, is_url s u -> u_scheme u = "" -> u_host u = "" /\ u_user u = None /\ u_opaque u = "".
Proof.
  intros s u [_ H] E. destruct H as [|s e p f q|n s e f q Hn|n s e p f q Hn|n a s e us h p f q Hn]; try (repeat split; reflexivity);
    exfalso; apply scheme_not_empty in Hn; cbn [u_scheme] in E; rewrite E in Hn; discriminate.
Qed.
Print Assumptions url_no_scheme_no_host.

Example url_no_scheme_case : is_url "//h/x?" (Url "" "" None "" "//h/x" true "").
Proof. apply parse_iff. vm_compute. reflexivity. Qed.

(** * Keys *)

(** A private key is accepted if and only if it can be read; checking it never panics. *)
Theorem private_key_processor : forall K (parse : string -> option K) show s,
  (rsa_validate (read_private parse) show s = Ok (true, "") <-> s = "" \/ exists k, read_private parse s = Ok k) /\
  (forall e, s <> "" -> read_private parse s = Err e -> rsa_validate (read_private parse) show s = Ok (false, show e)) /\
  rsa_validate (read_private parse) show s <> Panic /\ rsa_convert (read_private parse) s <> Panic /\
  (forall k, rsa_convert (read_private parse) s = Ok (Some k) <-> s <> "" /\ read_private parse s = Ok k).
Proof.
  intros K parse show s. pose proof (private_outcome K parse s) as NP. unfold rsa_validate, rsa_convert.
  destruct (String.eqb_spec s "") as [->|N]; [repeat split; auto; try congruence; try discriminate; intros [H _]; congruence|].
  destruct (read_private parse s) as [k|e|]; [| |congruence]; repeat split; try discriminate; try congruence; eauto;
    try (intros [_ H]; congruence); try (intros [H|[k' H]]; congruence).
Qed.
Print Assumptions private_key_processor.

(** Bare base64 text of a key is accepted as that key, by both. *)
Theorem key_processor_bare : forall K (parse : string -> option K) (parse_pub : string -> option (pub_key K)) show text d k,
  spelled text d -> text <> "" ->
  (parse d = Some k -> rsa_validate (read_private parse) show text = Ok (true, "") /\ rsa_convert (read_private parse) text = Ok (Some k)) /\
  (parse_pub d = Some (RsaKey k) -> rsa_validate (read_public parse_pub) show text = Ok (true, "") /\ rsa_convert (read_public parse_pub) text = Ok (Some k)).
Proof.
  intros K parse parse_pub show text d k Hs Hn. destruct (read_bare K parse parse_pub text d Hs) as (H1 & _ & H2).
  unfold rsa_validate, rsa_convert. destruct (String.eqb_spec text "") as [E|_]; [congruence|]. rewrite H1, H2.
  split; intros ->; auto.
Qed.
Print Assumptions key_processor_bare.

(** Checking a public key panics if and only if it is a key of another kind than RSA. *)
Theorem public_key_processor : forall K (parse : string -> option (pub_key K)) show s,
  (rsa_validate (read_public parse) show s = Panic <->
   s <> "" /\ exists d, pem_decode (normalize_pem s "PUBLIC KEY") = Some ("PUBLIC KEY", d) /\ parse d = Some OtherKey) /\
  (rsa_validate (read_public parse) show s = Ok (true, "") <-> s = "" \/ exists k, read_public parse s = Ok k) /\
  (forall e, s <> "" -> read_public parse s = Err e -> rsa_validate (read_public parse) show s = Ok (false, show e)) /\
  (forall k, rsa_convert (read_public parse) s = Ok (Some k) <-> s <> "" /\ read_public parse s = Ok k).
Proof.
  intros K parse show s. rewrite <- public_panics. unfold rsa_validate, rsa_convert.
  destruct (String.eqb_spec s "") as [->|N].
  - repeat split; auto; try congruence; try discriminate; intros [H _]; congruence.
  - destruct (read_public parse s) as [k|e|]; repeat split; try discriminate; try congruence; eauto;
      try (intros [_ H]; congruence); try (intros [H|[k' H]]; congruence).
Qed.
Print Assumptions public_key_processor.

(** So checking a value is not always an answer: the text of, say, an elliptic-curve key makes it panic. *)
Theorem public_key_validate_refuted : ~ forall K (parse : string -> option (pub_key K)) show s,
  rsa_validate (read_public parse) show s <> Panic.
Proof.
  intros H. apply (H nat (fun _ => Some OtherKey) (fun _ => "") "AAAA"). vm_compute. reflexivity.
Qed.
Print Assumptions public_key_validate_refuted.

Example key_processor_case : spelled "AAAA" (String.String (ascii_of_N 0) (String.String (ascii_of_N 0) (String.String (ascii_of_N 0) ""))) /\
  rsa_validate (read_public (fun d => if (strlen d =? 3)%Z then Some (RsaKey 7) else None)) (fun _ => "bad") "AAAA" = Ok (true, "") /\
  rsa_convert (read_public (fun d => if (strlen d =? 3)%Z then Some (RsaKey 7) else None)) "AAAA" = Ok (Some 7).
Proof. split; [apply spelled_spec; vm_compute; reflexivity|split; vm_compute; reflexivity]. Qed.
