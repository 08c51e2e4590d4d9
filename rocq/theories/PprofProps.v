(** Theorems about the guards of the pprof endpoints (C67). *)
From Verif Require Import Common Bytes ProcsModel ConfNamesSpec ConfsModel PprofModel PprofSpec PprofProofs.
Local Open Scope string_scope.
Local Open Scope list_scope.
Local Open Scope Z_scope.

(** Decoding gives exactly the data that a text stands for. *)
Theorem base64_decodes : forall text data, decode_string text = Some data <-> base64_of text data.
Proof. exact decode_spec. Qed.
Print Assumptions base64_decodes.

(** Each data has one canonical text, which the encoder gives and which stands for the data. *)
Theorem base64_encodes : forall text data,
  (canonical text data <-> text = encode_string data) /\ (canonical text data -> base64_of text data).
Proof. intros text data. split; [apply canonical_encode|apply canonical_base64]. Qed.
Print Assumptions base64_encodes.

(** The fasthttp handler serves a request exactly if credentials are configured, free of ':', and the
    header carries them. *)
Theorem fasthttp_pprof_serves : forall conf header, fasthttp_pprof conf header = Served <->
  pp_user conf <> "" /\ pp_pass conf <> "" /\ ~ mentions ":" (pp_user conf) /\ ~ mentions ":" (pp_pass conf) /\
  exists text, carries header text /\ base64_of text (pp_user conf ++ ":" ++ pp_pass conf)%string.
Proof. exact fasthttp_served. Qed.
Print Assumptions fasthttp_pprof_serves.

(** So right credentials are not enough if one of them contains a ':'. *)
Theorem fasthttp_pprof_refuted : exists conf header text,
  pp_user conf <> "" /\ pp_pass conf <> "" /\
  header = ("Basic " ++ text)%string /\ canonical text (pp_user conf ++ ":" ++ pp_pass conf)%string /\
  fasthttp_pprof conf header = Unauthorized.
Proof.
  exists (mkPprof "admin" "a:b" 0 0). eexists. exists (encode_string "admin:a:b").
  split; [discriminate|]. split; [discriminate|]. split; [reflexivity|]. split; [apply encode_canonical|]. vm_compute. reflexivity.
Qed.
Print Assumptions fasthttp_pprof_refuted.

(** The gin filter lets a request pass exactly if credentials are configured and the header is the one an
    encoder makes from them. *)
Theorem gin_pprof_serves : forall conf header, gin_pprof conf header = Served <->
  pp_user conf <> "" /\ pp_pass conf <> "" /\
  exists text, header = ("Basic " ++ text)%string /\ canonical text (pp_user conf ++ ":" ++ pp_pass conf)%string.
Proof. exact gin_served. Qed.
Print Assumptions gin_pprof_serves.

(** Without credentials the endpoints answer nothing, respectively 404, whatever the header; all other
    requests that are not served get 401. *)
Theorem pprof_answers : forall conf header,
  (fasthttp_pprof conf header = Empty <-> pp_user conf = "" \/ pp_pass conf = "") /\
  (gin_pprof conf header = NotFound <-> pp_user conf = "" \/ pp_pass conf = "") /\
  fasthttp_pprof conf header <> NotFound /\ gin_pprof conf header <> Empty.
Proof. exact guard_answers. Qed.
Print Assumptions pprof_answers.

(** Profiling is switched on exactly if credentials are configured. *)
Theorem pprof_rates : forall conf r, profile_rates conf = Some r <->
  pp_user conf <> "" /\ pp_pass conf <> "" /\ r = (pp_block conf, pp_mutex conf).
Proof.
  intros conf r. unfold profile_rates. rewrite <- !String.eqb_neq.
  destruct (pp_user conf =? "")%string, (pp_pass conf =? "")%string; cbn [orb]; split; try discriminate;
    try (intros (A & B & _); discriminate); [intros [= <-]; auto|intros (_ & _ & ->); reflexivity].
Qed.
Print Assumptions pprof_rates.

Example base64_case : encode_string "admin:pw" = "YWRtaW46cHc=" /\ decode_string "YWRtaW46cHc=" = Some "admin:pw" /\
  decode_string "YWRtaW46cHd=" = Some "admin:pw" /\ decode_string "YWRtaW46cHc" = None /\ decode_string "YWRta W46cHc=" = None.
Proof. repeat split. Qed.

Example fasthttp_pprof_case : let conf := mkPprof "admin" "pw" 1 2 in
  map (fasthttp_pprof conf) ["Basic YWRtaW46cHc="; "YWRtaW46cHc="; "Basic YWRtaW46cHg="; "Basic "; ""; "Bearer x"] =
  [Served; Served; Unauthorized; Unauthorized; Unauthorized; Unauthorized] /\
  map (gin_pprof conf) ["Basic YWRtaW46cHc="; "YWRtaW46cHc="; "Basic YWRtaW46cHd="; ""] =
  [Served; Unauthorized; Unauthorized; Unauthorized] /\
  fasthttp_pprof (mkPprof "admin" "" 1 2) "Basic YWRtaW46" = Empty /\
  profile_rates conf = Some (1, 2).
Proof. split; [vm_compute; reflexivity|]. split; [vm_compute; reflexivity|]. split; vm_compute; reflexivity. Qed.
