(** What the Oracle driver gets of a configuration. *)
From Verif Require Import Common Bytes ProcsModel ProcsSpec ConfNamesSpec ConfsModel ConfsSpec MysqlDsnSpec OraDsnModel OraDsnSpec OraDsnProofs.
Local Open Scope string_scope.
Local Open Scope list_scope.
Local Open Scope Z_scope.

(** The driver takes from the connection string the user, the password, the host, the port and the service that are
    configured, whatever characters the password has, and for every option the parts of its value between commas, in order,
    freed from white space; and it takes no other options.  [o] is the map of options, [ps] lists it in any order. *)
Theorem oracle_driver_gets : forall conf o ps, lists ps o -> ora_readable conf ps ->
  exists c, read_conn (build_url conf ps) = Some c /\
    oc_user c = or_user conf /\ oc_pass c = or_pass conf /\ oc_host c = or_host conf /\ oc_port c = itoa (or_port conf) /\ oc_service c = or_service conf /\
    (forall k, match o k with Some v => comma_parts v (values_of k (oc_options c)) | None => values_of k (oc_options c) = [] end).
Proof. intros conf o ps. exact (ora_values conf ps o). Qed.
Print Assumptions oracle_driver_gets.

(** The fields of a configuration without parameters and customizer reach the driver: Sid, ConnectTimeout and Servers. *)
Theorem oracle_driver_configured : forall conf o ps, or_params conf = "" -> oracle_options conf None = Some o -> lists ps o ->
  plain (or_host conf) -> 0 <= or_port conf -> ~ mentions ":" (or_user conf) ->
  (forall r, or_service conf <> ("/" ++ r)%string) -> (forall r, or_service conf <> (r ++ "/")%string) -> server_text (or_servers conf) ->
  exists c, read_conn (build_url conf ps) = Some c /\
    oc_user c = or_user conf /\ oc_pass c = or_pass conf /\ oc_host c = or_host conf /\ oc_port c = itoa (or_port conf) /\ oc_service c = or_service conf /\
    (or_sid conf <> "" -> comma_parts (or_sid conf) (values_of "SID" (oc_options c))) /\ (or_sid conf = "" -> values_of "SID" (oc_options c) = []) /\
    values_of "CONNECTION TIMEOUT" (oc_options c) = (if or_timeout conf =? 0 then [] else [itoa (or_timeout conf)]) /\
    (forall parts l, comma_parts (or_servers conf) parts -> servers_at parts l -> more_servers (oc_options c) = Some l).
Proof. exact ora_settings. Qed.
Print Assumptions oracle_driver_configured.

(** The further servers are read back from the option "server", in order; a server without a port makes the driver
    refuse the connection string; without such an option there are none. *)
Theorem oracle_driver_servers : forall conf o ps, lists ps o -> ora_readable conf ps ->
  exists c, read_conn (build_url conf ps) = Some c /\
    (forall v parts, one_server_option ps -> o "server" = Some v -> comma_parts v parts ->
       (forall l, servers_at parts l -> more_servers (oc_options c) = Some l) /\
       (forall t, In t parts -> t <> "" -> ~ mentions ":" t -> more_servers (oc_options c) = None)) /\
    ((forall k, server_name k -> o k = None) -> more_servers (oc_options c) = Some []).
Proof.
  intros conf o ps L R. destruct (ora_values conf ps o L R) as (c & Rd & _). exists c. split; [exact Rd|]. split.
  - intros v parts O E C. destruct (ora_servers conf ps o v parts L R O E C) as (c' & Rd' & M). rewrite Rd in Rd'. injection Rd' as <-. exact M.
  - intros N. destruct (ora_no_servers conf ps o L R N) as (c' & Rd' & M). rewrite Rd in Rd'. injection Rd' as <-. exact M.
Qed.
Print Assumptions oracle_driver_servers.

(** What does not reach the driver: a colon in the user moves the rest of the name into the password, slashes around a
    service are lost, and of a Sid with a comma the driver gets two values; a "&" in a server starts another option. *)
Definition spoiled : oracle_conf := mkOracle "ora.local" 1521 "a:b" "pw" "/x/" "s1,s2" "h:1&k=v" 0 "" 0 0 0.
Theorem oracle_driver_refuted : exists o ps c, oracle_options spoiled None = Some o /\ lists ps o /\ read_conn (build_url spoiled ps) = Some c /\
  oc_user c = "a" /\ oc_pass c = "b:pw" /\ oc_service c = "x" /\ values_of "SID" (oc_options c) = ["s1"; "s2"] /\
  values_of "server" (oc_options c) = ["h:1"] /\ o "k" = None /\ values_of "k" (oc_options c) = ["v"].
Proof.
  eexists. exists [("SID", "s1,s2"); ("server", "h:1&k=v")]. eexists. split; [reflexivity|]. split.
  - split; [repeat constructor; cbn; intuition discriminate|]. intros k v. rewrite (own_options spoiled _ eq_refl eq_refl k). split.
    + intros [E|[E|[]]]; inversion E; reflexivity.
    + intros H. unfold oracle_own, unless_empty, unless_zero in H. cbn in H. destruct (k =? "SID")%string eqn:E1; [apply String.eqb_eq in E1; inversion H; subst; now left|].
      destruct (k =? "server")%string eqn:E2; [apply String.eqb_eq in E2; inversion H; subst; right; now left|]. destruct (k =? "CONNECTION TIMEOUT")%string; discriminate.
  - split; [vm_compute; reflexivity|]. repeat split; vm_compute; reflexivity.
Qed.
Print Assumptions oracle_driver_refuted.

(** A case: a password with all sorts of characters, two servers. *)
Definition full : oracle_conf := mkOracle "ora.local" 1521 "scott" "p@ss/w?rd #1:%&" "app/x" "XE" "a.local:1522 , b.local:1523" 7 "" 20 5 0.
Definition full_options : list (string * string) := [("CONNECTION TIMEOUT", "7"); ("server", "a.local:1522 , b.local:1523"); ("SID", "XE")].
Example oracle_url_case :
  build_url full full_options =
  "oracle://scott:p@ss%2Fw%3Frd%20%231:%25&@ora.local:1521/app%2Fx?CONNECTION TIMEOUT=7&server=a.local:1522&server=b.local:1523&SID=XE" /\
  read_conn (build_url full full_options) = Some (mkOra "scott" "p@ss/w?rd #1:%&" "ora.local" "1521" "app/x"
    [("CONNECTION TIMEOUT", "7"); ("server", "a.local:1522"); ("server", "b.local:1523"); ("SID", "XE")]) /\
  more_servers [("CONNECTION TIMEOUT", "7"); ("server", "a.local:1522"); ("server", "b.local:1523"); ("SID", "XE")] =
    Some [("a.local", "1522"); ("b.local", "1523")].
Proof. vm_compute. repeat split. Qed.
Example oracle_driver_case : exists o, or_params full = "" /\ oracle_options full None = Some o /\ lists full_options o /\
  ora_readable full full_options /\ one_server_option full_options /\ server_text (or_servers full) /\
  comma_parts (or_servers full) ["a.local:1522"; "b.local:1523"] /\ servers_at ["a.local:1522"; "b.local:1523"] [("a.local", "1522"); ("b.local", "1523")].
Proof.
  pose (o := match oracle_options full None with Some o => o | None => mempty end). exists o. split; [reflexivity|]. split; [reflexivity|].
  assert (O : forall k, o k = oracle_own full k) by exact (own_options full o eq_refl eq_refl).
  assert (L : lists full_options o).
  { split; [repeat constructor; cbn; intuition discriminate|]. intros k v. rewrite O. split.
    - intros [E|[E|[E|[]]]]; inversion E; reflexivity.
    - intros H. unfold oracle_own, unless_empty, unless_zero in H. cbn in H. destruct (k =? "SID")%string eqn:E1; [apply String.eqb_eq in E1; inversion H; subst; right; right; now left|].
      destruct (k =? "server")%string eqn:E2; [apply String.eqb_eq in E2; inversion H; subst; right; now left|].
      destruct (k =? "CONNECTION TIMEOUT")%string eqn:E3; [apply String.eqb_eq in E3; inversion H; subst; now left|discriminate]. }
  assert (T : server_text (or_servers full)) by (cbn; repeat split; first [left; reflexivity|right; vm_compute; tauto]).
  split; [exact L|]. assert (C : ora_readable full full_options /\ one_server_option full_options).
  { apply (ora_configured full o full_options eq_refl eq_refl L); [|cbn; lia| | | |exact T].
    - unfold plain. cbn. repeat split; vm_compute; tauto.
    - vm_compute. intuition discriminate.
    - intros r. discriminate.
    - intros r E. unfold full in E. cbn [or_service] in E. do 5 (destruct r as [|? r]; [discriminate|cbn [String.append] in E; apply (f_equal (fun s => match s with String.String _ t => t | _ => s end)) in E]). destruct r; discriminate. }
  split; [apply C|]. split; [apply C|]. split; [exact T|]. split; [exact (parts_exist (or_servers full))|].
  apply servers_one; [apply (at_name "a.local" "1522"); vm_compute; intuition discriminate|].
  apply servers_one; [apply (at_name "b.local" "1523"); vm_compute; intuition discriminate|]. constructor.
Qed.
