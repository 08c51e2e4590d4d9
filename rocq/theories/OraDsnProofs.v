(** Proofs about the way of an Oracle configuration to the driver. *)
From Verif Require Import Common Bytes ProcsModel ProcsSpec ProcsProofs ConfNamesModel ConfNamesSpec ConfNamesProofs ConfsModel
  ConfsSpec ConfsProofs RsaModel RsaSpec RsaProofs UrlModel UrlSpec UrlProofs MysqlDsnSpec PgDsnModel PgDsnSpec PgDsnProofs OraDsnModel OraDsnSpec.
Local Open Scope string_scope.
Local Open Scope list_scope.
Local Open Scope Z_scope.
Local Notation chr := String.String.

(** * Escaping *)

Lemma escape_decodes s : path_text (path_escape s) s.
Proof.
  induction s as [|c s IH]; [constructor|]. cbn [path_escape]. destruct (segment_plain c) eqn:E.
  - apply decoded_plain; [intros ->; discriminate|exact I|exact IH].
  - pose proof (byte_range c) as B. assert (H1 : 0 <= byte c / 16 < 16) by (split; [apply Z.div_pos|apply Z.div_lt_upper_bound]; lia). assert (H2 : 0 <= byte c mod 16 < 16) by (apply Z.mod_pos_bound; lia).
    apply decoded_hex with (x := Z.to_nat (byte c / 16)) (y := Z.to_nat (byte c mod 16)); [apply hex_value_is, hex_value_upper; exact H1|apply hex_value_is, hex_value_upper; exact H2| |exact I|exact IH].
    rewrite !Z2Nat.id by lia. pose proof (Z.div_mod (byte c) 16). lia.
Qed.
Lemma escaped_chars s c : mentions c (path_escape s) -> segment_plain c = true \/ c = "%"%char.
Proof.
  induction s as [|x s IH]; [intros []|]. cbn [path_escape]. destruct (segment_plain x) eqn:E.
  - intros [<-|M]; [left; exact E|exact (IH M)].
  - pose proof (byte_range x) as B. assert (H1 : 0 <= byte x / 16 < 16) by (split; [apply Z.div_pos|apply Z.div_lt_upper_bound]; lia). assert (H2 : 0 <= byte x mod 16 < 16) by (apply Z.mod_pos_bound; lia).
    intros [<-|[<-|[<-|M]]]; [now right| | |exact (IH M)]; left; unfold segment_plain; rewrite upper_hex_plain by assumption; reflexivity.
Qed.
Lemma escaped_user s : all_chars user_char (path_escape s).
Proof.
  apply mentions_all. intros c M. apply escaped_chars in M. assert (V : valid_userinfo (chr c "") = true).
  { revert M. allchars c; vm_compute; intros [M|M]; first [reflexivity|discriminate]. }
  apply valid_userinfo_iff in V. exact (proj1 V).
Qed.
Lemma escaped_calm s c : c = "?"%char \/ c = "#"%char \/ c = "/"%char \/ control c -> ~ mentions c (path_escape s).
Proof. intros H M. apply escaped_chars in M. rewrite <- is_ctl_iff in H. revert M H. allchars c; vm_compute; intuition discriminate. Qed.
Lemma escaped_colon s : ~ mentions ":" s -> ~ mentions ":" (path_escape s).
Proof.
  induction s as [|x s IH]; [intros _ []|]. intros N. cbn [path_escape]. assert (N' : ~ mentions ":" (path_escape s)) by (apply IH; intros M; apply N; now right). destruct (segment_plain x).
  - intros [M|M]; [apply N; left; exact M|exact (N' M)].
  - pose proof (byte_range x) as B. assert (H1 : 0 <= byte x / 16 < 16) by (split; [apply Z.div_pos|apply Z.div_lt_upper_bound]; lia). assert (H2 : 0 <= byte x mod 16 < 16) by (apply Z.mod_pos_bound; lia).
    intros [M|[M|[M|M]]]; [discriminate| | |exact (N' M)].
    + pose proof (upper_hex_plain _ H1) as U. rewrite M in U. discriminate.
    + pose proof (upper_hex_plain _ H2) as U. rewrite M in U. discriminate.
Qed.

(** * The query *)

Definition written (k v : string) : string := if is_server k then v else query_escape v.
Definition ora_item (kv : string * string) : string := fst kv +++ "=" +++ written (fst kv) (snd kv).
Definition ora_pairs (ps : list (string * string)) : list (string * string) :=
  flat_map (fun kv => map (fun t => (fst kv, trim_space t)) (split "," (snd kv))) ps.
Lemma option_text_is k t : option_text k t = ora_item (k, trim_space t) +++ "&".
Proof. unfold option_text, ora_item, written. cbn [fst snd sprintf Ascii.eqb Bool.eqb show]. destruct (is_server k); cbn [String.append]; rewrite !append_assoc'; reflexivity. Qed.
Lemma trimmed_parts v : map trim_space (split "," (trim_space v)) = map trim_space (split "," v).
Proof.
  pose proof (split_cuts "," v) as (N & E & M). rewrite E at 1. now rewrite padded_parts.
Qed.
Lemma inner_fold k l : forall base, fold_left (fun ret temp => ret +++ option_text k temp) l base = base +++ String.concat "" (map (fun i => i +++ "&") (map ora_item (map (fun t => (k, t)) (map trim_space l)))).
Proof.
  induction l as [|t l IH]; intros base; cbn [fold_left map].
  - cbn. now rewrite append_empty.
  - rewrite IH, option_text_is. rewrite append_assoc'. f_equal. destruct l as [|t2 l]; [cbn; now rewrite append_empty|]. reflexivity.
Qed.
Lemma concat_app_s (a b : list string) : String.concat "" (a ++ b) = String.concat "" a +++ String.concat "" b.
Proof.
  induction a as [|x a IH]; [reflexivity|]. cbn [Datatypes.app]. destruct a as [|y a].
  - cbn [Datatypes.app String.concat]. destruct b as [|z b]; [cbn; now rewrite append_empty|reflexivity].
  - cbn [Datatypes.app] in IH |- *. rewrite !concat_cons2. rewrite IH. rewrite !append_assoc'. reflexivity.
Qed.
Lemma outer_fold ps : forall base,
  fold_left (fun ret kv => fold_left (fun ret temp => ret +++ option_text (fst kv) temp) (split "," (trim_space (snd kv))) ret) ps base =
  base +++ String.concat "" (map (fun i => i +++ "&") (map ora_item (ora_pairs ps))).
Proof.
  induction ps as [|[k v] ps IH]; intros base; cbn [fold_left fst snd].
  - cbn. now rewrite append_empty.
  - rewrite IH, inner_fold, trimmed_parts. unfold ora_pairs at 2. cbn [flat_map fst snd]. rewrite !map_app, concat_app_s. rewrite append_assoc'. rewrite <- (map_map trim_space (fun t => (k, t))). reflexivity.
Qed.

(** Options that the query has room for. *)
Definition good (kv : string * string) : Prop := key_name (fst kv) /\ (is_server (fst kv) = true -> server_text (snd kv)).
Definition calm (c : ascii) : Prop := unreserved c = true \/ among ":,[] +%=" c.
Lemma key_chars k c : key_name k -> mentions c k -> unreserved c = true \/ c = " "%char.
Proof. intros H M. exact (all_mentions _ _ _ H M). Qed.
Lemma written_chars kv c : good kv -> mentions c (written (fst kv) (snd kv)) -> unreserved c = true \/ among ":,[] +%" c.
Proof.
  intros [_ G] M. unfold written in M. destruct (is_server (fst kv)).
  - specialize (G eq_refl). destruct (all_mentions _ _ _ G M) as [H|H]; [now left|right]. revert H. vm_compute. tauto.
  - apply escape_chars in M. destruct M as [M|[->| ->]]; [now left|right; vm_compute; tauto|right; vm_compute; tauto].
Qed.
Lemma item_chars kv c : good kv -> mentions c (ora_item kv) -> calm c.
Proof.
  intros G M. unfold ora_item in M. apply mentions_app in M. destruct M as [M|[<-|M]].
  - destruct (key_chars _ _ (proj1 G) M) as [H| ->]; [now left|right; vm_compute; tauto].
  - right. vm_compute. tauto.
  - destruct (written_chars kv c G M) as [H|H]; [now left|right]. revert H. vm_compute. tauto.
Qed.
Lemma calm_not c d : calm c -> unreserved d = false -> ~ among ":,[] +%=" d -> c <> d.
Proof. intros [H|H] U N ->; [congruence|contradiction]. Qed.
Ltac not_in := vm_compute; intuition discriminate.
Lemma item_free kv d : good kv -> unreserved d = false -> ~ among ":,[] +%=" d -> ~ mentions d (ora_item kv).
Proof. intros G U N M. apply (item_chars kv d G) in M. exact (calm_not d d M U N eq_refl). Qed.
Lemma unescape_same s : ~ mentions "+" s -> ~ mentions "%" s -> query_unescape s = Some s.
Proof.
  intros N1 N2. apply query_unescape_spec. induction s as [|c s IH]; [constructor|].
  apply unescapes_char; [intros ->; apply N1; now left|intros ->; apply N2; now left|]. apply IH; intros M; [apply N1|apply N2]; now right.
Qed.
Lemma ora_item_reads kv : good kv -> query_item (ora_item kv) = Some kv.
Proof.
  intros G. unfold query_item. rewrite (one_of_mentions _ ";") by (apply item_free; [exact G|reflexivity|not_in]).
  destruct kv as [k v]. pose proof G as [K S]. cbn [fst snd] in K, S. unfold ora_item. cbn [fst snd].
  assert (E : (k +++ "=" +++ written k v =? "")%string = false) by (destruct k; reflexivity). rewrite E. change ("=" +++ written k v) with (chr "=" (written k v)).
  assert (Kf : forall d, unreserved d = false -> d <> " "%char -> ~ mentions d k) by (intros d U N M; destruct (key_chars k d K M); congruence).
  rewrite (cut_char "=" k) by (apply Kf; [reflexivity|discriminate]). rewrite (unescape_same k) by (apply Kf; [reflexivity|discriminate]).
  unfold written. destruct (is_server k); [|now rewrite unescape_escape]. specialize (S eq_refl).
  rewrite (unescape_same v); [reflexivity| |]; intros M; destruct (all_mentions _ _ _ S M) as [H|H]; try discriminate; revert H; not_in.
Qed.
Lemma items_calm kvs c : Forall good kvs -> mentions c (String.concat "&" (map ora_item kvs)) -> calm c \/ c = "&"%char.
Proof.
  induction kvs as [|kv kvs IH]; intros G; [intros []|]. inversion G as [|? ? G1 G2]; subst. destruct kvs as [|kv2 kvs]; [intros M; left; exact (item_chars kv c G1 M)|].
  cbn [map]. rewrite concat_cons2. intros M. apply mentions_app in M. destruct M as [M|[<-|M]]; [left; exact (item_chars kv c G1 M)|now right|exact (IH G2 M)].
Qed.
Lemma ora_query_reads kvs : Forall good kvs -> parse_query (String.concat "&" (map ora_item kvs)) = kvs.
Proof.
  intros H. unfold parse_query. destruct kvs as [|kv kvs]; [reflexivity|].
  assert (S : split "&" (String.concat "&" (map ora_item (kv :: kvs))) = map ora_item (kv :: kvs)).
  { apply cuts_split. split; [discriminate|]. split; [reflexivity|]. intros p Hp. apply in_map_iff in Hp. destruct Hp as (x & <- & Hin). rewrite Forall_forall in H. apply item_free; [now apply H|reflexivity|not_in]. }
  rewrite S. clear S. revert H. generalize (kv :: kvs). clear kv kvs. intros kvs H.
  induction H as [|kv kvs G H IH]; [reflexivity|]. cbn [map collect]. now rewrite ora_item_reads, IH.
Qed.
Lemma items_end kvs : Forall good kvs -> kvs <> [] ->
  String.concat "&" (map ora_item kvs) <> "" /\ trim_back (Ascii.eqb "&") (String.concat "&" (map ora_item kvs)) = String.concat "&" (map ora_item kvs).
Proof.
  assert (Hi : forall kv, good kv -> ora_item kv <> "" /\ trim_back (Ascii.eqb "&") (ora_item kv) = ora_item kv).
  { intros kv G. split; [unfold ora_item; destruct (fst kv); discriminate|]. apply trim_back_free. apply item_free; [exact G|reflexivity|not_in]. }
  induction kvs as [|kv [|kv2 kvs] IH]; intros G H; [congruence|inversion G; subst; now apply Hi|]. inversion G as [|? ? G1 G2]; subst.
  destruct (IH G2) as [I1 I2]; [discriminate|]. cbn [map] in *. rewrite concat_cons2. split; [destruct (ora_item kv); discriminate|].
  apply trim_back_app; [discriminate|]. apply (trim_back_app _ "&"); assumption.
Qed.

(** * The url *)

Definition twin (conf : oracle_conf) : pg_conf :=
  mkPg (or_host conf) (or_port conf) (path_escape (or_user conf)) (path_escape (or_pass conf)) (path_escape (or_service conf)) 0 "" 0 0 0.
Definition ora_base (conf : oracle_conf) : string :=
  "oracle://" +++ path_escape (or_user conf) +++ ":" +++ path_escape (or_pass conf) +++ "@" +++ or_host conf +++ ":" +++ itoa (or_port conf) +++
  "/" +++ path_escape (or_service conf).
Lemma build_shape conf ps : Forall good (ora_pairs ps) -> build_url conf ps = ora_base conf +++ "?" +++ String.concat "&" (map ora_item (ora_pairs ps)).
Proof.
  intros G. unfold build_url.
  assert (Hb : sprintf itoa "oracle://%s:%s@%s:%d/%s?"
    [AStr (path_escape (or_user conf)); AStr (path_escape (or_pass conf)); AStr (or_host conf); AInt (or_port conf); AStr (path_escape (or_service conf))] = ora_base conf +++ "?").
  { unfold ora_base. rewrite !append_assoc'. reflexivity. }
  rewrite Hb, outer_fold, append_assoc'. destruct (ora_pairs ps) as [|kv kvs] eqn:E.
  - apply trim_back_app; [discriminate|reflexivity].
  - rewrite concat_amp by discriminate. destruct (items_end (kv :: kvs) G) as [N T]; [discriminate|]. rewrite <- !append_assoc'. rewrite trim_back_last by reflexivity.
    rewrite append_assoc'. apply trim_back_app; [discriminate|]. apply (trim_back_app _ "?"); assumption.
Qed.

Lemma calm_query c : calm c \/ c = "&"%char -> ~ control c /\ c <> "#"%char.
Proof. unfold calm. rewrite <- is_ctl_iff. allchars c; vm_compute; intuition discriminate. Qed.

Lemma ora_parses conf q : plain (or_host conf) -> 0 <= or_port conf -> ~ mentions ":" (or_user conf) ->
  all_chars (fun c => ~ control c /\ c <> "#"%char) q ->
  exists f, parse_url (ora_base conf +++ "?" +++ q) =
    Some (Url "oracle" "" (Some (or_user conf, Some (or_pass conf))) (endpoint_text (twin conf)) ("/" +++ or_service conf) f q).
Proof.
  intros Hh Hp Hu Cq.
  assert (H1 : all_chars host_char (pg_host (twin conf))).
  { apply mentions_all. intros c M. apply should_escape_iff. pose proof (plain_chars _ c Hh M) as U. revert U. clear. allchars c; vm_compute; congruence. }
  assert (H2 : endpoint (or_port conf) (or_host conf) (or_host conf) (Some (itoa (or_port conf)))) by (apply endpoint_name; apply plain_free; (exact Hh || reflexivity)).
  pose proof (endpoint_reads (twin conf) _ _ H1 H2 Hp) as He.
  assert (Ce : all_chars host_char (endpoint_text (twin conf))).
  { unfold endpoint_text. apply all_chars_join. split; [exact H1|]. apply (port_host (":" +++ itoa (or_port conf))). right. exists (itoa (or_port conf)). split; [reflexivity|]. exact (proj1 (port_digits _ Hp)). }
  set (svc := path_escape (or_service conf)).
  set (info := path_escape (or_user conf) +++ ":" +++ path_escape (or_pass conf)).
  assert (Ci : all_chars user_char info).
  { unfold info. apply all_chars_join. split; [apply escaped_user|]. split; [|apply escaped_user]. right. right. vm_compute. tauto. }
  set (auth := info +++ "@" +++ endpoint_text (twin conf)).
  assert (E : ora_base conf +++ "?" +++ q = "oracle" +++ chr ":" ("//" +++ auth +++ ("/" +++ svc) +++ ("?" +++ q))).
  { unfold ora_base, auth, info, endpoint_text, svc. cbn [pg_host pg_port twin]. rewrite !append_assoc'. reflexivity. }
  assert (Ca : all_chars (fun c => ~ control c /\ c <> "#"%char) auth).
  { unfold auth. apply all_chars_join. split; [apply (all_chars_imp user_char); [|exact Ci]; intros c Hc; apply user_calm in Hc; tauto|].
    split; [split; [rewrite <- is_ctl_iff; discriminate|discriminate]|].
    apply (all_chars_imp host_char); [|exact Ce]. intros c Hc. apply host_calm in Hc. tauto. }
  assert (Cd : all_chars (fun c => ~ control c /\ c <> "#"%char) svc).
  { apply mentions_all. intros c M. split; [intros K; apply (escaped_calm (or_service conf) c); [tauto|exact M]|]. intros ->. apply (escaped_calm (or_service conf) "#"%char); [tauto|exact M]. }
  assert (C : all_chars (fun c => ~ control c /\ c <> "#"%char) ("oracle" +++ chr ":" ("//" +++ auth +++ ("/" +++ svc) +++ ("?" +++ q)))).
  { apply all_chars_join. split; [cbn; rewrite <- !is_ctl_iff; vm_compute; intuition discriminate|].
    split; [rewrite <- is_ctl_iff; vm_compute; intuition discriminate|].
    apply all_chars_join. split; [cbn; rewrite <- !is_ctl_iff; vm_compute; intuition discriminate|].
    apply all_chars_join. split; [exact Ca|]. apply all_chars_join. split.
    - split; [rewrite <- is_ctl_iff; vm_compute; intuition discriminate|exact Cd].
    - split; [rewrite <- is_ctl_iff; vm_compute; intuition discriminate|exact Cq]. }
  rewrite E. unfold parse_url.
  rewrite (cut_char_none "#") by (apply not_mentions; exact (all_chars_imp _ _ _ (fun c H => proj2 H) C)).
  rewrite (proj2 (controls_iff _) (all_chars_imp _ _ _ (fun c H => proj1 H) C)).
  assert (G : get_scheme true ("oracle" +++ chr ":" ("//" +++ auth +++ ("/" +++ svc) +++ ("?" +++ q))) =
              Scheme "oracle" ("//" +++ auth +++ ("/" +++ svc) +++ ("?" +++ q))).
  { apply get_scheme_iff. split; [|reflexivity]. exists "o"%char, "racle". split; [reflexivity|]. split; [right; vm_compute; tauto|].
    cbn. unfold scheme_char, alpha. vm_compute. tauto. }
  rewrite G. change (lower_text "oracle") with "oracle".
  assert (Q : exists f, query_text ("?" +++ q) f q).
  { destruct (String.string_dec q "") as [->|N]; [exists true; constructor|exists false; constructor; exact N]. }
  destruct Q as [f Q]. exists f.
  assert (R : parse_rest "oracle" ("//" +++ auth +++ ("/" +++ svc) +++ ("?" +++ q)) =
              Some (Url "oracle" "" (Some (or_user conf, Some (or_pass conf))) (endpoint_text (twin conf)) ("/" +++ or_service conf) f q)).
  { apply parse_scheme_iff; [reflexivity|].
    assert (Nm : forall c, c = "/"%char \/ c = "?"%char -> ~ mentions c auth).
    { intros c Hc M. unfold auth in M. apply mentions_app in M. destruct M as [M|[M|M]].
      - apply (all_mentions _ _ _ Ci) in M. apply user_calm in M. intuition congruence.
      - subst c. intuition discriminate.
      - apply (all_mentions _ _ _ Ce) in M. apply host_calm in M. intuition congruence. }
    apply after_full; try assumption.
    - apply Nm. left. reflexivity.
    - apply Nm. right. reflexivity.
    - unfold auth. apply authority_user; [|exact Ci| |exact He].
      + intros M. apply (all_mentions _ _ _ Ce) in M. apply host_calm in M. intuition congruence.
      + unfold info. apply user_password; [now apply escaped_colon|apply escape_decodes|apply escape_decodes].
    - right. exists svc. reflexivity.
    - intros [M|M]; [discriminate|]. apply (escaped_calm (or_service conf) "?"%char); [tauto|exact M].
    - apply decoded_plain; [discriminate|exact I|apply escape_decodes]. }
  rewrite R. reflexivity.
Qed.

Lemma trim_service s : (forall r, s <> "/" +++ r) -> (forall r, s <> r +++ "/") -> trim_back (Ascii.eqb "/") (trim_front (Ascii.eqb "/") ("/" +++ s)) = s.
Proof.
  intros N1 N2. cbn [String.append trim_front]. rewrite Ascii.eqb_refl. rewrite trim_front_stable.
  - apply trim_back_stable. intros c r E. apply Ascii.eqb_neq. intros <-. exact (N2 r E).
  - intros c r E. apply Ascii.eqb_neq. intros <-. exact (N1 r E).
Qed.
Lemma server_name_iff k : is_server k = true <-> server_name k.
Proof. unfold is_server, server_name. rewrite lower_text_is. apply String.eqb_eq. Qed.
Lemma trim_space_chars s c : mentions c (trim_space s) -> mentions c s.
Proof.
  unfold trim_space. intros M. destruct (trim_front_split is_space s) as (a & -> & _). apply mentions_app. right.
  destruct (trim_back_cut is_space (trim_front is_space s)) as (b & E & _). rewrite E. apply mentions_app. left. rewrite E in M.
  revert M. rewrite <- E. exact (fun M => M).
Qed.
Lemma split_chars c s p x : In p (split c s) -> mentions x p -> mentions x s.
Proof.
  revert p. induction s as [|y s IH]; intros p; cbn [split]; [intros [<-|[]] []|]. destruct (Ascii.eqb y c).
  - intros [<-|H] M; [destruct M|right; exact (IH p H M)].
  - destruct (split c s) as [|q qs] eqn:E; [intros [<-|[]] [M|[]]; left; exact M|]. intros [<-|H] M.
    + destruct M as [M|M]; [left; exact M|right; apply (IH q); [now left|exact M]].
    + right. apply (IH p); [now right|exact M].
Qed.
Lemma pairs_good ps : (forall k v, In (k, v) ps -> key_name k /\ (server_name k -> server_text v)) -> Forall good (ora_pairs ps).
Proof.
  intros H. apply Forall_forall. intros [k t] Hin. unfold ora_pairs in Hin. apply in_flat_map in Hin. destruct Hin as ([k0 v] & Hin & Hm). cbn [fst snd] in Hm.
  apply in_map_iff in Hm. destruct Hm as (raw & E & Hr). injection E as <- <-. destruct (H k0 v Hin) as [K S]. split; [exact K|]. cbn [fst snd]. intros Hs. apply server_name_iff in Hs. specialize (S Hs).
  apply mentions_all. intros c M. apply (all_mentions _ _ _ S). apply trim_space_chars in M. exact (split_chars "," v raw c Hr M).
Qed.
Lemma parts_exist v : comma_parts v (map trim_space (split "," v)).
Proof.
  exists (split "," v). pose proof (split_cuts "," v) as S. split; [exact S|]. destruct S as (_ & _ & M). induction (split "," v) as [|p l IH]; cbn [map]; constructor.
  - apply padded_self. apply M. now left.
  - apply IH. intros q Hq. apply M. now right.
Qed.
Lemma values_none ps k : ~ In k (map fst ps) -> values_of k (ora_pairs ps) = [].
Proof.
  unfold values_of. induction ps as [|[k0 v] ps IH]; intros N; [reflexivity|]. cbn [map fst In] in N. unfold ora_pairs. cbn [flat_map fst snd]. fold (ora_pairs ps).
  rewrite filter_app, map_app. rewrite IH by tauto. rewrite app_nil_r. assert (E : (k0 =? k)%string = false) by (apply String.eqb_neq; tauto).
  induction (split "," v) as [|t l IHl]; [reflexivity|]. cbn [map filter fst]. rewrite E. exact IHl.
Qed.
Lemma values_some ps k v : NoDup (map fst ps) -> In (k, v) ps -> values_of k (ora_pairs ps) = map trim_space (split "," v).
Proof.
  induction ps as [|[k0 v0] ps IH]; intros N Hin; [destruct Hin|]. cbn [map fst] in N. inversion N as [|? ? N1 N2]; subst.
  assert (Eq : values_of k (ora_pairs ((k0, v0) :: ps)) = values_of k (map (fun t => (k0, trim_space t)) (split "," v0)) ++ values_of k (ora_pairs ps)).
  { unfold values_of, ora_pairs. cbn [flat_map fst snd]. now rewrite filter_app, map_app. }
  rewrite Eq. destruct Hin as [E|Hin].
  - injection E as -> ->. rewrite values_none by exact N1. rewrite app_nil_r. unfold values_of. clear. induction (split "," v) as [|t l IHl]; [reflexivity|]. cbn [map filter fst]. rewrite String.eqb_refl. cbn [map snd]. now rewrite IHl.
  - rewrite (IH N2 Hin). assert (Ne : (k0 =? k)%string = false). { apply String.eqb_neq. intros ->. apply N1. apply in_map_iff. exists (k, v). now split. }
    assert (Z0 : values_of k (map (fun t => (k0, trim_space t)) (split "," v0)) = []).
    { clear Eq. unfold values_of. induction (split "," v0) as [|t l IHl]; [reflexivity|]. cbn [map filter fst]. rewrite Ne. exact IHl. }
    rewrite Z0. reflexivity.
Qed.
Lemma ora_reads conf ps : ora_readable conf ps ->
  read_conn (build_url conf ps) = Some (mkOra (or_user conf) (or_pass conf) (or_host conf) (itoa (or_port conf)) (or_service conf) (ora_pairs ps)).
Proof.
  intros [Hh Hp Hu S1 S2 Hk]. pose proof (pairs_good ps Hk) as G. rewrite (build_shape conf ps G). unfold read_conn.
  destruct (ora_parses conf (String.concat "&" (map ora_item (ora_pairs ps))) Hh Hp Hu) as (f & ->).
  { apply mentions_all. intros c M. apply calm_query. exact (items_calm _ c G M). }
  cbn [u_host u_user u_path u_query].
  assert (H2 : endpoint (or_port conf) (or_host conf) (or_host conf) (Some (itoa (or_port conf)))) by (apply endpoint_name; apply plain_free; (exact Hh || reflexivity)).
  pose proof (endpoint_split (twin conf) _ _ H2 Hp) as Sp. destruct (split_host_port (endpoint_text (twin conf))) as [[h p]|].
  - destruct Sp as [<- Ep]. injection Ep as <-. rewrite (trim_service _ S1 S2). now rewrite ora_query_reads.
  - destruct Sp as [_ Sp]. discriminate.
Qed.

(** * Further servers *)

Lemma server_splits s hp : server_at s hp -> s <> "" /\ split_host_port s = Some hp.
Proof.
  intros H. destruct H as [h p H1 H2 H3 P1 P2 P3|h p H2 H3 P1 P2 P3].
  - split; [destruct h; discriminate|]. unfold split_host_port. change (":" +++ p) with (chr ":" p). rewrite cut_last_at by exact P1.
    assert (S : strip "[" (h +++ chr ":" p) = None).
    { destruct h as [|x y]; [reflexivity|]. cbn [String.append strip]. destruct (Ascii.eqb "[" x) eqn:E; [|reflexivity].
      apply Ascii.eqb_eq in E. exfalso. apply H2. left. symmetry. exact E. }
    assert (F : forall c, c <> ":"%char -> ~ mentions c h -> ~ mentions c p -> one_of (h +++ chr ":" p) c = false).
    { intros c Hc Ha Hb. apply one_of_mentions. intros M. apply mentions_app in M. destruct M as [M|[M|M]]; [tauto|congruence|tauto]. }
    rewrite S. rewrite (one_of_mentions h ":" H1), (F "["%char), (F "]"%char) by (assumption || discriminate). reflexivity.
  - split; [discriminate|]. unfold split_host_port.
    replace ("[" +++ h +++ "]:" +++ p) with (("[" +++ h +++ "]") +++ chr ":" p) at 1 by (rewrite !append_assoc'; reflexivity).
    rewrite cut_last_at by exact P1. rewrite strip_app. change ("]:" +++ p) with (chr "]" (chr ":" p)).
    rewrite (cut_char "]" h) by exact H3. cbn [strip]. change (Ascii.eqb ":" ":") with true. cbn iota.
    rewrite (one_of_mentions p ":" P1), (one_of_mentions p "]" P3).
    replace (one_of (h +++ chr "]" (chr ":" p)) "[") with false; [reflexivity|]. symmetry. apply one_of_mentions. intros M. apply mentions_app in M.
    destruct M as [M|[M|[M|M]]]; [tauto|discriminate|discriminate|tauto].
Qed.
Lemma more_filter kvs : more_servers kvs = more_servers (filter (fun kv => is_server (fst kv)) kvs).
Proof.
  induction kvs as [|[k v] kvs IH]; [reflexivity|]. cbn [more_servers filter fst]. destruct (is_server k) eqn:E; cbn [andb]; [|exact IH].
  cbn [more_servers]. rewrite E. cbn [andb]. rewrite IH. reflexivity.
Qed.
Lemma pairs_keys ps k t : In (k, t) (ora_pairs ps) -> In k (map fst ps).
Proof.
  intros Hin. unfold ora_pairs in Hin. apply in_flat_map in Hin. destruct Hin as ([k0 v] & Hin & Hm). cbn [fst snd] in Hm.
  apply in_map_iff in Hm. destruct Hm as (raw & E & Hr). injection E as <- _. apply in_map_iff. exists (k0, v). now split.
Qed.
Lemma filter_values ps : one_server_option ps ->
  filter (fun kv => is_server (fst kv)) (ora_pairs ps) = map (fun t => ("server", t)) (values_of "server" (ora_pairs ps)).
Proof.
  intros O. unfold values_of. assert (K : forall k t, In (k, t) (ora_pairs ps) -> is_server k = (k =? "server")%string).
  { intros k t Hin. apply pairs_keys in Hin. destruct (k =? "server")%string eqn:E; [apply String.eqb_eq in E; now subst|]. destruct (is_server k) eqn:S; [|reflexivity].
    apply server_name_iff in S. apply String.eqb_neq in E. now destruct (E (O k Hin S)). }
  induction (ora_pairs ps) as [|[k t] l IH]; [reflexivity|]. cbn [filter fst]. rewrite (K k t (or_introl eq_refl)).
  assert (IH' := IH (fun k t H => K k t (or_intror H))). destruct (k =? "server")%string eqn:E; [|exact IH']. apply String.eqb_eq in E. subst k. cbn [map snd]. now rewrite IH'.
Qed.
Lemma servers_read parts l : servers_at parts l -> (forall t, In t parts -> trim_space t = t) -> more_servers (map (fun t => ("server", t)) parts) = Some l.
Proof.
  induction 1 as [|parts l H IH|s hp parts l Hs H IH]; intros T; [reflexivity| |].
  - cbn [map more_servers]. change (is_server "server") with true. change (trim_space "") with "". cbn. apply IH. intros t Ht. apply T. now right.
  - cbn [map more_servers]. change (is_server "server") with true. rewrite (T s (or_introl eq_refl)). destruct (server_splits s hp Hs) as [N E].
    apply String.eqb_neq in N. rewrite N. cbn [negb andb]. rewrite E, IH; [reflexivity|]. intros t Ht. apply T. now right.
Qed.
Lemma server_missing parts t : In t parts -> t <> "" -> ~ mentions ":" t -> (forall t, In t parts -> trim_space t = t) -> more_servers (map (fun t => ("server", t)) parts) = None.
Proof.
  intros Hin N M T. induction parts as [|x parts IH]; [destruct Hin|]. cbn [map more_servers]. change (is_server "server") with true. cbn [andb].
  rewrite (T x (or_introl eq_refl)). destruct Hin as [->|Hin].
  - apply String.eqb_neq in N. rewrite N. cbn [negb]. unfold split_host_port. now rewrite cut_last_none.
  - rewrite (IH Hin) by (intros; apply T; now right). destruct (negb (x =? "")%string); [|reflexivity]. destruct (split_host_port x); reflexivity.
Qed.
Lemma trim_space_idem s : trim_space (trim_space s) = trim_space s.
Proof. unfold trim_space at 2. now rewrite trim_space_back, trim_space_front. Qed.
Lemma parts_are v parts : comma_parts v parts -> parts = map trim_space (split "," v).
Proof.
  intros (raws & C & P). apply cuts_split in C. rewrite C. clear C. induction P as [|r p rs ps H P IH]; [reflexivity|]. cbn [map]. rewrite (padded_trim r p H). now rewrite IH.
Qed.
Lemma parts_trimmed v parts : comma_parts v parts -> forall t, In t parts -> trim_space t = t.
Proof. intros C t H. rewrite (parts_are v parts C) in H. apply in_map_iff in H. destruct H as (r & <- & _). apply trim_space_idem. Qed.
Lemma ora_values conf ps o : lists ps o -> ora_readable conf ps -> exists c, read_conn (build_url conf ps) = Some c /\
  oc_user c = or_user conf /\ oc_pass c = or_pass conf /\ oc_host c = or_host conf /\ oc_port c = itoa (or_port conf) /\ oc_service c = or_service conf /\
  (forall k, match o k with Some v => comma_parts v (values_of k (oc_options c)) | None => values_of k (oc_options c) = [] end).
Proof.
  intros [L1 L2] R. eexists. split; [exact (ora_reads conf ps R)|]. cbn [oc_user oc_pass oc_host oc_port oc_service oc_options]. repeat (split; [reflexivity|]). intros k. destruct (o k) as [v|] eqn:E.
  - apply L2 in E. rewrite (values_some ps k v L1 E). apply parts_exist.
  - apply values_none. intros H. apply in_map_iff in H. destruct H as ([k0 v] & <- & Hin). apply L2 in Hin. cbn [fst] in E. congruence.
Qed.
Lemma ora_servers conf ps o v parts : lists ps o -> ora_readable conf ps -> one_server_option ps -> o "server" = Some v -> comma_parts v parts ->
  exists c, read_conn (build_url conf ps) = Some c /\ (forall l, servers_at parts l -> more_servers (oc_options c) = Some l) /\
    (forall t, In t parts -> t <> "" -> ~ mentions ":" t -> more_servers (oc_options c) = None).
Proof.
  intros [L1 L2] R O Ev C. eexists. split; [exact (ora_reads conf ps R)|]. cbn [oc_options]. apply L2 in Ev.
  assert (E : more_servers (ora_pairs ps) = more_servers (map (fun t => ("server", t)) parts)).
  { rewrite more_filter, (filter_values ps O), (values_some ps _ v L1 Ev), <- (parts_are v parts C). reflexivity. }
  split; [intros l Hl|intros t Hin N M]; rewrite E.
  - exact (servers_read _ _ Hl (parts_trimmed v parts C)).
  - exact (server_missing _ t Hin N M (parts_trimmed v parts C)).
Qed.
Lemma ora_no_servers conf ps o : lists ps o -> ora_readable conf ps -> (forall k, server_name k -> o k = None) ->
  exists c, read_conn (build_url conf ps) = Some c /\ more_servers (oc_options c) = Some [].
Proof.
  intros [L1 L2] R N. eexists. split; [exact (ora_reads conf ps R)|]. cbn [oc_options].
  assert (K : forall k, In k (map fst ps) -> ~ server_name k).
  { intros k H S. apply in_map_iff in H. destruct H as ([k0 v] & <- & Hin). apply L2 in Hin. cbn [fst] in *. rewrite (N k0 S) in Hin. discriminate. }
  rewrite more_filter, filter_values; [|intros k H S; now destruct (K k H)]. rewrite values_none; [reflexivity|]. intros H. apply (K _ H). reflexivity.
Qed.
Lemma own_options conf o : or_params conf = "" -> oracle_options conf None = Some o -> forall k, o k = oracle_own conf k.
Proof.
  intros P H k. apply oracle_options_spec in H. destruct H as (_ & base & B & V). rewrite P in V. rewrite <- B. apply (proj2 (V k)).
  intros v S. assert (V0 : overridden mempty "" (add_params mempty "")) by apply add_params_spec. pose proof (proj1 (V0 k) v S) as X. discriminate.
Qed.

Lemma own_key conf k v : oracle_own conf k = Some v -> (k = "SID" /\ v = or_sid conf) \/ (k = "server" /\ v = or_servers conf) \/ (k = "CONNECTION TIMEOUT" /\ v = itoa (or_timeout conf)).
Proof.
  unfold oracle_own, unless_empty, unless_zero. destruct (k =? "SID")%string eqn:E1; [apply String.eqb_eq in E1; destruct (or_sid conf =? "")%string; intros H; inversion H; auto|].
  destruct (k =? "server")%string eqn:E2; [apply String.eqb_eq in E2; destruct (or_servers conf =? "")%string; intros H; inversion H; auto|].
  destruct (k =? "CONNECTION TIMEOUT")%string eqn:E3; [apply String.eqb_eq in E3; destruct (or_timeout conf =? 0); intros H; inversion H; auto|discriminate].
Qed.
Lemma number_part n ps : comma_parts (itoa n) ps -> ps = [itoa n].
Proof.
  intros H. rewrite (parts_are _ _ H). assert (N : ~ mentions "," (itoa n)) by (apply itoa_free; reflexivity).
  assert (E : split "," (itoa n) = [itoa n]). { apply cuts_split. split; [discriminate|]. split; [reflexivity|]. intros p [<-|[]]. exact N. }
  rewrite E. cbn [map]. f_equal. apply padded_trim. split; [exact N|].
  assert (W : forall c, mentions c (itoa n) -> ~ white c).
  { intros c M X. apply white_space in X. apply (itoa_free n c); [|exact M]. revert X. clear. allchars c; vm_compute; congruence. }
  split; [exists "", ""; split; [cbn; now rewrite append_empty|intros c [[]|[]]]|]. split; intros c r Er; apply W; rewrite Er; [now left|apply mentions_app; right; now left].
Qed.
Lemma ora_configured conf o ps : or_params conf = "" -> oracle_options conf None = Some o -> lists ps o ->
  plain (or_host conf) -> 0 <= or_port conf -> ~ mentions ":" (or_user conf) ->
  (forall r, or_service conf <> "/" +++ r) -> (forall r, or_service conf <> r +++ "/") -> server_text (or_servers conf) ->
  ora_readable conf ps /\ one_server_option ps.
Proof.
  intros P E [L1 L2] Hh Hp Hu S1 S2 Sv. pose proof (own_options conf o P E) as O.
  assert (K : forall k v, In (k, v) ps -> (k = "SID" /\ v = or_sid conf) \/ (k = "server" /\ v = or_servers conf) \/ (k = "CONNECTION TIMEOUT" /\ v = itoa (or_timeout conf))).
  { intros k v Hin. apply L2 in Hin. rewrite O in Hin. now apply own_key. }
  split.
  - constructor; try assumption. intros k v Hin. destruct (K k v Hin) as [[-> ->]|[[-> ->]|[-> ->]]].
    + split; [cbn; repeat split; left; reflexivity|]. intros X. discriminate.
    + split; [cbn; repeat split; left; reflexivity|]. intros _. exact Sv.
    + split; [cbn; repeat split; first [left; reflexivity|right; reflexivity]|]. intros X. discriminate.
  - intros k H S. apply in_map_iff in H. destruct H as ([k0 v] & <- & Hin). cbn [fst] in *. destruct (K k0 v Hin) as [[-> _]|[[-> _]|[-> _]]]; [discriminate|reflexivity|discriminate].
Qed.
Lemma ora_settings conf o ps : or_params conf = "" -> oracle_options conf None = Some o -> lists ps o ->
  plain (or_host conf) -> 0 <= or_port conf -> ~ mentions ":" (or_user conf) ->
  (forall r, or_service conf <> "/" +++ r) -> (forall r, or_service conf <> r +++ "/") -> server_text (or_servers conf) ->
  exists c, read_conn (build_url conf ps) = Some c /\
    oc_user c = or_user conf /\ oc_pass c = or_pass conf /\ oc_host c = or_host conf /\ oc_port c = itoa (or_port conf) /\ oc_service c = or_service conf /\
    (or_sid conf <> "" -> comma_parts (or_sid conf) (values_of "SID" (oc_options c))) /\ (or_sid conf = "" -> values_of "SID" (oc_options c) = []) /\
    values_of "CONNECTION TIMEOUT" (oc_options c) = (if or_timeout conf =? 0 then [] else [itoa (or_timeout conf)]) /\
    (forall parts l, comma_parts (or_servers conf) parts -> servers_at parts l -> more_servers (oc_options c) = Some l).
Proof.
  intros P E L Hh Hp Hu S1 S2 Sv. destruct (ora_configured conf o ps P E L Hh Hp Hu S1 S2 Sv) as [R O1]. pose proof (own_options conf o P E) as O.
  destruct (ora_values conf ps o L R) as (c & Rd & F1 & F2 & F3 & F4 & F5 & V). exists c. repeat (split; [assumption|]).
  split; [|split; [|split]].
  - intros N. specialize (V "SID"). rewrite O in V. unfold oracle_own, unless_empty in V. cbn in V. apply String.eqb_neq in N. rewrite N in V. exact V.
  - intros N. specialize (V "SID"). rewrite O in V. unfold oracle_own, unless_empty in V. cbn in V. apply String.eqb_eq in N. rewrite N in V. exact V.
  - specialize (V "CONNECTION TIMEOUT"). rewrite O in V. unfold oracle_own, unless_zero in V. cbn in V. destruct (or_timeout conf =? 0); [exact V|]. exact (number_part _ _ V).
  - intros parts l C Sa. destruct (or_servers conf =? "")%string eqn:Es.
    + apply String.eqb_eq in Es. destruct (ora_no_servers conf ps o L R) as (c' & Rd' & M).
      * intros k S. rewrite O. destruct (oracle_own conf k) as [v|] eqn:Ek; [|reflexivity]. pose proof Ek as Ek'. apply own_key in Ek. destruct Ek as [[-> _]|[[-> _]|[-> _]]]; try discriminate.
        unfold oracle_own, unless_empty in Ek'. cbn in Ek'. rewrite Es in Ek'. discriminate.
      * rewrite Rd in Rd'. injection Rd' as <-. rewrite M. f_equal. rewrite Es in C. apply parts_are in C. cbn in C. subst parts.
        inversion Sa as [|? ? H|s hp ? ? H]; subst; [now inversion H|]. apply server_splits in H. destruct H as [H _]. congruence.
    + assert (Ev : o "server" = Some (or_servers conf)) by (rewrite O; unfold oracle_own, unless_empty; cbn; now rewrite Es).
      destruct (ora_servers conf ps o _ parts L R O1 Ev C) as (c' & Rd' & M & _). rewrite Rd in Rd'. injection Rd' as <-. exact (M l Sa).
Qed.
