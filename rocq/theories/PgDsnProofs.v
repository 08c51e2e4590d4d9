(** Proofs about the way of a PostgreSQL configuration to the driver. *)
From Coq Require Import Sorting.Permutation.
From Verif Require Import Common Bytes ProcsModel ProcsSpec ProcsProofs ConfNamesModel ConfNamesSpec ConfNamesProofs ConfsModel
  ConfsSpec ConfsProofs RsaModel RsaSpec RsaProofs UrlModel UrlSpec UrlProofs MysqlDsnSpec PgDsnModel PgDsnSpec.
From Verif Require JsonFloatProofs.
Local Open Scope string_scope.
Local Open Scope list_scope.
Local Open Scope Z_scope.
Local Notation chr := String.String.

(** * parseOpts *)

Definition key_text (k : string) : Prop := all_chars (fun c => is_space c = false /\ c <> "="%char) k.

Lemma sapp_empty a : a +++ "" = a.
Proof. apply append_empty. Qed.
Lemma snoc_app a c b : snoc a c +++ b = a +++ chr c b.
Proof. unfold snoc. rewrite append_assoc'. reflexivity. Qed.

Lemma scan_key k : key_text k -> forall p s o, scan_all (k +++ s) (PKey p) o = scan_all s (PKey (p +++ k)) o.
Proof.
  induction k as [|c k IH]; intros H p s o; [cbn [String.append]; rewrite sapp_empty; reflexivity|]. destruct H as [[H1 H2] H].
  apply Ascii.eqb_neq in H2. cbn [String.append scan_all scan]. rewrite H1, H2. rewrite (IH H), snoc_app. reflexivity.
Qed.

Lemma scan_key_eq k s o : key_text k -> scan_all (k +++ chr "=" s) PSkip o = scan_all s (PAfter k) o.
Proof.
  intros H. destruct k as [|c k]; [reflexivity|]. destruct H as [[H1 H2] H]. apply Ascii.eqb_neq in H2.
  cbn [String.append scan_all scan]. rewrite H1, H2. rewrite (scan_key k H). reflexivity.
Qed.

Lemma scan_value v : forall k p s o, scan_all (escape_value v +++ chr quote s) (PQuote k p) o = scan_all s PSkip (mset o k (p +++ v)).
Proof.
  induction v as [|c v IH]; intros k p s o; [cbn [escape_value String.append scan_all scan]; rewrite sapp_empty; reflexivity|].
  cbn [escape_value]. destruct (Ascii.eqb c quote) eqn:Q.
  - cbn [orb String.append scan_all scan]. apply Ascii.eqb_eq in Q. subst c. change (Ascii.eqb backslash quote) with false.
    change (Ascii.eqb backslash backslash) with true. cbn iota. cbn [scan_all scan]. rewrite IH, snoc_app. reflexivity.
  - destruct (Ascii.eqb c backslash) eqn:B; cbn [orb String.append scan_all scan].
    + change (Ascii.eqb backslash quote) with false. change (Ascii.eqb backslash backslash) with true. cbn iota.
      cbn [scan_all scan]. rewrite IH, snoc_app. reflexivity.
    + rewrite Q, B, IH, snoc_app. reflexivity.
Qed.

Lemma scan_setting k v s o : key_text k -> scan_all (setting (k, v) +++ s) PSkip o = scan_all s PSkip (mset o k v).
Proof.
  intros H. unfold setting. cbn [fst snd]. rewrite !append_assoc'. change ("='" +++ ?x) with (chr "=" (chr quote x)).
  change ("'" +++ s) with (chr quote s).
  change (k +++ "='" +++ escape_value v +++ chr quote s) with (k +++ chr "=" (chr quote (escape_value v +++ chr quote s))).
  rewrite (scan_key_eq k _ o H). cbn [scan_all scan]. change (is_space quote) with false. change (Ascii.eqb quote quote) with true.
  cbn iota. apply scan_value.
Qed.

Definition set_all (kvs : list (string * string)) (o : smap string) : smap string :=
  fold_left (fun o kv => mset o (fst kv) (snd kv)) kvs o.

Lemma parse_settings kvs : (forall kv, In kv kvs -> key_text (fst kv)) -> forall o,
  parse_opts (String.concat " " (map setting kvs)) o = Some (set_all kvs o).
Proof.
  unfold parse_opts. induction kvs as [|[k v] kvs IH]; intros H o; [reflexivity|].
  assert (Hk : key_text k) by (apply (H (k, v)); left; reflexivity).
  assert (H' : forall kv, In kv kvs -> key_text (fst kv)) by (intros kv I; apply H; right; exact I).
  destruct kvs as [|kv2 kvs].
  - cbn [map String.concat]. rewrite <- (sapp_empty (setting (k, v))), (scan_setting k v "" o Hk). reflexivity.
  - cbn [map]. rewrite concat_cons2, (scan_setting k v _ o Hk). cbn [String.append scan_all scan].
    change (is_space " ") with true. cbn iota. exact (IH H' (mset o k v)).
Qed.

(** * Sorting, and what is set *)

Lemma insert_perm x l : Permutation (insert_str x l) (x :: l).
Proof.
  induction l as [|y l IH]; cbn [insert_str]; [reflexivity|]. destruct (str_le x y); [reflexivity|].
  rewrite IH. apply perm_swap.
Qed.
Lemma sort_perm l : Permutation (sort_str l) l.
Proof. induction l as [|x l IH]; [reflexivity|]. cbn [sort_str fold_right]. rewrite insert_perm. apply perm_skip. exact IH. Qed.

Lemma sorted_settings kvs : exists kvs', Permutation kvs' kvs /\ sort_str (map setting kvs) = map setting kvs'.
Proof.
  pose proof (sort_perm (map setting kvs)) as P. apply Permutation_map_inv in P. destruct P as (l & E & Q).
  exists l. split; [symmetry; exact Q|exact E].
Qed.

Lemma mset_same {A} (m : smap A) k v : mset m k v k = Some v.
Proof. unfold mset. rewrite String.eqb_refl. reflexivity. Qed.
Lemma mset_other {A} (m : smap A) k v k' : k' <> k -> mset m k v k' = m k'.
Proof. intros H. unfold mset. apply String.eqb_neq in H. rewrite H. reflexivity. Qed.

Lemma set_all_not kvs : forall o k, ~ In k (map fst kvs) -> set_all kvs o k = o k.
Proof.
  induction kvs as [|[k1 v1] kvs IH]; intros o k H; [reflexivity|]. cbn [set_all fold_left fst snd].
  change (set_all kvs (mset o k1 v1) k = o k). rewrite IH by (intros X; apply H; right; exact X).
  apply mset_other. intros ->. apply H. left. reflexivity.
Qed.
Lemma set_all_in kvs : forall o k v, NoDup (map fst kvs) -> In (k, v) kvs -> set_all kvs o k = Some v.
Proof.
  induction kvs as [|[k1 v1] kvs IH]; intros o k v N H; [destruct H|]. cbn [map fst] in N. inversion N as [|? ? N1 N2]; subst.
  change (set_all kvs (mset o k1 v1) k = Some v). destruct H as [E|H].
  - injection E as -> ->. rewrite set_all_not by exact N1. apply mset_same.
  - apply IH; assumption.
Qed.

(** * The query *)

Lemma query_unescape_plain k : plain k -> query_unescape k = Some k.
Proof.
  intros H. apply query_unescape_spec. induction k as [|c k IH]; [constructor|]. destruct H as [H1 H2].
  apply unescapes_char; [intros ->; discriminate|intros ->; discriminate|exact (IH H2)].
Qed.

Lemma one_of_mentions s c : ~ mentions c s -> one_of s c = false.
Proof.
  intros H. unfold one_of. induction s as [|x s IH]; [reflexivity|]. cbn [any_char].
  rewrite IH by (intros X; apply H; right; exact X). destruct (Ascii.eqb c x) eqn:E; [|reflexivity].
  apply Ascii.eqb_eq in E. exfalso. apply H. left. symmetry. exact E.
Qed.
Lemma mentions_one_of s c : mentions c s -> one_of s c = true.
Proof.
  intros H. unfold one_of. induction s as [|x s IH]; [destruct H|]. cbn [any_char]. destruct H as [->|H].
  - rewrite Ascii.eqb_refl. reflexivity.
  - rewrite (IH H). apply Bool.orb_true_r.
Qed.

Lemma item_reads k v : plain k -> query_item (pg_items_of (k, v)) = Some (k, v).
Proof.
  intros H. unfold query_item.
  assert (F : ~ mentions ";" (pg_items_of (k, v))).
  { unfold pg_items_of. cbn [fst snd]. intros Hm. apply mentions_app in Hm. destruct Hm as [Hm|Hm]; [exact (plain_free k ";" H eq_refl Hm)|].
    destruct Hm as [Hm|Hm]; [discriminate|]. revert Hm. apply escape_free; [reflexivity|discriminate..]. }
  rewrite (one_of_mentions _ _ F). unfold pg_items_of. cbn [fst snd].
  assert (E : (k +++ "=" +++ query_escape v =? "")%string = false) by (destruct k; reflexivity).
  rewrite E. change ("=" +++ query_escape v) with (chr "=" (query_escape v)).
  rewrite (cut_char "=" k) by (apply plain_free; [exact H|reflexivity]).
  rewrite query_unescape_plain by exact H. rewrite unescape_escape. reflexivity.
Qed.

Lemma query_reads kps : (forall k v, In (k, v) kps -> plain k) -> parse_query (String.concat "&" (map pg_items_of kps)) = kps.
Proof.
  intros H. unfold parse_query. destruct kps as [|kp kps]; [reflexivity|].
  assert (S : split "&" (String.concat "&" (map pg_items_of (kp :: kps))) = map pg_items_of (kp :: kps)).
  { apply cuts_split. split; [discriminate|]. split; [reflexivity|]. intros p Hp.
    apply in_map_iff in Hp. destruct Hp as ([k v] & <- & Hin). unfold pg_items_of. cbn [fst snd]. intros Hm.
    apply mentions_app in Hm. destruct Hm as [Hm|Hm]; [exact (plain_free k "&" (H k v Hin) eq_refl Hm)|].
    destruct Hm as [Hm|Hm]; [discriminate|]. revert Hm. apply escape_free; [reflexivity|discriminate..]. }
  rewrite S. clear S. revert H. generalize (kp :: kps). clear kp kps. intros kps H.
  induction kps as [|[k v] kps IH]; [reflexivity|]. cbn [map collect]. rewrite item_reads by (apply (H k v); left; reflexivity).
  rewrite IH by (intros k' v' I; apply (H k' v'); right; exact I). reflexivity.
Qed.

Lemma existsb_in k keys : existsb (String.eqb k) keys = true <-> In k keys.
Proof.
  rewrite existsb_exists. split; [intros (x & I & E); apply String.eqb_eq in E; subst x; exact I|].
  intros I. exists k. split; [exact I|apply String.eqb_refl].
Qed.

Lemma firsts_skip k parts : forall keys rest, In k keys ->
  firsts keys (map (fun p : string * string => (k, snd p)) parts ++ rest) = firsts keys rest.
Proof.
  induction parts as [|p parts IH]; intros keys rest H; [reflexivity|]. cbn [map Datatypes.app firsts].
  rewrite (proj2 (existsb_in k keys) H). apply IH. exact H.
Qed.

Definition heads (options : list (string * list (string * string))) : list (string * string) :=
  map (fun o => (fst o, snd (hd ("", "") (snd o)))) options.

Lemma firsts_heads options : NoDup (map fst options) -> (forall k parts, In (k, parts) options -> parts <> []) ->
  forall keys, (forall k, In k keys -> ~ In k (map fst options)) -> firsts keys (pg_pairs options) = heads options.
Proof.
  induction options as [|[k parts] options IH]; intros N Hp keys D; [reflexivity|]. cbn [map fst] in N. inversion N as [|? ? N1 N2]; subst.
  destruct parts as [|p parts]; [exfalso; apply (Hp k []); [left|]; reflexivity|].
  unfold pg_pairs. cbn [flat_map map fst snd Datatypes.app firsts].
  assert (E : existsb (String.eqb k) keys = false).
  { destruct (existsb (String.eqb k) keys) eqn:E; [|reflexivity]. apply existsb_in in E. exfalso. apply (D k E). left. reflexivity. }
  rewrite E. rewrite firsts_skip by (left; reflexivity). cbn [heads map fst snd hd]. f_equal.
  apply IH; [exact N2|intros k' p' I; apply (Hp k' p'); right; exact I|].
  intros k' [<-|I]; [exact N1|]. intros X. apply (D k' I). right. exact X.
Qed.

(** * Options *)

Lemma trim_back_end f s c r : trim_back f s = r +++ chr c "" -> f c = false.
Proof.
  revert c r. induction s as [|x s IH]; intros c r; cbn [trim_back]; [destruct r; discriminate|].
  destruct (trim_back f s) as [|y t] eqn:E.
  - destruct (f x) eqn:F; [destruct r; discriminate|]. intros H. destruct r as [|z r]; [injection H as <-; exact F|].
    injection H as _ H. destruct r; discriminate.
  - intros H. destruct r as [|z r]; [discriminate|]. injection H as _ H. exact (IH c r H).
Qed.
Lemma trim_front_head f s c r : trim_front f s = chr c r -> f c = false.
Proof. induction s as [|x s IH]; cbn [trim_front]; [discriminate|]. destruct (f x) eqn:F; [exact IH|]. intros H. injection H as <- _. exact F. Qed.
Lemma trim_back_head f s c r : trim_back f s = chr c r -> exists r', s = chr c r'.
Proof.
  destruct s as [|x s]; cbn [trim_back]; [discriminate|]. destruct (trim_back f s); [destruct (f x); [discriminate|]|]; intros H; injection H as <- _;
    exists s; reflexivity.
Qed.

Lemma padded_self s : ~ mentions "," s -> padded s (trim_space s).
Proof.
  intros H. unfold trim_space. destruct (trim_front_split is_space s) as (a & Ea & Ha).
  destruct (trim_back_cut is_space (trim_front is_space s)) as (b & Eb & Hb). split; [exact H|]. split; [|split].
  - exists a, b. split; [rewrite <- Eb; exact Ea|]. intros c [M|M]; apply white_space; [exact (Ha c M)|exact (Hb c M)].
  - intros c r E. apply white_space_not. destruct (trim_back_head _ _ _ _ E) as [r' E']. exact (trim_front_head _ _ _ _ E').
  - intros c r E. apply white_space_not. exact (trim_back_end _ _ _ _ E).
Qed.

Definition parted (ps : list (string * string)) : list (string * list (string * string)) :=
  map (fun kv => (fst kv, map (fun raw => (raw, trim_space raw)) (split "," (snd kv)))) ps.

Lemma parted_values ps : pg_values (parted ps) = ps.
Proof.
  unfold pg_values, parted. rewrite map_map. rewrite <- (map_id ps) at 2. apply map_ext. intros [k v]. cbn [fst snd]. f_equal.
  rewrite map_map. cbn [fst]. rewrite map_id. destruct (split_cuts "," v) as (_ & E & _). symmetry. exact E.
Qed.
Lemma parted_ok ps k parts : In (k, parts) (parted ps) -> parts <> [] /\ forall p, In p parts -> padded (fst p) (snd p).
Proof.
  unfold parted. intros H. apply in_map_iff in H. destruct H as ([k' v] & E & _). injection E as _ <-. cbn [snd].
  destruct (split_cuts "," v) as (N & _ & F). split; [destruct (split "," v); [congruence|discriminate]|].
  intros p Hp. apply in_map_iff in Hp. destruct Hp as (raw & <- & Hr). apply padded_self. exact (F raw Hr).
Qed.
Lemma parted_names ps : map fst (parted ps) = map fst ps.
Proof. unfold parted. rewrite map_map. reflexivity. Qed.

Definition first_part (v : string) : string := trim_space (hd "" (split "," v)).
Lemma parted_heads ps : heads (parted ps) = map (fun kv => (fst kv, first_part (snd kv))) ps.
Proof.
  unfold heads, parted. rewrite map_map. apply map_ext. intros [k v]. cbn [fst snd]. unfold first_part.
  destruct (split_cuts "," v) as (N & _). destruct (split "," v); [congruence|reflexivity].
Qed.
Lemma first_leads v : leads v (first_part v).
Proof.
  unfold leads, first_part. destruct (split_cuts "," v) as (N & E & F). destruct (split "," v) as [|a l]; [congruence|]. cbn [hd].
  destruct l as [|b l].
  - exists a, "". cbn [String.concat] in E. split; [rewrite sapp_empty; exact E|]. split; [apply padded_self, F; left; reflexivity|]. left. reflexivity.
  - exists a, (chr "," (String.concat "," (b :: l))). split; [rewrite E, concat_cons2; reflexivity|].
    split; [apply padded_self, F; left; reflexivity|]. right. eexists. reflexivity.
Qed.
Lemma leads_first v p : leads v p -> p = first_part v.
Proof.
  intros (a & r & -> & P & R). assert (Na : ~ mentions "," a) by exact (proj1 P). unfold first_part.
  assert (S : hd "" (split "," (a +++ r)) = a).
  { destruct R as [->|[r' ->]].
    - rewrite sapp_empty. replace (split "," a) with [a]; [reflexivity|]. symmetry. apply cuts_split. split; [discriminate|]. split; [reflexivity|].
      intros p' [<-|[]]. exact Na.
    - replace (split "," (a +++ chr "," r')) with (a :: split "," r'); [reflexivity|]. symmetry. apply cuts_split.
      destruct (split_cuts "," r') as (N & E & F). split; [discriminate|]. split.
      + destruct (split "," r') as [|b l] eqn:S; [congruence|]. rewrite concat_cons2. rewrite <- E. reflexivity.
      + intros p' [<-|I]; [exact Na|exact (F p' I)]. }
  rewrite S. symmetry. apply padded_trim. exact P.
Qed.

(** * The url *)

Lemma user_valid c : user_char c -> valid_userinfo (chr c "") = true.
Proof. intros H. apply valid_userinfo_iff. split; [exact H|exact I]. Qed.
Lemma user_calm c : user_char c -> ~ control c /\ c <> "#"%char /\ c <> "/"%char /\ c <> "?"%char.
Proof.
  intros H. apply user_valid in H. rewrite <- is_ctl_iff. revert H. allchars c; vm_compute; intros H; try discriminate;
    repeat split; discriminate.
Qed.
Lemma host_calm c : host_char c -> ~ control c /\ c <> "#"%char /\ c <> "/"%char /\ c <> "?"%char /\ c <> "@"%char.
Proof.
  rewrite <- should_escape_iff, <- is_ctl_iff. allchars c; vm_compute; intros H; try discriminate; repeat split; discriminate.
Qed.
Lemma query_calm c : unreserved c = true \/ c = "+"%char \/ c = "%"%char \/ c = "&"%char \/ c = "="%char -> ~ control c /\ c <> "#"%char.
Proof.
  rewrite <- is_ctl_iff. allchars c; vm_compute; intros [H|[H|[H|[H|H]]]]; try discriminate; split; discriminate.
Qed.

Lemma mentions_all (P : ascii -> Prop) s : (forall c, mentions c s -> P c) -> all_chars P s.
Proof. induction s as [|c s IH]; intros H; [exact I|]. split; [apply H; left; reflexivity|]. apply IH. intros d M. apply H. right. exact M. Qed.
Lemma all_mentions (P : ascii -> Prop) s c : all_chars P s -> mentions c s -> P c.
Proof. induction s as [|x s IH]; intros H M; [destruct M|]. destruct H as [H1 H2]. destruct M as [<-|M]; [exact H1|exact (IH H2 M)]. Qed.

Lemma items_chars kps c : (forall k v, In (k, v) kps -> plain k) -> mentions c (String.concat "&" (map pg_items_of kps)) ->
  unreserved c = true \/ c = "+"%char \/ c = "%"%char \/ c = "&"%char \/ c = "="%char.
Proof.
  intros H. induction kps as [|[k v] kps IH]; [intros []|].
  assert (Hi : mentions c (pg_items_of (k, v)) -> unreserved c = true \/ c = "+"%char \/ c = "%"%char \/ c = "&"%char \/ c = "="%char).
  { unfold pg_items_of. cbn [fst snd]. intros Hm. apply mentions_app in Hm.
    destruct Hm as [Hm|Hm]; [left; exact (plain_chars k c (H k v (or_introl eq_refl)) Hm)|].
    destruct Hm as [Hm|Hm]; [right; right; right; right; symmetry; exact Hm|].
    apply escape_chars in Hm. tauto. }
  destruct kps as [|kp2 kps]; [exact Hi|]. cbn [map]. rewrite concat_cons2. intros Hm.
  apply mentions_app in Hm. destruct Hm as [Hm|Hm]; [exact (Hi Hm)|].
  destruct Hm as [Hm|Hm]; [right; right; right; left; symmetry; exact Hm|].
  apply IH; [intros k' v' I; apply (H k' v'); right; exact I|exact Hm].
Qed.

Definition endpoint_text (conf : pg_conf) : string := pg_host conf +++ ":" +++ itoa (pg_port conf).

Lemma port_digits z : 0 <= z -> all_chars is_digit (itoa z) /\ itoa z <> "".
Proof. intros H. destruct (JsonFloatProofs.itoa_value z H) as (_ & D & N). split; assumption. Qed.

Lemma endpoint_reads conf h p : all_chars host_char (pg_host conf) -> endpoint (pg_port conf) (pg_host conf) h p -> 0 <= pg_port conf ->
  host_text (endpoint_text conf) (endpoint_text conf).
Proof.
  intros Hc He Hp. destruct (port_digits _ Hp) as [D _]. unfold endpoint_text.
  assert (A : all_chars host_char (pg_host conf +++ ":" +++ itoa (pg_port conf))).
  { apply all_chars_join. split; [exact Hc|]. apply (port_host (":" +++ itoa (pg_port conf))). right. exists (itoa (pg_port conf)). auto. }
  assert (B : ~ mentions "[" (pg_host conf) -> host_text (pg_host conf +++ ":" +++ itoa (pg_port conf)) (pg_host conf +++ ":" +++ itoa (pg_port conf))).
  { intros N. apply host_name; [|right; eexists; eexists; split; [reflexivity|exact D]|apply name_plain; exact A].
    intros [r E]. destruct (pg_host conf) as [|x y]; [discriminate|]. cbn [String.append] in E. injection E as -> _. apply N. left. reflexivity. }
  destruct He as [h' N1 N2 N3|x N1 N2|h' M N1 N2]; try exact (B N2); try exact (B N1).
  rewrite !append_assoc' in A |- *. apply host_brackets; [right; eexists; split; [reflexivity|exact D]| |apply name_plain; exact A].
  intros (a & b & ->). apply all_chars_join in A. destruct A as [_ A]. rewrite !append_assoc' in A. apply all_chars_join in A.
  destruct A as [_ [A _]]. apply should_escape_iff in A. discriminate.
Qed.

Lemma endpoint_split conf h p : endpoint (pg_port conf) (pg_host conf) h p -> 0 <= pg_port conf ->
  match split_host_port (endpoint_text conf) with
  | Some (host, port) => h = host /\ p = Some port
  | None => h = endpoint_text conf /\ p = None
  end.
Proof.
  intros He Hp. destruct (port_digits _ Hp) as [D _]. unfold endpoint_text, split_host_port.
  assert (Nd : forall c, ~ is_digit c -> ~ mentions c (itoa (pg_port conf))) by (intros c Hc; exact (digits_no c _ Hc D)).
  assert (N1 : ~ mentions ":" (itoa (pg_port conf))) by (apply Nd; vm_compute; intuition discriminate).
  assert (N2 : ~ mentions "[" (itoa (pg_port conf))) by (apply Nd; vm_compute; intuition discriminate).
  assert (N3 : ~ mentions "]" (itoa (pg_port conf))) by (apply Nd; vm_compute; intuition discriminate).
  set (d := itoa (pg_port conf)) in *. change (pg_host conf +++ ":" +++ d) with (pg_host conf +++ chr ":" d).
  rewrite cut_last_at by exact N1.
  assert (S : ~ mentions "[" (pg_host conf) -> strip "[" (pg_host conf +++ chr ":" d) = None).
  { intros N. destruct (pg_host conf) as [|x y]; [reflexivity|]. cbn [String.append strip]. destruct (Ascii.eqb "[" x) eqn:E; [|reflexivity].
    apply Ascii.eqb_eq in E. exfalso. apply N. left. symmetry. exact E. }
  assert (F : forall c, c <> ":"%char -> ~ mentions c (pg_host conf) -> ~ mentions c d -> one_of (pg_host conf +++ chr ":" d) c = false).
  { intros c Hc Ha Hb. apply one_of_mentions. intros M. apply mentions_app in M. destruct M as [M|[M|M]]; [tauto|congruence|tauto]. }
  destruct He as [h' A B C|x A B|h' A B C].
  - rewrite (S B). rewrite (one_of_mentions h' ":" A), (F "["%char), (F "]"%char) by (assumption || discriminate). split; reflexivity.
  - clear S F. rewrite !append_assoc'. rewrite strip_app. change ("]" +++ chr ":" d) with (chr "]" (chr ":" d)).
    rewrite (cut_char "]" x) by exact B. cbn [strip]. change (Ascii.eqb ":" ":") with true. cbn iota.
    replace (one_of (x +++ chr "]" (chr ":" d)) "[") with false.
    + rewrite (one_of_mentions d ":" N1), (one_of_mentions d "]" N3). cbn [orb]. split; reflexivity.
    + symmetry. apply one_of_mentions. intros M. apply mentions_app in M. destruct M as [M|[M|[M|M]]]; [tauto|discriminate|discriminate|tauto].
  - rewrite (S B). rewrite (mentions_one_of h' ":" A). cbn [orb]. split; reflexivity.
Qed.

Lemma cut_no c s : ~ mentions c s -> cut (chr c "") s = None.
Proof. apply cut_char_none. Qed.

Lemma dsn_parses conf user password host port db kps : readable conf user password host port db ->
  (forall k v, In (k, v) kps -> plain k) ->
  exists f, parse_url (dsn_base conf +++ "?" +++ String.concat "&" (map pg_items_of kps)) =
    Some (Url "postgres" "" (Some (user, Some password)) (endpoint_text conf) ("/" +++ db) f (String.concat "&" (map pg_items_of kps))).
Proof.
  intros [(U1 & U2 & U3) (P1 & P2) (H1 & H2 & H3) Hp (D1 & D2 & D3 & D4)] Hk.
  set (q := String.concat "&" (map pg_items_of kps)).
  assert (Cq : all_chars (fun c => ~ control c /\ c <> "#"%char) q).
  { apply mentions_all. intros c M. apply query_calm. exact (items_chars kps c Hk M). }
  pose proof (endpoint_reads conf host port H1 H2 Hp) as He.
  assert (Ce : all_chars host_char (endpoint_text conf)).
  { unfold endpoint_text. apply all_chars_join. split; [exact H1|]. apply (port_host (":" +++ itoa (pg_port conf))). right.
    exists (itoa (pg_port conf)). split; [reflexivity|]. exact (proj1 (port_digits _ Hp)). }
  set (info := pg_user conf +++ ":" +++ pg_pass conf).
  assert (Ci : all_chars user_char info).
  { unfold info. apply all_chars_join. split; [exact U1|]. split; [|exact P1]. right. right. vm_compute. tauto. }
  set (auth := info +++ "@" +++ endpoint_text conf).
  assert (E : dsn_base conf +++ "?" +++ q = "postgres" +++ chr ":" ("//" +++ auth +++ ("/" +++ pg_db conf) +++ ("?" +++ q))).
  { unfold dsn_base, auth, info, endpoint_text. rewrite !append_assoc'. reflexivity. }
  assert (Ca : all_chars (fun c => ~ control c /\ c <> "#"%char) auth).
  { unfold auth. apply all_chars_join. split; [apply (all_chars_imp user_char); [|exact Ci]; intros c Hc; apply user_calm in Hc; tauto|].
    split; [split; [rewrite <- is_ctl_iff; discriminate|discriminate]|].
    apply (all_chars_imp host_char); [|exact Ce]. intros c Hc. apply host_calm in Hc. tauto. }
  assert (Cd : all_chars (fun c => ~ control c /\ c <> "#"%char) (pg_db conf)).
  { apply mentions_all. intros c M. split; [exact (all_mentions _ _ _ D3 M)|]. intros ->. exact (D2 M). }
  assert (C : all_chars (fun c => ~ control c /\ c <> "#"%char) ("postgres" +++ chr ":" ("//" +++ auth +++ ("/" +++ pg_db conf) +++ ("?" +++ q)))).
  { apply all_chars_join. split; [cbn; rewrite <- !is_ctl_iff; vm_compute; intuition discriminate|].
    split; [rewrite <- is_ctl_iff; vm_compute; intuition discriminate|].
    apply all_chars_join. split; [cbn; rewrite <- !is_ctl_iff; vm_compute; intuition discriminate|].
    apply all_chars_join. split; [exact Ca|]. apply all_chars_join. split.
    - split; [rewrite <- is_ctl_iff; vm_compute; intuition discriminate|exact Cd].
    - split; [rewrite <- is_ctl_iff; vm_compute; intuition discriminate|exact Cq]. }
  rewrite E. unfold parse_url.
  rewrite (cut_char_none "#") by (apply not_mentions; exact (all_chars_imp _ _ _ (fun c H => proj2 H) C)).
  rewrite (proj2 (controls_iff _) (all_chars_imp _ _ _ (fun c H => proj1 H) C)).
  assert (G : get_scheme true ("postgres" +++ chr ":" ("//" +++ auth +++ ("/" +++ pg_db conf) +++ ("?" +++ q))) =
              Scheme "postgres" ("//" +++ auth +++ ("/" +++ pg_db conf) +++ ("?" +++ q))).
  { apply get_scheme_iff. split; [|reflexivity]. exists "p"%char, "ostgres". split; [reflexivity|]. split; [right; vm_compute; tauto|].
    cbn. unfold scheme_char, alpha. vm_compute. tauto. }
  rewrite G. change (lower_text "postgres") with "postgres".
  assert (Q : exists f, query_text ("?" +++ q) f q).
  { destruct (String.string_dec q "") as [->|N]; [exists true; constructor|exists false; constructor; exact N]. }
  destruct Q as [f Q]. exists f.
  assert (R : parse_rest "postgres" ("//" +++ auth +++ ("/" +++ pg_db conf) +++ ("?" +++ q)) =
              Some (Url "postgres" "" (Some (user, Some password)) (endpoint_text conf) ("/" +++ db) f q)).
  { apply parse_scheme_iff; [reflexivity|].
    assert (Nm : forall c, c = "/"%char \/ c = "?"%char -> ~ mentions c auth).
    { intros c Hc M. unfold auth in M. apply mentions_app in M. destruct M as [M|[M|M]].
      - apply (all_mentions _ _ _ Ci) in M. apply user_calm in M. intuition congruence.
      - subst c. intuition discriminate.
      - apply (all_mentions _ _ _ Ce) in M. apply host_calm in M. intuition congruence. }
    apply after_full; try assumption.
    - apply Nm. left. reflexivity.
    - apply Nm. right. reflexivity.
    - unfold auth. apply authority_user; [|exact Ci| |exact He].
      + intros M. apply (all_mentions _ _ _ Ce) in M. apply host_calm in M. intuition congruence.
      + unfold info. apply user_password; assumption.
    - right. exists (pg_db conf). reflexivity.
    - intros [M|M]; [discriminate|exact (D1 M)].
    - apply decoded_plain; [discriminate|exact I|exact D4]. }
  rewrite R. reflexivity.
Qed.

(** * What is set *)

Lemma accrued_in L k v : In (k, v) (accrued L) <-> In (k, v) L /\ v <> "".
Proof.
  unfold accrued. rewrite filter_In. cbn [snd]. rewrite Bool.negb_true_iff, String.eqb_neq. reflexivity.
Qed.
Lemma accrued_keys L k : In k (map fst (accrued L)) -> In k (map fst L).
Proof. intros H. apply in_map_iff in H. destruct H as ([k' v] & <- & H). apply accrued_in in H. apply (in_map fst _ _ (proj1 H)). Qed.
Lemma accrued_nodup L : NoDup (map fst L) -> NoDup (map fst (accrued L)).
Proof.
  induction L as [|[k v] L IH]; intros N; [constructor|]. cbn [map fst] in N. inversion N as [|? ? N1 N2]; subst. cbn [accrued filter snd].
  fold (accrued L). destruct (negb _); [|exact (IH N2)]. cbn [map fst]. constructor; [|exact (IH N2)].
  intros X. apply N1. exact (accrued_keys L k X).
Qed.

Lemma unique_value (L : list (string * string)) k v w : NoDup (map fst L) -> In (k, v) L -> In (k, w) L -> v = w.
Proof.
  induction L as [|[k' x] L IH]; intros N H1 H2; [destruct H1|]. cbn [map fst] in N. inversion N as [|? ? N1 N2]; subst.
  destruct H1 as [H1|H1], H2 as [H2|H2].
  - congruence.
  - injection H1 as -> ->. exfalso. apply N1. exact (in_map fst _ _ H2).
  - injection H2 as -> ->. exfalso. apply N1. exact (in_map fst _ _ H1).
  - exact (IH N2 H1 H2).
Qed.

Lemma set_found L l o k v : NoDup (map fst L) -> Permutation l (accrued L) -> In (k, v) L ->
  set_all l o k = or_else (unless_empty v) (o k).
Proof.
  intros N P I. assert (Nl : NoDup (map fst l)) by (apply (Permutation_NoDup (Permutation_map fst (Permutation_sym P))), accrued_nodup, N).
  unfold unless_empty. destruct (v =? "")%string eqn:E.
  - apply String.eqb_eq in E. subst v. apply set_all_not. intros X. apply in_map_iff in X. destruct X as ([k' v] & E & X). cbn [fst] in E. subst k'.
    apply (Permutation_in _ P), accrued_in in X. destruct X as [X Nv]. apply Nv. exact (unique_value L k v "" N X I).
  - apply String.eqb_neq in E. apply set_all_in; [exact Nl|]. apply (Permutation_in _ (Permutation_sym P)). apply accrued_in. split; assumption.
Qed.
Lemma set_missing L l o k : Permutation l (accrued L) -> ~ In k (map fst L) -> set_all l o k = o k.
Proof.
  intros P N. apply set_all_not. intros X. apply N. apply accrued_keys. exact (Permutation_in _ (Permutation_map fst P) X).
Qed.

Lemma plain_key k : plain k -> key_text k.
Proof.
  induction k as [|c k IH]; intros H; [exact I|]. destruct H as [H1 H2]. split; [|exact (IH H2)].
  split; [|intros ->; discriminate]. revert H1. clear. allchars c; vm_compute; congruence.
Qed.

Lemma base_settings env k : over driver_defaults env k = otherwise env k.
Proof.
  unfold over, otherwise, or_else. destruct (env k); [reflexivity|]. unfold driver_defaults, mset, mempty.
  destruct (k =? "host")%string eqn:E1; [apply String.eqb_eq in E1; subst k; reflexivity|].
  destruct (k =? "port")%string eqn:E2; [apply String.eqb_eq in E2; subst k; reflexivity|].
  destruct (k =? "extra_float_digits")%string; reflexivity.
Qed.

Lemma otherwise_some env a k : or_else a (otherwise env k) = or_else a (over driver_defaults env k).
Proof. rewrite base_settings. reflexivity. Qed.

Lemma connector_reads env os conf user password host port db ps m :
  readable conf user password host port db -> lists ps m ->
  (forall k v, m k = Some v -> plain k /\ ~ In k own_names) ->
  exists s, new_connector env os (pg_dsn conf ps) = finish os s /\
    forall k, exists r, configures user password host port db m k r /\ s k = or_else r (otherwise env k).
Proof.
  intros Hr [N Hl] Hk.
  assert (Kp : forall k v, In (k, v) (pg_pairs (parted ps)) -> plain k).
  { intros k v I. unfold pg_pairs in I. apply in_flat_map in I. destruct I as ([k' parts] & I & J).
    apply in_map_iff in J. destruct J as (p & J & _). cbn [fst] in J. injection J as -> _.
    apply (in_map fst) in I. rewrite parted_names in I. apply in_map_iff in I. destruct I as ([k2 v2] & E & I). cbn [fst] in E. subst k2.
    apply Hl, Hk in I. tauto. }
  rewrite <- (parted_values ps), pg_dsn_shape by (intros k parts I; exact (parted_ok ps k parts I)).
  destruct (dsn_parses conf user password host port db _ Hr Kp) as [f E].
  unfold new_connector.
  assert (S : exists x, strip "postgres://" (dsn_base conf +++ "?" +++ String.concat "&" (map pg_items_of (pg_pairs (parted ps)))) = Some x).
  { unfold dsn_base. rewrite !append_assoc'. eexists. apply strip_app. }
  destruct S as [x ->]. unfold pq_parse_url. rewrite E. cbn [u_scheme]. change (("postgres" =? "postgres")%string) with true. cbn [orb].
  unfold url_settings. cbn [u_user u_host u_path u_query String.append]. rewrite query_reads by exact Kp.
  assert (F : firsts [] (pg_pairs (parted ps)) = map (fun kv => (fst kv, first_part (snd kv))) ps).
  { rewrite firsts_heads; [apply parted_heads|rewrite parted_names; exact N|intros k parts I; exact (proj1 (parted_ok ps k parts I))|intros k []]. }
  rewrite F. clear F E Kp x.
  set (ends := match split_host_port (endpoint_text conf) with Some (h, p) => [("host", h); ("port", p)] | None => [("host", endpoint_text conf)] end).
  assert (He : (port = None /\ ends = [("host", host)]) \/ (exists p, port = Some p /\ p <> "" /\ ends = [("host", host); ("port", p)])).
  { unfold ends. destruct (rd_host _ _ _ _ _ _ Hr) as (_ & X & _). pose proof (endpoint_split conf host port X (rd_port _ _ _ _ _ _ Hr)) as Y.
    destruct (split_host_port (endpoint_text conf)) as [[h p]|]; destruct Y as [-> ->]; [right|left; split; reflexivity].
    exists p. split; [reflexivity|]. split; [|reflexivity].
    inversion X; subst; exact (proj2 (port_digits _ (rd_port _ _ _ _ _ _ Hr))). }
  clearbody ends.
  set (L := [("user", user); ("password", password)] ++ ends ++ [("dbname", db)] ++ map (fun kv => (fst kv, first_part (snd kv))) ps).
  assert (Pn : map fst (map (fun kv => (fst kv, first_part (snd kv))) ps) = map fst ps) by (rewrite map_map; reflexivity).
  assert (Own : forall k, In k (map fst ps) -> plain k /\ ~ In k own_names).
  { intros k I. apply in_map_iff in I. destruct I as ([k' v] & <- & I). apply Hl in I. exact (Hk _ _ I). }
  assert (NL : NoDup (map fst L)).
  { unfold L. rewrite !map_app, Pn.
    assert (O : forall k, In k own_names -> ~ In k (map fst ps)) by (intros k I J; exact (proj2 (Own k J) I)).
    assert (O1 := O "user" ltac:(vm_compute; tauto)). assert (O2 := O "password" ltac:(vm_compute; tauto)).
    assert (O3 := O "host" ltac:(vm_compute; tauto)). assert (O4 := O "port" ltac:(vm_compute; tauto)).
    assert (O5 := O "dbname" ltac:(vm_compute; tauto)).
    destruct He as [[_ ->]|(p & _ & _ & ->)]; cbn [map fst Datatypes.app];
      repeat (constructor; [cbn [In]; intuition discriminate|]); exact N. }
  assert (KL : forall kv, In kv L -> key_text (fst kv)).
  { intros [k v] I. cbn [fst]. assert (J : In k own_names \/ In k (map fst ps)).
    { unfold L in I. apply (in_map fst) in I. cbn [fst] in I. rewrite !map_app, Pn in I.
      destruct He as [[_ ->]|(p & _ & _ & ->)]; cbn [map fst Datatypes.app] in I; unfold own_names; cbn [In] in *; tauto. }
    destruct J as [J|J]; [|apply plain_key; exact (proj1 (Own k J))].
    destruct J as [<-|[<-|[<-|[<-|[<-|[]]]]]]; vm_compute; repeat split; discriminate. }
  destruct (sorted_settings (accrued L)) as (l & P & Es). fold L. rewrite Es.
  rewrite parse_settings.
  2:{ intros kv I. apply KL. apply (Permutation_in _ P) in I. destruct kv as [k v]. apply accrued_in in I. exact (proj1 I). }
  eexists. split; [reflexivity|]. intros k. unfold configures. rewrite <- base_settings.
  assert (In1 : forall k v, In (k, v) [("user", user); ("password", password); ("dbname", db); ("host", host)] -> In (k, v) L).
  { intros k' v' I. unfold L. destruct He as [[_ ->]|(p & _ & _ & ->)]; cbn [Datatypes.app In] in *; tauto. }
  destruct (k =? "user")%string eqn:E1.
  { apply String.eqb_eq in E1. subst k. eexists. split; [reflexivity|]. apply (set_found L); try assumption. apply In1. cbn. tauto. }
  destruct (k =? "password")%string eqn:E2.
  { apply String.eqb_eq in E2. subst k. eexists. split; [reflexivity|]. apply (set_found L); try assumption. apply In1. cbn. tauto. }
  destruct (k =? "host")%string eqn:E3.
  { apply String.eqb_eq in E3. subst k. eexists. split; [reflexivity|]. apply (set_found L); try assumption. apply In1. cbn. tauto. }
  apply String.eqb_neq in E1, E2, E3.
  destruct (k =? "port")%string eqn:E4.
  { apply String.eqb_eq in E4. subst k. eexists. split; [reflexivity|]. destruct He as [[-> He]|(p & -> & Np & He)].
    - apply (set_missing L); [exact P|]. unfold L. rewrite !map_app, Pn, He. cbn [map fst Datatypes.app In].
      intros [X|[X|[X|[X|X]]]]; try discriminate. apply (proj2 (Own _ X)). vm_compute. tauto.
    - assert (I : In ("port", p) L) by (unfold L; rewrite He; cbn [Datatypes.app In]; tauto).
      rewrite (set_found L l _ _ _ NL P I). unfold unless_empty. apply String.eqb_neq in Np. rewrite Np. reflexivity. }
  apply String.eqb_neq in E4.
  destruct (k =? "dbname")%string eqn:E5.
  { apply String.eqb_eq in E5. subst k. eexists. split; [reflexivity|]. apply (set_found L); try assumption. apply In1. cbn. tauto. }
  apply String.eqb_neq in E5.
  destruct (m k) as [v|] eqn:Em.
  - exists (unless_empty (first_part v)). split; [exists (first_part v); split; [apply first_leads|reflexivity]|].
    apply (set_found L); try assumption. unfold L. apply in_or_app. right. apply in_or_app. right. apply in_or_app. right.
    apply in_map_iff. exists (k, v). split; [reflexivity|]. apply Hl. exact Em.
  - exists None. split; [reflexivity|]. apply (set_missing L); [exact P|]. unfold L. rewrite !map_app, Pn. intros X.
    assert (Y : ~ In k (map fst ps)).
    { intros Y. apply in_map_iff in Y. destruct Y as ([k' v] & <- & Y). apply Hl in Y. cbn [fst] in Em. congruence. }
    destruct He as [[_ He]|(p & _ & _ & He)]; rewrite He in X; cbn [map fst Datatypes.app In] in X; intuition congruence.
Qed.

(** * What NewConnector makes of it *)

Lemma alnum_is s : alnum_lower s = letters_digits s.
Proof.
  unfold letters_digits. induction s as [|c s IH]; [reflexivity|]. cbn [alnum_lower String.list_ascii_of_string filter].
  rewrite IH. destruct (in_dec ascii_dec c _) as [I|I].
  - replace (is_letter c || is_num c) with true; [reflexivity|]. symmetry. apply Bool.orb_true_iff. rewrite is_letter_iff, is_num_iff.
    unfold alpha. apply in_app_or in I. destruct I as [I|I]; [tauto|]. apply in_app_or in I. destruct I as [I|I]; [tauto|]. right. exact I.
  - replace (is_letter c || is_num c) with false; [reflexivity|]. symmetry. apply Bool.not_true_iff_false. intros H. apply I.
    apply Bool.orb_true_iff in H. rewrite is_letter_iff, is_num_iff in H. destruct H as [[H|H]|H]; apply in_or_app; [left; exact H|right|right]; apply in_or_app; [left|right]; exact H.
Qed.
Lemma is_utf8_iff s : is_utf8 s = true <-> utf8_name s.
Proof. unfold is_utf8, utf8_name. rewrite lower_text_is, alnum_is, Bool.orb_true_iff, !String.eqb_eq. reflexivity. Qed.

Lemma finish_spec os m : (exists h, m "host" = Some h /\ strip "/" h = None) ->
  match finish os m with
  | Some o => acceptable os m /\ forall k, o k = completed os m k
  | None => ~ acceptable os m
  end.
Proof.
  intros (h & Hh & Hs). unfold finish. cbv zeta.
  set (o1 := name_application m).
  assert (A : forall k, o1 k = if (k =? "application_name")%string then or_else (m k) (m "fallback_application_name") else m k).
  { intros k. unfold o1, name_application. destruct (k =? "application_name")%string eqn:E.
    - apply String.eqb_eq in E. subst k. unfold or_else. destruct (m "fallback_application_name") as [f|]; [|destruct (m "application_name"); reflexivity].
      destruct (m "application_name") eqn:E; [exact E|apply mset_same].
    - apply String.eqb_neq in E. destruct (m "fallback_application_name"); [|reflexivity]. destruct (m "application_name"); [reflexivity|apply mset_other; exact E]. }
  clearbody o1. rewrite (A "client_encoding"). change (("client_encoding" =? "application_name")%string) with false. cbn iota.
  destruct (match m "client_encoding" with Some enc => negb (is_utf8 enc) | None => false end) eqn:C.
  { destruct (m "client_encoding") as [e|] eqn:Ee; [|discriminate]. intros (H & _). specialize (H e Ee). apply is_utf8_iff in H. rewrite H in C. discriminate. }
  assert (C1 : forall e, m "client_encoding" = Some e -> utf8_name e).
  { intros e Ee. rewrite Ee in C. apply is_utf8_iff. destruct (is_utf8 e); [reflexivity|discriminate]. }
  clear C. set (o2 := mset o1 "client_encoding" "UTF8").
  assert (B : o2 "datestyle" = m "datestyle") by (unfold o2; rewrite mset_other by discriminate; exact (A "datestyle")).
  rewrite B.
  destruct (match m "datestyle" with Some d => negb (d =? "ISO, MDY")%string | None => false end) eqn:D.
  { destruct (m "datestyle") as [d|] eqn:Ed; [|discriminate]. intros (_ & H & _). rewrite (H d Ed) in D. discriminate. }
  assert (D1 : forall d, m "datestyle" = Some d -> d = "ISO, MDY").
  { intros d Ed. rewrite Ed in D. apply Bool.negb_false_iff, String.eqb_eq in D. exact D. }
  clear D. set (o3 := match m "datestyle" with Some _ => o2 | None => mset o2 "datestyle" "ISO, MDY" end).
  assert (E3 : forall k, o3 k = if (k =? "client_encoding")%string then Some "UTF8" else if (k =? "datestyle")%string then Some "ISO, MDY" else o1 k).
  { intros k. unfold o3. destruct (k =? "datestyle")%string eqn:E.
    - apply String.eqb_eq in E. subst k. change (("datestyle" =? "client_encoding")%string) with false. cbn iota.
      destruct (m "datestyle") as [d|] eqn:Ed; [rewrite B; f_equal; exact (D1 d eq_refl)|apply mset_same].
    - apply String.eqb_neq in E. assert (F : o2 k = if (k =? "client_encoding")%string then Some "UTF8" else o1 k) by reflexivity.
      destruct (m "datestyle"); [exact F|rewrite mset_other by exact E; exact F]. }
  clearbody o3. assert (Eu : o3 "user" = m "user") by (rewrite E3; exact (A "user")). rewrite Eu.
  assert (Fin : forall o4 : smap string, o4 "host" = m "host" ->
    match o4 "host" with Some h => match strip "/" h with Some _ => mset o4 "sslmode" "disable" | None => o4 end | None => o4 end = o4).
  { intros o4 E4. rewrite E4, Hh, Hs. reflexivity. }
  destruct (m "user") as [u|] eqn:Em.
  - rewrite Fin by (rewrite E3; exact (A "host")). split.
    + split; [exact C1|]. split; [exact D1|]. intros X. congruence.
    + intros k. rewrite E3. unfold completed. destruct (k =? "client_encoding")%string; [reflexivity|]. destruct (k =? "datestyle")%string; [reflexivity|].
      rewrite A. destruct (k =? "user")%string eqn:E; [|reflexivity]. apply String.eqb_eq in E. subst k. rewrite Em. reflexivity.
  - destruct os as [u|]; cbn [option_map].
    + rewrite Fin by (rewrite mset_other by discriminate; rewrite E3; exact (A "host")). split.
      * split; [exact C1|]. split; [exact D1|]. discriminate.
      * intros k. unfold completed. unfold mset. destruct (k =? "user")%string eqn:E.
        -- apply String.eqb_eq in E. subst k. rewrite Em. reflexivity.
        -- rewrite E3. destruct (k =? "client_encoding")%string; [reflexivity|]. destruct (k =? "datestyle")%string; [reflexivity|]. apply A.
    + intros (_ & _ & H). exact (H Em eq_refl).
Qed.

Lemma host_no_slash conf user password host port db : readable conf user password host port db -> strip "/" host = None.
Proof.
  intros Hr. destruct (rd_host _ _ _ _ _ _ Hr) as (C & E & Nh).
  assert (A : all_chars host_char host).
  { clear Nh. revert C. destruct E as [h' ? ? ?|x ? ?|h' ? ? ?]; intros C; [exact C| |].
    - apply all_chars_join in C. destruct C as [_ C]. apply all_chars_join in C. exact (proj1 C).
    - apply all_chars_join. split; [exact C|]. apply (port_host (":" +++ itoa (pg_port conf))). right.
      exists (itoa (pg_port conf)). split; [reflexivity|]. exact (proj1 (port_digits _ (rd_port _ _ _ _ _ _ Hr))). }
  destruct host as [|c r]; [congruence|]. cbn [strip]. destruct (Ascii.eqb "/" c) eqn:X; [|reflexivity]. apply Ascii.eqb_eq in X. subst c.
  destruct A as [A _]. apply host_calm in A. tauto.
Qed.

Lemma driver_gets env os conf user password host port db ps m :
  readable conf user password host port db -> lists ps m ->
  (forall k v, m k = Some v -> plain k /\ ~ In k own_names) ->
  exists s, (forall k, exists r, configures user password host port db m k r /\ s k = or_else r (otherwise env k)) /\
    match new_connector env os (pg_dsn conf ps) with
    | Some o => acceptable os s /\ forall k, o k = completed os s k
    | None => ~ acceptable os s
    end.
Proof.
  intros Hr Hl Hk. destruct (connector_reads env os conf user password host port db ps m Hr Hl Hk) as (s & E & S).
  exists s. split; [exact S|]. rewrite E. apply finish_spec. exists host. split; [|exact (host_no_slash _ _ _ _ _ _ Hr)].
  destruct (S "host") as (r & R & ->). unfold configures in R. cbn in R. subst r. unfold unless_empty.
  destruct (rd_host _ _ _ _ _ _ Hr) as (_ & _ & Nh). apply String.eqb_neq in Nh. rewrite Nh. reflexivity.
Qed.
