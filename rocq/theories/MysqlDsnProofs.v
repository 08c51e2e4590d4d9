(** Proofs about the way of a MySQL configuration to the driver. *)
From Verif Require Import Common Bytes ProcsModel ConfNamesSpec ConfNamesProofs ConfsModel ConfsSpec ConfsProofs DurationModel
  DurationSpec DurationProps MysqlDsnModel MysqlDsnSpec.
Local Open Scope string_scope.
Local Open Scope list_scope.
Local Open Scope Z_scope.

Lemma sapp_nil (a : string) : a +++ "" = a.
Proof. induction a as [|x a IH]; [reflexivity|]. cbn [String.append]. now rewrite IH. Qed.
Lemma sapp_assoc (a b c : string) : (a +++ b) +++ c = a +++ (b +++ c).
Proof. exact (append_assoc' a b c). Qed.

(** * What Duration.String writes *)

Definition quiet_char (c : ascii) : Prop := In c ["/"; "&"; "?"; "="; "@"]%char.

Lemma itoa_no z c : quiet_char c -> ~ mentions c (itoa z).
Proof.
  intros H. apply itoa_free. destruct H as [<-|[<-|[<-|[<-|[<-|[]]]]]]; reflexivity.
Qed.

Lemma digit_no d c : quiet_char c -> 0 <= d < 10 -> char_of (d + 48) <> c.
Proof.
  intros H R. assert (D : d = 0 \/ d = 1 \/ d = 2 \/ d = 3 \/ d = 4 \/ d = 5 \/ d = 6 \/ d = 7 \/ d = 8 \/ d = 9) by lia.
  destruct H as [<-|[<-|[<-|[<-|[<-|[]]]]]];
    destruct D as [->|[->|[->|[->|[->|[->|[->|[->|[->| ->]]]]]]]]]; discriminate.
Qed.

Lemma frac_no c prec : quiet_char c -> forall v acc print, ~ mentions c acc -> ~ mentions c (fst (fmt_frac prec v acc print)).
Proof.
  intros Q. induction prec as [|n IH]; intros v acc print H; cbn [fmt_frac].
  - destruct print; cbn [fst]; [|exact H]. intros [E|M]; [|exact (H M)]. subst c.
    destruct Q as [E|[E|[E|[E|[E|[]]]]]]; discriminate.
  - apply IH. destruct (print || _); [|exact H]. intros [E|M]; [|exact (H M)].
    revert E. apply digit_no; [exact Q|]. apply Z.mod_pos_bound. lia.
Qed.

Lemma duration_no c d : quiet_char c -> ~ mentions c (show_duration d).
Proof.
  intros Q.
  assert (L : forall s, (forall x, mentions x s -> ~ quiet_char x) -> ~ mentions c s) by (intros s H M; exact (H c M Q)).
  assert (Lw : forall s, Forall (fun x => ~ quiet_char x) (String.list_ascii_of_string s) -> ~ mentions c s).
  { induction s as [|x s IH]; intros F; [intros []|]. intros [<-|M]; [exact (Forall_inv F Q)|exact (IH (Forall_inv_tail F) M)]. }
  assert (W : forall s, In s ["0s"; "-"; ""; "s"; "m"; "h"; "ns"; "ms"; micro] -> ~ mentions c s).
  { intros s I. apply Lw. clear L Lw Q.
    repeat (destruct I as [<-|I]; [repeat constructor; intros [E|[E|[E|[E|[E|[]]]]]]; discriminate|]). destruct I. }
  assert (I : forall z, ~ mentions c (itoa z)) by (intros z; apply itoa_no; exact Q).
  assert (Z0 : ~ mentions c "") by (intros []).
  unfold show_duration. destruct (Z.abs d =? 0); [apply W; cbn; tauto|].
  rewrite mentions_app. intros [M|M]; [destruct (d <? 0); revert M; apply W; cbn; tauto|].
  destruct (Z.abs d <? 1000000000).
  - unfold show_small in M. destruct (Z.abs d <? 1000).
    + rewrite mentions_app in M. destruct M as [M|M]; [exact (I _ M)|revert M; apply W; cbn; tauto].
    + destruct (Z.abs d <? 1000000).
      * pose proof (frac_no c 3 Q (Z.abs d) "" false Z0) as F. destruct (fmt_frac 3 _ _ _) as [f v]. cbn [fst] in F.
        rewrite !mentions_app in M. destruct M as [M|[M|M]]; [exact (I _ M)|exact (F M)|revert M; apply W; cbn; tauto].
      * pose proof (frac_no c 6 Q (Z.abs d) "" false Z0) as F. destruct (fmt_frac 6 _ _ _) as [f v]. cbn [fst] in F.
        rewrite !mentions_app in M. destruct M as [M|[M|M]]; [exact (I _ M)|exact (F M)|revert M; apply W; cbn; tauto].
  - unfold show_seconds in M. pose proof (frac_no c 9 Q (Z.abs d) "" false Z0) as F. destruct (fmt_frac 9 _ _ _) as [f v]. cbn [fst] in F.
    assert (T : ~ mentions c (itoa (v mod 60) +++ f +++ "s")).
    { rewrite !mentions_app. intros [H|[H|H]]; [exact (I _ H)|exact (F H)|revert H; apply W; cbn; tauto]. }
    destruct (0 <? v / 60); [|exact (T M)].
    assert (T2 : ~ mentions c (itoa (v / 60 mod 60) +++ "m" +++ itoa (v mod 60) +++ f +++ "s")).
    { rewrite mentions_app, (mentions_app c "m"). intros [H|[H|H]]; [exact (I _ H)|revert H; apply W; cbn; tauto|exact (T H)]. }
    destruct (0 <? v / 60 / 60); [|exact (T2 M)].
    rewrite mentions_app, (mentions_app c "h") in M. destruct M as [M|[M|M]]; [exact (I _ M)|revert M; apply W; cbn; tauto|exact (T2 M)].
Qed.

(** * The text *)

Definition item (kv : string * string) : string := fst kv +++ "=" +++ snd kv.
Definition suffix (items : list (string * string)) : string :=
  match items with [] => "" | _ => "?" +++ String.concat "&" (map item items) end.

Lemma write_more items : forall b, fst (fold_left write_param items (b, true)) = b +++ String.concat "" (map (fun kv => "&" +++ item kv) items).
Proof.
  induction items as [|kv items IH]; intros b; cbn [fold_left map].
  - cbn. now rewrite sapp_nil.
  - unfold write_param at 2. cbn [fst snd]. rewrite IH. rewrite sapp_assoc. f_equal.
    destruct items as [|kv' items]; [cbn; now rewrite sapp_nil|]. unfold item at 2. cbn [map].
    cbn [String.concat]. rewrite !sapp_assoc. reflexivity.
Qed.
Lemma concat_amp items kv : String.concat "&" (map item (kv :: items)) = item kv +++ String.concat "" (map (fun kv => "&" +++ item kv) items).
Proof.
  revert kv. induction items as [|kv' items IH]; intros kv; [cbn; now rewrite sapp_nil|].
  change (map item (kv :: kv' :: items)) with (item kv :: map item (kv' :: items)).
  replace (String.concat "&" (item kv :: map item (kv' :: items))) with (item kv +++ "&" +++ String.concat "&" (map item (kv' :: items))) by reflexivity.
  rewrite IH. f_equal. cbn [map]. destruct items as [|kv'' items]; [cbn; now rewrite sapp_nil|reflexivity].
Qed.
Lemma write_items items b : fst (fold_left write_param items (b, false)) = b +++ suffix items.
Proof.
  destruct items as [|kv items]; [cbn; now rewrite sapp_nil|]. cbn [fold_left suffix].
  unfold write_param at 2. cbn [fst snd]. rewrite write_more, concat_amp. unfold item at 2. rewrite !sapp_assoc. reflexivity.
Qed.

Lemma concat_no c s l : ~ mentions c s -> (forall x, In x l -> ~ mentions c x) -> ~ mentions c (String.concat s l).
Proof.
  intros S. induction l as [|x l IH]; intros H; [intros []|]. destruct l as [|y l].
  - cbn. apply H. now left.
  - replace (String.concat s (x :: y :: l)) with (x +++ s +++ String.concat s (y :: l)) by reflexivity.
    rewrite !mentions_app. intros [M|[M|M]]; [exact (H x (or_introl eq_refl) M)|exact (S M)|].
    revert M. apply IH. intros z I. apply H. now right.
Qed.

Lemma item_no c kv : c <> "="%char -> ~ mentions c (fst kv) -> ~ mentions c (snd kv) -> ~ mentions c (item kv).
Proof. intros N K V. unfold item. rewrite !mentions_app. intros [M|[[M|[]]|M]]; [exact (K M)|exact (N (eq_sym M))|exact (V M)]. Qed.

Lemma suffix_no_slash items : (forall kv, In kv items -> ~ mentions "/" (fst kv) /\ ~ mentions "/" (snd kv)) -> ~ mentions "/" (suffix items).
Proof.
  intros H. destruct items as [|kv items]; [intros []|]. cbn [suffix]. rewrite mentions_app. intros [[M|[]]|M]; [discriminate M|].
  revert M. apply concat_no; [intros [M|[]]; discriminate M|]. intros x I. apply in_map_iff in I. destruct I as (kv' & <- & I).
  destruct (H kv' I). apply item_no; [discriminate|assumption..].
Qed.

Section parse.
  Context (lim : Z) (zone : string -> bool) (atoi : string -> option Z) (tls_known key_known : string -> bool).
  Notation parse_param := (parse_param lim zone atoi).
  Notation parse_params := (parse_params lim zone atoi).
  Notation parse_dsn := (parse_dsn lim zone atoi tls_known key_known).
  Notation normalize := (normalize tls_known key_known).

  Fixpoint run (c : driver_config) (items : list (string * string)) : parsed :=
    match items with
    | [] => DOk c
    | kv :: rest => match parse_param c (fst kv) (snd kv) with DOk c' => run c' rest | e => e end
    end.

  Lemma parse_run items : (forall kv, In kv items -> ~ mentions "=" (fst kv)) -> forall c, parse_params c (map item items) = run c items.
  Proof.
    induction items as [|kv items IH]; intros H c; [reflexivity|]. cbn [map MysqlDsnModel.parse_params run].
    unfold item at 1. change ("=" +++ snd kv) with (String.String "=" (snd kv)).
    rewrite cut_first_at by (apply H; now left). destruct (parse_param c (fst kv) (snd kv)); try reflexivity.
    apply IH. intros kv' I. apply H. now right.
  Qed.

  Lemma split_items items : items <> [] -> (forall kv, In kv items -> ~ mentions "&" (fst kv) /\ ~ mentions "&" (snd kv)) ->
    split "&" (String.concat "&" (map item items)) = map item items.
  Proof.
    intros N H. apply (cuts_unique "&" (String.concat "&" (map item items))); [apply split_cuts|].
    split; [destruct items; [congruence|discriminate]|]. split; [reflexivity|].
    intros p I. apply in_map_iff in I. destruct I as (kv & <- & I). destruct (H kv I). apply item_no; [discriminate|assumption..].
  Qed.

  Lemma closing_at a : closing (a +++ ")") = Some a.
  Proof. induction a as [|x a IH]; [reflexivity|]. cbn [String.append closing]. rewrite IH. destruct a; reflexivity. Qed.

  (** User and password as the driver reads them. *)
  Definition login (user passwd : string) : string * string :=
    if (user =? "")%string then ("", "")
    else match cut_first ":" (user +++ (if (passwd =? "")%string then "" else ":" +++ passwd)) with
         | (u, Some p) => (u, p) | (u, None) => (u, "") end.

  Lemma login_plain user passwd : ~ mentions ":" user -> (user = "" -> passwd = "") -> login user passwd = (user, passwd).
  Proof.
    intros U E. unfold login. destruct (String.eqb_spec user "") as [->|N]; [now rewrite E|].
    destruct (String.eqb_spec passwd "") as [->|P].
    - rewrite sapp_nil, cut_first_none by exact U. reflexivity.
    - change (":" +++ passwd) with (String.String ":" passwd). rewrite cut_first_at by exact U. reflexivity.
  Qed.

  Definition dsn_items (n : mysql_native) (ps : list (string * string)) : list (string * string) :=
    fixed_items n ++ map (fun kv => (fst kv, query_escape (snd kv))) ps.

  Lemma parse_format n ps : mn_net n = "tcp" -> mn_addr n <> "" -> ~ mentions "@" (mn_addr n) ->
    ~ mentions "/" (mn_db n) -> ~ mentions "?" (mn_db n) ->
    (forall k v, In (k, v) ps -> ~ mentions "/" k /\ ~ mentions "&" k /\ ~ mentions "=" k) ->
    parse_dsn (format_dsn n ps) =
    match run new_config (dsn_items n ps) with
    | DOk c => normalize (set_target c (fst (login (mn_user n) (mn_passwd n))) (snd (login (mn_user n) (mn_passwd n))) "tcp" (mn_addr n) (mn_db n))
    | e => e
    end.
  Proof.
    intros En Ea Aa Ds Dq K.
    assert (I : forall kv, In kv (dsn_items n ps) ->
      ~ mentions "=" (fst kv) /\ (~ mentions "/" (fst kv) /\ ~ mentions "/" (snd kv)) /\ (~ mentions "&" (fst kv) /\ ~ mentions "&" (snd kv))).
    { assert (W : forall c k, In k ["loc"; "parseTime"; "readTimeout"; "timeout"; "writeTimeout"] -> quiet_char c -> ~ mentions c k).
      { intros c k Ik Q. assert (F : Forall (fun x => ~ quiet_char x) (String.list_ascii_of_string k)).
        { clear Q. repeat (destruct Ik as [<-|Ik]; [repeat constructor; intros [E|[E|[E|[E|[E|[]]]]]]; discriminate|]). destruct Ik. }
        clear Ik. induction k as [|x k IH]; [intros []|]. intros [E|M]; [subst; exact (Forall_inv F Q)|exact (IH (Forall_inv_tail F) M)]. }
      assert (Tr : forall c, quiet_char c -> ~ mentions c "true").
      { intros c Q [E|[E|[E|[E|[]]]]]; subst c; destruct Q as [E|[E|[E|[E|[E|[]]]]]]; discriminate. }
      assert (G : forall k v, In k ["loc"; "parseTime"; "readTimeout"; "timeout"; "writeTimeout"] -> (forall c, quiet_char c -> ~ mentions c v) ->
        ~ mentions "=" (fst (k, v)) /\ (~ mentions "/" (fst (k, v)) /\ ~ mentions "/" (snd (k, v))) /\ (~ mentions "&" (fst (k, v)) /\ ~ mentions "&" (snd (k, v)))).
      { intros k v Ik V. cbn [fst snd]. repeat split; (apply W; [exact Ik|cbn; tauto]) || (apply V; cbn; tauto). }
      assert (X : forall s c, quiet_char c -> ~ mentions c (query_escape s)).
      { intros s c Q. apply escape_free; destruct Q as [<-|[<-|[<-|[<-|[<-|[]]]]]]; reflexivity || discriminate. }
      intros kv H. apply in_app_or in H. destruct H as [H|H].
      - unfold fixed_items in H. repeat (apply in_app_or in H; destruct H as [H|H]);
          [destruct (mn_loc n) as [l|]; [destruct (l =? "UTC")%string|]; [destruct H| |destruct H]
          |destruct (mn_parse n); [|destruct H]|destruct (0 <? mn_read n); [|destruct H]|destruct (0 <? mn_timeout n); [|destruct H]|
           destruct (0 <? mn_write n); [|destruct H]]; destruct H as [<-|[]]; (apply G; [cbn; tauto|]).
        + apply X.
        + exact Tr.
        + intros c. apply duration_no.
        + intros c. apply duration_no.
        + intros c. apply duration_no.
      - apply in_map_iff in H. destruct H as ([k v] & <- & H). destruct (K k v H) as (K1 & K2 & K3). cbn [fst snd].
        repeat split; try assumption; apply X; cbn; tauto. }
    unfold format_dsn. fold (dsn_items n ps). rewrite write_items. rewrite En.
    replace ("tcp" =? "")%string with false by reflexivity.
    destruct (String.eqb_spec (mn_addr n) "") as [E|_]; [congruence|].
    set (L := if (mn_user n =? "")%string then "" else _).
    replace (((L +++ "tcp" +++ "(" +++ mn_addr n +++ ")") +++ "/" +++ mn_db n) +++ suffix (dsn_items n ps))
      with ((L +++ "tcp" +++ "(" +++ mn_addr n +++ ")") +++ String.String "/" (mn_db n +++ suffix (dsn_items n ps))).
    2:{ rewrite (sapp_assoc (L +++ _)). reflexivity. }
    unfold MysqlDsnModel.parse_dsn at 1. rewrite cut_last_at.
    2:{ rewrite mentions_app. intros [M|M]; [exact (Ds M)|]. revert M. apply suffix_no_slash. intros kv H. apply (I kv H). }
    assert (Hl : match cut_last "@" (L +++ "tcp" +++ "(" +++ mn_addr n +++ ")") with
                 | Some (up, rest) => match cut_first ":" up with (u, Some p) => (u, p, rest) | (u, None) => (u, "", rest) end
                 | None => ("", "", L +++ "tcp" +++ "(" +++ mn_addr n +++ ")")
                 end = (fst (login (mn_user n) (mn_passwd n)), snd (login (mn_user n) (mn_passwd n)), "tcp" +++ "(" +++ mn_addr n +++ ")")).
    { assert (NT : ~ mentions "@" ("tcp" +++ "(" +++ mn_addr n +++ ")")).
      { rewrite !mentions_app. intros [M|[M|[M|M]]]; [cbn in M; intuition discriminate|cbn in M; intuition discriminate|exact (Aa M)|cbn in M; intuition discriminate]. }
      unfold L, login. destruct (mn_user n =? "")%string.
      - change ("" +++ ?s) with s. cbn [String.append] in NT |- *. rewrite cut_last_none by exact NT. reflexivity.
      - rewrite (sapp_assoc (mn_user n)), sapp_assoc. rewrite <- (sapp_assoc (mn_user n)).
        change ("@" +++ "tcp" +++ "(" +++ mn_addr n +++ ")") with (String.String "@" ("tcp" +++ "(" +++ mn_addr n +++ ")")).
        rewrite cut_last_at by exact NT. destruct (cut_first ":" _) as [u [p|]]; reflexivity. }
    rewrite Hl. clear Hl.
    change ("tcp" +++ "(" +++ mn_addr n +++ ")") with ("tcp" +++ String.String "(" (mn_addr n +++ ")")).
    rewrite cut_first_at by (cbn; intuition discriminate). rewrite closing_at. cbn [when].
    destruct (dsn_items n ps) as [|kv items] eqn:Hi.
    - cbn [suffix]. rewrite sapp_nil, cut_first_none by exact Dq. reflexivity.
    - rewrite <- Hi in *. assert (S : suffix (dsn_items n ps) = String.String "?" (String.concat "&" (map item (dsn_items n ps)))) by (rewrite Hi; reflexivity).
      rewrite S, cut_first_at by exact Dq.
      rewrite split_items; [|congruence|intros kv' H; apply (I kv' H)].
      rewrite parse_run by (intros kv' H; apply (I kv' H)). reflexivity.
  Qed.

  (** * The parameters *)

  Lemma last_value_app l1 l2 k : last_value (l1 ++ l2) k = match last_value l2 k with Some v => Some v | None => last_value l1 k end.
  Proof.
    induction l1 as [|[k1 v1] l1 IH]; cbn [Datatypes.app last_value]; [destruct (last_value l2 k); reflexivity|].
    rewrite IH. destruct (last_value l2 k); reflexivity.
  Qed.
  Lemma last_value_in l k v : last_value l k = Some v -> In (k, v) l.
  Proof.
    induction l as [|[k1 v1] l IH]; cbn [last_value]; [discriminate|]. destruct (last_value l k) as [v'|] eqn:E.
    - intros X. injection X as X. subst v'. right. now apply IH.
    - destruct (String.eqb_spec k k1) as [->|]; [|discriminate]. intros X. injection X as ->. now left.
  Qed.
  Lemma last_value_none l k : last_value l k = None -> ~ In k (map fst l).
  Proof.
    induction l as [|[k1 v1] l IH]; cbn [last_value map fst]; [intros _ []|]. destruct (last_value l k) as [v'|] eqn:E; [discriminate|].
    destruct (String.eqb_spec k k1) as [->|N]; [discriminate|]. intros _ [H|H]; [congruence|exact (IH eq_refl H)].
  Qed.
  Lemma last_value_lists ps m k : lists ps m -> last_value ps k = m k.
  Proof.
    intros (_ & H). destruct (last_value ps k) as [v|] eqn:E.
    - symmetry. apply H. now apply last_value_in.
    - destruct (m k) as [v|] eqn:M; [|reflexivity]. apply H in M. apply last_value_none in E.
      destruct E. apply in_map_iff. exists (k, v). now split.
  Qed.
  Lemma last_value_map (f : string -> string) ps k : last_value (map (fun kv => (fst kv, f (snd kv))) ps) k = option_map f (last_value ps k).
  Proof.
    induction ps as [|[k1 v1] ps IH]; cbn [map last_value fst snd]; [reflexivity|]. rewrite IH.
    destruct (last_value ps k); [reflexivity|]. cbn [option_map]. destruct (k =? k1)%string; reflexivity.
  Qed.

  Lemma run_field {A} (f : driver_config -> A) (K : string) (R : string -> A -> Prop) :
    (forall c k v c', parse_param c k v = DOk c' -> k <> K -> f c' = f c) ->
    (forall c v c', parse_param c K v = DOk c' -> R v (f c')) ->
    forall items c c', run c items = DOk c' ->
    match last_value items K with Some v => R v (f c') | None => f c' = f c end.
  Proof.
    intros O S. induction items as [|[k v] items IH]; intros c c' E; cbn [run last_value fst snd] in *; [congruence|].
    destruct (parse_param c k v) as [c1| |] eqn:P; try discriminate. specialize (IH _ _ E).
    destruct (last_value items K) as [v'|]; [exact IH|]. destruct (String.eqb_spec K k) as [->|N].
    - rewrite IH. now apply (S c).
    - rewrite IH. apply (O _ _ _ _ P). congruence.
  Qed.
  Lemma run_ok items : (forall k v, In (k, v) items -> forall c, exists c', parse_param c k v = DOk c') ->
    forall c, exists c', run c items = DOk c'.
  Proof.
    induction items as [|[k v] items IH]; intros H c; cbn [run fst snd]; [now exists c|].
    destruct (H k v (or_introl eq_refl) c) as (c1 & ->). apply IH. intros k' v' I. apply H. now right.
  Qed.

  Ltac pp H :=
    unfold MysqlDsnModel.parse_param, when in H;
    repeat match type of H with
           | context [if ?b then _ else _] => destruct b eqn:?
           | context [match ?o with Some _ => _ | None => _ end] => destruct o eqn:?
           end; try discriminate H.
  Ltac other := let c := fresh "c" in let k := fresh "k" in let v := fresh "v" in let c' := fresh "c'" in let H := fresh "H" in let N := fresh "N" in
    intros c k v c' H N; pp H; injection H as <-; try reflexivity;
    repeat match goal with E : (k =? _)%string = true |- _ => apply String.eqb_eq in E end; congruence.
  Ltac same := let c := fresh "c" in let v := fresh "v" in let c' := fresh "c'" in let H := fresh "H" in
    intros c v c' H; unfold MysqlDsnModel.parse_param in H; cbn [existsb bool_options String.eqb Ascii.eqb Bool.eqb orb andb] in H; cbn in H;
    unfold when in H.

  Lemma run_timeout items c c' : run c items = DOk c' ->
    match last_value items "timeout" with Some v => parse_duration lim v = Some (g_timeout c') | None => g_timeout c' = g_timeout c end.
  Proof.
    apply (run_field g_timeout "timeout" (fun v d => parse_duration lim v = Some d)); [other|].
    same. destruct (parse_duration lim v); [|discriminate]. injection H as <-. reflexivity.
  Qed.
  Lemma run_read items c c' : run c items = DOk c' ->
    match last_value items "readTimeout" with Some v => parse_duration lim v = Some (g_read c') | None => g_read c' = g_read c end.
  Proof.
    apply (run_field g_read "readTimeout" (fun v d => parse_duration lim v = Some d)); [other|].
    same. destruct (parse_duration lim v); [|discriminate]. injection H as <-. reflexivity.
  Qed.
  Lemma run_write items c c' : run c items = DOk c' ->
    match last_value items "writeTimeout" with Some v => parse_duration lim v = Some (g_write c') | None => g_write c' = g_write c end.
  Proof.
    apply (run_field g_write "writeTimeout" (fun v d => parse_duration lim v = Some d)); [other|].
    same. destruct (parse_duration lim v); [|discriminate]. injection H as <-. reflexivity.
  Qed.
  Lemma run_loc items c c' : run c items = DOk c' ->
    match last_value items "loc" with Some v => exists l, query_unescape v = Some l /\ g_loc c' = the_zone l | None => g_loc c' = g_loc c end.
  Proof.
    apply (run_field g_loc "loc" (fun v l => exists x, query_unescape v = Some x /\ l = the_zone x)); [other|].
    same. destruct (query_unescape v) as [l|]; [|discriminate]. exists l. split; [reflexivity|].
    destruct ((l =? "")%string || zone l); [|discriminate]. injection H as <-. reflexivity.
  Qed.
  Lemma run_collation items c c' : run c items = DOk c' ->
    g_collation c' = match last_value items "collation" with Some v => v | None => g_collation c end.
  Proof.
    intros E. apply (run_field g_collation "collation" (fun v x => x = v)) in E; [destruct (last_value items _); exact E|other|].
    same. injection H as <-. reflexivity.
  Qed.
  Lemma run_tls items c c' : run c items = DOk c' -> last_value items "tls" = None -> g_tls c' = g_tls c.
  Proof. intros E. apply (run_field g_tls "tls" (fun _ _ => True)) in E; [|other|trivial]. destruct (last_value items _); [discriminate|trivial]. Qed.
  Lemma run_pubkey items c c' : run c items = DOk c' -> last_value items "serverPubKey" = None -> g_pubkey c' = g_pubkey c.
  Proof. intros E. apply (run_field g_pubkey "serverPubKey" (fun _ _ => True)) in E; [|other|trivial]. destruct (last_value items _); [discriminate|trivial]. Qed.
  Lemma run_packet items c c' : run c items = DOk c' -> last_value items "maxAllowedPacket" = None -> g_packet c' = g_packet c.
  Proof. intros E. apply (run_field g_packet "maxAllowedPacket" (fun _ _ => True)) in E; [|other|trivial]. destruct (last_value items _); [discriminate|trivial]. Qed.
  Lemma run_never k items c c' : (k = "compress" \/ k = "strict") -> run c items = DOk c' -> last_value items k = None.
  Proof.
    intros Hk E. apply (run_field (fun _ => tt) k (fun _ _ => False)) in E; [|reflexivity|].
    - destruct (last_value items k); [destruct E|reflexivity].
    - destruct Hk as [->| ->]; same; discriminate.
  Qed.

  Lemma existsb_in k l : existsb (String.eqb k) l = true <-> In k l.
  Proof.
    rewrite existsb_exists. split.
    - intros (x & I & E). apply String.eqb_eq in E. now subst.
    - intros I. exists k. split; [exact I|apply String.eqb_refl].
  Qed.

  Lemma run_flag k items c c' : In k switches -> run c items = DOk c' ->
    match last_value items k with Some v => exists b, read_bool v = Some b /\ g_flags c' k = Some b | None => g_flags c' k = g_flags c k end.
  Proof.
    intros I. apply (run_field (fun c => g_flags c k) k (fun v x => exists b, read_bool v = Some b /\ x = Some b)).
    - intros c0 k0 v c1 H N. pp H; injection H as <-; try reflexivity. cbn. apply mset_other. congruence.
    - intros c0 v c1 H. unfold MysqlDsnModel.parse_param in H.
      assert (B : existsb (String.eqb k) bool_options = true) by (apply existsb_in; exact I).
      rewrite B in H. unfold when in H. destruct (read_bool v) as [b|]; [|discriminate]. injection H as <-. exists b. split; [reflexivity|].
      apply mset_same.
  Qed.
  Lemma run_flag_none k items c c' : ~ In k switches -> run c items = DOk c' -> g_flags c' k = g_flags c k.
  Proof.
    intros I. revert c. induction items as [|[k1 v1] items IH]; intros c H; cbn [run fst snd] in H; [congruence|].
    destruct (parse_param c k1 v1) as [c1| |] eqn:P; try discriminate. rewrite (IH _ H). clear IH H. rename P into H.
    pp H; injection H as <-; try reflexivity. cbn. apply mset_other. intros <-. apply I. now apply existsb_in.
  Qed.

  Lemma settings_spec k : existsb (String.eqb k) settings =
    existsb (String.eqb k) bool_options || ((k =? "collation")%string || ((k =? "compress")%string || ((k =? "loc")%string ||
    ((k =? "readTimeout")%string || ((k =? "serverPubKey")%string || ((k =? "strict")%string || ((k =? "timeout")%string ||
    ((k =? "tls")%string || ((k =? "writeTimeout")%string || ((k =? "maxAllowedPacket")%string || false)))))))))).
  Proof.
    change settings with (bool_options ++ ["collation"; "compress"; "loc"; "readTimeout"; "serverPubKey"; "strict"; "timeout"; "tls"; "writeTimeout"; "maxAllowedPacket"]).
    rewrite existsb_app. reflexivity.
  Qed.
  Lemma parse_other c k v : existsb (String.eqb k) settings = false ->
    parse_param c k v = when (query_unescape v) (fun v' => DOk (set_param c k v')).
  Proof.
    rewrite settings_spec. rewrite !orb_false_iff. intros (E0 & E1 & E2 & E3 & E4 & E5 & E6 & E7 & E8 & E9 & E10 & _).
    unfold MysqlDsnModel.parse_param. now rewrite E0, E1, E2, E3, E4, E5, E6, E7, E8, E9, E10.
  Qed.
  Lemma parse_setting c k v c' : existsb (String.eqb k) settings = true -> parse_param c k v = DOk c' -> g_params c' = g_params c.
  Proof.
    intros S H. pp H; injection H as <-; try reflexivity. exfalso.
    rewrite settings_spec in S. rewrite !orb_true_iff in S. intuition congruence.
  Qed.
  Lemma run_param k items c c' : run c items = DOk c' ->
    if existsb (String.eqb k) settings then g_params c' k = g_params c k
    else match last_value items k with Some v => g_params c' k = query_unescape v /\ query_unescape v <> None | None => g_params c' k = g_params c k end.
  Proof.
    intros E. destruct (existsb (String.eqb k) settings) eqn:S.
    - revert c E. induction items as [|[k1 v1] items IH]; intros c E; cbn [run fst snd] in E; [congruence|].
      destruct (parse_param c k1 v1) as [c1| |] eqn:P; try discriminate. rewrite (IH _ E).
      destruct (existsb (String.eqb k1) settings) eqn:S1; [now rewrite (parse_setting _ _ _ _ S1 P)|].
      rewrite parse_other in P by exact S1. unfold when in P. destruct (query_unescape v1); [|discriminate]. injection P as <-.
      apply mset_other. congruence.
    - revert E. apply (run_field (fun c => g_params c k) k (fun v x => x = query_unescape v /\ query_unescape v <> None)).
      + intros c0 k0 v c1 H N. destruct (existsb (String.eqb k0) settings) eqn:S1; [now rewrite (parse_setting _ _ _ _ S1 H)|].
        rewrite parse_other in H by exact S1. unfold when in H. destruct (query_unescape v); [|discriminate]. injection H as <-.
        apply mset_other. congruence.
      + intros c0 v c1 H. rewrite parse_other in H by exact S. unfold when in H. destruct (query_unescape v); [|discriminate]. injection H as <-.
        split; [apply mset_same|discriminate].
  Qed.

  (** * The address *)

  Lemma has_char_b_spec c s : has_char_b c s = true <-> mentions c s.
  Proof.
    unfold has_char_b, mentions. induction s as [|x s IH]; cbn [cut_first has_char]; [split; [discriminate|intros []]|].
    destruct (Ascii.eqb_spec x c) as [E|N]; [split; auto|]. destruct (cut_first c s) as [a [b|]]; rewrite <- IH; intuition discriminate.
  Qed.
  Lemma has_char_b_no c s : ~ mentions c s -> has_char_b c s = false.
  Proof. intros H. destruct (has_char_b c s) eqn:E; [|reflexivity]. destruct (H (proj1 (has_char_b_spec c s) E)). Qed.

  Lemma itoa_plain z c : In c [":"; "["; "]"]%char -> ~ mentions c (itoa z).
  Proof. intros H. apply itoa_free. destruct H as [<-|[<-|[<-|[]]]]; reflexivity. Qed.

  Lemma port_ok host port : good_host host -> split_host_port_ok (host +++ ":" +++ itoa port) = true.
  Proof.
    intros G. unfold split_host_port_ok. change (":" +++ itoa port) with (String.String ":" (itoa port)).
    rewrite cut_last_at by (apply itoa_plain; cbn; tauto).
    destruct G as [(H1 & H2 & H3)|(x & -> & H2 & H3)].
    - assert (S : starts_with "[" (host +++ String.String ":" (itoa port)) = None).
      { destruct host as [|a host]; [reflexivity|]. cbn [String.append starts_with]. destruct (Ascii.eqb_spec a "["%char) as [E|]; [|reflexivity].
        destruct H2. now left. }
      rewrite S. rewrite (has_char_b_no ":") by exact H1.
      rewrite !has_char_b_no; [reflexivity|..];
        (rewrite mentions_app; intros [M|[M|M]]; [contradiction|discriminate M|revert M; apply itoa_plain; cbn; tauto]).
    - replace ((("[" +++ x +++ "]") +++ String.String ":" (itoa port))) with (String.String "[" (x +++ String.String "]" (String.String ":" (itoa port))))
        by (cbn [String.append]; now rewrite sapp_assoc).
      cbn [starts_with]. rewrite Ascii.eqb_refl. rewrite cut_first_at by exact H3. cbn [starts_with]. rewrite Ascii.eqb_refl.
      rewrite !has_char_b_no; [reflexivity|..].
      + intros [M|M]; [discriminate M|]. revert M. apply itoa_plain. cbn. tauto.
      + rewrite mentions_app. intros [M|[M|[M|M]]]; [contradiction|discriminate M|discriminate M|]. revert M. apply itoa_plain. cbn. tauto.
      + apply itoa_plain. cbn. tauto.
  Qed.

  Lemma port_bad host port : mentions ":" host -> starts_with "[" host = None ->
    ensure_have_port (host +++ ":" +++ itoa port) = "[" +++ (host +++ ":" +++ itoa port) +++ "]:3306".
  Proof.
    intros M S. unfold ensure_have_port, split_host_port_ok. change (":" +++ itoa port) with (String.String ":" (itoa port)).
    rewrite cut_last_at by (apply itoa_plain; cbn; tauto).
    assert (S' : starts_with "[" (host +++ String.String ":" (itoa port)) = None) by (destruct host as [|a host]; [reflexivity|]; cbn [String.append starts_with] in *; destruct (Ascii.eqb a "["); [discriminate|reflexivity]).
    rewrite S'. rewrite (proj2 (has_char_b_spec ":" host) M). cbn [negb andb].
    unfold join_host_port. rewrite (proj2 (has_char_b_spec ":" (host +++ String.String ":" (itoa port)))); [reflexivity|].
    apply mentions_app. now left.
  Qed.

  Lemma normalize_fields c c' : normalize c = DOk c' ->
    g_user c' = g_user c /\ g_passwd c' = g_passwd c /\ g_db c' = g_db c /\ g_params c' = g_params c /\ g_collation c' = g_collation c /\
    g_loc c' = g_loc c /\ g_packet c' = g_packet c /\ g_pubkey c' = g_pubkey c /\ g_tls c' = g_tls c /\ g_timeout c' = g_timeout c /\
    g_read c' = g_read c /\ g_write c' = g_write c /\ g_flags c' = g_flags c /\
    (g_net c = "tcp" -> g_net c' = "tcp" /\ (g_addr c <> "" -> g_addr c' = ensure_have_port (g_addr c))).
  Proof.
    unfold MysqlDsnModel.normalize, when. intros H.
    set (net := if (g_net c =? "")%string then "tcp" else g_net c) in *.
    destruct (if (g_addr c =? "")%string then _ else _) as [a|] eqn:A; [|discriminate].
    destruct (_ || tls_known _); [|discriminate]. destruct (_ || key_known _); [|discriminate]. injection H as <-.
    do 13 (split; [reflexivity|]). intros N. cbn. subst net. rewrite N in *. cbn in A |- *. split; [reflexivity|].
    intros Na. destruct (String.eqb_spec (g_addr c) ""); [congruence|]. congruence.
  Qed.

  (** * Everything together *)

  Lemma prepare_fields conf n : mysql_prepare zone conf None = Some n ->
    mn_user n = my_user conf /\ mn_passwd n = my_pass conf /\ mn_net n = "tcp" /\ mn_addr n = address conf /\ mn_db n = my_db conf /\
    mn_timeout n = my_timeout conf /\ mn_read n = my_read conf /\ mn_write n = my_write conf /\ mn_parse n = my_parse conf /\
    mn_loc n = (if (my_loc conf =? "")%string then None else Some (my_loc conf)) /\ mn_params n = add_params mempty (my_params conf) /\
    (my_loc conf = "" \/ zone (my_loc conf) = true).
  Proof.
    unfold mysql_prepare. intros H.
    assert (E : sprintf itoa "%s:%d" [AStr (my_host conf); AInt (my_port conf)] = address conf).
    { unfold address. cbn. now rewrite sapp_nil. }
    rewrite E in H. destruct (String.eqb_spec (my_loc conf) "") as [L|L].
    - injection H as <-. repeat split. now left.
    - destruct (zone (my_loc conf)) eqn:Z; [|discriminate]. injection H as <-. repeat split. now right.
  Qed.

  Lemma params_keys params k v : add_params mempty params k = Some v -> ~ mentions "&" k /\ ~ mentions "=" k.
  Proof.
    unfold add_params. destruct (params =? "")%string; [discriminate|]. pose proof (split_cuts "&" params) as (_ & _ & C).
    assert (G : forall m, (forall k v, m k = Some v -> ~ mentions "&" k /\ ~ mentions "=" k) ->
      params_loop m (split "&" params) k = Some v -> ~ mentions "&" k /\ ~ mentions "=" k); [|apply G; discriminate].
    induction (split "&" params) as [|s items IH]; intros m M H; [exact (M _ _ H)|].
    assert (D : params_loop m (s :: items) = params_loop (params_loop m [s]) items) by reflexivity. rewrite D in H. clear D.
    revert H. apply IH; [intros p I; apply C; now right|]. clear IH. cbn. pose proof (split_cuts "=" s) as (_ & E1 & E2).
    destruct (split "=" s) as [|a [|e [|x y]]]; try exact M. destruct (query_unescape e) as [v'|]; [|exact M].
    intros k0 v0 H. unfold mset in H. destruct (k0 =? a)%string eqn:E in H; [|exact (M _ _ H)].
    apply String.eqb_eq in E. subst a. split; [|apply E2; now left]. intros N. apply (C s); [now left|]. rewrite E1.
    cbn. apply mentions_app. now left.
  Qed.

  Lemma fixed_values n k v : In (k, v) (fixed_items n) ->
    (k = "loc" /\ exists l, mn_loc n = Some l /\ l <> "UTC" /\ v = query_escape l) \/ (k = "parseTime" /\ mn_parse n = true /\ v = "true") \/
    (k = "readTimeout" /\ 0 < mn_read n /\ v = show_duration (mn_read n)) \/
    (k = "timeout" /\ 0 < mn_timeout n /\ v = show_duration (mn_timeout n)) \/
    (k = "writeTimeout" /\ 0 < mn_write n /\ v = show_duration (mn_write n)).
  Proof.
    intros H. unfold fixed_items in H. repeat (apply in_app_or in H; destruct H as [H|H]).
    - destruct (mn_loc n) as [l|]; [|destruct H]. destruct (String.eqb_spec l "UTC"); [destruct H|]. destruct H as [H|[]]. injection H as <- <-. eauto 8.
    - destruct (mn_parse n); [|destruct H]. destruct H as [H|[]]. injection H as <- <-. eauto 8.
    - destruct (Z.ltb_spec 0 (mn_read n)); [|destruct H]. destruct H as [H|[]]. injection H as <- <-. eauto 8.
    - destruct (Z.ltb_spec 0 (mn_timeout n)); [|destruct H]. destruct H as [H|[]]. injection H as <- <-. eauto 8.
    - destruct (Z.ltb_spec 0 (mn_write n)); [|destruct H]. destruct H as [H|[]]. injection H as <- <-. eauto 9.
  Qed.
  Lemma fixed_last n k : last_value (fixed_items n) k =
    if (k =? "loc")%string then match mn_loc n with Some l => if (l =? "UTC")%string then None else Some (query_escape l) | None => None end
    else if (k =? "parseTime")%string then (if mn_parse n then Some "true" else None)
    else if (k =? "readTimeout")%string then (if 0 <? mn_read n then Some (show_duration (mn_read n)) else None)
    else if (k =? "timeout")%string then (if 0 <? mn_timeout n then Some (show_duration (mn_timeout n)) else None)
    else if (k =? "writeTimeout")%string then (if 0 <? mn_write n then Some (show_duration (mn_write n)) else None)
    else None.
  Proof.
    unfold fixed_items. rewrite !last_value_app.
    assert (L1 : forall x y, last_value [(x, y)] k = if (k =? x)%string then Some y else None) by reflexivity.
    assert (L0 : last_value [] k = None) by reflexivity.
    destruct (String.eqb_spec k "loc") as [->|]; [|destruct (String.eqb_spec k "parseTime") as [->|]; [|destruct (String.eqb_spec k "readTimeout") as [->|];
      [|destruct (String.eqb_spec k "timeout") as [->|]; [|destruct (String.eqb_spec k "writeTimeout") as [->|]]]]];
      destruct (0 <? mn_read n), (0 <? mn_timeout n), (0 <? mn_write n), (mn_parse n), (mn_loc n) as [l|]; try destruct (l =? "UTC")%string;
      rewrite ?L1, ?L0; try reflexivity;
      repeat match goal with |- context [(k =? ?s)%string] => destruct (String.eqb_spec k s); [congruence|] end; reflexivity.
  Qed.

  Lemma items_last n ps m k : lists ps m ->
    last_value (dsn_items n ps) k = match m k with Some v => Some (query_escape v) | None => last_value (fixed_items n) k end.
  Proof.
    intros L. unfold dsn_items. rewrite last_value_app, last_value_map, (last_value_lists _ _ _ L). destruct (m k); reflexivity.
  Qed.

  Lemma switch_value v b : read_bool (query_escape v) = Some b ->
    In (v, Some b) [("1", Some true); ("true", Some true); ("TRUE", Some true); ("True", Some true);
                    ("0", Some false); ("false", Some false); ("FALSE", Some false); ("False", Some false)].
  Proof.
    intros H. pose proof (unescape_escape v) as U. unfold read_bool in H.
    assert (X : forall l, existsb (String.eqb (query_escape v)) l = true -> exists s, In s l /\ query_unescape s = Some v).
    { intros l E. apply existsb_exists in E. destruct E as (s & I & E). apply String.eqb_eq in E. exists s. split; [exact I|]. now rewrite <- E. }
    destruct (existsb _ ["1"; "true"; "TRUE"; "True"]) eqn:E1.
    - injection H as <-. destruct (X _ E1) as (s & I & Q). cbn in I.
      destruct I as [<-|[<-|[<-|[<-|[]]]]]; vm_compute in Q; injection Q as <-; cbn; tauto.
    - destruct (existsb _ ["0"; "false"; "FALSE"; "False"]) eqn:E2; [|discriminate]. injection H as <-.
      destruct (X _ E2) as (s & I & Q). cbn in I.
      destruct I as [<-|[<-|[<-|[<-|[]]]]]; vm_compute in Q; injection Q as <-; cbn; tauto.
  Qed.

  Lemma duration_item d : version lim -> int64 d -> 0 < d -> parse_duration lim (show_duration d) = Some d.
  Proof. intros V R P. apply duration_round_trip; [exact V|exact R|]. right. lia. Qed.

  Lemma read_format conf n ps : mysql_prepare zone conf None = Some n -> lists ps (mn_params n) -> plain_target conf ->
    (forall k v, mn_params n k = Some v -> ~ mentions "/" k) ->
    parse_dsn (format_dsn n ps) =
    match run new_config (dsn_items n ps) with
    | DOk c => normalize (set_target c (fst (login (my_user conf) (my_pass conf))) (snd (login (my_user conf) (my_pass conf))) "tcp" (address conf) (my_db conf))
    | e => e
    end.
  Proof.
    intros P L (T1 & T2 & T3) K. destruct (prepare_fields _ _ P) as (F1 & F2 & F3 & F4 & F5 & F6 & F7 & F8 & F9 & F10 & F11 & F12).
    rewrite parse_format.
    - now rewrite F1, F2, F4, F5.
    - exact F3.
    - rewrite F4. unfold address. destruct (my_host conf); discriminate.
    - rewrite F4. unfold address. rewrite !mentions_app. intros [M|[[M|[]]|M]]; [exact (T1 M)|discriminate M|]. revert M. apply itoa_no. cbn. tauto.
    - now rewrite F5.
    - now rewrite F5.
    - intros k v I. apply (proj2 L) in I. split; [exact (K k v I)|]. rewrite F11 in I. exact (params_keys _ _ _ I).
  Qed.

  Lemma delivers_with conf n ps c : version lim -> mysql_prepare zone conf None = Some n -> lists ps (mn_params n) -> durations_ok conf ->
    plain_target conf -> plain_user conf -> good_host (my_host conf) -> (forall k v, mn_params n k = Some v -> ~ mentions "/" k) ->
    parse_dsn (format_dsn n ps) = DOk c ->
    delivered_with (parse_duration lim) conf (mn_params n) c /\
    (mn_params n "tls" = None -> g_tls c = "") /\ (mn_params n "serverPubKey" = None -> g_pubkey c = "") /\
    (mn_params n "maxAllowedPacket" = None -> g_packet c = 4194304) /\ (forall k, ~ In k switches -> g_flags c k = None).
  Proof.
    intros V P L (D1 & D2 & D3) T (U1 & U2) G K E. rewrite (read_format _ _ _ P L T K) in E. rewrite login_plain in E by assumption. cbn [fst snd] in E.
    destruct (run new_config (dsn_items n ps)) as [c1| |] eqn:R; try discriminate.
    destruct (prepare_fields _ _ P) as (F1 & F2 & F3 & F4 & F5 & F6 & F7 & F8 & F9 & F10 & F11 & F12).
    apply normalize_fields in E. cbn [set_target g_user g_passwd g_net g_addr g_db g_params g_collation g_loc g_packet g_pubkey g_tls g_timeout g_read g_write g_flags] in E.
    destruct E as (E1 & E2 & E3 & E4 & E5 & E6 & E7 & E8 & E9 & E10 & E11 & E12 & E13 & E14).
    destruct (E14 eq_refl) as (E15 & E16).
    assert (LV : forall k, last_value (dsn_items n ps) k = match mn_params n k with Some v => Some (query_escape v) | None => last_value (fixed_items n) k end)
      by (intros k; exact (items_last n ps _ k L)).
    split; [constructor|].
    - exact E1.
    - exact E2.
    - exact E15.
    - rewrite E16 by (unfold address; destruct (my_host conf); discriminate). unfold ensure_have_port, address. now rewrite port_ok.
    - exact E3.
    - rewrite E10. pose proof (run_timeout _ _ _ R) as H. rewrite LV in H. destruct (mn_params n "timeout"); [exact H|].
      rewrite fixed_last in H. cbn [String.eqb Ascii.eqb Bool.eqb] in H. rewrite F6 in H. destruct (Z.ltb_spec 0 (my_timeout conf)) as [S|S].
      + rewrite duration_item in H by assumption. injection H as <-. lia.
      + rewrite H. cbn [new_config g_timeout]. lia.
    - rewrite E11. pose proof (run_read _ _ _ R) as H. rewrite LV in H. destruct (mn_params n "readTimeout"); [exact H|].
      rewrite fixed_last in H. cbn [String.eqb Ascii.eqb Bool.eqb] in H. rewrite F7 in H. destruct (Z.ltb_spec 0 (my_read conf)) as [S|S].
      + rewrite duration_item in H by assumption. injection H as <-. lia.
      + rewrite H. cbn [new_config g_read]. lia.
    - rewrite E12. pose proof (run_write _ _ _ R) as H. rewrite LV in H. destruct (mn_params n "writeTimeout"); [exact H|].
      rewrite fixed_last in H. cbn [String.eqb Ascii.eqb Bool.eqb] in H. rewrite F8 in H. destruct (Z.ltb_spec 0 (my_write conf)) as [S|S].
      + rewrite duration_item in H by assumption. injection H as <-. lia.
      + rewrite H. cbn [new_config g_write]. lia.
    - rewrite E6. pose proof (run_loc _ _ _ R) as H. rewrite LV in H. destruct (mn_params n "loc") as [l|].
      + destruct H as (l' & Q & ->). rewrite unescape_escape in Q. now injection Q as <-.
      + rewrite fixed_last in H. cbn [String.eqb Ascii.eqb Bool.eqb] in H. rewrite F10 in H. unfold the_zone.
        destruct (my_loc conf =? "")%string eqn:El; [rewrite H; reflexivity|]. destruct (String.eqb_spec (my_loc conf) "UTC") as [->|].
        * rewrite H. reflexivity.
        * destruct H as (l' & Q & ->). rewrite unescape_escape in Q. injection Q as <-. unfold the_zone. now rewrite El.
    - intros k I. rewrite E13. pose proof (run_flag k _ _ _ I R) as H. rewrite LV in H. destruct (mn_params n k) as [v|].
      + destruct H as (b & Q & ->). now apply switch_value.
      + rewrite fixed_last in H. rewrite F9 in H.
        cbn in I. repeat (destruct I as [<-|I]; [cbn in H; try exact H; try (destruct (my_parse conf) eqn:Ep; [destruct H as (b & Q & ->); injection Q as <-|rewrite H]; unfold own_switch; rewrite Ep; reflexivity)|]).
        destruct I.
    - intros k. rewrite E4. pose proof (run_param k _ _ _ R) as H. rewrite LV in H.
      destruct (existsb (String.eqb k) settings) eqn:S; [exact H|]. destruct (mn_params n k) as [v|].
      + destruct H as (-> & _). apply unescape_escape.
      + rewrite fixed_last in H.
        assert (N : forall s, existsb (String.eqb s) settings = true -> (k =? s)%string = false).
        { intros s Es. destruct (String.eqb_spec k s); [congruence|reflexivity]. }
        rewrite !N in H by reflexivity. exact H.
    - rewrite E5. rewrite (run_collation _ _ _ R), LV, fixed_last. cbn. destruct (mn_params n "collation"); reflexivity.
    - split.
      + pose proof (run_never "compress" _ _ _ (or_introl eq_refl) R) as H. rewrite LV in H. destruct (mn_params n "compress"); [discriminate|reflexivity].
      + pose proof (run_never "strict" _ _ _ (or_intror eq_refl) R) as H. rewrite LV in H. destruct (mn_params n "strict"); [discriminate|reflexivity].
    - assert (LN : forall k, (k = "tls" \/ k = "serverPubKey" \/ k = "maxAllowedPacket") -> mn_params n k = None -> last_value (dsn_items n ps) k = None).
      { intros k Hk Hn. rewrite LV, Hn, fixed_last. destruct Hk as [->|[->| ->]]; reflexivity. }
      split; [|split; [|split]].
      + intros N. rewrite E9, (run_tls _ _ _ R); [reflexivity|apply LN; auto].
      + intros N. rewrite E8, (run_pubkey _ _ _ R); [reflexivity|apply LN; auto].
      + intros N. rewrite E7, (run_packet _ _ _ R); [reflexivity|apply LN; auto].
      + intros k N. rewrite E13, (run_flag_none k _ _ _ N R). cbn [new_config g_flags]. unfold mset.
        destruct (String.eqb_spec k "checkConnLiveness") as [->|]; [destruct N; cbn; tauto|].
        destruct (String.eqb_spec k "allowNativePasswords") as [->|]; [destruct N; cbn; tauto|]. reflexivity.
  Qed.

  Lemma delivers conf n ps : version lim -> mysql_prepare zone conf None = Some n -> lists ps (mn_params n) -> durations_ok conf ->
    plain_target conf -> plain_user conf -> good_host (my_host conf) ->
    (forall k v, mn_params n k = Some v -> ~ mentions "/" k /\ ~ In k settings) ->
    exists c, parse_dsn (format_dsn n ps) = DOk c /\ delivered conf (mn_params n) c.
  Proof.
    intros V P L D T U G K.
    assert (K1 : forall k v, mn_params n k = Some v -> ~ mentions "/" k) by (intros k v H; apply (K k v H)).
    assert (K2 : forall k, In k settings -> mn_params n k = None).
    { intros k I. destruct (mn_params n k) as [v|] eqn:E; [|reflexivity]. destruct (K k v E). contradiction. }
    destruct (prepare_fields _ _ P) as (F1 & F2 & F3 & F4 & F5 & F6 & F7 & F8 & F9 & F10 & F11 & F12).
    destruct (run_ok (dsn_items n ps)) with (c := new_config) as (c1 & R).
    { intros k v I c. apply in_app_or in I. destruct I as [I|I].
      - destruct D as (D1 & D2 & D3).
        destruct (fixed_values _ _ _ I) as [(-> & l & El & Nl & ->)|[(-> & _ & ->)|[(-> & S & ->)|[(-> & S & ->)|(-> & S & ->)]]]];
          unfold MysqlDsnModel.parse_param; cbn; unfold when.
        + rewrite unescape_escape. rewrite F10 in El. destruct (String.eqb_spec (my_loc conf) ""); [discriminate|]. injection El as <-.
          destruct F12 as [X|X]; [contradiction|]. rewrite X, orb_true_r. eauto.
        + eauto.
        + rewrite duration_item by (try rewrite F7; try assumption; rewrite <- F7; assumption). eauto.
        + rewrite duration_item by (try rewrite F6; try assumption; rewrite <- F6; assumption). eauto.
        + rewrite duration_item by (try rewrite F8; try assumption; rewrite <- F8; assumption). eauto.
      - apply in_map_iff in I. destruct I as ([k' v'] & Q & I). cbn [fst snd] in Q. injection Q as <- <-.
        apply (proj2 L) in I. rewrite parse_other.
        + rewrite unescape_escape. cbn [when]. eauto.
        + destruct (existsb (String.eqb k') settings) eqn:S; [|reflexivity]. apply existsb_in in S. destruct (K _ _ I). contradiction. }
    pose proof (read_format _ _ _ P L T K1) as E. rewrite R in E. destruct U as (U1 & U2). rewrite login_plain in E by assumption. cbn [fst snd] in E.
    assert (LN : forall k, (k = "tls" \/ k = "serverPubKey") -> last_value (dsn_items n ps) k = None).
    { intros k Hk. rewrite (items_last n ps _ k L), K2, fixed_last by (destruct Hk as [->| ->]; cbn; tauto). destruct Hk as [->| ->]; reflexivity. }
    unfold MysqlDsnModel.normalize in E. cbn [set_target g_user g_passwd g_net g_addr g_db g_params g_collation g_loc g_packet g_pubkey g_tls g_timeout g_read g_write g_flags] in E.
    assert (An : (address conf =? "")%string = false) by (unfold address; destruct (my_host conf); reflexivity). rewrite An in E. cbn [when] in E.
    rewrite (run_tls _ _ _ R) in E by (apply LN; auto). rewrite (run_pubkey _ _ _ R) in E by (apply LN; auto).
    cbn [new_config g_tls g_pubkey existsb orb] in E. cbn in E.
    match type of E with _ = DOk ?x => generalize dependent x end. intros c E. exists c. split; [exact E|].
    apply (delivers_with conf n ps _ V P L D T (conj U1 U2) G K1) in E. revert E. intros (W & W1 & W2 & W3 & W4).
    destruct W as [w1 w2 w3 w4 w5 w6 w7 w8 w9 w10 w11 w12 w13]. rewrite K2 in w6, w7, w8, w9, w12 by (cbn; tauto).
    constructor; try assumption.
    - intros k. destruct (in_dec String.string_dec k switches) as [I|I].
      + pose proof (w10 k I) as H. rewrite K2 in H; [exact H|]. revert I. unfold switches. intros I. rewrite <- (firstn_skipn 11 settings). apply in_or_app. now left.
      + rewrite (W4 k I). unfold own_switch. destruct (String.eqb_spec k "parseTime") as [->|]; [destruct I; cbn; tauto|].
        destruct (String.eqb_spec k "allowNativePasswords") as [->|]; [destruct I; cbn; tauto|].
        destruct (String.eqb_spec k "checkConnLiveness") as [->|]; [destruct I; cbn; tauto|]. reflexivity.
    - intros k. rewrite w11. destruct (existsb (String.eqb k) settings) eqn:S; [|reflexivity]. apply existsb_in in S. symmetry. now apply K2.
    - split; [exact w12|]. split; [apply W3|split; [apply W2|apply W1]]; apply K2; cbn; tauto.
  Qed.

  (** * What no text can say *)

  Lemma cut_first_before c s : ~ mentions c (fst (cut_first c s)).
  Proof.
    unfold mentions. induction s as [|x s IH]; cbn [cut_first]; [intros []|]. destruct (Ascii.eqb_spec x c) as [E|N]; [intros []|].
    destruct (cut_first c s) as [a b]. cbn [fst] in *. intros [H|H]; [exact (N H)|exact (IH H)].
  Qed.
  Lemma cut_first_part c d s : ~ mentions d s -> ~ mentions d (fst (cut_first c s)).
  Proof.
    unfold mentions. induction s as [|x s IH]; cbn [cut_first]; intros H; [intros []|]. destruct (Ascii.eqb_spec x c) as [E|N]; [intros []|].
    destruct (cut_first c s) as [a b]. cbn [fst has_char] in *. intros [H1|H1]; [tauto|]. apply IH; tauto.
  Qed.
  Lemma cut_last_after c s a b : cut_last c s = Some (a, b) -> ~ mentions c b.
  Proof.
    unfold mentions. revert a b. induction s as [|x s IH]; intros a b; cbn [cut_last]; [discriminate|].
    destruct (cut_last c s) as [[a' b']|] eqn:E.
    - intros H. injection H as <- <-. exact (IH _ _ eq_refl).
    - destruct (Ascii.eqb x c); [|discriminate]. intros H. injection H as <- <-.
      clear IH. induction s as [|y s IHs]; [intros []|]. cbn [cut_last] in E. destruct (cut_last c s) as [[? ?]|]; [discriminate|].
      destruct (Ascii.eqb_spec y c) as [Ey|Ny]; [discriminate|]. intros [H|H]; [exact (Ny H)|exact (IHs eq_refl H)].
  Qed.

  Lemma limits text c : parse_dsn text = DOk c -> ~ mentions ":" (g_user c) /\ ~ mentions "/" (g_db c) /\ ~ mentions "?" (g_db c).
  Proof.
    unfold MysqlDsnModel.parse_dsn. destruct (cut_last "/" text) as [[l r]|] eqn:C.
    - apply cut_last_after in C.
      set (lg := match cut_last "@" l with Some (up, rest) => _ | None => _ end).
      assert (U : ~ mentions ":" (fst (fst lg))).
      { subst lg. destruct (cut_last "@" l) as [[up rest]|]; [|intros []]. pose proof (cut_first_before ":" up) as H.
        destruct (cut_first ":" up) as [u [p|]]; exact H. }
      destruct lg as [[u p] rest]. cbn [fst] in U. unfold when. set (tg := match cut_first "(" rest with (net, Some a) => _ | (net, None) => _ end).
      destruct tg as [[net addr]|]; [|discriminate].
      pose proof (cut_first_before "?" r) as H1. pose proof (cut_first_part "?" "/" r C) as H2.
      destruct (cut_first "?" r) as [db ps]. cbn [fst] in *.
      destruct (match ps with Some _ => _ | None => _ end) as [c1| |]; try discriminate. intros N. apply normalize_fields in N.
      destruct N as (N1 & _ & N3 & _). cbn in N1, N3. rewrite N1, N3. repeat split; assumption.
    - destruct (text =? "")%string; [|discriminate]. intros N. apply normalize_fields in N. destruct N as (N1 & _ & N3 & _). rewrite N1, N3.
      repeat split; intros [].
  Qed.

  Lemma login_read conf n ps c : mysql_prepare zone conf None = Some n -> lists ps (mn_params n) -> plain_target conf ->
    (forall k v, mn_params n k = Some v -> ~ mentions "/" k) -> parse_dsn (format_dsn n ps) = DOk c ->
    g_user c = fst (login (my_user conf) (my_pass conf)) /\ g_passwd c = snd (login (my_user conf) (my_pass conf)) /\
    g_addr c = ensure_have_port (address conf) /\ g_db c = my_db conf.
  Proof.
    intros P L T K E. rewrite (read_format _ _ _ P L T K) in E. destruct (run new_config (dsn_items n ps)) as [c1| |]; try discriminate.
    apply normalize_fields in E. cbn [set_target g_user g_passwd g_net g_addr g_db] in E.
    destruct E as (E1 & E2 & E3 & E4 & E5 & E6 & E7 & E8 & E9 & E10 & E11 & E12 & E13 & E14). destruct (E14 eq_refl) as (_ & E15).
    split; [exact E1|]. split; [exact E2|]. split; [apply E15; unfold address; destruct (my_host conf); discriminate|exact E3].
  Qed.

  (** * A list of the parameters exists *)

  Lemma lists_mset ps m k v : lists ps m -> exists ps', lists ps' (mset m k v).
  Proof.
    intros (N & H). exists ((k, v) :: filter (fun kv => negb (fst kv =? k)%string) ps). split.
    - cbn [map fst]. constructor.
      + intros I. apply in_map_iff in I. destruct I as (kv & E & I). apply filter_In in I. destruct I as (_ & I). rewrite E, String.eqb_refl in I. discriminate.
      + clear H. induction ps as [|kv ps IH]; cbn [filter map]; [constructor|]. inversion N as [|? ? N1 N2]; subst.
        destruct (negb _); [|exact (IH N2)]. cbn [map]. constructor; [|exact (IH N2)].
        intros I. apply N1. apply in_map_iff in I. destruct I as (kv' & E & I). apply filter_In in I. apply in_map_iff. exists kv'. tauto.
    - intros k' v'. cbn [In]. rewrite filter_In. cbn [fst]. unfold mset. destruct (String.eqb_spec k' k) as [->|X].
      + split; [intros [E|[_ E]]; [congruence|discriminate]|intros E; left; congruence].
      + rewrite <- (H k' v'). split; [intros [E|[I _]]; [congruence|exact I]|intros I; right; split; [exact I|reflexivity]].
  Qed.
  Lemma listable params : exists ps, lists ps (add_params mempty params).
  Proof.
    assert (B : exists ps, lists ps (@mempty string)) by (exists []; split; [constructor|]; intros k v; split; [intros []|discriminate]).
    unfold add_params. destruct (params =? "")%string; [exact B|]. revert B. generalize (@mempty string).
    induction (split "&" params) as [|s items IH]; intros m B; [exact B|]. cbn [params_loop fold_left]. apply IH.
    destruct (split "=" s) as [|a [|e [|x y]]]; try exact B. destruct (query_unescape e) as [v|]; [|exact B].
    destruct B as (ps & B). exact (lists_mset _ _ a v B).
  Qed.
End parse.

(** * Escaping *)

Lemma escape_app a b : query_escape (a +++ b) = query_escape a +++ query_escape b.
Proof.
  induction a as [|x a IH]; [reflexivity|]. cbn [String.append query_escape]. rewrite IH.
  destruct (unreserved x); [reflexivity|]. destruct (Ascii.eqb x " "); reflexivity.
Qed.

Definition has_b (c : ascii) (s : string) : bool := existsb (Ascii.eqb c) (String.list_ascii_of_string s).
Lemma has_b_spec c s : has_b c s = true <-> mentions c s.
Proof.
  unfold has_b, mentions. induction s as [|x s IH]; cbn; [split; [discriminate|intros []]|].
  rewrite orb_true_iff, IH, Ascii.eqb_eq. split; (intros [H|H]; [left; congruence|right; exact H]).
Qed.

Definition escape_check (c : ascii) : bool :=
  let e := query_escape (String.String c "") in
  if has_b c alphabet then (e =? String.String c "")%string
  else if Ascii.eqb c " " then true
  else match e with
       | String.String p (String.String x (String.String y "")) =>
         Ascii.eqb p "%" && has_b x "0123456789ABCDEF" && has_b y "0123456789ABCDEF" &&
         match hex_value x, hex_value y with Some a, Some b => byte c =? a * 16 + b | _, _ => false end
       | _ => false
       end.
Lemma escape_checked c : escape_check c = true.
Proof. destruct c as [[] [] [] [] [] [] [] []]; vm_compute; reflexivity. Qed.

Lemma escaping :
  (forall a b, query_escape (a ++ b) = (query_escape a ++ query_escape b)%string) /\
  (forall c, mentions c alphabet -> query_escape (String.String c "") = String.String c "") /\
  query_escape " " = "+" /\
  (forall c, ~ mentions c alphabet -> c <> " "%char -> exists x y, hex_digits x y (byte c) /\ mentions x "0123456789ABCDEF" /\
     mentions y "0123456789ABCDEF" /\ query_escape (String.String c "") = String.String "%" (String.String x (String.String y ""))).
Proof.
  split; [exact escape_app|]. split; [|split; [reflexivity|]].
  - intros c M. pose proof (escape_checked c) as H. unfold escape_check in H. rewrite (proj2 (has_b_spec c _) M) in H. now apply String.eqb_eq.
  - intros c M N. pose proof (escape_checked c) as H. unfold escape_check in H.
    destruct (has_b c alphabet) eqn:E; [destruct (M (proj1 (has_b_spec c _) E))|]. clear E.
    destruct (Ascii.eqb_spec c " "); [contradiction|].
    destruct (query_escape (String.String c "")) as [|p [|x [|y [|z r]]]]; try discriminate.
    rewrite !andb_true_iff in H. destruct H as (((H1 & H2) & H3) & H4). apply Ascii.eqb_eq in H1. subst p. exists x, y.
    split; [|split; [now apply has_b_spec|split; [now apply has_b_spec|reflexivity]]].
    unfold hex_digits. destruct (hex_value x) as [a|]; [|discriminate]. destruct (hex_value y) as [b|]; [|discriminate].
    exists a, b. repeat split. now apply Z.eqb_eq.
Qed.
