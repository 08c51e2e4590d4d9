(** Lemmas about the connection configs. *)
From Coq Require Import DecimalString DecimalZ Decimal.
From Verif Require Import Common Bytes ProcsModel ProcsProofs ConfNamesSpec ConfNamesProofs ConfsModel ConfsSpec.
Local Open Scope string_scope.
Local Open Scope list_scope.
Local Open Scope Z_scope.
Notation "a +++ b" := (String.append a b) (at level 60, right associativity).

(** * Numbers *)

Lemma to_int_proper z : Z.to_int z <> Pos Nil /\ Z.to_int z <> Neg Nil.
Proof.
  split; intros H; pose proof (DecimalZ.to_of (Z.to_int z)) as E;
    rewrite DecimalZ.of_to, H in E; discriminate.
Qed.

Lemma itoa_inj a b : itoa a = itoa b -> a = b.
Proof.
  unfold itoa. intros H. apply DecimalZ.to_int_inj.
  pose proof (NilZero.isi _ (proj1 (to_int_proper a)) (proj2 (to_int_proper a))) as Ha.
  pose proof (NilZero.isi _ (proj1 (to_int_proper b)) (proj2 (to_int_proper b))) as Hb.
  rewrite H in Ha. congruence.
Qed.

Definition digit_or_minus (c : ascii) : Prop := unreserved c = true /\ c <> "~"%char /\ c <> "_"%char /\ c <> "."%char.

Lemma uint_chars d c : mentions c (NilEmpty.string_of_uint d) -> digit_or_minus c.
Proof.
  unfold mentions. induction d as [|d IH|d IH|d IH|d IH|d IH|d IH|d IH|d IH|d IH|d IH]; cbn [NilEmpty.string_of_uint has_char];
    [intros []|..]; (intros [<-|H]; [repeat split; discriminate|exact (IH H)]).
Qed.

Lemma itoa_chars z c : mentions c (itoa z) -> digit_or_minus c.
Proof.
  unfold itoa, NilZero.string_of_int. destruct (Z.to_int z) as [d|d]; unfold NilZero.string_of_uint.
  - destruct d; try apply uint_chars. cbn. intros [<-|[]]. repeat split; discriminate.
  - unfold mentions. intros H. cbn [has_char] in H. destruct H as [<-|H]; [repeat split; discriminate|].
    destruct d; try exact (uint_chars _ _ H). cbn in H. destruct H as [<-|[]]. repeat split; discriminate.
Qed.

(** * Bytes *)

Lemma char_of_byte c : char_of (byte c) = c.
Proof. unfold char_of, byte. rewrite N2Z.id. apply ascii_N_embedding. Qed.

Lemma byte_char_of z : 0 <= z < 256 -> byte (char_of z) = z.
Proof. intros H. unfold char_of, byte. rewrite N_ascii_embedding by lia. lia. Qed.

Lemma byte_inj a b : byte a = byte b -> a = b.
Proof. intros H. rewrite <- (char_of_byte a), <- (char_of_byte b), H. reflexivity. Qed.

Lemma hex_value_range c x : hex_value c = Some x -> 0 <= x < 16.
Proof.
  unfold hex_value. intros H.
  destruct (Z.leb_spec 48 (byte c)), (Z.leb_spec (byte c) 57), (Z.leb_spec 97 (byte c)), (Z.leb_spec (byte c) 102),
    (Z.leb_spec 65 (byte c)), (Z.leb_spec (byte c) 70); cbn [andb] in H; try discriminate; injection H as <-; lia.
Qed.

Lemma hex_value_upper z : 0 <= z < 16 -> hex_value (upper_hex z) = Some z.
Proof.
  intros H. unfold upper_hex, hex_value. destruct (Z.ltb_spec z 10).
  - rewrite byte_char_of by lia. destruct (Z.leb_spec 48 (48 + z)), (Z.leb_spec (48 + z) 57); try lia.
    cbn [andb]. f_equal. lia.
  - rewrite byte_char_of by lia.
    destruct (Z.leb_spec 48 (65 + z - 10)), (Z.leb_spec (65 + z - 10) 57), (Z.leb_spec 97 (65 + z - 10)),
      (Z.leb_spec (65 + z - 10) 102), (Z.leb_spec 65 (65 + z - 10)), (Z.leb_spec (65 + z - 10) 70); try lia; cbn [andb]; f_equal; lia.
Qed.

Lemma upper_hex_plain z : 0 <= z < 16 -> unreserved (upper_hex z) = true.
Proof.
  intros H. assert (Hz : In z [0;1;2;3;4;5;6;7;8;9;10;11;12;13;14;15]) by (cbn [In]; lia).
  cbn [In] in Hz. repeat (destruct Hz as [<-|Hz]; [reflexivity|]). destruct Hz.
Qed.

(** * Splitting *)

Lemma split_cuts c s : cuts c s (split c s).
Proof.
  induction s as [|x s IH]; cbn [split].
  - split; [discriminate|]. split; [reflexivity|]. intros p [<-|[]] [].
  - destruct IH as (H1 & H2 & H3). destruct (Ascii.eqb x c) eqn:Hx.
    + apply Ascii.eqb_eq in Hx. subst x. split; [discriminate|]. destruct (split c s) as [|p ps] eqn:Hs; [congruence|].
      split; [rewrite concat_cons2, H2 at 1; reflexivity|]. intros q [<-|Hq]; [intros []|exact (H3 q Hq)].
    + apply Ascii.eqb_neq in Hx. destruct (split c s) as [|p ps] eqn:Hs; [congruence|].
      split; [discriminate|]. split.
      * destruct ps as [|p2 ps]; [cbn in *; congruence|].
        rewrite concat_cons2 in *. cbn [String.append] in *. f_equal. exact H2.
      * intros q [<-|Hq]; [|exact (H3 q (or_intror Hq))]. intros [Hm|Hm]; [congruence|exact (H3 p (or_introl eq_refl) Hm)].
Qed.

Lemma cuts_unique c s a b : cuts c s a -> cuts c s b -> a = b.
Proof.
  intros (A1 & A2 & A3) (B1 & B2 & B3). apply (concat_inj c); try assumption. congruence.
Qed.

Lemma cuts_split c s a : cuts c s a <-> split c s = a.
Proof. split; [intros H; exact (cuts_unique _ _ _ _ (split_cuts c s) H)|intros <-; apply split_cuts]. Qed.

(** * Url-encoding *)

Lemma query_unescape_spec_len n : forall s r, (String.length s <= n)%nat -> query_unescape s = Some r <-> unescapes s r.
Proof.
  induction n as [|n IH]; intros s r Hn.
  - destruct s; [|cbn in Hn; lia]. cbn. split; [intros [= <-]; constructor|intros H; inversion H; reflexivity].
  - destruct s as [|c s]; [cbn; split; [intros [= <-]; constructor|intros H; inversion H; reflexivity]|].
    cbn [query_unescape]. cbn [String.length] in Hn.
    destruct (Ascii.eqb c "%") eqn:Hp.
    + apply Ascii.eqb_eq in Hp. subst c. destruct s as [|a [|b s]].
      * split; [discriminate|]. intros H. inversion H; congruence.
      * split; [discriminate|]. intros H. inversion H; congruence.
      * cbn [String.length] in Hn. split.
        -- intros H. destruct (hex_value a) as [x|] eqn:Ha; [|discriminate]. destruct (hex_value b) as [y|] eqn:Hb; [|discriminate].
           destruct (query_unescape s) as [r'|] eqn:Hs; [|discriminate]. injection H as <-.
           pose proof (hex_value_range _ _ Ha). pose proof (hex_value_range _ _ Hb). constructor.
           ++ exists x, y. rewrite byte_char_of by lia. auto.
           ++ apply IH; [lia|exact Hs].
        -- intros H. inversion H as [| |a' b' c' s' r' Hh Hu|]; subst; try congruence.
           destruct Hh as (x & y & -> & -> & Hb). apply IH in Hu; [|lia]. rewrite Hu, <- Hb, char_of_byte. reflexivity.
    + apply Ascii.eqb_neq in Hp. split.
      * intros H. destruct (query_unescape s) as [r'|] eqn:Hs; [|discriminate]. injection H as <-.
        apply IH in Hs; [|lia]. destruct (Ascii.eqb c "+") eqn:Hc.
        -- apply Ascii.eqb_eq in Hc. subst c. constructor. exact Hs.
        -- apply Ascii.eqb_neq in Hc. constructor; assumption.
      * intros H. inversion H as [|s' r' Hu| |c' s' r' H1 H2 Hu]; subst; try congruence.
        -- apply IH in Hu; [|lia]. rewrite Hu. reflexivity.
        -- apply IH in Hu; [|lia]. rewrite Hu. apply Ascii.eqb_neq in H1. rewrite H1. reflexivity.
Qed.

Lemma query_unescape_spec s r : query_unescape s = Some r <-> unescapes s r.
Proof. apply (query_unescape_spec_len (String.length s)). lia. Qed.

Lemma unreserved_not c x : unreserved c = true -> unreserved x = false -> c <> x.
Proof. congruence. Qed.

Lemma unescape_escape s : query_unescape (query_escape s) = Some s.
Proof.
  apply query_unescape_spec. induction s as [|c s IH]; cbn [query_escape]; [constructor|].
  destruct (unreserved c) eqn:Hu.
  - constructor; [intros ->; discriminate|intros ->; discriminate|exact IH].
  - destruct (Ascii.eqb c " ") eqn:Hc.
    + apply Ascii.eqb_eq in Hc. subst c. constructor. exact IH.
    + pose proof (byte_range c). constructor; [|exact IH]. exists (byte c / 16), (byte c mod 16).
      split; [apply hex_value_upper; split; [apply Z.div_pos; lia|apply Z.div_lt_upper_bound; lia]|].
      split; [apply hex_value_upper; apply Z.mod_pos_bound; lia|].
      rewrite (Z.div_mod (byte c) 16) at 1 by lia. lia.
Qed.

(** The characters of url-encoded text. *)
Lemma escape_chars s c : mentions c (query_escape s) -> unreserved c = true \/ c = "+"%char \/ c = "%"%char.
Proof.
  unfold mentions. induction s as [|x s IH]; cbn [query_escape]; [intros []|].
  destruct (unreserved x) eqn:Hu.
  - intros [<-|H]; [left; exact Hu|exact (IH H)].
  - destruct (Ascii.eqb x " ").
    + intros [<-|H]; [right; left; reflexivity|exact (IH H)].
    + pose proof (byte_range x). intros [<-|[<-|[<-|H']]].
      * right. right. reflexivity.
      * left. apply upper_hex_plain. split; [apply Z.div_pos; lia|apply Z.div_lt_upper_bound; lia].
      * left. apply upper_hex_plain. apply Z.mod_pos_bound. lia.
      * exact (IH H').
Qed.

Lemma escape_free s c : unreserved c = false -> c <> "+"%char -> c <> "%"%char -> ~ mentions c (query_escape s).
Proof. intros H1 H2 H3 H. destruct (escape_chars _ _ H) as [H'|[H'|H']]; congruence. Qed.

Lemma plain_chars s c : plain s -> mentions c s -> unreserved c = true.
Proof.
  unfold mentions. induction s as [|x s IH]; cbn [plain has_char]; [intros _ []|].
  intros [H1 H2] [<-|H]; [exact H1|exact (IH H2 H)].
Qed.

Lemma plain_free s c : plain s -> unreserved c = false -> ~ mentions c s.
Proof. intros H1 H2 H. rewrite (plain_chars _ _ H1 H) in H2. discriminate. Qed.

(** * Params *)

Definition item_value (item : string) : option (string * string) :=
  match split "=" item with
  | [k; e] => match query_unescape e with Some v => Some (k, v) | None => None end
  | _ => None
  end.

Lemma item_value_spec item k v : item_value item = Some (k, v) <-> item_says item k v.
Proof.
  unfold item_value. split.
  - pose proof (split_cuts "=" item) as (_ & H2 & H3). destruct (split "=" item) as [|k' [|e [|? ?]]]; try discriminate.
    destruct (query_unescape e) as [v'|] eqn:Hu; [|discriminate]. intros [= -> ->]. exists e.
    split; [exact H2|]. split; [apply H3; left; reflexivity|]. split; [apply H3; right; left; reflexivity|].
    apply query_unescape_spec. exact Hu.
  - intros (e & -> & H1 & H2 & H3).
    assert (Hs : split "=" (k +++ "=" +++ e) = [k; e]).
    { apply cuts_split. split; [discriminate|]. split; [reflexivity|]. intros p [<-|[<-|[]]]; assumption. }
    rewrite Hs. apply query_unescape_spec in H3. rewrite H3. reflexivity.
Qed.

Lemma params_loop_snoc o items item : params_loop o (items ++ [item]) =
  match item_value item with Some (k, v) => mset (params_loop o items) k v | None => params_loop o items end.
Proof.
  unfold params_loop, item_value. rewrite fold_left_app. cbn [fold_left].
  destruct (split "=" item) as [|k [|e [|? ?]]]; try reflexivity. destruct (query_unescape e); reflexivity.
Qed.

Lemma params_loop_spec items : forall o k,
  (forall v, (exists before item after, items = before ++ item :: after /\ item_says item k v /\
      forall item' v', In item' after -> ~ item_says item' k v') -> params_loop o items k = Some v) /\
  ((forall item v, In item items -> ~ item_says item k v) -> params_loop o items k = o k).
Proof.
  induction items as [|it items IH] using rev_ind; intros o k.
  - split; [|reflexivity]. intros v (b & i & a & H & _). destruct b; discriminate.
  - rewrite params_loop_snoc. destruct (IH o k) as [I1 I2]. split.
    + intros v (before & item & after & Hs & Hi & Ha). destruct after as [|x after] using rev_ind.
      * apply app_inj_tail in Hs. destruct Hs as [-> ->]. apply item_value_spec in Hi. rewrite Hi. apply mset_same.
      * clear IHafter. rewrite app_comm_cons, app_assoc in Hs. apply app_inj_tail in Hs. destruct Hs as [-> ->].
        assert (Hk : params_loop o (before ++ item :: after) k = Some v).
        { apply I1. exists before, item, after. split; [reflexivity|]. split; [exact Hi|]. intros i' v' Hin.
          apply Ha. apply in_or_app. left. exact Hin. }
        destruct (item_value x) as [[k' v']|] eqn:Hx; [|exact Hk].
        destruct (String.string_dec k k') as [->|Hne]; [|rewrite mset_other by exact Hne; exact Hk].
        exfalso. apply item_value_spec in Hx. apply (Ha x v'); [apply in_or_app; right; left; reflexivity|exact Hx].
    + intros H. assert (Hk : params_loop o items k = o k).
      { apply I2. intros i v Hin. apply H. apply in_or_app. left. exact Hin. }
      destruct (item_value it) as [[k' v']|] eqn:Hx; [|exact Hk].
      destruct (String.string_dec k k') as [->|Hne]; [|rewrite mset_other by exact Hne; exact Hk].
      exfalso. apply item_value_spec in Hx. apply (H it v'); [apply in_or_app; right; left; reflexivity|exact Hx].
Qed.

Lemma last_item items k :
  (exists v before item after, items = before ++ item :: after /\ item_says item k v /\
      forall item' v', In item' after -> ~ item_says item' k v') \/
  (forall item v, In item items -> ~ item_says item k v).
Proof.
  induction items as [|it items IH].
  - right. intros i v [].
  - destruct IH as [(v & b & i & a & -> & Hi & Ha)|IH].
    + left. exists v, (it :: b), i, a. split; [reflexivity|]. split; assumption.
    + destruct (item_value it) as [[k' v']|] eqn:Hx.
      * apply item_value_spec in Hx. destruct (String.string_dec k k') as [<-|Hne].
        -- left. exists v', [], it, items. split; [reflexivity|]. split; [exact Hx|]. exact IH.
        -- right. intros i v [<-|Hin]; [|exact (IH i v Hin)]. intros Hi. apply item_value_spec in Hi, Hx. congruence.
      * right. intros i v [<-|Hin]; [|exact (IH i v Hin)]. intros Hi. apply item_value_spec in Hi. congruence.
Qed.

Lemma add_params_spec o params : overridden o params (add_params o params).
Proof.
  intros k. unfold add_params. destruct (params =? "")%string eqn:Hp.
  - apply String.eqb_eq in Hp. subst params. split; [|reflexivity].
    intros v (b & i & a & Hc & (e & Hi & _) & _). exfalso. apply cuts_split in Hc. cbn [split] in Hc.
    destruct b as [|x b]; [|destruct b; discriminate]. cbn in Hc. assert (i = "") by congruence. subst i. destruct k; discriminate.
  - destruct (params_loop_spec (split "&" params) o k) as [H1 H2]. split.
    + intros v (b & i & a & Hc & Hi & Ha). apply H1. exists b, i, a. apply cuts_split in Hc. split; [exact Hc|]. split; assumption.
    + intros H. apply H2. intros i v Hin Hi.
      destruct (last_item (split "&" params) k) as [(v' & b & i' & a & Hs & Hi' & Ha)|Hno].
      * apply (H v'). exists b, i', a. split; [apply cuts_split; exact Hs|]. split; assumption.
      * exact (Hno i v Hin Hi).
Qed.

Lemma overridden_fun o params m1 m2 : overridden o params m1 -> overridden o params m2 -> forall k, m1 k = m2 k.
Proof.
  intros H1 H2 k. destruct (H1 k) as [A1 A2], (H2 k) as [B1 B2].
  destruct (last_item (split "&" params) k) as [(v & b & i & a & Hs & Hi & Ha)|Hno].
  - assert (Hv : params_say params k v).
    { exists b, i, a. split; [apply cuts_split; exact Hs|]. split; assumption. }
    rewrite (A1 v Hv), (B1 v Hv). reflexivity.
  - assert (Hv : forall v, ~ params_say params k v).
    { intros v (b & i & a & Hc & Hi & _). apply cuts_split in Hc. apply (Hno i v); [|exact Hi].
      rewrite Hc. apply in_or_app. right. left. reflexivity. }
    rewrite (A2 Hv), (B2 Hv). reflexivity.
Qed.

Lemma params_of_says kvs :
  (forall k v, In (k, v) kvs -> ~ mentions "&" k /\ ~ mentions "=" k) ->
  forall o k, add_params o (params_of kvs) k = match last_value kvs k with Some v => Some v | None => o k end.
Proof.
  intros Hk o k. destruct kvs as [|kv0 kvs0]; [reflexivity|]. remember (kv0 :: kvs0) as kvs eqn:He.
  set (items := map (fun kv => (fst kv +++ "=" +++ query_escape (snd kv))%string) kvs).
  assert (Hval : forall k v, In (k, v) kvs -> item_says (k +++ "=" +++ query_escape v) k v).
  { intros k1 v1 Hin. exists (query_escape v1). split; [reflexivity|]. split; [exact (proj2 (Hk _ _ Hin))|].
    split; [apply escape_free; [reflexivity|discriminate..]|]. apply query_unescape_spec, unescape_escape. }
  assert (Hc : cuts "&" (params_of kvs) items).
  { split; [unfold items; rewrite He; discriminate|]. split; [reflexivity|]. intros p Hp. unfold items in Hp.
    apply in_map_iff in Hp. destruct Hp as ([k1 v1] & <- & Hin). cbn [fst snd]. intros Hm.
    apply mentions_app in Hm. destruct Hm as [Hm|[Hm|Hm]]; [exact (proj1 (Hk _ _ Hin) Hm)|discriminate|].
    revert Hm. apply escape_free; [reflexivity|discriminate..]. }
  assert (Hadd : add_params o (params_of kvs) = params_loop o items).
  { unfold add_params. apply cuts_split in Hc. rewrite Hc.
    destruct (params_of kvs =? "")%string eqn:Hp; [|reflexivity]. exfalso. apply String.eqb_eq in Hp.
    rewrite Hp in Hc. cbn [split] in Hc. unfold items in Hc. rewrite He in Hc. cbn [map] in Hc.
    assert (Hx : "" = fst kv0 +++ "=" +++ query_escape (snd kv0)) by congruence. destruct (fst kv0); discriminate. }
  rewrite Hadd. clear Hc Hadd He. unfold items. clear items. revert o. clear Hk.
  induction kvs as [|[k1 v1] kvs IH] using rev_ind; intros o; [reflexivity|].
  rewrite map_app. cbn [map]. rewrite params_loop_snoc. cbn [fst snd].
  assert (Hi : item_says (k1 +++ "=" +++ query_escape v1) k1 v1) by (apply Hval, in_or_app; right; left; reflexivity). apply item_value_spec in Hi. rewrite Hi.
  assert (Hl : forall l, last_value (l ++ [(k1, v1)]) k = if (k =? k1)%string then Some v1 else last_value l k).
  { clear. induction l as [|[k2 v2] l IHl]; cbn [Datatypes.app last_value]; [reflexivity|]. rewrite IHl.
    destruct (k =? k1)%string; [reflexivity|]. reflexivity. }
  rewrite Hl. destruct (k =? k1)%string eqn:Hk1.
  - apply String.eqb_eq in Hk1. subst k1. apply mset_same.
  - apply String.eqb_neq in Hk1. rewrite mset_other by exact Hk1. apply IH. intros k2 v2 Hin. apply Hval.
    apply in_or_app. left. exact Hin.
Qed.

(** * Urls *)

Lemma cut_first_at c a b : ~ mentions c a -> cut_first c (a +++ String.String c b) = (a, Some b).
Proof.
  unfold mentions. induction a as [|x a IH]; cbn [has_char String.append cut_first]; intros H.
  - rewrite Ascii.eqb_refl. reflexivity.
  - assert (Hx : Ascii.eqb x c = false) by (apply Ascii.eqb_neq; tauto). rewrite Hx, IH by tauto. reflexivity.
Qed.

Lemma cut_first_none c a : ~ mentions c a -> cut_first c a = (a, None).
Proof.
  unfold mentions. induction a as [|x a IH]; cbn [has_char cut_first]; intros H; [reflexivity|].
  assert (Hx : Ascii.eqb x c = false) by (apply Ascii.eqb_neq; tauto). rewrite Hx, IH by tauto. reflexivity.
Qed.

Lemma cut_last_none c a : ~ mentions c a -> cut_last c a = None.
Proof.
  unfold mentions. induction a as [|x a IH]; cbn [has_char cut_last]; intros H; [reflexivity|].
  assert (Hx : Ascii.eqb x c = false) by (apply Ascii.eqb_neq; tauto). rewrite Hx, IH by tauto. reflexivity.
Qed.

Lemma cut_last_at c a b : ~ mentions c b -> cut_last c (a +++ String.String c b) = Some (a, b).
Proof.
  intros H. induction a as [|x a IH]; cbn [String.append cut_last].
  - rewrite cut_last_none, Ascii.eqb_refl by exact H. reflexivity.
  - rewrite IH. reflexivity.
Qed.

Lemma trim_back_stable f a : (forall c r, a = r +++ String.String c "" -> f c = false) -> trim_back f a = a.
Proof.
  induction a as [|x a IH]; intros H; cbn [trim_back]; [reflexivity|].
  destruct a as [|y a].
  - cbn [trim_back]. rewrite (H x "" eq_refl). reflexivity.
  - rewrite IH; [reflexivity|]. intros c r Hr. apply (H c (String.String x r)). rewrite Hr. reflexivity.
Qed.

Lemma trim_back_app f a b : b <> "" -> trim_back f b = b -> trim_back f (a +++ b) = a +++ b.
Proof.
  intros Hb H. induction a as [|x a IH]; cbn [String.append trim_back]; [exact H|]. rewrite IH.
  destruct a as [|y a]; cbn [String.append]; [|reflexivity]. destruct b; [congruence|reflexivity].
Qed.

Lemma trim_back_last f a c : f c = true -> trim_back f (a +++ String.String c "") = trim_back f a.
Proof. intros H. induction a as [|x a IH]; cbn [String.append trim_back]; [rewrite H; reflexivity|]. rewrite IH. reflexivity. Qed.

Lemma trim_back_free c a : ~ mentions c a -> trim_back (Ascii.eqb c) a = a.
Proof.
  intros H. apply trim_back_stable. intros x r ->. apply Ascii.eqb_neq. intros ->. apply H. apply mentions_app. right. left. reflexivity.
Qed.

Lemma length_app_s a b : String.length (a +++ b) = (String.length a + String.length b)%nat.
Proof. induction a as [|c a IH]; [reflexivity|]. cbn [String.append String.length]. rewrite IH. reflexivity. Qed.

Lemma white_space c : is_space c = true <-> white c.
Proof.
  unfold is_space, white. rewrite orb_true_iff, andb_true_iff, !Z.leb_le, Z.eqb_eq. cbn [In]. split; [lia|].
  intros H. repeat (destruct H as [H|H]; [lia|]). destruct H.
Qed.

Lemma white_space_not c : is_space c = false <-> ~ white c.
Proof. rewrite <- white_space. destruct (is_space c); split; congruence. Qed.

Lemma trim_front_drop f a b : (forall c, mentions c a -> f c = true) -> trim_front f (a +++ b) = trim_front f b.
Proof.
  induction a as [|c a IH]; intros H; [reflexivity|]. cbn [String.append trim_front]. rewrite (H c) by (left; reflexivity).
  apply IH. intros d Hd. apply H. right. exact Hd.
Qed.

Lemma trim_back_empty f b : (forall c, mentions c b -> f c = true) -> trim_back f b = "".
Proof.
  induction b as [|c b IH]; intros H; [reflexivity|]. cbn [trim_back]. rewrite IH by (intros d Hd; apply H; right; exact Hd).
  rewrite (H c) by (left; reflexivity). reflexivity.
Qed.

Lemma trim_back_drop f a b : (forall c, mentions c b -> f c = true) -> trim_back f (a +++ b) = trim_back f a.
Proof.
  intros H. induction a as [|c a IH]; cbn [String.append trim_back]; [apply trim_back_empty; exact H|]. rewrite IH. reflexivity.
Qed.

Lemma trim_front_stable f s : (forall c r, s = String.String c r -> f c = false) -> trim_front f s = s.
Proof. destruct s as [|c s]; intros H; [reflexivity|]. cbn [trim_front]. rewrite (H c s eq_refl). reflexivity. Qed.

Lemma padded_trim s core : padded s core -> trim_space s = core.
Proof.
  intros (_ & (a & b & -> & W) & H1 & H2). unfold trim_space.
  rewrite trim_front_drop by (intros c Hc; apply white_space, W; left; exact Hc). destruct core as [|x core].
  - cbn [String.append]. assert (E : trim_front is_space b = "").
    { rewrite <- (append_empty b), trim_front_drop; [reflexivity|]. intros c Hc. apply white_space, W. right. exact Hc. }
    rewrite E. reflexivity.
  - rewrite trim_front_stable by (intros c r E; apply white_space_not, (H1 c core); cbn [String.append] in E; congruence).
    rewrite trim_back_drop by (intros c Hc; apply white_space, W; right; exact Hc).
    apply trim_back_stable. intros c r E. apply white_space_not. exact (H2 c r E).
Qed.

Lemma trim_front_split f s : exists a, s = a +++ trim_front f s /\ forall c, mentions c a -> f c = true.
Proof.
  induction s as [|c s (a & E & H)]; [exists ""; split; [reflexivity|intros d []]|]. cbn [trim_front]. destruct (f c) eqn:Ef.
  - exists (String.String c a). split; [cbn [String.append]; rewrite <- E; reflexivity|]. intros d [<-|Hd]; [exact Ef|exact (H d Hd)].
  - exists "". split; [reflexivity|intros d []].
Qed.

Lemma trim_back_cut f s : exists b, s = trim_back f s +++ b /\ forall c, mentions c b -> f c = true.
Proof.
  induction s as [|c s (b & E & H)]; [exists ""; split; [reflexivity|intros d []]|]. cbn [trim_back].
  destruct (trim_back f s) as [|u v].
  - destruct (f c) eqn:Ef.
    + exists (String.String c b). split; [cbn [String.append] in *; rewrite <- E; reflexivity|]. intros d [<-|Hd]; [exact Ef|exact (H d Hd)].
    + exists b. split; [cbn [String.append] in *; rewrite <- E; reflexivity|exact H].
  - exists b. split; [rewrite E at 1; reflexivity|exact H].
Qed.

Lemma trim_front_idem f s : trim_front f (trim_front f s) = trim_front f s.
Proof. induction s as [|c s IH]; [reflexivity|]. cbn [trim_front]. destruct (f c) eqn:E; [exact IH|]. cbn [trim_front]. rewrite E. reflexivity. Qed.

Lemma trim_space_front s : trim_space (trim_front is_space s) = trim_space s.
Proof. unfold trim_space. rewrite trim_front_idem. reflexivity. Qed.

Lemma trim_space_back s : trim_space (trim_back is_space s) = trim_space s.
Proof.
  unfold trim_space. destruct (trim_back_cut is_space s) as (b & E & H). rewrite E at 2.
  destruct (trim_front_split is_space (trim_back is_space s)) as (a & Ea & Ha).
  rewrite Ea at 2. rewrite append_assoc', trim_front_drop by exact Ha.
  destruct (trim_front is_space (trim_back is_space s)) as [|c r] eqn:Ef.
  - cbn [String.append]. assert (Eb : trim_front is_space b = "") by (rewrite <- (append_empty b), trim_front_drop by exact H; reflexivity).
    rewrite Eb. reflexivity.
  - assert (Hc : is_space c = false).
    { pose proof (trim_front_idem is_space (trim_back is_space s)) as I'. rewrite Ef in I'. cbn [trim_front] in I'.
      destruct (is_space c); [|reflexivity]. destruct (trim_front_split is_space r) as (x & Ex & _). rewrite I' in Ex.
      apply (f_equal String.length) in Ex. rewrite length_app_s in Ex. cbn [String.length] in Ex. lia. }
    cbn [String.append trim_front]. rewrite Hc. symmetry. exact (trim_back_drop is_space (String.String c r) b H).
Qed.

Lemma trim_front_concat f p ps : f ","%char = false -> trim_front f (String.concat "," (p :: ps)) = String.concat "," (trim_front f p :: ps).
Proof.
  intros Hf. destruct ps as [|q ps]; [reflexivity|]. rewrite !concat_cons2.
  destruct (trim_front_split f p) as (a & E & H). rewrite E at 1. rewrite append_assoc', trim_front_drop by exact H.
  apply trim_front_stable. intros c r Hc. destruct (trim_front f p) as [|x t] eqn:Et; cbn [String.append] in Hc; [congruence|].
  assert (x = c) by congruence. subst x. destruct (f c) eqn:Ec; [|reflexivity]. exfalso.
  pose proof (trim_front_idem f p) as I'. rewrite Et in I'. cbn [trim_front] in I'. rewrite Ec in I'.
  destruct (trim_front_split f t) as (y & Ey & _). rewrite I' in Ey. apply (f_equal String.length) in Ey.
  rewrite length_app_s in Ey. cbn [String.length] in Ey. lia.
Qed.

Lemma trim_back_concat f ps p : f ","%char = false -> trim_back f (String.concat "," (ps ++ [p])) = String.concat "," (ps ++ [trim_back f p]).
Proof.
  intros Hf. induction ps as [|q [|q2 ps] IH]; [reflexivity| |].
  - cbn [Datatypes.app]. rewrite !concat_cons2. cbn [String.concat]. induction q as [|c q IHq]; cbn [String.append trim_back].
    + destruct (trim_back f p); [rewrite Hf|]; reflexivity.
    + cbn [String.append trim_back] in IHq. rewrite IHq. destruct q; reflexivity.
  - cbn [Datatypes.app] in *. rewrite !concat_cons2. rewrite <- IH. generalize (String.concat "," (q2 :: ps ++ [p])). intros x.
    induction q as [|c q IHq]; cbn [String.append trim_back].
    + destruct (trim_back f x); [rewrite Hf|]; reflexivity.
    + cbn [String.append trim_back] in IHq. rewrite IHq. destruct q; reflexivity.
Qed.

(** Trimming the whole does not change what the parts are after trimming. *)
Lemma padded_parts raws : raws <> [] -> (forall p, In p raws -> ~ mentions "," p) ->
  map trim_space (split "," (trim_space (String.concat "," raws))) = map trim_space raws.
Proof.
  intros Hne Hc. unfold trim_space at 2. destruct raws as [|p ps]; [congruence|]. rewrite trim_front_concat by reflexivity.
  assert (Hp : ~ mentions "," (trim_front is_space p)).
  { intros Hm. destruct (trim_front_split is_space p) as (a & E & _). apply (Hc p (or_introl eq_refl)). rewrite E. apply mentions_app. right. exact Hm. }
  assert (G : forall l : list string, l <> [] -> (forall x, In x l -> ~ mentions "," x) ->
    map trim_space (split "," (trim_back is_space (String.concat "," l))) = map trim_space l).
  { intros l Hl Hm. destruct (exists_last Hl) as (i & x & ->). rewrite trim_back_concat by reflexivity.
    assert (Hs : split "," (String.concat "," (i ++ [trim_back is_space x])) = i ++ [trim_back is_space x]).
    2:{ rewrite Hs. rewrite !map_app. cbn [map]. rewrite trim_space_back. reflexivity. }
    apply cuts_split. split; [destruct i; discriminate|]. split; [reflexivity|]. intros q Hq. apply in_app_or in Hq. destruct Hq as [Hq|[<-|[]]].
    - apply Hm. apply in_or_app. left. exact Hq.
    - intros Hmm. destruct (trim_back_cut is_space x) as (b & E & _). apply (Hm x); [apply in_or_app; right; left; reflexivity|].
        rewrite E. apply mentions_app. left. exact Hmm. }
  rewrite G; [|discriminate|].
  - cbn [map]. rewrite trim_space_front. reflexivity.
  - intros x [<-|Hx]; [exact Hp|apply Hc; right; exact Hx].
Qed.

Definition pg_items_of (kp : string * string) : string := fst kp +++ "=" +++ query_escape (snd kp).

Lemma pg_dsn_fold kps : forall base,
  fold_left (fun ret kp => ret +++ sprintf itoa "%s=%s&" [AStr (fst kp); AStr (query_escape (snd kp))]) kps base =
  base +++ String.concat "" (map (fun kp => pg_items_of kp +++ "&") kps).
Proof.
  induction kps as [|kp kps IH]; intros base; cbn [fold_left map].
  - cbn. rewrite append_empty. reflexivity.
  - rewrite IH. rewrite append_assoc'. f_equal. cbn [sprintf Ascii.eqb Bool.eqb show]. unfold pg_items_of.
    destruct kps as [|kp2 kps]; cbn [map String.concat].
    + cbn. rewrite !append_empty, append_assoc'. reflexivity.
    + cbn [String.append]. repeat rewrite append_assoc'. cbn [String.append]. repeat rewrite append_assoc'. reflexivity.
Qed.

Lemma concat_amp items : items <> [] ->
  String.concat "" (map (fun i => i +++ "&") items) = String.concat "&" items +++ "&".
Proof.
  induction items as [|a [|b items] IH]; intros H; [congruence|reflexivity|].
  cbn [map]. rewrite concat_cons2. cbn [String.append]. rewrite concat_cons2. cbn [map] in IH. rewrite IH by discriminate.
  rewrite !append_assoc'. reflexivity.
Qed.

(** The options as pairs of a key and one value. *)
Definition pg_pairs (options : list (string * list (string * string))) : list (string * string) :=
  flat_map (fun o => map (fun p => (fst o, snd p)) (snd o)) options.
Definition pg_values (options : list (string * list (string * string))) : list (string * string) :=
  map (fun o => (fst o, String.concat "," (map fst (snd o)))) options.

Lemma pg_inner k parts : forall base,
  fold_left (fun ret temp => ret +++ sprintf itoa "%s=%s&" [AStr k; AStr (query_escape (trim_space temp))]) parts base =
  fold_left (fun ret kp => ret +++ sprintf itoa "%s=%s&" [AStr (fst kp); AStr (query_escape (snd kp))]) (map (fun p => (k, p)) (map trim_space parts)) base.
Proof. induction parts as [|p parts IH]; intros base; cbn [fold_left map]; [reflexivity|]. rewrite IH. reflexivity. Qed.

Lemma pg_outer options :
  (forall k parts, In (k, parts) options -> parts <> [] /\ forall p, In p parts -> padded (fst p) (snd p)) -> forall base,
  fold_left (fun ret kv =>
    fold_left (fun ret temp => ret +++ sprintf itoa "%s=%s&" [AStr (fst kv); AStr (query_escape (trim_space temp))])
      (split "," (trim_space (snd kv))) ret) (pg_values options) base =
  fold_left (fun ret kp => ret +++ sprintf itoa "%s=%s&" [AStr (fst kp); AStr (query_escape (snd kp))]) (pg_pairs options) base.
Proof.
  induction options as [|[k parts] options IH]; intros H base; cbn [fold_left map pg_values]; [reflexivity|].
  fold (pg_values options). rewrite IH by (intros k1 p1 Hin; apply (H k1 p1); right; exact Hin). cbn [fst snd].
  destruct (H k parts (or_introl eq_refl)) as [Hne Ht]. rewrite pg_inner, padded_parts.
  - unfold pg_pairs. cbn [flat_map fst snd]. rewrite fold_left_app. f_equal. f_equal. rewrite !map_map. apply map_ext_in.
    intros p Hp. rewrite (padded_trim _ _ (Ht p Hp)). reflexivity.
  - destruct parts; [congruence|discriminate].
  - intros p Hp. apply in_map_iff in Hp. destruct Hp as (q & <- & Hq). exact (proj1 (Ht q Hq)).
Qed.

Lemma items_trim kps : kps <> [] ->
  String.concat "&" (map pg_items_of kps) <> "" /\
  trim_back (Ascii.eqb "&") (String.concat "&" (map pg_items_of kps)) = String.concat "&" (map pg_items_of kps).
Proof.
  assert (Hi : forall kp, pg_items_of kp <> "" /\ trim_back (Ascii.eqb "&") (pg_items_of kp) = pg_items_of kp).
  { intros [k v]. unfold pg_items_of. cbn [fst snd]. split; [destruct k; discriminate|].
    apply trim_back_app; [discriminate|]. apply trim_back_free. intros Hm.
    apply mentions_app in Hm. destruct Hm as [[Hm|[]]|Hm]; [discriminate|].
    revert Hm. apply escape_free; [reflexivity|discriminate..]. }
  induction kps as [|kp [|kp2 kps] IH]; intros H; [congruence|exact (Hi kp)|].
  destruct IH as [I1 I2]; [discriminate|]. cbn [map] in *. rewrite concat_cons2.
  split; [destruct (pg_items_of kp); discriminate|].
  apply trim_back_app; [discriminate|]. apply (trim_back_app _ "&"); assumption.
Qed.

Definition dsn_base (conf : pg_conf) : string :=
  "postgres://" +++ pg_user conf +++ ":" +++ pg_pass conf +++ "@" +++ pg_host conf +++ ":" +++ itoa (pg_port conf) +++
  "/" +++ pg_db conf.

(** The dsn of options. *)
Lemma pg_dsn_shape conf options :
  (forall k parts, In (k, parts) options -> parts <> [] /\ forall p, In p parts -> padded (fst p) (snd p)) ->
  pg_dsn conf (pg_values options) =
  dsn_base conf +++ "?" +++ String.concat "&" (map pg_items_of (pg_pairs options)).
Proof.
  intros H. unfold pg_dsn.
  assert (Hb : sprintf itoa "postgres://%s:%s@%s:%d/%s?"
    [AStr (pg_user conf); AStr (pg_pass conf); AStr (pg_host conf); AInt (pg_port conf); AStr (pg_db conf)] = dsn_base conf +++ "?").
  { unfold dsn_base. rewrite !append_assoc'. reflexivity. }
  rewrite Hb, (pg_outer options H), pg_dsn_fold.
  rewrite <- (map_map pg_items_of (fun i => i +++ "&")), append_assoc'.
  destruct (pg_pairs options) as [|kp pairs].
  - apply trim_back_app; [discriminate|reflexivity].
  - rewrite concat_amp by discriminate.
    destruct (items_trim (kp :: pairs)) as [H1 H2]; [discriminate|].
    replace (dsn_base conf +++ "?" +++ String.concat "&" (map pg_items_of (kp :: pairs)) +++ "&")
      with ((dsn_base conf +++ "?" +++ String.concat "&" (map pg_items_of (kp :: pairs))) +++ "&")
      by (rewrite !append_assoc'; reflexivity).
    rewrite trim_back_last by reflexivity. apply trim_back_app; [discriminate|].
    apply (trim_back_app _ "?"); assumption.
Qed.

Lemma read_query_items kps : (forall k v, In (k, v) kps -> plain k) ->
  read_query (String.concat "&" (map pg_items_of kps)) = kps.
Proof.
  intros H. unfold read_query. destruct kps as [|kp0 kps0]; [reflexivity|]. remember (kp0 :: kps0) as kps eqn:He.
  assert (Hne : kps <> []) by (rewrite He; discriminate). destruct (items_trim kps Hne) as [H1 _].
  apply String.eqb_neq in H1. rewrite H1.
  assert (Hs : split "&" (String.concat "&" (map pg_items_of kps)) = map pg_items_of kps).
  { apply cuts_split. split; [rewrite He; discriminate|]. split; [reflexivity|]. intros p Hp.
    apply in_map_iff in Hp. destruct Hp as ([k v] & <- & Hin). unfold pg_items_of. cbn [fst snd]. intros Hm.
    apply mentions_app in Hm. destruct Hm as [Hm|Hm]; [exact (plain_free k "&" (H k v Hin) eq_refl Hm)|].
    apply mentions_app in Hm. destruct Hm as [[Hm|[]]|Hm]; [discriminate|].
    revert Hm. apply escape_free; [reflexivity|discriminate..]. }
  rewrite Hs, map_map. clear Hs H1 Hne He. induction kps as [|[k v] kps IH]; [reflexivity|].
  cbn [map]. rewrite IH by (intros k1 v1 Hin; apply (H k1 v1); right; exact Hin). f_equal.
  unfold pg_items_of. cbn [fst snd String.append].
  rewrite cut_first_at by (apply plain_free; [exact (H k v (or_introl eq_refl))|reflexivity]).
  rewrite unescape_escape. reflexivity.
Qed.

Lemma items_free kps c : (forall k v, In (k, v) kps -> plain k) ->
  unreserved c = false -> c <> "+"%char -> c <> "%"%char -> c <> "&"%char -> c <> "="%char ->
  ~ mentions c (String.concat "&" (map pg_items_of kps)).
Proof.
  intros H Hu H1 H2 H3 H4. induction kps as [|[k v] kps IH]; [intros []|].
  assert (Hi : ~ mentions c (pg_items_of (k, v))).
  { unfold pg_items_of. cbn [fst snd]. intros Hm. apply mentions_app in Hm.
    destruct Hm as [Hm|Hm]; [exact (plain_free k c (H k v (or_introl eq_refl)) Hu Hm)|].
    apply mentions_app in Hm. destruct Hm as [[Hm|[]]|Hm]; [congruence|].
    revert Hm. apply escape_free; assumption. }
  destruct kps as [|kp2 kps]; [exact Hi|]. cbn [map]. rewrite concat_cons2. intros Hm.
  apply mentions_app in Hm. destruct Hm as [Hm|Hm]; [exact (Hi Hm)|].
  apply mentions_app in Hm. destruct Hm as [[Hm|[]]|Hm]; [congruence|].
  revert Hm. apply IH. intros k1 v1 Hin. apply (H k1 v1). right. exact Hin.
Qed.

Lemma itoa_free z c : unreserved c = false -> ~ mentions c (itoa z).
Proof. intros H Hm. destruct (itoa_chars _ _ Hm). congruence. Qed.

Lemma substring_skip p s : String.substring (String.length p) (String.length (p +++ s)) (p +++ s) = s.
Proof.
  assert (Hs : forall s n, (String.length s <= n)%nat -> String.substring 0 n s = s).
  { clear. induction s as [|c s IH]; intros n Hn; destruct n; cbn in *; try reflexivity; [lia|]. f_equal. apply IH. lia. }
  assert (Hl : forall p s n, (String.length s <= n)%nat -> String.substring (String.length p) n (p +++ s) = s).
  { clear p s. induction p as [|x p IHp]; intros s n Hn; [apply Hs, Hn|].
    cbn [String.length String.append String.substring]. apply IHp, Hn. }
  apply Hl. clear. induction p as [|x p IH]; cbn [String.append String.length]; lia.
Qed.

Lemma strip_prefix_app p s : strip_prefix p (p +++ s) = Some s.
Proof.
  unfold strip_prefix. assert (Hp : String.prefix p (p +++ s) = true).
  { clear. induction p as [|c p IH]; [destruct s; reflexivity|]. cbn. destruct (ascii_dec c c); [exact IH|congruence]. }
  rewrite Hp, substring_skip. reflexivity.
Qed.

(** The dsn read back as a url. *)
Lemma pg_dsn_url conf options :
  plain (pg_user conf) -> plain (pg_pass conf) -> plain (pg_host conf) -> plain (pg_db conf) ->
  (forall k parts, In (k, parts) options -> plain k /\ parts <> [] /\ forall p, In p parts -> padded (fst p) (snd p)) ->
  read_url (pg_dsn conf (map (fun o => (fst o, String.concat "," (map fst (snd o)))) options)) =
  Some (mkUrl (Some (pg_user conf, Some (pg_pass conf))) (pg_host conf) (Some (itoa (pg_port conf))) (pg_db conf) (pg_pairs options)).
Proof.
  intros Pu Pp Ph Pd Ho. fold (pg_values options). rewrite pg_dsn_shape by (intros k parts Hin; exact (proj2 (Ho k parts Hin))).
  assert (Hk : forall k v, In (k, v) (pg_pairs options) -> plain k).
  { intros k v Hin. unfold pg_pairs in Hin. apply in_flat_map in Hin. destruct Hin as ([k1 parts] & Hin & Hm).
    apply in_map_iff in Hm. destruct Hm as (p & Hp & _). cbn [fst] in Hp. assert (k = k1) by congruence. subst k1.
    exact (proj1 (Ho k parts Hin)). }
  set (query := String.concat "&" (map pg_items_of (pg_pairs options))).
  set (auth := pg_user conf +++ ":" +++ pg_pass conf +++ "@" +++ pg_host conf +++ ":" +++ itoa (pg_port conf)).
  assert (Hd : dsn_base conf +++ "?" +++ query = "postgres://" +++ auth +++ "/" +++ pg_db conf +++ "?" +++ query).
  { unfold dsn_base, auth. rewrite !append_assoc'. reflexivity. }
  assert (Fa : forall c, unreserved c = false -> c <> ":"%char -> c <> "@"%char -> ~ mentions c auth).
  { intros c Hc C1 C2 Hm. unfold auth in Hm.
    repeat (apply mentions_app in Hm; destruct Hm as [Hm|Hm];
      [first [exact (plain_free _ _ Pu Hc Hm) | exact (plain_free _ _ Pp Hc Hm) | exact (plain_free _ _ Ph Hc Hm) | destruct Hm as [Hm|[]]; congruence]|]).
    exact (itoa_free _ _ Hc Hm). }
  unfold read_url. rewrite Hd.
  rewrite (cut_first_none "#").
  2:{ intros Hm. apply mentions_app in Hm. destruct Hm as [Hm|Hm]; [vm_compute in Hm; intuition discriminate|].
      apply mentions_app in Hm. destruct Hm as [Hm|Hm]; [revert Hm; apply Fa; [reflexivity|discriminate..]|].
      apply mentions_app in Hm. destruct Hm as [[Hm|[]]|Hm]; [discriminate|].
      apply mentions_app in Hm. destruct Hm as [Hm|Hm]; [exact (plain_free _ "#" Pd eq_refl Hm)|].
      apply mentions_app in Hm. destruct Hm as [[Hm|[]]|Hm]; [discriminate|].
      revert Hm. apply items_free; [exact Hk|reflexivity|discriminate..]. }
  cbn [fst]. rewrite strip_prefix_app.
  replace (auth +++ "/" +++ pg_db conf +++ "?" +++ query) with ((auth +++ "/" +++ pg_db conf) +++ String.String "?" query)
    by (rewrite !append_assoc'; reflexivity).
  rewrite cut_first_at.
  2:{ intros Hm. apply mentions_app in Hm. destruct Hm as [Hm|Hm]; [revert Hm; apply Fa; [reflexivity|discriminate..]|].
      apply mentions_app in Hm. destruct Hm as [[Hm|[]]|Hm]; [discriminate|]. exact (plain_free _ "?" Pd eq_refl Hm). }
  change ("/" +++ pg_db conf) with (String.String "/" (pg_db conf)).
  rewrite cut_first_at by (apply Fa; [reflexivity|discriminate..]).
  assert (Ha : auth = (pg_user conf +++ ":" +++ pg_pass conf) +++ String.String "@" (pg_host conf +++ String.String ":" (itoa (pg_port conf)))).
  { unfold auth. rewrite !append_assoc'. reflexivity. }
  rewrite Ha, cut_last_at.
  2:{ intros Hm. apply mentions_app in Hm. destruct Hm as [Hm|[Hm|Hm]]; [exact (plain_free _ "@" Ph eq_refl Hm)|discriminate|].
      exact (itoa_free _ "@" eq_refl Hm). }
  rewrite cut_last_at by (apply itoa_free; reflexivity).
  cbn [option_map]. change (":" +++ pg_pass conf) with (String.String ":" (pg_pass conf)).
  rewrite cut_first_at by (apply plain_free; [exact Pu|reflexivity]).
  unfold query. rewrite (read_query_items _ Hk). reflexivity.
Qed.

(** * String() *)

Lemma labelled_split pre l post : exists a b, forall x', labelled (pre ++ (l, x') :: post) = a +++ x' +++ b.
Proof.
  unfold labelled.
  assert (H : exists a b, forall x', String.concat ", " (map (fun x => fst x +++ " " +++ snd x) (pre ++ (l, x') :: post)) = a +++ x' +++ b).
  { induction pre as [|[k v] pre (a & b & IH)].
    - cbn [Datatypes.app map fst snd]. destruct post as [|p2 post].
      + exists (l +++ " "), "". intros x'. cbn [map String.concat]. rewrite append_empty, append_assoc'. reflexivity.
      + exists (l +++ " "), (", " +++ String.concat ", " (map (fun x => fst x +++ " " +++ snd x) (p2 :: post))). intros x'.
        cbn [map]. rewrite concat_cons2, !append_assoc'. reflexivity.
    - exists ((k +++ " " +++ v) +++ ", " +++ a), b. intros x'. cbn [Datatypes.app map fst snd]. specialize (IH x').
      destruct (pre ++ (l, x') :: post) as [|y ys] eqn:E; [destruct pre; discriminate|].
      cbn [map] in *. rewrite concat_cons2, IH, !append_assoc'. reflexivity. }
  destruct H as (a & b & H). exists ("{" +++ a), (b +++ "}"). intros x'. rewrite H, !append_assoc'. reflexivity.
Qed.

Lemma append_inj_l a b c : a +++ b = a +++ c -> b = c.
Proof. induction a as [|x a IH]; cbn [String.append]; intros H; [exact H|]. apply IH. congruence. Qed.

Lemma append_inj_r a b c : a +++ c = b +++ c -> a = b.
Proof.
  assert (Hn : forall x (d : string), String.String x d +++ c <> c).
  { intros x d E. apply (f_equal String.length) in E. assert (Hl : (String.length c <= String.length (d +++ c))%nat)
      by (clear; induction d as [|y d IH]; cbn [String.append String.length]; lia).
    cbn [String.append String.length] in E. lia. }
  revert b. induction a as [|x a IH]; intros [|y b] H; [reflexivity| | |].
  - exfalso. exact (Hn y b (eq_sym H)).
  - exfalso. exact (Hn x a H).
  - cbn [String.append] in H. f_equal; [congruence|]. apply IH. congruence.
Qed.

Lemma labelled_inj pre l x y post : labelled (pre ++ (l, x) :: post) = labelled (pre ++ (l, y) :: post) -> x = y.
Proof.
  destruct (labelled_split pre l post) as (a & b & H). rewrite !H. intros E.
  apply append_inj_l in E. exact (append_inj_r _ _ _ E).
Qed.

Ltac texts := unfold labelled, hidden, show_bool;
  cbn [map fst snd String.concat sprintf Ascii.eqb Bool.eqb show String.append];
  repeat (rewrite append_assoc'; cbn [String.append]); match goal with |- ?a = ?a => exact eq_refl end.

Lemma mysql_string_labelled dur m : mysql_string dur m = labelled
  [("Host:", my_host m); ("Port:", itoa (my_port m)); ("Username:", hidden); ("Password:", hidden);
   ("Database:", my_db m); ("MaxOpenConns:", itoa (my_idle m)); ("MaxIdleConns:", itoa (my_idle m));
   ("ConnMaxLifetime:", dur (my_life m)); ("ReadTimeout:", dur (my_read m)); ("WriteTimeout:", dur (my_write m));
   ("Timeout:", dur (my_timeout m)); ("Loc:", my_loc m); ("ParseTime:", show_bool (my_parse m)); ("Params:", my_params m)].
Proof. unfold mysql_string. texts. Qed.

Lemma mysql_shows dur m : mysql_string dur m = labelled (mysql_items dur m) <-> my_open m = my_idle m.
Proof.
  rewrite mysql_string_labelled. unfold mysql_items. split.
  - intros H. apply (labelled_inj [_; _; _; _; _] "MaxOpenConns:") in H. apply itoa_inj in H. symmetry. exact H.
  - intros ->. reflexivity.
Qed.

Lemma oracle_string_labelled dur c : oracle_string dur c = labelled
  [("Host:", or_host c); ("Port:", itoa (or_port c)); ("Username:", hidden); ("Password:", hidden);
   ("Service:", or_service c); ("Sid:", or_sid c); ("Servers:", or_servers c);
   ("MaxOpenConns:", itoa (or_idle c)); ("MaxIdleConns:", itoa (or_idle c)); ("ConnMaxLifetime:", dur (or_life c));
   ("ConnectTimeout:", itoa (or_timeout c)); ("Params:", or_params c)].
Proof. unfold oracle_string. texts. Qed.

Lemma oracle_shows dur c : oracle_string dur c = labelled (oracle_items dur c) <-> or_open c = or_idle c.
Proof.
  rewrite oracle_string_labelled. unfold oracle_items. split.
  - intros H. apply (labelled_inj [_; _; _; _; _; _; _] "MaxOpenConns:") in H. apply itoa_inj in H. symmetry. exact H.
  - intros ->. reflexivity.
Qed.

Lemma pg_string_labelled dur c : pg_string dur c = labelled
  [("Host:", pg_host c); ("Port:", itoa (pg_port c)); ("Username:", hidden); ("Password:", hidden);
   ("Database:", pg_db c); ("MaxOpenConns:", itoa (pg_idle c)); ("MaxIdleConns:", itoa (pg_idle c));
   ("ConnMaxLifetime:", dur (pg_life c)); ("ConnectTimeout:", itoa (pg_timeout c)); ("Params:", pg_params c)].
Proof. unfold pg_string. texts. Qed.

Lemma pg_shows dur c : pg_string dur c = labelled (pg_items dur c) <-> pg_open c = pg_idle c.
Proof.
  rewrite pg_string_labelled. unfold pg_items. split.
  - intros H. apply (labelled_inj [_; _; _; _; _] "MaxOpenConns:") in H. apply itoa_inj in H. symmetry. exact H.
  - intros ->. reflexivity.
Qed.

Lemma redis_shows dur r : redis_string dur r = labelled (redis_items r).
Proof. unfold redis_string, redis_items. texts. Qed.

Lemma es_shows dur m : es_string dur m = labelled (es_items m).
Proof. unfold es_string, es_items. texts. Qed.

Lemma pprof_shows dur p : pprof_string dur p = labelled (pprof_items p).
Proof. unfold pprof_string, pprof_items. texts. Qed.

Lemma http_shows dur c : http_string dur c = labelled (http_items dur c).
Proof. unfold http_string, http_items. texts. Qed.

(** * Native configs *)

Lemma mysql_loc_spec zone conf f :
  mysql_prepare zone conf f = None <-> my_loc conf <> "" /\ zone (my_loc conf) = false.
Proof.
  unfold mysql_prepare. destruct (my_loc conf =? "")%string eqn:E.
  - apply String.eqb_eq in E. split; [discriminate|intros [H _]; congruence].
  - apply String.eqb_neq in E. destruct (zone (my_loc conf)); split; try discriminate; auto. intros [_ H]. discriminate.
Qed.

Lemma addr_inj (h1 h2 : string) p1 p2 : h1 +++ ":" +++ itoa p1 = h2 +++ ":" +++ itoa p2 -> h1 = h2 /\ p1 = p2.
Proof.
  intros H. apply (f_equal (cut_last ":")) in H. cbn [String.append] in H.
  rewrite !cut_last_at in H by (apply itoa_free; reflexivity). split; [congruence|apply itoa_inj; congruence].
Qed.

(** * Trust *)

Lemma append_certs_spec read files : forall pool r,
  append_certs read pool files = Some r <-> exists cs, all_certs read files cs /\ r = pool ++ cs.
Proof.
  induction files as [|f files IH]; intros pool r; cbn [append_certs].
  - split.
    + intros [= <-]. exists []. split; [constructor|]. rewrite app_nil_r. reflexivity.
    + intros (cs & H & ->). inversion H. rewrite app_nil_r. reflexivity.
  - destruct (read f) as [cs|] eqn:Hf.
    + rewrite IH. split.
      * intros (cs' & H & ->). exists (cs ++ cs'). split; [constructor; assumption|]. rewrite app_assoc. reflexivity.
      * intros (cs' & H & ->). inversion H as [|f0 cs0 fs0 cs1 Hr Ha]; subst. exists cs1. split; [exact Ha|].
        rewrite app_assoc. congruence.
    + split; [discriminate|]. intros (cs' & H & _). inversion H; subst. congruence.
Qed.

Lemma http_spec load read c cl : new_http_client load read c None = Some cl ->
  (verifies cl = false <-> hc_trust_mode c = "INSECURE") /\
  (forall kp, own_cert cl = Some kp <-> has_cert c /\ load (hc_cert_chain c) (hc_private_key c) = Some kp) /\
  (forall r, roots cl = Some r <-> has_roots c /\ has_cert c /\
     exists files, cuts "," (hc_trust_certs c) files /\ all_certs read files r).
Proof.
  unfold new_http_client. intros H.
  assert (Hc : negb (hc_cert_chain c =? "")%string || negb (hc_private_key c =? "")%string = true <-> has_cert c).
  { unfold has_cert. rewrite <- !String.eqb_neq. destruct (hc_cert_chain c =? "")%string, (hc_private_key c =? "")%string; cbn; intuition congruence. }
  destruct (negb (hc_cert_chain c =? "")%string || negb (hc_private_key c =? "")%string).
  - pose proof (proj1 Hc eq_refl) as Hh. clear Hc. destruct (load (hc_cert_chain c) (hc_private_key c)) as [kp|]; [|discriminate].
    destruct ((hc_trust_mode c =? "CUSTOM")%string && negb (hc_trust_certs c =? "")%string) eqn:Hr.
    + apply andb_true_iff in Hr. destruct Hr as [R1 R2]. apply String.eqb_eq in R1. apply negb_true_iff, String.eqb_neq in R2.
      destruct (append_certs read [] (split "," (hc_trust_certs c))) as [pool|] eqn:Ha; [|discriminate].
      injection H as <-. unfold verifies, own_cert, roots. cbn [cl_tls tls_cert tls_roots tls_insecure negb].
      split; [split; [discriminate|rewrite R1; discriminate]|]. split; [intros kp'; tauto|].
      apply append_certs_spec in Ha. destruct Ha as (cs & Ha & ->). cbn [Datatypes.app]. intros r. split.
      * intros [= <-]. split; [split; assumption|]. split; [exact Hh|]. exists (split "," (hc_trust_certs c)). split; [apply split_cuts|exact Ha].
      * intros (_ & _ & files & Hf & Hall). apply cuts_split in Hf. subst files. f_equal.
        assert (A : append_certs read [] (split "," (hc_trust_certs c)) = Some cs) by (apply append_certs_spec; exists cs; auto).
        assert (B : append_certs read [] (split "," (hc_trust_certs c)) = Some r) by (apply append_certs_spec; exists r; auto).
        congruence.
    + assert (Hnr : ~ has_roots c).
      { intros [A B]. rewrite A in Hr. apply String.eqb_neq in B. rewrite B in Hr. discriminate. }
      destruct (hc_trust_mode c =? "INSECURE")%string eqn:Hi; injection H as <-; unfold verifies, own_cert, roots;
        cbn [cl_tls tls_cert tls_roots tls_insecure negb];
        [apply String.eqb_eq in Hi|apply String.eqb_neq in Hi];
        (split; [split; [auto; discriminate|congruence || auto]|]); (split; [intros kp'; tauto|]);
        intros r; (split; [discriminate|tauto]).
  - assert (Hh : ~ has_cert c) by (intros A; apply Hc in A; discriminate). clear Hc.
    destruct ((hc_trust_mode c =? "CUSTOM")%string && negb (hc_trust_certs c =? "")%string) eqn:Hr.
    + apply andb_true_iff in Hr. destruct Hr as [R1 R2]. apply String.eqb_eq in R1.
      destruct (append_certs read [] (split "," (hc_trust_certs c))) as [pool|] eqn:Ha; [|discriminate].
      injection H as <-. unfold verifies, own_cert, roots. cbn [cl_tls].
      split; [split; [discriminate|rewrite R1; discriminate]|]. split; [intros kp'; split; [discriminate|tauto]|].
      intros r. split; [discriminate|tauto].
    + destruct (hc_trust_mode c =? "INSECURE")%string eqn:Hi; injection H as <-; unfold verifies, own_cert, roots;
        cbn [cl_tls tls_cert tls_roots tls_insecure negb];
        [apply String.eqb_eq in Hi|apply String.eqb_neq in Hi];
        (split; [split; [auto; discriminate|congruence || auto]|]); (split; [intros kp'; split; [discriminate|tauto]|]);
        intros r; (split; [discriminate|tauto]).
Qed.

Lemma http_limits load read c cl : new_http_client load read c None = Some cl ->
  cl_conns_per_host cl = hc_conns_per_host c /\ cl_idle cl = hc_idle c /\ cl_conn cl = hc_conn c /\
  cl_read cl = hc_read c /\ cl_write cl = hc_write c /\ cl_wait cl = hc_wait c.
Proof.
  unfold new_http_client. intros H.
  destruct (if negb (hc_cert_chain c =? "")%string || negb (hc_private_key c =? "")%string then _ else _) as [[t b]|]; [|discriminate].
  destruct (if (hc_trust_mode c =? "CUSTOM")%string && negb (hc_trust_certs c =? "")%string then _ else _) as [[t' b']|]; [|discriminate].
  injection H as <-. cbn. auto 6.
Qed.

Lemma http_custom load read c f :
  new_http_client load read c (Some f) = option_map f (new_http_client load read c None).
Proof.
  unfold new_http_client.
  destruct (if negb (hc_cert_chain c =? "")%string || negb (hc_private_key c =? "")%string then _ else _) as [[t b]|]; [|reflexivity].
  destruct (if (hc_trust_mode c =? "CUSTOM")%string && negb (hc_trust_certs c =? "")%string then _ else _) as [[t' b']|]; reflexivity.
Qed.

Lemma http_fails load read c : new_http_client load read c None = None <->
  (has_cert c /\ load (hc_cert_chain c) (hc_private_key c) = None) \/
  (has_roots c /\ forall files r, cuts "," (hc_trust_certs c) files -> ~ all_certs read files r).
Proof.
  unfold new_http_client.
  assert (Hc : negb (hc_cert_chain c =? "")%string || negb (hc_private_key c =? "")%string = true <-> has_cert c).
  { unfold has_cert. rewrite <- !String.eqb_neq. destruct (hc_cert_chain c =? "")%string, (hc_private_key c =? "")%string; cbn; intuition congruence. }
  assert (Hr : (hc_trust_mode c =? "CUSTOM")%string && negb (hc_trust_certs c =? "")%string = true <-> has_roots c).
  { unfold has_roots. rewrite <- String.eqb_neq, <- String.eqb_eq.
    destruct (hc_trust_mode c =? "CUSTOM")%string, (hc_trust_certs c =? "")%string; cbn; intuition congruence. }
  assert (Ha : append_certs read [] (split "," (hc_trust_certs c)) = None <->
    forall files r, cuts "," (hc_trust_certs c) files -> ~ all_certs read files r).
  { split.
    - intros Hn files r Hf Hall. apply cuts_split in Hf. subst files.
      assert (E : append_certs read [] (split "," (hc_trust_certs c)) = Some r) by (apply append_certs_spec; exists r; auto). congruence.
    - intros Hno. destruct (append_certs read [] (split "," (hc_trust_certs c))) as [r|] eqn:E; [|reflexivity].
      apply append_certs_spec in E. destruct E as (cs & E & _). exfalso. exact (Hno _ _ (split_cuts _ _) E). }
  destruct (negb (hc_cert_chain c =? "")%string || negb (hc_private_key c =? "")%string) eqn:E1;
    destruct ((hc_trust_mode c =? "CUSTOM")%string && negb (hc_trust_certs c =? "")%string) eqn:E2;
    [destruct (load (hc_cert_chain c) (hc_private_key c)) as [kp|]; [|tauto]|
     destruct (load (hc_cert_chain c) (hc_private_key c)) as [kp|]; [|tauto]| |].
  - destruct (append_certs read [] (split "," (hc_trust_certs c))) as [pool|]; split; try discriminate; try tauto.
    intros [[_ H]|[_ H]]; [discriminate|]. apply Ha in H. discriminate.
  - destruct (hc_trust_mode c =? "INSECURE")%string; (split; [discriminate|]); intros [[_ H]|[H _]]; try discriminate; apply Hr in H; discriminate.
  - destruct (append_certs read [] (split "," (hc_trust_certs c))) as [pool|]; split; try discriminate; try tauto.
    intros [[H _]|[_ H]]; [apply Hc in H; discriminate|]. apply Ha in H. discriminate.
  - destruct (hc_trust_mode c =? "INSECURE")%string; (split; [discriminate|]); intros [[H _]|[H _]]; [apply Hc in H|apply Hr in H|apply Hc in H|apply Hr in H]; discriminate.
Qed.

(** * Options *)

Lemma oracle_options_spec conf f o : oracle_options conf f = Some o ->
  ~ (or_sid conf = "" /\ or_service conf = "") /\
  exists base, (forall k, base k = oracle_own conf k) /\ overridden (custom f base) (or_params conf) o.
Proof.
  unfold oracle_options. intros H. destruct ((or_sid conf =? "")%string && (or_service conf =? "")%string) eqn:E; [discriminate|].
  split; [intros [A B]; rewrite A, B in E; discriminate|].
  eexists. split; [|assert (E' : forall a b : smap string, Some a = Some b -> a = b) by congruence;
    apply E' in H; rewrite <- H; destruct f; apply add_params_spec].
  intros k. unfold oracle_own, unless_empty, unless_zero.
  destruct (or_sid conf =? "")%string, (or_servers conf =? "")%string, (or_timeout conf =? 0);
    unfold mset, mempty;
    destruct (k =? "SID")%string eqn:K1, (k =? "server")%string eqn:K2, (k =? "CONNECTION TIMEOUT")%string eqn:K3;
    try reflexivity;
    repeat match goal with K : (_ =? _)%string = true |- _ => apply String.eqb_eq in K end; congruence.
Qed.

Lemma oracle_panics conf f : oracle_options conf f = None <-> or_sid conf = "" /\ or_service conf = "".
Proof.
  unfold oracle_options. rewrite <- !String.eqb_eq. destruct (or_sid conf =? "")%string, (or_service conf =? "")%string; cbn [andb];
    split; try discriminate; intuition discriminate.
Qed.

Lemma pg_options_spec conf f :
  exists base, (forall k, base k = pg_own conf k) /\ overridden (custom f base) (pg_params conf) (pg_options conf f).
Proof.
  unfold pg_options. eexists. split; [|destruct f; apply add_params_spec].
  intros k. unfold pg_own, unless_zero. destruct (pg_timeout conf =? 0); unfold mset, mempty; destruct (k =? "connect_timeout")%string; reflexivity.
Qed.
