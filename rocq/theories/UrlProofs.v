(** Lemmas about URLs as values of a config store. *)
From Verif Require Import Common Bytes ProcsModel ProcsSpec ProcsProofs ConfNamesModel ConfNamesSpec ConfNamesProofs ConfsModel ConfsProofs RsaModel RsaSpec RsaProofs UrlModel UrlSpec.
Local Open Scope string_scope.
Local Open Scope list_scope.
Local Open Scope Z_scope.
Local Notation chr := String.String.

(** * Characters *)

Lemma one_of_iff s c : one_of s c = true <-> among s c.
Proof.
  unfold one_of, among. induction s as [|x s IH]; cbn; [split; [discriminate|tauto]|].
  rewrite Bool.orb_true_iff, Ascii.eqb_eq, IH. split; intros [H|H]; auto.
Qed.

Lemma one_of_not s c : one_of s c = false <-> ~ among s c.
Proof. rewrite <- one_of_iff. destruct (one_of s c); split; congruence. Qed.

Lemma is_letter_iff c : is_letter c = true <-> alpha c.
Proof.
  unfold alpha. split.
  - intros E. allchars c; first [vm_compute in E; discriminate|vm_compute; tauto].
  - intros [H|H]; cbn in H; repeat (destruct H as [<-|H]; [reflexivity|]); destruct H.
Qed.

Lemma is_num_iff c : is_num c = true <-> is_digit c.
Proof.
  unfold is_digit. split.
  - intros E. allchars c; first [vm_compute in E; discriminate|vm_compute; tauto].
  - intros H; cbn in H; repeat (destruct H as [<-|H]; [reflexivity|]); destruct H.
Qed.

Lemma is_ctl_iff c : is_ctl c = true <-> control c.
Proof. unfold is_ctl, control. rewrite Bool.orb_true_iff, Z.ltb_lt, Z.eqb_eq. tauto. Qed.

Lemma should_escape_iff c : should_escape_host c = false <-> host_char c.
Proof.
  unfold should_escape_host, host_char. rewrite <- is_letter_iff, <- is_num_iff.
  assert (A : among "-_.~!$&'()*+,;=:[]<>" c <-> among "!$&'()*+,;=:[]<>" c \/ among "-_.~" c) by (unfold among; cbn; tauto).
  assert (D : Ascii.eqb c dquote = true <-> byte c = 34).
  { rewrite Ascii.eqb_eq. split; [intros ->; reflexivity|]. intros H. apply byte_inj. exact H. }
  rewrite A, <- D, <- !one_of_iff.
  destruct (is_letter c), (is_num c), (one_of "!$&'()*+,;=:[]<>" c), (one_of "-_.~" c), (Ascii.eqb c dquote); cbn; intuition congruence.
Qed.

Lemma any_char_false f s : any_char f s = false <-> all_chars (fun c => f c = false) s.
Proof. induction s as [|c s IH]; cbn; [tauto|]. rewrite Bool.orb_false_iff, IH. tauto. Qed.

Lemma all_chars_iff P Q s : (forall c, P c <-> Q c) -> all_chars P s <-> all_chars Q s.
Proof. intros H. induction s as [|c s IH]; cbn; [tauto|]. rewrite (H c), IH. tauto. Qed.

Lemma all_chars_join P a b : all_chars P (a +++ b) <-> all_chars P a /\ all_chars P b.
Proof. induction a as [|c a IH]; cbn; [tauto|]. rewrite IH. tauto. Qed.

Lemma not_mentions c s : all_chars (fun x => x <> c) s <-> ~ mentions c s.
Proof. unfold mentions. induction s as [|x s IH]; cbn; [tauto|]. rewrite IH. tauto. Qed.

Lemma controls_iff s : any_char is_ctl s = false <-> all_chars (fun c => ~ control c) s.
Proof. rewrite any_char_false. apply all_chars_iff. intros c. rewrite <- is_ctl_iff. destruct (is_ctl c); split; congruence. Qed.

Lemma digits_no c d : ~ is_digit c -> all_chars is_digit d -> ~ mentions c d.
Proof.
  intros H D. apply not_mentions. induction d as [|x d IH]; cbn in *; [tauto|]. split; [intros ->; tauto|apply IH; tauto].
Qed.

Lemma hex_value_of c x : hex_val c x -> hex_value c = Some (Z.of_nat x).
Proof.
  intros [H|H]; do 16 (destruct x as [|x]; [cbn in H; injection H as <-; reflexivity|]); cbn in H; destruct x; discriminate.
Qed.

Lemma hex_value_is c z : hex_value c = Some z -> hex_val c (Z.to_nat z).
Proof.
  unfold hex_val. intros H. allchars c; vm_compute in H; try discriminate; injection H as <-;
    first [left; reflexivity|right; reflexivity].
Qed.

(** * Cutting at a character *)

Lemma mentions_dec c s : {mentions c s} + {~ mentions c s}.
Proof. induction s as [|x s IH]; [right; intros []|]. destruct (ascii_dec x c) as [->|N]; [left; left; reflexivity|]. destruct IH as [H|H]; [left; right; exact H|right; intros [E|E]; tauto]. Qed.

Lemma contains_one c s : contains (chr c "") s <-> mentions c s.
Proof.
  split; [intros (a & b & ->); apply mentions_app; right; left; reflexivity|].
  induction s as [|x s IH]; [intros []|]. intros [->|H]; [exists "", s; reflexivity|].
  destruct (IH H) as (a & b & ->). exists (chr x a), b. reflexivity.
Qed.

Lemma cut_char_none c s : ~ mentions c s -> cut (chr c "") s = None.
Proof. intros H. apply cut_none. rewrite contains_one. exact H. Qed.

Lemma cut_char c a b : ~ mentions c a -> cut (chr c "") (a +++ chr c b) = Some (a, b).
Proof. intros H. apply (cut_first_occurrence c "" a b); [intros []|]. rewrite contains_one. exact H. Qed.

Lemma cut_char_some c s a b : cut (chr c "") s = Some (a, b) -> s = a +++ chr c b /\ ~ mentions c a.
Proof.
  revert a b. induction s as [|x s IH]; intros a b H; cbn in H; [discriminate|]. destruct (Ascii.eqb c x) eqn:E.
  - apply Ascii.eqb_eq in E. subst x. destruct s; injection H as <- <-; split; try reflexivity; intros [].
  - apply Ascii.eqb_neq in E. destruct (cut (chr c "") s) as [[a' b']|] eqn:F; [|discriminate]. injection H as <- <-.
    destruct (IH _ _ eq_refl) as [-> N]. split; [reflexivity|]. intros [X|X]; [congruence|tauto].
Qed.

Lemma cut_char_no c s : cut (chr c "") s = None -> ~ mentions c s.
Proof. intros H. apply cut_none in H. rewrite contains_one in H. exact H. Qed.

Lemma cut_last_some c s a b : cut_last c s = Some (a, b) -> s = a +++ chr c b /\ ~ mentions c b.
Proof.
  assert (NN : forall s, cut_last c s = None -> ~ mentions c s).
  { clear. induction s as [|x s IH]; cbn; [intros _ []|]. destruct (cut_last c s) as [[a b]|]; [discriminate|].
    destruct (Ascii.eqb x c) eqn:E; [discriminate|]. apply Ascii.eqb_neq in E. intros _ [X|X]; [tauto|]. apply IH; auto. }
  revert a b. induction s as [|x s IH]; intros a b H; cbn in H; [discriminate|].
  destruct (cut_last c s) as [[a' b']|] eqn:F.
  - injection H as <- <-. destruct (IH _ _ eq_refl) as [-> N]. split; [reflexivity|exact N].
  - destruct (Ascii.eqb x c) eqn:E; [|discriminate]. apply Ascii.eqb_eq in E. subst x. injection H as <- <-. split; [reflexivity|apply NN; exact F].
Qed.

Lemma cut_last_none c s : ~ mentions c s -> cut_last c s = None.
Proof.
  intros H. induction s as [|x s IH]; [reflexivity|]. cbn. rewrite IH by (intros X; apply H; right; exact X).
  destruct (Ascii.eqb x c) eqn:E; [|reflexivity]. apply Ascii.eqb_eq in E. exfalso. apply H. left. exact E.
Qed.

Lemma cut_last_no c s : cut_last c s = None -> ~ mentions c s.
Proof.
  induction s as [|x s IH]; cbn; [intros _ []|]. destruct (cut_last c s) as [[a b]|]; [discriminate|].
  destruct (Ascii.eqb x c) eqn:E; [discriminate|]. apply Ascii.eqb_neq in E. intros _ [X|X]; [tauto|]. apply IH; auto.
Qed.

Lemma cut_last_at c a b : ~ mentions c b -> cut_last c (a +++ chr c b) = Some (a, b).
Proof.
  intros H. induction a as [|x a IH]; cbn [String.append cut_last].
  - rewrite cut_last_none by exact H. rewrite Ascii.eqb_refl. reflexivity.
  - rewrite IH. reflexivity.
Qed.

Lemma strip_none p s : strip p s = None <-> ~ starts p s.
Proof.
  unfold starts. split.
  - intros H [r ->]. rewrite strip_app in H. discriminate.
  - intros H. destruct (strip p s) as [r|] eqn:E; [|reflexivity]. apply strip_some in E. exfalso. apply H. exists r. exact E.
Qed.

Lemma starts_strip p s : starts p s -> exists r, strip p s = Some r /\ s = p +++ r.
Proof. intros [r ->]. exists r. rewrite strip_app. split; reflexivity. Qed.

Lemma count_none c s : ~ mentions c s -> count c s = O.
Proof.
  intros H. induction s as [|x s IH]; [reflexivity|]. cbn. destruct (Ascii.eqb x c) eqn:E.
  - apply Ascii.eqb_eq in E. exfalso. apply H. left. exact E.
  - apply IH. intros X. apply H. right. exact X.
Qed.

Lemma count_app c a b : count c (a +++ b) = (count c a + count c b)%nat.
Proof. induction a as [|x a IH]; [reflexivity|]. cbn. destruct (Ascii.eqb x c); rewrite IH; reflexivity. Qed.

Lemma count_mentions c s : mentions c s -> (0 < count c s)%nat.
Proof.
  induction s as [|x s IH]; [intros []|]. cbn. intros [->|H]; [rewrite Ascii.eqb_refl; lia|]. destruct (Ascii.eqb x c); [lia|apply IH; exact H].
Qed.

(** * Percent encoding *)

Definition plain_in (m : mode) : ascii -> Prop :=
  match m with EncodeHost | EncodeZone => host_or_high | _ => anything end.
Definition coded_in (m : mode) : ascii -> Prop :=
  match m with
  | EncodeHost => fun c => 128 <= byte c \/ c = "%"%char
  | EncodeZone => fun c => host_char c \/ c = "%"%char \/ c = " "%char
  | _ => anything
  end.

Lemma bad_plain_iff m c : bad_plain m c = false <-> plain_in m c.
Proof.
  assert (H : (byte c <? 128) && should_escape_host c = false <-> host_or_high c).
  { unfold host_or_high. rewrite <- should_escape_iff, Bool.andb_false_iff, Z.ltb_ge. tauto. }
  destruct m; cbn; try (unfold anything; tauto); exact H.
Qed.

Lemma bad_escape_iff m x y c : 0 <= x < 16 -> 0 <= y < 16 -> byte c = 16 * x + y ->
  bad_escape m x y = false <-> coded_in m c.
Proof.
  intros Hx Hy E.
  assert (C : char_of (x * 16 + y) = c) by (apply byte_inj; rewrite byte_char_of by lia; lia).
  assert (P : c = "%"%char <-> (x =? 2) && (y =? 5) = true).
  { rewrite Bool.andb_true_iff, !Z.eqb_eq. split; [intros ->; change (byte "%") with 37 in E; lia|intros [-> ->]; apply byte_inj; exact E]. }
  assert (S : c = " "%char <-> (x * 16 + y =? 32) = true).
  { rewrite Z.eqb_eq. split; [intros ->; change (byte " ") with 32 in E; lia|intros F; apply byte_inj; change (byte " ") with 32; lia]. }
  destruct m; cbn [bad_escape coded_in]; unfold anything; try tauto.
  - rewrite P, Bool.andb_false_iff, Z.ltb_ge, Bool.negb_false_iff. split; intros [H|H]; auto; left; lia.
  - rewrite C, P, S, <- should_escape_iff. destruct ((x =? 2) && (y =? 5)), (x * 16 + y =? 32), (should_escape_host c); cbn; intuition congruence.
Qed.

Lemma unescape_len m n : forall s t, (String.length s <= n)%nat -> unescape m s = Some t <-> decoded (plain_in m) (coded_in m) s t.
Proof.
  induction n as [|n IH]; intros s t Hn.
  - destruct s; [|cbn in Hn; lia]. cbn. split; [intros [= <-]; constructor|intros H; inversion H; reflexivity].
  - destruct s as [|c s]; [cbn; split; [intros [= <-]; constructor|intros H; inversion H; reflexivity]|].
    cbn [unescape]. cbn [String.length] in Hn. destruct (Ascii.eqb c "%") eqn:Hp.
    + apply Ascii.eqb_eq in Hp. subst c. destruct s as [|a [|b s]].
      * split; [discriminate|]. intros H. inversion H; congruence.
      * split; [discriminate|]. intros H. inversion H; congruence.
      * cbn [String.length] in Hn. split.
        -- intros H. destruct (hex_value a) as [x|] eqn:Ha; [|discriminate]. destruct (hex_value b) as [y|] eqn:Hb; [|discriminate].
           destruct (bad_escape m x y) eqn:B; [discriminate|]. destruct (unescape m s) as [r|] eqn:Hs; [|discriminate]. injection H as <-.
           pose proof (hex_value_range _ _ Ha). pose proof (hex_value_range _ _ Hb).
           assert (Hc : byte (char_of (x * 16 + y)) = 16 * x + y) by (rewrite byte_char_of by lia; lia).
           apply decoded_hex with (x := Z.to_nat x) (y := Z.to_nat y).
           ++ apply hex_value_is. exact Ha.
           ++ apply hex_value_is. exact Hb.
           ++ rewrite !Z2Nat.id by lia. exact Hc.
           ++ apply (bad_escape_iff m x y); [lia|lia|exact Hc|exact B].
           ++ apply IH; [lia|exact Hs].
        -- intros H. inversion H as [|c' s' r' N|a' b' x y c s' r' Ha Hb Hc Hd Hs]; subst; [congruence|].
           apply hex_value_of in Ha, Hb. rewrite Ha, Hb.
           pose proof (hex_value_range _ _ Ha) as Rx. pose proof (hex_value_range _ _ Hb) as Ry.
           rewrite (proj2 (bad_escape_iff m _ _ c Rx Ry Hc) Hd).
           apply IH in Hs; [|lia]. rewrite Hs. cbn [option_map]. do 2 f_equal.
           apply byte_inj. rewrite byte_char_of by lia. lia.
    + apply Ascii.eqb_neq in Hp. split.
      * intros H. destruct (bad_plain m c) eqn:B; [discriminate|]. destruct (unescape m s) as [r|] eqn:Hs; [|discriminate]. injection H as <-.
        constructor; [exact Hp|apply bad_plain_iff; exact B|apply IH; [lia|exact Hs]].
      * intros H. inversion H as [|c' s' r' N Hd Hs|]; subst; [|congruence].
        apply bad_plain_iff in Hd. rewrite Hd. apply IH in Hs; [|lia]. rewrite Hs. reflexivity.
Qed.

Lemma unescape_iff m s t : unescape m s = Some t <-> decoded (plain_in m) (coded_in m) s t.
Proof. apply (unescape_len m (String.length s)). lia. Qed.
Lemma unescape_path s t : unescape EncodePath s = Some t <-> path_text s t.
Proof. exact (unescape_iff EncodePath s t). Qed.
Lemma unescape_user s t : unescape EncodeUserPassword s = Some t <-> path_text s t.
Proof. exact (unescape_iff EncodeUserPassword s t). Qed.
Lemma unescape_host s t : unescape EncodeHost s = Some t <-> name_text s t.
Proof. exact (unescape_iff EncodeHost s t). Qed.
Lemma unescape_zone s t : unescape EncodeZone s = Some t <-> zone_text s t.
Proof. exact (unescape_iff EncodeZone s t). Qed.

(** * Authority *)

Lemma valid_port_iff s : valid_optional_port s = true <-> port_text s.
Proof.
  unfold port_text. destruct s as [|c s]; cbn [valid_optional_port]; [tauto|].
  rewrite Bool.andb_true_iff, Ascii.eqb_eq, Bool.negb_true_iff, any_char_false.
  rewrite (all_chars_iff (fun x => negb (is_num x) = false) is_digit s) by (intros x; rewrite Bool.negb_false_iff; apply is_num_iff).
  split; [intros [-> H]; right; exists s; auto|]. intros [H|(d & H & D)]; [discriminate|]. injection H as -> ->. auto.
Qed.

Lemma port_no c p : port_text p -> c <> ":"%char -> ~ is_digit c -> ~ mentions c p.
Proof.
  intros [->|(d & -> & D)] N M; [intros []|]. intros [H|H]; [congruence|]. exact (digits_no _ _ M D H).
Qed.

Lemma host_char_plain c : host_char c -> c <> "%"%char.
Proof. intros H ->. apply should_escape_iff in H. discriminate. Qed.

Lemma name_plain s : all_chars host_char s -> name_text s s.
Proof.
  induction s as [|c s IH]; intros H; [constructor|]. destruct H as [H1 H2]. constructor; [apply host_char_plain; exact H1|left; exact H1|apply IH; exact H2].
Qed.

Lemma port_host p : port_text p -> all_chars host_char p.
Proof.
  intros [->|(d & -> & D)]; [exact I|]. split; [right; right; left; vm_compute; tauto|].
  induction d as [|c d IH]; [exact I|]. destruct D as [D1 D2]. split; [right; left; exact D1|apply IH; exact D2].
Qed.

Lemma bracket_port p : port_text p -> name_text ("]" +++ p) ("]" +++ p).
Proof. intros H. apply name_plain. split; [right; right; left; vm_compute; tauto|apply port_host; exact H]. Qed.

Lemma decoded_fun P Q s t : decoded P Q s t -> forall t', decoded P Q s t' -> t = t'.
Proof.
  induction 1 as [|c s t N Hp H IH|a b x y c s t Ha Hb Hc Hq H IH]; intros t' H'.
  - inversion H'. reflexivity.
  - inversion H' as [|c' s' u N' Hp' Hu|a b x y c' s' u]; subst; [|congruence]. f_equal. apply IH. exact Hu.
  - inversion H' as [|c' s' u N' Hp' Hu|a' b' x' y' c' s' u Ha' Hb' Hc' Hq' Hu]; subst; [congruence|].
    f_equal; [|apply IH; exact Hu]. apply byte_inj.
    apply hex_value_of in Ha, Hb, Ha', Hb'. rewrite Ha in Ha'. rewrite Hb in Hb'. injection Ha' as Ea. injection Hb' as Eb. lia.
Qed.

Lemma contains_bracket a : contains "%25" ("[" +++ a) <-> contains "%25" a.
Proof.
  split.
  - intros (u & v & E). destruct u as [|x u]; [discriminate|]. injection E as _ E. exists u, v. exact E.
  - intros (u & v & ->). exists ("[" +++ u), v. reflexivity.
Qed.

Lemma cut25_some s a b : cut "%25" s = Some (a, b) -> s = a +++ "%25" +++ b /\ ~ contains "%25" a.
Proof.
  revert a b. induction s as [|x s IH]; intros a b H; [discriminate|].
  cbn [cut] in H. destruct (strip "%25" (chr x s)) as [r|] eqn:E.
  - injection H as <- <-. apply strip_some in E. split; [exact E|]. intros (u & v & F). destruct u; discriminate.
  - destruct (cut "%25" s) as [[a' b']|] eqn:F; [|discriminate]. injection H as <- <-. destruct (IH _ _ eq_refl) as [-> N].
    split; [reflexivity|]. intros (u & v & G). destruct u as [|y u].
    + cbn [String.append] in G. injection G as -> ->. apply strip_none in E. apply E. exists (v +++ "%25" +++ b'). reflexivity.
    + injection G as -> ->. apply N. exists u, v. reflexivity.
Qed.

Lemma cut25_at a b : ~ contains "%25" a -> cut "%25" (a +++ "%25" +++ b) = Some (a, b).
Proof. apply cut_first_occurrence. intros [H|[H|[]]]; discriminate. Qed.

Lemma parse_host_iff s h : parse_host s = Some h <-> host_text s h.
Proof.
  unfold parse_host. split.
  - intros H. destruct (strip "[" s) as [r|] eqn:Eb.
    + destruct (cut_last "]" s) as [[inside p]|] eqn:El; [|discriminate].
      apply cut_last_some in El. destruct El as [Es Np]. destruct (valid_optional_port p) eqn:Vp; [|discriminate]. cbn [negb] in H.
      apply valid_port_iff in Vp. apply strip_some in Eb.
      assert (Hin : exists a, inside = "[" +++ a).
      { destruct inside as [|x a]; [rewrite Eb in Es; discriminate|]. rewrite Eb in Es. cbn [String.append] in Es. injection Es as <- _. exists a. reflexivity. }
      destruct Hin as [a ->]. clear Eb.
      destruct (cut "%25" ("[" +++ a)) as [[ad z]|] eqn:Ez.
      * apply cut25_some in Ez. destruct Ez as [Ea Nz]. destruct (unescape EncodeHost ad) as [h1|] eqn:U1; [|discriminate].
        destruct (unescape EncodeZone ("%25" +++ z)) as [h2|] eqn:U2; [|discriminate].
        destruct (unescape EncodeHost ("]" +++ p)) as [h3|] eqn:U3; [|discriminate]. injection H as <-.
        apply unescape_host in U1, U3. apply unescape_zone in U2.
        rewrite (decoded_fun _ _ _ _ U3 _ (bracket_port p Vp)) in *.
        destruct ad as [|x ad]; [discriminate|]. cbn [String.append] in Ea. injection Ea as <- Ea.
        rewrite Es, Ea.
        replace (("[" +++ ad +++ chr "%" (chr "2" (chr "5" z))) +++ chr "]" p) with ("[" +++ ad +++ "%25" +++ z +++ "]" +++ p)
          by (cbn [String.append]; rewrite append_assoc'; reflexivity).
        apply host_zone; [exact Vp|intros X; apply Nz; apply contains_bracket; exact X|exact U1|exact U2].
      * apply cut_none in Ez. rewrite contains_bracket in Ez. apply unescape_host in H. subst s.
        rewrite append_assoc' in H |- *. apply host_brackets; assumption.
    + apply strip_none in Eb. destruct (cut_last ":" s) as [[a p]|] eqn:El.
      * apply cut_last_some in El. destruct El as [Es _]. destruct (valid_optional_port (":" +++ p)) eqn:Vp; [|discriminate]. cbn [negb] in H.
        apply unescape_host in H. apply host_name; [exact Eb| |exact H]. right. exists a, p. split; [exact Es|].
        apply valid_port_iff in Vp. destruct Vp as [V|(d & V & D)]; [discriminate|]. injection V as ->. exact D.
      * apply cut_last_no in El. apply unescape_host in H. apply host_name; [exact Eb|left; exact El|exact H].
  - intros H. destruct H as [s h Nb Hp Hn|a p h Hp Nz Hn|a z p h1 h2 Hp Nz H1 H2].
    + rewrite (proj2 (strip_none "[" s) Nb). apply unescape_host in Hn. destruct Hp as [Nc|(a & d & -> & D)].
      * rewrite (cut_last_none _ _ Nc). exact Hn.
      * change (a +++ ":" +++ d) with (a +++ chr ":" d). rewrite (cut_last_at ":" a d) by (apply digits_no; [vm_compute; intuition discriminate|exact D]).
        rewrite (proj2 (valid_port_iff (":" +++ d))) by (right; exists d; auto). exact Hn.
    + rewrite strip_app. apply unescape_host in Hn.
      replace ("[" +++ a +++ "]" +++ p) with (("[" +++ a) +++ chr "]" p) in * by (rewrite append_assoc'; reflexivity).
      rewrite (cut_last_at "]" ("[" +++ a) p) by (apply port_no; [exact Hp|discriminate|vm_compute; intuition discriminate]).
      rewrite (proj2 (valid_port_iff p) Hp). cbn [negb].
      rewrite (proj1 (cut_none "%25" ("[" +++ a))) by (rewrite contains_bracket; exact Nz). exact Hn.
    + rewrite strip_app. apply unescape_host in H1. apply unescape_zone in H2.
      replace ("[" +++ a +++ "%25" +++ z +++ "]" +++ p) with (("[" +++ a +++ "%25" +++ z) +++ chr "]" p)
        by (cbn [String.append]; rewrite !append_assoc'; reflexivity).
      rewrite (cut_last_at "]" ("[" +++ a +++ "%25" +++ z) p) by (apply port_no; [exact Hp|discriminate|vm_compute; intuition discriminate]).
      rewrite (proj2 (valid_port_iff p) Hp). cbn [negb].
      change ("[" +++ a +++ "%25" +++ z) with (("[" +++ a) +++ "%25" +++ z).
      rewrite cut25_at by (rewrite contains_bracket; exact Nz). rewrite H1, H2.
      pose proof (bracket_port p Hp) as H3. apply unescape_host in H3. rewrite H3. reflexivity.
Qed.

Lemma valid_userinfo_iff s : valid_userinfo s = true <-> all_chars user_char s.
Proof.
  unfold valid_userinfo. rewrite Bool.negb_true_iff, any_char_false. apply all_chars_iff. intros c. unfold user_char.
  rewrite Bool.negb_false_iff, !Bool.orb_true_iff, is_letter_iff, is_num_iff, one_of_iff. tauto.
Qed.

Lemma parse_authority_iff s u h : parse_authority s = Some (u, h) <-> authority s u h.
Proof.
  unfold parse_authority. split.
  - intros H. destruct (cut_last "@" s) as [[i t]|] eqn:E.
    + apply cut_last_some in E. destruct E as [-> N]. destruct (parse_host t) as [h'|] eqn:Eh; [|discriminate].
      apply parse_host_iff in Eh. destruct (valid_userinfo i) eqn:V; [|discriminate]. cbn [negb] in H. apply valid_userinfo_iff in V.
      destruct (cut ":" i) as [[n p]|] eqn:Ec.
      * apply cut_char_some in Ec. destruct Ec as [Ei Nn].
        destruct (unescape EncodeUserPassword n) as [n'|] eqn:U1; [|discriminate].
        destruct (unescape EncodeUserPassword p) as [p'|] eqn:U2; [|discriminate]. injection H as <- <-.
        apply unescape_user in U1, U2. apply (authority_user i t); try assumption. subst i. apply (user_password n p); assumption.
      * apply cut_char_no in Ec. destruct (unescape EncodeUserPassword i) as [n'|] eqn:U1; [|discriminate]. injection H as <- <-.
        apply unescape_user in U1. apply (authority_user i t); try assumption. apply user_name; assumption.
    + apply cut_last_no in E. destruct (parse_host s) as [h'|] eqn:Eh; [|discriminate]. injection H as <- <-.
      apply parse_host_iff in Eh. apply authority_host; assumption.
  - intros H. destruct H as [s h N Hh|i s u h N V Hu Hh].
    + rewrite cut_last_none by exact N. apply parse_host_iff in Hh. rewrite Hh. reflexivity.
    + change (i +++ "@" +++ s) with (i +++ chr "@" s). rewrite cut_last_at by exact N. apply parse_host_iff in Hh. rewrite Hh.
      apply valid_userinfo_iff in V. rewrite V. cbn [negb]. destruct Hu as [i n Nc Hn|i t n p Nc Hn Hp].
      * rewrite (cut_char_none ":" i Nc). apply unescape_user in Hn. rewrite Hn. reflexivity.
      * change (i +++ ":" +++ t) with (i +++ chr ":" t). rewrite (cut_char ":" i t Nc). apply unescape_user in Hn, Hp. rewrite Hn, Hp. reflexivity.
Qed.

(** * URLs *)

Lemma scheme_char_iff c : scheme_char c <-> is_letter c = true \/ is_num c || one_of "+-." c = true.
Proof. unfold scheme_char. rewrite Bool.orb_true_iff, is_letter_iff, is_num_iff, one_of_iff. tauto. Qed.

Lemma colon_no_scheme : ~ scheme_char ":".
Proof. rewrite scheme_char_iff. vm_compute. intuition discriminate. Qed.

Lemma get_scheme_more s n r : get_scheme false s = Scheme n r <-> all_chars scheme_char n /\ s = n +++ chr ":" r.
Proof.
  revert n. induction s as [|c s IH]; intros n; cbn [get_scheme].
  - split; [discriminate|]. intros [_ H]. destruct n; discriminate.
  - assert (More : forall c, scheme_char c ->
       match get_scheme false s with Scheme a r => Scheme (chr c a) r | x => x end = Scheme n r <->
       all_chars scheme_char n /\ chr c s = n +++ chr ":" r).
    { intros d Hd. split.
      - destruct (get_scheme false s) as [| |a r'] eqn:E; try discriminate. intros [= <- <-].
        destruct (proj1 (IH a) eq_refl) as [H1 ->]. split; [split; assumption|reflexivity].
      - intros [H1 H2]. destruct n as [|x n].
        + injection H2 as -> _. exfalso. apply colon_no_scheme. exact Hd.
        + injection H2 as -> ->. destruct H1 as [_ H1]. rewrite (proj2 (IH n)) by (split; [exact H1|reflexivity]). reflexivity. }
    destruct (is_letter c) eqn:L; [apply More; apply scheme_char_iff; left; exact L|].
    destruct (is_num c || one_of "+-." c) eqn:M; [apply More; apply scheme_char_iff; right; exact M|].
    assert (NS : ~ scheme_char c) by (rewrite scheme_char_iff; rewrite L, M; intuition discriminate).
    destruct (Ascii.eqb c ":") eqn:E.
    + apply Ascii.eqb_eq in E. subst c. split.
      * intros [= <- <-]. split; [exact I|reflexivity].
      * intros [H1 H2]. destruct n as [|x n]; [injection H2 as <-; reflexivity|]. injection H2 as <- _. destruct H1 as [H1 _]. contradiction.
    + split; [discriminate|]. intros [H1 H2]. destruct n as [|x n]; injection H2 as -> _; [discriminate|]. destruct H1. contradiction.
Qed.

Lemma get_scheme_iff s n r : get_scheme true s = Scheme n r <-> scheme_name n /\ s = n +++ chr ":" r.
Proof.
  destruct s as [|c s].
  - cbn. split; [discriminate|]. intros [_ H]. destruct n; discriminate.
  - assert (F : get_scheme true (chr c s) = if is_letter c then get_scheme false (chr c s) else get_scheme true (chr c s)).
    { cbn [get_scheme]. destruct (is_letter c); reflexivity. }
    rewrite F. destruct (is_letter c) eqn:L.
    + rewrite get_scheme_more. split; intros [H1 H2]; (split; [|exact H2]).
      * destruct n as [|x n]; injection H2 as -> _; [discriminate|]. exists x, n. split; [reflexivity|]. split; [apply is_letter_iff; exact L|apply H1].
      * destruct H1 as (x & n' & -> & H3 & H4). split; [left; exact H3|exact H4].
    + split.
      * cbn [get_scheme]. rewrite L. destruct (is_num c || one_of "+-." c); [discriminate|]. destruct (Ascii.eqb c ":"); discriminate.
      * intros [(x & n' & -> & H3 & H4) H]. injection H as -> _. apply is_letter_iff in H3. congruence.
Qed.

Lemma get_scheme_slash s : get_scheme true ("/" +++ s) = NoScheme.
Proof. reflexivity. Qed.

Lemma lower_text_is s : lower_text s = to_lower s.
Proof.
  unfold to_lower. induction s as [|c s IH]; [reflexivity|]. cbn [lower_text smap_chars]. rewrite IH. f_equal. clear. allchars c; reflexivity.
Qed.

Lemma scheme_not_empty n : scheme_name n -> (to_lower n =? "")%string = false.
Proof. intros (c & r & -> & _). reflexivity. Qed.

(** What parse_rest does with the query. *)
Definition cut_query (s : string) : string * bool * string :=
  match strip_suffix "?" s with
  | Some r => if Nat.eqb (count "?" s) 1 then (r, true, "")
              else match cut "?" s with Some (a, b) => (a, false, b) | None => (s, false, "") end
  | None => match cut "?" s with Some (a, b) => (a, false, b) | None => (s, false, "") end
  end.

Lemma cut_query_iff s a f q : cut_query s = (a, f, q) <-> ~ mentions "?" a /\ exists e, query_text e f q /\ s = a +++ e.
Proof.
  assert (Some_ : forall a q, q <> "" -> ~ mentions "?" a -> cut_query (a +++ chr "?" q) = (a, false, q)).
  { clear. intros a q Hq Ha. unfold cut_query. rewrite (cut_char "?" a q Ha).
    destruct (strip_suffix "?" (a +++ chr "?" q)) as [r|] eqn:E; [|reflexivity].
    apply strip_suffix_some in E. destruct (Nat.eqb (count "?" (a +++ chr "?" q)) 1) eqn:C; [|reflexivity].
    apply Nat.eqb_eq in C. rewrite count_app in C. cbn in C.
    exfalso. assert (M : mentions "?" q); [|apply count_mentions in M; rewrite count_none in C by exact Ha; lia].
    clear -E Hq. assert (L : forall x y z, x +++ y = z +++ "?" -> y <> "" -> exists w, y = w +++ "?").
    { clear. induction x as [|c x IH]; intros y z H Hy; [exists z; exact H|]. destruct z as [|d z].
      - injection H as _ H. destruct x; [contradiction|discriminate].
      - injection H as _ H. apply (IH y z H Hy). }
    change (chr "?" q) with ("?" +++ q) in E. rewrite <- append_assoc' in E.
    destruct (L _ _ _ E Hq) as [w ->]. apply mentions_app. right. left. reflexivity. }
  assert (Empty : forall a, ~ mentions "?" a -> cut_query (a +++ "?") = (a, true, "")).
  { clear. intros a Ha. unfold cut_query. rewrite strip_suffix_app, count_app, count_none by exact Ha. reflexivity. }
  assert (None_ : forall a, ~ mentions "?" a -> cut_query a = (a, false, "")).
  { clear. intros a Ha. unfold cut_query. rewrite (cut_char_none "?" a Ha). destruct (strip_suffix "?" a) as [r|] eqn:E; [|reflexivity].
    apply strip_suffix_some in E. exfalso. apply Ha. rewrite E. apply mentions_app. right. left. reflexivity. }
  split.
  - intros H. destruct (mentions_dec "?" s) as [M|M].
    + apply contains_one, cut_contains in M. destruct M as [[x y] C]. apply cut_char_some in C. destruct C as [-> Nx].
      destruct y as [|d y].
      * change (chr "?" "") with "?" in H. rewrite (Empty x Nx) in H. injection H as <- <- <-. split; [exact Nx|]. exists "?". split; [constructor|reflexivity].
      * rewrite Some_ in H by (discriminate || exact Nx). injection H as <- <- <-. split; [exact Nx|]. exists ("?" +++ chr d y).
        split; [constructor; discriminate|reflexivity].
    + rewrite (None_ s M) in H. injection H as <- <- <-. split; [exact M|]. exists "". split; [constructor|rewrite append_empty; reflexivity].
  - intros (Na & e & He & ->). destruct He as [| |q Hq].
    + rewrite append_empty. apply None_; exact Na.
    + apply Empty; exact Na.
    + apply (Some_ a q Hq Na).
Qed.

Lemma parse_rest_eq sch s : parse_rest sch s =
  let '(rest, force, query) := cut_query s in
  match strip "/" rest with
  | None => if (sch =? "")%string then None else Some (Url sch rest None "" "" force query)
  | Some _ =>
    match (if (sch =? "")%string then None else strip "//" rest) with
    | Some auth0 =>
      let '(auth, path) := match cut "/" auth0 with Some (a, b) => (a, ("/" +++ b)) | None => (auth0, "") end in
      match parse_authority auth, unescape EncodePath path with
      | Some (user, host), Some p => Some (Url sch "" user host p force query)
      | _, _ => None
      end
    | None => option_map (fun p => Url sch "" None "" p force query) (unescape EncodePath rest)
    end
  end.
Proof. reflexivity. Qed.

(** Texts without scheme. *)
Lemma parse_plain_iff s u : parse_rest "" s = Some u <->
  exists b e p f q, s = b +++ e /\ starts "/" b /\ ~ mentions "?" b /\ path_text b p /\ query_text e f q /\ u = Url "" "" None "" p f q.
Proof.
  rewrite parse_rest_eq. destruct (cut_query s) as [[rest f] q] eqn:E. cbn beta iota.
  change ((("" : string) =? "")%string) with true. cbn iota. split.
  - intros H. apply cut_query_iff in E. destruct E as (N & e & He & ->). destruct (strip "/" rest) as [r|] eqn:S; [|discriminate].
    destruct (unescape EncodePath rest) as [p|] eqn:U; [|discriminate]. injection H as <-. apply unescape_path in U.
    exists rest, e, p, f, q. apply strip_some in S. repeat split; try assumption. exists r. exact S.
  - intros (b & e & p & f' & q' & -> & S & N & P & Q & ->).
    assert (E' : cut_query (b +++ e) = (b, f', q')) by (apply cut_query_iff; split; [exact N|]; exists e; auto).
    rewrite E' in E. injection E as <- <- <-. destruct (starts_strip _ _ S) as (r & -> & _). apply unescape_path in P. rewrite P. reflexivity.
Qed.

(** Texts after a scheme. *)
Inductive after_scheme (sch : string) : string -> url -> Prop :=
| after_opaque s e f q : ~ starts "/" s -> ~ mentions "?" s -> query_text e f q ->
    after_scheme sch (s +++ e) (Url sch s None "" "" f q)
| after_rooted s e p f q : starts "/" s -> ~ starts "//" s -> ~ mentions "?" s ->
    path_text s p -> query_text e f q -> after_scheme sch (s +++ e) (Url sch "" None "" p f q)
| after_full a s e u h p f q : ~ mentions "/" a -> ~ mentions "?" a -> authority a u h ->
    (s = "" \/ starts "/" s) -> ~ mentions "?" s -> path_text s p -> query_text e f q ->
    after_scheme sch ("//" +++ a +++ s +++ e) (Url sch "" u h p f q).

Lemma parse_scheme_iff sch s u : (sch =? "")%string = false -> parse_rest sch s = Some u <-> after_scheme sch s u.
Proof.
  intros Hs. rewrite parse_rest_eq. destruct (cut_query s) as [[rest f] q] eqn:E. cbn beta iota. rewrite Hs. split.
  - intros H. apply cut_query_iff in E. destruct E as (N & e & He & ->). destruct (strip "/" rest) as [r|] eqn:S.
    + apply strip_some in S. destruct (strip "//" rest) as [a0|] eqn:S2.
      * apply strip_some in S2. clear S. destruct (cut "/" a0) as [[a b]|] eqn:C.
        -- apply cut_char_some in C. destruct C as [-> Na]. destruct (parse_authority a) as [[us h]|] eqn:A; [|discriminate].
           destruct (unescape EncodePath ("/" +++ b)) as [p|] eqn:U; [|discriminate]. injection H as <-.
           apply parse_authority_iff in A. apply unescape_path in U. subst rest.
           assert (R : ("//" +++ a +++ chr "/" b) +++ e = "//" +++ a +++ ("/" +++ b) +++ e) by (rewrite !append_assoc'; reflexivity).
           rewrite R. apply after_full; try assumption.
           ++ intros X. apply N. apply mentions_app. right. apply mentions_app. left. exact X.
           ++ right. exists b. reflexivity.
           ++ intros X. apply N. apply mentions_app. right. apply mentions_app. right. exact X.
        -- apply cut_char_no in C. destruct (parse_authority a0) as [[us h]|] eqn:A; [|discriminate]. cbn in H. injection H as <-.
           apply parse_authority_iff in A. subst rest. rewrite append_assoc'. change (a0 +++ e) with (a0 +++ "" +++ e).
           apply after_full; try assumption.
           ++ intros X. apply N. apply mentions_app. right. exact X.
           ++ left. reflexivity.
           ++ intros [].
           ++ constructor.
      * apply strip_none in S2. destruct (unescape EncodePath rest) as [p|] eqn:U; [|discriminate]. injection H as <-.
        apply unescape_path in U. apply after_rooted; try assumption. exists r. exact S.
    + apply strip_none in S. injection H as <-. apply after_opaque; assumption.
  - intros H. destruct H as [s e f' q' S N Q|s e p f' q' S S2 N P Q|a s e us h p f' q' Na Nq A Hs' N P Q].
    + assert (E' : cut_query (s +++ e) = (s, f', q')) by (apply cut_query_iff; split; [exact N|]; exists e; auto).
      rewrite E' in E. injection E as <- <- <-. rewrite (proj2 (strip_none "/" s) S). reflexivity.
    + assert (E' : cut_query (s +++ e) = (s, f', q')) by (apply cut_query_iff; split; [exact N|]; exists e; auto).
      rewrite E' in E. injection E as <- <- <-. destruct (starts_strip _ _ S) as (r & -> & _).
      rewrite (proj2 (strip_none "//" s) S2). apply unescape_path in P. rewrite P. reflexivity.
    + assert (E' : cut_query ("//" +++ a +++ s +++ e) = ("//" +++ a +++ s, f', q')).
      { apply cut_query_iff. split.
        - intros [X|[X|X]]; try discriminate. apply (mentions_app "?" a s) in X. destruct X as [X|X]; [exact (Nq X)|exact (N X)].
        - exists e. split; [exact Q|]. rewrite !append_assoc'. reflexivity. }
      rewrite E' in E. injection E as <- <- <-. cbn [strip String.append]. change (Ascii.eqb "/" "/") with true. cbn iota.
      apply parse_authority_iff in A. apply unescape_path in P. destruct Hs' as [->|[b ->]].
      * rewrite append_empty, (cut_char_none "/" a Na), A. cbn in P. injection P as <-. reflexivity.
      * change (a +++ "/" +++ b) with (a +++ chr "/" b). rewrite (cut_char "/" a b Na). cbn iota. rewrite A.
        change (chr "/" b) with ("/" +++ b). rewrite P. reflexivity.
Qed.

Lemma starts_slash_no_scheme b n r e : starts "/" b -> b +++ e = n +++ chr ":" r -> ~ scheme_name n.
Proof.
  intros [x ->] H (c & m & -> & A & _). injection H as <- _. destruct A as [A|A]; vm_compute in A; intuition discriminate.
Qed.

Lemma parse_iff s u : parse_request_uri s = Some u <-> is_url s u.
Proof.
  unfold parse_request_uri, is_url. rewrite <- controls_iff. destruct (any_char is_ctl s) eqn:C; [split; [discriminate|intros [H _]; discriminate]|].
  split.
  - intros H. split; [reflexivity|]. destruct (String.eqb_spec s "") as [->|Ne]; [discriminate|].
    destruct (String.eqb_spec s "*") as [->|Ns]; [injection H as <-; constructor|].
    destruct (get_scheme true s) as [| |n r] eqn:G.
    + apply parse_plain_iff in H. destruct H as (b & e & p & f & q & -> & S & N & P & Q & ->). apply uri_path; assumption.
    + discriminate.
    + apply get_scheme_iff in G. destruct G as [Hn ->]. rewrite lower_text_is in H.
      apply parse_scheme_iff in H; [|apply scheme_not_empty; exact Hn].
      destruct H as [s e f q S N Q|s e p f q S S2 N P Q|a s e us h p f q Na Nq A Hs N P Q].
      * apply (uri_opaque n s e); assumption.
      * apply (uri_rooted n s e); assumption.
      * apply (uri_full n a s e); assumption.
  - intros [_ H]. destruct H as [|s e p f q S N P Q|n s e f q Hn S N Q|n s e p f q Hn S S2 N P Q|n a s e us h p f q Hn Na Nq A Hs N P Q].
    + reflexivity.
    + assert (Sl : exists r, s +++ e = "/" +++ r) by (destruct S as [x ->]; exists (x +++ e); reflexivity).
      assert (E : parse_rest "" (s +++ e) = Some (Url "" "" None "" p f q)) by (apply parse_plain_iff; exists s, e, p, f, q; auto 10).
      destruct Sl as [r Er]. rewrite Er in *. change (("/" +++ r =? "")%string) with false. change (("/" +++ r =? "*")%string) with false.
      cbn iota. rewrite get_scheme_slash. exact E.
    + assert (G : get_scheme true (n +++ ":" +++ s +++ e) = Scheme n (s +++ e)) by (apply get_scheme_iff; split; [exact Hn|reflexivity]).
      rewrite G, lower_text_is. rewrite (proj2 (parse_scheme_iff _ _ _ (scheme_not_empty n Hn)) (after_opaque _ s e f q S N Q)).
      destruct Hn as (c & m & -> & A & _). cbn [String.append]. destruct (String.eqb_spec (chr c (m +++ chr ":" (s +++ e))) "*") as [X|X]; [|reflexivity].
      exfalso. injection X as -> X. destruct m; discriminate.
    + assert (G : get_scheme true (n +++ ":" +++ s +++ e) = Scheme n (s +++ e)) by (apply get_scheme_iff; split; [exact Hn|reflexivity]).
      rewrite G, lower_text_is. rewrite (proj2 (parse_scheme_iff _ _ _ (scheme_not_empty n Hn)) (after_rooted _ s e p f q S S2 N P Q)).
      destruct Hn as (c & m & -> & A & _). cbn [String.append]. destruct (String.eqb_spec (chr c (m +++ chr ":" (s +++ e))) "*") as [X|X]; [|reflexivity].
      exfalso. injection X as -> X. destruct m; discriminate.
    + assert (G : get_scheme true (n +++ "://" +++ a +++ s +++ e) = Scheme n ("//" +++ a +++ s +++ e)) by (apply get_scheme_iff; split; [exact Hn|reflexivity]).
      rewrite G, lower_text_is. rewrite (proj2 (parse_scheme_iff _ _ _ (scheme_not_empty n Hn)) (after_full _ a s e us h p f q Na Nq A Hs N P Q)).
      destruct Hn as (c & m & -> & Al & _). cbn [String.append]. destruct (String.eqb_spec (chr c (m +++ chr ":" (chr "/" (chr "/" (a +++ s +++ e))))) "*") as [X|X]; [|reflexivity].
      exfalso. injection X as -> X. destruct m; discriminate.
Qed.

(** * Consequences *)

Lemma decoded_chars (P Q R : ascii -> Prop) s t : (forall c, P c -> R c) -> (forall c, Q c -> R c) ->
  decoded P Q s t -> all_chars R t.
Proof. intros HP HQ. induction 1; cbn; auto. Qed.

(** Characters of a host. *)
Definition kept_host (c : ascii) : Prop := host_char c \/ 128 <= byte c \/ c = "%"%char \/ c = " "%char.

Lemma host_kept s h : host_text s h -> all_chars kept_host h.
Proof.
  assert (N : forall s h, name_text s h -> all_chars kept_host h).
  { intros s' h'. apply decoded_chars; unfold kept_host, host_or_high; tauto. }
  assert (Z : forall s h, zone_text s h -> all_chars kept_host h).
  { intros s' h'. apply decoded_chars; unfold kept_host, host_or_high; tauto. }
  intros H. destruct H as [s h _ _ H|a p h _ _ H|a z p h1 h2 Hp _ H1 H2]; [exact (N _ _ H)|exact (N _ _ H)|].
  apply all_chars_join. split; [exact (N _ _ H1)|]. apply all_chars_join. split; [exact (Z _ _ H2)|].
  exact (N _ _ (bracket_port p Hp)).
Qed.

Lemma kept_host_not c : kept_host c -> among "/?#@\^`{|}" c \/ control c -> False.
Proof.
  unfold kept_host. intros H B. rewrite <- should_escape_iff in H. destruct B as [B|B].
  - unfold among in B. cbn in B. repeat (destruct B as [<-|B]; [destruct H as [H|[H|[H|H]]]; vm_compute in H; congruence|]). exact B.
  - apply is_ctl_iff in B. destruct H as [H|[H|[->| ->]]]; [|unfold is_ctl in B; apply Bool.orb_true_iff in B; rewrite Z.ltb_lt, Z.eqb_eq in B; lia|discriminate|discriminate].
    revert H B. clear. allchars c; vm_compute; congruence.
Qed.

Lemma host_safe s u c : is_url s u -> among "/?#@\^`{|}" c \/ control c -> ~ mentions c (u_host u).
Proof.
  intros [_ H] B. apply not_mentions.
  assert (K : all_chars kept_host (u_host u)).
  { destruct H as [|s e p f q _ _ _ _|n s e f q _ _ _ _|n s e p f q _ _ _ _ _ _|n a s e us h p f q _ _ _ A _ _ _ _]; try exact I.
    cbn [u_host]. destruct A as [s' h _ Hh|i s' v h _ _ _ Hh]; exact (host_kept _ _ Hh). }
  induction (u_host u) as [|x t IH]; [exact I|]. destruct K as [K1 K2]. split; [intros ->; exact (kept_host_not _ K1 B)|apply IH; exact K2].
Qed.

Lemma path_plain s : ~ mentions "%" s -> path_text s s.
Proof.
  induction s as [|c s IH]; intros H; [constructor|]. constructor; [intros ->; apply H; left; reflexivity|exact I|].
  apply IH. intros X. apply H. right. exact X.
Qed.

Lemma percent_decodes s : path_text (percent s) s.
Proof.
  induction s as [|c s IH]; [constructor|]. cbn [percent]. pose proof (byte_range c) as R.
  assert (D : 0 <= byte c / 16 < 16) by (split; [apply Z.div_pos; lia|apply Z.div_lt_upper_bound; lia]).
  pose proof (Z.mod_pos_bound (byte c) 16 ltac:(lia)) as M.
  assert (U : forall z, 0 <= z < 16 -> hex_val (upper_digit z) (Z.to_nat z)).
  { intros z Hz. right. unfold upper_digit. rewrite (nth_error_nth' _ "0"%char); [reflexivity|]. change (List.length _) with 16%nat. lia. }
  apply decoded_hex with (x := Z.to_nat (byte c / 16)) (y := Z.to_nat (byte c mod 16)); [apply U; exact D|apply U; exact M| |exact I|exact IH].
  rewrite !Z2Nat.id by lia. pose proof (Z.div_mod (byte c) 16 ltac:(lia)). lia.
Qed.

Lemma percent_safe s c : ~ hex_digit c -> c <> "%"%char -> ~ mentions c (percent s).
Proof.
  intros Hd Hp. assert (U : forall z, hex_digit (upper_digit z)).
  { intros z. unfold upper_digit. destruct (Z.to_nat z) as [|n]; [vm_compute; tauto|].
    do 15 (destruct n as [|n]; [vm_compute; tauto|]). destruct n; vm_compute; tauto. }
  induction s as [|x s IH]; [intros []|]. cbn [percent]. intros [H|[H|[H|H]]]; [congruence|rewrite <- H in Hd; apply Hd, U|rewrite <- H in Hd; apply Hd, U|exact (IH H)].
Qed.

Lemma percent_no_control s : all_chars (fun c => ~ control c) (percent s).
Proof.
  assert (U : forall z, ~ control (upper_digit z)).
  { intros z. unfold upper_digit. rewrite <- is_ctl_iff. destruct (Z.to_nat z) as [|n]; [vm_compute; discriminate|].
    do 15 (destruct n as [|n]; [vm_compute; discriminate|]). destruct n; vm_compute; discriminate. }
  induction s as [|x s IH]; [exact I|]. cbn [percent]. split; [rewrite <- is_ctl_iff; vm_compute; discriminate|].
  split; [apply U|]. split; [apply U|exact IH].
Qed.

Lemma alpha_not_control c : alpha c -> ~ control c.
Proof. rewrite <- is_letter_iff, <- is_ctl_iff. allchars c; vm_compute; congruence. Qed.
Lemma scheme_not_control c : scheme_char c -> ~ control c.
Proof. rewrite scheme_char_iff, <- is_ctl_iff. allchars c; vm_compute; intuition congruence. Qed.
Lemma host_not_control c : host_char c -> ~ control c.
Proof. rewrite <- should_escape_iff, <- is_ctl_iff. allchars c; vm_compute; congruence. Qed.
Lemma all_chars_imp (P Q : ascii -> Prop) s : (forall c, P c -> Q c) -> all_chars P s -> all_chars Q s.
Proof. intros H. induction s as [|c s IH]; cbn; [tauto|]. intros [A B]. auto. Qed.

(** A scheme, a host name with a port, a path and a query. *)
Lemma full_url n h d path p q : scheme_name n ->
  all_chars host_char h -> ~ mentions ":" h -> ~ starts "[" h -> all_chars is_digit d ->
  ~ mentions "?" path -> path_text ("/" +++ path) p ->
  all_chars (fun c => ~ control c) path -> all_chars (fun c => ~ control c) q -> q <> "" ->
  is_url (n +++ "://" +++ (h +++ ":" +++ d) +++ ("/" +++ path) +++ ("?" +++ q)) (Url (to_lower n) "" None (h +++ ":" +++ d) p false q).
Proof.
  intros Hn Hh Nc Nb Hd Np Hp Cp Cq Hq.
  assert (Hhd : all_chars host_char (h +++ ":" +++ d)).
  { apply all_chars_join. split; [exact Hh|]. apply (port_host (":" +++ d)). right. exists d. auto. }
  assert (Nm : forall c, among "/?@" c -> ~ mentions c (h +++ ":" +++ d)).
  { intros c Hc. apply not_mentions. apply (all_chars_imp host_char); [|exact Hhd]. intros x Hx ->. apply should_escape_iff in Hx.
    unfold among in Hc. cbn in Hc. repeat (destruct Hc as [<-|Hc]; [vm_compute in Hx; discriminate|]). exact Hc. }
  split.
  - apply all_chars_join. split.
    { destruct Hn as (c & r & -> & A & R). split; [apply alpha_not_control; exact A|exact (all_chars_imp _ _ _ scheme_not_control R)]. }
    apply all_chars_join. split; [cbn; rewrite <- !is_ctl_iff; vm_compute; intuition discriminate|].
    apply all_chars_join. split; [exact (all_chars_imp _ _ _ host_not_control Hhd)|].
    apply all_chars_join. split; [split; [rewrite <- is_ctl_iff; vm_compute; discriminate|exact Cp]|].
    split; [rewrite <- is_ctl_iff; vm_compute; discriminate|exact Cq].
  - apply uri_full; try assumption.
    + apply Nm. vm_compute. tauto.
    + apply Nm. vm_compute. tauto.
    + apply authority_host; [apply Nm; vm_compute; tauto|]. apply host_name.
      * intros [r E]. destruct h as [|x h]; [discriminate|]. apply Nb. injection E as -> _. exists h. reflexivity.
      * right. exists h, d. auto.
      * apply name_plain. exact Hhd.
    + right. exists path. reflexivity.
    + intros [X|X]; [discriminate|]. exact (Np X).
    + constructor. exact Hq.
Qed.

Lemma scheme_lower s u : is_url s u -> u_scheme u = "" \/ exists n, scheme_name n /\ u_scheme u = to_lower n /\ starts (n +++ ":") s.
Proof.
  intros [_ H]. destruct H as [|s e p f q|n s e f q Hn|n s e p f q Hn|n a s e us h p f q Hn]; [left; reflexivity|left; reflexivity|right..].
  - exists n. split; [exact Hn|split; [reflexivity|]]. exists (s +++ e). rewrite append_assoc'. reflexivity.
  - exists n. split; [exact Hn|split; [reflexivity|]]. exists (s +++ e). rewrite append_assoc'. reflexivity.
  - exists n. split; [exact Hn|split; [reflexivity|]]. exists ("//" +++ a +++ s +++ e). rewrite append_assoc'. reflexivity.
Qed.

(** * Keys *)

Lemma private_outcome K (parse : string -> option K) s : read_private parse s <> Panic.
Proof.
  unfold read_private, read_private_bytes. destruct (pem_decode _) as [[t b]|]; [|discriminate].
  destruct (t =? "RSA PRIVATE KEY")%string; [|discriminate]. destruct (parse b); discriminate.
Qed.

Lemma public_panics K (parse : string -> option (pub_key K)) s :
  read_public parse s = Panic <-> exists d, pem_decode (normalize_pem s "PUBLIC KEY") = Some ("PUBLIC KEY", d) /\ parse d = Some OtherKey.
Proof.
  unfold read_public, read_public_bytes. destruct (pem_decode _) as [[t b]|]; [|split; [discriminate|intros (d & H & _); discriminate]].
  destruct (String.eqb_spec t "PUBLIC KEY") as [->|N].
  - destruct (parse b) as [[k|]|] eqn:P; split; try discriminate; try (intros (d & [= <-] & H); congruence).
    intros _. exists b. auto.
  - split; [discriminate|]. intros (d & [= -> _] & _). congruence.
Qed.
