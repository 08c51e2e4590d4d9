(** Proofs about reading floating-point numbers. *)
From Verif Require Import Common Bytes ProcsModel ProcsSpec ProcsProofs ConfNamesProofs ConfsModel ConfsProofs PprofSpec JsonModel JsonSpec JsonProofs JsonEncode JsonFloatModel JsonFloatSpec JsonFloatProofs JsonFloatText FlagValueModel FlagValueSpec FlagValueProofs.
From Coq Require Import QArith Qround Qabs Qpower Lqa Lia.
Local Open Scope string_scope.
Local Open Scope list_scope.
Local Open Scope Z_scope.
Local Notation chr := String.String.

(** * Characters *)

Definition base_of (hex : bool) : Z := if hex then 16 else 10.
Lemma hex_base hex : hex_for (base_of hex) hex.
Proof. destruct hex; [right; split; reflexivity|left; cbn; lia]. Qed.
Lemma hex_ten hex : hex_for 10 hex.
Proof. left. lia. Qed.
Lemma under_digit_iff hex c : under_digit hex c = true <-> exists d, digit_in (base_of hex) c d.
Proof.
  set (f := fun c => match table_value c with Some d => d <? base_of hex | None => false end).
  assert (E : under_digit hex c = f c).
  { apply Bool.eqb_prop. apply (all_ascii (fun c => Bool.eqb (under_digit hex c) (f c))). unfold f. destruct hex; vm_compute; reflexivity. }
  rewrite E. unfold f, digit_in. split.
  - destruct (table_value c) as [d|] eqn:T; [|discriminate]. intros L. apply Z.ltb_lt in L. apply table_in in T. now exists d.
  - intros (d & T & L). apply table_in in T. rewrite T. now apply Z.ltb_lt.
Qed.
Lemma letter_case c : (is_lower c 101 = true <-> c = "e"%char \/ c = "E"%char) /\ (is_lower c 112 = true <-> c = "p"%char \/ c = "P"%char).
Proof.
  assert (H : forall z x y, 
    forallb (fun n => Bool.eqb (is_lower (ascii_of_nat n) z) (Ascii.eqb (ascii_of_nat n) x || Ascii.eqb (ascii_of_nat n) y)) (seq 0 256) = true ->
    (is_lower c z = true <-> c = x \/ c = y)).
  { intros z x y H. pose proof (all_ascii (fun c => Bool.eqb (is_lower c z) (Ascii.eqb c x || Ascii.eqb c y)) H c) as K. cbv beta in K.
    apply Bool.eqb_prop in K. rewrite K, Bool.orb_true_iff, !Ascii.eqb_eq. reflexivity. }
  split; apply H; vm_compute; reflexivity.
Qed.
(** What ends a run of digits and underscores. *)
Definition stop (hex : bool) (s : string) : Prop :=
  match s with String.EmptyString => True | String.String c _ => c <> "_"%char /\ under_digit hex c = false end.
Lemma split_loose hex : forall s n, exists a r v u, s = a +++ r /\ loose (base_of hex) a n v u /\ stop hex r.
Proof.
  induction s as [|c s IH]; intros n.
  - exists "", "", n, false. split; [reflexivity|]. split; [constructor|exact I].
  - destruct (Ascii.eqb_spec c "_") as [->|N].
    + destruct (IH n) as (a & r & v & u & -> & L & St). exists (chr "_" a), r, v, true. split; [reflexivity|]. split; [now apply loose_under with u|exact St].
    + destruct (under_digit hex c) eqn:D.
      * apply under_digit_iff in D. destruct D as [d D]. destruct (IH (n * base_of hex + d)) as (a & r & v & u & -> & L & St).
        exists (chr c a), r, v, u. split; [reflexivity|]. split; [now apply loose_digit with d|exact St].
      * exists "", (chr c s), n, false. split; [reflexivity|]. split; [constructor|]. now split.
Qed.
Lemma digit_count_nonneg s : 0 <= digit_count s.
Proof. induction s as [|c s IH]; cbn [digit_count]; [lia|]. destruct (Ascii.eqb c "_"); lia. Qed.
Lemma digit_count_chr c s : c <> "_"%char -> digit_count (chr c s) = digit_count s + 1.
Proof. intros N. cbn [digit_count]. rewrite (proj2 (Ascii.eqb_neq c "_") N). lia. Qed.

(** * The mantissa *)

Lemma mant_digit hex dot n k dg un c d s : digit_in (base_of hex) c d ->
  mant_loop hex dot n k dg un (chr c s) = mant_loop hex dot (n * base_of hex + d) (if dot then k + 1 else k) true un s.
Proof.
  intros [H L]. cbn [digits_table In] in H. destruct hex; cbn [base_of] in L;
    repeat (destruct H as [H|H]; [injection H as <- <-; reflexivity || lia|]); destruct H.
Qed.
Lemma mant_run hex a n v u : loose (base_of hex) a n v u -> forall dot k dg un r,
  mant_loop hex dot n k dg un (a +++ r) = mant_loop hex dot v (if dot then k + digit_count a else k) (dg || (0 <? digit_count a)) (un || u) r.
Proof.
  intros H. induction H as [n|s n v u H IH|c d s n v u D H IH]; intros dot k dg un r.
  - cbn [String.append digit_count]. rewrite !Bool.orb_false_r. destruct dot; [now rewrite Z.add_0_r|reflexivity].
  - cbn [String.append]. cbn [mant_loop]. change (Ascii.eqb "_" "_") with true. cbv iota. rewrite IH. cbn [orb]. rewrite Bool.orb_true_r.
    cbn [digit_count]. change (Ascii.eqb "_" "_") with true. reflexivity.
  - cbn [String.append]. rewrite (mant_digit _ _ _ _ _ _ _ _ _ D), IH. pose proof (digit_in_facts _ _ _ D) as (_ & N & _).
    rewrite (digit_count_chr c s N). pose proof (digit_count_nonneg s). rewrite (proj2 (Z.ltb_lt 0 (digit_count s + 1))) by lia.
    cbn [orb]. rewrite Bool.orb_true_r. destruct dot; [|reflexivity]. now replace (k + 1 + digit_count s) with (k + (digit_count s + 1)) by lia.
Qed.
Lemma mant_stop hex dot n k dg un r : stop hex r -> (dot = true \/ forall t, r <> chr "." t) -> mant_loop hex dot n k dg un r = mkMant n k dg un r.
Proof.
  destruct r as [|c r]; [reflexivity|]. intros [N D] H. cbn [mant_loop]. rewrite (proj2 (Ascii.eqb_neq c "_") N).
  destruct (Ascii.eqb_spec c ".") as [->|Nd].
  - destruct H as [->|H]; [reflexivity|]. now destruct (H r).
  - unfold under_digit in D. apply Bool.orb_false_iff in D. destruct D as [-> ->]. reflexivity.
Qed.
Lemma mant_dot hex n k dg un r : mant_loop hex false n k dg un (chr "." r) = mant_loop hex true n k dg un r.
Proof. reflexivity. Qed.

(** Digits and underscores, with a dot or without. *)
Definition mtext (a : string) (ob : option string) : string := (a ++ match ob with Some b => "." ++ b | None => "" end)%string.
Definition loose_mant (base : Z) (a : string) (ob : option string) (m k : Z) (u : bool) : Prop :=
  exists n u1, loose base a 0 n u1 /\
    match ob with
    | None => m = n /\ k = 0 /\ u = u1
    | Some b => exists u2, loose base b n m u2 /\ k = digit_count b /\ u = u1 || u2
    end.
Definition all_digits (a : string) (ob : option string) : Z := digit_count a + match ob with Some b => digit_count b | None => 0 end.
Lemma mant_text hex a ob m k u r : loose_mant (base_of hex) a ob m k u -> stop hex r -> (forall t, r <> chr "." t) ->
  mant_loop hex false 0 0 false false (mtext a ob +++ r) = mkMant m k (0 <? all_digits a ob) u r.
Proof.
  intros (n & u1 & L & O) St Nd. unfold mtext, all_digits. rewrite append_assoc'. rewrite (mant_run hex a 0 n u1 L). cbn [orb]. destruct ob as [b|].
  - destruct O as (u2 & Lb & -> & ->). cbn [String.append]. rewrite mant_dot, (mant_run hex b n m u2 Lb), mant_stop by (assumption || now left).
    rewrite Z.add_0_l. f_equal. pose proof (digit_count_nonneg a). pose proof (digit_count_nonneg b).
    destruct (Z.ltb_spec 0 (digit_count a)), (Z.ltb_spec 0 (digit_count b)), (Z.ltb_spec 0 (digit_count a + digit_count b)); cbn [orb]; lia || reflexivity.
  - destruct O as (-> & -> & ->). cbn [String.append]. rewrite Z.add_0_r. apply mant_stop; [exact St|now right].
Qed.
Lemma mant_split hex s : exists a ob m k u r, s = mtext a ob +++ r /\ loose_mant (base_of hex) a ob m k u /\ stop hex r /\
  mant_loop hex false 0 0 false false s = mkMant m k (0 <? all_digits a ob) u r.
Proof.
  destruct (split_loose hex s 0) as (a & r & n & u & -> & L & St). destruct r as [|c r].
  - exists a, None, n, 0, u, "". assert (Lm : loose_mant (base_of hex) a None n 0 u) by (exists n, u; auto).
    assert (E : a +++ "" = mtext a None +++ "") by (unfold mtext; now rewrite !append_empty). rewrite E.
    split; [reflexivity|]. split; [exact Lm|]. split; [exact I|]. apply (mant_text hex a None); [exact Lm|exact I|discriminate].
  - destruct (Ascii.eqb_spec c ".") as [->|N].
    + destruct (split_loose hex r n) as (b & r2 & m & u2 & -> & Lb & St2). exists a, (Some b), m, (digit_count b), (u || u2), r2.
      assert (Lm : loose_mant (base_of hex) a (Some b) m (digit_count b) (u || u2)) by (exists n, u; split; [exact L|]; exists u2; auto).
      split; [unfold mtext; rewrite append_assoc'; reflexivity|]. split; [exact Lm|]. split; [exact St2|].
      rewrite (mant_run hex a 0 n u L), mant_dot, (mant_run hex b n m u2 Lb), mant_stop by (assumption || now left). cbn [orb]. unfold all_digits.
      rewrite Z.add_0_l. f_equal. pose proof (digit_count_nonneg a). pose proof (digit_count_nonneg b).
      destruct (Z.ltb_spec 0 (digit_count a)), (Z.ltb_spec 0 (digit_count b)), (Z.ltb_spec 0 (digit_count a + digit_count b)); cbn [orb]; lia || reflexivity.
    + exists a, None, n, 0, u, (chr c r). assert (Lm : loose_mant (base_of hex) a None n 0 u) by (exists n, u; auto).
      assert (E : a +++ chr c r = mtext a None +++ chr c r) by (unfold mtext; now rewrite append_empty). rewrite E.
      split; [reflexivity|]. split; [exact Lm|]. split; [exact St|]. apply (mant_text hex a None); [exact Lm|exact St|]. intros t K. injection K as -> _. now destruct N.
Qed.

(** * The exponent *)

Fixpoint cap_under (e : Z) (s : string) : Z :=
  match s with
  | String.EmptyString => e
  | String.String c s' =>
    if Ascii.eqb c "_" then cap_under e s' else cap_under (if e <? 10000 then e * 10 + (byte c - 48) else e) s'
  end.
Lemma dec_digit c d : digit_in 10 c d -> ((48 <=? byte c) && (byte c <=? 57)) = true /\ d = byte c - 48 /\ c <> "_"%char.
Proof.
  intros [H L]. cbn [digits_table In] in H.
  repeat (destruct H as [H|H]; [injection H as <- <-; (split; [reflexivity|split; [reflexivity|discriminate]]) || lia|]). destruct H.
Qed.
Lemma exp_run d n v u : loose 10 d n v u -> forall e un r, stop false r -> exp_loop e un (d +++ r) = (cap_under e d, un || u, r).
Proof.
  intros H. induction H as [n|s n v u H IH|c x s n v u D H IH]; intros e un r St.
  - cbn [String.append cap_under]. rewrite Bool.orb_false_r. destruct r as [|c r]; [reflexivity|]. cbn [exp_loop]. destruct St as [N St].
    unfold under_digit in St. cbn [andb] in St. rewrite Bool.orb_false_r in St. rewrite St, (proj2 (Ascii.eqb_neq c "_") N). reflexivity.
  - cbn [String.append exp_loop cap_under]. change ((48 <=? byte "_") && (byte "_" <=? 57)) with false. change (Ascii.eqb "_" "_") with true. cbv iota.
    rewrite IH by exact St. cbn [orb]. now rewrite Bool.orb_true_r.
  - cbn [String.append exp_loop cap_under]. destruct (dec_digit c x D) as (-> & _ & N). rewrite (proj2 (Ascii.eqb_neq c "_") N). now apply IH.
Qed.
Lemma cap_stop s : forall e, 10000 <= e -> cap_under e s = e.
Proof.
  induction s as [|c s IH]; intros e H; [reflexivity|]. cbn [cap_under]. destruct (Ascii.eqb c "_"); [now apply IH|]. destruct (Z.ltb_spec e 10000); [lia|now apply IH].
Qed.
Lemma cap_spec d n v u : loose 10 d n v u -> 0 <= n < 10000 -> (v < 100000 -> cap_under n d = v) /\ (100000 <= v -> 10000 <= cap_under n d).
Proof.
  intros H. induction H as [n|s n v u H IH|c x s n v u D H IH]; intros Hn.
  - cbn [cap_under]. lia.
  - cbn [cap_under]. change (Ascii.eqb "_" "_") with true. now apply IH.
  - cbn [cap_under]. destruct (dec_digit c x D) as (_ & E & N). rewrite (proj2 (Ascii.eqb_neq c "_") N), <- E. destruct (Z.ltb_spec n 10000); [|lia].
    pose proof (digit_in_facts _ _ _ D) as (B & _). destruct (Z_lt_le_dec (n * 10 + x) 10000) as [L|L]; [apply IH; lia|]. rewrite (cap_stop s _ L).
    split; [|lia]. intros V.
    assert (G : forall s n v u, loose 10 s n v u -> 10000 <= n -> v < 100000 -> n = v).
    { clear. intros s n v u H. induction H as [n|s n v u H IH|c x s n v u D H IH]; intros A B; [reflexivity|now apply IH|]. exfalso.
      pose proof (digit_in_facts _ _ _ D) as (C & _). apply loose_ge in H; [|lia|nia]. nia. }
    now apply (G s _ v u).
Qed.

Definition mark (hex : bool) (x : string) : Prop := In x (if hex then ["p"; "P"] else ["e"; "E"]).
Definition etext (oe : option (string * string * string)) : string := match oe with None => "" | Some (x, sg, d) => (x ++ sg ++ d)%string end.
Definition loose_exp (hex : bool) (oe : option (string * string * string)) (v c : Z) (u : bool) : Prop :=
  match oe with
  | None => hex = false /\ v = 0 /\ c = 0 /\ u = false
  | Some (x, sg, d) => mark hex x /\ starts_digit d = true /\ exists w, loose 10 d 0 w u /\
      ((In sg [""; "+"] /\ v = w /\ c = cap_under 0 d) \/ (sg = "-" /\ v = - w /\ c = - cap_under 0 d))
  end.
Definition mark_char (hex : bool) (c : ascii) : bool := is_lower c (if hex then 112 else 101).
Lemma mark_iff hex c : mark_char hex c = true <-> mark hex (chr c "").
Proof.
  unfold mark_char, mark. destruct (letter_case c) as [E P]. destruct hex; [rewrite P|rewrite E]; cbn [In];
    (split; [intros [-> | ->]; tauto|intros [H|[H|[]]]; injection H as ->; tauto]).
Qed.
Lemma mark_one hex x : mark hex x -> exists c, x = chr c "" /\ mark_char hex c = true.
Proof.
  intros H. assert (K : exists c, x = chr c "") by (unfold mark in H; destruct hex; cbn in H; destruct H as [<-|[<-|[]]]; eexists; reflexivity).
  destruct K as [c ->]. exists c. split; [reflexivity|now apply mark_iff].
Qed.
Lemma int_sign_at sg t : starts_digit t = true -> (In sg [""; "+"] -> int_sign (sg +++ t) = (false, t)) /\ (sg = "-" -> int_sign (sg +++ t) = (true, t)).
Proof.
  intros H. destruct t as [|c t]; [discriminate|]. split.
  - intros [<-|[<-|[]]]; cbn [String.append]; [|reflexivity]. unfold int_sign. cbn [starts_digit] in H.
    destruct (Ascii.eqb_spec c "+") as [->|_]; [discriminate|]. destruct (Ascii.eqb_spec c "-") as [->|_]; [discriminate|reflexivity].
  - intros ->. reflexivity.
Qed.
Lemma int_sign_split s neg t : int_sign s = (neg, t) -> exists sg, s = sg +++ t /\ ((In sg [""; "+"] /\ neg = false) \/ (sg = "-" /\ neg = true)).
Proof.
  unfold int_sign. destruct s as [|c s].
  - intros H. injection H as <- <-. exists "". split; [reflexivity|]. left. split; [now left|reflexivity].
  - destruct (Ascii.eqb_spec c "+") as [->|_]; [|destruct (Ascii.eqb_spec c "-") as [->|_]]; intros H; injection H as <- <-.
    + exists "+". split; [reflexivity|]. left. split; [right; now left|reflexivity].
    + exists "-". split; [reflexivity|]. right. now split.
    + exists "". split; [reflexivity|]. left. split; [now left|reflexivity].
Qed.
Lemma exp_text hex x sg d v c u : loose_exp hex (Some (x, sg, d)) v c u -> exists y, x = chr y "" /\ mark_char hex y = true /\ read_exp (sg +++ d) = Some (c, u, "").
Proof.
  intros (M & St & w & L & S). apply mark_one in M. destruct M as (y & -> & M). exists y. split; [reflexivity|]. split; [exact M|].
  unfold read_exp. destruct (int_sign_at sg d St) as [S1 S2]. pose proof (exp_run d 0 w u L 0 false "" I) as R. rewrite append_empty in R. cbn [orb] in R.
  destruct S as [(I & -> & ->)|(I & -> & ->)]; [rewrite (S1 I)|rewrite (S2 I)]; cbv iota; rewrite St, R; reflexivity.
Qed.
Lemma exp_split hex y r c u : mark_char hex y = true -> read_exp r = Some (c, u, "") -> exists sg d v, r = sg +++ d /\ loose_exp hex (Some (chr y "", sg, d)) v c u.
Proof.
  intros M H. unfold read_exp in H. destruct (int_sign r) as [neg d] eqn:S. apply int_sign_split in S. destruct S as (sg & -> & S).
  destruct (starts_digit d) eqn:St; [|discriminate]. destruct (split_loose false d 0) as (b & r & w & x & -> & L & Sr). cbn [base_of] in L.
  rewrite (exp_run b 0 w x L 0 false r Sr) in H. cbn [orb] in H. injection H as <- <- ->. rewrite append_empty in *.
  exists sg, b, (if neg then - w else w). split; [reflexivity|]. split; [now apply mark_iff|]. split; [exact St|]. exists w. split; [exact L|].
  destruct S as [[I ->]|[-> ->]]; [left|right]; (split; [assumption || reflexivity|]; split; reflexivity).
Qed.

(** * Where underscores may be *)

Definition no_under (c : ascii) : Prop := c <> "_"%char.
Lemma loose_no_under base a n v : loose base a n v false -> all_chars no_under a.
Proof.
  remember false as u eqn:E. induction 1 as [n|s n v u H IH|c d s n v u D H IH]; [exact I|discriminate|].
  split; [|now apply IH]. apply digit_in_facts in D. unfold no_under. tauto.
Qed.
Lemma under_loop_free hex s : all_chars no_under s -> forall st, st <> SUnder -> under_loop hex st s = true.
Proof.
  induction s as [|c s IH]; intros H st N; cbn [under_loop]; [destruct st; congruence|]. destruct H as [Hc H].
  destruct (_ || _); [apply IH; [exact H|discriminate]|]. rewrite (proj2 (Ascii.eqb_neq c "_") Hc). destruct st; try congruence; (apply IH; [exact H|discriminate]).
Qed.
Lemma underscore_free s : all_chars no_under s -> underscore_ok s = true.
Proof.
  intros H. unfold underscore_ok. assert (D : all_chars no_under (drop_sign s)).
  { destruct s as [|c s]; [exact I|]. unfold drop_sign. destruct (_ || _); [apply H|exact H]. }
  destruct (drop_sign s) as [|a [|b s']]; try (apply under_loop_free; [exact D|discriminate]).
  destruct (_ && _); (apply under_loop_free; [|discriminate]); [apply D|exact D].
Qed.

(** What follows a run of digits and underscores. *)
Definition tail_ok (hex : bool) (r : string) : bool := match r with String.EmptyString => true | String.String _ r' => under_loop hex SOther r' end.
Lemma under_stop hex st r : stop hex r -> under_loop hex st r = match st with SUnder => false | _ => tail_ok hex r end.
Proof.
  destruct r as [|c r]; [destruct st; reflexivity|]. intros [N D]. cbn [under_loop tail_ok]. unfold under_digit in D. rewrite D, (proj2 (Ascii.eqb_neq c "_") N).
  destruct st; reflexivity.
Qed.
Lemma under_run base hex a n v u r : hex_for base hex -> loose base a n v u -> stop hex r ->
  (under_loop hex SDigit (a +++ r) = true <-> after_digit base a n v /\ tail_ok hex r = true) /\
  (under_loop hex SUnder (a +++ r) = true <-> grouped base a n v /\ tail_ok hex r = true).
Proof.
  intros Hx H St. induction H as [n|s n v u H IH|c d s n v u D H IH]; cbn [String.append].
  - rewrite !under_stop by exact St. split.
    + split; [intros T; split; [now left|exact T]|tauto].
    + split; [discriminate|]. intros [K _]. now apply grouped_empty in K.
  - destruct IH as [IH1 IH2]. cbn [under_loop]. assert (E : ((48 <=? byte "_") && (byte "_" <=? 57)) || (hex && ((97 <=? lower "_") && (lower "_" <=? 102))) = false) by (destruct hex; reflexivity).
    rewrite E. change (Ascii.eqb "_" "_") with true. cbv iota. split.
    + rewrite IH2. split; [intros [G T]; split; [right; right; now exists s|exact T]|]. intros [[[K _]|[K|(s' & K & G)]] T]; [discriminate|now apply grouped_not_under in K|]. injection K as <-. now split.
    + split; [discriminate|]. intros [K _]. now apply grouped_not_under in K.
  - destruct IH as [IH1 IH2]. pose proof (digit_in_under base hex c d Hx D) as E. unfold under_digit in E. cbn [under_loop]. rewrite E. split.
    + rewrite IH1, <- (grouped_after base c d s n v D). split; [intros [G T]; split; [right; now left|exact T]|]. intros [[[K _]|[K|(s' & K & G)]] T]; [discriminate|now split|].
      injection K as -> _. apply digit_in_facts in D. intuition congruence.
    + now rewrite IH1, <- (grouped_after base c d s n v D).
Qed.
(** At the beginning and after other characters. *)
Definition empty_or_grouped (base : Z) (a : string) (n v : Z) : Prop := (a = "" /\ v = n) \/ grouped base a n v.
Lemma under_fresh base hex a n v u r st : hex_for base hex -> loose base a n v u -> stop hex r -> st = SStart \/ st = SOther ->
  (under_loop hex st (a +++ r) = true <-> empty_or_grouped base a n v /\ tail_ok hex r = true).
Proof.
  intros Hx H St Hst. unfold empty_or_grouped. inversion H as [n'|s n' v' u' H' |c d s n' v' u' D H']; subst; cbn [String.append].
  - rewrite under_stop by exact St. destruct Hst as [-> | ->]; split; tauto.
  - cbn [under_loop]. assert (E : ((48 <=? byte "_") && (byte "_" <=? 57)) || (hex && ((97 <=? lower "_") && (lower "_" <=? 102))) = false) by (destruct hex; reflexivity).
    rewrite E. change (Ascii.eqb "_" "_") with true. cbv iota. assert (F : match st with SDigit => under_loop hex SUnder (s +++ r) | _ => false end = false) by (destruct Hst as [-> | ->]; reflexivity).
    rewrite F. split; [discriminate|]. intros [[[K _]|K] _]; [discriminate|now apply grouped_not_under in K].
  - pose proof (digit_in_under base hex c d Hx D) as E. unfold under_digit in E. cbn [under_loop]. rewrite E.
    destruct (under_run base hex s _ v u r Hx H' St) as [R _]. rewrite R, <- (grouped_after base c d s n v D).
    split; [intros [G T]; split; [now right|exact T]|]. intros [[[K _]|K] T]; [discriminate|now split].
Qed.

Lemma stop_dot hex s : stop hex (chr "." s).
Proof. split; [discriminate|destruct hex; reflexivity]. Qed.
Lemma stop_mark hex x s : mark hex x -> stop hex (x +++ s).
Proof. unfold mark. destruct hex; cbn [In]; intros [<-|[<-|[]]]; (split; [discriminate|reflexivity]). Qed.
Lemma mark_not_dot hex x s t : mark hex x -> x +++ s <> chr "." t.
Proof. unfold mark. destruct hex; cbn [In]; intros [<-|[<-|[]]]; discriminate. Qed.
Lemma stop_etext hex oe v c u : loose_exp hex oe v c u -> stop hex (etext oe) /\ forall t, etext oe <> chr "." t.
Proof.
  destruct oe as [[[x sg] d]|]; cbn [etext]; [|intros _; split; [exact I|discriminate]]. intros (M & _). split; [now apply stop_mark|intros t; now apply (mark_not_dot hex)].
Qed.

Lemma loose_fun base s n v1 u1 : loose base s n v1 u1 -> forall v2 u2, loose base s n v2 u2 -> v1 = v2.
Proof.
  intros H. induction H as [n|s n v u H IH|c x s n v u D H IH]; intros v2 u2 K; inversion K as [n'|s' n' v' u' K'|c' d' s' n' v' u' D' K']; subst; try reflexivity.
  - now apply (IH _ u').
  - apply digit_in_facts in D'. intuition congruence.
  - apply digit_in_facts in D. intuition congruence.
  - assert (x = d') by (destruct D as [D _], D' as [D' _]; apply table_in in D, D'; congruence). subst. now apply (IH _ u2).
Qed.
(** The exponent is well-formed. *)
Definition good_exp (oe : option (string * string * string)) (v : Z) : Prop :=
  match oe with
  | None => v = 0
  | Some (_, sg, d) => exists w, grouped 10 d 0 w /\ ((In sg [""; "+"] /\ v = w) \/ (sg = "-" /\ v = - w))
  end.
Lemma tail_etext hex oe v c u : loose_exp hex oe v c u -> (tail_ok hex (etext oe) = true <-> good_exp oe v).
Proof.
  destruct oe as [[[x sg] d]|]; cbn [etext good_exp tail_ok]; [|intros (_ & H & _); tauto]. intros (M & St & w & L & S). apply mark_one in M. destruct M as (y & -> & _).
  cbn [String.append tail_ok]. assert (E : under_loop hex SOther (sg +++ d) = under_loop hex SOther d).
  { assert (Sg : In sg [""; "+"; "-"]) by (cbn; destruct S as [([<-|[<-|[]]] & _)|(-> & _)]; auto).
    destruct Sg as [<-|[<-|[<-|[]]]]; [reflexivity| |]; cbn [String.append]; cbn [under_loop]; destruct hex; reflexivity. }
  rewrite E. pose proof (under_fresh 10 hex d 0 w u "" SOther (hex_ten hex) L I ltac:(now right)) as F. rewrite append_empty in F. rewrite F. cbn [tail_ok]. split.
  - intros [[[-> _]|G] _]; [discriminate|]. exists w. split; [exact G|]. tauto.
  - intros (w' & G & _). split; [|reflexivity]. right. pose proof (grouped_loose _ _ _ _ G) as [u' L']. now rewrite (loose_fun _ _ _ _ _ L _ _ L').
Qed.
(** The mantissa is well-formed. *)
Definition good_first (base : Z) (hex : bool) (a : string) (n : Z) : Prop := if hex then after_digit base a 0 n else empty_or_grouped base a 0 n.
Definition good_mant (base : Z) (hex : bool) (a : string) (ob : option string) (m k : Z) : Prop :=
  exists n, good_first base hex a n /\
    match ob with None => m = n /\ k = 0 | Some b => empty_or_grouped base b n m /\ k = digit_count b end.
Lemma empty_loose base b n m : empty_or_grouped base b n m -> exists u, loose base b n m u.
Proof. intros [[-> ->]|G]; [exists false; constructor|now apply grouped_loose]. Qed.
Lemma first_loose base hex a n : good_first base hex a n -> exists u, loose base a 0 n u.
Proof. unfold good_first. destruct hex; [apply after_loose|apply empty_loose]. Qed.
Lemma under_first hex a n u r : loose (base_of hex) a 0 n u -> stop hex r ->
  (under_loop hex (if hex then SDigit else SStart) (a +++ r) = true <-> good_first (base_of hex) hex a n /\ tail_ok hex r = true).
Proof.
  intros L St. unfold good_first. destruct hex.
  - apply (under_run (base_of true) true a 0 n u r (hex_base true) L St).
  - apply (under_fresh (base_of false) false a 0 n u r SStart (hex_base false) L St). now left.
Qed.
Lemma under_number hex a ob m k u oe v c u2 : loose_mant (base_of hex) a ob m k u -> loose_exp hex oe v c u2 ->
  (under_loop hex (if hex then SDigit else SStart) (mtext a ob +++ etext oe) = true <-> good_mant (base_of hex) hex a ob m k /\ good_exp oe v).
Proof.
  intros (n & u1 & L & O) E. destruct (stop_etext _ _ _ _ _ E) as [St _]. unfold mtext, good_mant. rewrite append_assoc'. destruct ob as [b|].
  - destruct O as (u3 & Lb & -> & ->). cbn [String.append]. rewrite (under_first hex a n u1 _ L (stop_dot hex _)). cbn [tail_ok].
    rewrite (under_fresh (base_of hex) hex b n m u3 (etext oe) SOther (hex_base hex) Lb St) by now right. rewrite (tail_etext _ _ _ _ _ E). split.
    + intros (A & B & C). split; [|exact C]. now exists n.
    + intros ((n' & A & B & _) & C). pose proof (first_loose _ _ _ _ A) as [u4 L4]. rewrite <- (loose_fun _ _ _ _ _ L _ _ L4) in *. tauto.
  - destruct O as (-> & -> & ->). cbn [String.append]. rewrite (under_first hex a n u1 _ L St), (tail_etext _ _ _ _ _ E). split.
    + intros (A & B). split; [|exact B]. now exists n.
    + intros ((n' & A & -> & _) & B). now split.
Qed.
Lemma good_loose hex a ob m k : good_mant (base_of hex) hex a ob m k -> exists u, loose_mant (base_of hex) a ob m k u.
Proof.
  intros (n & A & B). apply first_loose in A. destruct A as [u A]. unfold loose_mant. destruct ob as [b|].
  - destruct B as [B ->]. apply empty_loose in B. destruct B as [u2 B]. exists (u || u2), n, u. split; [exact A|]. now exists u2.
  - destruct B as [-> ->]. now exists u, n, u.
Qed.

(** * The whole text *)

Definition sign_of (sg : string) (neg : bool) : Prop := (In sg [""; "+"] /\ neg = false) \/ (sg = "-" /\ neg = true).
Definition prefix_of (hex : bool) (p : string) : Prop := if hex then In p ["0x"; "0X"] else p = "".
Definition unsigned (t : string) : Prop := match t with String.EmptyString => True | String.String c _ => c <> "+"%char /\ c <> "-"%char end.
Lemma int_sign_sg sg neg t : sign_of sg neg -> unsigned t -> int_sign (sg +++ t) = (neg, t).
Proof.
  intros [([<-|[<-|[]]] & ->)|(-> & ->)] U; cbn [String.append]; try reflexivity. unfold int_sign. destruct t as [|c t]; [reflexivity|]. destruct U as [P M].
  now rewrite (proj2 (Ascii.eqb_neq c "+") P), (proj2 (Ascii.eqb_neq c "-") M).
Qed.
Lemma drop_sign_sg sg neg t : sign_of sg neg -> unsigned t -> drop_sign (sg +++ t) = t.
Proof.
  intros [([<-|[<-|[]]] & ->)|(-> & ->)] U; cbn [String.append]; try reflexivity. unfold drop_sign. destruct t as [|c t]; [reflexivity|]. destruct U as [P M].
  now rewrite (proj2 (Ascii.eqb_neq c "+") P), (proj2 (Ascii.eqb_neq c "-") M).
Qed.
Definition no_letter (c : ascii) : Prop := is_lower c 98 = false /\ is_lower c 111 = false /\ is_lower c 120 = false.
Lemma loose_letters a n v u : loose 10 a n v u -> all_chars no_letter a.
Proof.
  intros H. induction H as [n|s n v u H IH|c d s n v u [D L] H IH]; [exact I| |].
  - split; [|exact IH]. now split.
  - split; [|exact IH]. cbn [digits_table In] in D. unfold no_letter. repeat (destruct D as [D|D]; [injection D as <- <-; (split; [reflexivity|split; reflexivity]) || lia|]). destruct D.
Qed.
Lemma all_chars_both P a b : all_chars P a -> all_chars P b -> all_chars P (a +++ b).
Proof. intros. now apply all_chars_app. Qed.
Lemma mant_letters a ob m k u : loose_mant 10 a ob m k u -> all_chars no_letter (mtext a ob).
Proof.
  intros (n & u1 & L & O). unfold mtext. apply all_chars_both; [now apply (loose_letters _ _ _ _ L)|]. destruct ob as [b|]; [|exact I].
  destruct O as (u2 & L2 & _). split; [now split|]. now apply (loose_letters _ _ _ _ L2).
Qed.
Lemma exp_letters oe v c u : loose_exp false oe v c u -> all_chars no_letter (etext oe).
Proof.
  destruct oe as [[[x sg] d]|]; [|intros _; exact I]. intros (M & _ & w & L & S). cbn [etext]. apply all_chars_both; [|apply all_chars_both; [|now apply (loose_letters _ _ _ _ L)]].
  - unfold mark in M. cbn in M. destruct M as [<-|[<-|[]]]; (split; [now split|exact I]).
  - destruct S as [([<-|[<-|[]]] & _)|(-> & _)]; cbn; [exact I| |]; (split; [now split|exact I]).
Qed.
Lemma mant_first base a ob m k u : loose_mant base a ob m k u -> 0 < all_digits a ob -> unsigned (mtext a ob) /\ mtext a ob <> "".
Proof.
  intros (n & u1 & L & O) P. unfold mtext. inversion L as [n'|s n' v' u' L'|c d s n' v' u' D L']; subst.
  - destruct ob as [b|]; [|cbn in P; lia]. cbn. split; [split; discriminate|discriminate].
  - cbn. split; [split; discriminate|discriminate].
  - cbn. split; [|discriminate]. destruct D as [D _]. cbn [digits_table In] in D. repeat (destruct D as [D|D]; [injection D as <- <-; split; discriminate|]). destruct D.
Qed.
Lemma unsigned_app t r : unsigned t -> t <> "" -> unsigned (t +++ r) /\ t +++ r <> "".
Proof. destruct t as [|c t]; [congruence|]. cbn. split; [exact H|discriminate]. Qed.

Definition hex_split (t : string) : bool * string :=
  match t with
  | String.String a (String.String b (String.String _ _ as t')) =>
    if Ascii.eqb a "0" && is_lower b 120 then (true, t') else (false, t)
  | _ => (false, t)
  end.
Lemma hex_letter : forall c, is_lower c 120 = true -> c = "x"%char \/ c = "X"%char.
Proof.
  assert (H : forall c, (negb (is_lower c 120) || Ascii.eqb c "x" || Ascii.eqb c "X") = true) by (apply all_ascii; vm_compute; reflexivity).
  intros c E. specialize (H c). rewrite E in H. cbn in H. apply Bool.orb_true_iff in H. destruct H as [H|H]; apply Ascii.eqb_eq in H; tauto.
Qed.
Lemma hex_split_split t hex r : hex_split t = (hex, r) -> exists p, t = p +++ r /\ prefix_of hex p.
Proof.
  assert (N : (false, t) = (hex, r) -> exists p, t = p +++ r /\ prefix_of hex p) by (intros E; injection E as <- <-; exists ""; split; reflexivity).
  unfold hex_split. destruct t as [|a [|b [|c t]]]; try exact N. destruct (Ascii.eqb_spec a "0") as [->|]; [|exact N]. destruct (is_lower b 120) eqn:B; [|exact N].
  cbn. intros E. injection E as <- <-. apply hex_letter in B. destruct B as [-> | ->]; [exists "0x"|exists "0X"]; (split; [reflexivity|cbn; tauto]).
Qed.
Lemma hex_split_at p r : In p ["0x"; "0X"] -> r <> "" -> hex_split (p +++ r) = (true, r).
Proof. intros P N. destruct r as [|c r]; [congruence|]. destruct P as [<-|[<-|[]]]; reflexivity. Qed.
Lemma hex_split_none t : all_chars no_letter t -> hex_split t = (false, t).
Proof.
  unfold hex_split. destruct t as [|a [|b [|c t]]]; try reflexivity. intros (_ & (_ & _ & X) & _). rewrite X. now rewrite Bool.andb_false_r.
Qed.
Lemma underscore_hex p r : In p ["0x"; "0X"] -> forall sg neg, sign_of sg neg -> underscore_ok (sg +++ p +++ r) = under_loop true SDigit r.
Proof.
  intros P sg neg S. unfold underscore_ok. rewrite (drop_sign_sg sg neg _ S) by (destruct P as [<-|[<-|[]]]; cbn; split; discriminate).
  destruct P as [<-|[<-|[]]]; reflexivity.
Qed.
Lemma underscore_dec sg neg t : sign_of sg neg -> unsigned t -> all_chars no_letter t -> underscore_ok (sg +++ t) = under_loop false SStart t.
Proof.
  intros S U L. unfold underscore_ok. rewrite (drop_sign_sg sg neg _ S U). destruct t as [|a [|b t]]; try reflexivity. destruct L as (_ & (B & O & X) & _).
  rewrite B, O, X. cbn [orb]. now rewrite Bool.andb_false_r.
Qed.

Lemma underscore_number sg neg p hex a ob m k u oe v c u2 : sign_of sg neg -> prefix_of hex p -> loose_mant (base_of hex) a ob m k u -> 0 < all_digits a ob ->
  loose_exp hex oe v c u2 ->
  (underscore_ok (sg +++ p +++ mtext a ob +++ etext oe) = true <-> good_mant (base_of hex) hex a ob m k /\ good_exp oe v).
Proof.
  intros S P L D E. rewrite <- (under_number hex a ob m k u oe v c u2 L E). destruct hex.
  - now rewrite (underscore_hex p _ P sg neg S).
  - cbn in P. subst p. cbn [String.append]. destruct (mant_first _ _ _ _ _ _ L D) as [U N]. rewrite (underscore_dec sg neg); [reflexivity|exact S| |].
    + now apply unsigned_app.
    + apply all_chars_both; [now apply (mant_letters _ _ _ _ _ L)|now apply (exp_letters _ _ _ _ E)].
Qed.
Lemma number_free sg neg p hex a ob m k oe v c : sign_of sg neg -> prefix_of hex p -> loose_mant (base_of hex) a ob m k false -> loose_exp hex oe v c false ->
  all_chars no_under (sg +++ p +++ mtext a ob +++ etext oe).
Proof.
  intros S P (n & u1 & L & O) E. apply all_chars_both; [|apply all_chars_both; [|apply all_chars_both]].
  - destruct S as [([<-|[<-|[]]] & _)|(-> & _)]; cbn; try exact I; (split; [discriminate|exact I]).
  - destruct hex; cbn in P; [destruct P as [<-|[<-|[]]]|subst p; exact I]; (split; [discriminate|split; [discriminate|exact I]]).
  - unfold mtext. destruct ob as [b|].
    + destruct O as (u2 & L2 & _ & O). symmetry in O. apply Bool.orb_false_iff in O. destruct O as [-> ->]. apply all_chars_both; [now apply (loose_no_under _ _ _ _ L)|].
      split; [discriminate|now apply (loose_no_under _ _ _ _ L2)].
    + destruct O as (_ & _ & <-). rewrite append_empty. now apply (loose_no_under _ _ _ _ L).
  - destruct oe as [[[x s] d]|]; [|exact I]. cbn [etext]. destruct E as (M & _ & w & L2 & S2). apply all_chars_both; [|apply all_chars_both; [|now apply (loose_no_under _ _ _ _ L2)]].
    + unfold mark in M. destruct hex; cbn in M; destruct M as [<-|[<-|[]]]; (split; [discriminate|exact I]).
    + destruct S2 as [([<-|[<-|[]]] & _)|(-> & _)]; cbn; [exact I| |]; (split; [discriminate|exact I]).
Qed.

Lemma read_float_text s neg hex D k c : read_float s = Some (neg, hex, D, k, c) <->
  exists sg p a ob oe v u, s = sg +++ p +++ mtext a ob +++ etext oe /\ sign_of sg neg /\ prefix_of hex p /\
    good_mant (base_of hex) hex a ob D k /\ 0 < all_digits a ob /\ good_exp oe v /\ loose_exp hex oe v c u.
Proof.
  split.
  - intros H. unfold read_float in H. destruct (int_sign s) as [neg' t] eqn:Sg. apply int_sign_split in Sg. destruct Sg as (sg & -> & Sg).
    change (match t with String.String a (String.String b (String.String _ _ as t')) => if Ascii.eqb a "0" && is_lower b 120 then (true, t') else (false, t) | _ => (false, t) end)
      with (hex_split t) in H.
    destruct (hex_split t) as [hex' r] eqn:Hx. apply hex_split_split in Hx. destruct Hx as (p & -> & P).
    destruct (mant_split hex' r) as (a & ob & m & k' & u & r' & -> & L & St & M). rewrite M in H. cbn [m_digits m_rest m_under m_value m_frac] in H.
    destruct (Z.ltb_spec 0 (all_digits a ob)) as [Dg|]; [|discriminate].
    assert (K : exists oe v u2, r' = etext oe /\ loose_exp hex' oe v c u2 /\ neg' = neg /\ hex' = hex /\ m = D /\ k' = k /\
      ((u || u2) && negb (underscore_ok (sg +++ p +++ mtext a ob +++ r')) = false)).
    { destruct r' as [|y r'].
      - destruct hex'; [discriminate|]. cbn [String.eqb] in H. destruct (_ && _) eqn:U; [discriminate|]. injection H as <- <- <- <- <-.
        exists None, 0, false. split; [reflexivity|]. split; [cbn; tauto|]. repeat (split; [reflexivity|]). exact U.
      - change (is_lower y (if hex' then 112 else 101)) with (mark_char hex' y) in H. destruct (mark_char hex' y) eqn:Y.
        + destruct (read_exp r') as [[[e u2] rest]|] eqn:X; [|discriminate]. destruct (String.eqb_spec rest "") as [->|]; [|discriminate].
          destruct (_ && _) eqn:U; [discriminate|]. injection H as <- <- <- <- <-. destruct (exp_split hex' y r' e u2 Y X) as (sg2 & d & v & -> & E).
          exists (Some (chr y "", sg2, d)), v, u2. split; [reflexivity|]. split; [exact E|]. repeat (split; [reflexivity|]). exact U.
        + destruct hex'; [discriminate|]. cbn in H. discriminate. }
    destruct K as (oe & v & u2 & -> & E & -> & -> & -> & -> & U). exists sg, p, a, ob, oe, v, u2. split; [reflexivity|]. split; [exact Sg|]. split; [exact P|].
    assert (G : underscore_ok (sg +++ p +++ mtext a ob +++ etext oe) = true).
    { destruct (underscore_ok (sg +++ p +++ mtext a ob +++ etext oe)) eqn:N; [reflexivity|]. rewrite <- N. apply underscore_free. cbn [negb] in U. rewrite Bool.andb_true_r in U.
      apply Bool.orb_false_iff in U. destruct U as [-> ->]. now apply (number_free sg neg p hex a ob D k oe v c Sg P L E). }
    apply (underscore_number sg neg p hex a ob D k u oe v c u2 Sg P L Dg E) in G. tauto.
  - intros (sg & p & a & ob & oe & v & u & -> & Sg & P & M & Dg & E & X). destruct (good_loose hex a ob D k M) as [u1 L].
    pose proof (proj2 (underscore_number sg neg p hex a ob D k u1 oe v c u Sg P L Dg X) (conj M E)) as U.
    destruct (mant_first _ _ _ _ _ _ L Dg) as [Un Ne]. destruct (unsigned_app _ (etext oe) Un Ne) as [Un2 Ne2]. unfold read_float.
    rewrite (int_sign_sg sg neg) by (exact Sg || (destruct hex; cbn in P; [destruct P as [<-|[<-|[]]]; (split; discriminate)|subst p; exact Un2])).
    change (match p +++ mtext a ob +++ etext oe with String.String a0 (String.String b (String.String _ _ as t')) => if Ascii.eqb a0 "0" && is_lower b 120 then (true, t') else (false, p +++ mtext a ob +++ etext oe) | _ => (false, p +++ mtext a ob +++ etext oe) end)
      with (hex_split (p +++ mtext a ob +++ etext oe)).
    assert (Hx : hex_split (p +++ mtext a ob +++ etext oe) = (hex, mtext a ob +++ etext oe)).
    { destruct hex; cbn in P; [now apply hex_split_at|]. subst p. cbn [String.append]. apply hex_split_none.
      apply all_chars_both; [now apply (mant_letters _ _ _ _ _ L)|now apply (exp_letters _ _ _ _ X)]. }
    rewrite Hx. destruct (stop_etext _ _ _ _ _ X) as [St Nd]. rewrite (mant_text hex a ob D k u1 (etext oe) L St Nd). cbn [m_digits m_rest m_under m_value m_frac].
    rewrite (proj2 (Z.ltb_lt _ _) Dg). destruct oe as [[[x sg2] d]|].
    + destruct (exp_text _ _ _ _ _ _ _ X) as (y & -> & My & R). cbn [etext String.append]. change (is_lower y (if hex then 112 else 101)) with (mark_char hex y). rewrite My, R. cbn [String.eqb].
      cbn [etext String.append] in U. rewrite U. cbn [negb]. now rewrite Bool.andb_false_r.
    + destruct X as (-> & _ & -> & _). cbn [etext String.eqb]. cbn [etext] in U. rewrite U. cbn [negb]. now rewrite Bool.andb_false_r.
Qed.

(** * Literals *)

Lemma grouped_count base s n v : grouped base s n v -> 0 < digit_count s.
Proof.
  assert (N : forall c d, digit_in base c d -> c <> "_"%char) by (intros c d D; apply digit_in_facts in D; intuition congruence).
  induction 1 as [c d n D|c d s n v D G IH|c d s n v D G IH]; apply N in D; rewrite (digit_count_chr _ _ D); try (pose proof (digit_count_nonneg s); lia).
  - cbn. lia.
  - cbn [digit_count]. change (Ascii.eqb "_" "_") with true. cbn. lia.
Qed.
Lemma grouped_no_dot base s n v t : grouped base s n v -> s <> chr "." t.
Proof. intros G ->. apply grouped_loose in G. destruct G as [u G]. apply loose_first in G. destruct G as [K|[d [K _]]]; [discriminate|]. cbn in K. intuition congruence. Qed.
(** The pieces of a mantissa. *)
Definition mant_pieces (base : Z) (a : string) (ob : option string) (m k : Z) : Prop :=
  exists n, empty_or_grouped base a 0 n /\ 0 < all_digits a ob /\
    match ob with None => m = n /\ k = 0 | Some b => empty_or_grouped base b n m /\ k = digit_count b end.
Lemma mantissa_pieces base s m k : mantissa base s m k <-> exists a ob, s = mtext a ob /\ mant_pieces base a ob m k.
Proof.
  unfold mant_pieces, mtext, all_digits, empty_or_grouped. split.
  - intros [a n G|a n G|a b n m' G G2|b m' G].
    + exists a, None. split; [now rewrite append_empty|]. exists n. pose proof (grouped_count _ _ _ _ G). repeat split; auto; lia.
    + exists a, (Some ""). split; [reflexivity|]. exists n. pose proof (grouped_count _ _ _ _ G). cbn. repeat split; auto; lia.
    + exists a, (Some b). split; [reflexivity|]. exists n. pose proof (grouped_count _ _ _ _ G). pose proof (digit_count_nonneg b). repeat split; auto; lia.
    + exists "", (Some b). split; [reflexivity|]. exists 0. pose proof (grouped_count _ _ _ _ G). cbn [digit_count]. repeat split; auto; lia.
  - intros (a & ob & -> & n & A & D & O). destruct ob as [b|].
    + destruct O as [[[-> ->]|B] ->]; destruct A as [[-> ->]|A].
      * cbn in D. lia.
      * cbn [String.append digit_count]. now constructor.
      * cbn [String.append]. now constructor.
      * now apply mantissa_both with n.
    + destruct O as [-> ->]. rewrite append_empty. destruct A as [[-> ->]|A]; [cbn in D; lia|]. now constructor.
Qed.
Lemma good_hex a ob m k : good_mant 16 true a ob m k /\ 0 < all_digits a ob <->
  exists u a', a = u +++ a' /\ mant_pieces 16 a' ob m k /\ (u = "" \/ u = "_" /\ a' <> "").
Proof.
  unfold good_mant, good_first, mant_pieces, empty_or_grouped, after_digit. split.
  - intros [(n & [A|[A|(a' & -> & A)]] & O) D].
    + exists "", a. split; [reflexivity|]. split; [|now left]. exists n. tauto.
    + exists "", a. split; [reflexivity|]. split; [|now left]. exists n. tauto.
    + exists "_", a'. split; [reflexivity|]. split.
      * exists n. split; [now right|]. split; [exact D|exact O].
      * right. split; [reflexivity|]. intros ->. now apply (grouped_empty 16 0 n).
  - intros (u & a' & -> & (n & A & D & O) & [-> |[-> N]]).
    + split; [|exact D]. exists n. split; [|exact O]. cbn [String.append]. tauto.
    + split; [|exact D]. exists n. split; [|exact O]. destruct A as [[K _]|A]; [congruence|]. right. right. now exists a'.
Qed.
Lemma good_dec a ob m k : good_mant 10 false a ob m k /\ 0 < all_digits a ob <-> mant_pieces 10 a ob m k.
Proof. unfold good_mant, good_first, mant_pieces. split; [intros [(n & A & O) D]; now exists n|intros (n & A & D & O); split; [now exists n|exact D]]. Qed.
Lemma exponent_pieces (hex : bool) e v : exponent (if hex then ["p"; "P"] else ["e"; "E"]) e v <-> exists x sg d, e = x +++ sg +++ d /\ mark hex x /\ good_exp (Some (x, sg, d)) v.
Proof.
  unfold good_exp, mark. split.
  - intros [x sg d w X S G|x d w X G].
    + exists x, sg, d. split; [reflexivity|]. split; [exact X|]. exists w. tauto.
    + exists x, "-", d. split; [reflexivity|]. split; [exact X|]. exists w. tauto.
  - intros (x & sg & d & -> & X & w & G & [[S ->]|[-> ->]]); now constructor.
Qed.
Definition exact_value (hex : bool) (m k v : Z) : Q := (inject_Z m * (if hex then Qpower 2 (v - 4 * k) else Qpower 10 (v - k)))%Q.
Definition exp_marked (hex : bool) (oe : option (string * string * string)) : Prop := match oe with None => hex = false | Some (x, _, _) => mark hex x end.
Definition pieces (sg p : string) (neg hex : bool) (a : string) (ob : option string) (m k : Z) (oe : option (string * string * string)) (v : Z) : Prop :=
  sign_of sg neg /\ prefix_of hex p /\ good_mant (base_of hex) hex a ob m k /\ 0 < all_digits a ob /\ good_exp oe v /\ exp_marked hex oe.
Lemma literal_pieces t q v : float_literal t q v <->
  exists p hex a ob m k oe, t = p +++ mtext a ob +++ etext oe /\ prefix_of hex p /\ good_mant (base_of hex) hex a ob m k /\ 0 < all_digits a ob /\
    good_exp oe v /\ exp_marked hex oe /\ q = exact_value hex m k v.
Proof.
  split.
  - intros [s n k M|s n k e w M E|p u s n k e w P U M E].
    + apply mantissa_pieces in M. destruct M as (a & ob & -> & M). apply good_dec in M. destruct M as [M D]. exists "", false, a, ob, n, k, None.
      cbn [String.append etext]. rewrite append_empty. split; [reflexivity|]. split; [reflexivity|]. split; [exact M|]. split; [exact D|]. split; [reflexivity|]. split; reflexivity.
    + apply mantissa_pieces in M. destruct M as (a & ob & -> & M). apply good_dec in M. destruct M as [M D]. apply (exponent_pieces false) in E. destruct E as (x & sg & d & -> & X & E).
      exists "", false, a, ob, n, k, (Some (x, sg, d)). split; [reflexivity|]. split; [reflexivity|]. split; [exact M|]. split; [exact D|]. split; [exact E|]. split; [exact X|reflexivity].
    + apply mantissa_pieces in M. destruct M as (a & ob & -> & M). apply (exponent_pieces true) in E. destruct E as (x & sg & d & -> & X & E).
      exists p, true, (u +++ a), ob, n, k, (Some (x, sg, d)). split.
      { unfold mtext. cbn [etext]. now rewrite !append_assoc'. }
      split; [exact P|]. assert (G : good_mant 16 true (u +++ a) ob n k /\ 0 < all_digits (u +++ a) ob).
      { apply good_hex. exists u, a. split; [reflexivity|]. split; [exact M|]. destruct U as [U|[U N]]; [now left|]. right. split; [exact U|]. intros ->.
        destruct ob as [b|]; [now apply (N b)|]. destruct M as (m & _ & D & _). cbn in D. lia. }
      destruct G as [G D]. split; [exact G|]. split; [exact D|]. split; [exact E|]. split; [exact X|reflexivity].
  - intros (p & hex & a & ob & m & k & oe & -> & P & M & D & E & X & ->). destruct hex.
    + destruct oe as [[[x sg] d]|]; [|discriminate]. destruct (proj1 (good_hex a ob m k) (conj M D)) as (u & a' & -> & M' & U).
      replace (p +++ mtext (u +++ a') ob +++ etext (Some (x, sg, d))) with (p ++ u ++ mtext a' ob ++ (x ++ sg ++ d))%string by (unfold mtext; cbn [etext]; now rewrite !append_assoc').
      apply (float_hex p u (mtext a' ob) m k (x +++ sg +++ d) v); [exact P| | |].
      * destruct U as [U|[U N]]; [now left|]. right. split; [exact U|]. intros t K. destruct M' as (n & A & _). destruct A as [[A _]|A]; [congruence|].
        destruct a' as [|c a']; [congruence|]. unfold mtext in K. cbn [String.append] in K. injection K as -> _. now apply (grouped_no_dot _ _ _ _ a' A).
      * apply mantissa_pieces. now exists a', ob.
      * apply (exponent_pieces true). now exists x, sg, d.
    + cbn in P. subst p. cbn [String.append]. pose proof (proj1 (good_dec a ob m k) (conj M D)) as M'. destruct oe as [[[x sg] d]|].
      * apply float_exp; [apply mantissa_pieces; now exists a, ob|]. apply (exponent_pieces false). now exists x, sg, d.
      * cbn in E. subst v. cbn [etext]. rewrite append_empty. apply float_plain. apply mantissa_pieces. now exists a, ob.
Qed.
Lemma text_pieces s neg q v : float_text s neg q v <->
  exists sg p hex a ob m k oe, s = sg +++ p +++ mtext a ob +++ etext oe /\ pieces sg p neg hex a ob m k oe v /\ q = exact_value hex m k v.
Proof.
  unfold float_text, pieces, sign_of. split.
  - intros (t & L & S). apply literal_pieces in L. destruct L as (p & hex & a & ob & m & k & oe & -> & P & M & D & E & X & Q).
    destruct S as [[-> ->]|[[-> ->]|[-> ->]]]; [exists ""|exists "+"|exists "-"]; exists p, hex, a, ob, m, k, oe; (split; [reflexivity|]); (split; [|exact Q]);
      (split; [cbn; tauto|tauto]).
  - intros (sg & p & hex & a & ob & m & k & oe & -> & (S & P & M & D & E & X) & Q). exists (p +++ mtext a ob +++ etext oe). split.
    + apply literal_pieces. exists p, hex, a, ob, m, k, oe. tauto.
    + destruct S as [[[<-|[<-|[]]] ->]|[-> ->]]; cbn [String.append]; tauto.
Qed.

(** * Bounds *)

Lemma count_len s : digit_count s <= strlen s.
Proof. induction s as [|c s IH]; [cbn; lia|]. rewrite strlen_chr. cbn [digit_count]. destruct (Ascii.eqb c "_"); lia. Qed.
Lemma loose_bound base a n v u : 2 <= base -> loose base a n v u -> 0 <= n -> forall N, 0 <= N -> n < base ^ N -> 0 <= v < base ^ (N + digit_count a).
Proof.
  intros B H. induction H as [n|s n v u H IH|c d s n v u D H IH]; intros Hn N HN L.
  - cbn [digit_count]. rewrite Z.add_0_r. lia.
  - change (digit_count (chr "_" s)) with (digit_count s). now apply IH.
  - destruct (digit_in_facts _ _ _ D) as (D1 & _). destruct D as [D L2]. assert (Nu : c <> "_"%char) by (intros ->; cbn in D; intuition congruence).
    rewrite (digit_count_chr _ _ Nu). replace (N + (digit_count s + 1)) with (N + 1 + digit_count s) by ring. apply IH; [nia|lia|]. rewrite Z.pow_add_r by lia. nia.
Qed.
Lemma mant_bound base a ob m k u : 2 <= base -> loose_mant base a ob m k u -> 0 <= m < base ^ all_digits a ob /\ 0 <= k <= all_digits a ob.
Proof.
  intros B (n & u1 & L & O). pose proof (loose_bound _ _ _ _ _ B L ltac:(lia) 0 ltac:(lia) ltac:(lia)) as A. unfold all_digits. pose proof (digit_count_nonneg a). destruct ob as [b|].
  - destruct O as (u2 & L2 & -> & _). pose proof (digit_count_nonneg b). split; [|lia]. rewrite Z.add_0_l in A. exact (loose_bound _ _ _ _ _ B L2 ltac:(lia) (digit_count a) ltac:(lia) ltac:(lia)).
  - destruct O as (-> & -> & _). rewrite Z.add_0_r. rewrite Z.add_0_l in A. lia.
Qed.
Lemma all_digits_len sg p a ob e : all_digits a ob <= strlen (sg +++ p +++ mtext a ob +++ e).
Proof.
  unfold all_digits, mtext. rewrite !strlen_app. pose proof (strlen_nonneg sg). pose proof (strlen_nonneg p). pose proof (strlen_nonneg e). pose proof (count_len a). destruct ob as [b|].
  - change ("." +++ b) with (chr "." b). rewrite strlen_chr. pose proof (count_len b). lia.
  - change (strlen "") with 0. lia.
Qed.
Definition capped (v c : Z) : Prop := (Z.abs v < 100000 -> c = v) /\ (100000 <= v -> 10000 <= c) /\ (v <= -100000 -> c <= -10000).
Lemma loose_capped hex oe v c u : loose_exp hex oe v c u -> capped v c.
Proof.
  destruct oe as [[[x sg] d]|].
  - intros (_ & _ & w & L & S). pose proof (cap_spec d 0 w u L ltac:(lia)) as C. pose proof (loose_ge 10 d 0 w u ltac:(lia) ltac:(lia) L) as W. unfold capped.
    destruct S as [(_ & -> & ->)|(_ & -> & ->)]; lia.
  - intros (_ & -> & -> & _). unfold capped. lia.
Qed.
Lemma grouped_starts d n v : grouped 10 d n v -> starts_digit d = true.
Proof. intros G. inversion G as [c x n' D|c x s n' v' D G'|c x s n' v' D G']; subst; apply dec_digit in D; now cbn [starts_digit]. Qed.
Lemma good_exp_loose hex oe v : exp_marked hex oe -> good_exp oe v -> exists c u, loose_exp hex oe v c u.
Proof.
  destruct oe as [[[x sg] d]|]; cbn [exp_marked good_exp loose_exp].
  - intros M (w & G & S). pose proof (grouped_starts _ _ _ G) as St. apply grouped_loose in G. destruct G as [u L].
    exists (if (sg =? "-")%string then - cap_under 0 d else cap_under 0 d), u. split; [exact M|]. split; [exact St|]. exists w. split; [exact L|].
    destruct S as [[[<-|[<-|[]]] ->]|[-> ->]]; cbn; tauto.
  - intros -> ->. exists 0, false. tauto.
Qed.
Lemma loose_marked hex oe v c u : loose_exp hex oe v c u -> exp_marked hex oe.
Proof. destruct oe as [[[x sg] d]|]; cbn; tauto. Qed.

Lemma text_read s neg q v : float_text s neg q v -> exists hex m k c N, read_float s = Some (neg, hex, m, k, c) /\ q = exact_value hex m k v /\ capped v c /\
  0 <= m < base_of hex ^ N /\ 0 <= k <= N /\ N <= strlen s.
Proof.
  intros H. apply text_pieces in H. destruct H as (sg & p & hex & a & ob & m & k & oe & -> & (S & P & M & D & E & X) & ->).
  destruct (good_exp_loose hex oe v X E) as (c & u & L). exists hex, m, k, c, (all_digits a ob). split.
  - apply read_float_text. exists sg, p, a, ob, oe, v, u. repeat (split; [first [reflexivity|assumption]|]). exact L.
  - split; [reflexivity|]. split; [now apply (loose_capped hex oe v c u)|]. destruct (good_loose _ _ _ _ _ M) as [u1 L1].
    destruct (mant_bound (base_of hex) _ _ _ _ _ ltac:(destruct hex; cbn; lia) L1) as [B1 B2]. split; [exact B1|]. split; [exact B2|]. apply all_digits_len.
Qed.
Lemma read_text s neg hex m k c : read_float s = Some (neg, hex, m, k, c) -> exists q v, float_text s neg q v.
Proof.
  intros H. apply read_float_text in H. destruct H as (sg & p & a & ob & oe & v & u & -> & S & P & M & D & E & X).
  exists (exact_value hex m k v), v. apply text_pieces. exists sg, p, hex, a, ob, m, k, oe. split; [reflexivity|]. split; [|reflexivity]. unfold pieces.
  repeat (split; [assumption|]). now apply (loose_marked hex oe v c u).
Qed.

(** * Rounding *)

Lemma bin_huge D k : 1 <= D -> 1100 <= k -> round64 (inject_Z D * pow2 k) = None.
Proof.
  intros H K. pose proof (pow2_pos k) as P. assert (Nn : (pow2 k <= inject_Z D * pow2 k)%Q).
  { rewrite <- (Qmult_1_l (pow2 k)) at 1. apply Qmult_le_compat_r; [|apply Qlt_le_weak, P]. change 1%Q with (inject_Z 1). rewrite <- Zle_Qle. lia. }
  apply round64_none; [lra|]. unfold out_of_range. rewrite Qabs_pos by lra. apply Qle_trans with (pow2 1100); [vm_compute; discriminate|].
  apply Qle_trans with (pow2 k); [now apply pow2_le|exact Nn].
Qed.
Lemma bin_nonneg D k : 0 <= D -> (0 <= inject_Z D * pow2 k)%Q.
Proof. intros H. apply Qmult_le_0_compat; [change 0%Q with (inject_Z 0); now rewrite <- Zle_Qle|apply Qlt_le_weak, pow2_pos]. Qed.
Lemma bin_tiny D k : 0 <= D -> forall n, D < 16 ^ n -> 0 <= n -> 4 * n + k <= -1400 -> round64 (inject_Z D * pow2 k) = Some zero64.
Proof.
  intros H n L N K. apply round64_some. split; [|cbn; lia]. apply nearest_tiny; [now apply bin_nonneg|].
  apply Qle_trans with (pow2 (-1400)); [|vm_compute; discriminate]. apply Qle_trans with (pow2 (4 * n + k)); [|now apply pow2_le].
  rewrite pow2_plus, (pow2_Z (4 * n) ltac:(lia)). apply Qmult_le_compat_r; [|apply Qlt_le_weak, pow2_pos]. rewrite <- Zle_Qle.
  rewrite Z.pow_mul_r by lia. change (2 ^ 4) with 16. lia.
Qed.
Lemma bin_zero k : round64 (inject_Z 0 * pow2 k) = Some zero64.
Proof. apply round64_some. split; [|cbn; lia]. apply nearest_zero. change (inject_Z 0) with 0%Q. rewrite Qmult_0_l. apply Qle_refl. Qed.
Lemma capped_round hex m k v c N : capped v c -> 0 <= m < base_of hex ^ N -> 0 <= k <= N -> Z.abs v < 100000 \/ N <= 2000 ->
  round64 (exact_value hex m k c) = round64 (exact_value hex m k v).
Proof.
  intros (C1 & C2 & C3) M K T. destruct (Z_lt_le_dec (Z.abs v) 100000) as [S|S]; [now rewrite (C1 S)|]. destruct T as [T|T]; [lia|].
  assert (E : m = 0 \/ 1 <= m) by lia. unfold exact_value. destruct hex; cbn [base_of] in M.
  - fold (pow2 (c - 4 * k)). fold (pow2 (v - 4 * k)). destruct E as [-> |E]; [now rewrite !bin_zero|]. destruct (Z_lt_le_dec 0 v) as [P|P].
    + now rewrite !bin_huge by lia.
    + rewrite !(bin_tiny m _ ltac:(lia) N) by lia. reflexivity.
  - change (round64 (dec m (c - k)) = round64 (dec m (v - k))). destruct E as [-> |E]; [now rewrite !round_zero|]. destruct (Z_lt_le_dec 0 v) as [P|P].
    + now rewrite !round_huge by lia.
    + rewrite !(round_tiny m _ ltac:(lia) N) by lia. reflexivity.
Qed.
Lemma exact_nonneg hex m k v : 0 <= m -> (0 <= exact_value hex m k v)%Q.
Proof. intros H. destruct hex; [now apply (bin_nonneg m)|now apply (dec_nonneg m)]. Qed.

(** * The other texts *)

Definition lower_char (d : ascii) : Prop := 97 <= byte d <= 122.
Lemma fold_iff d c : lower_char d -> (fold_case c =? byte d) = true <-> c = d \/ c = upper_case d.
Proof.
  assert (H : forall d, (forallb (fun n => let c := ascii_of_nat n in
    negb ((97 <=? byte d) && (byte d <=? 122)) || Bool.eqb (fold_case c =? byte d) (Ascii.eqb c d || Ascii.eqb c (upper_case d))) (seq 0 256)) = true)
    by (apply all_ascii; vm_compute; reflexivity).
  intros L. specialize (H d). rewrite forallb_forall in H. specialize (H (nat_of_ascii c)). rewrite in_seq in H. pose proof (nat_ascii_bounded c) as B.
  specialize (H ltac:(lia)). cbv zeta in H. rewrite ascii_nat_embedding in H. unfold lower_char in L.
  rewrite (proj2 (Z.leb_le 97 (byte d)) ltac:(lia)), (proj2 (Z.leb_le (byte d) 122) ltac:(lia)) in H. cbn [andb negb orb] in H. apply Bool.eqb_prop in H. rewrite H.
  rewrite Bool.orb_true_iff, !Ascii.eqb_eq. tauto.
Qed.
Lemma common_iff w : all_chars lower_char w -> forall s, cased w s <-> common_prefix s w = String.length w /\ String.length s = String.length w.
Proof.
  induction w as [|d w IH]; intros L s.
  - destruct s as [|c s]; cbn; [tauto|]. split; [tauto|]. intros [_ H]. discriminate.
  - destruct L as [Ld L]. destruct s as [|c s]; cbn [cased common_prefix String.length]; [split; [tauto|intros [H _]; discriminate]|].
    rewrite <- (fold_iff d c Ld), (IH L s). destruct (fold_case c =? byte d); [|split; [intros [H _]; discriminate|intros [H _]; discriminate]].
    split; [intros (_ & A & B); lia|intros (A & B); split; [reflexivity|lia]].
Qed.
Lemma common_len : forall s p, (common_prefix s p <= String.length s)%nat.
Proof. induction s as [|c s IH]; intros [|d p]; cbn; try lia. destruct (_ =? _); [specialize (IH p)|]; lia. Qed.
Lemma common_app : forall w s r, (String.length s <= String.length w)%nat -> common_prefix s (w +++ r) = common_prefix s w.
Proof.
  induction w as [|d w IH]; intros s r H.
  - destruct s; [|cbn in H; lia]. destruct r; reflexivity.
  - destruct s as [|c s]; [reflexivity|]. cbn in *. rewrite IH by lia. reflexivity.
Qed.
Lemma lower_words : all_chars lower_char "inf" /\ all_chars lower_char "infinity" /\ all_chars lower_char "nan".
Proof. repeat match goal with |- _ /\ _ => split | |- all_chars _ _ => cbn [all_chars] | |- lower_char _ => split; vm_compute; discriminate | |- True => exact I end. Qed.
Lemma special_inf_iff neg k t f n : n = (k + String.length t)%nat -> (special_inf neg k t = Some (f, n) <-> f = Inf neg /\ (cased "inf" t \/ cased "infinity" t)).
Proof.
  intros ->. destruct lower_words as (W1 & W2 & _). rewrite (common_iff _ W1 t), (common_iff _ W2 t). cbn [String.length]. pose proof (common_len t "infinity") as CL.
  assert (A : String.length t = 3%nat -> common_prefix t "infinity" = common_prefix t "inf") by (intros E; apply (common_app "inf" t "inity"); rewrite E; cbn; lia).
  unfold special_inf. set (n := common_prefix t "infinity") in *.
  destruct (Nat.ltb_spec 3 n) as [L1|L1]; cbn [andb]; [destruct (Nat.ltb_spec n 8) as [L2|L2]|]; cbn [Nat.eqb orb].
  - split.
    + intros H. injection H as _ H. lia.
    + intros [_ [[H1 H2]|[H1 H2]]]; lia.
  - destruct (Nat.eqb_spec n 3) as [E|E]; [lia|]. destruct (Nat.eqb_spec n 8) as [E2|E2]; cbn [orb].
    + split.
      * intros H. injection H as <- H. split; [reflexivity|]. right. lia.
      * intros [-> [[H1 H2]|[H1 H2]]]; [rewrite (A H2) in *; lia|]. f_equal. f_equal. lia.
    + split; [discriminate|]. intros [_ [[H1 H2]|[H1 H2]]]; [|lia]. specialize (A H2). lia.
  - destruct (Nat.eqb_spec n 3) as [E|E]; [|destruct (Nat.eqb_spec n 8) as [E2|E2]; [lia|]]; cbn [orb].
    + split.
      * intros H. injection H as <- H. split; [reflexivity|]. left. assert (H3 : String.length t = 3%nat) by lia. specialize (A H3). lia.
      * intros [-> [[H1 H2]|[H1 H2]]]; [|lia]. f_equal. f_equal. lia.
    + split; [discriminate|]. intros [_ [[H1 H2]|[H1 H2]]]; [specialize (A H2); lia|lia].
Qed.
Lemma cased_first d w s : cased (chr d w) s -> exists c s', s = chr c s' /\ (c = d \/ c = upper_case d).
Proof. destruct s as [|c s]; [intros []|]. intros [H _]. now exists c, s. Qed.
Lemma special_iff s f : special_text s f <-> special s = Some (f, String.length s).
Proof.
  assert (F : forall t, cased "inf" t \/ cased "infinity" t -> exists c t', t = chr c t' /\ (c = "i" \/ c = "I")%char).
  { intros t [H|H]; apply cased_first in H; destruct H as (c & t' & -> & H); exists c, t'; (split; [reflexivity|exact H]). }
  unfold special_text. split.
  - intros [(t & C & S)|[C ->]].
    + destruct (F t C) as (c & t' & E & Hc). destruct S as [[-> ->]|[[-> ->]|[-> ->]]].
      * subst t. assert (K : special (chr c t') = special_inf false 0 (chr c t')) by (destruct Hc as [-> | ->]; reflexivity). rewrite K. now apply special_inf_iff.
      * apply (special_inf_iff false 1 t); [reflexivity|]. tauto.
      * apply (special_inf_iff true 1 t); [reflexivity|]. tauto.
    + pose proof C as C'. apply cased_first in C'. destruct C' as (c & t' & -> & Hc). change (upper_case "n") with "N"%char in Hc. destruct lower_words as (_ & _ & W). apply (common_iff _ W) in C.
      destruct C as [C1 C2]. rewrite C2.
      assert (K : special (chr c t') = if Nat.eqb (common_prefix (chr c t') "nan") 3 then Some (NaN, 3%nat) else None) by (destruct Hc as [-> | ->]; reflexivity).
      rewrite K, C1. reflexivity.
  - unfold special. destruct s as [|c s]; [discriminate|]. destruct (Ascii.eqb_spec c "+") as [->|_]; [|destruct (Ascii.eqb_spec c "-") as [->|_]].
    + intros H. apply special_inf_iff in H; [|reflexivity]. destruct H as [-> C]. left. exists s. split; [exact C|]. right. left. split; reflexivity.
    + intros H. apply special_inf_iff in H; [|reflexivity]. destruct H as [-> C]. left. exists s. split; [exact C|]. right. right. split; reflexivity.
    + destruct (Ascii.eqb c "i" || Ascii.eqb c "I") eqn:I.
      * intros H. apply special_inf_iff in H; [|reflexivity]. destruct H as [-> C]. left. exists (chr c s). split; [exact C|]. left. split; reflexivity.
      * destruct (Ascii.eqb c "n" || Ascii.eqb c "N"); [|discriminate]. destruct (Nat.eqb_spec (common_prefix (chr c s) "nan") 3) as [E|]; [|discriminate].
        intros H. injection H as <- H. right. split; [|reflexivity]. destruct lower_words as (_ & _ & W). apply (common_iff _ W). split; [exact E|]. cbn [String.length]. lia.
Qed.
Definition not_word (t : string) : Prop := match t with String.EmptyString => True | String.String c _ => fold_case c <> 105 /\ c <> "i"%char /\ c <> "I"%char /\ c <> "n"%char /\ c <> "N"%char end.
Lemma special_not sg neg t : sign_of sg neg -> unsigned t -> not_word t -> special (sg +++ t) = None.
Proof.
  intros S U N. assert (I : forall b k, special_inf b k t = None).
  { intros b k. unfold special_inf. destruct t as [|c t]; [reflexivity|]. cbn [common_prefix]. destruct N as [N _]. change (byte "i") with 105. destruct (Z.eqb_spec (fold_case c) 105); [congruence|reflexivity]. }
  destruct S as [([<-|[<-|[]]] & ->)|(-> & ->)]; cbn [String.append]; [|now apply I|now apply I]. destruct t as [|c t]; [reflexivity|]. destruct U as [U1 U2], N as (_ & N1 & N2 & N3 & N4). unfold special.
  apply Ascii.eqb_neq in U1, U2, N1, N2, N3, N4. now rewrite U1, U2, N1, N2, N3, N4.
Qed.
Lemma not_word_pieces hex p a ob m k u e : prefix_of hex p -> loose_mant (base_of hex) a ob m k u -> 0 < all_digits a ob -> unsigned (p +++ mtext a ob +++ e) /\ not_word (p +++ mtext a ob +++ e).
Proof.
  intros P (n & u1 & L & O) D. destruct hex; cbn in P; [destruct P as [<-|[<-|[]]]; cbn; (split; [split; discriminate|repeat split; discriminate])|]. subst p. cbn [String.append].
  unfold mtext. inversion L as [n'|s n' v' u' L'|c d s n' v' u' Dg L']; subst.
  - destruct ob as [b|]; [|cbn in D; lia]. cbn. split; [split; discriminate|repeat split; discriminate].
  - cbn. split; [split; discriminate|repeat split; discriminate].
  - cbn [String.append]. destruct Dg as [Dg _]. cbn [digits_table In] in Dg.
    repeat (destruct Dg as [Dg|Dg]; [injection Dg as <- <-; cbn; split; [split; discriminate|split; [vm_compute; discriminate|repeat split; discriminate]]|]). destruct Dg.
Qed.
Lemma text_not_special s neg q v : float_text s neg q v -> special s = None.
Proof.
  intros H. apply text_pieces in H. destruct H as (sg & p & hex & a & ob & m & k & oe & -> & (S & P & M & D & _) & _). destruct (good_loose _ _ _ _ _ M) as [u L].
  destruct (not_word_pieces hex p a ob m k u (etext oe) P L D) as [U N]. now apply (special_not sg neg).
Qed.

(** * strconv.ParseFloat *)

Lemma parse_text s neg q v : float_text s neg q v -> tame s v -> (0 <= q)%Q /\
  parse_float s = match round64 q with Some (m, x) => Some (Fin neg m x) | None => None end.
Proof.
  intros H T. pose proof (text_not_special _ _ _ _ H) as N. destruct (text_read _ _ _ _ H) as (hex & m & k & c & n & R & -> & C & M & K & L).
  split; [apply exact_nonneg; lia|]. unfold parse_float. rewrite N, R.
  rewrite <- (capped_round hex m k v c n C M K) by (unfold tame in T; lia). unfold exact_value. now destruct hex.
Qed.
Lemma parse_special s f : special_text s f -> parse_float s = Some f.
Proof. intros H. apply special_iff in H. unfold parse_float. rewrite H, Nat.eqb_refl. reflexivity. Qed.
Lemma parse_only s f : parse_float s = Some f -> special_text s f \/ exists neg q v, float_text s neg q v.
Proof.
  unfold parse_float. destruct (special s) as [[g n]|] eqn:S.
  - destruct (Nat.eqb_spec n (String.length s)) as [->|]; [|discriminate]. intros H. injection H as <-. left. now apply special_iff.
  - destruct (read_float s) as [[[[[neg hex] d] k] e]|] eqn:R; [|discriminate]. intros _. right. exists neg. now apply (read_text s neg hex d k e).
Qed.
Lemma exp_unique hex oe oe' v v' c c' u u' : loose_exp hex oe v c u -> loose_exp hex oe' v' c' u' -> etext oe = etext oe' -> v = v'.
Proof.
  destruct oe as [[[x sg] d]|], oe' as [[[x' sg'] d']|]; cbn [etext].
  - intros (M & St & w & L & S) (M' & St' & w' & L' & S') E. apply mark_one in M, M'. destruct M as (y & -> & _), M' as (y' & -> & _). cbn [String.append] in E. injection E as _ E.
    destruct (int_sign_at sg d St) as [A B], (int_sign_at sg' d' St') as [A' B']. rewrite E in A, B.
    destruct S as [(S & -> & _)|(S & -> & _)], S' as [(S' & -> & _)|(S' & -> & _)].
    + specialize (A S). specialize (A' S'). rewrite A in A'. injection A' as <-. exact (loose_fun _ _ _ _ _ L _ _ L').
    + specialize (A S). specialize (B' S'). rewrite A in B'. discriminate.
    + specialize (B S). specialize (A' S'). rewrite B in A'. discriminate.
    + specialize (B S). specialize (B' S'). rewrite B in B'. injection B' as <-. f_equal. exact (loose_fun _ _ _ _ _ L _ _ L').
  - intros (M & _) _ E. apply mark_one in M. destruct M as (y & -> & _). discriminate.
  - intros _ (M & _) E. apply mark_one in M. destruct M as (y & -> & _). discriminate.
  - intros (_ & -> & _) (_ & -> & _) _. reflexivity.
Qed.
Lemma text_unique s neg q v neg' q' v' : float_text s neg q v -> float_text s neg' q' v' -> neg' = neg /\ q' = q /\ v' = v.
Proof.
  assert (K : forall neg q v, float_text s neg q v -> exists t hex r m k dg u oe c u2, int_sign s = (neg, t) /\ hex_split t = (hex, r) /\
    mant_loop hex false 0 0 false false r = mkMant m k dg u (etext oe) /\ loose_exp hex oe v c u2 /\ q = exact_value hex m k v).
  { clear. intros neg q v H. apply text_pieces in H. destruct H as (sg & p & hex & a & ob & m & k & oe & -> & (S & P & M & D & E & X) & ->).
    destruct (good_loose _ _ _ _ _ M) as [u L]. destruct (good_exp_loose hex oe v X E) as (c & u2 & L2). destruct (not_word_pieces hex p a ob m k u (etext oe) P L D) as [U _].
    exists (p +++ mtext a ob +++ etext oe), hex, (mtext a ob +++ etext oe), m, k, (0 <? all_digits a ob), u, oe, c, u2.
    split; [now apply int_sign_sg|]. destruct (stop_etext _ _ _ _ _ L2) as [St Nd]. split; [|split; [now apply mant_text|split; [exact L2|reflexivity]]].
    destruct (mant_first _ _ _ _ _ _ L D) as [Un Ne]. destruct (unsigned_app _ (etext oe) Un Ne) as [_ Ne2].
    destruct hex; cbn in P; [now apply hex_split_at|]. subst p. cbn [String.append]. apply hex_split_none.
    apply all_chars_both; [now apply (mant_letters _ _ _ _ _ L)|now apply (exp_letters _ _ _ _ L2)]. }
  intros H H'. apply K in H, H'. destruct H as (t & hex & r & m & k & dg & u & oe & c & u2 & A & B & C & D & ->).
  destruct H' as (t' & hex' & r' & m' & k' & dg' & u' & oe' & c' & u2' & A' & B' & C' & D' & ->).
  rewrite A in A'. injection A' as <- <-. rewrite B in B'. injection B' as <- <-. rewrite C in C'. injection C' as <- <- <- <- E.
  rewrite (exp_unique _ _ _ _ _ _ _ _ _ D D' E). repeat split; reflexivity.
Qed.

(** * Numbers in JSON *)

Lemma digit_table c : is_digit c -> digit_in 10 c (byte c - 48).
Proof. unfold is_digit. cbn [In]. intros H. repeat (destruct H as [<-|H]; [split; [cbn; tauto|vm_compute; reflexivity]|]). destruct H. Qed.
Lemma digits_grouped d : all_chars is_digit d -> forall n, empty_or_grouped 10 d n (digits_from n d).
Proof.
  induction d as [|c d IH]; intros H n; cbn [digits_from]; [now left|]. destruct H as [Hc H]. apply digit_table in Hc. right. destruct (IH H (n * 10 + (byte c - 48))) as [[-> E]|G].
  - rewrite E. now constructor.
  - now apply grouped_next with (byte c - 48).
Qed.
Lemma digits_count d : all_chars is_digit d -> digit_count d = strlen d.
Proof.
  induction d as [|c d IH]; intros H; [reflexivity|]. destruct H as [Hc H]. rewrite digit_count_chr, strlen_chr, IH by (exact H || (apply digit_table, digit_in_facts in Hc; tauto)). ring.
Qed.
Lemma digits_cap d : all_chars is_digit d -> forall n, cap_under n d = capped_from n d.
Proof.
  induction d as [|c d IH]; intros H n; [reflexivity|]. destruct H as [Hc H]. cbn [cap_under capped_from]. apply digit_table, digit_in_facts in Hc.
  rewrite (proj2 (Ascii.eqb_neq c "_")) by tauto. now apply IH.
Qed.
Lemma digits_from_app a : forall n b, digits_from n (a +++ b) = digits_from (digits_from n a) b.
Proof. induction a as [|c a IH]; intros n b; [reflexivity|]. cbn [String.append digits_from]. apply IH. Qed.
Lemma not_empty_grouped base d n v : d <> "" -> empty_or_grouped base d n v -> grouped base d n v.
Proof. intros N [[E _]|G]; [congruence|exact G]. Qed.
Lemma exponent_loose e v : exponent_of e v -> exists oe, e = etext oe /\ good_exp oe v /\ exp_marked false oe /\ exists u, loose_exp false oe v (exponent_value e) u.
Proof.
  intros [[-> ->]|(x & sg & d & Hx & [Nd Hd] & -> & S)].
  - exists None. split; [reflexivity|]. split; [reflexivity|]. split; [reflexivity|]. exists false. cbn. tauto.
  - assert (G : grouped 10 d 0 (digits_value d)).
    { rewrite <- digits_from_0. apply not_empty_grouped; [exact Nd|]. now apply digits_grouped. }
    exists (Some (x, sg, d)). split; [reflexivity|]. assert (Sg : (In sg [""; "+"] /\ v = digits_value d) \/ (sg = "-" /\ v = - digits_value d)) by (cbn; destruct S as [[[->| ->] ->]|[-> ->]]; tauto).
    split; [exists (digits_value d); tauto|]. split; [exact Hx|]. pose proof (grouped_starts _ _ _ G) as St. apply grouped_loose in G. destruct G as [u L]. exists u.
    split; [exact Hx|]. split; [exact St|]. exists (digits_value d). split; [exact L|]. rewrite (digits_cap d Hd).
    assert (A : after_first (x +++ sg +++ d) = sg +++ d) by (cbn in Hx; destruct Hx as [<-|[<-|[]]]; reflexivity). unfold exponent_value. rewrite A.
    assert (Lx : lex_sign (sg +++ d) = (sg, d)).
    { unfold lex_sign. destruct (digits_chr d (conj Nd Hd)) as (c & t & -> & Hc). destruct (digit_not_sign c Hc) as (C1 & C2 & _).
      destruct Sg as [[[<-|[<-|[]]] _]|[-> _]]; cbn [String.append].
      - rewrite (strip_one_not "+"), (strip_one_not "-"); [reflexivity|cbn; congruence..].
      - reflexivity.
      - reflexivity. }
    rewrite Lx. destruct Sg as [[[<-|[<-|[]]] ->]|[-> ->]]; cbn [String.eqb Ascii.eqb Bool.eqb In]; tauto.
Qed.
Lemma decimal_read (neg : bool) i f fd e v : whole_part i -> fraction_digits f fd -> exponent_of e v ->
  read_decimal ((if neg then "-" else "") +++ i +++ f +++ e) = Some (neg, digits_from 0 (i +++ fd), exponent_value e - strlen fd).
Proof.
  intros Hi Hf He. unfold read_decimal.
  assert (M : lex_minus ((if neg then "-" else "") +++ i +++ f +++ e) = (if neg then "-" else "", i +++ f +++ e)).
  { unfold lex_minus. destruct neg; cbn [String.append].
    - rewrite strip_one. reflexivity.
    - destruct (whole_chr i Hi) as (c & t & -> & Hc). rewrite strip_one_not; [reflexivity|].
      cbn. destruct (digit_not_sign c Hc) as (C & _). congruence. }
  destruct (fraction_read f fd Hf) as (F1 & F2 & _). destruct (exponent_read e v He) as (E1 & E2 & _).
  destruct (exp_starts e "" E1) as [N1 N2]; [split; exact I|]. rewrite append_empty in N1, N2.
  rewrite M, lex_int_at by (assumption || (apply frac_starts; assumption)).
  rewrite lex_frac_at by assumption. assert (X : lex_exp e = Some (e, "")) by (rewrite <- (append_empty e) at 1; apply lex_exp_at; [assumption|split; exact I]).
  rewrite X. cbn [String.eqb]. rewrite F2. destruct neg; reflexivity.
Qed.
Lemma json_pieces (neg : bool) i f fd e v : whole_part i -> fraction_digits f fd -> exponent_of e v ->
  let s := (if neg then "-" else "") +++ i +++ f +++ e in
  read_float s = Some (neg, false, digits_from 0 (i +++ fd), strlen fd, exponent_value e) /\
  float_text s neg (inject_Z (digits_from 0 (i +++ fd)) * Qpower 10 (v - strlen fd)) v.
Proof.
  intros Hi Hf He s. destruct (exponent_loose e v He) as (oe & Ee & Ge & Me & u & Le). pose proof (whole_digits i Hi) as Di.
  assert (Ni : i <> "") by (destruct (whole_chr i Hi) as (c & t & -> & _); discriminate).
  assert (Dd : all_chars is_digit fd) by apply (fraction_read f fd Hf).
  set (ob := if (fd =? "")%string then None else Some fd). set (sg := if neg then "-" else ""). set (m := digits_from 0 (i +++ fd)).
  assert (Sg : sign_of sg neg) by (unfold sg, sign_of; destruct neg; cbn; tauto).
  assert (Mt : i +++ f = mtext i ob).
  { unfold mtext, ob. destruct Hf as [[-> ->]|[[Nd _] ->]]; [reflexivity|]. destruct (String.eqb_spec fd ""); [congruence|reflexivity]. }
  assert (Gi : grouped 10 i 0 (digits_from 0 i)) by (apply not_empty_grouped; [exact Ni|now apply digits_grouped]).
  assert (Gm : good_mant 10 false i ob m (strlen fd)).
  { exists (digits_from 0 i). split; [now right|]. unfold ob, m. rewrite digits_from_app. destruct (String.eqb_spec fd "") as [->|N]; [split; reflexivity|].
    split; [now apply digits_grouped|]. symmetry. now apply digits_count. }
  assert (Ad : 0 < all_digits i ob).
  { unfold all_digits. pose proof (grouped_count _ _ _ _ Gi). destruct ob as [b|]; [pose proof (digit_count_nonneg b)|]; lia. }
  assert (Es : s = sg +++ "" +++ mtext i ob +++ etext oe) by (unfold s; rewrite <- Mt, <- Ee; cbn [String.append]; now rewrite !append_assoc').
  rewrite Es. split.
  - apply read_float_text. exists sg, "", i, ob, oe, v, u. split; [reflexivity|]. split; [exact Sg|]. split; [reflexivity|]. split; [exact Gm|]. split; [exact Ad|]. split; [exact Ge|exact Le].
  - apply text_pieces. exists sg, "", false, i, ob, m, (strlen fd), oe. split; [reflexivity|]. split; [|reflexivity]. unfold pieces. split; [exact Sg|]. split; [reflexivity|]. split; [exact Gm|]. split; [exact Ad|]. split; [exact Ge|exact Me].
Qed.
Lemma json_text s neg ds k : literal s neg ds k -> parse_float s = parse_float64 s /\ exists v, float_text s neg (inject_Z (digits_value ds) * Qpower 10 k) v.
Proof.
  intros (i & f & fd & e & v & Hi & Hf & He & -> & -> & ->). destruct (json_pieces neg i f fd e v Hi Hf He) as [R T]. cbv zeta in R, T. split.
  - unfold parse_float, parse_float64. rewrite (text_not_special _ _ _ _ T), R, (decimal_read neg i f fd e v Hi Hf He). reflexivity.
  - exists v. rewrite <- digits_from_0. exact T.
Qed.

(** * Rounding, as specified *)

Lemma out_of_signed neg q : out_of_range (signed neg q) <-> out_of_range q.
Proof. unfold out_of_range. destruct neg; cbn [signed]; [|tauto]. now rewrite Qabs_opp. Qed.
Lemma parse_text_none s neg q v : float_text s neg q v -> tame s v -> parse_float s = None <-> out_of_range (signed neg q).
Proof.
  intros H T. destruct (parse_text s neg q v H T) as [N ->]. rewrite out_of_signed, <- (round64_none q N). destruct (round64 q) as [[m e]|]; split; try discriminate; reflexivity.
Qed.
Lemma parse_text_some s neg q v f : float_text s neg q v -> tame s v ->
  parse_float s = Some f <-> rounds_to (signed neg q) f /\ negative f = neg /\ ~ out_of_range (signed neg q).
Proof.
  intros H T. split.
  - intros P. assert (O : ~ out_of_range (signed neg q)) by (rewrite <- (parse_text_none s neg q v H T); congruence).
    destruct (parse_text s neg q v H T) as [N E]. rewrite E in P. destruct (round64 q) as [[m e]|] eqn:R; [|discriminate]. injection P as <-.
    split; [now apply round64_rounds|]. split; [reflexivity|exact O].
  - intros (Rf & Ng & O). rewrite <- (parse_text_none s neg q v H T) in O. destruct (parse_text s neg q v H T) as [N E]. rewrite E in O |- *.
    destruct (round64 q) as [[m e]|] eqn:R; [|congruence]. f_equal. symmetry. apply (rounds_unique (signed neg q)); [exact Rf|now apply round64_rounds|exact Ng].
Qed.
(** What is read is a float64. *)
Lemma parse_is_float s f : parse_float s = Some f -> is_float64 f.
Proof.
  intros H. destruct (parse_only s f H) as [S|(neg & q & v & T)].
  - destruct S as [(t & _ & [[_ ->]|[[_ ->]|[_ ->]]])|[_ ->]]; unfold is_float64; tauto.
  - destruct (text_read _ _ _ _ T) as (hex & m & k & c & n & R & _ & _ & M & _). unfold parse_float in H. rewrite (text_not_special _ _ _ _ T), R in H.
    assert (N : (0 <= exact_value hex m k c)%Q) by (apply exact_nonneg; lia).
    assert (E : parse_float s = match round64 (exact_value hex m k c) with Some (m, x) => Some (Fin neg m x) | None => None end).
    { unfold parse_float. rewrite (text_not_special _ _ _ _ T), R. unfold exact_value. now destruct hex. }
    assert (H' : parse_float s = Some f) by (unfold parse_float; rewrite (text_not_special _ _ _ _ T), R; exact H). rewrite E in H'.
    destruct (round64 (exact_value hex m k c)) as [[m' x]|] eqn:Rd; [|discriminate]. injection H' as <-. left. exact (proj1 (round64_rounds neg _ _ _ N Rd)).
Qed.

(** * Bits *)

Lemma bits_split (n : bool) e m : 0 <= e < 2 ^ 11 -> 0 <= m < 2 ^ 52 ->
  let b := (if n then 2 ^ 63 else 0) + e * 2 ^ 52 + m in
  0 <= b < 2 ^ 64 /\ (2 ^ 63 <=? b) = n /\ (b / 2 ^ 52) mod 2 ^ 11 = e /\ b mod 2 ^ 52 = m.
Proof.
  intros He Hm b. assert (D : b / 2 ^ 52 = (if n then 2 ^ 11 else 0) + e).
  { unfold b. symmetry. apply Z.div_unique with m; [lia|]. change (2 ^ 63) with (2 ^ 11 * 2 ^ 52). destruct n; ring. }
  assert (M : b mod 2 ^ 52 = m).
  { unfold b. symmetry. apply Z.mod_unique with ((if n then 2 ^ 11 else 0) + e); [lia|]. change (2 ^ 63) with (2 ^ 11 * 2 ^ 52). destruct n; ring. }
  split; [unfold b; destruct n; change (2 ^ 64) with (2 ^ 12 * 2 ^ 52); change (2 ^ 63) with (2 ^ 11 * 2 ^ 52); nia|]. split.
  - unfold b. change (2 ^ 63) with (2 ^ 11 * 2 ^ 52). destruct n; [apply Z.leb_le; nia|apply Z.leb_gt; nia].
  - rewrite D. split; [|exact M]. symmetry. destruct n; [apply Z.mod_unique with 1; lia|apply Z.mod_unique with 0; lia].
Qed.
Lemma bits_decode f : is_float64 f -> float_of_bits (float_bits f) = f /\ 0 <= float_bits f < 2 ^ 64.
Proof.
  assert (K : forall (n : bool) e m b, b = (if n then 2 ^ 63 else 0) + e * 2 ^ 52 + m -> 0 <= e < 2 ^ 11 -> 0 <= m < 2 ^ 52 ->
    float_of_bits b = (if e =? 2047 then if m =? 0 then Inf n else NaN else if e =? 0 then Fin n m (-1074) else Fin n (2 ^ 52 + m) (e - 1075)) /\ 0 <= b < 2 ^ 64).
  { intros n e m b E He Hm. destruct (bits_split n e m He Hm) as (A & B & C & D). rewrite <- E in A, B, C, D. split; [|exact A]. unfold float_of_bits. now rewrite B, C, D. }
  intros [F|[->|[->| ->]]]; [|split; [vm_compute; reflexivity|split; [vm_compute; discriminate|vm_compute; reflexivity]]..].
  destruct f as [n m e| |]; try contradiction. destruct F as (Hm & He & Hs). unfold float_bits. destruct (Z.ltb_spec m (2 ^ 52)) as [L|L].
  - destruct (K n 0 m ((if n then 2 ^ 63 else 0) + m) ltac:(lia) ltac:(lia) ltac:(lia)) as [D B]. rewrite D. cbn [Z.eqb]. rewrite (Hs L). split; [reflexivity|exact B].
  - destruct (K n (e + 1075) (m - 2 ^ 52) ((if n then 2 ^ 63 else 0) + ((e + 1075) * 2 ^ 52 + (m - 2 ^ 52))) ltac:(ring) ltac:(lia) ltac:(change (2 ^ 53) with (2 * 2 ^ 52) in Hm; lia)) as [D B].
    rewrite D. destruct (Z.eqb_spec (e + 1075) 2047) as [X|_]; [lia|]. destruct (Z.eqb_spec (e + 1075) 0) as [X|_]; [lia|]. split; [|exact B]. f_equal; ring.
Qed.

(** * Integers as texts *)

Lemma itoa_literal z : 0 <= z -> integer_literal (itoa z) z.
Proof.
  intros H. destruct (Z.eq_dec z 0) as [->|N]; [exact int_zero|]. destruct (itoa_first z ltac:(lia)) as (c & t & E & Hc & Nz & Ht). destruct (itoa_value z H) as (V & A & _).
  rewrite E in *. apply int_decimal; [exact Nz|]. rewrite <- V at 1. rewrite <- digits_from_0. apply not_empty_grouped; [discriminate|]. now apply digits_grouped.
Qed.
Lemma itoa_signed z : signed_literal (itoa z) z.
Proof.
  destruct (Z_lt_le_dec z 0) as [L|L].
  - exists (itoa (- z)), (- z). split; [apply itoa_literal; lia|]. right. right. split; [|ring]. destruct z as [|p|p]; try lia. reflexivity.
  - exists (itoa z), z. split; [now apply itoa_literal|]. now left.
Qed.
