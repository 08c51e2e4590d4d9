(** Proofs about the scalars of config files. *)
From Verif Require Import Common Bytes ProcsModel ProcsSpec ProcsProofs ConfNamesSpec ConfNamesProofs ConfsProofs JsonModel JsonSpec JsonFloatModel JsonFloatSpec JsonFloatProofs
  ConfLoadModel DurationModel DurationSpec DurationProofs FlagValueModel FlagValueSpec FlagValueProofs FlagFloatProofs YamlScalarModel YamlScalarSpec.
From Coq Require Import QArith Qabs.
Local Open Scope string_scope.
Local Open Scope list_scope.
Local Open Scope Z_scope.
Local Notation chr := String.String.

(** * Underscores *)

Lemma strip_app a b : strip (a ++ b)%string = (strip a ++ strip b)%string.
Proof. induction a as [|c a IH]; cbn [String.append strip]; [reflexivity|]. destruct (Ascii.eqb c "_"); [exact IH|]. cbn [String.append]. now rewrite IH. Qed.
Lemma strip_no s : ~ mentions "_" (strip s).
Proof.
  unfold mentions. induction s as [|c s IH]; cbn [strip]; [intros []|]. destruct (Ascii.eqb_spec c "_") as [->|N]; [exact IH|].
  cbn [has_char]. intros [H|H]; [congruence|exact (IH H)].
Qed.
Lemma strip_keeps c s : c <> "_"%char -> mentions c s -> mentions c (strip s).
Proof.
  unfold mentions. intros N. induction s as [|d s IH]; cbn [strip has_char]; [tauto|]. destruct (Ascii.eqb_spec d "_") as [->|Nd].
  - intros [H|H]; [congruence|exact (IH H)].
  - cbn [has_char]. intros [H|H]; [now left|right; exact (IH H)].
Qed.
Lemma strip_same s : ~ mentions "_" s -> strip s = s.
Proof.
  unfold mentions. induction s as [|c s IH]; cbn [strip has_char]; [reflexivity|]. intros H. destruct (Ascii.eqb_spec c "_") as [->|N]; [tauto|]. rewrite IH; tauto.
Qed.
Lemma strip_chr c s : c <> "_"%char -> strip (chr c s) = chr c (strip s).
Proof. intros N. cbn [strip]. now rewrite (proj2 (Ascii.eqb_neq c "_") N). Qed.

Lemma strip_grouped base s n v : grouped base s n v -> grouped base (strip s) n v.
Proof.
  induction 1 as [c d n D|c d s n v D G IH|c d s n v D G IH]; pose proof (digit_in_facts _ _ _ D) as (_ & N & _).
  - rewrite strip_chr by exact N. now apply grouped_one.
  - rewrite strip_chr by exact N. now apply grouped_next with d.
  - rewrite strip_chr by exact N. cbn [strip]. change (Ascii.eqb "_" "_") with true. cbv iota. now apply grouped_next with d.
Qed.
Lemma strip_literal s v : integer_literal s v -> integer_literal (strip s) v.
Proof.
  intros H. destruct H as [c s v N G| |s u v U G|p base s u v P U G].
  - pose proof (strip_grouped _ _ _ _ G) as G'. destruct (Ascii.eqb_spec c "_") as [->|Nu]; [now apply grouped_not_under in G|].
    rewrite strip_chr in * by exact Nu. now apply int_decimal.
  - apply int_zero.
  - rewrite !strip_app. replace (strip u) with "" by (cbn [In] in U; destruct U as [<-|[<-|[]]]; reflexivity).
    apply (int_octal (strip s) ""); [now left|now apply strip_grouped].
  - rewrite !strip_app. replace (strip u) with "" by (cbn [In] in U; destruct U as [<-|[<-|[]]]; reflexivity).
    replace (strip p) with p. { apply (int_prefix p base (strip s) ""); [exact P|now left|now apply strip_grouped]. }
    cbn [In] in P. repeat (destruct P as [P|P]; [injection P as <- _; reflexivity|]). destruct P.
Qed.
Lemma strip_signed s v : signed_literal s v -> signed_literal (strip s) v.
Proof.
  intros (t & n & L & C). exists (strip t), n. split; [now apply strip_literal|].
  destruct C as [[-> ->]|[[-> ->]|[-> ->]]]; [left|right; left|right; right]; rewrite ?strip_app; now split.
Qed.

Lemma literal_head s v : integer_literal s v -> exists c t, s = chr c t /\ is_digit c.
Proof.
  intros [c s' v' N G| |s' u v' U G|p base s' u v' P U G].
  - exists c, s'. split; [reflexivity|].
    assert (D : exists d, digit_in 10 c d) by (inversion G; eauto). destruct D as (d & Hin & Hd). unfold is_digit.
    cbn [digits_table In] in Hin |- *. repeat (destruct Hin as [Hin|Hin]; [injection Hin as <- <-; first [lia|tauto]|]). destruct Hin.
  - exists "0"%char, "". split; [reflexivity|]. unfold is_digit. cbn. tauto.
  - exists "0"%char, (u ++ s')%string. split; [reflexivity|]. unfold is_digit. cbn. tauto.
  - cbn [In] in P. assert (K : exists p', p = chr "0" p') by (repeat (destruct P as [P|P]; [injection P as <- _; eexists; reflexivity|]); destruct P).
    destruct K as (p' & ->). exists "0"%char, (p' ++ u ++ s')%string. split; [reflexivity|]. unfold is_digit. cbn. tauto.
Qed.
Lemma signed_numeric s v : signed_literal s v -> numeric s.
Proof.
  intros (t & n & L & C). destruct (literal_head _ _ L) as (c & t' & -> & D). unfold numeric.
  destruct C as [[-> _]|[[-> _]|[-> _]]]; [exists c, t'|exists "+"%char, (chr c t')|exists "-"%char, (chr c t')]; cbn [String.append]; tauto.
Qed.
Lemma signed_whole s v : signed_literal s v -> whole_number s v.
Proof. intros H. split; [now apply signed_numeric with v|now apply strip_signed]. Qed.

(** * Numbers *)

Lemma loose_no base s n v u : loose base s n v u -> ~ mentions "_" s -> u = false.
Proof.
  unfold mentions. induction 1 as [n|s n v u H IH|c d s n v u D H IH]; cbn [has_char]; [reflexivity|tauto|]. intros K. apply IH. tauto.
Qed.
Lemma based_read base s z : 2 <= base <= 16 -> ~ mentions "_" s -> parse_based base s = Some z ->
  - 2 ^ 63 <= z < 2 ^ 63 /\ exists t n, grouped base t 0 n /\ ((s = t /\ z = n) \/ (s = chr "+" t /\ z = n) \/ (s = chr "-" t /\ z = - n)).
Proof.
  intros B Nu. unfold parse_based.
  assert (K : forall t n u, t <> "" -> ~ mentions "_" t -> uint_loop base 0 false t = Some (n, u) -> grouped base t 0 n /\ 0 <= n).
  { intros t n u Ne N H. apply uint_loop_some in H; [|exact B|lia]. destruct H as (u' & L & _ & _). pose proof (loose_no _ _ _ _ _ L N) as ->.
    split; [|apply loose_ge in L; lia]. apply loose_plain in L. destruct L as [[-> _]|L]; [congruence|exact L]. }
  destruct s as [|c s]; cbn [int_sign]; [discriminate|].
  assert (Nu' : ~ mentions "_" s) by (intros H; apply Nu; right; exact H).
  destruct (Ascii.eqb_spec c "+") as [->|N1]; [|destruct (Ascii.eqb_spec c "-") as [->|N2]].
  - destruct (s =? "")%string eqn:E; [discriminate|]. apply String.eqb_neq in E. destruct (uint_loop base 0 false s) as [[n u]|] eqn:U; [|discriminate].
    destruct (K s n u E Nu' U) as [G P]. destruct (Z.leb_spec (2 ^ 63) n); [discriminate|]. intros H1. injection H1 as <-. split; [lia|]. exists s, n. tauto.
  - destruct (s =? "")%string eqn:E; [discriminate|]. apply String.eqb_neq in E. destruct (uint_loop base 0 false s) as [[n u]|] eqn:U; [|discriminate].
    destruct (K s n u E Nu' U) as [G P]. destruct (Z.ltb_spec (2 ^ 63) n); [discriminate|]. intros H1. injection H1 as <-. split; [lia|]. exists s, n. tauto.
  - destruct (chr c s =? "")%string eqn:E; [discriminate|]. destruct (uint_loop base 0 false (chr c s)) as [[n u]|] eqn:U; [|discriminate].
    destruct (K (chr c s) n u ltac:(discriminate) Nu U) as [G P]. destruct (Z.leb_spec (2 ^ 63) n); [discriminate|]. intros H1. injection H1 as <-. split; [lia|]. exists (chr c s), n. tauto.
Qed.

Lemma tame_strip s v : tame s v -> tame (strip s) v.
Proof.
  intros [H|H]; [now left|right]. assert (L : strlen (strip s) <= strlen s); [|lia].
  induction s as [|c s IH]; cbn [strip]; [lia|]. unfold strlen in *. cbn [String.length] in *. destruct (Ascii.eqb c "_"); cbn [String.length]; lia.
Qed.

(** Texts that the regexp matches are not the words of strconv. *)
Lemma special_not_style s f : special_text s f -> style_float s = false.
Proof.
  assert (K : forall w t, cased w t -> In w ["inf"; "infinity"; "nan"] -> exists c t', t = chr c t' /\ ((48 <=? byte c) && (byte c <=? 57) = false) /\ c <> "."%char /\ c <> "+"%char /\ c <> "-"%char).
  { intros w t C Hw. cbn [In] in Hw. destruct Hw as [<-|[<-|[<-|[]]]]; destruct t as [|c t]; cbn [cased] in C; try tauto; destruct C as [[->| ->] _]; eexists; eexists; (split; [reflexivity|]); vm_compute; repeat split; congruence. }
  assert (D : forall w t, cased w t -> In w ["inf"; "infinity"; "nan"] -> style_mantissa t = (false, t) /\ drop_sign t = t).
  { intros w t C Hw. destruct (K w t C Hw) as (c & t' & -> & E & N1 & N2 & N3). unfold style_mantissa. cbn [skip_digits drop_sign]. rewrite E.
    rewrite (proj2 (Ascii.eqb_neq c ".") N1), (proj2 (Ascii.eqb_neq c "+") N2), (proj2 (Ascii.eqb_neq c "-") N3). split; reflexivity. }
  intros [(t & C & H)|[C _]].
  - assert (E : style_mantissa t = (false, t) /\ drop_sign t = t) by (destruct C as [C|C]; apply (D _ _ C); cbn; tauto). destruct E as [E1 E2].
    assert (S : forall r, style_mantissa (drop_sign r) = (false, t) -> style_float r = false) by (intros r H1; unfold style_float; rewrite H1; reflexivity).
    destruct H as [[-> _]|[[-> _]|[-> _]]]; apply S; [now rewrite E2|exact E1|exact E1].
  - destruct (D _ _ C ltac:(cbn; tauto)) as [E1 E2]. unfold style_float. rewrite E2, E1. reflexivity.
Qed.

Lemma float_real s t f : (t = s \/ t = strip s) -> parse_float t = Some f -> (forall g, ~ special_text t g) -> real_number s f.
Proof.
  intros Ht P N. right. destruct (parse_only t f P) as [S|(neg & q & v & T)]; [now apply N in S|].
  exists neg, q, v. split; [destruct Ht as [->| ->]; tauto|]. intros Tm. assert (Tm' : tame t v) by (destruct Ht as [->| ->]; [exact Tm|now apply tame_strip]).
  apply (parse_text_some t neg q v f T Tm') in P. tauto.
Qed.

Lemma number_sound s : numeric s ->
  (forall z, resolve_number s = RInt z -> - 2 ^ 63 <= z < 2 ^ 64 /\ (2 ^ 63 <= z -> integer_literal (strip s) z) /\ (whole_number s z \/ odd_number s z)) /\
  (forall f, resolve_number s = RFloat f -> real_number s f /\ is_float64 f).
Proof.
  intros Hn. unfold resolve_number. destruct (parse_int (strip s)) as [z0|] eqn:E1.
  { split; [|discriminate]. intros z H. injection H as <-. apply int_read in E1. destruct E1 as [E1 R]. split; [lia|]. split; [lia|]. left. now split. }
  destruct (parse_uint (strip s)) as [z0|] eqn:E2.
  { split; [|discriminate]. intros z H. injection H as <-. apply uint_read in E2. destruct E2 as [E2 R]. pose proof (literal_nonneg _ _ E2). split; [lia|]. split; [tauto|]. left. split; [exact Hn|].
    exists (strip s), z0. tauto. }
  destruct (if style_float (strip s) then parse_float (strip s) else None) as [f0|] eqn:E3.
  { split; [discriminate|]. intros f H. injection H as <-. destruct (style_float (strip s)) eqn:St; [|discriminate]. split; [|now apply parse_is_float in E3].
    apply (float_real s (strip s)); [tauto|exact E3|]. intros g Hg. apply special_not_style in Hg. congruence. }
  pose proof (strip_no s) as Nu. destruct (strip s) as [|a [|b rest]] eqn:Es; [split; discriminate|split; discriminate|].
  assert (Nr : ~ mentions "_" rest) by (intros H; apply Nu; right; right; exact H).
  assert (K : forall base p z, In (p, base) [("0b", 2); ("0o", 8)] -> strip s = (p ++ rest)%string -> parse_based base rest = Some z ->
    - 2 ^ 63 <= z < 2 ^ 63 /\ (whole_number s z \/ odd_number s z)).
  { intros base p z Hp Ep H. assert (B : 2 <= base <= 16) by (cbn [In] in Hp; destruct Hp as [Hp|[Hp|[]]]; injection Hp as _ <-; lia).
    destruct (based_read base rest z B Nr H) as (R & t & n & G & C). split; [exact R|]. destruct C as [[-> ->]|[[-> ->]|[-> ->]]].
    - left. split; [exact Hn|]. rewrite Ep. exists (p ++ t)%string, n. split; [|tauto]. apply (int_prefix p base t ""); [|now left|exact G].
      cbn [In] in Hp |- *. destruct Hp as [Hp|[Hp|[]]]; rewrite <- Hp; tauto.
    - right. exists p, base, "+", t, n. split; [exact Hp|]. split; [exact Ep|]. tauto.
    - right. exists p, base, "-", t, n. split; [exact Hp|]. split; [exact Ep|]. tauto. }
  destruct (Ascii.eqb_spec a "0") as [->|Na]; cbn [andb].
  - destruct (Ascii.eqb_spec b "b") as [->|Nb]; [|destruct (Ascii.eqb_spec b "o") as [->|No]].
    + destruct (parse_based 2 rest) as [z0|] eqn:P; [|split; discriminate]. split; [|discriminate]. intros z H. injection H as <-.
      destruct (K 2 "0b" z0 ltac:(cbn; tauto) Es P) as [R C]. split; [lia|]. split; [lia|exact C].
    + destruct (parse_based 8 rest) as [z0|] eqn:P; [|split; discriminate]. split; [|discriminate]. intros z H. injection H as <-.
      destruct (K 8 "0o" z0 ltac:(cbn; tauto) Es P) as [R C]. split; [lia|]. split; [lia|exact C].
    + destruct rest as [|c rest']; split; discriminate.
  - destruct rest as [|c rest']; [split; discriminate|].
    destruct (Ascii.eqb_spec a "-") as [->|Nm]; [|split; discriminate]. destruct (Ascii.eqb_spec b "0") as [->|N0]; [|split; discriminate]. cbn [andb].
    assert (L : forall base p z, In (p, base) [("0b", 2); ("0o", 8)] -> strip s = ("-" ++ p ++ rest')%string -> parse_based base (chr "-" rest') = Some z ->
      - 2 ^ 63 <= z < 2 ^ 63 /\ whole_number s z).
    { intros base p z Hp Ep H. assert (B : 2 <= base <= 16) by (cbn [In] in Hp; destruct Hp as [Hp|[Hp|[]]]; injection Hp as _ <-; lia).
      assert (Nu2 : ~ mentions "_" (chr "-" rest')) by (intros [H1|H1]; [discriminate|apply Nr; right; exact H1]).
      destruct (based_read base (chr "-" rest') z B Nu2 H) as (R & t & n & G & C). split; [exact R|]. destruct C as [[<- ->]|[[C _]|[C ->]]].
      - exfalso. inversion G; subst; match goal with D : digit_in _ _ _ |- _ => apply digit_in_facts in D; intuition congruence end.
      - discriminate.
      - injection C as <-. split; [exact Hn|]. rewrite Ep. exists (p ++ rest')%string, n. split; [|tauto]. apply (int_prefix p base rest' ""); [|now left|exact G].
        cbn [In] in Hp |- *. destruct Hp as [Hp|[Hp|[]]]; rewrite <- Hp; tauto. }
    destruct (Ascii.eqb_spec c "b") as [->|Nb]; [|destruct (Ascii.eqb_spec c "o") as [->|No]]; [| |split; discriminate].
    + destruct (parse_based 2 (chr "-" rest')) as [z0|] eqn:P; [|split; discriminate]. split; [|discriminate]. intros z H. injection H as <-.
      destruct (L 2 "0b" z0 ltac:(cbn; tauto) Es P) as [R C]. split; [lia|]. split; [lia|tauto].
    + destruct (parse_based 8 (chr "-" rest')) as [z0|] eqn:P; [|split; discriminate]. split; [|discriminate]. intros z H. injection H as <-.
      destruct (L 8 "0o" z0 ltac:(cbn; tauto) Es P) as [R C]. split; [lia|]. split; [lia|tauto].
Qed.

(** * Which texts mean what *)

Definition all_words : list string :=
  ["true"; "True"; "TRUE"; "false"; "False"; "FALSE"; ""; "~"; "null"; "Null"; "NULL";
   ".nan"; ".NaN"; ".NAN"; ".inf"; ".Inf"; ".INF"; "+.inf"; "+.Inf"; "+.INF"; "-.inf"; "-.Inf"; "-.INF"].
Lemma existsb_in s l : existsb (String.eqb s) l = true <-> In s l.
Proof. rewrite existsb_exists. split; [intros (x & H & E); apply String.eqb_eq in E; now subst|intros H; exists s; split; [exact H|apply String.eqb_refl]]. Qed.
Lemma existsb_not s l : existsb (String.eqb s) l = false <-> ~ In s l.
Proof. rewrite <- existsb_in. destruct (existsb _ _); intuition congruence. Qed.
Lemma word_in s r : word s = Some r -> In s all_words /\ resolve s = r /\
  ((exists b, r = RBool b) \/ r = RNull \/ exists f, r = RFloat f).
Proof.
  intros H. assert (K : In s all_words).
  { unfold word in H. unfold all_words.
    repeat match type of H with context [if existsb (String.eqb s) ?l then _ else _] => destruct (existsb (String.eqb s) l) eqn:E; [apply existsb_in in E; cbn [In null_words] in E |- *; tauto|clear E] end. discriminate. }
  split; [exact K|]. unfold all_words in K. cbn [In] in K.
  repeat (destruct K as [<-|K]; [vm_compute in H; injection H as <-; (split; [vm_compute; reflexivity|]); first [left; eexists; reflexivity|right; left; reflexivity|right; right; eexists; reflexivity]|]). destruct K.
Qed.
Lemma number_kinds s : resolve_number s <> RNull /\ forall b, resolve_number s <> RBool b.
Proof.
  unfold resolve_number. destruct (parse_int _); [split; [discriminate|discriminate]|]. destruct (parse_uint _); [split; discriminate|].
  destruct (if style_float (strip s) then parse_float (strip s) else None); [split; discriminate|]. destruct (strip s) as [|a [|b rest]]; try (split; discriminate).
  repeat match goal with |- context [match ?x with _ => _ end] => destruct x; try (split; discriminate) end.
Qed.
Lemma resolve_null s : resolve s = RNull <-> In s null_words.
Proof.
  split.
  - destruct s as [|c s]; [now left|]. unfold resolve. destruct (_ || existsb _ _); [|discriminate]. destruct (word (chr c s)) as [r|] eqn:W.
    + intros ->. destruct (word_in _ _ W) as [K _]. unfold all_words in K. cbn [In] in K. clear -W K.
      repeat (destruct K as [K|K]; [rewrite <- K in W |- *; first [discriminate W|unfold null_words; cbn [In]; tauto]|]). destruct K.
    + destruct (_ || (_ || _)).
      * intros H. now apply number_kinds in H.
      * destruct (Ascii.eqb c "."); [destruct (parse_float _); discriminate|discriminate].
  - intros H. cbn [null_words In] in H. repeat (destruct H as [<-|H]; [vm_compute; reflexivity|]). destruct H.
Qed.
Definition yes_words : list string := ["true"; "True"; "TRUE"].
Definition no_words : list string := ["false"; "False"; "FALSE"].
Lemma resolve_bool s b : resolve s = RBool b <-> In s (if b then yes_words else no_words).
Proof.
  split.
  - destruct s as [|c s]; [discriminate|]. unfold resolve. destruct (_ || existsb _ _); [|discriminate]. destruct (word (chr c s)) as [r|] eqn:W.
    + intros ->. destruct (word_in _ _ W) as [K _]. unfold all_words in K. cbn [In] in K. clear -W K.
      repeat (destruct K as [K|K]; [rewrite <- K in W |- *; vm_compute in W; first [discriminate W|injection W as <-; unfold yes_words, no_words; cbn [In]; tauto]|]). destruct K.
    + destruct (_ || (_ || _)).
      * intros H. now apply number_kinds in H.
      * destruct (Ascii.eqb c "."); [destruct (parse_float _); discriminate|discriminate].
  - intros H. destruct b; cbn [yes_words no_words In] in H; repeat (destruct H as [<-|H]; [vm_compute; reflexivity|]); destruct H.
Qed.

Lemma digit_iff c : ((48 <=? byte c) && (byte c <=? 57) = true) <-> is_digit c.
Proof.
  assert (K : Bool.eqb ((48 <=? byte c) && (byte c <=? 57)) (existsb (Ascii.eqb c) ["0"; "1"; "2"; "3"; "4"; "5"; "6"; "7"; "8"; "9"]%char) = true)
    by (apply (all_ascii (fun c => Bool.eqb ((48 <=? byte c) && (byte c <=? 57)) (existsb (Ascii.eqb c) ["0"; "1"; "2"; "3"; "4"; "5"; "6"; "7"; "8"; "9"]%char))); vm_compute; reflexivity).
  apply Bool.eqb_prop in K. rewrite K. unfold is_digit. rewrite existsb_exists. split; [intros (x & H & E); apply Ascii.eqb_eq in E; now subst|intros H; exists c; split; [exact H|apply Ascii.eqb_refl]].
Qed.
Lemma numeric_iff c s : ((48 <=? byte c) && (byte c <=? 57) || (Ascii.eqb c "+" || Ascii.eqb c "-")) = true <-> numeric (chr c s).
Proof.
  rewrite !orb_true_iff, digit_iff, !Ascii.eqb_eq. unfold numeric. split.
  - intros H. exists c, s. tauto.
  - intros (d & t & E & H). injection E as <- <-. tauto.
Qed.
Lemma resolve_numeric s : numeric s -> word s = None -> resolve s = resolve_number s.
Proof.
  intros (c & t & -> & H) W. unfold resolve. assert (N : numeric (chr c t)) by (exists c, t; tauto). apply (numeric_iff c t) in N.
  cbv zeta. rewrite N, W. reflexivity.
Qed.
Lemma resolve_int s z : resolve s = RInt z -> numeric s /\ resolve_number s = RInt z.
Proof.
  destruct s as [|c s]; [discriminate|]. unfold resolve. destruct (_ || existsb _ _); [|discriminate]. destruct (word (chr c s)) as [r|] eqn:W.
  - intros ->. destruct (word_in _ _ W) as (_ & _ & [(b & H)|[H|(f & H)]]); discriminate.
  - destruct (_ || (_ || _)) eqn:N; [apply (numeric_iff c s) in N; tauto|]. destruct (Ascii.eqb c "."); [destruct (parse_float _); discriminate|discriminate].
Qed.
Lemma resolve_float s f : resolve s = RFloat f -> real_number s f /\ is_float64 f.
Proof.
  destruct s as [|c s]; [discriminate|]. unfold resolve. destruct (_ || existsb _ _); [|discriminate]. destruct (word (chr c s)) as [r|] eqn:W.
  - intros ->. destruct (word_in _ _ W) as (K & _). unfold all_words in K. cbn [In] in K. clear -W K.
    repeat (destruct K as [K|K]; [rewrite <- K in W |- *; vm_compute in W; first [discriminate W|injection W as <-; split; [left; unfold special_words; cbn [In]; tauto|unfold is_float64; tauto]]|]). destruct K.
  - destruct (_ || (_ || _)) eqn:N; [apply (numeric_iff c s) in N; apply number_sound, N|]. destruct (Ascii.eqb_spec c ".") as [->|Nd]; [|discriminate].
    destruct (parse_float (chr "." s)) as [g|] eqn:P; [|discriminate]. intros H. injection H as <-. split; [|now apply parse_is_float in P].
    apply (float_real _ (chr "." s)); [tauto|exact P|]. intros g' [(t & C & H)|[C _]].
    + assert (E : exists d t', t = chr d t' /\ (d = "i"%char \/ d = "I"%char)) by (destruct t as [|d t']; [destruct C as [[]|[]]|exists d, t'; split; [reflexivity|destruct C as [[C _]|[C _]]; exact C]]).
      destruct E as (d & t' & -> & E). destruct H as [[H _]|[[H _]|[H _]]]; cbn [String.append] in H; inversion H; subst; destruct E; discriminate.
    + destruct C as [[C|C] _]; vm_compute in C; discriminate C.
Qed.

Lemma signed_head s v : signed_literal s v -> exists c t, drop_sign s = chr c t /\ is_digit c.
Proof.
  intros (t & n & L & C). destruct (literal_head _ _ L) as (c & t' & -> & D). exists c, t'. split; [|exact D].
  destruct C as [[-> _]|[[-> _]|[-> _]]]; cbn [String.append]; [|reflexivity|reflexivity]. unfold drop_sign.
  destruct (Ascii.eqb_spec c "-") as [->|N1]; [apply digit_iff in D; discriminate D|]. destruct (Ascii.eqb_spec c "+") as [->|N2]; [apply digit_iff in D; discriminate D|]. reflexivity.
Qed.
Lemma whole_not_word s v : signed_literal (strip s) v -> word s = None.
Proof.
  intros H. destruct (word s) as [r|] eqn:W; [|reflexivity]. exfalso. destruct (word_in _ _ W) as [K _]. apply signed_head in H. destruct H as (c & t & E & D).
  clear W. unfold all_words in K. cbn [In] in K. repeat (destruct K as [<-|K]; [vm_compute in E; first [discriminate E|injection E as <- _; apply digit_iff in D; discriminate D]|]). destruct K.
Qed.
Lemma whole_read s v : whole_number s v -> - 2 ^ 63 <= v < 2 ^ 63 -> resolve s = RInt v.
Proof.
  intros [N L] R. rewrite resolve_numeric by (try exact N; now apply whole_not_word with v). unfold resolve_number.
  replace (parse_int (strip s)) with (Some v); [reflexivity|]. symmetry. apply int_read. now split.
Qed.
Lemma literal_read s v : numeric s -> integer_literal (strip s) v -> v < 2 ^ 64 -> resolve s = RInt v.
Proof.
  intros N L R. assert (S : signed_literal (strip s) v) by (exists (strip s), v; tauto). pose proof (literal_nonneg _ _ L).
  destruct (Z.lt_ge_cases v (2 ^ 63)) as [H1|H1]; [apply whole_read; [now split|lia]|].
  rewrite resolve_numeric by (try exact N; now apply whole_not_word with v). unfold resolve_number.
  destruct (parse_int (strip s)) as [w|] eqn:P. { apply int_read in P. destruct P as [P Q]. pose proof (signed_fun _ _ _ S P). subst. reflexivity. }
  replace (parse_uint (strip s)) with (Some v); [reflexivity|]. symmetry. apply uint_read. now split.
Qed.
Lemma int_sound s z : resolve s = RInt z -> - 2 ^ 63 <= z < 2 ^ 64 /\ (2 ^ 63 <= z -> integer_literal (strip s) z) /\ (whole_number s z \/ odd_number s z).
Proof. intros H. apply resolve_int in H. destruct H as [N H]. now apply number_sound. Qed.

(** * Conversions *)

Lemma trunc_spec f n : finite f -> trunc f = Some n -> toward_zero f n.
Proof.
  destruct f as [neg m e| |]; cbn [finite]; try tauto. intros F H. split; [exact F|]. cbn [trunc] in H. cbn [value].
  set (n0 := if 0 <=? e then m * 2 ^ e else m / 2 ^ (- e)) in *. set (q := (inject_Z m * Qpower 2 e)%Q).
  assert (B : 0 <= n0 /\ (inject_Z n0 <= q)%Q /\ (q < inject_Z n0 + 1)%Q).
  { unfold n0, q. destruct (Z.leb_spec 0 e) as [L|L].
    - split; [nia|]. assert (E : (inject_Z (m * 2 ^ e) == inject_Z m * Qpower 2 e)%Q) by (rewrite inject_Z_mult; change (Qpower 2 e) with (pow2 e); now rewrite (pow2_Z e L)).
      rewrite E. split; [apply Qle_refl|]. rewrite <- (Qplus_0_r (inject_Z m * _)) at 1. apply Qplus_lt_r. reflexivity.
    - assert (P : 0 < 2 ^ (- e)) by (apply Z.pow_pos_nonneg; lia). pose proof (Z.div_mod m (2 ^ (- e)) ltac:(lia)) as DM. pose proof (Z.mod_pos_bound m (2 ^ (- e)) P) as MB.
      split; [apply Z.div_pos; lia|]. assert (E : (Qpower 2 e * inject_Z (2 ^ (- e)) == 1)%Q).
      { change (Qpower 2 e) with (pow2 e). rewrite <- (pow2_Z (- e)) by lia. rewrite <- pow2_plus, Z.add_opp_diag_r. reflexivity. }
      assert (PQ : (0 < inject_Z (2 ^ (- e)))%Q) by (change 0%Q with (inject_Z 0); rewrite <- Zlt_Qlt; exact P).
      assert (Em : (inject_Z m * Qpower 2 e * inject_Z (2 ^ (- e)) == inject_Z m)%Q) by (rewrite <- Qmult_assoc, E, Qmult_1_r; reflexivity).
      split.
      + apply (Qmult_le_r _ _ _ PQ). rewrite Em, <- inject_Z_mult, <- Zle_Qle. nia.
      + apply (Qmult_lt_r _ _ _ PQ). rewrite Em. change 1%Q with (inject_Z 1). rewrite <- inject_Z_plus, <- inject_Z_mult, <- Zlt_Qlt. nia. }
  destruct B as (B0 & B1 & B2). assert (Z0 : (0 <= inject_Z n0)%Q) by (change 0%Q with (inject_Z 0); now rewrite <- Zle_Qle).
  assert (Q0 : (0 <= q)%Q) by (eapply Qle_trans; eassumption). injection H as <-.
  assert (A : (Qabs (signed neg q) == q)%Q) by (destruct neg; cbn [signed]; rewrite ?Qabs_opp; now apply Qabs_pos).
  assert (A' : (Qabs (inject_Z (if neg then - n0 else n0)) == inject_Z n0)%Q) by (destruct neg; rewrite ?inject_Z_opp, ?Qabs_opp; now apply Qabs_pos).
  rewrite A, A'. split; [exact B1|]. split; [exact B2|]. pose proof (Qmult_le_0_compat _ _ Z0 Q0) as M. destruct neg; cbn [signed]; [|exact M].
  rewrite inject_Z_opp. setoid_replace (- inject_Z n0 * - q)%Q with (inject_Z n0 * q)%Q by ring. exact M.
Qed.
Lemma toward_unique f n n' : toward_zero f n -> toward_zero f n' -> n = n'.
Proof.
  intros (_ & A & B & C) (_ & A' & B' & C'). assert (E : Z.abs n = Z.abs n').
  { assert (K : forall k, (Qabs (inject_Z k) == inject_Z (Z.abs k))%Q) by (intros k; reflexivity).
    rewrite K in A, B, A', B'. change 1%Q with (inject_Z 1) in B, B'. rewrite <- inject_Z_plus in B, B'.
    assert (L1 : (inject_Z (Z.abs n) < inject_Z (Z.abs n' + 1))%Q) by (eapply Qle_lt_trans; eassumption).
    assert (L2 : (inject_Z (Z.abs n') < inject_Z (Z.abs n + 1))%Q) by (eapply Qle_lt_trans; eassumption).
    rewrite <- Zlt_Qlt in L1, L2. lia. }
  destruct (Z.eq_dec n n') as [|N]; [assumption|]. assert (n' = - n) as -> by lia. exfalso.
  assert (V : (0 < Qabs (value f))%Q).
  { eapply Qlt_le_trans; [|exact A]. change (0 < inject_Z (Z.abs n))%Q. change 0%Q with (inject_Z 0). rewrite <- Zlt_Qlt. lia. }
  assert (Z0 : (inject_Z n * value f == 0)%Q).
  { apply Qle_antisym; [|exact C]. rewrite inject_Z_opp in C'. apply Qopp_le_compat in C'. setoid_replace (- (- inject_Z n * value f))%Q with (inject_Z n * value f)%Q in C' by ring. exact C'. }
  apply Qmult_integral in Z0. destruct Z0 as [Z0|Z0].
  - change 0%Q with (inject_Z 0) in Z0. rewrite inject_Z_injective in Z0. lia.
  - rewrite Z0 in V. discriminate V.
Qed.
Lemma trunc_at f n : toward_zero f n -> trunc f = Some n.
Proof.
  intros T. pose proof T as (F & _). destruct f as [neg m e| |]; try destruct F; try tauto. destruct (trunc (Fin neg m e)) as [k|] eqn:E; [|discriminate].
  pose proof (trunc_spec (Fin neg m e) k (proj1 T) E) as K. now rewrite (toward_unique _ _ _ T K).
Qed.
Lemma to_int64_spec f : - 2 ^ 63 <= to_int64 f < 2 ^ 63 /\
  (forall n, toward_zero f n -> - 2 ^ 63 <= n < 2 ^ 63 -> to_int64 f = n) /\
  (forall n, toward_zero f n -> ~ (- 2 ^ 63 <= n < 2 ^ 63) -> to_int64 f = - 2 ^ 63) /\ (is_float64 f -> ~ finite f -> to_int64 f = - 2 ^ 63).
Proof.
  unfold to_int64. split; [|split; [|split]].
  - destruct (trunc f) as [n|]; [|lia]. destruct (Z.leb_spec (- 2 ^ 63) n); cbn [andb]; [|lia]. destruct (Z.ltb_spec n (2 ^ 63)); lia.
  - intros n T R. rewrite (trunc_at f n T). rewrite (proj2 (Z.leb_le _ _)), (proj2 (Z.ltb_lt _ _)) by lia. reflexivity.
  - intros n T R. rewrite (trunc_at f n T). destruct (Z.leb_spec (- 2 ^ 63) n); cbn [andb]; [|reflexivity]. destruct (Z.ltb_spec n (2 ^ 63)); [lia|reflexivity].
  - intros [F|[->|[->| ->]]] N; [tauto|reflexivity|reflexivity|reflexivity].
Qed.
Lemma to_uint64_spec f : 0 <= to_uint64 f < 2 ^ 64 /\
  (forall n, toward_zero f n -> 0 <= n < 2 ^ 64 -> to_uint64 f = n) /\ (forall n, toward_zero f n -> - 2 ^ 63 <= n < 0 -> to_uint64 f = n + 2 ^ 64).
Proof.
  unfold to_uint64. pose proof (proj1 (to_int64_spec f)) as R. split; [|split].
  - destruct (trunc f) as [n|] eqn:E; [|lia]. destruct (Z.ltb_spec n (2 ^ 63)); [apply Z.mod_pos_bound; lia|]. destruct (Z.ltb_spec n (2 ^ 64)); lia.
  - intros n T B. rewrite (trunc_at f n T). destruct (Z.ltb_spec n (2 ^ 63)).
    + rewrite (proj1 (proj2 (to_int64_spec f)) n T) by lia. now apply Z.mod_small.
    + rewrite (proj2 (Z.ltb_lt _ _)) by lia. reflexivity.
  - intros n T B. rewrite (trunc_at f n T), (proj2 (Z.ltb_lt _ _)) by lia. rewrite (proj1 (proj2 (to_int64_spec f)) n T) by lia.
    symmetry. apply (Z.mod_unique n (2 ^ 64) (-1)); lia.
Qed.
Lemma float_int z : - 2 ^ 63 <= z < 2 ^ 64 -> rounds_to (inject_Z z) (float_of_int z) /\ (negative (float_of_int z) = (z <? 0)).
Proof.
  intros R. unfold float_of_int. assert (P : (0 <= inject_Z (Z.abs z))%Q) by (change 0%Q with (inject_Z 0); rewrite <- Zle_Qle; lia).
  destruct (round64 (inject_Z (Z.abs z))) as [[m e]|] eqn:E.
  - split; [|reflexivity]. apply (round64_rounds (z <? 0) _ m e P) in E.
    assert (S : (signed (z <? 0) (inject_Z (Z.abs z)) = inject_Z z)%Q). { destruct (Z.ltb_spec z 0); cbn [signed]; [rewrite <- inject_Z_opp; f_equal; lia|f_equal; lia]. }
    rewrite S in E. exact E.
  - exfalso. apply (round64_none _ P) in E. unfold out_of_range in E. rewrite (Qabs_pos _ P) in E.
    assert (L : (inject_Z (Z.abs z) < inject_Z (2 ^ 54 - 1) * Qpower 2 970)%Q); [|apply (Qlt_irrefl (inject_Z (Z.abs z))); eapply Qlt_le_trans; eassumption].
    change (Qpower 2 970) with (pow2 970). rewrite (pow2_Z 970) by lia. rewrite <- inject_Z_mult, <- Zlt_Qlt. apply Z.le_lt_trans with (2 ^ 64); [lia|]. vm_compute. reflexivity.
Qed.

(** * Durations *)

Definition unit_free (c : ascii) : Prop := c <> "s"%char /\ c <> "m"%char /\ c <> "h"%char.
Ltac free_char := unfold unit_free; repeat split; discriminate.
Lemma grouped_free base s n v : grouped base s n v -> all_chars unit_free s.
Proof.
  assert (K : forall c d, digit_in base c d -> unit_free c).
  { intros c d [D _]. cbn [digits_table In] in D. repeat (destruct D as [D|D]; [injection D as <- _; free_char|]). destruct D. }
  induction 1 as [c d n D|c d s n v D G IH|c d s n v D G IH]; cbn [all_chars]; repeat split; first [apply (K c d D)|exact IH|discriminate|exact I].
Qed.
Lemma literal_free s v : integer_literal s v -> all_chars unit_free s.
Proof.
  intros [c s' v' N G| |s' u v' U G|p base s' u v' P U G].
  - now apply grouped_free in G.
  - split; [free_char|exact I].
  - apply all_chars_app. split; [split; [free_char|exact I]|]. apply all_chars_app. apply grouped_free in G. split; [|exact G].
    cbn [In] in U. destruct U as [<-|[<-|[]]]; [exact I|split; [free_char|exact I]].
  - apply all_chars_app. apply grouped_free in G. split; [cbn [In] in P; repeat (destruct P as [P|P]; [injection P as <- _; cbn [all_chars]; repeat split; discriminate|]); destruct P|].
    apply all_chars_app. split; [|exact G]. cbn [In] in U. destruct U as [<-|[<-|[]]]; [exact I|split; [free_char|exact I]].
Qed.
Lemma mantissa_free base s n k : mantissa base s n k -> all_chars unit_free s.
Proof.
  intros [a n' G|a n' G|a b n' m G G2|b m G].
  - now apply grouped_free in G.
  - apply all_chars_app. split; [now apply grouped_free in G|split; [free_char|exact I]].
  - apply all_chars_app. split; [now apply grouped_free in G|]. split; [free_char|now apply grouped_free in G2].
  - split; [free_char|now apply grouped_free in G].
Qed.
Lemma exponent_free l e v : incl l ["e"; "E"; "p"; "P"] -> exponent l e v -> all_chars unit_free e.
Proof.
  intros L H. assert (K : forall x, In x l -> all_chars unit_free x).
  { intros x Hx. apply L in Hx. cbn [In] in Hx. destruct Hx as [<-|[<-|[<-|[<-|[]]]]]; (split; [free_char|exact I]). }
  destruct H as [x sg d v X S G|x d v X G]; apply grouped_free in G; apply all_chars_app; (split; [now apply K|]); apply all_chars_app; (split; [|exact G]).
  - cbn [In] in S. destruct S as [<-|[<-|[]]]; [exact I|split; [free_char|exact I]].
  - split; [free_char|exact I].
Qed.
Lemma float_free s neg q v : float_text s neg q v -> all_chars unit_free s.
Proof.
  intros (t & L & S). assert (K : all_chars unit_free t).
  { destruct L as [s' n k M|s' n k e w M E|p u s' n k e w P U M E]; apply mantissa_free in M; [exact M| |].
    - apply all_chars_app. split; [exact M|]. apply exponent_free in E; [exact E|intros x; cbn [In]; tauto].
    - apply exponent_free in E; [|intros x; cbn [In]; tauto]. apply all_chars_app. split; [cbn [In] in P; destruct P as [<-|[<-|[]]]; cbn [all_chars]; repeat split; discriminate|].
      apply all_chars_app. split; [destruct U as [->|[-> _]]; [exact I|split; [free_char|exact I]]|]. apply all_chars_app. now split. }
  destruct S as [[-> _]|[[-> _]|[-> _]]]; [exact K|split; [free_char|exact K]|split; [free_char|exact K]].
Qed.
Lemma strip_free s : all_chars unit_free (strip s) -> all_chars unit_free s.
Proof.
  induction s as [|c s IH]; [trivial|]. cbn [strip all_chars]. destruct (Ascii.eqb_spec c "_") as [->|N]; [intros H; split; [free_char|now apply IH]|].
  cbn [all_chars]. intros [H1 H2]. split; [exact H1|now apply IH].
Qed.
Lemma real_free s f : real_number s f -> all_chars unit_free s.
Proof.
  intros [H|(neg & q & v & [T|T] & _)].
  - unfold special_words in H. cbn [In] in H. repeat (destruct H as [H|H]; [injection H as <- _; cbn [all_chars]; repeat split; discriminate|]). destruct H.
  - now apply float_free in T.
  - apply strip_free. now apply float_free in T.
Qed.
Lemma whole_free s v : whole_number s v -> all_chars unit_free s.
Proof.
  intros [_ (t & n & L & C)]. apply strip_free. apply literal_free in L. destruct C as [[-> _]|[[-> _]|[-> _]]]; [exact L|split; [free_char|exact L]|split; [free_char|exact L]].
Qed.
Lemma odd_free s v : odd_number s v -> all_chars unit_free s.
Proof.
  intros (p & base & sg & t & n & P & E & S & G). apply strip_free. rewrite E. apply grouped_free in G. apply all_chars_app.
  split; [cbn [In] in P; destruct P as [P|[P|[]]]; injection P as <- _; cbn [all_chars]; repeat split; discriminate|].
  apply all_chars_app. split; [|exact G]. destruct S as [[-> _]|[-> _]]; (split; [free_char|exact I]).
Qed.
Lemma duration_not_free s neg ps : duration_text s neg ps -> ~ all_chars unit_free s.
Proof.
  intros (Ne & F & sg & _ & ->) H. destruct ps as [|p ps]; [congruence|]. apply all_chars_app in H. destruct H as [_ H]. cbn [parts_text] in H.
  apply all_chars_app in H. destruct H as [H _]. unfold part_text in H. apply all_chars_app in H. destruct H as [_ H]. apply all_chars_app in H. destruct H as [_ H].
  inversion F as [|? ? (_ & _ & _ & U) _]; subst. unfold units in U. cbn [In] in U.
  repeat (destruct U as [U|U]; [injection U as U _; rewrite <- U in H; cbn [all_chars] in H; unfold unit_free in H; tauto|]). destruct U.
Qed.
Lemma duration_head s neg ps : duration_text s neg ps -> exists c t, s = chr c t /\ (is_digit c \/ c = "+"%char \/ c = "-"%char \/ c = "."%char).
Proof.
  intros (Ne & F & sg & Sg & ->). destruct ps as [|p ps]; [congruence|]. inversion F as [|? ? (W & Fd & N & _) _]; subst. cbn [parts_text].
  assert (K : exists c t, (part_text p ++ parts_text ps)%string = chr c t /\ (is_digit c \/ c = "."%char)).
  { unfold part_text. destruct (whole p) as [|c w] eqn:E.
    - unfold frac_digits in N. destruct (frac p) as [f|]; [|destruct N; congruence]. cbn [String.append]. eexists. eexists. split; [reflexivity|tauto].
    - cbn [String.append]. exists c. eexists. split; [reflexivity|]. left. apply W. }
  destruct K as (c & t & K & H). rewrite K. destruct Sg as [[-> _]|[[->| ->] _]]; cbn [String.append]; eexists; eexists; (split; [reflexivity|]); tauto.
Qed.
Lemma zero_read s : zero_text s -> resolve s = RInt 0.
Proof. intros (sg & neg & S & ->). destruct S as [[-> _]|[[->| ->] _]]; vm_compute; reflexivity. Qed.
Lemma duration_resolve s neg ps : duration_text s neg ps -> resolve s = RText.
Proof.
  intros D. pose proof (duration_not_free _ _ _ D) as N. destruct (duration_head _ _ _ D) as (c & t & E & H).
  assert (Hw : forall l, (forall w, In w l -> match w with String.EmptyString => True | String.String d _ => existsb (Ascii.eqb d) ["0"; "1"; "2"; "3"; "4"; "5"; "6"; "7"; "8"; "9"; "+"; "-"; "."]%char = false end) -> ~ In s l).
  { intros l Hl Hin. apply Hl in Hin. rewrite E in Hin. unfold is_digit in H. cbn [In] in H.
    repeat (destruct H as [H|H]; [first [subst c; discriminate Hin|repeat (destruct H as [H|H]; [subst c; discriminate Hin|]); destruct H]|]). subst c. discriminate Hin. }
  destruct (resolve s) as [|b|z|f|] eqn:R; [| | | |reflexivity]; exfalso.
  - apply resolve_null in R. revert R. apply Hw. intros w. unfold null_words. cbn [In]. intros Q. repeat (destruct Q as [<-|Q]; [first [exact I|reflexivity]|]). destruct Q.
  - apply resolve_bool in R. revert R. apply Hw. intros w. destruct b; unfold yes_words, no_words; cbn [In]; intros Q; repeat (destruct Q as [<-|Q]; [reflexivity|]); destruct Q.
  - apply int_sound in R. destruct R as (_ & _ & [R|R]); apply N; [now apply whole_free in R|now apply odd_free in R].
  - apply resolve_float in R. destruct R as [R _]. apply N. now apply real_free in R.
Qed.

(** * Real numbers that are accepted *)

Lemma skip_run a n v : grouped 10 a n v -> ~ mentions "_" a -> forall b r, skip_digits b (a ++ r)%string = skip_digits true r.
Proof.
  assert (K : forall c d, digit_in 10 c d -> ((48 <=? byte c) && (byte c <=? 57)) = true) by (intros c d D; now apply dec_digit in D).
  induction 1 as [c d n D|c d s n v D G IH|c d s n v D G IH]; intros N b r; cbn [String.append skip_digits].
  - now rewrite (K c d D).
  - rewrite (K c d D). apply IH. intros M. apply N. right. exact M.
  - exfalso. apply N. right. left. reflexivity.
Qed.
Definition no_digit_first (r : string) : Prop := match r with String.EmptyString => True | String.String c _ => ((48 <=? byte c) && (byte c <=? 57)) = false end.
Lemma skip_stop b r : no_digit_first r -> skip_digits b r = (b, r).
Proof. destruct r as [|c r]; [reflexivity|]. cbn [no_digit_first skip_digits]. now intros ->. Qed.
Lemma style_mant s n k r : mantissa 10 s n k -> ~ mentions "_" s -> no_digit_first r -> (forall t, r <> chr "." t) -> style_mantissa (s ++ r)%string = (true, r).
Proof.
  assert (Dot : forall t r, (chr "." t ++ r)%string = chr "." (t ++ r)%string) by reflexivity.
  assert (Stop : forall d r, no_digit_first r -> (forall t, r <> chr "." t) -> d = true -> match r with String.String c r' => if Ascii.eqb c "." then skip_digits d r' else (d, r) | String.EmptyString => (d, r) end = (true, r)).
  { intros d [|c r'] Hr Nd ->; [reflexivity|]. destruct (Ascii.eqb_spec c ".") as [->|]; [now destruct (Nd r')|reflexivity]. }
  intros [a n' G|a n' G|a b n' m G G2|b m G] Nu Hr Nd; unfold style_mantissa.
  - rewrite (skip_run _ _ _ G Nu), (skip_stop _ _ Hr). now apply Stop.
  - assert (Na : ~ mentions "_" a) by (intros H; apply Nu; apply mentions_app; now left). rewrite append_assoc', (skip_run _ _ _ G Na). cbn [String.append].
    rewrite (skip_stop true (chr "." r)) by reflexivity. change (Ascii.eqb "." ".") with true. cbv iota. now apply skip_stop.
  - assert (Na : ~ mentions "_" a) by (intros H; apply Nu; apply mentions_app; now left).
    assert (Nb : ~ mentions "_" b) by (intros H; apply Nu; apply mentions_app; right; right; exact H). rewrite append_assoc', (skip_run _ _ _ G Na). cbn [String.append].
    rewrite (skip_stop true (chr "." (b ++ r))) by reflexivity. change (Ascii.eqb "." ".") with true. cbv iota. rewrite (skip_run _ _ _ G2 Nb). now apply skip_stop.
  - assert (Nb : ~ mentions "_" b) by (intros H; apply Nu; right; exact H). cbn [String.append].
    rewrite (skip_stop false (chr "." (b ++ r))) by reflexivity. change (Ascii.eqb "." ".") with true. cbv iota. rewrite (skip_run _ _ _ G Nb). now apply skip_stop.
Qed.
Lemma grouped_unsigned a n v : grouped 10 a n v -> unsigned a.
Proof. intros G. destruct G as [c d n D|c d s n v D G|c d s n v D G]; apply dec_digit in D; destruct D as (D & _ & _); split; intros ->; discriminate D. Qed.
Lemma literal_style t q v : float_literal t q v -> ~ mentions "_" t -> ~ mentions "x" t -> ~ mentions "X" t ->
  unsigned t /\ (exists c t', t = chr c t' /\ (is_digit c \/ c = "."%char)) /\ forall sg neg, sign_of sg neg -> style_float (sg ++ t)%string = true.
Proof.
  assert (Hd : forall s n k r, mantissa 10 s n k -> unsigned (s ++ r)%string /\ exists c t', (s ++ r)%string = chr c t' /\ (is_digit c \/ c = "."%char)).
  { intros s n k r M. assert (K : exists c s', s = chr c s' /\ (is_digit c \/ c = "."%char)).
    { destruct M as [a n' G|a n' G|a b n' m G G2|b m G]; [| | |exists "."%char, b; tauto].
      all: destruct G as [c d n0 D|c d s n0 v0 D G|c d s n0 v0 D G]; apply dec_digit in D; destruct D as (D & _ & _); apply digit_iff in D; cbn [String.append]; eexists; eexists; (split; [reflexivity|tauto]). }
    destruct K as (c & s' & -> & K). cbn [String.append]. split; [|exists c, (s' ++ r)%string; tauto]. cbn [unsigned]. destruct K as [K| ->]; [|split; discriminate].
    apply digit_iff in K. split; intros ->; discriminate K. }
  intros L Nu Nx NX. destruct L as [s n k M|s n k e w M E|p u s n k e w P U M E].
  - destruct (Hd s n k "" M) as [U H]. rewrite append_empty in U, H. split; [exact U|]. split; [exact H|]. intros sg neg Sg. unfold style_float. rewrite (drop_sign_sg sg neg s Sg U).
    rewrite <- (append_empty s), (style_mant s n k "" M Nu); [reflexivity|exact I|discriminate].
  - destruct (Hd s n k e M) as [U H]. split; [exact U|]. split; [exact H|]. intros sg neg Sg. unfold style_float. rewrite (drop_sign_sg sg neg _ Sg U).
    assert (Ns : ~ mentions "_" s) by (intros K; apply Nu; apply mentions_app; now left). assert (Ne : ~ mentions "_" e) by (intros K; apply Nu; apply mentions_app; now right).
    assert (K : exists x r, e = chr x r /\ (x = "e"%char \/ x = "E"%char) /\ skip_digits false (drop_sign r) = (true, "")).
    { destruct E as [x sg' d w' X S G|x d w' X G].
      - assert (Nd : ~ mentions "_" d) by (intros K; apply Ne; apply mentions_app; right; apply mentions_app; now right).
        assert (Es : skip_digits false (drop_sign (sg' ++ d)) = (true, "")).
        { assert (So : sign_of sg' false) by (left; tauto). rewrite (drop_sign_sg sg' false d So (grouped_unsigned _ _ _ G)), <- (append_empty d), (skip_run _ _ _ G Nd). reflexivity. }
        cbn [In] in X. destruct X as [<-|[<-|[]]]; cbn [String.append]; eexists; eexists; (split; [reflexivity|]); (split; [tauto|exact Es]).
      - assert (Nd : ~ mentions "_" d) by (intros K; apply Ne; apply mentions_app; right; right; exact K).
        assert (Es : skip_digits false (drop_sign (chr "-" d)) = (true, "")) by (unfold drop_sign; change (Ascii.eqb "-" "-") with true; rewrite ?orb_true_r, ?orb_true_l; cbv iota; cbn [orb]; cbv iota; rewrite <- (append_empty d), (skip_run _ _ _ G Nd); reflexivity).
        cbn [In] in X. destruct X as [<-|[<-|[]]]; cbn [String.append]; eexists; eexists; (split; [reflexivity|]); (split; [tauto|exact Es]). }
    destruct K as (x & r & -> & X & Es). rewrite (style_mant s n k (chr x r) M Ns); [|cbn; destruct X as [->| ->]; reflexivity|intros t K; injection K as -> _; destruct X; discriminate].
    rewrite Es. destruct X as [->| ->]; reflexivity.
  - exfalso. cbn [In] in P. destruct P as [<-|[<-|[]]]; [apply Nx|apply NX]; right; left; reflexivity.
Qed.
Lemma word_no_float s r : word s = Some r -> parse_float s = None.
Proof. intros W. destruct (word_in _ _ W) as [K _]. clear W. unfold all_words in K. cbn [In] in K. repeat (destruct K as [<-|K]; [vm_compute; reflexivity|]). destruct K. Qed.
Lemma real_read s neg q v : float_text s neg q v -> tame s v -> ~ out_of_range (signed neg q) -> ~ mentions "_" s -> ~ mentions "x" s -> ~ mentions "X" s ->
  (forall n, signed_literal s n -> ~ (- 2 ^ 63 <= n < 2 ^ 64)) ->
  exists f, resolve s = RFloat f /\ rounds_to (signed neg q) f /\ negative f = neg.
Proof.
  intros T Tm R Nu Nx NX Ni. destruct (parse_float s) as [f|] eqn:P; [|apply (parse_text_none s neg q v T Tm) in P; tauto].
  exists f. pose proof P as P'. apply (parse_text_some s neg q v f T Tm) in P'. split; [|tauto].
  assert (W : word s = None) by (destruct (word s) as [r|] eqn:W; [|reflexivity]; apply word_no_float in W; congruence).
  destruct T as (t & L & S). assert (Sg : exists sg, s = (sg ++ t)%string /\ sign_of sg neg).
  { destruct S as [[-> ->]|[[-> ->]|[-> ->]]]; [exists ""|exists "+"|exists "-"]; (split; [reflexivity|]); unfold sign_of; cbn [In]; tauto. }
  destruct Sg as (sg & Es & Sg). assert (Sub : forall c, ~ mentions c s -> ~ mentions c t) by (intros c H K; apply H; rewrite Es; apply mentions_app; now right).
  destruct (literal_style t q v L (Sub _ Nu) (Sub _ Nx) (Sub _ NX)) as (U & (c & t' & Et & Hc) & St).
  specialize (St sg neg Sg). rewrite <- Es in St.
  assert (Num : resolve_number s = RFloat f).
  { unfold resolve_number. rewrite (strip_same s Nu). destruct (parse_int s) as [n|] eqn:P1; [apply int_read in P1; exfalso; apply (Ni n); [tauto|lia]|].
    destruct (parse_uint s) as [n|] eqn:P2. { apply uint_read in P2. exfalso. destruct P2 as [P2 B]. apply (Ni n); [exists s, n; tauto|]. pose proof (literal_nonneg _ _ P2). lia. }
    now rewrite St, P. }
  assert (Hs : numeric s \/ s = chr "." t').
  { destruct S as [[-> _]|[[-> _]|[-> _]]]; [|left; exists "+"%char, t; tauto|left; exists "-"%char, t; tauto]. rewrite Et. destruct Hc as [Hc| ->]; [left; exists c, t'; tauto|now right]. }
  destruct Hs as [Hs|Hs]; [now rewrite (resolve_numeric s Hs W)|]. rewrite Hs in *. unfold resolve. rewrite W. cbv zeta. change (Ascii.eqb "." ".") with true. rewrite P. reflexivity.
Qed.

Lemma float_le_spec f k : 0 <= k -> is_float64 f -> (float_le f k = true <-> at_most f (2 ^ k)).
Proof.
  intros K F. assert (P2 : (0 <= inject_Z (2 ^ k))%Q) by (change 0%Q with (inject_Z 0); rewrite <- Zle_Qle; apply Z.pow_nonneg; lia).
  destruct F as [F|[->|[->| ->]]]; unfold at_most.
  2: { cbn. split; [discriminate|intros [[[] _]|H]; discriminate]. }
  2: { cbn. split; [now right|reflexivity]. }
  2: { cbn. split; [discriminate|intros [[[] _]|H]; discriminate]. }
  destruct f as [neg m e| |]; cbn [finite] in F; [|destruct F|destruct F]. destruct F as [E M].
  assert (H : float_le (Fin neg m e) k = true <-> (value (Fin neg m e) <= inject_Z (2 ^ k))%Q).
  2: { rewrite H. split; [intros V; left; split; [now split|exact V]|intros [[_ V]|V]; [exact V|discriminate]]. }
  cbn [float_le value]. assert (Q0 : (0 <= inject_Z m * Qpower 2 e)%Q).
  { apply Qmult_le_0_compat; [change 0%Q with (inject_Z 0); rewrite <- Zle_Qle; lia|apply Qlt_le_weak; exact (pow2_pos e)]. }
  destruct neg; cbn [orb signed].
  { split; [|reflexivity]. intros _. apply Qle_trans with 0%Q; [|exact P2]. setoid_replace 0%Q with (- 0)%Q by reflexivity. now apply Qopp_le_compat. }
  change (Qpower 2 e) with (pow2 e). destruct (Z.leb_spec 0 e) as [L|L]; rewrite Z.leb_le.
  - rewrite (pow2_Z e L), <- inject_Z_mult, <- Zle_Qle. reflexivity.
  - assert (P : (0 < inject_Z (2 ^ (- e)))%Q) by (change 0%Q with (inject_Z 0); rewrite <- Zlt_Qlt; apply Z.pow_pos_nonneg; lia).
    rewrite <- (Qmult_le_r _ _ _ P). rewrite <- (pow2_Z (- e)) by lia. rewrite <- Qmult_assoc, <- pow2_plus, Z.add_opp_diag_r. change (pow2 0) with 1%Q. rewrite Qmult_1_r.
    rewrite (pow2_Z (- e)) by lia. rewrite <- inject_Z_mult, <- Zle_Qle, <- Z.pow_add_r by lia. unfold Z.sub. reflexivity.
Qed.
Lemma cut_int f : is_float64 f -> - 2 ^ 63 <= to_int64 f < 2 ^ 63 /\ cut_to_int f (to_int64 f).
Proof.
  intros F. destruct (to_int64_spec f) as (R & A & B & C). split; [exact R|]. split; [|now apply C]. intros n T.
  destruct (Z.leb_spec (- 2 ^ 63) n); cbn [andb]; [destruct (Z.ltb_spec n (2 ^ 63))|]; [apply A; [exact T|lia]|apply (B n T); lia|apply (B n T); lia].
Qed.
Lemma cut_uint f : cut_to_uint f (to_uint64 f).
Proof. exact (to_uint64_spec f). Qed.

(** * The whole *)

Lemma decode_sets lim quoted k s x : version lim -> decode lim quoted k s = Put x -> file_sets lim quoted k s x.
Proof.
  intros V. unfold decode. destruct (if quoted then RText else resolve s) as [|b|z|f|] eqn:R; [discriminate| | | |].
  - assert (quoted = false /\ In s (if b then file_true else file_false)) as [-> R'] by (destruct quoted; [discriminate|]; apply resolve_bool in R; now split).
    destruct k; try discriminate; intros H; injection H as <-; cbn [file_sets]; [exists b; split; [reflexivity|left; now split]|reflexivity].
  - assert (quoted = false /\ resolve s = RInt z) as [-> R'] by (destruct quoted; [discriminate|]; now split). pose proof (proj1 (resolve_int _ _ R')) as Nm.
    apply int_sound in R'. destruct R' as (B & Big & C).
    destruct k; try discriminate; cbn [file_sets].
    + intros H. injection H as <-. split; [reflexivity|]. destruct (float_int z B) as [Rd Ng]. destruct (bits_decode (float_of_int z)) as [D1 D2]; [left; apply Rd|].
      eexists. split; [reflexivity|]. split; [exact D2|]. left. exists z. rewrite D1. tauto.
    + destruct (Z.ltb_spec z (2 ^ 63)); [|discriminate]. intros H1. injection H1 as <-. split; [reflexivity|]. exists z. split; [reflexivity|]. split; [lia|tauto].
    + destruct (Z.ltb_spec z (2 ^ 63)); [|discriminate]. intros H1. injection H1 as <-. split; [reflexivity|]. exists z. split; [reflexivity|]. split; [lia|tauto].
    + intros H. now injection H as <-.
    + destruct (Z.leb_spec 0 z); [|discriminate]. intros H1. injection H1 as <-. split; [reflexivity|]. exists z. split; [reflexivity|]. split; [lia|].
      destruct (Z.lt_ge_cases z (2 ^ 63)) as [Lt|Ge]; [tauto|]. left. specialize (Big Ge). split; [|now right]. split; [exact Nm|exists (strip s), z; tauto].
    + destruct (Z.leb_spec 0 z); [|discriminate]. intros H1. injection H1 as <-. split; [reflexivity|]. exists z. split; [reflexivity|]. split; [lia|].
      destruct (Z.lt_ge_cases z (2 ^ 63)) as [Lt|Ge]; [tauto|]. left. specialize (Big Ge). split; [|now right]. split; [exact Nm|exists (strip s), z; tauto].
  - assert (quoted = false /\ resolve s = RFloat f) as [-> R'] by (destruct quoted; [discriminate|]; now split). apply resolve_float in R'. destruct R' as [C F].
    assert (Int : (if float_le f 63 then Put (SInt (to_int64 f)) else Fail) = Put x -> false = false /\ exists z, x = SInt z /\ - 2 ^ 63 <= z < 2 ^ 63 /\
      (whole_number s z \/ odd_number s z \/ exists f, real_number s f /\ at_most f (2 ^ 63) /\ cut_to_int f z)).
    { destruct (float_le f 63) eqn:Le; [|discriminate]. apply (float_le_spec f 63 ltac:(lia) F) in Le. intros H. injection H as <-. split; [reflexivity|].
      destruct (cut_int f F) as [B Cu]. eexists. split; [reflexivity|]. split; [exact B|]. right. right. exists f. tauto. }
    assert (Uint : (if float_le f 64 then Put (SInt (to_uint64 f)) else Fail) = Put x -> false = false /\ exists z, x = SInt z /\ 0 <= z < 2 ^ 64 /\
      ((whole_number s z /\ (z < 2 ^ 63 \/ integer_literal (strip s) z)) \/ (odd_number s z /\ z < 2 ^ 63) \/
       exists f, real_number s f /\ at_most f (2 ^ 64) /\ cut_to_uint f z)).
    { destruct (float_le f 64) eqn:Le; [|discriminate]. apply (float_le_spec f 64 ltac:(lia) F) in Le. intros H. injection H as <-. split; [reflexivity|].
      pose proof (cut_uint f) as Cu. eexists. split; [reflexivity|]. split; [apply Cu|]. right. right. exists f. tauto. }
    destruct k; try discriminate; cbn [file_sets]; try exact Int; try exact Uint.
    + intros H. injection H as <-. split; [reflexivity|]. destruct (bits_decode f F) as [D1 D2]. eexists. split; [reflexivity|]. split; [exact D2|]. right. now rewrite D1.
    + intros H. now injection H as <-.
  - destruct k; try discriminate; cbn [file_sets].
    + destruct (existsb (String.eqb s) true_words) eqn:E1; [apply existsb_in in E1; intros H; injection H as <-; exists true; split; [reflexivity|now right]|].
      destruct (existsb (String.eqb s) false_words) eqn:E2; [apply existsb_in in E2; intros H; injection H as <-; exists false; split; [reflexivity|now right]|discriminate].
    + intros H. now injection H as <-.
    + destruct (parse_duration lim s) as [d|] eqn:P; [|discriminate]. intros H. injection H as <-.
      exists d. split; [reflexivity|]. split; [exact (parsed_range lim s d V P)|]. destruct (parse_duration_some lim s d P) as [[Zt Z0]|(neg & ps & T)].
      * left. destruct quoted; [tauto|]. apply zero_read in Zt. congruence.
      * right. exists neg, ps. split; [exact T|]. intros W. exact (parsed_value lim s neg ps d V T W P).
Qed.
