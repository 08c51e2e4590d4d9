(** Proofs about encoding to JSON and back. *)
From Verif Require Import Common Bytes ProcsModel ProcsSpec ConfNamesSpec ConfNamesProofs ConfsModel ConfsSpec ConfsProofs PprofModel PprofSpec
  PprofProofs RsaModel RsaProofs JsonModel JsonSpec JsonProofs.
From Coq Require Import Permutation.
From Coq Require DecimalString DecimalZ.
Local Open Scope string_scope.
Local Open Scope list_scope.
Local Open Scope Z_scope.
Local Notation chr := String.String.

(** * Strings *)

Lemma hex_char_of z : 0 <= z < 16 -> hex_of (hex_char z) z.
Proof.
  intros H. split; [exact H|].
  assert (z = 0 \/ z = 1 \/ z = 2 \/ z = 3 \/ z = 4 \/ z = 5 \/ z = 6 \/ z = 7 \/ z = 8 \/ z = 9 \/ z = 10 \/ z = 11 \/ z = 12 \/ z = 13 \/ z = 14 \/ z = 15) as Hz by lia.
  repeat (destruct Hz as [Hz|Hz]); rewrite Hz; left; reflexivity.
Qed.

Lemma substring_prefix a b : String.substring 0 (String.length (a +++ b) - String.length b) (a +++ b) = a.
Proof.
  rewrite length_app_s. replace (String.length a + String.length b - String.length b)%nat with (String.length a) by lia.
  induction a as [|c a IH]; cbn [String.length String.append].
  - destruct b; reflexivity.
  - cbn [String.substring]. now rewrite IH.
Qed.

Lemma utf8_char c : byte c < 128 -> utf8 (byte c) (chr c "").
Proof.
  intros H. replace (chr c "") with (of_bytes [byte c]) by (cbn [of_bytes]; now rewrite char_of_byte).
  apply utf8_1. pose proof (byte_range c). lia.
Qed.

Lemma quote_ascii_spells c raw v : byte c < 128 -> spells raw v -> spells (quote_ascii c +++ raw) (chr c v).
Proof.
  intros H Sp. unfold quote_ascii. destruct (html_safe c) eqn:Hs.
  - unfold html_safe in Hs. rewrite !andb_true_iff, !negb_true_iff, !Ascii.eqb_neq, Z.leb_le in Hs.
    destruct Hs as ((((((S1 & _) & S2) & S3) & _) & _) & _).
    apply (spells_rune (byte c) (chr c "")); [apply utf8_char, H|exact S1| | |exact Sp].
    + intros E. apply S2. apply byte_inj. exact E.
    + intros E. apply S3. apply byte_inj. exact E.
  - destruct (Ascii.eqb c "\" || Ascii.eqb c """") eqn:Hq.
    + rewrite orb_true_iff, !Ascii.eqb_eq in Hq. destruct Hq as [->| ->].
      * apply (spells_escape "\" 92); [cbn; tauto|exact Sp].
      * apply (spells_escape """" 34); [cbn; tauto|exact Sp].
    + destruct (Z.eqb_spec (byte c) 10) as [E|_].
      { replace c with (char_of 10) by (rewrite <- E; apply char_of_byte). apply (spells_escape "n" 10); [cbn; tauto|exact Sp]. }
      destruct (Z.eqb_spec (byte c) 13) as [E|_].
      { replace c with (char_of 13) by (rewrite <- E; apply char_of_byte). apply (spells_escape "r" 13); [cbn; tauto|exact Sp]. }
      destruct (Z.eqb_spec (byte c) 9) as [E|_].
      { replace c with (char_of 9) by (rewrite <- E; apply char_of_byte). apply (spells_escape "t" 9); [cbn; tauto|exact Sp]. }
      pose proof (byte_range c).
      change (spells ("\u" +++ (chr "0" (chr "0" (chr (hex_char (byte c / 16)) (chr (hex_char (byte c mod 16)) "")))) +++ raw) (chr c "" +++ v)).
      apply (spells_code _ (byte c)); [|apply utf8_char, H|exact Sp].
      exists "0"%char, "0"%char. do 2 eexists. exists 0, 0, (byte c / 16), (byte c mod 16). split; [reflexivity|].
      split; [split; [lia|left; reflexivity]|]. split; [split; [lia|left; reflexivity]|].
      split; [apply hex_char_of; Z.div_mod_to_equations; lia|]. split; [apply hex_char_of; Z.div_mod_to_equations; lia|].
      Z.div_mod_to_equations; lia.
Qed.

Lemma quote_spells n : forall s, (String.length s <= n)%nat -> exists v, repaired s v /\ spells (quote_from n s) v.
Proof.
  induction n as [|n IH]; intros s L.
  { destruct s; [|cbn in L; lia]. exists "". split; constructor. }
  destruct s as [|c s]; [exists ""; split; constructor|]. cbn [String.length] in L. cbn [quote_from].
  destruct (Z.ltb_spec (byte c) 128) as [A|A].
  - destruct (IH s) as (v & Hv & Sp); [lia|]. exists (chr c v). split; [|apply quote_ascii_spells; assumption].
    change (repaired (chr c "" +++ s) (chr c "" +++ v)). apply (repaired_rune (byte c)); [apply utf8_char, A|exact Hv].
  - destruct (rune_at (chr c s)) as [[r t]|] eqn:R.
    + apply rune_at_some in R. destruct R as (enc & U & E).
      assert (Lt : (String.length t <= n)%nat).
      { pose proof (utf8_nonempty r enc U). pose proof (f_equal String.length E) as EL. rewrite length_app_s in EL. cbn [String.length] in EL. lia. }
      assert (R128 : 128 <= r).
      { destruct (utf8_bytes r enc U) as [[Ee Hr]|[Hr _]]; [|exact Hr].
        rewrite Ee in E. cbn [String.append] in E. injection E as E _. rewrite E, byte_char_of in A by lia. lia. }
      destruct (IH t Lt) as (v & Hv & Sp). exists (enc +++ v). rewrite E. split; [now apply (repaired_rune r)|].
      destruct ((r =? 8232) || (r =? 8233)) eqn:X.
      * rewrite orb_true_iff, !Z.eqb_eq in X.
        change (spells ("\u" +++ (chr "2" (chr "0" (chr "2" (chr (hex_char (r mod 16)) "")))) +++ quote_from n t) (enc +++ v)).
        apply (spells_code _ r); [|exact U|exact Sp].
        exists "2"%char, "0"%char, "2"%char. eexists. exists 2, 0, 2, (r mod 16). split; [reflexivity|].
        split; [split; [lia|left; reflexivity]|]. split; [split; [lia|left; reflexivity]|].
        split; [split; [lia|left; reflexivity]|]. split; [apply hex_char_of; Z.div_mod_to_equations; lia|].
        destruct X as [->| ->]; reflexivity.
      * rewrite substring_prefix. apply (spells_rune r); [exact U|lia|lia|lia|exact Sp].
    + destruct (IH s) as (v & Hv & Sp); [lia|]. exists (replacement +++ v). split; [constructor; [apply broken_rune, R|exact Hv]|].
      change (spells ("\u" +++ "fffd" +++ quote_from n s) (replacement +++ v)).
      apply (spells_code _ 65533); [|apply (utf8_3 65533 15 63 61); lia|exact Sp].
      exists "f"%char, "f"%char, "f"%char, "d"%char, 15, 15, 15, 13. split; [reflexivity|].
      repeat (split; [split; [lia|left; reflexivity]|]). reflexivity.
Qed.

Lemma utf8_prefix r1 e1 s1 r2 e2 s2 : utf8 r1 e1 -> utf8 r2 e2 -> e1 +++ s1 = e2 +++ s2 -> e1 = e2 /\ s1 = s2.
Proof.
  intros U1 U2 E. pose proof (rune_at_utf8 r1 e1 s1 U1) as R1. rewrite E, (rune_at_utf8 r2 e2 s2 U2) in R1.
  assert (r2 = r1 /\ s2 = s1) as [<- <-] by (split; congruence). split; [|reflexivity].
  rewrite <- (encode_rune_utf8 r2 e1 U1). apply encode_rune_utf8, U2.
Qed.

Lemma repaired_fun s v1 : repaired s v1 -> forall v2, repaired s v2 -> v1 = v2.
Proof.
  intros H. induction H as [|r enc s v U H IH|c s v B H IH]; intros v2 H2.
  - remember "" as q eqn:E. destruct H2 as [|r enc s v U H|c s v B H]; [reflexivity| |discriminate].
    apply utf8_nonempty in U. destruct enc; [cbn in U; lia|discriminate].
  - remember (enc +++ s) as q eqn:E. destruct H2 as [|r2 enc2 s2 v2 U2 H2|c s2 v2 B H2].
    + apply utf8_nonempty in U. destruct enc; [cbn in U; lia|discriminate].
    + destruct (utf8_prefix _ _ _ _ _ _ U2 U E) as [-> ->]. f_equal. apply IH, H2.
    + exfalso. exact (B r enc s U E).
  - remember (chr c s) as q eqn:E. destruct H2 as [|r2 enc2 s2 v2 U2 H2|c2 s2 v2 B2 H2].
    + discriminate.
    + exfalso. exact (B r2 enc2 s2 U2 eq_refl).
    + injection E as -> ->. f_equal. apply IH, H2.
Qed.
Lemma repaired_valid s : utf8_text s -> repaired s s.
Proof. intros H. induction H as [|r enc s U H IH]; [constructor|]. now apply (repaired_rune r). Qed.

Definition quoted (s : string) : string := quote_from (String.length s) s.
Lemma quote_is s : quote s = """" +++ quoted s +++ """".
Proof. unfold quote. reflexivity. Qed.
Lemma quoted_valid s : utf8_text s -> spells (quoted s) s.
Proof.
  intros H. destruct (quote_spells (String.length s) s) as (v & Hv & Sp); [lia|].
  rewrite (repaired_fun s s (repaired_valid s H) v Hv) at 2. exact Sp.
Qed.

(** * Lists of results, and sorting *)

Lemma all_some_spec {A} (l : list (option A)) ts : all_some l = Some ts <-> Forall2 (fun o x => o = Some x) l ts.
Proof.
  revert ts. induction l as [|[x|] l IH]; intros ts; cbn [all_some].
  - split; [intros [= <-]; constructor|intros H; inversion H; reflexivity].
  - split.
    + destruct (all_some l) as [ts'|]; [|discriminate]. intros [= <-]. constructor; [reflexivity|]. now apply IH.
    + intros H. inversion H as [|o x' l' ts' E H']; subst. injection E as <-. apply IH in H'. rewrite H'. reflexivity.
  - split; [discriminate|]. intros H. inversion H; discriminate.
Qed.

Lemma insert_perm {A} (p : string * A) l : Permutation (insert_key p l) (p :: l).
Proof.
  induction l as [|q l IH]; cbn [insert_key]; [reflexivity|]. destruct (String.leb (fst p) (fst q)); [reflexivity|].
  rewrite IH. apply perm_swap.
Qed.
Lemma sort_perm {A} (l : list (string * A)) : Permutation (sort_keys l) l.
Proof. induction l as [|p l IH]; cbn; [reflexivity|]. rewrite insert_perm. now constructor. Qed.

Section Sorting.
Context {A B : Type} (R : string * A -> string * B -> Prop) (keys : forall a b, R a b -> fst a = fst b).
Lemma insert_related a b l l' : R a b -> Forall2 R l l' -> Forall2 R (insert_key a l) (insert_key b l').
Proof.
  intros Hab H. induction H as [|x y l l' Hxy H IH]; cbn [insert_key]; [repeat constructor; exact Hab|].
  rewrite (keys a b Hab), (keys x y Hxy). destruct (String.leb (fst b) (fst y)); repeat (constructor; try assumption).
Qed.
Lemma sort_related l l' : Forall2 R l l' -> Forall2 R (sort_keys l) (sort_keys l').
Proof.
  intros H. induction H as [|x y l l' Hxy H IH]; cbn; [constructor|]. now apply insert_related.
Qed.
End Sorting.

Lemma ascii_compare_bytes a b : Ascii.compare a b = Z.compare (byte a) (byte b).
Proof. unfold Ascii.compare, byte. rewrite N2Z.inj_compare. reflexivity. Qed.

Lemma leb_chr a s b t : String.leb (chr a s) (chr b t) = true <-> byte a < byte b \/ (a = b /\ String.leb s t = true).
Proof.
  unfold String.leb. cbn [String.compare]. rewrite ascii_compare_bytes.
  destruct (Z.compare_spec (byte a) (byte b)) as [E|E|E].
  - apply byte_inj in E. subst b. split; [intros H; right; split; [reflexivity|exact H]|].
    intros [H|[_ H]]; [lia|exact H].
  - split; [intros _; left; exact E|reflexivity].
  - split; [discriminate|]. intros [H|[-> _]]; lia.
Qed.

Lemma leb_trans a : forall b c, String.leb a b = true -> String.leb b c = true -> String.leb a c = true.
Proof.
  induction a as [|x a IH]; intros b c H1 H2.
  - destruct c; reflexivity.
  - destruct b as [|y b]; [discriminate|]. destruct c as [|z c]; [discriminate|].
    apply leb_chr in H1, H2. apply leb_chr.
    destruct H1 as [H1|[-> H1]], H2 as [H2|[-> H2]]; [left; lia|left; lia|left; lia|right; split; [reflexivity|]].
    exact (IH b c H1 H2).
Qed.

Lemma insert_comm {A} (a b : string * A) l : fst a <> fst b -> insert_key a (insert_key b l) = insert_key b (insert_key a l).
Proof.
  intros N.
  assert (W : forall a b : string * A, fst a <> fst b -> String.leb (fst a) (fst b) = true -> insert_key a (insert_key b l) = insert_key b (insert_key a l)).
  { clear a b N. intros a b N L.
    assert (L' : String.leb (fst b) (fst a) = false).
    { destruct (String.leb (fst b) (fst a)) eqn:E; [|reflexivity]. exfalso. apply N. now apply String.leb_antisym. }
    induction l as [|q l IH]; cbn [insert_key].
    - rewrite L, L'. reflexivity.
    - destruct (String.leb (fst b) (fst q)) eqn:Eb.
      + rewrite (leb_trans _ _ _ L Eb). cbn [insert_key]. rewrite L, L', Eb. reflexivity.
      + destruct (String.leb (fst a) (fst q)) eqn:Ea; cbn [insert_key].
        * rewrite Ea, L', Eb. reflexivity.
        * rewrite Ea, Eb, IH. reflexivity. }
  destruct (String.leb_total (fst a) (fst b)) as [L|L]; [apply W; assumption|]. symmetry. apply W; [congruence|exact L].
Qed.

Lemma sort_unique {A} (l l' : list (string * A)) : Permutation l l' -> NoDup (map fst l) -> sort_keys l = sort_keys l'.
Proof.
  intros P. induction P as [|x l l' P IH|x y l|l1 l2 l3 P1 IH1 P2 IH2]; intros N.
  - reflexivity.
  - cbn. inversion N; subst. f_equal. auto.
  - cbn. apply insert_comm. cbn in N. inversion N as [|? ? H _]; subst. intros E. apply H. left. congruence.
  - rewrite IH1 by exact N. apply IH2. eapply Permutation_NoDup; [|exact N]. now apply Permutation_map.
Qed.

(** * Values *)

Section Values.
Variable F : Type.

Lemma gvalue_rect' (P : gvalue F -> Prop) :
  P GNil -> P GNilSlice -> P GNilMap -> (forall b, P (GBool b)) -> (forall z, P (GInt z)) -> (forall f, P (GFloat f)) ->
  (forall s, P (GStr s)) -> (forall s, P (GBytes s)) -> (forall l, Forall P l -> P (GSlice l)) ->
  (forall l, Forall (fun p => P (snd p)) l -> P (GMap l)) -> P GOther -> forall v, P v.
Proof.
  intros H1 H2 H3 H4 H5 H6 H7 H8 H9 H10 H11. fix IH 1. intros v. destruct v as [| | |b|z|f|s|s|l|l|];
    [exact H1|exact H2|exact H3|apply H4|apply H5|apply H6|apply H7|apply H8| | |exact H11].
  - apply H9. induction l as [|x l IHl]; constructor; [apply IH|exact IHl].
  - apply H10. induction l as [|x l IHl]; constructor; [apply IH|exact IHl].
Qed.

Variable parse_float : string -> option F.
Variable show_float : F -> option string.
Notation reads := (reads F parse_float).
Notation elements := (elements F parse_float).
Notation members := (members F parse_float).
Notation encodable := (encodable F parse_float show_float).
Notation comes_back := (comes_back F parse_float).
Notation marshal := (marshal F show_float).
Notation depth := (depth F).

Lemma reads_mono' d d' s v : reads d s v -> d <= d' -> reads d' s v.
Proof. intros H L. exact (proj1 (reads_mono F parse_float) d s v H d' L). Qed.

Lemma elements_concat d ts vs : Forall2 (reads d) ts vs -> ts <> [] -> elements d (String.concat "," ts) vs.
Proof.
  intros H. induction H as [|t v ts vs H HF IH]; [congruence|]. intros _. destruct ts as [|t' ts].
  - inversion HF; subst. cbn [String.concat].
    replace t with ("" +++ t +++ "") by (cbn; apply append_empty). constructor; [exact I|exact I|exact H].
  - change (String.concat "," (t :: t' :: ts)) with ("" +++ t +++ "" +++ "," +++ String.concat "," (t' :: ts)).
    constructor; [exact I|exact I|exact H|]. apply IH. discriminate.
Qed.

Lemma members_concat d (ts : list (string * string)) ms :
  Forall2 (fun t m => fst t = fst m /\ spells (quoted (fst t)) (fst t) /\ reads d (snd t) (snd m)) ts ms -> ts <> [] ->
  members d (String.concat "," (map (fun p => quote (fst p) +++ ":" +++ snd p) ts)) ms.
Proof.
  intros H. induction H as [|[k t] [k' v] ts ms H HF IH]; [congruence|]. intros _. cbn [fst snd] in H. destruct H as (<- & Sp & H).
  destruct ts as [|t' ts].
  - inversion HF; subst. cbn [map String.concat fst snd]. rewrite quote_is.
    replace (("""" +++ quoted k +++ """") +++ ":" +++ t) with ("" +++ """" +++ quoted k +++ """" +++ "" +++ ":" +++ "" +++ t +++ "").
    + apply members_one; try exact I; assumption.
    + rewrite append_empty, !append_assoc'. reflexivity.
  - cbn [map fst snd]. rewrite concat_cons2. fold (map (fun p : string * string => quote (fst p) +++ ":" +++ snd p)). rewrite quote_is.
    match goal with |- members _ (_ +++ "," +++ ?x) _ => set (rest := x) in * end.
    replace ((("""" +++ quoted k +++ """") +++ ":" +++ t) +++ "," +++ rest)
      with ("" +++ """" +++ quoted k +++ """" +++ "" +++ ":" +++ "" +++ t +++ "" +++ "," +++ rest).
    + apply members_more; try exact I; try assumption. apply IH. discriminate.
    + rewrite !append_assoc'. reflexivity.
Qed.

Lemma last_wins_id {A} (l : list (string * A)) : NoDup (map fst l) -> last_wins l = l.
Proof.
  induction l as [|[k v] l IH]; intros N; [reflexivity|]. cbn [last_wins]. inversion N as [|? ? H N']; subst.
  destruct (existsb (fun p => (fst p =? k)%string) l) eqn:E.
  - exfalso. apply existsb_exists in E. destruct E as (p & Hp & E). apply String.eqb_eq in E. subst k. apply H. now apply in_map.
  - f_equal. apply IH, N'.
Qed.

Lemma base64_spells s : spells (encode_string s) (encode_string s).
Proof.
  assert (W : forall t, (forall c, mentions c t -> 32 <= byte c < 128 /\ c <> """"%char /\ c <> "\"%char) -> spells t t).
  { induction t as [|c t IH]; intros H; [constructor|].
    change (spells (chr c "" +++ t) (chr c "" +++ t)).
    destruct (H c (or_introl eq_refl)) as (H1 & H2 & H3).
    apply (spells_rune (byte c)); [apply utf8_char; lia|lia| | |apply IH; intros x Hx; apply H; right; exact Hx].
    - intros E. apply H2. apply byte_inj. exact E.
    - intros E. apply H3. apply byte_inj. exact E. }
  apply W. intros c H. destruct (encode_canonical s) as (dg & pad & HF & _ & _ & T & _).
  apply letters_mentions in H. apply (in_map Some) in H. rewrite T in H. apply in_app_or in H.
  destruct H as [H|H].
  - apply in_map_iff in H. destruct H as (d & Hd & Hi). rewrite Forall_forall in HF. apply get_b64_value in Hd; [|exact (HF d Hi)].
    revert Hd. clear. destruct c as [[|] [|] [|] [|] [|] [|] [|] [|]]; vm_compute; intros H; try discriminate H; repeat split; discriminate.
  - apply repeat_spec in H. assert (Hc : c = "="%char) by congruence. subst c. vm_compute. repeat split; discriminate.
Qed.

Lemma map_keys {A B} (R : A -> B -> Prop) (l : list (string * A)) (l' : list (string * B)) :
  Forall2 (fun a b => fst a = fst b /\ R (snd a) (snd b)) l l' -> map fst l = map fst l'.
Proof. intros H. induction H as [|a b l l' [H _] HF IH]; [reflexivity|]. cbn. now rewrite H, IH. Qed.

Lemma nzhead_not_zero d x : Decimal.nzhead d <> Decimal.D0 x.
Proof. induction d; cbn [Decimal.nzhead]; try discriminate. exact IHd. Qed.
Lemma uint_digits d : all_chars is_digit (DecimalString.NilEmpty.string_of_uint d).
Proof. induction d; cbn [DecimalString.NilEmpty.string_of_uint all_chars]; [exact I|split; [cbn; tauto|assumption]..]. Qed.
Lemma nzhead_whole d : Decimal.nzhead d <> Decimal.Nil -> whole_part (DecimalString.NilZero.string_of_uint (Decimal.nzhead d)).
Proof.
  intros N. pose proof (nzhead_not_zero d) as Z0. destruct (Decimal.nzhead d) as [|x|x|x|x|x|x|x|x|x|x]; [contradiction|exfalso; exact (Z0 x eq_refl)|..];
    right; cbn [DecimalString.NilZero.string_of_uint DecimalString.NilEmpty.string_of_uint]; do 2 eexists;
    (split; [|split; [|split; [apply (uint_digits x)|reflexivity]]]); first [discriminate|cbn; tauto].
Qed.
Lemma itoa_number z : number (itoa z).
Proof.
  assert (E : Z.to_int z = Decimal.norm (Z.to_int z)) by (rewrite <- DecimalZ.to_of, DecimalZ.of_to; reflexivity).
  unfold itoa. rewrite E. destruct (Z.to_int z) as [d|d]; cbn [Decimal.norm].
  - assert (W : whole_part (DecimalString.NilZero.string_of_uint (Decimal.unorm d))).
    { unfold Decimal.unorm. destruct (Decimal.nzhead d) eqn:N; [left; reflexivity|..]; rewrite <- N; apply nzhead_whole; rewrite N; discriminate. }
    exists "", (DecimalString.NilZero.string_of_uint (Decimal.unorm d)), "", "".
    split; [left; reflexivity|]. split; [exact W|]. split; [left; reflexivity|]. split; [left; reflexivity|].
    cbn [DecimalString.NilZero.string_of_int]. rewrite !append_empty. reflexivity.
  - destruct (Decimal.nzhead d) eqn:N.
    { exists "", "0", "", "". split; [left; reflexivity|]. split; [left; reflexivity|]. split; [left; reflexivity|]. split; [left; reflexivity|]. reflexivity. }
    all: rewrite <- N; exists "-", (DecimalString.NilZero.string_of_uint (Decimal.nzhead d)), "", "";
      (split; [right; reflexivity|]); (split; [apply nzhead_whole; rewrite N; discriminate|]); (split; [left; reflexivity|]); (split; [left; reflexivity|]);
      cbn [DecimalString.NilZero.string_of_int]; rewrite !append_empty; reflexivity.
Qed.

Lemma concat_nil_text : String.concat "," [] = "".
Proof. reflexivity. Qed.

Lemma marshal_reads v : encodable v -> exists t v', marshal v = Some t /\ comes_back v v' /\ reads (depth v) t v'.
Proof.
  induction v as [| | |b|z|f|s|s|l IH|l IH|] using gvalue_rect'; intros E.
  - exists "null", GNil. repeat split; constructor.
  - exists "null", GNil. repeat split; constructor.
  - exists "null", GNil. repeat split; constructor.
  - exists (if b then "true" else "false"), (GBool b). split; [reflexivity|]. split; [constructor|]. destruct b; constructor.
  - inversion E as [| | | |z' f Hf| | | | |]; subst. exists (itoa z), (GFloat f). split; [reflexivity|]. split; [now constructor|].
    constructor; [apply itoa_number|exact Hf].
  - inversion E as [| | | | |f' t H1 H2 H3| | | |]; subst. exists t, (GFloat f). split; [exact H1|]. split; constructor; assumption.
  - destruct (quote_spells (String.length s) s) as (v & Hv & Sp); [lia|]. exists (quote s), (GStr v).
    split; [reflexivity|]. split; [now constructor|]. rewrite quote_is. constructor. exact Sp.
  - eexists. exists (GStr (encode_string s)). split; [reflexivity|]. split; [constructor; apply encode_canonical|].
    change (reads (depth (GBytes s)) ("""" +++ encode_string s +++ """") (GStr (encode_string s))). constructor. apply base64_spells.
  - assert (W : exists ts vs, Forall2 (fun o x => o = Some x) (map marshal l) ts /\ Forall2 comes_back l vs /\
                 Forall2 (reads (fold_right Z.max 0 (map depth l))) ts vs).
    { inversion E as [| | | | | | | |l' HE|]; subst. clear E.
      assert (M : forall x, In x l -> depth x <= fold_right Z.max 0 (map depth l)) by (intros x Hx; now apply max_ge).
      revert M. generalize (fold_right Z.max 0 (map depth l)) as d. intros d M.
      induction IH as [|x l Hx HF IHl]; [exists [], []; repeat constructor|].
      inversion HE as [|? ? E1 E2]; subst. destruct (Hx E1) as (t & v' & T1 & T2 & T3).
      destruct (IHl E2) as (ts & vs & W1 & W2 & W3); [intros y Hy; apply M; right; exact Hy|].
      exists (t :: ts), (v' :: vs). repeat split; constructor; try assumption.
      apply (reads_mono' (depth x)); [exact T3|]. apply M. left. reflexivity. }
    destruct W as (ts & vs & W1 & W2 & W3). apply all_some_spec in W1.
    eexists. exists (GSlice vs). split; [cbn [JsonModel.marshal]; rewrite W1; reflexivity|]. split; [now constructor|].
    pose proof (max_nonneg depth l) as Mn. cbn [JsonSpec.depth].
    destruct ts as [|t ts].
    + inversion W3; subst. change ("[" +++ String.concat "," [] +++ "]") with ("[" +++ "" +++ "]"). constructor; [lia|exact I].
    + constructor; [lia|]. replace (1 + fold_right Z.max 0 (map depth l) - 1) with (fold_right Z.max 0 (map depth l)) by lia.
      apply elements_concat; [exact W3|discriminate].
  - set (d := fold_right Z.max 0 (map (fun p => depth (snd p)) l)).
    inversion E as [| | | | | | | | |l' HN HE]; subst.
    assert (W : exists ts vs, Forall2 (fun o x => o = Some x) (map (fun p => option_map (pair (fst p)) (marshal (snd p))) l) ts /\
                 Forall2 (fun a b => fst a = fst b /\ comes_back (snd a) (snd b)) l vs /\
                 Forall2 (fun t m => fst t = fst m /\ spells (quoted (fst t)) (fst t) /\ reads d (snd t) (snd m)) ts vs).
    { clear E HN.
      assert (M : forall x, In x l -> depth (snd x) <= d) by (intros x Hx; subst d; now apply (max_ge (fun p => depth (snd p)))).
      revert M. generalize d. clear d. intros d M.
      induction IH as [|[k x] l Hx HF IHl]; [exists [], []; repeat constructor|].
      inversion HE as [|? ? [Ek E1] E2]; subst. destruct (Hx E1) as (t & v' & T1 & T2 & T3). cbn [fst snd] in *.
      destruct (IHl E2) as (ts & vs & W1 & W2 & W3); [intros y Hy; apply M; right; exact Hy|].
      exists ((k, t) :: ts), ((k, v') :: vs). cbn [map fst snd]. repeat split; constructor; try assumption; cbn [fst snd].
      - rewrite T1. reflexivity.
      - split; [reflexivity|exact T2].
      - split; [reflexivity|]. split; [apply quoted_valid, Ek|]. apply (reads_mono' (depth x)); [exact T3|]. apply (M (k, x)). left. reflexivity. }
    destruct W as (ts & vs & W1 & W2 & W3). apply all_some_spec in W1.
    assert (W2' := sort_related _ (fun a b H => proj1 H) _ _ W2).
    assert (W3' := sort_related _ (fun a b H => proj1 H) _ _ W3).
    eexists. exists (GMap (sort_keys vs)). split; [cbn [JsonModel.marshal]; rewrite W1; reflexivity|].
    split; [apply (back_map _ _ l (sort_keys l)); [symmetry; apply sort_perm|exact W2']|].
    pose proof (max_nonneg (fun p => depth (snd p)) l) as Mn. fold d in Mn. cbn [JsonSpec.depth]. fold d.
    destruct (sort_keys ts) as [|t ts'].
    + inversion W3'; subst. change ("{" +++ String.concat "," (map (fun p => quote (fst p) +++ ":" +++ snd p) []) +++ "}") with ("{" +++ "" +++ "}").
      constructor; [lia|exact I].
    + rewrite <- (last_wins_id (sort_keys vs)).
      * constructor; [lia|]. replace (1 + d - 1) with d by lia. apply members_concat; [exact W3'|discriminate].
      * eapply Permutation_NoDup; [apply Permutation_map; symmetry; apply sort_perm|]. rewrite <- (map_keys comes_back l vs W2). exact HN.
  - inversion E.
Qed.

Lemma back_depth v : forall v', comes_back v v' -> depth v = depth v'.
Proof.
  assert (Two : forall A B (f : A -> Z) (g : B -> Z) l l' (R : A -> B -> Prop), (forall a b, In a l -> R a b -> f a = g b) -> Forall2 R l l' ->
    fold_right Z.max 0 (map f l) = fold_right Z.max 0 (map g l')).
  { intros A B f g l l' R H HF. induction HF as [|a b l l' Hab HF IH]; [reflexivity|]. cbn [map fold_right].
    rewrite (H a b (or_introl eq_refl) Hab), IH; [reflexivity|]. intros x y Hx. apply H. right. exact Hx. }
  assert (Perm : forall A (f : A -> Z) l p, Permutation l p -> fold_right Z.max 0 (map f l) = fold_right Z.max 0 (map f p)).
  { intros A f l p HP. induction HP; cbn [map fold_right]; lia. }
  induction v as [| | |b|z|f|s|s|l IH|l IH|] using gvalue_rect'; intros v' H; inversion H as [| | |b'|z' f'|f'|s' w|s' w|l1 l2 HF|l1 p l2 HP HF]; subst; try reflexivity.
  - cbn [JsonSpec.depth]. f_equal. rewrite Forall_forall in IH. apply (Two _ _ _ _ _ _ comes_back); [|exact HF]. intros a b Ha. apply IH, Ha.
  - cbn [JsonSpec.depth]. f_equal. rewrite (Perm _ _ l p HP). rewrite Forall_forall in IH.
    eapply Two; [|exact HF]. intros a b Ha [_ Hab]. apply IH; [|exact Hab]. apply (Permutation_in _ (Permutation_sym HP)), Ha.
Qed.

(** A text of the depth of its value is read by UnmarshalM up to the limit, and only then. *)
Lemma unmarshal_reads t l : reads (depth (GMap l)) t (GMap l) ->
  unmarshal_m F parse_float t = if depth (GMap l) <=? max_depth then Some (GMap l) else None.
Proof.
  intros H. destruct (Z.leb_spec (depth (GMap l)) max_depth) as [L|L].
  - apply unmarshal_m_spec. exists "", t, "". split; [cbn; now rewrite append_empty|]. split; [exact I|]. split; [exact I|].
    right. exists l. split; [reflexivity|]. exact (reads_mono' _ _ _ _ H L).
  - destruct (unmarshal_m F parse_float t) as [m|] eqn:E; [|reflexivity]. exfalso.
    apply unmarshal_m_spec in E. destruct E as (a & t' & b & Et & A & B & Hm).
    assert (W : exists v, reads max_depth t' v /\ depth v <= max_depth).
    { destruct Hm as [[-> _]|(l' & -> & Hm)]; [exists GNil; split; [constructor|cbn; unfold max_depth; lia]|].
      exists (GMap l'). split; [exact Hm|]. apply (proj1 (reads_depth F parse_float) _ _ _ Hm). unfold max_depth; lia. }
    destruct W as (v & Hv & Dv).
    destruct (reads_start F parse_float _ _ _ H) as (c & q & Eq & C).
    assert (a = "") as ->.
    { destruct a as [|x a]; [reflexivity|]. exfalso. rewrite Eq in Et. cbn [String.append] in Et. injection Et as Ec _. subst c.
      destruct A as [A _], C as [C _]. apply C, A. }
    cbn [String.append] in Et.
    set (n := (2 * String.length t)%nat). set (D := depth (GMap l)).
    assert (P1 : parse_value F parse_float n D (t +++ "") = Some (GMap l, "")).
    { apply (proj1 (parse_complete F parse_float)); [exact H|split; exact I|subst n; lia]. }
    assert (P2 : parse_value F parse_float n D (t' +++ b) = Some (v, b)).
    { apply (proj1 (parse_complete F parse_float)); [apply (reads_mono' max_depth); [exact Hv|subst D; lia]| |subst n; rewrite Et, length_app_s; lia].
      rewrite <- (append_empty b). eapply (blank_ends' F parse_float); [exact B|split; exact I]. }
    rewrite append_empty, Et, P2 in P1. injection P1 as -> _. lia.
Qed.

Lemma round_trip l : encodable (GMap l) -> exists t m', marshal_m F show_float (GMap l) = Some t /\ comes_back (GMap l) m' /\
  unmarshal_m F parse_float t = (if depth (GMap l) <=? max_depth then Some m' else None).
Proof.
  intros E. destruct (marshal_reads _ E) as (t & v' & H1 & H2 & H3). exists t, v'. split; [exact H1|]. split; [exact H2|].
  rewrite (back_depth _ _ H2) in H3 |- *.
  assert (W : exists l', v' = GMap l') by (inversion H2; eauto). destruct W as (l' & ->).
  exact (unmarshal_reads t l' H3).
Qed.

Lemma nil_round_trip : exists t, marshal_m F show_float GNilMap = Some t /\ unmarshal_m F parse_float t = Some GNilMap.
Proof. exists "null". split; reflexivity. Qed.

Lemma json_encodable v : json_value F parse_float show_float v -> encodable v.
Proof.
  induction v as [| | |b|z|f|s|s|l IH|l IH|] using gvalue_rect'; intros H; inversion H as [| |f' t H1 H2 H3| |l' HF|l' HN HF]; subst; try (constructor; assumption).
  - econstructor; eassumption.
  - constructor. rewrite Forall_forall in *. auto.
  - constructor; [exact HN|]. rewrite Forall_forall in *. intros p Hp. destruct (HF p Hp). split; [assumption|]. apply IH; assumption.
Qed.

Lemma json_back v : json_value F parse_float show_float v -> forall v', comes_back v v' -> same v v'.
Proof.
  induction v as [| | |b|z|f|s|s|l IH|l IH|] using gvalue_rect'; intros H v' B.
  - inversion B; subst. constructor.
  - inversion H.
  - inversion H.
  - inversion B; subst. constructor.
  - inversion H.
  - inversion B; subst. constructor.
  - inversion H; subst. inversion B as [| | | | | |s' w HR| | |]; subst. rewrite (repaired_fun s s (repaired_valid s ltac:(assumption)) w HR). constructor.
  - inversion H.
  - inversion H as [| | | |l' HJ|]; subst. inversion B as [| | | | | | | |l1 l2 HF|]; subst. constructor.
    rewrite Forall_forall in *. clear - IH HJ HF. induction HF as [|a b l l2 Hab HF IHF]; constructor.
    + apply IH; [left; reflexivity|apply HJ; left; reflexivity|exact Hab].
    + apply IHF; intros x Hx; [apply IH|apply HJ]; right; exact Hx.
  - inversion H as [| | | | |l' HN HJ]; subst. inversion B as [| | | | | | | | |l1 p l2 HP HF]; subst. apply (same_map l p l2 HP).
    rewrite Forall_forall in *.
    assert (IH' : forall x, In x p -> forall v', comes_back (snd x) v' -> same (snd x) v').
    { intros x Hx. apply IH; [apply (Permutation_in _ (Permutation_sym HP)), Hx|]. apply HJ. apply (Permutation_in _ (Permutation_sym HP)), Hx. }
    clear - IH' HF. induction HF as [|a b l l2 [Hk Hab] HF IHF]; constructor.
    + split; [exact Hk|]. apply IH'; [left; reflexivity|exact Hab].
    + apply IHF. intros x Hx. apply IH'. right. exact Hx.
  - inversion H.
Qed.

(** * Determinism *)

Lemma all_some_ext {A B C} (f : A -> option C) (g : B -> option C) (R : A -> B -> Prop) l l' :
  (forall a b, In a l -> R a b -> f a = g b) -> Forall2 R l l' -> map f l = map g l'.
Proof.
  intros H HF. induction HF as [|a b l l' Hab HF IH]; [reflexivity|]. cbn [map]. rewrite (H a b (or_introl eq_refl) Hab), IH; [reflexivity|].
  intros x y Hx. apply H. right. exact Hx.
Qed.

Lemma all_some_perm {A} (l l' : list (option A)) : Permutation l l' ->
  match all_some l, all_some l' with
  | Some a, Some b => Permutation a b
  | None, None => True
  | _, _ => False
  end.
Proof.
  intros P. induction P as [|x l l' P IH|x y l|l1 l2 l3 P1 IH1 P2 IH2].
  - constructor.
  - destruct x as [x|]; cbn [all_some]; [|exact I]. destruct (all_some l), (all_some l'); cbn; try exact IH. now constructor.
  - destruct x as [x|], y as [y|]; cbn [all_some]; try exact I. destruct (all_some l); cbn; [apply perm_swap|exact I].
    all: destruct (all_some l); exact I.
  - destruct (all_some l1), (all_some l2), (all_some l3); try tauto. now rewrite IH1.
Qed.

Lemma marshal_same v : forall w, proper v -> same v w -> marshal v = marshal w.
Proof.
  induction v as [| | |b|z|f|s|s|l IH|l IH|] using gvalue_rect'; intros w Hp H; inversion H as [v'|l1 l2 HF|l1 p l2 HP HF]; subst; try reflexivity.
  - inversion Hp as [v' Hv|l' HFp|]; subst; [exfalso; eapply Hv; reflexivity|]. cbn [JsonModel.marshal].
    rewrite (all_some_ext marshal marshal same l l2); [reflexivity| |exact HF].
    intros a b Ha Hab. rewrite Forall_forall in *. apply IH; auto.
  - inversion Hp as [v' Hv Hv'| |l' HN HFp]; subst; [exfalso; eapply Hv'; reflexivity|]. cbn [JsonModel.marshal].
    set (f := fun p : string * gvalue F => option_map (pair (fst p)) (marshal (snd p))).
    assert (E : map f p = map f l2).
    { apply (all_some_ext f f (fun a b => fst a = fst b /\ same (snd a) (snd b)) p l2); [|exact HF]. intros a b Ha [Hk Hab]. unfold f. rewrite Hk. f_equal.
      rewrite Forall_forall in *. assert (In a l) by apply (Permutation_in _ (Permutation_sym HP)), Ha. apply IH; auto. }
    rewrite <- E. pose proof (all_some_perm (map f l) (map f p) (Permutation_map f HP)) as Q.
    destruct (all_some (map f l)) as [a|] eqn:Ea, (all_some (map f p)) as [b|]; try (exfalso; exact Q); [|reflexivity].
    rewrite (sort_unique a b Q); [reflexivity|].
    assert (K : map fst a = map fst l).
    { apply all_some_spec in Ea. clear - Ea. revert a Ea. induction l as [|q l IHl]; intros a Ea; inversion Ea as [|o x ? ts Ho HF]; subst; [reflexivity|].
      cbn [map]. rewrite (IHl ts HF). f_equal. unfold f in Ho. destruct (marshal (snd q)); [|discriminate]. injection Ho as <-. reflexivity. }
    rewrite K. exact HN.
Qed.

(** * Page safety *)

Lemma points_app a l b k : code_points a l -> code_points b k -> code_points (a +++ b) (l ++ k).
Proof. intros H K. induction H as [|r enc s l U H IH]; [exact K|]. rewrite append_assoc'. cbn [Datatypes.app]. now constructor. Qed.
Lemma safe_app a b : page_safe a -> page_safe b -> page_safe (a +++ b).
Proof.
  intros (l & H & S) (k & K & T). exists (l ++ k). split; [now apply points_app|]. intros r Hr. apply in_app_or in Hr. destruct Hr; auto.
Qed.
Lemma safe_nil : page_safe "".
Proof. exists []. split; [constructor|intros r []]. Qed.
Definition safe_char (c : ascii) : bool :=
  (32 <=? byte c) && (byte c <? 128) && negb (byte c =? 60) && negb (byte c =? 62) && negb (byte c =? 38).
Lemma safe_chars s : (forall c, mentions c s -> safe_char c = true) -> page_safe s.
Proof.
  induction s as [|c s IH]; intros H; [exact safe_nil|].
  change (page_safe (chr c "" +++ s)). apply safe_app; [|apply IH; intros x Hx; apply H; right; exact Hx].
  specialize (H c (or_introl eq_refl)). unfold safe_char in H. rewrite !andb_true_iff, !negb_true_iff, !Z.eqb_neq, Z.leb_le, Z.ltb_lt in H.
  exists [byte c]. split.
  - rewrite <- (append_empty (chr c "")). apply points_more; [apply utf8_char; lia|constructor].
  - intros r [<-|[]]. split; [lia|]. cbn. lia.
Qed.
Lemma safe_literal s : forallb safe_char (letters s) = true -> page_safe s.
Proof. intros H. apply safe_chars. intros c Hc. rewrite forallb_forall in H. apply H, letters_mentions, Hc. Qed.

Lemma safe_hex c z : hex_of c z -> safe_char c = true.
Proof. intros H. apply hex_value_spec in H. revert H. clear. destruct c as [[|] [|] [|] [|] [|] [|] [|] [|]]; vm_compute; intros H; first [discriminate H|reflexivity]. Qed.

Lemma safe_quote_ascii c : byte c < 128 -> page_safe (quote_ascii c).
Proof.
  intros H. unfold quote_ascii. destruct (html_safe c) eqn:Hs.
  - apply safe_chars. intros x [<-|[]]. unfold html_safe in Hs. unfold safe_char.
    rewrite !andb_true_iff, !negb_true_iff, !Ascii.eqb_neq in Hs. destruct Hs as ((((((S1 & S2) & _) & _) & S3) & S4) & S5).
    rewrite S1, S2. cbn [andb].
    destruct (Z.eqb_spec (byte c) 60) as [E|_]; [exfalso; apply S3, byte_inj; exact E|].
    destruct (Z.eqb_spec (byte c) 62) as [E|_]; [exfalso; apply S4, byte_inj; exact E|].
    destruct (Z.eqb_spec (byte c) 38) as [E|_]; [exfalso; apply S5, byte_inj; exact E|]. reflexivity.
  - destruct (Ascii.eqb c "\" || Ascii.eqb c """") eqn:Hq.
    { rewrite orb_true_iff, !Ascii.eqb_eq in Hq. destruct Hq as [->| ->]; apply safe_literal; reflexivity. }
    destruct (byte c =? 10); [apply safe_literal; reflexivity|]. destruct (byte c =? 13); [apply safe_literal; reflexivity|].
    destruct (byte c =? 9); [apply safe_literal; reflexivity|]. apply safe_app; [apply safe_literal; reflexivity|].
    pose proof (byte_range c). apply safe_chars. intros x [<-|[<-|[]]];
      [apply (safe_hex _ (byte c / 16))|apply (safe_hex _ (byte c mod 16))]; apply hex_char_of; Z.div_mod_to_equations; lia.
Qed.

Lemma safe_quote_from n : forall s, page_safe (quote_from n s).
Proof.
  induction n as [|n IH]; intros s; [exact safe_nil|]. cbn [quote_from]. destruct s as [|c s]; [exact safe_nil|].
  destruct (Z.ltb_spec (byte c) 128) as [A|A]; [apply safe_app; [apply safe_quote_ascii, A|apply IH]|].
  destruct (rune_at (chr c s)) as [[r t]|] eqn:R.
  - apply rune_at_some in R. destruct R as (enc & U & E). rewrite E.
    destruct ((r =? 8232) || (r =? 8233)) eqn:X.
    + apply safe_app; [apply safe_literal; reflexivity|]. change (page_safe (chr (hex_char (r mod 16)) "" +++ quote_from n t)).
      apply safe_app; [|apply IH]. apply safe_chars. intros x [<-|[]]. apply (safe_hex _ (r mod 16)), hex_char_of. Z.div_mod_to_equations; lia.
    + rewrite substring_prefix. apply safe_app; [|apply IH].
      rewrite orb_false_iff, !Z.eqb_neq in X. exists [r]. split; [rewrite <- (append_empty enc); apply points_more; [exact U|constructor]|].
      assert (R128 : 128 <= r).
      { destruct (utf8_bytes r enc U) as [[Ee Hr]|[Hr _]]; [|exact Hr].
        rewrite Ee in E. cbn [String.append] in E. injection E as E _. rewrite E, byte_char_of in A by lia. lia. }
      intros q [<-|[]]. split; [lia|]. cbn. lia.
  - apply safe_app; [apply safe_literal; reflexivity|apply IH].
Qed.
Lemma safe_quote s : page_safe (quote s).
Proof. rewrite quote_is. apply safe_app; [apply safe_literal; reflexivity|]. apply safe_app; [apply safe_quote_from|apply safe_literal; reflexivity]. Qed.

Lemma safe_concat ts : Forall page_safe ts -> page_safe (String.concat "," ts).
Proof.
  intros H. induction H as [|t ts Ht H IH]; [exact safe_nil|]. destruct ts as [|t' ts]; [exact Ht|].
  rewrite concat_cons2. apply safe_app; [exact Ht|]. apply safe_app; [apply safe_literal; reflexivity|exact IH].
Qed.

Lemma digit_safe c : is_digit c -> safe_char c = true.
Proof. intros H. cbn in H. repeat (destruct H as [<-|H]; [reflexivity|]). destruct H. Qed.
Lemma digits_safe s : all_chars is_digit s -> page_safe s.
Proof. intros H. apply safe_chars. intros c Hc. apply digit_safe. revert c Hc. now apply all_chars_mentions. Qed.
Lemma number_safe s : number s -> page_safe s.
Proof.
  intros (m & i & f & e & Hm & Hi & Hf & He & ->). apply safe_app; [destruct Hm as [->| ->]; apply safe_literal; reflexivity|].
  apply safe_app; [|apply safe_app].
  - destruct Hi as [->|(c & d & Hc & _ & Hd & ->)]; [apply safe_literal; reflexivity|]. apply digits_safe. split; assumption.
  - destruct Hf as [->|(d & Hd & ->)]; [exact safe_nil|]. apply safe_app; [apply safe_literal; reflexivity|apply digits_safe, Hd].
  - destruct He as [->|(x & sg & d & Hx & Hsg & Hd & ->)]; [exact safe_nil|].
    apply safe_app; [cbn in Hx; destruct Hx as [<-|[<-|[]]]; apply safe_literal; reflexivity|].
    apply safe_app; [cbn in Hsg; destruct Hsg as [<-|[<-|[<-|[]]]]; apply safe_literal; reflexivity|apply digits_safe, Hd].
Qed.

Lemma base64_safe s : page_safe (encode_string s).
Proof.
  apply safe_chars. intros c H. destruct (encode_canonical s) as (dg & pad & HF & _ & _ & T & _).
  apply letters_mentions in H. apply (in_map Some) in H. rewrite T in H. apply in_app_or in H.
  destruct H as [H|H].
  - apply in_map_iff in H. destruct H as (d & Hd & Hi). rewrite Forall_forall in HF. apply get_b64_value in Hd; [|exact (HF d Hi)].
    revert Hd. clear. destruct c as [[|] [|] [|] [|] [|] [|] [|] [|]]; vm_compute; intros H; first [discriminate H|reflexivity].
  - apply repeat_spec in H. assert (Hc : c = "="%char) by congruence. subst c. reflexivity.
Qed.

Lemma marshal_safe (shown : forall f t, show_float f = Some t -> number t) v : forall t, marshal v = Some t -> page_safe t.
Proof.
  induction v as [| | |b|z|f|s|s|l IH|l IH|] using gvalue_rect'; intros t H; cbn [JsonModel.marshal] in H; try discriminate H.
  - injection H as <-. apply safe_literal. reflexivity.
  - injection H as <-. apply safe_literal. reflexivity.
  - injection H as <-. apply safe_literal. reflexivity.
  - injection H as <-. destruct b; apply safe_literal; reflexivity.
  - injection H as <-. apply number_safe, itoa_number.
  - apply number_safe, (shown f), H.
  - injection H as <-. apply safe_quote.
  - injection H as <-. change (page_safe ("""" +++ encode_string s +++ """")).
    apply safe_app; [apply safe_literal; reflexivity|]. apply safe_app; [apply base64_safe|apply safe_literal; reflexivity].
  - destruct (all_some (map marshal l)) as [ts|] eqn:E; [|discriminate]. injection H as <-.
    match goal with |- page_safe (chr ?c ?r) => change (page_safe (chr c "" +++ r)) end.
    apply safe_app; [apply safe_literal; reflexivity|]. apply safe_app; [|apply safe_literal; reflexivity]. apply safe_concat.
    apply all_some_spec in E. clear - IH E. revert ts E. induction IH as [|x l Hx IH IHl]; intros ts E; inversion E as [|o y ? ts' Ho HF]; subst; constructor; auto.
  - set (g := fun p : string * gvalue F => option_map (pair (fst p)) (marshal (snd p))) in H.
    destruct (all_some (map g l)) as [ts|] eqn:E; [|discriminate]. injection H as <-.
    match goal with |- page_safe (chr ?c ?r) => change (page_safe (chr c "" +++ r)) end.
    apply safe_app; [apply safe_literal; reflexivity|]. apply safe_app; [|apply safe_literal; reflexivity]. apply safe_concat.
    assert (W : Forall (fun p => page_safe (snd p)) ts).
    { apply all_some_spec in E. clear - IH E. revert ts E. induction IH as [|x l Hx IH IHl]; intros ts E; inversion E as [|o y ? ts' Ho HF]; subst; constructor; [|auto].
      unfold g in Ho. destruct (marshal (snd x)) as [q|] eqn:Eq; [|discriminate]. injection Ho as <-. cbn. auto. }
    rewrite Forall_forall in W |- *. intros q Hq. apply in_map_iff in Hq. destruct Hq as (p & <- & Hp).
    change (page_safe (quote (fst p) +++ ":" +++ snd p)).
    apply safe_app; [apply safe_quote|]. apply safe_app; [apply safe_literal; reflexivity|]. apply W. apply (Permutation_in _ (sort_perm ts)), Hp.
Qed.

(** * Errors *)
Lemma all_some_none {A} (l : list (option A)) : all_some l = None <-> In None l.
Proof.
  induction l as [|[x|] l IH]; cbn [all_some].
  - split; [discriminate|intros []].
  - destruct (all_some l); cbn [option_map].
    + split; [discriminate|]. intros [H|H]; [discriminate|]. apply IH in H. discriminate.
    + split; [|reflexivity]. intros _. right. now apply IH.
  - split; [intros _; left; reflexivity|reflexivity].
Qed.
Lemma marshal_none v : marshal v = None <-> unsupported show_float v.
Proof.
  induction v as [| | |b|z|f|s|s|l IH|l IH|] using gvalue_rect'; cbn [JsonModel.marshal];
    try (split; [discriminate|intros H; inversion H; fail]).
  - split; [now constructor|]. intros H; now inversion H.
  - rewrite Forall_forall in IH. destruct (all_some (map marshal l)) as [ts|] eqn:E.
    + split; [discriminate|]. intros H. inversion H as [| |l' v Hv Hu|]; subst. apply IH in Hu; [|exact Hv].
      assert (N : all_some (map marshal l) = None) by (apply all_some_none; rewrite <- Hu; now apply in_map). congruence.
    + split; [intros _|reflexivity]. apply all_some_none, in_map_iff in E. destruct E as (v & Hv & Hi).
      apply (unsupported_slice _ l v Hi), IH; assumption.
  - rewrite Forall_forall in IH. set (g := fun p : string * gvalue F => option_map (pair (fst p)) (marshal (snd p))).
    destruct (all_some (map g l)) as [ts|] eqn:E.
    + split; [discriminate|]. intros H. inversion H as [| | |l' k v Hv Hu]; subst. apply (IH (k, v)) in Hu; [|exact Hv].
      assert (N : all_some (map g l) = None) by (apply all_some_none, in_map_iff; exists (k, v); split; [unfold g; now rewrite Hu|exact Hv]). congruence.
    + split; [intros _|reflexivity]. apply all_some_none, in_map_iff in E. destruct E as ([k v] & Hv & Hi).
      apply (unsupported_map _ l k v Hi), (IH (k, v)); [exact Hi|]. unfold g in Hv. destruct (marshal (snd (k, v))) eqn:M; [discriminate|reflexivity].
  - split; [constructor|reflexivity].
Qed.
End Values.
