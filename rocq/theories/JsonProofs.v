(** Proofs about the JSON model. *)
From Verif Require Import Common Bytes ProcsModel ProcsSpec ConfNamesSpec ConfNamesProofs ConfsModel ConfsSpec ConfsProofs PprofModel PprofSpec PprofProofs
  RsaModel RsaProofs JsonModel JsonSpec.
From Coq Require Import Permutation.
Local Open Scope string_scope.
Local Open Scope list_scope.
Local Open Scope Z_scope.
Local Notation "a +++ b" := (String.append a b) (at level 60, right associativity).
Local Notation chr := String.String.

(** * UTF-8 *)

Lemma app_chr c a b : chr c a +++ b = chr c (a +++ b).
Proof. reflexivity. Qed.
Lemma app_nil b : "" +++ b = b.
Proof. reflexivity. Qed.

Lemma between_spec lo hi c : between lo hi c = true <-> lo <= byte c <= hi.
Proof. unfold between. rewrite andb_true_iff, !Z.leb_le. lia. Qed.
Lemma between_not lo hi c : between lo hi c = false <-> ~ lo <= byte c <= hi.
Proof. rewrite <- between_spec. destruct (between lo hi c); split; congruence. Qed.
Lemma byte_range c : 0 <= byte c < 256.
Proof. unfold byte. pose proof (N_ascii_bounded c). lia. Qed.

Ltac bounds := repeat match goal with c : ascii |- _ => lazymatch goal with H : 0 <= byte c < 256 |- _ => fail | _ => pose proof (byte_range c) end end.

Ltac dm := Z.div_mod_to_equations; lia.

Lemma between_chr lo hi z : 0 <= z < 256 -> lo <= z <= hi -> between lo hi (char_of z) = true.
Proof. intros. rewrite between_spec, byte_char_of; lia. Qed.
Lemma between_chr_not lo hi z : 0 <= z < 256 -> ~ lo <= z <= hi -> between lo hi (char_of z) = false.
Proof. intros. rewrite between_not, byte_char_of; lia. Qed.

Lemma some_pair (a b : Z) (s : string) : a = b -> Some (a, s) = Some (b, s).
Proof. now intros ->. Qed.
Lemma chr_eq a b s t : a = b -> s = t -> chr (char_of a) s = chr (char_of b) t.
Proof. now intros -> ->. Qed.

Lemma rune_at_utf8 r enc s : utf8 r enc -> rune_at (enc +++ s) = Some (r, s).
Proof.
  intros H. destruct H as [x H|r x y -> Hy Hr|r x y z -> Hy Hz Hr Hs|r w x y z -> Hx Hy Hz Hr];
    cbn [of_bytes String.append]; unfold rune_at; cbv zeta; rewrite !byte_char_of by lia.
  - destruct (Z.ltb_spec x 128); [reflexivity|lia].
  - destruct (Z.ltb_spec (192 + x) 128); [lia|].
    rewrite !between_chr by lia. apply some_pair. dm.
  - destruct (Z.ltb_spec (224 + x) 128); [lia|].
    rewrite (between_chr_not 194 223) by lia. rewrite (between_chr 224 239), (between_chr 128 191 (128 + z)) by lia.
    rewrite between_chr.
    + cbn [andb]. apply some_pair. dm.
    + lia.
    + destruct (Z.eqb_spec (224 + x) 224), (Z.eqb_spec (224 + x) 237); lia.
  - destruct (Z.ltb_spec (240 + w) 128); [lia|].
    rewrite (between_chr_not 194 223), (between_chr_not 224 239) by lia.
    rewrite (between_chr 240 244), (between_chr 128 191 (128 + z)), (between_chr 128 191 (128 + y)) by lia.
    rewrite between_chr.
    + cbn [andb]. apply some_pair. dm.
    + lia.
    + destruct (Z.eqb_spec (240 + w) 240), (Z.eqb_spec (240 + w) 244); lia.
Qed.

Lemma rune_at_some s r t : rune_at s = Some (r, t) -> exists enc, utf8 r enc /\ s = enc +++ t.
Proof.
  unfold rune_at. cbv zeta. intros H.
  destruct s as [|a s]; [discriminate|].
  destruct (Z.ltb_spec (byte a) 128).
  { injection H as <- <-. exists (of_bytes [byte a]). split; [apply utf8_1; bounds; lia|].
    cbn [of_bytes String.append]. now rewrite char_of_byte. }
  destruct s as [|b s]; [discriminate|].
  destruct (between 194 223 a) eqn:Ha.
  { destruct (between 128 191 b) eqn:Hb; [|discriminate]. injection H as <- <-. rewrite between_spec in Ha, Hb.
    exists (of_bytes [192 + byte a mod 32; 128 + byte b mod 64]). split.
    - apply utf8_2; try reflexivity; dm.
    - cbn [of_bytes String.append].
      replace (192 + byte a mod 32) with (byte a) by dm. replace (128 + byte b mod 64) with (byte b) by dm.
      now rewrite !char_of_byte. }
  destruct s as [|c s]; [discriminate|].
  destruct (between 224 239 a) eqn:Ha2.
  { match type of H with (if ?x then _ else _) = _ => destruct x eqn:Hb end; [|discriminate]. injection H as <- <-.
    rewrite andb_true_iff, !between_spec in Hb. rewrite between_spec in Ha2. destruct Hb as [Hb Hc].
    exists (of_bytes [224 + byte a mod 16; 128 + byte b mod 64; 128 + byte c mod 64]). split.
    - destruct (Z.eqb_spec (byte a) 224), (Z.eqb_spec (byte a) 237); apply utf8_3; dm.
    - cbn [of_bytes String.append].
      replace (224 + byte a mod 16) with (byte a) by dm.
      replace (128 + byte b mod 64) with (byte b) by (destruct (byte a =? 224), (byte a =? 237); dm).
      replace (128 + byte c mod 64) with (byte c) by dm. now rewrite !char_of_byte. }
  destruct s as [|d s]; [discriminate|].
  destruct (between 240 244 a) eqn:Ha3; [|discriminate].
  match type of H with (if ?x then _ else _) = _ => destruct x eqn:Hb end; [|discriminate]. injection H as <- <-.
  rewrite !andb_true_iff, !between_spec in Hb. rewrite between_spec in Ha3. destruct Hb as [[Hb Hc] Hd].
  exists (of_bytes [240 + byte a mod 8; 128 + byte b mod 64; 128 + byte c mod 64; 128 + byte d mod 64]). split.
  - destruct (Z.eqb_spec (byte a) 240), (Z.eqb_spec (byte a) 244); apply utf8_4; dm.
  - cbn [of_bytes String.append].
    replace (240 + byte a mod 8) with (byte a) by dm.
    replace (128 + byte b mod 64) with (byte b) by (destruct (byte a =? 240), (byte a =? 244); dm).
    replace (128 + byte c mod 64) with (byte c) by dm. replace (128 + byte d mod 64) with (byte d) by dm.
    now rewrite !char_of_byte.
Qed.

Lemma utf8_range r enc : utf8 r enc -> 0 <= r < 1114112 /\ ~ 55296 <= r < 57344.
Proof. intros H. destruct H; lia. Qed.

Lemma encode_rune_utf8 r enc : utf8 r enc -> encode_rune r = enc.
Proof.
  intros H. destruct H as [x H|r x y -> Hy Hr|r x y z -> Hy Hz Hr Hs|r w x y z -> Hx Hy Hz Hr];
    unfold encode_rune, surrogate; cbv zeta; cbn [of_bytes].
  - destruct (Z.leb_spec 0 x); [|lia]. destruct (Z.ltb_spec x 128); [|lia]. reflexivity.
  - destruct (Z.leb_spec 0 (x * 64 + y)); [|lia]. destruct (Z.ltb_spec (x * 64 + y) 128); [lia|].
    destruct (Z.ltb_spec (x * 64 + y) 2048); [|lia]. cbn [andb].
    repeat (apply chr_eq; [dm|]); reflexivity.
  - set (r := (x * 64 + y) * 64 + z) in *.
    destruct (Z.leb_spec 0 r); [|lia]. destruct (Z.ltb_spec r 128); [lia|].
    destruct (Z.ltb_spec r 2048); [lia|]. cbn [andb].
    destruct (Z.ltb_spec r 0); [lia|]. destruct (Z.ltb_spec 1114111 r); [lia|]. cbn [orb].
    replace ((55296 <=? r) && (r <? 57344)) with false.
    2:{ symmetry. apply andb_false_iff. rewrite Z.leb_gt, Z.ltb_ge. lia. }
    destruct (Z.ltb_spec r 65536); [|lia]. subst r.
    repeat (apply chr_eq; [dm|]); reflexivity.
  - set (r := ((w * 64 + x) * 64 + y) * 64 + z) in *.
    destruct (Z.leb_spec 0 r); [|lia]. destruct (Z.ltb_spec r 128); [lia|].
    destruct (Z.ltb_spec r 2048); [lia|]. cbn [andb].
    destruct (Z.ltb_spec r 0); [lia|]. destruct (Z.ltb_spec 1114111 r); [lia|]. cbn [orb].
    replace ((55296 <=? r) && (r <? 57344)) with false.
    2:{ symmetry. apply andb_false_iff. rewrite Z.leb_gt, Z.ltb_ge. lia. }
    destruct (Z.ltb_spec r 65536); [lia|]. subst r.
    repeat (apply chr_eq; [dm|]); reflexivity.
Qed.

Lemma broken_rune s : broken s <-> rune_at s = None.
Proof.
  split.
  - intros H. destruct (rune_at s) as [[r t]|] eqn:E; [|reflexivity]. exfalso.
    apply rune_at_some in E. destruct E as (enc & U & ->). exact (H r enc t U eq_refl).
  - intros H r enc t U ->. rewrite (rune_at_utf8 r enc t U) in H. discriminate.
Qed.

Lemma utf8_exists r : 0 <= r < 1114112 -> ~ 55296 <= r < 57344 -> exists enc, utf8 r enc.
Proof.
  intros H1 H2. destruct (Z_lt_le_dec r 128); [eexists; apply (utf8_1 r); lia|].
  destruct (Z_lt_le_dec r 2048); [eexists; apply (utf8_2 r (r / 64) (r mod 64)); dm|].
  destruct (Z_lt_le_dec r 65536).
  - eexists; apply (utf8_3 r (r / 4096) (r / 64 mod 64) (r mod 64)); dm.
  - eexists; apply (utf8_4 r (r / 262144) (r / 4096 mod 64) (r / 64 mod 64) (r mod 64)); dm.
Qed.

Lemma rune_error_enc : encode_rune rune_error = replacement.
Proof. reflexivity. Qed.

(** An encoding is one ASCII character, or two to four bytes from 128 on. *)
Lemma utf8_bytes r enc : utf8 r enc -> (enc = chr (char_of r) "" /\ 0 <= r < 128) \/
  (128 <= r /\ exists c t, enc = chr c t /\ forall x, mentions x enc -> 128 <= byte x).
Proof.
  intros H. destruct H as [x H|r x y -> Hy Hr|r x y z -> Hy Hz Hr Hs|r w x y z -> Hx Hy Hz Hr]; [left; split; [reflexivity|lia]|right..];
    (split; [lia|]); do 2 eexists; (split; [reflexivity|]); intros q Hq; unfold mentions in Hq; cbn [of_bytes has_char] in Hq;
    repeat (destruct Hq as [<-|Hq]; [rewrite byte_char_of; lia|]); destruct Hq.
Qed.

Lemma utf8_nonempty r enc : utf8 r enc -> (1 <= String.length enc)%nat.
Proof. intros H. destruct H; cbn; lia. Qed.

(** * Strings *)

Lemma hex_value_spec c z : hex_value c = Some z <-> hex_of c z.
Proof.
  split.
  - intros H. pose proof (hex_value_range c z H) as R. split; [exact R|].
    unfold hex_value in H. cbv zeta in H.
    destruct (Z.leb_spec 48 (byte c)), (Z.leb_spec (byte c) 57), (Z.leb_spec 97 (byte c)), (Z.leb_spec (byte c) 102),
      (Z.leb_spec 65 (byte c)), (Z.leb_spec (byte c) 70); cbn [andb] in H; try discriminate; injection H as H;
      rewrite <- (char_of_byte c).
    all: assert (z = 0 \/ z = 1 \/ z = 2 \/ z = 3 \/ z = 4 \/ z = 5 \/ z = 6 \/ z = 7 \/ z = 8 \/ z = 9 \/ z = 10 \/ z = 11 \/ z = 12 \/ z = 13 \/ z = 14 \/ z = 15) as Hz by lia.
    all: repeat (destruct Hz as [Hz|Hz]); try lia.
    all: match type of Hz with _ = ?k =>
           first [ let e := constr:(k + 48) in let e' := eval vm_compute in e in assert (byte c = e') as -> by lia
                 | let e := constr:(k + 87) in let e' := eval vm_compute in e in assert (byte c = e') as -> by lia
                 | let e := constr:(k + 55) in let e' := eval vm_compute in e in assert (byte c = e') as -> by lia ] end.
    all: rewrite Hz; vm_compute; tauto.
  - intros [R H].
    assert (z = 0 \/ z = 1 \/ z = 2 \/ z = 3 \/ z = 4 \/ z = 5 \/ z = 6 \/ z = 7 \/ z = 8 \/ z = 9 \/ z = 10 \/ z = 11 \/ z = 12 \/ z = 13 \/ z = 14 \/ z = 15) as Hz by lia.
    repeat (destruct Hz as [Hz|Hz]); rewrite Hz in H |- *; vm_compute in H; destruct H as [H|H]; injection H as <-; reflexivity.
Qed.

Lemma hex4_spec s r t : hex4 s = Some (r, t) <-> exists h, four_hex h r /\ s = h +++ t.
Proof.
  split.
  - unfold hex4. intros H. destruct s as [|a [|b [|c [|d s]]]]; try discriminate.
    destruct (hex_value a) as [w|] eqn:Ea; [|discriminate]. destruct (hex_value b) as [x|] eqn:Eb; [|discriminate].
    destruct (hex_value c) as [y|] eqn:Ec; [|discriminate]. destruct (hex_value d) as [z|] eqn:Ed; [|discriminate].
    injection H as <- <-. exists (chr a (chr b (chr c (chr d "")))). split; [|reflexivity].
    exists a, b, c, d, w, x, y, z. rewrite <- !hex_value_spec. repeat split; try assumption. lia.
  - intros (h & (a & b & c & d & w & x & y & z & -> & Ha & Hb & Hc & Hd & ->) & ->).
    rewrite <- hex_value_spec in Ha, Hb, Hc, Hd. cbn [String.append hex4]. rewrite Ha, Hb, Hc, Hd. f_equal. f_equal. lia.
Qed.

Lemma getu4_spec s r t : getu4 s = Some (r, t) <-> exists h, four_hex h r /\ s = "\u" +++ h +++ t.
Proof.
  assert (D : getu4 s = Some (r, t) <-> exists s', s = "\u" +++ s' /\ hex4 s' = Some (r, t)).
  { unfold getu4. split.
    - destruct (strip "\u" s) as [s'|] eqn:E; [|discriminate]. intros H. apply strip_some in E. eauto.
    - intros (s' & -> & H). rewrite strip_app. exact H. }
  rewrite D. split.
  - intros (s' & -> & H). apply hex4_spec in H. destruct H as (h & Hh & ->). exists h. split; [exact Hh|reflexivity].
  - intros (h & Hh & ->). exists (h +++ t). split; [reflexivity|]. apply hex4_spec. exists h. split; [exact Hh|reflexivity].
Qed.

Lemma escape_spec e c : escape_meaning e = Some c <-> exists x, In (e, x) escapes /\ c = char_of x.
Proof.
  split.
  - unfold escape_meaning.
    intros H. repeat match type of H with (if Ascii.eqb e ?k then _ else _) = _ =>
      destruct (Ascii.eqb_spec e k) as [->|?]; [injection H as <-; eexists; split; [cbn; tauto|reflexivity]|] end.
    discriminate.
  - intros (x & H & ->). cbn in H. repeat (destruct H as [[= <- <-]|H]; [reflexivity|]). destruct H.
Qed.

Definition adding (p : string) (o : option (string * string)) : option (string * string) :=
  match o with Some (b, r) => Some (p +++ b, r) | None => None end.

Lemma lex_quote s : lex_string (chr """" s) = Some ("", s).
Proof. reflexivity. Qed.
Lemma lex_plain c s : c <> """"%char -> c <> "\"%char -> 32 <= byte c -> lex_string (chr c s) = adding (chr c "") (lex_string s).
Proof.
  intros H1 H2 H3. cbn [lex_string]. destruct (Ascii.eqb_spec c """"); [contradiction|].
  destruct (Ascii.eqb_spec c "\"); [contradiction|]. destruct (Z.ltb_spec (byte c) 32); [lia|].
  destruct (lex_string s) as [[b r]|]; reflexivity.
Qed.
Lemma hex_is c z : hex_of c z -> is_hex c = true.
Proof. rewrite <- hex_value_spec. unfold is_hex. now intros ->. Qed.
Lemma lex_code h r s : four_hex h r -> lex_string ("\u" +++ h +++ s) = adding ("\u" +++ h) (lex_string s).
Proof.
  intros (a & b & c & d & w & x & y & z & -> & Ha & Hb & Hc & Hd & _).
  cbn [String.append lex_string]. cbn [Ascii.eqb Bool.eqb].
  rewrite (hex_is a w Ha), (hex_is b x Hb), (hex_is c y Hc), (hex_is d z Hd). cbn [andb].
  destruct (lex_string s) as [[q r']|]; reflexivity.
Qed.
Lemma escape_not_u e x : In (e, x) escapes -> e <> "u"%char.
Proof. intros H ->. cbn in H. repeat (destruct H as [H|H]; [discriminate|]). exact H. Qed.
Lemma lex_escape e x s : In (e, x) escapes -> lex_string (chr "\" (chr e s)) = adding (chr "\" (chr e "")) (lex_string s).
Proof.
  intros H. cbn [lex_string]. cbn [Ascii.eqb Bool.eqb]. pose proof (escape_not_u e x H).
  destruct (Ascii.eqb_spec e "u"); [contradiction|].
  replace (escape_meaning e) with (Some (char_of x)) by (symmetry; apply escape_spec; eauto).
  destruct (lex_string s) as [[b r]|]; reflexivity.
Qed.

Lemma high_plain c : 128 <= byte c -> c <> """"%char /\ c <> "\"%char /\ 32 <= byte c.
Proof. intros H. repeat split; [intros ->; vm_compute in H; congruence..|lia]. Qed.

Lemma lex_high enc s : (forall x, mentions x enc -> 128 <= byte x) -> lex_string (enc +++ s) = adding enc (lex_string s).
Proof.
  induction enc as [|c enc IH]; intros H.
  - cbn. destruct (lex_string s) as [[b r]|]; reflexivity.
  - cbn [String.append]. destruct (high_plain c) as (H1 & H2 & H3); [apply H; left; reflexivity|].
    rewrite lex_plain by assumption. rewrite IH by (intros x Hx; apply H; right; exact Hx).
    destruct (lex_string s) as [[b r]|]; reflexivity.
Qed.

Lemma utf8_lex r enc s : utf8 r enc -> 32 <= r -> r <> 34 -> r <> 92 -> lex_string (enc +++ s) = adding enc (lex_string s).
Proof.
  intros U H1 H2 H3. destruct (utf8_bytes r enc U) as [[-> R]|[_ (c & t & _ & H)]].
  - cbn [String.append]. apply lex_plain.
    + intros E. apply H2. rewrite <- (byte_char_of r) by lia. rewrite E. reflexivity.
    + intros E. apply H3. rewrite <- (byte_char_of r) by lia. rewrite E. reflexivity.
    + rewrite byte_char_of; lia.
  - apply lex_high, H.
Qed.

Lemma broken_high c s : broken (chr c s) -> 128 <= byte c.
Proof.
  intros H. destruct (Z_lt_le_dec (byte c) 128) as [L|]; [|assumption]. exfalso.
  apply (H (byte c) (of_bytes [byte c]) s).
  - apply utf8_1. bounds. lia.
  - cbn [of_bytes String.append]. now rewrite char_of_byte.
Qed.

Lemma lex_spells b v r : spells b v -> lex_string (b +++ chr """" r) = Some (b, r).
Proof.
  intros H. induction H as [|r0 enc raw v U H1 H2 H3 H IH|c raw v B H IH|e x raw v E H IH|h r0 enc raw v Hh U H IH
    |h1 r1 h2 r2 enc raw v Hh1 Hr1 Hh2 Hr2 U H IH|h r0 raw v Hh Hr N H IH].
  - reflexivity.
  - rewrite append_assoc', (utf8_lex r0) by assumption. rewrite IH. reflexivity.
  - cbn [String.append]. destruct (high_plain c) as (P1 & P2 & P3); [exact (broken_high c raw B)|].
    rewrite lex_plain by assumption. rewrite IH. reflexivity.
  - cbn [String.append]. rewrite (lex_escape e x) by assumption. rewrite IH. reflexivity.
  - rewrite !append_assoc', (lex_code h r0) by assumption. rewrite IH. cbn [adding]. now rewrite append_assoc'.
  - rewrite !append_assoc', (lex_code h1 r1) by assumption. rewrite (lex_code h2 r2) by assumption. rewrite IH. cbn [adding].
    now rewrite !append_assoc'.
  - rewrite !append_assoc', (lex_code h r0) by assumption. rewrite IH. cbn [adding]. now rewrite append_assoc'.
Qed.

Lemma surrogate_spec r : surrogate r = true <-> 55296 <= r < 57344.
Proof. unfold surrogate. rewrite andb_true_iff, Z.leb_le, Z.ltb_lt. lia. Qed.
Lemma surrogate_not r : surrogate r = false <-> ~ 55296 <= r < 57344.
Proof. rewrite <- surrogate_spec. destruct (surrogate r); split; congruence. Qed.
Lemma decode_pair_spec r1 r2 : high r1 -> low r2 -> decode_pair r1 r2 = Some (65536 + (r1 - 55296) * 1024 + (r2 - 56320)).
Proof.
  unfold high, low, decode_pair. intros H1 H2.
  destruct (Z.leb_spec 55296 r1); [|lia]. destruct (Z.ltb_spec r1 56320); [|lia].
  destruct (Z.leb_spec 56320 r2); [|lia]. destruct (Z.ltb_spec r2 57344); [|lia]. cbn [andb]. f_equal. lia.
Qed.
Lemma decode_pair_some r1 r2 x : decode_pair r1 r2 = Some x -> high r1 /\ low r2.
Proof.
  unfold decode_pair, high, low. intros H.
  destruct (Z.leb_spec 55296 r1), (Z.ltb_spec r1 56320), (Z.leb_spec 56320 r2), (Z.ltb_spec r2 57344); cbn [andb] in H; try discriminate. lia.
Qed.
Lemma four_hex_length h r : four_hex h r -> String.length h = 4%nat.
Proof. intros (a & b & c & d & w & x & y & z & -> & _). reflexivity. Qed.
Lemma four_hex_range h r : four_hex h r -> 0 <= r < 65536.
Proof.
  intros (a & b & c & d & w & x & y & z & _ & (Ha & _) & (Hb & _) & (Hc & _) & (Hd & _) & ->). lia.
Qed.
Lemma getu4_at h r t : four_hex h r -> getu4 ("\u" +++ h +++ t) = Some (r, t).
Proof. intros H. apply getu4_spec. exists h. split; [exact H|reflexivity]. Qed.
Lemma escape_getu4 e x s : In (e, x) escapes -> getu4 (chr "\" (chr e s)) = None.
Proof.
  intros H. destruct (getu4 (chr "\" (chr e s))) as [[r t]|] eqn:E; [|reflexivity].
  apply getu4_spec in E. destruct E as (h & _ & E). cbn [String.append] in E.
  exfalso. apply (escape_not_u e x H). congruence.
Qed.

Lemma unquote_step_code n s r t : getu4 s = Some (r, t) -> unquote_from (S n) s =
  (if surrogate r then
     match getu4 t with
     | Some (r1, t1) => match decode_pair r r1 with
                        | Some rr => encode_rune rr +++ unquote_from n t1
                        | None => encode_rune rune_error +++ unquote_from n t end
     | None => encode_rune rune_error +++ unquote_from n t
     end
   else encode_rune r +++ unquote_from n t).
Proof.
  intros H. pose proof H as H'. apply getu4_spec in H'. destruct H' as (h & _ & ->).
  cbn [unquote_from String.append]. cbn [String.append] in H. rewrite H. reflexivity.
Qed.

Lemma unquote_rune n r enc s : utf8 r enc -> r <> 92 -> unquote_from (S n) (enc +++ s) = enc +++ unquote_from n s.
Proof.
  intros U N. pose proof (rune_at_utf8 r enc s U) as R. pose proof (encode_rune_utf8 r enc U) as E.
  destruct (utf8_bytes r enc U) as [[-> L]|[L (c & t & Ec & H)]].
  - cbn [String.append unquote_from].
    destruct (Ascii.eqb_spec (char_of r) "\") as [E'|_].
    { exfalso. apply N. rewrite <- (byte_char_of r) by lia. rewrite E'. reflexivity. }
    rewrite byte_char_of by lia. destruct (Z.ltb_spec r 128); [reflexivity|lia].
  - assert (Hc : 128 <= byte c) by (apply H; rewrite Ec; left; reflexivity).
    destruct (high_plain c Hc) as (_ & Hb & _).
    rewrite Ec in R, E |- *. cbn [String.append unquote_from]. cbn [String.append] in R.
    destruct (Ascii.eqb_spec c "\"); [contradiction|].
    destruct (Z.ltb_spec (byte c) 128); [lia|]. rewrite R, E. reflexivity.
Qed.

Lemma unquote_byte n c s : broken (chr c s) -> unquote_from (S n) (chr c s) = replacement +++ unquote_from n s.
Proof.
  intros B. pose proof (broken_high c s B) as Hc. destruct (high_plain c Hc) as (_ & Hb & _).
  cbn [unquote_from]. destruct (Ascii.eqb_spec c "\"); [contradiction|].
  destruct (Z.ltb_spec (byte c) 128); [lia|]. apply broken_rune in B. rewrite B. rewrite rune_error_enc. reflexivity.
Qed.

Lemma unquote_escape n e x s : In (e, x) escapes -> unquote_from (S n) (chr "\" (chr e s)) = chr (char_of x) (unquote_from n s).
Proof.
  intros H. pose proof (escape_getu4 e x s H) as G. cbn [unquote_from]. cbn [Ascii.eqb Bool.eqb]. rewrite G.
  replace (escape_meaning e) with (Some (char_of x)) by (symmetry; apply escape_spec; eauto). reflexivity.
Qed.

Lemma unquote_spells b v : spells b v -> forall n, (String.length b <= n)%nat -> unquote_from n b = v.
Proof.
  intros H. induction H as [|r0 enc raw v U H1 H2 H3 H IH|c raw v B H IH|e x raw v E H IH|h r0 enc raw v Hh U H IH
    |h1 r1 h2 r2 enc raw v Hh1 Hr1 Hh2 Hr2 U H IH|h r0 raw v Hh Hr N H IH]; intros n L.
  - destruct n; reflexivity.
  - pose proof (utf8_nonempty r0 enc U). rewrite length_app_s in L. destruct n as [|n]; [lia|].
    rewrite (unquote_rune n r0) by assumption. rewrite IH by lia. reflexivity.
  - cbn [String.length] in L. destruct n as [|n]; [lia|]. rewrite unquote_byte by assumption. rewrite IH by lia. reflexivity.
  - cbn [String.length] in L. destruct n as [|n]; [lia|]. rewrite (unquote_escape n e x) by assumption. rewrite IH by lia. reflexivity.
  - rewrite !length_app_s in L. cbn [String.length] in L. destruct n as [|n]; [lia|].
    rewrite (unquote_step_code n _ r0 raw) by (apply getu4_at, Hh).
    destruct (surrogate r0) eqn:S0; [apply surrogate_spec in S0; apply utf8_range in U; lia|].
    rewrite (encode_rune_utf8 r0 enc U), IH by lia. reflexivity.
  - rewrite !length_app_s in L. cbn [String.length] in L. destruct n as [|n]; [lia|].
    rewrite (unquote_step_code n _ r1 ("\u" +++ h2 +++ raw)) by (apply getu4_at, Hh1).
    replace (surrogate r1) with true by (symmetry; apply surrogate_spec; unfold high in Hr1; lia).
    rewrite (getu4_at h2 r2 raw Hh2), (decode_pair_spec r1 r2 Hr1 Hr2).
    rewrite (encode_rune_utf8 _ enc U), IH by lia. reflexivity.
  - rewrite !length_app_s in L. cbn [String.length] in L. destruct n as [|n]; [lia|].
    rewrite (unquote_step_code n _ r0 raw) by (apply getu4_at, Hh).
    replace (surrogate r0) with true by (symmetry; apply surrogate_spec; unfold high, low in Hr; lia).
    rewrite rune_error_enc, IH by lia.
    destruct (getu4 raw) as [[r1 t1]|] eqn:G; [|reflexivity].
    destruct (decode_pair r0 r1) as [rr|] eqn:D; [|reflexivity].
    exfalso. apply decode_pair_some in D. destruct D as [D1 D2]. apply getu4_spec in G. destruct G as (h2 & Hh2 & ->).
    exact (N h2 r1 t1 D1 Hh2 D2 eq_refl).
Qed.

(** What the scanner lets pass between quotes. *)
Inductive lexed : string -> Prop :=
| lexed_end : lexed ""
| lexed_plain : forall c s, c <> """"%char -> c <> "\"%char -> 32 <= byte c -> lexed s -> lexed (chr c s)
| lexed_code : forall h r s, four_hex h r -> lexed s -> lexed ("\u" +++ h +++ s)
| lexed_escape : forall e x s, In (e, x) escapes -> lexed s -> lexed (chr "\" (chr e s)).

Lemma is_hex_of c : is_hex c = true -> exists z, hex_of c z.
Proof. unfold is_hex. destruct (hex_value c) as [z|] eqn:E; [|discriminate]. intros _. exists z. now apply hex_value_spec. Qed.

Lemma lex_lexed n : forall s b r, (String.length s <= n)%nat -> lex_string s = Some (b, r) -> s = b +++ chr """" r /\ lexed b.
Proof.
  induction n as [|n IH]; intros s b r L H; (destruct s as [|c s]; [discriminate|]); cbn [String.length] in L; [lia|].
  cbn [lex_string] in H. destruct (Ascii.eqb_spec c """") as [->|Q].
  { injection H as <- <-. split; [reflexivity|constructor]. }
  destruct (Ascii.eqb_spec c "\") as [->|B].
  - destruct s as [|e s]; [discriminate|]. cbn [String.length] in L.
    destruct (Ascii.eqb_spec e "u") as [->|U].
    + destruct s as [|h1 [|h2 [|h3 [|h4 s]]]]; try discriminate. cbn [String.length] in L.
      destruct (is_hex h1 && is_hex h2 && is_hex h3 && is_hex h4) eqn:E; [|discriminate].
      rewrite !andb_true_iff in E. destruct E as (((E1 & E2) & E3) & E4).
      destruct (lex_string s) as [[b' r']|] eqn:X; [|discriminate]. injection H as <- <-.
      destruct (IH s b' r') as [-> Hl]; [lia|exact X|].
      apply is_hex_of in E1, E2, E3, E4. destruct E1 as [w E1], E2 as [x E2], E3 as [y E3], E4 as [z E4].
      split; [reflexivity|].
      change (lexed ("\u" +++ (chr h1 (chr h2 (chr h3 (chr h4 "")))) +++ b')).
      eapply lexed_code; [|exact Hl].
      exists h1, h2, h3, h4, w, x, y, z. repeat split; try assumption; try (apply E1); try (apply E2); try (apply E3); try (apply E4).
    + destruct (escape_meaning e) as [x|] eqn:E; [|discriminate].
      destruct (lex_string s) as [[b' r']|] eqn:X; [|discriminate]. injection H as <- <-.
      destruct (IH s b' r') as [-> Hl]; [lia|exact X|]. split; [reflexivity|].
      apply escape_spec in E. destruct E as (z & Hz & _). exact (lexed_escape e z b' Hz Hl).
  - destruct (Z.ltb_spec (byte c) 32); [discriminate|].
    destruct (lex_string s) as [[b' r']|] eqn:X; [|discriminate]. injection H as <- <-.
    destruct (IH s b' r') as [-> Hl]; [lia|exact X|]. split; [reflexivity|]. now constructor.
Qed.

Lemma lexed_tail c s : lexed (chr c s) -> c <> "\"%char -> lexed s.
Proof.
  intros H N. remember (chr c s) as q eqn:E. destruct H as [|c' s' _ _ _ Hs|h r s' Hh Hs|e x s' Hx Hs].
  - discriminate.
  - injection E as -> ->. exact Hs.
  - cbn [String.append] in E. injection E as E1 E2. congruence.
  - injection E as E1 E2. congruence.
Qed.
Lemma lexed_skip enc s : (forall x, mentions x enc -> 128 <= byte x) -> lexed (enc +++ s) -> lexed s.
Proof.
  induction enc as [|c enc IH]; intros H L; [exact L|]. apply IH; [intros x Hx; apply H; right; exact Hx|].
  apply (lexed_tail c); [exact L|]. apply high_plain, H. left. reflexivity.
Qed.

Lemma high_dec r : {high r} + {~ high r}.
Proof. unfold high. destruct (Z_le_dec 55296 r), (Z_lt_dec r 56320); [left|right|right|right]; lia. Qed.
Lemma low_dec r : {low r} + {~ low r}.
Proof. unfold low. destruct (Z_le_dec 56320 r), (Z_lt_dec r 57344); [left|right|right|right]; lia. Qed.

Lemma lexed_spells n : forall b, (String.length b <= n)%nat -> lexed b -> exists v, spells b v.
Proof.
  induction n as [|n IH]; intros b L H.
  { destruct b; [exists ""; constructor|cbn in L; lia]. }
  destruct H as [|c s Q B P H|h r s Hh H|e x s Hx H].
  - exists "". constructor.
  - destruct (rune_at (chr c s)) as [[r t]|] eqn:R.
    + apply rune_at_some in R. destruct R as (enc & U & E).
      assert (T : lexed t /\ (String.length t <= n)%nat /\ 32 <= r /\ r <> 34 /\ r <> 92).
      { pose proof (utf8_nonempty r enc U) as N. pose proof (f_equal String.length E) as EL. rewrite length_app_s in EL. cbn [String.length] in EL, L.
        destruct (utf8_bytes r enc U) as [[-> Hr]|[Hr (c' & t' & Et & Hm)]].
        - cbn [String.append] in E. injection E as -> ->. rewrite byte_char_of in P by lia.
          repeat split; try assumption; try lia; intros ->; [apply Q|apply B]; reflexivity.
        - repeat split; try lia. apply (lexed_skip enc); [exact Hm|]. rewrite <- E. now constructor. }
      destruct T as (T1 & T2 & T3 & T4 & T5). destruct (IH t T2 T1) as [v Hv]. exists (enc +++ v). rewrite E.
      now apply (spells_rune r).
    + apply broken_rune in R. cbn [String.length] in L. destruct (IH s) as [v Hv]; [lia|exact H|].
      exists (replacement +++ v). now constructor.
  - rewrite !length_app_s in L. cbn [String.length] in L. pose proof (four_hex_length h r Hh). pose proof (four_hex_range h r Hh).
    destruct (high_dec r) as [Hr|Hr].
    + destruct (getu4 s) as [[r2 t]|] eqn:G.
      * apply getu4_spec in G. destruct G as (h2 & Hh2 & ->). destruct (low_dec r2) as [Hl|Hl].
        -- destruct (IH t) as [v Hv].
           { rewrite !length_app_s in L. lia. }
           { remember ("\u" +++ h2 +++ t) as q eqn:E. destruct H as [|c' s' C1 C2 _ Hs|h' r' s' Hh' Hs|e x s' Hx Hs].
             - discriminate.
             - cbn [String.append] in E. injection E as -> ->. contradiction.
             - cbn [String.append] in E. injection E as E.
               destruct Hh' as (a1 & b1 & c1 & d1 & w1 & x1 & y1 & z1 & -> & _).
               destruct Hh2 as (a & b & c & d & w & x & y & z & -> & _).
               cbn [String.append] in E. injection E as _ _ _ _ ->. exact Hs.
             - cbn [String.append] in E. injection E as -> ->. exfalso. exact (escape_not_u _ _ Hx eq_refl). }
           destruct (utf8_exists (65536 + (r - 55296) * 1024 + (r2 - 56320))) as [enc U]; [unfold high, low in *; lia..|].
           exists (enc +++ v). eapply spells_pair; eassumption.
        -- destruct (IH ("\u" +++ h2 +++ t)) as [v Hv]; [lia|exact H|]. exists (replacement +++ v).
           apply (spells_lone h r); [exact Hh|left; exact Hr| |exact Hv].
           intros h3 r3 t3 _ Hh3 Hl3 E. apply Hl.
           pose proof (getu4_at h2 r2 t Hh2) as G1. rewrite E, (getu4_at h3 r3 t3 Hh3) in G1. injection G1 as <- _. exact Hl3.
      * destruct (IH s) as [v Hv]; [lia|exact H|]. exists (replacement +++ v).
        apply (spells_lone h r); [exact Hh|left; exact Hr| |exact Hv].
        intros h3 r3 t3 _ Hh3 _ E. rewrite E, (getu4_at h3 r3 t3 Hh3) in G. discriminate.
    + destruct (IH s) as [v Hv]; [lia|exact H|]. destruct (low_dec r) as [Hl|Hl].
      * exists (replacement +++ v). apply (spells_lone h r); [exact Hh|right; exact Hl| |exact Hv].
        intros h3 r3 t3 Hr3. contradiction.
      * destruct (utf8_exists r) as [enc U]; [lia|unfold high, low in *; lia|].
        exists (enc +++ v). now apply (spells_code h r).
  - cbn [String.length] in L. destruct (IH s) as [v Hv]; [lia|exact H|]. exists (chr (char_of x) v). now constructor.
Qed.

Lemma parse_string_spec s v r : parse_string s = Some (v, r) <-> exists raw, s = raw +++ chr """" r /\ spells raw v.
Proof.
  unfold parse_string. split.
  - destruct (lex_string s) as [[b t]|] eqn:E; [|discriminate]. intros [= <- <-].
    apply (lex_lexed (String.length s)) in E; [|lia]. destruct E as [-> Hb]. exists b. split; [reflexivity|].
    destruct (lexed_spells (String.length b) b) as [v Hv]; [lia|exact Hb|].
    unfold unquote. rewrite (unquote_spells b v Hv) by lia. exact Hv.
  - intros (raw & -> & H). rewrite (lex_spells raw v r H). unfold unquote. rewrite (unquote_spells raw v H) by lia. reflexivity.
Qed.

(** * Numbers *)

Lemma digit_range c : is_digit c <-> 48 <= byte c <= 57.
Proof.
  split.
  - intros H. cbn in H. repeat (destruct H as [<-|H]; [vm_compute; intuition congruence|]). destruct H.
  - intros H. rewrite <- (char_of_byte c).
    assert (byte c = 48 \/ byte c = 49 \/ byte c = 50 \/ byte c = 51 \/ byte c = 52 \/ byte c = 53 \/ byte c = 54 \/ byte c = 55 \/ byte c = 56 \/ byte c = 57) as E by lia.
    repeat (destruct E as [E|E]); rewrite E; vm_compute; tauto.
Qed.
Lemma json_digit_spec c : json_digit c = true <-> is_digit c.
Proof. unfold json_digit. rewrite between_spec, digit_range. reflexivity. Qed.
Lemma json_digit_not c : json_digit c = false <-> ~ is_digit c.
Proof. rewrite <- json_digit_spec. destruct (json_digit c); split; congruence. Qed.

(** [s] does not start with a character of [P]. *)
Definition starts_not (P : ascii -> Prop) (s : string) : Prop :=
  match s with String.EmptyString => True | String.String c _ => ~ P c end.

Lemma take_digits_at d r : all_chars is_digit d -> starts_not is_digit r -> take_digits (d +++ r) = (d, r).
Proof.
  induction d as [|c d IH]; intros H N; cbn [String.append].
  - destruct r as [|c r]; [reflexivity|]. cbn [take_digits]. cbn in N. apply json_digit_not in N. rewrite N. reflexivity.
  - destruct H as [Hc H]. cbn [take_digits]. apply json_digit_spec in Hc. rewrite Hc, (IH H N). reflexivity.
Qed.
Lemma take_digits_some s d r : take_digits s = (d, r) -> s = d +++ r /\ all_chars is_digit d /\ starts_not is_digit r.
Proof.
  revert d r. induction s as [|c s IH]; intros d r H; cbn [take_digits] in H.
  - injection H as <- <-. repeat split.
  - destruct (json_digit c) eqn:E.
    + destruct (take_digits s) as [d' r'] eqn:T. injection H as <- <-. destruct (IH d' r' eq_refl) as (-> & Hd & Hr).
      apply json_digit_spec in E. repeat split; assumption.
    + injection H as <- <-. apply json_digit_not in E. repeat split. exact E.
Qed.

Definition dot_or_e (c : ascii) : Prop := c = "."%char \/ c = "e"%char \/ c = "E"%char.
(** A number ends before [r]. *)
Definition ends (r : string) : Prop := starts_not is_digit r /\ starts_not dot_or_e r.

Lemma strip_one c s : strip (chr c "") (chr c s) = Some s.
Proof. cbn [strip]. rewrite Ascii.eqb_refl. reflexivity. Qed.
Lemma strip_one_not c s : starts_not (eq c) s -> strip (chr c "") s = None.
Proof.
  destruct s as [|x s]; cbn; [reflexivity|]. destruct (Ascii.eqb_spec c x); [contradiction|reflexivity].
Qed.
Lemma strip_one_none c s : strip (chr c "") s = None -> starts_not (eq c) s.
Proof. destruct s as [|x s]; cbn; [trivial|]. destruct (Ascii.eqb_spec c x); [discriminate|trivial]. Qed.

Lemma digits_chr d : digits d -> exists c t, d = chr c t /\ is_digit c.
Proof. intros [N H]. destruct d as [|c t]; [contradiction|]. exists c, t. split; [reflexivity|apply H]. Qed.

Lemma digit_not_sign c : is_digit c -> c <> "-"%char /\ c <> "+"%char /\ c <> "."%char /\ c <> "e"%char /\ c <> "E"%char.
Proof. rewrite digit_range. intros H. repeat split; intros ->; vm_compute in H; intuition congruence. Qed.

Lemma whole_chr i : whole_part i -> exists c t, i = chr c t /\ is_digit c.
Proof.
  intros [->|(c & d & Hc & _ & _ & ->)]; [exists "0"%char, ""; split; [reflexivity|cbn; tauto]|eauto].
Qed.

Lemma lex_exp_at e r : exponent_part e -> ends r -> lex_exp (e +++ r) = Some (e, r).
Proof.
  intros [->|(x & sg & d & Hx & Hsg & Hd & ->)] [N1 N2].
  - cbn [String.append]. destruct r as [|c r]; [reflexivity|]. cbn [lex_exp]. cbn in N2. unfold dot_or_e in N2.
    destruct (Ascii.eqb_spec c "e"); [tauto|]. destruct (Ascii.eqb_spec c "E"); [tauto|]. reflexivity.
  - assert (T : take_digits (d +++ r) = (d, r)) by (apply take_digits_at; [apply Hd|exact N1]).
    assert (L : lex_sign (sg +++ d +++ r) = (sg, d +++ r)).
    { unfold lex_sign. destruct (digits_chr d Hd) as (c & t & -> & Hc). destruct (digit_not_sign c Hc) as (C1 & C2 & _).
      cbn in Hsg. destruct Hsg as [<-|[<-|[<-|[]]]]; cbn [String.append].
      - rewrite (strip_one_not "+"), (strip_one_not "-"); [reflexivity|cbn; congruence..].
      - reflexivity.
      - reflexivity. }
    assert (Q : exists c, x = chr c "" /\ (Ascii.eqb c "e" || Ascii.eqb c "E")%bool = true).
    { cbn in Hx. destruct Hx as [<-|[<-|[]]]; eexists; (split; [reflexivity|reflexivity]). }
    destruct Q as (c & -> & Hc). rewrite !append_assoc'. cbn [String.append lex_exp]. rewrite Hc, L, T.
    destruct (digits_chr d Hd) as (c' & t & -> & _). reflexivity.
Qed.

Lemma exp_starts e r : exponent_part e -> ends r -> starts_not (eq "."%char) (e +++ r) /\ starts_not is_digit (e +++ r).
Proof.
  intros [->|(x & sg & d & Hx & Hsg & Hd & ->)] [N1 N2].
  - cbn [String.append]. destruct r as [|c r]; [split; exact I|]. cbn in *. unfold dot_or_e in N2. split; [|assumption].
    intros <-. tauto.
  - cbn in Hx. destruct Hx as [<-|[<-|[]]]; cbn [String.append starts_not]; (split; [discriminate|]);
      rewrite digit_range; vm_compute; intuition congruence.
Qed.

Lemma lex_frac_at f r : fraction_part f -> starts_not (eq "."%char) r -> starts_not is_digit r -> lex_frac (f +++ r) = Some (f, r).
Proof.
  intros [->|(d & Hd & ->)] N1 N2; unfold lex_frac.
  - cbn [String.append]. now rewrite strip_one_not.
  - cbn [String.append]. rewrite strip_one. rewrite (take_digits_at d r) by (assumption || apply Hd).
    destruct (digits_chr d Hd) as (c & t & -> & _). reflexivity.
Qed.

Lemma frac_starts f r : fraction_part f -> starts_not is_digit r -> starts_not is_digit (f +++ r).
Proof.
  intros [->|(d & Hd & ->)] N; cbn [String.append]; [exact N|]. cbn [starts_not]. rewrite digit_range. vm_compute. intuition congruence.
Qed.

Lemma lex_int_at i r : whole_part i -> starts_not is_digit r -> lex_int (i +++ r) = Some (i, r).
Proof.
  intros [->|(c & d & Hc & Hz & Hd & ->)] N; [reflexivity|]. cbn [String.append lex_int].
  destruct (Z.eqb_spec (byte c) 48) as [E|_]; [exfalso; apply Hz; apply byte_inj; exact E|].
  apply json_digit_spec in Hc. rewrite Hc, (take_digits_at d r) by assumption. reflexivity.
Qed.

Lemma lex_number_at s r : number s -> ends r -> lex_number (s +++ r) = Some (s, r).
Proof.
  intros (m & i & f & e & Hm & Hi & Hf & He & ->) E. unfold lex_number. rewrite !append_assoc'.
  assert (M : lex_minus (m +++ i +++ f +++ e +++ r) = (m, i +++ f +++ e +++ r)).
  { unfold lex_minus. destruct Hm as [->| ->]; cbn [String.append].
    - destruct (whole_chr i Hi) as (c & t & -> & Hc). rewrite strip_one_not; [reflexivity|].
      cbn. destruct (digit_not_sign c Hc) as (C & _). congruence.
    - rewrite strip_one. reflexivity. }
  destruct (exp_starts e r He E) as [E1 E2].
  rewrite M, lex_int_at by (assumption || (apply frac_starts; assumption)).
  rewrite lex_frac_at by assumption. rewrite lex_exp_at by assumption. reflexivity.
Qed.

Lemma lex_number_some s n r : lex_number s = Some (n, r) -> s = n +++ r /\ number n.
Proof.
  unfold lex_number. destruct (lex_minus s) as [m s1] eqn:M. destruct (lex_int s1) as [[i s2]|] eqn:I; [|discriminate].
  destruct (lex_frac s2) as [[f s3]|] eqn:Fr; [|discriminate]. destruct (lex_exp s3) as [[e s4]|] eqn:X; [|discriminate].
  intros H. injection H as <- <-.
  assert (HM : (m = "" \/ m = "-") /\ s = m +++ s1).
  { unfold lex_minus in M. destruct (strip "-" s) as [s'|] eqn:E; injection M as <- <-; [|split; [tauto|reflexivity]].
    apply strip_some in E. split; [tauto|exact E]. }
  assert (HI : whole_part i /\ s1 = i +++ s2).
  { unfold lex_int in I. destruct s1 as [|c s1]; [discriminate|]. destruct (Z.eqb_spec (byte c) 48) as [E|E].
    - injection I as <- <-. assert (c = "0"%char) as -> by (apply byte_inj; exact E). split; [left; reflexivity|reflexivity].
    - destruct (json_digit c) eqn:D; [|discriminate]. destruct (take_digits s1) as [d t] eqn:T. injection I as <- <-.
      apply take_digits_some in T. destruct T as (-> & Hd & _). apply json_digit_spec in D. split; [|reflexivity].
      right. exists c, d. repeat split; try assumption. intros ->. apply E. reflexivity. }
  assert (HF : fraction_part f /\ s2 = f +++ s3).
  { unfold lex_frac in Fr. destruct (strip "." s2) as [s'|] eqn:E; [|injection Fr as <- <-; split; [left; reflexivity|reflexivity]].
    apply strip_some in E. subst s2. destruct (take_digits s') as [d t] eqn:T. destruct d as [|c d]; [discriminate|].
    injection Fr as <- <-. apply take_digits_some in T. destruct T as (-> & Hd & _). split; [|reflexivity].
    right. exists (chr c d). split; [split; [discriminate|exact Hd]|reflexivity]. }
  assert (HX : exponent_part e /\ s3 = e +++ s4).
  { unfold lex_exp in X. destruct s3 as [|c s3]; [injection X as <- <-; split; [left; reflexivity|reflexivity]|].
    destruct (Ascii.eqb c "e" || Ascii.eqb c "E")%bool eqn:C; [|injection X as <- <-; split; [left; reflexivity|reflexivity]].
    destruct (lex_sign s3) as [sg s'] eqn:S. destruct (take_digits s') as [d t] eqn:T. destruct d as [|c' d]; [discriminate|].
    injection X as <- <-. apply take_digits_some in T. destruct T as (-> & Hd & _).
    assert (HS : In sg [""; "+"; "-"] /\ s3 = sg +++ chr c' d +++ t).
    { unfold lex_sign in S. destruct (strip "+" s3) as [q|] eqn:E.
      - apply strip_some in E. injection S as <- ->. split; [cbn; tauto|exact E].
      - destruct (strip "-" s3) as [q|] eqn:E'.
        + apply strip_some in E'. injection S as <- ->. split; [cbn; tauto|exact E'].
        + injection S as <- ->. split; [cbn; tauto|reflexivity]. }
    destruct HS as [HS ->]. split.
    - right. exists (chr c ""), sg, (chr c' d). repeat split.
      + rewrite orb_true_iff, !Ascii.eqb_eq in C. destruct C as [->| ->]; cbn; tauto.
      + exact HS.
      + discriminate.
      + apply Hd.
      + apply Hd.
    - cbn [String.append]. f_equal. rewrite append_assoc'. reflexivity. }
  destruct HM as [HM ->], HI as [HI ->], HF as [HF ->], HX as [HX ->].
  split; [now rewrite !append_assoc'|]. exists m, i, f, e. repeat split; assumption.
Qed.

(** * White space *)

Lemma json_space_spec c : json_space c = true <-> blank_char c.
Proof.
  unfold json_space, blank_char. rewrite !orb_true_iff, !Z.eqb_eq. split.
  - intros H. rewrite <- (char_of_byte c). destruct H as [[[->| ->]| ->]| ->]; cbn; tauto.
  - intros H. cbn in H. repeat (destruct H as [<-|H]; [vm_compute; tauto|]). destruct H.
Qed.
Lemma all_chars_mentions P s : all_chars P s <-> forall c, mentions c s -> P c.
Proof.
  induction s as [|x s IH]; cbn [all_chars].
  - split; [intros _ c []|trivial].
  - rewrite IH. split.
    + intros [H1 H2] c [<-|H]; [exact H1|exact (H2 c H)].
    + intros H. split; [apply H; left; reflexivity|intros c Hc; apply H; right; exact Hc].
Qed.
Lemma skip_blanks w s : blanks w -> starts_not blank_char s -> trim_front json_space (w +++ s) = s.
Proof.
  intros W N. rewrite trim_front_drop.
  - destruct s as [|c s]; [reflexivity|]. cbn [trim_front]. destruct (json_space c) eqn:E; [|reflexivity].
    apply json_space_spec in E. contradiction.
  - intros c Hc. apply json_space_spec. revert c Hc. apply all_chars_mentions, W.
Qed.
Lemma skip_split s : exists w, blanks w /\ s = w +++ trim_front json_space s /\ starts_not blank_char (trim_front json_space s).
Proof.
  destruct (trim_front_split json_space s) as (w & E & H). exists w. repeat split.
  - apply all_chars_mentions. intros c Hc. apply json_space_spec, H, Hc.
  - exact E.
  - clear. induction s as [|c s IH]; [exact I|]. cbn [trim_front]. destruct (json_space c) eqn:E; [exact IH|].
    change (~ blank_char c). rewrite <- json_space_spec, E. discriminate.
Qed.

(** Assigning the members in order. *)
Lemma filter_all {A} (f : A -> bool) l : (forall x, In x l -> f x = true) -> filter f l = l.
Proof.
  induction l as [|x l IH]; intros H; cbn [filter]; [reflexivity|].
  rewrite (H x (or_introl eq_refl)), IH; [reflexivity|]. intros y Hy. apply H. right. exact Hy.
Qed.
Lemma fold_put {A} (l : list (string * A)) : forall m, fold_left (fun m p => put m (fst p) (snd p)) l m =
  filter (fun p => negb (existsb (fun q => (fst q =? fst p)%string) l)) m ++ last_wins l.
Proof.
  induction l as [|[k v] l IH]; intros m; cbn [fold_left last_wins fst snd].
  - cbn [existsb negb]. rewrite filter_all, app_nil_r; [reflexivity|reflexivity].
  - rewrite IH. unfold put. rewrite filter_app, <- app_assoc. cbn [filter fst].
    assert (E : filter (fun p => negb (existsb (fun q => (fst q =? fst p)%string) l)) (filter (fun p => negb (fst p =? k)%string) m)
              = filter (fun p => negb (existsb (fun q => (fst q =? fst p)%string) ((k, v) :: l))) m).
    { clear. induction m as [|p m IHm]; [reflexivity|]. cbn [filter existsb fst]. rewrite (String.eqb_sym k (fst p)).
      destruct (fst p =? k)%string; cbn [negb orb filter]; [exact IHm|]. rewrite IHm. reflexivity. }
    rewrite E. f_equal. destruct (existsb (fun q => (fst q =? k)%string) l); reflexivity.
Qed.
Lemma fold_put_nil {A} (l : list (string * A)) : fold_left (fun m p => put m (fst p) (snd p)) l [] = last_wins l.
Proof. rewrite fold_put. reflexivity. Qed.

(** * Decoding *)

Section Decode.
Variable F : Type.
Variable parse_float : string -> option F.
Notation reads := (reads F parse_float).
Notation elements := (elements F parse_float).
Notation members := (members F parse_float).
Notation parse_value := (parse_value F parse_float).
Notation parse_elements := (parse_elements F parse_float).
Notation parse_members := (parse_members F parse_float).

Scheme reads_mind := Minimality for JsonSpec.reads Sort Prop
  with elements_mind := Minimality for JsonSpec.elements Sort Prop
  with members_mind := Minimality for JsonSpec.members Sort Prop.
Combined Scheme reads_mutind from reads_mind, elements_mind, members_mind.

Definition value_start (c : ascii) : Prop := ~ blank_char c /\ c <> "]"%char /\ c <> "}"%char.

Lemma number_chr s : number s -> exists c t, s = chr c t /\ (is_digit c \/ c = "-"%char).
Proof.
  intros (m & i & f & e & Hm & Hi & _ & _ & ->). destruct (whole_chr i Hi) as (c & t & -> & Hc).
  destruct Hm as [->| ->]; cbn [String.append]; eauto.
Qed.

Lemma number_start_char c : is_digit c \/ c = "-"%char ->
  value_start c /\ c <> "n"%char /\ c <> "t"%char /\ c <> "f"%char /\ c <> """"%char /\ c <> "["%char /\ c <> "{"%char.
Proof.
  intros H. assert (R : 45 <= byte c <= 57) by (destruct H as [H| ->]; [apply digit_range in H; lia|vm_compute; split; discriminate]).
  assert (N : forall x, ~ 45 <= byte x <= 57 -> c <> x) by (intros x Hx ->; contradiction).
  unfold value_start. repeat split; try (apply N; vm_compute; intuition congruence).
  unfold blank_char. intros B. cbn in B. repeat (destruct B as [<-|B]; [vm_compute in R; intuition congruence|]). destruct B.
Qed.

Lemma start_char c : (byte c =? 32) || (byte c =? 9) || (byte c =? 13) || (byte c =? 10) || Ascii.eqb c "]" || Ascii.eqb c "}" = false -> value_start c.
Proof.
  rewrite !orb_false_iff, !Ascii.eqb_neq. intros [[H1 H2] H3]. repeat split; try assumption.
  rewrite <- json_space_spec. unfold json_space. destruct H1 as [[[-> ->] ->] ->]. discriminate.
Qed.

Lemma reads_start d s v : reads d s v -> exists c t, s = chr c t /\ value_start c.
Proof.
  intros H. destruct H; try (do 2 eexists; split; [reflexivity|apply start_char; reflexivity]).
  destruct (number_chr s H) as (c & t & -> & Hc). exists c, t. split; [reflexivity|]. apply number_start_char, Hc.
Qed.
Lemma elements_start d s l : elements d s l -> exists w c t, s = w +++ chr c t /\ blanks w /\ value_start c.
Proof.
  intros H. destruct H as [d a s b v Ha Hb H|d a s b v s' l Ha Hb H H'];
    destruct (reads_start d s v H) as (c & t & -> & Hc); exists a, c; eexists; (split; [reflexivity|split; assumption]).
Qed.
Lemma members_start d s l : members d s l -> exists w t, s = w +++ chr """" t /\ blanks w.
Proof. intros H. destruct H; do 2 eexists; (split; [reflexivity|assumption]). Qed.

Lemma starts_chr (P : ascii -> Prop) c s : ~ P c -> starts_not P (chr c s).
Proof. exact (fun H => H). Qed.
Lemma start_blank c s : value_start c -> starts_not blank_char (chr c s).
Proof. intros [H _]. exact H. Qed.

Lemma blank_ends' b r : blanks b -> ends r -> ends (b +++ r).
Proof.
  destruct b as [|x b]; intros H E; [exact E|]. destruct H as [H B]. cbn [String.append]. split; cbn [starts_not].
  - rewrite digit_range. intros R. unfold blank_char in H. cbn in H. repeat (destruct H as [<-|H]; [vm_compute in R; intuition congruence|]). destruct H.
  - unfold dot_or_e. unfold blank_char in H. cbn in H. repeat (destruct H as [<-|H]; [vm_compute; intuition congruence|]). destruct H.
Qed.

Lemma ends_chr c r : json_digit c || Ascii.eqb c "." || Ascii.eqb c "e" || Ascii.eqb c "E" = false -> ends (chr c r).
Proof.
  rewrite !orb_false_iff, !Ascii.eqb_neq. intros [[[H1 H2] H3] H4]. apply json_digit_not in H1. split; [exact H1|].
  cbn. unfold dot_or_e. tauto.
Qed.

Lemma not_blank c : json_space c = false -> ~ blank_char c.
Proof. rewrite <- json_space_spec. congruence. Qed.

Lemma parse_number_step n d c s : is_digit c \/ c = "-"%char -> parse_value (S n) d (chr c s) =
  match lex_number (chr c s) with
  | Some (t, r) => match parse_float t with Some f => Some (GFloat f, r) | None => None end
  | None => None end.
Proof.
  intros H. destruct (number_start_char c H) as (_ & H1 & H2 & H3 & H4 & H5 & H6). cbn [JsonModel.parse_value].
  destruct (Ascii.eqb_spec c "n"); [contradiction|]. destruct (Ascii.eqb_spec c "t"); [contradiction|].
  destruct (Ascii.eqb_spec c "f"); [contradiction|]. destruct (Ascii.eqb_spec c """"); [contradiction|].
  destruct (Ascii.eqb_spec c "["); [contradiction|]. destruct (Ascii.eqb_spec c "{"); [contradiction|]. reflexivity.
Qed.

Lemma parse_array_step n d s : parse_value (S n) d (chr "[" s) =
  if d <=? 0 then None
  else match strip "]" (trim_front json_space s) with
       | Some r => Some (GSlice [], r)
       | None => match parse_elements n (d - 1) s with Some (l, r) => Some (GSlice l, r) | None => None end
       end.
Proof. reflexivity. Qed.
Lemma parse_object_step n d s : parse_value (S n) d (chr "{" s) =
  if d <=? 0 then None
  else match strip "}" (trim_front json_space s) with
       | Some r => Some (GMap [], r)
       | None => match parse_members n (d - 1) [] s with Some (l, r) => Some (GMap l, r) | None => None end
       end.
Proof. reflexivity. Qed.
Lemma parse_elements_step n d s : parse_elements (S n) d s =
  match parse_value n d (trim_front json_space s) with
  | None => None
  | Some (v, r) =>
    match strip "," (trim_front json_space r) with
    | Some r' => match parse_elements n d r' with Some (l, r'') => Some (v :: l, r'') | None => None end
    | None => option_map (pair [v]) (strip "]" (trim_front json_space r))
    end
  end.
Proof. reflexivity. Qed.
Lemma parse_members_step n d m s : parse_members (S n) d m s =
  match strip """" (trim_front json_space s) with
  | None => None
  | Some s1 =>
    match parse_string s1 with
    | None => None
    | Some (k, s2) =>
      match strip ":" (trim_front json_space s2) with
      | None => None
      | Some s3 =>
        match parse_value n d (trim_front json_space s3) with
        | None => None
        | Some (v, r) =>
          match strip "," (trim_front json_space r) with
          | Some r' => parse_members n d (put m k v) r'
          | None => option_map (pair (put m k v)) (strip "}" (trim_front json_space r))
          end
        end
      end
    end
  end.
Proof. reflexivity. Qed.

Lemma parse_complete :
  (forall d s v, reads d s v -> forall r n, ends r -> (2 * String.length s <= n)%nat -> parse_value n d (s +++ r) = Some (v, r)) /\
  (forall d s l, elements d s l -> forall r n, (2 * String.length s + 1 <= n)%nat -> parse_elements n d (s +++ chr "]" r) = Some (l, r)) /\
  (forall d s l, members d s l -> forall r n m, (2 * String.length s + 1 <= n)%nat ->
     parse_members n d m (s +++ chr "}" r) = Some (fold_left (fun m p => put m (fst p) (snd p)) l m, r)).
Proof.
  apply (reads_mutind F parse_float).
  - intros d r n _ L. destruct n as [|n]; [cbn in L; lia|]. reflexivity.
  - intros d r n _ L. destruct n as [|n]; [cbn in L; lia|]. reflexivity.
  - intros d r n _ L. destruct n as [|n]; [cbn in L; lia|]. reflexivity.
  - intros d s f N Pf r n E L. destruct (number_chr s N) as (c & t & -> & Hc). destruct n as [|n]; [cbn in L; lia|].
    rewrite app_chr, parse_number_step by assumption. rewrite <- app_chr, (lex_number_at _ r N E), Pf. reflexivity.
  - intros d raw v Sp r n _ L. destruct n as [|n]; [cbn in L; lia|]. cbn [String.append JsonModel.parse_value]. cbn [Ascii.eqb Bool.eqb].
    rewrite append_assoc'. cbn [String.append]. 
    replace (parse_string (raw +++ chr """" r)) with (Some (v, r)); [reflexivity|].
    symmetry. apply parse_string_spec. exists raw. split; [reflexivity|exact Sp].
  - intros d w D W r n _ L. destruct n as [|n]; [cbn in L; lia|]. cbn [String.append]. rewrite parse_array_step.
    destruct (Z.leb_spec d 0); [lia|]. rewrite append_assoc'. cbn [String.append].
    rewrite skip_blanks by (assumption || (apply starts_chr; apply not_blank; reflexivity)). rewrite strip_one. reflexivity.
  - intros d s l D H IH r n _ L. destruct n as [|n]; [cbn in L; lia|]. cbn [String.append]. rewrite parse_array_step.
    destruct (Z.leb_spec d 0); [lia|]. rewrite append_assoc'. cbn [String.append].
    rewrite (IH r n) by (cbn [String.length String.append] in L; rewrite length_app_s in L; lia).
    destruct (elements_start _ s l H) as (w & c & t & -> & W & C).
    rewrite append_assoc', skip_blanks by (assumption || (apply start_blank; exact C)).
    cbn [String.append]. rewrite strip_one_not; [reflexivity|]. intros E. destruct C as (_ & C & _). apply C. symmetry. exact E.
  - intros d w D W r n _ L. destruct n as [|n]; [cbn in L; lia|]. cbn [String.append]. rewrite parse_object_step.
    destruct (Z.leb_spec d 0); [lia|]. rewrite append_assoc'. cbn [String.append].
    rewrite skip_blanks by (assumption || (apply starts_chr; apply not_blank; reflexivity)). rewrite strip_one. reflexivity.
  - intros d s l D H IH r n _ L. destruct n as [|n]; [cbn in L; lia|]. cbn [String.append]. rewrite parse_object_step.
    destruct (Z.leb_spec d 0); [lia|]. rewrite append_assoc'. cbn [String.append].
    rewrite (IH r n []) by (cbn [String.length String.append] in L; rewrite length_app_s in L; lia).
    destruct (members_start _ s l H) as (w & t & -> & W).
    rewrite append_assoc', skip_blanks by (assumption || (apply starts_chr; apply not_blank; reflexivity)).
    cbn [String.append]. rewrite strip_one_not by discriminate.
    rewrite fold_put_nil. reflexivity.
  - intros d a s b v Ha Hb H IH r n L. rewrite !length_app_s in L. destruct n as [|n]; [lia|]. rewrite parse_elements_step.
    rewrite !append_assoc'. destruct (reads_start d s v H) as (c & t & E & C).
    rewrite skip_blanks; [|assumption|rewrite E; apply start_blank, C].
    rewrite (IH (b +++ chr "]" r) n); [|apply blank_ends'; [assumption|apply ends_chr; reflexivity]|lia].
    rewrite skip_blanks by (assumption || (apply starts_chr; apply not_blank; reflexivity)). reflexivity.
  - intros d a s b v s' l Ha Hb H IH H' IH' r n L. rewrite !length_app_s in L. cbn [String.length] in L. destruct n as [|n]; [lia|]. rewrite parse_elements_step.
    rewrite !append_assoc'. destruct (reads_start d s v H) as (c & t & E & C).
    rewrite skip_blanks; [|assumption|rewrite E; apply start_blank, C].
    rewrite (IH (b +++ "," +++ s' +++ chr "]" r) n); [|apply blank_ends'; [assumption|apply ends_chr; reflexivity]|lia].
    cbn [String.append]. rewrite skip_blanks by (assumption || (apply starts_chr; apply not_blank; reflexivity)).
    rewrite strip_one, IH' by lia. reflexivity.
  - intros d a raw b c s e k v Ha Hb Hc He Sp H IH r n m L. rewrite !length_app_s in L. cbn [String.length] in L. destruct n as [|n]; [lia|]. rewrite parse_members_step.
    rewrite ?append_assoc'. cbn [String.append].
    rewrite skip_blanks by (assumption || (apply starts_chr; apply not_blank; reflexivity)). rewrite strip_one.
    rewrite ?append_assoc'. cbn [String.append].
    match goal with |- context [parse_string (raw +++ chr """" ?x)] => replace (parse_string (raw +++ chr """" x)) with (Some (k, x)) end.
    2:{ symmetry. apply parse_string_spec. exists raw. split; [reflexivity|exact Sp]. }
    rewrite ?append_assoc'. cbn [String.append].
    rewrite skip_blanks by (assumption || (apply starts_chr; apply not_blank; reflexivity)). rewrite strip_one.
    rewrite ?append_assoc'. destruct (reads_start d s v H) as (c' & t & E & C).
    rewrite skip_blanks; [|assumption|rewrite E; apply start_blank, C].
    rewrite (IH (e +++ chr "}" r) n); [|apply blank_ends'; [assumption|apply ends_chr; reflexivity]|lia].
    rewrite skip_blanks by (assumption || (apply starts_chr; apply not_blank; reflexivity)). reflexivity.
  - intros d a raw b c s e k v s' l Ha Hb Hc He Sp H IH H' IH' r n m L. rewrite !length_app_s in L. cbn [String.length] in L. destruct n as [|n]; [lia|]. rewrite parse_members_step.
    rewrite ?append_assoc'. cbn [String.append].
    rewrite skip_blanks by (assumption || (apply starts_chr; apply not_blank; reflexivity)). rewrite strip_one.
    rewrite ?append_assoc'. cbn [String.append].
    match goal with |- context [parse_string (raw +++ chr """" ?x)] => replace (parse_string (raw +++ chr """" x)) with (Some (k, x)) end.
    2:{ symmetry. apply parse_string_spec. exists raw. split; [reflexivity|exact Sp]. }
    rewrite ?append_assoc'. cbn [String.append].
    rewrite skip_blanks by (assumption || (apply starts_chr; apply not_blank; reflexivity)). rewrite strip_one.
    rewrite ?append_assoc'. destruct (reads_start d s v H) as (c' & t & E & C).
    rewrite skip_blanks; [|assumption|rewrite E; apply start_blank, C].
    cbn [String.append].
    rewrite (IH (e +++ chr "," (s' +++ chr "}" r)) n); [|apply blank_ends'; [assumption|apply ends_chr; reflexivity]|lia].
    rewrite skip_blanks by (assumption || (apply starts_chr; apply not_blank; reflexivity)).
    rewrite strip_one, IH' by lia. reflexivity.
Qed.

Lemma parse_sound n :
  (forall d s v r, parse_value n d s = Some (v, r) -> exists t, s = t +++ r /\ reads d t v) /\
  (forall d s l r, parse_elements n d s = Some (l, r) -> exists t, s = t +++ chr "]" r /\ elements d t l) /\
  (forall d m s m' r, parse_members n d m s = Some (m', r) -> exists t l, s = t +++ chr "}" r /\ members d t l /\
     m' = fold_left (fun m p => put m (fst p) (snd p)) l m).
Proof.
  induction n as [|n (IHv & IHe & IHm)]; [repeat split; discriminate|]. split; [|split].
  - intros d s v r H. destruct s as [|c s]; [discriminate|].
    destruct (Ascii.eqb_spec c "n") as [->|N1].
    { cbn [JsonModel.parse_value] in H. cbn [Ascii.eqb Bool.eqb] in H. destruct (strip "ull" s) as [q|] eqn:E; [|discriminate].
      apply strip_some in E. injection H as <- <-. exists "null". split; [rewrite E; reflexivity|constructor]. }
    destruct (Ascii.eqb_spec c "t") as [->|N2].
    { cbn [JsonModel.parse_value] in H. cbn [Ascii.eqb Bool.eqb] in H. destruct (strip "rue" s) as [q|] eqn:E; [|discriminate].
      apply strip_some in E. injection H as <- <-. exists "true". split; [rewrite E; reflexivity|constructor]. }
    destruct (Ascii.eqb_spec c "f") as [->|N3].
    { cbn [JsonModel.parse_value] in H. cbn [Ascii.eqb Bool.eqb] in H. destruct (strip "alse" s) as [q|] eqn:E; [|discriminate].
      apply strip_some in E. injection H as <- <-. exists "false". split; [rewrite E; reflexivity|constructor]. }
    destruct (Ascii.eqb_spec c """") as [->|N4].
    { cbn [JsonModel.parse_value] in H. cbn [Ascii.eqb Bool.eqb] in H. destruct (parse_string s) as [[x q]|] eqn:E; [|discriminate].
      apply parse_string_spec in E. destruct E as (raw & -> & Sp). injection H as <- <-.
      exists ("""" +++ raw +++ """"). split; [|now constructor]. cbn [String.append]. rewrite append_assoc'. reflexivity. }
    destruct (Ascii.eqb_spec c "[") as [->|N5].
    { rewrite parse_array_step in H. destruct (Z.leb_spec d 0); [discriminate|].
      destruct (strip "]" (trim_front json_space s)) as [q|] eqn:E.
      - injection H as <- <-. apply strip_some in E. destruct (skip_split s) as (w & W & Es & _). rewrite E in Es.
        exists ("[" +++ w +++ "]"). split; [rewrite Es; cbn [String.append]; rewrite append_assoc'; reflexivity|].
        now constructor.
      - destruct (parse_elements n (d - 1) s) as [[l q]|] eqn:E'; [|discriminate]. injection H as <- <-.
        apply IHe in E'. destruct E' as (t & -> & Ht). exists ("[" +++ t +++ "]").
        split; [cbn [String.append]; rewrite append_assoc'; reflexivity|]. now constructor. }
    destruct (Ascii.eqb_spec c "{") as [->|N6].
    { rewrite parse_object_step in H. destruct (Z.leb_spec d 0); [discriminate|].
      destruct (strip "}" (trim_front json_space s)) as [q|] eqn:E.
      - injection H as <- <-. apply strip_some in E. destruct (skip_split s) as (w & W & Es & _). rewrite E in Es.
        exists ("{" +++ w +++ "}"). split; [rewrite Es; cbn [String.append]; rewrite append_assoc'; reflexivity|].
        now constructor.
      - destruct (parse_members n (d - 1) [] s) as [[l q]|] eqn:E'; [|discriminate]. injection H as <- <-.
        apply IHm in E'. destruct E' as (t & l' & -> & Ht & ->). exists ("{" +++ t +++ "}").
        split; [cbn [String.append]; rewrite append_assoc'; reflexivity|]. rewrite fold_put_nil. now constructor. }
    cbn [JsonModel.parse_value] in H. rewrite (proj2 (Ascii.eqb_neq _ _) N1), (proj2 (Ascii.eqb_neq _ _) N2), (proj2 (Ascii.eqb_neq _ _) N3),
      (proj2 (Ascii.eqb_neq _ _) N4), (proj2 (Ascii.eqb_neq _ _) N5), (proj2 (Ascii.eqb_neq _ _) N6) in H.
    destruct (lex_number (chr c s)) as [[t q]|] eqn:E; [|discriminate]. destruct (parse_float t) as [f|] eqn:Ef; [|discriminate].
    injection H as <- <-. apply lex_number_some in E. destruct E as [E Nt]. exists t. split; [exact E|]. now constructor.
  - intros d s l r H. rewrite parse_elements_step in H. destruct (skip_split s) as (a & A & Es & _).
    destruct (parse_value n d (trim_front json_space s)) as [[v q]|] eqn:E; [|discriminate].
    apply IHv in E. destruct E as (t & Et & Ht). rewrite Et in Es. destruct (skip_split q) as (b & B & Eq & _).
    destruct (strip "," (trim_front json_space q)) as [q'|] eqn:Ec.
    + apply strip_some in Ec. destruct (parse_elements n d q') as [[l' r']|] eqn:E'; [|discriminate]. injection H as <- <-.
      apply IHe in E'. destruct E' as (t' & -> & Ht'). rewrite Ec in Eq.
      exists (a +++ t +++ b +++ "," +++ t'). split; [|now constructor]. rewrite Es, Eq, !append_assoc'. reflexivity.
    + destruct (strip "]" (trim_front json_space q)) as [q'|] eqn:Eb; [|discriminate]. injection H as <- <-.
      apply strip_some in Eb. rewrite Eb in Eq. exists (a +++ t +++ b). split; [|now constructor].
      rewrite Es, Eq, !append_assoc'. reflexivity.
  - intros d m s m' r H. rewrite parse_members_step in H. destruct (skip_split s) as (a & A & Es & _).
    destruct (strip """" (trim_front json_space s)) as [s1|] eqn:E1; [|discriminate]. apply strip_some in E1. rewrite E1 in Es.
    destruct (parse_string s1) as [[k s2]|] eqn:E2; [|discriminate]. apply parse_string_spec in E2. destruct E2 as (raw & -> & Sp).
    destruct (skip_split s2) as (b & B & Eb & _).
    destruct (strip ":" (trim_front json_space s2)) as [s3|] eqn:E3; [|discriminate]. apply strip_some in E3. rewrite E3 in Eb.
    destruct (skip_split s3) as (c & C & Ec & _).
    destruct (parse_value n d (trim_front json_space s3)) as [[v q]|] eqn:E; [|discriminate].
    apply IHv in E. destruct E as (t & Et & Ht). rewrite Et in Ec. destruct (skip_split q) as (e & E & Eq & _).
    destruct (strip "," (trim_front json_space q)) as [q'|] eqn:Ecm.
    + apply strip_some in Ecm. apply IHm in H. destruct H as (t' & l & -> & Hl & ->). rewrite Ecm in Eq.
      exists (a +++ """" +++ raw +++ """" +++ b +++ ":" +++ c +++ t +++ e +++ "," +++ t'), ((k, v) :: l).
      split; [|split; [now constructor|reflexivity]].
      rewrite Es, Eb, Ec, Eq. rewrite ?append_assoc'. cbn [String.append]. rewrite ?append_assoc'. reflexivity.
    + destruct (strip "}" (trim_front json_space q)) as [q'|] eqn:Ebr; [|discriminate]. injection H as <- <-.
      apply strip_some in Ebr. rewrite Ebr in Eq.
      exists (a +++ """" +++ raw +++ """" +++ b +++ ":" +++ c +++ t +++ e), [(k, v)].
      split; [|split; [now constructor|reflexivity]].
      rewrite Es, Eb, Ec, Eq. rewrite ?append_assoc'. cbn [String.append]. rewrite ?append_assoc'. reflexivity.
Qed.

(** A whole text. *)
Lemma parse_text_spec s v : parse_text F parse_float s = Some v <->
  exists a t b, s = a +++ t +++ b /\ blanks a /\ blanks b /\ reads max_depth t v.
Proof.
  unfold parse_text. split.
  - destruct (JsonModel.parse_value F parse_float (2 * String.length s) max_depth (trim_front json_space s)) as [[v' r]|] eqn:E; [|discriminate].
    destruct (String.eqb_spec (trim_front json_space r) "") as [Er|]; [|discriminate]. intros [= <-].
    apply (proj1 (parse_sound _)) in E. destruct E as (t & Et & Ht). destruct (skip_split s) as (a & A & Es & _).
    destruct (skip_split r) as (b & B & Eb & _). rewrite Er, append_empty in Eb. rewrite Et in Es.
    exists a, t, b. split; [|repeat split; assumption]. rewrite <- Eb. exact Es.
  - intros (a & t & b & -> & A & B & H). destruct (reads_start _ t v H) as (c & q & Et & C).
    rewrite skip_blanks; [|assumption|rewrite Et; apply start_blank, C].
    rewrite (proj1 parse_complete _ t v H b); [| |rewrite !length_app_s; lia].
    + rewrite <- (append_empty b), skip_blanks by (assumption || exact I). reflexivity.
    + rewrite <- (append_empty b). apply blank_ends'; [assumption|]. split; exact I.
Qed.

Lemma reads_mono : (forall d s v, reads d s v -> forall d', d <= d' -> reads d' s v) /\
  (forall d s l, elements d s l -> forall d', d <= d' -> elements d' s l) /\
  (forall d s l, members d s l -> forall d', d <= d' -> members d' s l).
Proof.
  apply (reads_mutind F parse_float); try (intros; constructor; assumption || lia || eauto; fail).
  - intros d s l D H IH d' L. constructor; [lia|]. apply IH. lia.
  - intros d s l D H IH d' L. constructor; [lia|]. apply IH. lia.
Qed.

Lemma reads_fun d1 d2 s v1 v2 : reads d1 s v1 -> reads d2 s v2 -> v1 = v2.
Proof.
  intros H1 H2.
  assert (E1 : JsonModel.parse_value F parse_float (2 * String.length s) (Z.max d1 d2) (s +++ "") = Some (v1, "")).
  { apply (proj1 parse_complete); [apply (proj1 reads_mono d1); [exact H1|lia]|split; exact I|lia]. }
  rewrite (proj1 parse_complete (Z.max d1 d2) s v2) in E1; [congruence|apply (proj1 reads_mono d2); [exact H2|lia]|split; exact I|lia].
Qed.

Lemma last_wins_in {A} (l : list (string * A)) p : In p (last_wins l) -> In p l.
Proof.
  induction l as [|[k v] l IH]; cbn [last_wins]; [trivial|]. destruct (existsb _ l); intros H; [right; auto|].
  destruct H as [<-|H]; [left; reflexivity|right; auto].
Qed.

Notation depth := (depth F).
Lemma max_bound {A} (f : A -> Z) l d : 0 <= d -> (forall x, In x l -> f x <= d) -> fold_right Z.max 0 (map f l) <= d.
Proof.
  intros D. induction l as [|x l IH]; intros H; cbn [map fold_right]; [lia|].
  specialize (H x (or_introl eq_refl)) as Hx. assert (fold_right Z.max 0 (map f l) <= d) by (apply IH; intros y Hy; apply H; right; exact Hy). lia.
Qed.
Lemma max_ge {A} (f : A -> Z) l x : In x l -> f x <= fold_right Z.max 0 (map f l).
Proof.
  induction l as [|y l IH]; intros H; [destruct H|]. cbn [map fold_right]. destruct H as [->|H]; [lia|]. specialize (IH H). lia.
Qed.
Lemma max_nonneg {A} (f : A -> Z) l : 0 <= fold_right Z.max 0 (map f l).
Proof. induction l as [|y l IH]; cbn [map fold_right]; lia. Qed.

Lemma reads_depth : (forall d s v, reads d s v -> 0 <= d -> depth v <= d) /\
  (forall d s l, elements d s l -> 0 <= d -> forall v, In v l -> depth v <= d) /\
  (forall d s l, members d s l -> 0 <= d -> forall p, In p l -> depth (snd p) <= d).
Proof.
  apply (reads_mutind F parse_float); try (intros; cbn; lia).
  - intros d s l D H IH _. cbn [JsonSpec.depth]. pose proof (max_bound depth l (d - 1) ltac:(lia) (IH ltac:(lia))). lia.
  - intros d s l D H IH _. cbn [JsonSpec.depth].
    pose proof (max_bound (fun p => depth (snd p)) (last_wins l) (d - 1) ltac:(lia)) as M.
    assert (fold_right Z.max 0 (map (fun p => depth (snd p)) (last_wins l)) <= d - 1).
    { apply M. intros p Hp. apply IH; [lia|]. apply last_wins_in, Hp. }
    lia.
  - intros d a s b v _ _ H IH D x [<-|[]]. auto.
  - intros d a s b v s' l _ _ H IH H' IH' D x [<-|Hx]; auto.
  - intros d a raw b c s e k v _ _ _ _ _ H IH D p [<-|[]]. auto.
  - intros d a raw b c s e k v s' l _ _ _ _ _ H IH H' IH' D p [<-|Hx]; auto.
Qed.

Lemma unmarshal_m_spec s m : unmarshal_m F parse_float s = Some m <->
  exists a t b, s = a +++ t +++ b /\ blanks a /\ blanks b /\
    ((t = "null" /\ m = GNilMap) \/ exists l, m = GMap l /\ reads max_depth t m).
Proof.
  unfold unmarshal_m. split.
  - destruct (JsonModel.parse_text F parse_float s) as [v|] eqn:E; [|discriminate]. apply parse_text_spec in E.
    destruct E as (a & t & b & -> & A & B & H). destruct v; try discriminate; intros [= <-];
      exists a, t, b; (split; [reflexivity|]); (split; [exact A|]); (split; [exact B|]).
    + left. split; [|reflexivity]. remember GNil as g eqn:G. destruct H; congruence || reflexivity.
    + right. eexists. split; [reflexivity|exact H].
  - intros (a & t & b & -> & A & B & H).
    destruct H as [[-> ->]|(l & -> & H)].
    + assert (E : JsonModel.parse_text F parse_float (a +++ "null" +++ b) = Some GNil).
      { apply parse_text_spec. exists a, "null", b. repeat split; try assumption. constructor. }
      rewrite E. reflexivity.
    + assert (E : JsonModel.parse_text F parse_float (a +++ t +++ b) = Some (GMap l)).
      { apply parse_text_spec. exists a, t, b. repeat split; assumption. }
      rewrite E. reflexivity.
Qed.
End Decode.
