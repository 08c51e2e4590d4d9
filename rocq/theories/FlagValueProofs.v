(** Proofs about reading bools and integers. *)
From Verif Require Import Common Bytes ProcsModel ProcsSpec ProcsProofs ConfsProofs JsonProofs FlagValueModel FlagValueSpec.
Local Open Scope string_scope.
Local Open Scope list_scope.
Local Open Scope Z_scope.
Local Notation chr := String.String.

(** * Characters *)

Definition table_value (c : ascii) : option Z :=
  match find (fun x => Ascii.eqb (fst x) c) digits_table with Some (_, d) => Some d | None => None end.
Definition opt_eqb (a b : option Z) : bool := match a, b with Some x, Some y => x =? y | None, None => true | _, _ => false end.
Definition small (o : option Z) : option Z := match o with Some d => if d <? 16 then Some d else None | None => None end.
Lemma all_ascii (P : ascii -> bool) : forallb (fun n => P (ascii_of_nat n)) (seq 0 256) = true -> forall c, P c = true.
Proof.
  intros H c. rewrite forallb_forall in H. rewrite <- (ascii_nat_embedding c). apply H. apply in_seq. pose proof (nat_ascii_bounded c). lia.
Qed.
Lemma digit_of_table c : small (digit_of c) = table_value c.
Proof.
  assert (H : opt_eqb (small (digit_of c)) (table_value c) = true).
  { apply (all_ascii (fun c => opt_eqb (small (digit_of c)) (table_value c))). vm_compute. reflexivity. }
  destruct (small (digit_of c)), (table_value c); cbn [opt_eqb] in H; try discriminate; [|reflexivity]. apply Z.eqb_eq in H. now subst.
Qed.
Lemma table_in c d : table_value c = Some d <-> In (c, d) digits_table.
Proof.
  split.
  - unfold table_value. destruct (find _ digits_table) as [[c' d']|] eqn:F; [|discriminate]. intros H. injection H as <-. apply find_some in F.
    destruct F as [F E]. cbn [fst] in E. apply Ascii.eqb_eq in E. now subst.
  - intros H. cbn [digits_table In] in H. repeat (destruct H as [H|H]; [injection H as <- <-; reflexivity|]). destruct H.
Qed.
Lemma digit_of_in base c d : base <= 16 -> d < base -> digit_of c = Some d <-> digit_in base c d.
Proof.
  intros B L. unfold digit_in. rewrite <- table_in, <- digit_of_table. split.
  - intros H. rewrite H. cbn [small]. destruct (Z.ltb_spec d 16); [now split|lia].
  - intros [H _]. destruct (digit_of c) as [x|]; cbn [small] in H; [|discriminate]. destruct (x <? 16); [exact H|discriminate].
Qed.
Lemma digit_in_facts base c d : digit_in base c d -> 0 <= d < base /\ c <> "_"%char /\ c <> "+"%char /\ c <> "-"%char.
Proof.
  intros [H L]. assert (F : 0 <= d /\ c <> "_"%char /\ c <> "+"%char /\ c <> "-"%char); [|intuition lia].
  cbn [digits_table In] in H. repeat (destruct H as [H|H]; [injection H as <- <-; repeat split; (lia || discriminate)|]). destruct H.
Qed.
(** What underscoreOK takes for a digit. *)
Definition under_digit (hex : bool) (c : ascii) : bool := ((48 <=? byte c) && (byte c <=? 57)) || (hex && ((97 <=? lower c) && (lower c <=? 102))).
Definition hex_for (base : Z) (hex : bool) : Prop := base <= 10 \/ (base = 16 /\ hex = true).
Lemma digit_in_under base hex c d : hex_for base hex -> digit_in base c d -> under_digit hex c = true.
Proof.
  intros Hx [H L]. cbn [digits_table In] in H.
  repeat (destruct H as [H|H]; [injection H as <- <-; destruct Hx as [Hx|[_ ->]]; [(destruct hex; reflexivity) || lia|reflexivity]|]). destruct H.
Qed.

(** * Digits and underscores *)

Inductive loose (base : Z) : string -> Z -> Z -> bool -> Prop :=
| loose_nil n : loose base "" n n false
| loose_under s n v u : loose base s n v u -> loose base (chr "_" s) n v true
| loose_digit c d s n v u : digit_in base c d -> loose base s (n * base + d) v u -> loose base (chr c s) n v u.

Lemma loose_ge base s n v u : 2 <= base -> 0 <= n -> loose base s n v u -> n <= v.
Proof.
  intros B Hn H. induction H as [n|s n v u H IH|c d s n v u D H IH]; [lia|now apply IH|]. apply digit_in_facts in D. destruct D as [D _].
  assert (0 <= n * base + d) by nia. specialize (IH ltac:(assumption)). nia.
Qed.
Lemma step_fits base n d : 2 <= base <= 16 -> 0 <= n < 2 ^ 64 -> 0 <= d < base ->
  ((2 ^ 64 - 1) / base + 1 <= n -> 2 ^ 64 <= n * base + d) /\
  (n < (2 ^ 64 - 1) / base + 1 ->
    u64 (n * base) = n * base /\ (n * base + d < 2 ^ 64 -> u64 (n * base + d) = n * base + d) /\
    (2 ^ 64 <= n * base + d -> u64 (n * base + d) < n * base)).
Proof.
  intros B Hn Hd. pose proof (Z.div_mod (2 ^ 64 - 1) base ltac:(lia)) as D. pose proof (Z.mod_pos_bound (2 ^ 64 - 1) base ltac:(lia)) as M.
  set (q := (2 ^ 64 - 1) / base) in *. split; [intros; nia|]. intros L. assert (n * base <= q * base) by nia. assert (P : n * base < 2 ^ 64) by lia.
  assert (P0 : 0 <= n * base) by nia. unfold u64. split; [now apply Z.mod_small|]. split; [intros; apply Z.mod_small; lia|].
  intros G. replace (n * base + d) with (n * base + d - 2 ^ 64 + 1 * 2 ^ 64) by ring. rewrite Z_mod_plus_full, Z.mod_small by lia. lia.
Qed.
Lemma uint_loop_some base s : 2 <= base <= 16 -> forall n under v u, 0 <= n < 2 ^ 64 -> uint_loop base n under s = Some (v, u) ->
  exists u', loose base s n v u' /\ u = under || u' /\ v < 2 ^ 64.
Proof.
  intros B. induction s as [|c s IH]; intros n under v u Hn H; cbn [uint_loop] in H.
  - injection H as <- <-. exists false. rewrite Bool.orb_false_r. split; [constructor|]. split; [reflexivity|lia].
  - destruct (Ascii.eqb_spec c "_") as [->|N].
    + apply IH in H; [|exact Hn]. destruct H as (u' & L & -> & V). exists true. cbn [orb]. rewrite Bool.orb_true_r. split; [now constructor 2 with u'|]. now split.
    + destruct (digit_of c) as [d|] eqn:D; [|discriminate]. destruct (Z.leb_spec base d) as [L|L]; [discriminate|].
      apply (digit_of_in base) in D; [|lia|exact L]. pose proof (digit_in_facts _ _ _ D) as [Bd _].
      destruct (step_fits base n d B Hn Bd) as [S1 S2]. destruct (Z.leb_spec ((2 ^ 64 - 1) / base + 1) n) as [C|C]; [discriminate|].
      specialize (S2 C). destruct S2 as (E1 & E2 & E3). cbv zeta in H. rewrite E1 in H. destruct (Z_lt_le_dec (n * base + d) (2 ^ 64)) as [F|F].
      * rewrite (E2 F) in H. destruct (_ || _); [discriminate|]. apply IH in H; [|nia]. destruct H as (u' & Ls & -> & V). exists u'.
        split; [now apply loose_digit with d|]. now split.
      * destruct (Z.ltb_spec (u64 (n * base + d)) (n * base)) as [G|G]; [cbn [orb] in H; discriminate|]. specialize (E3 F). lia.
Qed.
Lemma uint_loop_at base s n v u : 2 <= base <= 16 -> loose base s n v u -> forall under, 0 <= n -> v < 2 ^ 64 -> uint_loop base n under s = Some (v, under || u).
Proof.
  intros B H. induction H as [n|s n v u H IH|c d s n v u D H IH]; intros under Hn V; cbn [uint_loop].
  - now rewrite Bool.orb_false_r.
  - change (Ascii.eqb "_" "_") with true. cbv iota. rewrite (IH true Hn V). cbn [orb]. now rewrite Bool.orb_true_r.
  - pose proof (digit_in_facts _ _ _ D) as (Bd & N & _). rewrite (proj2 (Ascii.eqb_neq c "_") N).
    assert (L0 : 0 <= n * base + d) by nia. pose proof (loose_ge base s _ v u ltac:(lia) L0 H) as G.
    apply (digit_of_in base) in D; [|lia|lia]. rewrite D. destruct (Z.leb_spec base d); [lia|].
    destruct (step_fits base n d B ltac:(nia) Bd) as [S1 S2]. destruct (Z.leb_spec ((2 ^ 64 - 1) / base + 1) n) as [C|C]; [specialize (S1 C); lia|].
    destruct (S2 C) as (E1 & E2 & _). cbv zeta. rewrite E1, E2 by lia. destruct (Z.ltb_spec (n * base + d) (n * base)); [lia|].
    destruct (Z.ltb_spec (2 ^ 64 - 1) (n * base + d)); [lia|]. cbn [orb]. now apply IH.
Qed.

(** What may follow a digit or a prefix. *)
Definition after_digit (base : Z) (s : string) (n v : Z) : Prop :=
  (s = "" /\ v = n) \/ grouped base s n v \/ exists s', s = chr "_" s' /\ grouped base s' n v.
Lemma grouped_after base c d s n v : digit_in base c d -> grouped base (chr c s) n v <-> after_digit base s (n * base + d) v.
Proof.
  intros D. split.
  - intros H. assert (U : forall d', digit_in base c d' -> d' = d).
    { intros d' [H1 _]. destruct D as [H2 _]. apply table_in in H1, H2. congruence. }
    inversion H as [c' d' n' D' |c' d' s' n' v' D' G|c' d' s' n' v' D' G]; subst.
    + left. rewrite (U _ D'). now split.
    + right. left. now rewrite (U _ D') in G.
    + right. right. rewrite (U _ D') in G. now exists s'.
  - intros [[-> ->]|[G|(s' & -> & G)]]; [now apply grouped_one|now apply grouped_next with d|now apply grouped_under with d].
Qed.
Lemma grouped_not_under base s n v : ~ grouped base (chr "_" s) n v.
Proof. intros H. inversion H; subst; match goal with D : digit_in _ _ _ |- _ => apply digit_in_facts in D; intuition congruence end. Qed.
Lemma grouped_empty base n v : ~ grouped base "" n v.
Proof. intros H. inversion H. Qed.

Lemma under_loop_spec base hex s n v u : hex_for base hex -> loose base s n v u ->
  (under_loop hex SDigit s = true <-> after_digit base s n v) /\ (under_loop hex SUnder s = true <-> grouped base s n v).
Proof.
  intros Hx H. induction H as [n|s n v u H IH|c d s n v u D H IH]; cbn [under_loop].
  - split; split; try discriminate; try reflexivity.
    + intros _. now left.
    + intros K. now apply grouped_empty in K.
  - destruct IH as [IH1 IH2]. assert (E : ((48 <=? byte "_") && (byte "_" <=? 57)) || (hex && ((97 <=? lower "_") && (lower "_" <=? 102))) = false) by (destruct hex; reflexivity).
    rewrite E. change (Ascii.eqb "_" "_") with true. cbv iota. split.
    + rewrite IH2. split; [intros G; right; right; now exists s|]. intros [[K _]|[K|(s' & K & G)]]; [discriminate|now apply grouped_not_under in K|]. injection K as <-. exact G.
    + split; [discriminate|]. intros K. now apply grouped_not_under in K.
  - destruct IH as [IH1 IH2]. pose proof (digit_in_under base hex c d Hx D) as E. unfold under_digit in E. rewrite E. split.
    + rewrite IH1, <- (grouped_after base c d s n v D). split; [intros G; right; now left|]. intros [[K _]|[K|(s' & K & G)]]; [discriminate|exact K|].
      injection K as -> _. apply digit_in_facts in D. intuition congruence.
    + now rewrite IH1, <- (grouped_after base c d s n v D).
Qed.
Lemma loose_plain base s n v : loose base s n v false -> (s = "" /\ v = n) \/ grouped base s n v.
Proof.
  remember false as u eqn:E. induction 1 as [n|s n v u H IH|c d s n v u D H IH]; [now left|discriminate|]. right. subst u. destruct (IH eq_refl) as [[-> ->]|G].
  - now apply grouped_one.
  - now apply grouped_next with d.
Qed.
Lemma grouped_loose base s n v : grouped base s n v -> exists u, loose base s n v u.
Proof.
  induction 1 as [c d n D|c d s n v D G [u IH]|c d s n v D G [u IH]].
  - exists false. apply loose_digit with d; [exact D|constructor].
  - exists u. now apply loose_digit with d.
  - exists true. apply loose_digit with d; [exact D|]. now apply loose_under with u.
Qed.
Lemma after_loose base s n v : after_digit base s n v -> exists u, loose base s n v u.
Proof.
  intros [[-> ->]|[G|(s' & -> & G)]]; [exists false; constructor|now apply grouped_loose|]. apply grouped_loose in G. destruct G as [u G]. exists true. now apply loose_under with u.
Qed.

(** * Unsigned numbers *)

Lemma loose_first base c s n v u : loose base (chr c s) n v u -> c = "_"%char \/ exists d, digit_in base c d.
Proof. intros H. inversion H; subst; [now left|right; now exists d]. Qed.
Lemma loop_loose base s v u : 2 <= base <= 16 -> uint_loop base 0 false s = Some (v, u) -> loose base s 0 v u /\ v < 2 ^ 64.
Proof. intros B H. apply uint_loop_some in H; [|exact B|lia]. destruct H as (u' & L & -> & V). now split. Qed.
Lemma underscore_prefix b s : is_lower b 98 || is_lower b 111 || is_lower b 120 = true ->
  underscore_ok (chr "0" (chr b s)) = under_loop (is_lower b 120) SDigit s.
Proof. intros H. unfold underscore_ok, drop_sign. change (Ascii.eqb "0" "-" || Ascii.eqb "0" "+") with false. cbv iota. change (Ascii.eqb "0" "0") with true. now rewrite H. Qed.
Lemma underscore_zero s n v u : loose 8 s n v u -> underscore_ok (chr "0" s) = under_loop false SDigit s.
Proof.
  intros L. unfold underscore_ok, drop_sign. change (Ascii.eqb "0" "-" || Ascii.eqb "0" "+") with false. cbv iota.
  destruct s as [|b s]; [reflexivity|]. change (Ascii.eqb "0" "0") with true. cbn [andb].
  assert (E : is_lower b 98 || is_lower b 111 || is_lower b 120 = false).
  { apply loose_first in L. destruct L as [->|[d [D Ld]]]; [reflexivity|]. cbn [digits_table In] in D.
    repeat (destruct D as [D|D]; [injection D as <- <-; reflexivity || lia|]). destruct D. }
  now rewrite E.
Qed.
Lemma underscore_plain c s n v u d : c <> "0"%char -> digit_in 10 c d -> loose 10 s n v u -> underscore_ok (chr c s) = under_loop false SDigit s.
Proof.
  intros N D L. pose proof (digit_in_facts _ _ _ D) as (_ & _ & N1 & N2). unfold underscore_ok, drop_sign.
  rewrite (proj2 (Ascii.eqb_neq c "-") N2), (proj2 (Ascii.eqb_neq c "+") N1). cbn [orb].
  assert (E : under_loop false SStart (chr c s) = under_loop false SDigit s).
  { cbn [under_loop]. pose proof (digit_in_under 10 false c d ltac:(now left) D) as E. unfold under_digit in E. now rewrite E. }
  destruct s as [|b s]; [exact E|]. rewrite (proj2 (Ascii.eqb_neq c "0") N). exact E.
Qed.
Lemma underscore_first s : underscore_ok (chr "_" s) = false.
Proof. unfold underscore_ok, drop_sign. change (Ascii.eqb "_" "-" || Ascii.eqb "_" "+") with false. cbv iota. destruct s; reflexivity. Qed.

(** The digits after what is a digit or a prefix. *)
Lemma tail_read base hex s v u : hex_for base hex -> loose base s 0 v u -> (u && negb (under_loop hex SDigit s) = false <-> after_digit base s 0 v).
Proof.
  intros Hx L. destruct (under_loop_spec base hex s 0 v u Hx L) as [U _]. split.
  - intros H. destruct u.
    + apply U. cbn [andb] in H. now destruct (under_loop hex SDigit s).
    + apply loose_plain in L. destruct L as [L|L]; [now left|right; now left].
  - intros A. apply U in A. rewrite A. cbn [negb]. apply Bool.andb_false_r.
Qed.
Lemma loop_read base hex s f v : 2 <= base <= 16 -> hex_for base hex -> (forall u, loose base s 0 v u -> f = under_loop hex SDigit s) ->
  (match uint_loop base 0 false s with None => None | Some (n, under) => if under && negb f then None else Some n end = Some v <->
   after_digit base s 0 v /\ v < 2 ^ 64).
Proof.
  intros B Hx F. split.
  - destruct (uint_loop base 0 false s) as [[n under]|] eqn:E; [|discriminate]. apply loop_loose in E; [|exact B]. destruct E as [L V].
    destruct (under && negb f) eqn:K; [discriminate|]. intros H. injection H as <-. split; [|exact V]. rewrite (F _ L) in K. now apply (tail_read base hex s n under Hx L).
  - intros [A V]. pose proof (after_loose _ _ _ _ A) as [u L]. rewrite (uint_loop_at base s 0 v u B L false ltac:(lia) V). cbn [orb].
    rewrite (F _ L). now rewrite (proj2 (tail_read base hex s v u Hx L) A).
Qed.
Lemma prefixes b : (is_lower b 98 = true <-> b = "b"%char \/ b = "B"%char) /\ (is_lower b 111 = true <-> b = "o"%char \/ b = "O"%char) /\
  (is_lower b 120 = true <-> b = "x"%char \/ b = "X"%char).
Proof.
  assert (H : forall z x y, 
    forallb (fun n => Bool.eqb (is_lower (ascii_of_nat n) z) (Ascii.eqb (ascii_of_nat n) x || Ascii.eqb (ascii_of_nat n) y)) (seq 0 256) = true ->
    (is_lower b z = true <-> b = x \/ b = y)).
  { intros z x y H. pose proof (all_ascii (fun c => Bool.eqb (is_lower c z) (Ascii.eqb c x || Ascii.eqb c y)) H b) as K. cbv beta in K.
    apply Bool.eqb_prop in K. rewrite K, Bool.orb_true_iff, !Ascii.eqb_eq. reflexivity. }
  split; [|split]; apply H; vm_compute; reflexivity.
Qed.

Definition literal_shape (s : string) (v : Z) : Prop :=
  match s with
  | String.EmptyString => False
  | String.String a s1 =>
    if Ascii.eqb a "0" then
      match s1 with
      | String.String b (String.String _ _ as s2) =>
        if is_lower b 98 then after_digit 2 s2 0 v else if is_lower b 111 then after_digit 8 s2 0 v
        else if is_lower b 120 then after_digit 16 s2 0 v else after_digit 8 s1 0 v
      | _ => after_digit 8 s1 0 v
      end
    else grouped 10 s 0 v
  end.
Lemma parse_uint_shape s v : parse_uint s = Some v <-> literal_shape s v /\ v < 2 ^ 64.
Proof.
  unfold parse_uint, literal_shape, base_prefix. destruct s as [|a s1]; [cbn; split; [discriminate|tauto]|].
  change ((chr a s1 =? "")%string) with false. cbv iota. destruct (Ascii.eqb_spec a "0") as [->|N].
  - destruct s1 as [|b [|c s3]].
    + apply (loop_read 8 false); [lia|now left; lia|]. intros u L. now apply underscore_zero in L.
    + apply (loop_read 8 false); [lia|now left; lia|]. intros u L. now apply underscore_zero in L.
    + destruct (is_lower b 98) eqn:E1; [|destruct (is_lower b 111) eqn:E2; [|destruct (is_lower b 120) eqn:E3]].
      * apply (loop_read 2 (is_lower b 120)); [lia|left; lia|]. intros u L. apply underscore_prefix. now rewrite E1.
      * apply (loop_read 8 (is_lower b 120)); [lia|left; lia|]. intros u L. apply underscore_prefix. rewrite E1, E2. reflexivity.
      * apply (loop_read 16 true); [lia|right; split; reflexivity|]. intros u L. rewrite underscore_prefix; [now rewrite E3|]. rewrite E1, E2, E3. reflexivity.
      * apply (loop_read 8 false); [lia|now left; lia|]. intros u L. now apply underscore_zero in L.
  - destruct (Ascii.eqb_spec a "_") as [->|N2].
    + split.
      * cbn [uint_loop]. change (Ascii.eqb "_" "_") with true. cbv iota. destruct (uint_loop 10 0 true s1) as [[n u]|] eqn:E; [|discriminate].
        apply uint_loop_some in E; [|lia|lia]. destruct E as (u' & _ & -> & _). rewrite underscore_first. discriminate.
      * intros [G _]. now apply grouped_not_under in G.
    + split.
      * destruct (uint_loop 10 0 false (chr a s1)) as [[n u]|] eqn:E; [|discriminate]. apply loop_loose in E; [|lia]. destruct E as [L V].
        destruct (u && negb (underscore_ok (chr a s1))) eqn:K; [discriminate|]. intros H. injection H as <-. split; [|exact V].
        inversion L as [|s' n' v' u' L' |c d s' n' v' u' D L']; subst; [congruence|].
        rewrite (underscore_plain a s1 _ n u d N D L') in K. apply (grouped_after 10 a d s1 0 n D).
        destruct (under_loop_spec 10 false s1 _ n u ltac:(now left) L') as [U _]. destruct u.
        -- apply U. cbn [andb] in K. now destruct (under_loop false SDigit s1).
        -- apply loose_plain in L'. destruct L' as [L'|L']; [now left|right; now left].
      * intros [G V]. pose proof (grouped_loose _ _ _ _ G) as [u L]. rewrite (uint_loop_at 10 _ 0 v u ltac:(lia) L false ltac:(lia) V). cbn [orb].
        inversion L as [|s' n' v' u' L' |c d s' n' v' u' D L']; subst; [congruence|]. rewrite (underscore_plain a s1 _ v u d N D L').
        destruct (under_loop_spec 10 false s1 _ v u ltac:(now left) L') as [U _]. apply (grouped_after 10 a d s1 0 v D) in G. apply U in G. rewrite G.
        cbn [negb]. now rewrite Bool.andb_false_r.
Qed.
Lemma octal_literal s v : after_digit 8 s 0 v -> integer_literal (chr "0" s) v.
Proof.
  intros [[-> ->]|[G|(s' & -> & G)]]; [apply int_zero|exact (int_octal s "" v ltac:(now left) G)|exact (int_octal s' "_" v ltac:(right; now left) G)].
Qed.
Lemma prefix_literal p base c s v : In (p, base) [("0b", 2); ("0B", 2); ("0o", 8); ("0O", 8); ("0x", 16); ("0X", 16)] ->
  after_digit base (chr c s) 0 v -> integer_literal (p ++ chr c s)%string v.
Proof.
  intros I [[K _]|[G|(s' & K & G)]]; [discriminate|exact (int_prefix p base _ "" v I ltac:(now left) G)|].
  rewrite K. exact (int_prefix p base s' "_" v I ltac:(right; now left) G).
Qed.
Lemma after_under base u s v : In u [""; "_"] -> grouped base s 0 v -> after_digit base (u ++ s)%string 0 v.
Proof.
  intros [<-|[<-|[]]] G; cbn [String.append]; [right; now left|]. right. right. now exists s.
Qed.
Lemma under_nonempty base u s v : In u [""; "_"] -> grouped base s 0 v -> exists c s', (u ++ s)%string = chr c s'.
Proof.
  intros [<-|[<-|[]]] G; cbn [String.append]; [|now eexists; eexists]. destruct s as [|c s']; [now apply grouped_empty in G|]. now exists c, s'.
Qed.
Lemma literal_shape_iff s v : literal_shape s v <-> integer_literal s v.
Proof.
  split.
  - unfold literal_shape. destruct s as [|a s1]; [tauto|]. destruct (Ascii.eqb_spec a "0") as [->|N].
    + destruct s1 as [|b [|c s3]]; [apply octal_literal|apply octal_literal|]. destruct (prefixes b) as (P1 & P2 & P3).
      destruct (is_lower b 98) eqn:E1; [|destruct (is_lower b 111) eqn:E2; [|destruct (is_lower b 120) eqn:E3]]; intros A.
      * destruct (proj1 P1 eq_refl) as [-> | ->]; [apply (prefix_literal "0b" 2 c s3 v)|apply (prefix_literal "0B" 2 c s3 v)]; try exact A; cbn; tauto.
      * destruct (proj1 P2 eq_refl) as [-> | ->]; [apply (prefix_literal "0o" 8 c s3 v)|apply (prefix_literal "0O" 8 c s3 v)]; try exact A; cbn; tauto.
      * destruct (proj1 P3 eq_refl) as [-> | ->]; [apply (prefix_literal "0x" 16 c s3 v)|apply (prefix_literal "0X" 16 c s3 v)]; try exact A; cbn; tauto.
      * now apply octal_literal.
    + now apply int_decimal.
  - intros H. inversion H as [c s' v' N G|  |s' u v' I G|p base s' u v' P I G]; subst.
    + unfold literal_shape. now rewrite (proj2 (Ascii.eqb_neq c "0") N).
    + unfold literal_shape. cbn [Ascii.eqb]. left. now split.
    + pose proof (after_under 8 u s' v I G) as A. change ("0" ++ u ++ s')%string with (chr "0" (u ++ s')). unfold literal_shape.
      change (Ascii.eqb "0" "0") with true. cbv iota. destruct (u ++ s')%string as [|b [|c s3]] eqn:E; [exact A|exact A|].
      apply after_loose in A as L. destruct L as [x L]. apply loose_first in L.
      assert (K : is_lower b 98 = false /\ is_lower b 111 = false /\ is_lower b 120 = false).
      { destruct L as [->|[d [D Ld]]]; [split; [|split]; reflexivity|]. cbn [digits_table In] in D.
        repeat (destruct D as [D|D]; [injection D as <- <-; (split; [|split]; reflexivity) || lia|]). destruct D. }
      destruct K as (-> & -> & ->). exact A.
    + pose proof (after_under base u s' v I G) as A. destruct (under_nonempty base u s' v I G) as (c & s3 & E). rewrite E in *.
      repeat (destruct P as [P|P]; [injection P as <- <-; exact A|]). destruct P.
Qed.
Lemma uint_read s v : parse_uint s = Some v <-> integer_literal s v /\ v < 2 ^ 64.
Proof. now rewrite parse_uint_shape, literal_shape_iff. Qed.

(** * Facts about literals *)

Lemma grouped_ge base s n v : 2 <= base -> 0 <= n -> grouped base s n v -> 0 <= v.
Proof. intros B Hn G. apply grouped_loose in G. destruct G as [u L]. apply loose_ge in L; [lia|exact B|exact Hn]. Qed.
Lemma literal_nonneg s v : integer_literal s v -> 0 <= v.
Proof.
  intros H. inversion H as [c s' v' N G|  |s' u v' I G|p base s' u v' P I G]; subst; try lia; (eapply grouped_ge; [|apply Z.le_refl|exact G]); try lia.
  repeat (destruct P as [P|P]; [injection P as <- <-; lia|]). destruct P.
Qed.
Lemma grouped_fun base s n v : grouped base s n v -> forall w, grouped base s n w -> w = v.
Proof.
  assert (U : forall c d d', digit_in base c d -> digit_in base c d' -> d' = d).
  { intros c d d' [H1 _] [H2 _]. apply table_in in H1, H2. congruence. }
  induction 1 as [c d n D|c d s n v D G IH|c d s n v D G IH]; intros w H.
  - apply (grouped_after base c d "" n w D) in H. destruct H as [[_ H]|[H|(s' & K & _)]]; [exact H|now apply grouped_empty in H|discriminate].
  - apply (grouped_after base c d s n w D) in H. destruct H as [[-> H]|[H|(s' & -> & _)]]; [now apply grouped_empty in G|now apply IH|now apply grouped_not_under in G].
  - apply (grouped_after base c d (chr "_" s) n w D) in H. destruct H as [[K H]|[H|(s' & K & H)]]; [discriminate|now apply grouped_not_under in H|]. injection K as <-. now apply IH.
Qed.
Lemma after_fun base s v w : after_digit base s 0 v -> after_digit base s 0 w -> v = w.
Proof.
  intros [[-> ->]|[G|(s' & -> & G)]] [[K ->]|[H|(s2 & K & H)]]; subst; try discriminate; try reflexivity;
    try (now apply grouped_empty in G); try (now apply grouped_empty in H); try (now apply grouped_not_under in G); try (now apply grouped_not_under in H).
  - now apply (grouped_fun base s 0 w H).
  - injection K as <-. now apply (grouped_fun base s' 0 w H).
Qed.
Lemma literal_fun s v w : integer_literal s v -> integer_literal s w -> v = w.
Proof.
  rewrite <- !literal_shape_iff. unfold literal_shape. destruct s as [|a s1]; [tauto|]. destruct (Ascii.eqb a "0").
  - destruct s1 as [|b [|c s3]]; try apply after_fun. destruct (is_lower b 98); [apply after_fun|]. destruct (is_lower b 111); [apply after_fun|].
    destruct (is_lower b 120); apply after_fun.
  - intros G H. now apply (grouped_fun 10 _ 0 w H).
Qed.
Lemma literal_first c s v : integer_literal (chr c s) v -> c <> "+"%char /\ c <> "-"%char.
Proof.
  rewrite <- literal_shape_iff. unfold literal_shape. destruct (Ascii.eqb_spec c "0") as [->|N]; [intros _; split; discriminate|].
  intros G. apply grouped_loose in G. destruct G as [u L]. apply loose_first in L. destruct L as [->|[d D]]; [split; discriminate|].
  apply digit_in_facts in D. tauto.
Qed.
Lemma literal_nonempty v : ~ integer_literal "" v.
Proof. rewrite <- literal_shape_iff. cbn. tauto. Qed.

(** * Signed numbers *)

Lemma i64_small z : - 2 ^ 63 <= z < 2 ^ 63 -> i64 z = z.
Proof. intros H. unfold i64. rewrite Z.mod_small by lia. lia. Qed.
Lemma i64_top : i64 (2 ^ 63) = - 2 ^ 63 /\ i64 (- (- 2 ^ 63)) = - 2 ^ 63.
Proof. split; reflexivity. Qed.
Lemma signed_value neg n v : 0 <= n -> n < 2 ^ 64 ->
  (if negb neg && (2 ^ 63 <=? n) then None else if neg && (2 ^ 63 <? n) then None else Some (i64 (if neg then - i64 n else i64 n))) = Some v <->
  v = (if neg then - n else n) /\ - 2 ^ 63 <= v < 2 ^ 63.
Proof.
  intros N0 N1. destruct neg; cbn [negb andb].
  - destruct (Z.ltb_spec (2 ^ 63) n) as [L|L]; [split; [discriminate|lia]|]. destruct (Z.eq_dec n (2 ^ 63)) as [->|M].
    + destruct i64_top as [-> ->]. split; [intros H; injection H as <-; lia|intros [-> _]; reflexivity].
    + rewrite (i64_small n), (i64_small (- n)) by lia. split; [intros H; injection H as <-; lia|intros [-> _]; reflexivity].
  - destruct (Z.leb_spec (2 ^ 63) n) as [L|L]; [split; [discriminate|lia]|]. rewrite (i64_small n), i64_small by lia.
    split; [intros H; injection H as <-; lia|intros [-> _]; reflexivity].
Qed.
Lemma int_body neg t v :
  match parse_uint t with None => None | Some n =>
    if negb neg && (2 ^ 63 <=? n) then None else if neg && (2 ^ 63 <? n) then None else Some (i64 (if neg then - i64 n else i64 n)) end = Some v <->
  exists n, integer_literal t n /\ v = (if neg then - n else n) /\ - 2 ^ 63 <= v < 2 ^ 63.
Proof.
  split.
  - destruct (parse_uint t) as [n|] eqn:E; [|discriminate]. apply uint_read in E. destruct E as [E L]. pose proof (literal_nonneg _ _ E) as P.
    intros H. apply signed_value in H; [|exact P|exact L]. exists n. tauto.
  - intros (n & E & H). pose proof (literal_nonneg _ _ E) as P. assert (L : n < 2 ^ 64) by (destruct neg; lia).
    rewrite (proj2 (uint_read t n) (conj E L)). now apply signed_value.
Qed.
Lemma int_read s v : parse_int s = Some v <-> signed_literal s v /\ - 2 ^ 63 <= v < 2 ^ 63.
Proof.
  unfold parse_int, signed_literal. destruct s as [|c s1].
  - cbn [String.eqb]. split; [discriminate|]. intros [(t & n & E & [[<- _]|[[K _]|[K _]]]) _]; [now apply literal_nonempty in E|discriminate|discriminate].
  - change ((chr c s1 =? "")%string) with false. cbv iota. unfold int_sign.
    destruct (Ascii.eqb_spec c "+") as [->|N1]; [|destruct (Ascii.eqb_spec c "-") as [->|N2]]; rewrite int_body; split.
    + intros (n & E & -> & B). split; [|exact B]. exists s1, n. split; [exact E|]. right. left. now split.
    + intros [(t & n & E & [[<- _]|[[K ->]|[K _]]]) B]; [now apply literal_first in E|injection K as <-; now exists n|discriminate].
    + intros (n & E & -> & B). split; [|exact B]. exists s1, n. split; [exact E|]. right. right. now split.
    + intros [(t & n & E & [[<- _]|[[K _]|[K ->]]]) B]; [now apply literal_first in E|discriminate|injection K as <-; now exists n].
    + intros (n & E & -> & B). split; [|exact B]. exists (chr c s1), n. split; [exact E|]. left. now split.
    + intros [(t & n & E & [[<- ->]|[[K _]|[K _]]]) B]; [now exists n|injection K as -> _; now destruct N1|injection K as -> _; now destruct N2].
Qed.
Lemma signed_fun s v w : signed_literal s v -> signed_literal s w -> v = w.
Proof.
  intros (t & n & E & C) (t' & n' & E' & C').
  destruct C as [[-> ->]|[[-> ->]|[-> ->]]], C' as [[K ->]|[[K ->]|[K ->]]]; cbn [String.append] in K; try discriminate;
    try (injection K as <-); subst; try (f_equal; now apply (literal_fun _ _ _ E E')); try (now apply (literal_fun _ _ _ E E'));
    exfalso; (now apply literal_first in E) || (now apply literal_first in E').
Qed.

(** * Bools *)

Lemma existsb_eqb s l : existsb (String.eqb s) l = true <-> In s l.
Proof.
  rewrite existsb_exists. split; [intros (x & I & E); apply String.eqb_eq in E; now subst|intros I; exists s; split; [exact I|apply String.eqb_refl]].
Qed.
Lemma bool_read s b : parse_bool s = Some b <->
  (b = true /\ In s ["1"; "t"; "T"; "true"; "TRUE"; "True"]) \/ (b = false /\ In s ["0"; "f"; "F"; "false"; "FALSE"; "False"]).
Proof.
  unfold parse_bool. destruct (existsb (String.eqb s) ["1"; "t"; "T"; "true"; "TRUE"; "True"]) eqn:E1.
  - apply existsb_eqb in E1. split.
    + intros H. injection H as <-. left. now split.
    + intros [[-> _]|[-> I]]; [reflexivity|]. exfalso. cbn [In] in E1, I.
      repeat (destruct E1 as [E1|E1]; [subst s; repeat (destruct I as [I|I]; [discriminate|]); destruct I|]). destruct E1.
  - assert (N1 : ~ In s ["1"; "t"; "T"; "true"; "TRUE"; "True"]) by (rewrite <- existsb_eqb, E1; discriminate).
    destruct (existsb (String.eqb s) ["0"; "f"; "F"; "false"; "FALSE"; "False"]) eqn:E2.
    + apply existsb_eqb in E2. split; [intros H; injection H as <-; right; now split|]. intros [[-> I]|[-> _]]; [now apply N1 in I|reflexivity].
    + assert (N2 : ~ In s ["0"; "f"; "F"; "false"; "FALSE"; "False"]) by (rewrite <- existsb_eqb, E2; discriminate).
      split; [discriminate|]. intros [[_ I]|[_ I]]; [now apply N1 in I|now apply N2 in I].
Qed.
