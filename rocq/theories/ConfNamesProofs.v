(** Proofs about the flag and env names. *)
From Verif Require Import Common Bytes ConfNamesModel ConfNamesSpec.
Local Open Scope string_scope.

Ltac allchars c :=
  let b0 := fresh in let b1 := fresh in let b2 := fresh in let b3 := fresh in
  let b4 := fresh in let b5 := fresh in let b6 := fresh in let b7 := fresh in
  destruct c as [b0 b1 b2 b3 b4 b5 b6 b7]; destruct b0, b1, b2, b3, b4, b5, b6, b7.

Lemma is_upper_iff c : is_upper c = true <-> upper c.
Proof.
  unfold upper. destruct (in_dec ascii_dec c uppers) as [H|H].
  - split; [auto|]. intros _. unfold uppers in H. cbn in H.
    repeat (destruct H as [<-|H]; [reflexivity|]). destruct H.
  - split; [|tauto]. intros E. exfalso. apply H. clear H.
    allchars c; first [vm_compute in E; discriminate|vm_compute; tauto].
Qed.

Lemma lower_ascii_translate c : lower_ascii c = translate uppers lowers c.
Proof. allchars c; reflexivity. Qed.
Lemma upper_ascii_translate c : upper_ascii c = translate lowers uppers c.
Proof. allchars c; reflexivity. Qed.

Lemma upper_not_dot c : upper c -> c <> "."%char.
Proof. intros H ->. apply is_upper_iff in H. discriminate. Qed.

Lemma translate_upper_up c : upper c -> translate lowers uppers c = c.
Proof. intros H. apply is_upper_iff in H. allchars c; first [discriminate H|reflexivity]. Qed.

Lemma translate_not_upper c : ~ upper c -> translate uppers lowers c = c.
Proof.
  intros H. rewrite <- lower_ascii_translate. unfold lower_ascii.
  destruct (is_upper c) eqn:E; [exfalso; apply H, is_upper_iff, E|reflexivity].
Qed.

Lemma words_cons2 c c' s : words (String.String c (String.String c' s)) =
  if upper_dec c' then String.String c "" :: words (String.String c' s)
  else match words (String.String c' s) with
       | w :: ws => String.String c w :: ws | [] => [String.String c ""] end.
Proof. reflexivity. Qed.

Lemma words_nonempty s : exists w ws, words s = w :: ws.
Proof.
  destruct s as [|c s]; [exists "", []; reflexivity|]. destruct s as [|c' s']; [exists (String.String c ""), []; reflexivity|].
  rewrite words_cons2.
  destruct (upper_dec c'); [eexists _, _; reflexivity|]. destruct (words (String.String c' s')) as [|w ws]; eexists _, _; reflexivity.
Qed.

Lemma append_assoc' (a b c : string) : (a ++ b) ++ c = a ++ (b ++ c).
Proof. induction a as [|x a IH]; cbn; [reflexivity|]. rewrite IH. reflexivity. Qed.
Lemma append_empty (a : string) : a ++ "" = a.
Proof. induction a as [|x a IH]; cbn; [reflexivity|]. rewrite IH. reflexivity. Qed.

(** [concat] on a list with at least two elements. *)
Lemma concat_cons2 sep a b l : String.concat sep (a :: b :: l) = a ++ sep ++ String.concat sep (b :: l).
Proof. reflexivity. Qed.
Lemma concat_app sep l1 l2 : l1 <> [] -> l2 <> [] ->
  String.concat sep (l1 ++ l2)%list = String.concat sep l1 ++ sep ++ String.concat sep l2.
Proof.
  intros H1 H2. induction l1 as [|a l1 IH]; [congruence|]. destruct l1 as [|b l1].
  - destruct l2 as [|c l2]; [congruence|]. reflexivity.
  - change ((a :: b :: l1) ++ l2)%list with (a :: b :: (l1 ++ l2))%list. rewrite !concat_cons2.
    change (b :: (l1 ++ l2))%list with ((b :: l1) ++ l2)%list. rewrite IH by discriminate.
    rewrite !append_assoc'. reflexivity.
Qed.

(** One loop for both styles. *)
Fixpoint name_loop (sep : ascii) (f : ascii -> ascii) (prev_dot : bool) (bs : string) : string :=
  match bs with
  | String.EmptyString => ""
  | String.String b bs' =>
    if is_upper b then
      (if negb prev_dot then String.String sep "" else "") ++ String.String (f b) (name_loop sep f false bs')
    else if Ascii.eqb b "." then String.String sep (name_loop sep f true bs')
    else String.String (f b) (name_loop sep f false bs')
  end.

Lemma flag_loop_name p s : flag_loop p s = name_loop "-" (translate uppers lowers) p s.
Proof.
  revert p. induction s as [|c s IH]; intros p; cbn [flag_loop name_loop]; [reflexivity|].
  rewrite !IH, lower_ascii_translate.
  destruct (is_upper c) eqn:E; [destruct p; reflexivity|].
  rewrite (translate_not_upper c); [reflexivity|]. intros H. apply is_upper_iff in H. congruence.
Qed.

Lemma env_loop_name p s : env_loop p s = name_loop "_" (translate lowers uppers) p s.
Proof.
  revert p. induction s as [|c s IH]; intros p; cbn [env_loop name_loop]; [reflexivity|].
  rewrite !IH, upper_ascii_translate.
  destruct (is_upper c) eqn:E; [|reflexivity].
  rewrite (translate_upper_up c); [destruct p; reflexivity|]. apply is_upper_iff. exact E.
Qed.

(** The loop over one segment: first character, then the rest. *)
Lemma name_loop_seg sep f s : ~ mentions "." s -> forall p tail t,
  (tail = "" /\ t = "") \/ (exists r, tail = String.String "." r /\ t = String.String sep (name_loop sep f true r)) ->
  (s <> "" -> name_loop sep f p (s ++ tail) =
     (match s with String.String c _ => if negb p && is_upper c then String.String sep "" else "" | _ => "" end) ++
     String.concat (String.String sep "") (map (smap_chars f) (words s)) ++ t) /\
  (s = "" -> name_loop sep f p tail = t).
Proof.
  intros Hdot p tail t Ht.
  assert (Htail : forall p, name_loop sep f p tail = t).
  { intros p'. destruct Ht as [(-> & ->)|(r & -> & ->)]; reflexivity. }
  split; [|intros _; apply Htail].
  revert p. induction s as [|c s IH]; intros p Hne; [congruence|].
  cbn [mentions has_char] in Hdot. fold (mentions "." s) in Hdot.
  assert (Hc : c <> "."%char) by (intros ->; apply Hdot; left; reflexivity).
  assert (Hs : ~ mentions "." s) by (intros H; apply Hdot; right; exact H).
  assert (Hstep : name_loop sep f p (String.String c s ++ tail) =
    (if negb p && is_upper c then String.String sep "" else "") ++ String.String (f c) (name_loop sep f false (s ++ tail))).
  { cbn [String.append name_loop]. destruct (is_upper c).
    - rewrite andb_true_r. reflexivity.
    - rewrite andb_false_r. destruct (Ascii.eqb_spec c "."); [congruence|reflexivity]. }
  rewrite Hstep. f_equal.
  destruct s as [|c' s'].
  - cbn. rewrite Htail. reflexivity.
  - rewrite (IH Hs false ltac:(discriminate)). cbn [negb andb].
    rewrite words_cons2.
    destruct (words_nonempty (String.String c' s')) as (w & ws & Hw). rewrite Hw.
    destruct (upper_dec c') as [Hu|Hu].
    + apply is_upper_iff in Hu. rewrite Hu. cbn [map]. rewrite (concat_cons2 _ (smap_chars f (String.String c ""))).
      cbn [smap_chars String.append]. rewrite ?append_assoc'. reflexivity.
    + destruct (is_upper c') eqn:E; [exfalso; apply Hu, is_upper_iff, E|].
      cbn [map smap_chars]. destruct ws as [|w2 ws]; [reflexivity|].
      cbn [map]. rewrite !concat_cons2. cbn. rewrite ?append_assoc'. reflexivity.
Qed.

Lemma concat_map_words sep f s : words s <> [] /\ map (smap_chars f) (words s) <> [] /\ (s = "" -> String.concat sep (map (smap_chars f) (words s)) = "").
Proof.
  destruct (words_nonempty s) as (w & ws & H). rewrite H. repeat split; try discriminate. intros ->. cbn in H.
  injection H as <- <-. reflexivity.
Qed.

Lemma name_loop_path sep f segs : (forall s, In s segs -> ~ mentions "." s) -> segs <> [] ->
  name_loop sep f true (dotted segs) = String.concat (String.String sep "") (map (smap_chars f) (path_words segs)).
Proof.
  intros Hd Hne. induction segs as [|s segs IH]; [congruence|].
  assert (Hs : ~ mentions "." s) by (apply Hd; left; reflexivity).
  assert (Hfirst : match s with String.String c _ => if negb true && is_upper c then String.String sep "" else "" | _ => "" end = "")
    by (destruct s; reflexivity).
  destruct segs as [|s2 segs].
  - cbn [dotted String.concat path_words flat_map]. rewrite app_nil_r.
    destruct (name_loop_seg sep f s Hs true "" "" ltac:(left; split; reflexivity)) as (A & B).
    destruct (String.eqb_spec s "") as [->|Hn].
    + symmetry. apply (concat_map_words (String.String sep "") f ""). reflexivity.
    + rewrite <- (append_empty s) at 1. rewrite (A Hn), Hfirst. cbn. rewrite append_empty. reflexivity.
  - change (dotted (s :: s2 :: segs)) with (s ++ String.String "." (dotted (s2 :: segs))).
    specialize (IH (fun x H => Hd x (or_intror H)) ltac:(discriminate)).
    destruct (name_loop_seg sep f s Hs true (String.String "." (dotted (s2 :: segs)))
      (String.String sep (name_loop sep f true (dotted (s2 :: segs))))) as (A & B); [right; eexists; split; reflexivity|].
    unfold path_words in *. change (flat_map words (s :: s2 :: segs)) with (words s ++ flat_map words (s2 :: segs))%list.
    rewrite map_app, concat_app.
    + destruct (String.eqb_spec s "") as [->|Hn].
      * cbn [String.append]. rewrite (B eq_refl). rewrite IH. reflexivity.
      * rewrite (A Hn), Hfirst, IH. reflexivity.
    + apply (concat_map_words "" f s).
    + cbn. rewrite map_app. destruct (concat_map_words "" f s2) as (_ & H & _). intros E. apply app_eq_nil in E. tauto.
Qed.

(** C51. *)
Lemma names_are_words segs : (forall s, In s segs -> ~ mentions "." s) -> segs <> [] ->
  flag_style (dotted segs) = String.concat "-" (map to_lower (path_words segs)) /\
  env_style (dotted segs) = String.concat "_" (map to_upper (path_words segs)).
Proof.
  intros H1 H2. unfold flag_style, env_style. rewrite flag_loop_name, env_loop_name, !name_loop_path by assumption.
  split; reflexivity.
Qed.

Lemma flag_chars p s c : has_char (eq c) (flag_loop p s) -> ~ upper c /\ c <> "."%char.
Proof.
  revert p. induction s as [|b s IH]; intros p; cbn [flag_loop]; [intros []|].
  assert (Hdash : ~ upper "-"%char) by (intros H; apply is_upper_iff in H; discriminate).
  destruct (is_upper b) eqn:E.
  - assert (Hl : ~ upper (lower_ascii b) /\ lower_ascii b <> "."%char).
    { split; [intros H; apply is_upper_iff in H; revert E H|revert E]; allchars b; vm_compute; congruence. }
    destruct p; cbn; [intros [->|H]; [exact Hl|exact (IH _ H)]|].
    intros [->|[->|H]]; [split; [exact Hdash|discriminate]|exact Hl|exact (IH _ H)].
  - destruct (Ascii.eqb_spec b ".") as [->|Hb]; cbn.
    + intros [->|H]; [split; [exact Hdash|discriminate]|exact (IH _ H)].
    + intros [->|H]; [|exact (IH _ H)]. split; [|exact Hb]. intros H. apply is_upper_iff in H. congruence.
Qed.

Lemma env_chars p s c : has_char (eq c) (env_loop p s) -> ~ In c lowers /\ c <> "."%char.
Proof.
  assert (Hlow : forall c, In c lowers -> is_lower c = true).
  { intros x H. unfold lowers in H. cbn in H. repeat (destruct H as [<-|H]; [reflexivity|]). destruct H. }
  revert p. induction s as [|b s IH]; intros p; cbn [env_loop]; [intros []|].
  assert (Hdash : ~ In "_"%char lowers) by (intros H; apply Hlow in H; discriminate).
  destruct (is_upper b) eqn:E.
  - assert (Hl : ~ In b lowers /\ b <> "."%char).
    { split; [intros H; apply Hlow in H; revert E H|revert E]; allchars b; vm_compute; congruence. }
    destruct p; cbn; [intros [->|H]; [exact Hl|exact (IH _ H)]|].
    intros [->|[->|H]]; [split; [exact Hdash|discriminate]|exact Hl|exact (IH _ H)].
  - destruct (Ascii.eqb_spec b ".") as [->|Hb]; cbn.
    + intros [->|H]; [split; [exact Hdash|discriminate]|exact (IH _ H)].
    + intros [->|H]; [|exact (IH _ H)]. split; [intros H; apply Hlow in H; revert H|]; revert Hb; clear; allchars b; vm_compute; congruence.
Qed.

Lemma env_from_flag p s : ~ mentions "-" s ->
  env_loop p s = smap_chars (fun c => if Ascii.eqb c "-" then "_"%char else translate lowers uppers c) (flag_loop p s).
Proof.
  revert p. induction s as [|b s IH]; intros p H; cbn [env_loop flag_loop smap_chars]; [reflexivity|].
  cbn in H. fold (mentions "-" s) in H.
  rewrite !IH by tauto.
  destruct (is_upper b) eqn:E.
  - assert (Hb : (if Ascii.eqb (lower_ascii b) "-" then "_"%char else translate lowers uppers (lower_ascii b)) = b).
    { revert E. clear. allchars b; vm_compute; congruence. }
    destruct p; cbn [negb String.append smap_chars]; rewrite Hb; reflexivity.
  - destruct (Ascii.eqb_spec b ".") as [->|Hd]; cbn [smap_chars]; [reflexivity|].
    rewrite upper_ascii_translate. destruct (Ascii.eqb_spec b "-") as [->|Hm]; [tauto|reflexivity].
Qed.

(** C52. *)
Lemma append_inj_char (c : ascii) a1 a2 b1 b2 : ~ mentions c a1 -> ~ mentions c a2 ->
  a1 ++ String.String c b1 = a2 ++ String.String c b2 -> a1 = a2 /\ b1 = b2.
Proof.
  revert a2. induction a1 as [|x a1 IH]; intros [|y a2] H1 H2 H; cbn in *.
  - injection H as ->. auto.
  - injection H as <- _. tauto.
  - injection H as -> _. tauto.
  - injection H as -> H. destruct (IH a2) as (-> & ->); auto.
Qed.

Lemma mentions_app c a b : mentions c (a ++ b) <-> mentions c a \/ mentions c b.
Proof. unfold mentions. induction a as [|x a IH]; cbn; [tauto|]. rewrite IH. tauto. Qed.

Lemma concat_inj (c : ascii) l1 : forall l2, (forall s, In s l1 -> ~ mentions c s) -> (forall s, In s l2 -> ~ mentions c s) ->
  l1 <> [] -> l2 <> [] ->
  String.concat (String.String c "") l1 = String.concat (String.String c "") l2 -> l1 = l2.
Proof.
  induction l1 as [|a l1 IH]; intros l2 H1 H2 N1 N2 H; [congruence|].
  destruct l2 as [|b l2]; [congruence|].
  assert (Ha : ~ mentions c a) by (apply H1; left; reflexivity).
  assert (Hb : ~ mentions c b) by (apply H2; left; reflexivity).
  destruct l1 as [|a2 l1], l2 as [|b2 l2].
  - cbn in H. congruence.
  - rewrite concat_cons2 in H. cbn [String.concat String.append] in H. exfalso. apply Ha. rewrite H. apply mentions_app. right. left. reflexivity.
  - rewrite concat_cons2 in H. cbn [String.concat String.append] in H. exfalso. apply Hb. rewrite <- H. apply mentions_app. right. left. reflexivity.
  - rewrite !concat_cons2 in H. cbn [String.append] in H.
    apply append_inj_char in H; [|assumption|assumption]. destruct H as (-> & H). f_equal.
    apply IH; try assumption; try discriminate; intros s Hs; [apply H1|apply H2]; right; exact Hs.
Qed.

Lemma mentions_map_char f c d s : (forall x, f x = d -> x = c) -> mentions d (smap_chars f s) -> mentions c s.
Proof.
  intros Hf. unfold mentions. induction s as [|x s IH]; cbn; [tauto|]. intros [H|H]; [left; apply Hf; exact H|right; apply IH; exact H].
Qed.

Lemma words_chars s c w : In w (words s) -> mentions c w -> mentions c s.
Proof.
  unfold mentions. revert w. induction s as [|x s IH]; intros w Hw H.
  - cbn in Hw. destruct Hw as [<-|[]]. exact H.
  - destruct s as [|x' s'].
    + cbn in Hw. destruct Hw as [<-|[]]. exact H.
    + rewrite words_cons2 in Hw. destruct (upper_dec x').
      * destruct Hw as [<-|Hw]; [destruct H as [H|[]]; left; exact H|]. right. exact (IH w Hw H).
      * destruct (words_nonempty (String.String x' s')) as (w0 & ws & E). rewrite E in *.
        destruct Hw as [<-|Hw].
        -- destruct H as [H|H]; [left; exact H|right]. apply (IH w0); [left; reflexivity|exact H].
        -- right. apply (IH w); [right; exact Hw|exact H].
Qed.

Lemma path_words_nonempty segs : segs <> [] -> path_words segs <> [].
Proof.
  destruct segs as [|s segs]; [congruence|]. intros _. cbn. destruct (words_nonempty s) as (w & ws & ->). discriminate.
Qed.

Lemma same_flag_words p q : p <> [] -> q <> [] ->
  (forall s, In s (p ++ q) -> ~ mentions "." s /\ ~ mentions "-" s) ->
  (flag_style (dotted p) = flag_style (dotted q) <-> map to_lower (path_words p) = map to_lower (path_words q)).
Proof.
  intros Hp Hq Hc.
  assert (Hw : forall l, l <> [] -> (forall s, In s l -> In s (p ++ q)) ->
     flag_style (dotted l) = String.concat "-" (map to_lower (path_words l)) /\
     map to_lower (path_words l) <> [] /\ forall s, In s (map to_lower (path_words l)) -> ~ mentions "-" s).
  { intros l Hl Hin. split; [|split].
    - apply names_are_words; [intros s Hs; apply Hc, Hin, Hs|exact Hl].
    - pose proof (path_words_nonempty l Hl). destruct (path_words l); [congruence|discriminate].
    - intros s Hs Hm. apply in_map_iff in Hs. destruct Hs as (w & <- & Hs). unfold path_words in Hs.
      apply in_flat_map in Hs. destruct Hs as (seg & Hseg & Hs).
      apply (mentions_map_char _ "-"%char) in Hm; [|intros x; clear; allchars x; vm_compute; congruence].
      apply (words_chars seg) in Hm; [|exact Hs]. apply (Hc seg); [apply Hin; exact Hseg|exact Hm]. }
  destruct (Hw p Hp) as (A1 & A2 & A3); [intros s Hs; apply in_or_app; auto|].
  destruct (Hw q Hq) as (B1 & B2 & B3); [intros s Hs; apply in_or_app; auto|].
  rewrite A1, B1. split; [|intros ->; reflexivity]. apply concat_inj; assumption.
Qed.

Lemma same_env_words p q : p <> [] -> q <> [] ->
  (forall s, In s (p ++ q) -> ~ mentions "." s /\ ~ mentions "_" s) ->
  (env_style (dotted p) = env_style (dotted q) <-> map to_upper (path_words p) = map to_upper (path_words q)).
Proof.
  intros Hp Hq Hc.
  assert (Hw : forall l, l <> [] -> (forall s, In s l -> In s (p ++ q)) ->
     env_style (dotted l) = String.concat "_" (map to_upper (path_words l)) /\
     map to_upper (path_words l) <> [] /\ forall s, In s (map to_upper (path_words l)) -> ~ mentions "_" s).
  { intros l Hl Hin. split; [|split].
    - apply names_are_words; [intros s Hs; apply Hc, Hin, Hs|exact Hl].
    - pose proof (path_words_nonempty l Hl). destruct (path_words l); [congruence|discriminate].
    - intros s Hs Hm. apply in_map_iff in Hs. destruct Hs as (w & <- & Hs). unfold path_words in Hs.
      apply in_flat_map in Hs. destruct Hs as (seg & Hseg & Hs).
      apply (mentions_map_char _ "_"%char) in Hm; [|intros x; clear; allchars x; vm_compute; congruence].
      apply (words_chars seg) in Hm; [|exact Hs]. apply (Hc seg); [apply Hin; exact Hseg|exact Hm]. }
  destruct (Hw p Hp) as (A1 & A2 & A3); [intros s Hs; apply in_or_app; auto|].
  destruct (Hw q Hq) as (B1 & B2 & B3); [intros s Hs; apply in_or_app; auto|].
  rewrite A1, B1. split; [|intros ->; reflexivity]. apply concat_inj; assumption.
Qed.

Lemma one_word_words s : one_word s -> words s = [s].
Proof.
  intros (c & r & -> & _ & Hr & _). clear -Hr. revert c. induction r as [|c' r IH]; intros c; [reflexivity|].
  cbn in Hr. rewrite words_cons2.
  destruct (upper_dec c'); [tauto|]. rewrite IH by tauto. reflexivity.
Qed.

Lemma one_words segs : (forall s, In s segs -> one_word s) -> path_words segs = segs.
Proof.
  intros H. unfold path_words. induction segs as [|s segs IH]; [reflexivity|]. cbn.
  rewrite one_word_words by (apply H; left; reflexivity). cbn. f_equal. apply IH. intros x Hx. apply H. right. exact Hx.
Qed.

Lemma string_inj a b s t : String.String a s = String.String b t -> a = b /\ s = t.
Proof. intros [= -> ->]. auto. Qed.

Lemma to_lower_inj s t : one_word s -> one_word t -> to_lower s = to_lower t -> s = t.
Proof.
  intros (c & r & -> & Hc & Hr & _) (d & u & -> & Hd & Hu & _) H. unfold to_lower in H. cbn [smap_chars] in H.
  apply string_inj in H. destruct H as (H1 & H2). f_equal.
  - apply is_upper_iff in Hc, Hd. rewrite <- !lower_ascii_translate in H1. revert Hc Hd H1. clear.
    unfold lower_ascii. intros -> -> H.
    assert (Hinj : forall x y, (x < 256)%N -> (y < 256)%N -> ascii_of_N x = ascii_of_N y -> x = y).
    { intros x y Hx Hy E. rewrite <- (N_ascii_embedding x Hx), <- (N_ascii_embedding y Hy), E. reflexivity. }
    apply Hinj in H; try (apply N.mod_lt; discriminate).
    pose proof (N_ascii_bounded c). pose proof (N_ascii_bounded d).
    assert (N_of_ascii c = N_of_ascii d).
    { pose proof (N.div_mod (N_of_ascii c + 32) 256). pose proof (N.div_mod (N_of_ascii d + 32) 256).
      pose proof (N.mod_lt (N_of_ascii c + 32) 256). pose proof (N.mod_lt (N_of_ascii d + 32) 256). lia. }
    rewrite <- (ascii_N_embedding c), <- (ascii_N_embedding d). congruence.
  - clear -Hr Hu H2. revert u Hu H2. induction r as [|x r IH]; intros [|y u] Hu H2; cbn [has_char smap_chars] in *; try discriminate; [reflexivity|].
    apply string_inj in H2. destruct H2 as (H1 & H2). rewrite !translate_not_upper in H1 by tauto. f_equal; [exact H1|]. apply IH; tauto.
Qed.

Lemma to_upper_inj s t : one_word s -> one_word t -> to_upper s = to_upper t -> s = t.
Proof.
  intros (c & r & -> & Hc & Hr & _) (d & u & -> & Hd & Hu & _) H. unfold to_upper in H. cbn [smap_chars] in H.
  apply string_inj in H. destruct H as (H1 & H2). rewrite !translate_upper_up in H1 by assumption. f_equal; [exact H1|].
  clear -Hr Hu H2. revert u Hu H2. induction r as [|x r IH]; intros [|y u] Hu H2; cbn [has_char smap_chars] in Hu, Hr, H2; try discriminate; [reflexivity|].
  apply string_inj in H2. destruct H2 as (H1 & H2). f_equal; [|apply IH; tauto].
  assert (Hx : is_upper x = false) by (destruct (is_upper x) eqn:E; [exfalso; apply Hr; left; apply is_upper_iff; exact E|reflexivity]).
  assert (Hy : is_upper y = false) by (destruct (is_upper y) eqn:E; [exfalso; apply Hu; left; apply is_upper_iff; exact E|reflexivity]).
  rewrite <- !upper_ascii_translate in H1. clear -H1 Hx Hy.
  assert (Hinv : forall z, is_upper z = false -> z = if is_upper (upper_ascii z) then lower_ascii (upper_ascii z) else upper_ascii z).
  { clear. intros z. allchars z; vm_compute; congruence. }
  rewrite (Hinv x Hx), (Hinv y Hy), H1. reflexivity.
Qed.

Lemma map_inj_on {A B} (f : A -> B) (P : A -> Prop) l1 : (forall x y, P x -> P y -> f x = f y -> x = y) ->
  forall l2, (forall x, In x l1 -> P x) -> (forall x, In x l2 -> P x) -> map f l1 = map f l2 -> l1 = l2.
Proof.
  intros Hf. induction l1 as [|a l1 IH]; intros [|b l2] H1 H2 H; cbn in *; try discriminate; [reflexivity|].
  injection H as H3 H4. f_equal; [apply Hf; auto|apply IH; auto].
Qed.

Lemma one_word_no_sep s : one_word s -> ~ mentions "." s /\ ~ mentions "-" s /\ ~ mentions "_" s.
Proof.
  intros (c & r & -> & Hc & _ & H1 & H2 & H3). unfold mentions in *. cbn [has_char].
  apply is_upper_iff in Hc.
  repeat split; (intros [->|H]; [discriminate Hc|auto]).
Qed.

Lemma conventional_names_distinct p q : p <> [] -> q <> [] -> (forall s, In s (p ++ q) -> one_word s) ->
  flag_style (dotted p) = flag_style (dotted q) \/ env_style (dotted p) = env_style (dotted q) -> p = q.
Proof.
  intros Hp Hq Hc H.
  assert (H1 : forall s, In s p -> one_word s) by (intros s Hs; apply Hc, in_or_app; auto).
  assert (H2 : forall s, In s q -> one_word s) by (intros s Hs; apply Hc, in_or_app; auto).
  destruct H as [H|H].
  - apply same_flag_words in H; [|assumption|assumption|intros s Hs; pose proof (one_word_no_sep s (Hc s Hs)); tauto].
    rewrite !one_words in H by assumption. exact (map_inj_on _ one_word p to_lower_inj q H1 H2 H).
  - apply same_env_words in H; [|assumption|assumption|intros s Hs; pose proof (one_word_no_sep s (Hc s Hs)); tauto].
    rewrite !one_words in H by assumption. exact (map_inj_on _ one_word p to_upper_inj q H1 H2 H).
Qed.
