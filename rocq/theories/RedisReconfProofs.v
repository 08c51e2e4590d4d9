(** Proofs for RedisReconfProps.v. *)
From Verif Require Import Common Bytes RedisTtlModel RedisTtlSpec RedisTtlProofs RedisReconfSpec.
Local Open Scope string_scope.
Local Open Scope Z_scope.

Section Reconf.
Variables (rk : string) (W T K skew x : Z).
Hypothesis HW : 0 < W.
Hypothesis HT : 0 < T.
Hypothesis Hwin : W * second + 2 * skew <= 2 * T * second.

Let X : Z := x / second.
Let y : Z := x + W * second.

Definition ok (c : call) : Prop :=
  in_sync skew c /\ (counted_under c <> None -> blocked_under c <> rk) /\
  forall p0 p k b m, c_op c = OpShouldBlock p0 p k b m -> counted_under c = Some rk ->
    params_set p0 /\ 0 < p_capacity p <= K /\ p_window p = W /\ p_timeout p = T.

Definition within (c : call) : bool := (x <=? c_ns c) && (c_ns c <=? y).

(** As [bound_inv]; while nothing is counted the list may be of any length. [m]: no later capacity is
    smaller. *)
Definition inv (s : rstore) (N m now : Z) : Prop :=
  (s rk = None \/ exists l e, s rk = Some (Entry (RList l) (Some e)) /\ (N <= 0 \/ Z.of_nat (length l) <= m)) /\
  (N <= 0 \/
   (exists l e c0, s rk = Some (Entry (RList l) (Some e)) /\ N <= recent X l /\
      in_sync skew c0 /\ within c0 = true /\ c_t c0 + T * 2000 <= e /\ c_t c0 <= now) \/
   (N <= K /\ exists c0, in_sync skew c0 /\ within c0 = true /\ c_t c0 + T * 2000 < now)).

Lemma inv_cap s N m now : 0 <= K -> m <= K -> inv s N m now -> N <= K.
Proof.
  intros HK Hm (H1 & [H|[(l & e & c0 & A & B & _)|(H & _)]]); [lia| |exact H].
  destruct H1 as [H1|(l' & e' & H1 & H2)]; [congruence|]. rewrite A in H1. injection H1 as <- <-.
  pose proof (count_le_length (fun r => X <=? r) l). unfold recent in B. lia.
Qed.

Lemma inv_later s N m now m' now' : inv s N m now -> m <= m' -> now <= now' -> inv s N m' now'.
Proof.
  intros (H1 & H2) Hm Hle. split.
  - destruct H1 as [H1|(l & e & H1 & H3)]; [left; exact H1|]. right. exists l, e. split; [exact H1|]. lia.
  - destruct H2 as [H|[(l & e & c0 & A & B & C & D & F & G)|(H & c0 & A & B & C)]]; [left; exact H| |].
    + right. left. exists l, e, c0. do 5 (split; [assumption|]). lia.
    + right. right. split; [exact H|]. exists c0. do 2 (split; [assumption|]). lia.
Qed.

Lemma over c0 c : in_sync skew c0 -> within c0 = true -> in_sync skew c ->
  c_t c0 + T * 2000 < c_t c -> within c = false.
Proof.
  unfold in_sync, within, second in *. intros (A0 & A1 & A2) B (C0 & C1 & C2) D.
  apply andb_true_iff in B. destruct B as (B1 & B2). apply Z.leb_le in B1, B2.
  apply andb_false_iff. right. apply Z.leb_gt. unfold y, second in *. lia.
Qed.

Lemma secs_within c : in_sync skew c -> within c = true -> X <= client_secs c <= X + W.
Proof.
  unfold in_sync, within, client_secs, X, y. intros (A & _) B.
  apply andb_true_iff in B. destruct B as (B1 & B2). apply Z.leb_le in B1, B2.
  unfold second in *. rewrite Z.quot_div_nonneg by lia.
  split; [apply Z.div_le_mono; lia|].
  rewrite <- Z.div_add by lia. apply Z.div_le_mono; lia.
Qed.

Lemma rec_app l1 l2 : recent X (l1 ++ l2) = recent X l1 + recent X l2.
Proof. apply count_app. Qed.
Lemma rec_one r : recent X [r] = if X <=? r then 1 else 0.
Proof. unfold recent. cbn. destruct (X <=? r); reflexivity. Qed.

Lemma rec_nonneg l : 0 <= recent X l.
Proof. unfold recent. pose proof (count_nonneg (fun r => X <=? r) l). lia. Qed.

(** A pass leaves a list that is not too long and that has the new record. *)
Lemma passed_any cap now l l' : 0 < cap -> passed_list cap W now l = Some l' ->
  Z.of_nat (length l') <= cap /\ (X <= now -> 1 <= recent X l').
Proof.
  intros Hc. unfold passed_list. destruct (Z.ltb_spec (Z.of_nat (length l)) cap) as [Hlt|Hge].
  - intros [= <-]. rewrite app_length, rec_app, rec_one. cbn [length]. pose proof (rec_nonneg l).
    split; [lia|]. intros Hx. destruct (Z.leb_spec X now); lia.
  - pose proof (skipn_length (Z.to_nat (Z.of_nat (length l) - cap)) l) as Hl.
    destruct (skipn _ l) as [|o r].
    + intros [= <-]. rewrite rec_one. cbn [length]. split; [lia|]. intros Hx. destruct (Z.leb_spec X now); lia.
    + destruct (Z.ltb_spec W (now - o)); [|discriminate]. intros [= <-].
      rewrite app_length, rec_app, rec_one. cbn [length] in *. pose proof (rec_nonneg r).
      split; [lia|]. intros Hx. destruct (Z.leb_spec X now); lia.
Qed.

Lemma passed_short cap now l l' : 0 < cap -> Z.of_nat (length l) <= cap -> passed_list cap W now l = Some l' ->
  recent X l + (if (X <=? now) && (now <=? X + W) then 1 else 0) <= recent X l' /\ recent X l <= recent X l'.
Proof.
  intros Hc Hl. unfold passed_list.
  destruct (Z.ltb_spec (Z.of_nat (length l)) cap) as [Hlt|Hge].
  - intros [= <-]. rewrite rec_app, rec_one.
    destruct (Z.leb_spec X now), (Z.leb_spec now (X + W)); cbn [andb]; lia.
  - replace (Z.to_nat (Z.of_nat (length l) - cap)) with 0%nat by lia. cbn [skipn].
    destruct l as [|o r]; [cbn [length] in Hge; lia|].
    destruct (Z.ltb_spec W (now - o)); [|discriminate]. intros [= <-].
    rewrite rec_app, rec_one.
    change (recent X (o :: r)) with ((if X <=? o then 1 else 0) + recent X r).
    destruct (Z.leb_spec X now), (Z.leb_spec now (X + W)), (Z.leb_spec X o); cbn [andb]; lia.
Qed.

(** The capacity that counts for [rk], if the call has one. *)
Definition cap_of (c : call) (m : Z) : Z :=
  match c_op c, counted_under c with
  | OpShouldBlock _ p _ _ _, Some k => if (k =? rk)%string then p_capacity p else m
  | _, _ => m
  end.

Lemma step c s N m : ok c -> inv s N m (c_t c) -> m <= cap_of c m -> m <= K ->
  inv (fst (do_call c s))
    (N + (match counted_under c, c_net c, snd (do_call c s) with
          | Some k, NetOk, Returned (Result false _ _ _) =>
            if (k =? rk)%string && (x <=? c_ns c) && (c_ns c <=? y) then 1 else 0
          | _, _, _ => 0
          end)) (cap_of c m) (c_t c) \/
  (counted_under c = Some rk /\ exists l w, live (c_t c) s (blocked_under c) = Some (Entry (RList l) w)).
Proof.
  intros (Hsync & Hbk & Hpar) HI0 Hm HmK.
  assert (HI : inv s N (cap_of c m) (c_t c)) by (apply (inv_later _ _ _ _ _ _ HI0); lia).
  destruct (do_call_case c s) as [E Eo Hwhy|m' w E L Hn He Eo|p0 p k0 b m' l' e Hop Hp0 Hp LB L HN PL PUT Hn Eo|p0 p k0 b m' l w s1 Hop Hp0 Hp LB HK Ha PL P1 P2 Hn Eo].
  - rewrite E, Eo. cbn [zero_result].
    destruct (counted_under c) as [k|] eqn:Ec; [|left; rewrite Z.add_0_r; exact HI].
    destruct (String.eqb_spec k rk) as [->|Hk]; [|left; destruct (c_net c); cbn [andb]; rewrite Z.add_0_r; exact HI].
    destruct (c_net c) eqn:Enet; [|left; rewrite Z.add_0_r; exact HI..].
    destruct Hwhy as [H|[H|[(l & w & H)|[(_ & H)|(k & m' & w & H & _ & H2)]]]]; try congruence.
    + exfalso. apply H. unfold effective. rewrite Enet. split; [reflexivity|].
      unfold counted_under in Ec. destruct (c_op c) as [p0 p k b m'|b] eqn:Eop; [|discriminate].
      destruct (Hpar p0 p k b m' eq_refl) as (A & B & C & D); [reflexivity|]. split; [exact A|].
      unfold params_set. lia.
    + right. split; [reflexivity|]. exists l, w. exact H.
    + exfalso. injection H as <-. apply live_some in H2. destruct H2 as (H2 & _).
      destruct HI as ([HI|(l & e & HI & _)] & _); congruence.
  - left. rewrite E, Eo. destruct (counted_under c), (c_net c); rewrite Z.add_0_r; exact HI.
  - left. rewrite Eo. cbn [zero_result].
    assert (Ec : counted_under c = Some ("_rl:" ++ k0 ++ l_hash_tag (c_lim c))) by (unfold counted_under; rewrite Hop; reflexivity).
    assert (Ecap : cap_of c m = if ("_rl:" ++ k0 ++ l_hash_tag (c_lim c) =? rk)%string then p_capacity p else m)
      by (unfold cap_of; rewrite Hop, Ec; reflexivity).
    rewrite Ec. set (key := "_rl:" ++ k0 ++ l_hash_tag (c_lim c)) in *.
    destruct (String.eqb_spec key rk) as [Ek|Hne].
    2:{ replace (N + _) with N by (destruct (c_net c); cbn [andb]; lia).
        destruct HI as (A & B). unfold inv. rewrite (put_other _ _ _ _ _ PUT) by congruence. split; assumption. }
    destruct (Hpar p0 p k0 b m' Hop) as (_ & Hc & Hw & Ht); [rewrite Ec, Ek; reflexivity|].
    rewrite Hw in PL. rewrite Ht in PUT. rewrite Ek in *. rewrite Ecap in *. clear Hp0 Hp. set (cap := p_capacity p) in *.
    set (d := match c_net c with NetOk => if true && (x <=? c_ns c) && (c_ns c <=? y) then 1 else 0 | _ => 0 end).
    assert (Hd : 0 <= d <= if within c then 1 else 0).
    { unfold d, within. cbn [andb]. destruct (c_net c), ((x <=? c_ns c) && (c_ns c <=? y)); lia. }
    destruct (passed_any cap _ _ _ (proj1 Hc) PL) as (R1 & R0).
    assert (Hin0 : within c = true -> 1 <= recent X l').
    { intros Hi. destruct (secs_within c Hsync Hi) as (S1 & S2). apply R0, S1. }
    split.
    + right. exists l', (c_t c + T * 2 * 1000). split; [apply (put_same _ _ _ _ PUT)|right; exact R1].
    + destruct HI as (HI1 & [H|[(l & e0 & c0 & A & B & C & D & F & G)|(H & c0 & A & B & C)]]).
      * destruct (within c) eqn:Ei; [|left; lia].
        destruct (Z.leb_spec (N + d) 0); [left; assumption|]. right. left.
        exists l', (c_t c + T * 2 * 1000), c. split; [apply (put_same _ _ _ _ PUT)|].
        specialize (Hin0 eq_refl). split; [lia|split; [exact Hsync|split; [exact Ei|lia]]].
      * destruct (Z.leb_spec N 0) as [HN0|HN0].
        { destruct (within c) eqn:Ei; [|left; lia].
          destruct (Z.leb_spec (N + d) 0); [left; assumption|]. right. left.
          exists l', (c_t c + T * 2 * 1000), c. split; [apply (put_same _ _ _ _ PUT)|].
          specialize (Hin0 eq_refl). split; [lia|split; [exact Hsync|split; [exact Ei|lia]]]. }
        assert (Hl : Z.of_nat (length l) <= cap).
        { destruct HI1 as [HI1|(l2 & e2 & HI1 & HI2)]; [congruence|]. rewrite A in HI1. injection HI1 as <- <-. lia. }
        unfold live in L. rewrite A in L. cbn [e_exp] in L. destruct (Z.ltb_spec e0 (c_t c)) as [Hex|Hex].
        -- assert (Hover : within c = false) by (apply (over c0); auto; lia).
           rewrite Hover in Hd. right. right. split.
           ++ pose proof (count_le_length (fun r => X <=? r) l). unfold recent in B. lia.
           ++ exists c0. do 2 (split; [assumption|]). lia.
        -- subst e. cbn [list_of] in *. destruct (passed_short cap _ _ _ (proj1 Hc) Hl PL) as (R2 & R3).
           right. left. exists l', (c_t c + T * 2 * 1000).
           destruct (within c) eqn:Ei.
           ++ exists c. split; [apply (put_same _ _ _ _ PUT)|].
              destruct (secs_within c Hsync Ei) as (S1 & S2).
              destruct (Z.leb_spec X (client_secs c)); [|lia]. destruct (Z.leb_spec (client_secs c) (X + W)); [|lia].
              cbn [andb] in R2. split; [lia|]. split; [exact Hsync|]. split; [exact Ei|lia].
           ++ exists c0. split; [apply (put_same _ _ _ _ PUT)|]. split; [lia|]. split; [exact C|]. split; [exact D|]. lia.
      * assert (Hover : within c = false) by (apply (over c0); auto).
        rewrite Hover in Hd. right. right. split; [lia|]. exists c0. auto.
  - left.
    assert (Hbk' : blocked_under c <> rk) by (apply Hbk; unfold counted_under; rewrite Hop; discriminate).
    assert (Hz : inv (fst (do_call c s)) N (cap_of c m) (c_t c)).
    { unfold inv. rewrite (put_other _ _ _ _ _ P2) by congruence. rewrite (P1 rk).
      destruct (String.eqb_spec rk ("_rl:" ++ k0 ++ l_hash_tag (c_lim c))) as [Ek|]; [|exact HI].
      assert (Ecap : cap_of c m = p_capacity p).
      { unfold cap_of, counted_under. rewrite Hop, <- Ek, String.eqb_refl. reflexivity. }
      rewrite Ecap in *. rewrite <- Ek in HK.
      destruct HI as ([HI|(l2 & e2 & HI & HL)] & HI2); [congruence|].
      rewrite HK in HI. injection HI as <- ->.
      destruct (Z.leb_spec N 0) as [HN0|HN0].
      - split; [|left; exact HN0]. right. eexists _, e2. split; [reflexivity|]. left. exact HN0.
      - assert (Hl : Z.of_nat (length l) <= p_capacity p) by lia.
        replace (Z.to_nat (Z.of_nat (length l) - p_capacity p)) with 0%nat by lia. cbn [skipn].
        split; [right; exists l, e2; split; [reflexivity|right; exact Hl]|].
        rewrite HK in HI2. exact HI2. }
    rewrite Eo. destruct (counted_under c), (c_net c); rewrite Z.add_0_r; exact Hz.
Qed.

Lemma pin_cons c o h : passes_in rk x y ((c, o) :: h) =
  (match counted_under c, c_net c, o with
   | Some k, NetOk, Returned (Result false _ _ _) =>
     if (k =? rk)%string && (x <=? c_ns c) && (c_ns c <=? y) then 1 else 0
   | _, _, _ => 0
   end) + passes_in rk x y h.
Proof.
  unfold passes_in. cbn [count].
  destruct (counted_under c); [|reflexivity]. destruct (c_net c); try reflexivity.
  destruct o as [[[] ? ? ?]|]; reflexivity.
Qed.

Lemma run cs : forall done s N m now, 0 <= K -> m <= K ->
  separate (done ++ cs) -> Forall ok cs -> nondecreasing (now :: map c_t cs) ->
  nondecreasing (m :: capacities rk cs) ->
  lists_counted done s -> inv s N m now ->
  N + passes_in rk x y (combine cs (snd (do_calls cs s))) <= K.
Proof.
  induction cs as [|c cs IH]; intros done s N m now HK0 Hm HS HG HM HC HL HI.
  - cbn. rewrite Z.add_0_r. apply (inv_cap s N m now HK0 Hm HI).
  - inversion HG as [|? ? G1 G2]; subst. cbn [map nondecreasing] in HM. destruct HM as (M1 & M2).
    assert (Hnow : now <= c_t c) by (inversion M1; assumption).
    assert (Hcap : m <= cap_of c m <= K /\ nondecreasing (cap_of c m :: capacities rk cs)).
    { unfold capacities in HC. cbn [flat_map] in HC. unfold cap_of.
      destruct (c_op c) as [p0 p k b m'|b] eqn:Eop; [|split; [lia|exact HC]].
      destruct (counted_under c) as [k'|] eqn:Ec; [|split; [lia|exact HC]].
      destruct (String.eqb_spec k' rk) as [->|]; [|split; [lia|exact HC]].
      cbn [app nondecreasing] in HC. destruct HC as (C1 & C2). split; [|exact C2].
      inversion C1; subst. destruct G1 as (_ & _ & G1). destruct (G1 p0 p k b m' Eop Ec) as (_ & ? & _). lia. }
    destruct Hcap as (Hcap & HC').
    rewrite do_calls_cons. cbn [snd combine]. rewrite pin_cons, Z.add_assoc.
    destruct (step c s N m G1 (inv_later _ _ _ _ _ _ HI (Z.le_refl m) Hnow) (proj1 Hcap) Hm) as [HI'|(Hc & l & w & L)].
    + apply (IH (done ++ [c])%list (fst (do_call c s)) _ (cap_of c m) (c_t c)).
      * exact HK0.
      * lia.
      * rewrite <- app_assoc. exact HS.
      * exact G2.
      * exact M2.
      * exact HC'.
      * apply lists_counted_call. exact HL.
      * exact HI'.
    + exfalso. apply live_some in L. destruct L as (L & _). apply HL in L. destruct L as (d & D1 & D2).
      apply (HS d c); [apply in_or_app; left; exact D1|apply in_or_app; right; left; reflexivity|congruence|exact D2].
Qed.
End Reconf.

(** What any calls leave under a key that only counts. *)
Definition tidy (rk : string) (s : rstore) : Prop :=
  s rk = None \/ exists l e, s rk = Some (Entry (RList l) (Some e)).

Lemma tidy_call rk c s : (counted_under c <> None -> blocked_under c <> rk) -> tidy rk s -> tidy rk (fst (do_call c s)).
Proof.
  intros Hb H.
  destruct (do_call_case c s) as [E|? ? E|? ? k0 ? ? ? ? Hop ? ? ? L HN ? PUT|? ? k0 b ? l w s1 Hop ? ? ? HK ? ? P1 P2].
  - rewrite E. exact H.
  - rewrite E. exact H.
  - unfold tidy. rewrite (PUT rk). destruct (String.eqb_spec rk ("_rl:" ++ k0 ++ l_hash_tag (c_lim c))); [|exact H].
    right. eexists _, _. reflexivity.
  - assert (Hb' : blocked_under c <> rk) by (apply Hb; unfold counted_under; rewrite Hop; discriminate).
    unfold tidy. rewrite (put_other _ _ _ _ _ P2) by congruence. rewrite (P1 rk).
    destruct (String.eqb_spec rk ("_rl:" ++ k0 ++ l_hash_tag (c_lim c))) as [Ek|]; [|exact H].
    rewrite <- Ek in HK. destruct H as [H|(l' & e & H)]; [congruence|]. rewrite HK in H. injection H as _ ->.
    right. eexists _, _. reflexivity.
Qed.

Lemma tidy_run rk pre : forall done s, (forall c, In c pre -> counted_under c <> None -> blocked_under c <> rk) ->
  tidy rk s -> lists_counted done s ->
  tidy rk (fst (do_calls pre s)) /\ lists_counted (done ++ pre) (fst (do_calls pre s)).
Proof.
  induction pre as [|c pre IH]; intros done s HB HT HL.
  - cbn. rewrite app_nil_r. split; assumption.
  - rewrite do_calls_cons. cbn [fst]. destruct (IH (done ++ [c])%list (fst (do_call c s))) as (A & B).
    + intros d Hd. apply HB. right. exact Hd.
    + apply tidy_call; [apply HB; left; reflexivity|exact HT].
    + apply lists_counted_call. exact HL.
    + rewrite <- app_assoc in B. split; assumption.
Qed.

Lemma nobody rk x y cs : forall os, (forall c, In c cs -> counted_under c <> Some rk) ->
  passes_in rk x y (combine cs os) = 0.
Proof.
  unfold passes_in. induction cs as [|c cs IH]; intros os H; [reflexivity|].
  destruct os as [|o os]; [reflexivity|]. cbn [combine count]. rewrite IH by (intros d Hd; apply H; right; exact Hd).
  assert (Hc : counted_under c <> Some rk) by (apply H; left; reflexivity).
  destruct (counted_under c) as [k|]; [|reflexivity].
  destruct (String.eqb_spec k rk) as [->|]; [congruence|]. destruct (c_net c); try reflexivity.
  destruct o as [[[] ? ? ?]|]; reflexivity.
Qed.

Lemma reconf rk W T K skew pre cs x :
  0 < W -> 0 < T -> 0 <= K -> W * second + 2 * skew <= 2 * T * second ->
  separate (pre ++ cs) -> nondecreasing (map c_t cs) -> Forall (in_sync skew) cs ->
  settled rk W T K cs -> nondecreasing (capacities rk cs) ->
  passes_in rk x (x + W * second) (answers_after pre cs) <= K.
Proof.
  intros HW HT HK Hw HS HM HF HC HN. unfold answers_after.
  destruct (existsb (fun c => match counted_under c with Some k => (k =? rk)%string | None => false end) cs) eqn:Eex.
  - apply existsb_exists in Eex. destruct Eex as (c1 & Hin1 & Hc1).
    assert (Hc1' : counted_under c1 = Some rk).
    { destruct (counted_under c1) as [k|]; [|discriminate]. apply String.eqb_eq in Hc1. congruence. }
    assert (HB : forall c, In c (pre ++ cs) -> counted_under c <> None -> blocked_under c <> rk).
    { intros d Hd Hn E. apply (HS c1 d); [apply in_or_app; right; exact Hin1|exact Hd|exact Hn|congruence]. }
    destruct (tidy_run rk pre [] mempty) as (A & B).
    { intros c Hc. apply HB. apply in_or_app. left. exact Hc. }
    { left. reflexivity. }
    { intros k l w [=]. }
    cbn [app] in B.
    destruct cs as [|c cs0] eqn:Ecs; [destruct Hin1|]. rewrite <- Ecs in *.
    match goal with |- ?a <= K => change a with (0 + a) end.
    apply (run rk W T K skew x HW HT Hw cs pre (fst (do_calls pre mempty)) 0 (Z.min K (hd K (capacities rk cs))) (c_t c)); try assumption.
    + lia.
    + apply Forall_forall. intros d Hd. rewrite Forall_forall in HF. split; [apply HF; exact Hd|]. split.
      * apply HB. apply in_or_app. right. exact Hd.
      * intros p0 p k b m Hop Hcu. apply (HC d p0 p k b m Hd Hop Hcu).
    + subst cs. cbn [map] in *. destruct HM as (M1 & M2). split; [constructor; [lia|exact M1]|]. split; assumption.
    + destruct (capacities rk cs) as [|a l] eqn:El; [split; [constructor|exact I]|]. cbn [hd].
      split; [|exact HN]. destruct HN as (H1 & _). constructor; [lia|].
      eapply Forall_impl; [|exact H1]. cbn. intros z Hz. lia.
    + split; [|left; lia]. destruct A as [A|(l & e & A)]; [left; exact A|].
      right. exists l, e. split; [exact A|]. left. lia.
  - rewrite nobody; [exact HK|]. intros c Hc E.
    assert (Ht : existsb (fun c => match counted_under c with Some k => (k =? rk)%string | None => false end) cs = true).
    { apply existsb_exists. exists c. split; [exact Hc|]. rewrite E. apply String.eqb_refl. }
    congruence.
Qed.

(** ** A capacity that goes down and up again *)

Lemma skipn_repeat {A} (a : A) m : forall n, skipn m (repeat a n) = repeat a (n - m).
Proof.
  induction m as [|m IH]; intros [|n]; cbn [skipn repeat Nat.sub]; try reflexivity. apply IH.
Qed.

Lemma up_down P : params_set P -> 2 <= p_capacity P -> p_timeout P < p_window P ->
  exists cs, separate cs /\ nondecreasing (map c_t cs) /\ Forall (in_sync 0) cs /\
    (forall c, In c cs -> c_lim c = new_limiter /\ c_net c = NetOk /\
       exists p, c_op c = OpShouldBlock p p "k" "k" "m" /\ (p = P \/ p = Params 1 (p_window P) (p_timeout P))) /\
    passes_in "_rl:k" 0 (p_window P * second) (combine cs (snd (do_calls cs mempty))) = p_capacity P + 1.
Proof.
  intros HP H2 Hw. pose proof HP as (Hc & Hwin & Hto).
  set (n := Z.to_nat (p_capacity P)). set (t := p_timeout P * 1000 + 1).
  set (Q := Params 1 (p_window P) (p_timeout P)).
  exists (repeat (burst P 0) n ++ [burst Q 0; burst P t])%list.
  assert (Hall : forall c, In c (repeat (burst P 0) n ++ [burst Q 0; burst P t]) -> c = burst P 0 \/ c = burst Q 0 \/ c = burst P t).
  { intros c Hin. apply in_app_or in Hin. destruct Hin as [Hin|[<-|[<-|[]]]]; [left; apply repeat_all in Hin; exact Hin|auto..]. }
  split; [|split; [|split; [|split]]].
  - intros c1 c2 H1 H3 _. destruct (Hall c1 H1) as [->|[->| ->]], (Hall c2 H3) as [->|[->| ->]]; discriminate.
  - rewrite map_app, map_repeat'. cbn [map burst c_t]. change [0; t] with ([0] ++ [t])%list. rewrite app_assoc.
    replace (repeat 0 n ++ [0])%list with (repeat 0 (S n)) by (apply (repeat_cons n 0)).
    apply nondecreasing_repeat. unfold t. lia.
  - apply Forall_forall. intros c Hin. unfold in_sync. destruct (Hall c Hin) as [->|[->| ->]]; cbn; unfold t; lia.
  - intros c Hin. destruct (Hall c Hin) as [->|[->| ->]]; (split; [reflexivity|]); (split; [reflexivity|]);
      eexists; (split; [reflexivity|]); auto.
  - destruct (burst_run P n HP) as (A & B & _ & D); [unfold n; lia|].
    specialize (D ltac:(unfold n; lia)).
    rewrite do_calls_app. cbn [snd]. rewrite A.
    rewrite combine_app' by (rewrite !repeat_length; reflexivity).
    set (s := fst (do_calls (repeat (burst P 0) n) mempty)) in *. rewrite combine_repeat.
    unfold passes_in. rewrite count_app, count_repeat.
    2:{ cbn. destruct (Z.leb_spec 0 (p_window P * second)); [reflexivity|]. unfold second in *. lia. }
    rewrite !do_calls_cons. cbn [do_calls fst snd combine count].
    assert (HB : live 0 s "k:bl" = None) by (unfold live; rewrite B; reflexivity).
    assert (HK : live 0 s "_rl:k" = Some (Entry (RList (repeat 0 n)) (Some (p_timeout P * 2 * 1000)))).
    { apply (live_at 0 s _ _ _ D). lia. }
    assert (HN : passed_list 1 (p_window P) 0 (repeat 0 n) = None).
    { unfold passed_list. rewrite repeat_length. destruct (Z.ltb_spec (Z.of_nat n) 1); [unfold n in *; lia|].
      rewrite skipn_repeat. replace (n - Z.to_nat (Z.of_nat n - 1))%nat with 1%nat by (unfold n in *; lia).
      cbn [repeat]. destruct (Z.ltb_spec (p_window P) (0 - 0)); [lia|reflexivity]. }
    assert (HT : snd (do_call (burst Q 0) s) = Returned (Result true true (p_timeout P) "m") /\
        (fst (do_call (burst Q 0) s)) "k:bl" = Some (Entry (RStr "m") (Some (p_timeout P * 1000))) /\
        (fst (do_call (burst Q 0) s)) "_rl:k" = Some (Entry (RList [0]) (Some (p_timeout P * 2 * 1000)))).
    { destruct (do_call_case (burst Q 0) s) as [E Eo Hwhy|m w E L Hnet He Eo|p0 p k0 b m l' e Hop Hp0 Hp LB L HN' PL PUT Hnet Eo|p0 p k0 b m l w s1 Hop Hp0 Hp LB HK' Ha PL P1 P2 Hnet Eo].
      - exfalso. cbn in Hwhy. destruct Hwhy as [H|[H|[(l & w & H)|[(_ & H)|(k & m & w & H & _ & H3)]]]]; try congruence; first
          [apply H; split; [reflexivity|]; split; unfold params_set, Q; cbn; lia|injection H as <-; congruence].
      - exfalso. cbn in L. congruence.
      - exfalso. injection Hop as <- <- <- <- <-. cbn in L. rewrite HK in L. subst e. cbn [list_of] in PL.
        change (client_secs (burst Q 0)) with 0 in PL. cbn [Q p_capacity p_window] in PL. congruence.
      - injection Hop as <- <- <- <- <-. cbn in HK', P1, P2. rewrite D in HK'. injection HK' as <- <-.
        rewrite Eo. cbn [burst c_net]. split; [reflexivity|]. split; [apply (put_same _ _ _ _ P2)|].
        rewrite (put_other _ _ _ _ _ P2) by discriminate. rewrite (put_same _ _ _ _ P1).
        rewrite repeat_length, skipn_repeat. replace (n - Z.to_nat (Z.of_nat n - 1))%nat with 1%nat by (unfold n in *; lia).
        reflexivity. }
    destruct HT as (T1 & T2 & T3). rewrite T1. set (s1 := fst (do_call (burst Q 0) s)) in *.
    assert (Hs : snd (do_call (burst P t) s1) = Returned zero_result).
    { assert (HB1 : live t s1 "k:bl" = None).
      { unfold live. rewrite T2. cbn [e_exp]. destruct (Z.ltb_spec (p_timeout P * 1000) t); [reflexivity|unfold t in *; lia]. }
      destruct (do_call_case (burst P t) s1) as [E Eo Hwhy|m w E L Hnet He Eo|p0 p k0 b m l' e Hop Hp0 Hp LB L HN' PL PUT Hnet Eo|p0 p k0 b m l w s2 Hop Hp0 Hp LB HK' Ha PL P1 P2 Hnet Eo].
      - exact Eo.
      - exfalso. cbn in L. congruence.
      - exact Eo.
      - exfalso. injection Hop as <- <- <- <- <-. cbn in HK'. rewrite T3 in HK'. injection HK' as <- <-.
        unfold passed_list in PL. cbn [length] in PL. destruct (Z.ltb_spec (Z.of_nat 1) (p_capacity P)); [discriminate|lia]. }
    rewrite Hs. cbn [zero_result counted_under burst c_op c_net c_ns c_lim].
    destruct (Z.leb_spec 0 (t * 1000000)); [|unfold t in *; lia].
    destruct (Z.leb_spec (t * 1000000) (p_window P * second)); [|unfold t, second in *; lia].
    cbn. unfold n. lia.
Qed.
