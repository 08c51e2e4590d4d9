(** Proofs for RedisLapseProps.v. *)
From Verif Require Import Common Bytes RedisTtlModel RedisTtlSpec RedisTtlProofs RedisReconfSpec RedisReconfProofs
  RedisLapseModel RedisLapseSpec.
Local Open Scope string_scope.
Local Open Scope Z_scope.

Lemma serve_cons c es h : do_events (Serve c :: es) h =
  (fst (do_events es (fst (do_call c (current h)) :: h)),
   (c, snd (do_call c (current h))) :: snd (do_events es (fst (do_call c (current h)) :: h))).
Proof. cbn [do_events]. destruct (do_call c (current h)) as (s, o). cbn [fst snd]. destruct (do_events es (s :: h)). reflexivity. Qed.

Lemma lapse_cons t back es h : do_events (Lapse t back :: es) h = do_events es (lapsed back h :: h).
Proof. reflexivity. Qed.

Lemma do_events_app es1 : forall es2 h,
  do_events (es1 ++ es2) h =
  (fst (do_events es2 (fst (do_events es1 h))), (snd (do_events es1 h) ++ snd (do_events es2 (fst (do_events es1 h))))%list).
Proof.
  induction es1 as [|[c|t back] es1 IH]; intros es2 h.
  - cbn [app do_events fst snd]. destruct (do_events es2 h); reflexivity.
  - cbn [app]. rewrite !serve_cons, IH. reflexivity.
  - cbn [app]. rewrite !lapse_cons. apply IH.
Qed.

(** ** What holds of each key after every event *)

Section Keys.
(** [Q r k e]: key [k] may hold [e] after the returns [r]. *)
Variable Q : list (call * outcome) -> string -> rentry -> Prop.
Hypothesis Qmono : forall r co k e, Q r k e -> Q (r ++ [co]) k e.
Hypothesis Qcall : forall r s c, (forall k e, s k = Some e -> Q r k e) ->
  forall k e, fst (do_call c s) k = Some e -> Q (r ++ [(c, snd (do_call c s))])%list k e.

Definition all_keys (r : list (call * outcome)) (h : history) : Prop :=
  Forall (fun s : rstore => forall k e, s k = Some e -> Q r k e) h.

Lemma all_nth r h n : all_keys r h -> forall k e, nth n h mempty k = Some e -> Q r k e.
Proof.
  intros H. revert n. induction H as [|s h Hs Hh IH]; intros n; [destruct n; intros k e [=]|].
  destruct n as [|n]; [exact Hs|apply IH].
Qed.

Lemma all_lapsed r h back : all_keys r h -> all_keys r (lapsed back h :: h).
Proof.
  intros H. constructor; [|exact H]. intros k e. unfold lapsed. destruct (back k) as [n|]; [|discriminate]. apply (all_nth r h n H).
Qed.

Lemma all_served r h c : all_keys r h ->
  all_keys (r ++ [(c, snd (do_call c (current h)))])%list (fst (do_call c (current h)) :: h).
Proof.
  intros H. constructor.
  - apply Qcall. apply (all_nth r h 0 H).
  - eapply Forall_impl; [|exact H]. cbn. intros s Hs k e E. apply Qmono, Hs, E.
Qed.

Lemma all_events es : forall r h, all_keys r h -> all_keys (r ++ snd (do_events es h))%list (fst (do_events es h)).
Proof.
  induction es as [|[c|t back] es IH]; intros r h H.
  - cbn. rewrite app_nil_r. exact H.
  - rewrite serve_cons. cbn [fst snd]. specialize (IH _ _ (all_served r h c H)). rewrite <- app_assoc in IH. exact IH.
  - rewrite lapse_cons. apply IH, all_lapsed, H.
Qed.

Lemma all_current es : forall k e, current (fst (do_events es [])) k = Some e -> Q (snd (do_events es [])) k e.
Proof.
  intros k e. unfold current. apply (all_nth _ _ 0). apply (all_events es [] []). constructor.
Qed.
End Keys.

Lemma calls_returns es : forall h, map fst (snd (do_events es h)) = calls_of es.
Proof.
  induction es as [|[c|t back] es IH]; intros h; [reflexivity|rewrite serve_cons; cbn; f_equal; apply IH|].
  rewrite lapse_cons. apply IH.
Qed.

(** ** Blocks stem from triggers *)

Definition genuine (r : list (call * outcome)) (k : string) (e : rentry) : Prop :=
  forall m w, e = Entry (RStr m) w ->
  exists d o p0 p k0 b, In (d, o) r /\ c_op d = OpShouldBlock p0 p k0 b m /\ blocked_under d = k /\ 0 < p_timeout p /\
    w = Some (c_t d + timeout_ms d) /\ (triggered o m (p_timeout p) \/ c_net d = NetLostReply).

Lemma genuine_mono r co k e : genuine r k e -> genuine (r ++ [co]) k e.
Proof.
  intros H m w E. destruct (H m w E) as (d & o & p0 & p & k0 & b & A & B). exists d, o, p0, p, k0, b.
  split; [apply in_or_app; left; exact A|exact B].
Qed.

Lemma genuine_call r s c : (forall k e, s k = Some e -> genuine r k e) ->
  forall k e, fst (do_call c s) k = Some e -> genuine (r ++ [(c, snd (do_call c s))]) k e.
Proof.
  intros H k e.
  assert (HW : forall e, s k = Some e -> genuine (r ++ [(c, snd (do_call c s))]) k e).
  { intros e1 E. apply genuine_mono. apply H, E. }
  destruct (do_call_case c s) as [E|? ? E|? ? k0 ? ? ? ? Hop ? ? ? L HN ? PUT|p0 p k0 b msg l w s1 Hop ? Hp LB HK Ha PL P1 P2 Hn Eo].
  - rewrite E. apply HW.
  - rewrite E. apply HW.
  - rewrite (PUT k). destruct (k =? _)%string; [|apply HW]. intros [= <-] m' w' [=].
  - rewrite (P2 k). destruct (String.eqb_spec k (blocked_under c)) as [->|].
    + intros [= <-] m' w' [= <- <-]. exists c, (snd (do_call c s)), p0, p, k0, b.
      split; [apply in_or_app; right; left; reflexivity|]. split; [exact Hop|]. split; [reflexivity|]. split; [apply Hp|].
      split; [unfold timeout_ms; rewrite Hop; reflexivity|]. rewrite Eo. unfold triggered.
      destruct (c_net c); [left; reflexivity|congruence|right; reflexivity].
    + rewrite (P1 k). destruct (k =? _)%string; [|apply HW]. intros [= <-] m' w' [=].
Qed.

Lemma block_genuine es c m ttl : still_blocked (then_returns es c) m ttl ->
  exists d o p0 p k b, In (d, o) (returns_after [] es) /\ c_op d = OpShouldBlock p0 p k b m /\
    blocked_under d = blocked_under c /\ (triggered o m (p_timeout p) \/ c_net d = NetLostReply) /\
    c_t c <= c_t d + p_timeout p * 1000 /\ ttl = rounded_left (c_t c) (c_t d + p_timeout p * 1000).
Proof.
  unfold then_returns, returns_after. cbn [do_events fst]. set (s := current (fst (do_events es []))).
  intros Hb. unfold still_blocked in Hb.
  destruct (do_call_case c s) as [E Eo Hwhy|m1 w E L Hn He Eo|q0 q k0 b0 m0 l' e Hop' Hp0 Hp LB L HNS PL PUT Hn Eo|q0 q k0 b0 m0 l w s1 Hop' Hp0 Hp LB HK Ha PL P1 P2 Hn Eo].
  - rewrite Hb in Eo. discriminate.
  - rewrite Hb in Eo. injection Eo as Ettl <-. apply live_some in L. destruct L as (L & Hal).
    pose proof (all_current genuine genuine_mono genuine_call es _ _ L) as G.
    destruct (G m w eq_refl) as (d & o & p0 & p & k & b & A & B & C & D & -> & F).
    unfold timeout_ms in *. rewrite B in *. cbn in Hal.
    exists d, o, p0, p, k, b. do 4 (split; [assumption|]). split; [exact Hal|]. exact Ettl.
  - rewrite Hb in Eo. discriminate.
  - rewrite Hb in Eo. destruct (c_net c); discriminate.
Qed.

(** ** Shapes *)

Lemma lapse_shapes es : Forall (fun co : call * outcome => let o := snd co in
    passed o \/ (exists m ttl, triggered o m ttl /\ 0 < ttl) \/ (exists m ttl, still_blocked o m ttl /\ 0 <= ttl))
  (returns_after [] es).
Proof.
  unfold returns_after. cbn [do_events fst].
  set (Q := fun (_ : list (call * outcome)) (_ : string) e => match e with Entry (RStr _) None => False | _ => True end).
  assert (Qm : forall r co k e, Q r k e -> Q (r ++ [co])%list k e) by (intros r co k e H; exact H).
  assert (QE : forall r s, (forall k e, s k = Some e -> Q r k e) <-> strings_expire s).
  { intros r s. split.
    - intros H k m w E. specialize (H k _ E). cbn in H. destruct w; [discriminate|contradiction].
    - intros H k [[l|m] [w|]] E; cbn; try exact I. exact (H k m None E eq_refl). }
  assert (Qc : forall r s c, (forall k e, s k = Some e -> Q r k e) ->
    forall k e, fst (do_call c s) k = Some e -> Q (r ++ [(c, snd (do_call c s))])%list k e).
  { intros r s c H. apply QE. apply strings_expire_call. apply (QE r). exact H. }
  assert (G : forall es r h, all_keys Q r h -> Forall (fun co : call * outcome => let o := snd co in
    passed o \/ (exists m ttl, triggered o m ttl /\ 0 < ttl) \/ (exists m ttl, still_blocked o m ttl /\ 0 <= ttl)) (snd (do_events es h))).
  { clear es. induction es as [|[c|t back] es IH]; intros r h H; [constructor| |].
    - rewrite serve_cons. cbn [snd]. constructor.
      + cbn [snd]. apply shape_call. apply (QE r). apply (all_nth Q r h 0 H).
      + apply (IH _ _ (all_served Q Qm Qc r h c H)).
    - rewrite lapse_cons. apply (IH r). apply all_lapsed, H. }
  apply (G es [] []). constructor.
Qed.

(** ** Triggers need a full window *)

Lemma passes_from_nonneg rk X h : 0 <= passes_from rk X h.
Proof. apply count_nonneg. Qed.

(** All stores of a history have records that stand for passes. *)
Lemma full_events rk es : forall h r now, Forall (fun c => c_net c <> NetLostReply) (calls_of es) ->
  Forall (fun c => 0 <= c_ns c) (calls_of es) ->
  Forall (fun c => now <= client_secs c) (calls_of es) -> nondecreasing (map c_ns (calls_of es)) ->
  Forall (fun s => full_inv rk s now r) h ->
  exists now', Forall (fun s => full_inv rk s now' (r ++ snd (do_events es h))) (fst (do_events es h)).
Proof.
  assert (HN : forall h now r n, Forall (fun s => full_inv rk s now r) h -> full_inv rk (nth n h mempty) now r).
  { intros h now r n H. revert n. induction H as [|s h Hs Hh IH]; intros n; [destruct n; intros l w [=]|].
    destruct n as [|n]; [exact Hs|apply IH]. }
  induction es as [|[c|t back] es IH]; intros h r now HL H0 HF HM HI.
  - exists now. cbn. rewrite app_nil_r. exact HI.
  - cbn [calls_of flat_map app] in *. fold (calls_of es) in *.
    inversion HL; subst. inversion H0; subst. inversion HF; subst. cbn [map nondecreasing] in HM. destruct HM as (M1 & M2).
    rewrite serve_cons. cbn [fst snd].
    destruct (IH (fst (do_call c (current h)) :: h) (r ++ [(c, snd (do_call c (current h)))])%list (client_secs c)) as (n' & Hn'); auto.
    + rewrite Forall_forall in M1 |- *. intros d Hd. apply client_secs_mono; [assumption|]. apply M1. apply in_map. exact Hd.
    + constructor.
      * apply (full_step rk c (current h) r now); try assumption. apply HN, HI.
      * eapply Forall_impl; [|exact HI]. cbn. intros s Hs l w E. destruct (Hs l w E) as (A & B & C). split; [exact A|]. split.
        -- eapply Forall_impl; [|exact B]. cbn. intros; lia.
        -- intros X HX. rewrite passes_from_app. specialize (C X HX). pose proof (passes_from_nonneg rk X [(c, snd (do_call c (current h)))]). lia.
    + exists n'. rewrite <- app_assoc in Hn'. exact Hn'.
  - rewrite lapse_cons. apply (IH _ r now); try assumption. constructor; [|exact HI].
    intros l w. unfold lapsed. destruct (back rk) as [n|]; [|discriminate]. apply (HN h now r n HI).
Qed.

Lemma lapse_trigger_needs_full es c p0 p k b msg rk m ttl :
  Forall (fun c => c_net c <> NetLostReply) (calls_of es) ->
  Forall (fun c => 0 <= c_ns c) (calls_of es ++ [c]) -> nondecreasing (map c_ns (calls_of es ++ [c])) ->
  c_op c = OpShouldBlock p0 p k b msg -> counted_under c = Some rk ->
  triggered (then_returns es c) m ttl ->
  p_capacity p <= passes_in rk (c_ns c - (p_window p + 1) * second + 1) (c_ns c) (returns_after [] es).
Proof.
  unfold then_returns, returns_after. cbn [do_events fst].
  intros HN H0 HM Hop Hcu Ht. apply Forall_app in H0. destruct H0 as (H0 & H0c). inversion H0c as [|? ? Hc0 _]; subst.
  assert (HM' : nondecreasing (map c_ns (calls_of es)) /\ Forall (fun d => c_ns d <= c_ns c) (calls_of es)).
  { clear - HM. induction (calls_of es) as [|d cs IH]; [split; constructor|]. cbn [app map nondecreasing] in HM. destruct HM as (M1 & M2).
    destruct (IH M2) as (A & B). rewrite map_app in M1. apply Forall_app in M1. destruct M1 as (M0 & M1).
    split; [split; [exact M0|exact A]|]. constructor; [|exact B]. inversion M1; assumption. }
  destruct HM' as (HM1 & HM2).
  destruct (full_events rk es [] [] 0 HN H0) as (now & HI).
  { eapply Forall_impl; [|exact H0]. intros d Hd. unfold client_secs. apply Z.quot_pos; [exact Hd|unfold second; lia]. }
  { exact HM1. }
  { constructor. }
  cbn [app] in HI.
  assert (HIc : full_inv rk (current (fst (do_events es []))) now (snd (do_events es []))).
  { unfold current. destruct HI as [|s h Hs _]; [intros l w [=]|exact Hs]. }
  (* records are not negative *)
  assert (Hnn : forall k l w, current (fst (do_events es [])) k = Some (Entry (RList l) w) -> Forall (fun r => 0 <= r) l).
  { assert (G : forall es h, Forall (fun c => 0 <= c_ns c) (calls_of es) ->
      Forall (fun s : rstore => forall k l w, s k = Some (Entry (RList l) w) -> Forall (fun r => 0 <= r) l) h ->
      Forall (fun s : rstore => forall k l w, s k = Some (Entry (RList l) w) -> Forall (fun r => 0 <= r) l) (fst (do_events es h))).
    { clear. induction es as [|[c|t back] es IH]; intros h H0 Hh; [exact Hh| |].
      - cbn [calls_of flat_map app] in H0. inversion H0 as [|? ? Hc Hes]; subst. rewrite serve_cons. cbn [fst]. apply IH; [exact Hes|].
        assert (Hs : forall k l w, current h k = Some (Entry (RList l) w) -> Forall (fun r => 0 <= r) l).
        { unfold current. destruct Hh as [|s h Hs _]; [intros k l w [=]|exact Hs]. }
        constructor; [|exact Hh]. intros k l w. set (s := current h) in *.
        destruct (do_call_case c s) as [E|? ? E|p0 p k0 b m l' e Hop Hp0 Hp LB L HN PL PUT Hn Eo|p0 p k0 b m l1 w1 s1 Hop Hp0 Hp LB HK Ha PL P1 P2 Hn Eo].
        + rewrite E. apply Hs.
        + rewrite E. apply Hs.
        + rewrite (PUT k). destruct (k =? _)%string; [|apply Hs]. intros [= <- _].
          destruct (passed_list_suffix _ _ _ _ _ PL) as (n & ->). apply Forall_app. split.
          * apply Forall_skipn. destruct e as [[[le|]]|]; cbn [list_of]; try constructor. apply live_some in L. eapply Hs, L.
          * constructor; [|constructor]. unfold client_secs. apply Z.quot_pos; [assumption|unfold second; lia].
        + rewrite (P2 k). destruct (k =? _)%string; [discriminate|]. rewrite (P1 k). destruct (k =? _)%string; [|apply Hs].
          intros [= <- _]. apply Forall_skipn. eapply Hs, HK.
      - rewrite lapse_cons. apply IH; [exact H0|]. constructor; [|exact Hh]. intros k l w. unfold lapsed.
        destruct (back k) as [n|]; [|discriminate]. clear IH H0. revert n.
        induction Hh as [|s h Hs Hh IH]; intros n; [destruct n; intros [=]|]. destruct n as [|n]; [apply Hs|apply IH]. }
    specialize (G es [] H0 (Forall_nil _)). unfold current. destruct G as [|s h Hs _]; [intros k1 l1 w1 [=]|exact Hs]. }
  set (s := current (fst (do_events es []))) in *. set (h := snd (do_events es [])) in *.
  unfold triggered in Ht.
  destruct (do_call_case c s) as [E Eo Hwhy|m1 w E L Hn He Eo|q0 q k0 b0 m0 l' e Hop' Hp0 Hp LB L HNS PL PUT Hn Eo|q0 q k0 b0 m0 l w s1 Hop' Hp0 Hp LB HK Ha PL P1 P2 Hn Eo].
  1-3: rewrite Ht in Eo; discriminate.
  rewrite Hop in Hop'. injection Hop' as <- <- <- <- <-.
  assert (Ek : "_rl:" ++ k ++ l_hash_tag (c_lim c) = rk) by (unfold counted_under in Hcu; rewrite Hop in Hcu; congruence).
  rewrite Ek in HK. destruct (HIc _ _ HK) as (A & B & C). apply Hnn in HK.
  unfold passed_list in PL. destruct (Z.ltb_spec (Z.of_nat (length l)) (p_capacity p)) as [|Hge]; [discriminate|].
  set (n := Z.to_nat (Z.of_nat (length l) - p_capacity p)) in *.
  destruct Hp as (Hcap & Hwin & _).
  assert (Hlen : Z.of_nat (length (skipn n l)) = p_capacity p) by (rewrite skipn_length; unfold n; lia).
  pose proof (skipn_nondecreasing n l A) as Hsort.
  destruct (skipn n l) as [|o r] eqn:Es; [discriminate|].
  destruct (Z.ltb_spec (p_window p) (client_secs c - o)) as [|Ho]; [discriminate|].
  set (X := Z.max 0 (client_secs c - p_window p)).
  assert (Hr : recent X (skipn n l) = p_capacity p).
  { rewrite recent_all; [rewrite Es; exact Hlen|]. apply Forall_forall. intros d Hd.
    pose proof (Forall_skipn _ n l HK) as Hf. rewrite Forall_forall in Hf. specialize (Hf d Hd). cbn in Hf.
    rewrite Es in Hd. destruct Hsort as (S1 & _). rewrite Forall_forall in S1. destruct Hd as [->|Hd]; [unfold X; lia|].
    specialize (S1 d Hd). unfold X; lia. }
  specialize (C X ltac:(unfold X; lia)). pose proof (recent_skipn X n l) as Hle. rewrite Hr in Hle.
  assert (Hlast : passes_from rk X h <= passes_in rk (c_ns c - (p_window p + 1) * second + 1) (c_ns c) h).
  { apply passes_from_in.
    - unfold X, client_secs. rewrite Z.quot_div_nonneg by (unfold second; lia).
      pose proof (Z.mod_pos_bound (c_ns c) second ltac:(unfold second; lia)). pose proof (Z.div_mod (c_ns c) second ltac:(unfold second; lia)).
      set (q := c_ns c / second) in *. unfold second in *. lia.
    - apply Forall_forall. intros (d, o') Hd. apply (in_map fst) in Hd. unfold h in Hd. rewrite calls_returns in Hd.
      rewrite Forall_forall in HM2. cbn [fst] in *. apply HM2. exact Hd. }
  lia.
Qed.

(** ** The bound *)

Lemma lists_counted_mono d1 d2 s : lists_counted d1 s -> lists_counted (d1 ++ d2) s.
Proof. intros H k l w E. destruct (H k l w E) as (c & A & B). exists c. split; [apply in_or_app; left; exact A|exact B]. Qed.

Section Bound.
Variables (rk : string) (W T K skew x : Z).
Hypothesis HW : 0 < W.
Hypothesis HT : 0 < T.
Hypothesis HK : 0 <= K.
Hypothesis Hwin : W * second + 2 * skew <= 2 * T * second.

Let y : Z := x + W * second.

(** What every store of a history is like. *)
Definition fine (done : list call) (s : rstore) : Prop := tidy rk s /\ lists_counted done s.

Lemma fine_nth done h n : Forall (fine done) h -> fine done (nth n h mempty).
Proof.
  intros H. revert n. induction H as [|s h Hs Hh IH]; intros n.
  - destruct n; (split; [left; reflexivity|intros k l w [=]]).
  - destruct n as [|n]; [exact Hs|apply IH].
Qed.

Lemma fine_lapsed done back h : Forall (fine done) h -> fine done (lapsed back h).
Proof.
  intros H. split.
  - unfold tidy, lapsed. destruct (back rk) as [n|]; [apply (fine_nth done h n H)|left; reflexivity].
  - intros k l w. unfold lapsed. destruct (back k) as [n|]; [|discriminate]. apply (fine_nth done h n H).
Qed.

Lemma fine_call done c h : (counted_under c <> None -> blocked_under c <> rk) -> Forall (fine done) h ->
  Forall (fine (done ++ [c])) (fst (do_call c (current h)) :: h).
Proof.
  intros Hb H. constructor.
  - destruct (fine_nth done h 0 H) as (A & B). split; [apply tidy_call; assumption|apply lists_counted_call; exact B].
  - eapply Forall_impl; [|exact H]. cbn. intros s (A & B). split; [exact A|apply lists_counted_mono, B].
Qed.

Lemma fine_events pre : forall done h, (forall c, In c (calls_of pre) -> counted_under c <> None -> blocked_under c <> rk) ->
  Forall (fine done) h -> Forall (fine (done ++ calls_of pre)) (fst (do_events pre h)).
Proof.
  induction pre as [|[c|t back] pre IH]; intros done h HB H.
  - cbn. rewrite app_nil_r. exact H.
  - rewrite serve_cons. cbn [fst calls_of flat_map app]. cbn [calls_of flat_map app] in HB.
    specialize (IH (done ++ [c])%list (fst (do_call c (current h)) :: h)). rewrite <- app_assoc in IH. apply IH.
    + intros d Hd. apply HB. right. exact Hd.
    + apply fine_call; [apply HB; left; reflexivity|exact H].
  - rewrite lapse_cons. cbn [calls_of flat_map app]. apply IH; [exact HB|]. constructor; [apply fine_lapsed, H|exact H].
Qed.

Lemma fresh done s m now : fine done s -> inv rk W T K skew x s 0 m now.
Proof.
  intros ([A|(l & e & A)] & _); (split; [|left; lia]); [left; exact A|]. right. exists l, e. split; [exact A|]. left. lia.
Qed.

Lemma late es : forall h t, y + skew < t * 1000000 -> nondecreasing (t :: map event_t es) -> Forall (in_sync skew) (calls_of es) ->
  passes_in rk x y (snd (do_events es h)) = 0.
Proof.
  induction es as [|[c|t' back] es IH]; intros h t Ht HM HF; [reflexivity| |].
  - rewrite serve_cons. cbn [snd]. cbn [calls_of flat_map app] in HF. inversion HF as [|? ? F1 F2]; subst.
    cbn [map event_t nondecreasing] in HM. destruct HM as (M1 & M2 & M3). inversion M1; subst.
    unfold passes_in. cbn [count].
    assert (Hout : (c_ns c <=? y) = false).
    { apply Z.leb_gt. destruct F1 as (_ & F1 & _). lia. }
    assert (E0 : forall b : bool, b && (c_ns c <=? y) = false) by (intros b; rewrite Hout; apply andb_false_r).
    fold (passes_in rk x y (snd (do_events es (fst (do_call c (current h)) :: h)))).
    rewrite (IH _ (c_t c)); [|lia|split; assumption|exact F2].
    destruct (counted_under c); [|reflexivity]. destruct (c_net c); [|reflexivity..].
    destruct (snd (do_call c (current h))) as [[[] ? ? ?]|]; try reflexivity. rewrite E0. reflexivity.
  - rewrite lapse_cons. cbn [map event_t nondecreasing] in HM. destruct HM as (M1 & M2 & M3). inversion M1; subst.
    apply (IH _ t'); [lia|split; assumption|exact HF].
Qed.

Lemma lapses_nonneg a b es : 0 <= lapses_in rk a b es.
Proof. apply count_nonneg. Qed.

Lemma run_events es : forall done h N m now, m <= K ->
  separate (done ++ calls_of es) -> Forall (ok rk W T K skew) (calls_of es) -> nondecreasing (now :: map event_t es) ->
  nondecreasing (m :: capacities rk (calls_of es)) ->
  Forall (fine done) h -> inv rk W T K skew x (current h) N m now ->
  N + passes_in rk x y (snd (do_events es h)) <= K * (1 + lapses_in rk (x - skew) (y + skew) es).
Proof.
  induction es as [|[c|t back] es IH]; intros done h N m now Hm HS HG HM HC HF HI.
  - cbn. rewrite Z.add_0_r, Z.mul_1_r. apply (inv_cap rk W T K skew x (current h) N m now HK Hm HI).
  - cbn [calls_of flat_map app] in HS, HG, HC. fold (calls_of es) in HS, HG, HC.
    inversion HG as [|? ? G1 G2]; subst. cbn [map event_t nondecreasing] in HM. destruct HM as (M1 & M2).
    assert (Hnow : now <= c_t c) by (inversion M1; assumption).
    assert (Hcap : m <= cap_of rk c m <= K /\ nondecreasing (cap_of rk c m :: capacities rk (calls_of es))).
    { unfold capacities in HC. cbn [flat_map] in HC. unfold cap_of.
      destruct (c_op c) as [p0 p k b m'|b] eqn:Eop; [|split; [lia|exact HC]].
      destruct (counted_under c) as [k'|] eqn:Ec; [|split; [lia|exact HC]].
      destruct (String.eqb_spec k' rk) as [->|]; [|split; [lia|exact HC]].
      cbn [app nondecreasing] in HC. destruct HC as (C1 & C2). split; [|exact C2].
      inversion C1; subst. destruct G1 as (_ & _ & G1). destruct (G1 p0 p k b m' Eop Ec) as (_ & ? & _). lia. }
    destruct Hcap as (Hcap & HC').
    rewrite serve_cons. cbn [snd]. unfold y. rewrite (pin_cons rk W x), Z.add_assoc. fold y.
    unfold lapses_in. cbn [count]. fold (lapses_in rk (x - skew) (y + skew) es).
    destruct (step rk W T K skew x HW HT Hwin c (current h) N m G1 (inv_later _ _ _ _ _ _ _ _ _ _ _ _ HI (Z.le_refl m) Hnow) (proj1 Hcap) Hm) as [HI'|(Hc & l & w & L)].
    + apply (IH (done ++ [c])%list _ _ (cap_of rk c m) (c_t c)).
      * lia.
      * rewrite <- app_assoc. exact HS.
      * exact G2.
      * exact M2.
      * exact HC'.
      * apply fine_call; [|exact HF]. apply G1.
      * exact HI'.
    + exfalso. apply live_some in L. destruct L as (L & _). apply (fine_nth done h 0 HF) in L. destruct L as (d & D1 & D2).
      apply (HS d c); [apply in_or_app; left; exact D1|apply in_or_app; right; left; reflexivity|congruence|exact D2].
  - rewrite lapse_cons. cbn [calls_of flat_map app] in HS, HG, HC. fold (calls_of es) in HS, HG, HC.
    cbn [map event_t nondecreasing] in HM. destruct HM as (M1 & M2).
    assert (Hnow : now <= t) by (inversion M1; assumption).
    assert (HF' : Forall (fine done) (lapsed back h :: h)) by (constructor; [apply fine_lapsed, HF|exact HF]).
    unfold lapses_in. cbn [count]. fold (lapses_in rk (x - skew) (y + skew) es).
    pose proof (inv_cap rk W T K skew x (current h) N m now HK Hm HI) as HNK.
    pose proof (lapses_nonneg (x - skew) (y + skew) es) as HLn.
    assert (HNew : passes_in rk x y (snd (do_events es (lapsed back h :: h))) <= K * (1 + lapses_in rk (x - skew) (y + skew) es)).
    { change (passes_in rk x y (snd (do_events es (lapsed back h :: h)))) with (0 + passes_in rk x y (snd (do_events es (lapsed back h :: h)))).
      apply (IH done _ 0 m t Hm HS HG M2 HC HF'). apply (fresh done). apply fine_lapsed, HF. }
    assert (HBig : (x - skew <? (t + 1) * 1000000) && (t * 1000000 <=? y + skew) = false ->
      N + passes_in rk x y (snd (do_events es (lapsed back h :: h))) <= K * (1 + (0 + lapses_in rk (x - skew) (y + skew) es))).
    { intros E. apply andb_false_iff in E. destruct E as [E|E].
      - apply Z.ltb_ge in E. assert (HN0 : N <= 0); [|lia].
        destruct HI as (_ & [H|[(l & e & c0 & A & B & C & D & F & G)|(H & c0 & C & D & G)]]); [exact H| |]; exfalso;
          unfold within in D; apply andb_true_iff in D; destruct D as (D & _); apply Z.leb_le in D; destruct C as (_ & _ & C); lia.
      - apply Z.leb_gt in E. rewrite (late es (lapsed back h :: h) t); [nia|exact E|exact M2|].
        eapply Forall_impl; [|exact HG]. intros c Hc. apply Hc. }
    destruct (back rk) as [[|n]|] eqn:Eb.
    + rewrite Z.add_0_l. apply (IH done _ N m t Hm HS HG M2 HC HF').
      apply inv_later with (m := m) (now := now); [|lia|exact Hnow].
      assert (Ec : current (lapsed back h :: h) rk = current h rk) by (unfold current; cbn [nth]; unfold lapsed; rewrite Eb; reflexivity).
      unfold inv. rewrite Ec. exact HI.
    + destruct ((x - skew <? (t + 1) * 1000000) && (t * 1000000 <=? y + skew)); [lia|apply HBig; reflexivity].
    + destruct ((x - skew <? (t + 1) * 1000000) && (t * 1000000 <=? y + skew)); [lia|apply HBig; reflexivity].
Qed.
End Bound.

Lemma calls_of_app es1 es2 : calls_of (es1 ++ es2) = (calls_of es1 ++ calls_of es2)%list.
Proof. apply flat_map_app. Qed.

Lemma lapse_bound rk W T K skew pre es x :
  0 < W -> 0 < T -> 0 <= K -> W * second + 2 * skew <= 2 * T * second ->
  separate (calls_of (pre ++ es)) -> nondecreasing (map event_t es) -> Forall (in_sync skew) (calls_of es) ->
  settled rk W T K (calls_of es) -> nondecreasing (capacities rk (calls_of es)) ->
  passes_in rk x (x + W * second) (returns_after pre es) <=
    K * (1 + lapses_in rk (x - skew) (x + W * second + skew) es).
Proof.
  intros HW HT HK Hw HS HM HF HC HN. unfold returns_after. rewrite calls_of_app in HS.
  pose proof (lapses_nonneg rk (x - skew) (x + W * second + skew) es) as HLn.
  destruct (existsb (fun c => match counted_under c with Some k => (k =? rk)%string | None => false end) (calls_of es)) eqn:Eex.
  - apply existsb_exists in Eex. destruct Eex as (c1 & Hin1 & Hc1).
    assert (Hc1' : counted_under c1 = Some rk).
    { destruct (counted_under c1) as [k|]; [|discriminate]. apply String.eqb_eq in Hc1. congruence. }
    assert (HB : forall c, In c (calls_of pre ++ calls_of es) -> counted_under c <> None -> blocked_under c <> rk).
    { intros d Hd Hn E. apply (HS c1 d); [apply in_or_app; right; exact Hin1|exact Hd|exact Hn|congruence]. }
    pose proof (fine_events rk pre [] []) as HFine. cbn [app] in HFine.
    assert (HFine' : Forall (fine rk (calls_of pre)) (fst (do_events pre []))).
    { apply HFine; [|constructor]. intros c Hc. apply HB. apply in_or_app. left. exact Hc. }
    destruct es as [|e es0] eqn:Ees; [destruct Hin1|]. rewrite <- Ees in *.
    match goal with |- ?a <= _ => change a with (0 + a) end.
    apply (run_events rk W T K skew x HW HT HK Hw es (calls_of pre) (fst (do_events pre [])) 0
             (Z.min K (hd K (capacities rk (calls_of es)))) (event_t e)); try assumption.
    + lia.
    + apply Forall_forall. intros d Hd. rewrite Forall_forall in HF. split; [apply HF; exact Hd|]. split.
      * apply HB. apply in_or_app. right. exact Hd.
      * intros p0 p k b m Hop Hcu. apply (HC d p0 p k b m Hd Hop Hcu).
    + subst es. cbn [map] in *. destruct HM as (M1 & M2). split; [constructor; [lia|exact M1]|]. split; assumption.
    + destruct (capacities rk (calls_of es)) as [|a l] eqn:El; [split; [constructor|exact I]|]. cbn [hd].
      split; [|exact HN]. destruct HN as (H1 & _). constructor; [lia|].
      eapply Forall_impl; [|exact H1]. cbn. intros z Hz. lia.
    + apply (fresh rk W T K skew x (calls_of pre)). apply fine_nth, HFine'.
  - assert (Hz : passes_in rk x (x + W * second) (snd (do_events es (fst (do_events pre [])))) = 0); [|nia].
    assert (Hno : forall c, In c (calls_of es) -> counted_under c <> Some rk).
    { intros c Hc E.
      assert (Ht : existsb (fun c => match counted_under c with Some k => (k =? rk)%string | None => false end) (calls_of es) = true).
      { apply existsb_exists. exists c. split; [exact Hc|]. rewrite E. apply String.eqb_refl. }
      congruence. }
    pose proof (calls_returns es (fst (do_events pre []))) as HR. rewrite <- HR in Hno.
    replace (snd (do_events es (fst (do_events pre [])))) with
      (combine (map fst (snd (do_events es (fst (do_events pre []))))) (map snd (snd (do_events es (fst (do_events pre [])))))).
    + apply nobody. exact Hno.
    + clear. induction (snd (do_events es (fst (do_events pre [])))) as [|(a, b) l IH]; [reflexivity|]. cbn. f_equal. exact IH.
Qed.

(** ** The bound is reached *)

Lemma serve_all cs : forall h,
  snd (do_events (map Serve cs) h) = combine cs (snd (do_calls cs (current h))).
Proof.
  induction cs as [|c cs IH]; intros h; [reflexivity|]. cbn [map]. rewrite serve_cons, do_calls_cons. cbn [snd combine].
  f_equal. rewrite IH. reflexivity.
Qed.

Definition wipe : event := Lapse 0 (fun _ => None).
Definition round (P : params) : list event := wipe :: map Serve (repeat (burst P 0) (Z.to_nat (p_capacity P))).
Fixpoint rounds (P : params) (n : nat) : list event :=
  match n with
  | O => []
  | S n' => (round P ++ rounds P n')%list
  end.

Lemma burst_passes P h : params_set P ->
  passes_in "_rl:k" 0 (p_window P * second) (snd (do_events (round P) h)) = p_capacity P.
Proof.
  intros HP. unfold round, wipe. rewrite lapse_cons, serve_all.
  change (current (lapsed (fun _ => None) h :: h)) with (@mempty rentry).
  destruct (burst_run P (Z.to_nat (p_capacity P)) HP) as (A & _); [destruct HP; lia|]. rewrite A, combine_repeat.
  unfold passes_in. rewrite count_repeat.
  - destruct HP. lia.
  - cbn. destruct (Z.leb_spec 0 (p_window P * second)); [reflexivity|]. unfold second, params_set in *. lia.
Qed.

Lemma round_events P n e : In e (rounds P n) -> e = wipe \/ e = Serve (burst P 0).
Proof.
  induction n as [|n IH]; [intros []|]. cbn [rounds]. intros H. apply in_app_or in H. destruct H as [[<-|H]|H]; [left; reflexivity| |apply IH, H].
  apply in_map_iff in H. destruct H as (c & <- & H). apply repeat_all in H. subst c. right. reflexivity.
Qed.

Lemma rounds_passes P n : params_set P -> forall h,
  passes_in "_rl:k" 0 (p_window P * second) (snd (do_events (rounds P n) h)) = Z.of_nat n * p_capacity P.
Proof.
  intros HP. induction n as [|n IH]; intros h; [reflexivity|]. cbn [rounds]. rewrite do_events_app. cbn [snd].
  unfold passes_in. rewrite count_app. fold (passes_in "_rl:k" 0 (p_window P * second) (snd (do_events (round P) h))).
  rewrite burst_passes by exact HP. match goal with |- _ + ?a = _ => change a with (passes_in "_rl:k" 0 (p_window P * second) (snd (do_events (rounds P n) (fst (do_events (round P) h))))) end.
  rewrite IH. lia.
Qed.

Lemma rounds_lapses P n a b : a < 1000000 -> 0 <= b -> lapses_in "_rl:k" a b (rounds P n) = Z.of_nat n.
Proof.
  intros Ha Hb. induction n as [|n IH]; [reflexivity|]. cbn [rounds]. unfold lapses_in. rewrite count_app.
  match goal with |- _ + ?u = _ => change u with (lapses_in "_rl:k" a b (rounds P n)) end. rewrite IH.
  unfold round, wipe. cbn [count]. destruct (Z.ltb_spec a ((0 + 1) * 1000000)); [|lia]. destruct (Z.leb_spec (0 * 1000000) b); [|lia].
  cbn [andb]. induction (Z.to_nat (p_capacity P)) as [|k IHk]; [cbn [repeat map count]; lia|]. cbn [repeat map count]. rewrite Z.add_0_l. exact IHk.
Qed.

Lemma bound_reached P n : params_set P ->
  exists es, separate (calls_of es) /\ nondecreasing (map event_t es) /\ Forall (in_sync 0) (calls_of es) /\
    (forall c, In c (calls_of es) -> c_lim c = new_limiter /\ c_op c = OpShouldBlock P P "k" "k" "m" /\ c_net c = NetOk) /\
    lapses_in "_rl:k" 0 (p_window P * second) es = Z.of_nat n /\
    passes_in "_rl:k" 0 (p_window P * second) (returns_after [] es) = p_capacity P * (1 + Z.of_nat n).
Proof.
  intros HP. pose proof HP as (HP1 & HP2 & HP3).
  set (first := map Serve (repeat (burst P 0) (Z.to_nat (p_capacity P)))).
  exists (first ++ rounds P n)%list.
  assert (Hev : forall e, In e (first ++ rounds P n) -> e = wipe \/ e = Serve (burst P 0)).
  { intros e H. apply in_app_or in H. destruct H as [H|H]; [|apply (round_events P n e H)].
    apply in_map_iff in H. destruct H as (c & <- & H). apply repeat_all in H. subst c. right. reflexivity. }
  assert (Hall : forall c, In c (calls_of (first ++ rounds P n)) -> c = burst P 0).
  { intros c H. unfold calls_of in H. apply in_flat_map in H. destruct H as (e & He & Hc).
    destruct (Hev e He) as [->| ->]; [destruct Hc|]. destruct Hc as [<-|[]]. reflexivity. }
  split; [|split; [|split; [|split; [|split]]]].
  - intros c1 c2 H1 H2 _. rewrite (Hall c1 H1), (Hall c2 H2). discriminate.
  - assert (Hz : forall l, (forall z, In z l -> z = 0) -> nondecreasing l).
    { induction l as [|z l IH]; intros H; [exact I|]. split; [|apply IH; intros; apply H; right; assumption].
      apply Forall_forall. intros w Hw. rewrite (H z), (H w); [lia|right; exact Hw|left; reflexivity]. }
    apply Hz. intros z H. apply in_map_iff in H. destruct H as (e & <- & He). destruct (Hev e He) as [->| ->]; reflexivity.
  - apply Forall_forall. intros c H. rewrite (Hall c H). unfold in_sync. cbn. lia.
  - intros c H. rewrite (Hall c H). auto.
  - unfold lapses_in. rewrite count_app.
    match goal with |- _ + ?u = _ => change u with (lapses_in "_rl:k" 0 (p_window P * second) (rounds P n)) end.
    rewrite rounds_lapses by (unfold second; lia).
    assert (Hf : forall f : event -> bool, (forall c, f (Serve c) = false) -> count f first = 0).
    { intros f Hf. unfold first. clear -Hf. induction (Z.to_nat (p_capacity P)) as [|k IHk]; [reflexivity|]. cbn [repeat map count]. rewrite Hf, IHk. reflexivity. }
    rewrite Hf by reflexivity. lia.
  - unfold returns_after. cbn [do_events fst]. rewrite do_events_app. cbn [snd]. unfold passes_in. rewrite count_app.
    match goal with |- ?u + ?v = _ =>
      change u with (passes_in "_rl:k" 0 (p_window P * second) (snd (do_events first [])));
      change v with (passes_in "_rl:k" 0 (p_window P * second) (snd (do_events (rounds P n) (fst (do_events first []))))) end.
    rewrite rounds_passes by exact HP. unfold first. rewrite serve_all. change (current []) with (@mempty rentry).
    destruct (burst_run P (Z.to_nat (p_capacity P)) HP) as (A & _); [lia|]. rewrite A, combine_repeat.
    unfold passes_in. rewrite count_repeat; [lia|].
    cbn. destruct (Z.leb_spec 0 (p_window P * second)); [reflexivity|]. unfold second in *. lia.
Qed.
