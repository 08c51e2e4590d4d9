(** Proofs about nested circuit breakers: the stacks of the goroutines; no deadlock, no data races, whole calls. *)
From Coq Require Import Permutation.
From Verif Require Import Common Threads BreakerModel BreakerSpec BreakerProofs BreakerNestModel BreakerNestSpec BreakerNestProofs.

(** * The stacks *)

Record wf (s : nstate) : Prop := {
  w_brk : forall i b pc, nth_error (n_acts s) i = Some (b, pc) -> (b < length (n_brks s))%nat;
  w_nodup : NoDup (concat (n_stacks s));
  w_tail : forall g i below, nth_error (n_stacks s) g = Some (i :: below) ->
    Forall (fun j => exists b pc, nth_error (n_acts s) j = Some (b, pc) /\ in_user pc = true) below;
  w_live : forall i, In i (concat (n_stacks s)) <-> exists b pc, nth_error (n_acts s) i = Some (b, pc) /\ pc <> FDone }.

Lemma upd_split {A} g (st : A) l : nth_error l g = Some st -> exists l1 l2, l = l1 ++ st :: l2 /\ forall x, upd g x l = l1 ++ x :: l2.
Proof.
  revert g; induction l as [|y l IH]; intros [|g] H; cbn in *; try discriminate.
  - injection H as ->. exists [], l. split; reflexivity.
  - destruct (IH g H) as (l1 & l2 & E & F). exists (y :: l1), l2. split; [cbn; now f_equal|]. intros x. cbn. now rewrite F.
Qed.
Lemma in_stacks {A} (i : A) stacks : In i (concat stacks) <-> exists g st, nth_error stacks g = Some st /\ In i st.
Proof.
  split.
  - intros H. apply in_concat in H as (st & H1 & H2). apply In_nth_error in H1 as (g & H1). exists g, st. now split.
  - intros (g & st & H1 & H2). apply in_concat. exists st. split; [|exact H2]. exact (nth_error_In _ _ H1).
Qed.

(** A call that is on the stack of [g] is on no other stack, and not deeper on this one. *)
Lemma top_only stacks g (i : nat) below : NoDup (concat stacks) -> nth_error stacks g = Some (i :: below) ->
  ~ In i below /\ forall g' st, g' <> g -> nth_error stacks g' = Some st -> ~ In i st.
Proof.
  intros ND H. revert g H ND. induction stacks as [|s0 stacks IH]; intros [|g] H ND; cbn in *; try discriminate.
  - injection H as ->. inversion ND as [|? ? N1 N2]; subst. rewrite in_app_iff in N1. split; [tauto|].
    intros [|g'] st Ng H1; [congruence|]. cbn in H1. intros X. apply N1. right. apply in_concat. exists st. split; [exact (nth_error_In _ _ H1)|exact X].
  - assert (ND2 : NoDup (concat stacks)) by (clear - ND; induction s0; [exact ND|apply IHs0; now inversion ND]).
    destruct (IH g H ND2) as (P1 & P2). split; [exact P1|]. intros [|g'] st Ng H1; cbn in H1.
    + injection H1 as ->. intros X. assert (Y : In i (concat stacks)) by (apply in_concat; exists (i :: below); split; [exact (nth_error_In _ _ H)|now left]).
      clear - ND X Y. induction st as [|z st IHs]; [destruct X|]. cbn in ND. inversion ND as [|? ? N1 N2]; subst. destruct X as [->|X].
      * apply N1. apply in_app_iff. now right.
      * exact (IHs N2 X).
    + apply (P2 g' st); [congruence|exact H1].
Qed.

Lemma upd_get {A} i j (x : A) l y : nth_error (upd i x l) j = Some y -> (j = i /\ y = x) \/ (j <> i /\ nth_error l j = Some y).
Proof.
  intros H. rewrite nth_error_upd in H. destruct (Nat.eq_dec i j) as [<-|N]; [|right; now split; [congruence|]].
  left. destruct (nth_error l i); [split; congruence|discriminate].
Qed.

(** The step of the innermost call of [g]. *)
Lemma wf_place s g i below b k pc pc' es : wf s -> nth_error (n_stacks s) g = Some (i :: below) -> nth_error (n_acts s) i = Some (b, pc) ->
  nth_error (n_brks s) b <> None -> wf (fst (place s g (i :: below) i b k pc' es)).
Proof.
  intros [W1 W2 W3 W4] Hs Ha Hb. destruct (top_only _ _ _ _ W2 Hs) as (T1 & T2). unfold place. cbn [fst].
  assert (Below : forall st g', nth_error (n_stacks s) g' = Some st -> forall j, In j st -> j = i \/ nth_error (upd i (b, pc') (n_acts s)) j = nth_error (n_acts s) j).
  { intros st g' _ j _. destruct (Nat.eq_dec j i); [now left|]. right. apply nth_error_upd_other. congruence. }
  destruct (upd_split g (i :: below) (n_stacks s) Hs) as (l1 & l2 & E & F).
  assert (Pc : pc' = FDone \/ pc' <> FDone) by (destruct pc'; (now left) || (right; discriminate)).
  constructor; cbn [n_brks n_acts n_stacks].
  - intros j bj pcj H. rewrite upd_length. apply upd_get in H as [(_ & H)|(_ & H)]; [|exact (W1 _ _ _ H)].
    injection H as -> _. apply nth_error_Some. exact Hb.
  - destruct Pc as [->|Np].
    + cbn [tl]. rewrite F. rewrite E in W2. rewrite concat_app in *. cbn in *. exact (NoDup_remove_1 _ _ _ W2).
    + destruct pc'; try exact W2. congruence.
  - assert (Tail : forall g' j bl, nth_error (n_stacks s) g' = Some (j :: bl) ->
      Forall (fun j => exists b0 pc0, nth_error (upd i (b, pc') (n_acts s)) j = Some (b0, pc0) /\ in_user pc0 = true) bl).
    { intros g' j bl H. specialize (W3 g' j bl H). apply Forall_forall. intros x X. rewrite Forall_forall in W3.
      destruct (W3 x X) as (b0 & pc0 & Y1 & Y2). exists b0, pc0. split; [|exact Y2]. rewrite nth_error_upd_other; [exact Y1|]. intros ->.
      destruct (Nat.eq_dec g' g) as [->|Ng].
      - rewrite Hs in H. injection H as <- <-. exact (T1 X).
      - exact (T2 g' _ Ng H (or_intror X)). }
    intros g' j bl H. destruct Pc as [->|Np].
    + cbn [tl] in H. apply upd_get in H as [(-> & H)|(_ & H)]; [|exact (Tail _ _ _ H)].
      specialize (Tail g i below Hs). rewrite <- H in Tail. now inversion Tail.
    + assert (nth_error (n_stacks s) g' = Some (j :: bl)) by (destruct pc'; try exact H; congruence). now apply (Tail g' j).
  - intros j. destruct Pc as [->|Np].
    + cbn [tl]. rewrite F. assert (Q : In j (concat (l1 ++ below :: l2)) <-> In j (concat (n_stacks s)) /\ j <> i).
      { rewrite E, !concat_app. cbn. rewrite !in_app_iff. cbn. rewrite in_app_iff. split.
        - intros X. split; [tauto|]. intros ->. rewrite E, concat_app in W2. cbn in W2. apply NoDup_remove_2 in W2. rewrite in_app_iff, in_app_iff in W2. tauto.
        - intros (X & N). assert (i <> j) by congruence. tauto. }
      rewrite Q, W4. split.
      * intros ((b0 & pc0 & Y1 & Y2) & N). exists b0, pc0. split; [|exact Y2]. rewrite nth_error_upd_other by congruence. exact Y1.
      * intros (b0 & pc0 & Y1 & Y2). apply upd_get in Y1 as [(-> & Y)|(N & Y)]; [congruence|]. split; [|exact N]. now exists b0, pc0.
    + replace (match pc' with FDone => upd g (tl (i :: below)) (n_stacks s) | _ => n_stacks s end) with (n_stacks s) by (destruct pc'; congruence).
      rewrite W4. split.
      * intros (b0 & pc0 & Y1 & Y2). destruct (Nat.eq_dec j i) as [->|N].
        -- exists b, pc'. split; [exact (nth_error_upd_same _ _ _ _ Ha)|exact Np].
        -- exists b0, pc0. split; [|exact Y2]. rewrite nth_error_upd_other by congruence. exact Y1.
      * intros (b0 & pc0 & Y1 & Y2). apply upd_get in Y1 as [(-> & Y)|(N & Y)]; [|now exists b0, pc0].
        apply W4. apply in_stacks. exists g, (i :: below). split; [exact Hs|now left].
Qed.

(** What a step is. *)
Inductive step_kind (s : nstate) : nlabel -> nstate -> list nevent -> Prop :=
| sk_clock t : step_kind s (NClock t) (NSt t (n_brks s) (n_acts s) (n_stacks s)) []
| sk_do g b stack : nth_error (n_stacks s) g = Some stack -> nth_error (n_brks s) b <> None ->
    (forall i below, stack = i :: below -> exists b' pc, nth_error (n_acts s) i = Some (b', pc) /\ in_user pc = true) ->
    step_kind s (NDo g b) (NSt (n_clock s) (n_brks s) (n_acts s ++ [(b, FClock)]) (upd g (length (n_acts s) :: stack) (n_stacks s)))
      [NEv g b (ECall (length (n_acts s)))]
| sk_end g o i below b pc k pc' be : nth_error (n_stacks s) g = Some (i :: below) -> nth_error (n_acts s) i = Some (b, pc) -> nth_error (n_brks s) b = Some k ->
    (pc = FInTask /\ pc' = match o with TaskOk => FLock None | TaskErr e => FLock (Some e) | TaskPanic => FDone end /\ be = [EDone i o] \/
     (pc = FInOpen \/ pc = FInError) /\ pc' = FDone /\ be = []) ->
    step_kind s (NEnd g o) (fst (place s g (i :: below) i b k pc' be)) (snd (place s g (i :: below) i b k pc' be))
| sk_step g i below b pc k k' pc' be : nth_error (n_stacks s) g = Some (i :: below) -> nth_error (n_acts s) i = Some (b, pc) -> nth_error (n_brks s) b = Some k ->
    act_step k (n_clock s) i pc = Some (k', pc', be) ->
    step_kind s (NStep g) (fst (place s g (i :: below) i b k' pc' be)) (snd (place s g (i :: below) i b k' pc' be)).

Lemma step_kinds s l s' es : nstep s l = Some (s', es) -> step_kind s l s' es.
Proof.
  intros E. destruct l as [t|g b|g o|g]; cbn [nstep] in E.
  - injection E as <- <-. constructor.
  - destruct (nth_error (n_stacks s) g) as [stack|] eqn:H1; [|discriminate]. destruct (nth_error (n_brks s) b) eqn:H2; [|discriminate].
    destruct stack as [|i st].
    + injection E as <- <-. apply sk_do; [exact H1|congruence|discriminate].
    + destruct (nth_error (n_acts s) i) as [[b' pc]|] eqn:H3; [|discriminate]. destruct (in_user pc) eqn:H4; [|discriminate]. injection E as <- <-.
      apply sk_do; [exact H1|congruence|]. intros i' below X. injection X as <- <-. exists b', pc. now split.
  - destruct (nth_error (n_stacks s) g) as [[|i below]|] eqn:H1; try discriminate. destruct (nth_error (n_acts s) i) as [[b pc]|] eqn:H2; [|discriminate].
    destruct (nth_error (n_brks s) b) as [k|] eqn:H3; [|discriminate].
    assert (X : exists pc' be, (pc = FInTask /\ pc' = match o with TaskOk => FLock None | TaskErr e => FLock (Some e) | TaskPanic => FDone end /\ be = [EDone i o] \/
        (pc = FInOpen \/ pc = FInError) /\ pc' = FDone /\ be = []) /\ place s g (i :: below) i b k pc' be = (s', es)).
    { destruct pc; try discriminate E.
      - exists FDone, []. split; [right; split; [now left|now split]|congruence].
      - exists (match o with TaskOk => FLock None | TaskErr e => FLock (Some e) | TaskPanic => FDone end), [EDone i o]. split; [left; split; [reflexivity|now split]|congruence].
      - exists FDone, []. split; [right; split; [now right|now split]|congruence]. }
    destruct X as (pc' & be & X & P). pose proof (sk_end s g o i below b pc k pc' be H1 H2 H3 X) as G. rewrite P in G. exact G.
  - destruct (nth_error (n_stacks s) g) as [[|i below]|] eqn:H1; try discriminate. destruct (nth_error (n_acts s) i) as [[b pc]|] eqn:H2; [|discriminate].
    destruct (nth_error (n_brks s) b) as [k|] eqn:H3; [|discriminate]. destruct (act_step k (n_clock s) i pc) as [[[k' pc'] be]|] eqn:St; [|discriminate].
    assert (P : place s g (i :: below) i b k' pc' be = (s', es)) by congruence. pose proof (sk_step s g i below b pc k k' pc' be H1 H2 H3 St) as G. rewrite P in G. exact G.
Qed.

Lemma wf_step s l s' es : wf s -> nstep s l = Some (s', es) -> wf s'.
Proof.
  intros W E. apply step_kinds in E. destruct E as [t|g b stack H1 H2 H3|g o i below b pc k pc' be H1 H2 H3 H4|g i below b pc k k' pc' be H1 H2 H3 H4].
  - destruct W as [W1 W2 W3 W4]. now constructor.
  - destruct W as [W1 W2 W3 W4]. destruct (upd_split g stack (n_stacks s) H1) as (l1 & l2 & E & F).
    assert (Len : forall j, In j (concat (n_stacks s)) -> (j < length (n_acts s))%nat).
    { intros j Hj. apply W4 in Hj as (b0 & pc0 & Y & _). apply nth_error_Some. congruence. }
    constructor; cbn [n_brks n_acts n_stacks].
    + intros j bj pcj H. destruct (Nat.lt_ge_cases j (length (n_acts s))) as [X|X].
      * rewrite nth_error_app1 in H by exact X. exact (W1 _ _ _ H).
      * rewrite nth_error_app2 in H by exact X. destruct (j - length (n_acts s))%nat as [|[|]]; cbn in H; try discriminate. injection H as <- _. apply nth_error_Some. exact H2.
    + rewrite F, concat_app. cbn. rewrite E, concat_app in W2. cbn in W2. rewrite E, concat_app in Len. cbn in Len.
      apply (Permutation_NoDup (Permutation_middle _ _ _)). constructor; [|exact W2]. intros X. specialize (Len _ X). lia.
    + assert (Tail : forall bl, Forall (fun j => exists b0 pc0, nth_error (n_acts s) j = Some (b0, pc0) /\ in_user pc0 = true) bl ->
        Forall (fun j => exists b0 pc0, nth_error (n_acts s ++ [(b, FClock)]) j = Some (b0, pc0) /\ in_user pc0 = true) bl).
      { intros bl. apply Forall_impl. intros j (b0 & pc0 & Y1 & Y2). exists b0, pc0. split; [|exact Y2]. rewrite nth_error_app1; [exact Y1|]. apply nth_error_Some. congruence. }
      intros g' j bl H. apply Tail. apply upd_get in H as [(-> & H)|(_ & H)]; [|exact (W3 _ _ _ H)].
      injection H as -> ->. destruct stack as [|i st]; [constructor|]. constructor; [exact (H3 i st eq_refl)|exact (W3 g i st H1)].
    + intros j. assert (Q : In j (concat (upd g (length (n_acts s) :: stack) (n_stacks s))) <-> j = length (n_acts s) \/ In j (concat (n_stacks s))).
      { rewrite F, E, !concat_app. cbn. rewrite !in_app_iff. cbn. rewrite in_app_iff. intuition congruence. }
      rewrite Q, W4. split.
      * intros [->|(b0 & pc0 & Y1 & Y2)].
        -- exists b, FClock. split; [|discriminate]. rewrite nth_error_app2, Nat.sub_diag by lia. reflexivity.
        -- exists b0, pc0. split; [|exact Y2]. rewrite nth_error_app1; [exact Y1|]. apply nth_error_Some. congruence.
      * intros (b0 & pc0 & Y1 & Y2). destruct (Nat.lt_ge_cases j (length (n_acts s))) as [X|X].
        -- right. rewrite nth_error_app1 in Y1 by exact X. now exists b0, pc0.
        -- left. rewrite nth_error_app2 in Y1 by exact X. destruct (j - length (n_acts s))%nat as [|[|]] eqn:Z1; cbn in Y1; try discriminate. lia.
  - apply (wf_place s g i below b k pc); [exact W|exact H1|exact H2|congruence].
  - apply (wf_place s g i below b k' pc); [exact W|exact H1|exact H2|congruence].
Qed.
Lemma concat_repeat_nil {A} n : concat (repeat (@nil A) n) = [].
Proof. induction n; cbn; auto. Qed.
Lemma wf_init cfg t0 n : wf (nest_init cfg t0 n).
Proof.
  unfold nest_init. constructor; cbn [n_acts n_brks n_stacks].
  - intros [|i] b pc H; discriminate.
  - rewrite concat_repeat_nil. constructor.
  - intros g i below H. apply nth_error_In, repeat_spec in H. discriminate.
  - intros i. rewrite concat_repeat_nil. split; [intros []|]. intros (b & pc & H & _). destruct i; discriminate.
Qed.
Lemma wf_run cfg t0 n sched : wf (fst (nest_exec cfg t0 n sched)).
Proof.
  unfold nest_exec. refine (exec_inv nstep (fun s _ => wf s) _ sched _ [] (wf_init cfg t0 n)).
  intros s l s1 es tr W E. exact (wf_step _ _ _ _ W E).
Qed.
Lemma sizes_step s l s' es : nstep s l = Some (s', es) -> length (n_stacks s') = length (n_stacks s) /\ length (n_brks s') = length (n_brks s).
Proof.
  intros E. apply step_kinds in E. destruct E; cbn [n_stacks n_brks place fst]; rewrite ?upd_length; auto.
  - destruct pc'; rewrite ?upd_length; auto.
  - destruct pc'; rewrite ?upd_length; auto.
Qed.
Lemma sizes_run cfg t0 n sched : length (n_stacks (fst (nest_exec cfg t0 n sched))) = n /\ length (n_brks (fst (nest_exec cfg t0 n sched))) = length cfg.
Proof.
  unfold nest_exec. refine (exec_inv nstep (fun s _ => length (n_stacks s) = n /\ length (n_brks s) = length cfg) _ sched _ [] _).
  - intros s l s1 es tr (A & B) E. destruct (sizes_step _ _ _ _ E). split; congruence.
  - cbn. rewrite repeat_length, map_length. now split.
Qed.

(** The locks of all breakers. *)
Lemma locks_run cfg t0 n sched b : (b < length cfg)%nat -> exists k, nth_error (n_brks (fst (nest_exec cfg t0 n sched))) b = Some k /\
  locked_ok k b (n_acts (fst (nest_exec cfg t0 n sched))).
Proof.
  intros H. destruct (nth_error cfg b) as [[thr to]|] eqn:E; [|apply nth_error_None in E; lia].
  destruct (run_related (length sched) b sched _ _ _ (related_init cfg t0 n (length sched) b thr to E) ltac:(cbn; lia)) as (fl & f' & k' & _ & _ & _ & R).
  exists k'. split; [exact (r_brk _ _ _ _ _ R)|exact (r_lock _ _ _ _ _ R)].
Qed.

(** * No data races *)

Lemma no_races cfg t0 n sched i j : ~ races (fst (nest_exec cfg t0 n sched)) i j.
Proof.
  intros (N & b & pc & pc' & f & w & w' & H1 & H2 & A1 & A2 & W).
  pose proof (w_brk _ (wf_run cfg t0 n sched) _ _ _ H1) as B. rewrite (proj2 (sizes_run cfg t0 n sched)) in B.
  destruct (locks_run cfg t0 n sched b B) as (k & K & L).
  assert (G : forall pc f, access pc = Some (f, true) -> wr pc = 1) by (intros p g X; destruct p; cbn in X |- *; congruence).
  assert (G2 : forall pc f w, access pc = Some (f, w) -> rd pc = 1 \/ wr pc = 1) by (intros p g v X; destruct p; cbn in X |- *; try discriminate X; auto).
  destruct w.
  - destruct (writer_alone _ _ _ _ _ L H1 (G _ _ A1)) as (_ & X). destruct (X j pc' ltac:(congruence) H2). destruct (G2 _ _ _ A2); lia.
  - cbn in W. subst w'. destruct (writer_alone _ _ _ _ _ L H2 (G _ _ A2)) as (_ & X). destruct (X i pc ltac:(congruence) H1). destruct (G2 _ _ _ A1); lia.
Qed.

(** * No deadlock *)

Lemma act_enabled k clock i pc : act_step k clock i pc = None -> in_user pc = false -> pc <> FDone ->
  (k_writer k = true \/ k_readers k <> 0) /\ rd pc = 0 /\ wr pc = 0.
Proof.
  intros E U D. destruct pc; cbn in E, U |- *; try discriminate; try congruence.
  - destruct (k_writer k); [|discriminate]. auto.
  - destruct (k_timeout k <? i64 (now - l)); discriminate.
  - destruct (k_writer k); [auto|]. cbn in E. destruct (Z.eqb_spec (k_readers k) 0); [discriminate|]. auto.
Qed.
Lemma sum_pos {A} (f : A -> Z) l : sumZ f l <> 0 -> exists i x, nth_error l i = Some x /\ f x <> 0.
Proof.
  induction l as [|x l IH]; cbn; intros H; [congruence|]. destruct (Z.eq_dec (f x) 0) as [E|E].
  - destruct (IH ltac:(lia)) as (i & y & Y). now exists (S i), y.
  - now exists 0%nat, x.
Qed.

(** A call that is neither over nor in user code is the innermost call of its goroutine. *)
Lemma busy_top s i b pc : wf s -> nth_error (n_acts s) i = Some (b, pc) -> in_user pc = false -> pc <> FDone -> exists g below, nth_error (n_stacks s) g = Some (i :: below).
Proof.
  intros [W1 W2 W3 W4] H U D. assert (X : In i (concat (n_stacks s))) by (apply W4; now exists b, pc).
  apply in_stacks in X as (g & [|j st] & X & Y); [destruct Y|]. destruct Y as [->|Y]; [now exists g, st|].
  specialize (W3 g j st X). rewrite Forall_forall in W3. destruct (W3 i Y) as (b0 & pc0 & Z1 & Z2). congruence.
Qed.

(** A busy call of breaker [b]: itself or the holder of the lock can go on, also if readers are held back. *)
Lemma some_step_at s b k g i below pc : wf s -> nth_error (n_brks s) b = Some k -> locked_ok k b (n_acts s) ->
  nth_error (n_stacks s) g = Some (i :: below) -> nth_error (n_acts s) i = Some (b, pc) -> in_user pc = false -> pc <> FDone ->
  (forall now, pc = FRLock now -> existsb (waits b) (n_acts s) = false) -> exists g' r, nstep s (NStep g') = Some r /\ ~ held_back s g'.
Proof.
  intros W Hk Lk Hs Ha U D Rd.
  assert (Go : forall g i below pc, nth_error (n_stacks s) g = Some (i :: below) -> nth_error (n_acts s) i = Some (b, pc) -> act_step k (n_clock s) i pc <> None ->
    (forall now, pc = FRLock now -> existsb (waits b) (n_acts s) = false) -> exists g' r, nstep s (NStep g') = Some r /\ ~ held_back s g').
  { intros g1 i1 b1 pc1 X1 X2 X3 X4. exists g1. cbn. rewrite X1, X2, Hk. destruct (act_step k (n_clock s) i1 pc1) as [[[k' pc'] es]|]; [|congruence]. eexists. split; [reflexivity|].
    intros (i2 & b2 & b3 & now & Y1 & Y2 & Y3). rewrite X1 in Y1. injection Y1 as <- <-. rewrite X2 in Y2. injection Y2 as <- ->. rewrite (X4 now eq_refl) in Y3. discriminate. }
  destruct (act_step k (n_clock s) i pc) as [r|] eqn:E; [apply (Go g i below pc Hs Ha); [congruence|exact Rd]|].
  destruct (act_enabled _ _ _ _ E U D) as (C & _).
  assert (Holder : exists j pcj, nth_error (n_acts s) j = Some (b, pcj) /\ (rd pcj <> 0 \/ wr pcj <> 0)).
  { destruct Lk as (L1 & L2 & L3). destruct C as [C|C].
    - rewrite C in L2. destruct (sum_pos (at_b b wr) (n_acts s) ltac:(lia)) as (j & [bj pcj] & X & Y). exists j, pcj. unfold at_b in Y. cbn in Y.
      destruct (Nat.eqb_spec bj b) as [->|]; [|congruence]. split; [exact X|now right].
    - rewrite L1 in C. destruct (sum_pos (at_b b rd) (n_acts s) C) as (j & [bj pcj] & X & Y). exists j, pcj. unfold at_b in Y. cbn in Y.
      destruct (Nat.eqb_spec bj b) as [->|]; [|congruence]. split; [exact X|now left]. }
  destruct Holder as (j & pcj & Hj & C2).
  assert (Q : in_user pcj = false /\ pcj <> FDone) by (destruct pcj; cbn in C2 |- *; split; try reflexivity; try discriminate; lia).
  destruct Q as (Q1 & Q2). destruct (busy_top s j b pcj W Hj Q1 Q2) as (gj & bj & X). apply (Go gj j bj pcj X Hj).
  - intros Y. destruct (act_enabled _ _ _ _ Y Q1 Q2) as (_ & Y1 & Y2). lia.
  - intros now ->. cbn in C2. lia.
Qed.
Lemma some_step s : wf s -> (forall b, (b < length (n_brks s))%nat -> exists k, nth_error (n_brks s) b = Some k /\ locked_ok k b (n_acts s)) ->
  forall g, (g < length (n_stacks s))%nat -> user_runs s g \/ exists g' r, nstep s (NStep g') = Some r /\ ~ held_back s g'.
Proof.
  intros W L g Hg. unfold user_runs. destruct (nth_error (n_stacks s) g) as [[|i below]|] eqn:Hs; [now left| |apply nth_error_None in Hs; lia].
  assert (Live : exists b pc, nth_error (n_acts s) i = Some (b, pc) /\ pc <> FDone) by (apply (w_live _ W), in_stacks; exists g, (i :: below); split; [exact Hs|now left]).
  destruct Live as (b & pc & Ha & D). destruct (in_user pc) eqn:U; [left; now exists b, pc|]. right.
  destruct (L b (w_brk _ W _ _ _ Ha)) as (k & Hk & Lk).
  destruct (existsb (waits b) (n_acts s)) eqn:X.
  - apply existsb_exists in X as ([b' pcj] & X & Y). unfold waits in Y. destruct pcj; try discriminate. apply Nat.eqb_eq in Y. subst b'.
    apply In_nth_error in X as (j & Hj). destruct (busy_top s j b _ W Hj eq_refl ltac:(discriminate)) as (gj & bj & Hsj).
    apply (some_step_at s b k gj j bj _ W Hk Lk Hsj Hj eq_refl); discriminate.
  - apply (some_step_at s b k g i below pc W Hk Lk Hs Ha U D). intros _ _. exact X.
Qed.

(** Steps left before the user's code runs again. *)
Definition work (pc : fpc) : Z :=
  match pc with
  | FClock => 10 | FRLock _ => 9 | FFail1 _ => 8 | FThr1 _ _ => 7 | FLast _ => 6 | FTimeout _ _ => 5 | FFail2 _ => 4 | FThr2 _ _ => 3 | FRUnlock _ => 2
  | FOnOpen | FTask => 1
  | FLock (Some _) => 7 | FInc1 _ => 6 | FInc2 _ _ => 5 | FNow _ => 4 | FStamp _ _ => 3 | FUnlock (Some _) => 2 | FOnError _ => 1
  | FLock None => 4 | FZero1 => 3 | FZero2 => 2 | FUnlock None => 1
  | FInOpen | FInTask | FInError | FDone => 0
  end.
Definition top_work (acts : list (nat * fpc)) (stack : list nat) : Z :=
  match stack with [] => 0 | i :: _ => match nth_error acts i with Some (_, pc) => work pc | None => 0 end end.
Lemma work_bounds pc : 0 <= work pc <= 10.
Proof. destruct pc; try destruct e; cbn; lia. Qed.
Lemma top_work_bounds acts st : 0 <= top_work acts st <= 10.
Proof. destruct st as [|i st]; cbn; [lia|]. destruct (nth_error acts i) as [[b pc]|]; [apply work_bounds|lia]. Qed.
Lemma work_down k clock i pc k' pc' es : act_step k clock i pc = Some (k', pc', es) -> work pc' < work pc.
Proof.
  intros H. destruct pc; cbn in H; try discriminate;
    repeat match type of H with (if ?b then _ else _) = _ => destruct b; try discriminate H end; injection H as <- <- <-;
    repeat match goal with
           | |- context [if ?b then _ else _] => destruct b
           | |- context [match ?o with Some _ => _ | None => _ end] => destruct o
           end; cbn; lia.
Qed.
Lemma sumZ_upd_other {A} (f f' : A -> Z) g x l o : nth_error l g = Some o -> (forall g' y, g' <> g -> nth_error l g' = Some y -> f' y = f y) ->
  sumZ f' (upd g x l) = sumZ f l - f o + f' x.
Proof.
  revert g; induction l as [|y l IH]; intros [|g] H E; cbn in *; try discriminate.
  - injection H as ->. assert (sumZ f' l = sumZ f l); [|lia]. apply sumZ_ext, Forall_forall. intros z Z1. apply In_nth_error in Z1 as (n & Z1). exact (E (S n) z ltac:(discriminate) Z1).
  - rewrite (IH g H); [|intros g' z N Z1; exact (E (S g') z ltac:(congruence) Z1)]. rewrite (E 0%nat y ltac:(discriminate) eq_refl). lia.
Qed.
Lemma total_down s g s' es : wf s -> nstep s (NStep g) = Some (s', es) -> sumZ (top_work (n_acts s')) (n_stacks s') < sumZ (top_work (n_acts s)) (n_stacks s).
Proof.
  intros W E. apply step_kinds in E. inversion E as [| | |g0 i below b pc k k' pc' be H1 H2 H3 H4]; subst. cbn [place fst n_acts n_stacks].
  destruct (top_only _ _ _ _ (w_nodup _ W) H1) as (T1 & T2). pose proof (work_down _ _ _ _ _ _ _ H4) as D.
  assert (O : forall g' st, g' <> g -> nth_error (n_stacks s) g' = Some st -> top_work (upd i (b, pc') (n_acts s)) st = top_work (n_acts s) st).
  { intros g' [|j st] N H; [reflexivity|]. cbn. rewrite nth_error_upd_other; [reflexivity|]. intros ->. exact (T2 g' _ N H (or_introl eq_refl)). }
  assert (Pc : pc' = FDone \/ pc' <> FDone) by (destruct pc'; (now left) || (right; discriminate)). destruct Pc as [->|Np].
  - cbn [tl]. rewrite (sumZ_upd_other _ _ g below _ _ H1 O). cbn [top_work]. rewrite H2.
    assert (top_work (upd i (b, FDone) (n_acts s)) below = 0); [|cbn in D; lia]. pose proof (w_tail _ W g i below H1) as T.
    destruct below as [|j bl]; [reflexivity|]. cbn. rewrite nth_error_upd_other by (intros ->; apply T1; now left).
    inversion T as [|? ? (b0 & pc0 & Y1 & Y2) _]; subst. rewrite Y1. destruct pc0; cbn in Y2; try discriminate; reflexivity.
  - replace (match pc' with FDone => upd g (tl (i :: below)) (n_stacks s) | _ => n_stacks s end) with (upd g (i :: below) (n_stacks s)) by (rewrite (upd_nth g (i :: below)) by exact H1; destruct pc'; congruence).
    rewrite (sumZ_upd_other _ _ g (i :: below) _ _ H1 O). cbn [top_work]. rewrite H2, (nth_error_upd_same _ _ _ _ H2). lia.
Qed.
Lemma total_bounds s : 0 <= sumZ (top_work (n_acts s)) (n_stacks s) <= 10 * Z.of_nat (length (n_stacks s)).
Proof.
  induction (n_stacks s) as [|st l IH]; [cbn; lia|]. cbn [sumZ length]. pose proof (top_work_bounds (n_acts s) st). lia.
Qed.

Lemma runs_measure s m s' : runs_on s m s' -> wf s -> wf s' /\ Z.of_nat m + sumZ (top_work (n_acts s')) (n_stacks s') <= sumZ (top_work (n_acts s)) (n_stacks s).
Proof.
  induction 1 as [s|s g s1 es m s2 E R IH]; intros W; [split; [exact W|lia]|].
  pose proof (wf_step _ _ _ _ W E) as W1. destruct (IH W1) as (W2 & M). split; [exact W2|]. pose proof (total_down _ _ _ _ W E). lia.
Qed.
Lemma runs_exec s m s' : runs_on s m s' -> exists gs, length gs = m /\ fst (exec nstep s (map NStep gs)) = s'.
Proof.
  induction 1 as [s|s g s1 es m s2 E R (gs & L & X)]; [exists []; now split|].
  exists (g :: gs). split; [cbn; now rewrite L|]. cbn [map exec]. rewrite E. destruct (exec nstep s1 (map NStep gs)). exact X.
Qed.
Lemma reach_more cfg t0 n sched s' l : fst (exec nstep (fst (nest_exec cfg t0 n sched)) l) = s' -> s' = fst (nest_exec cfg t0 n (sched ++ l)).
Proof.
  intros <-. unfold nest_exec. rewrite exec_app. destruct (exec nstep (nest_init cfg t0 n) sched) as [s1 e1]. cbn [fst]. destruct (exec nstep s1 l). reflexivity.
Qed.
Lemma stuck_in_user cfg t0 n sched : let s := fst (nest_exec cfg t0 n sched) in (forall g, nstep s (NStep g) = None) -> all_in_user_code s.
Proof.
  intros s H g Hg. destruct (some_step s (wf_run cfg t0 n sched)) with (g := g) as [X|(g' & r & X & _)]; [|exact Hg|exact X|rewrite H in X; discriminate].
  intros b Hb. apply locks_run. rewrite <- (proj2 (sizes_run cfg t0 n sched)). exact Hb.
Qed.
Lemma busy_goes_on cfg t0 n sched : let s := fst (nest_exec cfg t0 n sched) in all_in_user_code s \/ exists g r, nstep s (NStep g) = Some r /\ ~ held_back s g.
Proof.
  intros s. assert (X : forall g, (g < length (n_stacks s))%nat -> user_runs s g \/ exists g' r, nstep s (NStep g') = Some r /\ ~ held_back s g').
  { apply some_step; [apply wf_run|]. intros b Hb. apply locks_run. rewrite <- (proj2 (sizes_run cfg t0 n sched)). exact Hb. }
  clear - X. unfold all_in_user_code. remember (length (n_stacks s)) as len eqn:E. clear E.
  induction len as [|len IHl]; [left; intros g H; lia|]. destruct (IHl ltac:(intros g H; apply X; lia)) as [A|A]; [|now right].
  destruct (X len ltac:(lia)) as [B|B]; [|now right]. left. intros g H. destruct (Nat.eq_dec g len) as [->|]; [exact B|apply A; lia].
Qed.
Lemma runs_bounded cfg t0 n sched m s' : runs_on (fst (nest_exec cfg t0 n sched)) m s' ->
  Z.of_nat m <= 10 * Z.of_nat n /\ ((forall g, nstep s' (NStep g) = None) -> all_in_user_code s').
Proof.
  intros R. destruct (runs_measure _ _ _ R (wf_run cfg t0 n sched)) as (W & M). pose proof (total_bounds (fst (nest_exec cfg t0 n sched))) as B1. pose proof (total_bounds s') as B2.
  rewrite (proj1 (sizes_run cfg t0 n sched)) in B1. split; [lia|]. destruct (runs_exec _ _ _ R) as (gs & _ & X). rewrite (reach_more _ _ _ _ _ _ X). apply stuck_in_user.
Qed.

(** The last state of a run has a busy goroutine: go on. *)
Lemma drains s : wf s -> (forall l, let s' := fst (exec nstep s (map NStep l)) in forall b, (b < length (n_brks s'))%nat -> exists k, nth_error (n_brks s') b = Some k /\ locked_ok k b (n_acts s')) ->
  exists m s', runs_on s m s' /\ all_in_user_code s'.
Proof.
  remember (Z.to_nat (sumZ (top_work (n_acts s)) (n_stacks s))) as q eqn:Q. revert s Q. induction q as [q IH] using lt_wf_ind. intros s Q W L.
  assert (D : all_in_user_code s \/ exists g r, nstep s (NStep g) = Some r).
  { pose proof (some_step s W (L [])) as X. clear - X. unfold all_in_user_code. remember (length (n_stacks s)) as len eqn:E. clear E.
    induction len as [|len IHl]; [left; intros g H; lia|]. destruct (IHl ltac:(intros g H; apply X; lia)) as [A|A]; [|now right].
    destruct (X len ltac:(lia)) as [B|(g' & r & B & _)]; [|right; now exists g', r]. left. intros g H. destruct (Nat.eq_dec g len) as [->|]; [exact B|apply A; lia]. }
  destruct D as [D|(g & [s1 es] & E)]; [exists 0%nat, s; split; [constructor|exact D]|].
  pose proof (total_down _ _ _ _ W E) as T. pose proof (total_bounds s) as B. pose proof (total_bounds s1) as B1.
  destruct (IH (Z.to_nat (sumZ (top_work (n_acts s1)) (n_stacks s1))) ltac:(lia) s1 eq_refl (wf_step _ _ _ _ W E)) as (m & s' & R & U).
  - intros l. specialize (L (g :: l)). cbn [map exec] in L. rewrite E in L. destruct (exec nstep s1 (map NStep l)). exact L.
  - exists (S m), s'. split; [exact (ro_step _ _ _ _ _ _ E R)|exact U].
Qed.
Lemma drains_run cfg t0 n sched : exists m s', runs_on (fst (nest_exec cfg t0 n sched)) m s' /\ all_in_user_code s'.
Proof.
  apply drains; [apply wf_run|]. intros l s' b Hb. subst s'. rewrite (reach_more cfg t0 n sched _ (map NStep l) eq_refl) in *.
  apply locks_run. rewrite <- (proj2 (sizes_run cfg t0 n (sched ++ map NStep l))). exact Hb.
Qed.

(** * Whole calls *)

Definition opened (b i : nat) (pc : fpc) (p : list nvisible) : Prop :=
  match pc with
  | FClock | FRLock _ | FFail1 _ | FThr1 _ _ | FLast _ | FTimeout _ _ | FFail2 _ | FThr2 _ _ | FRUnlock _ | FOnOpen | FTask => p = [WCall b i]
  | FInOpen => exists l, whole_calls l /\ p = WCall b i :: WOnOpen b i :: l
  | FInTask => exists l, whole_calls l /\ p = WCall b i :: WTask b i :: l
  | FLock None | FZero1 | FZero2 | FUnlock None => exists l, whole_calls l /\ p = WCall b i :: WTask b i :: l ++ [WTaskEnd b i TaskOk]
  | FLock (Some e) | FInc1 e | FInc2 e _ | FNow e | FStamp e _ | FUnlock (Some e) | FOnError e =>
      exists l, whole_calls l /\ p = WCall b i :: WTask b i :: l ++ [WTaskEnd b i (TaskErr e)]
  | FInError => exists l e l2, whole_calls l /\ whole_calls l2 /\ p = WCall b i :: WTask b i :: l ++ WTaskEnd b i (TaskErr e) :: WOnError b i e :: l2
  | FDone => whole_call (p ++ [WReturn b i])
  end.
Lemma opened_more b i pc p d : opened b i pc p -> in_user pc = true -> whole_call d -> opened b i pc (p ++ d).
Proof.
  intros O U D. destruct pc; cbn in U; try discriminate; cbn in *.
  - destruct O as (l & L & ->). exists (l ++ d). split; [now constructor|reflexivity].
  - destruct O as (l & L & ->). exists (l ++ d). split; [now constructor|reflexivity].
  - destruct O as (l & e & l2 & L & L2 & ->). exists l, e, (l2 ++ d). split; [exact L|]. split; [now constructor|]. cbn. now rewrite <- app_assoc.
Qed.
Definition seen_es (g b : nat) (es : list bevent) : list nvisible := flat_map (sees g) (map (NEv g b) es).
Lemma act_opened k clock i pc k' pc' es g b p : act_step k clock i pc = Some (k', pc', es) -> opened b i pc p -> opened b i pc' (p ++ seen_es g b es).
Proof.
  intros H O. destruct pc; cbn in H; try discriminate;
    repeat match type of H with (if ?b then _ else _) = _ => destruct b; try discriminate H end; injection H as <- <- <-; cbn in O;
    repeat match goal with
           | |- context [if ?b then _ else _] => destruct b
           | |- context [match ?o with Some _ => _ | None => _ end] => destruct o
           end; unfold seen_es; cbn; rewrite ?Nat.eqb_refl; cbn; rewrite ?app_nil_r; try exact O.
  - exists []. split; [constructor|]. now rewrite O.
  - exists []. split; [constructor|]. now rewrite O.
  - destruct O as (l & L & ->). cbn. rewrite <- app_assoc. apply (wc_done b i l TaskOk); [exact L|now left].
  - destruct O as (l & L & ->). exists l, e, []. split; [exact L|]. split; [constructor|]. cbn. now rewrite <- app_assoc.
Qed.
Lemma end_opened i pc o pc' be g b p : (pc = FInTask /\ pc' = match o with TaskOk => FLock None | TaskErr e => FLock (Some e) | TaskPanic => FDone end /\ be = [EDone i o] \/
     (pc = FInOpen \/ pc = FInError) /\ pc' = FDone /\ be = []) -> opened b i pc p -> opened b i pc' (p ++ seen_es g b be).
Proof.
  intros [(-> & -> & ->)|([-> | ->] & -> & ->)] O; cbn in O; unfold seen_es; cbn; rewrite ?Nat.eqb_refl; cbn.
  - destruct O as (l & L & ->). destruct o as [|e|]; cbn.
    + now exists l.
    + now exists l.
    + rewrite <- app_assoc. apply (wc_done b i l TaskPanic); [exact L|now right].
  - destruct O as (l & L & ->). rewrite app_nil_r. cbn. now constructor.
  - destruct O as (l & e & l2 & L & L2 & ->). rewrite app_nil_r. cbn. rewrite <- app_assoc. cbn. now constructor.
Qed.

Fixpoint stack_seen (acts : list (nat * fpc)) (stack : list nat) (l : list nvisible) : Prop :=
  match stack with
  | [] => whole_calls l
  | i :: below => exists b pc l0 p, nth_error acts i = Some (b, pc) /\ l = l0 ++ p /\ opened b i pc p /\ stack_seen acts below l0
  end.
Lemma stack_seen_same acts acts' stack : (forall i, In i stack -> nth_error acts' i = nth_error acts i) -> forall l, stack_seen acts stack l -> stack_seen acts' stack l.
Proof.
  induction stack as [|i st IH]; intros E l H; [exact H|]. destruct H as (b & pc & l0 & p & H1 & H2 & H3 & H4). exists b, pc, l0, p.
  split; [rewrite E by (now left); exact H1|]. split; [exact H2|]. split; [exact H3|]. apply IH; [|exact H4]. intros j Hj. apply E. now right.
Qed.
(** A whole call is over: it belongs to the callback below. *)
Lemma stack_seen_more acts stack l d : stack_seen acts stack l -> whole_call d ->
  (forall i below, stack = i :: below -> exists b pc, nth_error acts i = Some (b, pc) /\ in_user pc = true) -> stack_seen acts stack (l ++ d).
Proof.
  intros H D U. destruct stack as [|i below]; cbn in *; [now constructor|]. destruct H as (b & pc & l0 & p & H1 & -> & H3 & H4).
  destruct (U i below eq_refl) as (b' & pc' & U1 & U2). assert (pc' = pc) by congruence. subst pc'.
  exists b, pc, l0, (p ++ d). split; [exact H1|]. split; [now rewrite app_assoc|]. split; [now apply opened_more|exact H4].
Qed.

Definition all_seen (s : nstate) (tr : list nevent) : Prop := forall g stack, nth_error (n_stacks s) g = Some stack -> stack_seen (n_acts s) stack (seen_by g tr).
Lemma seen_by_app g t1 t2 : seen_by g (t1 ++ t2) = seen_by g t1 ++ seen_by g t2.
Proof. apply flat_map_app. Qed.
Lemma seen_other g g' b es l : g' <> g -> Forall (fun e => match e with NBack g0 _ _ => g0 = g' | _ => False end) l -> seen_by g (map (NEv g' b) es ++ l) = [].
Proof.
  intros N F. rewrite seen_by_app. apply Nat.eqb_neq in N. replace (seen_by g l) with (@nil nvisible).
  - rewrite app_nil_r. induction es as [|e es IH]; [reflexivity|]. cbn. rewrite N. exact IH.
  - induction F as [|x l X F IH]; [reflexivity|]. destruct x as [|g0 b0 i0]; [destruct X|]. cbn. subst g0. rewrite N. exact IH.
Qed.

(** A step of the innermost call of [g]. *)
Lemma seen_place s tr g i below b pc k pc' be : wf s -> all_seen s tr -> nth_error (n_stacks s) g = Some (i :: below) -> nth_error (n_acts s) i = Some (b, pc) ->
  (forall p, opened b i pc p -> opened b i pc' (p ++ seen_es g b be)) ->
  all_seen (fst (place s g (i :: below) i b k pc' be)) (tr ++ snd (place s g (i :: below) i b k pc' be)).
Proof.
  intros W A H1 H2 O. destruct (top_only _ _ _ _ (w_nodup _ W) H1) as (T1 & T2). unfold place. cbn [fst snd]. intros g' stack H. cbn [n_stacks n_acts] in *. rewrite seen_by_app.
  destruct (Nat.eq_dec g' g) as [->|Ng].
  - specialize (A g (i :: below) H1). destruct A as (b0 & pc0 & l0 & p & A1 & A2 & A3 & A4). rewrite H2 in A1. injection A1 as <- <-.
    specialize (O p A3). rewrite A2, seen_by_app. fold (seen_es g b be). change (seen_by g (map (NEv g b) be)) with (seen_es g b be).
    assert (Be : stack_seen (upd i (b, pc') (n_acts s)) below l0).
    { apply (stack_seen_same (n_acts s)); [|exact A4]. intros j Hj. apply nth_error_upd_other. intros ->. exact (T1 Hj). }
    assert (Pc : pc' = FDone \/ pc' <> FDone) by (destruct pc'; (now left) || (right; discriminate)). destruct Pc as [->|Np].
    + cbn [tl] in H. rewrite (nth_error_upd_same _ _ _ _ H1) in H. injection H as <-. cbn [seen_by flat_map sees]. rewrite Nat.eqb_refl, app_nil_r. cbn in O.
      rewrite <- !app_assoc in *. apply stack_seen_more; [exact Be|exact O|]. intros j bl ->. pose proof (w_tail _ W g i _ H1) as T. inversion T as [|? ? (bj & pcj & Y1 & Y2) _]; subst.
      exists bj, pcj. split; [|exact Y2]. rewrite nth_error_upd_other; [exact Y1|]. intros ->. apply T1. now left.
    + assert (H' : stack = i :: below) by (destruct pc'; congruence). subst stack. cbn [stack_seen]. exists b, pc', l0, (p ++ seen_es g b be).
      split; [exact (nth_error_upd_same _ _ _ _ H2)|]. split; [|now split]. rewrite <- app_assoc. f_equal. f_equal. destruct pc'; cbn; rewrite ?app_nil_r; congruence.
  - rewrite seen_other; [|congruence|destruct pc'; repeat constructor]. rewrite app_nil_r.
    assert (H' : nth_error (n_stacks s) g' = Some stack) by (destruct pc'; try exact H; cbn [tl] in H; rewrite nth_error_upd_other in H by congruence; exact H).
    apply (stack_seen_same (n_acts s)); [|exact (A g' stack H')]. intros j Hj. apply nth_error_upd_other. intros ->. exact (T2 g' stack Ng H' Hj).
Qed.

Lemma seen_step s l s' es tr : wf s -> all_seen s tr -> nstep s l = Some (s', es) -> all_seen s' (tr ++ es).
Proof.
  intros W A E. apply step_kinds in E. destruct E as [t|g b stack H1 H2 H3|g o i below b pc k pc' be H1 H2 H3 H4|g i below b pc k k' pc' be H1 H2 H3 H4].
  - rewrite app_nil_r. exact A.
  - assert (Old : forall g' st, nth_error (n_stacks s) g' = Some st -> forall l, stack_seen (n_acts s) st l -> stack_seen (n_acts s ++ [(b, FClock)]) st l).
    { intros g' st H l. apply stack_seen_same. intros j Hj. apply nth_error_app1. apply nth_error_Some.
      assert (X : In j (concat (n_stacks s))) by (apply in_stacks; now exists g', st). apply (w_live _ W) in X as (b0 & pc0 & X & _). congruence. }
    intros g' st H. cbn [n_stacks n_acts] in *. rewrite seen_by_app. apply upd_get in H as [(-> & ->)|(N & H)].
    + cbn [seen_by flat_map sees]. rewrite Nat.eqb_refl. cbn. exists b, FClock, (seen_by g tr), [WCall b (length (n_acts s))].
      split; [rewrite nth_error_app2, Nat.sub_diag by lia; reflexivity|]. split; [reflexivity|]. split; [reflexivity|]. exact (Old g stack H1 _ (A g stack H1)).
    + cbn [seen_by flat_map sees]. destruct (Nat.eqb_spec g g'); [congruence|]. cbn. rewrite app_nil_r. exact (Old g' st H _ (A g' st H)).
  - apply (seen_place s tr g i below b pc k pc' be W A H1 H2). intros p. exact (end_opened i pc o pc' be g b p H4).
  - apply (seen_place s tr g i below b pc k' pc' be W A H1 H2). intros p. exact (act_opened _ _ _ _ _ _ _ g b p H4).
Qed.
Lemma seen_run cfg t0 n sched : all_seen (fst (nest_exec cfg t0 n sched)) (snd (nest_exec cfg t0 n sched)).
Proof.
  unfold nest_exec. refine (proj2 (exec_inv nstep (fun s tr => wf s /\ all_seen s tr) _ sched _ [] _)).
  - intros s l s1 es tr (W & A) E. split; [exact (wf_step _ _ _ _ W E)|exact (seen_step _ _ _ _ _ W A E)].
  - split; [apply wf_init|]. intros g stack H. cbn in H. apply nth_error_In, repeat_spec in H. subst stack. constructor.
Qed.

(** Calls that are not over can still end. *)
Lemma opened_ends b i pc p : opened b i pc p -> exists rest, whole_call (p ++ rest).
Proof.
  intros O. destruct pc; cbn in O;
    try (subst p; exists ([WOnOpen b i] ++ [] ++ [WReturn b i]); exact (wc_refused b i [] wc_none)).
  - destruct O as (l & L & ->). exists [WReturn b i]. cbn. now constructor.
  - destruct O as (l & L & ->). exists [WTaskEnd b i TaskOk; WReturn b i]. cbn. constructor; [exact L|now left].
  - destruct e as [e|]; destruct O as (l & L & ->).
    + exists (WOnError b i e :: [] ++ [WReturn b i]). cbn. rewrite <- app_assoc. cbn. exact (wc_failed b i l e [] L wc_none).
    + exists [WReturn b i]. cbn. rewrite <- app_assoc. cbn. constructor; [exact L|now left].
  - destruct O as (l & L & ->). exists (WOnError b i e :: [] ++ [WReturn b i]). cbn. rewrite <- app_assoc. cbn. exact (wc_failed b i l e [] L wc_none).
  - destruct O as (l & L & ->). exists (WOnError b i e :: [] ++ [WReturn b i]). cbn. rewrite <- app_assoc. cbn. exact (wc_failed b i l e [] L wc_none).
  - destruct O as (l & L & ->). exists (WOnError b i e :: [] ++ [WReturn b i]). cbn. rewrite <- app_assoc. cbn. exact (wc_failed b i l e [] L wc_none).
  - destruct O as (l & L & ->). exists (WOnError b i e :: [] ++ [WReturn b i]). cbn. rewrite <- app_assoc. cbn. exact (wc_failed b i l e [] L wc_none).
  - destruct O as (l & L & ->). exists [WReturn b i]. cbn. rewrite <- app_assoc. cbn. constructor; [exact L|now left].
  - destruct O as (l & L & ->). exists [WReturn b i]. cbn. rewrite <- app_assoc. cbn. constructor; [exact L|now left].
  - destruct e as [e|]; destruct O as (l & L & ->).
    + exists (WOnError b i e :: [] ++ [WReturn b i]). cbn. rewrite <- app_assoc. cbn. exact (wc_failed b i l e [] L wc_none).
    + exists [WReturn b i]. cbn. rewrite <- app_assoc. cbn. constructor; [exact L|now left].
  - destruct O as (l & L & ->). exists (WOnError b i e :: [] ++ [WReturn b i]). cbn. rewrite <- app_assoc. cbn. exact (wc_failed b i l e [] L wc_none).
  - destruct O as (l & e & l2 & L & L2 & ->). exists [WReturn b i]. cbn. rewrite <- app_assoc. cbn. now constructor.
  - exists [WReturn b i]. exact O.
Qed.
Lemma stack_ends acts : forall stack l, stack_seen acts stack l ->
  (forall j, In j (tl stack) -> exists b pc, nth_error acts j = Some (b, pc) /\ in_user pc = true) ->
  exists rest, whole_calls (l ++ rest) /\ (stack = [] -> rest = []).
Proof.
  assert (G : forall stack l d, stack_seen acts stack l -> whole_call d -> (forall j, In j stack -> exists b pc, nth_error acts j = Some (b, pc) /\ in_user pc = true) ->
    exists rest, whole_calls (l ++ d ++ rest)).
  { induction stack as [|i st IH]; intros l d H D U.
    - exists []. rewrite app_nil_r. now constructor.
    - destruct H as (b & pc & l0 & p & H1 & -> & H3 & H4). destruct (U i (or_introl eq_refl)) as (b' & pc' & U1 & U2). assert (pc' = pc) by congruence. subst pc'.
      destruct (opened_ends b i pc (p ++ d) (opened_more _ _ _ _ _ H3 U2 D)) as (r1 & R1).
      destruct (IH l0 ((p ++ d) ++ r1) H4 R1 ltac:(intros j Hj; apply U; now right)) as (r2 & R2). exists (r1 ++ r2).
      rewrite <- !app_assoc in R2. rewrite <- app_assoc. exact R2. }
  intros [|i st] l H U.
  - exists []. rewrite app_nil_r. now split.
  - destruct H as (b & pc & l0 & p & H1 & -> & H3 & H4). destruct (opened_ends _ _ _ _ H3) as (r1 & R1). destruct (G st l0 (p ++ r1) H4 R1 U) as (r2 & R2).
    exists (r1 ++ r2). split; [|discriminate]. rewrite <- !app_assoc in R2. rewrite <- app_assoc. exact R2.
Qed.
Lemma brackets cfg t0 n sched g : (g < n)%nat -> exists rest, whole_calls (seen_by g (snd (nest_exec cfg t0 n sched)) ++ rest) /\
  (nth_error (n_stacks (fst (nest_exec cfg t0 n sched))) g = Some [] -> rest = []).
Proof.
  intros H. pose proof (wf_run cfg t0 n sched) as W. pose proof (seen_run cfg t0 n sched) as A. destruct (sizes_run cfg t0 n sched) as (S1 & _).
  destruct (nth_error (n_stacks (fst (nest_exec cfg t0 n sched))) g) as [stack|] eqn:E; [|apply nth_error_None in E; lia].
  destruct (stack_ends _ stack _ (A g stack E)) as (rest & R1 & R2).
  - intros j Hj. destruct stack as [|i st]; [destruct Hj|]. pose proof (w_tail _ W g i st E) as T. rewrite Forall_forall in T. exact (T j Hj).
  - exists rest. split; [exact R1|]. intros X. apply R2. congruence.
Qed.
