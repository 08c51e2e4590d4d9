(** Proofs about nested circuit breakers: each breaker behaves as alone, with every call of Do as an activation of its
    own. *)
From Verif Require Import Common Threads BreakerModel BreakerSpec BreakerProofs BreakerNestModel BreakerNestSpec.

(** * The locks *)

Definition rd (pc : fpc) : Z :=
  match pc with FFail1 _ | FThr1 _ _ | FLast _ | FTimeout _ _ | FFail2 _ | FThr2 _ _ | FRUnlock _ => 1 | _ => 0 end.
Definition wr (pc : fpc) : Z :=
  match pc with FInc1 _ | FInc2 _ _ | FNow _ | FStamp _ _ | FZero1 | FZero2 | FUnlock _ => 1 | _ => 0 end.
Definition at_b (b : nat) (f : fpc -> Z) (a : nat * fpc) : Z := if Nat.eqb (fst a) b then f (snd a) else 0.

Lemma rd_nonneg b l : Forall (fun x => 0 <= at_b b rd x) l.
Proof. apply Forall_forall. intros [b' pc] _. unfold at_b. destruct (Nat.eqb _ _); [|lia]. destruct pc; cbn; lia. Qed.
Lemma wr_nonneg b l : Forall (fun x => 0 <= at_b b wr x) l.
Proof. apply Forall_forall. intros [b' pc] _. unfold at_b. destruct (Nat.eqb _ _); [|lia]. destruct pc; cbn; lia. Qed.

Definition locked_ok (k : brk) (b : nat) (acts : list (nat * fpc)) : Prop :=
  k_readers k = sumZ (at_b b rd) acts /\ (if k_writer k then 1 else 0) = sumZ (at_b b wr) acts /\
  (k_writer k = true -> k_readers k = 0).

Lemma at_same b pc f : at_b b f (b, pc) = f pc.
Proof. unfold at_b. cbn [fst]. now rewrite Nat.eqb_refl. Qed.
Lemma at_other b b' pc f : b' <> b -> at_b b f (b', pc) = 0.
Proof. intros N. unfold at_b. cbn [fst]. apply Nat.eqb_neq in N. now rewrite N. Qed.

(** Two different calls in the write lock, or one in each lock, cannot be. *)
Lemma sum_two (f : nat * fpc -> Z) l : Forall (fun x => 0 <= f x) l -> forall i j x y, i <> j -> nth_error l i = Some x -> nth_error l j = Some y ->
  f x + f y <= sumZ f l.
Proof.
  induction l as [|z l IH]; intros F [|i] [|j] x y N Hi Hj; cbn in *; try discriminate; try congruence; inversion F as [|? ? F1 F2]; subst.
  - injection Hi as ->. pose proof (sumZ_ge_elem f l j y F2 Hj). lia.
  - injection Hj as ->. pose proof (sumZ_ge_elem f l i x F2 Hi). lia.
  - specialize (IH F2 i j x y ltac:(congruence) Hi Hj). lia.
Qed.
Lemma writer_alone k b acts i pc : locked_ok k b acts -> nth_error acts i = Some (b, pc) -> wr pc = 1 ->
  k_writer k = true /\ forall j pc', j <> i -> nth_error acts j = Some (b, pc') -> rd pc' = 0 /\ wr pc' = 0.
Proof.
  intros (L1 & L2 & L3) H W. pose proof (sumZ_ge_elem _ _ _ _ (wr_nonneg b acts) H) as G. rewrite at_same, W in G.
  destruct (k_writer k); [|lia]. split; [reflexivity|]. intros j pc' N Hj.
  pose proof (sumZ_ge_elem _ _ _ _ (rd_nonneg b acts) Hj) as G1. rewrite at_same in G1.
  pose proof (sum_two _ _ (wr_nonneg b acts) _ _ _ _ N Hj H) as G2. rewrite !at_same in G2. specialize (L3 eq_refl).
  assert (0 <= rd pc' /\ 0 <= wr pc') by (destruct pc'; cbn; lia). lia.
Qed.
Lemma reader_no_writer k b acts i pc : locked_ok k b acts -> nth_error acts i = Some (b, pc) -> rd pc = 1 -> k_writer k = false.
Proof.
  intros (L1 & L2 & L3) H W. pose proof (sumZ_ge_elem _ _ _ _ (rd_nonneg b acts) H) as G. rewrite at_same, W in G.
  destruct (k_writer k); [|reflexivity]. specialize (L3 eq_refl). lia.
Qed.

Lemma locked_other k b acts i b' pc pc' : locked_ok k b acts -> nth_error acts i = Some (b', pc) -> b' <> b -> locked_ok k b (upd i (b', pc') acts).
Proof.
  intros (L1 & L2 & L3) H N. unfold locked_ok. rewrite !(sumZ_upd _ _ _ _ _ H), !at_other by exact N.
  split; [lia|]. split; [destruct (k_writer k); lia|exact L3].
Qed.
Lemma locked_same k b acts i pc k' pc' : locked_ok k b acts -> nth_error acts i = Some (b, pc) ->
  k_readers k' = k_readers k - rd pc + rd pc' -> (if k_writer k' then 1 else 0) = (if k_writer k then 1 else 0) - wr pc + wr pc' ->
  (k_writer k' = true -> k_readers k' = 0) -> locked_ok k' b (upd i (b, pc') acts).
Proof.
  intros (L1 & L2 & L3) H E1 E2 E3. unfold locked_ok. rewrite !(sumZ_upd _ _ _ _ _ H), !at_same. repeat split; [lia|lia|exact E3].
Qed.
Lemma locked_new k b acts b' : locked_ok k b acts -> locked_ok k b (acts ++ [(b', FClock)]).
Proof.
  intros (L1 & L2 & L3). unfold locked_ok. rewrite !sumZ_app. unfold at_b at 2 4. cbn [sumZ fst snd rd wr].
  destruct (Nat.eqb b' b); cbn [rd wr]; (split; [lia|]; split; [lia|exact L3]).
Qed.

(** What a step does to the lock of its breaker. *)
Lemma step_lock k clock i pc k' pc' es : act_step k clock i pc = Some (k', pc', es) -> (k_writer k = true -> k_readers k = 0) ->
  (wr pc = 1 -> k_writer k = true) -> (rd pc = 1 -> k_writer k = false) ->
  k_readers k' = k_readers k - rd pc + rd pc' /\ (if k_writer k' then 1 else 0) = (if k_writer k then 1 else 0) - wr pc + wr pc' /\
  (k_writer k' = true -> k_readers k' = 0) /\ k_threshold k' = k_threshold k /\ k_timeout k' = k_timeout k.
Proof.
  intros H L W R. destruct pc; cbn in H; try discriminate;
    repeat match type of H with
           | (if ?b then _ else _) = _ => destruct b eqn:?; try discriminate H
           end; injection H as <- <- <-; cbn in *;
    repeat match goal with
           | |- context [if ?b then _ else _] => destruct b eqn:?; cbn in *
           | |- context [match ?o with Some _ => _ | None => _ end] => destruct o; cbn in *
           end;
    repeat match goal with
           | X : _ || _ = false |- _ => apply orb_false_iff in X; destruct X
           | X : negb _ = false |- _ => apply negb_false_iff in X
           | X : (_ =? _) = true |- _ => apply Z.eqb_eq in X
           end;
    repeat split; try lia; intros; try congruence; try lia; try (apply L; assumption);
    try (specialize (W eq_refl); congruence); try (specialize (R eq_refl); congruence).
Qed.

(** * Simulation *)

Definition absp (pc : fpc) : bpc :=
  match pc with
  | FClock => BNow
  | FRLock now | FFail1 now | FThr1 now _ | FLast now | FTimeout now _ | FFail2 now | FThr2 now _ => BState now
  | FRUnlock run => if run then BTask else BOpen
  | FOnOpen => BOpen
  | FTask => BTask
  | FInTask => BRunning
  | FLock (Some e) | FInc1 e | FInc2 e _ | FNow e => BFail e
  | FLock None | FZero1 | FZero2 => BReset
  | FStamp e _ | FUnlock (Some e) | FOnError e => BOnError e
  | FUnlock None | FInOpen | FInError | FDone => BIdle
  end.
Definition abs_of (b : nat) (a : option (nat * fpc)) : bpc :=
  match a with Some (b', pc) => if Nat.eqb b' b then absp pc else BIdle | None => BIdle end.

Definition half_open (k : brk) (now : Z) : bool := (k_threshold k <=? k_failures k) && (k_timeout k <? i64 (now - k_last k)).
Definition same_mem (k : brk) (s : bstate) : Prop := k_failures k = cb_failures s /\ k_last k = cb_last s.
Definition local (k : brk) (s : bstate) (pc : fpc) : Prop :=
  match pc with
  | FThr1 _ f => f = k_failures k
  | FLast _ => k_threshold k <= k_failures k
  | FTimeout _ l => k_threshold k <= k_failures k /\ l = k_last k
  | FFail2 now => half_open k now = false
  | FThr2 now f => half_open k now = false /\ f = k_failures k
  | FInc1 _ | FZero1 | FUnlock _ => same_mem k s
  | FInc2 _ f => same_mem k s /\ f = k_failures k
  | FNow _ => k_failures k = i64 (cb_failures s + 1) /\ k_last k = cb_last s
  | FStamp _ t => k_failures k = cb_failures s /\ cb_last s = t
  | FZero2 => k_failures k = 0
  | _ => True
  end.
Lemma local_quiet k s pc : rd pc = 0 -> wr pc = 0 -> local k s pc.
Proof. destruct pc; cbn; intros; trivial; lia. Qed.
Lemma local_same k s k' s' pc : k_threshold k' = k_threshold k -> k_timeout k' = k_timeout k -> k_last k' = k_last k -> k_failures k' = k_failures k ->
  cb_last s' = cb_last s -> cb_failures s' = cb_failures s -> local k s pc -> local k' s' pc.
Proof.
  intros E1 E2 E3 E4 E5 E6. destruct pc; cbn; unfold half_open, same_mem; rewrite ?E1, ?E2, ?E3, ?E4, ?E5, ?E6; trivial.
Qed.

Record related (N b : nat) (s : nstate) (f : bstate) (k : brk) : Prop := {
  r_brk : nth_error (n_brks s) b = Some k;
  r_thr : cb_threshold f = k_threshold k;
  r_to : cb_timeout f = k_timeout k;
  r_clock : cb_clock f = n_clock s;
  r_lock : locked_ok k b (n_acts s);
  r_mem : k_writer k = false -> same_mem k f;
  r_local : forall i pc, nth_error (n_acts s) i = Some (b, pc) -> local k f pc;
  r_threads : forall i, (i < N)%nat -> nth_error (cb_threads f) i = Some (abs_of b (nth_error (n_acts s) i)) }.

(** A step of call [i] of another breaker. *)
Lemma related_other N b s f k i b' pc k' pc' stacks : related N b s f k -> nth_error (n_acts s) i = Some (b', pc) -> b' <> b ->
  related N b (NSt (n_clock s) (upd b' k' (n_brks s)) (upd i (b', pc') (n_acts s)) stacks) f k.
Proof.
  intros [R1 R2 R3 R4 R5 R6 R7 R8] H Nb. constructor; cbn [n_brks n_clock n_acts]; try assumption.
  - rewrite nth_error_upd_other by exact Nb. exact R1.
  - exact (locked_other _ _ _ _ _ _ pc' R5 H Nb).
  - intros j pcj Hj. rewrite nth_error_upd in Hj. destruct (Nat.eq_dec i j); [|exact (R7 j pcj Hj)].
    rewrite H in Hj. congruence.
  - intros j Hj. rewrite (R8 j Hj), nth_error_upd. destruct (Nat.eq_dec i j) as [<-|]; [|reflexivity].
    rewrite H. cbn. apply Nat.eqb_neq in Nb. now rewrite Nb.
Qed.

(** A step of call [i] of this breaker. *)
Lemma related_same N b s f k i pc k' pc' stacks f' : related N b s f k -> nth_error (n_acts s) i = Some (b, pc) -> (i < N)%nat ->
  cb_threshold f' = cb_threshold f -> cb_timeout f' = cb_timeout f -> cb_clock f' = cb_clock f ->
  k_threshold k' = k_threshold k -> k_timeout k' = k_timeout k ->
  k_readers k' = k_readers k - rd pc + rd pc' -> (if k_writer k' then 1 else 0) = (if k_writer k then 1 else 0) - wr pc + wr pc' ->
  (k_writer k' = true -> k_readers k' = 0) ->
  (k_writer k' = false -> same_mem k' f') -> local k' f' pc' ->
  (wr pc = 1 \/ (k_last k' = k_last k /\ k_failures k' = k_failures k /\ cb_last f' = cb_last f /\ cb_failures f' = cb_failures f)) ->
  cb_threads f' = upd i (absp pc') (cb_threads f) ->
  related N b (NSt (n_clock s) (upd b k' (n_brks s)) (upd i (b, pc') (n_acts s)) stacks) f' k'.
Proof.
  intros [R1 R2 R3 R4 R5 R6 R7 R8] H Hi F1 F2 F3 K1 K2 L1 L2 L3 M Lo Or T. constructor; cbn [n_brks n_clock n_acts]; try congruence.
  - exact (nth_error_upd_same _ _ _ _ R1).
  - exact (locked_same _ _ _ _ _ _ _ R5 H L1 L2 L3).
  - exact M.
  - intros j pcj Hj. rewrite nth_error_upd in Hj. destruct (Nat.eq_dec i j) as [<-|Nj]; [rewrite H in Hj; injection Hj as <-; exact Lo|].
    destruct Or as [W|(O1 & O2 & O3 & O4)].
    + destruct (writer_alone _ _ _ _ _ R5 H W) as (_ & A). destruct (A j pcj ltac:(congruence) Hj). now apply local_quiet.
    + exact (local_same _ _ _ _ _ K1 K2 O1 O2 O3 O4 (R7 j pcj Hj)).
  - intros j Hj. rewrite T, !nth_error_upd. destruct (Nat.eq_dec i j) as [<-|]; [|exact (R8 j Hj)].
    rewrite (R8 i Hi), H. cbn. now rewrite Nat.eqb_refl.
Qed.

Lemma upd_nth {A} i (x : A) l : nth_error l i = Some x -> upd i x l = l.
Proof. revert i; induction l as [|y l IH]; intros [|i] H; cbn in *; try discriminate; [congruence|]. now rewrite IH. Qed.

(** * One step *)

Ltac fin := try reflexivity; try assumption; try exact I; try (right; now repeat split).

Lemma act_related N b s f k i pc k' pc' es stacks : related N b s f k -> nth_error (n_acts s) i = Some (b, pc) -> (i < N)%nat ->
  act_step k (n_clock s) i pc = Some (k', pc', es) ->
  exists fl f', (length fl <= 1)%nat /\ Forall (fun l => match l with BClock _ => False | _ => True end) fl /\ exec bstep f fl = (f', es) /\
    related N b (NSt (n_clock s) (upd b k' (n_brks s)) (upd i (b, pc') (n_acts s)) stacks) f' k'.
Proof.
  intros R H Hi E. pose proof R as [R1 R2 R3 R4 R5 R6 R7 R8].
  assert (RW : rd pc = 1 -> k_writer k = false) by (intros X; exact (reader_no_writer _ _ _ _ _ R5 H X)).
  assert (WW : wr pc = 1 -> k_writer k = true) by (intros X; apply (writer_alone _ _ _ _ _ R5 H X)).
  destruct (step_lock _ _ _ _ _ _ _ E (proj2 (proj2 R5)) WW RW) as (L1 & L2 & L3 & K1 & K2).
  pose proof (R7 i pc H) as Lo. pose proof (R8 i Hi) as T. rewrite H in T. cbn in T. rewrite Nat.eqb_refl in T.
  (* silent: the flat breaker does nothing *)
  assert (Silent : es = [] -> absp pc' = absp pc -> k_last k' = k_last k -> k_failures k' = k_failures k ->
    (k_writer k' = false -> same_mem k f) -> local k' f pc' ->
    exists fl f', (length fl <= 1)%nat /\ Forall (fun l => match l with BClock _ => False | _ => True end) fl /\ exec bstep f fl = (f', es) /\
      related N b (NSt (n_clock s) (upd b k' (n_brks s)) (upd i (b, pc') (n_acts s)) stacks) f' k').
  { intros -> A M1 M2 M L. exists [], f. split; [cbn; lia|]. split; [constructor|]. split; [reflexivity|].
    apply (related_same N b s f k i pc); try assumption; try reflexivity.
    - intros X. unfold same_mem. rewrite M1, M2. exact (M X).
    - right. now repeat split.
    - symmetry. apply upd_nth. rewrite A. exact T. }
  (* one step of the activation *)
  assert (Move : forall f', bstep_thread f i (absp pc) = Some (f', es) ->
    cb_threshold f' = cb_threshold f -> cb_timeout f' = cb_timeout f -> cb_clock f' = cb_clock f -> cb_threads f' = upd i (absp pc') (cb_threads f) ->
    (k_writer k' = false -> same_mem k' f') -> local k' f' pc' ->
    (wr pc = 1 \/ (k_last k' = k_last k /\ k_failures k' = k_failures k /\ cb_last f' = cb_last f /\ cb_failures f' = cb_failures f)) ->
    exists fl f', (length fl <= 1)%nat /\ Forall (fun l => match l with BClock _ => False | _ => True end) fl /\ exec bstep f fl = (f', es) /\
      related N b (NSt (n_clock s) (upd b k' (n_brks s)) (upd i (b, pc') (n_acts s)) stacks) f' k').
  { intros f' B F1 F2 F3 F4 M L O. exists [BStep i], f'. split; [cbn; lia|]. split; [repeat constructor|]. split.
    - cbn. rewrite T, B. now rewrite app_nil_r.
    - now apply (related_same N b s f k i pc). }
  destruct pc; cbn in E; try discriminate.
  - (* FClock *) injection E as <- <- <-. apply (Move (b_pc f i (BState (cb_clock f)))); fin; rewrite R4; reflexivity.
  - (* FRLock *) destruct (k_writer k) eqn:W; [discriminate|]. injection E as <- <- <-. apply Silent; fin; intros _; exact (R6 W).
  - (* FFail1 *) injection E as <- <- <-. apply Silent; fin.
  - (* FThr1 *) cbn in Lo. subst f0. destruct (Z.leb_spec (k_threshold k) (k_failures k)) as [X|X]; injection E as <- <- <-; apply Silent; fin; cbn.
    unfold half_open. destruct (Z.leb_spec (k_threshold k) (k_failures k)); [lia|reflexivity].
  - (* FLast *) injection E as <- <- <-. apply Silent; fin. cbn in Lo |- *. now split.
  - (* FTimeout *) cbn in Lo. destruct Lo as (X & ->). destruct (R6 (RW eq_refl)) as (M1 & M2). destruct (k_timeout k <? i64 (now - k_last k)) eqn:Y; injection E as <- <- <-.
    + apply (Move (b_pc f i BTask)); fin.
      cbn. unfold cb_state. rewrite R2, R3, <- M1, <- M2, Y. apply Z.leb_le in X. rewrite X. reflexivity.
    + apply Silent; fin. cbn. unfold half_open. rewrite Y. apply andb_false_r.
  - (* FFail2 *) injection E as <- <- <-. apply Silent; fin. cbn in Lo |- *. now split.
  - (* FThr2 *) cbn in Lo. destruct Lo as (X & ->). destruct (R6 (RW eq_refl)) as (M1 & M2). injection E as <- <- <-.
    assert (C : cb_state f now = if k_threshold k <=? k_failures k then CbOpen else CbClosed).
    { unfold cb_state. unfold half_open in X. rewrite R2, R3, <- M1, <- M2, X. reflexivity. }
    destruct (k_threshold k <=? k_failures k); cbn [negb].
    + apply (Move (b_pc f i BOpen)); fin; cbn; rewrite C; reflexivity.
    + apply (Move (b_pc f i BTask)); fin; cbn; rewrite C; reflexivity.
  - (* FRUnlock *) injection E as <- <- <-. apply Silent; fin; destruct run; fin.
  - (* FOnOpen *) injection E as <- <- <-. apply (Move (b_pc f i BIdle)); fin.
  - (* FTask *) injection E as <- <- <-. apply (Move (b_pc f i BRunning)); fin.
  - (* FLock *) destruct (k_writer k) eqn:W; [discriminate|]. destruct (k_readers k =? 0); [|discriminate]. cbn in E. injection E as <- <- <-.
    destruct (R6 eq_refl) as (M1 & M2). apply Silent; fin; try discriminate; destruct e; fin; cbn; now split.
  - (* FInc1 *) injection E as <- <- <-. apply Silent; fin. cbn in Lo |- *. now split.
  - (* FInc2 *) cbn in Lo. destruct Lo as ((M1 & M2) & ->). injection E as <- <- <-. exists [], f. split; [cbn; lia|]. split; [constructor|]. split; [reflexivity|].
    apply (related_same N b s f k i (FInc2 e (k_failures k))); try assumption; try reflexivity.
    + cbn. intros X. rewrite (WW eq_refl) in X. discriminate.
    + cbn. rewrite M1. now split.
    + now left.
    + symmetry. apply upd_nth. exact T.
  - (* FNow *) cbn in Lo. destruct Lo as (M1 & M2). injection E as <- <- <-.
    apply (Move (b_pc (cb_record_failure f) i (BOnError e))); try reflexivity.
    + cbn. now rewrite R4.
    + intros X. rewrite (WW eq_refl) in X. discriminate.
    + cbn. rewrite R4. now split.
    + now left.
  - (* FStamp *) cbn in Lo. destruct Lo as (M1 & M2). injection E as <- <- <-. exists [], f. split; [cbn; lia|]. split; [constructor|]. split; [reflexivity|].
    apply (related_same N b s f k i (FStamp e t)); try assumption; try reflexivity.
    + intros _. split; [exact M1|symmetry; exact M2].
    + split; [exact M1|symmetry; exact M2].
    + now left.
    + symmetry. apply upd_nth. exact T.
  - (* FZero1 *) cbn in Lo. destruct Lo as (M1 & M2). injection E as <- <- <-. exists [], f. split; [cbn; lia|]. split; [constructor|]. split; [reflexivity|].
    apply (related_same N b s f k i FZero1); try assumption; try reflexivity.
    + cbn. intros X. rewrite (WW eq_refl) in X. discriminate.
    + now left.
    + symmetry. apply upd_nth. exact T.
  - (* FZero2 *) cbn in Lo. injection E as <- <- <-. apply (Move (b_pc (cb_reset f) i BIdle)); try reflexivity.
    + intros _. split; [exact Lo|reflexivity].
    + split; [exact Lo|reflexivity].
    + now left.
  - (* FUnlock *) cbn in Lo. injection E as <- <- <-. apply Silent; fin; try (intros _; exact Lo); destruct e; fin.
  - (* FOnError *) injection E as <- <- <-. apply (Move (b_pc f i BIdle)); fin.
Qed.

(** * Every step *)

Lemma of_breaker_app b t1 t2 : of_breaker b (t1 ++ t2) = of_breaker b t1 ++ of_breaker b t2.
Proof. apply flat_map_app. Qed.
Lemma of_breaker_same b g es (l : list nevent) : Forall (fun e => match e with NBack _ _ _ => True | _ => False end) l -> of_breaker b (map (NEv g b) es ++ l) = es.
Proof.
  intros F. rewrite of_breaker_app. replace (of_breaker b l) with (@nil bevent).
  - rewrite app_nil_r. induction es as [|e es IH]; [reflexivity|]. cbn. rewrite Nat.eqb_refl. cbn. now f_equal.
  - induction F as [|x l X F IH]; [reflexivity|]. cbn. destruct x; [destruct X|]. exact IH.
Qed.
Lemma of_breaker_other b b' g es (l : list nevent) : b' <> b -> Forall (fun e => match e with NBack _ _ _ => True | _ => False end) l -> of_breaker b (map (NEv g b') es ++ l) = [].
Proof.
  intros N F. rewrite of_breaker_app. replace (of_breaker b l) with (@nil bevent).
  - rewrite app_nil_r. induction es as [|e es IH]; [reflexivity|]. cbn. apply Nat.eqb_neq in N. rewrite N. exact IH.
  - induction F as [|x l X F IH]; [reflexivity|]. cbn. destruct x; [destruct X|]. exact IH.
Qed.
Lemma back_only pc g b i : Forall (fun e => match e with NBack _ _ _ => True | _ => False end) (match pc with FDone => [NBack g b i] | _ => [] end).
Proof. destruct pc; repeat constructor. Qed.

Lemma related_stacks N b s f k stacks : related N b s f k -> related N b (NSt (n_clock s) (n_brks s) (n_acts s) stacks) f k.
Proof. intros [R1 R2 R3 R4 R5 R6 R7 R8]. now constructor. Qed.

(** A new call of Do. *)
Lemma related_call_other N b s f k b' stacks : related N b s f k -> b' <> b ->
  related N b (NSt (n_clock s) (n_brks s) (n_acts s ++ [(b', FClock)]) stacks) f k.
Proof.
  intros [R1 R2 R3 R4 R5 R6 R7 R8] Nb. constructor; cbn [n_brks n_clock n_acts]; try assumption.
  - now apply locked_new.
  - intros i pc H. destruct (Nat.lt_ge_cases i (length (n_acts s))) as [X|X].
    + rewrite nth_error_app1 in H by exact X. exact (R7 i pc H).
    + rewrite nth_error_app2 in H by exact X. destruct (i - length (n_acts s))%nat as [|[|]]; cbn in H; congruence.
  - intros i Hi. rewrite (R8 i Hi). destruct (Nat.lt_ge_cases i (length (n_acts s))) as [X|X].
    + now rewrite nth_error_app1.
    + rewrite nth_error_app2 by exact X. replace (nth_error (n_acts s) i) with (@None (nat * fpc)) by (symmetry; now apply nth_error_None).
      destruct (i - length (n_acts s))%nat as [|[|]]; cbn; try reflexivity. apply Nat.eqb_neq in Nb. now rewrite Nb.
Qed.
Lemma related_call_same N b s f k stacks : related N b s f k -> (length (n_acts s) < N)%nat ->
  related N b (NSt (n_clock s) (n_brks s) (n_acts s ++ [(b, FClock)]) stacks) (b_pc f (length (n_acts s)) BNow) k /\
  nth_error (cb_threads f) (length (n_acts s)) = Some BIdle.
Proof.
  intros [R1 R2 R3 R4 R5 R6 R7 R8] L.
  assert (T : nth_error (cb_threads f) (length (n_acts s)) = Some BIdle).
  { rewrite (R8 _ L). replace (nth_error (n_acts s) (length (n_acts s))) with (@None (nat * fpc)) by (symmetry; now apply nth_error_None). reflexivity. }
  split; [|exact T]. constructor; cbn [n_brks n_clock n_acts]; try assumption.
  - now apply locked_new.
  - intros i pc H. destruct (Nat.lt_ge_cases i (length (n_acts s))) as [X|X].
    + rewrite nth_error_app1 in H by exact X. exact (R7 i pc H).
    + rewrite nth_error_app2 in H by exact X. destruct (i - length (n_acts s))%nat as [|[|]]; cbn in H; try discriminate. injection H as <-. exact I.
  - intros i Hi. cbn. rewrite nth_error_upd. destruct (Nat.eq_dec (length (n_acts s)) i) as [<-|X].
    + rewrite T, nth_error_app2, Nat.sub_diag by lia. cbn. now rewrite Nat.eqb_refl.
    + rewrite (R8 i Hi). destruct (Nat.lt_ge_cases i (length (n_acts s))) as [Y|Y].
      * now rewrite nth_error_app1.
      * rewrite nth_error_app2 by exact Y. replace (nth_error (n_acts s) i) with (@None (nat * fpc)) by (symmetry; now apply nth_error_None).
        destruct (i - length (n_acts s))%nat as [|[|]] eqn:Z1; cbn; try reflexivity. lia.
Qed.

Lemma acts_grow s l s' es : nstep s l = Some (s', es) -> (length (n_acts s) <= length (n_acts s') <= S (length (n_acts s)))%nat.
Proof.
  intros E. destruct l as [t|g b|g o|g]; cbn in E.
  - injection E as <- <-. cbn. lia.
  - destruct (nth_error (n_stacks s) g) as [stack|]; [|discriminate]. destruct (nth_error (n_brks s) b); [|discriminate].
    assert (X : s' = NSt (n_clock s) (n_brks s) (n_acts s ++ [(b, FClock)]) (upd g (length (n_acts s) :: stack) (n_stacks s))).
    { destruct stack as [|i st]; [congruence|]. destruct (nth_error (n_acts s) i) as [[? pc]|]; [|discriminate]. destruct (in_user pc); congruence. }
    rewrite X. cbn. rewrite app_length. cbn. lia.
  - destruct (nth_error (n_stacks s) g) as [[|i below]|]; try discriminate. destruct (nth_error (n_acts s) i) as [[b pc]|]; [|discriminate].
    destruct (nth_error (n_brks s) b); [|discriminate]. destruct pc; try discriminate; injection E as <- <-; cbn; rewrite upd_length; lia.
  - destruct (nth_error (n_stacks s) g) as [[|i below]|]; try discriminate. destruct (nth_error (n_acts s) i) as [[b pc]|]; [|discriminate].
    destruct (nth_error (n_brks s) b) as [k|]; [|discriminate]. destruct (act_step k (n_clock s) i pc) as [[[k' pc'] es']|]; [|discriminate].
    injection E as <- <-. cbn. rewrite upd_length. lia.
Qed.

Lemma step_related N b s f k l s' es : related N b s f k -> nstep s l = Some (s', es) -> (length (n_acts s') <= N)%nat ->
  exists fl f' k', (length fl <= 1)%nat /\ (nclock_ok l -> Forall clock_ok fl) /\ exec bstep f fl = (f', of_breaker b es) /\ related N b s' f' k'.
Proof.
  intros R E L. assert (Old : forall i a, nth_error (n_acts s) i = Some a -> (i < N)%nat).
  { intros i a H. pose proof (acts_grow _ _ _ _ E) as A. assert (i < length (n_acts s))%nat by (apply nth_error_Some; congruence). lia. }
  destruct l as [t|g b'|g o|g]; cbn [nstep] in E.
  - injection E as <- <-. exists [BClock t]. eexists. exists k. split; [cbn; lia|]. split; [intros C; constructor; [exact C|constructor]|]. split; [reflexivity|].
    destruct R as [R1 R2 R3 R4 R5 R6 R7 R8]. now constructor.
  - destruct (nth_error (n_stacks s) g) as [stack|]; [|discriminate]. destruct (nth_error (n_brks s) b'); [|discriminate].
    assert (X : s' = NSt (n_clock s) (n_brks s) (n_acts s ++ [(b', FClock)]) (upd g (length (n_acts s) :: stack) (n_stacks s)) /\ es = [NEv g b' (ECall (length (n_acts s)))]).
    { destruct stack as [|i st]; [split; congruence|]. destruct (nth_error (n_acts s) i) as [[? pc]|]; [|discriminate]. destruct (in_user pc); [split; congruence|discriminate]. }
    destruct X as (-> & ->). cbn [n_acts] in L. rewrite app_length in L. cbn in L. destruct (Nat.eq_dec b' b) as [->|Nb].
    + destruct (related_call_same N b s f k (upd g (length (n_acts s) :: stack) (n_stacks s)) R ltac:(lia)) as (R' & T).
      exists [BCall (length (n_acts s))]. eexists. exists k. split; [cbn; lia|]. split; [intros _; repeat constructor|]. split; [|exact R'].
      cbn. rewrite T, Nat.eqb_refl. reflexivity.
    + exists [], f, k. split; [cbn; lia|]. split; [constructor|]. split; [|now apply related_call_other].
      cbn. apply Nat.eqb_neq in Nb. now rewrite Nb.
  - destruct (nth_error (n_stacks s) g) as [[|i below]|]; try discriminate. destruct (nth_error (n_acts s) i) as [[b' pc]|] eqn:A; [|discriminate].
    destruct (nth_error (n_brks s) b') as [k'|] eqn:K; [|discriminate]. specialize (Old i _ A).
    assert (X : exists pc' be, (pc = FInTask /\ pc' = match o with TaskOk => FLock None | TaskErr e => FLock (Some e) | TaskPanic => FDone end /\ be = [EDone i o] \/
        (pc = FInOpen \/ pc = FInError) /\ pc' = FDone /\ be = []) /\ place s g (i :: below) i b' k' pc' be = (s', es)).
    { destruct pc; try discriminate E.
      - exists FDone, []. split; [right; split; [now left|now split]|congruence].
      - exists (match o with TaskOk => FLock None | TaskErr e => FLock (Some e) | TaskPanic => FDone end), [EDone i o]. split; [left; split; [reflexivity|now split]|congruence].
      - exists FDone, []. split; [right; split; [now right|now split]|congruence]. }
    clear E. destruct X as (pc' & be & X & P). unfold place in P.
    match type of P with (NSt _ _ _ ?st, _) = _ => set (stacks := st) in P end. injection P as <- <-.
    destruct (Nat.eq_dec b' b) as [->|Nb].
    + pose proof R as [R1 R2 R3 R4 R5 R6 R7 R8]. assert (k' = k) by congruence. subst k'. pose proof (R8 i Old) as T. rewrite A in T. cbn in T. rewrite Nat.eqb_refl in T.
      assert (Q : rd pc = 0 /\ wr pc = 0 /\ rd pc' = 0 /\ wr pc' = 0).
      { destruct X as [(-> & -> & _)|([-> | ->] & -> & _)]; [destruct o|..]; cbn; repeat split; reflexivity. }
      destruct Q as (Q1 & Q2 & Q3 & Q4). rewrite of_breaker_same by apply back_only.
      assert (G : forall f', cb_threshold f' = cb_threshold f -> cb_timeout f' = cb_timeout f -> cb_clock f' = cb_clock f -> cb_last f' = cb_last f -> cb_failures f' = cb_failures f ->
        cb_threads f' = upd i (absp pc') (cb_threads f) ->
        related N b (NSt (n_clock s) (upd b k (n_brks s)) (upd i (b, pc') (n_acts s)) stacks) f' k).
      { intros f' F1 F2 F3 F4 F5 F6. apply (related_same N b s f k i pc); try assumption; try reflexivity; try lia.
        - exact (proj2 (proj2 R5)).
        - intros W. destruct (R6 W). split; congruence.
        - now apply local_quiet. }
      destruct X as [(-> & E & ->)|(X & -> & ->)].
      * exists [BDone i o]. eexists. exists k. split; [cbn; lia|]. split; [intros _; repeat constructor|]. split; [cbn [exec bstep]; cbn in T; rewrite T; reflexivity|].
        apply G; try reflexivity. cbn. rewrite E. now destruct o.
      * exists [], f, k. split; [cbn; lia|]. split; [constructor|]. split; [reflexivity|]. apply G; try reflexivity.
        symmetry. apply upd_nth. destruct X as [-> | ->]; exact T.
    + exists [], f, k. split; [cbn; lia|]. split; [constructor|]. split; [now rewrite of_breaker_other by (exact Nb || apply back_only)|]. now apply (related_other N b s f k i b' pc).
  - destruct (nth_error (n_stacks s) g) as [[|i below]|]; try discriminate. destruct (nth_error (n_acts s) i) as [[b' pc]|] eqn:A; [|discriminate].
    destruct (nth_error (n_brks s) b') as [k'|] eqn:K; [|discriminate]. destruct (act_step k' (n_clock s) i pc) as [[[k2 pc'] be]|] eqn:St; [|discriminate].
    specialize (Old i _ A). unfold place in E. match type of E with Some (NSt _ _ _ ?st, _) = _ => set (stacks := st) in E end. injection E as <- <-.
    destruct (Nat.eq_dec b' b) as [->|Nb].
    + assert (k' = k) by (rewrite (r_brk _ _ _ _ _ R) in K; congruence). subst k'. rewrite of_breaker_same by apply back_only.
      destruct (act_related N b s f k i pc k2 pc' be stacks R A Old St) as (fl & f' & F1 & F2 & F3 & F4).
      exists fl, f', k2. split; [exact F1|]. split; [|now split]. intros _. revert F2. apply Forall_impl. intros [t|j|j oj|j] X; [destruct X|..]; exact I.
    + exists [], f, k. split; [cbn; lia|]. split; [constructor|]. split; [now rewrite of_breaker_other by (exact Nb || apply back_only)|]. now apply (related_other N b s f k i b' pc).
Qed.

Lemma run_related N b : forall sched s f k, related N b s f k -> (length (n_acts s) + length sched <= N)%nat ->
  exists fl f' k', (length fl <= length sched)%nat /\ (Forall nclock_ok sched -> Forall clock_ok fl) /\
    exec bstep f fl = (f', of_breaker b (snd (exec nstep s sched))) /\ related N b (fst (exec nstep s sched)) f' k'.
Proof.
  induction sched as [|l sched IH]; intros s f k R L.
  - exists [], f, k. split; [cbn; lia|]. split; [constructor|]. split; [reflexivity|exact R].
  - cbn [exec length] in *. destruct (nstep s l) as [[s1 es]|] eqn:E.
    + pose proof (acts_grow _ _ _ _ E) as A. destruct (step_related N b s f k l s1 es R E ltac:(lia)) as (fl1 & f1 & k1 & G1 & G2 & G3 & G4).
      destruct (IH s1 f1 k1 G4 ltac:(lia)) as (fl2 & f2 & k2 & I1 & I2 & I3 & I4).
      exists (fl1 ++ fl2), f2, k2. split; [rewrite app_length; lia|]. split; [|split].
      * intros F. inversion F as [|? ? Fa Fb]; subst. apply Forall_app. split; [exact (G2 Fa)|exact (I2 Fb)].
      * rewrite exec_app, G3, I3. destruct (exec nstep s1 sched). cbn [snd]. now rewrite of_breaker_app.
      * destruct (exec nstep s1 sched). exact I4.
    + destruct (IH s f k R ltac:(lia)) as (fl2 & f2 & k2 & I1 & I2 & I3 & I4). exists fl2, f2, k2. split; [lia|]. split; [|now split].
      intros F. inversion F; subst. now apply I2.
Qed.

Lemma related_init cfg t0 n N b thr to : nth_error cfg b = Some (thr, to) -> related N b (nest_init cfg t0 n) (new_breaker thr to t0 N) (new_brk (thr, to)).
Proof.
  intros H. constructor; cbn; try reflexivity.
  - rewrite nth_error_map, H. reflexivity.
  - repeat split; discriminate.
  - intros _. split; reflexivity.
  - intros i pc X. destruct i; discriminate.
  - intros i Hi. rewrite nth_error_repeat by exact Hi. destruct i; reflexivity.
Qed.

Lemma each_breaker cfg t0 n sched b thr to : nth_error cfg b = Some (thr, to) ->
  exists fl, (length fl <= length sched)%nat /\ (Forall nclock_ok sched -> Forall clock_ok fl) /\
    of_breaker b (snd (nest_exec cfg t0 n sched)) = snd (breaker_exec thr to t0 (length sched) fl).
Proof.
  intros H. destruct (run_related (length sched) b sched _ _ _ (related_init cfg t0 n (length sched) b thr to H) ltac:(cbn; lia)) as (fl & f' & k' & G1 & G2 & G3 & _).
  exists fl. split; [exact G1|]. split; [exact G2|]. unfold breaker_exec. rewrite G3. reflexivity.
Qed.
