(** Proofs for SemaFineProps.v. *)
From Verif Require Import Common Threads SemaModel SemaSpec SemaProofs SemaFineModel SemaFineSpec.

(** ** The fine machine refines the one with whole critical sections *)

Definition abs (l : list nat) (i : nat) (pc : fpc) : spc :=
  match pc with
  | FIdle | FUnlock _ | FReturn _ => SIdle
  | FLock o | FReadC o | FReadP o _ | FReadN o | FWriteN o _ => spc_of o
  | FBroadcast => SRel
  | FWaitAdd | FWaitLock => SAcq
  | FWaitUnlock | FWaitSleep => if listed i l then SWait else SAcq
  end.

Definition stage_of (pc : fpc) : stage :=
  match pc with
  | FIdle => Out
  | FLock o | FReadC o | FReadP o _ | FReadN o | FWriteN o _ => Busy o
  | FBroadcast => Busy OpRelease
  | FWaitAdd | FWaitUnlock | FWaitSleep | FWaitLock => Busy OpAcquire
  | FUnlock e | FReturn e => Over e
  end.

Definition holds (pc : fpc) : bool :=
  match pc with FIdle | FLock _ | FWaitSleep | FWaitLock | FReturn _ => false | _ => true end.

(** What the goroutine that has the mutex knows. *)
Definition held_ok (pc : fpc) (f : fsema) (a : lsema) : Prop :=
  match pc with
  | FReadC _ | FWaitUnlock | FUnlock _ => fs_count f = ls_count a
  | FReadP o c => fs_count f = ls_count a /\ c = fs_count f /\ o <> OpRelease
  | FReadN o => fs_count f = ls_count a /\ (o = OpRelease -> 0 < ls_count a) /\ (o <> OpRelease -> ls_full a = false)
  | FWriteN o c => fs_count f = ls_count a /\ c = fs_count f /\ (o = OpRelease -> 0 < ls_count a) /\ (o <> OpRelease -> ls_full a = false)
  | FBroadcast => 0 < ls_count a /\ fs_count f = i64 (ls_count a - 1)
  | FWaitAdd => fs_count f = ls_count a /\ ls_full a = true
  | _ => False
  end.

Definition lock_ok (f : fsema) (a : lsema) : Prop :=
  match fs_lock f with
  | None => fs_count f = ls_count a
  | Some h => exists pc, nth_error (fs_threads f) h = Some pc /\ holds pc = true /\ held_ok pc f a
  end.

Definition threads_ok (l : list nat) (ft : list fpc) (th : list spc) : Prop :=
  forall j, nth_error th j = option_map (abs l j) (nth_error ft j).

Definition real (e : sevent) : Prop := match e with ESCall _ _ => False | _ => True end.
Definition own (i : nat) (pc : fpc) : Prop := match pc with FUnlock e | FReturn e => who e = i /\ real e | _ => True end.

Record sim (f : fsema) (a : lsema) : Prop := Sim {
  sim_permits : fs_permits f = ls_permits a;
  sim_lock : lock_ok f a;
  sim_one : forall j pc, nth_error (fs_threads f) j = Some pc -> holds pc = true -> fs_lock f = Some j;
  sim_own : forall j pc, nth_error (fs_threads f) j = Some pc -> own j pc;
  sim_threads : threads_ok (fs_list f) (fs_threads f) (ls_threads a)
}.

Lemma threads_upd l ft th i pc pc' : threads_ok l ft th -> nth_error ft i = Some pc ->
  threads_ok l (upd i pc' ft) (upd i (abs l i pc') th).
Proof.
  intros H E j. rewrite !nth_error_upd. pose proof (H i) as Hi. rewrite E in Hi. cbn in Hi.
  destruct (Nat.eq_dec i j) as [<-|]; [|apply H]. rewrite Hi, E. reflexivity.
Qed.
Lemma threads_same l ft th i pc pc' : threads_ok l ft th -> nth_error ft i = Some pc -> abs l i pc' = abs l i pc ->
  threads_ok l (upd i pc' ft) th.
Proof.
  intros H E Ha. pose proof (threads_upd l ft th i pc pc' H E) as Hu.
  rewrite Ha, (upd_same i (abs l i pc) th) in Hu; [exact Hu|]. rewrite (H i), E. reflexivity.
Qed.

Lemma one_upd (ft : list fpc) i pc' (lk lk' : option nat) :
  (forall j pc, nth_error ft j = Some pc -> holds pc = true -> lk = Some j) ->
  (holds pc' = true -> lk' = Some i) ->
  (forall j, j <> i -> lk = Some j -> lk' = Some j) ->
  forall j pc, nth_error (upd i pc' ft) j = Some pc -> holds pc = true -> lk' = Some j.
Proof.
  intros H1 H2 H3 j pc E Hh. rewrite nth_error_upd in E. destruct (Nat.eq_dec i j) as [<-|n].
  - destruct (nth_error ft i); [|discriminate]. injection E as <-. apply H2, Hh.
  - apply H3; [congruence|]. apply (H1 j pc E Hh).
Qed.
Lemma own_upd (ft : list fpc) i pc' :
  (forall j pc, nth_error ft j = Some pc -> own j pc) -> own i pc' ->
  forall j pc, nth_error (upd i pc' ft) j = Some pc -> own j pc.
Proof.
  intros H1 H2 j pc E. rewrite nth_error_upd in E. destruct (Nat.eq_dec i j) as [<-|n].
  - destruct (nth_error ft i); [|discriminate]. injection E as <-. exact H2.
  - apply (H1 j pc E).
Qed.

Lemma listed_cons_other i j l : i <> j -> listed j (i :: l) = listed j l.
Proof. intros H. cbn. destruct (Nat.eqb_spec j i); [congruence|reflexivity]. Qed.
Lemma listed_cons_same i l : listed i (i :: l) = true.
Proof. cbn. rewrite Nat.eqb_refl. reflexivity. Qed.

(** What a step of the fine machine is in the other one: nothing, or the same label with the event [e] of a call that
    takes effect. *)
Definition matched (i : nat) (f1 : fsema) (a : lsema) (evs : list sevent) (pc pc1 : fpc) : Prop :=
  (sim f1 a /\
   ((evs = [] /\ stage_of pc1 = stage_of pc) \/ (exists e, evs = [e] /\ stage_of pc = Over e /\ stage_of pc1 = Out))) \/
  (exists a1, evs = [] /\ lstep a (SStep i) = Some (a1, []) /\ sim f1 a1 /\ stage_of pc1 = stage_of pc) \/
  (exists a1 e o, evs = [] /\ lstep a (SStep i) = Some (a1, [e]) /\ sim f1 a1 /\ stage_of pc = Busy o /\
     stage_of pc1 = Over e /\ who e = i /\ result_of o e).

Lemma fgo_matched f a i pc f1 evs : sim f a -> nth_error (fs_threads f) i = Some pc -> fgo f i pc = Some (f1, evs) ->
  exists pc1, fs_threads f1 = upd i pc1 (fs_threads f) /\ matched i f1 a evs pc pc1.
Proof.
  intros [HP HL H1 HO HT] E G. destruct f as [permits cnt lk l ft]. cbn [fs_permits fs_count fs_lock fs_list fs_threads] in *.
  pose proof (HT i) as HTi. rewrite E in HTi. cbn [option_map] in HTi.
  assert (Hheld : holds pc = true -> held_ok pc (FSema permits cnt lk l ft) a /\ lk = Some i).
  { intros Hh. pose proof (H1 i pc E Hh) as ->. unfold lock_ok in HL. cbn [fs_lock fs_threads] in HL.
    destruct HL as (pc' & E' & _ & HH). rewrite E in E'. injection E' as <-. auto. }
  assert (Hfree : lk = None -> cnt = ls_count a).
  { intros ->. exact HL. }
  cbn [fgo] in G. destruct pc as [|o|o|o c|o|o c| | | | | |e|e]; cbn [holds] in Hheld.
  - discriminate.
  - (* FLock *) destruct lk; [discriminate|]. injection G as <- <-. exists (FReadC o). split; [reflexivity|]. left.
    split; [|left; split; reflexivity]. constructor; cbn [fs_permits fs_count fs_lock fs_list fs_threads].
    + exact HP.
    + unfold lock_ok; cbn. exists (FReadC o). rewrite nth_error_upd, E. destruct (Nat.eq_dec i i); [|congruence]. auto.
    + apply (one_upd ft i _ None); [exact H1|reflexivity|discriminate].
    + apply own_upd; [exact HO|exact I].
    + apply (threads_same _ _ _ _ _ _ HT E). reflexivity.
  - (* FReadC *)
    destruct (Hheld eq_refl) as (Hk & ->). cbn [held_ok fs_count] in Hk.
    assert (Hgo : forall pc', holds pc' = true -> own i pc' -> abs l i pc' = spc_of o ->
              held_ok pc' (FSema permits cnt (Some i) l (upd i pc' ft)) a ->
              sim (FSema permits cnt (Some i) l (upd i pc' ft)) a).
    { intros pc' Hh Ho Ha Hk'. constructor; cbn [fs_permits fs_count fs_lock fs_list fs_threads].
      - exact HP.
      - unfold lock_ok; cbn [fs_lock fs_threads]. exists pc'. rewrite nth_error_upd, E. destruct (Nat.eq_dec i i); [|congruence]. auto.
      - apply (one_upd ft i _ (Some i)); auto.
      - apply own_upd; assumption.
      - apply (threads_same _ _ _ _ _ _ HT E). cbn. exact Ha. }
    destruct o; [|destruct (Z.leb_spec cnt 0)|]; injection G as <- <-; eexists; (split; [reflexivity|]).
    + left. split; [|left; split; reflexivity]. apply Hgo; cbn; auto. repeat split; auto; discriminate.
    + right. right. exists (LSema (ls_permits a) (ls_count a) (upd i SIdle (ls_threads a))), (ESReleased i), OpRelease.
      split; [reflexivity|]. cbn [lstep]. rewrite HTi. cbn [abs spc_of].
      split; [destruct (Z.leb_spec (ls_count a) 0); [reflexivity|lia]|].
      split; [|cbn; auto]. constructor; cbn [fs_permits fs_count fs_lock fs_list fs_threads ls_permits ls_count ls_threads].
      * exact HP.
      * unfold lock_ok; cbn. eexists. rewrite nth_error_upd, E. destruct (Nat.eq_dec i i); [|congruence]. split; [reflexivity|]. cbn. auto.
      * apply (one_upd ft i _ (Some i)); auto.
      * apply own_upd; [exact HO|split; [reflexivity|exact I]].
      * apply (threads_upd l ft (ls_threads a) i _ (FUnlock (ESReleased i)) HT E).
    + left. split; [|left; split; reflexivity]. apply Hgo; cbn; auto. repeat split; auto; [lia|congruence].
    + left. split; [|left; split; reflexivity]. apply Hgo; cbn; auto. repeat split; auto; discriminate.
  - (* FReadP *)
    destruct (Hheld eq_refl) as (Hk & ->). cbn [held_ok fs_count] in Hk. destruct Hk as (Hk & -> & Ho).
    assert (Hgo : forall pc', holds pc' = true -> own i pc' -> abs l i pc' = spc_of o ->
              held_ok pc' (FSema permits cnt (Some i) l (upd i pc' ft)) a ->
              sim (FSema permits cnt (Some i) l (upd i pc' ft)) a).
    { intros pc' Hh Ho' Ha Hk'. constructor; cbn [fs_permits fs_count fs_lock fs_list fs_threads].
      - exact HP.
      - unfold lock_ok; cbn [fs_lock fs_threads]. exists pc'. rewrite nth_error_upd, E. destruct (Nat.eq_dec i i); [|congruence]. auto.
      - apply (one_upd ft i _ (Some i)); auto.
      - apply own_upd; assumption.
      - apply (threads_same _ _ _ _ _ _ HT E). cbn. exact Ha. }
    injection G as <- <-. destruct (Z.leb_spec permits cnt) as [Hf|Hf].
    + assert (Hfull : ls_full a = true) by (unfold ls_full; apply Z.leb_le; lia).
      destruct o; [|congruence|].
      * exists FWaitAdd. split; [reflexivity|]. left. split; [|left; split; reflexivity]. apply Hgo; cbn; auto.
      * exists (FUnlock (ESTried i false)). split; [reflexivity|]. right. right.
        exists (LSema (ls_permits a) (ls_count a) (upd i SIdle (ls_threads a))), (ESTried i false), OpTry.
        split; [reflexivity|]. cbn [lstep]. rewrite HTi. cbn [abs spc_of]. rewrite Hfull. split; [reflexivity|].
        split; [|cbn; auto]. constructor; cbn [fs_permits fs_count fs_lock fs_list fs_threads ls_permits ls_count ls_threads].
        -- exact HP.
        -- unfold lock_ok; cbn. eexists. rewrite nth_error_upd, E. destruct (Nat.eq_dec i i); [|congruence]. split; [reflexivity|]. cbn. auto.
        -- apply (one_upd ft i _ (Some i)); auto.
        -- apply own_upd; [exact HO|split; [reflexivity|exact I]].
        -- apply (threads_upd l ft (ls_threads a) i _ (FUnlock (ESTried i false)) HT E).
    + assert (Hfull : ls_full a = false) by (unfold ls_full; apply Z.leb_gt; lia).
      exists (FReadN o). split; [reflexivity|]. left. split; [|left; split; reflexivity]. apply Hgo; cbn; auto.
      repeat split; auto. congruence.
  - (* FReadN *)
    destruct (Hheld eq_refl) as (Hk & ->). cbn [held_ok fs_count] in Hk. destruct Hk as (Hk & Hr & Hf).
    injection G as <- <-. exists (FWriteN o cnt). split; [reflexivity|]. left. split; [|left; split; reflexivity].
    constructor; cbn [fs_permits fs_count fs_lock fs_list fs_threads].
    + exact HP.
    + unfold lock_ok; cbn. eexists. rewrite nth_error_upd, E. destruct (Nat.eq_dec i i); [|congruence]. split; [reflexivity|]. cbn. auto.
    + apply (one_upd ft i _ (Some i)); auto.
    + apply own_upd; [exact HO|exact I].
    + apply (threads_same _ _ _ _ _ _ HT E). reflexivity.
  - (* FWriteN *)
    destruct (Hheld eq_refl) as (Hk & ->). cbn [held_ok fs_count] in Hk. destruct Hk as (Hk & -> & Hr & Hf).
    destruct o; injection G as <- <-; eexists; (split; [reflexivity|]).
    + specialize (Hf ltac:(discriminate)). right. right.
      exists (LSema (ls_permits a) (i64 (ls_count a + 1)) (upd i SIdle (ls_threads a))), (ESAcquired i), OpAcquire.
      split; [reflexivity|]. cbn [lstep]. rewrite HTi. cbn [abs spc_of]. rewrite Hf. split; [reflexivity|].
      split; [|cbn; auto]. constructor; cbn [fs_permits fs_count fs_lock fs_list fs_threads ls_permits ls_count ls_threads].
      * exact HP.
      * unfold lock_ok; cbn. eexists. rewrite nth_error_upd, E. destruct (Nat.eq_dec i i); [|congruence]. split; [reflexivity|]. cbn. rewrite Hk. auto.
      * apply (one_upd ft i _ (Some i)); auto.
      * apply own_upd; [exact HO|split; [reflexivity|exact I]].
      * apply (threads_upd l ft (ls_threads a) i _ (FUnlock (ESAcquired i)) HT E).
    + left. split; [|left; split; reflexivity]. constructor; cbn [fs_permits fs_count fs_lock fs_list fs_threads].
      * exact HP.
      * unfold lock_ok; cbn. eexists. rewrite nth_error_upd, E. destruct (Nat.eq_dec i i); [|congruence]. split; [reflexivity|]. cbn.
        rewrite Hk. auto.
      * apply (one_upd ft i _ (Some i)); auto.
      * apply own_upd; [exact HO|exact I].
      * apply (threads_same _ _ _ _ _ _ HT E). reflexivity.
    + specialize (Hf ltac:(discriminate)). right. right.
      exists (LSema (ls_permits a) (i64 (ls_count a + 1)) (upd i SIdle (ls_threads a))), (ESTried i true), OpTry.
      split; [reflexivity|]. cbn [lstep]. rewrite HTi. cbn [abs spc_of]. rewrite Hf. split; [reflexivity|].
      split; [|cbn; auto]. constructor; cbn [fs_permits fs_count fs_lock fs_list fs_threads ls_permits ls_count ls_threads].
      * exact HP.
      * unfold lock_ok; cbn. eexists. rewrite nth_error_upd, E. destruct (Nat.eq_dec i i); [|congruence]. split; [reflexivity|]. cbn. rewrite Hk. auto.
      * apply (one_upd ft i _ (Some i)); auto.
      * apply own_upd; [exact HO|split; [reflexivity|exact I]].
      * apply (threads_upd l ft (ls_threads a) i _ (FUnlock (ESTried i true)) HT E).
  - (* FBroadcast *)
    destruct (Hheld eq_refl) as (Hk & ->). cbn [held_ok fs_count] in Hk. destruct Hk as (Hpos & Hk).
    injection G as <- <-. exists (FUnlock (ESReleased i)). split; [reflexivity|]. right. right.
    exists (LSema (ls_permits a) (i64 (ls_count a - 1)) (map wake (upd i SIdle (ls_threads a)))), (ESReleased i), OpRelease.
    split; [reflexivity|]. cbn [lstep]. rewrite HTi. cbn [abs]. destruct (Z.leb_spec (ls_count a) 0); [lia|]. split; [reflexivity|].
    split; [|cbn; auto]. constructor; cbn [fs_permits fs_count fs_lock fs_list fs_threads ls_permits ls_count ls_threads].
    + exact HP.
    + unfold lock_ok; cbn. eexists. rewrite nth_error_upd, E. destruct (Nat.eq_dec i i); [|congruence]. split; [reflexivity|]. cbn. auto.
    + apply (one_upd ft i _ (Some i)); auto.
    + apply own_upd; [exact HO|split; [reflexivity|exact I]].
    + intros j. rewrite nth_error_map, !nth_error_upd. destruct (Nat.eq_dec i j) as [<-|]; [rewrite HTi, E; reflexivity|].
      rewrite (HT j). destruct (nth_error ft j) as [pc|]; [|reflexivity]. cbn [option_map]. f_equal.
      destruct pc as [|[]|[]|[] ?|[]|[] ?| | | | | |?|?]; cbn; try reflexivity; destruct (listed j l); reflexivity.
  - (* FWaitAdd *)
    destruct (Hheld eq_refl) as (Hk & ->). cbn [held_ok fs_count] in Hk. destruct Hk as (Hk & Hfull).
    injection G as <- <-. exists FWaitUnlock. split; [reflexivity|]. right. left.
    exists (LSema (ls_permits a) (ls_count a) (upd i SWait (ls_threads a))).
    split; [reflexivity|]. cbn [lstep]. rewrite HTi. cbn [abs]. rewrite Hfull. split; [reflexivity|].
    split; [|reflexivity]. constructor; cbn [fs_permits fs_count fs_lock fs_list fs_threads ls_permits ls_count ls_threads].
    + exact HP.
    + unfold lock_ok; cbn. eexists. rewrite nth_error_upd, E. destruct (Nat.eq_dec i i); [|congruence]. split; [reflexivity|]. cbn. auto.
    + apply (one_upd ft i _ (Some i)); auto.
    + apply own_upd; [exact HO|exact I].
    + intros j. rewrite !nth_error_upd. destruct (Nat.eq_dec i j) as [<-|Hn].
      * rewrite HTi, E. cbn [option_map]. unfold abs. rewrite listed_cons_same. reflexivity.
      * rewrite (HT j). destruct (nth_error ft j) as [pc|]; [|reflexivity]. cbn [option_map]. f_equal.
        unfold abs. rewrite (listed_cons_other i j l Hn). reflexivity.
  - (* FWaitUnlock *)
    destruct (Hheld eq_refl) as (Hk & ->). cbn [held_ok fs_count] in Hk.
    injection G as <- <-. exists FWaitSleep. split; [reflexivity|]. left. split; [|left; split; reflexivity].
    constructor; cbn [fs_permits fs_count fs_lock fs_list fs_threads].
    + exact HP.
    + exact Hk.
    + apply (one_upd ft i _ (Some i)); [exact H1|discriminate|congruence].
    + apply own_upd; [exact HO|exact I].
    + apply (threads_same _ _ _ _ _ _ HT E). reflexivity.
  - (* FWaitSleep *)
    destruct (listed i l) eqn:El; [discriminate|]. injection G as <- <-. exists FWaitLock. split; [reflexivity|].
    left. split; [|left; split; reflexivity]. constructor; cbn [fs_permits fs_count fs_lock fs_list fs_threads].
    + exact HP.
    + unfold lock_ok in *. cbn [fs_lock fs_threads fs_count] in *. destruct lk as [h|]; [|exact HL].
      destruct HL as (pc & Eh & Hh & HH). exists pc. split; [|auto].
      rewrite nth_error_upd_other; [exact Eh|]. intros ->. rewrite E in Eh. injection Eh as <-. discriminate.
    + apply (one_upd ft i _ lk); [exact H1|discriminate|auto].
    + apply own_upd; [exact HO|exact I].
    + apply (threads_same _ _ _ _ _ _ HT E). cbn [abs]. rewrite El. reflexivity.
  - (* FWaitLock *)
    destruct lk; [discriminate|]. injection G as <- <-. exists (FReadC OpAcquire). split; [reflexivity|]. left.
    split; [|left; split; reflexivity]. constructor; cbn [fs_permits fs_count fs_lock fs_list fs_threads].
    + exact HP.
    + unfold lock_ok; cbn. eexists. rewrite nth_error_upd, E. destruct (Nat.eq_dec i i); [|congruence]. split; [reflexivity|]. cbn. auto.
    + apply (one_upd ft i _ None); [exact H1|reflexivity|discriminate].
    + apply own_upd; [exact HO|exact I].
    + apply (threads_same _ _ _ _ _ _ HT E). reflexivity.
  - (* FUnlock *)
    destruct (Hheld eq_refl) as (Hk & ->). cbn [held_ok fs_count] in Hk.
    injection G as <- <-. exists (FReturn e). split; [reflexivity|]. left. split; [|left; split; reflexivity].
    constructor; cbn [fs_permits fs_count fs_lock fs_list fs_threads].
    + exact HP.
    + exact Hk.
    + apply (one_upd ft i _ (Some i)); [exact H1|discriminate|congruence].
    + apply own_upd; [exact HO|]. exact (HO i _ E).
    + apply (threads_same _ _ _ _ _ _ HT E). reflexivity.
  - (* FReturn *)
    injection G as <- <-. exists FIdle. split; [reflexivity|]. left.
    split; [|right; exists e; split; [reflexivity|split; reflexivity]].
    constructor; cbn [fs_permits fs_count fs_lock fs_list fs_threads].
    + exact HP.
    + unfold lock_ok in *. cbn [fs_lock fs_threads fs_count] in *. destruct lk as [h|]; [|exact HL].
      destruct HL as (pc & Eh & Hh & HH). exists pc. split; [|auto].
      rewrite nth_error_upd_other; [exact Eh|]. intros ->. rewrite E in Eh. injection Eh as <-. discriminate.
    + apply (one_upd ft i _ lk); [exact H1|discriminate|auto].
    + apply own_upd; [exact HO|exact I].
    + apply (threads_same _ _ _ _ _ _ HT E). reflexivity.
Qed.

(** ** Runs *)

Lemma lock_exec_snoc permits n sched a tr l a1 es : lock_exec permits n sched = (a, tr) -> lstep a l = Some (a1, es) ->
  lock_exec permits n (sched ++ [l]) = (a1, tr ++ es).
Proof.
  unfold lock_exec. intros H H1. rewrite exec_app, H. cbn [exec]. rewrite H1. rewrite app_nil_r. reflexivity.
Qed.

Definition is_acq (e : sevent) : bool := match e with ESAcquired _ | ESTried _ true => true | _ => false end.
Definition due (pc : fpc) : Z := match pc with FUnlock e | FReturn e => if is_acq e then 1 else 0 | _ => 0 end.
Definition stage_at (f : fsema) (i : nat) : stage := match nth_error (fs_threads f) i with Some pc => stage_of pc | None => Out end.
Definition real_obs (x : sobs) : Prop := match x with OCall _ _ => True | OTakes e | OReturns e => real e end.

Record good (permits : Z) (n : nat) (f : fsema) (a : lsema) (sched : list slabel) (tr : list sobs) : Prop := Good {
  gd_exec : lock_exec permits n sched = (a, effects tr);
  gd_sim : sim f a;
  gd_turns : forall i, turns i tr (stage_at f i);
  gd_due : acquisitions (effects tr) = acquisitions (seen tr) + sumZ due (fs_threads f);
  gd_prefix : forall tr1 tr2, tr = tr1 ++ tr2 -> acquisitions (seen tr1) <= acquisitions (effects tr1);
  gd_real : Forall real_obs tr
}.

Lemma seen_app a b : seen (a ++ b) = seen a ++ seen b.
Proof. apply flat_map_app. Qed.
Lemma effects_app a b : effects (a ++ b) = effects a ++ effects b.
Proof. apply flat_map_app. Qed.
Lemma acq_app a b : acquisitions (a ++ b) = acquisitions a + acquisitions b.
Proof. apply count_app. Qed.

Lemma due_nonneg ft : 0 <= sumZ due ft.
Proof.
  apply sumZ_nonneg. apply Forall_forall. intros pc _. destruct pc; cbn; try lia; destruct (is_acq e); lia.
Qed.

Lemma prefix_snoc {A} (tr : list A) x (P : list A -> Prop) :
  (forall tr1 tr2, tr = tr1 ++ tr2 -> P tr1) -> P (tr ++ [x]) -> forall tr1 tr2, tr ++ [x] = tr1 ++ tr2 -> P tr1.
Proof.
  intros H1 H2 tr1 tr2 E. destruct tr2 as [|y tr2] using rev_ind.
  - rewrite app_nil_r in E. rewrite <- E. exact H2.
  - rewrite app_assoc in E. apply app_inj_tail in E. destruct E as (E & _). apply (H1 tr1 tr2 E).
Qed.

Lemma stage_at_upd f f1 i pc pc1 : nth_error (fs_threads f) i = Some pc -> fs_threads f1 = upd i pc1 (fs_threads f) ->
  stage_at f1 i = stage_of pc1 /\ forall j, j <> i -> stage_at f1 j = stage_at f j.
Proof.
  intros E H. unfold stage_at. rewrite H. split.
  - rewrite (nth_error_upd_same _ _ _ _ E). reflexivity.
  - intros j Hj. rewrite nth_error_upd_other by congruence. reflexivity.
Qed.

Lemma turns_same tr i st : turns i tr st -> forall st', st = st' -> turns i tr st'.
Proof. intros H st' <-. exact H. Qed.

Lemma good_step permits n f a sched tr l f1 es : good permits n f a sched tr -> fstep f l = Some (f1, es) ->
  exists a1 sched1 tr1, good permits n f1 a1 sched1 (tr ++ tr1) /\ seen tr1 = es.
Proof.
  intros [GE GS GT GD GP GR] G. destruct l as [i o|i]; cbn [fstep] in G.
  - destruct (nth_error (fs_threads f) i) as [pc|] eqn:E; [|discriminate]. destruct pc; try discriminate.
    injection G as <- <-. destruct GS as [HP HL H1 HO HT].
    pose proof (HT i) as HTi. rewrite E in HTi. cbn [option_map abs] in HTi.
    exists (LSema (ls_permits a) (ls_count a) (upd i (spc_of o) (ls_threads a))), (sched ++ [SCall i o]), [OCall i o].
    split; [|reflexivity].
    assert (GE1 : lock_exec permits n (sched ++ [SCall i o]) =
      (LSema (ls_permits a) (ls_count a) (upd i (spc_of o) (ls_threads a)), effects (tr ++ [OCall i o]))).
    { rewrite effects_app. apply (lock_exec_snoc _ _ _ _ _ _ _ _ GE). cbn [lstep]. rewrite HTi. reflexivity. }
    constructor.
    + exact GE1.
    + constructor; cbn [fs_permits fs_count fs_lock fs_list fs_threads ls_permits ls_count ls_threads].
      * exact HP.
      * unfold lock_ok in *. cbn [fs_lock fs_threads fs_count ls_count]. destruct (fs_lock f) as [h|]; [|exact HL].
        destruct HL as (pc & Eh & Hh & HH). exists pc. split; [|split; [exact Hh|]].
        -- rewrite nth_error_upd_other; [exact Eh|]. intros ->. rewrite E in Eh. injection Eh as <-. discriminate.
        -- destruct pc; exact HH.
      * apply (one_upd _ i _ (fs_lock f)); [exact H1|discriminate|auto].
      * apply own_upd; [exact HO|exact I].
      * apply (threads_upd _ _ _ i _ (FLock o) HT E).
    + intros j. eapply turns_snoc; [apply GT|].
      set (f1 := FSema _ _ _ _ _).
      destruct (stage_at_upd f f1 i FIdle (FLock o) E eq_refl) as (S1 & S2).
      destruct (Nat.eq_dec j i) as [->|Hj].
      * rewrite S1. unfold stage_at. rewrite E. constructor.
      * rewrite (S2 j Hj). constructor. congruence.
    + rewrite effects_app, seen_app, !acq_app, GD. cbn [fs_threads]. rewrite (sumZ_upd _ _ _ _ _ E). cbn. lia.
    + apply prefix_snoc; [exact GP|]. rewrite effects_app, seen_app, !acq_app, GD. cbn. pose proof (due_nonneg (fs_threads f)). lia.
    + apply Forall_app. split; [exact GR|]. repeat constructor.
  - destruct (nth_error (fs_threads f) i) as [pc|] eqn:E; [|discriminate].
    destruct (fgo_matched f a i pc f1 es GS E G) as (pc1 & Hth & HM).
    destruct (stage_at_upd f f1 i pc pc1 E Hth) as (S1 & S2).
    assert (S0 : stage_at f i = stage_of pc) by (unfold stage_at; rewrite E; reflexivity).
    assert (Hsum : sumZ due (fs_threads f1) = sumZ due (fs_threads f) - due pc + due pc1)
      by (rewrite Hth; apply (sumZ_upd _ _ _ _ _ E)).
    assert (Hsame : stage_of pc1 = stage_of pc -> due pc1 = due pc).
    { intros H. destruct pc1, pc; cbn in H; try discriminate; cbn; try reflexivity; injection H as ->; reflexivity. }
    assert (Hnd : forall o, stage_of pc = Busy o -> due pc = 0).
    { intros o H. destruct pc; cbn in H; try discriminate; reflexivity. }
    destruct HM as [(HS & [(-> & Hst)|(e & -> & He & Ho)])|[(a1 & -> & HL & HS & Hst)|(a1 & e & o & -> & HL & HS & Hb & He & Hw & Hr)]].
    + exists a, sched, []. rewrite app_nil_r. split; [|reflexivity]. constructor; auto.
      * intros j. apply (turns_same _ _ _ (GT j)). destruct (Nat.eq_dec j i) as [->|Hj]; [congruence|symmetry; auto].
      * rewrite Hsum, (Hsame Hst), GD. lia.
    + assert (Hown : who e = i /\ real e).
      { pose proof (sim_own _ _ GS i pc E) as Hown. destruct pc; cbn in He; try discriminate; injection He as ->; exact Hown. }
      assert (Hd : due pc = (if is_acq e then 1 else 0) /\ due pc1 = 0).
      { split; [destruct pc; cbn in He; try discriminate; injection He as ->; reflexivity|].
        destruct pc1; cbn in Ho; try discriminate; reflexivity. }
      assert (Ha : acquisitions [e] = if is_acq e then 1 else 0) by (destruct e as [| |? []|]; reflexivity).
      exists a, sched, [OReturns e]. split; [|reflexivity]. constructor.
      * rewrite effects_app. cbn. rewrite app_nil_r. exact GE.
      * exact HS.
      * intros j. eapply turns_snoc; [apply GT|]. destruct (Nat.eq_dec j i) as [->|Hj].
        -- rewrite S0, S1, He, Ho. constructor. apply Hown.
        -- rewrite (S2 j Hj). constructor. destruct Hown as (-> & _). congruence.
      * rewrite effects_app, seen_app, !acq_app, GD, Hsum. destruct Hd as (-> & ->).
        change (seen [OReturns e]) with [e]. change (effects [OReturns e]) with (@nil sevent). rewrite Ha. cbn. lia.
      * apply prefix_snoc; [exact GP|]. rewrite effects_app, seen_app, !acq_app, GD.
        change (seen [OReturns e]) with [e]. change (effects [OReturns e]) with (@nil sevent). rewrite Ha.
        pose proof (due_nonneg (fs_threads f1)). destruct Hd as (D1 & D2). cbn. lia.
      * apply Forall_app. split; [exact GR|]. constructor; [apply Hown|constructor].
    + exists a1, (sched ++ [SStep i]), []. rewrite app_nil_r. split; [|reflexivity]. constructor; auto.
      * pose proof (lock_exec_snoc _ _ _ _ _ _ _ _ GE HL) as H. rewrite app_nil_r in H. exact H.
      * intros j. apply (turns_same _ _ _ (GT j)). destruct (Nat.eq_dec j i) as [->|Hj]; [congruence|symmetry; auto].
      * rewrite Hsum, (Hsame Hst), GD. lia.
    + assert (Hd : due pc1 = if is_acq e then 1 else 0)
        by (destruct pc1; cbn in He; try discriminate; injection He as ->; reflexivity).
      assert (Ha : acquisitions [e] = if is_acq e then 1 else 0) by (destruct e as [| |? []|]; reflexivity).
      exists a1, (sched ++ [SStep i]), [OTakes e]. split; [|reflexivity]. constructor.
      * rewrite effects_app. apply (lock_exec_snoc _ _ _ _ _ _ _ _ GE HL).
      * exact HS.
      * intros j. eapply turns_snoc; [apply GT|]. destruct (Nat.eq_dec j i) as [->|Hj].
        -- rewrite S0, S1, Hb, He. constructor; assumption.
        -- rewrite (S2 j Hj). constructor. congruence.
      * rewrite effects_app, seen_app, !acq_app, GD, Hsum, Hd, (Hnd o Hb).
        change (effects [OTakes e]) with [e]. change (seen [OTakes e]) with (@nil sevent). rewrite Ha. cbn. lia.
      * apply prefix_snoc; [exact GP|]. rewrite effects_app, seen_app, !acq_app, GD.
        change (effects [OTakes e]) with [e]. change (seen [OTakes e]) with (@nil sevent). rewrite Ha.
        pose proof (due_nonneg (fs_threads f)). cbn. destruct (is_acq e); lia.
      * apply Forall_app. split; [exact GR|]. constructor; [|constructor]. destruct o, e; cbn in Hr |- *; auto.
Qed.

Lemma nth_error_repeat {A} (x : A) n i y : nth_error (repeat x n) i = Some y -> y = x.
Proof. intros H. apply nth_error_In in H. apply repeat_spec in H. exact H. Qed.

Lemma good0 permits n : good permits n (new_fine_sema permits n) (new_lock_sema permits n) [] [].
Proof.
  constructor.
  - reflexivity.
  - constructor; cbn.
    + reflexivity.
    + reflexivity.
    + intros j pc H. apply nth_error_repeat in H. subst. discriminate.
    + intros j pc H. apply nth_error_repeat in H. subst. exact I.
    + intros j. destruct (nth_error (repeat FIdle n) j) as [pc|] eqn:E.
      * pose proof (nth_error_repeat _ _ _ _ E) as ->. cbn.
        assert (Hj : (j < n)%nat) by (rewrite <- (repeat_length FIdle n); apply nth_error_Some; congruence).
        destruct (nth_error (repeat SIdle n) j) eqn:E2; [apply nth_error_repeat in E2; congruence|].
        apply nth_error_None in E2. rewrite repeat_length in E2. lia.
      * apply nth_error_None in E. rewrite repeat_length in E. apply nth_error_None. rewrite repeat_length. exact E.
  - intros i. apply (turns_same _ _ _ (turns_nil i)). unfold stage_at, new_fine_sema. cbn.
    destruct (nth_error (repeat FIdle n) i) eqn:E; [apply nth_error_repeat in E; subst; reflexivity|reflexivity].
  - cbn. rewrite sumZ_zero; [reflexivity|]. apply Forall_forall. intros pc H. apply repeat_spec in H. subst. reflexivity.
  - intros tr1 tr2 H. symmetry in H. apply app_eq_nil in H. destruct H as (-> & _). cbn. lia.
  - constructor.
Qed.

Lemma good_exec permits n sched : exists a asched tr,
  good permits n (fst (fine_exec permits n sched)) a asched tr /\ seen tr = snd (fine_exec permits n sched).
Proof.
  unfold fine_exec.
  apply (exec_inv fstep (fun f evs => exists a asched tr, good permits n f a asched tr /\ seen tr = evs)
           ltac:(intros s l s1 es tr0 (a & asched & tr & HG & HS) G;
                 destruct (good_step _ _ _ _ _ _ _ _ _ HG G) as (a1 & sched1 & tr1 & HG1 & HS1);
                 exists a1, sched1, (tr ++ tr1); rewrite seen_app, HS, HS1; auto)
           sched (new_fine_sema permits n) []).
  exists (new_lock_sema permits n), [], []. split; [apply good0|reflexivity].
Qed.

Lemma good_explained permits n f a asched tr : in64 permits -> good permits n f a asched tr ->
  explained permits n (seen tr) tr.
Proof.
  intros Hp [GE GS GT GD GP GR]. split; [reflexivity|]. split.
  - pose proof (lock_history permits n asched Hp) as H. rewrite GE in H. exact H.
  - intros i. eexists. apply GT.
Qed.

Lemma fine_explained permits n sched : in64 permits ->
  exists tr, explained permits n (snd (fine_exec permits n sched)) tr.
Proof.
  intros Hp. destruct (good_exec permits n sched) as (a & asched & tr & HG & <-). exists tr.
  apply (good_explained _ _ _ _ _ _ Hp HG).
Qed.

(** ** Holders *)

Lemma calls_same tr : Forall real_obs tr -> release_calls (effects tr) = release_calls (seen tr).
Proof.
  unfold release_calls. induction 1 as [|x tr Hx HF IH]; [reflexivity|].
  unfold effects, seen in *. cbn [flat_map]. rewrite !count_app, IH. f_equal.
  destruct x as [i o|[]|[]]; cbn in *; try reflexivity; destruct Hx.
Qed.

Lemma effects_prefix tr : forall es1 es2, effects tr = es1 ++ es2 -> exists tr1 tr2, tr = tr1 ++ tr2 /\ effects tr1 = es1.
Proof.
  induction tr as [|x tr IH]; intros es1 es2 H.
  - symmetry in H. apply app_eq_nil in H. destruct H as (-> & _). exists [], []. auto.
  - destruct es1 as [|e es1]; [exists [], (x :: tr); auto|].
    unfold effects in H. cbn [flat_map] in H. fold (effects tr) in H.
    destruct x as [i o|e'|e']; cbn [effect1 app] in H.
    + injection H as <- H. destruct (IH es1 es2 H) as (tr1 & tr2 & -> & <-). exists (OCall i o :: tr1), tr2. auto.
    + injection H as <- H. destruct (IH es1 es2 H) as (tr1 & tr2 & -> & <-). exists (OTakes e' :: tr1), tr2. auto.
    + destruct (IH (e :: es1) es2 H) as (tr1 & tr2 & -> & <-). exists (OReturns e' :: tr1), tr2. auto.
Qed.

Lemma fine_holders permits n sched : in64 permits ->
  let tr := snd (fine_exec permits n sched) in disciplined tr -> held tr <= Z.max 0 permits.
Proof.
  intros Hp. cbv zeta. destruct (good_exec permits n sched) as (a & asched & tr & HG & <-). intros Hd.
  destruct HG as [GE GS GT GD GP GR].
  assert (Hle : forall tr1 tr2, tr = tr1 ++ tr2 -> held (seen tr1) <= held (effects tr1)).
  { intros tr1 tr2 E. unfold held. assert (HF : Forall real_obs tr1) by (subst tr; apply Forall_app in GR; apply GR).
    rewrite (calls_same tr1 HF). pose proof (GP tr1 tr2 E). lia. }
  assert (Hd' : disciplined (effects tr)).
  { intros es1 es2 E. destruct (effects_prefix tr es1 es2 E) as (tr1 & tr2 & -> & <-).
    pose proof (Hle tr1 tr2 eq_refl). specialize (Hd (seen tr1) (seen tr2)). rewrite seen_app in Hd.
    specialize (Hd eq_refl). lia. }
  pose proof (lock_history permits n asched Hp) as HL. rewrite GE in HL. cbn [snd] in HL.
  pose proof (holders_bound permits n _ HL Hd'). specialize (Hle tr [] (eq_sym (app_nil_r tr))). lia.
Qed.

(** ** Races *)

Lemma about_holds f i x : about_to f i = Some x -> exists pc, nth_error (fs_threads f) i = Some pc /\ holds pc = true.
Proof.
  unfold about_to. destruct (nth_error (fs_threads f) i) as [pc|]; [|discriminate].
  intros H. exists pc. split; [reflexivity|]. destruct pc; try discriminate; reflexivity.
Qed.

Lemma fine_no_race permits n sched : ~ race (fst (fine_exec permits n sched)).
Proof.
  intros (i & j & f & a & b & Hij & Hi & Hj & _).
  destruct (good_exec permits n sched) as (s & asched & tr & HG & _).
  apply about_holds in Hi. apply about_holds in Hj. destruct Hi as (p & Ei & Hi), Hj as (q & Ej & Hj).
  pose proof (sim_one _ _ (gd_sim _ _ _ _ _ _ HG) i p Ei Hi). pose proof (sim_one _ _ (gd_sim _ _ _ _ _ _ HG) j q Ej Hj). congruence.
Qed.

(** ** Progress *)

Lemma holder_steps f i pc : nth_error (fs_threads f) i = Some pc -> holds pc = true -> fstep f (SStep i) <> None.
Proof.
  intros E H. cbn [fstep]. rewrite E. destruct f as [p c lk l ft]. destruct pc as [|?|[]|? ?|?|[] ?| | | | | |?|?]; try discriminate.
Qed.

Lemma fine_stuck permits n sched : in64 permits ->
  let '(f, evs) := fine_exec permits n sched in
  (forall i, fstep f (SStep i) = None) ->
  forall i pc o, nth_error (fs_threads f) i = Some pc -> inside pc = Some o ->
  o = OpAcquire /\ exists tr, explained permits n evs tr /\ permits <= taken (effects tr).
Proof.
  intros Hp. destruct (good_exec permits n sched) as (a & asched & tr & HG & HS).
  destruct (fine_exec permits n sched) as (f, evs). cbn [fst snd] in *. intros Hst i pc o E Hin.
  pose proof (good_explained _ _ _ _ _ _ Hp HG) as HX. rewrite HS in HX.
  destruct HG as [GE [HP HL H1 HO HT] GT GD GP GR].
  assert (Hfree : fs_lock f = None).
  { unfold lock_ok in HL. destruct (fs_lock f) as [h|]; [|reflexivity]. destruct HL as (q & Eq & Hq & _).
    exfalso. apply (holder_steps f h q Eq Hq). apply Hst. }
  pose proof (Hst i) as Hi. cbn [fstep] in Hi. rewrite E in Hi.
  assert (Hpc : pc = FWaitSleep /\ listed i (fs_list f) = true).
  { destruct f as [p c lk l ft]. cbn [fs_lock fs_list fs_threads] in *. subst lk. cbn [fgo] in Hi.
    destruct pc as [|?|[]|? ?|?|[] ?| | | | | |?|?]; try discriminate.
    split; [reflexivity|]. destruct (listed i l); [reflexivity|discriminate]. }
  destruct Hpc as (-> & Hlist). cbn in Hin. injection Hin as <-. split; [reflexivity|].
  exists tr. split; [exact HX|].
  pose proof (HT i) as HTi. rewrite E in HTi. cbn [option_map abs] in HTi. rewrite Hlist in HTi.
  pose proof (lock_no_lost_wakeup permits n asched i SWait Hp) as HW. rewrite GE in HW.
  destruct (Z.leb_spec permits (taken (effects tr))) as [Hle|Hlt]; [exact Hle|].
  destruct (HW Hlt HTi eq_refl) as (s1 & Hs1). cbn [lstep] in Hs1. rewrite HTi in Hs1. discriminate.
Qed.

(** Without new calls there are only so many steps. *)
Definition weight (N : Z) (l : list nat) (i : nat) (pc : fpc) : Z :=
  match pc with
  | FIdle => 0
  | FReturn _ => 1
  | FUnlock _ => 2
  | FWriteN OpRelease _ => 10 * N + 4
  | FBroadcast => 10 * N + 3
  | FReadN OpRelease => 10 * N + 5
  | FReadC OpRelease => 10 * N + 6
  | FLock OpRelease => 10 * N + 7
  | FWriteN _ _ => 3
  | FReadN _ => 4
  | FReadP _ _ => 5
  | FReadC _ => 6
  | FLock _ => 7
  | FWaitAdd => 4
  | FWaitUnlock => if listed i l then 2 else 9
  | FWaitSleep => if listed i l then 1 else 8
  | FWaitLock => 7
  end.
Fixpoint sumI (w : nat -> fpc -> Z) (i : nat) (ft : list fpc) : Z :=
  match ft with [] => 0 | pc :: ft' => w i pc + sumI w (S i) ft' end.

Lemma sumI_upd w i pc pc' ft : forall k, nth_error ft i = Some pc ->
  sumI w k (upd i pc' ft) = sumI w k ft - w (k + i)%nat pc + w (k + i)%nat pc'.
Proof.
  revert i; induction ft as [|q ft IH]; intros [|i] k E; cbn in E; try discriminate.
  - injection E as ->. cbn [upd sumI]. rewrite Nat.add_0_r. lia.
  - cbn [upd sumI]. rewrite (IH i (S k) E). replace (S k + i)%nat with (k + S i)%nat by lia. lia.
Qed.
Lemma sumI_le w w' d ft : forall k, (forall i pc, w i pc <= w' i pc + d) -> sumI w k ft <= sumI w' k ft + d * Z.of_nat (length ft).
Proof.
  induction ft as [|q ft IH]; intros k H; cbn [sumI length]; [lia|]. specialize (IH (S k) H). specialize (H k q). lia.
Qed.

Lemma weight_bounds N l i pc : 0 <= N -> 0 <= weight N l i pc <= 10 * N + 9.
Proof. intros H. destruct pc as [|[]|[]|? ?|[]|[] ?| | | | | |?|?]; cbn [weight]; try lia; destruct (listed i l); lia. Qed.

Lemma sumI_bounds w lo hi ft : forall k, (forall i pc, lo <= w i pc <= hi) ->
  lo * Z.of_nat (length ft) <= sumI w k ft <= hi * Z.of_nat (length ft).
Proof.
  induction ft as [|q ft IH]; intros k H; cbn [sumI length]; [lia|]. specialize (IH (S k) H). specialize (H k q). lia.
Qed.

Definition level (f : fsema) : Z := sumI (weight (Z.of_nat (length (fs_threads f))) (fs_list f)) 0 (fs_threads f).

(** Nobody tests for a full semaphore in Release. *)
Definition sane (f : fsema) : Prop := forall i c, nth_error (fs_threads f) i <> Some (FReadP OpRelease c).

Lemma go_level f i f1 es : sane f -> fstep f (SStep i) = Some (f1, es) ->
  level f1 + 1 <= level f /\ length (fs_threads f1) = length (fs_threads f) /\ sane f1.
Proof.
  intros Hsane. cbn [fstep]. destruct (nth_error (fs_threads f) i) as [pc|] eqn:E; [|discriminate].
  intros G. destruct f as [p c lk l ft]. cbn [fs_threads] in E.
  set (N := Z.of_nat (length ft)).
  assert (HN : 0 <= N) by (unfold N; lia).
  assert (Hgo : forall p' c' lk' l' pc' es', Some (FSema p' c' lk' l' (upd i pc' ft), es') = Some (f1, es) ->
            (forall k, pc' <> FReadP OpRelease k) ->
            (forall w, sumI w 0 (upd i pc' ft) = sumI w 0 ft - w i pc + w i pc') ->
            sumI (weight N l') 0 ft - weight N l' i pc + weight N l' i pc' + 1 <= sumI (weight N l) 0 ft ->
            level f1 + 1 <= level (FSema p c lk l ft) /\ length (fs_threads f1) = length ft /\ sane f1).
  { intros p' c' lk' l' pc' es' [= <- <-] Hpc Hs Hw. unfold level, sane. cbn [fs_threads fs_list].
    rewrite upd_length. fold N. rewrite Hs. split; [lia|]. split; [reflexivity|].
    intros j k Hj. rewrite nth_error_upd in Hj. destruct (Nat.eq_dec i j) as [<-|]; [|exact (Hsane j k Hj)].
    rewrite E in Hj. injection Hj as Hj. exact (Hpc k Hj). }
  assert (Hs : forall pc' w, sumI w 0 (upd i pc' ft) = sumI w 0 ft - w i pc + w i pc').
  { intros pc' w. apply (sumI_upd w i pc pc' ft 0 E). }
  cbn [fgo] in G.
  destruct pc as [|o|o|o k|o|o k| | | | | |e|e].
  - discriminate.
  - destruct lk; [discriminate|]. eapply Hgo; [exact G|discriminate|apply Hs|]. destruct o; cbn [weight]; lia.
  - destruct o; [|destruct (c <=? 0)|]; (eapply Hgo; [exact G|discriminate|apply Hs|]; cbn [weight]; lia).
  - destruct o; [|exfalso; exact (Hsane i k E)|]; (destruct (p <=? k); (eapply Hgo; [exact G|discriminate|apply Hs|]; cbn [weight]; lia)).
  - eapply Hgo; [exact G|discriminate|apply Hs|]. destruct o; cbn [weight]; lia.
  - destruct o; (eapply Hgo; [exact G|discriminate|apply Hs|]; cbn [weight]; lia).
  - eapply Hgo; [exact G|discriminate|apply Hs|]. cbn [weight].
    pose proof (sumI_le (weight N []) (weight N l) 7 ft 0) as H. fold N in H.
    assert (H7 : forall j q, weight N [] j q <= weight N l j q + 7).
    { intros j q. destruct q as [|[]|[]|? ?|[]|[] ?| | | | | |?|?]; cbn [weight listed existsb]; try lia; destruct (listed j l); lia. }
    specialize (H H7). lia.
  - eapply Hgo; [exact G|discriminate|apply Hs|]. cbn [weight]. rewrite listed_cons_same.
    assert (H0 : forall j q, weight N (i :: l) j q <= weight N l j q + 0).
    { intros j q. destruct q as [|[]|[]|? ?|[]|[] ?| | | | | |?|?]; cbn [weight]; try lia;
        unfold listed; cbn [existsb]; destruct (Nat.eqb j i), (existsb (Nat.eqb j) l); cbn [orb]; lia. }
    pose proof (sumI_le (weight N (i :: l)) (weight N l) 0 ft 0 H0) as H. lia.
  - eapply Hgo; [exact G|discriminate|apply Hs|]. cbn [weight]. destruct (listed i l); lia.
  - destruct (listed i l) eqn:El; [discriminate|]. eapply Hgo; [exact G|discriminate|apply Hs|]. cbn [weight]. rewrite El. lia.
  - destruct lk; [discriminate|]. eapply Hgo; [exact G|discriminate|apply Hs|]. cbn [weight]. lia.
  - eapply Hgo; [exact G|discriminate|apply Hs|]. cbn [weight]. lia.
  - eapply Hgo; [exact G|discriminate|apply Hs|]. cbn [weight]. lia.
Qed.

Lemma level_steps sched : forall f, sane f -> Forall no_calls sched -> steps_made f sched <= level f.
Proof.
  induction sched as [|l sched IH]; intros f Hs HF; cbn [steps_made].
  - unfold level. pose proof (sumI_bounds (weight (Z.of_nat (length (fs_threads f))) (fs_list f)) 0 (10 * Z.of_nat (length (fs_threads f)) + 9)
      (fs_threads f) 0 ltac:(intros; apply weight_bounds; lia)). lia.
  - inversion HF as [|? ? Hl HF']; subst. destruct (fstep f l) as [(f1, es)|] eqn:E; [|apply IH; assumption].
    destruct l as [|i]; [destruct Hl|]. destruct (go_level f i f1 es Hs E) as (A & _ & B). specialize (IH f1 B HF'). lia.
Qed.

Lemma fine_sane permits n sched : sane (fst (fine_exec permits n sched)) /\ length (fs_threads (fst (fine_exec permits n sched))) = n.
Proof.
  unfold fine_exec.
  refine (exec_inv fstep (fun f _ => sane f /\ length (fs_threads f) = n) _ sched (new_fine_sema permits n) [] _).
  - intros s l s1 es _ (Hs & Hl) G. destruct l as [i o|i].
    + cbn [fstep] in G. destruct (nth_error (fs_threads s) i) as [[]|] eqn:E; try discriminate. injection G as <- <-.
      cbn [fs_threads]. rewrite upd_length. split; [|exact Hl]. intros j c Hj. cbn [fs_threads] in Hj.
      rewrite nth_error_upd, E in Hj. destruct (Nat.eq_dec i j); [discriminate|exact (Hs j c Hj)].
    + destruct (go_level s i s1 es Hs G) as (_ & A & B). split; [exact B|congruence].
  - cbn. rewrite repeat_length. split; [|reflexivity]. intros i c H. apply nth_error_repeat in H. discriminate.
Qed.

Lemma fine_bounded permits n sched sched2 : Forall no_calls sched2 ->
  steps_made (fst (fine_exec permits n sched)) sched2 <= Z.of_nat n * (10 * Z.of_nat n + 9).
Proof.
  intros HF. destruct (fine_sane permits n sched) as (Hs & Hl). set (f := fst (fine_exec permits n sched)) in *.
  pose proof (level_steps sched2 f Hs HF). unfold level in *.
  pose proof (sumI_bounds (weight (Z.of_nat (length (fs_threads f))) (fs_list f)) 0 (10 * Z.of_nat (length (fs_threads f)) + 9)
      (fs_threads f) 0 ltac:(intros; apply weight_bounds; lia)). rewrite Hl in *. lia.
Qed.
