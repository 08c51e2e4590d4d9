(** Proofs about who gets a permit first. *)
From Verif Require Import Common Threads SemaModel SemaSpec SemaProofs SemaFairSpec.

Lemma queue_served sched : forall s pre j post, cinv s -> cs_queue s = pre ++ j :: post ->
  let tr := snd (exec cstep s sched) in ~ In (ESAcquired j) tr ->
  exists k, (k <= length pre)%nat /\ acquirers tr = firstn k pre /\ releases_done tr = Z.of_nat k /\
    forall i, ~ In (ESTried i true) tr.
Proof.
  induction sched as [|l sched IH]; intros s pre j post HI HQ tr Hn; subst tr; cbn [exec] in *.
  { exists 0%nat. cbn. split; [lia|]. split; [reflexivity|]. split; [reflexivity|]. intros i []. }
  destruct (cstep s l) as [[s1 es]|] eqn:Est; [|exact (IH _ _ _ _ HI HQ Hn)].
  destruct (cinv_step _ _ _ _ HI Est) as [HI1 _]. destruct HI as (H1 & H2 & H3 & H4 & H5).
  assert (Hfull : cs_len s = cs_cap s) by (apply H5; rewrite HQ; destruct pre; discriminate).
  specialize (IH s1). destruct (exec cstep s1 sched) as [s2 tr]. cbn [snd] in *.
  assert (Same : forall post', cs_queue s1 = pre ++ j :: post' -> acquirers es = [] -> releases_done es = 0 -> (forall i, ~ In (ESTried i true) es) ->
    exists k, (k <= length pre)%nat /\ acquirers (es ++ tr) = firstn k pre /\ releases_done (es ++ tr) = Z.of_nat k /\ forall i, ~ In (ESTried i true) (es ++ tr)).
  { intros post' Q1 A R T. destruct (IH pre j post' HI1 Q1) as (k & K1 & K2 & K3 & K4); [intros H; apply Hn; apply in_or_app; right; exact H|].
    exists k. split; [exact K1|]. unfold acquirers, releases_done in *. rewrite flat_map_app, count_app, A, R. split; [exact K2|]. split; [lia|].
    intros i Hi. apply in_app_or in Hi. destruct Hi as [Hi|Hi]; [exact (T i Hi)|exact (K4 i Hi)]. }
  destruct l as [i o|i]; cbn in Est; destruct (nth_error (cs_threads s) i) as [pc|]; try discriminate; destruct pc; try discriminate.
  - injection Est as <- <-. apply (Same post HQ); try reflexivity. intros i' [H|[]]; discriminate.
  - destruct (Z.ltb_spec (cs_len s) (cs_cap s)) as [H|_]; [lia|]. injection Est as <- <-.
    apply (Same (post ++ [i])); try reflexivity; [|intros i' []]. cbn [cs_queue]. rewrite HQ, <- app_assoc. reflexivity.
  - destruct (cs_queue s) as [|j0 q] eqn:EQ; [destruct pre; discriminate|]. injection Est as <- <-.
    destruct pre as [|i0 pre]; cbn [app] in HQ; injection HQ as -> ->; [exfalso; apply Hn; right; left; reflexivity|].
    destruct (IH pre j post HI1 eq_refl) as (k & K1 & K2 & K3 & K4); [intros H; apply Hn; right; right; exact H|].
    exists (S k). cbn [length firstn]. split; [lia|]. unfold acquirers, releases_done in *. cbn [app flat_map count].
    rewrite K2, K3. split; [reflexivity|]. split; [lia|]. intros i' [H|[H|H]]; [discriminate|discriminate|exact (K4 _ H)].
  - destruct (Z.ltb_spec (cs_len s) (cs_cap s)) as [H|_]; [lia|]. injection Est as <- <-.
    apply (Same post HQ); try reflexivity. intros i' [H|[]]; discriminate.
Qed.

Lemma count_positions (f : spc -> bool) l : forall m,
  count f l = Z.of_nat (length (filter (fun i => match nth_error l (i - m) with Some x => f x | None => false end) (seq m (length l)))).
Proof.
  induction l as [|x l IH]; intros m; [reflexivity|]. cbn [count length seq filter]. rewrite Nat.sub_diag. cbn [nth_error].
  rewrite (IH (S m)).
  rewrite (filter_ext_in (fun i => match nth_error (x :: l) (i - m) with Some y => f y | None => false end)
                         (fun i => match nth_error l (i - S m) with Some y => f y | None => false end) (seq (S m) (length l))).
  - destruct (f x); cbn [length]; lia.
  - intros i Hi. apply in_seq in Hi. replace (i - m)%nat with (S (i - S m)) by lia. reflexivity.
Qed.

Lemma queue_length s : cinv s -> Z.of_nat (length (cs_queue s)) = sleepers (cs_threads s).
Proof.
  intros (_ & _ & Hnd & Hq & _). unfold sleepers. rewrite (count_positions _ _ 0). f_equal.
  assert (Hin : forall i, In i (cs_queue s) <-> In i (filter (fun i => match nth_error (cs_threads s) (i - 0) with Some SWait => true | _ => false end) (seq 0 (length (cs_threads s))))).
  { intros i. rewrite <- Hq, filter_In, in_seq, Nat.sub_0_r. destruct (nth_error (cs_threads s) i) as [pc|] eqn:E.
    - assert (i < length (cs_threads s))%nat by (apply nth_error_Some; congruence). split.
      + intros [= ->]. split; [lia|reflexivity].
      + intros [_ H0]. destruct pc; try discriminate. reflexivity.
    - split; [discriminate|intros [_ H]; discriminate]. }
  replace (filter (fun i => match nth_error (cs_threads s) (i - 0) with Some pc => match pc with SWait => true | _ => false end | None => false end) (seq 0 (length (cs_threads s))))
    with (filter (fun i => match nth_error (cs_threads s) (i - 0) with Some SWait => true | _ => false end) (seq 0 (length (cs_threads s)))) by reflexivity.
  apply Nat.le_antisymm; apply NoDup_incl_length.
  - exact Hnd.
  - intros i. apply Hin.
  - apply NoDup_filter, seq_NoDup.
  - intros i. apply Hin.
Qed.

Lemma NoDup_front {A} (a b : list A) : NoDup (a ++ b) -> NoDup a.
Proof. induction a as [|x a IH]; intros H; [constructor|]. inversion H as [|? ? H1 H2]; subst. constructor; [|apply IH; exact H2]. intros Hx. apply H1. apply in_or_app. left. exact Hx. Qed.
Lemma NoDup_firstn {A} k (l : list A) : NoDup l -> NoDup (firstn k l).
Proof. intros H. rewrite <- (firstn_skipn k l) in H. apply NoDup_front in H. exact H. Qed.

Lemma chan_first_come permits n sched1 s1 tr1 sched2 j : 1 <= permits ->
  chan_exec permits n sched1 = Some (s1, tr1) -> asleep j (cs_threads s1) ->
  let tr2 := snd (exec cstep s1 sched2) in ~ In (ESAcquired j) tr2 ->
  releases_done tr2 < sleepers (cs_threads s1) /\ acquisitions tr2 = releases_done tr2 /\ NoDup (acquirers tr2) /\
  (forall i, In i (acquirers tr2) -> asleep i (cs_threads s1) /\ i <> j) /\ forall i, ~ In (ESTried i true) tr2.
Proof.
  intros Hp H1 Hj tr2 Hn. destruct (chan_state _ _ _ _ _ Hp H1) as (HI & _ & _).
  pose proof HI as (_ & _ & Hnd & Hq & _). pose proof Hj as Hj'. apply Hq in Hj'. apply in_split in Hj'. destruct Hj' as (pre & post & HQ).
  destruct (queue_served sched2 s1 pre j post HI HQ Hn) as (k & K1 & K2 & K3 & K4). fold tr2 in K2, K3, K4.
  rewrite HQ in Hnd. pose proof (NoDup_remove_2 _ _ _ Hnd) as Hnj. apply NoDup_front in Hnd.
  split. { rewrite <- (queue_length s1 HI), HQ, app_length. cbn [length]. lia. }
  split.
  { assert (E : forall tr, (forall i, ~ In (ESTried i true) tr) -> acquisitions tr = Z.of_nat (length (acquirers tr))).
    { clear. unfold acquisitions, acquirers. induction tr as [|e tr IH]; intros H; [reflexivity|]. cbn [count flat_map]. rewrite app_length, Nat2Z.inj_add, IH by (intros i Hi; apply (H i); right; exact Hi).
      destruct e as [i o|i|i [|]|i]; try reflexivity. exfalso. apply (H i). left. reflexivity. }
    rewrite (E _ K4), K2, K3, firstn_length, Nat.min_l by exact K1. reflexivity. }
  split; [rewrite K2; apply NoDup_firstn; exact Hnd|]. split; [|exact K4].
  intros i Hi. rewrite K2 in Hi. assert (Hpre : In i pre) by (rewrite <- (firstn_skipn k pre); apply in_or_app; left; exact Hi).
  split; [apply Hq; rewrite HQ; apply in_or_app; left; exact Hpre|]. intros ->. apply Hnj. apply in_or_app. left. exact Hpre.
Qed.

Lemma chan_served permits n sched1 s1 tr1 sched2 j : 1 <= permits ->
  chan_exec permits n sched1 = Some (s1, tr1) -> asleep j (cs_threads s1) ->
  sleepers (cs_threads s1) <= releases_done (snd (exec cstep s1 sched2)) -> In (ESAcquired j) (snd (exec cstep s1 sched2)).
Proof.
  intros Hp H1 Hj Hr.
  assert (D : {In (ESAcquired j) (snd (exec cstep s1 sched2))} + {~ In (ESAcquired j) (snd (exec cstep s1 sched2))}).
  { apply in_dec. intros a b. repeat decide equality. }
  destruct D as [D|D]; [exact D|]. destruct (chan_first_come _ _ _ _ _ sched2 j Hp H1 Hj D) as (L & _). lia.
Qed.

(** ** Starvation at the lock version *)
Definition starve_start : list slabel := [SCall 1 OpAcquire; SStep 1; SCall 0 OpAcquire; SStep 0].
Definition starve_loop : list slabel := [SCall 1 OpRelease; SStep 1; SCall 1 OpAcquire; SStep 1; SStep 0].
Definition starve (k : nat) : slabel := nth k (starve_start ++ concat (repeat starve_loop (S k))) (SStep 0).
Definition loops (m : nat) : list slabel := starve_start ++ concat (repeat starve_loop m).

Lemma loops_length m : length (loops m) = (4 + 5 * m)%nat.
Proof. unfold loops. rewrite app_length. cbn [starve_start length]. f_equal. induction m as [|m IH]; [reflexivity|]. cbn [repeat concat]. rewrite app_length, IH. cbn [starve_loop length]. lia. Qed.

Lemma loops_app m d : loops (m + d) = loops m ++ concat (repeat starve_loop d).
Proof. unfold loops. rewrite repeat_app, concat_app, app_assoc. reflexivity. Qed.

Lemma starve_loops k m : (k < 4 + 5 * m)%nat -> starve k = nth k (loops m) (SStep 0).
Proof.
  intros H. unfold starve. fold (loops (S k)). destruct (Nat.le_ge_cases m (S k)) as [L|L].
  - replace (S k) with (m + (S k - m))%nat by lia. rewrite loops_app. apply app_nth1. rewrite loops_length. exact H.
  - replace m with (S k + (m - S k))%nat by lia. rewrite loops_app. symmetry. apply app_nth1. rewrite loops_length. lia.
Qed.

Lemma upto_firstn k m : (k <= 4 + 5 * m)%nat -> upto k starve = firstn k (loops m).
Proof.
  revert m. induction k as [|k IH]; intros m H; [reflexivity|]. unfold upto in *. rewrite seq_S, map_app, (IH m) by lia. cbn [Nat.add map].
  rewrite (starve_loops k m) by lia.
  assert (Hl : (k < length (loops m))%nat) by (rewrite loops_length; lia). clear - Hl. revert k Hl. generalize (loops m) as l.
  induction l as [|x l IH]; intros k Hl; [cbn in Hl; lia|]. destruct k as [|k]; [reflexivity|]. cbn [firstn app nth]. f_equal. apply IH. cbn in Hl. lia.
Qed.

Lemma starve_run m : exec lstep (new_lock_sema 1 2) (loops m) =
  (LSema 1 1 [SWait; SIdle], [ESCall 1 OpAcquire; ESAcquired 1; ESCall 0 OpAcquire] ++
     concat (repeat [ESCall 1 OpRelease; ESReleased 1; ESCall 1 OpAcquire; ESAcquired 1] m)).
Proof.
  unfold loops. rewrite exec_app.
  assert (L : forall m, exec lstep (LSema 1 1 [SWait; SIdle]) (concat (repeat starve_loop m)) =
    (LSema 1 1 [SWait; SIdle], concat (repeat [ESCall 1 OpRelease; ESReleased 1; ESCall 1 OpAcquire; ESAcquired 1] m))).
  { clear m. induction m as [|m IH]; [reflexivity|]. cbn [repeat concat]. rewrite exec_app.
    replace (exec lstep (LSema 1 1 [SWait; SIdle]) starve_loop)
      with (LSema 1 1 [SWait; SIdle], [ESCall 1 OpRelease; ESReleased 1; ESCall 1 OpAcquire; ESAcquired 1]) by (vm_compute; reflexivity).
    rewrite IH. reflexivity. }
  replace (exec lstep (new_lock_sema 1 2) starve_start) with (LSema 1 1 [SWait; SIdle], [ESCall 1 OpAcquire; ESAcquired 1; ESCall 0 OpAcquire]) by (vm_compute; reflexivity).
  rewrite L. reflexivity.
Qed.

Lemma starve_fair : fair_to 2 starve.
Proof.
  intros i k Hi. destruct i as [|[|i]]; [exists (4 + 5 * k + 4)%nat|exists (4 + 5 * k + 1)%nat|lia]; (split; [lia|]);
    (rewrite (starve_loops _ (S k)) by lia); (replace (S k) with (k + 1)%nat by lia); rewrite loops_app, app_nth2 by (rewrite loops_length; lia);
    rewrite loops_length; [replace (4 + 5 * k + 4 - (4 + 5 * k))%nat with 4%nat by lia|replace (4 + 5 * k + 1 - (4 + 5 * k))%nat with 1%nat by lia]; reflexivity.
Qed.

Lemma starve_never k : ~ In (ESAcquired 0) (snd (lock_exec 1 2 (upto k starve))).
Proof.
  rewrite (upto_firstn k k) by lia. intros H.
  assert (G : In (ESAcquired 0) (snd (lock_exec 1 2 (loops k)))).
  { rewrite <- (firstn_skipn k (loops k)). unfold lock_exec in *. rewrite exec_app. destruct (exec lstep _ (firstn k (loops k))) as [s tr].
    destruct (exec lstep s _) as [s2 tr2]. cbn [snd] in *. apply in_or_app. left. exact H. }
  unfold lock_exec in G. rewrite starve_run in G. cbn [snd] in G. destruct G as [G|[G|[G|G]]]; try discriminate.
  apply in_concat in G. destruct G as (x & Hx & G). apply repeat_spec in Hx. subst x. destruct G as [G|[G|[G|[G|[]]]]]; discriminate.
Qed.

Lemma starve_acquired m : count (fun e => match e with ESAcquired 1 => true | _ => false end) (snd (lock_exec 1 2 (upto (4 + 5 * m) starve))) = Z.of_nat m + 1.
Proof.
  rewrite (upto_firstn _ m), firstn_all2 by (rewrite ?loops_length; lia). unfold lock_exec. rewrite starve_run. cbn [snd]. rewrite count_app. cbn [count].
  assert (E : count (fun e => match e with ESAcquired 1 => true | _ => false end) (concat (repeat [ESCall 1 OpRelease; ESReleased 1; ESCall 1 OpAcquire; ESAcquired 1] m)) = Z.of_nat m).
  { induction m as [|m IH]; [reflexivity|]. cbn [repeat concat]. rewrite count_app, IH. cbn [count]. lia. }
  rewrite E. lia.
Qed.

Lemma starve_disciplined k : disciplined (snd (lock_exec 1 2 (upto k starve))).
Proof.
  assert (Pre : forall tr tr', (exists r, tr' = tr ++ r) -> disciplined tr' -> disciplined tr).
  { intros tr tr' (r & ->) D a b E. apply (D a (b ++ r)). rewrite E, app_assoc. reflexivity. }
  apply (Pre _ (snd (lock_exec 1 2 (loops k)))).
  { rewrite (upto_firstn k k) by lia. unfold lock_exec.
    replace (exec lstep (new_lock_sema 1 2) (loops k)) with (exec lstep (new_lock_sema 1 2) (firstn k (loops k) ++ skipn k (loops k))) by (rewrite firstn_skipn; reflexivity).
    rewrite exec_app. destruct (exec lstep _ (firstn k (loops k))) as [s tr]. destruct (exec lstep s _) as [s2 tr2]. exists tr2. reflexivity. }
  unfold lock_exec. rewrite starve_run. cbn [snd].
  assert (L : forall m h, 1 <= h -> forall a b, concat (repeat [ESCall 1 OpRelease; ESReleased 1; ESCall 1 OpAcquire; ESAcquired 1] m) = a ++ b -> 0 <= h + held a).
  { clear. induction m as [|m IH]; intros h Hh a b E.
    - destruct a; [cbn; lia|discriminate].
    - cbn [repeat concat app] in E. unfold held, acquisitions, release_calls in *.
      do 4 (destruct a as [|? a]; [cbn; lia|]; injection E as <- E). specialize (IH h Hh a b E). cbn [count]. lia. }
  intros a b E. do 3 (destruct a as [|? a]; [cbn; lia|]; injection E as <- E).
  specialize (L k 1 ltac:(lia) a b E). unfold held, acquisitions, release_calls in *. cbn [count]. lia.
Qed.
