(** Callers of a limiter after a quiet time are served. *)
From Verif Require Import Common Threads TokenBucketModel TokenBucketSpec TokenBucketProofs SlidingWindowModel SlidingWindowSpec SlidingWindowProofs FixedWindowModel FixedWindowProofs MonitorModel MonitorSpec MonitorProofs MonitorRuns LimiterConcModel LimiterConcSpec LimiterConcProofs LimiterConcRates FixedConcRates LimiterWaitSpec.

(** ** What follows a moment without calls *)
Section idle.
  Context {F V R M : Type}.
  Variable feq : forall f g : F, {f = g} + {f <> g}.
  Variable body : M -> code F V R.
  Variable const : F -> bool.
  Variable early : bool.
  Variable writes : M -> bool.
  Hypothesis typed : forall m, ty const early (writes m) Before (body m).
  Notation linv := (linv feq body const early writes).
  Notation step := (mstep feq body).

  Lemma idle_pend s0 t0 w evs tr A p : linv s0 t0 w evs tr A p -> (forall t, ~ in_call w t) -> early = false -> p = [].
  Proof.
    intros I Id. apply (li_pend _ _ _ _ _ _ _ _ _ _ _ _ I). intros t.
    assert (G : at_lock (mo_lock w) t Before).
    { destruct (nth_error (mo_threads w) t) as [[x|]|] eqn:Et.
      - exfalso. apply (Id t). exists x. exact Et.
      - exact (proj2 (li_threads _ _ _ _ _ _ _ _ _ _ _ _ I t _ Et)).
      - exact (proj2 (li_absent _ _ _ _ _ _ _ _ _ _ _ _ I t Et)). }
    exact (proj2 G true).
  Qed.

  Lemma seq_det l : forall s s1 s2, one_by_one (seq_call feq body) s l s1 -> one_by_one (seq_call feq body) s l s2 -> s1 = s2.
  Proof.
    induction l as [|[[m zs] r] l IH]; intros s s1 s2 H1 H2.
    - apply obo_nil in H1. apply obo_nil in H2. congruence.
    - apply obo_cons in H1. apply obo_cons in H2. destruct H1 as (a & A1 & A2). destruct H2 as (b & B1 & B2). unfold seq_call in A1, B1. assert (a = b) by congruence. subst b. exact (IH _ _ _ A2 B2).
  Qed.

  Lemma after_idle s0 t0 w evs tr A p sched : linv s0 t0 w evs tr A p -> (forall t, ~ in_call w t) -> let r := exec step w sched in
    exists y A' p', linv s0 t0 (fst r) (evs ++ snd r) (tr ++ y) A' p' /\ seen y = snd r /\ reads_clock (mo_clock w) y /\ each_once y /\
      one_by_one (seq_call feq body) (mo_mem w) (effects y) A' /\ (early = false -> reads y = readings (sections writes y) ++ p').
  Proof.
    intros I Id r. destruct (stretch feq body const early writes typed _ _ _ _ _ _ _ sched I) as (y & A' & p' & I' & C & Rc & Sn & _). fold r in I', Sn.
    destruct (idle_waiting _ _ _ _ _ _ _ _ _ _ _ _ I Id) as [Wt EA]. exists y, A', p'. split; [exact I'|]. split; [exact Sn|]. split; [exact Rc|]. split; [|split].
    - intros t. destruct (each_once_linv _ _ _ _ _ _ _ _ _ _ _ _ I' t) as [s E]. destruct (turns_split _ _ _ _ _ E) as (s1 & E1 & E2).
      assert (s1 = Waiting) by (rewrite (stages _ _ _ _ E1); symmetry; exact (stages _ _ _ _ (Wt t))). subst s1. exists s. exact E2.
    - pose proof (li_seq _ _ _ _ _ _ _ _ _ _ _ _ I') as O. rewrite effects_app in O. apply obo_app in O. destruct O as (b & O1 & O2).
      rewrite <- EA, (seq_det _ _ _ _ (li_seq _ _ _ _ _ _ _ _ _ _ _ _ I) O1). exact O2.
    - intros Ee. rewrite (idle_pend _ _ _ _ _ _ _ I Id Ee) in C. exact (chunk_start _ _ _ (C Ee)).
  Qed.

  (** Calls that take effect are calls that were made. *)
  Lemma effects_called (P : M -> bool) y : forall (st : nat -> stage R M) open,
    (forall t, exists s, turns t (st t) y s) -> NoDup open -> (forall t m zs, st t = Called m zs -> In t open) ->
    count (fun e => P (fst (fst e))) (effects y) <=
      count (fun e => match e with MCalled _ m => P m | _ => false end) (seen y) + count (fun t => match st t with Called m _ => P m | _ => false end) open.
  Proof.
    induction y as [|x y IH]; intros st open Ht ND Ho.
    - cbn. apply count_nonneg.
    - assert (Turn : forall t, turn t (st t) x (next t (st t) x) /\ exists s, turns t (next t (st t) x) y s).
      { intros t. destruct (Ht t) as [s Hs]. change (x :: y) with ([x] ++ y) in Hs. apply turns_split in Hs. destruct Hs as (s1 & H1 & H2).
        apply turns_one in H1. rewrite <- (turn_next _ _ _ _ H1). split; [exact H1|exists s; exact H2]. }
      assert (Ht' := fun t => proj2 (Turn t)).
      specialize (IH (fun t => next t (st t) x)).
      assert (Oth : forall t, whose x <> Some t -> next t (st t) x = st t).
      { intros t Hn. destruct x as [[z|u m|u m r]|u z|u m zs r]; cbn in Hn |- *; try reflexivity; destruct (Nat.eq_dec u t); congruence. }
      assert (Same : forall l, (forall t, In t l -> whose x <> Some t) ->
        count (fun t => match next t (st t) x with Called m _ => P m | _ => false end) l = count (fun t => match st t with Called m _ => P m | _ => false end) l).
      { intros l Hl. apply count_ext. intros t Hi. rewrite (Oth t (Hl t Hi)). reflexivity. }
      destruct x as [[z|u m|u m r]|u z|u m zs r]; cbn [MonitorSpec.seen MonitorSpec.effects flat_map app count] in *.
      + specialize (IH open Ht' ND Ho). exact IH.
      + pose proof (proj1 (Turn u)) as Tu. assert (Su : st u = Waiting) by (inversion Tu; congruence).
        assert (Ex : exists open', NoDup open' /\ In u open' /\ (forall t, In t open -> In t open') /\
          count (fun t => match st t with Called m _ => P m | _ => false end) open' = count (fun t => match st t with Called m _ => P m | _ => false end) open).
        { destruct (in_dec Nat.eq_dec u open) as [Hi|Nu].
          - exists open. auto.
          - exists (u :: open). split; [constructor; assumption|]. split; [left; reflexivity|]. split; [intros; right; assumption|]. cbn [count]. rewrite Su. lia. }
        destruct Ex as (open' & ND' & Hu & Sub & Ec).
        specialize (IH open' Ht' ND'). rewrite <- Ec, (count_remove _ u open' ND' Hu), Su. rewrite (count_remove _ u open' ND' Hu) in IH.
        rewrite (Same (remove Nat.eq_dec u open')) in IH by (intros t Ht2 [= ->]; exact (remove_In _ _ _ Ht2)).
        replace (next u (st u) (Seen (MCalled u m))) with (@Called R M m []) in IH by (cbn; destruct (Nat.eq_dec u u); congruence).
        assert (X : forall t m0 zs, next t (st t) (Seen (MCalled u m)) = Called m0 zs -> In t open').
        { intros t m0 zs E. destruct (Nat.eq_dec u t) as [<-|ne]; [exact Hu|]. rewrite Oth in E by (cbn; congruence). apply Sub. eapply Ho. exact E. }
        specialize (IH X). unfold MonitorSpec.seen, MonitorSpec.effects in *. lia.
      + specialize (IH open Ht' ND). pose proof (proj1 (Turn u)) as Tu. assert (Su : st u = Effected m r) by (inversion Tu; congruence).
        assert (X : forall t m0 zs, next t (st t) (Seen (MReturned u m r)) = Called m0 zs -> In t open).
        { intros t m0 zs E. destruct (Nat.eq_dec u t) as [<-|ne]; [cbn in E; destruct (Nat.eq_dec u u); congruence|]. rewrite Oth in E by (cbn; congruence). eapply Ho. exact E. }
        specialize (IH X). rewrite (count_ext _ (fun t => match st t with Called m _ => P m | _ => false end) open) in IH; [exact IH|].
        intros t _. destruct (Nat.eq_dec u t) as [<-|ne]; [|rewrite Oth by (cbn; congruence); reflexivity]. rewrite Su. cbn. destruct (Nat.eq_dec u u); congruence.
      + specialize (IH open Ht' ND). pose proof (proj1 (Turn u)) as Tu. assert (Su : exists m zs, st u = Called m zs) by (inversion Tu; subst; [eauto|congruence]). destruct Su as (m & zs & Su).
        assert (X : forall t m0 zs, next t (st t) (Reads u z) = Called m0 zs -> In t open).
        { intros t m0 zs' E. destruct (Nat.eq_dec u t) as [<-|ne]; [eapply Ho; exact Su|]. rewrite Oth in E by (cbn; congruence). eapply Ho. exact E. }
        specialize (IH X). rewrite (count_ext _ (fun t => match st t with Called m _ => P m | _ => false end) open) in IH; [exact IH|].
        intros t _. destruct (Nat.eq_dec u t) as [<-|ne]; [|rewrite Oth by (cbn; congruence); reflexivity]. rewrite Su. cbn. destruct (Nat.eq_dec u u); [reflexivity|congruence].
      + pose proof (proj1 (Turn u)) as Tu. assert (Su : st u = Called m zs) by (inversion Tu; congruence). assert (Hu : In u open) by (eapply Ho; exact Su).
        specialize (IH open Ht' ND). rewrite (count_remove _ u open ND Hu), Su. rewrite (count_remove _ u open ND Hu) in IH.
        rewrite (Same (remove Nat.eq_dec u open)) in IH by (intros t Ht2 [= ->]; exact (remove_In _ _ _ Ht2)).
        replace (next u (st u) (Takes u m zs r)) with (@Effected R M m r) in IH by (cbn; destruct (Nat.eq_dec u u); congruence).
        assert (X : forall t m0 zs0, next t (st t) (Takes u m zs r) = Called m0 zs0 -> In t open).
        { intros t m0 zs0 E. destruct (Nat.eq_dec u t) as [<-|ne]; [exact Hu|]. rewrite Oth in E by (cbn; congruence). eapply Ho. exact E. }
        specialize (IH X). cbn [fst]. unfold MonitorSpec.seen, MonitorSpec.effects in *. lia.
  Qed.
  Lemma called_calls (P : M -> bool) sched : forall w, count (fun e => match e with MCalled _ m => P m | _ => false end) (snd (exec step w sched)) <= calls P sched.
  Proof.
    unfold calls. induction sched as [|l sched IH]; intros w; [cbn; lia|]. cbn [exec count]. destruct (step w l) as [[w' es]|] eqn:E.
    - specialize (IH w'). destruct (exec step w' sched) as [w2 es2]. cbn [snd] in *. rewrite count_app.
      assert (X : count (fun e : mevent R M => match e with MCalled _ m => P m | _ => false end) es <= (if match l with MCall _ m => P m | _ => false end then 1 else 0)); [|lia].
      destruct l as [z|u m|u]; cbn [mstep] in E.
      + injection E as <- <-. cbn. lia.
      + destruct (nth_error (mo_threads w) u) as [[|]|]; try discriminate. injection E as <- <-. cbn. destruct (P m); lia.
      + destruct (nth_error (mo_threads w) u) as [[[m' c]|]|]; try discriminate.
        destruct c; try (destruct (code_step _ _ _ _ _ _) as [[[? ?] ?]|]; [|discriminate]; injection E as <- <-; cbn; lia); injection E as <- <-; cbn; lia.
    - specialize (IH w). destruct (match l with MCall _ m => P m | _ => false end); lia.
  Qed.
  Lemma effects_calls (P : M -> bool) w sched y : each_once y -> seen y = snd (exec step w sched) -> count (fun e => P (fst (fst e))) (effects y) <= calls P sched.
  Proof.
    intros E Sn. pose proof (effects_called P y (fun _ => Waiting) [] E (NoDup_nil _) ltac:(discriminate)) as X. cbn [count] in X. rewrite Sn in X. pose proof (called_calls P sched w). lia.
  Qed.

  Lemma after_tick s0 t0 w evs tr A p c sched : linv s0 t0 w evs tr A p -> (forall t, ~ in_call w t) ->
    exists y A' p', snd (exec step w (MTick c :: sched)) = MTime c :: seen y /\ times (seen y) = ticks sched /\ reads_clock c y /\ each_once y /\ one_by_one (seq_call feq body) (mo_mem w) (effects y) A' /\ (early = false -> reads y = readings (sections writes y) ++ p') /\ forall P, count (fun e => P (fst (fst e))) (effects y) <= calls P sched.
  Proof.
    intros I Id. destruct (stretch feq body const early writes typed _ _ _ _ _ _ _ [MTick c] I) as (y0 & A0 & p0 & I0 & _).
    set (w' := fst (exec step w [MTick c])) in *. assert (Id' : forall t, ~ in_call w' t) by exact Id.
    destruct (after_idle _ _ _ _ _ _ _ sched I0 Id') as (y & A' & p' & _ & Sn & Rc & Eo & O & Er). exists y, A', p'.
    split.
    { rewrite Sn. change (MTick c :: sched) with ([MTick c] ++ sched). rewrite exec_app. fold w'. change (exec step w [MTick c]) with (w', [@MTime R M c]). cbn [fst snd]. destruct (exec step w' sched). reflexivity. }
    split; [rewrite Sn; apply times_ticks|]. split; [exact Rc|]. split; [exact Eo|]. split; [exact O|]. split; [exact Er|].
    intros P. exact (effects_calls P w' sched y Eo Sn).
  Qed.
  Lemma none_refused_after (evs : list (mevent lresult M)) (y : list (obs lresult M)) c (P : M -> bool) : evs = MTime c :: seen y -> each_once y ->
    (forall m zs r, P m = true -> In (m, zs, r) (effects y) -> r = LBool true) -> none_refused P evs.
  Proof.
    intros -> Eo H t m r HP [Hi|Hi]; [discriminate|]. destruct (returned_effect t m r y Eo Hi) as [zs Hz]. exact (H m zs r HP Hz).
  Qed.
End idle.

(** ** Token bucket *)
Lemma burst_waited capacity rate t0 t b a s c nows : 0 <= capacity -> 0 <= rate -> 0 <= s -> no_overflow capacity rate t0 t -> env capacity rate t0 t b a ->
  a + s * second <= c -> nondecreasing (c :: nows) -> Forall (fun x => x <= t) nows ->
  Z.of_nat (length nows) <= capacity -> Z.of_nat (length nows) <= rate * s -> snd (sync_run b nows) = repeat true (length nows).
Proof.
  intros Hc Hr Hs Hov Henv Hw Hnd Hle L1 L2. destruct nows as [|z burst]; [reflexivity|].
  assert (Hss : 0 <= s * second) by (unfold second; lia).
  inversion Hle as [|? ? Hzt Hle2]; subst. destruct Hnd as [Hf Hnd]. inversion Hf as [|? ? Hcz _]; subst.
  assert (Henvz : env capacity rate t0 t b z) by (destruct Henv as (? & ? & ? & ? & ?); repeat split; auto; lia).
  destruct (sync_acquire_spec capacity rate t0 t b z Hc Hr Hov Henvz) as (b1 & r & Heq & Hr1 & Htok & _ & _ & _ & _ & Henv1). cbn [sync_run]. rewrite Heq.
  assert (Hn : Z.of_nat (length (z :: burst)) <= sb_tokens (ideal_issue b z)).
  { destruct Henv as (E1 & E2 & E3 & E4 & E5). unfold ideal_issue. rewrite E1, E2.
    destruct (Z.leb_spec capacity (sb_tokens b)); [lia|].
    assert (s <= (z - sb_last b) / second) by (apply Z.div_le_lower_bound; unfold second in *; lia).
    assert (rate * s <= (z - sb_last b) / second * rate) by nia. cbn [length] in *.
    destruct (Z.eqb_spec ((z - sb_last b) / second * rate) 0); [lia|]. cbn [sb_tokens]. lia. }
  cbn [length] in Hn. assert (r = true) as -> by (rewrite Hr1; apply Z.ltb_lt; lia).
  pose proof (burst_from capacity rate t0 t Hc Hr Hov burst b1 z Henv1 Hnd Hle2 ltac:(lia)) as Hb.
  destruct (sync_run b1 burst) as [b2 rs]. cbn in *. rewrite Hb. reflexivity.
Qed.
Lemma nominal_length l : forall z0, length (nominal z0 l) = length l.
Proof. induction l as [|[[m zs] r] l IH]; intros z0; cbn; [reflexivity|]. rewrite IH. reflexivity. Qed.
(** All true means that none is refused. *)
Lemma all_granted l : forall z0 b b', all_acquire l -> one_by_one bucket_call b l b' -> snd (sync_run b (nominal z0 l)) = repeat true (length l) ->
  forall m zs r, In (m, zs, r) l -> r = LBool true.
Proof.
  induction l as [|[[m zs] r] l IH]; intros z0 b b' Ha H E; [intros ? ? ? []|].
  inversion Ha as [|? ? Hm Ha']; subst. destruct m; [|discriminate]. apply obo_cons in H. destruct H as (b1 & (now & x & E0 & -> & Hz) & H2).
  assert (E3 : sync_acquire b (last zs z0) = (b1, x)) by (destruct Hz as [->|[-> Hz]]; [exact E0|rewrite <- E0; apply unread_any; exact Hz]).
  cbn [nominal sync_run length repeat] in E. rewrite E3 in E. specialize (IH (last zs z0) b1 b' Ha' H2). destruct (sync_run b1 (nominal (last zs z0) l)) as [b2 rs]. cbn [snd] in *. injection E as -> E.
  intros m zs' r [[= <- <- <-]|Hi]; [reflexivity|]. exact (IH E m zs' r Hi).
Qed.
Lemma count_filter_length {X} (f : X -> bool) l : count f l = Z.of_nat (length (filter f l)).
Proof. induction l as [|x l IH]; [reflexivity|]. cbn [count filter]. rewrite IH. destruct (f x); cbn [length]; lia. Qed.

Lemma bucket_waited capacity rate t0 n sched1 s c sched2 : let step := mstep tbfield_eq tb_body in let m1 := fst (bucket_exec capacity rate t0 n sched1) in
  0 <= capacity -> 0 <= rate -> 0 <= s -> no_overflow capacity rate t0 (clock_at c sched2) -> steady_clock t0 (sched1 ++ MTick c :: sched2) ->
  (forall t, ~ in_call m1 t) -> clock_at t0 sched1 + s * second <= c ->
  calls b_acquire sched2 <= capacity -> calls b_acquire sched2 <= rate * s ->
  none_refused b_acquire (snd (exec step m1 (MTick c :: sched2))).
Proof.
  intros step m1 Hc Hr Hs Hov St Id Hw L1 L2. destruct (steady_split _ _ _ St) as (St1 & St2 & Tab). set (a := clock_at t0 sched1) in *.
  assert (St3 : steady_clock c sched2) by (exact (proj2 St2)).
  assert (Tc : c <= clock_at c sched2) by (rewrite <- (app_nil_r sched2) in St3 at 1; destruct (steady_split _ _ _ St3) as (_ & _ & X & _); exact X).
  assert (Hss : 0 <= s * second) by (unfold second; lia).
  destruct (bucket_exec_linv capacity rate t0 n sched1 St1) as (tr & A & p & I & Ck & Er & N & B & _). fold m1 a in Ck, B, I.
  destruct (idle_waiting _ _ _ _ _ _ _ _ _ _ _ _ I Id) as [_ EA].
  destruct (after_tick tbfield_eq tb_body tb_const false tb_writes tb_typed _ _ _ _ _ _ _ c sched2 I Id) as (y & A' & p' & Sn & Tk & Rc & Eo & O & Er' & Cl).
  apply (none_refused_after _ y c b_acquire Sn Eo). specialize (Er' eq_refl).
  pose proof (tb_obo _ _ _ (li_seq _ _ _ _ _ _ _ _ _ _ _ _ I)) as O1. rewrite bucket_of_mem in O1. apply tb_obo in O. rewrite <- EA in O.
  apply bucket_filter in O1. apply bucket_filter in O. change (filter bw (effects y)) with (sections tb_writes y) in *. change (filter bw (effects tr)) with (sections tb_writes tr) in *.
  assert (Al1 : all_acquire (sections tb_writes tr)) by apply filter_acquire. assert (Al2 : all_acquire (sections tb_writes y)) by apply filter_acquire.
  rewrite Er in N, B.
  assert (E1 : env capacity rate t0 (clock_at c sched2) (bucket_of A) a).
  { apply (bucket_reach capacity rate t0 Hc Hr (sections tb_writes tr)); auto; [exact (proj1 (nondecreasing_app (t0 :: readings (sections tb_writes tr)) p N))| |lia].
    exact (proj1 (proj1 (Forall_app _ (t0 :: readings (sections tb_writes tr)) p) B)). }
  assert (Rs : nondecreasing (c :: times (seen y))) by (rewrite Tk; exact St3).
  destruct (reads_sorted c y Rc Rs) as [R1 R2]. rewrite clock_last, Tk in R2. change (last (ticks sched2) c) with (clock_at c sched2) in R2. rewrite Er' in R1, R2.
  destruct (nominal_sorted (sections tb_writes y) (clock_at c sched2) c (proj1 (nondecreasing_app (c :: readings (sections tb_writes y)) p' R1)) (proj1 (proj1 (Forall_app _ (c :: readings (sections tb_writes y)) p') R2))) as [N1 N2].
  assert (Ln : Z.of_nat (length (sections tb_writes y)) <= calls b_acquire sched2).
  { specialize (Cl b_acquire). unfold sections. rewrite <- count_filter_length. eapply Z.le_trans; [|exact Cl]. apply count_le. intros [[[] zs] r] _; cbn; auto. }
  assert (Hall := burst_waited capacity rate t0 _ _ a s c (nominal c (sections tb_writes y)) Hc Hr Hs Hov E1 Hw N1 N2 ltac:(rewrite nominal_length; lia) ltac:(rewrite nominal_length; lia)).
  rewrite nominal_length in Hall. intros m zs r HP Hi. destruct m; [|discriminate].
  apply (all_granted _ _ _ _ Al2 O Hall BAcquire zs r). unfold sections. apply filter_In. split; [exact Hi|reflexivity].
Qed.

(** A new bucket. *)
Lemma bucket_first capacity rate t0 n sched : 0 <= capacity -> 0 <= rate -> no_overflow capacity rate t0 (clock_at t0 sched) -> steady_clock t0 sched ->
  calls b_acquire sched <= capacity -> none_refused b_acquire (snd (bucket_exec capacity rate t0 n sched)).
Proof.
  intros Hc Hr Hov St L. destruct (bucket_exec_linv capacity rate t0 n sched St) as (tr & A & p & I & Ck & Er & N & B & _).
  pose proof (each_once_linv _ _ _ _ _ _ _ _ _ _ _ _ I) as Eo. pose proof (li_seen _ _ _ _ _ _ _ _ _ _ _ _ I) as Sn.
  pose proof (tb_obo _ _ _ (li_seq _ _ _ _ _ _ _ _ _ _ _ _ I)) as O. rewrite bucket_of_mem in O. apply bucket_filter in O. change (filter bw (effects tr)) with (sections tb_writes tr) in *.
  rewrite Er in N, B. assert (T : t0 <= clock_at t0 sched) by (inversion B; assumption).
  destruct (nominal_sorted (sections tb_writes tr) (clock_at t0 sched) t0 (proj1 (nondecreasing_app (t0 :: readings (sections tb_writes tr)) p N)) (proj1 (proj1 (Forall_app _ (t0 :: readings (sections tb_writes tr)) p) B))) as [N1 N2].
  assert (Ln : Z.of_nat (length (sections tb_writes tr)) <= calls b_acquire sched).
  { pose proof (effects_calls tbfield_eq tb_body b_acquire _ sched tr Eo Sn) as Cl. unfold sections. rewrite <- count_filter_length. eapply Z.le_trans; [|exact Cl]. apply count_le. intros [[[] zs] r] _; cbn; auto. }
  pose proof (initial_burst capacity rate t0 _ _ Hc Hr T Hov N1 N2 ltac:(rewrite nominal_length; lia)) as Hall. rewrite nominal_length in Hall.
  intros t m r HP Hi. rewrite <- Sn in Hi. destruct (returned_effect t m r tr Eo Hi) as [zs Hz]. destruct m; [|discriminate].
  apply (all_granted _ _ _ _ (filter_acquire _) O Hall BAcquire zs r). unfold sections. apply filter_In. split; [exact Hz|reflexivity].
Qed.

(** ** Sliding window *)
Lemma kept_records (Q : Z -> Prop) l : forall s s', one_by_one sliding_call s l s' -> Forall Q (sw_records s) -> (forall m zs r, In (m, zs, r) l -> Forall Q zs) -> Forall Q (sw_records s').
Proof.
  induction l as [|[[m zs] r] l IH]; intros s s' O Hs Hl; [apply obo_nil in O; subst; exact Hs|].
  apply obo_cons in O. destruct O as (s1 & H1 & H2). apply (IH s1 s' H2); [|intros m' zs' r' Hi; exact (Hl m' zs' r' (or_intror Hi))].
  pose proof (Hl m zs r (or_introl eq_refl)) as Hz. destruct m as [| | |c' w']; cbn [sliding_call] in H1.
  - destruct H1 as (now & b & E & _ & ->). inversion Hz as [|? ? Hn _]; subst. unfold sw_acquire in E. destruct (sw_capacity s =? 0); [injection E as <- <-; exact Hs|].
    destruct (sw_len s <? sw_capacity s); [injection E as <- <-; cbn; apply Forall_app; auto|].
    destruct (sw_records s) as [|o rest] eqn:Er; [discriminate|]. inversion Hs; subst. destruct (sw_window s <? i64 (now - o)); injection E as <- <-; cbn; [apply Forall_app; auto|rewrite Er; constructor; assumption].
  - destruct H1 as (-> & _). exact Hs.
  - destruct H1 as (-> & _). exact Hs.
  - destruct H1 as (-> & _). unfold sw_update. cbn [sw_records].
    destruct (sw_drop_spec (if c' <? 0 then 0 else c') (sw_records s) ltac:(destruct (Z.ltb_spec c' 0); lia)) as (d & E & _). rewrite E in Hs. apply Forall_app in Hs. tauto.
Qed.
Lemma sliding_burst a l : forall s s' old new, one_by_one sliding_call s l s' -> sw_ok s -> sw_records s = old ++ new -> Forall (fun z => z <= a) old ->
  (forall c' w' zs r, ~ In (WUpdateConfig c' w', zs, r) l) -> (forall m zs r, In (m, zs, r) l -> Forall (fun z => readable z /\ a + sw_window s < z) zs) ->
  sw_capacity s = 0 \/ Z.of_nat (length new) + count (fun e => w_acquire (fst (fst e))) l <= sw_capacity s ->
  forall zs r, In (WAcquire, zs, r) l -> r = LBool true.
Proof.
  induction l as [|[[m zs] r] l IH]; intros s s' old new O Ok Er Ho Nu Hz L; [intros ? ? []|].
  apply obo_cons in O. destruct O as (s1 & H1 & H2).
  assert (Nu' : forall c' w' zs r, ~ In (WUpdateConfig c' w', zs, r) l) by (intros c' w' zs' r' Hi; exact (Nu c' w' zs' r' (or_intror Hi))).
  assert (Hz' : forall m zs r, In (m, zs, r) l -> Forall (fun z => readable z /\ a + sw_window s < z) zs) by (intros m' zs' r' Hi; exact (Hz m' zs' r' (or_intror Hi))).
  pose proof (Hz m zs r (or_introl eq_refl)) as Hzs. cbn [count fst] in L. destruct m as [| | |c' w']; cbn [sliding_call w_acquire] in *.
  - destruct H1 as (now & b & E & -> & ->). inversion Hzs as [|? ? [Rn Wn] _]; subst.
    destruct (sw_acquire_ok s now Ok Rn) as (s2 & b2 & E2 & Ok2 & C2 & W2). rewrite E in E2. injection E2 as <- <-.
    assert (G : b = true /\ (sw_capacity s = 0 \/ exists old', sw_records s1 = old' ++ (new ++ [now]) /\ Forall (fun z => z <= a) old')).
    { unfold sw_acquire in E. destruct (Z.eqb_spec (sw_capacity s) 0) as [|N0]; [injection E as <- <-; auto|].
      destruct (Z.ltb_spec (sw_len s) (sw_capacity s)) as [|Full].
      - injection E as <- <-. split; [reflexivity|right]. exists old. cbn. rewrite Er, app_assoc. auto.
      - pose proof (count_nonneg (fun e : swmethod * list Z * lresult => w_acquire (fst (fst e))) l) as Cn. unfold sw_len in Full. rewrite Er, app_length in Full.
        destruct old as [|o old]; [cbn [length plus Nat.add] in Full; destruct L; [congruence|lia]|].
        assert (Ro : readable o) by (destruct Ok as (_ & _ & Ok); rewrite Er in Ok; inversion Ok; assumption). unfold readable in *.
        inversion Ho; subst. rewrite Er in E. cbn [app] in E. rewrite i64_id in E by (unfold in64; lia).
        destruct (Z.ltb_spec (sw_window s) (now - o)); [|lia]. injection E as <- <-. split; [reflexivity|right]. exists old. cbn. rewrite app_assoc. auto. }
    destruct G as [-> G]. intros zs r [[= <- <-]|Hi]; [reflexivity|].
    destruct G as [G|(old' & E' & Ho')].
    + assert (s1 = s) by (unfold sw_acquire in E; rewrite (proj2 (Z.eqb_eq _ _) G) in E; congruence). subst s1.
      eapply (IH s s' old new H2 Ok Er Ho Nu' Hz' (or_introl G)). exact Hi.
    + eapply (IH s1 s' old' (new ++ [now]) H2 Ok2 E' Ho' Nu'); [rewrite W2; exact Hz'| |exact Hi]. rewrite C2. destruct L as [L|L]; [left; exact L|right]. rewrite app_length. cbn [length]. lia.
  - destruct H1 as (-> & _). intros zs' r' [[=]|Hi]. eapply (IH s s' old new); eauto.
  - destruct H1 as (-> & _). intros zs' r' [[=]|Hi]. eapply (IH s s' old new); eauto.
  - exfalso. exact (Nu c' w' zs r (or_introl eq_refl)).
Qed.

Lemma sliding_waited c0 w0 t0 n sched1 c sched2 cap win a : let step := mstep swfield_eq sw_body in let m1 := fst (sliding_exec c0 w0 t0 n sched1) in
  Forall readable (t0 :: ticks (sched1 ++ MTick c :: sched2)) -> (forall t, ~ in_call m1 t) -> settings m1 cap win -> no_update sched2 ->
  Forall (fun z => z <= a) (t0 :: ticks sched1) -> Forall (fun z => a + win < z) (c :: ticks sched2) ->
  cap = 0 \/ calls w_acquire sched2 <= cap ->
  none_refused w_acquire (snd (exec step m1 (MTick c :: sched2))).
Proof.
  intros step m1 Rd Id [Sc Sw] Nu Ha Hc L. set (s0 := sw_mem (new_sw c0 w0)).
  destruct (linv_exec swfield_eq sw_body (fun _ => false) true sw_writes sw_typed s0 t0 n sched1) as (tr & A & p & I). change (fst (mon_exec swfield_eq sw_body s0 t0 n sched1)) with m1 in I.
  set (e0 := snd (mon_exec swfield_eq sw_body s0 t0 n sched1)) in *.
  destruct (idle_waiting _ _ _ _ _ _ _ _ _ _ _ _ I Id) as [_ EA].
  destruct (after_tick swfield_eq sw_body (fun _ => false) true sw_writes sw_typed _ _ _ _ _ _ _ c sched2 I Id) as (y & A' & p' & Sn & Tk & Rc & Eo & O & _ & Cl).
  apply (none_refused_after _ y c w_acquire Sn Eo).
  rewrite ticks_app in Rd. cbn [MonitorSpec.ticks flat_map app] in Rd. fold (ticks sched2) in Rd.
  assert (Rd1 : Forall readable (t0 :: ticks sched1)) by (inversion Rd as [|? ? R0 R1]; subst; apply Forall_app in R1; constructor; tauto).
  assert (Rd2 : Forall readable (c :: ticks sched2)) by (inversion Rd as [|? ? R0 R1]; subst; apply Forall_app in R1; tauto).
  assert (Old : forall m zs r, In (m, zs, r) (effects tr) -> Forall (fun z => readable z /\ z <= a) zs).
  { intros m zs r Hi. apply Forall_forall. intros z Hz.
    pose proof (read_values t0 _ m zs r (each_once_linv _ _ _ _ _ _ _ _ _ _ _ _ I) (li_reads _ _ _ _ _ _ _ _ _ _ _ _ I) Hi z Hz) as Hin.
    rewrite (li_seen _ _ _ _ _ _ _ _ _ _ _ _ I) in Hin. unfold e0, mon_exec in Hin. rewrite times_ticks in Hin. rewrite Forall_forall in Rd1, Ha. split; [apply Rd1|apply Ha]; exact Hin. }
  assert (New : forall m zs r, In (m, zs, r) (effects y) -> Forall (fun z => readable z /\ a + win < z) zs).
  { intros m zs r Hi. apply Forall_forall. intros z Hz. pose proof (read_values c _ m zs r Eo Rc Hi z Hz) as Hin. rewrite Tk in Hin. rewrite Forall_forall in Rd2, Hc. split; [apply Rd2|apply Hc]; exact Hin. }
  pose proof (sw_obo _ _ _ _ (li_seq _ _ _ _ _ _ _ _ _ _ _ _ I)) as O0. rewrite EA in O0.
  assert (Sok : sw_ok (sliding_of (mo_mem m1))).
  { pose proof (sliding_run _ _ _ O0) as O1r. destruct (sw_run_ok (ops_of (effects tr)) (new_sw c0 w0) (sw_ok_new c0 w0)) as (s1 & cs & E & Hk).
    - apply ops_readable. intros m zs r Hi. eapply Forall_impl; [|exact (Old m zs r Hi)]. cbn. tauto.
    - rewrite O1r in E. injection E as <- _. exact Hk. }
  assert (Rec : Forall (fun z => z <= a) (sw_records (sliding_of (mo_mem m1)))).
  { apply (kept_records (fun z => z <= a) _ _ _ O0); [unfold new_sw; cbn; constructor|]. intros m zs r Hi. eapply Forall_impl; [|exact (Old m zs r Hi)]. cbn. tauto. }
  assert (O2 : one_by_one sliding_call (sliding_of (mo_mem m1)) (effects y) (sliding_of A')).
  { exact (proj2 (obo_map _ sliding_call sliding_of (fun s => 0 <= sw_capacity (sliding_of s)) (fun s m zs r s' Hi Hs => sliding_seq s m zs r s' Hi Hs) _ _ _ O (proj1 Sok))). }
  assert (Cc : sw_capacity (sliding_of (mo_mem m1)) = cap) by (unfold sliding_of; cbn; rewrite Sc; reflexivity).
  assert (Cw : sw_window (sliding_of (mo_mem m1)) = win) by (unfold sliding_of; cbn; rewrite Sw; reflexivity).
  intros m zs r HP Hi. destruct m as [| | |c' w']; try discriminate.
  eapply (sliding_burst a (effects y) _ _ (sw_records (sliding_of (mo_mem m1))) [] O2 Sok); [symmetry; apply app_nil_r|exact Rec| |rewrite Cw; exact New| |exact Hi].
  - intros c' w' zs' r' Hu. apply in_flat_map in Hu. destruct Hu as (x & Hx & Hu). destruct x as [e|t z|t m' zs2 r2]; try (destruct Hu; fail). destruct Hu as [[= -> -> ->]|[]].
    destruct (Eo t) as [s Hs]. pose proof (proj2 (taken_called t y s Hs) _ _ _ Hx) as Hcd.
    assert (Hcs : In (MCalled t (WUpdateConfig c' w')) (snd (exec step m1 (MTick c :: sched2)))) by (unfold step; rewrite Sn; right; exact Hcd).
    apply called_sched in Hcs. destruct Hcs as [Hcs|Hcs]; [discriminate|exact (Nu _ _ _ Hcs)].
  - rewrite Cc. destruct L as [L|L]; [left; exact L|right]. specialize (Cl w_acquire). cbn [length]. lia.
Qed.

(** ** Fixed window *)
Section fixed_burst.
  Variables c w low a b e : Z.
  Hypothesis Hc : 0 <= c < 2 ^ 63.
  Hypothesis Hw : 0 < w < 2 ^ 60.
  Hypothesis Hlow : 0 < low.
  Hypothesis Hb : b < 2 ^ 61.
  Hypothesis Hlb : b < low + 2 ^ 52.
  Hypothesis Hle : low <= e.

  Lemma fixed_burst l : forall k s s', one_by_one fixed_call s l s' -> s = new_fw c w /\ 0 <= k \/ settled c w low b s /\ 0 <= k /\ (fw_until s < e \/ fw_count s <= k) ->
    (forall m zs r, In (m, zs, r) l -> Forall (fun z => e <= z <= b) zs) -> k + count (fun x => f_acquire (fst (fst x))) l <= c ->
    forall zs r, In (FAcquire, zs, r) l -> r = LBool true.
  Proof.
    induction l as [|[[m zs] r] l IH]; intros k s s' O S Hz L; [intros ? ? []|].
    apply obo_cons in O. destruct O as (s1 & H1 & H2).
    assert (Hz' : forall m zs r, In (m, zs, r) l -> Forall (fun z => e <= z <= b) zs) by (intros m' zs' r' Hi; exact (Hz m' zs' r' (or_intror Hi))).
    pose proof (Hz m zs r (or_introl eq_refl)) as Hzs. cbn [count fst] in L. destruct m; cbn [fixed_call f_acquire] in *.
    - destruct H1 as (now & x & E & -> & ->). inversion Hzs as [|? ? Hn _]; subst.
      pose proof (count_nonneg (fun x : fwmethod * list Z * lresult => f_acquire (fst (fst x))) l) as Cn.
      assert (G : x = true /\ settled c w low b s1 /\ fw_count s1 <= k + 1 /\ 0 <= k).
      { destruct S as [[-> K]|(S & K & D)].
        - destruct (fresh_acquire c w low b Hc Hw Hlow Hb now ltac:(lia)) as (u & E' & S'). rewrite E' in E. injection E as <- <-.
          destruct (Z.ltb_spec 0 c); [|lia]. cbn [fw_count]. split; [reflexivity|]. split; [exact S'|]. lia.
        - destruct (settled_acquire c w low b Hc Hw Hlow Hb Hlb s now S ltac:(lia)) as [E' S']. rewrite E' in E. injection E as <- <-.
          assert (Hu : next_used s now <= k).
          { unfold next_used. destruct (Z.leb_spec now (fw_until s)); [|lia]. destruct D; lia. }
          destruct (Z.ltb_spec (next_used s now) c); [|lia]. cbn [fw_count]. split; [reflexivity|]. split; [exact S'|]. lia. }
      destruct G as (-> & S1 & K1 & K). intros zs r [[= <- <-]|Hi]; [reflexivity|].
      eapply (IH (k + 1) s1 s' H2); [right; split; [exact S1|split; [lia|right; lia]]|exact Hz'|lia|exact Hi].
    - destruct H1 as (-> & _). intros zs' r' [[=]|Hi]. exact (IH k s s' H2 S Hz' L zs' r' Hi).
    - destruct H1 as (-> & _). intros zs' r' [[=]|Hi]. exact (IH k s s' H2 S Hz' L zs' r' Hi).
  Qed.
End fixed_burst.

Lemma fixed_waited c w t0 n sched1 z sched2 low a b : let step := mstep fwfield_eq fw_body in let m1 := fst (fixed_exec c w t0 n sched1) in
  0 <= c < 2 ^ 63 -> 0 < w < 2 ^ 60 -> 0 < low -> b < low + 2 ^ 52 -> b < 2 ^ 61 ->
  Forall (fun x => low <= x <= a) (t0 :: ticks sched1) -> (forall t, ~ in_call m1 t) ->
  Forall (fun x => a + w + 2 ^ 11 <= x <= b) (z :: ticks sched2) -> calls f_acquire sched2 <= c ->
  none_refused f_acquire (snd (exec step m1 (MTick z :: sched2))).
Proof.
  intros step m1 Hc Hw Hl Hlb Hb Ra Id Rb L. set (s0 := fw_mem (new_fw c w)).
  destruct (linv_exec fwfield_eq fw_body fw_const true fw_writes fw_typed s0 t0 n sched1) as (tr & A & p & I). change (fst (mon_exec fwfield_eq fw_body s0 t0 n sched1)) with m1 in I.
  destruct (idle_waiting _ _ _ _ _ _ _ _ _ _ _ _ I Id) as [_ EA].
  destruct (after_tick fwfield_eq fw_body fw_const true fw_writes fw_typed _ _ _ _ _ _ _ z sched2 I Id) as (y & A' & p' & Sn & Tk & Rc & Eo & O & _ & Cl).
  apply (none_refused_after _ y z f_acquire Sn Eo).
  assert (Hla : low <= a) by (inversion Ra; lia). assert (Hab : a + w + 2 ^ 11 <= b) by (inversion Rb; lia).
  assert (Old : in_range low a (effects tr)).
  { intros m zs r Hi. apply Forall_forall. intros x Hx.
    pose proof (read_values t0 _ m zs r (each_once_linv _ _ _ _ _ _ _ _ _ _ _ _ I) (li_reads _ _ _ _ _ _ _ _ _ _ _ _ I) Hi x Hx) as Hin.
    rewrite (li_seen _ _ _ _ _ _ _ _ _ _ _ _ I) in Hin. unfold mon_exec in Hin. rewrite times_ticks in Hin. rewrite Forall_forall in Ra. apply Ra. exact Hin. }
  assert (New : forall m zs r, In (m, zs, r) (effects y) -> Forall (fun x => a + w + 2 ^ 11 <= x <= b) zs).
  { intros m zs r Hi. apply Forall_forall. intros x Hx. pose proof (read_values z _ m zs r Eo Rc Hi x Hx) as Hin. rewrite Tk in Hin. rewrite Forall_forall in Rb. apply Rb. exact Hin. }
  pose proof (proj2 (obo_map _ fixed_call fixed_of (fun _ => True) (fun s m zs r s' _ Hs => conj Logic.I (fixed_seq s m zs r s' Hs)) _ _ _ (li_seq _ _ _ _ _ _ _ _ _ _ _ _ I) Logic.I)) as O0.
  unfold s0 in O0. rewrite fixed_of_mem in O0.
  pose proof (proj2 (obo_map _ fixed_call fixed_of (fun _ => True) (fun s m zs r s' _ Hs => conj Logic.I (fixed_seq s m zs r s' Hs)) _ _ _ O Logic.I)) as O1. rewrite <- EA in O1.
  destruct (fresh_run c w low a a Hc Hw Hl ltac:(lia) ltac:(lia) ltac:(lia) (effects tr) _ Old O0) as (_ & _ & Fd).
  intros m zs r HP Hi. destruct m; try discriminate.
  apply (fixed_burst c w low b (a + w + 2 ^ 11) Hc Hw Hl Hb Hlb ltac:(lia) (effects y) 0 _ _ O1) with (zs := zs); [|exact New|specialize (Cl f_acquire); lia|exact Hi].
  destruct Fd as [->|(S1 & S2 & S3 & S4)]; [left; split; [reflexivity|lia]|right]. split; [|split; [lia|left; lia]]. unfold settled. repeat split; try assumption; lia.
Qed.
