(** The limiters and the circuit breaker used by several goroutines. *)
From Verif Require Import Common Threads Float64Model Float64Proofs TokenBucketModel TokenBucketSpec TokenBucketProofs FixedWindowModel FixedWindowSpec FixedWindowProofs
  SlidingWindowModel SlidingWindowSpec SlidingWindowProofs BreakerModel MonitorModel MonitorSpec MonitorProofs MonitorRuns LimiterConcModel LimiterConcSpec.

(** ** The discipline that the methods follow *)
Definition tb_const (f : tbfield) : bool := match f with TCapacity | TRate => true | TTokens | TLast => false end.
Definition tb_writes (m : tbmethod) : bool := match m with BAcquire => true | BCapacity => false end.
Definition fw_const (f : fwfield) : bool := match f with FCap | FWin => true | FUntil | FCount => false end.
Definition fw_writes (m : fwmethod) : bool := match m with FAcquire => true | FCapacity | FWindowSize => false end.
Definition sw_writes (m : swmethod) : bool := match m with WAcquire | WUpdateConfig _ _ => true | WCapacity | WWindowSize => false end.
Definition cb_const (f : cbfield) : bool := match f with CThreshold | CTimeout => true | CLast | CFailures => false end.
Definition cb_writes (m : cbmethod) : bool := match m with CRecordFailure | CReset => true | CState => false end.

Ltac ty1 := match goal with
  | |- ty _ _ _ _ (if ?b then _ else _) => destruct b
  | |- ty _ _ _ _ (let x := _ in _) => cbv zeta
  | |- ty _ _ _ _ (match ?l with [] => _ | _ :: _ => _ end) => destruct l
  | |- ty _ _ _ _ (CRet _) => apply ty_ret; auto
  | |- ty _ _ _ _ (CClock _) => apply ty_clock; [cbn; auto|intros ?]
  | |- ty _ _ _ _ (CGet _ _) => apply ty_get; [cbn; auto|intros ?]
  | |- ty _ _ _ _ (CSet _ _ _) => apply ty_set; [reflexivity|]
  | |- ty _ _ _ _ (CAnnounce _) => apply ty_announce; [reflexivity|]
  | |- ty _ _ _ _ (CAcquire _) => apply ty_acquire
  | |- ty _ _ _ _ (CUnlock _) => apply ty_unlock; [reflexivity|]
  | |- ty _ _ _ _ (CRLock _) => apply ty_rlock; [reflexivity|]
  | |- ty _ _ _ _ (CRUnlock _) => apply ty_runlock; [reflexivity|]
  end.

Lemma tb_typed m : ty tb_const false (tb_writes m) Before (tb_body m).
Proof. destruct m; cbn [tb_body tb_writes]; unfold CLock, tb_issue; repeat ty1. Qed.
Lemma fw_typed m : ty fw_const true (fw_writes m) Before (fw_body m).
Proof. destruct m; cbn [fw_body fw_writes]; unfold CLock, fw_reset_code; repeat ty1. Qed.
Lemma sw_loop_typed n c k : ty (fun _ => false) true true InW k -> forall l, ty (fun _ => false) true true InW (sw_loop n c l k).
Proof.
  intros Hk. induction n as [|n IH]; intros l; cbn [sw_loop]; unfold WRemoveFront, WList; repeat (ty1 || exact Hk || apply IH).
Qed.
Lemma sw_typed m : ty (fun _ => false) true (sw_writes m) Before (sw_body m).
Proof. destruct m; cbn [sw_body sw_writes]; unfold CLock, WRemoveFront, WPushBack, WList, WInt; repeat (ty1 || apply sw_loop_typed). Qed.
Lemma cb_typed m : ty cb_const true (cb_writes m) Before (cb_body m).
Proof. destruct m; cbn [cb_body cb_writes]; unfold CLock; repeat ty1. Qed.

(** ** A call that is alone *)
Definition bucket_of (s : mem tbfield Z) : sbucket := SBucket (s TCapacity) (s TTokens) (s TRate) (s TLast).
Lemma bucket_of_mem b : bucket_of (tb_mem b) = b. Proof. destruct b; reflexivity. Qed.
Definition fixed_of (s : mem fwfield Z) : fw := Fw (s FCap) (s FWin) (s FUntil) (s FCount).
Lemma fixed_of_mem b : fixed_of (fw_mem b) = b. Proof. destruct b; reflexivity. Qed.
Definition sliding_of (s : mem swfield swvalue) : sw := Sw (as_int (s WCap)) (as_int (s WWin)) (as_list (s WRecords)).
Lemma sliding_of_mem b : sliding_of (sw_mem b) = b. Proof. destruct b; reflexivity. Qed.
Definition circuit_of (s : mem cbfield Z) : circuit := Circuit (s CThreshold) (s CTimeout) (s CFailures) (s CLast).

Ltac alone_if := match goal with
  | |- context [alone _ (if ?b then _ else _) _ _] => destruct b eqn:?
  | |- context [if ?b then alone _ _ _ _ else _] => destruct b eqn:?
  end.

Lemma bucket_seq s m zs r s' : seq_call tbfield_eq tb_body s m zs r s' -> bucket_call (bucket_of s) m zs r (bucket_of s').
Proof.
  unfold seq_call. destruct m; cbn [tb_body bucket_call].
  - unfold tb_issue, CLock. cbn [alone]. destruct (s TCapacity <=? s TTokens) eqn:E1.
    + intros H. exists 0. cbn [alone] in H. unfold sync_acquire, sync_issue. cbn [bucket_of sb_capacity sb_tokens]. rewrite E1. cbn [bucket_of sb_tokens sb_capacity sb_rate sb_last].
      destruct (0 <? s TTokens) eqn:E2; cbn [alone] in H; injection H as <- <- ->; eexists; (split; [reflexivity|]); (split; [reflexivity|]); right; (split; [reflexivity|]); apply Z.leb_le; exact E1.
    + cbn [alone]. destruct zs as [|now zs]; [discriminate|]. intros H. exists now. unfold sync_acquire, sync_issue. cbn [bucket_of sb_capacity sb_tokens sb_last sb_rate]. rewrite E1.
      cbn [alone] in H. destruct (i64 (Z.quot (i64 (now - s TLast)) second * s TRate) =? 0) eqn:E2.
      * cbn [alone] in H. cbn [bucket_of sb_tokens sb_capacity sb_rate sb_last]. destruct (0 <? s TTokens); cbn [alone] in H; injection H as <- <- ->; eexists; (split; [reflexivity|]); (split; [reflexivity|]); left; reflexivity.
      * cbn [alone] in H. cbn [store_at tbfield_eq tbfield_rec tbfield_rect] in H. cbv zeta.
        change (store_at tbfield_eq s TTokens (i64 (s TTokens + i64 (Z.quot (i64 (now - s TLast)) second * s TRate))) TTokens) with (i64 (s TTokens + i64 (Z.quot (i64 (now - s TLast)) second * s TRate))) in H.
        change (store_at tbfield_eq s TTokens (i64 (s TTokens + i64 (Z.quot (i64 (now - s TLast)) second * s TRate))) TCapacity) with (s TCapacity) in H.
        destruct (s TCapacity <? i64 (s TTokens + i64 (Z.quot (i64 (now - s TLast)) second * s TRate))) eqn:E3; cbn [alone] in H; cbn [sb_tokens sb_capacity sb_rate sb_last];
        match type of H with context [0 <? ?x] => change x with (bucket_of (fun f => match f with TTokens => x | _ => 0 end)).(sb_tokens) in H; cbn [bucket_of sb_tokens] in H end.
        -- match type of H with context [0 <? ?x] => change x with (s TCapacity) in H end.
           destruct (0 <? s TCapacity); cbn [alone] in H; injection H as <- <- ->; eexists; (split; [reflexivity|]); (split; [reflexivity|]); left; reflexivity.
        -- match type of H with context [0 <? ?x] => change x with (i64 (s TTokens + i64 (Z.quot (i64 (now - s TLast)) second * s TRate))) in H end.
           destruct (0 <? i64 (s TTokens + i64 (Z.quot (i64 (now - s TLast)) second * s TRate))); cbn [alone] in H; injection H as <- <- ->; eexists; (split; [reflexivity|]); (split; [reflexivity|]); left; reflexivity.
  - cbn [alone]. intros [= <- <- ->]. auto.
Qed.

Lemma fixed_seq s m zs r s' : seq_call fwfield_eq fw_body s m zs r s' -> fixed_call (fixed_of s) m zs r (fixed_of s').
Proof.
  unfold seq_call. destruct m; cbn [fw_body fixed_call].
  - unfold CLock. cbn [alone]. destruct zs as [|now zs]; [discriminate|]. cbn [alone]. intros H. exists now.
    unfold fw_acquire, fw_contains, fw_reset, fw_contains. cbn [fixed_of fw_until]. destruct (now <=? s FUntil) eqn:E1; cbn [negb] in *.
    + cbn [alone] in H. cbn [fixed_of fw_count fw_capacity fw_window fw_until]. destruct (s FCount <? s FCap); cbn [alone] in H; injection H as <- <- ->; eexists; repeat split; reflexivity.
    + unfold fw_reset_code in H. cbn [alone] in H. rewrite E1 in H. cbn [alone] in H. cbv zeta. cbn [fixed_of fw_count fw_capacity fw_window fw_until].
      match type of H with context [?x <? ?y] => change x with 0 in H; change y with (s FCap) in H end.
      destruct (0 <? s FCap); cbn [alone] in H; injection H as <- <- ->; eexists; repeat split; reflexivity.
  - cbn [alone]. intros [= <- <- ->]. auto.
  - cbn [alone]. intros [= <- <- ->]. auto.
Qed.

Lemma sw_loop_seq n c k : forall s zs l, l = as_list (s WRecords) -> (length l <= n)%nat ->
  exists s1, alone swfield_eq (sw_loop n c l k) s zs = alone swfield_eq k s1 zs /\
    as_list (s1 WRecords) = sw_drop c (as_list (s WRecords)) /\ s1 WCap = s WCap /\ s1 WWin = s WWin.
Proof.
  induction n as [|n IH]; intros s zs l El Hn.
  - destruct l; [|cbn in Hn; lia]. exists s. cbn. rewrite <- El. auto.
  - cbn [sw_loop]. rewrite <- El. destruct l as [|x l].
    + exists s. cbn. rewrite <- El. auto.
    + replace (0 <? len (x :: l)) with true by (symmetry; apply Z.ltb_lt; unfold len; cbn [length]; lia). unfold WList, WRemoveFront. cbn [alone]. rewrite <- El.
      cbn [sw_drop]. unfold len at 1. destruct (c <? Z.of_nat (length (x :: l))); [|exists s; rewrite <- El; auto].
      cbn [alone]. unfold WList. cbn [alone]. rewrite <- El.
      set (s2 := store_at swfield_eq s WRecords (VList (tl (x :: l)))).
      destruct (IH s2 zs (as_list (s2 WRecords)) eq_refl) as (s1 & E1 & E2 & E3 & E4); [cbn; cbn in Hn; lia|].
      exists s1. split; [exact E1|]. rewrite E2, E3, E4. repeat split; reflexivity.
Qed.

Lemma sliding_seq s m zs r s' : 0 <= sw_capacity (sliding_of s) -> seq_call swfield_eq sw_body s m zs r s' ->
  0 <= sw_capacity (sliding_of s') /\ sliding_call (sliding_of s) m zs r (sliding_of s').
Proof.
  intros Inv. unfold seq_call. destruct m; cbn [sw_body sliding_call].
  - unfold CLock. cbn [alone]. destruct zs as [|now zs]; [discriminate|]. unfold WInt, WList. cbn [alone].
    intros H. cbn [sliding_of sw_capacity] in Inv.
    unfold sw_acquire. change (sw_len (sliding_of s)) with (len (as_list (s WRecords))). cbn [sliding_of sw_capacity sw_records sw_window].
    destruct (as_int (s WCap) =? 0) eqn:E1; [cbn [alone] in H; injection H as <- <- ->; split; [exact Inv|]; exists now; eexists; repeat split; reflexivity|].
    cbn [alone] in H. destruct (len (as_list (s WRecords)) <? as_int (s WCap)) eqn:E2.
    + unfold WPushBack, WList in H. cbn [alone] in H. injection H as <- <- ->. split; [exact Inv|]. exists now. eexists. repeat split; reflexivity.
    + cbn [alone] in H. destruct (as_list (s WRecords)) as [|oldest rest] eqn:El.
      * exfalso. cbn in E2. apply Z.ltb_ge in E2. apply Z.eqb_neq in E1. lia.
      * cbn [alone] in H. destruct (as_int (s WWin) <? i64 (now - oldest)) eqn:E3.
        -- unfold WRemoveFront, WPushBack, WList in H. cbn [alone] in H. injection H as <- <- ->. split; [exact Inv|]. exists now. eexists. split; [|split; reflexivity].
           cbn beta iota. rewrite E3. rewrite ?El. reflexivity.
        -- cbn [alone] in H. injection H as <- <- ->. split; [exact Inv|]. exists now. eexists. split; [|split; reflexivity]. cbn beta iota. rewrite E3. reflexivity.
  - unfold WInt. cbn [alone]. intros [= <- <- ->]. split; [exact Inv|]. repeat split; reflexivity.
  - unfold WInt. cbn [alone]. intros [= <- <- ->]. split; [exact Inv|]. repeat split; reflexivity.
  - unfold CLock, WList. cbn [alone]. set (c := if capacity <? 0 then 0 else capacity). intros H.
    destruct (sw_loop_seq (length (as_list (s WRecords))) c (CSet WCap (VInt c) (CSet WWin (VInt windowSize) (CUnlock (CRet LUnit)))) s zs _ eq_refl (le_n _)) as (s1 & E1 & E2 & _ & _).
    rewrite E1 in H. cbn [alone] in H. injection H as <- <- ->.
    assert (Es : sliding_of (store_at swfield_eq (store_at swfield_eq s1 WCap (VInt c)) WWin (VInt windowSize)) = sw_update (sliding_of s) capacity windowSize).
    { unfold sliding_of, sw_update. cbn. rewrite E2. reflexivity. }
    rewrite Es. split; [|repeat split; reflexivity]. cbn. fold c. unfold c. destruct (Z.ltb_spec capacity 0); lia.
Qed.

Lemma circuit_seq s m zs r s' : seq_call cbfield_eq cb_body s m zs r s' -> circuit_call (circuit_of s) m zs r (circuit_of s').
Proof.
  unfold seq_call. destruct m; cbn [cb_body circuit_call].
  - cbn [alone]. destruct zs as [|now zs]; [discriminate|]. cbn [alone]. cbn [circuit_of ci_failures ci_threshold ci_timeout ci_last].
    destruct (Z.leb_spec (s CThreshold) (s CFailures)) as [L|L].
    + cbn [alone]. destruct (Z.ltb_spec (s CFailures) (s CThreshold)); [lia|]. destruct (s CTimeout <? i64 (now - s CLast)) eqn:E3; cbn [alone]; intros [= <- <- ->]; exists now; (split; [reflexivity|]); (split; [reflexivity|]); rewrite E3; [reflexivity|]. f_equal. destruct (Z.leb_spec (s CThreshold) (s CFailures)); [reflexivity|lia].
    + cbn [alone]. intros [= <- <- ->]. exists now. split; [reflexivity|]. split; [reflexivity|]. destruct (Z.ltb_spec (s CFailures) (s CThreshold)); [|lia]. destruct (Z.leb_spec (s CThreshold) (s CFailures)); [lia|reflexivity].
  - unfold CLock. cbn [alone]. destruct zs as [|now zs]; [discriminate|]. cbn [alone]. intros [= <- <- ->]. exists now. repeat split; reflexivity.
  - unfold CLock. cbn [alone]. intros [= <- <- ->]. repeat split; reflexivity.
Qed.

(** ** Any object that follows the discipline *)
Section generic.
  Context {F V R M T : Type}.
  Variable feq : forall f g : F, {f = g} + {f <> g}.
  Variable body : M -> code F V R.
  Variable const : F -> bool.
  Variable early : bool.
  Variable writes : M -> bool.
  Hypothesis typed : forall m, ty const early (writes m) Before (body m).

  Lemma obj_no_races s0 t0 n sched : ~ race (fst (mon_exec feq body s0 t0 n sched)).
  Proof. destruct (linv_exec feq body const early writes typed s0 t0 n sched) as (tr & A & p & I). exact (no_race _ _ _ _ _ _ _ _ _ _ _ _ I). Qed.
  Lemma obj_no_deadlock s0 t0 n sched : let w := fst (mon_exec feq body s0 t0 n sched) in forall t, in_call w t -> exists u, mstep feq body w (MGo u) <> None.
  Proof.
    destruct (linv_exec feq body const early writes typed s0 t0 n sched) as (tr & A & p & I). intros w t Ht.
    destruct (can_move _ _ _ _ _ _ _ _ _ _ _ _ _ I Ht) as (u & _ & H). exists u. exact H.
  Qed.
  Lemma obj_calls_return s0 t0 n sched rest : (forall i, no_call (rest i)) -> fair n rest ->
    exists k, forall t, ~ in_call (fst (mon_exec feq body s0 t0 n (sched ++ first k rest))) t.
  Proof.
    intros NC Fr. destruct (linv_exec feq body const early writes typed s0 t0 n sched) as (tr & A & p & I).
    assert (L : length (mo_threads (fst (mon_exec feq body s0 t0 n sched))) = n).
    { unfold mon_exec. clear -M. assert (G : forall w, length (mo_threads (fst (exec (mstep feq body) w sched))) = length (mo_threads w)).
      { induction sched as [|l sched IH]; intros w; [reflexivity|]. cbn [exec]. destruct (mstep feq body w l) as [[w' es]|] eqn:E; [|apply IH].
        specialize (IH w'). destruct (exec (mstep feq body) w' sched). cbn [fst] in *. rewrite IH. exact (step_length _ _ _ _ _ _ E). }
      rewrite G. apply repeat_length. }
    destruct (calls_return feq body const early writes typed _ _ _ _ _ _ _ rest I NC) as [k Hk]; [rewrite L; exact Fr|].
    exists k. unfold mon_exec in *. rewrite exec_app. unfold after in Hk. destruct (exec (mstep feq body) (mon0 s0 t0 n) sched) as [w1 e1]. cbn [fst] in Hk.
    destruct (exec (mstep feq body) w1 (first k rest)) as [w2 e2]. exact Hk.
  Qed.
  Lemma obj_as_if_alone (abs : mem F V -> T) (Inv : mem F V -> Prop) (one : T -> M -> list Z -> R -> T -> Prop) s0 t0 n sched :
    (forall s m zs r s', Inv s -> seq_call feq body s m zs r s' -> Inv s' /\ one (abs s) m zs r (abs s')) -> Inv s0 ->
    as_if_alone one (abs s0) t0 (snd (mon_exec feq body s0 t0 n sched)).
  Proof.
    intros Hone Hi. destruct (linv_exec feq body const early writes typed s0 t0 n sched) as (tr & A & p & I).
    exists tr, (abs A). split; [exact (li_seen _ _ _ _ _ _ _ _ _ _ _ _ I)|]. split; [exact (each_once_linv _ _ _ _ _ _ _ _ _ _ _ _ I)|].
    split; [exact (li_reads _ _ _ _ _ _ _ _ _ _ _ _ I)|]. exact (proj2 (obo_map _ one abs Inv Hone _ _ _ (li_seq _ _ _ _ _ _ _ _ _ _ _ _ I) Hi)).
  Qed.
End generic.

Lemma bucket_alone capacity rate t0 n sched : as_if_alone bucket_call (new_sync_bucket capacity rate t0) t0 (snd (bucket_exec capacity rate t0 n sched)).
Proof.
  unfold bucket_exec. rewrite <- (bucket_of_mem (new_sync_bucket capacity rate t0)) at 1.
  apply (obj_as_if_alone _ _ _ _ _ tb_typed bucket_of (fun _ => True)); [|exact Logic.I]. intros s m zs r s' _ H. split; [exact Logic.I|]. apply bucket_seq. exact H.
Qed.
Lemma fixed_alone capacity windowSize t0 n sched : as_if_alone fixed_call (new_fw capacity windowSize) t0 (snd (fixed_exec capacity windowSize t0 n sched)).
Proof.
  unfold fixed_exec. rewrite <- (fixed_of_mem (new_fw capacity windowSize)) at 1.
  apply (obj_as_if_alone _ _ _ _ _ fw_typed fixed_of (fun _ => True)); [|exact Logic.I]. intros s m zs r s' _ H. split; [exact Logic.I|]. apply fixed_seq. exact H.
Qed.
Lemma new_sw_cap capacity windowSize : 0 <= sw_capacity (sliding_of (sw_mem (new_sw capacity windowSize))).
Proof. cbn. destruct (Z.ltb_spec capacity 0); lia. Qed.
Lemma sliding_alone capacity windowSize t0 n sched : as_if_alone sliding_call (new_sw capacity windowSize) t0 (snd (sliding_exec capacity windowSize t0 n sched)).
Proof.
  unfold sliding_exec. rewrite <- (sliding_of_mem (new_sw capacity windowSize)) at 1.
  apply (obj_as_if_alone _ _ _ _ _ sw_typed sliding_of (fun s => 0 <= sw_capacity (sliding_of s))); [|apply new_sw_cap]. intros s m zs r s' Hi H. apply sliding_seq; assumption.
Qed.
Lemma circuit_alone threshold timeout t0 n sched : as_if_alone circuit_call (Circuit threshold timeout 0 0) t0 (snd (circuit_exec threshold timeout t0 n sched)).
Proof.
  unfold circuit_exec. change (Circuit threshold timeout 0 0) with (circuit_of (cb_mem threshold 0 0 timeout)).
  apply (obj_as_if_alone _ _ _ _ _ cb_typed circuit_of (fun _ => True)); [|exact Logic.I]. intros s m zs r s' _ H. split; [exact Logic.I|]. apply circuit_seq. exact H.
Qed.

(** ** A history that is not as if alone *)
Lemma two_tokens_not_alone : ~ as_if_alone bucket_call (new_sync_bucket 1 0 5) 5
  [MCalled 0 BAcquire; MCalled 1 BAcquire; MReturned 0 BAcquire (LBool true); MReturned 1 BAcquire (LBool true)].
Proof.
  intros (tr & s' & Sn & Eo & Rc & Ob).
  assert (Run : forall l b b', one_by_one bucket_call b l b' -> sb_capacity b = 1 -> sb_rate b = 0 -> 0 <= sb_tokens b <= 1 ->
    count (fun e => match snd e with LBool true => true | _ => false end) l <= sb_tokens b).
  { induction l as [|[[m zs] r] l IH]; intros b b' H E1 E2 E3; [cbn; lia|]. apply obo_cons in H. destruct H as (b1 & H1 & H2). cbn [count snd]. destruct m; cbn [bucket_call] in H1.
    - destruct H1 as (now & x & E & -> & _).
      assert (Is : sync_issue b now = b).
      { unfold sync_issue. destruct (sb_capacity b <=? sb_tokens b); [reflexivity|]. rewrite E2, Z.mul_0_r. reflexivity. }
      unfold sync_acquire in E. rewrite Is in E. destruct (Z.ltb_spec 0 (sb_tokens b)).
      + injection E as <- <-. specialize (IH _ _ H2). cbn [sb_capacity sb_rate sb_tokens] in IH. rewrite i64_id in IH by (unfold in64; lia). specialize (IH E1 E2 ltac:(lia)). lia.
      + injection E as <- <-. specialize (IH _ _ H2 E1 E2 E3). lia.
    - destruct H1 as (-> & _ & ->). specialize (IH _ _ H2 E1 E2 E3). lia. }
  specialize (Run _ _ _ Ob eq_refl eq_refl ltac:(cbn; lia)). cbn [new_sync_bucket sb_tokens] in Run.
  pose proof (finished_count (fun c => match snd c with LBool true => true | _ => false end) (fun _ => true) tr (fun _ => Waiting) [] 5 Eo (NoDup_nil _)) as Fc.
  rewrite Sn in Fc. cbn [count] in Fc. rewrite Z.add_0_r in Fc.
  assert (Two : count (fun c : tbmethod * lresult => match snd c with LBool true => true | _ => false end)
    (finished_from [] [MCalled 0 BAcquire; MCalled 1 BAcquire; MReturned 0 BAcquire (LBool true); MReturned 1 BAcquire (LBool true)]) = 2) by (vm_compute; reflexivity).
  rewrite Two in Fc.
  assert (Le : count (fun e : tbmethod * list Z * lresult => match snd (fst (fst e), snd e) with LBool true => true | _ => false end && forallb (fun _ => true) (snd (fst e))) (effects tr) <=
    count (fun e => match snd e with LBool true => true | _ => false end) (effects tr)) by (apply count_le; intros e _ H; apply andb_prop in H; exact (proj1 H)).
  cbn [snd fst] in *. enough (2 <= 1) by lia. eapply Z.le_trans; [|exact Run]. eapply Z.le_trans; [|exact Le]. apply Fc; auto.
Qed.

(** For the examples. *)
Lemma in_call_check {F V R M} (w : mon F V R M) t : match nth_error (mo_threads w) t with Some (Some _) => true | _ => false end = true -> in_call w t.
Proof. unfold in_call. destruct (nth_error (mo_threads w) t) as [[x|]|]; try discriminate. intros _. exists x. reflexivity. Qed.
Lemma some_check {A} (o : option A) : match o with Some _ => true | None => false end = true -> o <> None.
Proof. destruct o; discriminate. Qed.
Lemma none_check {A} (o : option A) : match o with Some _ => true | None => false end = false -> o = None.
Proof. destruct o; [discriminate|reflexivity]. Qed.
