(** Proofs about the event bus with a waiting writer. *)
From Verif Require Import Common Bytes Threads BusModel BusSpec BusProofs BusTrace BusLive BusLockModel BusLockSpec.
Local Open Scope list_scope.
Local Open Scope Z_scope.

(** ** Every execution is one of the bus without queueing *)

Lemma lstep_sim s l s1 es : lstep s l = Some (s1, es) ->
  (k_bus s1 = k_bus s /\ es = [] /\ exists i d c, l = LClient i d /\ k_writer s = None /\ k_writer s1 = Some i /\
     nth_error (b_clients (k_bus s)) i = Some c /\ needs_lock c = true /\ b_stuck (k_bus s) = false) \/
  (bstep (k_bus s) l = Some (k_bus s1, es) /\
   (k_writer s1 = k_writer s /\ (forall i d c, l = LClient i d -> nth_error (b_clients (k_bus s)) i = Some c -> needs_lock c = false) \/
    exists i d c, l = LClient i d /\ k_writer s = Some i /\ k_writer s1 = None /\ nth_error (b_clients (k_bus s)) i = Some c /\ needs_lock c = true)).
Proof.
  assert (K : forall r, keep s r = Some (s1, es) -> r = Some (k_bus s1, es) /\ k_writer s1 = k_writer s).
  { intros [[b e]|] E; [|discriminate]. cbn in E. injection E as <- <-. auto. }
  destruct l as [i o|i d|i|d k i]; cbn [lstep].
  - intros E. apply K in E. destruct E as (E & W). right. split; [exact E|]. left. split; [exact W|]. discriminate.
  - destruct (nth_error (b_clients (k_bus s)) i) as [c|] eqn:Ei; [|discriminate].
    destruct (needs_lock c) eqn:En.
    + destruct (k_writer s) as [j|] eqn:Ew.
      * destruct (Nat.eqb_spec j i) as [->|]; [|discriminate]. destruct (bstep (k_bus s) (LClient i d)) as [[b e]|] eqn:Eb; [|discriminate].
        intros [= <- <-]. right. split; [reflexivity|]. right. exists i, d, c. auto.
      * destruct (b_stuck (k_bus s)) eqn:Es; [discriminate|]. intros [= <- <-]. left. cbn. split; [reflexivity|]. split; [reflexivity|].
        exists i, d, c. repeat split; auto.
    + intros E. apply K in E. destruct E as (E & W). right. split; [exact E|]. left. split; [exact W|].
      intros i' d' c' [= <- <-] H. congruence.
  - intros E. apply K in E. destruct E as (E & W). right. split; [exact E|]. left. split; [exact W|]. discriminate.
  - intros E.
    assert (E' : keep s (bstep (k_bus s) (LDisp d k i)) = Some (s1, es)).
    { destruct (nth_error (b_disp (k_bus s)) d) as [[]|]; try exact E. destruct (k_writer s); [discriminate|exact E]. }
    apply K in E'. destruct E' as (E' & W). right. split; [exact E'|]. left. split; [exact W|]. discriminate.
Qed.

(** The labels that do more than make a goroutine the waiting writer. *)
Fixpoint visible (s : lbus) (sched : list blabel) : list blabel :=
  match sched with
  | [] => []
  | l :: sched' =>
    match lstep s l with
    | None => visible s sched'
    | Some (s1, _) =>
      match k_writer s, k_writer s1 with
      | None, Some _ => visible s1 sched'
      | _, _ => l :: visible s1 sched'
      end
    end
  end.

Lemma visible_exec sched : forall s, exec bstep (k_bus s) (visible s sched) = (k_bus (fst (exec lstep s sched)), snd (exec lstep s sched)).
Proof.
  induction sched as [|l sched IH]; intros s; [reflexivity|]. cbn [visible exec].
  destruct (lstep s l) as [[s1 es]|] eqn:E; [|apply IH].
  destruct (exec lstep s1 sched) as [s2 es2] eqn:E2. cbn [fst snd].
  destruct (lstep_sim s l s1 es E) as [(Eb & -> & i & d & c & -> & W & W1 & _)|(Eb & H)].
  - rewrite W, W1. rewrite <- Eb, IH, E2. reflexivity.
  - assert (X : exec bstep (k_bus s) (l :: visible s1 sched) = (k_bus s2, es ++ es2)).
    { rewrite (exec_cons _ _ _ _ _ Eb), IH, E2. reflexivity. }
    destruct H as [(W & _)|(i & d & c & _ & W & W1 & _)].
    + rewrite W. destruct (k_writer s); exact X.
    + rewrite W. exact X.
Qed.

Lemma lock_refines cap n sched : exists sched', incl sched' sched /\
  bus_exec cap n sched' = (k_bus (fst (lbus_exec cap n sched)), snd (lbus_exec cap n sched)).
Proof.
  exists (visible (new_lbus cap n) sched). split; [|exact (visible_exec sched (new_lbus cap n))].
  generalize (new_lbus cap n). induction sched as [|l sched IH]; intros s; cbn [visible]; [apply incl_refl|].
  destruct (lstep s l) as [[s1 es]|]; [|apply incl_tl, IH].
  destruct (k_writer s), (k_writer s1); try (apply incl_tl, IH); (intros x [<-|Hx]; [left; reflexivity|right; apply (IH s1 x Hx)]).
Qed.

(** ** Invariants *)

Lemma upd_at {A} i j (x y : A) l : nth_error l j = Some y -> (i = j -> False) -> nth_error (upd i x l) j = Some y.
Proof. intros H Hn. rewrite nth_error_upd_other; [exact H|]. intros E. exact (Hn E). Qed.

(** A step changes a goroutine that needs the lock only if it is its own; other steps do not lock. *)
Lemma bstep_others s l s1 es i c : bstep s l = Some (s1, es) -> nth_error (b_clients s) i = Some c -> needs_lock c = true ->
  (forall d, l <> LClient i d) -> nth_error (b_clients s1) i = Some c.
Proof.
  intros E Hi Hn Hl.
  assert (U : forall j cj x, nth_error (b_clients s) j = Some cj -> needs_lock cj = false -> nth_error (upd j x (b_clients s)) i = Some c).
  { intros j cj x Hj Hf. apply upd_at; [exact Hi|]. intros ->. congruence. }
  destruct l as [j o|j d|j|d k j]; cbn [bstep] in E.
  - destruct (nth_error (b_clients s) j) as [[]|] eqn:Ej; try discriminate.
    destruct (call s j o) as [[s' es']|] eqn:Ec; [|discriminate]. injection E as <- <-.
    destruct o; cbn [call] in Ec;
      repeat match type of Ec with (if ?b then _ else _) = _ => destruct b | match ?x with _ => _ end = _ => destruct x end;
      try discriminate; injection Ec as <- <-; cbn [set_client b_clients]; try exact Hi; apply (U j CIdle _ Ej eq_refl).
  - assert (Hne : j <> i) by (intros ->; apply (Hl d); reflexivity).
    destruct (nth_error (b_clients s) j) as [cj|] eqn:Ej; [|discriminate].
    assert (V : forall x l, nth_error l i = Some c -> nth_error (upd j x l) i = Some c) by (intros x l H; rewrite nth_error_upd_other by exact Hne; exact H).
    assert (T : forall r ov s' e', take s r d = Some (ov, s', e') -> b_clients s' = b_clients s).
    { intros r ov s' e' Ht. destruct (take_spec _ _ _ _ _ _ Ht) as (x & _ & [(v & rest & _ & _ & -> & _)|[(_ & _ & _ & -> & _)|(v & todo & _ & _ & _ & H)]]); try reflexivity.
      destruct H as (_ & -> & _). reflexivity. }
    destruct cj; cbn [client_step] in E; try discriminate.
    + destruct (b_closed s); [injection E as <- <-; apply V, Hi|]. destruct (Z.of_nat (length (b_buf s)) <? b_cap s); [injection E as <- <-; apply V, Hi|].
      destruct (b_buf s); [|discriminate]. destruct (nth_error (b_disp s) d) as [[]|]; try discriminate. injection E as <- <-. apply V, Hi.
    + destruct (lockable s); [|discriminate]. injection E as <- <-. apply V, Hi.
    + destruct (lockable s); [|discriminate]. unfold deregister in E. destruct (nth_error (b_recvs s) r); [|discriminate].
      destruct (lookup (b_map s) (r_name r0)) as [r'|]; [|injection E as <- <-; apply V, Hi].
      destruct (nth_error (b_recvs s) r') as [x|]; [|discriminate]. destruct (r_closed x); injection E as <- <-; apply V, Hi.
    + destruct (lockable s); [|discriminate]. unfold bus_close_crit in E. destruct (existsb (is_closed s) (map snd (b_map s))); injection E as <- <-; apply V, Hi.
    + destruct (take s r d) as [[[ov s'] e']|] eqn:Et.
      * injection E as <- <-. apply V. rewrite (T _ _ _ _ Et). exact Hi.
      * destruct (existsb (fun p => blocked_on p r) (b_disp s) || parked); [discriminate|]. injection E as <- <-. apply V, Hi.
    + destruct (take s r d) as [[[[v|] s'] e']|] eqn:Et.
      * injection E as <- <-. apply V. rewrite (T _ _ _ _ Et). exact Hi.
      * injection E as <- <-. apply V. rewrite (T _ _ _ _ Et). exact Hi.
      * destruct (existsb (fun p => blocked_on p r) (b_disp s)); [discriminate|]. injection E as <- <-. apply V, Hi.
    + destruct (take s r d) as [[[ov s'] e']|] eqn:Et.
      * injection E as <- <-. apply V. rewrite (T _ _ _ _ Et). exact Hi.
      * destruct (existsb (fun p => blocked_on p r) (b_disp s) || parked); [discriminate|]. injection E as <- <-. apply V, Hi.
  - destruct (nth_error (b_clients s) j) as [[]|] eqn:Ej; try discriminate. injection E as <- <-. apply (U j _ _ Ej eq_refl).
  - destruct (nth_error (b_disp s) d) as [p|]; [|discriminate].
    assert (O : forall v r todo again, offer s d v r todo j again = Some (s1, es) -> nth_error (b_clients s1) i = Some c).
    { intros v r todo again H. unfold offer in H. destruct (nth_error (b_recvs s) r) as [x|]; [|discriminate].
      destruct ((r_strategy x =? Drop) || (r_strategy x =? Block)); [|injection H as <- <-; exact Hi].
      destruct (r_closed x); [injection H as <- <-; exact Hi|].
      destruct (existsb (fun c0 => parked_on c0 r) (b_clients s)).
      - destruct (nth_error (b_clients s) j) as [cj|] eqn:Ej; [|discriminate]. destruct (parked_on cj r) eqn:Ep; [|discriminate].
        injection H as <- <-. cbn [set_disp set_client b_clients]. apply (U j cj _ Ej). destruct cj; try reflexivity; discriminate Ep.
      - destruct (Z.of_nat (length (r_buf x)) <? r_cap x); [injection H as <- <-; exact Hi|].
        destruct (r_strategy x =? Drop); [injection H as <- <-; exact Hi|]. destruct again; [discriminate|]. injection H as <- <-. exact Hi. }
    destruct p as [|v|v [|r0 todo]|v r todo| |]; cbn [disp_step] in E; try discriminate.
    + destruct (b_buf s) as [|v rest]; [|injection E as <- <-; exact Hi]. destruct (b_closed s); [|discriminate]. injection E as <- <-. exact Hi.
    + destruct (b_stuck s); [discriminate|]. injection E as <- <-. exact Hi.
    + injection E as <- <-. exact Hi.
    + destruct (nth_error (r0 :: todo) k) as [r|]; [|discriminate]. apply (O _ _ _ _ E).
    + apply (O _ _ _ _ E).
Qed.

(** Only a goroutine that needs the lock leaves it locked. *)
Lemma bstep_stuck s l s1 es : binv s -> bstep s l = Some (s1, es) ->
  (forall i d c, l = LClient i d -> nth_error (b_clients s) i = Some c -> needs_lock c = false) -> b_stuck s1 = b_stuck s.
Proof.
  intros HB E Hl. pose proof (bstep_trans s l s1 es (i_refs s HB) E) as HT.
  assert (X : forall i c, nth_error (b_clients s) i = Some c -> needs_lock c = true -> nth_error (b_clients s1) i = Some CDead -> False).
  { intros i c Hi Hn Hd. pose proof (bstep_others s l s1 es i c E Hi Hn) as Hk. rewrite Hd in Hk.
    assert (Hx : forall d, l <> LClient i d) by (intros d ->; rewrite (Hl i d c eq_refl Hi) in Hn; discriminate).
    specialize (Hk Hx). injection Hk as <-. discriminate. }
  destruct HT; try reflexivity; exfalso; refine (X i _ H eq_refl _); cbn [set_stuck set_client b_clients]; apply (nth_error_upd_same _ _ _ _ H).
Qed.

Lemma dispatching_app d a b : dispatching d (a ++ b) = fold_left (fun b e => match e with
    | EBegin d' v _ => if Nat.eqb d' d then Some v else b
    | EFinish d' _ => if Nat.eqb d' d then None else b
    | _ => b
    end) b (dispatching d a).
Proof. unfold dispatching. rewrite fold_left_app. reflexivity. Qed.

Definition in_loop (o : option dpc) : option Z := match o with Some (DIter v _) | Some (DBlocked v _ _) => Some v | _ => None end.

Record dinv' (s : bus) (tr : list bevent) : Prop := DInv' {
  d_alive : forall d p, nth_error (b_disp s) d = Some p -> p <> DDead;
  d_ended : forall d, In (EEnd d) tr <-> nth_error (b_disp s) d = Some DDone;
  d_disp : forall d, dispatching d tr = in_loop (nth_error (b_disp s) d) }.

Lemma dinv_same s s1 tr es : dinv' s tr -> b_disp s1 = b_disp s -> (forall d, ~ In (EEnd d) es) ->
  (forall d, dispatching d (tr ++ es) = dispatching d tr) -> dinv' s1 (tr ++ es).
Proof.
  intros [A B C] E He Hd. constructor.
  - rewrite E. exact A.
  - intros d. rewrite E, in_app_iff, B. split; [|auto]. intros [H|H]; [exact H|]. destruct (He d H).
  - intros d. rewrite E, Hd. apply C.
Qed.

Lemma dinv_upd s s1 tr es d p0 p : dinv' s tr -> nth_error (b_disp s) d = Some p0 -> b_disp s1 = upd d p (b_disp s) -> p <> DDead ->
  (forall d', In (EEnd d') es <-> d' = d /\ p = DDone) -> p0 <> DDone ->
  (forall d', d <> d' -> dispatching d' (tr ++ es) = dispatching d' tr) -> dispatching d (tr ++ es) = in_loop (Some p) -> dinv' s1 (tr ++ es).
Proof.
  intros [A B C] Hd E Hp He H0 Ho Hn. constructor.
  - intros d' p'. rewrite E. intros H. destruct (nth_error_upd_Some _ _ _ _ _ H) as [(<- & -> & _)|(_ & H')]; [exact Hp|apply (A _ _ H')].
  - intros d'. rewrite E, in_app_iff, B, He. destruct (Nat.eq_dec d d') as [<-|Hne].
    + rewrite (nth_error_upd_same _ _ _ _ Hd), Hd. split; [intros [H|(_ & ->)]; congruence|]. intros [= ->]. auto.
    + rewrite nth_error_upd_other by exact Hne. split; [|auto]. intros [H|(H & _)]; congruence.
  - intros d'. rewrite E. destruct (Nat.eq_dec d d') as [<-|Hne].
    + rewrite (nth_error_upd_same _ _ _ _ Hd). exact Hn.
    + rewrite nth_error_upd_other, Ho by exact Hne. apply C.
Qed.

Ltac notin := let H := fresh in intros ? H; cbn in H; intuition discriminate.
Ltac ends := let H := fresh in intros ?; split; [intros H; cbn in H; intuition (try discriminate)|intros (_ & [=])].

Lemma offers_loop p v r todo : offers p v r todo -> in_loop (Some p) = Some v /\ p <> DDone.
Proof. intros []; split; try reflexivity; discriminate. Qed.

Lemma dinv_trans' s tr s1 es : binv s -> dinv' s tr -> trans s s1 es -> dinv' s1 (tr ++ es).
Proof.
  intros HB HJ HT. pose proof (d_disp _ _ HJ) as Old.
  destruct HT; try (apply (dinv_same s); [exact HJ|reflexivity|notin|intros d'; rewrite dispatching_app; reflexivity]).
  - (* go *)
    assert (Hg : forall d, nth_error (b_disp s ++ [DRecv]) d = nth_error (b_disp s) d \/
       nth_error (b_disp s ++ [DRecv]) d = Some DRecv /\ nth_error (b_disp s) d = None).
    { intros d. destruct (Nat.lt_trichotomy d (length (b_disp s))) as [Hlt|[->|Hgt]].
      - left. apply nth_error_app1. exact Hlt.
      - right. rewrite nth_error_app2, Nat.sub_diag by lia. split; [reflexivity|]. apply nth_error_None. lia.
      - left. rewrite (proj2 (nth_error_None (b_disp s) d)) by lia. apply nth_error_None. rewrite app_length. cbn. lia. }
    destruct HJ as [A B C]. constructor; cbn [b_disp].
    + intros d p Hp. destruct (Hg d) as [E|(E & _)]; rewrite E in Hp; [apply (A _ _ Hp)|injection Hp as <-; discriminate].
    + intros d. rewrite in_app_iff, B. destruct (Hg d) as [-> |(-> & ->)]; cbn; intuition discriminate.
    + intros d. rewrite dispatching_app. cbn. rewrite C. destruct (Hg d) as [-> |(-> & ->)]; reflexivity.
  - eapply (dinv_upd s _ tr _ d _ _ HJ H2); [reflexivity|discriminate|ends|discriminate|intros d' _; rewrite dispatching_app; reflexivity|].
    rewrite dispatching_app. cbn. rewrite Old, H2. reflexivity.
  - apply (dinv_same s); [exact HJ|reflexivity| |].
    + intros d Hin. apply in_app_iff in Hin. destruct Hin as [Hin|[Hin|[]]]; [|discriminate]. apply in_map_iff in Hin. destruct Hin as (? & [=] & _).
    + intros d. rewrite dispatching_app. generalize (map snd (b_map s)). intros rs. induction rs as [|r rs IH]; [reflexivity|exact IH].
  - eapply (dinv_upd s _ tr _ d _ _ HJ H3); [reflexivity|discriminate|ends|discriminate|intros d' _; rewrite dispatching_app; reflexivity|].
    rewrite dispatching_app. cbn. rewrite Old, H3. reflexivity.
  - eapply (dinv_upd s _ tr _ d _ _ HJ H); [reflexivity|discriminate|ends|discriminate|intros d' _; rewrite dispatching_app; reflexivity|].
    rewrite dispatching_app. cbn. rewrite Old, H. reflexivity.
  - eapply (dinv_upd s _ tr _ d _ _ HJ H); [reflexivity|discriminate| |discriminate|intros d' _; rewrite dispatching_app; reflexivity|].
    + intros d'. split; [intros [[= ->]|[]]; auto|]. intros (-> & _). left. reflexivity.
    + rewrite dispatching_app. cbn. rewrite Old, H. reflexivity.
  - eapply (dinv_upd s _ tr _ d _ _ HJ H); [reflexivity|discriminate|ends|discriminate| |].
    + intros d' Hne. rewrite dispatching_app. cbn. rewrite (proj2 (Nat.eqb_neq _ _) Hne). reflexivity.
    + rewrite dispatching_app. cbn. rewrite Nat.eqb_refl. reflexivity.
  - eapply (dinv_upd s _ tr _ d _ _ HJ H); [reflexivity|discriminate|ends|discriminate| |].
    + intros d' Hne. rewrite dispatching_app. cbn. rewrite (proj2 (Nat.eqb_neq _ _) Hne). reflexivity.
    + rewrite dispatching_app. cbn. rewrite Nat.eqb_refl. reflexivity.
  - exfalso. destruct (offers_ok s _ _ _ _ _ HB H H0) as (_ & _ & x' & name & A & _ & B). congruence.
  - destruct (offers_loop _ _ _ _ H0) as (L1 & L2).
    eapply (dinv_upd s _ tr _ d _ _ HJ H); [reflexivity|discriminate|ends|exact L2|intros d' _; rewrite dispatching_app; reflexivity|].
    rewrite dispatching_app. cbn. rewrite Old, H. exact L1.
  - destruct (offers_loop _ _ _ _ H0) as (L1 & L2).
    eapply (dinv_upd s _ tr _ d _ _ HJ H); [reflexivity|discriminate|ends|exact L2|intros d' _; rewrite dispatching_app; reflexivity|].
    rewrite dispatching_app. cbn. rewrite Old, H. exact L1.
  - destruct (offers_loop _ _ _ _ H0) as (L1 & L2).
    eapply (dinv_upd s _ tr _ d _ _ HJ H); [reflexivity|discriminate|ends|exact L2|intros d' _; rewrite dispatching_app; reflexivity|].
    rewrite dispatching_app. cbn. rewrite Old, H. exact L1.
  - eapply (dinv_upd s _ tr _ d _ _ HJ H); [reflexivity|discriminate|ends|discriminate|intros d' _; rewrite dispatching_app; reflexivity|].
    rewrite dispatching_app. cbn. rewrite Old, H. reflexivity.
  - destruct (offers_loop _ _ _ _ H0) as (L1 & L2).
    eapply (dinv_upd s _ tr _ d _ _ HJ H); [reflexivity|discriminate|ends|exact L2|intros d' _; rewrite dispatching_app; reflexivity|].
    rewrite dispatching_app. cbn. rewrite Old, H. exact L1.
Qed.

Lemma dinv_exec cap n sched : dinv' (fst (bus_exec cap n sched)) (snd (bus_exec cap n sched)).
Proof.
  apply (bus_inv dinv' cap n).
  - constructor; cbn [new_bus b_disp].
    + intros [|d] p H; discriminate.
    + intros d. split; [intros []|]. destruct d; discriminate.
    + intros [|d]; reflexivity.
  - intros s tr s1 es HB HJ HT _. exact (dinv_trans' s tr s1 es HB HJ HT).
Qed.

Definition writer_ok (s : lbus) : Prop := forall i, k_writer s = Some i -> b_stuck (k_bus s) = false /\
  exists c, nth_error (b_clients (k_bus s)) i = Some c /\ needs_lock c = true.

Record linv (n : nat) (s : lbus) (tr : list bevent) : Prop := LInv {
  l_binv : binv (k_bus s); l_jinv : jinv n (k_bus s) tr; l_dinv : dinv' (k_bus s) tr;
  l_sent : sent tr = taken_all tr ++ b_buf (k_bus s); l_writer : writer_ok s }.

Lemma writer_step s l s1 es : binv (k_bus s) -> writer_ok s -> lstep s l = Some (s1, es) -> binv (k_bus s1) /\ writer_ok s1.
Proof.
  intros HB HW E. destruct (lstep_sim s l s1 es E) as [(Eb & _ & i & d & c & _ & _ & W1 & Hi & Hn & Hs)|(Eb & H)].
  - rewrite Eb. split; [exact HB|]. intros j Hj. rewrite Eb. split; [exact Hs|]. exists c. rewrite W1 in Hj. injection Hj as <-. auto.
  - split; [apply (bstep_binv _ _ _ _ HB Eb)|]. intros j Hj. destruct H as [(W & Hl)|(i & d & c & _ & _ & W1 & _)]; [|congruence].
    rewrite W in Hj. destruct (HW j Hj) as (Hs & c & Hc & Hn). split.
    + rewrite (bstep_stuck _ _ _ _ HB Eb Hl). exact Hs.
    + exists c. split; [|exact Hn]. apply (bstep_others _ _ _ _ _ _ Eb Hc Hn). intros d ->. rewrite (Hl j d c eq_refl Hc) in Hn. discriminate.
Qed.

Lemma writer_exec sched : forall s, binv (k_bus s) -> writer_ok s -> writer_ok (fst (exec lstep s sched)).
Proof.
  intros s HB HW. refine (proj2 (exec_inv lstep (fun s _ => binv (k_bus s) /\ writer_ok s) _ sched s [] (conj HB HW))).
  intros s0 l s1 es tr (A & B) E. exact (writer_step s0 l s1 es A B E).
Qed.

Lemma linv_exec cap n sched : linv n (fst (lbus_exec cap n sched)) (snd (lbus_exec cap n sched)).
Proof.
  destruct (lock_refines cap n sched) as (sched' & _ & E). pose proof (f_equal fst E) as E1. pose proof (f_equal snd E) as E2. cbn [fst snd] in E1, E2.
  constructor; rewrite <- ?E1, <- ?E2.
  - apply bus_binv.
  - apply jinv_exec.
  - apply dinv_exec.
  - apply queue_exec.
  - apply writer_exec; [apply binv_new|]. intros i. discriminate.
Qed.

(** ** When nothing moves *)

Lemma lockable_step n s tr i c : linv n s tr -> k_writer s = Some i -> nobody_reads (k_bus s) ->
  nth_error (b_clients (k_bus s)) i = Some c -> needs_lock c = true -> exists r, lstep s (LClient i 0) = Some r.
Proof.
  intros HL Hw Hr Hi Hn. destruct (l_writer _ _ _ HL i Hw) as (Hs & _). cbn [lstep]. rewrite Hi, Hn, Hw, Nat.eqb_refl. cbn [bstep]. rewrite Hi.
  assert (L : lockable (k_bus s) = true) by (apply lockable_true; auto).
  destruct c as [|v|name cap st|r| |r pk|r acc|r acc pk|]; try discriminate Hn; cbn [client_step]; rewrite L.
  - eexists. reflexivity.
  - unfold deregister. pose proof (i_refs _ (l_binv _ _ _ HL) i _ Hi) as Hc. cbn in Hc.
    destruct (nth_error (b_recvs (k_bus s)) r) as [me|]; [|congruence].
    destruct (lookup (b_map (k_bus s)) (r_name me)) as [r'|] eqn:El; [|eexists; reflexivity].
    destruct (i_map _ (l_binv _ _ _ HL) _ _ (lookup_In _ _ _ El)) as (x & Hx & _ & _). rewrite Hx.
    destruct (r_closed x); eexists; reflexivity.
  - destruct (bus_close_crit (k_bus s) i). eexists. reflexivity.
Qed.

(** The offer of a dispatcher in its loop is possible for some choice of the scheduler, unless it is blocked. *)
Lemma offer_enabled s d p v r todo again : binv s -> nth_error (b_disp s) d = Some p -> offers p v r todo ->
  (exists i q, offer s d v r todo i again = Some q) \/
  (again = true /\ exists x, nth_error (b_recvs s) r = Some x /\ r_strategy x = Block /\ r_closed x = false /\
     nobody_parked s r /\ r_cap x <= Z.of_nat (length (r_buf x))).
Proof.
  intros HB Hp Ho. destruct (offers_ok s d p v r todo HB Hp Ho) as (_ & _ & x & name & Hx & _ & Hc).
  unfold offer. rewrite Hx, Hc. destruct (existsb (fun c => parked_on c r) (b_clients s)) eqn:Ep.
  - left. apply existsb_exists in Ep. destruct Ep as (c & Hin & Hpk). apply In_nth_error in Hin. destruct Hin as (i & Hi).
    exists i. rewrite Hi, Hpk. destruct ((r_strategy x =? Drop) || (r_strategy x =? Block)); eexists; reflexivity.
  - destruct (Z.eqb_spec (r_strategy x) Drop) as [|Nd]; cbn [orb].
    + left. exists 0%nat. destruct (Z.of_nat (length (r_buf x)) <? r_cap x); eexists; reflexivity.
    + destruct (Z.eqb_spec (r_strategy x) Block) as [Es|].
      * destruct (Z.of_nat (length (r_buf x)) <? r_cap x) eqn:Ec; [left; exists 0%nat; eexists; reflexivity|].
        destruct again; [|left; exists 0%nat; eexists; reflexivity]. right. split; [reflexivity|]. exists x.
        repeat split; auto; [|apply Z.ltb_ge; exact Ec]. intros i c Hi. apply (proj1 (existsb_nth _ _) Ep i c Hi).
      * left. exists 0%nat. eexists. reflexivity.
Qed.

Lemma lstep_disp s d k i p : nth_error (b_disp (k_bus s)) d = Some p -> (forall v, p <> DLock v) ->
  lstep s (LDisp d k i) = keep s (disp_step (k_bus s) d k i p).
Proof. intros H Hn. cbn [lstep bstep]. rewrite H. destruct p; try reflexivity. destruct (Hn v eq_refl). Qed.

Lemma keep_none s r : keep s r = None -> r = None.
Proof. destruct r as [[]|]; [discriminate|reflexivity]. Qed.

Lemma rest_readers n s tr d p : linv n s tr -> at_rest s tr -> nth_error (b_disp (k_bus s)) d = Some p -> reading p = true ->
  exists v r todo x, p = DBlocked v r todo /\ nth_error (b_recvs (k_bus s)) r = Some x /\ r_strategy x = Block /\ r_closed x = false /\
     nobody_parked (k_bus s) r /\ r_cap x <= Z.of_nat (length (r_buf x)).
Proof.
  intros HL HR Hp Hrd.
  assert (Hs : forall k i, disp_step (k_bus s) d k i p = None).
  { intros k i. apply (keep_none s). rewrite <- (lstep_disp s d k i p Hp); [apply HR; reflexivity|]. intros v ->. discriminate. }
  destruct p as [|v|v [|r todo]|v r todo| |]; try discriminate Hrd.
  - specialize (Hs 0%nat 0%nat). discriminate Hs.
  - destruct (offer_enabled (k_bus s) d _ v r todo false (l_binv _ _ _ HL) Hp (OffIter v (r :: todo) 0 r eq_refl)) as [(i & q & E)|([=] & _)].
    specialize (Hs 0%nat i). cbn [disp_step nth_error remove_nth] in Hs. congruence.
  - destruct (offer_enabled (k_bus s) d _ v r todo true (l_binv _ _ _ HL) Hp (OffBlocked v r todo)) as [(i & q & E)|(_ & x & H)].
    + specialize (Hs 0%nat i). cbn [disp_step] in Hs. congruence.
    + exists v, r, todo, x. split; [reflexivity|exact H].
Qed.

Lemma in_call_of n s tr i c : linv n s tr -> nth_error (b_clients (k_bus s)) i = Some c -> in_call i tr = op_of c.
Proof. intros HL Hi. destruct (j_call _ _ _ (l_jinv _ _ _ HL)) as (_ & H). specialize (H i). rewrite Hi in H. apply H. Qed.

Lemma client_at n s tr i : linv n s tr -> (i < n)%nat -> exists c, nth_error (b_clients (k_bus s)) i = Some c /\ in_call i tr = op_of c.
Proof.
  intros HL Hi. destruct (nth_error (b_clients (k_bus s)) i) as [c|] eqn:E.
  - exists c. split; [reflexivity|]. apply (in_call_of _ _ _ _ _ HL E).
  - exfalso. apply nth_error_None in E. rewrite (proj1 (j_call _ _ _ (l_jinv _ _ _ HL))) in E. lia.
Qed.

Lemma waiting_of n s tr i r : linv n s tr -> nobody_parked (k_bus s) r -> waiting i r tr = false.
Proof.
  intros HL Hn. pose proof (j_client _ _ _ (l_jinv _ _ _ HL) i) as H. unfold cinv in H.
  destruct (nth_error (b_clients (k_bus s)) i) as [c|] eqn:E; [|apply H]. destruct H as (H & _). rewrite H. apply (Hn i c E).
Qed.

Lemma blocked_trace n s tr d v r todo x : linv n s tr -> nth_error (b_disp (k_bus s)) d = Some (DBlocked v r todo) ->
  nth_error (b_recvs (k_bus s)) r = Some x -> r_strategy x = Block -> nobody_parked (k_bus s) r -> r_cap x <= Z.of_nat (length (r_buf x)) ->
  blocked_by d r tr.
Proof.
  intros HL Hd Hx Hs Hp Hc. exists v, (r_name x), (r_cap x).
  pose proof (j_recv _ _ _ (l_jinv _ _ _ HL) r) as HR. rewrite Hx in HR. cbn [rinv] in HR. destruct HR as (Ed & _ & Hm & _).
  split; [rewrite (d_disp _ _ (l_dinv _ _ _ HL)), Hd; reflexivity|].
  split. { apply (in_map_registered _ _ _ _ (l_jinv _ _ _ HL)). destruct (offers_ok _ d _ v r todo (l_binv _ _ _ HL) Hd (OffBlocked v r todo)) as (_ & Hin & _). apply Hin. left. reflexivity. }
  split; [apply Hm; auto|].
  split. { pose proof (j_disp _ _ _ (l_jinv _ _ _ HL) d r) as HD. unfold disp_inv in HD. rewrite Hd in HD. destruct HD as (E & _). rewrite E. cbn. rewrite Nat.eqb_refl. reflexivity. }
  split. { rewrite Ed, app_length. pose proof (i_buf _ (l_binv _ _ _ HL) r x Hx). lia. }
  intros i. apply (waiting_of n s tr i r HL Hp).
Qed.

(** A goroutine that takes events of a receiver a dispatcher is blocked on can take one. *)
Lemma receiver_moves n s tr i o d v r todo x : linv n s tr -> nth_error (b_disp (k_bus s)) d = Some (DBlocked v r todo) ->
  nth_error (b_recvs (k_bus s)) r = Some x -> (i < n)%nat -> in_call i tr = Some o -> receives o r -> exists q, lstep s (LClient i d) = Some q.
Proof.
  intros HL Hd Hx Hi Hc Ho. destruct (client_at n s tr i HL Hi) as (c & Ec & E). rewrite E in Hc.
  assert (T : exists q, take (k_bus s) r d = Some q).
  { unfold take. rewrite Hx. destruct (r_buf x); [|eexists; reflexivity]. destruct (r_closed x); [eexists; reflexivity|]. rewrite Hd, Nat.eqb_refl. eexists. reflexivity. }
  destruct T as ([[ov s'] es] & T).
  destruct c; try discriminate Hc; cbn in Hc; injection Hc as <-; destruct Ho as [Ho|[Ho|Ho]]; try discriminate Ho; injection Ho as ->;
    cbn [lstep bstep]; rewrite Ec; cbn [needs_lock client_step]; rewrite T; cbn [keep]; try (eexists; reflexivity); destruct ov; eexists; reflexivity.
Qed.

Lemma at_rest_client s tr i d : at_rest s tr -> works tr (LClient i d) = true -> lstep s (LClient i d) = None.
Proof. intros H W. apply H. exact W. Qed.

Lemma rest_settled n s tr : linv n s tr -> ~ close_panicked tr -> at_rest s tr -> nobody_reads (k_bus s) -> settled n tr.
Proof.
  intros HL Hcp HR Hn.
  assert (Hst : b_stuck (k_bus s) = false).
  { destruct (b_stuck (k_bus s)) eqn:E; [|reflexivity]. destruct Hcp. apply (j_stuck _ _ _ (l_jinv _ _ _ HL)). exact E. }
  assert (Hw : k_writer s = None).
  { destruct (k_writer s) as [i|] eqn:E; [|reflexivity]. exfalso. destruct (l_writer _ _ _ HL i E) as (_ & c & Hi & Hl).
    destruct (lockable_step n s tr i c HL E Hn Hi Hl) as (q & Eq). rewrite HR in Eq; [discriminate|].
    cbn. rewrite (in_call_of _ _ _ _ _ HL Hi). destruct c; try discriminate Hl; reflexivity. }
  assert (Hcl : forall i c, nth_error (b_clients (k_bus s)) i = Some c -> needs_lock c = false).
  { intros i c Hi. destruct (needs_lock c) eqn:E; [|reflexivity]. exfalso.
    assert (X : lstep s (LClient i 0) = None) by (apply HR; cbn; rewrite (in_call_of _ _ _ _ _ HL Hi); destruct c; try discriminate E; reflexivity).
    cbn [lstep] in X. rewrite Hi, E, Hw, Hst in X. discriminate. }
  assert (Hdp : forall d p, nth_error (b_disp (k_bus s)) d = Some p -> p = DRecv \/ p = DDone).
  { intros d p Hp. pose proof (Hn d p Hp) as Hf. pose proof (d_alive _ _ (l_dinv _ _ _ HL) d p Hp) as Ha.
    destruct p; try discriminate Hf; try congruence; auto. exfalso.
    assert (X : lstep s (LDisp d 0 0) = None) by (apply HR; reflexivity). cbn [lstep bstep] in X. rewrite Hp, Hw in X. cbn [disp_step] in X. rewrite Hst in X. discriminate. }
  split; [|split].
  - intros d. rewrite (j_busy _ _ _ (l_jinv _ _ _ HL)). destruct (nth_error (b_disp (k_bus s)) d) as [p|] eqn:E; [|reflexivity].
    destruct (Hdp d p E) as [-> | ->]; reflexivity.
  - intros i o Hi Ho. destruct (client_at n s tr i HL Hi) as (c & Ec & E). rewrite E in Ho. specialize (Hcl i c Ec).
    destruct c; cbn in Ho; try discriminate; injection Ho as <-; try exact I; discriminate Hcl.
  - intros d (Hd & He).
    assert (Hr : nth_error (b_disp (k_bus s)) d = Some DRecv).
    { rewrite <- (j_disps _ _ _ (l_jinv _ _ _ HL)) in Hd. destruct (nth_error (b_disp (k_bus s)) d) as [p|] eqn:E.
      - destruct (Hdp d p E) as [-> | ->]; [reflexivity|]. destruct He. apply (d_ended _ _ (l_dinv _ _ _ HL)). exact E.
      - apply nth_error_None in E. lia. }
    assert (X : lstep s (LDisp d 0 0) = None) by (apply HR; reflexivity). rewrite (lstep_disp s d 0 0 _ Hr) in X by discriminate. apply keep_none in X.
    cbn [disp_step] in X. destruct (b_buf (k_bus s)) eqn:Eb; [|discriminate]. destruct (b_closed (k_bus s)) eqn:Ec; [discriminate|].
    split; [|split].
    + intros i Hin. assert (Y : b_closed (k_bus s) = true) by (apply (j_closing _ _ _ (l_jinv _ _ _ HL)); exists i; exact Hin). congruence.
    + pose proof (l_sent _ _ _ HL) as Es. rewrite Eb, app_nil_r in Es. exact Es.
    + intros i v Hi Hs. destruct (client_at n s tr i HL Hi) as (c & Ei & E). rewrite E in Hs. destruct c; try discriminate Hs. injection Hs as ->.
      assert (Y : lstep s (LClient i d) = None) by (apply HR; cbn; rewrite E; reflexivity).
      cbn [lstep bstep] in Y. rewrite Ei in Y. cbn [needs_lock] in Y. apply keep_none in Y. cbn [client_step] in Y. rewrite Ec, Eb, Hr in Y.
      destruct (Z.of_nat (length (@nil Z)) <? b_cap (k_bus s)); discriminate.
Qed.

Lemma rest_cases cap n sched : let s := fst (lbus_exec cap n sched) in let tr := snd (lbus_exec cap n sched) in
  ~ close_panicked tr -> at_rest s tr ->
  settled n tr \/
  exists d r, blocked_by d r tr /\ forall i o, (i < n)%nat -> in_call i tr = Some o -> receives o r -> exists q, lstep s (LClient i d) = Some q.
Proof.
  intros s tr Hcp HR. pose proof (linv_exec cap n sched) as HL. fold s in HL. fold tr in HL.
  destruct (existsb reading (b_disp (k_bus s))) eqn:E.
  - right. apply existsb_exists in E. destruct E as (p & Hin & Hr). apply In_nth_error in Hin. destruct Hin as (d & Hd).
    destruct (rest_readers n s tr d p HL HR Hd Hr) as (v & r & todo & x & -> & Hx & Hs & _ & Hp & Hc).
    exists d, r. split; [apply (blocked_trace n s tr d v r todo x HL Hd Hx Hs Hp Hc)|].
    intros i o Hi Ho Hv. apply (receiver_moves n s tr i o d v r todo x HL Hd Hx Hi Ho Hv).
  - left. apply (rest_settled n s tr HL Hcp HR). intros d p Hd. apply (proj1 (existsb_nth _ _) E d p Hd).
Qed.
