(** Progress of the bus, closing of receivers, and the counterexamples. *)
From Verif Require Import Common Bytes Threads BusModel BusSpec BusProofs BusTrace.
Local Open Scope string_scope.
Local Open Scope list_scope.
Local Open Scope Z_scope.

(** ** No event is delivered twice, with any number of dispatchers *)

Definition cnt (v : Z) (l : list Z) : Z := count (Z.eqb v) l.
Lemma cnt_app v a b : cnt v (a ++ b) = cnt v a + cnt v b. Proof. apply count_app. Qed.

Definition holds (r : nat) (p : dpc) : list Z := match p with DLock v => [v] | _ => pending r p end.

Definition dup_inv (v : Z) (r : nat) (s : bus) (tr : list bevent) : Prop :=
  cnt v (delivered_to r tr) + sumZ (fun p => cnt v (holds r p)) (b_disp s) <= cnt v (taken_all tr).

Lemma cnt_nonneg v l : 0 <= cnt v l. Proof. apply count_nonneg. Qed.

Lemma dup_step v r s s1 tr es d p0 p : dup_inv v r s tr -> nth_error (b_disp s) d = Some p0 -> b_disp s1 = upd d p (b_disp s) ->
  cnt v (delivered_to r es) + cnt v (holds r p) <= cnt v (holds r p0) + cnt v (taken_all es) -> dup_inv v r s1 (tr ++ es).
Proof.
  unfold dup_inv. intros HJ Hd E H. rewrite E, (sumZ_upd _ d p _ p0 Hd), delivered_to_app, taken_all_app, !cnt_app. lia.
Qed.

Lemma dup_same v r s s1 tr es : dup_inv v r s tr -> b_disp s1 = b_disp s -> delivered_to r es = [] -> taken_all es = [] -> dup_inv v r s1 (tr ++ es).
Proof. unfold dup_inv. intros HJ E E1 E2. rewrite E, delivered_to_app, taken_all_app, E1, E2, !app_nil_r. exact HJ. Qed.

Lemma holds_offer s d p v0 r0 todo r v : binv s -> nth_error (b_disp s) d = Some p -> offers p v0 r0 todo ->
  cnt v (if Nat.eqb r0 r then [v0] else []) + cnt v (holds r (DIter v0 todo)) <= cnt v (holds r p).
Proof.
  intros HB Hd Ho. destruct (offers_pending s d p v0 r0 todo r HB Hd Ho) as (P1 & P2 & P3).
  assert (E : holds r p = pending r p) by (destruct p; try reflexivity; congruence). rewrite E, P1.
  change (holds r (DIter v0 todo)) with (pending r (DIter v0 todo)).
  destruct (Nat.eqb_spec r0 r) as [Er|Er]; [rewrite (P2 Er); cbn; lia|]. cbn [cnt count]. lia.
Qed.

Lemma dup_trans v r s tr s1 es : binv s -> dup_inv v r s tr -> trans s s1 es -> dup_inv v r s1 (tr ++ es).
Proof.
  intros HB HJ HT. destruct HT; try (apply (dup_same v r s); [exact HJ|reflexivity|reflexivity|reflexivity]).
  - unfold dup_inv in *. cbn [b_disp]. rewrite sumZ_app, delivered_to_app, taken_all_app, !cnt_app. cbn. cbn in HJ. lia.
  - eapply (dup_step v r s _ tr _ d _ _ HJ H2); [reflexivity|]. cbn. lia.
  - destruct (closed_events_neutral (map snd (b_map s)) i) as (_ & _ & _ & _ & C1 & C2 & _).
    apply (dup_same v r s); [exact HJ|reflexivity|apply C2|apply C1].
  - eapply (dup_step v r s _ tr _ d _ _ HJ H3); [reflexivity|].
    pose proof (holds_offer s d _ v0 r0 todo r v HB H3 (OffBlocked v0 r0 todo)). cbn [delivered_to taken_all flat_map app]. rewrite app_nil_r.
    change (cnt v []) with 0. lia.
  - eapply (dup_step v r s _ tr _ d _ _ HJ H); [reflexivity|]. cbn. lia.
  - eapply (dup_step v r s _ tr _ d _ _ HJ H); [reflexivity|]. cbn. lia.
  - eapply (dup_step v r s _ tr _ d _ _ HJ H); [reflexivity|]. cbn [delivered_to taken_all flat_map app holds pending].
    pose proof (cnt_nonneg v [v0]). change (cnt v []) with 0. destruct (existsb _ _); change (cnt v []) with 0; lia.
  - eapply (dup_step v r s _ tr _ d _ _ HJ H); [reflexivity|]. cbn. lia.
  - exfalso. destruct (offers_ok s _ _ _ _ _ HB H H0) as (_ & _ & x' & name & A & _ & B). congruence.
  - eapply (dup_step v r s _ tr _ d _ _ HJ H); [reflexivity|].
    pose proof (holds_offer s d p v0 r0 todo r v HB H H0). cbn [delivered_to taken_all flat_map app]. rewrite app_nil_r. change (cnt v []) with 0. lia.
  - eapply (dup_step v r s _ tr _ d _ _ HJ H); [reflexivity|].
    pose proof (holds_offer s d p v0 r0 todo r v HB H H0). cbn [delivered_to taken_all flat_map app]. rewrite app_nil_r. change (cnt v []) with 0. lia.
  - eapply (dup_step v r s _ tr _ d _ _ HJ H); [reflexivity|].
    pose proof (holds_offer s d p v0 r0 todo r v HB H H0). pose proof (cnt_nonneg v (if Nat.eqb r0 r then [v0] else [])).
    cbn [delivered_to taken_all flat_map app]. change (cnt v []) with 0. lia.
  - eapply (dup_step v r s _ tr _ d _ _ HJ H); [reflexivity|].
    pose proof (i_disp s HB _ _ H) as (ND & _). destruct (existsb_remove_nth r k todo0 r0 ND H0) as (E & _).
    cbn [delivered_to taken_all flat_map app holds pending existsb]. rewrite E. lia.
  - eapply (dup_step v r s _ tr _ d _ _ HJ H); [reflexivity|].
    pose proof (holds_offer s d p v0 r0 todo r v HB H H0). pose proof (cnt_nonneg v (if Nat.eqb r0 r then [v0] else [])).
    cbn [delivered_to taken_all flat_map app]. change (cnt v []) with 0. lia.
Qed.

Lemma no_duplicates cap n sched r v :
  count (Z.eqb v) (delivered_to r (snd (bus_exec cap n sched))) <= count (Z.eqb v) (sent (snd (bus_exec cap n sched))).
Proof.
  destruct (bus_inv (dup_inv v r) cap n) with (sched := sched) as (HB & HJ).
  - unfold dup_inv. cbn. lia.
  - intros s tr s1 es HB HJ HT _. exact (dup_trans v r s tr s1 es HB HJ HT).
  - unfold dup_inv in HJ. rewrite queue_exec. fold (cnt v (delivered_to r (snd (bus_exec cap n sched)))).
    fold (cnt v (taken_all (snd (bus_exec cap n sched)) ++ b_buf (fst (bus_exec cap n sched)))). rewrite cnt_app.
    pose proof (cnt_nonneg v (b_buf (fst (bus_exec cap n sched)))).
    assert (0 <= sumZ (fun p => cnt v (holds r p)) (b_disp (fst (bus_exec cap n sched)))).
    { apply sumZ_nonneg. apply Forall_forall. intros p _. apply cnt_nonneg. }
    lia.
Qed.

(** ** Continuing an execution *)

Lemma exec_continue cap n sched sched' : bus_exec cap n (sched ++ sched') =
  (fst (exec bstep (fst (bus_exec cap n sched)) sched'), snd (bus_exec cap n sched) ++ snd (exec bstep (fst (bus_exec cap n sched)) sched')).
Proof.
  unfold bus_exec. rewrite exec_app. destruct (exec bstep (new_bus cap n) sched) as [s tr]. cbn [fst snd].
  destruct (exec bstep s sched') as [s' es]. reflexivity.
Qed.

Lemma exec_cons s l s1 es sched : bstep s l = Some (s1, es) ->
  exec bstep s (l :: sched) = (fst (exec bstep s1 sched), es ++ snd (exec bstep s1 sched)).
Proof. intros E. cbn [exec]. rewrite E. destruct (exec bstep s1 sched). reflexivity. Qed.

(** ** A dispatcher whose receivers all have strategy Drop finishes on its own *)

Record frame (d : nat) (s s1 : bus) : Prop := Frame {
  f_map : b_map s1 = b_map s; f_stuck : b_stuck s1 = b_stuck s; f_len : length (b_disp s1) = length (b_disp s);
  f_other : forall d', d <> d' -> nth_error (b_disp s1) d' = nth_error (b_disp s) d';
  f_recv : forall r, option_map r_strategy (nth_error (b_recvs s1) r) = option_map r_strategy (nth_error (b_recvs s) r);
  f_client : forall i c, nth_error (b_clients s) i = Some c -> (forall r, parked_on c r = false) -> nth_error (b_clients s1) i = Some c
}.

Lemma frame_refl d s : frame d s s.
Proof. constructor; auto. Qed.
Lemma frame_trans d a b c : frame d a b -> frame d b c -> frame d a c.
Proof.
  intros [A1 A2 A3 A4 A5 A6] [B1 B2 B3 B4 B5 B6]. constructor; [congruence..| | |].
  - intros d' Hne. rewrite (B4 d' Hne). apply A4. exact Hne.
  - intros r. rewrite B5. apply A5.
  - intros i cl H Hp. apply B6; [apply A6|]; assumption.
Qed.

Lemma frame_disp d p s : frame d s (set_disp d p s).
Proof.
  constructor; cbn [set_disp b_map b_stuck b_disp b_recvs b_clients]; auto.
  - apply upd_length.
  - intros d' Hne. apply nth_error_upd_other. exact Hne.
Qed.

Definition dropping (s : bus) : Prop :=
  forall r, In r (map snd (b_map s)) -> option_map r_strategy (nth_error (b_recvs s) r) = Some Drop.

Lemma dropping_frame d s s1 : frame d s s1 -> dropping s -> dropping s1.
Proof. intros [A _ _ _ B _] H r. rewrite A, B. apply H. Qed.

(** One offer. *)
Lemma offer_drop s d p v r todo again : binv s -> dropping s -> nth_error (b_disp s) d = Some p -> offers p v r todo ->
  exists i s1 es, offer s d v r todo i again = Some (s1, es) /\ nth_error (b_disp s1) d = Some (DIter v todo) /\ frame d s s1.
Proof.
  intros HB HD Hp Ho. destruct (offers_ok s d p v r todo HB Hp Ho) as (_ & Hin & x & name & Hx & _ & Hc).
  assert (Hs : r_strategy x = Drop).
  { specialize (HD r (Hin r (or_introl eq_refl))). rewrite Hx in HD. injection HD as HD. exact HD. }
  unfold offer. rewrite Hx, Hs, Hc. change (Drop =? Drop) with true. cbn [orb].
  destruct (existsb (fun c => parked_on c r) (b_clients s)) eqn:Ep.
  - apply existsb_exists in Ep. destruct Ep as (c & Hcin & Hpk). apply In_nth_error in Hcin. destruct Hcin as (i & Hi).
    exists i, (set_disp d (DIter v todo) (set_client i (serve c (Some v)) s)), [EDelivered d r v; EGot i r (Some v)].
    rewrite Hi, Hpk. split; [reflexivity|]. split; [cbn [set_disp set_client b_disp]; apply (nth_error_upd_same _ _ _ _ Hp)|].
    apply (frame_trans d _ (set_client i (serve c (Some v)) s)); [|apply frame_disp].
    constructor; cbn [set_client b_map b_stuck b_disp b_recvs b_clients]; auto.
    intros j c0 Hj Hn. destruct (Nat.eq_dec i j) as [<-|Hne]; [|rewrite nth_error_upd_other by exact Hne; exact Hj].
    exfalso. rewrite Hi in Hj. injection Hj as <-. rewrite Hn in Hpk. discriminate.
  - destruct (Z.of_nat (length (r_buf x)) <? r_cap x).
    + exists 0%nat, (set_disp d (DIter v todo) (set_recv r (with_buf x (r_buf x ++ [v])) s)), [EDelivered d r v].
      split; [reflexivity|]. split; [cbn [set_disp set_recv b_disp]; apply (nth_error_upd_same _ _ _ _ Hp)|].
      apply (frame_trans d _ (set_recv r (with_buf x (r_buf x ++ [v])) s)); [|apply frame_disp].
      constructor; cbn [set_recv b_map b_stuck b_disp b_recvs b_clients]; auto.
      intros r1. rewrite nth_error_upd. destruct (Nat.eq_dec r r1) as [<-|]; [|reflexivity]. rewrite Hx. reflexivity.
    + exists 0%nat, (set_disp d (DIter v todo) s), [EDropped d r v].
      split; [reflexivity|]. split; [cbn [set_disp b_disp]; apply (nth_error_upd_same _ _ _ _ Hp)|apply frame_disp].
Qed.

Lemma bstep_binv s l s1 es : binv s -> bstep s l = Some (s1, es) -> binv s1.
Proof. intros HB E. apply (binv_trans s s1 es HB). apply (bstep_trans s l s1 es (i_refs s HB) E). Qed.

Lemma all_drop_dropping cap n sched : all_drop (snd (bus_exec cap n sched)) -> dropping (fst (bus_exec cap n sched)).
Proof.
  intros H r Hin. pose proof (jinv_exec cap n sched) as HJ. pose proof (bus_binv cap n sched) as HB.
  assert (Hreg : registered (snd (bus_exec cap n sched)) r) by (apply (in_map_registered _ _ _ _ HJ); exact Hin).
  apply in_map_iff in Hin. destruct Hin as ((nm & r0) & E & Hin). cbn in E. subst r0.
  destruct (i_map _ HB _ _ Hin) as (x & Hx & _). rewrite Hx. cbn. f_equal.
  pose proof (j_recv _ _ _ HJ r) as HR. rewrite Hx in HR. destruct HR as (_ & _ & HM & _).
  apply (H r (r_name x) (r_cap x) (r_strategy x) Hreg). apply HM. auto.
Qed.

Lemma in_call_client cap n sched i o : in_call i (snd (bus_exec cap n sched)) = Some o -> (i < n)%nat ->
  exists c, nth_error (b_clients (fst (bus_exec cap n sched))) i = Some c /\ op_of c = Some o.
Proof.
  intros H Hi. destruct (j_call _ _ _ (jinv_exec cap n sched)) as (HL & HC).
  destruct (nth_error (b_clients (fst (bus_exec cap n sched))) i) as [c|] eqn:E; [|apply nth_error_None in E; lia].
  exists c. split; [reflexivity|]. specialize (HC i). rewrite E in HC. destruct HC as (HC & _). congruence.
Qed.

Lemma close_returns cap n sched pre i r post : snd (bus_exec cap n sched) = pre ++ ECloseReturns i r :: post ->
  exists pre' r' name c st c' st', pre = pre' ++ [EClosedRecv r'] /\ made pre' r name c st /\ made pre' r' name c' st' /\
    (registered pre' r -> r' = r) /\ forall q, registered pre q <-> registered pre' q /\ q <> r'.
Proof.
  intros E.
  apply (bus_trace' (fun pre e => forall i r, e = ECloseReturns i r -> exists pre' r' name c st c' st', pre = pre' ++ [EClosedRecv r'] /\
    made pre' r name c st /\ made pre' r' name c' st' /\
    (registered pre' r -> r' = r) /\ forall q, registered pre q <-> registered pre' q /\ q <> r')
    cap n sched pre (ECloseReturns i r) post) with (i := i); [clear|exact E|reflexivity].
  intros s tr s1 es HB HJ HT a e b E i r He.
  destruct HT; cut E; try discriminate He. injection He as -> ->.
  pose proof (lookup_In _ _ _ H3) as Hin. destruct (i_map s HB _ _ Hin) as (x' & Hx' & En & _).
  exists tr, r', (r_name me), (r_cap me), (r_strategy me), (r_cap x'), (r_strategy x').
  split; [reflexivity|].
  pose proof (j_recv _ _ _ HJ r) as HR. rewrite H2 in HR. pose proof (j_recv _ _ _ HJ r') as HR'. rewrite Hx' in HR'.
  split; [apply HR; auto|]. split; [apply HR'; auto|]. split.
  - intros Hreg. apply (in_map_registered _ _ _ _ HJ) in Hreg. apply in_map_iff in Hreg. destruct Hreg as ((nm & r0) & E0 & Hin0). cbn in E0. subst r0.
    destruct (i_map s HB _ _ Hin0) as (y & Hy & Ey & _). rewrite H2 in Hy. injection Hy as <-. subst nm.
    pose proof (In_lookup _ _ _ (i_keys s HB) Hin0). congruence.
  - intros q. rewrite !registered_regn. split.
    + intros (nm & Hq). apply regn_snoc in Hq. destruct Hq as [(i' & c' & s' & [=])|(Hq & Hne & _)]. split; [exists nm; exact Hq|congruence].
    + intros ((nm & Hq) & Hne). exists nm. apply regn_snoc. right. split; [exact Hq|]. split; [congruence|discriminate].
Qed.

Lemma close_panic cap n sched pre i post : snd (bus_exec cap n sched) = pre ++ EClosePanic i :: post ->
  exists r, in_call i pre = Some (OpClose r) /\ ~ registered pre r.
Proof.
  intros E.
  apply (bus_trace' (fun pre e => forall i, e = EClosePanic i -> exists r, in_call i pre = Some (OpClose r) /\ ~ registered pre r)
    cap n sched pre (EClosePanic i) post); [clear|exact E|reflexivity].
  intros s tr s1 es HB HJ HT a e b E i He.
  destruct HT; cut E; try discriminate He; injection He as ->; rewrite app_nil_r.
  - exists r. split.
    + destruct (j_call _ _ _ HJ) as (_ & HC). specialize (HC i). rewrite H in HC. apply HC.
    + intros Hreg. apply (in_map_registered _ _ _ _ HJ) in Hreg. apply in_map_iff in Hreg. destruct Hreg as ((nm & r0) & E0 & Hin0). cbn in E0. subst r0.
      destruct (i_map s HB _ _ Hin0) as (y & Hy & Ey & Eo). rewrite H2 in Hy. injection Hy as <-. subst nm.
      pose proof (In_lookup _ _ _ (i_keys s HB) Hin0) as Hl. destruct H3 as [H3|(r' & x & H3 & Hx & Hxc)]; [congruence|].
      rewrite H3 in Hl. injection Hl as ->. rewrite H2 in Hx. injection Hx as <-. congruence.
  - exfalso. apply in_map_iff in H2. destruct H2 as ((nm & r0) & E0 & Hin0). cbn in E0. subst r0.
    destruct (i_map s HB _ _ Hin0) as (y & Hy & Ey & Eo). unfold is_closed in H3. rewrite Hy in H3. congruence.
Qed.


(** After a panic with the lock held, nothing is registered, closed or begun any more. *)
Lemma stuck_for_ever cap n sched pre e post : snd (bus_exec cap n sched) = pre ++ e :: post -> close_panicked pre ->
  match e with EBegin _ _ _ | EReg _ _ _ _ _ | EClosedRecv _ | ECloseReturns _ _ | EBusClosed _ | EClosePanic _ => False | _ => True end.
Proof.
  intros E.
  apply (bus_trace' (fun pre e => close_panicked pre ->
    match e with EBegin _ _ _ | EReg _ _ _ _ _ | EClosedRecv _ | ECloseReturns _ _ | EBusClosed _ | EClosePanic _ => False | _ => True end)
    cap n sched pre e post); [clear|exact E].
  intros s tr s1 es HB HJ HT a e b E Hp.
  assert (Hs : b_stuck s = false -> (forall i, ~ In (EClosePanic i) a) -> False).
  { intros Hs Ha. destruct Hp as (i & Hin). apply in_app_iff in Hin. destruct Hin as [Hin|Hin]; [|apply (Ha i Hin)].
    assert (b_stuck s = true) by (apply (j_stuck _ _ _ HJ); exists i; exact Hin). congruence. }
  destruct HT; cut E; try exact I; apply Hs; try assumption; intros j Hin; cbn in Hin; try (intuition discriminate).
  - apply in_map_iff in Hin. destruct Hin as (? & [=] & _).
  - apply in_map_iff in Hin. destruct Hin as (? & [=] & _).
Qed.

(** ** Drain *)

Lemma idle_client cap n sched i : idle n i (snd (bus_exec cap n sched)) -> nth_error (b_clients (fst (bus_exec cap n sched))) i = Some CIdle.
Proof.
  intros (Hi & Hc & H1 & H2). destruct (j_call _ _ _ (jinv_exec cap n sched)) as (HL & HC). specialize (HC i).
  destruct (nth_error (b_clients (fst (bus_exec cap n sched))) i) as [c|] eqn:E; [|apply nth_error_None in E; lia].
  destruct HC as (C1 & C2). rewrite Hc in C1. destruct c; cbn in C1; try discriminate; [reflexivity|].
  exfalso. pose proof (proj1 C2 eq_refl) as Hx. apply existsb_exists in Hx. destruct Hx as (e & Hin & He).
  destruct e; cbn in He; try discriminate; apply Nat.eqb_eq in He; subst; contradiction.
Qed.

Lemma no_pending cap n sched r : (forall d, begun d r (snd (bus_exec cap n sched)) = verdicts d r (snd (bus_exec cap n sched))) ->
  nobody_blocked (fst (bus_exec cap n sched)) r.
Proof.
  intros H d p Hp. pose proof (j_disp _ _ _ (jinv_exec cap n sched) d r) as HD. unfold disp_inv in HD. rewrite Hp in HD.
  destruct HD as (HD & _). rewrite H in HD. rewrite <- (app_nil_r (verdicts d r (snd (bus_exec cap n sched)))) in HD at 1.
  apply app_inv_head in HD. destruct p; try reflexivity. cbn in *. destruct (Nat.eqb_spec r0 r) as [->|]; [|reflexivity].
  rewrite Nat.eqb_refl in HD. discriminate.
Qed.

Lemma drain_run i r : forall buf acc s x, nth_error (b_clients s) i = Some (CDrain r acc) -> nth_error (b_recvs s) r = Some x -> r_buf x = buf ->
  nobody_blocked s r -> snd (exec bstep s (repeat (LClient i 0) (S (length buf)))) = map (fun v => EGot i r (Some v)) buf ++ [EDrained i r (acc ++ buf)].
Proof.
  induction buf as [|v buf IH]; intros acc s x Hi Hr Hb Hn.
  - cbn [length repeat exec bstep map app]. rewrite Hi. cbn [client_step]. unfold take. rewrite Hr, Hb.
    assert (Eb : existsb (fun p => blocked_on p r) (b_disp s) = false) by (apply existsb_nth; exact Hn).
    destruct (r_closed x); [cbn; rewrite app_nil_r; reflexivity|].
    destruct (nth_error (b_disp s) 0) as [[| | |v0 r' todo| |]|] eqn:E0; try (rewrite Eb; cbn; rewrite app_nil_r; reflexivity).
    pose proof (Hn _ _ E0) as Hr'. cbn in Hr'. rewrite Hr', Eb. cbn. rewrite app_nil_r. reflexivity.
  - change (repeat (LClient i 0) (S (length (v :: buf)))) with (LClient i 0 :: repeat (LClient i 0) (S (length buf))).
    assert (E : bstep s (LClient i 0) = Some (set_client i (CDrain r (acc ++ [v])) (set_recv r (with_buf x buf) s), [EGot i r (Some v)])).
    { cbn [bstep]. rewrite Hi. cbn [client_step]. unfold take. rewrite Hr, Hb. reflexivity. }
    rewrite (exec_cons _ _ _ _ _ E). cbn [snd].
    rewrite (IH (acc ++ [v]) _ (with_buf x buf)).
    + cbn. rewrite <- app_assoc. reflexivity.
    + cbn [set_client b_clients]. apply (nth_error_upd_same _ _ _ _ Hi).
    + cbn [set_client set_recv b_recvs]. apply (nth_error_upd_same _ _ _ _ Hr).
    + reflexivity.
    + exact Hn.
Qed.

Lemma drain_solo cap n sched i r name c st : let tr := snd (bus_exec cap n sched) in
  idle n i tr -> made tr r name c st -> (forall d, begun d r tr = verdicts d r tr) ->
  exists data k, delivered_to r tr = got r tr ++ data /\
    snd (bus_exec cap n (sched ++ LCall i (OpDrain r) :: repeat (LClient i 0) k)) =
      tr ++ ECall i (OpDrain r) :: map (fun v => EGot i r (Some v)) data ++ [EDrained i r data].
Proof.
  cbn zeta. intros Hi Hm Hb. pose proof (jinv_exec cap n sched) as HJ. apply idle_client in Hi. apply no_pending in Hb.
  destruct (made_fields _ _ _ _ _ _ _ Hm) as (x & Hx & _). exists (r_buf x), (S (length (r_buf x))).
  pose proof (j_recv _ _ _ HJ r) as HR. rewrite Hx in HR. split; [apply HR|].
  rewrite exec_continue. cbn [snd]. f_equal.
  set (s := fst (bus_exec cap n sched)) in *.
  assert (E : bstep s (LCall i (OpDrain r)) = Some (set_client i (CDrain r []) s, [ECall i (OpDrain r)])).
  { cbn [bstep]. rewrite Hi. cbn [call]. rewrite Hx. reflexivity. }
  rewrite (exec_cons _ _ _ _ _ E). cbn [snd].
  rewrite (drain_run i r (r_buf x) [] (set_client i (CDrain r []) s) x).
  - reflexivity.
  - cbn [set_client b_clients]. apply (nth_error_upd_same _ _ _ _ Hi).
  - exact Hx.
  - reflexivity.
  - exact Hb.
Qed.

(** A Drain in progress always can take a step, and never waits. *)
Lemma drain_progress cap n sched i r : let tr := snd (bus_exec cap n sched) in
  (i < n)%nat -> in_call i tr = Some (OpDrain r) ->
  exists d es, snd (bus_exec cap n (sched ++ [LClient i d])) = tr ++ es /\
    ((exists v, In (EGot i r (Some v)) es) \/ exists data, In (EDrained i r data) es).
Proof.
  cbn zeta. intros Hi Hc. destruct (in_call_client _ _ _ _ _ Hc Hi) as (c & Ec & Eo).
  assert (exists acc, c = CDrain r acc) as (acc & ->) by (destruct c; cbn in Eo; try discriminate; injection Eo as ->; eauto).
  set (s := fst (bus_exec cap n sched)) in *. pose proof (i_refs s (bus_binv cap n sched) i _ Ec) as Href. cbn in Href.
  destruct (nth_error (b_recvs s) r) as [x|] eqn:Ex; [|congruence].
  assert (HH : exists d s1 es, bstep s (LClient i d) = Some (s1, es) /\ ((exists v, In (EGot i r (Some v)) es) \/ exists data, In (EDrained i r data) es)).
  { cbn [bstep]. rewrite Ec. cbn [client_step]. unfold take. rewrite Ex. destruct (r_buf x) as [|v buf] eqn:Eb.
    - destruct (r_closed x) eqn:Ecl.
      + exists 0%nat. eexists _, _. split; [reflexivity|]. right. exists acc. left. reflexivity.
      + destruct (existsb (fun p => blocked_on p r) (b_disp s)) eqn:Ebl.
        * apply existsb_exists in Ebl. destruct Ebl as (p & Hp & Hbl). apply In_nth_error in Hp. destruct Hp as (d & Hd).
          destruct p as [| | |v r' todo| |]; cbn in Hbl; try discriminate. exists d. rewrite Hd, Hbl. eexists _, _. split; [reflexivity|].
          left. exists v. apply in_or_app. right. left. reflexivity.
        * exists 0%nat. exists (set_client i CIdle s), [EDrained i r acc]. split; [|right; exists acc; left; reflexivity].
          destruct (nth_error (b_disp s) 0) as [[| | |v0 r' todo| |]|] eqn:E0; try reflexivity.
          destruct (Nat.eqb r' r) eqn:Er; [|reflexivity]. exfalso.
          assert (Hx : existsb (fun p => blocked_on p r) (b_disp s) = true); [|congruence].
          apply existsb_exists. exists (DBlocked v0 r' todo). split; [eapply nth_error_In; exact E0|exact Er].
    - exists 0%nat. eexists _, _. split; [reflexivity|]. left. exists v. left. reflexivity. }
  destruct HH as (d & s1 & es & E & Hin). exists d, es. split; [|exact Hin].
  rewrite exec_continue. cbn [snd]. fold s. cbn [exec]. rewrite E. cbn [snd]. rewrite app_nil_r. reflexivity.
Qed.

(** ** Receivers that are no longer registered *)

Lemma reg_unique cap n sched pre i r name c st post : snd (bus_exec cap n sched) = pre ++ EReg i r name c st :: post ->
  forall e, In e pre -> touches r e = false.
Proof.
  intros E.
  apply (bus_trace' (fun pre e => forall i r name c st, e = EReg i r name c st -> forall e, In e pre -> touches r e = false)
    cap n sched pre (EReg i r name c st) post) with (i := i) (name := name) (c := c) (st := st); [clear|exact E|reflexivity].
  intros s tr s1 es HB HJ HT a e b E i r name c st He.
  destruct HT; cut E; try discriminate He. injection He as -> <- -> -> ->. rewrite app_nil_r.
  pose proof (j_recv _ _ _ HJ (length (b_recvs s))) as HR.
  assert (En : nth_error (b_recvs s) (length (b_recvs s)) = None) by (apply nth_error_None; lia). rewrite En in HR. exact HR.
Qed.

Lemma cut_app {A} (t p a b : list A) x : t ++ p = a ++ x :: b -> (exists b', t = a ++ x :: b' /\ b = b' ++ p) \/ exists a', a = t ++ a' /\ p = a' ++ x :: b.
Proof.
  revert a. induction t as [|y t IH]; intros a E; cbn in E.
  - right. exists a. auto.
  - destruct a as [|z a]; cbn in E.
    + injection E as -> E. left. exists t. auto.
    + injection E as -> E. destruct (IH a E) as [(b' & -> & ->)|(a' & -> & ->)]; [left; exists b'; auto|right; exists a'; auto].
Qed.

Lemma still_registered cap n sched t p q r name c st : snd (bus_exec cap n sched) = t ++ p ++ q -> made t r name c st -> registered (t ++ p) r -> registered t r.
Proof.
  intros E (i & Hin) (i' & name' & c' & st' & a & b & Ea & H1 & H2).
  apply cut_app in Ea. destruct Ea as [(b' & -> & ->)|(a' & -> & ->)].
  - exists i', name', c', st', a, b'. split; [reflexivity|]. split; [intros Hx; apply H1, in_or_app; auto|].
    intros i2 r2 c2 s2 Hx. apply (H2 i2 r2 c2 s2), in_or_app. auto.
  - exfalso. rewrite <- app_assoc in E. cbn [app] in E. rewrite app_assoc in E.
    pose proof (reg_unique _ _ _ _ _ _ _ _ _ _ E (EReg i r name c st)) as HU. cbn in HU. rewrite Nat.eqb_refl in HU.
    discriminate HU. apply in_or_app. auto.
Qed.

Lemma orphan_left_alone cap n sched t p e q r name c st : snd (bus_exec cap n sched) = t ++ p ++ e :: q ->
  made t r name c st -> ~ registered t r -> ~ concerns r e.
Proof.
  intros E Hm Hn Hc. rewrite app_assoc in E. destruct (concerns_registered _ _ _ _ _ _ _ E Hc) as (Hr & _).
  apply Hn. rewrite <- app_assoc in E. apply (still_registered cap n sched t p (e :: q) r name c st E Hm Hr).
Qed.

Lemma made_cases tr r name c st : made tr r name c st ->
  registered tr r \/ In (EClosedRecv r) tr \/
  exists a i b i' r' c' st', tr = a ++ EReg i r name c st :: b /\ In (EReg i' r' name c' st') b.
Proof.
  intros (i & Hin). apply in_split in Hin. destruct Hin as (a & b & ->).
  destruct (existsb (fun e => match e with EClosedRecv r' => Nat.eqb r' r | _ => false end) b) eqn:E1.
  - right. left. apply existsb_exists in E1. destruct E1 as (e & Hin & He). destruct e; try discriminate. apply Nat.eqb_eq in He. subst.
    apply in_or_app. right. right. exact Hin.
  - destruct (existsb (fun e => match e with EReg _ _ name' _ _ => String.eqb name' name | _ => false end) b) eqn:E2.
    + right. right. apply existsb_exists in E2. destruct E2 as (e & Hin & He). destruct e as [| | | | | | | | | |i' r' name' c' st'| | | | | | | | | | |]; try discriminate.
      apply String.eqb_eq in He. subst. exists a, i, b, i', r', c', st'. auto.
    + left. exists i, name, c, st, a, b. split; [reflexivity|]. split.
      * intros Hin. assert (X : existsb (fun e => match e with EClosedRecv r' => Nat.eqb r' r | _ => false end) b = true); [|congruence].
        apply existsb_exists. eexists. split; [exact Hin|]. apply Nat.eqb_refl.
      * intros i' r' c' st' Hin. assert (X : existsb (fun e => match e with EReg _ _ name' _ _ => String.eqb name' name | _ => false end) b = true); [|congruence].
        apply existsb_exists. eexists. split; [exact Hin|]. apply String.eqb_refl.
Qed.

Lemma close_closes_all cap n sched pre i post r name c st : snd (bus_exec cap n sched) = pre ++ EBusClosed i :: post -> made pre r name c st ->
  In (EClosedRecv r) pre \/ exists a j b j' r' c' st', pre = a ++ EReg j r name c st :: b /\ In (EReg j' r' name c' st') b.
Proof.
  intros E Hm. destruct (made_cases pre r name c st Hm) as [H|H]; [|exact H]. destruct (close_leaves_none _ _ _ _ _ _ r E H).
Qed.

(** ** After the bus is closed *)

Lemma second_close cap n sched i j : let tr := snd (bus_exec cap n sched) in
  In (EBusClosing j) tr -> idle n i tr ->
  snd (bus_exec cap n (sched ++ [LCall i OpBusClose])) = tr ++ [ECall i OpBusClose; EClientPanic i] /\
  forall v, snd (bus_exec cap n (sched ++ [LCall i (OpSend v); LClient i 0])) = tr ++ [ECall i (OpSend v); EClientPanic i].
Proof.
  cbn zeta. intros Hj Hi. apply idle_client in Hi.
  assert (Hc : b_closed (fst (bus_exec cap n sched)) = true) by (apply (j_closing _ _ _ (jinv_exec cap n sched)); exists j; exact Hj).
  split.
  - rewrite exec_continue. cbn [snd]. f_equal. cbn [exec bstep]. rewrite Hi. cbn [call]. rewrite Hc. reflexivity.
  - intros v. rewrite exec_continue. cbn [snd]. f_equal.
    assert (E : bstep (fst (bus_exec cap n sched)) (LCall i (OpSend v)) = Some (set_client i (CSend v) (fst (bus_exec cap n sched)), [ECall i (OpSend v)]))
      by (cbn [bstep]; rewrite Hi; reflexivity).
    rewrite (exec_cons _ _ _ _ _ E). cbn [snd exec bstep set_client b_clients]. rewrite (nth_error_upd_same _ _ _ _ Hi). cbn [client_step set_client b_closed].
    rewrite Hc. reflexivity.
Qed.

(** ** What Drain and CollectTimeout return comes from their receiver, in order *)

Definition from_inv (s : bus) (tr : list bevent) : Prop :=
  forall i c, nth_error (b_clients s) i = Some c ->
    match c with
    | CDrain r acc => subseq acc (got r tr)
    | CCollect r acc _ => subseq (somes acc) (got r tr)
    | _ => True
    end.

Lemma from_keep s s1 tr es i0 c : from_inv s tr -> b_clients s1 = upd i0 c (b_clients s) ->
  match c with
  | CDrain r acc => subseq acc (got r (tr ++ es))
  | CCollect r acc _ => subseq (somes acc) (got r (tr ++ es))
  | _ => True
  end -> from_inv s1 (tr ++ es).
Proof.
  intros HJ E Hc i c1 Hi. rewrite E in Hi. apply nth_error_upd_Some in Hi. destruct Hi as [(<- & -> & _)|(_ & Hi)]; [exact Hc|].
  specialize (HJ i c1 Hi). destruct c1; auto; rewrite got_app; apply subseq_app_r; exact HJ.
Qed.

Lemma from_same s s1 tr es : from_inv s tr -> b_clients s1 = b_clients s -> from_inv s1 (tr ++ es).
Proof.
  intros HJ E i c1 Hi. rewrite E in Hi. specialize (HJ i c1 Hi). destruct c1; auto; rewrite got_app; apply subseq_app_r; exact HJ.
Qed.

Lemma got_snoc_self r tr i v : got r (tr ++ [EGot i r (Some v)]) = got r tr ++ [v].
Proof. rewrite got_app. cbn. rewrite Nat.eqb_refl. reflexivity. Qed.

Lemma from_consumes s tr i c r ov c' : from_inv s tr -> nth_error (b_clients s) i = Some c -> consumes c r ov c' ->
  match c' with
  | CDrain r0 acc => subseq acc (got r0 (tr ++ [EGot i r ov]))
  | CCollect r0 acc _ => subseq (somes acc) (got r0 (tr ++ [EGot i r ov]))
  | _ => True
  end.
Proof.
  intros HJ Hi Hc. specialize (HJ i c Hi). destruct Hc as [| |r acc p [v|]]; [exact I| | |].
  - rewrite got_snoc_self. apply subseq_app; [exact HJ|apply subseq_refl].
  - rewrite got_snoc_self. unfold somes. rewrite flat_map_app. apply subseq_app; [exact HJ|apply subseq_refl].
  - unfold somes. rewrite flat_map_app. cbn [flat_map]. rewrite !app_nil_r, got_app. apply subseq_app_r. exact HJ.
Qed.

Lemma from_trans s tr s1 es : binv s -> from_inv s tr -> trans s s1 es -> from_inv s1 (tr ++ es).
Proof.
  intros HB HJ HT. destruct HT; try (apply (from_same s); [exact HJ|reflexivity]);
    try (eapply (from_keep s); [exact HJ|reflexivity|]; exact I).
  - eapply (from_keep s); [exact HJ|reflexivity|]. destruct H0; try exact I; constructor.
  - eapply (from_keep s); [exact HJ|reflexivity|]. eapply from_consumes; eassumption.
  - eapply (from_keep s); [exact HJ|reflexivity|]. eapply from_consumes; eassumption.
  - eapply (from_keep s); [exact HJ|reflexivity|].
    change [EDelivered d r v; EGot i r (Some v)] with ([EDelivered d r v] ++ [EGot i r (Some v)]). rewrite app_assoc.
    eapply (from_consumes s (tr ++ [EDelivered d r v])); [|eassumption..]. apply (from_same s); [exact HJ|reflexivity].
  - eapply (from_keep s); [exact HJ|reflexivity|]. specialize (HJ i c H). destruct H4; [exact I|]. rewrite got_app. apply subseq_app_r. exact HJ.
  - eapply (from_keep s); [exact HJ|reflexivity|]. destruct c; cbn in H5; try discriminate; cbn [serve]; [exact I|].
    destruct parked; [|discriminate]. apply Nat.eqb_eq in H5. subst r0. specialize (HJ i _ H4). cbn in HJ.
    change [EDelivered d r v; EGot i r (Some v)] with ([EDelivered d r v] ++ [EGot i r (Some v)]). rewrite app_assoc, got_snoc_self.
    unfold somes. rewrite flat_map_app. apply subseq_app; [|apply subseq_refl]. rewrite got_app. apply subseq_app_r. exact HJ.
Qed.

Lemma returned_from cap n sched pre e post : snd (bus_exec cap n sched) = pre ++ e :: post ->
  match e with
  | EDrained _ r data => subseq data (got r pre)
  | ECollected _ r data => subseq (somes data) (got r pre)
  | _ => True
  end.
Proof.
  intros E. apply (bus_trace (fun pre e => match e with
    | EDrained _ r data => subseq data (got r pre)
    | ECollected _ r data => subseq (somes data) (got r pre)
    | _ => True
    end) from_inv cap n) in E; [exact E|..].
  - intros i c Hi. cbn [new_bus b_clients] in Hi. destruct (nth_repeat_idle n i) as [H|H]; rewrite H in Hi; [discriminate|]. injection Hi as <-. exact I.
  - intros s tr s1 es HB HJ HT _. exact (from_trans s tr s1 es HB HJ HT).
  - clear. intros s tr s1 es HB HJ HT _ a e b E. destruct HT; cut E; try exact I; rewrite app_nil_r; exact (HJ _ _ H).
Qed.
