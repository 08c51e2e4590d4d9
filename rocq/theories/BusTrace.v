(** What the event trace says about receivers and clients, and the properties that follow. *)
From Verif Require Import Common Bytes Threads BusModel BusSpec BusProofs.
Local Open Scope string_scope.
Local Open Scope list_scope.
Local Open Scope Z_scope.

(** ** Receivers *)

Definition touches (r : nat) (e : bevent) : bool :=
  match e with
  | EDelivered _ r' _ | EDropped _ r' _ | EIgnored _ r' _ | EReg _ r' _ _ _ | EClosedRecv r' | EGot _ r' (Some _) => Nat.eqb r' r
  | _ => false
  end.

Definition rinv (r : nat) (o : option recv) (tr : list bevent) : Prop :=
  match o with
  | None => forall e, In e tr -> touches r e = false
  | Some x =>
    delivered_to r tr = got r tr ++ r_buf x /\
    (r_closed x = true <-> In (EClosedRecv r) tr) /\
    (forall name cap st, made tr r name cap st <-> name = r_name x /\ cap = r_cap x /\ st = r_strategy x) /\
    (forall d v, In (EDropped d r v) tr -> r_strategy x = Drop) /\
    (forall d v, In (EIgnored d r v) tr -> r_strategy x <> Drop /\ r_strategy x <> Block)
  end.

Lemma In_snoc {A} (x : A) l e : In x (l ++ [e]) <-> In x l \/ x = e.
Proof. rewrite in_app_iff. cbn. intuition congruence. Qed.

Lemma made_snoc tr e r name cap st : made (tr ++ [e]) r name cap st <-> made tr r name cap st \/ exists i, e = EReg i r name cap st.
Proof.
  unfold made. split.
  - intros (i & H). apply In_snoc in H. destruct H as [H|H]; [left|right]; exists i; congruence.
  - intros [(i & H)|(i & ->)]; exists i; apply In_snoc; auto.
Qed.

Lemma rinv_skip r o tr e : touches r e = false -> rinv r o tr -> rinv r o (tr ++ [e]).
Proof.
  intros Ht. destruct o as [x|]; cbn [rinv].
  - intros (A & B & C & D & E). rewrite delivered_to_app, got_app, A, <- app_assoc.
    assert (E1 : delivered_to r [e] = []) by (destruct e; try reflexivity; cbn in *; rewrite Ht; reflexivity).
    assert (E2 : got r [e] = []) by (destruct e; try reflexivity; destruct v; try reflexivity; cbn in *; rewrite Ht; reflexivity).
    rewrite E1, E2, !app_nil_r. split; [reflexivity|].
    split; [rewrite In_snoc, B; split; [auto|]; intros [|<-]; [assumption|]; cbn in Ht; rewrite Nat.eqb_refl in Ht; discriminate|].
    split. { intros name cap st. rewrite made_snoc, <- C. split; [|auto]. intros [|(i & ->)]; [assumption|].
             cbn in Ht. rewrite Nat.eqb_refl in Ht. discriminate. }
    split; intros d v Hin; apply In_snoc in Hin; destruct Hin as [Hin|<-]; try (cbn in Ht; rewrite Nat.eqb_refl in Ht; discriminate);
      [apply (D d v)|apply (E d v)]; exact Hin.
  - intros H e' Hin. apply In_snoc in Hin. destruct Hin as [Hin| ->]; auto.
Qed.

Lemma rinv_skips r o es : forall tr, (forall e, In e es -> touches r e = false) -> rinv r o tr -> rinv r o (tr ++ es).
Proof.
  induction es as [|e es IH]; intros tr Ht H; [rewrite app_nil_r; exact H|].
  replace (tr ++ e :: es) with ((tr ++ [e]) ++ es) by (rewrite <- app_assoc; reflexivity).
  apply IH; [intros e' He'; apply Ht; right; exact He'|]. apply rinv_skip; [apply Ht; left; reflexivity|exact H].
Qed.

Lemma rinv_fresh r tr : rinv r None tr -> delivered_to r tr = [] /\ got r tr = [].
Proof.
  cbn. induction tr as [|e tr IH]; intros H; [split; reflexivity|].
  assert (He := H e (or_introl eq_refl)). destruct IH as (I1 & I2); [intros e' He'; apply H; right; exact He'|].
  change (e :: tr) with ([e] ++ tr). rewrite delivered_to_app, got_app, I1, I2, !app_nil_r.
  split; destruct e; try reflexivity; try (destruct v; try reflexivity); cbn in *; rewrite He; reflexivity.
Qed.

Lemma rinv_reg r tr i name cap st : rinv r None tr -> rinv r (Some (Recv name st cap [] false)) (tr ++ [EReg i r name cap st]).
Proof.
  intros H. destruct (rinv_fresh r tr H) as (A & B). cbn [rinv r_buf r_closed r_name r_cap r_strategy] in *.
  rewrite delivered_to_app, got_app, A, B. split; [reflexivity|].
  assert (N : forall e, touches r e = true -> ~ In e tr) by (intros e He Hin; rewrite (H e Hin) in He; discriminate).
  split. { rewrite In_snoc. split; [discriminate|]. intros [Hin|[=]]. exfalso. apply (N (EClosedRecv r)); [apply Nat.eqb_refl|exact Hin]. }
  split. { intros n c s. rewrite made_snoc. split.
           - intros [(j & Hin)|(j & [= -> -> -> ->])]; [|auto]. exfalso. apply (N (EReg j r n c s)); [apply Nat.eqb_refl|exact Hin].
           - intros (-> & -> & ->). right. exists i. reflexivity. }
  split; intros d v Hin; apply In_snoc in Hin; destruct Hin as [Hin|[=]]; exfalso; eapply N; try exact Hin; apply Nat.eqb_refl.
Qed.

(** One event about [r] that is no registration. *)
Lemma rinv_snoc r x y tr e :
  (forall i name cap st, e <> EReg i r name cap st) ->
  r_name y = r_name x -> r_cap y = r_cap x -> r_strategy y = r_strategy x ->
  (r_closed y = true <-> r_closed x = true \/ e = EClosedRecv r) ->
  (r_buf x ++ delivered_to r [e] = got r [e] ++ r_buf y) ->
  (forall d v, e = EDropped d r v -> r_strategy x = Drop) ->
  (forall d v, e = EIgnored d r v -> r_strategy x <> Drop /\ r_strategy x <> Block) ->
  rinv r (Some x) tr -> rinv r (Some y) (tr ++ [e]).
Proof.
  intros N E1 E2 E3 E4 E5 E6 E7 (A & B & C & D & E). cbn [rinv]. rewrite delivered_to_app, got_app, A, E1, E2, E3.
  split; [rewrite <- !app_assoc, E5; reflexivity|].
  split; [rewrite E4, In_snoc, B; intuition congruence|].
  split. { intros n c s. rewrite made_snoc, <- C. split; [|auto]. intros [|(i & He)]; [assumption|]. destruct (N _ _ _ _ He). }
  split; intros d v Hin; apply In_snoc in Hin; destruct Hin as [Hin|Hin]; eauto.
Qed.

Ltac flds := cbn [with_buf closed r_name r_cap r_strategy r_closed r_buf delivered_to got flat_map app]; rewrite ?Nat.eqb_refl, ?app_nil_r.

Lemma rinv_put r x tr d v : rinv r (Some x) tr -> rinv r (Some (with_buf x (r_buf x ++ [v]))) (tr ++ [EDelivered d r v]).
Proof. apply rinv_snoc; flds; try discriminate; try reflexivity. intuition congruence. Qed.
Lemma rinv_get r x tr i v rest : r_buf x = v :: rest -> rinv r (Some x) tr -> rinv r (Some (with_buf x rest)) (tr ++ [EGot i r (Some v)]).
Proof. intros E. apply rinv_snoc; flds; try discriminate; try reflexivity; [intuition congruence|]. rewrite E. reflexivity. Qed.
Lemma rinv_close r x tr : rinv r (Some x) tr -> rinv r (Some (closed x)) (tr ++ [EClosedRecv r]).
Proof. apply rinv_snoc; flds; try discriminate; try reflexivity. tauto. Qed.
Lemma rinv_drop r x tr d v : r_strategy x = Drop -> rinv r (Some x) tr -> rinv r (Some x) (tr ++ [EDropped d r v]).
Proof. intros E. apply rinv_snoc; flds; try discriminate; try reflexivity; auto. intuition congruence. Qed.
Lemma rinv_ignore r x tr d v : r_strategy x <> Drop -> r_strategy x <> Block -> rinv r (Some x) tr -> rinv r (Some x) (tr ++ [EIgnored d r v]).
Proof. intros E1 E2. apply rinv_snoc; flds; try discriminate; try reflexivity; auto. intuition congruence. Qed.
Lemma rinv_hand r x tr d i v : r_buf x = [] -> rinv r (Some x) tr -> rinv r (Some x) (tr ++ [EDelivered d r v; EGot i r (Some v)]).
Proof.
  intros E H. apply (rinv_put r x tr d v) in H. rewrite E in H. apply (rinv_get r _ _ i v []) in H; [|reflexivity].
  rewrite <- app_assoc in H. cbn [app with_buf r_name r_strategy r_cap r_closed] in H.
  replace x with (with_buf x []) at 1; [exact H|]. destruct x; cbn in *; subst; reflexivity.
Qed.

Definition all_rinv (s : bus) (tr : list bevent) : Prop := forall r, rinv r (nth_error (b_recvs s) r) tr.

Ltac skip := intros r'; apply rinv_skips; [|match goal with H : all_rinv _ _ |- _ => apply H end]; cbn; intros ? Hin; repeat (destruct Hin as [<-|Hin]; [reflexivity|]); contradiction.
Ltac other := apply rinv_skips; [|match goal with H : all_rinv _ _ |- _ => apply H end]; cbn; intros ? Hin;
  repeat (destruct Hin as [<-|Hin]; [cbn; first [reflexivity|apply Nat.eqb_neq; lia]|]); contradiction.

Lemma In_map_touch r l i e : In e (map EClosedRecv l ++ [EBusClosed i]) -> ~ In r l -> touches r e = false.
Proof.
  intros Hin Hn. apply In_snoc in Hin. destruct Hin as [Hin| ->]; [|reflexivity].
  apply in_map_iff in Hin. destruct Hin as (r0 & <- & Hin). cbn. apply Nat.eqb_neq. congruence.
Qed.

Lemma existsb_In r l : existsb (Nat.eqb r) l = true <-> In r l.
Proof.
  rewrite existsb_exists. split.
  - intros (x & Hx & E). apply Nat.eqb_eq in E. congruence.
  - intros H. exists r. split; [exact H|apply Nat.eqb_refl].
Qed.

Lemma rinv_trans s tr s1 es : binv s -> all_rinv s tr -> trans s s1 es -> all_rinv s1 (tr ++ es).
Proof.
  intros HB HJ HT. destruct HT; try skip.
  - (* register *)
    intros r. cbn [register fst snd set_client b_recvs].
    destruct (Nat.lt_trichotomy r (length (b_recvs s))) as [Hlt|[->|Hgt]].
    + rewrite nth_error_app1 by exact Hlt. other.
    + rewrite nth_error_app2, Nat.sub_diag by lia. cbn [nth_error]. apply rinv_reg.
      assert (E : nth_error (b_recvs s) (length (b_recvs s)) = None) by (apply nth_error_None; lia). rewrite <- E. apply HJ.
    + assert (E : nth_error (b_recvs s) r = None) by (apply nth_error_None; lia).
      assert (E' : nth_error (b_recvs s ++ [Recv name st cap [] false]) r = None) by (apply nth_error_None; rewrite app_length; cbn; lia).
      rewrite E', <- E. other.
  - (* deregister *)
    intros r0. cbn [set_client set_map set_recv b_recvs]. destruct (Nat.eq_dec r' r0) as [<-|Hne].
    + rewrite (nth_error_upd_same _ _ _ _ H4). change [EClosedRecv r'; ECloseReturns i r] with ([EClosedRecv r'] ++ [ECloseReturns i r]).
      rewrite app_assoc. apply rinv_skip; [reflexivity|]. apply rinv_close. rewrite <- H4. apply HJ.
    + rewrite nth_error_upd_other by exact Hne. other.
  - (* bus close *)
    intros r0. cbn [set_client b_recvs]. rewrite close_all_nth.
    destruct (existsb (Nat.eqb r0) (map snd (b_map s))) eqn:E.
    + pose proof (proj1 (existsb_In _ _) E) as Hin. apply in_split in Hin. destruct Hin as (l1 & l2 & El).
      pose proof (i_ids s HB) as ND. rewrite El in *. apply NoDup_remove_2 in ND. rewrite in_app_iff in ND.
      rewrite map_app. cbn [map]. rewrite <- app_assoc. cbn [app]. rewrite app_assoc.
      replace ((tr ++ map EClosedRecv l1) ++ EClosedRecv r0 :: map EClosedRecv l2 ++ [EBusClosed i]) with
        (((tr ++ map EClosedRecv l1) ++ [EClosedRecv r0]) ++ (map EClosedRecv l2 ++ [EBusClosed i])) by (rewrite <- !app_assoc; reflexivity).
      apply rinv_skips; [intros e He; apply (In_map_touch _ _ _ _ He); tauto|].
      assert (HI : rinv r0 (nth_error (b_recvs s) r0) (tr ++ map EClosedRecv l1)).
      { apply rinv_skips; [|apply HJ]. intros e He. apply (In_map_touch r0 l1 i e); [apply in_or_app; auto|tauto]. }
      destruct (nth_error (b_recvs s) r0) as [x|] eqn:Ex; [apply rinv_close; exact HI|].
      exfalso. assert (Hin : In r0 (map snd (b_map s))) by (rewrite El; apply in_or_app; right; left; reflexivity).
      apply in_map_iff in Hin. destruct Hin as ((nm & r1) & E1 & Hin). cbn in E1. subst r1. destruct (i_map s HB _ _ Hin) as (x & Hx & _). congruence.
    + assert (Hn : ~ In r0 (map snd (b_map s))) by (rewrite <- existsb_In, E; discriminate).
      replace (match nth_error (b_recvs s) r0 with Some x => Some x | None => None end) with (nth_error (b_recvs s) r0)
        by (destruct (nth_error (b_recvs s) r0); reflexivity).
      apply rinv_skips; [|apply HJ]. intros e He. apply (In_map_touch _ _ _ _ He Hn).
  - (* take from the buffer *)
    intros r0. cbn [set_client set_recv b_recvs]. destruct (Nat.eq_dec r r0) as [<-|Hne].
    + rewrite (nth_error_upd_same _ _ _ _ H0). apply (rinv_get r x tr i v rest H1). rewrite <- H0. apply HJ.
    + rewrite nth_error_upd_other by exact Hne. other.
  - (* from a blocked dispatcher *)
    intros r0. cbn [set_client set_disp b_recvs]. destruct (Nat.eq_dec r r0) as [<-|Hne]; [|other].
    rewrite H0. apply rinv_hand; [exact H1|]. rewrite <- H0. apply HJ.
  - (* hand over *)
    intros r0. cbn [set_client set_disp b_recvs]. destruct (Nat.eq_dec r r0) as [<-|Hne]; [|other].
    rewrite H1. apply rinv_hand; [|rewrite <- H1; apply HJ]. apply (i_park s HB r x i c); assumption.
  - (* buffered *)
    intros r0. cbn [set_disp set_recv b_recvs]. destruct (Nat.eq_dec r r0) as [<-|Hne].
    + rewrite (nth_error_upd_same _ _ _ _ H1). apply rinv_put. rewrite <- H1. apply HJ.
    + rewrite nth_error_upd_other by exact Hne. other.
  - intros r0. cbn [set_disp b_recvs]. destruct (Nat.eq_dec r r0) as [<-|Hne]; [|other].
    rewrite H1. apply rinv_drop; [assumption|]. rewrite <- H1. apply HJ.
  - intros r0. cbn [set_disp b_recvs]. destruct (Nat.eq_dec r r0) as [<-|Hne]; [|other].
    rewrite H1. apply rinv_ignore; [assumption..|]. rewrite <- H1. apply HJ.
Qed.

Lemma all_rinv_new cap n : all_rinv (new_bus cap n) [].
Proof. intros [|r]; cbn; intros e []. Qed.

Lemma all_rinv_exec cap n sched : all_rinv (fst (bus_exec cap n sched)) (snd (bus_exec cap n sched)).
Proof.
  apply (bus_inv all_rinv cap n); [apply all_rinv_new|]. intros s tr s1 es HB HJ HT _. exact (rinv_trans s tr s1 es HB HJ HT).
Qed.

(** ** Clients *)

Lemma waiting_snoc i r tr e : waiting i r (tr ++ [e]) =
  match e with
  | EWaits i' r' => if Nat.eqb i' i then Nat.eqb r' r else waiting i r tr
  | EGot i' _ _ | ECollected i' _ _ => if Nat.eqb i' i then false else waiting i r tr
  | _ => waiting i r tr
  end.
Proof. unfold waiting. rewrite fold_left_app. cbn. destruct e; reflexivity. Qed.

Lemma received_snoc i tr e : received i (tr ++ [e]) =
  match e with
  | ECall i' _ => if Nat.eqb i' i then [] else received i tr
  | EGot i' _ v => if Nat.eqb i' i then received i tr ++ [v] else received i tr
  | _ => received i tr
  end.
Proof. unfold received. rewrite fold_left_app. cbn. destruct e; reflexivity. Qed.

Definition cinv (i : nat) (o : option cpc) (tr : list bevent) : Prop :=
  match o with
  | None => forall r, waiting i r tr = false
  | Some c => (forall r, waiting i r tr = parked_on c r) /\
    match c with
    | CDrain _ acc => received i tr = map Some acc
    | CCollect _ acc _ => received i tr = acc
    | _ => True
    end
  end.

(** Events by which the trace of goroutine [i] does not change. *)
Definition quiet (i : nat) (e : bevent) : bool :=
  match e with
  | EWaits i' _ | EGot i' _ _ | ECollected i' _ _ | ECall i' _ => negb (Nat.eqb i' i)
  | _ => true
  end.

Lemma cinv_quiet1 i o tr e : quiet i e = true -> cinv i o tr -> cinv i o (tr ++ [e]).
Proof.
  intros Hq. assert (W : forall r, waiting i r (tr ++ [e]) = waiting i r tr).
  { intros r. rewrite waiting_snoc. destruct e; try reflexivity; cbn in Hq; apply negb_true_iff in Hq; rewrite Hq; reflexivity. }
  assert (R : received i (tr ++ [e]) = received i tr).
  { rewrite received_snoc. destruct e; try reflexivity; cbn in Hq; apply negb_true_iff in Hq; rewrite Hq; reflexivity. }
  destruct o as [c|]; cbn [cinv].
  - intros (A & B). split; [intros r; rewrite W; apply A|]. rewrite R. exact B.
  - intros A r. rewrite W. apply A.
Qed.

Lemma cinv_quiet i o es : forall tr, forallb (quiet i) es = true -> cinv i o tr -> cinv i o (tr ++ es).
Proof.
  induction es as [|e es IH]; intros tr Hq H; [rewrite app_nil_r; exact H|]. cbn in Hq. apply andb_true_iff in Hq. destruct Hq as (Q1 & Q2).
  replace (tr ++ e :: es) with ((tr ++ [e]) ++ es) by (rewrite <- app_assoc; reflexivity).
  apply IH; [exact Q2|]. apply cinv_quiet1; assumption.
Qed.

Definition all_cinv (s : bus) (tr : list bevent) : Prop := forall i, cinv i (nth_error (b_clients s) i) tr.

(** Only client [i0] changes, the events concern no other client. *)
Lemma cinv_client s s1 tr es i0 c0 c : all_cinv s tr -> nth_error (b_clients s) i0 = Some c0 -> b_clients s1 = upd i0 c (b_clients s) ->
  (forall i, i0 <> i -> forallb (quiet i) es = true) ->
  (cinv i0 (Some c0) tr -> cinv i0 (Some c) (tr ++ es)) -> all_cinv s1 (tr ++ es).
Proof.
  intros HJ Hi E Hq Hc i. rewrite E. destruct (Nat.eq_dec i0 i) as [<-|Hne].
  - rewrite (nth_error_upd_same _ _ _ _ Hi). apply Hc. rewrite <- Hi. apply HJ.
  - rewrite nth_error_upd_other by exact Hne. apply cinv_quiet; [apply Hq; exact Hne|apply HJ].
Qed.

Lemma cinv_same s s1 tr es : all_cinv s tr -> b_clients s1 = b_clients s -> (forall i, forallb (quiet i) es = true) -> all_cinv s1 (tr ++ es).
Proof. intros HJ E Hq i. rewrite E. apply cinv_quiet; [apply Hq|apply HJ]. Qed.

Lemma quiet_closed i j rs : forallb (quiet i) (map EClosedRecv rs ++ [EBusClosed j]) = true.
Proof. induction rs as [|r rs IH]; [reflexivity|]. cbn. exact IH. Qed.

Lemma cinv_to_idle i c c' tr es : (forall r, parked_on c r = false) -> (forall r, parked_on c' r = false) ->
  (forall r acc, c' <> CDrain r acc) -> (forall r acc p, c' <> CCollect r acc p) ->
  (forall r tr, waiting i r tr = false -> waiting i r (tr ++ es) = false) -> cinv i (Some c) tr -> cinv i (Some c') (tr ++ es).
Proof.
  intros H1 H2 H3 H4 H5 (A & _). split; [|destruct c'; auto; [destruct (H3 _ _ eq_refl)|destruct (H4 _ _ _ eq_refl)]].
  intros r. rewrite H2. apply H5. rewrite A. apply H1.
Qed.

Lemma cinv_got i c r ov c' tr : consumes c r ov c' -> cinv i (Some c) tr -> cinv i (Some c') (tr ++ [EGot i r ov]).
Proof.
  intros Hc. destruct Hc; cbn [cinv parked_on]; intros (A & B); split; auto; try (intros r0; rewrite waiting_snoc, Nat.eqb_refl; reflexivity);
    rewrite received_snoc, Nat.eqb_refl, B, ?map_app; reflexivity.
Qed.

Lemma cinv_serve i c r v tr : parked_on c r = true -> cinv i (Some c) tr -> cinv i (Some (serve c (Some v))) (tr ++ [EGot i r (Some v)]).
Proof.
  destruct c; cbn [parked_on]; try discriminate; cbn [serve]; intros Hp (A & B); split; auto;
    try (intros r1; rewrite waiting_snoc, Nat.eqb_refl; reflexivity).
  rewrite received_snoc, Nat.eqb_refl, B. reflexivity.
Qed.

Lemma quiet_got i i0 r ov : i0 <> i -> forallb (quiet i) [EGot i0 r ov] = true.
Proof. intros H. cbn. destruct (Nat.eqb_spec i0 i); [congruence|reflexivity]. Qed.

Ltac quiet_tac := let i := fresh "i" in let H := fresh "H" in intros i H; cbn; try reflexivity; rewrite (proj2 (Nat.eqb_neq _ _) H); reflexivity.
Ltac idle := apply cinv_to_idle; [intros; try reflexivity|intros; try reflexivity|discriminate|discriminate|].

Lemma waiting_app1 i r tr e es : waiting i r (tr ++ e :: es) = waiting i r ((tr ++ [e]) ++ es).
Proof. rewrite <- app_assoc. reflexivity. Qed.

Ltac wt := intros ? ? ?; first [rewrite waiting_snoc; assumption|rewrite waiting_app1, !waiting_snoc; assumption].

Lemma cinv_trans s tr s1 es : binv s -> all_cinv s tr -> trans s s1 es -> all_cinv s1 (tr ++ es).
Proof.
  intros HB HJ HT.
  destruct HT; try (apply (cinv_same s); [exact HJ|reflexivity|reflexivity]).
  - (* call *)
    apply (cinv_client s _ tr _ i CIdle c HJ H); [reflexivity|quiet_tac|].
    intros (A & _). destruct H0; cbn [cinv parked_on] in *;
      (split; [intros r0; rewrite waiting_snoc; apply A|]); auto; rewrite received_snoc, Nat.eqb_refl; reflexivity.
  - apply (cinv_client s _ tr _ i CIdle CDead HJ H); [reflexivity|quiet_tac|]. idle. wt.
  - apply (cinv_client s _ tr _ i CIdle CBusClose HJ H); [reflexivity|quiet_tac|]. idle. wt.
  - (* go *)
    intros j. cbn [b_clients]. destruct (Nat.eq_dec i j) as [<-|Hne].
    + pose proof (HJ i) as Hi. rewrite H in *. revert Hi. idle. wt.
    + apply cinv_quiet; [|apply HJ]. cbn. destruct (Nat.eqb_spec i j); [congruence|reflexivity].
  - apply (cinv_client s _ tr _ i _ CDead HJ H); [reflexivity|quiet_tac|]. idle. wt.
  - apply (cinv_client s _ tr _ i _ CIdle HJ H); [reflexivity|quiet_tac|]. idle. wt.
  - apply (cinv_client s _ tr _ i _ CIdle HJ H); [reflexivity|quiet_tac|]. idle. wt.
  - apply (cinv_client s _ tr _ i _ CIdle HJ H); [reflexivity|quiet_tac|]. idle. cbn [register snd]. wt.
  - apply (cinv_client s _ tr _ i _ CDead HJ H); [reflexivity|quiet_tac|]. idle. wt.
  - apply (cinv_client s _ tr _ i _ CIdle HJ H); [reflexivity|quiet_tac|]. idle. wt.
  - apply (cinv_client s _ tr _ i _ CDead HJ H); [reflexivity|quiet_tac|]. idle. wt.
  - apply (cinv_client s _ tr _ i _ CIdle HJ H); [reflexivity|intros j _; apply quiet_closed|]. intros Hi.
    apply cinv_quiet; [apply quiet_closed|]. destruct Hi as (A & _). split; [exact A|exact I].
  - apply (cinv_client s _ tr _ i _ c' HJ H); [reflexivity|intros j; apply quiet_got|]. apply cinv_got; assumption.
  - apply (cinv_client s _ tr _ i _ c' HJ H); [reflexivity|intros j; apply quiet_got|]. apply cinv_got; assumption.
  - apply (cinv_client s _ tr _ i _ c' HJ H); [reflexivity|quiet_tac|]. intros Hi.
    change [EDelivered d r v; EGot i r (Some v)] with ([EDelivered d r v] ++ [EGot i r (Some v)]). rewrite app_assoc.
    apply (cinv_got i c); [assumption|]. apply cinv_quiet1; [reflexivity|exact Hi].
  - (* park *)
    apply (cinv_client s _ tr _ i _ c' HJ H); [reflexivity|quiet_tac|]. destruct H4; intros (A & B); split; auto;
      try (intros r0; rewrite waiting_snoc, Nat.eqb_refl; reflexivity). rewrite received_snoc. exact B.
  - apply (cinv_client s _ tr _ i _ CIdle HJ H); [reflexivity|quiet_tac|]. idle. wt.
  - apply (cinv_client s _ tr _ i _ CIdle HJ H); [reflexivity|quiet_tac|]. intros (A & _). split; [|exact I].
    intros r0. rewrite waiting_snoc, Nat.eqb_refl. reflexivity.
  - (* hand *)
    apply (cinv_client s _ tr _ i _ (serve c (Some v)) HJ H4); [reflexivity|quiet_tac|]. intros Hi.
    change [EDelivered d r v; EGot i r (Some v)] with ([EDelivered d r v] ++ [EGot i r (Some v)]). rewrite app_assoc.
    apply cinv_serve; [assumption|]. apply cinv_quiet1; [reflexivity|exact Hi].
Qed.

Lemma nth_repeat_idle n i : nth_error (repeat CIdle n) i = None \/ nth_error (repeat CIdle n) i = Some CIdle.
Proof. revert i. induction n as [|n IH]; intros [|i]; cbn; auto. Qed.

Lemma all_cinv_new cap n : all_cinv (new_bus cap n) [].
Proof. intros i. cbn [new_bus b_clients]. destruct (nth_repeat_idle n i) as [-> | ->]; cbn; auto. Qed.

Lemma all_cinv_exec cap n sched : all_cinv (fst (bus_exec cap n sched)) (snd (bus_exec cap n sched)).
Proof.
  apply (bus_inv all_cinv cap n); [apply all_cinv_new|]. intros s tr s1 es HB HJ HT _. exact (cinv_trans s tr s1 es HB HJ HT).
Qed.

(** ** Registrations *)

Definition regn (tr : list bevent) (r : nat) (name : string) : Prop :=
  exists i cap strategy a b, tr = a ++ EReg i r name cap strategy :: b /\
    ~ In (EClosedRecv r) b /\ forall i' r' cap' strategy', ~ In (EReg i' r' name cap' strategy') b.

Lemma registered_regn tr r : registered tr r <-> exists name, regn tr r name.
Proof.
  split.
  - intros (i & name & cap & st & a & b & H). exists name, i, cap, st, a, b. exact H.
  - intros (name & i & cap & st & a & b & H). exists i, name, cap, st, a, b. exact H.
Qed.

Lemma snoc_cut {A} (l : list A) e a x b : l ++ [e] = a ++ x :: b -> (l = a /\ e = x /\ b = []) \/ exists b', b = b' ++ [e] /\ l = a ++ x :: b'.
Proof.
  destruct (rev b) as [|y br] eqn:E.
  - apply (f_equal (@rev A)) in E. rewrite rev_involutive in E. cbn in E. subst b. intros H. apply app_inj_tail in H. destruct H as (-> & ->). auto.
  - apply (f_equal (@rev A)) in E. rewrite rev_involutive in E. cbn in E. subst b.
    change (a ++ x :: rev br ++ [y]) with (a ++ (x :: rev br) ++ [y]). rewrite app_assoc. intros H. apply app_inj_tail in H.
    destruct H as (-> & ->). right. exists (rev br). auto.
Qed.

Lemma regn_snoc tr e r name : regn (tr ++ [e]) r name <->
  (exists i cap st, e = EReg i r name cap st) \/
  (regn tr r name /\ e <> EClosedRecv r /\ forall i' r' cap' st', e <> EReg i' r' name cap' st').
Proof.
  split.
  - intros (i & cap & st & a & b & E & H1 & H2). apply snoc_cut in E. destruct E as [(-> & -> & ->)|(b' & -> & ->)].
    + left. exists i, cap, st. reflexivity.
    + right. split; [exists i, cap, st, a, b'; split; [reflexivity|]; split|split].
      * intros Hin. apply H1. apply in_or_app. auto.
      * intros i' r' c' s' Hin. apply (H2 i' r' c' s'). apply in_or_app. auto.
      * intros ->. apply H1. apply in_or_app. right. left. reflexivity.
      * intros i' r' c' s' ->. apply (H2 i' r' c' s'). apply in_or_app. right. left. reflexivity.
  - intros [(i & cap & st & ->)|((i & cap & st & a & b & -> & H1 & H2) & H3 & H4)].
    + exists i, cap, st, tr, []. split; [reflexivity|]. split; intros; intros [].
    + exists i, cap, st, a, (b ++ [e]). split; [rewrite <- app_assoc; reflexivity|]. split.
      * rewrite In_snoc. intros [H|H]; [auto|congruence].
      * intros i' r' c' s'. rewrite In_snoc. intros [H|H]; [apply (H2 _ _ _ _ H)|symmetry in H; apply (H4 _ _ _ _ H)].
Qed.

Definition all_regs (s : bus) (tr : list bevent) : Prop := forall name r, In (name, r) (b_map s) <-> regn tr r name.

Definition reg_event (e : bevent) : bool := match e with EReg _ _ _ _ _ | EClosedRecv _ => true | _ => false end.

Lemma regn_neutral es : forall tr r name, existsb reg_event es = false -> regn (tr ++ es) r name <-> regn tr r name.
Proof.
  induction es as [|e es IH]; intros tr r name He; [rewrite app_nil_r; reflexivity|]. cbn in He. apply orb_false_iff in He. destruct He as (E1 & E2).
  replace (tr ++ e :: es) with ((tr ++ [e]) ++ es) by (rewrite <- app_assoc; reflexivity).
  rewrite (IH _ r name E2), regn_snoc. split.
  - intros [(i & cap & st & ->)|(H & _)]; [discriminate E1|exact H].
  - intros H. right. split; [exact H|]. split; [|intros i' r' c' s']; intros ->; discriminate E1.
Qed.

Lemma regn_close_all rs : forall tr r name, regn (tr ++ map EClosedRecv rs) r name <-> regn tr r name /\ ~ In r rs.
Proof.
  induction rs as [|r0 rs IH]; intros tr r name; cbn [map].
  - rewrite app_nil_r. cbn. tauto.
  - replace (tr ++ EClosedRecv r0 :: map EClosedRecv rs) with ((tr ++ [EClosedRecv r0]) ++ map EClosedRecv rs) by (rewrite <- app_assoc; reflexivity).
    rewrite IH, regn_snoc. cbn [In]. split.
    + intros ([(i & cap & st & [=])|(H & H1 & _)] & H2). split; [exact H|]. intros [<-|]; auto.
    + intros (H & Hn). split; [right; split; [exact H|]; split; [|discriminate]|auto]. intros [= <-]. apply Hn. auto.
Qed.

Lemma regs_trans s tr s1 es : binv s -> all_regs s tr -> trans s s1 es -> all_regs s1 (tr ++ es).
Proof.
  intros HB HJ HT. destruct HT; try (intros nm r1; rewrite regn_neutral by reflexivity; apply HJ).
  - (* register *)
    intros nm r. cbn [register fst snd set_client b_map]. unfold assign. rewrite in_app_iff, In_remove, regn_snoc, (HJ nm r). cbn [In].
    split.
    + intros [(H2 & H3)|[[= <- <-]|[]]]; [right|left; eauto]. split; [exact H2|]. split; [discriminate|]. intros i' r' c' s' [= _ _ E _ _]. congruence.
    + intros [(i' & c' & s' & [= _ <- <- _ _])|(H2 & _ & H3)]; [right; left; reflexivity|left]. split; [exact H2|].
      intros ->. apply (H3 i (length (b_recvs s)) cap st). reflexivity.
  - (* deregister *)
    intros nm r1. change [EClosedRecv r'; ECloseReturns i r] with ([EClosedRecv r'] ++ [ECloseReturns i r]). rewrite app_assoc, (regn_neutral [ECloseReturns i r]) by reflexivity.
    cbn [set_client set_map b_map]. rewrite In_remove, regn_snoc, <- (HJ nm r1). apply lookup_In in H3. split.
    + intros (A & B). right. split; [exact A|]. split; [|discriminate]. intros [= <-]. apply B.
      destruct (i_map s HB _ _ A) as (y & Hy & Ey & _). destruct (i_map s HB _ _ H3) as (z & Hz & Ez & _). congruence.
    + intros [(i' & c' & s' & [=])|(A & B & _)]. split; [exact A|]. intros ->. apply B. f_equal.
      pose proof (In_lookup _ _ _ (i_keys s HB) A). pose proof (In_lookup _ _ _ (i_keys s HB) H3). congruence.
  - (* bus close *)
    intros nm r1. rewrite app_assoc, (regn_neutral [EBusClosed i]) by reflexivity. rewrite regn_close_all, <- (HJ nm r1).
    cbn [set_client b_map]. split; [intros []|]. intros (A & B). apply B. apply in_map_iff. exists (nm, r1). auto.
Qed.

Lemma all_regs_new cap n : all_regs (new_bus cap n) [].
Proof. intros name r. split; [intros []|]. intros (i & c & st & a & b & E & _). destruct a; discriminate E. Qed.

(** ** Which call a client is in, which event a dispatcher has *)

Definition op_of (c : cpc) : option bop :=
  match c with
  | CIdle | CDead => None
  | CSend v => Some (OpSend v)
  | CNew name cap st => Some (OpNew name cap st)
  | CClose r => Some (OpClose r)
  | CBusClose => Some OpBusClose
  | CRecv r _ => Some (OpRecv r)
  | CDrain r _ => Some (OpDrain r)
  | CCollect r _ _ => Some (OpCollect r)
  end.

Definition call_next (i : nat) (o : option bop) (e : bevent) : option bop :=
  match e with
  | ECall i' o' => if Nat.eqb i' i then Some o' else o
  | ESent i' _ | EReg i' _ _ _ _ | ECloseReturns i' _ | EBusClosed i' | EDrained i' _ _ | ECollected i' _ _
  | EGone i' | EClientPanic i' | EClosePanic i' => if Nat.eqb i' i then None else o
  | EGot i' _ _ => if Nat.eqb i' i then match o with Some (OpRecv _) => None | _ => o end else o
  | _ => o
  end.

Lemma in_call_app i tr es : in_call i (tr ++ es) = fold_left (call_next i) es (in_call i tr).
Proof. unfold in_call. rewrite fold_left_app. reflexivity. Qed.

Definition panics (i : nat) (e : bevent) : bool :=
  match e with EClientPanic j | EClosePanic j => Nat.eqb j i | _ => false end.

Definition dinv (i : nat) (o : option cpc) (tr : list bevent) : Prop :=
  match o with
  | None => True
  | Some c => in_call i tr = op_of c /\ (c = CDead <-> existsb (panics i) tr = true)
  end.

Definition all_dinv (n : nat) (s : bus) (tr : list bevent) : Prop :=
  length (b_clients s) = n /\ forall i, dinv i (nth_error (b_clients s) i) tr.

Lemma dinv_step n s s1 tr es i0 c0 c : all_dinv n s tr -> nth_error (b_clients s) i0 = Some c0 -> b_clients s1 = upd i0 c (b_clients s) ->
  (forall i o, i0 <> i -> fold_left (call_next i) es o = o /\ existsb (panics i) es = false) ->
  fold_left (call_next i0) es (op_of c0) = op_of c -> (c0 = CDead \/ existsb (panics i0) es = true <-> c = CDead) ->
  all_dinv n s1 (tr ++ es).
Proof.
  intros (HL & HJ) Hi E Ho Hc Hd. split; [rewrite E, upd_length; exact HL|]. intros i. rewrite E. destruct (Nat.eq_dec i0 i) as [<-|Hne].
  - rewrite (nth_error_upd_same _ _ _ _ Hi). specialize (HJ i0). rewrite Hi in HJ. destruct HJ as (J1 & J2).
    cbn [dinv]. rewrite in_call_app, J1, existsb_app, orb_true_iff, <- J2. split; [exact Hc|]. rewrite Hd. reflexivity.
  - rewrite nth_error_upd_other by exact Hne. specialize (HJ i). destruct (nth_error (b_clients s) i) as [c1|]; [|exact I].
    destruct HJ as (J1 & J2). cbn [dinv]. destruct (Ho i (in_call i tr) Hne) as (O1 & O2). rewrite in_call_app, O1, existsb_app, O2, orb_false_r. auto.
Qed.

Lemma dinv_same n s s1 tr es : all_dinv n s tr -> b_clients s1 = b_clients s ->
  (forall i o, fold_left (call_next i) es o = o /\ existsb (panics i) es = false) -> all_dinv n s1 (tr ++ es).
Proof.
  intros (HL & HJ) E Ho. split; [rewrite E; exact HL|]. intros i. rewrite E. specialize (HJ i).
  destruct (nth_error (b_clients s) i) as [c1|]; [|exact I].
  destruct HJ as (J1 & J2). cbn [dinv]. destruct (Ho i (in_call i tr)) as (O1 & O2). rewrite in_call_app, O1, existsb_app, O2, orb_false_r. auto.
Qed.

Ltac dother := let i := fresh "i" in let H := fresh "H" in intros i ? H; cbn; rewrite ?(proj2 (Nat.eqb_neq _ _) H); split; reflexivity.
Ltac dself := cbn; rewrite ?Nat.eqb_refl; first [reflexivity|solve [split; [intros [[=]|[=]]|intros [=]]]|solve [split; auto]].
Ltac dstep HJ H := eapply (dinv_step _ _ _ _ _ _ _ _ HJ H); [reflexivity|dother|dself|dself].

Lemma fold_closed i j rs o : fold_left (call_next i) (map EClosedRecv rs ++ [EBusClosed j]) o = (if Nat.eqb j i then None else o) /\
  existsb (panics i) (map EClosedRecv rs ++ [EBusClosed j]) = false.
Proof. induction rs as [|r rs IH]; [split; reflexivity|]. exact IH. Qed.

Lemma consumes_op c r ov c' i : consumes c r ov c' -> call_next i (op_of c) (EGot i r ov) = op_of c' /\ c <> CDead /\ c' <> CDead.
Proof. intros H. destruct H; cbn; rewrite Nat.eqb_refl; split; try reflexivity; split; discriminate. Qed.

Lemma dinv_trans n s tr s1 es : binv s -> all_dinv n s tr -> trans s s1 es -> all_dinv n s1 (tr ++ es).
Proof.
  intros HB HJ HT.
  destruct HT; try (apply (dinv_same n s); [exact HJ|reflexivity|split; reflexivity]); try (dstep HJ H; fail).
  - (* call *)
    eapply (dinv_step n s _ tr _ i CIdle c HJ H); [reflexivity|dother| |]; destruct H0; dself.
  - (* go *)
    split; [exact (proj1 HJ)|]. intros j. cbn [b_clients]. pose proof (proj2 HJ j) as Hj.
    destruct (nth_error (b_clients s) j) as [c|] eqn:Ej; [|exact I]. destruct Hj as (J1 & J2). cbn [dinv].
    rewrite in_call_app, J1, existsb_app. cbn. rewrite orb_false_r. split; [|exact J2].
    destruct (Nat.eqb_spec i j) as [->|]; [|reflexivity]. rewrite H in Ej. injection Ej as <-. reflexivity.
  - (* bus close *)
    eapply (dinv_step n s _ tr _ i _ CIdle HJ H); [reflexivity|..].
    + intros j o Hne. destruct (fold_closed j i (map snd (b_map s)) o) as (-> & ->). rewrite (proj2 (Nat.eqb_neq _ _) Hne). auto.
    + destruct (fold_closed i i (map snd (b_map s)) (op_of CBusClose)) as (-> & _). rewrite Nat.eqb_refl. reflexivity.
    + destruct (fold_closed i i (map snd (b_map s)) None) as (_ & ->). split; [intros [[=]|[=]]|intros [=]].
  - destruct (consumes_op _ _ _ _ i H2) as (C1 & C2 & C3).
    eapply (dinv_step n s _ tr _ i _ c' HJ H); [reflexivity|dother|exact C1|]. cbn. split; [intros [|[=]]; contradiction|intros; contradiction].
  - destruct (consumes_op _ _ _ _ i H3) as (C1 & C2 & C3).
    eapply (dinv_step n s _ tr _ i _ c' HJ H); [reflexivity|dother|exact C1|]. cbn. split; [intros [|[=]]; contradiction|intros; contradiction].
  - destruct (consumes_op _ _ _ _ i H4) as (C1 & C2 & C3).
    eapply (dinv_step n s _ tr _ i _ c' HJ H); [reflexivity|dother|exact C1|]. cbn. split; [intros [|[=]]; contradiction|intros; contradiction].
  - eapply (dinv_step n s _ tr _ i _ c' HJ H); [reflexivity|dother| |]; destruct H4; dself.
  - eapply (dinv_step n s _ tr _ i _ (serve c (Some v)) HJ H4); [reflexivity|dother| |]; destruct c; cbn in H5; try discriminate; dself.
Qed.

Lemma busy_app d tr es : busy d (tr ++ es) = fold_left (fun b e => match e with
    | ETaken d' v => if Nat.eqb d' d then Some v else b
    | EFinish d' _ => if Nat.eqb d' d then None else b
    | _ => b
    end) es (busy d tr).
Proof. unfold busy. rewrite fold_left_app. reflexivity. Qed.

Definition has_event (p : dpc) : option Z :=
  match p with DLock v | DIter v _ | DBlocked v _ _ => Some v | _ => None end.

Definition all_busy (s : bus) (tr : list bevent) : Prop :=
  forall d, busy d tr = match nth_error (b_disp s) d with Some p => has_event p | None => None end.

Lemma busy_step s s1 tr es d0 p0 p : all_busy s tr -> nth_error (b_disp s) d0 = Some p0 -> b_disp s1 = upd d0 p (b_disp s) ->
  (forall d, d0 <> d -> busy d (tr ++ es) = busy d tr) -> busy d0 (tr ++ es) = has_event p -> all_busy s1 (tr ++ es).
Proof.
  intros HJ Hd E Ho Hp d. rewrite E. destruct (Nat.eq_dec d0 d) as [<-|Hne].
  - rewrite (nth_error_upd_same _ _ _ _ Hd). exact Hp.
  - rewrite nth_error_upd_other, Ho by exact Hne. apply HJ.
Qed.

Lemma busy_closed d tr rs i : busy d (tr ++ map EClosedRecv rs ++ [EBusClosed i]) = busy d tr.
Proof.
  rewrite busy_app. induction rs as [|r rs IH]; [reflexivity|]. exact IH.
Qed.

Lemma offers_has p v r todo : offers p v r todo -> has_event p = Some v.
Proof. intros []; reflexivity. Qed.

Lemma busy_trans s tr s1 es : binv s -> all_busy s tr -> trans s s1 es -> all_busy s1 (tr ++ es).
Proof.
  intros HB HJ HT.
  assert (Old : forall d p, nth_error (b_disp s) d = Some p -> busy d tr = has_event p) by (intros d p Hd; rewrite HJ, Hd; reflexivity).
  destruct HT; try (intros d1; rewrite busy_app; apply HJ).
  - (* go *)
    intros d1. rewrite busy_app. cbn [b_disp fold_left]. rewrite HJ.
    destruct (Nat.lt_trichotomy d1 (length (b_disp s))) as [Hlt|[->|Hgt]].
    + rewrite nth_error_app1 by exact Hlt. reflexivity.
    + rewrite nth_error_app2, Nat.sub_diag by lia. cbn.
      assert (E : nth_error (b_disp s) (length (b_disp s)) = None) by (apply nth_error_None; lia). rewrite E. reflexivity.
    + assert (E : nth_error (b_disp s) d1 = None) by (apply nth_error_None; lia). rewrite E.
      assert (E' : nth_error (b_disp s ++ [DRecv]) d1 = None) by (apply nth_error_None; rewrite app_length; cbn; lia). rewrite E'. reflexivity.
  - eapply (busy_step s _ tr _ d _ _ HJ H2); [reflexivity|intros d1 Hne; rewrite busy_app; cbn; rewrite (proj2 (Nat.eqb_neq _ _) Hne); reflexivity|].
    rewrite busy_app. cbn. rewrite Nat.eqb_refl. reflexivity.
  - intros d1. rewrite busy_closed. apply HJ.
  - eapply (busy_step s _ tr _ d _ _ HJ H3); [reflexivity|intros d1 _; rewrite busy_app; reflexivity|rewrite busy_app; apply (Old _ _ H3)].
  - eapply (busy_step s _ tr _ d _ _ HJ H); [reflexivity|intros d1 Hne; rewrite busy_app; cbn; rewrite (proj2 (Nat.eqb_neq _ _) Hne); reflexivity|].
    rewrite busy_app. cbn. rewrite Nat.eqb_refl. reflexivity.
  - eapply (busy_step s _ tr _ d _ _ HJ H); [reflexivity|intros d1 _; rewrite busy_app; reflexivity|rewrite busy_app; apply (Old _ _ H)].
  - eapply (busy_step s _ tr _ d _ _ HJ H); [reflexivity|intros d1 _; rewrite busy_app; reflexivity|rewrite busy_app; apply (Old _ _ H)].
  - eapply (busy_step s _ tr _ d _ _ HJ H); [reflexivity|intros d1 Hne; rewrite busy_app; cbn; rewrite (proj2 (Nat.eqb_neq _ _) Hne); reflexivity|].
    rewrite busy_app. cbn. rewrite Nat.eqb_refl. reflexivity.
  - exfalso. destruct (offers_ok s _ _ _ _ _ HB H H0) as (_ & _ & x' & name & A & _ & B). congruence.
  - eapply (busy_step s _ tr _ d _ _ HJ H); [reflexivity|intros d1 _; rewrite busy_app; reflexivity|].
    rewrite busy_app. cbn. rewrite (Old _ _ H). apply (offers_has _ _ _ _ H0).
  - eapply (busy_step s _ tr _ d _ _ HJ H); [reflexivity|intros d1 _; rewrite busy_app; reflexivity|].
    rewrite busy_app. cbn. rewrite (Old _ _ H). apply (offers_has _ _ _ _ H0).
  - eapply (busy_step s _ tr _ d _ _ HJ H); [reflexivity|intros d1 _; rewrite busy_app; reflexivity|].
    rewrite busy_app. cbn. rewrite (Old _ _ H). apply (offers_has _ _ _ _ H0).
  - eapply (busy_step s _ tr _ d _ _ HJ H); [reflexivity|intros d1 _; rewrite busy_app; reflexivity|].
    rewrite busy_app. cbn. rewrite (Old _ _ H). reflexivity.
  - eapply (busy_step s _ tr _ d _ _ HJ H); [reflexivity|intros d1 _; rewrite busy_app; reflexivity|].
    rewrite busy_app. cbn. rewrite (Old _ _ H). apply (offers_has _ _ _ _ H0).
Qed.

(** ** All together *)

Record jinv (n : nat) (s : bus) (tr : list bevent) : Prop := JInv {
  j_recv : all_rinv s tr; j_client : all_cinv s tr; j_regs : all_regs s tr; j_disp : forall d r, disp_inv d r s tr;
  j_closing : b_closed s = true <-> exists i, In (EBusClosing i) tr;
  j_stuck : b_stuck s = true <-> close_panicked tr;
  j_disps : Z.of_nat (length (b_disp s)) = dispatchers tr;
  j_call : all_dinv n s tr; j_busy : all_busy s tr
}.

Lemma closing_trans s tr s1 es : trans s s1 es -> (b_closed s = true <-> exists i, In (EBusClosing i) tr) ->
  (b_closed s1 = true <-> exists i, In (EBusClosing i) (tr ++ es)).
Proof.
  intros HT. assert (HH : (exists i, In (EBusClosing i) es) \/ ~ (exists i, In (EBusClosing i) es) /\ b_closed s1 = b_closed s).
  { destruct HT; try (right; split; [|reflexivity]; intros (j & Hin); cbn in Hin; intuition discriminate).
    - left. exists i. right. left. reflexivity.
    - right. split; [|reflexivity]. intros (j & Hin). apply In_snoc in Hin. destruct Hin as [Hin|[=]]. apply in_map_iff in Hin. destruct Hin as (? & [=] & _). }
  intros HJ. destruct HH as [(i & Hi)|(Hn & ->)].
  - split; [intros _; exists i; apply in_or_app; auto|]. intros _.
    destruct HT; cbn in Hi; try (intuition discriminate); try reflexivity.
    apply In_snoc in Hi. destruct Hi as [Hin|[=]]. apply in_map_iff in Hin. destruct Hin as (? & [=] & _).
  - rewrite HJ. split; intros (i & Hi); [exists i; apply in_or_app; auto|].
    apply in_app_iff in Hi. destruct Hi as [Hi|Hi]; [exists i; exact Hi|]. destruct Hn. exists i. exact Hi.
Qed.

Lemma stuck_trans s tr s1 es : trans s s1 es -> (b_stuck s = true <-> close_panicked tr) -> (b_stuck s1 = true <-> close_panicked (tr ++ es)).
Proof.
  unfold close_panicked.
  intros HT. assert (HH : (exists i, In (EClosePanic i) es) /\ b_stuck s1 = true \/ ~ (exists i, In (EClosePanic i) es) /\ b_stuck s1 = b_stuck s).
  { destruct HT; try (right; split; [|reflexivity]; intros (j & Hin); cbn in Hin; intuition discriminate).
    - left. split; [exists i; left; reflexivity|reflexivity].
    - left. split; [exists i; left; reflexivity|reflexivity].
    - right. split; [|reflexivity]. intros (j & Hin). apply In_snoc in Hin. destruct Hin as [Hin|[=]]. apply in_map_iff in Hin. destruct Hin as (? & [=] & _). }
  intros HJ. destruct HH as [((i & Hi) & E)|(Hn & ->)].
  - rewrite E. split; [intros _; exists i; apply in_or_app; auto|reflexivity].
  - rewrite HJ. split; intros (i & Hi); [exists i; apply in_or_app; auto|].
    apply in_app_iff in Hi. destruct Hi as [Hi|Hi]; [exists i; exact Hi|]. destruct Hn. exists i. exact Hi.
Qed.

Lemma dispatchers_closed rs i : dispatchers (map EClosedRecv rs ++ [EBusClosed i]) = 0.
Proof. unfold dispatchers. induction rs as [|r rs IH]; [reflexivity|]. cbn [map app count]. rewrite IH. reflexivity. Qed.

Lemma disps_trans s tr s1 es : trans s s1 es -> Z.of_nat (length (b_disp s)) = dispatchers tr ->
  Z.of_nat (length (b_disp s1)) = dispatchers (tr ++ es).
Proof.
  intros HT HJ. unfold dispatchers. rewrite count_app. fold (dispatchers tr). fold (dispatchers es). rewrite <- HJ. clear HJ.
  destruct HT; cbn [set_client set_disp set_buf set_recv set_map set_stuck register fst snd b_disp]; rewrite ?upd_length, ?app_length;
    rewrite ?dispatchers_closed; cbn; lia.
Qed.

Lemma jinv_trans n s tr s1 es : binv s -> jinv n s tr -> trans s s1 es -> jinv n s1 (tr ++ es).
Proof.
  intros HB [A B C D E F G K L] HT. constructor.
  - exact (rinv_trans s tr s1 es HB A HT).
  - exact (cinv_trans s tr s1 es HB B HT).
  - exact (regs_trans s tr s1 es HB C HT).
  - intros d r. exact (disp_inv_trans d r s tr s1 es HB (D d r) HT).
  - exact (closing_trans s tr s1 es HT E).
  - exact (stuck_trans s tr s1 es HT F).
  - exact (disps_trans s tr s1 es HT G).
  - exact (dinv_trans n s tr s1 es HB K HT).
  - exact (busy_trans s tr s1 es HB L HT).
Qed.

Lemma jinv_new cap n : jinv n (new_bus cap n) [].
Proof.
  constructor; [apply all_rinv_new|apply all_cinv_new|apply all_regs_new|intros; apply disp_inv_new|..].
  - split; [discriminate|]. intros (i & []).
  - split; [discriminate|]. intros (i & []).
  - reflexivity.
  - split; [apply repeat_length|]. intros i. cbn [new_bus b_clients]. destruct (nth_repeat_idle n i) as [-> | ->]; cbn; [exact I|].
    split; [reflexivity|]. split; discriminate.
  - intros [|d]; reflexivity.
Qed.

Lemma jinv_exec cap n sched : jinv n (fst (bus_exec cap n sched)) (snd (bus_exec cap n sched)).
Proof.
  apply (bus_inv (jinv n) cap n); [apply jinv_new|]. intros s tr s1 es HB HJ HT _. exact (jinv_trans n s tr s1 es HB HJ HT).
Qed.

(** A property of every position of every trace. *)
Lemma bus_trace' (Q : list bevent -> bevent -> Prop) cap n sched pre e post :
  (forall s tr s1 es, binv s -> jinv n s tr -> trans s s1 es -> forall a e b, es = a ++ e :: b -> Q (tr ++ a) e) ->
  snd (bus_exec cap n sched) = pre ++ e :: post -> Q pre e.
Proof.
  intros HQ. apply (bus_trace Q (jinv n) cap n); [apply jinv_new|intros s tr s1 es HB HJ HT _; exact (jinv_trans n s tr s1 es HB HJ HT)|].
  intros s tr s1 es HB HJ HT _. apply (HQ s tr s1 es HB HJ HT).
Qed.

(** ** Properties of the trace *)

Lemma in_map_registered n s tr r : jinv n s tr -> In r (map snd (b_map s)) <-> registered tr r.
Proof.
  intros HJ. rewrite registered_regn, in_map_iff. split.
  - intros ((nm & r0) & E & Hin). cbn in E. subst r0. exists nm. apply (j_regs _ s tr HJ). exact Hin.
  - intros (nm & H). exists (nm, r). split; [reflexivity|]. apply (j_regs _ s tr HJ). exact H.
Qed.

Lemma begin_targets cap n sched pre d v ts post : snd (bus_exec cap n sched) = pre ++ EBegin d v ts :: post ->
  NoDup ts /\ forall r, In r ts <-> registered pre r.
Proof.
  intros E.
  apply (bus_trace' (fun pre e => forall d v ts, e = EBegin d v ts -> NoDup ts /\ forall r, In r ts <-> registered pre r)
           cap n sched pre (EBegin d v ts) post) with (d := d) (v := v); [clear|exact E|reflexivity].
  intros s tr s1 es HB HJ HT a e b E d v ts He.
  destruct HT; cut E; try discriminate He. rewrite app_nil_r. injection He as -> -> <-.
  split; [apply (i_ids s HB)|]. intros r. apply (in_map_registered _ s tr r HJ).
Qed.

(** An offer to a receiver: it is registered and open. *)
Lemma offers_registered n s tr d p v r todo : binv s -> jinv n s tr -> nth_error (b_disp s) d = Some p -> offers p v r todo -> registered tr r.
Proof.
  intros HB HJ Hd Ho. destruct (offers_ok s d p v r todo HB Hd Ho) as (_ & Hin & _). apply (in_map_registered _ s tr r HJ).
  apply Hin. left. reflexivity.
Qed.

Lemma concerns_registered cap n sched pre e post r : snd (bus_exec cap n sched) = pre ++ e :: post -> concerns r e ->
  registered pre r /\ ~ In (EClosedRecv r) pre.
Proof.
  intros E. revert r.
  apply (bus_trace' (fun pre e => forall r, concerns r e -> registered pre r /\ ~ In (EClosedRecv r) pre) cap n sched pre e post); [clear|exact E].
  intros s tr s1 es HB HJ HT a e b E r Hc.
  assert (Open : In r (map snd (b_map s)) -> ~ In (EClosedRecv r) tr).
  { intros Hin. apply in_map_iff in Hin. destruct Hin as ((nm & r0) & E0 & Hin). cbn in E0. subst r0.
    destruct (i_map s HB _ _ Hin) as (x & Hx & _ & Ho). pose proof (j_recv _ s tr HJ r) as HR. rewrite Hx in HR. destruct HR as (_ & HR & _).
    rewrite <- HR, Ho. discriminate. }
  assert (Reg : In r (map snd (b_map s)) -> registered tr r /\ ~ In (EClosedRecv r) tr).
  { intros Hin. split; [apply (in_map_registered _ s tr r HJ); exact Hin|auto]. }
  assert (Off : forall d p v todo, nth_error (b_disp s) d = Some p -> offers p v r todo -> registered tr r /\ ~ In (EClosedRecv r) tr).
  { intros d p v todo Hd Ho. destruct (offers_ok s d p v r todo HB Hd Ho) as (_ & Hin & _). apply Reg. apply Hin. left. reflexivity. }
  destruct HT; cut E; cbn [concerns] in Hc; try (destruct Hc; fail); subst; rewrite ?app_nil_r; try (eapply Off; eassumption); auto.
  - apply Reg. apply lookup_In in H3. apply in_map_iff. exists (r_name me, r). auto.
  - rename x into l1, x1 into l2. pose proof (i_ids s HB) as ND. rewrite H3 in ND. apply NoDup_remove_2 in ND. rewrite in_app_iff in ND.
    assert (Hin : In r (map snd (b_map s))) by (rewrite H3; apply in_or_app; right; left; reflexivity).
    destruct (Reg Hin) as (A & B). split.
    + apply registered_regn in A. destruct A as (nm & A). apply registered_regn. exists nm. apply regn_close_all. tauto.
    + rewrite in_app_iff. intros [C|C]; [auto|]. apply in_map_iff in C. destruct C as (r' & [= ->] & C). tauto.
  - eapply (Off d); [eassumption|constructor].
Qed.

Lemma drop_full cap n sched pre d r v post : snd (bus_exec cap n sched) = pre ++ EDropped d r v :: post ->
  exists name c, made pre r name c Drop /\
    Z.of_nat (length (delivered_to r pre)) = Z.of_nat (length (got r pre)) + c /\ forall i, waiting i r pre = false.
Proof.
  intros E.
  apply (bus_trace' (fun pre e => forall d r v, e = EDropped d r v -> exists name c, made pre r name c Drop /\
    Z.of_nat (length (delivered_to r pre)) = Z.of_nat (length (got r pre)) + c /\ forall i, waiting i r pre = false)
    cap n sched pre (EDropped d r v) post) with (d := d) (v := v); [clear|exact E|reflexivity].
  intros s tr s1 es HB HJ HT a e b E d r v He.
  destruct HT; cut E; try discriminate He. rewrite app_nil_r. injection He as -> -> ->.
  exists (r_name x), (r_cap x). pose proof (j_recv _ s tr HJ r) as HR. rewrite H1 in HR. destruct HR as (HA & _ & HC & _).
  split; [apply HC; rewrite H3; auto|]. split.
  - rewrite HA, app_length. pose proof (i_buf s HB r x H1). lia.
  - intros i. pose proof (j_client _ s tr HJ i) as HI. destruct (nth_error (b_clients s) i) as [c|] eqn:Ei; [|apply HI].
    destruct HI as (HI & _). rewrite HI. apply (H4 i c Ei).
Qed.

Lemma close_leaves_none cap n sched pre i post r : snd (bus_exec cap n sched) = pre ++ EBusClosed i :: post -> ~ registered pre r.
Proof.
  intros E. revert r.
  apply (bus_trace' (fun pre e => forall i, e = EBusClosed i -> forall r, ~ registered pre r) cap n sched pre (EBusClosed i) post) with (i := i);
    [clear|exact E|reflexivity].
  intros s tr s1 es HB HJ HT a e b E i He r.
  destruct HT; cut E; try discriminate He. rewrite registered_regn. intros (nm & H3). apply regn_close_all in H3. destruct H3 as (H3 & H4).
  apply H4, (in_map_registered _ s tr r HJ), registered_regn. exists nm. exact H3.
Qed.

Lemma closing_once cap n sched pre i post : snd (bus_exec cap n sched) = pre ++ EBusClosing i :: post -> forall j, ~ In (EBusClosing j) pre.
Proof.
  intros E.
  apply (bus_trace' (fun pre e => forall i, e = EBusClosing i -> forall j, ~ In (EBusClosing j) pre) cap n sched pre (EBusClosing i) post) with (i := i);
    [clear|exact E|reflexivity].
  intros s tr s1 es HB HJ HT a e b E i He j.
  destruct HT; cut E; try discriminate He. injection He as ->. rewrite In_snoc. intros [Hin|[=]].
  assert (b_closed s = true) by (apply (j_closing _ s tr HJ); exists j; exact Hin). congruence.
Qed.

Lemma drained_data cap n sched pre i r data post : snd (bus_exec cap n sched) = pre ++ EDrained i r data :: post ->
  received i pre = map Some data /\ delivered_to r pre = got r pre.
Proof.
  intros E.
  apply (bus_trace' (fun pre e => forall i r data, e = EDrained i r data -> received i pre = map Some data /\ delivered_to r pre = got r pre)
    cap n sched pre (EDrained i r data) post) with (r := r); [clear|exact E|reflexivity].
  intros s tr s1 es HB HJ HT a e b E i r data He.
  destruct HT; cut E; try discriminate He. rewrite app_nil_r. injection He as -> -> ->.
  pose proof (j_client _ s tr HJ i) as HI. rewrite H in HI. destruct HI as (_ & HI). split; [exact HI|].
  pose proof (j_recv _ s tr HJ r) as HR. rewrite H0 in HR. destruct HR as (HR & _). rewrite H1, app_nil_r in HR. exact HR.
Qed.

Lemma collected_data cap n sched pre i r data post : snd (bus_exec cap n sched) = pre ++ ECollected i r data :: post -> received i pre = data.
Proof.
  intros E.
  apply (bus_trace' (fun pre e => forall i r data, e = ECollected i r data -> received i pre = data)
    cap n sched pre (ECollected i r data) post) with (r := r); [clear|exact E|reflexivity].
  intros s tr s1 es HB HJ HT a e b E i r data He.
  destruct HT; cut E; try discriminate He. rewrite app_nil_r. injection He as -> -> ->.
  pose proof (j_client _ s tr HJ i) as HI. rewrite H in HI. exact (proj2 HI).
Qed.

Lemma got_none cap n sched pre i r post : snd (bus_exec cap n sched) = pre ++ EGot i r None :: post ->
  In (EClosedRecv r) pre /\ got r pre = delivered_to r pre.
Proof.
  intros E.
  apply (bus_trace' (fun pre e => forall i r, e = EGot i r None -> In (EClosedRecv r) pre /\ got r pre = delivered_to r pre)
    cap n sched pre (EGot i r None) post) with (i := i); [clear|exact E|reflexivity].
  intros s tr s1 es HB HJ HT a e b E i r He.
  destruct HT; cut E; try discriminate He. rewrite app_nil_r. injection He as -> ->.
  pose proof (j_recv _ s tr HJ r) as HR. rewrite H0 in HR. destruct HR as (HA & HC & _). rewrite H1, app_nil_r in HA. split; [apply HC; assumption|auto].
Qed.

Lemma finish_verdicts cap n sched pre d v post : snd (bus_exec cap n sched) = pre ++ EFinish d v :: post ->
  forall r, begun d r pre = verdicts d r pre.
Proof.
  intros E.
  apply (bus_trace' (fun pre e => forall d v, e = EFinish d v -> forall r, begun d r pre = verdicts d r pre)
    cap n sched pre (EFinish d v) post) with (v := v); [clear|exact E|reflexivity].
  intros s tr s1 es HB HJ HT a e b E d v He r.
  destruct HT; cut E; try discriminate He. rewrite app_nil_r. injection He as -> ->.
  pose proof (j_disp _ s tr HJ d r) as HD. unfold disp_inv in HD. rewrite H in HD. destruct HD as (HD & _). cbn in HD. rewrite app_nil_r in HD. exact HD.
Qed.

Lemma verdict_disp cap n sched pre e post d r v : snd (bus_exec cap n sched) = pre ++ e :: post -> e = EDelivered d r v -> Z.of_nat d < dispatchers pre.
Proof.
  intros E. revert d r v.
  apply (bus_trace' (fun pre e => forall d r v, e = EDelivered d r v -> Z.of_nat d < dispatchers pre) cap n sched pre e post); [clear|exact E].
  intros s tr s1 es HB HJ HT a e b E d r v He.
  assert (Lt : forall p, nth_error (b_disp s) d = Some p -> Z.of_nat d < dispatchers tr).
  { intros p Hp. rewrite <- (j_disps _ s tr HJ). assert (d < length (b_disp s))%nat by (apply nth_error_Some; congruence). lia. }
  destruct HT; cut E; try discriminate He; rewrite app_nil_r; injection He as -> -> ->; eauto.
Qed.

(** Receivers of strategy Block get all their verdicts as deliveries. *)
Lemma made_fields cap n sched r name c st : made (snd (bus_exec cap n sched)) r name c st ->
  exists x, nth_error (b_recvs (fst (bus_exec cap n sched))) r = Some x /\ name = r_name x /\ c = r_cap x /\ st = r_strategy x.
Proof.
  intros H. pose proof (j_recv _ _ _ (jinv_exec cap n sched) r) as HR. destruct (nth_error (b_recvs (fst (bus_exec cap n sched))) r) as [x|].
  - exists x. split; [reflexivity|]. apply HR. exact H.
  - exfalso. destruct H as (i & H). specialize (HR _ H). cbn in HR. rewrite Nat.eqb_refl in HR. discriminate.
Qed.

Lemma made_unique cap n sched r name c st name' c' st' : made (snd (bus_exec cap n sched)) r name c st ->
  made (snd (bus_exec cap n sched)) r name' c' st' -> name = name' /\ c = c' /\ st = st'.
Proof.
  intros H1 H2. apply made_fields in H1, H2. destruct H1 as (x & Hx & -> & -> & ->), H2 as (y & Hy & -> & -> & ->).
  rewrite Hx in Hy. injection Hy as <-. auto.
Qed.

Lemma verdicts_delivered d r tr : (forall d v, ~ In (EDropped d r v) tr) -> (forall d v, ~ In (EIgnored d r v) tr) -> verdicts d r tr = delivered d r tr.
Proof.
  induction tr as [|e tr IH]; intros H1 H2; [reflexivity|].
  change (e :: tr) with ([e] ++ tr). rewrite verdicts_app, delivered_app, IH;
    [|intros d' v' Hin; apply (H1 d' v'); right; exact Hin|intros d' v' Hin; apply (H2 d' v'); right; exact Hin].
  f_equal. destruct e; try reflexivity; cbn.
  - destruct (Nat.eqb_spec d0 d), (Nat.eqb_spec r0 r); try reflexivity. subst. destruct (H1 d v). left. reflexivity.
  - destruct (Nat.eqb_spec d0 d), (Nat.eqb_spec r0 r); try reflexivity. subst. destruct (H2 d v). left. reflexivity.
Qed.

Lemma block_delivered cap n sched r name c pre post d : snd (bus_exec cap n sched) = pre ++ post ->
  made (snd (bus_exec cap n sched)) r name c Block -> verdicts d r pre = delivered d r pre.
Proof.
  intros E Hm. destruct (made_fields _ _ _ _ _ _ _ Hm) as (x & Hx & _ & _ & Hs).
  pose proof (j_recv _ _ _ (jinv_exec cap n sched) r) as HR. rewrite Hx in HR. destruct HR as (_ & _ & _ & HD & HI). rewrite E in HD, HI.
  apply verdicts_delivered; intros d' v Hin.
  - assert (r_strategy x = Drop) by (apply (HD d' v), in_or_app; auto). unfold Drop, Block in *. congruence.
  - destruct (HI d' v) as (_ & HB); [apply in_or_app; auto|]. congruence.
Qed.

Lemma block_gets_all cap n sched r name c d : made (snd (bus_exec cap n sched)) r name c Block ->
  exists pend, begun d r (snd (bus_exec cap n sched)) = delivered d r (snd (bus_exec cap n sched)) ++ pend /\ (length pend <= 1)%nat.
Proof.
  intros Hm. pose proof (j_disp _ _ _ (jinv_exec cap n sched) d r) as HD. unfold disp_inv in HD.
  pose proof (block_delivered cap n sched r name c _ [] d (eq_sym (app_nil_r _)) Hm) as HV.
  destruct (nth_error (b_disp (fst (bus_exec cap n sched))) d) as [p|].
  - exists (pending r p). rewrite <- HV. split; [apply HD|]. destruct p; cbn; try lia; destruct (_ || _) || destruct (existsb _ _); cbn; lia.
  - destruct HD as (_ & H1 & H2). exists []. rewrite H1, <- HV, H2. split; [reflexivity|cbn; lia].
Qed.

Lemma block_finish cap n sched r name c pre d v post : snd (bus_exec cap n sched) = pre ++ EFinish d v :: post ->
  made (snd (bus_exec cap n sched)) r name c Block -> begun d r pre = delivered d r pre.
Proof.
  intros E Hm. rewrite (finish_verdicts _ _ _ _ _ _ _ E r). apply (block_delivered cap n sched r name c pre _ d E Hm).
Qed.

(** The receiver's channel is a queue. *)
Lemma receiver_fifo cap n sched r : exists rest, delivered_to r (snd (bus_exec cap n sched)) = got r (snd (bus_exec cap n sched)) ++ rest /\
  forall name c st, made (snd (bus_exec cap n sched)) r name c st -> Z.of_nat (length rest) <= c.
Proof.
  pose proof (j_recv _ _ _ (jinv_exec cap n sched) r) as HR. pose proof (bus_binv cap n sched) as HB.
  destruct (nth_error (b_recvs (fst (bus_exec cap n sched))) r) as [x|] eqn:Ex.
  - exists (r_buf x). split; [apply HR|]. intros name c st Hm. apply HR in Hm. destruct Hm as (_ & -> & _). apply (i_buf _ HB r x Ex).
  - destruct (rinv_fresh _ _ HR) as (-> & ->). exists []. split; [reflexivity|]. intros name c st (i & Hin). exfalso.
    specialize (HR _ Hin). cbn in HR. rewrite Nat.eqb_refl in HR. discriminate.
Qed.

Lemma delivered_one r d0 tr : (forall d v, In (EDelivered d r v) tr -> d = d0) -> delivered_to r tr = delivered d0 r tr.
Proof.
  induction tr as [|e tr IH]; intros H; [reflexivity|]. change (e :: tr) with ([e] ++ tr).
  rewrite delivered_to_app, delivered_app, IH; [|intros d v Hin; apply (H d v); right; exact Hin]. f_equal.
  destruct e; try reflexivity. cbn. destruct (Nat.eqb_spec r0 r) as [->|]; [|rewrite andb_false_r; reflexivity].
  rewrite (H d v (or_introl eq_refl)), Nat.eqb_refl. reflexivity.
Qed.

Lemma dispatchers_mono a b : dispatchers a <= dispatchers (a ++ b).
Proof. unfold dispatchers. rewrite count_app. pose proof (count_nonneg (fun e => match e with EGone _ => true | _ => false end) b). lia. Qed.

Lemma order_one cap n sched r : dispatchers (snd (bus_exec cap n sched)) <= 1 ->
  subseq (delivered_to r (snd (bus_exec cap n sched))) (sent (snd (bus_exec cap n sched))).
Proof.
  intros Hd. rewrite (delivered_one r 0%nat); [apply order|]. intros d v Hin. apply in_split in Hin. destruct Hin as (pre & post & E).
  pose proof (verdict_disp cap n sched pre _ post d r v E eq_refl). rewrite E in Hd.
  pose proof (dispatchers_mono pre (EDelivered d r v :: post)). lia.
Qed.
