(** Proofs that the event bus comes to rest. *)
From Coq Require Arith.Cantor.
From Verif Require Import Common Bytes Threads BusModel BusSpec BusProofs BusTrace BusLive BusLockModel BusLockSpec BusLockProofs.
Local Open Scope list_scope.
Local Open Scope Z_scope.

(** ** Bounded work *)

(** Upper bounds of the number of steps still to come; [K] bounds the number of registered receivers. *)
Definition dcost (K : Z) (p : dpc) : Z :=
  match p with
  | DRecv => 1
  | DLock _ => 2 * K + 3
  | DIter _ todo => 2 * Z.of_nat (length todo) + 2
  | DBlocked _ _ todo => 2 * Z.of_nat (length todo) + 3
  | DDone | DDead => 0
  end.
Definition ccost (K : Z) (c : cpc) : Z :=
  match c with CSend _ => 2 * K + 4 | CNew _ _ _ | CClose _ | CBusClose => 2 | _ => 0 end.
Definition cnew (c : cpc) : Z := match c with CNew _ _ _ => 1 | _ => 0 end.
Definition width (b : bus) : Z := Z.of_nat (length (b_map b)) + sumZ cnew (b_clients b).
Definition mub (K : Z) (b : bus) : Z :=
  sumZ (dcost K) (b_disp b) + (2 * K + 3) * Z.of_nat (length (b_buf b)) + sumZ (ccost K) (b_clients b).
Definition mu (K : Z) (s : lbus) : Z := mub K (k_bus s) - match k_writer s with Some _ => 1 | None => 0 end.

(** A goroutine in a call of [works]. *)
Definition working (c : cpc) : bool := match c with CSend _ | CNew _ _ _ | CClose _ | CBusClose => true | _ => false end.

Lemma remove_length m name : (length (remove m name) <= length m)%nat.
Proof. induction m as [|[k r] m IH]; cbn; [lia|]. destruct (k =? name)%string; cbn; lia. Qed.

Lemma remove_nth_length {A} : forall (l : list A) k x, nth_error l k = Some x -> length l = S (length (remove_nth k l)).
Proof. induction l as [|y l IH]; intros [|k] x H; cbn in *; try discriminate; [reflexivity|]. rewrite (IH k x H). reflexivity. Qed.

Lemma width_K K b : width b <= K -> 0 <= K.
Proof.
  intros H. unfold width in H. assert (N : 0 <= sumZ cnew (b_clients b)) by (apply sumZ_nonneg, Forall_forall; intros []; cbn; lia). lia.
Qed.

Record cheaper (K : Z) (b b1 : bus) (k : Z) : Prop := Cheaper { c_width : width b1 <= K; c_mu : mub K b1 + k <= mub K b }.

Ltac by_upd := repeat match goal with H : nth_error ?l ?i = Some ?o |- context [sumZ ?f (upd ?i ?x ?l)] => rewrite (sumZ_upd f i x l o H) end.
Ltac cost := constructor; unfold width, mub in *; cbn [set_disp set_client set_buf set_recv set_map set_stuck b_disp b_buf b_map b_clients] in *;
  by_upd; cbn [dcost ccost cnew working length app] in *; rewrite ?app_length in *; cbn [length] in *; nia.

Lemma offer_mu K b d p v r todo i again b1 es : width b <= K -> nth_error (b_disp b) d = Some p ->
  (p = DBlocked v r todo /\ again = true \/ exists t, p = DIter v t /\ length t = S (length todo)) ->
  offer b d v r todo i again = Some (b1, es) -> cheaper K b b1 1.
Proof.
  intros HK Hd Hp E. pose proof (width_K _ _ HK) as H0. unfold offer in E. destruct (nth_error (b_recvs b) r) as [x|]; [|discriminate].
  assert (D : dcost K (DIter v todo) + 1 <= dcost K p) by (destruct Hp as [(-> & _)|(t & -> & Ht)]; cbn [dcost]; lia).
  assert (D0 : 1 <= dcost K p) by (change (dcost K (DIter v todo)) with (2 * Z.of_nat (length todo) + 2) in D; lia).
  assert (D1 : again = false -> dcost K (DBlocked v r todo) + 1 <= dcost K p) by (intros ->; destruct Hp as [(_ & [=])|(t & -> & Ht)]; cbn [dcost]; lia).
  assert (X : forall q, dcost K q + 1 <= dcost K p -> cheaper K b (set_disp d q b) 1).
  { intros q Hq. constructor; [exact HK|]. unfold mub; cbn [set_disp b_disp b_buf b_clients]. by_upd. lia. }
  destruct ((r_strategy x =? Drop) || (r_strategy x =? Block)); [|injection E as <- <-; apply X, D].
  destruct (r_closed x); [injection E as <- <-; apply X; cbn; lia|].
  destruct (existsb (fun c => parked_on c r) (b_clients b)).
  - destruct (nth_error (b_clients b) i) as [c|] eqn:Ei; [|discriminate]. destruct (parked_on c r) eqn:Ep; [|discriminate]. injection E as <- <-.
    assert (Z1 : cnew c = 0 /\ cnew (serve c (Some v)) = 0 /\ ccost K c = 0 /\ ccost K (serve c (Some v)) = 0) by (destruct c; try discriminate Ep; repeat split).
    destruct Z1 as (Z1 & Z2 & Z3 & Z4). constructor; unfold width, mub in *; cbn [set_disp set_client b_disp b_buf b_map b_clients]; by_upd; lia.
  - destruct (Z.of_nat (length (r_buf x)) <? r_cap x).
    + injection E as <- <-. destruct (X _ D) as [P Q]. constructor; [exact P|exact Q].
    + destruct (r_strategy x =? Drop); [injection E as <- <-; apply X, D|]. destruct again; [discriminate|]. injection E as <- <-. apply X, D1. reflexivity.
Qed.

Lemma take_mu K b r d ov b1 es : width b <= K -> take b r d = Some (ov, b1, es) -> cheaper K b b1 0 /\ b_clients b1 = b_clients b.
Proof.
  intros HK E. unfold take in E. destruct (nth_error (b_recvs b) r) as [x|]; [|discriminate].
  destruct (r_buf x) as [|v rest]; [|injection E as <- <- <-; split; [constructor; [exact HK|unfold mub; cbn; lia]|reflexivity]].
  destruct (r_closed x); [injection E as <- <- <-; split; [constructor; [exact HK|lia]|reflexivity]|].
  destruct (nth_error (b_disp b) d) as [[]|] eqn:Ed; try discriminate. destruct (Nat.eqb r0 r); [|discriminate]. injection E as <- <- <-.
  split; [|reflexivity]. constructor; [exact HK|]. unfold mub. cbn [set_disp b_disp b_buf b_clients]. by_upd. cbn [dcost]. lia.
Qed.

Lemma set_client_mu K b b0 i c c' k : nth_error (b_clients b0) i = Some c -> cheaper K b b0 k -> cnew c' <= cnew c -> ccost K c' <= ccost K c ->
  cheaper K b (set_client i c' b0) (k + ccost K c - ccost K c').
Proof.
  intros Hi [A B] H1 H2. constructor; unfold width, mub in *; cbn [set_client b_disp b_buf b_map b_clients]; by_upd; lia.
Qed.

(** A step of the bus costs something; a lock-needing call that is done costs two. *)
Definition price (b : bus) (l : blabel) : Z :=
  match l with
  | LDisp _ _ _ => 1
  | LClient i _ => match nth_error (b_clients b) i with Some c => if needs_lock c then 2 else if working c then 1 else 0 | None => 0 end
  | _ => 0
  end.

Lemma bstep_mu K b l b1 es : width b <= K -> no_call l -> bstep b l = Some (b1, es) -> cheaper K b b1 (price b l).
Proof.
  intros HK Hl E. pose proof (width_K _ _ HK) as H0. assert (R : cheaper K b b 0) by (constructor; [exact HK|lia]).
  destruct l as [j o|j d|j|d k j]; cbn [bstep price] in *; [destruct Hl| | |].
  - destruct (nth_error (b_clients b) j) as [c|] eqn:Ej; [|discriminate].
    destruct c; cbn [client_step needs_lock working] in *; try discriminate.
    + destruct (b_closed b); [injection E as <- <-; cost|]. destruct (Z.of_nat (length (b_buf b)) <? b_cap b); [injection E as <- <-; cost|].
      destruct (b_buf b) eqn:Eb; [|discriminate]. destruct (nth_error (b_disp b) d) as [[]|] eqn:Ed; try discriminate. injection E as <- <-. cost.
    + destruct (lockable b); [|discriminate]. injection E as <- <-. pose proof (remove_length (b_map b) name).
      constructor; unfold width, mub, assign in *; cbn [set_client b_disp b_buf b_map b_clients]; by_upd; rewrite ?app_length; cbn [length cnew ccost]; lia.
    + destruct (lockable b); [|discriminate]. unfold deregister in E. destruct (nth_error (b_recvs b) r) as [me|]; [|discriminate].
      destruct (lookup (b_map b) (r_name me)) as [r'|]; [|injection E as <- <-; cost].
      destruct (nth_error (b_recvs b) r') as [x|]; [|discriminate]. pose proof (remove_length (b_map b) (r_name me)). destruct (r_closed x); injection E as <- <-; cost.
    + destruct (lockable b); [|discriminate]. unfold bus_close_crit in E. destruct (existsb (is_closed b) (map snd (b_map b))); injection E as <- <-; cost.
    + destruct (take b r d) as [[[ov s'] e']|] eqn:Et.
      * injection E as <- <-. destruct (take_mu K _ _ _ _ _ _ HK Et) as (C & Ec). rewrite <- Ec in Ej. apply (set_client_mu K b s' j _ CIdle 0 Ej C); cbn; lia.
      * destruct (existsb (fun p => blocked_on p r) (b_disp b) || parked); [discriminate|]. injection E as <- <-. apply (set_client_mu K b b j _ (CRecv r true) 0 Ej R); cbn; lia.
    + destruct (take b r d) as [[[[v|] s'] e']|] eqn:Et.
      * injection E as <- <-. destruct (take_mu K _ _ _ _ _ _ HK Et) as (C & Ec). rewrite <- Ec in Ej. apply (set_client_mu K b s' j _ (CDrain r (acc ++ [v])) 0 Ej C); cbn; lia.
      * injection E as <- <-. destruct (take_mu K _ _ _ _ _ _ HK Et) as (C & Ec). rewrite <- Ec in Ej. apply (set_client_mu K b s' j _ CIdle 0 Ej C); cbn; lia.
      * destruct (existsb (fun p => blocked_on p r) (b_disp b)); [discriminate|]. injection E as <- <-. apply (set_client_mu K b b j _ CIdle 0 Ej R); cbn; lia.
    + destruct (take b r d) as [[[ov s'] e']|] eqn:Et.
      * injection E as <- <-. destruct (take_mu K _ _ _ _ _ _ HK Et) as (C & Ec). rewrite <- Ec in Ej. apply (set_client_mu K b s' j _ (CCollect r (acc ++ [ov]) false) 0 Ej C); cbn; lia.
      * destruct (existsb (fun p => blocked_on p r) (b_disp b) || parked); [discriminate|]. injection E as <- <-. apply (set_client_mu K b b j _ (CCollect r acc true) 0 Ej R); cbn; lia.
  - destruct (nth_error (b_clients b) j) as [[]|] eqn:Ej; try discriminate. injection E as <- <-. apply (set_client_mu K b b j _ CIdle 0 Ej R); cbn; lia.
  - destruct (nth_error (b_disp b) d) as [p|] eqn:Ed; [|discriminate].
    destruct p as [|v|v [|r0 todo]|v r todo| |]; cbn [disp_step] in E; try discriminate.
    + destruct (b_buf b) as [|v rest] eqn:Eb; [|injection E as <- <-; constructor; unfold width, mub in *; cbn [set_disp set_buf b_disp b_buf b_map b_clients]; by_upd; rewrite ?Eb; cbn [dcost length]; nia].
      destruct (b_closed b); [|discriminate]. injection E as <- <-. cost.
    + destruct (b_stuck b); [discriminate|]. injection E as <- <-. assert (N : 0 <= sumZ cnew (b_clients b)) by (apply sumZ_nonneg, Forall_forall; intros []; cbn; lia).
      constructor; unfold width, mub in *; cbn [set_disp b_disp b_buf b_map b_clients]; by_upd; cbn [dcost]; rewrite ?map_length; lia.
    + injection E as <- <-. cost.
    + destruct (nth_error (r0 :: todo) k) as [r|] eqn:Ek; [|discriminate]. apply (offer_mu K b d _ v r (remove_nth k (r0 :: todo)) j false b1 es HK Ed); [|exact E].
      right. exists (r0 :: todo). split; [reflexivity|]. apply (remove_nth_length _ _ _ Ek).
    + apply (offer_mu K b d _ v r todo j true b1 es HK Ed); [|exact E]. auto.
Qed.

Definition counts (b : bus) (l : blabel) : Z :=
  match l with
  | LDisp _ _ _ => 1
  | LClient i _ => match nth_error (b_clients b) i with Some c => if working c then 1 else 0 | None => 0 end
  | _ => 0
  end.

Lemma lstep_mu K s l s1 es : width (k_bus s) <= K -> no_call l -> lstep s l = Some (s1, es) ->
  width (k_bus s1) <= K /\ mu K s1 + counts (k_bus s) l <= mu K s.
Proof.
  intros HK Hl E. unfold mu. destruct (lstep_sim s l s1 es E) as [(Eb & _ & i & d & c & -> & W & W1 & Hi & Hn & _)|(Eb & H)].
  - rewrite Eb, W, W1. split; [exact HK|]. cbn [counts]. rewrite Hi. destruct c; try discriminate Hn; cbn; lia.
  - destruct (bstep_mu K _ l _ es HK Hl Eb) as [A B]. split; [exact A|]. destruct H as [(-> & H)|(i & d & c & -> & W & W1 & Hi & Hn)].
    + assert (C : counts (k_bus s) l <= price (k_bus s) l).
      { destruct l as [|i d| |]; cbn; try lia. destruct (nth_error (b_clients (k_bus s)) i) as [c|] eqn:Ei; [|lia]. destruct c; cbn; lia. }
      lia.
    + rewrite W, W1. cbn [price counts] in *. rewrite Hi in *. rewrite Hn in B. destruct (working c); lia.
Qed.

Lemma mu_bound K s : 0 <= K -> 0 <= mu K s + 1.
Proof.
  intros HK. assert (A : 0 <= sumZ (dcost K) (b_disp (k_bus s))) by (apply sumZ_nonneg, Forall_forall; intros []; cbn [dcost ccost]; lia).
  assert (B : 0 <= sumZ (ccost K) (b_clients (k_bus s))) by (apply sumZ_nonneg, Forall_forall; intros []; cbn [dcost ccost]; lia).
  unfold mu, mub. destruct (k_writer s); nia.
Qed.

(** ** Goroutines do not take up work again *)

(** States of a goroutine whose call was one of [works]. *)
Definition settling (c : cpc) : bool := match c with CRecv _ _ | CDrain _ _ | CCollect _ _ _ => false | _ => true end.

Lemma bstep_clients b l b1 es i c1 : bstep b l = Some (b1, es) -> no_call l -> nth_error (b_clients b1) i = Some c1 ->
  exists c, nth_error (b_clients b) i = Some c /\ (c1 = c \/ working c1 = false) /\ (settling c = true -> settling c1 = true).
Proof.
  intros E Hl Hi.
  assert (S : forall b0, b_clients b0 = b_clients b -> nth_error (b_clients b0) i = Some c1 ->
     exists c, nth_error (b_clients b) i = Some c /\ (c1 = c \/ working c1 = false) /\ (settling c = true -> settling c1 = true)).
  { intros b0 -> H. exists c1. auto. }
  assert (U : forall j cj x l0, nth_error (upd j x l0) i = Some c1 -> l0 = b_clients b -> nth_error (b_clients b) j = Some cj -> working x = false -> (settling cj = true -> settling x = true) ->
     exists c, nth_error (b_clients b) i = Some c /\ (c1 = c \/ working c1 = false) /\ (settling c = true -> settling c1 = true)).
  { intros j cj x l0 H -> Hj Hx Hs. destruct (nth_error_upd_Some _ _ _ _ _ H) as [(<- & -> & _)|(_ & H')].
    - exists cj. auto.
    - exists c1. auto. }
  destruct l as [j o|j d|j|d k j]; cbn [bstep] in *; [destruct Hl| | |].
  - destruct (nth_error (b_clients b) j) as [c|] eqn:Ej; [|discriminate].
    assert (T : forall r ov s' e', take b r d = Some (ov, s', e') -> b_clients s' = b_clients b).
    { intros r ov s' e' Ht. apply (take_mu (width b) b r d ov s' e' ltac:(lia) Ht). }
    destruct c; cbn [client_step] in *; try discriminate.
    + destruct (b_closed b); [injection E as <- <-; apply (U _ _ _ _ Hi eq_refl Ej eq_refl (fun _ => eq_refl))|].
      destruct (Z.of_nat (length (b_buf b)) <? b_cap b); [injection E as <- <-; apply (U _ _ _ _ Hi eq_refl Ej eq_refl (fun _ => eq_refl))|].
      destruct (b_buf b) eqn:Eb; [|discriminate]. destruct (nth_error (b_disp b) d) as [[]|] eqn:Ed; try discriminate. injection E as <- <-. apply (U _ _ _ _ Hi eq_refl Ej eq_refl (fun _ => eq_refl)).
    + destruct (lockable b); [|discriminate]. injection E as <- <-. apply (U _ _ _ _ Hi eq_refl Ej eq_refl (fun _ => eq_refl)).
    + destruct (lockable b); [|discriminate]. unfold deregister in E. destruct (nth_error (b_recvs b) r) as [me|]; [|discriminate].
      destruct (lookup (b_map b) (r_name me)) as [r'|]; [|injection E as <- <-; apply (U _ _ _ _ Hi eq_refl Ej eq_refl (fun _ => eq_refl))].
      destruct (nth_error (b_recvs b) r') as [x|]; [|discriminate]. destruct (r_closed x); injection E as <- <-; apply (U _ _ _ _ Hi eq_refl Ej eq_refl (fun _ => eq_refl)).
    + destruct (lockable b); [|discriminate]. unfold bus_close_crit in E. destruct (existsb (is_closed b) (map snd (b_map b))); injection E as <- <-; apply (U _ _ _ _ Hi eq_refl Ej eq_refl (fun _ => eq_refl)).
    + destruct (take b r d) as [[[ov s'] e']|] eqn:Et.
      * injection E as <- <-. apply (U _ _ _ _ Hi (T _ _ _ _ Et) Ej eq_refl (fun _ => eq_refl)).
      * destruct (existsb (fun p => blocked_on p r) (b_disp b) || parked); [discriminate|]. injection E as <- <-. apply (U _ _ (CRecv r true) _ Hi eq_refl Ej eq_refl (fun H => H)).
    + destruct (take b r d) as [[[[v|] s'] e']|] eqn:Et.
      * injection E as <- <-. apply (U _ _ (CDrain r (acc ++ [v])) _ Hi (T _ _ _ _ Et) Ej eq_refl (fun H => H)).
      * injection E as <- <-. apply (U _ _ _ _ Hi (T _ _ _ _ Et) Ej eq_refl (fun _ => eq_refl)).
      * destruct (existsb (fun p => blocked_on p r) (b_disp b)); [discriminate|]. injection E as <- <-. apply (U _ _ _ _ Hi eq_refl Ej eq_refl (fun _ => eq_refl)).
    + destruct (take b r d) as [[[ov s'] e']|] eqn:Et.
      * injection E as <- <-. apply (U _ _ (CCollect r (acc ++ [ov]) false) _ Hi (T _ _ _ _ Et) Ej eq_refl (fun H => H)).
      * destruct (existsb (fun p => blocked_on p r) (b_disp b) || parked); [discriminate|]. injection E as <- <-. apply (U _ _ (CCollect r acc true) _ Hi eq_refl Ej eq_refl (fun H => H)).
  - destruct (nth_error (b_clients b) j) as [[]|] eqn:Ej; try discriminate. injection E as <- <-. apply (U _ _ _ _ Hi eq_refl Ej eq_refl (fun _ => eq_refl)).
  - destruct (nth_error (b_disp b) d) as [p|] eqn:Ed; [|discriminate].
    assert (O : forall v r todo again, offer b d v r todo j again = Some (b1, es) ->
      exists c, nth_error (b_clients b) i = Some c /\ (c1 = c \/ working c1 = false) /\ (settling c = true -> settling c1 = true)).
    { intros v r todo again H. unfold offer in H. destruct (nth_error (b_recvs b) r) as [x|]; [|discriminate].
      destruct ((r_strategy x =? Drop) || (r_strategy x =? Block)); [|injection H as <- <-; apply (S _ eq_refl Hi)].
      destruct (r_closed x); [injection H as <- <-; apply (S _ eq_refl Hi)|].
      destruct (existsb (fun c0 => parked_on c0 r) (b_clients b)).
      - destruct (nth_error (b_clients b) j) as [cj|] eqn:Ej; [|discriminate]. destruct (parked_on cj r) eqn:Ep; [|discriminate].
        injection H as <- <-. cbn [set_disp set_client b_clients] in Hi. apply (U _ _ _ _ Hi eq_refl Ej); [destruct cj; reflexivity|destruct cj; try discriminate Ep; auto].
      - destruct (Z.of_nat (length (r_buf x)) <? r_cap x); [injection H as <- <-; apply (S _ eq_refl Hi)|].
        destruct (r_strategy x =? Drop); [injection H as <- <-; apply (S _ eq_refl Hi)|]. destruct again; [discriminate|]. injection H as <- <-. apply (S _ eq_refl Hi). }
    destruct p as [|v|v [|r0 todo]|v r todo| |]; cbn [disp_step] in E; try discriminate.
    + destruct (b_buf b) as [|v rest]; [|injection E as <- <-; apply (S _ eq_refl Hi)]. destruct (b_closed b); [|discriminate]. injection E as <- <-. apply (S _ eq_refl Hi).
    + destruct (b_stuck b); [discriminate|]. injection E as <- <-. apply (S _ eq_refl Hi).
    + injection E as <- <-. apply (S _ eq_refl Hi).
    + destruct (nth_error (r0 :: todo) k) as [r|]; [|discriminate]. apply (O _ _ _ _ E).
    + apply (O _ _ _ _ E).
Qed.

Lemma lstep_clients s l s1 es i c1 : lstep s l = Some (s1, es) -> no_call l -> nth_error (b_clients (k_bus s1)) i = Some c1 ->
  exists c, nth_error (b_clients (k_bus s)) i = Some c /\ (c1 = c \/ working c1 = false) /\ (settling c = true -> settling c1 = true).
Proof.
  intros E Hl Hi. destruct (lstep_sim s l s1 es E) as [(Eb & _)|(Eb & _)].
  - rewrite Eb in Hi. exists c1. auto.
  - apply (bstep_clients _ _ _ _ _ _ Eb Hl Hi).
Qed.

Lemma settling_exec sched : forall s i c, Forall no_call sched -> nth_error (b_clients (k_bus (fst (exec lstep s sched)))) i = Some c ->
  exists c0, nth_error (b_clients (k_bus s)) i = Some c0 /\ (working c = true -> working c0 = true) /\ (settling c0 = true -> settling c = true).
Proof.
  induction sched as [|l sched IH]; intros s i c HF Hi; [exists c; auto|]. inversion HF as [|? ? Hl HF']; subst. cbn [exec] in Hi.
  destruct (lstep s l) as [[s1 es]|] eqn:E; [|apply (IH s i c HF' Hi)].
  destruct (exec lstep s1 sched) as [s2 es2] eqn:E2. cbn [fst] in Hi.
  destruct (IH s1 i c HF') as (c1 & Hc1 & W1 & S1); [rewrite E2; exact Hi|].
  destruct (lstep_clients _ _ _ _ _ _ E Hl Hc1) as (c0 & Hc0 & W0 & S0). exists c0. split; [exact Hc0|]. split; [|auto].
  intros Hw. specialize (W1 Hw). destruct W0 as [<-|W0]; [exact W1|congruence].
Qed.

Lemma works_state n s tr i d c : linv n s tr -> nth_error (b_clients (k_bus s)) i = Some c -> works tr (LClient i d) = working c.
Proof. intros HL Hi. cbn [works]. rewrite (in_call_of _ _ _ _ _ HL Hi). destruct c; reflexivity. Qed.

Lemma working_settling c : working c = true -> settling c = true.
Proof. destruct c; auto. Qed.

(** The goroutines in calls of [works] of the start are still settling. *)
Definition kept (w : blabel -> bool) (s : lbus) : Prop :=
  (forall i d c, w (LClient i d) = true -> nth_error (b_clients (k_bus s)) i = Some c -> settling c = true) /\
  forall l, w l = true -> no_call l /\ match l with LTimeout _ => False | _ => True end.

Lemma kept_start n s tr : linv n s tr -> kept (works tr) s.
Proof.
  intros HL. split.
  - intros i d c Hw Hi. rewrite (works_state _ _ _ _ _ _ HL Hi) in Hw. apply working_settling. exact Hw.
  - intros []; cbn; intros [=]; auto.
Qed.

Lemma kept_step w s l s1 es : kept w s -> no_call l -> lstep s l = Some (s1, es) -> kept w s1.
Proof.
  intros (A & B) Hl E. split; [|exact B]. intros i d c1 Hw Hi. destruct (lstep_clients _ _ _ _ _ _ E Hl Hi) as (c & Hc & _ & S). apply S. apply (A i d c Hw Hc).
Qed.

Lemma lstep_idle s i d c q : lstep s (LClient i d) = Some q -> nth_error (b_clients (k_bus s)) i = Some c -> settling c = true -> working c = true.
Proof. intros E Hi Hs. cbn [lstep bstep] in E. rewrite Hi in E. destruct c; try discriminate Hs; try reflexivity; discriminate E. Qed.

Lemma kept_counts w s l q : kept w s -> w l = true -> lstep s l = Some q -> counts (k_bus s) l = 1.
Proof.
  intros (A & B) Hw E. destruct (B l Hw) as (B1 & B2). destruct l as [i o|i d|i|d k i]; try (destruct B1; fail); try (destruct B2; fail); [|reflexivity].
  cbn [counts]. destruct (nth_error (b_clients (k_bus s)) i) as [c|] eqn:Ei; [|cbn [lstep] in E; rewrite Ei in E; discriminate].
  rewrite (lstep_idle s i d c q E Ei (A i d c Hw Ei)). reflexivity.
Qed.

Lemma counts_nonneg b l : 0 <= counts b l.
Proof. destruct l; cbn; try lia. destruct (nth_error (b_clients b) i) as [c|]; [destruct (working c)|]; lia. Qed.

Lemma moves_bound K w sched : forall s, kept w s -> width (k_bus s) <= K -> Forall no_call sched -> Z.of_nat (moves w s sched) <= mu K s + 1.
Proof.
  induction sched as [|l sched IH]; intros s HW HK HF; cbn [moves].
  - pose proof (mu_bound K s (width_K _ _ HK)). lia.
  - inversion HF as [|? ? Hl HF']; subst. destruct (lstep s l) as [[s1 es]|] eqn:E; [|apply IH; assumption].
    destruct (lstep_mu K s l s1 es HK Hl E) as (HK1 & Hm). specialize (IH s1 (kept_step _ _ _ _ _ HW Hl E) HK1 HF').
    destruct (w l) eqn:Ew.
    + rewrite (kept_counts w s l _ HW Ew E) in Hm. lia.
    + pose proof (counts_nonneg (k_bus s) l). lia.
Qed.

Lemma bounded_work cap n sched : exists N, forall sched', Forall no_call sched' ->
  (moves (works (snd (lbus_exec cap n sched))) (fst (lbus_exec cap n sched)) sched' <= N)%nat.
Proof.
  set (s := fst (lbus_exec cap n sched)). set (K := width (k_bus s)). exists (Z.to_nat (mu K s + 1)). intros sched' HF.
  pose proof (moves_bound K _ sched' s (kept_start n s _ (linv_exec cap n sched)) (Z.le_refl _) HF). lia.
Qed.

(** ** Whether anything can go on is decidable *)

Lemma bounded_dec (P : nat -> Prop) : (forall k, P k \/ ~ P k) -> forall m, (forall k, (m < k)%nat -> P k -> P m) -> (exists k, P k) \/ ~ exists k, P k.
Proof.
  intros D m Hm.
  assert (X : forall j, (exists k, (k < j)%nat /\ P k) \/ ~ exists k, (k < j)%nat /\ P k).
  { induction j as [|j [IH|IH]]; [right; intros (k & Hk & _); lia| |].
    - left. destruct IH as (k & Hk & HP). exists k. split; [lia|exact HP].
    - destruct (D j) as [Hj|Hj]; [left; exists j; auto|]. right. intros (k & Hk & HP). destruct (Nat.eq_dec k j) as [->|]; [auto|]. apply IH. exists k. split; [lia|exact HP]. }
  destruct (X (S m)) as [(k & _ & H)|H]; [left; exists k; exact H|right]. intros (k & HP). apply H.
  destruct (Nat.le_gt_cases k m); [exists k; split; [lia|exact HP]|]. exists m. split; [lia|]. apply (Hm k); assumption.
Qed.

Definition able (s : lbus) (l : blabel) : Prop := exists q, lstep s l = Some q.
Lemma able_dec s l : able s l \/ ~ able s l.
Proof. unfold able. destruct (lstep s l) as [q|]; [left; exists q; reflexivity|right; intros (q & E); discriminate]. Qed.

Lemma take_far b r d d' : (length (b_disp b) <= d)%nat -> (length (b_disp b) <= d')%nat -> take b r d = take b r d'.
Proof. intros H H'. unfold take. rewrite (proj2 (nth_error_None _ d) H), (proj2 (nth_error_None _ d') H'). reflexivity. Qed.

Lemma lclient_far s i d d' : (length (b_disp (k_bus s)) <= d)%nat -> (length (b_disp (k_bus s)) <= d')%nat -> lstep s (LClient i d) = lstep s (LClient i d').
Proof.
  intros H H'. cbn [lstep bstep]. destruct (nth_error (b_clients (k_bus s)) i) as [c|]; [|reflexivity].
  assert (E : client_step (k_bus s) i d c = client_step (k_bus s) i d' c); [|rewrite E; reflexivity].
  destruct c; cbn [client_step]; rewrite ?(take_far _ _ d d' H H'); try reflexivity.
  rewrite (proj2 (nth_error_None _ d) H), (proj2 (nth_error_None _ d') H'). reflexivity.
Qed.

Lemma offer_far b d v r todo i i' again : (length (b_clients b) <= i)%nat -> (length (b_clients b) <= i')%nat ->
  offer b d v r todo i again = offer b d v r todo i' again.
Proof. intros H H'. unfold offer. rewrite (proj2 (nth_error_None _ i) H), (proj2 (nth_error_None _ i') H'). reflexivity. Qed.

Lemma ldisp_far s d k i i' : (length (b_clients (k_bus s)) <= i)%nat -> (length (b_clients (k_bus s)) <= i')%nat ->
  lstep s (LDisp d k i) = lstep s (LDisp d k i').
Proof.
  intros H H'. cbn [lstep bstep]. destruct (nth_error (b_disp (k_bus s)) d) as [p|]; [|reflexivity].
  assert (E : disp_step (k_bus s) d k i p = disp_step (k_bus s) d k i' p); [|rewrite E; reflexivity].
  destruct p as [|v|v [|r0 todo]|v r todo| |]; cbn [disp_step]; try reflexivity; [|apply (offer_far _ _ _ _ _ _ _ _ H H')].
  destruct (nth_error (r0 :: todo) k); [apply (offer_far _ _ _ _ _ _ _ _ H H')|reflexivity].
Qed.

Lemma ldisp_k s d k i : able s (LDisp d k i) -> exists m, forall k', (m < k')%nat -> able s (LDisp d k' i) -> able s (LDisp d m i).
Proof. intros H. exists k. intros _ _ _. exact H. Qed.

Lemma disp_dec s d : (exists k i, able s (LDisp d k i)) \/ ~ exists k i, able s (LDisp d k i).
Proof.
  assert (D : forall k, (exists i, able s (LDisp d k i)) \/ ~ exists i, able s (LDisp d k i)).
  { intros k. apply (bounded_dec (fun i => able s (LDisp d k i)) (fun i => able_dec s _) (length (b_clients (k_bus s)))).
    intros i Hi (q & E). exists q. rewrite <- E. apply ldisp_far; lia. }
  destruct (nth_error (b_disp (k_bus s)) d) as [p|] eqn:Ed.
  - apply (bounded_dec (fun k => exists i, able s (LDisp d k i)) D (match p with DIter _ t => length t | _ => 0%nat end)).
    intros k Hk (i & q & E). exists i, q. rewrite <- E. cbn [lstep bstep]. rewrite Ed. destruct p as [|v|v [|r0 todo]|v r todo| |]; try reflexivity.
    exfalso. cbn [lstep bstep] in E. rewrite Ed in E. cbn [disp_step] in E. rewrite (proj2 (nth_error_None (r0 :: todo) k)) in E by lia. discriminate.
  - right. intros (k & i & q & E). cbn [lstep bstep] in E. rewrite Ed in E. destruct (k_writer s); discriminate.
Qed.

Lemma rest_dec n s tr : linv n s tr -> at_rest s tr \/ exists l q, works tr l = true /\ lstep s l = Some q.
Proof.
  intros HL.
  assert (A : (exists d k i, able s (LDisp d k i)) \/ ~ exists d k i, able s (LDisp d k i)).
  { apply (bounded_dec (fun d => exists k i, able s (LDisp d k i)) (disp_dec s) (length (b_disp (k_bus s)))).
    intros d Hd (k & i & q & E). exfalso. cbn [lstep bstep] in E. rewrite (proj2 (nth_error_None _ d)) in E by lia. destruct (k_writer s); discriminate. }
  destruct A as [(d & k & i & q & E)|A]; [right; exists (LDisp d k i), q; split; [reflexivity|exact E]|].
  assert (B : (exists i d, works tr (LClient i d) = true /\ able s (LClient i d)) \/ ~ exists i d, works tr (LClient i d) = true /\ able s (LClient i d)).
  { apply (bounded_dec (fun i => exists d, works tr (LClient i d) = true /\ able s (LClient i d))) with (m := length (b_clients (k_bus s))).
    - intros i. apply (bounded_dec (fun d => works tr (LClient i d) = true /\ able s (LClient i d))) with (m := length (b_disp (k_bus s))).
      + intros d. destruct (works tr (LClient i d)); [|right; intros ([=] & _)]. destruct (able_dec s (LClient i d)); [left; auto|right; intros (_ & ?); auto].
      + intros d Hd (W & q & E). split; [exact W|]. exists q. rewrite <- E. apply lclient_far; lia.
    - intros i Hi (d & _ & q & E). exfalso. cbn [lstep] in E. rewrite (proj2 (nth_error_None _ i)) in E by lia. discriminate. }
  destruct B as [(i & d & W & q & E)|B]; [right; exists (LClient i d), q; auto|].
  left. intros l Hw. destruct (lstep s l) as [q|] eqn:E; [|reflexivity]. exfalso.
  destruct l as [i o|i d|i|d k i]; try discriminate Hw.
  - apply B. exists i, d. split; [exact Hw|]. exists q. exact E.
  - apply A. exists d, k, i, q. exact E.
Qed.

(** ** Under a fair schedule the bus comes to rest *)

Definition after (s : lbus) (f : nat -> blabel) (k : nat) : lbus := fst (exec lstep s (first k f)).

Lemma after_S s f k : after s f (S k) = match lstep (after s f k) (f k) with Some (s1, _) => s1 | None => after s f k end.
Proof.
  unfold after, first. rewrite seq_S, map_app, exec_app. cbn [map Nat.add]. destruct (exec lstep s (map f (seq 0 k))) as [s1 es1]. cbn [fst exec].
  destruct (lstep s1 (f k)) as [[s2 es2]|]; reflexivity.
Qed.

Lemma lbus_continue cap n sched sched' : lbus_exec cap n (sched ++ sched') =
  (fst (exec lstep (fst (lbus_exec cap n sched)) sched'), snd (lbus_exec cap n sched) ++ snd (exec lstep (fst (lbus_exec cap n sched)) sched')).
Proof.
  unfold lbus_exec. rewrite exec_app. destruct (exec lstep (new_lbus cap n) sched) as [s tr]. cbn [fst snd].
  destruct (exec lstep s sched') as [s' es]. reflexivity.
Qed.

Lemma works_no_call tr l : works tr l = true -> no_call l.
Proof. destruct l; cbn; try discriminate; auto. Qed.

Lemma first_no_call tr f k : fair tr f -> Forall no_call (first k f).
Proof. intros (Hw & _). apply Forall_forall. intros l Hin. apply in_map_iff in Hin. destruct Hin as (j & <- & _). apply (works_no_call tr), Hw. Qed.

Lemma after_works cap n sched f k l q : let s := fst (lbus_exec cap n sched) in let tr := snd (lbus_exec cap n sched) in
  fair tr f -> works (snd (lbus_exec cap n (sched ++ first k f))) l = true -> lstep (after s f k) l = Some q -> works tr l = true.
Proof.
  cbn zeta. intros HF Hw E. destruct l as [i o|i d|i|d k' i]; try discriminate Hw; [|reflexivity].
  pose proof (linv_exec cap n (sched ++ first k f)) as HL. rewrite lbus_continue in HL, Hw. cbn [fst snd] in HL, Hw.
  destruct (nth_error (b_clients (k_bus (after (fst (lbus_exec cap n sched)) f k))) i) as [c|] eqn:Ei; [|cbn [lstep] in E; rewrite Ei in E; discriminate].
  rewrite (works_state _ _ _ i d c HL Ei) in Hw.
  destruct (settling_exec _ _ i c (first_no_call _ f k HF) Ei) as (c0 & H0 & W & _).
  rewrite (works_state _ _ _ i d c0 (linv_exec cap n sched) H0). apply W, Hw.
Qed.

Lemma comes_to_rest cap n sched f : let s := fst (lbus_exec cap n sched) in let tr := snd (lbus_exec cap n sched) in
  fair tr f -> exists k, at_rest (fst (lbus_exec cap n (sched ++ first k f))) (snd (lbus_exec cap n (sched ++ first k f))).
Proof.
  cbn zeta. intros HF. set (s := fst (lbus_exec cap n sched)). set (tr := snd (lbus_exec cap n sched)). set (K := width (k_bus s)).
  assert (W : forall k, kept (works tr) (after s f k) /\ width (k_bus (after s f k)) <= K).
  { induction k as [|k (IH1 & IH2)]; [split; [apply (kept_start n), linv_exec|apply Z.le_refl]|]. rewrite after_S.
    destruct (lstep (after s f k) (f k)) as [[s1 es]|] eqn:E; [|auto]. pose proof (works_no_call _ _ (proj1 HF k)) as Hc.
    split; [apply (kept_step _ _ _ _ _ IH1 Hc E)|]. apply (lstep_mu K _ _ _ _ IH2 Hc E). }
  assert (Less : forall k q, lstep (after s f k) (f k) = Some q -> mu K (after s f (S k)) + 1 <= mu K (after s f k)).
  { intros k [s1 es] E. rewrite after_S, E. destruct (W k) as (W1 & W2). destruct (lstep_mu K _ _ _ _ W2 (works_no_call _ _ (proj1 HF k)) E) as (_ & H).
    rewrite (kept_counts _ _ _ _ W1 (proj1 HF k) E) in H. exact H. }
  (* some label takes effect before an enabled one comes *)
  assert (Soon : forall j k, lstep (after s f k) (f (k + j)%nat) <> None -> exists k', mu K (after s f k') + 1 <= mu K (after s f k)).
  { induction j as [|j IH]; intros k E.
    - rewrite Nat.add_0_r in E. destruct (lstep (after s f k) (f k)) as [q|] eqn:Eq; [|congruence]. exists (S k). apply (Less k q Eq).
    - destruct (lstep (after s f k) (f k)) as [q|] eqn:Eq; [exists (S k); apply (Less k q Eq)|].
      assert (Es : after s f (S k) = after s f k) by (rewrite after_S, Eq; reflexivity).
      destruct (IH (S k)) as (k' & H); [rewrite Es; replace (S k + j)%nat with (k + S j)%nat by lia; exact E|]. exists k'. rewrite Es in H. exact H. }
  assert (X : forall m k, mu K (after s f k) + 1 <= Z.of_nat m -> exists k, at_rest (fst (lbus_exec cap n (sched ++ first k f))) (snd (lbus_exec cap n (sched ++ first k f)))).
  { induction m as [|m IH]; intros k Hk.
    - destruct (rest_dec n _ _ (linv_exec cap n (sched ++ first k f))) as [H|(l & q & Hw & E)]; [exists k; exact H|]. exfalso.
      assert (E' : lstep (after s f k) l = Some q) by (rewrite lbus_continue in E; exact E).
      pose proof (after_works cap n sched f k l q HF Hw E') as Hl. destruct (proj2 HF l Hl k) as (k1 & Hle & E1).
      destruct (Soon (k1 - k)%nat k) as (k' & Hk'); [replace (k + (k1 - k))%nat with k1 by lia; rewrite E1, E'; discriminate|].
      pose proof (mu_bound K (after s f k') (width_K _ _ (proj2 (W k')))). lia.
    - destruct (rest_dec n _ _ (linv_exec cap n (sched ++ first k f))) as [H|(l & q & Hw & E)]; [exists k; exact H|].
      assert (E' : lstep (after s f k) l = Some q) by (rewrite lbus_continue in E; exact E).
      pose proof (after_works cap n sched f k l q HF Hw E') as Hl. destruct (proj2 HF l Hl k) as (k1 & Hle & E1).
      destruct (Soon (k1 - k)%nat k) as (k' & Hk'); [replace (k + (k1 - k))%nat with k1 by lia; rewrite E1, E'; discriminate|].
      apply (IH k'). lia. }
  apply (X (Z.to_nat (mu K (after s f 0) + 1)) 0%nat). pose proof (mu_bound K (after s f 0) (width_K _ _ (proj2 (W 0%nat)))). lia.
Qed.

(** ** Receivers are made as asked for *)

Lemma in_call_called i o : forall tr, in_call i tr = Some o -> In (ECall i o) tr.
Proof.
  intros tr. induction tr as [|e tr IH] using rev_ind; [discriminate|]. unfold in_call in *. rewrite fold_left_app. cbn [fold_left]. intros H. apply in_or_app.
  destruct e; try (left; apply IH; exact H); try (destruct (Nat.eqb_spec i0 i) as [->|]; [|left; apply IH; exact H]); try discriminate.
  - injection H as ->. right. left. reflexivity.
  - destruct (fold_left _ tr None) as [[]|]; try discriminate; left; apply IH; exact H.
Qed.

Lemma trans_reg s s1 es i r name cap st : trans s s1 es -> In (EReg i r name cap st) es -> nth_error (b_clients s) i = Some (CNew name cap st).
Proof.
  intros HT Hin. destruct HT; cbn in Hin; try (exfalso; intuition discriminate; fail).
  - destruct Hin as [[= <- <- <- <- <-]|[]]. assumption.
  - exfalso. apply in_app_iff in Hin. destruct Hin as [Hin|[Hin|[]]]; [|discriminate]. apply in_map_iff in Hin. destruct Hin as (? & [=] & _).
Qed.

Lemma reg_called cap n sched i r name c st : In (EReg i r name c st) (snd (bus_exec cap n sched)) -> In (ECall i (OpNew name c st)) (snd (bus_exec cap n sched)).
Proof.
  revert i r name c st.
  apply (bus_inv (fun s tr => jinv n s tr /\ forall i r name c st, In (EReg i r name c st) tr -> In (ECall i (OpNew name c st)) tr) cap n).
  - split; [apply jinv_new|]. intros ? ? ? ? ? [].
  - intros s tr s1 es HB (HJ & H) HT _. split; [exact (jinv_trans n s tr s1 es HB HJ HT)|]. intros i r name c st Hin. apply in_or_app. left.
    apply in_app_iff in Hin. destruct Hin as [Hin|Hin]; [apply (H _ _ _ _ _ Hin)|].
    pose proof (trans_reg _ _ _ _ _ _ _ _ HT Hin) as Hi. apply in_call_called. destruct (j_call _ _ _ HJ) as (_ & J). specialize (J i). rewrite Hi in J. apply J.
Qed.

Lemma lock_trace cap n sched : exists sched', fst (bus_exec cap n sched') = k_bus (fst (lbus_exec cap n sched)) /\ snd (bus_exec cap n sched') = snd (lbus_exec cap n sched).
Proof. destruct (lock_refines cap n sched) as (sched' & _ & E). exists sched'. rewrite E. auto. Qed.

Lemma only_drop_made cap n sched r name c st : only_drop (snd (lbus_exec cap n sched)) -> made (snd (lbus_exec cap n sched)) r name c st -> st = Drop.
Proof.
  intros Ho (i & Hin). destruct (lock_trace cap n sched) as (sched' & _ & E). rewrite <- E in *. apply (Ho i name c), (reg_called _ _ _ _ r), Hin.
Qed.

Ltac notcall := let H := fresh in intros H; cbn in H; intuition discriminate.

Lemma bstep_no_ecall b l b1 es i o : bstep b l = Some (b1, es) -> no_call l -> ~ In (ECall i o) es.
Proof.
  intros E Hl.
  destruct l as [j o'|j d|j|d k j]; cbn [bstep] in *; [destruct Hl| | |].
  - destruct (nth_error (b_clients b) j) as [c|] eqn:Ej; [|discriminate].
    assert (T : forall r ov s' e' rest, take b r d = Some (ov, s', e') -> ~ In (ECall i o) rest -> ~ In (ECall i o) (e' ++ rest)).
    { intros r ov s' e' rest Ht Hr Hin. apply in_app_iff in Hin. destruct Hin as [Hin|Hin]; [|auto]. revert Hin.
      destruct (take_spec _ _ _ _ _ _ Ht) as (x & _ & [(v & rs & _ & _ & _ & ->)|[(_ & _ & _ & _ & ->)|(v & todo & _ & _ & _ & H)]]); [notcall..|].
      destruct H as (_ & _ & ->). notcall. }
    destruct c; cbn [client_step] in *; try discriminate.
    + destruct (b_closed b); [injection E as <- <-; notcall|]. destruct (Z.of_nat (length (b_buf b)) <? b_cap b); [injection E as <- <-; notcall|].
      destruct (b_buf b); [|discriminate]. destruct (nth_error (b_disp b) d) as [[]|]; try discriminate. injection E as <- <-. notcall.
    + destruct (lockable b); [|discriminate]. injection E as <- <-. notcall.
    + destruct (lockable b); [|discriminate]. unfold deregister in E. destruct (nth_error (b_recvs b) r) as [me|]; [|discriminate].
      destruct (lookup (b_map b) (r_name me)) as [r'|]; [|injection E as <- <-; notcall].
      destruct (nth_error (b_recvs b) r') as [x|]; [|discriminate]. destruct (r_closed x); injection E as <- <-; notcall.
    + destruct (lockable b); [|discriminate]. unfold bus_close_crit in E. destruct (existsb (is_closed b) (map snd (b_map b))); injection E as <- <-; [notcall|].
      intros Hin. apply in_app_iff in Hin. destruct Hin as [Hin|[Hin|[]]]; [|discriminate]. apply in_map_iff in Hin. destruct Hin as (? & [=] & _).
    + destruct (take b r d) as [[[ov s'] e']|] eqn:Et; [injection E as <- <-; apply (T _ _ _ _ _ Et); notcall|].
      destruct (existsb (fun p => blocked_on p r) (b_disp b) || parked); [discriminate|]. injection E as <- <-. notcall.
    + destruct (take b r d) as [[[[v|] s'] e']|] eqn:Et; [injection E as <- <-; apply (T _ _ _ _ _ Et); notcall..|].
      destruct (existsb (fun p => blocked_on p r) (b_disp b)); [discriminate|]. injection E as <- <-. notcall.
    + destruct (take b r d) as [[[ov s'] e']|] eqn:Et; [injection E as <- <-; apply (T _ _ _ _ _ Et); notcall|].
      destruct (existsb (fun p => blocked_on p r) (b_disp b) || parked); [discriminate|]. injection E as <- <-. notcall.
  - destruct (nth_error (b_clients b) j) as [[]|] eqn:Ej; try discriminate. injection E as <- <-. notcall.
  - destruct (nth_error (b_disp b) d) as [p|] eqn:Ed; [|discriminate].
    assert (O : forall v r todo again, offer b d v r todo j again = Some (b1, es) -> ~ In (ECall i o) es).
    { intros v r todo again H. unfold offer in H. destruct (nth_error (b_recvs b) r) as [x|]; [|discriminate].
      destruct ((r_strategy x =? Drop) || (r_strategy x =? Block)); [|injection H as <- <-; notcall].
      destruct (r_closed x); [injection H as <- <-; notcall|].
      destruct (existsb (fun c0 => parked_on c0 r) (b_clients b)).
      - destruct (nth_error (b_clients b) j) as [cj|] eqn:Ej; [|discriminate]. destruct (parked_on cj r) eqn:Ep; [|discriminate]. injection H as <- <-. notcall.
      - destruct (Z.of_nat (length (r_buf x)) <? r_cap x); [injection H as <- <-; notcall|].
        destruct (r_strategy x =? Drop); [injection H as <- <-; notcall|]. destruct again; [discriminate|]. injection H as <- <-. notcall. }
    destruct p as [|v|v [|r0 todo]|v r todo| |]; cbn [disp_step] in E; try discriminate.
    + destruct (b_buf b) as [|v rest]; [|injection E as <- <-; notcall]. destruct (b_closed b); [|discriminate]. injection E as <- <-. notcall.
    + destruct (b_stuck b); [discriminate|]. injection E as <- <-. notcall.
    + injection E as <- <-. notcall.
    + destruct (nth_error (r0 :: todo) k) as [r|]; [|discriminate]. apply (O _ _ _ _ E).
    + apply (O _ _ _ _ E).
Qed.

Lemma exec_no_ecall sched : forall s i o, Forall no_call sched -> ~ In (ECall i o) (snd (exec lstep s sched)).
Proof.
  induction sched as [|l sched IH]; intros s i o HF; [intros []|]. inversion HF as [|? ? Hl HF']; subst. cbn [exec].
  destruct (lstep s l) as [[s1 es]|] eqn:E; [|apply IH; exact HF']. specialize (IH s1 i o HF').
  destruct (exec lstep s1 sched) as [s2 es2]. cbn [snd] in *. intros Hin. apply in_app_iff in Hin. destruct Hin as [Hin|Hin]; [|auto].
  destruct (lstep_sim s l s1 es E) as [(_ & -> & _)|(Eb & _)]; [destruct Hin|]. exact (bstep_no_ecall _ _ _ _ _ _ Eb Hl Hin).
Qed.

Lemma only_drop_later cap n sched sched' : Forall no_call sched' -> only_drop (snd (lbus_exec cap n sched)) -> only_drop (snd (lbus_exec cap n (sched ++ sched'))).
Proof.
  intros HF Ho i name c st Hin. rewrite lbus_continue in Hin. cbn [snd] in Hin. apply in_app_iff in Hin.
  destruct Hin as [Hin|Hin]; [apply (Ho i name c st Hin)|]. destruct (exec_no_ecall _ _ _ _ HF Hin).
Qed.

(** ** What rest means *)

Lemma fair_settles cap n sched f : let tr := snd (lbus_exec cap n sched) in fair tr f ->
  exists k, let s' := fst (lbus_exec cap n (sched ++ first k f)) in let tr' := snd (lbus_exec cap n (sched ++ first k f)) in
    at_rest s' tr' /\ (close_panicked tr' \/ settled n tr' \/ exists d r, blocked_by d r tr').
Proof.
  cbn zeta. intros HF. destruct (comes_to_rest cap n sched f HF) as (k & HR). exists k. split; [exact HR|].
  pose proof (linv_exec cap n (sched ++ first k f)) as HL.
  destruct (b_stuck (k_bus (fst (lbus_exec cap n (sched ++ first k f))))) eqn:E; [left; apply (j_stuck _ _ _ (l_jinv _ _ _ HL)); exact E|right].
  assert (Hn : ~ close_panicked (snd (lbus_exec cap n (sched ++ first k f)))) by (intros H; apply (j_stuck _ _ _ (l_jinv _ _ _ HL)) in H; congruence).
  destruct (rest_cases cap n _ Hn HR) as [H|(d & r & H & _)]; [left; exact H|right; exists d, r; exact H].
Qed.

Lemma fair_settles_drop cap n sched f : let tr := snd (lbus_exec cap n sched) in fair tr f -> only_drop tr ->
  exists k, let tr' := snd (lbus_exec cap n (sched ++ first k f)) in close_panicked tr' \/ settled n tr'.
Proof.
  cbn zeta. intros HF Ho. destruct (fair_settles cap n sched f HF) as (k & _ & [H|[H|(d & r & v & name & c & _ & _ & Hm & _)]]); [exists k; auto..|].
  exfalso. pose proof (only_drop_made _ _ _ _ _ _ _ (only_drop_later cap n sched _ (first_no_call _ f k HF) Ho) Hm). discriminate.
Qed.

(** ** A dispatcher that has begun with an event needs nobody else *)

Lemma lstep_of_bstep s d k i b1 es p : nth_error (b_disp (k_bus s)) d = Some p -> (forall v, p <> DLock v) -> bstep (k_bus s) (LDisp d k i) = Some (b1, es) ->
  lstep s (LDisp d k i) = Some (LBus b1 (k_writer s), es).
Proof. intros Hp Hn E. rewrite (lstep_disp s d k i p Hp Hn). cbn [bstep] in E. rewrite Hp in E. rewrite E. reflexivity. Qed.

Lemma lexec_cons s l s1 es sched : lstep s l = Some (s1, es) -> exec lstep s (l :: sched) = (fst (exec lstep s1 sched), es ++ snd (exec lstep s1 sched)).
Proof. intros E. cbn [exec]. rewrite E. destruct (exec lstep s1 sched). reflexivity. Qed.

Lemma loop_finishes d v : forall todo s, binv (k_bus s) -> dropping (k_bus s) -> nth_error (b_disp (k_bus s)) d = Some (DIter v todo) ->
  exists sched, Forall (only_disp d) sched /\ In (EFinish d v) (snd (exec lstep s sched)).
Proof.
  induction todo as [|r todo IH]; intros s HB HD Hd.
  - exists [LDisp d 0 0]. split; [repeat constructor|].
    assert (Eb : bstep (k_bus s) (LDisp d 0 0) = Some (set_disp d DRecv (k_bus s), [EFinish d v])) by (cbn [bstep]; rewrite Hd; reflexivity).
    cbn [exec]. rewrite (lstep_of_bstep _ _ _ _ _ _ _ Hd ltac:(discriminate) Eb). left. reflexivity.
  - destruct (offer_drop (k_bus s) d (DIter v (r :: todo)) v r todo false HB HD Hd (OffIter v (r :: todo) 0 r eq_refl)) as (i & b1 & es & E & Hd1 & Hf).
    assert (Eb : bstep (k_bus s) (LDisp d 0 i) = Some (b1, es)) by (cbn [bstep]; rewrite Hd; exact E).
    destruct (IH (LBus b1 (k_writer s)) (bstep_binv _ _ _ _ HB Eb) (dropping_frame d _ _ Hf HD) Hd1) as (sched & HF & Hin).
    exists (LDisp d 0 i :: sched). split; [constructor; [reflexivity|exact HF]|].
    rewrite (lexec_cons _ _ _ _ _ (lstep_of_bstep _ _ _ _ _ _ _ Hd ltac:(discriminate) Eb)). apply in_or_app. auto.
Qed.

Lemma loop_alone cap n sched d v : let tr := snd (lbus_exec cap n sched) in
  all_drop tr -> dispatching d tr = Some v ->
  exists sched' es, Forall (only_disp d) sched' /\ snd (lbus_exec cap n (sched ++ sched')) = tr ++ es /\ In (EFinish d v) es.
Proof.
  cbn zeta. intros Ha Hb. pose proof (linv_exec cap n sched) as HL. destruct (lock_trace cap n sched) as (sd & E1 & E2).
  assert (HD : dropping (k_bus (fst (lbus_exec cap n sched)))) by (rewrite <- E1; apply all_drop_dropping; rewrite E2; exact Ha).
  rewrite (d_disp _ _ (l_dinv _ _ _ HL)) in Hb. pose proof (l_binv _ _ _ HL) as HB.
  assert (X : exists sched', Forall (only_disp d) sched' /\ In (EFinish d v) (snd (exec lstep (fst (lbus_exec cap n sched)) sched'))).
  { destruct (nth_error (b_disp (k_bus (fst (lbus_exec cap n sched)))) d) as [[|v0|v0 todo|v0 r todo| |]|] eqn:Ep; try discriminate; injection Hb as ->.
    - apply (loop_finishes d v todo _ HB HD Ep).
    - destruct (offer_drop _ d _ v r todo true HB HD Ep (OffBlocked v r todo)) as (i & b1 & es & E & Hd1 & Hf).
      assert (Eb : bstep (k_bus (fst (lbus_exec cap n sched))) (LDisp d 0 i) = Some (b1, es)) by (cbn [bstep]; rewrite Ep; exact E).
      destruct (loop_finishes d v todo (LBus b1 (k_writer (fst (lbus_exec cap n sched)))) (bstep_binv _ _ _ _ HB Eb) (dropping_frame d _ _ Hf HD) Hd1) as (sc & HF & Hin).
      exists (LDisp d 0 i :: sc). split; [constructor; [reflexivity|exact HF]|].
      rewrite (lexec_cons _ _ _ _ _ (lstep_of_bstep _ _ _ _ _ _ _ Ep ltac:(discriminate) Eb)). apply in_or_app. auto. }
  destruct X as (sched' & HF & Hin). exists sched', (snd (exec lstep (fst (lbus_exec cap n sched)) sched')). split; [exact HF|]. rewrite lbus_continue. auto.
Qed.

(** ** A blocked dispatcher stays blocked until somebody receives *)

Definition takes (c : cpc) (r : nat) : bool := match c with CRecv r' _ | CDrain r' _ | CCollect r' _ _ => Nat.eqb r' r | _ => false end.

Record stalled (d : nat) (v : Z) (r : nat) (x : recv) (s : bus) : Prop := Stalled {
  s_disp : exists p, nth_error (b_disp s) d = Some p /\ pending r p = [v];
  s_recv : nth_error (b_recvs s) r = Some x;
  s_full : r_closed x = false /\ r_strategy x = Block /\ r_cap x <= Z.of_nat (length (r_buf x));
  s_free : forall i c, nth_error (b_clients s) i = Some c -> takes c r = false }.

Lemma pending_reads p r v : pending r p = [v] -> reading p = true.
Proof. destruct p; cbn; try discriminate; reflexivity. Qed.

Lemma parked_takes c r : parked_on c r = true -> takes c r = true.
Proof. destruct c as [| | | | |? []|?|? ? []|]; cbn; try discriminate; auto. Qed.

Lemma nth_remove (todo : list nat) : forall k r0 r, nth_error todo k = Some r0 -> r0 <> r -> existsb (Nat.eqb r) (remove_nth k todo) = existsb (Nat.eqb r) todo.
Proof.
  induction todo as [|y todo IH]; intros [|k] r0 r H Hne; cbn in *; try discriminate.
  - injection H as ->. rewrite (proj2 (Nat.eqb_neq r r0)) by congruence. reflexivity.
  - rewrite (IH k r0 r H Hne). reflexivity.
Qed.

Lemma offers_keep p v0 r0 todo r v : offers p v0 r0 todo -> pending r p = [v] -> r0 <> r -> pending r (DIter v0 todo) = [v].
Proof.
  intros [v1 t k r1 Hk|v1 r1 t] Hp Hne; cbn [pending] in *.
  - rewrite (nth_remove _ _ _ _ Hk Hne). exact Hp.
  - cbn [existsb] in Hp. rewrite (proj2 (Nat.eqb_neq r r1)) in Hp by congruence. exact Hp.
Qed.

Lemma stalled_trans d v r x s s1 es : binv s -> stalled d v r x s -> trans s s1 es -> (forall i o, In (ECall i o) es -> ~ receives o r) ->
  stalled d v r x s1 /\ existsb (locked_event d) es = false.
Proof.
  intros HB [(p & Hd & Hp) Hr (Hc & Hst & Hf) Hfree] HT Hcall.
  assert (NR : nobody_reads s -> False) by (intros H; pose proof (pending_reads _ _ _ Hp) as X; rewrite (H d p Hd) in X; discriminate).
  assert (Full : r_closed x = false /\ r_strategy x = Block /\ r_cap x <= Z.of_nat (length (r_buf x))) by auto.
  (* the dispatchers *)
  assert (DD : forall d' p0 q, nth_error (b_disp s) d' = Some p0 -> (d' = d -> pending r q = [v]) ->
     exists p, nth_error (upd d' q (b_disp s)) d = Some p /\ pending r p = [v]).
  { intros d' p0 q H0 Hq. destruct (Nat.eq_dec d' d) as [->|Hne].
    - exists q. split; [apply (nth_error_upd_same _ _ _ _ H0)|auto].
    - exists p. rewrite nth_error_upd_other by exact Hne. auto. }
  (* the goroutines *)
  assert (CC : forall i c' c0, nth_error (b_clients s) i = Some c0 -> (takes c0 r = false -> takes c' r = false) ->
     forall j c, nth_error (upd i c' (b_clients s)) j = Some c -> takes c r = false).
  { intros i c' c0 H0 Hq j c Hj. destruct (nth_error_upd_Some _ _ _ _ _ Hj) as [(_ & -> & _)|(_ & H)]; [apply Hq, (Hfree i c0 H0)|apply (Hfree j c H)]. }
  assert (Same : exists p, nth_error (b_disp s) d = Some p /\ pending r p = [v]) by (exists p; auto).
  destruct HT; try (exfalso; apply NR; assumption);
    try (split; [constructor; cbn [set_client set_disp set_buf set_recv b_disp b_recvs b_clients];
      [exact Same|exact Hr|exact Full|first [exact Hfree | apply (CC _ _ _ H); intros X; first [exact X | reflexivity]]]|reflexivity]; fail).
  - (* call *)
    split; [|reflexivity]. constructor; [exact Same|exact Hr|exact Full|]. apply (CC _ _ _ H). intros _. specialize (Hcall i o (or_introl eq_refl)).
    destruct H0; try reflexivity; cbn; apply Nat.eqb_neq; intros ->; apply Hcall; unfold receives; auto.
  - (* go *)
    split; [|reflexivity]. constructor; [|exact Hr|exact Full|exact Hfree]. exists p. split; [|exact Hp]. cbn [b_disp]. rewrite nth_error_app1; [exact Hd|]. apply nth_error_Some. congruence.
  - split; [|reflexivity]. constructor; [|exact Hr|exact Full|apply (CC _ _ _ H); reflexivity]. apply (DD _ _ _ H2). intros ->. rewrite Hd in H2. injection H2 as ->. discriminate.
  - (* take from a buffer *)
    assert (Hne : r0 <> r) by (intros ->; pose proof (Hfree i c H) as X; destruct H2; cbn in X; rewrite Nat.eqb_refl in X; discriminate).
    split; [|reflexivity]. constructor; [exact Same| |exact Full|].
    + cbn [set_client set_recv b_recvs]. rewrite nth_error_upd_other by exact Hne. exact Hr.
    + apply (CC _ _ _ H). intros X. destruct H2; try reflexivity; exact X.
  - split; [|reflexivity]. constructor; [exact Same|exact Hr|exact Full|]. apply (CC _ _ _ H). intros X. destruct H3; try reflexivity; exact X.
  - assert (Hne : r0 <> r) by (intros ->; pose proof (Hfree i c H) as X; destruct H4; cbn in X; rewrite Nat.eqb_refl in X; discriminate).
    split; [|reflexivity]. constructor; [|exact Hr|exact Full|].
    + apply (DD _ _ _ H3). intros ->. rewrite Hd in H3. injection H3 as ->. apply (offers_keep _ _ _ _ _ _ (OffBlocked v0 r0 todo) Hp Hne).
    + apply (CC _ _ _ H). intros X. destruct H4; try reflexivity; exact X.
  - split; [|reflexivity]. constructor; [exact Same|exact Hr|exact Full|]. apply (CC _ _ _ H). intros X. destruct H4; exact X.
  - split; [|reflexivity]. constructor; [|exact Hr|exact Full|exact Hfree]. apply (DD _ _ _ H). intros ->. rewrite Hd in H. injection H as ->. discriminate.
  - split; [|reflexivity]. constructor; [|exact Hr|exact Full|exact Hfree]. apply (DD _ _ _ H). intros ->. rewrite Hd in H. injection H as ->. discriminate.
  - split; [|reflexivity]. constructor; [|exact Hr|exact Full|exact Hfree]. apply (DD _ _ _ H). intros ->. rewrite Hd in H. injection H as ->. discriminate.
  - assert (Hne : d0 <> d) by (intros ->; rewrite Hd in H; injection H as ->; discriminate).
    split; [|cbn; rewrite (proj2 (Nat.eqb_neq _ _) Hne); reflexivity]. constructor; [|exact Hr|exact Full|exact Hfree]. apply (DD _ _ _ H). intros E. destruct (Hne E).
  - exfalso. destruct (offers_ok s _ _ _ _ _ HB H H0) as (_ & _ & x' & name & A & _ & B). congruence.
  - assert (Hne : r0 <> r) by (intros ->; pose proof (parked_takes _ _ H5) as X; rewrite (Hfree i c H4) in X; discriminate).
    split; [|reflexivity]. constructor; [|exact Hr|exact Full|].
    + apply (DD _ _ _ H). intros ->. rewrite Hd in H. injection H as ->. apply (offers_keep _ _ _ _ _ _ H0 Hp Hne).
    + apply (CC _ _ _ H4). intros X. destruct c; try discriminate H5; try reflexivity; exact X.
  - assert (Hne : r0 <> r) by (intros ->; rewrite Hr in H1; injection H1 as <-; lia).
    split; [|reflexivity]. constructor; [| |exact Full|exact Hfree].
    + apply (DD _ _ _ H). intros ->. rewrite Hd in H. injection H as ->. apply (offers_keep _ _ _ _ _ _ H0 Hp Hne).
    + cbn [set_disp set_recv b_recvs]. rewrite nth_error_upd_other by exact Hne. exact Hr.
  - assert (Hne : r0 <> r) by (intros ->; rewrite Hr in H1; injection H1 as <-; rewrite Hst in H3; discriminate).
    split; [|reflexivity]. constructor; [|exact Hr|exact Full|exact Hfree].
    apply (DD _ _ _ H). intros ->. rewrite Hd in H. injection H as ->. apply (offers_keep _ _ _ _ _ _ H0 Hp Hne).
  - split; [|reflexivity]. constructor; [|exact Hr|exact Full|exact Hfree].
    apply (DD _ _ _ H). intros ->. rewrite Hd in H. injection H as ->. cbn [pending existsb]. destruct (Nat.eqb_spec r r0) as [->|Hne].
    + cbn [pending] in Hp. destruct (existsb (Nat.eqb r0) todo0); [exact Hp|discriminate].
    + rewrite (nth_remove _ _ _ _ H0) by congruence. exact Hp.
  - assert (Hne : r0 <> r) by (intros ->; rewrite Hr in H1; injection H1 as <-; destruct (H3 Hst)).
    split; [|reflexivity]. constructor; [|exact Hr|exact Full|exact Hfree].
    apply (DD _ _ _ H). intros ->. rewrite Hd in H. injection H as ->. apply (offers_keep _ _ _ _ _ _ H0 Hp Hne).
Qed.

Lemma bstep_ecall b l b1 es i o : bstep b l = Some (b1, es) -> In (ECall i o) es -> l = LCall i o.
Proof.
  intros E Hin. destruct l as [j o'|j d|j|d k j]; [|exfalso; refine (bstep_no_ecall _ _ _ _ _ _ E _ Hin); exact I..].
  cbn [bstep] in E. destruct (nth_error (b_clients b) j) as [[]|]; try discriminate. destruct (call b j o') as [[s' es']|] eqn:Ec; [|discriminate].
  injection E as <- <-. destruct Hin as [[= -> ->]|Hin]; [reflexivity|]. exfalso.
  destruct o'; cbn [call] in Ec; repeat match type of Ec with (if ?x then _ else _) = _ => destruct x | match ?x with _ => _ end = _ => destruct x end;
    try discriminate; injection Ec as <- <-; cbn in Hin; intuition discriminate.
Qed.

Lemma stalled_exec d v r x sched : forall s, binv (k_bus s) -> stalled d v r x (k_bus s) -> Forall (leaves r) sched ->
  stalled d v r x (k_bus (fst (exec lstep s sched))) /\ existsb (locked_event d) (snd (exec lstep s sched)) = false.
Proof.
  induction sched as [|l sched IH]; intros s HB HS HF; [auto|]. inversion HF as [|? ? Hl HF']; subst. cbn [exec].
  destruct (lstep s l) as [[s1 es]|] eqn:E; [|apply IH; assumption].
  assert (X : binv (k_bus s1) /\ stalled d v r x (k_bus s1) /\ existsb (locked_event d) es = false).
  { destruct (lstep_sim s l s1 es E) as [(Eb & -> & _)|(Eb & _)]; [rewrite Eb; auto|]. split; [apply (bstep_binv _ _ _ _ HB Eb)|].
    apply (stalled_trans d v r x _ _ _ HB HS (bstep_trans _ _ _ _ (i_refs _ HB) Eb)). intros i o Hin. rewrite (bstep_ecall _ _ _ _ _ _ Eb Hin) in Hl. exact Hl. }
  destruct X as (HB1 & HS1 & He). destruct (IH s1 HB1 HS1 HF') as (A & B). destruct (exec lstep s1 sched) as [s2 es2]. cbn [fst snd] in *.
  split; [exact A|]. rewrite existsb_app, He. exact B.
Qed.

Lemma blocked_stalled n s tr d r : linv n s tr -> blocked_by d r tr -> (forall i o, (i < n)%nat -> in_call i tr = Some o -> ~ receives o r) ->
  exists v x, stalled d v r x (k_bus s).
Proof.
  intros HL (v & name & cap & Hd & Hreg & Hm & Hb & Hl & Hw) Hno. exists v.
  pose proof (j_recv _ _ _ (l_jinv _ _ _ HL) r) as HR. apply (in_map_registered _ _ _ _ (l_jinv _ _ _ HL)) in Hreg.
  apply in_map_iff in Hreg. destruct Hreg as ((nm & r0) & E & Hin). cbn in E. subst r0. destruct (i_map _ (l_binv _ _ _ HL) _ _ Hin) as (x & Hx & _ & Hc).
  rewrite Hx in HR. destruct HR as (Ed & _ & HM & _). exists x. apply HM in Hm. destruct Hm as (_ & -> & Hs).
  constructor.
  - pose proof (j_disp _ _ _ (l_jinv _ _ _ HL) d r) as HD. unfold disp_inv in HD. destruct (nth_error (b_disp (k_bus s)) d) as [p|] eqn:Ep.
    + exists p. split; [reflexivity|]. destruct HD as (E & _). rewrite Hb in E. apply app_inv_head in E. auto.
    + rewrite (d_disp _ _ (l_dinv _ _ _ HL)), Ep in Hd. discriminate.
  - exact Hx.
  - split; [exact Hc|]. split; [auto|]. rewrite Ed, app_length in Hl. lia.
  - intros i c Hi. assert (Hlt : (i < n)%nat) by (rewrite <- (proj1 (j_call _ _ _ (l_jinv _ _ _ HL))); apply nth_error_Some; congruence).
    destruct (takes c r) eqn:Et; [|reflexivity]. exfalso. pose proof (in_call_of _ _ _ _ _ HL Hi) as Ho.
    destruct c; try discriminate Et; cbn in Et; apply Nat.eqb_eq in Et; subst r0; cbn in Ho; apply (Hno i _ Hlt Ho); unfold receives; auto.
Qed.

Lemma stall_lasts cap n sched d r sched' : let tr := snd (lbus_exec cap n sched) in
  blocked_by d r tr -> (forall i o, (i < n)%nat -> in_call i tr = Some o -> ~ receives o r) -> Forall (leaves r) sched' ->
  exists es, snd (lbus_exec cap n (sched ++ sched')) = tr ++ es /\ forall e, In e es -> locked_event d e = false.
Proof.
  cbn zeta. intros Hb Hno HF. rewrite lbus_continue. eexists. split; [reflexivity|]. pose proof (linv_exec cap n sched) as HL.
  destruct (blocked_stalled n _ _ d r HL Hb Hno) as (v & x & HS). destruct (stalled_exec d v r x sched' _ (l_binv _ _ _ HL) HS HF) as (_ & He).
  intros e Hin. destruct (locked_event d e) eqn:E; [|reflexivity]. exfalso.
  assert (X : existsb (locked_event d) (snd (exec lstep (fst (lbus_exec cap n sched)) sched')) = true) by (apply existsb_exists; exists e; auto). congruence.
Qed.

(** ** Calls that end *)

Definition ended (i : nat) (c : cpc) (e : bevent) : Prop :=
  match c with
  | CNew name cap st => exists r, e = EReg i r name cap st
  | CClose r => e = ECloseReturns i r
  | CBusClose => e = EBusClosed i
  | _ => False
  end \/ e = EClosePanic i.

Lemma lock_ends s l s1 es i c : lstep s l = Some (s1, es) -> nth_error (b_clients (k_bus s)) i = Some c -> needs_lock c = true ->
  nth_error (b_clients (k_bus s1)) i = Some c \/ exists e, In e es /\ ended i c e.
Proof.
  intros E Hi Hn. destruct (lstep_sim s l s1 es E) as [(Eb & _)|(Eb & _)]; [rewrite Eb; auto|].
  assert (D : (exists d, l = LClient i d) \/ forall d, l <> LClient i d).
  { destruct l as [|j d| |]; try (right; intros; discriminate). destruct (Nat.eq_dec j i) as [->|]; [left; exists d; reflexivity|right; congruence]. }
  destruct D as [(d & ->)|D]; [|left; apply (bstep_others _ _ _ _ _ _ Eb Hi Hn D)]. right.
  cbn [bstep] in Eb. rewrite Hi in Eb. destruct c; try discriminate Hn; cbn [client_step] in Eb; (destruct (lockable (k_bus s)); [|discriminate]).
  - injection Eb as _ <-. eexists. split; [left; reflexivity|]. left. eexists. reflexivity.
  - unfold deregister in Eb. destruct (nth_error (b_recvs (k_bus s)) r) as [me|]; [|discriminate].
    destruct (lookup (b_map (k_bus s)) (r_name me)) as [r'|]; [|injection Eb as _ <-; exists (EClosePanic i); split; [left; reflexivity|right; reflexivity]].
    destruct (nth_error (b_recvs (k_bus s)) r') as [x|]; [|discriminate]. destruct (r_closed x); injection Eb as _ <-.
    + exists (EClosePanic i). split; [left; reflexivity|right; reflexivity].
    + exists (ECloseReturns i r). split; [right; left; reflexivity|left; reflexivity].
  - unfold bus_close_crit in Eb. destruct (existsb (is_closed (k_bus s)) (map snd (b_map (k_bus s)))); injection Eb as _ <-.
    + exists (EClosePanic i). split; [left; reflexivity|right; reflexivity].
    + exists (EBusClosed i). split; [apply in_or_app; right; left; reflexivity|left; reflexivity].
Qed.

Lemma lock_ends_exec sched : forall s i c, nth_error (b_clients (k_bus s)) i = Some c -> needs_lock c = true ->
  nth_error (b_clients (k_bus (fst (exec lstep s sched)))) i = Some c \/ exists e, In e (snd (exec lstep s sched)) /\ ended i c e.
Proof.
  induction sched as [|l sched IH]; intros s i c Hi Hn; [auto|]. cbn [exec]. destruct (lstep s l) as [[s1 es]|] eqn:E; [|apply IH; assumption].
  destruct (lock_ends _ _ _ _ _ _ E Hi Hn) as [H|(e & Hin & He)].
  - destruct (IH s1 i c H Hn) as [H1|(e & Hin & He)]; destruct (exec lstep s1 sched) as [s2 es2]; cbn [fst snd] in *; [auto|].
    right. exists e. split; [apply in_or_app; auto|exact He].
  - right. exists e. destruct (exec lstep s1 sched) as [s2 es2]. cbn [snd]. split; [apply in_or_app; auto|exact He].
Qed.

Lemma lock_calls_end cap n sched f i o : let tr := snd (lbus_exec cap n sched) in fair tr f -> only_drop tr -> (i < n)%nat -> in_call i tr = Some o ->
  match o with OpNew _ _ _ | OpClose _ | OpBusClose => True | _ => False end ->
  exists k es, snd (lbus_exec cap n (sched ++ first k f)) = tr ++ es /\
    (close_panicked (tr ++ es) \/
     match o with
     | OpNew name c st => exists r, In (EReg i r name c st) es
     | OpClose r => In (ECloseReturns i r) es
     | _ => In (EBusClosed i) es
     end).
Proof.
  cbn zeta. intros HF Ho Hi Hc Hk. destruct (fair_settles_drop cap n sched f HF Ho) as (k & H). exists k, (snd (exec lstep (fst (lbus_exec cap n sched)) (first k f))).
  pose proof (linv_exec cap n (sched ++ first k f)) as HL'. rewrite lbus_continue in *. cbn [fst snd] in *. split; [reflexivity|]. destruct H as [H|H]; [left; exact H|].
  destruct (client_at n _ _ i (linv_exec cap n sched) Hi) as (c & Ec & E). rewrite Hc in E.
  assert (Hn : needs_lock c = true) by (destruct c; cbn in E; try discriminate E; injection E as ->; destruct Hk; reflexivity).
  destruct (lock_ends_exec (first k f) _ i c Ec Hn) as [Hs|(e & Hin & He)].
  - exfalso. destruct H as (_ & H & _). specialize (H i o Hi). rewrite (in_call_of _ _ _ _ _ HL' Hs) in H. specialize (H (eq_sym E)). destruct o; auto.
  - destruct He as [He| ->].
    + right. destruct c; try discriminate Hn; cbn in E; injection E as ->; [destruct He as (r0 & ->); exists r0; exact Hin|rewrite <- He; exact Hin..].
    + left. exists i. apply in_or_app. right. exact Hin.
Qed.

Lemma running_dec n s tr d : linv n s tr -> Z.of_nat d < dispatchers tr -> ~ running d tr -> In (EEnd d) tr.
Proof.
  intros HL Hd Hr. apply (d_ended _ _ (l_dinv _ _ _ HL)).
  destruct (nth_error (b_disp (k_bus s)) d) as [p|] eqn:E; [|exfalso; apply nth_error_None in E; rewrite <- (j_disps _ _ _ (l_jinv _ _ _ HL)) in Hd; lia].
  assert (X : ~ In (EEnd d) tr -> False) by (intros H; apply Hr; split; assumption).
  destruct p; try reflexivity; exfalso; apply X; intros H; apply (d_ended _ _ (l_dinv _ _ _ HL)) in H; congruence.
Qed.

Lemma dispatchers_end cap n sched f i : let tr := snd (lbus_exec cap n sched) in fair tr f -> only_drop tr -> In (EBusClosing i) tr ->
  exists k, let tr' := snd (lbus_exec cap n (sched ++ first k f)) in
    close_panicked tr' \/ (forall d, Z.of_nat d < dispatchers tr' -> In (EEnd d) tr').
Proof.
  cbn zeta. intros HF Ho Hin. destruct (fair_settles_drop cap n sched f HF Ho) as (k & H). exists k. destruct H as [H|(_ & _ & H)]; [left; exact H|right].
  intros d Hd. apply (running_dec n _ _ d (linv_exec cap n (sched ++ first k f)) Hd). intros Hr. destruct (H d Hr) as (Hc & _). apply (Hc i).
  rewrite lbus_continue. apply in_or_app. left. exact Hin.
Qed.

(** ** Fair schedules exist *)

Definition decode (x : nat) : blabel :=
  let (k, y) := Cantor.of_nat x in
  let (a, z) := Cantor.of_nat y in
  match k with
  | O => LClient a z
  | S _ => let (b, c) := Cantor.of_nat z in LDisp a b c
  end.

Lemma decode_all tr l : works tr l = true -> exists x, decode x = l.
Proof.
  destruct l as [|i d| |d k i]; intros H; try discriminate H.
  - exists (Cantor.to_nat (0%nat, Cantor.to_nat (i, d))). unfold decode. rewrite !Cantor.cancel_of_to. reflexivity.
  - exists (Cantor.to_nat (1%nat, Cantor.to_nat (d, Cantor.to_nat (k, i)))). unfold decode. rewrite !Cantor.cancel_of_to. reflexivity.
Qed.

Definition every (tr : list bevent) (m : nat) : blabel :=
  let l := decode (fst (Cantor.of_nat m)) in if works tr l then l else LDisp 0 0 0.

Lemma every_fair tr : fair tr (every tr).
Proof.
  split.
  - intros k. unfold every. destruct (works tr (decode (fst (Cantor.of_nat k)))) eqn:E; [exact E|reflexivity].
  - intros l Hl m. destruct (decode_all tr l Hl) as (x & Hx). exists (Cantor.to_nat (x, m)). split; [pose proof (Cantor.to_nat_non_decreasing x m); lia|].
    unfold every. rewrite Cantor.cancel_of_to. cbn [fst]. rewrite Hx, Hl. reflexivity.
Qed.

(** ** Drain is not held up *)

Lemma drain_same i sched : forall s, Forall (fun l => exists d, l = LClient i d) sched ->
  (forall c, nth_error (b_clients (k_bus s)) i = Some c -> match c with CIdle | CDrain _ _ => True | _ => False end) ->
  exec lstep s sched = (LBus (fst (exec bstep (k_bus s) sched)) (k_writer s), snd (exec bstep (k_bus s) sched)).
Proof.
  induction sched as [|l sched IH]; intros s HF Hc; [destruct s; reflexivity|]. inversion HF as [|? ? (d & ->) HF']; subst. cbn [exec lstep].
  destruct (nth_error (b_clients (k_bus s)) i) as [c|] eqn:Ei; [|cbn [bstep]; rewrite Ei; apply IH; [exact HF'|congruence]].
  specialize (Hc c eq_refl) as Hc1. assert (En : needs_lock c = false) by (destruct c; try destruct Hc1; reflexivity). rewrite En.
  destruct (bstep (k_bus s) (LClient i d)) as [[b1 es]|] eqn:E; cbn [keep]; [|apply IH; [exact HF'|intros c' H'; apply Hc; congruence]].
  rewrite (IH (LBus b1 (k_writer s)) HF').
  - cbn [k_bus k_writer]. destruct (exec bstep b1 sched). reflexivity.
  - cbn [k_bus]. intros c1 H1. cbn [bstep] in E. rewrite Ei in E. destruct c as [| | | | | |r acc| |]; try destruct Hc1; cbn [client_step] in E; try discriminate.
    assert (T : forall ov s' e', take (k_bus s) r d = Some (ov, s', e') -> b_clients s' = b_clients (k_bus s)).
    { intros ov s' e' Ht. apply (take_mu (width (k_bus s)) _ r d ov s' e' (Z.le_refl _) Ht). }
    destruct (take (k_bus s) r d) as [[[[v|] s'] e']|] eqn:Et.
    + injection E as <- <-. cbn [set_client b_clients] in H1. rewrite (T _ _ _ eq_refl), (nth_error_upd_same _ _ _ _ Ei) in H1. injection H1 as <-. exact I.
    + injection E as <- <-. cbn [set_client b_clients] in H1. rewrite (T _ _ _ eq_refl), (nth_error_upd_same _ _ _ _ Ei) in H1. injection H1 as <-. exact I.
    + destruct (existsb (fun p => blocked_on p r) (b_disp (k_bus s))); [discriminate|]. injection E as <- <-. cbn [set_client b_clients] in H1.
      rewrite (nth_error_upd_same _ _ _ _ Ei) in H1. injection H1 as <-. exact I.
Qed.

Lemma drain_solo' cap n sched i r name c st : let tr := snd (lbus_exec cap n sched) in
  idle n i tr -> made tr r name c st -> (forall d, begun d r tr = verdicts d r tr) ->
  exists data k, delivered_to r tr = got r tr ++ data /\
    snd (lbus_exec cap n (sched ++ LCall i (OpDrain r) :: repeat (LClient i 0) k)) =
      tr ++ ECall i (OpDrain r) :: map (fun v => EGot i r (Some v)) data ++ [EDrained i r data].
Proof.
  cbn zeta. intros Hi Hm Hb. destruct (lock_trace cap n sched) as (sched0 & E1 & E2).
  destruct (drain_solo cap n sched0 i r name c st) as (data & k & A & B); rewrite ?E2; try assumption.
  exists data, k. rewrite E2 in A, B. split; [exact A|]. rewrite <- B, lbus_continue, exec_continue, E1, E2. cbn [snd]. f_equal.
  set (s := fst (lbus_exec cap n sched)) in *. pose proof (linv_exec cap n sched) as HL. fold s in HL.
  assert (Ei : nth_error (b_clients (k_bus s)) i = Some CIdle) by (rewrite <- E1; apply idle_client; rewrite E2; exact Hi).
  cbn [exec lstep]. destruct (bstep (k_bus s) (LCall i (OpDrain r))) as [[b1 es]|] eqn:E; cbn [keep].
  - assert (H1 : nth_error (b_clients b1) i = Some (CDrain r [])).
    { cbn [bstep] in E. rewrite Ei in E. cbn [call] in E. destruct (nth_error (b_recvs (k_bus s)) r); [|discriminate]. injection E as <- <-. apply (nth_error_upd_same _ _ _ _ Ei). }
    rewrite (drain_same i (repeat (LClient i 0) k) (LBus b1 (k_writer s))).
    + cbn [k_bus k_writer]. destruct (exec bstep b1 (repeat (LClient i 0) k)). reflexivity.
    + apply Forall_forall. intros l Hl. apply repeat_spec in Hl. exists 0%nat. exact Hl.
    + cbn [k_bus]. intros c1 Hc1. rewrite H1 in Hc1. injection Hc1 as <-. exact I.
  - rewrite (drain_same i (repeat (LClient i 0) k) s); [reflexivity| |].
    + apply Forall_forall. intros l Hl. apply repeat_spec in Hl. exists 0%nat. exact Hl.
    + intros c1 Hc1. rewrite Ei in Hc1. injection Hc1 as <-. exact I.
Qed.

Lemma drain_progress' cap n sched i r : let tr := snd (lbus_exec cap n sched) in
  (i < n)%nat -> in_call i tr = Some (OpDrain r) ->
  exists d es, snd (lbus_exec cap n (sched ++ [LClient i d])) = tr ++ es /\
    ((exists v, In (EGot i r (Some v)) es) \/ exists data, In (EDrained i r data) es).
Proof.
  cbn zeta. intros Hi Hc. destruct (lock_trace cap n sched) as (sched0 & E1 & E2).
  destruct (drain_progress cap n sched0 i r) as (d & es & A & B); rewrite ?E2; try assumption.
  exists d, es. split; [|exact B]. rewrite E2 in A. rewrite <- A, lbus_continue, exec_continue, E1, E2. cbn [snd]. f_equal.
  rewrite (drain_same i [LClient i d]); [reflexivity|constructor; [exists d; reflexivity|constructor]|].
  intros c Hn. pose proof (in_call_of _ _ _ _ _ (linv_exec cap n sched) Hn) as H. rewrite Hc in H. destruct c; try discriminate H; exact I.
Qed.
