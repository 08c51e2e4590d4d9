(** Proofs about the event bus. *)
From Verif Require Import Common Bytes Threads BusModel BusSpec.
Local Open Scope string_scope.
Local Open Scope list_scope.
Local Open Scope Z_scope.

(** ** The transitions *)

Inductive consumes : cpc -> nat -> option Z -> cpc -> Prop :=
| ConsRecv r p ov : consumes (CRecv r p) r ov CIdle
| ConsDrain r acc v : consumes (CDrain r acc) r (Some v) (CDrain r (acc ++ [v]))
| ConsCollect r acc p ov : consumes (CCollect r acc p) r ov (CCollect r (acc ++ [ov]) false).

Inductive parks : cpc -> nat -> cpc -> Prop :=
| ParkRecv r : parks (CRecv r false) r (CRecv r true)
| ParkCollect r acc : parks (CCollect r acc false) r (CCollect r acc true).

(** Dispatcher state [p] offers [v] to [r] next, [todo] remaining. *)
Inductive offers : dpc -> Z -> nat -> list nat -> Prop :=
| OffIter v todo k r : nth_error todo k = Some r -> offers (DIter v todo) v r (remove_nth k todo)
| OffBlocked v r todo : offers (DBlocked v r todo) v r todo.

Definition nobody_parked (s : bus) (r : nat) : Prop :=
  forall i c, nth_error (b_clients s) i = Some c -> parked_on c r = false.
Definition nobody_blocked (s : bus) (r : nat) : Prop :=
  forall d p, nth_error (b_disp s) d = Some p -> blocked_on p r = false.
Definition nobody_reads (s : bus) : Prop :=
  forall d p, nth_error (b_disp s) d = Some p -> reading p = false.

(** The client state right after a call that starts normally. *)
Inductive starts (s : bus) : bop -> cpc -> Prop :=
| StartSend v : starts s (OpSend v) (CSend v)
| StartNew name cap st : 0 <= cap -> starts s (OpNew name cap st) (CNew name cap st)
| StartClose r x : nth_error (b_recvs s) r = Some x -> starts s (OpClose r) (CClose r)
| StartRecv r x : nth_error (b_recvs s) r = Some x -> starts s (OpRecv r) (CRecv r false)
| StartDrain r x : nth_error (b_recvs s) r = Some x -> starts s (OpDrain r) (CDrain r [])
| StartCollect r x : nth_error (b_recvs s) r = Some x -> starts s (OpCollect r) (CCollect r [] false).

Inductive trans (s : bus) : bus -> list bevent -> Prop :=
| TCall i o c : nth_error (b_clients s) i = Some CIdle -> starts s o c ->
    trans s (set_client i c s) [ECall i o]
| TCallPanic i o : nth_error (b_clients s) i = Some CIdle ->
    trans s (set_client i CDead s) [ECall i o; EClientPanic i]
| TBusClosing i : nth_error (b_clients s) i = Some CIdle -> b_closed s = false ->
    trans s (set_client i CBusClose (Bus (b_cap s) (b_buf s) true (b_map s) (b_recvs s) (b_disp s) (b_clients s) (b_stuck s)))
      [ECall i OpBusClose; EBusClosing i]
| TGo i : nth_error (b_clients s) i = Some CIdle ->
    trans s (Bus (b_cap s) (b_buf s) (b_closed s) (b_map s) (b_recvs s) (b_disp s ++ [DRecv]) (b_clients s) (b_stuck s))
      [ECall i OpGo; EGone i]
| TSendPanic i v : nth_error (b_clients s) i = Some (CSend v) -> b_closed s = true ->
    trans s (set_client i CDead s) [EClientPanic i]
| TSendBuf i v : nth_error (b_clients s) i = Some (CSend v) -> b_closed s = false ->
    trans s (set_client i CIdle (set_buf (b_buf s ++ [v]) s)) [ESent i v]
| TSendHand i d v : nth_error (b_clients s) i = Some (CSend v) -> b_closed s = false -> b_buf s = [] ->
    nth_error (b_disp s) d = Some DRecv ->
    trans s (set_client i CIdle (set_disp d (DLock v) s)) [ESent i v; ETaken d v]
| TRegister i name cap st : nth_error (b_clients s) i = Some (CNew name cap st) -> nobody_reads s -> b_stuck s = false ->
    trans s (fst (register s i name cap st)) (snd (register s i name cap st))
| TDeregPanic i r me : nth_error (b_clients s) i = Some (CClose r) -> nobody_reads s -> b_stuck s = false ->
    nth_error (b_recvs s) r = Some me ->
    (lookup (b_map s) (r_name me) = None \/ exists r' x, lookup (b_map s) (r_name me) = Some r' /\
       nth_error (b_recvs s) r' = Some x /\ r_closed x = true) ->
    trans s (set_stuck (set_client i CDead s)) [EClosePanic i]
| TDereg i r me r' x : nth_error (b_clients s) i = Some (CClose r) -> nobody_reads s -> b_stuck s = false ->
    nth_error (b_recvs s) r = Some me -> lookup (b_map s) (r_name me) = Some r' ->
    nth_error (b_recvs s) r' = Some x -> r_closed x = false ->
    trans s (set_client i CIdle (set_map (remove (b_map s) (r_name me)) (set_recv r' (closed x) s)))
      [EClosedRecv r'; ECloseReturns i r]
| TBusClosePanic i r : nth_error (b_clients s) i = Some CBusClose -> nobody_reads s -> b_stuck s = false ->
    In r (map snd (b_map s)) -> is_closed s r = true ->
    trans s (set_stuck (set_client i CDead s)) [EClosePanic i]
| TBusClose i : nth_error (b_clients s) i = Some CBusClose -> nobody_reads s -> b_stuck s = false ->
    (forall r, In r (map snd (b_map s)) -> is_closed s r = false) ->
    trans s (set_client i CIdle
          (Bus (b_cap s) (b_buf s) (b_closed s) [] (close_all (map snd (b_map s)) (b_recvs s)) (b_disp s) (b_clients s) (b_stuck s)))
      (map EClosedRecv (map snd (b_map s)) ++ [EBusClosed i])
| TTakeBuf i c r x v rest c' : nth_error (b_clients s) i = Some c -> nth_error (b_recvs s) r = Some x ->
    r_buf x = v :: rest -> consumes c r (Some v) c' ->
    trans s (set_client i c' (set_recv r (with_buf x rest) s)) [EGot i r (Some v)]
| TTakeClosed i c r x c' : nth_error (b_clients s) i = Some c -> nth_error (b_recvs s) r = Some x ->
    r_buf x = [] -> r_closed x = true -> consumes c r None c' ->
    trans s (set_client i c' s) [EGot i r None]
| TTakeBlocked i d c r x v todo c' : nth_error (b_clients s) i = Some c -> nth_error (b_recvs s) r = Some x ->
    r_buf x = [] -> r_closed x = false -> nth_error (b_disp s) d = Some (DBlocked v r todo) -> consumes c r (Some v) c' ->
    trans s (set_client i c' (set_disp d (DIter v todo) s)) [EDelivered d r v; EGot i r (Some v)]
| TPark i c r x c' : nth_error (b_clients s) i = Some c -> nth_error (b_recvs s) r = Some x ->
    r_buf x = [] -> r_closed x = false -> nobody_blocked s r -> parks c r c' ->
    trans s (set_client i c' s) [EWaits i r]
| TDrained i r acc x : nth_error (b_clients s) i = Some (CDrain r acc) -> nth_error (b_recvs s) r = Some x ->
    r_buf x = [] -> (r_closed x = true \/ nobody_blocked s r) ->
    trans s (set_client i CIdle s) [EDrained i r acc]
| TTimeout i r acc p : nth_error (b_clients s) i = Some (CCollect r acc p) ->
    trans s (set_client i CIdle s) [ECollected i r acc]
| TTake d v rest : nth_error (b_disp s) d = Some DRecv -> b_buf s = v :: rest ->
    trans s (set_disp d (DLock v) (set_buf rest s)) [ETaken d v]
| TEnd d : nth_error (b_disp s) d = Some DRecv -> b_buf s = [] -> b_closed s = true ->
    trans s (set_disp d DDone s) [EEnd d]
| TBegin d v : nth_error (b_disp s) d = Some (DLock v) -> b_stuck s = false ->
    trans s (set_disp d (DIter v (map snd (b_map s))) s) [EBegin d v (map snd (b_map s))]
| TFinish d v : nth_error (b_disp s) d = Some (DIter v []) ->
    trans s (set_disp d DRecv s) [EFinish d v]
| TDispPanic d p v r todo x : nth_error (b_disp s) d = Some p -> offers p v r todo ->
    nth_error (b_recvs s) r = Some x -> r_closed x = true ->
    trans s (set_disp d DDead s) [EDispPanic d]
| THand d p v r todo x i c : nth_error (b_disp s) d = Some p -> offers p v r todo ->
    nth_error (b_recvs s) r = Some x -> r_closed x = false -> (r_strategy x = Drop \/ r_strategy x = Block) ->
    nth_error (b_clients s) i = Some c -> parked_on c r = true ->
    trans s (set_disp d (DIter v todo) (set_client i (serve c (Some v)) s)) [EDelivered d r v; EGot i r (Some v)]
| TBuffer d p v r todo x : nth_error (b_disp s) d = Some p -> offers p v r todo ->
    nth_error (b_recvs s) r = Some x -> r_closed x = false -> (r_strategy x = Drop \/ r_strategy x = Block) ->
    nobody_parked s r -> Z.of_nat (length (r_buf x)) < r_cap x ->
    trans s (set_disp d (DIter v todo) (set_recv r (with_buf x (r_buf x ++ [v])) s)) [EDelivered d r v]
| TDrop d p v r todo x : nth_error (b_disp s) d = Some p -> offers p v r todo ->
    nth_error (b_recvs s) r = Some x -> r_closed x = false -> r_strategy x = Drop ->
    nobody_parked s r -> r_cap x <= Z.of_nat (length (r_buf x)) ->
    trans s (set_disp d (DIter v todo) s) [EDropped d r v]
| TBlock d v todo0 k r x : nth_error (b_disp s) d = Some (DIter v todo0) -> nth_error todo0 k = Some r ->
    nth_error (b_recvs s) r = Some x -> r_closed x = false -> r_strategy x = Block ->
    nobody_parked s r -> r_cap x <= Z.of_nat (length (r_buf x)) ->
    trans s (set_disp d (DBlocked v r (remove_nth k todo0)) s) []
| TIgnore d p v r todo x : nth_error (b_disp s) d = Some p -> offers p v r todo ->
    nth_error (b_recvs s) r = Some x -> r_strategy x <> Drop -> r_strategy x <> Block ->
    trans s (set_disp d (DIter v todo) s) [EIgnored d r v].

Lemma existsb_nth {A} (f : A -> bool) l : existsb f l = false <-> forall i x, nth_error l i = Some x -> f x = false.
Proof.
  split.
  - intros H i x Hi. apply nth_error_In in Hi. destruct (f x) eqn:E; [|reflexivity].
    rewrite <- H. symmetry. apply existsb_exists. exists x. auto.
  - intros H. destruct (existsb f l) eqn:E; [|reflexivity]. apply existsb_exists in E. destruct E as (x & Hx & Hf).
    apply In_nth_error in Hx. destruct Hx as (i & Hi). rewrite (H i x Hi) in Hf. discriminate.
Qed.

Lemma lockable_true s : lockable s = true <-> nobody_reads s /\ b_stuck s = false.
Proof.
  unfold lockable. rewrite andb_true_iff, !negb_true_iff, existsb_nth. reflexivity.
Qed.

Ltac inv_some H := injection H as <- <-.

Lemma take_spec s r d ov s1 es : take s r d = Some (ov, s1, es) ->
  exists x, nth_error (b_recvs s) r = Some x /\
  ((exists v rest, r_buf x = v :: rest /\ ov = Some v /\ s1 = set_recv r (with_buf x rest) s /\ es = []) \/
   (r_buf x = [] /\ r_closed x = true /\ ov = None /\ s1 = s /\ es = []) \/
   (exists v todo, r_buf x = [] /\ r_closed x = false /\ nth_error (b_disp s) d = Some (DBlocked v r todo) /\
      ov = Some v /\ s1 = set_disp d (DIter v todo) s /\ es = [EDelivered d r v])).
Proof.
  unfold take. destruct (nth_error (b_recvs s) r) as [x|]; [|discriminate]. intros H. exists x. split; [reflexivity|].
  destruct (r_buf x) as [|v rest].
  - destruct (r_closed x).
    + injection H as <- <- <-. right. left. auto.
    + destruct (nth_error (b_disp s) d) as [[| | |v r' todo| |]|]; try discriminate.
      destruct (Nat.eqb_spec r' r) as [->|]; [|discriminate]. injection H as <- <- <-.
      right. right. exists v, todo. auto 10.
  - injection H as <- <- <-. left. exists v, rest. auto.
Qed.

Lemma take_none s r d x : take s r d = None -> nth_error (b_recvs s) r = Some x -> r_buf x = [] /\ r_closed x = false.
Proof.
  unfold take. intros H Hx. rewrite Hx in H. destruct (r_buf x); [|discriminate].
  destruct (r_closed x); [discriminate|auto].
Qed.

Lemma take_none_valid s r d : take s r d = None ->
  nth_error (b_recvs s) r = None \/ exists x, nth_error (b_recvs s) r = Some x /\ r_buf x = [] /\ r_closed x = false.
Proof.
  intros H. destruct (nth_error (b_recvs s) r) as [x|] eqn:E; [right|auto]. exists x. split; [reflexivity|]. apply (take_none s r d x); assumption.
Qed.

(** Clients only refer to receivers that exist. *)
Definition refs_ok (s : bus) : Prop :=
  forall i c, nth_error (b_clients s) i = Some c ->
    match c with
    | CClose r | CRecv r _ | CDrain r _ | CCollect r _ _ => nth_error (b_recvs s) r <> None
    | CNew _ cap _ => 0 <= cap
    | _ => True
    end.

Lemma offer_trans s d p v r todo i again s1 es : nth_error (b_disp s) d = Some p -> offers p v r todo ->
  (again = false -> exists todo0 k, p = DIter v todo0 /\ nth_error todo0 k = Some r /\ todo = remove_nth k todo0) ->
  offer s d v r todo i again = Some (s1, es) -> trans s s1 es.
Proof.
  intros Hp Hoff Hag. unfold offer. destruct (nth_error (b_recvs s) r) as [x|] eqn:Ex; [|discriminate].
  destruct (Z.eqb_spec (r_strategy x) Drop) as [Ed|Ed]; destruct (Z.eqb_spec (r_strategy x) Block) as [Eb|Eb]; cbn [orb].
  4:{ intros H. inv_some H. eapply TIgnore; eassumption. }
  1: unfold Drop, Block in *; lia.
  all: destruct (r_closed x) eqn:Ec; [intros H; inv_some H; eapply TDispPanic; eassumption|].
  all: destruct (existsb (fun c => parked_on c r) (b_clients s)) eqn:Ep.
  1,3: destruct (nth_error (b_clients s) i) as [c|] eqn:Ei; [|discriminate]; destruct (parked_on c r) eqn:Epc; [|discriminate];
       intros H; inv_some H; eapply THand; eauto.
  all: assert (Hnp : nobody_parked s r) by (intros j c Hj; rewrite existsb_nth in Ep; apply (Ep j c Hj)).
  all: destruct (Z.ltb_spec (Z.of_nat (length (r_buf x))) (r_cap x)) as [Hr|Hr]; [intros H; inv_some H; eapply TBuffer; eauto|].
  - intros H. inv_some H. eapply TDrop; eauto.
  - destruct again; [discriminate|]. intros H. inv_some H. destruct (Hag eq_refl) as (todo0 & k & -> & Hk & ->).
    eapply TBlock; eauto.
Qed.

Lemma bstep_trans s l s1 es : refs_ok s -> bstep s l = Some (s1, es) -> trans s s1 es.
Proof.
  intros HR. destruct l as [i o|i d|i|d k i]; cbn [bstep].
  - destruct (nth_error (b_clients s) i) as [[]|] eqn:Ei; try discriminate.
    destruct (call s i o) as [[s' es']|] eqn:Ec; [|discriminate]. intros H. inv_some H.
    destruct o; cbn [call] in Ec.
    + inv_some Ec. apply TCall; [exact Ei|constructor].
    + destruct (Z.ltb_spec cap 0); inv_some Ec; [apply TCallPanic; exact Ei|]. apply TCall; [exact Ei|]. constructor. lia.
    + destruct (nth_error (b_recvs s) r) as [x|] eqn:Ex; [|discriminate]. inv_some Ec. apply TCall; [exact Ei|]. econstructor; eassumption.
    + destruct (b_closed s) eqn:Eb; inv_some Ec; [apply TCallPanic; exact Ei|]. apply TBusClosing; assumption.
    + inv_some Ec. apply TGo. exact Ei.
    + destruct (nth_error (b_recvs s) r) as [x|] eqn:Ex; [|discriminate]. inv_some Ec. apply TCall; [exact Ei|]. econstructor; eassumption.
    + destruct (nth_error (b_recvs s) r) as [x|] eqn:Ex; [|discriminate]. inv_some Ec. apply TCall; [exact Ei|]. econstructor; eassumption.
    + destruct (nth_error (b_recvs s) r) as [x|] eqn:Ex; [|discriminate]. inv_some Ec. apply TCall; [exact Ei|]. econstructor; eassumption.
  - destruct (nth_error (b_clients s) i) as [c|] eqn:Ei; [|discriminate]. pose proof (HR i c Ei) as Href.
    destruct c; cbn [client_step] in *; try discriminate.
    + destruct (b_closed s) eqn:Ec; [intros H; inv_some H; eapply TSendPanic; eassumption|].
      destruct (Z.ltb_spec (Z.of_nat (length (b_buf s))) (b_cap s)); [intros H'; inv_some H'; apply TSendBuf; assumption|].
      destruct (b_buf s) eqn:Eb; [|discriminate]. destruct (nth_error (b_disp s) d) as [[]|] eqn:Ed; try discriminate.
      intros H'. inv_some H'. apply TSendHand; assumption.
    + destruct (lockable s) eqn:El; [|discriminate]. apply lockable_true in El. destruct El as (L1 & L2).
      intros H. injection H as <- <-. apply (TRegister s i name cap strategy); assumption.
    + destruct (lockable s) eqn:El; [|discriminate]. apply lockable_true in El. destruct El as (L1 & L2).
      unfold deregister. destruct (nth_error (b_recvs s) r) as [me|] eqn:Er; [|discriminate].
      destruct (lookup (b_map s) (r_name me)) as [r'|] eqn:Elk.
      * destruct (nth_error (b_recvs s) r') as [x|] eqn:Ex; [|discriminate].
        destruct (r_closed x) eqn:Ecl; intros H; inv_some H.
        -- eapply TDeregPanic; eauto 10.
        -- eapply TDereg; eassumption.
      * intros H. inv_some H. eapply TDeregPanic; eauto 10.
    + destruct (lockable s) eqn:El; [|discriminate]. apply lockable_true in El. destruct El as (L1 & L2).
      unfold bus_close_crit. destruct (existsb (is_closed s) (map snd (b_map s))) eqn:Ee; intros H; inv_some H.
      * apply existsb_exists in Ee. destruct Ee as (r & A & B). eapply TBusClosePanic; eassumption.
      * apply TBusClose; try assumption. intros r Hr. rewrite existsb_nth in Ee. apply In_nth_error in Hr. destruct Hr as (k & Hk). eapply Ee; eassumption.
    + destruct (take s r d) as [[[ov s'] es']|] eqn:Et.
      * intros H. inv_some H. apply take_spec in Et. destruct Et as (x & Hx & [(v & rest & A & -> & -> & ->)|[(A & B & -> & -> & ->)|(v & todo & A & B & C & -> & -> & ->)]]).
        -- eapply TTakeBuf; [eassumption..|constructor].
        -- eapply TTakeClosed; [eassumption..|constructor].
        -- eapply TTakeBlocked; [eassumption..|constructor].
      * destruct (take_none_valid s r d Et) as [Hn|(x & Hx & A & B)]; [congruence|].
        destruct (existsb (fun p => blocked_on p r) (b_disp s)) eqn:Eb; [discriminate|]. destruct parked; [discriminate|].
        intros H. inv_some H. eapply TPark; [eassumption..| |constructor].
        intros d' p Hp. rewrite existsb_nth in Eb. apply (Eb d' p Hp).
    + destruct (take s r d) as [[[ov s'] es']|] eqn:Et.
      * apply take_spec in Et. destruct Et as (x & Hx & [(v & rest & A & -> & -> & ->)|[(A & B & -> & -> & ->)|(v & todo & A & B & C & -> & -> & ->)]]);
          intros H; inv_some H.
        -- eapply TTakeBuf; [eassumption..|constructor].
        -- eapply TDrained; eauto.
        -- eapply TTakeBlocked; [eassumption..|constructor].
      * destruct (take_none_valid s r d Et) as [Hn|(x & Hx & A & B)]; [congruence|].
        destruct (existsb (fun p => blocked_on p r) (b_disp s)) eqn:Eb; [discriminate|].
        intros H. inv_some H. eapply TDrained; [eassumption..|]. right.
        intros d' p Hp. rewrite existsb_nth in Eb. apply (Eb d' p Hp).
    + destruct (take s r d) as [[[ov s'] es']|] eqn:Et.
      * intros H. inv_some H. apply take_spec in Et. destruct Et as (x & Hx & [(v & rest & A & -> & -> & ->)|[(A & B & -> & -> & ->)|(v & todo & A & B & C & -> & -> & ->)]]).
        -- eapply TTakeBuf; [eassumption..|constructor].
        -- eapply TTakeClosed; [eassumption..|constructor].
        -- eapply TTakeBlocked; [eassumption..|constructor].
      * destruct (take_none_valid s r d Et) as [Hn|(x & Hx & A & B)]; [congruence|].
        destruct (existsb (fun p => blocked_on p r) (b_disp s)) eqn:Eb; [discriminate|]. destruct parked; [discriminate|].
        intros H. inv_some H. eapply TPark; [eassumption..| |constructor].
        intros d' p Hp. rewrite existsb_nth in Eb. apply (Eb d' p Hp).
  - destruct (nth_error (b_clients s) i) as [[]|] eqn:Ei; try discriminate. intros H. inv_some H. eapply TTimeout; eassumption.
  - destruct (nth_error (b_disp s) d) as [p|] eqn:Ed; [|discriminate]. destruct p; cbn [disp_step]; try discriminate.
    + destruct (b_buf s) as [|v rest] eqn:Eb.
      * destruct (b_closed s) eqn:Ec; [|discriminate]. intros H. inv_some H. apply TEnd; assumption.
      * intros H. inv_some H. apply TTake; assumption.
    + destruct (b_stuck s) eqn:Es; [discriminate|]. intros H. inv_some H. apply TBegin; assumption.
    + destruct todo as [|r0 todo0]; [intros H; inv_some H; apply TFinish; assumption|].
      destruct (nth_error (r0 :: todo0) k) as [r|] eqn:Ek; [|discriminate].
      apply (offer_trans s d (DIter v (r0 :: todo0))); [exact Ed|constructor; exact Ek|].
      intros _. exists (r0 :: todo0), k. auto.
    + apply (offer_trans s d (DBlocked v r todo)); [exact Ed|constructor|discriminate].
Qed.

(** ** The base invariant *)

Definition disp_ok (s : bus) (p : dpc) : Prop :=
  match p with
  | DIter v todo => NoDup todo /\ incl todo (map snd (b_map s))
  | DBlocked v r todo => NoDup (r :: todo) /\ incl (r :: todo) (map snd (b_map s)) /\
      exists x, nth_error (b_recvs s) r = Some x /\ r_strategy x = Block
  | _ => True
  end.

Definition client_ok (s : bus) (c : cpc) : Prop :=
  match c with
  | CClose r | CRecv r _ | CDrain r _ | CCollect r _ _ => nth_error (b_recvs s) r <> None
  | CNew _ cap _ => 0 <= cap
  | _ => True
  end.

Record binv (s : bus) : Prop := BInv {
  i_refs : refs_ok s;
  i_keys : NoDup (map fst (b_map s));
  i_ids : NoDup (map snd (b_map s));
  i_map : forall name r, In (name, r) (b_map s) ->
    exists x, nth_error (b_recvs s) r = Some x /\ r_name x = name /\ r_closed x = false;
  i_disp : forall d p, nth_error (b_disp s) d = Some p -> disp_ok s p;
  i_park : forall r x i c, nth_error (b_recvs s) r = Some x -> r_closed x = false ->
    nth_error (b_clients s) i = Some c -> parked_on c r = true -> r_buf x = [] /\ nobody_blocked s r;
  i_buf : forall r x, nth_error (b_recvs s) r = Some x -> Z.of_nat (length (r_buf x)) <= r_cap x
}.

Lemma binv_ext s s' : b_map s' = b_map s -> b_recvs s' = b_recvs s -> b_disp s' = b_disp s -> b_clients s' = b_clients s ->
  binv s -> binv s'.
Proof.
  intros E1 E2 E3 E4 [A B C D E F G]. constructor; unfold refs_ok, disp_ok, nobody_blocked in *; rewrite ?E1, ?E2, ?E3, ?E4; assumption.
Qed.

Lemma binv_client s i c0 c : binv s -> nth_error (b_clients s) i = Some c0 -> client_ok s c ->
  (forall r x, parked_on c r = true -> nth_error (b_recvs s) r = Some x -> r_closed x = false ->
     r_buf x = [] /\ nobody_blocked s r) ->
  binv (set_client i c s).
Proof.
  intros [A B C D E F G] Hi Hc Hp. constructor; cbn [set_client b_map b_recvs b_disp b_clients]; try assumption.
  - intros j c1. cbn [set_client b_clients]. rewrite nth_error_upd. destruct (Nat.eq_dec i j) as [<-|].
    + rewrite Hi. intros [= <-]. exact Hc.
    + apply A.
  - intros r x j c1 Hr Ho. rewrite nth_error_upd. destruct (Nat.eq_dec i j) as [<-|].
    + rewrite Hi. intros [= <-] Hpk. apply (Hp r x Hpk Hr Ho).
    + intros Hj Hpk. apply (F r x j c1 Hr Ho Hj Hpk).
Qed.

Lemma binv_disp s d p0 p : binv s -> nth_error (b_disp s) d = Some p0 -> disp_ok s p ->
  (forall r, blocked_on p r = true -> nobody_parked s r) -> binv (set_disp d p s).
Proof.
  intros [A B C D E F G] Hd Hp Hb. constructor; cbn [set_disp b_map b_recvs b_disp b_clients]; try assumption.
  - intros d' p'. cbn [set_disp b_disp]. rewrite nth_error_upd. destruct (Nat.eq_dec d d') as [<-|].
    + rewrite Hd. intros [= <-]. exact Hp.
    + apply E.
  - intros r x j c1 Hr Ho Hj Hpk. destruct (F r x j c1 Hr Ho Hj Hpk) as (F1 & F2). split; [exact F1|].
    intros d' p'. cbn [set_disp b_disp]. rewrite nth_error_upd. destruct (Nat.eq_dec d d') as [<-|].
    + rewrite Hd. intros [= <-]. destruct (blocked_on p r) eqn:Eb; [|reflexivity].
      specialize (Hb r Eb j c1 Hj). congruence.
    + apply F2.
Qed.

Lemma nth_error_upd_Some {A} i j (x y : A) l : nth_error (upd i x l) j = Some y ->
  (i = j /\ y = x /\ nth_error l i <> None) \/ (i <> j /\ nth_error l j = Some y).
Proof.
  rewrite nth_error_upd. destruct (Nat.eq_dec i j) as [<-|n]; [|auto].
  destruct (nth_error l i); [|discriminate]. intros [= <-]. left. repeat split. discriminate.
Qed.

Lemma nth_error_upd_None {A} i j (x : A) l : nth_error (upd i x l) j = None <-> nth_error l j = None.
Proof. rewrite !nth_error_None, upd_length. reflexivity. Qed.

Lemma binv_recv s r x buf : binv s -> nth_error (b_recvs s) r = Some x ->
  Z.of_nat (length buf) <= r_cap x -> (buf <> [] -> r_closed x = false -> nobody_parked s r \/ r_buf x <> []) ->
  binv (set_recv r (with_buf x buf) s).
Proof.
  intros [A B C D E F G] Hr Hl Hn. constructor; cbn [set_recv b_map b_recvs b_disp b_clients]; try assumption.
  - intros j c Hj. specialize (A j c Hj). destruct c; cbn [set_recv b_recvs]; try exact A; intros Hx; apply A;
      apply nth_error_upd_None in Hx; exact Hx.
  - intros name r' Hin. destruct (D name r' Hin) as (y & Hy & H1 & H2).
    destruct (Nat.eq_dec r r') as [<-|Hne].
    + rewrite Hr in Hy. injection Hy as <-. exists (with_buf x buf). split; [eapply nth_error_upd_same; eassumption|auto].
    + exists y. rewrite nth_error_upd_other by exact Hne. auto.
  - intros d p Hd. specialize (E d p Hd). destruct p; cbn [disp_ok set_recv b_map b_recvs] in *; try exact E.
    destruct E as (E1 & E2 & y & E3 & E4). split; [exact E1|]. split; [exact E2|].
    destruct (Nat.eq_dec r r0) as [<-|Hne].
    + rewrite Hr in E3. injection E3 as <-. exists (with_buf x buf). split; [eapply nth_error_upd_same; eassumption|exact E4].
    + exists y. rewrite nth_error_upd_other by exact Hne. auto.
  - intros r' y i c Hr' Ho Hi Hpk. apply nth_error_upd_Some in Hr'. destruct Hr' as [(<- & -> & _)|(Hne & Hr')].
    + cbn [with_buf r_closed r_buf] in *. destruct (F r x i c Hr Ho Hi Hpk) as (F1 & F2). split; [|exact F2].
      destruct buf as [|b buf']; [reflexivity|]. exfalso. destruct (Hn ltac:(discriminate) Ho) as [Hn'|Hn']; [|congruence].
      specialize (Hn' i c Hi). congruence.
    + apply (F r' y i c Hr' Ho Hi Hpk).
  - intros r' y Hr'. apply nth_error_upd_Some in Hr'. destruct Hr' as [(<- & -> & _)|(Hne & Hr')].
    + cbn [with_buf r_buf r_cap]. exact Hl.
    + apply (G r' y Hr').
Qed.

Lemma In_remove m name k r : In (k, r) (remove m name) <-> In (k, r) m /\ k <> name.
Proof.
  induction m as [|(k0, r0) m IH]; cbn [remove]; [cbn; tauto|].
  destruct (String.eqb_spec k0 name) as [->|Hne].
  - rewrite IH. cbn [In]. split; [tauto|]. intros ([[= <- <-]|H] & Hk); [congruence|auto].
  - cbn [In]. rewrite IH. split; [|tauto]. intros [[= <- <-]|(H & Hk)]; auto.
Qed.

Lemma remove_incl m name : incl (remove m name) m.
Proof. intros (k, r) H. apply In_remove in H. tauto. Qed.

Lemma NoDup_map_remove {B} (f : string * nat -> B) m name : NoDup (map f m) -> NoDup (map f (remove m name)).
Proof.
  induction m as [|(k, r) m IH]; cbn [remove map]; intros H; [constructor|]. inversion H; subst.
  destruct (k =? name)%string; [auto|]. cbn [map]. constructor; [|auto].
  intros Hin. apply in_map_iff in Hin. destruct Hin as (y & Hy & Hin). apply remove_incl in Hin.
  apply H2. rewrite <- Hy. apply in_map. exact Hin.
Qed.

Lemma lookup_In m name r : lookup m name = Some r -> In (name, r) m.
Proof.
  induction m as [|(k, r0) m IH]; cbn [lookup]; [discriminate|].
  destruct (String.eqb_spec k name) as [->|]; [intros [= <-]; left; reflexivity|]. intros H. right. auto.
Qed.

Lemma lookup_None m name : lookup m name = None -> forall r, ~ In (name, r) m.
Proof.
  induction m as [|(k, r0) m IH]; cbn [lookup]; [intros _ r []|].
  destruct (String.eqb_spec k name) as [->|Hne]; [discriminate|]. intros H r [[= -> ->]|Hin]; [congruence|]. apply (IH H r Hin).
Qed.

Lemma In_lookup m name r : NoDup (map fst m) -> In (name, r) m -> lookup m name = Some r.
Proof.
  induction m as [|(k, r0) m IH]; cbn [lookup map]; [intros _ []|]. intros H Hin. inversion H; subst.
  destruct (String.eqb_spec k name) as [->|Hne].
  - destruct Hin as [[= ->]|Hin]; [reflexivity|]. exfalso. apply H2. apply in_map_iff. exists (name, r). auto.
  - destruct Hin as [[= -> ->]|Hin]; [congruence|auto].
Qed.

Lemma close_all_nth rs : forall l r, nth_error (close_all rs l) r =
  match nth_error l r with
  | Some x => Some (if existsb (Nat.eqb r) rs then closed x else x)
  | None => None
  end.
Proof.
  induction rs as [|r0 rs IH]; intros l r; cbn [close_all existsb].
  - destruct (nth_error l r); reflexivity.
  - rewrite IH. destruct (Nat.eqb_spec r r0) as [->|Hne]; cbn [orb].
    + destruct (nth_error l r0) as [x|] eqn:E; [|rewrite E; reflexivity].
      rewrite (nth_error_upd_same _ _ _ _ E). destruct (existsb (Nat.eqb r0) rs); reflexivity.
    + destruct (nth_error l r0) as [x|] eqn:E; [|reflexivity]. rewrite nth_error_upd_other by congruence. reflexivity.
Qed.

Lemma binv_register s i name cap st : binv s -> nth_error (b_clients s) i = Some (CNew name cap st) -> nobody_reads s ->
  binv (fst (register s i name cap st)).
Proof.
  intros HB Hi Hnr. pose proof HB as [A B C D E F G]. pose proof (A i _ Hi) as Hcap. cbn in Hcap.
  assert (Hnth : forall r x, nth_error (b_recvs s) r = Some x ->
            nth_error (b_recvs s ++ [Recv name st cap [] false]) r = Some x).
  { intros r x Hr. rewrite nth_error_app1; [exact Hr|]. apply nth_error_Some. congruence. }
  assert (Hnth' : forall r x, nth_error (b_recvs s ++ [Recv name st cap [] false]) r = Some x ->
            nth_error (b_recvs s) r = Some x \/ (r = length (b_recvs s) /\ x = Recv name st cap [] false)).
  { intros r x Hr. destruct (Nat.lt_ge_cases r (length (b_recvs s))) as [Hlt|Hge].
    - rewrite nth_error_app1 in Hr by exact Hlt. auto.
    - right. rewrite nth_error_app2 in Hr by exact Hge.
      destruct (r - length (b_recvs s))%nat as [|k] eqn:Ek; cbn in Hr; [injection Hr as <-; split; [lia|reflexivity]|destruct k; discriminate]. }
  assert (Hlt : forall k r, In (k, r) (b_map s) -> (r < length (b_recvs s))%nat).
  { intros k r Hin. destruct (D k r Hin) as (x & Hx & _). apply nth_error_Some. congruence. }
  cbn [register fst]. apply (binv_client _ i (CNew name cap st)); [|exact Hi|exact I|intros r x [=]].
  constructor; cbn [b_map b_recvs b_disp b_clients].
  - intros j c Hj. specialize (A j c Hj). destruct c; cbn [b_recvs]; try exact A;
      (destruct (nth_error (b_recvs s) r) as [x|] eqn:Ex; [rewrite (Hnth _ _ Ex); discriminate|congruence]).
  - unfold assign. rewrite map_app. cbn [map fst].
    apply NoDup_app_remove_last_inv || idtac.
    assert (H1 := NoDup_map_remove fst (b_map s) name B).
    assert (H2 : ~ In name (map fst (remove (b_map s) name))).
    { intros Hin. apply in_map_iff in Hin. destruct Hin as ((k, r) & Hk & Hin). cbn in Hk. subst k. apply In_remove in Hin. tauto. }
    clear -H1 H2. induction (map fst (remove (b_map s) name)) as [|a l IH]; cbn; [constructor; [intros []|constructor]|].
    inversion H1; subst. constructor; [|apply IH; [assumption|intros H; apply H2; right; exact H]].
    intros Hin. apply in_app_or in Hin. destruct Hin as [Hin|[<-|[]]]; [contradiction|]. apply H2. left. reflexivity.
  - unfold assign. rewrite map_app. cbn [map snd].
    assert (H1 := NoDup_map_remove snd (b_map s) name C).
    assert (H2 : ~ In (length (b_recvs s)) (map snd (remove (b_map s) name))).
    { intros Hin. apply in_map_iff in Hin. destruct Hin as ((k, r) & Hk & Hin). cbn in Hk. subst r. apply In_remove in Hin.
      destruct Hin as (Hin & _). specialize (Hlt _ _ Hin). lia. }
    clear -H1 H2. induction (map snd (remove (b_map s) name)) as [|a l IH]; cbn; [constructor; [intros []|constructor]|].
    inversion H1; subst. constructor; [|apply IH; [assumption|intros H; apply H2; right; exact H]].
    intros Hin. apply in_app_or in Hin. destruct Hin as [Hin|[<-|[]]]; [contradiction|]. apply H2. left. reflexivity.
  - intros k r Hin. unfold assign in Hin. apply in_app_or in Hin. destruct Hin as [Hin|[[= <- <-]|[]]].
    + apply In_remove in Hin. destruct (D k r (proj1 Hin)) as (x & Hx & H1 & H2). exists x. split; [apply Hnth; exact Hx|auto].
    + exists (Recv name st cap [] false). split; [|auto]. rewrite nth_error_app2 by lia. rewrite Nat.sub_diag. reflexivity.
  - intros d p Hd. specialize (Hnr d p Hd). destruct p; try discriminate; exact I.
  - intros r x j c Hr Ho Hj Hpk. apply Hnth' in Hr. destruct Hr as [Hr|(-> & ->)].
    + apply (F r x j c Hr Ho Hj Hpk).
    + split; [reflexivity|]. intros d p Hd. specialize (Hnr d p Hd). destruct p; try discriminate; reflexivity.
  - intros r x Hr. apply Hnth' in Hr. destruct Hr as [Hr|(-> & ->)]; [apply (G r x Hr)|]. cbn. exact Hcap.
Qed.

Lemma closed_fields x : r_name (closed x) = r_name x /\ r_cap (closed x) = r_cap x /\ r_buf (closed x) = r_buf x /\
  r_strategy (closed x) = r_strategy x /\ r_closed (closed x) = true.
Proof. repeat split. Qed.

Lemma binv_close s recvs m : binv s -> nobody_reads s -> incl m (b_map s) -> NoDup (map fst m) -> NoDup (map snd m) ->
  (forall r, exists b : bool, nth_error recvs r = match nth_error (b_recvs s) r with Some x => Some (if b then closed x else x) | None => None end) ->
  (forall k r, In (k, r) m -> nth_error recvs r = nth_error (b_recvs s) r) ->
  binv (Bus (b_cap s) (b_buf s) (b_closed s) m recvs (b_disp s) (b_clients s) (b_stuck s)).
Proof.
  intros [A B C D E F G] Hnr Hin Hk Hi Hre Hm.
  constructor; cbn [b_map b_recvs b_disp b_clients]; try assumption.
  - intros j c Hj. specialize (A j c Hj). destruct c; cbn [b_recvs]; try exact A;
      (destruct (Hre r) as (b & Hb); rewrite Hb; destruct (nth_error (b_recvs s) r); [discriminate|congruence]).
  - intros k r Hkr. rewrite (Hm k r Hkr). apply D. apply Hin. exact Hkr.
  - intros d p Hd. specialize (Hnr d p Hd). destruct p; try discriminate; exact I.
  - intros r x j c Hr Ho Hj Hpk. destruct (Hre r) as (b & Hb). rewrite Hb in Hr.
    destruct (nth_error (b_recvs s) r) as [y|] eqn:Ey; [|discriminate]. injection Hr as <-.
    destruct b; [discriminate Ho|]. apply (F r y j c Ey Ho Hj Hpk).
  - intros r x Hr. destruct (Hre r) as (b & Hb). rewrite Hb in Hr.
    destruct (nth_error (b_recvs s) r) as [y|] eqn:Ey; [|discriminate]. injection Hr as <-. specialize (G r y Ey). destruct b; exact G.
Qed.

Lemma offers_ok s d p v r todo : binv s -> nth_error (b_disp s) d = Some p -> offers p v r todo ->
  NoDup (r :: todo) /\ incl (r :: todo) (map snd (b_map s)) /\
  exists x name, nth_error (b_recvs s) r = Some x /\ In (name, r) (b_map s) /\ r_closed x = false.
Proof.
  intros HB Hd Hoff. pose proof (i_disp s HB d p Hd) as Hok.
  assert (H : NoDup (r :: todo) /\ incl (r :: todo) (map snd (b_map s))).
  { destruct Hoff as [v todo0 k r Hk|v r todo]; cbn [disp_ok] in Hok; [|tauto]. destruct Hok as (H1 & H2).
    clear -Hk H1 H2. revert k Hk. induction todo0 as [|a l IH]; intros [|k] Hk; cbn in Hk; try discriminate.
    - injection Hk as ->. cbn [remove_nth]. auto.
    - inversion H1; subst. assert (Hl : incl l (map snd (b_map s))) by (intros z Hz; apply H2; right; exact Hz).
      destruct (IH H4 Hl k Hk) as (I1 & I2). cbn [remove_nth]. inversion I1; subst.
      assert (Hra : In r l) by (eapply nth_error_In; eassumption).
      assert (Hsub : forall z, In z (remove_nth k l) -> In z l).
      { clear. revert k. induction l as [|b l IH]; intros [|k] z Hz; cbn in *; auto. destruct Hz as [->|Hz]; [auto|right; eapply IH; eassumption]. }
      split.
      + constructor; [|constructor; [|assumption]].
        * intros [->|Hin]; [contradiction|contradiction].
        * intros Hin. apply H3. apply Hsub. exact Hin.
      + intros z [->|[->|Hz]]; [apply I2; left; reflexivity|apply H2; left; reflexivity|apply I2; right; exact Hz]. }
  split; [apply H|]. split; [apply H|]. destruct H as (_ & H).
  assert (Hr : In r (map snd (b_map s))) by (apply H; left; reflexivity).
  apply in_map_iff in Hr. destruct Hr as ((name, r') & <- & Hin). cbn [snd].
  destruct (i_map s HB name r' Hin) as (x & A & B & C). exists x, name. auto.
Qed.

Lemma offered_ok s d p v r todo : binv s -> nth_error (b_disp s) d = Some p -> offers p v r todo ->
  NoDup todo /\ incl todo (map snd (b_map s)).
Proof.
  intros HB Hd Ho. destruct (offers_ok s d p v r todo HB Hd Ho) as (A & B & _). inversion A; subst.
  split; [assumption|]. intros z Hz. apply B. right. exact Hz.
Qed.

Lemma consumes_ok s c r ov c' : consumes c r ov c' -> client_ok s c -> client_ok s c' /\ forall r', parked_on c' r' = false.
Proof. destruct 1; cbn; auto. Qed.

Lemma serve_ok s c ov : client_ok s c -> client_ok s (serve c ov) /\ forall r', parked_on (serve c ov) r' = false.
Proof. destruct c; cbn; auto. Qed.

Lemma refs_client s i c : binv s -> nth_error (b_clients s) i = Some c -> client_ok s c.
Proof. intros HB Hi. pose proof (i_refs s HB i c Hi) as H. destruct c; exact H. Qed.

Lemma binv_trans s s1 es : binv s -> trans s s1 es -> binv s1.
Proof.
  intros HB HT. destruct HT.
  - eapply binv_client; [exact HB|eassumption| |].
    + destruct H0; cbn; try exact I; congruence.
    + destruct H0; intros r0 x0 [=].
  - eapply binv_client; [exact HB|eassumption|exact I|intros r x [=]].
  - apply (binv_client _ i CIdle); [|assumption|exact I|intros r x [=]]. apply (binv_ext s); auto.
  - destruct HB as [A B C D E F G]. constructor; cbn [b_map b_recvs b_disp b_clients]; try assumption.
    + intros d p Hd. apply nth_error_In in Hd. apply in_app_or in Hd. destruct Hd as [Hd|[<-|[]]]; [|exact I].
      apply In_nth_error in Hd. destruct Hd as (d' & Hd). apply (E d' p Hd).
    + intros r x j c Hr Ho Hj Hpk. destruct (F r x j c Hr Ho Hj Hpk) as (F1 & F2). split; [exact F1|].
      intros d p Hd. apply nth_error_In in Hd. apply in_app_or in Hd. destruct Hd as [Hd|[<-|[]]]; [|reflexivity].
      apply In_nth_error in Hd. destruct Hd as (d' & Hd). apply (F2 d' p Hd).
  - eapply binv_client; [exact HB|eassumption|exact I|intros r x [=]].
  - eapply binv_client; [|eassumption|exact I|intros r x [=]]. apply (binv_ext s); auto.
  - eapply binv_client; [|eassumption|exact I|intros r x [=]]. eapply binv_disp; [exact HB|eassumption|exact I|intros r [=]].
  - apply binv_register; assumption.
  - apply (binv_ext (set_client i CDead s)); auto. eapply binv_client; [exact HB|eassumption|exact I|intros r0 x [=]].
  - eapply binv_client; [|eassumption|exact I|intros r0 x0 [=]].
    unfold set_map, set_recv. cbn [b_cap b_buf b_closed b_recvs b_disp b_clients b_stuck].
    apply (binv_close s); auto.
    + apply remove_incl.
    + apply NoDup_map_remove. apply (i_keys s HB).
    + apply NoDup_map_remove. apply (i_ids s HB).
    + intros r0. rewrite nth_error_upd. destruct (Nat.eq_dec r' r0) as [<-|].
      * exists true. rewrite H4. reflexivity.
      * exists false. destruct (nth_error (b_recvs s) r0); reflexivity.
    + intros k r0 Hin. apply nth_error_upd_other. intros <-. apply In_remove in Hin. destruct Hin as (Hin & Hne).
      destruct (i_map s HB _ _ Hin) as (y & Hy & Hn & _). pose proof (lookup_In _ _ _ H3) as Hin'.
      destruct (i_map s HB _ _ Hin') as (z & Hz & Hn' & _). congruence.
  - apply (binv_ext (set_client i CDead s)); auto. eapply binv_client; [exact HB|eassumption|exact I|intros r0 x [=]].
  - eapply binv_client; [|eassumption|exact I|intros r0 x0 [=]].
    apply (binv_close s); auto.
    + intros z [].
    + constructor.
    + constructor.
    + intros r. rewrite close_all_nth. exists (existsb (Nat.eqb r) (map snd (b_map s))). reflexivity.
    + intros k r [].
  - pose proof (refs_client _ _ _ HB H) as Hc. destruct (consumes_ok s _ _ _ _ H2 Hc) as (C1 & C2).
    eapply binv_client; [|exact H| |].
    + apply (binv_recv s r x rest HB H0).
      * pose proof (i_buf s HB r x H0) as Hb. rewrite H1 in Hb. cbn [length] in Hb. lia.
      * intros _ _. right. rewrite H1. discriminate.
    + assert (Hv : forall r', nth_error (b_recvs s) r' <> None -> nth_error (upd r (with_buf x rest) (b_recvs s)) r' <> None).
      { intros r' Hv Hn. apply Hv. apply nth_error_upd_None in Hn. exact Hn. }
      destruct c'; cbn [client_ok set_recv b_recvs] in *; auto.
    + intros r0 y Hp. rewrite C2 in Hp. discriminate.
  - pose proof (refs_client _ _ _ HB H) as Hc. destruct (consumes_ok s _ _ _ _ H3 Hc) as (C1 & C2).
    eapply binv_client; [exact HB|exact H|exact C1|]. intros r0 y Hp. rewrite C2 in Hp. discriminate.
  - pose proof (refs_client _ _ _ HB H) as Hc. destruct (consumes_ok s _ _ _ _ H4 Hc) as (C1 & C2).
    eapply binv_client; [|exact H|exact C1|intros r0 y Hp; rewrite C2 in Hp; discriminate].
    eapply binv_disp; [exact HB|exact H3| |intros r0 [=]].
    pose proof (i_disp s HB _ _ H3) as (D1 & D2 & _). inversion D1; subst. split; [assumption|]. intros z Hz. apply D2. right. exact Hz.
  - pose proof (refs_client _ _ _ HB H) as Hc. eapply binv_client; [exact HB|exact H| |].
    + destruct H4; exact Hc.
    + intros r0 y Hp Hr0 Ho. assert (r0 = r) as -> by (destruct H4; cbn in Hp; apply Nat.eqb_eq in Hp; congruence).
      rewrite H0 in Hr0. injection Hr0 as <-. auto.
  - eapply binv_client; [exact HB|eassumption|exact I|intros r0 x0 [=]].
  - eapply binv_client; [exact HB|eassumption|exact I|intros r0 x0 [=]].
  - eapply binv_disp; [|eassumption|exact I|intros r [=]]. apply (binv_ext s); auto.
  - eapply binv_disp; [exact HB|eassumption|exact I|intros r [=]].
  - eapply binv_disp; [exact HB|eassumption| |intros r [=]]. split; [apply (i_ids s HB)|apply incl_refl].
  - eapply binv_disp; [exact HB|eassumption|exact I|intros r [=]].
  - eapply binv_disp; [exact HB|eassumption|exact I|intros r0 [=]].
  - pose proof (refs_client _ _ _ HB H4) as Hc. destruct (serve_ok s c (Some v) Hc) as (C1 & C2).
    eapply binv_disp; [|eassumption| |intros r0 [=]].
    + eapply binv_client; [exact HB|exact H4|exact C1|]. intros r0 y Hp. rewrite C2 in Hp. discriminate.
    + exact (offered_ok s d p v r todo HB H H0).
  - eapply binv_disp; [|eassumption| |intros r0 [=]].
    + apply (binv_recv s r x _ HB H1).
      * rewrite app_length. cbn [length]. lia.
      * intros _ _. left. exact H4.
    + exact (offered_ok s d p v r todo HB H H0).
  - eapply binv_disp; [exact HB|eassumption| |intros r0 [=]]. exact (offered_ok s d p v r todo HB H H0).
  - assert (Ho : offers (DIter v todo0) v r (remove_nth k todo0)) by (constructor; assumption).
    destruct (offers_ok s d _ v r _ HB H Ho) as (O1 & O2 & _).
    eapply binv_disp; [exact HB|eassumption| |].
    + split; [exact O1|]. split; [exact O2|]. exists x. auto.
    + intros r0 Hr0. cbn in Hr0. apply Nat.eqb_eq in Hr0. subst r0. assumption.
  - eapply binv_disp; [exact HB|eassumption| |intros r0 [=]]. exact (offered_ok s d p v r todo HB H H0).
Qed.

Lemma binv_new cap n : binv (new_bus cap n).
Proof.
  assert (Hrep : forall i c, nth_error (repeat CIdle n) i = Some c -> c = CIdle).
  { intros i c H. apply nth_error_In in H. apply repeat_spec in H. exact H. }
  constructor; cbn [new_bus b_map b_recvs b_disp b_clients].
  - intros i c H. cbn in H. rewrite (Hrep i c H). exact I.
  - constructor.
  - constructor.
  - intros name r [].
  - intros [|d] p [=].
  - intros [|r] x i c [=].
  - intros [|r] x [=].
Qed.

(** Invariants over (state, trace) on top of the base invariant. *)
Lemma bus_inv (J : bus -> list bevent -> Prop) cap n :
  J (new_bus cap n) [] ->
  (forall s tr s1 es, binv s -> J s tr -> trans s s1 es -> binv s1 -> J s1 (tr ++ es)) ->
  forall sched, binv (fst (bus_exec cap n sched)) /\ J (fst (bus_exec cap n sched)) (snd (bus_exec cap n sched)).
Proof.
  intros H0 Hstep sched. unfold bus_exec.
  apply (exec_inv bstep (fun s tr => binv s /\ J s tr)) with (tr := []).
  - intros s l s1 es tr (HB & HJ) Hst. pose proof (bstep_trans s l s1 es (i_refs s HB) Hst) as HT.
    pose proof (binv_trans s s1 es HB HT) as HB1. split; [exact HB1|]. exact (Hstep s tr s1 es HB HJ HT HB1).
  - split; [apply binv_new|exact H0].
Qed.

Lemma bus_binv cap n sched : binv (fst (bus_exec cap n sched)).
Proof. apply (bus_inv (fun _ _ => True) cap n); auto. Qed.

(** Properties of all prefixes of the trace follow from properties of single steps. *)
Lemma bus_trace (Q : list bevent -> bevent -> Prop) (J : bus -> list bevent -> Prop) cap n :
  J (new_bus cap n) [] ->
  (forall s tr s1 es, binv s -> J s tr -> trans s s1 es -> binv s1 -> J s1 (tr ++ es)) ->
  (forall s tr s1 es, binv s -> J s tr -> trans s s1 es -> binv s1 ->
     forall a e b, es = (a ++ e :: b)%list -> Q (tr ++ a)%list e) ->
  forall sched pre e post, snd (bus_exec cap n sched) = (pre ++ e :: post)%list -> Q pre e.
Proof.
  intros H0 Hstep HQ sched.
  enough (HH : forall pre e post, snd (bus_exec cap n sched) = (pre ++ e :: post)%list -> Q pre e) by exact HH.
  apply (bus_inv (fun s tr => J s tr /\ forall pre e post, tr = (pre ++ e :: post)%list -> Q pre e) cap n).
  - split; [exact H0|]. intros [|? ?] e post [=].
  - intros s tr s1 es HB (HJ & HP) HT HB1. split; [apply (Hstep s tr s1 es HB HJ HT HB1)|].
    intros pre e post E. symmetry in E.
    assert (Hcut : (exists b, tr = (pre ++ e :: b)%list) \/ exists a, pre = (tr ++ a)%list /\ es = (a ++ e :: post)%list).
    { clear -E. revert tr E. induction pre as [|p pre IH]; intros [|t tr] E; cbn in E.
      - right. exists []. auto.
      - left. injection E as -> _. exists tr. reflexivity.
      - right. exists (p :: pre). auto.
      - injection E as -> E. destruct (IH tr E) as [(b & ->)|(a & -> & ->)]; [left; exists b; reflexivity|right; exists a; auto]. }
    destruct Hcut as [(b & ->)|(a & -> & ->)]; [eapply HP; reflexivity|].
    eapply (HQ s tr s1); [exact HB|exact HJ|exact HT|exact HB1|reflexivity].
Qed.

(** ** Events of a transition *)

Lemma es1 (e0 : bevent) a e b : [e0] = a ++ e :: b -> a = [] /\ e = e0 /\ b = [].
Proof. destruct a as [|? [|? ?]]; intros [=]; auto. Qed.
Lemma es2 (e0 e1 : bevent) a e b : [e0; e1] = a ++ e :: b -> (a = [] /\ e = e0) \/ (a = [e0] /\ e = e1).
Proof. destruct a as [|? [|? [|? ?]]]; intros [=]; subst; auto. Qed.
Lemma esn {A} (f : A -> bevent) l e1 a e b : map f l ++ [e1] = a ++ e :: b ->
  (exists l1 x l2, l = l1 ++ x :: l2 /\ a = map f l1 /\ e = f x) \/ (a = map f l /\ e = e1).
Proof.
  revert a. induction l as [|x l IH]; intros [|y a] E; cbn in E.
  - injection E as <- <-. auto.
  - destruct a; discriminate E.
  - injection E as <- _. left. exists [], x, l. auto.
  - injection E as <- E. destruct (IH a E) as [(l1 & x1 & l2 & -> & -> & ->)|(-> & ->)]; [|auto].
    left. exists (x :: l1), x1, l2. auto.
Qed.
Lemma es0 (a : list bevent) e b : [] = a ++ e :: b -> False.
Proof. destruct a; discriminate. Qed.

(** Split [E : es = a ++ e :: b] for the events [es] of a transition. *)
Ltac cut E :=
  cbn [register snd] in E;
  first [ destruct (es0 _ _ _ E)
        | apply es1 in E; destruct E as (-> & -> & _)
        | apply es2 in E; destruct E as [(-> & ->)|(-> & ->)]
        | apply esn in E; destruct E as [(? & ? & ? & ? & -> & ->)|(-> & ->)] ].

(** ** C30 *)
Lemma no_disp_panic cap n sched d : ~ In (EDispPanic d) (snd (bus_exec cap n sched)).
Proof.
  intros Hin. apply in_split in Hin. destruct Hin as (pre & post & E).
  pose proof (bus_trace (fun _ e => e <> EDispPanic d) (fun _ _ => True) cap n) as HT.
  apply HT in E; [congruence|auto..]. clear.
  intros s tr s1 es HB _ HT _ a e b E. destruct HT; cut E; try discriminate.
  destruct (offers_ok s _ _ _ _ _ HB H H0) as (_ & _ & x' & name & A & _ & B). congruence.
Qed.

(** ** Subsequences *)
Lemma subseq_refl {A} (l : list A) : subseq l l.
Proof. induction l; constructor; assumption. Qed.
Lemma subseq_app_r {A} (a b c : list A) : subseq a b -> subseq a (b ++ c).
Proof. induction 1; cbn; constructor; assumption. Qed.
Lemma subseq_app {A} (a b c d : list A) : subseq a b -> subseq c d -> subseq (a ++ c) (b ++ d).
Proof.
  intros H Hc. induction H as [l| |]; cbn; try (constructor; assumption).
  induction l; cbn; [assumption|constructor; assumption].
Qed.
Lemma subseq_trans {A} (a b c : list A) : subseq a b -> subseq b c -> subseq a c.
Proof.
  intros H1 H2. revert a H1. induction H2 as [l|x l1 l2 H IH|x l1 l2 H IH]; intros a H1.
  - inversion H1; subst. constructor.
  - inversion H1; subst; [constructor|apply SubKeep; auto|apply SubSkip; auto].
  - apply SubSkip. auto.
Qed.

Lemma subseq_flat_map {A B} (f g : A -> list B) l : (forall x, subseq (f x) (g x)) -> subseq (flat_map f l) (flat_map g l).
Proof. intros H. induction l as [|x l IH]; cbn; [constructor|]. apply subseq_app; auto. Qed.

(** ** C31, C32: one dispatcher and one receiver *)

Definition taken (d : nat) (tr : list bevent) : list Z :=
  flat_map (fun e => match e with ETaken d' v => if Nat.eqb d' d then [v] else [] | _ => [] end) tr.
Definition taken_all (tr : list bevent) : list Z :=
  flat_map (fun e => match e with ETaken _ v => [v] | _ => [] end) tr.

Lemma taken_app d a b : taken d (a ++ b) = taken d a ++ taken d b. Proof. apply flat_map_app. Qed.
Lemma taken_all_app a b : taken_all (a ++ b) = taken_all a ++ taken_all b. Proof. apply flat_map_app. Qed.
Lemma sent_app a b : sent (a ++ b) = sent a ++ sent b. Proof. apply flat_map_app. Qed.
Lemma delivered_app d r a b : delivered d r (a ++ b) = delivered d r a ++ delivered d r b. Proof. apply flat_map_app. Qed.
Lemma delivered_to_app r a b : delivered_to r (a ++ b) = delivered_to r a ++ delivered_to r b. Proof. apply flat_map_app. Qed.
Lemma got_app r a b : got r (a ++ b) = got r a ++ got r b. Proof. apply flat_map_app. Qed.
Lemma begun_app d r a b : begun d r (a ++ b) = begun d r a ++ begun d r b. Proof. apply flat_map_app. Qed.
Lemma verdicts_app d r a b : verdicts d r (a ++ b) = verdicts d r a ++ verdicts d r b. Proof. apply flat_map_app. Qed.

(** What dispatcher [d] still has to offer to [r]. *)
Definition pending (r : nat) (p : dpc) : list Z :=
  match p with
  | DIter v todo => if existsb (Nat.eqb r) todo then [v] else []
  | DBlocked v r' todo => if existsb (Nat.eqb r) (r' :: todo) then [v] else []
  | _ => []
  end.

Definition disp_inv (d r : nat) (s : bus) (tr : list bevent) : Prop :=
  match nth_error (b_disp s) d with
  | None => taken d tr = [] /\ begun d r tr = [] /\ verdicts d r tr = []
  | Some p =>
    begun d r tr = verdicts d r tr ++ pending r p /\
    match p with
    | DLock v => exists T, taken d tr = T ++ [v] /\ subseq (begun d r tr) T
    | _ => subseq (begun d r tr) (taken d tr)
    end
  end.

Lemma disp_inv_neutral d r s s1 tr es : nth_error (b_disp s1) d = nth_error (b_disp s) d ->
  taken d es = [] -> begun d r es = [] -> verdicts d r es = [] -> disp_inv d r s tr -> disp_inv d r s1 (tr ++ es).
Proof.
  intros E1 E2 E3 E4. unfold disp_inv. rewrite E1, taken_app, begun_app, verdicts_app, E2, E3, E4, !app_nil_r. auto.
Qed.

Lemma existsb_remove_nth r k : forall l r', NoDup l -> nth_error l k = Some r' ->
  existsb (Nat.eqb r) l = (Nat.eqb r r' || existsb (Nat.eqb r) (remove_nth k l)) /\ ~ In r' (remove_nth k l).
Proof.
  induction k as [|k IH]; intros [|a l] r' Hn Hk; cbn in Hk; try discriminate; inversion Hn; subst; cbn [remove_nth existsb].
  - injection Hk as ->. auto.
  - destruct (IH l r' H2 Hk) as (E & F). rewrite E. split.
    + destruct (Nat.eqb r a), (Nat.eqb r r'); reflexivity.
    + intros [->|Hin]; [|contradiction]. apply H1. eapply nth_error_In; eassumption.
Qed.

Lemma not_in_existsb r l : ~ In r l -> existsb (Nat.eqb r) l = false.
Proof.
  intros H. destruct (existsb (Nat.eqb r) l) eqn:E; [|reflexivity]. apply existsb_exists in E. destruct E as (x & Hx & Ex).
  apply Nat.eqb_eq in Ex. subst. contradiction.
Qed.

Lemma offers_pending s d p v r0 todo r : binv s -> nth_error (b_disp s) d = Some p -> offers p v r0 todo ->
  pending r p = (if Nat.eqb r0 r then [v] else pending r (DIter v todo)) /\
  (r0 = r -> pending r (DIter v todo) = []) /\ (forall v', p <> DLock v').
Proof.
  intros HB Hd Ho. destruct (offers_ok s d p v r0 todo HB Hd Ho) as (ND & _).
  pose proof (i_disp s HB d p Hd) as Hok.
  inversion ND as [|? ? Hni _]; subst.
  destruct Ho as [v todo0 k r0 Hk|v r0 todo]; cbn [pending].
  - destruct Hok as (ND0 & _). destruct (existsb_remove_nth r k todo0 r0 ND0 Hk) as (E & F).
    rewrite E, (Nat.eqb_sym r r0). split; [destruct (Nat.eqb r0 r); reflexivity|]. split; [|discriminate].
    intros ->. rewrite (not_in_existsb _ _ Hni). reflexivity.
  - cbn [existsb]. rewrite (Nat.eqb_sym r r0). split; [destruct (Nat.eqb r0 r); reflexivity|]. split; [|discriminate].
    intros ->. rewrite (not_in_existsb _ _ Hni). reflexivity.
Qed.

(** A verdict on [r0] by [d0]. *)
Lemma disp_inv_verdict d r s s1 tr es d0 p v r0 todo : binv s -> disp_inv d r s tr ->
  nth_error (b_disp s) d0 = Some p -> offers p v r0 todo ->
  b_disp s1 = upd d0 (DIter v todo) (b_disp s) ->
  (forall d, taken d es = []) -> (forall d r, begun d r es = []) ->
  (forall d r, verdicts d r es = if Nat.eqb d0 d && Nat.eqb r0 r then [v] else []) ->
  disp_inv d r s1 (tr ++ es).
Proof.
  intros HB HJ Hp Ho E1 E2 E3 E4. destruct (Nat.eq_dec d0 d) as [<-|Hne].
  2:{ apply (disp_inv_neutral d r s); [rewrite E1; apply nth_error_upd_other; exact Hne|apply E2|apply E3| |exact HJ].
      rewrite E4. destruct (Nat.eqb_spec d0 d); [congruence|reflexivity]. }
  destruct (offers_pending s d0 p v r0 todo r HB Hp Ho) as (P1 & P2 & P3).
  unfold disp_inv in *. rewrite E1, (nth_error_upd_same _ _ _ _ Hp). rewrite Hp in HJ.
  rewrite taken_app, begun_app, verdicts_app, E2, E3, E4, !app_nil_r, Nat.eqb_refl. cbn [andb].
  destruct HJ as (J1 & J2). assert (J2' : subseq (begun d0 r tr) (taken d0 tr)) by (destruct p; try exact J2; congruence).
  split; [|exact J2']. rewrite J1, P1. destruct (Nat.eqb_spec r0 r) as [Er|Er].
  - rewrite (P2 Er), app_nil_r. reflexivity.
  - rewrite app_nil_r. reflexivity.
Qed.

Ltac neutral := (eapply disp_inv_neutral; [| | | |eassumption]); reflexivity.

Lemma closed_events_neutral rs i : let es := map EClosedRecv rs ++ [EBusClosed i] in
  (forall d, taken d es = []) /\ (forall d r, begun d r es = []) /\ (forall d r, verdicts d r es = []) /\
  sent es = [] /\ taken_all es = [] /\ (forall r, delivered_to r es = []) /\ (forall r, got r es = []).
Proof. cbn zeta. induction rs as [|r rs IH]; cbn; [repeat split|]. exact IH. Qed.

Lemma disp_inv_trans d r s tr s1 es : binv s -> disp_inv d r s tr -> trans s s1 es -> disp_inv d r s1 (tr ++ es).
Proof.
  intros HB HJ HT. destruct HT; try neutral.
  - (* go *)
    unfold disp_inv in *. cbn [b_disp]. rewrite taken_app, begun_app, verdicts_app. cbn [taken begun verdicts flat_map app]. rewrite !app_nil_r.
    destruct (Nat.lt_trichotomy d (length (b_disp s))) as [Hlt|[->|Hgt]].
    + rewrite nth_error_app1 by exact Hlt. exact HJ.
    + rewrite nth_error_app2, Nat.sub_diag by lia. cbn.
      assert (E : nth_error (b_disp s) (length (b_disp s)) = None) by (apply nth_error_None; lia). rewrite E in HJ.
      destruct HJ as (-> & -> & ->). split; [reflexivity|constructor].
    + assert (E : nth_error (b_disp s) d = None) by (apply nth_error_None; lia). rewrite E in HJ.
      assert (E' : nth_error (b_disp s ++ [DRecv]) d = None) by (apply nth_error_None; rewrite app_length; cbn; lia). rewrite E'. exact HJ.
  - (* send, handed over *)
    destruct (Nat.eq_dec d0 d) as [<-|Hne].
    + unfold disp_inv in *. cbn [set_client set_disp b_disp]. rewrite (nth_error_upd_same _ _ _ _ H2). rewrite H2 in HJ.
      rewrite taken_app, begun_app, verdicts_app. cbn [taken begun verdicts flat_map app]. rewrite Nat.eqb_refl, !app_nil_r.
      destruct HJ as (J1 & J2). cbn [pending] in *. split; [rewrite J1, app_nil_r; reflexivity|]. exists (taken d0 tr). auto.
    + apply (disp_inv_neutral d r s); cbn; [apply nth_error_upd_other; exact Hne| |reflexivity|reflexivity|exact HJ].
      destruct (Nat.eqb_spec d0 d); [congruence|reflexivity].
  - (* bus close *)
    destruct (closed_events_neutral (map snd (b_map s)) i) as (C1 & C2 & C3 & _).
    apply (disp_inv_neutral d r s); [reflexivity|apply C1|apply C2|apply C3|exact HJ].
  - (* taken from a blocked dispatcher *)
    apply (disp_inv_verdict d r s _ tr _ d0 (DBlocked v r0 todo) v r0 todo HB HJ H3); [constructor|reflexivity|reflexivity|reflexivity|].
    intros d' r'. cbn. rewrite app_nil_r. reflexivity.
  - (* take *)
    destruct (Nat.eq_dec d0 d) as [<-|Hne].
    + unfold disp_inv in *. cbn [set_disp set_buf b_disp]. rewrite (nth_error_upd_same _ _ _ _ H). rewrite H in HJ.
      rewrite taken_app, begun_app, verdicts_app. cbn [taken begun verdicts flat_map app]. rewrite Nat.eqb_refl, !app_nil_r.
      destruct HJ as (J1 & J2). cbn [pending] in *. split; [rewrite J1, app_nil_r; reflexivity|]. exists (taken d0 tr). auto.
    + apply (disp_inv_neutral d r s); cbn; [apply nth_error_upd_other; exact Hne| |reflexivity|reflexivity|exact HJ].
      destruct (Nat.eqb_spec d0 d); [congruence|reflexivity].
  - (* end *)
    destruct (Nat.eq_dec d0 d) as [<-|Hne].
    + unfold disp_inv in *. cbn [set_disp b_disp]. rewrite (nth_error_upd_same _ _ _ _ H). rewrite H in HJ.
      rewrite taken_app, begun_app, verdicts_app. cbn [taken begun verdicts flat_map app]. cbn [pending existsb] in *. rewrite !app_nil_r in *. exact HJ.
    + apply (disp_inv_neutral d r s); cbn; [apply nth_error_upd_other; exact Hne|reflexivity..|exact HJ].
  - (* begin *)
    destruct (Nat.eq_dec d0 d) as [<-|Hne].
    + unfold disp_inv in *. cbn [set_disp b_disp]. rewrite (nth_error_upd_same _ _ _ _ H). rewrite H in HJ.
      rewrite taken_app, begun_app, verdicts_app. cbn [taken begun verdicts flat_map app]. rewrite Nat.eqb_refl, !app_nil_r. cbn [andb pending] in *.
      destruct HJ as (J1 & T & J2 & J3). rewrite app_nil_r in J1. rewrite J1 in *. split; [reflexivity|]. rewrite J2.
      destruct (existsb (Nat.eqb r) (map snd (b_map s))).
      * apply subseq_app; [exact J3|apply subseq_refl].
      * rewrite app_nil_r. apply subseq_app_r. exact J3.
    + apply (disp_inv_neutral d r s); cbn; [apply nth_error_upd_other; exact Hne|reflexivity| |reflexivity|exact HJ].
      destruct (Nat.eqb_spec d0 d); [congruence|reflexivity].
  - (* finish *)
    destruct (Nat.eq_dec d0 d) as [<-|Hne].
    + unfold disp_inv in *. cbn [set_disp b_disp]. rewrite (nth_error_upd_same _ _ _ _ H). rewrite H in HJ.
      rewrite taken_app, begun_app, verdicts_app. cbn [taken begun verdicts flat_map app]. cbn [pending existsb] in *. rewrite !app_nil_r in *. exact HJ.
    + apply (disp_inv_neutral d r s); cbn; [apply nth_error_upd_other; exact Hne|reflexivity..|exact HJ].
  - (* panic *)
    exfalso. destruct (offers_ok s _ _ _ _ _ HB H H0) as (_ & _ & x' & name & A & _ & B). congruence.
  - apply (disp_inv_verdict d r s _ tr _ d0 p v r0 todo HB HJ H H0); [reflexivity..|]. intros d' r'. cbn. rewrite app_nil_r. reflexivity.
  - apply (disp_inv_verdict d r s _ tr _ d0 p v r0 todo HB HJ H H0); [reflexivity..|]. intros d' r'. cbn. rewrite app_nil_r. reflexivity.
  - apply (disp_inv_verdict d r s _ tr _ d0 p v r0 todo HB HJ H H0); [reflexivity..|]. intros d' r'. cbn. rewrite app_nil_r. reflexivity.
  - (* block *)
    destruct (Nat.eq_dec d0 d) as [<-|Hne].
    + unfold disp_inv in *. cbn [set_disp b_disp]. rewrite (nth_error_upd_same _ _ _ _ H). rewrite H in HJ. rewrite app_nil_r.
      pose proof (i_disp s HB _ _ H) as (ND & _). destruct (existsb_remove_nth r k todo0 r0 ND H0) as (E & _).
      cbn [pending existsb] in *. rewrite E in HJ. exact HJ.
    + apply (disp_inv_neutral d r s); cbn; [apply nth_error_upd_other; exact Hne|reflexivity..|exact HJ].
  - apply (disp_inv_verdict d r s _ tr _ d0 p v r0 todo HB HJ H H0); [reflexivity..|]. intros d' r'. cbn. rewrite app_nil_r. reflexivity.
Qed.

Lemma disp_inv_new d r cap n : disp_inv d r (new_bus cap n) [].
Proof. unfold disp_inv. cbn. destruct d; cbn; auto. Qed.

Lemma disp_inv_exec d r cap n sched : disp_inv d r (fst (bus_exec cap n sched)) (snd (bus_exec cap n sched)).
Proof.
  apply (bus_inv (disp_inv d r) cap n); [apply disp_inv_new|]. intros s tr s1 es HB HJ HT _. exact (disp_inv_trans d r s tr s1 es HB HJ HT).
Qed.

(** The bus channel is a queue. *)
Lemma queue_exec cap n sched :
  sent (snd (bus_exec cap n sched)) = taken_all (snd (bus_exec cap n sched)) ++ b_buf (fst (bus_exec cap n sched)).
Proof.
  apply (bus_inv (fun s tr => sent tr = taken_all tr ++ b_buf s) cap n); [reflexivity|].
  intros s tr s1 es HB HJ HT _. rewrite sent_app, taken_all_app, HJ.
  destruct HT; cbn [set_client set_disp set_buf set_recv set_map set_stuck register fst snd b_buf sent taken_all flat_map app];
    rewrite ?app_nil_r; try reflexivity.
  - rewrite <- app_assoc. reflexivity.
  - rewrite H1, !app_nil_r. reflexivity.
  - destruct (closed_events_neutral (map snd (b_map s)) i) as (_ & _ & _ & C1 & C2 & _). rewrite C1, C2, !app_nil_r. reflexivity.
  - rewrite H0, <- app_assoc. reflexivity.
Qed.

Lemma delivered_subseq_verdicts d r tr : subseq (delivered d r tr) (verdicts d r tr).
Proof. apply subseq_flat_map. intros []; cbn; try apply subseq_refl; destruct (_ && _); constructor. Qed.

Lemma taken_subseq d tr : subseq (taken d tr) (taken_all tr).
Proof. apply subseq_flat_map. intros []; cbn; try apply SubNil. destruct (Nat.eqb _ _); [apply subseq_refl|apply SubNil]. Qed.

Lemma verdicts_order d r cap n sched : subseq (verdicts d r (snd (bus_exec cap n sched))) (sent (snd (bus_exec cap n sched))).
Proof.
  pose proof (disp_inv_exec d r cap n sched) as HJ. rewrite queue_exec. apply subseq_app_r.
  eapply subseq_trans; [|apply (taken_subseq d)]. unfold disp_inv in HJ.
  destruct (nth_error (b_disp (fst (bus_exec cap n sched))) d) as [p|].
  - destruct HJ as (J1 & J2).
    assert (J2' : subseq (begun d r (snd (bus_exec cap n sched))) (taken d (snd (bus_exec cap n sched)))).
    { destruct p; try exact J2. destruct J2 as (T & -> & J2). apply subseq_app_r. exact J2. }
    eapply subseq_trans; [|exact J2']. rewrite J1. apply subseq_app_r, subseq_refl.
  - destruct HJ as (_ & _ & ->). constructor.
Qed.

Lemma order cap n sched d r : subseq (delivered d r (snd (bus_exec cap n sched))) (sent (snd (bus_exec cap n sched))).
Proof. eapply subseq_trans; [apply delivered_subseq_verdicts|apply verdicts_order]. Qed.
