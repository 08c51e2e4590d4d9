(** Proofs about the event bus at the level of single steps. *)
From Verif Require Import Common Bytes Threads BusModel BusSpec BusProofs BusLockModel BusFineModel BusFineSpec.
Local Open Scope list_scope.
Local Open Scope Z_scope.

(** ** The relation between the states *)

Definition closed_at (rs : list recv) (r : nat) : Prop := exists x, nth_error rs r = Some x /\ r_closed x = true.

(** The same client, except that here it waits for a receiver that is closed there. *)
Inductive crel (rs : list recv) : cpc -> cpc -> Prop :=
| crel_same c : crel rs c c
| crel_recv r : closed_at rs r -> crel rs (CRecv r true) (CRecv r false)
| crel_collect r acc : closed_at rs r -> crel rs (CCollect r acc true) (CCollect r acc false).

Definition shut (pend : list nat) (r : nat) (x : recv) : recv := if existsb (Nat.eqb r) pend then closed x else x.

(** [c] is [b] with the receivers [pend] closed, apart from the map and the client [own]. *)
Record core (pend : list nat) (own : option nat) (b c : bus) : Prop := Core {
  k_cap : b_cap c = b_cap b;
  k_buf : b_buf c = b_buf b;
  k_closed : b_closed c = b_closed b;
  k_disp : b_disp c = b_disp b;
  k_stuck : b_stuck b = false;
  k_recvs : forall r, nth_error (b_recvs c) r = option_map (shut pend r) (nth_error (b_recvs b) r);
  k_len : length (b_clients c) = length (b_clients b);
  k_clients : forall j p, own <> Some j -> nth_error (b_clients b) j = Some p ->
    exists q, nth_error (b_clients c) j = Some q /\ crel (b_recvs c) p q
}.

Definition nonlock (b : bus) (l : blabel) : Prop :=
  match l with
  | LClient j _ => forall p, nth_error (b_clients b) j = Some p -> needs_lock p = false
  | LDisp d _ _ => forall v, nth_error (b_disp b) d <> Some (DLock v)
  | _ => True
  end.

Definition face (x : recv) : string * bool := (r_name x, r_closed x).

(** What steps outside critical sections leave alone. *)
Definition frame (b b' : bus) : Prop :=
  b_map b' = b_map b /\ b_stuck b' = b_stuck b /\ map face (b_recvs b') = map face (b_recvs b) /\
  length (b_clients b') = length (b_clients b) /\
  forall i p, nth_error (b_clients b) i = Some p -> needs_lock p = true -> nth_error (b_clients b') i = Some p.

Lemma map_upd {A B} (f : A -> B) r x : forall l, map f (upd r x l) = upd r (f x) (map f l).
Proof. revert r. intros r l. revert r. induction l as [|y l IH]; intros [|r]; cbn; [reflexivity..|]. rewrite IH. reflexivity. Qed.
Lemma upd_id {A} r (x : A) : forall l, nth_error l r = Some x -> upd r x l = l.
Proof. intros l. revert r. induction l as [|y l IH]; intros [|r] H; cbn in *; [reflexivity..|congruence|]. f_equal. auto. Qed.
Lemma face_buf rs r x buf : nth_error rs r = Some x -> map face (upd r (with_buf x buf) rs) = map face rs.
Proof. intros H. rewrite map_upd. change (face (with_buf x buf)) with (face x). apply upd_id. apply map_nth_error. exact H. Qed.

Lemma frame_refl b : frame b b.
Proof. unfold frame. repeat split; auto. Qed.
Lemma frame_trans b b1 b2 : frame b b1 -> frame b1 b2 -> frame b b2.
Proof.
  intros (M & S & F & L & C) (M1 & S1 & F1 & L1 & C1).
  split; [congruence|]. split; [congruence|]. split; [congruence|]. split; [congruence|]. auto.
Qed.
Lemma frame_client b i p q : nth_error (b_clients b) i = Some p -> needs_lock p = false -> frame b (set_client i q b).
Proof.
  intros H N. unfold frame, set_client; cbn. split; [reflexivity|]. split; [reflexivity|]. split; [reflexivity|].
  split; [apply upd_length|]. intros j pj Hj Nj. rewrite nth_error_upd_other; [exact Hj|]. intros ->. congruence.
Qed.
Lemma frame_recv b r x buf : nth_error (b_recvs b) r = Some x -> frame b (set_recv r (with_buf x buf) b).
Proof. intros H. unfold frame, set_recv; cbn. rewrite (face_buf _ _ _ _ H). auto 6. Qed.
Lemma frame_disp b d p : frame b (set_disp d p b).
Proof. unfold frame, set_disp; cbn. auto 6. Qed.
Lemma frame_buf b buf : frame b (set_buf buf b).
Proof. unfold frame, set_buf; cbn. auto 6. Qed.

(** *** How the parts of a state may change together *)

Lemma crel_mono rs rs' p q : (forall r, closed_at rs r -> closed_at rs' r) -> crel rs p q -> crel rs' p q.
Proof. intros H [c|r C|r acc C]; constructor; auto. Qed.

Lemma closed_face rs rs' r : map face rs' = map face rs -> closed_at rs r -> closed_at rs' r.
Proof.
  intros E (x & H & C). pose proof (map_nth_error face _ _ H) as H1. rewrite <- E in H1.
  destruct (nth_error rs' r) as [y|] eqn:Ey.
  - rewrite (map_nth_error face _ _ Ey) in H1. injection H1 as _ H2. exists y. split; [exact Ey|congruence].
  - apply nth_error_None in Ey. assert (nth_error (map face rs') r = None) by (apply nth_error_None; rewrite map_length; exact Ey). congruence.
Qed.

Lemma core_client pend own b c i p p' q' : core pend own b c -> own <> Some i ->
  nth_error (b_clients b) i = Some p -> crel (b_recvs c) p' q' -> core pend own (set_client i p' b) (set_client i q' c).
Proof.
  intros K O H R. constructor; cbn; try apply K.
  - rewrite !upd_length. apply K.
  - intros j pj Oj Hj. apply nth_error_upd_Some in Hj. destruct Hj as [(-> & -> & _)|(Hne & Hj)].
    + destruct (k_clients _ _ _ _ K j p O H) as (q & Hq & _). exists q'. split; [|exact R].
      apply (nth_error_upd_same _ _ _ _ Hq).
    + destruct (k_clients _ _ _ _ K j pj Oj Hj) as (q & Hq & Rq). exists q. split; [|exact Rq].
      rewrite nth_error_upd_other; [exact Hq|congruence].
Qed.

Lemma core_disp pend own b c d p : core pend own b c -> core pend own (set_disp d p b) (set_disp d p c).
Proof. intros K. constructor; cbn; try apply K. rewrite (k_disp _ _ _ _ K). reflexivity. Qed.
Lemma core_bbuf pend own b c buf : core pend own b c -> core pend own (set_buf buf b) (set_buf buf c).
Proof. intros K. constructor; cbn; try apply K. reflexivity. Qed.

Lemma shut_buf pend r x buf : shut pend r (with_buf x buf) = with_buf (shut pend r x) buf.
Proof. unfold shut. destruct (existsb _ _); reflexivity. Qed.
Lemma shut_fields pend r x : r_buf (shut pend r x) = r_buf x /\ r_cap (shut pend r x) = r_cap x /\
  r_name (shut pend r x) = r_name x /\ r_strategy (shut pend r x) = r_strategy x.
Proof. unfold shut. destruct (existsb _ _); auto. Qed.

Lemma core_recv pend own b c r x buf : core pend own b c -> nth_error (b_recvs b) r = Some x ->
  core pend own (set_recv r (with_buf x buf) b) (set_recv r (with_buf (shut pend r x) buf) c).
Proof.
  intros K H. pose proof (k_recvs _ _ _ _ K r) as Hc. rewrite H in Hc. cbn in Hc.
  constructor; cbn; try apply K.
  - intros r'. rewrite !nth_error_upd. destruct (Nat.eq_dec r r') as [<-|Hne]; [|apply K].
    rewrite H, Hc. cbn. rewrite shut_buf. reflexivity.
  - intros j p O Hj. destruct (k_clients _ _ _ _ K j p O Hj) as (q & Hq & R). exists q. split; [exact Hq|].
    eapply crel_mono; [|exact R]. intros r'. apply closed_face. apply face_buf. exact Hc.
Qed.

Lemma core_nth pend own b c r x : core pend own b c -> nth_error (b_recvs b) r = Some x ->
  nth_error (b_recvs c) r = Some (shut pend r x).
Proof. intros K H. rewrite (k_recvs _ _ _ _ K), H. reflexivity. Qed.
Lemma core_nth_none pend own b c r : core pend own b c -> nth_error (b_recvs b) r = None -> nth_error (b_recvs c) r = None.
Proof. intros K H. rewrite (k_recvs _ _ _ _ K), H. reflexivity. Qed.

Lemma blocked_none b r : nobody_reads b -> existsb (fun p => blocked_on p r) (b_disp b) = false.
Proof. intros H. apply existsb_nth. intros i p Hi. specialize (H i p Hi). destruct p; cbn in *; congruence. Qed.

(** While a critical section has taken effect and is not over, nobody reads. *)
Definition calm (pend : list nat) (own : option nat) (b : bus) : Prop :=
  (pend <> [] \/ own <> None) -> nobody_reads b.

Lemma shut_in pend r x : In r pend -> shut pend r x = closed x.
Proof. intros H. unfold shut. replace (existsb (Nat.eqb r) pend) with true; [reflexivity|]. symmetry. apply existsb_exists. exists r. split; [exact H|apply Nat.eqb_refl]. Qed.
Lemma shut_out pend r x : ~ In r pend -> shut pend r x = x.
Proof. intros H. unfold shut. rewrite not_in_existsb; auto. Qed.
Lemma closed_id x : r_closed x = true -> closed x = x.
Proof. destruct x; cbn. intros ->. reflexivity. Qed.

Lemma take_core pend own b c r d : core pend own b c -> calm pend own b ->
  match take b r d with
  | Some (ov, b1, es) => exists c1, take c r d = Some (ov, c1, es) /\ core pend own b1 c1 /\ frame b b1 /\ frame c c1 /\
      b_clients b1 = b_clients b /\ b_clients c1 = b_clients c /\ b_recvs c1 = b_recvs c1 /\
      (forall r', closed_at (b_recvs c) r' -> closed_at (b_recvs c1) r') /\
      (nobody_reads b -> nobody_reads b1 /\ es = []) /\ (es = [] \/ exists d' v, es = [EDelivered d' r v])
  | None => take c r d = None \/
      (In r pend /\ closed_at (b_recvs c) r /\ take c r d = Some (None, c, []))
  end.
Proof.
  intros K Q. unfold take. destruct (nth_error (b_recvs b) r) as [x|] eqn:Ex.
  2:{ rewrite (core_nth_none _ _ _ _ _ K Ex). left. reflexivity. }
  pose proof (core_nth _ _ _ _ _ _ K Ex) as Ec. rewrite Ec.
  destruct (shut_fields pend r x) as (Fb & _). rewrite Fb.
  destruct (r_buf x) as [|v rest] eqn:Eb.
  - destruct (r_closed x) eqn:Cx.
    + replace (r_closed (shut pend r x)) with true by (unfold shut; destruct (existsb _ _); cbn; auto).
      exists c. repeat (split; [first [reflexivity|apply frame_refl|exact K|auto]|]). auto.
    + destruct (in_dec Nat.eq_dec r pend) as [Hin|Hout].
      * rewrite shut_in by exact Hin. cbn [closed r_closed].
        assert (Hn : match nth_error (b_disp b) d with Some (DBlocked _ _ _) => False | _ => True end).
        { destruct (nth_error (b_disp b) d) as [p|] eqn:Ed; [|exact I]. 
          assert (N : nobody_reads b) by (apply Q; left; intros ->; destruct Hin). specialize (N d p Ed). destruct p; cbn in *; auto; discriminate. }
        destruct (nth_error (b_disp b) d) as [[| | | v0 r0 todo | |]|]; try contradiction; right;
          (split; [exact Hin|split; [|reflexivity]]; exists (shut pend r x); split; [exact Ec|rewrite shut_in by exact Hin; reflexivity]).
      * rewrite (shut_out pend r x) by exact Hout. rewrite Cx. rewrite (k_disp _ _ _ _ K).
        destruct (nth_error (b_disp b) d) as [[| | | v0 r0 todo | |]|] eqn:Ed; try (left; reflexivity).
        destruct (Nat.eqb_spec r0 r) as [->|]; [|left; reflexivity].
        exists (set_disp d (DIter v0 todo) c). split; [reflexivity|]. split; [apply core_disp; exact K|].
        split; [apply frame_disp|]. split; [apply frame_disp|].
        split; [reflexivity|]. split; [reflexivity|]. split; [reflexivity|]. split; [auto|].
        split; [|right; eauto]. intros N. specialize (N d _ Ed). discriminate.
  - exists (set_recv r (with_buf (shut pend r x) rest) c). split; [reflexivity|]. split; [apply core_recv; [exact K|exact Ex]|].
    split; [apply frame_recv; exact Ex|]. split; [apply frame_recv; exact Ec|].
    split; [reflexivity|]. split; [reflexivity|]. split; [reflexivity|].
    split; [intros r'; apply closed_face; cbn; apply face_buf; exact Ec|]. split; [intros N; split; [exact N|reflexivity]|]. left. reflexivity.
Qed.

(** Steps outside critical sections. *)
Definition stays (own : option nat) (c c' : bus) : Prop :=
  b_map c' = b_map c /\ b_stuck c' = b_stuck c /\ forall i, own = Some i -> nth_error (b_clients c') i = nth_error (b_clients c) i.

Definition mirrored (pend : list nat) (own : option nat) (b c : bus) (l : blabel) (b' : bus) (es : list bevent) : Prop :=
  frame b b' /\ (nobody_reads b -> nobody_reads b') /\ Forall (fun e => ~ lags e) es /\
  (forall i p, nth_error (b_clients b) i = Some p -> needs_lock p = true -> nobody_reads b -> Forall (beside i) es) /\
  ((exists c', bstep c l = Some (c', es) /\ core pend own b' c' /\ stays own c c') \/
   (exists j r, es = [EWaits j r] /\ In r pend /\ own <> Some j /\ core pend own b' c)).

Lemma needs_other b i p j q : nth_error (b_clients b) i = Some p -> needs_lock p = true ->
  nth_error (b_clients b) j = Some q -> needs_lock q = false -> j <> i.
Proof. intros H N Hj Nj ->. congruence. Qed.

Lemma stays_client own c j q : own <> Some j -> stays own c (set_client j q c).
Proof. intros O. split; [reflexivity|]. split; [reflexivity|]. intros i Hi. cbn. apply nth_error_upd_other. congruence. Qed.
Lemma stays_frame own c c' : b_map c' = b_map c -> b_stuck c' = b_stuck c -> b_clients c' = b_clients c -> stays own c c'.
Proof. intros M S C. split; [exact M|]. split; [exact S|]. intros i _. rewrite C. reflexivity. Qed.
Lemma stays_trans own c c1 c2 : stays own c c1 -> stays own c1 c2 -> stays own c c2.
Proof. intros (M & S & C) (M1 & S1 & C1). split; [congruence|]. split; [congruence|]. intros i H. rewrite C1, C; auto. Qed.

Lemma reads_client b i p : nobody_reads b -> nobody_reads (set_client i p b).
Proof. exact (fun H => H). Qed.
Lemma reads_disp b d p : nobody_reads b -> reading p = false -> nobody_reads (set_disp d p b).
Proof.
  intros H N d' p' Hd. cbn in Hd. apply nth_error_upd_Some in Hd. destruct Hd as [(_ & -> & _)|(_ & Hd)]; [exact N|eapply H; exact Hd].
Qed.

(** A call begins. *)
Lemma mirror_call pend own b c j o b' es : core pend own b c -> own <> Some j ->
  bstep b (LCall j o) = Some (b', es) -> mirrored pend own b c (LCall j o) b' es.
Proof.
  intros K O E. cbn [bstep] in E. destruct (nth_error (b_clients b) j) as [[]|] eqn:Hj; try discriminate.
  destruct (k_clients _ _ _ _ K j _ O Hj) as (q & Hq & Rq). inversion Rq; subst q. clear Rq.
  destruct (call b j o) as [(b1, e1)|] eqn:Ec; [|discriminate]. injection E as <- <-.
  unfold mirrored. cbn [bstep]. rewrite Hq.
  assert (B : forall i p, nth_error (b_clients b) i = Some p -> needs_lock p = true -> j <> i)
    by (intros i p Hi N; eapply needs_other; [exact Hi|exact N|exact Hj|reflexivity]).
  assert (R : forall r, nth_error (b_recvs b) r = None \/ exists x y, nth_error (b_recvs b) r = Some x /\ nth_error (b_recvs c) r = Some y).
  { intros r. destruct (nth_error (b_recvs b) r) as [x|] eqn:Ex; [right|left; reflexivity]. rewrite (core_nth _ _ _ _ _ _ K Ex). eauto. }
  assert (G : forall p', call b j o = Some (set_client j p' b, []) -> call c j o = Some (set_client j p' c, []) ->
     b1 = set_client j p' b -> e1 = [] ->
     frame b b1 /\ (nobody_reads b -> nobody_reads b1) /\ Forall (fun e => ~ lags e) (ECall j o :: e1) /\
  (forall i p, nth_error (b_clients b) i = Some p -> needs_lock p = true -> nobody_reads b -> Forall (beside i) (ECall j o :: e1)) /\
  ((exists c', match call c j o with Some (s', es) => Some (s', ECall j o :: es) | None => None end = Some (c', ECall j o :: e1) /\ core pend own b1 c' /\ stays own c c') \/
   (exists j0 r, ECall j o :: e1 = [EWaits j0 r] /\ In r pend /\ own <> Some j0 /\ core pend own b1 c))).
  { intros p' H1 H2 -> ->. split; [eapply frame_client; [exact Hj|reflexivity]|]. split; [auto|]. split; [constructor; [exact (fun f => f)|constructor]|].
    split; [intros i p Hi N _; constructor; [exact (B i p Hi N)|constructor]|].
    left. exists (set_client j p' c). rewrite H2. split; [reflexivity|]. split; [eapply core_client; eauto; constructor|apply stays_client; exact O]. }
  assert (P : forall p', b1 = set_client j p' b -> e1 = [EClientPanic j] -> call c j o = Some (set_client j p' c, [EClientPanic j]) ->
     frame b b1 /\ (nobody_reads b -> nobody_reads b1) /\ Forall (fun e => ~ lags e) (ECall j o :: e1) /\
  (forall i p, nth_error (b_clients b) i = Some p -> needs_lock p = true -> nobody_reads b -> Forall (beside i) (ECall j o :: e1)) /\
  ((exists c', match call c j o with Some (s', es) => Some (s', ECall j o :: es) | None => None end = Some (c', ECall j o :: e1) /\ core pend own b1 c' /\ stays own c c') \/
   (exists j0 r, ECall j o :: e1 = [EWaits j0 r] /\ In r pend /\ own <> Some j0 /\ core pend own b1 c))).
  { intros p' -> -> H2. split; [eapply frame_client; [exact Hj|reflexivity]|]. split; [auto|]. split; [repeat constructor; exact (fun f => f)|].
    split; [intros i p Hi N _; repeat constructor; exact (B i p Hi N)|].
    left. exists (set_client j p' c). rewrite H2. split; [reflexivity|]. split; [eapply core_client; eauto; constructor|apply stays_client; exact O]. }
  destruct o as [v|name cap st|r| | |r|r|r]; cbn [call] in Ec, G, P |- *.
  - injection Ec as <- <-. eapply G; reflexivity.
  - destruct (cap <? 0); injection Ec as <- <-; [eapply P|eapply G]; reflexivity.
  - destruct (R r) as [N|(x & y & Hx & Hy)]; [rewrite N in Ec; discriminate|]. rewrite Hx, Hy in *. injection Ec as <- <-. eapply G; reflexivity.
  - rewrite (k_closed _ _ _ _ K) in *. destruct (b_closed b); injection Ec as <- <-; [eapply P; reflexivity|].
    split; [unfold frame; cbn; split; [reflexivity|split; [reflexivity|split; [reflexivity|split; [apply upd_length|]]]]; intros i p Hi N; rewrite nth_error_upd_other; [exact Hi|exact (B i p Hi N)]|].
    split; [exact (fun f => f)|]. split; [repeat constructor; exact (fun f => f)|]. split; [intros i p Hi N _; repeat constructor; exact (B i p Hi N)|].
    left. eexists. split; [reflexivity|]. split.
    + eapply core_client; [|exact O|exact Hj|constructor]. constructor; cbn; try apply K. reflexivity.
    + eapply stays_trans; [|apply stays_client; exact O]. apply stays_frame; reflexivity.
  - injection Ec as <- <-. split; [unfold frame; cbn; auto 6|].
    split; [intros N d p Hd; cbn in Hd; destruct (Nat.lt_ge_cases d (length (b_disp b))) as [L|L];
      [rewrite nth_error_app1 in Hd by exact L; eapply N; exact Hd|rewrite nth_error_app2 in Hd by exact L; destruct (d - length (b_disp b))%nat as [|[|k]]; cbn in Hd; [injection Hd as <-; reflexivity|discriminate..]]|].
    split; [repeat constructor; exact (fun f => f)|]. split; [intros i p Hi N _; repeat constructor; exact (B i p Hi N)|].
    left. eexists. split; [reflexivity|]. split; [|apply stays_frame; reflexivity].
    constructor; cbn; try apply K. rewrite (k_disp _ _ _ _ K). reflexivity.
  - destruct (R r) as [N|(x & y & Hx & Hy)]; [rewrite N in Ec; discriminate|]. rewrite Hx, Hy in *. injection Ec as <- <-. eapply G; reflexivity.
  - destruct (R r) as [N|(x & y & Hx & Hy)]; [rewrite N in Ec; discriminate|]. rewrite Hx, Hy in *. injection Ec as <- <-. eapply G; reflexivity.
  - destruct (R r) as [N|(x & y & Hx & Hy)]; [rewrite N in Ec; discriminate|]. rewrite Hx, Hy in *. injection Ec as <- <-. eapply G; reflexivity.
Qed.

(** Receiving: by Drain, CollectTimeout or from the channel directly. *)
Lemma taken_mirrored pend own b c j d r p q p' q' ov b1 e1 e es : core pend own b c -> calm pend own b -> own <> Some j ->
  nth_error (b_clients b) j = Some p -> needs_lock p = false -> nth_error (b_clients c) j = Some q ->
  take b r d = Some (ov, b1, e1) -> es = e1 ++ [e] ->
  (forall c1, take c r d = Some (ov, c1, e1) -> client_step c j d q = Some (set_client j q' c1, es)) ->
  (forall rs, crel rs p' q') -> ~ lags e -> (forall i, j <> i -> beside i e) ->
  mirrored pend own b c (LClient j d) (set_client j p' b1) es.
Proof.
  intros K Q O Hj Np Hq T -> S R L B. pose proof (take_core pend own b c r d K Q) as TC. rewrite T in TC.
  destruct TC as (c1 & T1 & K1 & F1 & F2 & C1 & C2 & _ & _ & N1 & E1).
  split. { eapply frame_trans; [exact F1|]. eapply frame_client; [rewrite C1; exact Hj|exact Np]. }
  split. { intros N. apply reads_client. apply N1. exact N. }
  split. { apply Forall_app. split; [destruct E1 as [->|(d' & v & ->)]; repeat constructor; exact (fun f => f)|repeat constructor; exact L]. }
  split. { intros i pi Hi Ni N. destruct (N1 N) as (_ & ->). repeat constructor. apply B. eapply needs_other; eassumption. }
  left. exists (set_client j q' c1). split; [|split].
  - cbn [bstep]. rewrite Hq. apply S. exact T1.
  - eapply core_client; [exact K1|exact O|rewrite C1; exact Hj|apply R].
  - eapply stays_trans; [|apply stays_client; exact O]. destruct F2 as (M & St & _). apply stays_frame; assumption.
Qed.

Lemma mirror_client pend own b c j d b' es : core pend own b c -> calm pend own b -> own <> Some j ->
  nonlock b (LClient j d) ->
  bstep b (LClient j d) = Some (b', es) -> mirrored pend own b c (LClient j d) b' es.
Proof.
  intros K Q O NL E. cbn [bstep] in E. destruct (nth_error (b_clients b) j) as [p|] eqn:Hj; [|discriminate].
  cbn [nonlock] in NL. specialize (NL p Hj).
  destruct (k_clients _ _ _ _ K j _ O Hj) as (q & Hq & Rq).
  assert (B : forall i p, nth_error (b_clients b) i = Some p -> needs_lock p = true -> j <> i)
    by (intros i pi Hi N; eapply needs_other; [exact Hi|exact N|exact Hj|exact NL]).
  destruct p as [|v| | | |r pk|r acc|r acc pk|]; cbn [needs_lock] in NL; try discriminate; cbn [client_step] in E; try discriminate.
  - (* send *)
    inversion Rq; subst q.
    rewrite <- (k_closed _ _ _ _ K), <- (k_buf _ _ _ _ K), <- (k_cap _ _ _ _ K), <- (k_disp _ _ _ _ K) in E.
    destruct (b_closed c) eqn:Ec.
    { injection E as <- <-. split; [eapply frame_client; [exact Hj|reflexivity]|]. split; [exact (fun f => f)|].
      split; [repeat constructor; exact (fun f => f)|]. split; [intros i p Hi N _; repeat constructor; exact (B i p Hi N)|].
      left. exists (set_client j CDead c). split; [cbn [bstep]; rewrite Hq; cbn [client_step]; rewrite Ec; reflexivity|].
      split; [eapply core_client; eauto; constructor|apply stays_client; exact O]. }
    destruct (Z.of_nat (length (b_buf c)) <? b_cap c) eqn:El.
    { injection E as <- <-. split; [eapply frame_trans; [apply frame_buf|]; eapply frame_client; [exact Hj|reflexivity]|]. split; [exact (fun f => f)|].
      split; [repeat constructor; exact (fun f => f)|]. split; [intros i p Hi N _; repeat constructor; exact (B i p Hi N)|].
      left. exists (set_client j CIdle (set_buf (b_buf c ++ [v]) c)). split; [cbn [bstep]; rewrite Hq; cbn [client_step]; rewrite Ec, El; reflexivity|].
      split; [eapply core_client; [apply core_bbuf; exact K|exact O|exact Hj|constructor]|].
      eapply stays_trans; [|apply stays_client; exact O]. apply stays_frame; reflexivity. }
    destruct (b_buf c) as [|w ws] eqn:Eb; [|discriminate].
    destruct (nth_error (b_disp c) d) as [[]|] eqn:Ed; try discriminate. injection E as <- <-.
    split; [eapply frame_trans; [apply frame_disp|]; eapply frame_client; [exact Hj|reflexivity]|].
    split; [intros N; apply reads_client; apply reads_disp; [exact N|reflexivity]|].
    split; [repeat constructor; exact (fun f => f)|]. split; [intros i p Hi N _; repeat constructor; exact (B i p Hi N)|].
    left. exists (set_client j CIdle (set_disp d (DLock v) c)). split; [cbn [bstep]; rewrite Hq; cbn [client_step]; rewrite Ec, Eb, Ed; cbn [length] in El |- *; rewrite El; reflexivity|].
    split; [eapply core_client; [apply core_disp; exact K|exact O|exact Hj|constructor]|].
    eapply stays_trans; [|apply stays_client; exact O]. apply stays_frame; reflexivity.
  - (* a direct receive *)
    assert (Hqq : exists pk', q = CRecv r pk') by (inversion Rq; subst; eauto). destruct Hqq as (pk' & ->).
    destruct (take b r d) as [((ov, b1), e1)|] eqn:T.
    { injection E as <- <-. eapply (taken_mirrored pend own b c j d r _ _ CIdle CIdle); eauto; [|intros rs; apply crel_same].
      intros c1 T1. cbn [client_step]. rewrite T1. reflexivity. }
    destruct (existsb _ _ || pk) eqn:Ew; [discriminate|]. injection E as <- <-. apply orb_false_elim in Ew. destruct Ew as (Ew & ->).
    split; [eapply frame_client; [exact Hj|reflexivity]|]. split; [exact (fun f => f)|].
    split; [repeat constructor; exact (fun f => f)|]. split; [intros i p Hi N _; repeat constructor; exact (B i p Hi N)|].
    pose proof (take_core pend own b c r d K Q) as TC. rewrite T in TC. inversion Rq; subst pk'.
    destruct TC as [Tc|(Hin & Cl & Tc)].
    + left. exists (set_client j (CRecv r true) c). split; [cbn [bstep]; rewrite Hq; cbn [client_step]; rewrite Tc, (k_disp _ _ _ _ K), Ew; reflexivity|].
      split; [eapply core_client; eauto; constructor|apply stays_client; exact O].
    + right. exists j, r. split; [reflexivity|]. split; [exact Hin|]. split; [exact O|].
      replace c with (set_client j (CRecv r false) c) by (unfold set_client; rewrite (upd_id _ _ _ Hq); destruct c; reflexivity).
      eapply core_client; eauto. constructor. exact Cl.
  - (* Drain *)
    inversion Rq; subst q.
    destruct (take b r d) as [((ov, b1), e1)|] eqn:T.
    { destruct ov as [v|]; injection E as <- <-.
      - eapply (taken_mirrored pend own b c j d r _ _ (CDrain r (acc ++ [v])) (CDrain r (acc ++ [v]))); eauto; [|intros rs; apply crel_same].
        intros c1 T1. cbn [client_step]. rewrite T1. reflexivity.
      - eapply (taken_mirrored pend own b c j d r _ _ CIdle CIdle); eauto; [|intros rs; apply crel_same].
        intros c1 T1. cbn [client_step]. rewrite T1. reflexivity. }
    destruct (existsb _ _) eqn:Ew; [discriminate|]. injection E as <- <-.
    split; [eapply frame_client; [exact Hj|reflexivity]|]. split; [exact (fun f => f)|].
    split; [repeat constructor; exact (fun f => f)|]. split; [intros i p Hi N _; repeat constructor; exact (B i p Hi N)|].
    pose proof (take_core pend own b c r d K Q) as TC. rewrite T in TC. left. exists (set_client j CIdle c).
    split; [cbn [bstep]; rewrite Hq; cbn [client_step]; destruct TC as [Tc|(Hin & Cl & Tc)]; rewrite Tc; [rewrite (k_disp _ _ _ _ K), Ew|]; reflexivity|].
    split; [eapply core_client; eauto; constructor|apply stays_client; exact O].
  - (* CollectTimeout *)
    assert (Hqq : exists pk', q = CCollect r acc pk') by (inversion Rq; subst; eauto). destruct Hqq as (pk' & ->).
    destruct (take b r d) as [((ov, b1), e1)|] eqn:T.
    { injection E as <- <-. eapply (taken_mirrored pend own b c j d r _ _ (CCollect r (acc ++ [ov]) false) (CCollect r (acc ++ [ov]) false)); eauto; [|intros rs; apply crel_same].
      intros c1 T1. cbn [client_step]. rewrite T1. reflexivity. }
    destruct (existsb _ _ || pk) eqn:Ew; [discriminate|]. injection E as <- <-. apply orb_false_elim in Ew. destruct Ew as (Ew & ->).
    split; [eapply frame_client; [exact Hj|reflexivity]|]. split; [exact (fun f => f)|].
    split; [repeat constructor; exact (fun f => f)|]. split; [intros i p Hi N _; repeat constructor; exact (B i p Hi N)|].
    pose proof (take_core pend own b c r d K Q) as TC. rewrite T in TC. inversion Rq; subst pk'.
    destruct TC as [Tc|(Hin & Cl & Tc)].
    + left. exists (set_client j (CCollect r acc true) c). split; [cbn [bstep]; rewrite Hq; cbn [client_step]; rewrite Tc, (k_disp _ _ _ _ K), Ew; reflexivity|].
      split; [eapply core_client; eauto; constructor|apply stays_client; exact O].
    + right. exists j, r. split; [reflexivity|]. split; [exact Hin|]. split; [exact O|].
      replace c with (set_client j (CCollect r acc false) c) by (unfold set_client; rewrite (upd_id _ _ _ Hq); destruct c; reflexivity).
      eapply core_client; eauto. constructor. exact Cl.
Qed.

Lemma mirror_timeout pend own b c j b' es : core pend own b c -> own <> Some j ->
  bstep b (LTimeout j) = Some (b', es) -> mirrored pend own b c (LTimeout j) b' es.
Proof.
  intros K O E. cbn [bstep] in E. destruct (nth_error (b_clients b) j) as [[]|] eqn:Hj; try discriminate. injection E as <- <-.
  destruct (k_clients _ _ _ _ K j _ O Hj) as (q & Hq & Rq).
  split; [eapply frame_client; [exact Hj|reflexivity]|]. split; [exact (fun f => f)|].
  split; [repeat constructor; exact (fun f => f)|].
  split; [intros i p Hi N _; repeat constructor; eapply needs_other; [exact Hi|exact N|exact Hj|reflexivity]|].
  left. exists (set_client j CIdle c). split; [cbn [bstep]; rewrite Hq; inversion Rq; reflexivity|].
  split; [eapply core_client; eauto; constructor|apply stays_client; exact O].
Qed.

(** Dispatchers: if there is anything to offer, no critical section is under way. *)
Lemma same_recvs own b c : core [] own b c -> b_recvs c = b_recvs b.
Proof.
  intros K. assert (H : forall l l' : list recv, (forall r, nth_error l' r = nth_error l r) -> l' = l).
  { induction l as [|x l IH]; intros [|y l'] H; [reflexivity|specialize (H 0%nat); discriminate..|].
    pose proof (H 0%nat) as H0. cbn in H0. injection H0 as ->. f_equal. apply IH. intros r. exact (H (S r)). }
  apply H. intros r. rewrite (k_recvs _ _ _ _ K). destruct (nth_error (b_recvs b) r); reflexivity.
Qed.

Lemma crel_parked rs p q r x : crel rs p q -> nth_error rs r = Some x -> r_closed x = false -> parked_on q r = parked_on p r.
Proof.
  intros R H C. destruct R as [c|r' (y & Hy & Cy)|r' acc (y & Hy & Cy)]; [reflexivity|..]; cbn;
    (destruct (Nat.eqb_spec r' r) as [->|]; [congruence|reflexivity]).
Qed.

Lemma parked_exists b c r x : core [] None b c -> nth_error (b_recvs b) r = Some x -> r_closed x = false ->
  existsb (fun p => parked_on p r) (b_clients c) = existsb (fun p => parked_on p r) (b_clients b).
Proof.
  intros K H C. pose proof (same_recvs _ _ _ K) as Er.
  destruct (existsb (fun p => parked_on p r) (b_clients b)) eqn:E.
  - apply existsb_exists in E. destruct E as (p & Hp & Pp). apply In_nth_error in Hp. destruct Hp as (j & Hj).
    destruct (k_clients _ _ _ _ K j p ltac:(discriminate) Hj) as (q & Hq & R). apply existsb_exists. exists q.
    split; [eapply nth_error_In; exact Hq|]. rewrite (crel_parked _ _ _ r x R); [exact Pp|rewrite Er; exact H|exact C].
  - apply existsb_nth. intros j q Hq. destruct (nth_error (b_clients b) j) as [p|] eqn:Hj.
    + destruct (k_clients _ _ _ _ K j p ltac:(discriminate) Hj) as (q' & Hq' & R). rewrite Hq in Hq'. injection Hq' as <-.
      rewrite (crel_parked _ _ _ r x R); [|rewrite Er; exact H|exact C]. exact (proj1 (existsb_nth _ _) E j p Hj).
    + apply nth_error_None in Hj. rewrite <- (k_len _ _ _ _ K) in Hj. apply nth_error_None in Hj. congruence.
Qed.

Lemma parked_free p r : parked_on p r = true -> needs_lock p = false.
Proof. destruct p; cbn; try discriminate; reflexivity. Qed.

Lemma offer_mirrored b c d v r todo i again b' es : core [] None b c ->
  offer b d v r todo i again = Some (b', es) -> ~ nobody_reads b ->
  frame b b' /\ (nobody_reads b -> nobody_reads b') /\ Forall (fun e => ~ lags e) es /\
  (forall i p, nth_error (b_clients b) i = Some p -> needs_lock p = true -> nobody_reads b -> Forall (beside i) es) /\
  exists c', offer c d v r todo i again = Some (c', es) /\ core [] None b' c' /\ stays None c c'.
Proof.
  intros K E NR. unfold offer in *. rewrite (same_recvs _ _ _ K).
  destruct (nth_error (b_recvs b) r) as [x|] eqn:Ex; [|discriminate].
  assert (S : forall p c', b_map c' = b_map c -> b_stuck c' = b_stuck c -> stays None c (set_disp d p c')).
  { intros p c' M St. split; [exact M|]. split; [exact St|]. discriminate. }
  destruct ((r_strategy x =? Drop) || (r_strategy x =? Block)).
  2:{ injection E as <- <-. split; [apply frame_disp|]. split; [tauto|]. split; [repeat constructor; exact (fun f => f)|]. split; [tauto|].
      eexists. split; [reflexivity|]. split; [apply core_disp; exact K|apply S; reflexivity]. }
  destruct (r_closed x) eqn:Cx.
  { injection E as <- <-. split; [apply frame_disp|]. split; [tauto|]. split; [repeat constructor; exact (fun f => f)|]. split; [tauto|].
    eexists. split; [reflexivity|]. split; [apply core_disp; exact K|apply S; reflexivity]. }
  rewrite (parked_exists b c r x K Ex Cx). destruct (existsb _ (b_clients b)).
  { destruct (nth_error (b_clients b) i) as [p|] eqn:Hi; [|discriminate]. destruct (parked_on p r) eqn:Pp; [|discriminate]. injection E as <- <-.
    destruct (k_clients _ _ _ _ K i p ltac:(discriminate) Hi) as (q & Hq & R). rewrite Hq.
    rewrite (crel_parked _ _ _ r x R), Pp; [|rewrite (same_recvs _ _ _ K); exact Ex|exact Cx].
    split; [eapply frame_trans; [|apply frame_disp]; eapply frame_client; [exact Hi|exact (parked_free _ _ Pp)]|].
    split; [tauto|]. split; [repeat constructor; exact (fun f => f)|]. split; [tauto|].
    eexists. split; [reflexivity|]. split; [apply core_disp; eapply core_client; [exact K|discriminate|exact Hi|]|apply S; reflexivity].
    inversion R; subst; cbn [serve]; constructor. }
  destruct (Z.of_nat (length (r_buf x)) <? r_cap x).
  { injection E as <- <-. split; [eapply frame_trans; [|apply frame_disp]; apply frame_recv; exact Ex|]. split; [tauto|]. split; [repeat constructor; exact (fun f => f)|]. split; [tauto|].
    eexists. split; [reflexivity|]. split; [apply core_disp; exact (core_recv [] None b c r x _ K Ex)|apply S; reflexivity]. }
  destruct (r_strategy x =? Drop).
  { injection E as <- <-. split; [apply frame_disp|]. split; [tauto|]. split; [repeat constructor; exact (fun f => f)|]. split; [tauto|].
    eexists. split; [reflexivity|]. split; [apply core_disp; exact K|apply S; reflexivity]. }
  destruct again; [discriminate|]. injection E as <- <-. split; [apply frame_disp|]. split; [tauto|]. split; [constructor|]. split; [constructor|].
  eexists. split; [reflexivity|]. split; [apply core_disp; exact K|apply S; reflexivity].
Qed.

Lemma mirror_disp pend own b c d k i b' es : core pend own b c -> calm pend own b -> nonlock b (LDisp d k i) ->
  bstep b (LDisp d k i) = Some (b', es) -> mirrored pend own b c (LDisp d k i) b' es.
Proof.
  intros K Q NL E. cbn [bstep] in E. destruct (nth_error (b_disp b) d) as [p|] eqn:Ed; [|discriminate].
  assert (Ec : nth_error (b_disp c) d = Some p) by (rewrite (k_disp _ _ _ _ K); exact Ed).
  assert (S : forall p c', b_map c' = b_map c -> b_stuck c' = b_stuck c -> b_clients c' = b_clients c -> stays own c (set_disp d p c')).
  { intros p' c' M St C. apply stays_frame; assumption. }
  assert (RR : reading p = true -> ~ nobody_reads b /\ pend = [] /\ own = None).
  { intros Rp. assert (NR : ~ nobody_reads b) by (intros N; specialize (N d p Ed); congruence). split; [exact NR|].
    split; [destruct pend; [reflexivity|exfalso; apply NR, Q; left; discriminate]|destruct own; [exfalso; apply NR, Q; right; discriminate|reflexivity]]. }
  unfold mirrored. cbn [bstep]. rewrite Ec.
  destruct p as [|v|v todo|v r todo| |]; cbn [disp_step] in E |- *; try discriminate.
  - rewrite (k_buf _ _ _ _ K), (k_closed _ _ _ _ K). destruct (b_buf b) as [|v rest].
    + destruct (b_closed b); [|discriminate]. injection E as <- <-.
      split; [apply frame_disp|]. split; [intros N; apply reads_disp; [exact N|reflexivity]|]. split; [repeat constructor; exact (fun f => f)|].
      split; [repeat constructor|]. left. eexists. split; [reflexivity|]. split; [apply core_disp; exact K|apply S; reflexivity].
    + injection E as <- <-.
      split; [eapply frame_trans; [|apply frame_disp]; apply frame_buf|]. split; [intros N; apply reads_disp; [exact N|reflexivity]|]. split; [repeat constructor; exact (fun f => f)|].
      split; [repeat constructor|]. left. eexists. split; [reflexivity|]. split; [apply core_disp, core_bbuf; exact K|apply S; reflexivity].
  - exfalso. exact (NL v Ed).
  - destruct (RR eq_refl) as (NR & -> & ->). destruct todo as [|r0 todo].
    + injection E as <- <-. split; [apply frame_disp|]. split; [tauto|]. split; [repeat constructor; exact (fun f => f)|]. split; [tauto|].
      left. eexists. split; [reflexivity|]. split; [apply core_disp; exact K|apply S; reflexivity].
    + destruct (nth_error (r0 :: todo) k) as [r|]; [|discriminate].
      destruct (offer_mirrored b c d v r _ i false b' es K E NR) as (H1 & H2 & H3 & H4 & c' & H5 & H6 & H7).
      repeat (split; [assumption|]). left. exists c'. auto.
  - destruct (RR eq_refl) as (NR & -> & ->).
    destruct (offer_mirrored b c d v r _ i true b' es K E NR) as (H1 & H2 & H3 & H4 & c' & H5 & H6 & H7).
    repeat (split; [assumption|]). left. exists c'. auto.
Qed.

Lemma mirror pend own b c l b' es : core pend own b c -> calm pend own b -> nonlock b l ->
  (forall i, own = Some i -> exists p, nth_error (b_clients b) i = Some p /\ needs_lock p = true) ->
  bstep b l = Some (b', es) -> mirrored pend own b c l b' es.
Proof.
  intros K Q NL O E.
  assert (OO : forall j p, nth_error (b_clients b) j = Some p -> needs_lock p = false -> own <> Some j).
  { intros j p Hj Np Ho. destruct (O j Ho) as (p' & Hp' & N). congruence. }
  destruct l as [j o|j d|j|d k i].
  - apply mirror_call; [exact K| |exact E]. cbn [bstep] in E. destruct (nth_error (b_clients b) j) as [[]|] eqn:Hj; try discriminate. eapply OO; [exact Hj|reflexivity].
  - apply mirror_client; [exact K|exact Q| |exact NL|exact E]. cbn [bstep] in E. destruct (nth_error (b_clients b) j) as [p|] eqn:Hj; [|discriminate]. eapply OO; [exact Hj|]. apply NL. exact Hj.
  - apply mirror_timeout; [exact K| |exact E]. cbn [bstep] in E. destruct (nth_error (b_clients b) j) as [[]|] eqn:Hj; try discriminate. eapply OO; [exact Hj|reflexivity].
  - apply mirror_disp; assumption.
Qed.

(** ** The lock *)

Record finv (s : fbus) : Prop := FInv {
  v_in : forall i w, nth_error (f_in s) i = Some (Some w) -> f_lock s = Some i;
  v_hold : forall i, f_lock s = Some i -> exists w, nth_error (f_in s) i = Some (Some w);
  v_len : length (f_in s) = length (b_clients (f_bus s));
  v_reads : f_lock s <> None -> nobody_reads (f_bus s);
  v_needs : forall i w, nth_error (f_in s) i = Some (Some w) ->
    exists p, nth_error (b_clients (f_bus s)) i = Some p /\ needs_lock p = true
}.

Definition holder (s : fbus) : option (nat * wpc) :=
  match f_lock s with
  | Some i => match nth_error (f_in s) i with Some (Some w) => Some (i, w) | _ => None end
  | None => None
  end.

Lemma holder_in s i w : finv s -> nth_error (f_in s) i = Some (Some w) -> holder s = Some (i, w).
Proof. intros V H. unfold holder. rewrite (v_in _ V _ _ H), H. reflexivity. Qed.
Lemma holder_lock s i w : holder s = Some (i, w) -> f_lock s = Some i.
Proof. unfold holder. destruct (f_lock s) as [j|]; [|discriminate]. destruct (nth_error (f_in s) j) as [[]|]; congruence. Qed.

Definition open_in (fs : list (string * bool)) (m : list (string * nat)) : Prop :=
  forall name r, In (name, r) m -> exists nm, nth_error fs r = Some (nm, false).

(** What the states have to do with each other, by the position of the holder of the write lock: [pend] the receivers
    that are closed only in [c], [own] the goroutine whose call is over only in [c], [dp] what is still to be seen. *)
Inductive wrel : option (nat * wpc) -> bus -> bus -> list nat -> option nat -> option (list nat * nat * bevent) -> Prop :=
| wr_none b c : b_map c = b_map b -> b_stuck c = false -> wrel None b c [] None None
| wr_put i name cap st b c : b_map c = b_map b -> b_stuck c = false -> nth_error (b_clients b) i = Some (CNew name cap st) ->
    wrel (Some (i, WPut name cap st)) b c [] None None
| wr_find i r b c : b_map c = b_map b -> b_stuck c = false -> nth_error (b_clients b) i = Some (CClose r) ->
    wrel (Some (i, WFind r)) b c [] None None
| wr_shut i r r' nm cl b c : b_map c = b_map b -> b_stuck c = false -> nth_error (b_clients b) i = Some (CClose r) ->
    nth_error (map face (b_recvs b)) r = Some (nm, cl) -> lookup (b_map b) nm = Some r' ->
    wrel (Some (i, WShut r r')) b c [] None None
| wr_next0 i b c : b_map c = b_map b -> b_stuck c = false -> nth_error (b_clients b) i = Some CBusClose ->
    wrel (Some (i, WNext)) b c [] None None
| wr_shutnext0 i name r b c : b_map c = b_map b -> b_stuck c = false -> nth_error (b_clients b) i = Some CBusClose ->
    In (name, r) (b_map b) -> wrel (Some (i, WShutNext name r)) b c [] None None
| wr_del i r nm cl p b c : b_map c = remove (b_map b) nm -> b_stuck c = false -> nth_error (b_clients b) i = Some p -> needs_lock p = true ->
    nth_error (b_clients c) i = Some CIdle -> nth_error (map face (b_recvs b)) r = Some (nm, cl) ->
    wrel (Some (i, WDel r)) b c [] (Some i) (Some ([], i, ECloseReturns i r))
| wr_next1 i b c p : b_map c = [] -> b_stuck c = false -> nth_error (b_clients b) i = Some p -> needs_lock p = true ->
    nth_error (b_clients c) i = Some CIdle ->
    NoDup (map fst (b_map b)) -> NoDup (map snd (b_map b)) -> open_in (map face (b_recvs b)) (b_map b) ->
    wrel (Some (i, WNext)) b c (map snd (b_map b)) (Some i) (Some (map snd (b_map b), i, EBusClosed i))
| wr_shutnext1 i name r b c p : b_map c = [] -> b_stuck c = false -> nth_error (b_clients b) i = Some p -> needs_lock p = true ->
    nth_error (b_clients c) i = Some CIdle ->
    NoDup (map fst (b_map b)) -> NoDup (map snd (b_map b)) -> open_in (map face (b_recvs b)) (b_map b) -> In (name, r) (b_map b) ->
    wrel (Some (i, WShutNext name r)) b c (map snd (b_map b)) (Some i) (Some (map snd (b_map b), i, EBusClosed i))
| wr_delnext i name r b c p : b_map c = [] -> b_stuck c = false -> nth_error (b_clients b) i = Some p -> needs_lock p = true ->
    nth_error (b_clients c) i = Some CIdle ->
    NoDup (map fst (b_map b)) -> NoDup (map snd (b_map b)) -> open_in (map face (b_recvs b)) (remove (b_map b) name) -> In (name, r) (b_map b) ->
    wrel (Some (i, WDelNext name r)) b c (map snd (remove (b_map b) name)) (Some i)
      (Some (map snd (remove (b_map b) name), i, EBusClosed i))
| wr_unlock i e b c p : b_map c = b_map b -> b_stuck c = false -> nth_error (b_clients b) i = Some p -> needs_lock p = true ->
    nth_error (b_clients c) i = Some CIdle -> wrel (Some (i, WUnlock e)) b c [] (Some i) (Some ([], i, e))
| wr_dead i b c p : b_map c = b_map b -> b_stuck c = true -> nth_error (b_clients b) i = Some p -> needs_lock p = true ->
    wrel (Some (i, WDead)) b c [] (Some i) None.

Lemma wrel_frame h b c pend own dp b' c' : wrel h b c pend own dp -> frame b b' -> stays own c c' -> wrel h b' c' pend own dp.
Proof.
  intros W (M & _ & F & _ & C) (M' & S' & C').
  destruct W; try rewrite <- M;
    econstructor; try rewrite M; try rewrite M'; try rewrite S'; try rewrite F; eauto; try (apply C; [eassumption|reflexivity]);
    rewrite C' by reflexivity; assumption.
Qed.

Lemma wrel_own h b c pend own dp : wrel h b c pend own dp -> forall i, own = Some i ->
  (exists p, nth_error (b_clients b) i = Some p /\ needs_lock p = true) /\ exists w, h = Some (i, w).
Proof. intros W i H. destruct W; try discriminate; injection H as <-; eauto. Qed.

Lemma wrel_dp h b c pend own rs i e : wrel h b c pend own (Some (rs, i, e)) -> pend = rs /\ own = Some i /\ exists w, h = Some (i, w).
Proof. intros W. inversion W; subst; eauto. Qed.
Lemma wrel_no_dp h b c pend own : wrel h b c pend own None -> pend = [].
Proof. intros W. inversion W; reflexivity. Qed.
Lemma wrel_calm s b c pend own dp : finv s -> wrel (holder s) b c pend own dp -> calm pend own (f_bus s).
Proof.
  intros V W H. apply (v_reads _ V).
  assert (HH : holder s <> None) by (intros E; rewrite E in W; inversion W; subst; destruct H as [H|H]; congruence).
  destruct (holder s) as [(i, w)|] eqn:E; [|congruence]. rewrite (holder_lock _ _ _ E). discriminate.
Qed.

(** ** The traces *)

Lemma seen_app a b : seen (a ++ b) = seen a ++ seen b. Proof. apply flat_map_app. Qed.
Lemma effects_app a b : effects (a ++ b) = effects a ++ effects b. Proof. apply flat_map_app. Qed.
Lemma seen_both es : seen (map Both es) = es. Proof. induction es as [|e es IH]; cbn; [reflexivity|]. f_equal. exact IH. Qed.
Lemma effects_both es : effects (map Both es) = es. Proof. induction es as [|e es IH]; cbn; [reflexivity|]. f_equal. exact IH. Qed.
Lemma delayed_frees tr es : delayed tr None -> Forall (fun e => ~ lags e) es -> delayed (tr ++ map Both es) None.
Proof.
  intros D H. revert tr D. induction H as [|e es He _ IH]; intros tr D; cbn [map]; [rewrite app_nil_r; exact D|].
  replace (tr ++ Both e :: map Both es) with ((tr ++ [Both e]) ++ map Both es) by (rewrite <- app_assoc; reflexivity).
  apply IH. constructor; assumption.
Qed.
Lemma delayed_besides tr rs i ret es : delayed tr (Some (rs, i, ret)) -> Forall (beside i) es -> delayed (tr ++ map Both es) (Some (rs, i, ret)).
Proof.
  intros D H. revert tr D. induction H as [|e es He _ IH]; intros tr D; cbn [map]; [rewrite app_nil_r; exact D|].
  replace (tr ++ Both e :: map Both es) with ((tr ++ [Both e]) ++ map Both es) by (rewrite <- app_assoc; reflexivity).
  apply IH. constructor; assumption.
Qed.

Definition reach (cap : Z) (n : nat) (c : bus) (T : list bevent) : Prop := exists sched, bus_exec cap n sched = (c, T).
Lemma reach_step cap n c T l c' es : reach cap n c T -> bstep c l = Some (c', es) -> reach cap n c' (T ++ es).
Proof.
  intros (sched & H) E. exists (sched ++ [l]). unfold bus_exec in *. rewrite exec_app, H. cbn [exec]. rewrite E. rewrite app_nil_r. reflexivity.
Qed.
Lemma reach_binv cap n c T : reach cap n c T -> binv c.
Proof. intros (sched & H). change c with (fst (c, T)). rewrite <- H. apply bus_binv. Qed.

Definition ginv (cap : Z) (n : nat) (s : fbus) (F : list bevent) : Prop :=
  finv s /\ exists c T tr pend own dp, reach cap n c T /\ seen tr = F /\ effects tr = T /\ delayed tr dp /\
    core pend own (f_bus s) c /\ wrel (holder s) (f_bus s) c pend own dp.

(** *** Steps outside critical sections *)
Lemma ginv_outside cap n s F l b' es : ginv cap n s F -> nonlock (f_bus s) l -> bstep (f_bus s) l = Some (b', es) ->
  ginv cap n (FBus b' (f_lock s) (f_in s)) (F ++ es).
Proof.
  intros (V & c & T & tr & pend & own & dp & R & Sn & Ef & D & K & W) NL E.
  pose proof (wrel_calm _ _ _ _ _ _ V W) as Q.
  destruct (mirror pend own (f_bus s) c l b' es K Q NL (fun i H => proj1 (wrel_own _ _ _ _ _ _ W i H)) E) as (Fr & Rd & L & B & Cs).
  pose proof Fr as (M & S & F1 & Len & C).
  split.
  { constructor; cbn [f_in f_lock f_bus].
    - apply V.
    - apply V.
    - rewrite Len. apply V.
    - intros H. apply Rd. apply V. exact H.
    - intros i w H. destruct (v_needs _ V i w H) as (p & Hp & N). exists p. auto. }
  change (holder (FBus b' (f_lock s) (f_in s))) with (holder s). cbn [f_bus].
  destruct Cs as [(c' & Ec & K' & St)|(j & r & -> & Hin & Oj & K')].
  - exists c', (T ++ es), (tr ++ map Both es), pend, own, dp.
    split; [exact (reach_step _ _ _ _ _ _ _ R Ec)|].
    split; [rewrite seen_app, seen_both, Sn; reflexivity|]. split; [rewrite effects_app, effects_both, Ef; reflexivity|].
    split; [|split; [exact K'|exact (wrel_frame _ _ _ _ _ _ _ _ W Fr St)]].
    destruct dp as [((rs, i), ret)|]; [|apply delayed_frees; assumption].
    apply delayed_besides; [exact D|]. destruct (wrel_dp _ _ _ _ _ _ _ _ W) as (_ & Ho & w & Hh).
    destruct (proj1 (wrel_own _ _ _ _ _ _ W i Ho)) as (p & Hp & N). apply (B i p Hp N).
    apply (v_reads _ V). rewrite (holder_lock _ _ _ Hh). discriminate.
  - exists c, T, (tr ++ [Seen (EWaits j r)]), pend, own, dp. split; [exact R|].
    split; [rewrite seen_app, Sn; reflexivity|]. split; [rewrite effects_app, app_nil_r; exact Ef|].
    split; [|split; [exact K'|apply (wrel_frame _ _ _ _ _ _ _ _ W Fr); apply stays_frame; reflexivity]].
    destruct dp as [((rs, i), ret)|]; [|rewrite (wrel_no_dp _ _ _ _ _ W) in Hin; destruct Hin].
    destruct (wrel_dp _ _ _ _ _ _ _ _ W) as (-> & Ho & _). apply delayed_waits; [exact D|exact Hin|congruence].
Qed.

Lemma ginv_rlock cap n s F d v k i b' es : ginv cap n s F -> f_lock s = None -> nth_error (b_disp (f_bus s)) d = Some (DLock v) ->
  bstep (f_bus s) (LDisp d k i) = Some (b', es) -> ginv cap n (FBus b' (f_lock s) (f_in s)) (F ++ es).
Proof.
  intros (V & c & T & tr & pend & own & dp & R & Sn & Ef & D & K & W) HL Ed E.
  assert (Hh : holder s = None) by (unfold holder; rewrite HL; reflexivity). rewrite Hh in W. inversion W; subst b c0 pend own dp.
  cbn [bstep] in E. rewrite Ed in E. cbn [disp_step] in E. rewrite (k_stuck _ _ _ _ K) in E. injection E as <- <-.
  split.
  { constructor; cbn [f_in f_lock f_bus]; try apply V. rewrite HL. congruence. }
  change (holder (FBus (set_disp d (DIter v (map snd (b_map (f_bus s)))) (f_bus s)) (f_lock s) (f_in s))) with (holder s). rewrite Hh. cbn [f_bus].
  exists (set_disp d (DIter v (map snd (b_map c))) c), (T ++ [EBegin d v (map snd (b_map c))]), (tr ++ [Both (EBegin d v (map snd (b_map c)))]), [], None, None.
  split; [apply (reach_step _ _ _ _ (LDisp d k i) _ _ R); cbn [bstep]; rewrite (k_disp _ _ _ _ K), Ed; cbn [disp_step]; rewrite H0; reflexivity|].
  rewrite H. split; [rewrite seen_app, Sn; reflexivity|]. split; [rewrite effects_app, Ef; reflexivity|].
  split; [apply delayed_free; [exact D|exact (fun f => f)]|]. split; [apply core_disp; exact K|]. constructor; assumption.
Qed.

Lemma ginv_lock cap n s F i p w : ginv cap n s F -> f_lock s = None -> nth_error (f_in s) i = Some None ->
  nth_error (b_clients (f_bus s)) i = Some p -> enter p = Some w -> nobody_reads (f_bus s) ->
  ginv cap n (FBus (f_bus s) (Some i) (upd i (Some w) (f_in s))) F.
Proof.
  intros (V & c & T & tr & pend & own & dp & R & Sn & Ef & D & K & W) HL Hin Hp En NR.
  assert (Hh : holder s = None) by (unfold holder; rewrite HL; reflexivity). rewrite Hh in W. inversion W; subst b c0 pend own dp.
  assert (Hup : nth_error (upd i (Some w) (f_in s)) i = Some (Some w)) by (eapply nth_error_upd_same; exact Hin).
  split.
  { constructor; cbn [f_in f_lock f_bus].
    - intros j w' Hj. apply nth_error_upd_Some in Hj. destruct Hj as [(-> & _)|(_ & Hj)]; [reflexivity|].
      pose proof (v_in _ V j w' Hj). congruence.
    - intros j [= <-]. eauto.
    - rewrite upd_length. apply V.
    - auto.
    - intros j w' Hj. apply nth_error_upd_Some in Hj. destruct Hj as [(-> & _)|(_ & Hj)].
      + exists p. split; [exact Hp|]. destruct p; cbn in En |- *; congruence.
      + eapply v_needs; eauto. }
  exists c, T, tr, [], None, None. repeat (split; [assumption|]).
  replace (holder _) with (Some (i, w)) by (unfold holder; cbn; rewrite Hup; reflexivity). cbn [f_bus].
  destruct p; cbn in En; try discriminate; injection En as <-; constructor; assumption.
Qed.

(** *** Steps in critical sections *)
Lemma finv_goto s b i w w' : finv s -> nth_error (f_in s) i = Some (Some w) ->
  b_clients b = b_clients (f_bus s) -> b_disp b = b_disp (f_bus s) -> finv (goto s b i w').
Proof.
  intros V Hi C Dp. pose proof (v_in _ V i w Hi) as HL. constructor; cbn [goto f_in f_lock f_bus].
  - intros j w1 Hj. apply nth_error_upd_Some in Hj. destruct Hj as [(-> & _)|(_ & Hj)]; [exact HL|exact (v_in _ V j w1 Hj)].
  - intros j Hj. rewrite HL in Hj. injection Hj as <-. exists w'. eapply nth_error_upd_same. exact Hi.
  - rewrite upd_length, C. apply V.
  - intros H. pose proof (v_reads _ V H) as N. intros d p. rewrite Dp. apply N.
  - intros j w1 Hj. rewrite C. apply nth_error_upd_Some in Hj. destruct Hj as [(-> & _)|(_ & Hj)]; eapply v_needs; eassumption.
Qed.
Lemma holder_goto s b i w w' : finv s -> nth_error (f_in s) i = Some (Some w) -> holder (goto s b i w') = Some (i, w').
Proof. intros V Hi. unfold holder, goto. cbn. rewrite (v_in _ V i w Hi). rewrite (nth_error_upd_same _ _ _ _ Hi). reflexivity. Qed.

Definition setrm (m : list (string * nat)) (rs : list recv) (b : bus) : bus :=
  Bus (b_cap b) (b_buf b) (b_closed b) m rs (b_disp b) (b_clients b) (b_stuck b).

Lemma core_setrm pend pend' own b c m m' rs rs' : core pend own b c ->
  (forall r, nth_error rs' r = option_map (shut pend' r) (nth_error rs r)) ->
  (forall r, closed_at (b_recvs c) r -> closed_at rs' r) -> core pend' own (setrm m rs b) (setrm m' rs' c).
Proof.
  intros K Hr Hc. constructor; cbn; try apply K; [exact Hr|].
  intros j p O Hj. destruct (k_clients _ _ _ _ K j p O Hj) as (q & Hq & R). exists q. split; [exact Hq|]. exact (crel_mono _ _ _ _ Hc R).
Qed.
Lemma core_own pend b c i q : core pend None b c -> core pend (Some i) b (set_client i q c).
Proof.
  intros K. constructor; cbn; try apply K.
  - rewrite upd_length. apply K.
  - intros j p O Hj. destruct (k_clients _ _ _ _ K j p ltac:(discriminate) Hj) as (q' & Hq & R). exists q'. split; [|exact R].
    rewrite nth_error_upd_other; [exact Hq|congruence].
Qed.
Lemma core_stuck pend own b c : core pend own b c -> core pend own b (set_stuck c).
Proof. intros K. constructor; cbn; apply K. Qed.
Lemma core_disown i b c p p' q : core [] (Some i) b c -> nth_error (b_clients b) i = Some p -> nth_error (b_clients c) i = Some q ->
  crel (b_recvs c) p' q -> core [] None (set_client i p' b) c.
Proof.
  intros K Hp Hq R. constructor; cbn; try apply K.
  - rewrite upd_length. apply K.
  - intros j pj _ Hj. apply nth_error_upd_Some in Hj. destruct Hj as [(-> & -> & _)|(Hne & Hj)]; [eauto|].
    apply (k_clients _ _ _ _ K j pj); [congruence|exact Hj].
Qed.

Lemma shut_nil l r : nth_error l r = option_map (shut [] r) (nth_error l r).
Proof. destruct (nth_error l r); reflexivity. Qed.
Lemma closed_upd rs k x r : nth_error rs k = Some x -> closed_at rs r -> closed_at (upd k (closed x) rs) r.
Proof.
  intros Hk (y & Hy & Cy). destruct (Nat.eq_dec k r) as [<-|Hne].
  - exists (closed x). split; [eapply nth_error_upd_same; exact Hk|reflexivity].
  - exists y. split; [rewrite nth_error_upd_other by exact Hne; exact Hy|exact Cy].
Qed.
Lemma closed_app rs x r : closed_at rs r -> closed_at (rs ++ [x]) r.
Proof. intros (y & Hy & Cy). exists y. split; [|exact Cy]. rewrite nth_error_app1; [exact Hy|]. apply nth_error_Some. congruence. Qed.

Lemma remove_split m name r : NoDup (map fst m) -> In (name, r) m ->
  exists m1 m2, m = m1 ++ (name, r) :: m2 /\ remove m name = m1 ++ m2.
Proof.
  intros N Hin. apply in_split in Hin. destruct Hin as (m1 & m2 & ->). exists m1, m2. split; [reflexivity|].
  assert (R : forall m', ~ In name (map fst m') -> remove m' name = m').
  { induction m' as [|(k, r') m' IH]; cbn; [reflexivity|]. intros H. destruct (String.eqb_spec k name) as [->|]; [tauto|]. f_equal. tauto. }
  assert (A : forall m1 m2, remove (m1 ++ m2) name = remove m1 name ++ remove m2 name).
  { clear. induction m1 as [|(k, r') m1 IH]; intros m2; cbn; [reflexivity|]. destruct (String.eqb k name); cbn; rewrite IH; reflexivity. }
  rewrite map_app in N. cbn [map fst] in N. apply NoDup_remove_2 in N. rewrite in_app_iff in N.
  rewrite A. cbn [remove]. rewrite String.eqb_refl. rewrite !R by tauto. reflexivity.
Qed.

Lemma shut_step m name r x rs k : NoDup (map fst m) -> NoDup (map snd m) -> In (name, r) m -> nth_error rs r = Some x ->
  option_map (shut (map snd m) k) (nth_error rs k) =
  option_map (shut (map snd (remove m name)) k) (nth_error (upd r (closed x) rs) k).
Proof.
  intros N N2 Hin Hr. destruct (remove_split m name r N Hin) as (m1 & m2 & Em & Er).
  rewrite Er, Em, !map_app. cbn [map snd]. rewrite nth_error_upd. destruct (Nat.eq_dec r k) as [<-|Hne].
  - rewrite Hr. cbn. f_equal. rewrite shut_in by (apply in_or_app; right; left; reflexivity).
    unfold shut. destruct (existsb _ _); reflexivity.
  - destruct (nth_error rs k) as [y|]; [|reflexivity]. cbn. f_equal. unfold shut. rewrite !existsb_app. cbn [existsb].
    destruct (Nat.eqb_spec k r) as [E|]; [congruence|]. reflexivity.
Qed.

Lemma open_step rs m name r x : NoDup (map fst m) -> NoDup (map snd m) -> open_in (map face rs) m -> In (name, r) m -> nth_error rs r = Some x ->
  open_in (map face (upd r (closed x) rs)) (remove m name).
Proof.
  intros N N2 Ho Hin Hr name' r' Hin'. destruct (remove_split m name r N Hin) as (m1 & m2 & Em & Er).
  rewrite Er in Hin'. assert (Hin2 : In (name', r') m) by (rewrite Em; apply in_app_iff in Hin'; apply in_or_app; cbn; tauto).
  destruct (Ho _ _ Hin2) as (nm & Hn). exists nm. rewrite map_upd, nth_error_upd_other; [exact Hn|].
  intros <-. rewrite Em, map_app in N2. cbn [map snd] in N2. apply NoDup_remove_2 in N2. apply N2. rewrite <- map_app.
  apply in_map_iff. exists (name', r). auto.
Qed.

Lemma seen_takes rs e : seen (map (fun r => Takes (EClosedRecv r)) rs ++ [Takes e]) = [].
Proof. rewrite seen_app. cbn. rewrite app_nil_r. induction rs as [|r rs IH]; cbn; [reflexivity|exact IH]. Qed.
Lemma effects_takes rs e : effects (map (fun r => Takes (EClosedRecv r)) rs ++ [Takes e]) = map EClosedRecv rs ++ [e].
Proof. rewrite effects_app. cbn. f_equal. induction rs as [|r rs IH]; cbn; [reflexivity|]. f_equal. exact IH. Qed.

Lemma face_nth rs r nm cl : nth_error (map face rs) r = Some (nm, cl) -> exists x, nth_error rs r = Some x /\ r_name x = nm /\ r_closed x = cl.
Proof.
  intros H. destruct (nth_error rs r) as [x|] eqn:E.
  - rewrite (map_nth_error face _ _ E) in H. injection H as <- <-. eauto.
  - apply nth_error_None in E. rewrite <- (map_length face) in E. apply nth_error_None in E. congruence.
Qed.

Lemma core_lockable b c : core [] None b c -> nobody_reads b -> b_stuck c = false -> lockable c = true.
Proof. intros K N S. apply lockable_true. split; [|exact S]. intros d p. rewrite (k_disp _ _ _ _ K). apply N. Qed.

Ltac six := split; [|split; [|split; [|split; [|split]]]].

Ltac names s c :=
  try match goal with H : nth_error (b_clients (f_bus s)) _ = Some (CNew _ _ _) |- _ => rename H into Hcl end;
  try match goal with H : nth_error (b_clients (f_bus s)) _ = Some (CClose _) |- _ => rename H into Hcl end;
  try match goal with H : nth_error (b_clients (f_bus s)) _ = Some CBusClose |- _ => rename H into Hcl end;
  try match goal with H : b_map c = _ |- _ => rename H into Hm end;
  try match goal with H : nth_error (map face (b_recvs (f_bus s))) _ = Some _ |- _ => rename H into Hfa end;
  try match goal with H : lookup (b_map (f_bus s)) _ = Some _ |- _ => rename H into Hlk end;
  try match goal with H : In _ (b_map (f_bus s)) |- _ => rename H into Hmem end;
  try match goal with H : NoDup (map fst (b_map (f_bus s))) |- _ => rename H into Hk1 end;
  try match goal with H : NoDup (map snd (b_map (f_bus s))) |- _ => rename H into Hk2 end;
  try match goal with H : open_in _ _ |- _ => rename H into Hop0 end.

Lemma ginv_wstep cap n s F i k w s' es : ginv cap n s F -> nth_error (f_in s) i = Some (Some w) -> wstep s i k w = Some (s', es) ->
  ginv cap n s' (F ++ es).
Proof.
  intros (V & c & T & tr & pend & own & dp & R & Sn & Ef & D & K & W) Hi E.
  rewrite (holder_in _ _ _ V Hi) in W.
  assert (NR : nobody_reads (f_bus s)) by (apply (v_reads _ V); rewrite (v_in _ V _ _ Hi); discriminate).
  destruct (v_needs _ V i w Hi) as (pi & Hpi & Npi).
  pose proof (reach_binv _ _ _ _ R) as BI.
  assert (CL : forall p, pend = [] -> own = None -> nth_error (b_clients (f_bus s)) i = Some p -> needs_lock p = true -> nth_error (b_clients c) i = Some p).
  { intros p -> -> Hp Np. destruct (k_clients _ _ _ _ K i p ltac:(discriminate) Hp) as (q & Hq & Rq). inversion Rq; subst; [exact Hq|discriminate..]. }
  assert (PA : pend = [] -> own = None -> b_map c = b_map (f_bus s) -> bstep c (LClient i k) = Some (set_stuck (set_client i CDead c), [EClosePanic i]) ->
    dp = None -> ginv cap n (goto s (f_bus s) i WDead) (F ++ [EClosePanic i])).
  { intros -> -> M St ->. split; [eapply finv_goto; eauto|].
    exists (set_stuck (set_client i CDead c)), (T ++ [EClosePanic i]), (tr ++ [Both (EClosePanic i)]), [], (Some i), None.
    rewrite (holder_goto _ _ _ _ _ V Hi). cbn [goto f_bus]. six.
    - exact (reach_step _ _ _ _ _ _ _ R St).
    - rewrite seen_app, Sn. reflexivity.
    - rewrite effects_app, Ef. reflexivity.
    - apply delayed_free; [exact D|exact (fun f => f)].
    - apply core_stuck, core_own. exact K.
    - econstructor; eauto. }
  (* a step that is not yet seen or taken to have happened *)
  assert (QU : forall w' pend' own' dp', (pend', own', dp') = (pend, own, dp) -> wrel (Some (i, w')) (f_bus s) c pend own dp ->
    ginv cap n (goto s (f_bus s) i w') (F ++ [])).
  { intros w' pend' own' dp' _ W'. rewrite app_nil_r. split; [eapply finv_goto; eauto|]. exists c, T, tr, pend, own, dp.
    rewrite (holder_goto _ _ _ _ _ V Hi). cbn [goto f_bus]. repeat (split; [assumption|]). exact W'. }
  destruct w as [name rcap st|r|r r'|r| |name r|name r|e|]; cbn [wstep] in E.
  - (* the assignment of NewRecvStrategy *)
    injection E as <- <-. inversion W; subst; names s c. pose proof (CL _ eq_refl eq_refl Hcl eq_refl) as Hc.
    rewrite app_nil_r. split; [eapply finv_goto; eauto|].
    exists (fst (register c i name rcap st)), (effects tr ++ snd (register c i name rcap st)),
      (tr ++ map (fun r => Takes (EClosedRecv r)) [] ++ [Takes (EReg i (length (b_recvs (f_bus s))) name rcap st)]), [], (Some i),
      (Some ([], i, EReg i (length (b_recvs (f_bus s))) name rcap st)).
    rewrite (holder_goto _ _ _ _ _ V Hi). cbn [goto f_bus]. subst. six.
    + apply (reach_step _ _ _ _ (LClient i 0%nat) _ _ R). cbn [bstep]. rewrite Hc. cbn [client_step].
      rewrite (core_lockable _ _ K NR) by assumption. reflexivity.
    + rewrite seen_app, seen_takes, app_nil_r. reflexivity.
    + rewrite effects_app, effects_takes. cbn. rewrite (same_recvs _ _ _ K). reflexivity.
    + apply delayed_takes; [exact D|reflexivity|constructor].
    + cbn. apply core_own. rewrite (same_recvs _ _ _ K).
      apply (core_setrm [] [] None (f_bus s) c _ _ _ _ K); [apply shut_nil|]. rewrite (same_recvs _ _ _ K). intros r. apply closed_app.
    + cbn. econstructor; cbn; eauto; [rewrite (same_recvs _ _ _ K); congruence|]. eapply nth_error_upd_same. exact Hc.
  - (* looking up the receiver in Close *)
    destruct (nth_error (b_recvs (f_bus s)) r) as [me|] eqn:Em; [|discriminate]. inversion W; subst; names s c.
    pose proof (CL _ eq_refl eq_refl Hcl eq_refl) as Hc. 
    destruct (lookup (b_map (f_bus s)) (r_name me)) as [r'|] eqn:El; unfold panic in E; injection E as <- <-.
    + eapply QU; [reflexivity|]. econstructor; eauto. rewrite (map_nth_error face _ _ Em). reflexivity.
    + apply PA; auto. cbn [bstep]. rewrite Hc. cbn [client_step]. rewrite (core_lockable _ _ K NR) by assumption.
      unfold deregister. rewrite (same_recvs _ _ _ K), Em, Hm, El. reflexivity.
  - (* closing it *)
    destruct (nth_error (b_recvs (f_bus s)) r') as [x|] eqn:Ex; [|discriminate]. inversion W; subst; names s c.
    pose proof (CL _ eq_refl eq_refl Hcl eq_refl) as Hc. destruct (face_nth _ _ _ _ Hfa) as (me & Em & <- & <-).
    destruct (r_closed x) eqn:Cx; unfold panic in E; injection E as <- <-.
    + apply PA; auto. cbn [bstep]. rewrite Hc. cbn [client_step]. rewrite (core_lockable _ _ K NR) by assumption.
      unfold deregister. rewrite (same_recvs _ _ _ K), Em. rewrite Hm, Hlk, Ex, Cx. reflexivity.
    + split; [eapply finv_goto; eauto|].
      set (c' := set_client i CIdle (set_map (remove (b_map c) (r_name me)) (set_recv r' (closed x) c))).
      exists c', (effects tr ++ [EClosedRecv r'; ECloseReturns i r]),
        ((tr ++ map (fun r => Takes (EClosedRecv r)) [r'] ++ [Takes (ECloseReturns i r)]) ++ [Seen (EClosedRecv r')]), [], (Some i),
        (Some ([], i, ECloseReturns i r)).
      rewrite (holder_goto _ _ _ _ _ V Hi). cbn [goto f_bus]. six.
      * apply (reach_step _ _ _ _ (LClient i 0%nat) _ _ R). cbn [bstep]. rewrite Hc. cbn [client_step].
        rewrite (core_lockable _ _ K NR) by assumption. unfold deregister. rewrite (same_recvs _ _ _ K), Em, Hm, Hlk, Ex, Cx. 
        subst c'. rewrite Hm. reflexivity.
      * rewrite !seen_app. cbn. rewrite app_nil_r. reflexivity.
      * rewrite !effects_app. cbn. rewrite app_nil_r. reflexivity.
      * apply (delayed_closes _ [] r' []). apply delayed_takes; [exact D|reflexivity|]. constructor; [intros []|constructor].
      * subst c'. apply core_own. change (core [] None (setrm (b_map (f_bus s)) (upd r' (closed x) (b_recvs (f_bus s))) (f_bus s))
          (setrm (remove (b_map c) (r_name me)) (upd r' (closed x) (b_recvs c)) c)).
        rewrite (same_recvs _ _ _ K). apply (core_setrm [] [] None); [exact K|apply shut_nil|]. rewrite (same_recvs _ _ _ K).
        intros r0. apply closed_upd. exact Ex.
      * assert (Hf' : exists cl, nth_error (map face (upd r' (closed x) (b_recvs (f_bus s)))) r = Some (r_name me, cl)).
        { rewrite map_upd. destruct (Nat.eq_dec r' r) as [->|Hne].
          - rewrite (nth_error_upd_same _ _ _ _ Hfa). rewrite Ex in Em. injection Em as <-. eexists. reflexivity.
          - rewrite nth_error_upd_other by exact Hne. eexists. exact Hfa. }
        destruct Hf' as (cl & Hf'). subst c'.
        apply (wr_del i r (r_name me) cl pi); cbn; [congruence|assumption|exact Hpi|exact Npi|eapply nth_error_upd_same; exact Hc|exact Hf'].
  - (* the deletion in Close *)
    destruct (nth_error (b_recvs (f_bus s)) r) as [me|] eqn:Em; [|discriminate]. injection E as <- <-. inversion W; subst; names s c.
    rewrite (map_nth_error face _ _ Em) in Hfa. injection Hfa as <- <-.
    rewrite app_nil_r. split; [eapply finv_goto; eauto|]. exists c, (effects tr), tr, [], (Some i), (Some ([], i, ECloseReturns i r)).
    rewrite (holder_goto _ _ _ _ _ V Hi). cbn [goto f_bus]. split; [exact R|]. split; [reflexivity|]. split; [reflexivity|]. split; [exact D|]. split.
    + constructor; cbn; apply K.
    + econstructor; cbn; eauto.
  - (* the range loop of FanOutBus.Close *)
    destruct (b_map (f_bus s)) as [|e0 m0] eqn:Em.
    + injection E as <- <-. inversion W; subst; names s c.
      * (* nothing to close *)
        pose proof (CL _ eq_refl eq_refl Hcl eq_refl) as Hc. rewrite Em in *.
        rewrite app_nil_r. split; [eapply finv_goto; eauto|].
        exists (fst (bus_close_crit c i)), (effects tr ++ snd (bus_close_crit c i)),
          (tr ++ map (fun r => Takes (EClosedRecv r)) [] ++ [Takes (EBusClosed i)]), [], (Some i), (Some ([], i, EBusClosed i)).
        rewrite (holder_goto _ _ _ _ _ V Hi). cbn [goto f_bus]. six.
        -- apply (reach_step _ _ _ _ (LClient i 0%nat) _ _ R). cbn [bstep]. rewrite Hc. cbn [client_step].
           rewrite (core_lockable _ _ K NR) by assumption. destruct (bus_close_crit c i); reflexivity.
        -- rewrite seen_app, seen_takes, app_nil_r. reflexivity.
        -- rewrite effects_app, effects_takes. unfold bus_close_crit. rewrite Hm. reflexivity.
        -- apply delayed_takes; [exact D|reflexivity|constructor].
        -- unfold bus_close_crit. rewrite Hm. cbn. apply core_own.
           replace (f_bus s) with (setrm [] (b_recvs (f_bus s)) (f_bus s)) by (unfold setrm; rewrite <- Em; destruct (f_bus s); reflexivity).
           apply (core_setrm [] [] None); [exact K|apply K|]. auto.
        -- unfold bus_close_crit. rewrite Hm. cbn. econstructor; cbn; eauto. eapply nth_error_upd_same. exact Hc.
      * (* all closed *)
        rewrite Em in *. cbn [map] in *. eapply QU; [reflexivity|]. econstructor; eauto. congruence.
    + rewrite <- Em in *. destruct (nth_error (b_map (f_bus s)) k) as [(name, r)|] eqn:Ek; [|discriminate].
      assert (Hin : In (name, r) (b_map (f_bus s))) by (eapply nth_error_In; exact Ek).
      injection E as <- <-. inversion W; subst; (eapply QU; [reflexivity|]); econstructor; eauto.
  - (* closing the next one *)
    destruct (nth_error (b_recvs (f_bus s)) r) as [x|] eqn:Ex; [|discriminate]. inversion W; subst; names s c.
    + (* the first *)
      pose proof (CL _ eq_refl eq_refl Hcl eq_refl) as Hc.
      assert (Cx : r_closed x = false).
      { rewrite <- Hm in Hmem. destruct (i_map _ BI _ _ Hmem) as (y & Hy & _ & Cy). rewrite (same_recvs _ _ _ K), Ex in Hy. congruence. }
      rewrite Cx in E. injection E as <- <-.
      pose proof (i_keys _ BI) as N1. pose proof (i_ids _ BI) as N2. rewrite Hm in N1, N2.
      destruct (remove_split _ _ _ N1 Hmem) as (m1 & m2 & Em & Er).
      assert (Hop : existsb (is_closed c) (map snd (b_map c)) = false).
      { destruct (existsb (is_closed c) (map snd (b_map c))) eqn:Eo; [|reflexivity]. exfalso. apply existsb_exists in Eo. destruct Eo as (r1 & Hr1 & Cr1).
        apply in_map_iff in Hr1. destruct Hr1 as ((n1, r1') & <- & Hr1). destruct (i_map _ BI _ _ Hr1) as (y & Hy & _ & Cy).
        unfold is_closed in Cr1. cbn in Cr1. rewrite Hy in Cr1. congruence. }
      assert (Hfo : open_in (map face (b_recvs (f_bus s))) (b_map (f_bus s))).
      { intros n1 r1 H1. rewrite <- Hm in H1. destruct (i_map _ BI _ _ H1) as (y & Hy & _ & Cy). rewrite (same_recvs _ _ _ K) in Hy.
        exists (r_name y). rewrite (map_nth_error face _ _ Hy). unfold face. rewrite Cy. reflexivity. }
      split; [eapply finv_goto; eauto|].
      exists (fst (bus_close_crit c i)), (effects tr ++ snd (bus_close_crit c i)),
        ((tr ++ map (fun r => Takes (EClosedRecv r)) (map snd (b_map (f_bus s))) ++ [Takes (EBusClosed i)]) ++ [Seen (EClosedRecv r)]),
        (map snd (remove (b_map (f_bus s)) name)), (Some i), (Some (map snd (remove (b_map (f_bus s)) name), i, EBusClosed i)).
      rewrite (holder_goto _ _ _ _ _ V Hi). cbn [goto f_bus]. six.
      * apply (reach_step _ _ _ _ (LClient i 0%nat) _ _ R). cbn [bstep]. rewrite Hc. cbn [client_step].
        rewrite (core_lockable _ _ K NR) by assumption. destruct (bus_close_crit c i); reflexivity.
      * rewrite (seen_app (tr ++ _)), (seen_app tr), seen_takes, app_nil_r. reflexivity.
      * rewrite (effects_app (tr ++ _)), (effects_app tr), effects_takes, app_nil_r. unfold bus_close_crit. rewrite Hop, Hm. reflexivity.
      * rewrite Er, map_app. apply delayed_closes. replace (map snd m1 ++ r :: map snd m2) with (map snd (b_map (f_bus s))) by (rewrite Em, map_app; reflexivity).
        apply delayed_takes; [exact D|reflexivity|exact N2].
      * unfold bus_close_crit. rewrite Hop. cbn. apply core_own.
        change (core (map snd (remove (b_map (f_bus s)) name)) None (setrm (b_map (f_bus s)) (upd r (closed x) (b_recvs (f_bus s))) (f_bus s))
          (setrm [] (close_all (map snd (b_map c)) (b_recvs c)) c)).
        apply (core_setrm [] _ None); [exact K| |].
        -- intros k0. rewrite <- (shut_step _ _ _ _ _ k0 N1 N2 Hmem Ex). rewrite close_all_nth, Hm, (same_recvs _ _ _ K).
           destruct (nth_error (b_recvs (f_bus s)) k0); reflexivity.
        -- intros r0 (y & Hy & Cy). exists (closed y). split; [|reflexivity]. rewrite close_all_nth, Hy. f_equal.
           destruct (existsb (Nat.eqb r0) _); [reflexivity|]. symmetry. apply closed_id. exact Cy.
      * unfold bus_close_crit. rewrite Hop. cbn [fst].
        apply (wr_delnext i name r (set_recv r (closed x) (f_bus s)) _ pi); cbn; eauto.
        -- eapply nth_error_upd_same. exact Hc.
        -- eapply open_step; eauto.
    + (* another one *)
      assert (Cx : r_closed x = false).
      { destruct (Hop0 _ _ Hmem) as (nm & Hn). rewrite (map_nth_error face _ _ Ex) in Hn. injection Hn as _ Hn. exact Hn. }
      rewrite Cx in E. injection E as <- <-. destruct (remove_split _ _ _ Hk1 Hmem) as (m1 & m2 & Em & Er).
      split; [eapply finv_goto; eauto|].
      exists c, (effects tr), (tr ++ [Seen (EClosedRecv r)]),
        (map snd (remove (b_map (f_bus s)) name)), (Some i), (Some (map snd (remove (b_map (f_bus s)) name), i, EBusClosed i)).
      rewrite (holder_goto _ _ _ _ _ V Hi). cbn [goto f_bus]. six.
      * exact R.
      * rewrite seen_app. reflexivity.
      * rewrite effects_app, app_nil_r. reflexivity.
      * rewrite Er, map_app. apply delayed_closes. replace (map snd m1 ++ r :: map snd m2) with (map snd (b_map (f_bus s))) by (rewrite Em, map_app; reflexivity).
        exact D.
      * replace c with (setrm (b_map c) (b_recvs c) c) at 1 by (destruct c; reflexivity).
        apply (core_setrm (map snd (b_map (f_bus s))) _ (Some i)); [exact K| |auto].
        intros k0. rewrite <- (shut_step _ _ _ _ _ k0 Hk1 Hk2 Hmem Ex). apply K.
      * apply (wr_delnext i name r (set_recv r (closed x) (f_bus s)) _ pi); cbn; eauto. eapply open_step; eauto.
  - (* the deletion in FanOutBus.Close *)
    injection E as <- <-. inversion W; subst; names s c. rewrite app_nil_r. split; [eapply finv_goto; eauto|].
    exists c, (effects tr), tr, (map snd (remove (b_map (f_bus s)) name)), (Some i), (Some (map snd (remove (b_map (f_bus s)) name), i, EBusClosed i)).
    rewrite (holder_goto _ _ _ _ _ V Hi). cbn [goto f_bus]. six; [exact R|reflexivity|reflexivity|exact D| |].
    + constructor; cbn; apply K.
    + change (remove (b_map (f_bus s)) name) with (b_map (set_map (remove (b_map (f_bus s)) name) (f_bus s))).
      econstructor; cbn; eauto using NoDup_map_remove.
  - (* the release of the lock *)
    injection E as <- <-. inversion W; subst; names s c.
    assert (V' : finv (FBus (set_client i CIdle (f_bus s)) None (upd i None (f_in s)))).
    { constructor; cbn [f_in f_lock f_bus].
      - intros j w Hj. apply nth_error_upd_Some in Hj. destruct Hj as [(_ & [=] & _)|(Hne & Hj)].
        pose proof (v_in _ V _ _ Hj). pose proof (v_in _ V _ _ Hi). congruence.
      - discriminate.
      - cbn. rewrite !upd_length. apply V.
      - congruence.
      - intros j w Hj. apply nth_error_upd_Some in Hj. destruct Hj as [(_ & [=] & _)|(Hne & Hj)].
        pose proof (v_in _ V _ _ Hj). pose proof (v_in _ V _ _ Hi). congruence. }
    split; [exact V'|]. exists c, (effects tr), (tr ++ [Seen e]), [], None, None. cbn [holder f_lock f_bus]. six.
    + exact R.
    + rewrite seen_app. reflexivity.
    + rewrite effects_app, app_nil_r. reflexivity.
    + eapply delayed_returns. exact D.
    + eapply core_disown; [exact K|exact Hpi|eassumption|constructor].
    + constructor; assumption.
  - discriminate.
Qed.
