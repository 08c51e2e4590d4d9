(** Methods with one critical section take effect at one instant. *)
From Verif Require Import Common Threads MonitorModel MonitorSpec.

Section seq.
  Context {F V R M : Type}.
  Variable feq : forall f g : F, {f = g} + {f <> g}.

  (** The code run alone with clock readings [zs]: the result, the fields, the readings that are left. *)
  Fixpoint alone (c : code F V R) (s : mem F V) (zs : list Z) : option (R * mem F V * list Z) :=
    match c with
    | CRet r => Some (r, s, zs)
    | CClock k => match zs with z :: zs' => alone (k z) s zs' | [] => None end
    | CGet f k => alone (k (s f)) s zs
    | CSet f v k => alone k (store_at feq s f v) zs
    | CAnnounce k | CAcquire k | CUnlock k | CRLock k | CRUnlock k => alone k s zs
    end.
End seq.

Inductive phase := Before | Pend | InW | InR | After.

Section lin.
  Context {F V R M : Type}.
  Variable feq : forall f g : F, {f = g} + {f <> g}.
  Variable body : M -> code F V R.
  (** Fields that no method writes; whether the clock is also read outside of the write lock. *)
  Variable const : F -> bool.
  Variable early : bool.
  (** Methods that take the write lock. *)
  Variable writes : M -> bool.

  Definition can_read (p : phase) : Prop := match p with Before | InR => early = true | InW => True | Pend | After => False end.
  Definition can_get (p : phase) (f : F) : Prop := match p with InW | InR => True | Before => const f = true | Pend | After => False end.
  Inductive ty (wr : bool) : phase -> code F V R -> Prop :=
  | ty_ret p r : p = Before /\ wr = false \/ p = After -> ty wr p (CRet r)
  | ty_clock p k : can_read p -> (forall z, ty wr p (k z)) -> ty wr p (CClock k)
  | ty_get p f k : can_get p f -> (forall v, ty wr p (k v)) -> ty wr p (CGet f k)
  | ty_set f v k : const f = false -> ty wr InW k -> ty wr InW (CSet f v k)
  | ty_announce k : wr = true -> ty wr Pend k -> ty wr Before (CAnnounce k)
  | ty_acquire k : ty wr InW k -> ty wr Pend (CAcquire k)
  | ty_unlock k : wr = true -> ty wr After k -> ty wr InW (CUnlock k)
  | ty_rlock k : wr = false -> ty wr InR k -> ty wr Before (CRLock k)
  | ty_runlock k : wr = false -> ty wr After k -> ty wr InR (CRUnlock k).
  Hypothesis typed : forall m, ty (writes m) Before (body m).

  Lemma ty_after wr c : ty wr After c -> exists r, c = CRet r.
  Proof. intros H. inversion H as [p r _ E1 E2|p k X _ E1 E2|p f k X _ E1 E2| | | | | |]; subst; [exists r; reflexivity|destruct X|destruct X]. Qed.

  (** Where goroutine [t] is with respect to the lock. *)
  Definition at_lock (x : rwlock) (t : nat) (p : phase) : Prop :=
    match p with
    | Before | After => ~ In t (lk_readers x) /\ forall b, lk_writer x <> Some (t, b)
    | Pend => ~ In t (lk_readers x) /\ lk_writer x = Some (t, false)
    | InW => lk_readers x = [] /\ lk_writer x = Some (t, true)
    | InR => In t (lk_readers x) /\ (forall b, lk_writer x <> Some (t, b)) /\ forall u, lk_writer x <> Some (u, true)
    end.

  Definition reads (tr : list (obs R M)) : list Z := flat_map (fun x => match x with Reads _ z => [z] | _ => [] end) tr.
  Definition effect_reads (tr : list (obs R M)) : list Z := flat_map (fun e => snd (fst e)) (effects tr).
  Definition seq_call (s : mem F V) (m : M) (zs : list Z) (r : R) (s' : mem F V) : Prop := alone feq (body m) s zs = Some (r, s', []).

  Definition agrees (s s' : mem F V) : Prop := forall f, const f = true -> s f = s' f.

  (** What is known of goroutine [t] in method [m] with code [c] to come; [zs]: its readings so far. *)
  Definition thread_ok (w : mon F V R M) (A : mem F V) (pend : list Z) (tr : list (obs R M)) (t : nat) (th : option (M * code F V R)) : Prop :=
    match th with
    | None => turns t Waiting tr Waiting /\ at_lock (mo_lock w) t Before
    | Some (m, c) => exists p, ty (writes m) p c /\ at_lock (mo_lock w) t p /\
      match p with
      | Before | Pend => exists zs, turns t Waiting tr (Called m zs) /\ (early = false -> zs = []) /\
          forall s zs', agrees A s -> alone feq (body m) s (zs ++ zs') = alone feq c s zs'
      | InW => exists zs, turns t Waiting tr (Called m zs) /\ (early = false -> zs = pend) /\
          forall zs', alone feq (body m) A (zs ++ zs') = alone feq c (mo_mem w) zs'
      | InR => exists zs, turns t Waiting tr (Called m zs) /\ (early = false -> zs = []) /\
          forall zs', alone feq (body m) A (zs ++ zs') = alone feq c A zs'
      | After => exists r, c = CRet r /\ turns t Waiting tr (Effected m r)
      end
    end.

  (** Between two moments: either no method that takes the write lock takes effect, and the readings [pend] of the
      lock holder grow; or the lock holder takes effect. *)
  Definition quiet (y : list (obs R M)) : Prop := forall u m zs r, In (Takes u m zs r) y -> writes m = false /\ zs = [].
  Definition portion (pend : list Z) (y : list (obs R M)) (pend' : list Z) : Prop :=
    (quiet y /\ pend' = pend ++ reads y) \/ exists t m r, y = [Takes t m pend r] /\ writes m = true /\ pend' = [].
  Lemma portion_nil pend : portion pend [] pend.
  Proof. left. split; [intros ? ? ? ? []|symmetry; apply app_nil_r]. Qed.
  Lemma portion_seen pend e : portion pend [Seen e] pend.
  Proof. left. split; [intros ? ? ? ? [E|[]]; discriminate|symmetry; apply app_nil_r]. Qed.

  Record linv (s0 : mem F V) (t0 : Z) (w : mon F V R M) (evs : list (mevent R M)) (tr : list (obs R M)) (A : mem F V) (pend : list Z) : Prop := {
    li_seen : seen tr = evs;
    li_clock : clock_after t0 evs = mo_clock w;
    li_reads : reads_clock t0 tr;
    li_seq : one_by_one seq_call s0 (effects tr) A;
    li_mem : agrees A (mo_mem w);
    li_same : (forall t, lk_writer (mo_lock w) <> Some (t, true)) -> A = mo_mem w;
    li_pend : (forall t, lk_writer (mo_lock w) <> Some (t, true)) -> early = false -> pend = [];
    li_order : early = false -> reads tr = effect_reads tr ++ pend;
    li_alone : forall t, lk_writer (mo_lock w) = Some (t, true) -> lk_readers (mo_lock w) = [];
    li_threads : forall t th, nth_error (mo_threads w) t = Some th -> thread_ok w A pend tr t th;
    li_absent : forall t, nth_error (mo_threads w) t = None -> turns t Waiting tr Waiting /\ at_lock (mo_lock w) t Before }.

  Lemma turns_app_one t s tr s1 x s2 : turns t s tr s1 -> turn t s1 x s2 -> @turns R M t s (tr ++ [x]) s2.
  Proof. intros. econstructor; eassumption. Qed.
  Lemma seen_app (a b : list (obs R M)) : seen (a ++ b) = seen a ++ seen b.
  Proof. apply flat_map_app. Qed.
  Lemma effects_app (a b : list (obs R M)) : effects (a ++ b) = effects a ++ effects b.
  Proof. apply flat_map_app. Qed.
  Lemma reads_app (a b : list (obs R M)) : reads (a ++ b) = reads a ++ reads b.
  Proof. apply flat_map_app. Qed.
  Lemma effect_reads_app (a b : list (obs R M)) : effect_reads (a ++ b) = effect_reads a ++ effect_reads b.
  Proof. unfold effect_reads. rewrite effects_app. apply flat_map_app. Qed.

  Lemma snoc_inj {X} (l : list X) (x : X) l1 y l2 : l ++ [x] = l1 ++ y :: l2 -> (l2 = [] /\ l1 = l /\ x = y) \/ exists l3, l2 = l3 ++ [x] /\ l = l1 ++ y :: l3.
  Proof.
    intros H. destruct l2 as [|z l2] using rev_ind.
    - apply app_inj_tail in H. destruct H as [-> ->]. left. auto.
    - right. clear IHl2. rewrite app_comm_cons, app_assoc in H. apply app_inj_tail in H. destruct H as [-> ->]. exists l2. auto.
  Qed.

  Lemma reads_clock_snoc t0 tr (x : obs R M) : reads_clock t0 tr -> (forall t z, x = Reads t z -> z = clock_after t0 (seen tr)) -> reads_clock t0 (tr ++ [x]).
  Proof.
    intros H Hx tr1 t z tr2 E. apply snoc_inj in E. destruct E as [(-> & -> & E)|(l3 & -> & E)]; [eapply Hx; exact E|eapply H; exact E].
  Qed.

  (** The stage of a goroutine is not changed by what others do. *)
  Definition whose (x : obs R M) : option nat :=
    match x with Seen (MTime _) => None | Seen (MCalled t _) | Seen (MReturned t _ _) | Reads t _ | Takes t _ _ _ => Some t end.
  Lemma turns_other t s tr s1 x : turns t s tr s1 -> whose x <> Some t -> @turns R M t s (tr ++ [x]) s1.
  Proof.
    intros H Hx. econstructor; [exact H|]. destruct x as [[]| |]; cbn in Hx; constructor; congruence.
  Qed.

  Lemma thread_ok_other w w' A A' pend pend' tr x t th : thread_ok w A pend tr t th ->
    agrees A' A -> (forall p, at_lock (mo_lock w) t p -> at_lock (mo_lock w') t p) ->
    (forall u b, lk_writer (mo_lock w) = Some (u, b) -> u = t -> b = true -> A' = A /\ pend' = pend /\ mo_mem w' = mo_mem w) ->
    (In t (lk_readers (mo_lock w)) -> (forall u, lk_writer (mo_lock w) <> Some (u, true)) -> A' = A) ->
    (forall y, x = Some y -> whose y <> Some t) ->
    thread_ok w' A' pend' (tr ++ match x with Some y => [y] | None => [] end) t th.
  Proof.
    intros H Ha Hl Hw Hr Hx.
    assert (Ht : forall s, turns t Waiting tr s -> turns t Waiting (tr ++ match x with Some y => [y] | None => [] end) s).
    { intros s Hs. destruct x as [y|]; [apply turns_other; auto|rewrite app_nil_r; exact Hs]. }
    destruct th as [[m c]|]; cbn [thread_ok] in *.
    - destruct H as (p & H1 & H2 & H3). exists p. split; [exact H1|]. split; [apply Hl; exact H2|]. destruct p.
      + destruct H3 as (zs & T & E & X). exists zs. split; [auto|]. split; [exact E|]. intros s zs' Hs. apply X. intros f Hf. rewrite <- (Ha f Hf). apply Hs. exact Hf.
      + destruct H3 as (zs & T & E & X). exists zs. split; [auto|]. split; [exact E|]. intros s zs' Hs. apply X. intros f Hf. rewrite <- (Ha f Hf). apply Hs. exact Hf.
      + destruct H3 as (zs & T & E & X). destruct H2 as [H2a H2b]. destruct (Hw t true H2b eq_refl eq_refl) as (-> & -> & Em). exists zs. split; [auto|]. split; [exact E|]. rewrite Em. exact X.
      + destruct H3 as (zs & T & E & X). destruct H2 as (H2a & H2b & H2c). rewrite (Hr H2a H2c). exists zs. auto.
      + destruct H3 as (r & -> & T). exists r. auto.
    - destruct H as [T L]. auto.
  Qed.

  Lemma linv0 s0 t0 n : linv s0 t0 (mon0 s0 t0 n) [] [] s0 [].
  Proof.
    assert (Q : forall t, at_lock rwlock0 t Before) by (intros t; cbn; split; [auto|discriminate]).
    constructor; [reflexivity|reflexivity| |constructor| |intros _; reflexivity|intros _ _; reflexivity|intros _; reflexivity| | |].
    - intros tr1 t z tr2 E. destruct tr1; discriminate.
    - intros f _. reflexivity.
    - intros t _. reflexivity.
    - intros t th H. cbn in H. apply nth_error_In, repeat_spec in H. subst th. cbn. split; [constructor|apply Q].
    - intros t _. split; [constructor|apply Q].
  Qed.


  Lemma linv_step s0 t0 w evs tr A pend l w' es : linv s0 t0 w evs tr A pend -> mstep feq body w l = Some (w', es) ->
    exists tr' A' pend', linv s0 t0 w' (evs ++ es) (tr ++ tr') A' pend' /\ (early = false -> portion pend tr' pend').
  Proof.
    intros [I1 I2 I3 I4 I5 I6 I6b I7 I8 I9 I10] Hs. assert (I1' : seen tr = evs /\ True) by auto. clear I1. rename I1' into I1. destruct l as [z|t m|t]; cbn [mstep] in Hs.
    - injection Hs as <- <-. exists [Seen (MTime z)], A, pend. split; [|intros _; apply portion_seen]. constructor; cbn [mo_mem mo_lock mo_clock mo_threads]; try assumption.
      + rewrite seen_app, (proj1 I1). reflexivity.
      + unfold clock_after. rewrite fold_left_app. reflexivity.
      + apply reads_clock_snoc; [exact I3|discriminate].
      + rewrite effects_app. cbn. rewrite app_nil_r. exact I4.
      + intros E. rewrite reads_app, effect_reads_app. cbn. rewrite !app_nil_r. apply I7. exact E.
      + intros t th Ht. eapply (thread_ok_other w _ A A pend pend tr (Some (Seen (MTime z)))); cbn [mo_lock mo_mem]; [apply I9; exact Ht|intros f _; reflexivity|auto|auto|auto|]. intros y [= <-]. discriminate.
      + intros t Ht. destruct (I10 t Ht) as [T L]. split; [|exact L]. apply turns_other; [exact T|discriminate].
    - destruct (nth_error (mo_threads w) t) as [[x|]|] eqn:Et; try discriminate. injection Hs as <- <-.
      exists [Seen (MCalled t m)], A, pend. split; [|intros _; apply portion_seen]. constructor; cbn [mo_mem mo_lock mo_clock mo_threads]; try assumption.
      + rewrite seen_app, (proj1 I1). reflexivity.
      + unfold clock_after. rewrite fold_left_app. exact I2.
      + apply reads_clock_snoc; [exact I3|discriminate].
      + rewrite effects_app. cbn. rewrite app_nil_r. exact I4.
      + intros E. rewrite reads_app, effect_reads_app. cbn. rewrite !app_nil_r. apply I7. exact E.
      + intros u th Hu. rewrite nth_error_upd in Hu. destruct (Nat.eq_dec t u) as [<-|ne].
        * rewrite Et in Hu. injection Hu as <-. destruct (I9 t _ Et) as [T L]. exists Before. split; [apply typed|]. split; [exact L|].
          exists []. split; [eapply turns_app_one; [exact T|constructor]|]. split; [reflexivity|]. intros s zs' _. reflexivity.
        * eapply (thread_ok_other w _ A A pend pend tr (Some (Seen (MCalled t m)))); cbn [mo_lock mo_mem]; [apply I9; exact Hu|intros f _; reflexivity|auto|auto|auto|]. intros y [= <-] [= E]. congruence.
      + intros u Hu. rewrite nth_error_upd in Hu. destruct (Nat.eq_dec t u) as [<-|ne]; [rewrite Et in Hu; discriminate|].
        destruct (I10 u Hu) as [T L]. split; [|exact L]. apply turns_other; [exact T|]. intros [= E]. congruence.
    - destruct (nth_error (mo_threads w) t) as [[[m c]|]|] eqn:Et; try discriminate.
      pose proof (I9 t _ Et) as Hth. destruct Hth as (p & Hty & Hl & Hp).
      assert (Oth : forall (x : option (obs R M)) w1 A1 pend1 u th, nth_error (mo_threads w) u = Some th -> t <> u ->
        (forall y, x = Some y -> whose y = Some t) ->
        agrees A1 A -> (forall q, at_lock (mo_lock w) u q -> at_lock (mo_lock w1) u q) ->
        (lk_writer (mo_lock w) = Some (u, true) -> A1 = A /\ pend1 = pend /\ mo_mem w1 = mo_mem w) ->
        (In u (lk_readers (mo_lock w)) -> (forall v, lk_writer (mo_lock w) <> Some (v, true)) -> A1 = A) ->
        thread_ok w1 A1 pend1 (tr ++ match x with Some y => [y] | None => [] end) u th).
      { intros x w1 A1 pend1 u th Hu ne Hx Ha Hq Hw Hr. eapply (thread_ok_other w); [apply I9; exact Hu|exact Ha|exact Hq| |exact Hr|].
        - intros v b E -> ->. apply Hw. exact E.
        - intros y Ey. rewrite (Hx y Ey). congruence. }
      destruct c as [r|k|f k|f v k|k|k|k|k|k]; cbn [code_step] in Hs.
      + (* return *)
        injection Hs as <- <-. assert (P : p = Before /\ writes m = false \/ p = After) by (inversion Hty; assumption).
        assert (HlB : at_lock (mo_lock w) t Before) by (destruct P as [[-> _] | ->]; exact Hl).
        destruct P as [[-> Hwm] | ->].
        * destruct Hp as (zs & T & Ez & X).
          exists [Takes t m zs r; Seen (MReturned t m r)], A, pend. split; [|intros E; left; split; [intros ? ? ? ? [[= <- <- <- <-]|[?|[]]]; [split; [exact Hwm|exact (Ez E)]|discriminate]|symmetry; apply app_nil_r]]. change ([Takes t m zs r; Seen (MReturned t m r)]) with ([Takes t m zs r] ++ [Seen (MReturned t m r)]). rewrite app_assoc.
          constructor; cbn [mo_mem mo_lock mo_clock mo_threads]; try assumption.
          -- rewrite !seen_app, (proj1 I1). cbn. rewrite app_nil_r. reflexivity.
          -- unfold clock_after. rewrite fold_left_app. exact I2.
          -- apply reads_clock_snoc; [apply reads_clock_snoc; [exact I3|discriminate]|discriminate].
          -- rewrite !effects_app. cbn. rewrite app_nil_r. econstructor; [exact I4|]. unfold seq_call. rewrite <- (app_nil_r zs). rewrite X; [reflexivity|]. intros f _. reflexivity.
          -- intros E. rewrite !reads_app, !effect_reads_app. unfold effect_reads at 2 3. cbn. rewrite !app_nil_r. rewrite (Ez E), app_nil_r. apply I7. exact E.
          -- intros u th Hu. rewrite nth_error_upd in Hu. destruct (Nat.eq_dec t u) as [<-|ne].
             ++ rewrite Et in Hu. injection Hu as <-. split; [|exact HlB]. eapply turns_app_one; [eapply turns_app_one; [exact T|constructor]|constructor].
             ++ pose proof (Oth (Some (Takes t m zs r)) w A pend u th Hu ne) as X1. cbn in X1.
                assert (X2 : thread_ok w A pend (tr ++ [Takes t m zs r]) u th) by (apply X1; try auto; [intros y [= <-]; reflexivity|intros ? _; reflexivity]).
                eapply (thread_ok_other w _ A A pend pend _ (Some (Seen (MReturned t m r)))); cbn [mo_lock mo_mem]; [exact X2|intros f _; reflexivity|auto|auto|auto|]. intros y [= <-] [= E]. congruence.
          -- intros u Hu. rewrite nth_error_upd in Hu. destruct (Nat.eq_dec t u) as [<-|ne]; [rewrite Et in Hu; discriminate|].
             destruct (I10 u Hu) as [T' L]. split; [|exact L]. apply turns_other; [apply turns_other; [exact T'|]|]; cbn; congruence.
        * destruct Hp as (r' & Er & T). injection Er as <-.
          exists [Seen (MReturned t m r)], A, pend. split; [|intros _; apply portion_seen]. constructor; cbn [mo_mem mo_lock mo_clock mo_threads]; try assumption.
          -- rewrite seen_app, (proj1 I1). reflexivity.
          -- unfold clock_after. rewrite fold_left_app. exact I2.
          -- apply reads_clock_snoc; [exact I3|discriminate].
          -- rewrite effects_app. cbn. rewrite app_nil_r. exact I4.
          -- intros E. rewrite reads_app, effect_reads_app. cbn. rewrite !app_nil_r. apply I7. exact E.
          -- intros u th Hu. rewrite nth_error_upd in Hu. destruct (Nat.eq_dec t u) as [<-|ne].
             ++ rewrite Et in Hu. injection Hu as <-. split; [|exact HlB]. eapply turns_app_one; [exact T|constructor].
             ++ eapply (Oth (Some (Seen (MReturned t m r)))); try eassumption; cbn [mo_lock mo_mem]; try auto; [intros y [= <-]; reflexivity|intros ? _; reflexivity].
          -- intros u Hu. rewrite nth_error_upd in Hu. destruct (Nat.eq_dec t u) as [<-|ne]; [rewrite Et in Hu; discriminate|].
             destruct (I10 u Hu) as [T' L]. split; [|exact L]. apply turns_other; [exact T'|]. cbn. congruence.
      + (* clock *)
        injection Hs as <- <-. inversion Hty as [|? ? Hc Hk| | | | | | |]; subst.
        set (z := mo_clock w).
        exists [Reads t z], A, (match p with InW => pend ++ [z] | _ => pend end). split; [|intros E; left; split; [intros ? ? ? ? [?|[]]; discriminate|destruct p; cbn in Hc; try congruence; try contradiction; reflexivity]].
        constructor; cbn [mo_mem mo_lock mo_clock mo_threads]; try assumption.
        -- rewrite seen_app, (proj1 I1). cbn. rewrite app_nil_r. reflexivity.
        -- rewrite app_nil_r. exact I2.
        -- apply reads_clock_snoc; [exact I3|]. intros ? ? [= <- <-]. rewrite (proj1 I1), I2. reflexivity.
        -- rewrite effects_app. cbn. rewrite app_nil_r. exact I4.
        -- intros Nw E. destruct p; try (apply I6b; assumption). exfalso. destruct Hl as [_ Hl]. exact (Nw t Hl).
        -- intros E. rewrite reads_app, effect_reads_app, (I7 E). cbn. rewrite app_nil_r. destruct p; cbn in Hc; try congruence; try contradiction. rewrite app_assoc. reflexivity.
        -- intros u th Hu. rewrite nth_error_upd in Hu. destruct (Nat.eq_dec t u) as [<-|ne].
           ++ rewrite Et in Hu. injection Hu as <-. exists p. split; [apply Hk|]. split; [exact Hl|]. destruct p; cbn in Hc; try contradiction.
              ** destruct Hp as (zs & T & Ez & X). exists (zs ++ [z]). split; [eapply turns_app_one; [exact T|constructor]|]. split; [congruence|].
                 intros s zs' Ha. rewrite <- app_assoc. rewrite X by exact Ha. reflexivity.
              ** destruct Hp as (zs & T & Ez & X). exists (zs ++ [z]). split; [eapply turns_app_one; [exact T|constructor]|]. split; [intros E; rewrite (Ez E); reflexivity|].
                 intros zs'. rewrite <- app_assoc. rewrite X. reflexivity.
              ** destruct Hp as (zs & T & Ez & X). exists (zs ++ [z]). split; [eapply turns_app_one; [exact T|constructor]|]. split; [congruence|].
                 intros zs'. rewrite <- app_assoc. rewrite X. reflexivity.
           ++ eapply (Oth (Some (Reads t z))); try eassumption; cbn [mo_lock mo_mem]; try auto; [intros y [= <-]; reflexivity|intros ? _; reflexivity|].
              intros E. destruct p; try (split; [|split]; reflexivity). exfalso. destruct Hl as [_ Hl]. congruence.
        -- intros u Hu. rewrite nth_error_upd in Hu. destruct (Nat.eq_dec t u) as [<-|ne]; [rewrite Et in Hu; discriminate|].
           destruct (I10 u Hu) as [T' L]. split; [|exact L]. apply turns_other; [exact T'|]. cbn. congruence.
      + (* get *)
        injection Hs as <- <-. inversion Hty as [| |? ? ? Hc Hk| | | | | |]; subst.
        exists [], A, pend. rewrite !app_nil_r. split; [|intros _; apply portion_nil].
        constructor; cbn [mo_mem mo_lock mo_clock mo_threads]; try assumption; [exact (proj1 I1)| |].
        -- intros u th Hu. rewrite nth_error_upd in Hu. destruct (Nat.eq_dec t u) as [<-|ne].
           ++ rewrite Et in Hu. injection Hu as <-. exists p. split; [apply Hk|]. split; [exact Hl|]. destruct p; cbn in Hc; try contradiction.
              ** destruct Hp as (zs & T & Ez & X). exists zs. split; [exact T|]. split; [exact Ez|]. intros s zs' Ha. rewrite (X s zs' Ha). cbn [alone]. rewrite <- (I5 f Hc), (Ha f Hc). reflexivity.
              ** destruct Hp as (zs & T & Ez & X). exists zs. split; [exact T|]. split; [exact Ez|]. exact X.
              ** destruct Hp as (zs & T & Ez & X). exists zs. split; [exact T|]. split; [exact Ez|]. destruct Hl as (_ & _ & Hl). rewrite <- (I6 Hl). exact X.
           ++ pose proof (Oth None (Mon (mo_mem w) (mo_lock w) (mo_clock w) (upd t (Some (m, k (mo_mem w f))) (mo_threads w))) A pend u th Hu ne) as X. rewrite app_nil_r in X. apply X; cbn [mo_lock mo_mem]; try auto; [discriminate|intros ? _; reflexivity].
        -- intros u Hu. rewrite nth_error_upd in Hu. destruct (Nat.eq_dec t u) as [<-|ne]; [rewrite Et in Hu; discriminate|]. apply I10. exact Hu.
      + (* set *)
        injection Hs as <- <-. inversion Hty as [| | |? ? ? Hc Hk| | | | |]; subst. destruct Hl as [Hl1 Hl2].
        exists [], A, pend. rewrite !app_nil_r. split; [|intros _; apply portion_nil].
        constructor; cbn [mo_mem mo_lock mo_clock mo_threads]; try assumption; [exact (proj1 I1)| | | |].
        -- intros g Hg. unfold store_at. destruct (feq f g) as [->|_]; [congruence|]. apply I5. exact Hg.
        -- intros Nw. exfalso. exact (Nw t Hl2).
        -- intros u th Hu. rewrite nth_error_upd in Hu. destruct (Nat.eq_dec t u) as [<-|ne].
           ++ rewrite Et in Hu. injection Hu as <-. exists InW. split; [exact Hk|]. split; [split; assumption|]. exact Hp.
           ++ pose proof (Oth None (Mon (store_at feq (mo_mem w) f v) (mo_lock w) (mo_clock w) (upd t (Some (m, k)) (mo_threads w))) A pend u th Hu ne) as X. rewrite app_nil_r in X. apply X; cbn [mo_lock mo_mem]; try auto; [discriminate|intros ? _; reflexivity|].
              intros E. rewrite Hl2 in E. congruence.
        -- intros u Hu. rewrite nth_error_upd in Hu. destruct (Nat.eq_dec t u) as [<-|ne]; [rewrite Et in Hu; discriminate|]. apply I10. exact Hu.
      + (* announce *)
        unfold lk_announce in Hs. destruct (lk_writer (mo_lock w)) as [|] eqn:Ew; [discriminate|]. injection Hs as <- <-.
        inversion Hty as [| | | |? Hwm Hk| | | |]; subst. destruct Hl as [Hl1 Hl2].
        exists [], A, pend. rewrite !app_nil_r. split; [|intros _; apply portion_nil].
        constructor; cbn [mo_mem mo_lock mo_clock mo_threads lk_writer lk_readers]; try assumption; try reflexivity; try exact (proj1 I1).
        -- intros Nw. apply I6. congruence.
        -- intros Nw. apply I6b. congruence.
        -- intros u E. congruence.
        -- intros u th Hu. rewrite nth_error_upd in Hu. destruct (Nat.eq_dec t u) as [<-|ne].
           ++ rewrite Et in Hu. injection Hu as <-. exists Pend. split; [exact Hk|]. split; [split; [exact Hl1|reflexivity]|]. exact Hp.
           ++ pose proof (Oth None (Mon (mo_mem w) (RWLock (lk_readers (mo_lock w)) (Some (t, false))) (mo_clock w) (upd t (Some (m, k)) (mo_threads w))) A pend u th Hu ne) as X. rewrite app_nil_r in X. apply X; cbn [mo_lock mo_mem]; try auto; [discriminate|intros ? _; reflexivity|].
              intros q Hq. unfold at_lock in *. cbn [lk_readers lk_writer] in *. rewrite Ew in Hq. destruct q; repeat match goal with H : _ /\ _ |- _ => destruct H end; repeat split; try assumption; try congruence.
        -- intros u Hu. rewrite nth_error_upd in Hu. destruct (Nat.eq_dec t u) as [<-|ne]; [rewrite Et in Hu; discriminate|].
           destruct (I10 u Hu) as [T' L]. split; [exact T'|]. destruct L as [L1 L2]. split; [exact L1|]. cbn. congruence.
      + (* acquire *)
        unfold lk_acquire in Hs. destruct (lk_writer (mo_lock w)) as [[u0 [|]]|] eqn:Ew; try discriminate. destruct (lk_readers (mo_lock w)) as [|] eqn:Er; [|discriminate].
        destruct (Nat.eqb_spec u0 t) as [->|_]; [|discriminate]. injection Hs as <- <-.
        inversion Hty as [| | | | |? Hk| | |]; subst.
        assert (EA : A = mo_mem w) by (apply I6; congruence).
        exists [], A, pend. rewrite !app_nil_r. split; [|intros _; apply portion_nil].
        constructor; cbn [mo_mem mo_lock mo_clock mo_threads lk_writer lk_readers]; try assumption; try reflexivity; try exact (proj1 I1).
        -- intros _. exact EA.
        -- intros Nw. exfalso. exact (Nw t eq_refl).
        -- intros u th Hu. rewrite nth_error_upd in Hu. destruct (Nat.eq_dec t u) as [<-|ne].
           ++ rewrite Et in Hu. injection Hu as <-. exists InW. split; [exact Hk|]. split; [split; reflexivity|]. destruct Hp as (zs & T & Ez & X). exists zs. split; [exact T|].
              split; [intros E; rewrite (Ez E); symmetry; apply I6b; [congruence|exact E]|]. intros zs'. rewrite <- EA. apply X. intros f _. reflexivity.
           ++ pose proof (Oth None (Mon (mo_mem w) (RWLock [] (Some (t, true))) (mo_clock w) (upd t (Some (m, k)) (mo_threads w))) A pend u th Hu ne) as X. rewrite app_nil_r in X. apply X; cbn [mo_lock mo_mem]; try auto; [discriminate|intros ? _; reflexivity|].
              intros q Hq. unfold at_lock in *. cbn [lk_readers lk_writer] in *. rewrite Ew, Er in Hq. destruct q; repeat match goal with H : _ /\ _ |- _ => destruct H end; repeat split; try assumption; try congruence; try contradiction.
        -- intros u Hu. rewrite nth_error_upd in Hu. destruct (Nat.eq_dec t u) as [<-|ne]; [rewrite Et in Hu; discriminate|].
           destruct (I10 u Hu) as [T' L]. split; [exact T'|]. split; [auto|]. cbn. congruence.
      + (* unlock *)
        injection Hs as <- <-. inversion Hty as [| | | | | |? Hwm Hk| |]; subst. destruct Hl as [Hl1 Hl2].
        destruct (ty_after _ _ Hk) as [r ->]. destruct Hp as (zs & T & Ez & X).
        exists [Takes t m zs r], (mo_mem w), []. split; [|intros E; right; exists t, m, r; rewrite (Ez E); auto].
        constructor; cbn [mo_mem mo_lock mo_clock mo_threads lk_writer lk_readers lk_unlock]; try assumption; try (intros; reflexivity).
        -- rewrite seen_app, (proj1 I1). reflexivity.
        -- rewrite app_nil_r. exact I2.
        -- apply reads_clock_snoc; [exact I3|discriminate].
        -- rewrite effects_app. econstructor; [exact I4|]. unfold seq_call. specialize (X []). rewrite app_nil_r in X. exact X.
        -- intros f _. reflexivity.
        -- intros E. rewrite reads_app, effect_reads_app, (I7 E), (Ez E). cbn. rewrite !app_nil_r. reflexivity.
        -- discriminate.
        -- intros u th Hu. rewrite nth_error_upd in Hu. destruct (Nat.eq_dec t u) as [<-|ne].
           ++ rewrite Et in Hu. injection Hu as <-. exists After. split; [exact Hk|]. split; [split; [cbn; rewrite Hl1; auto|discriminate]|]. exists r. split; [reflexivity|]. eapply turns_app_one; [exact T|constructor].
           ++ eapply (Oth (Some (Takes t m zs r))); try eassumption; cbn [mo_lock mo_mem]; [intros y [= <-]; reflexivity|intros f Hf; symmetry; apply I5; exact Hf| | |].
              ** intros q Hq. unfold at_lock in *. cbn [lk_unlock lk_readers lk_writer] in *. rewrite Hl2, Hl1 in Hq. rewrite Hl1. destruct q; repeat match goal with H : _ /\ _ |- _ => destruct H end; repeat split; try assumption; try congruence; try contradiction.
              ** intros E. rewrite Hl2 in E. congruence.
              ** rewrite Hl1. intros [].
        -- intros u Hu. rewrite nth_error_upd in Hu. destruct (Nat.eq_dec t u) as [<-|ne]; [rewrite Et in Hu; discriminate|].
           destruct (I10 u Hu) as [T' L]. split; [apply turns_other; [exact T'|cbn; congruence]|]. destruct L as [L1 L2]. split; [exact L1|]. cbn. discriminate.
      + (* rlock *)
        unfold lk_rlock in Hs. destruct (lk_writer (mo_lock w)) as [|] eqn:Ew; [discriminate|]. injection Hs as <- <-.
        inversion Hty as [| | | | | | |? Hwm Hk|]; subst. destruct Hl as [Hl1 Hl2].
        exists [], A, pend. rewrite !app_nil_r. split; [|intros _; apply portion_nil].
        constructor; cbn [mo_mem mo_lock mo_clock mo_threads lk_writer lk_readers]; try assumption; try reflexivity; try exact (proj1 I1).
        -- discriminate.
        -- intros u th Hu. rewrite nth_error_upd in Hu. destruct (Nat.eq_dec t u) as [<-|ne].
           ++ rewrite Et in Hu. injection Hu as <-. exists InR. split; [exact Hk|]. split; [split; [left; reflexivity|split; discriminate]|].
              destruct Hp as (zs & T & Ez & X). exists zs. split; [exact T|]. split; [exact Ez|]. intros zs'. apply X. intros f _. reflexivity.
           ++ pose proof (Oth None (Mon (mo_mem w) (RWLock (t :: lk_readers (mo_lock w)) None) (mo_clock w) (upd t (Some (m, k)) (mo_threads w))) A pend u th Hu ne) as X. rewrite app_nil_r in X. apply X; cbn [mo_lock mo_mem]; try auto; [discriminate|intros ? _; reflexivity|].
              intros q Hq. unfold at_lock in *. cbn [lk_readers lk_writer In] in *. rewrite Ew in Hq. destruct q; repeat match goal with H : _ /\ _ |- _ => destruct H end; repeat split; try assumption; try congruence; try (intros [E|E]; congruence); auto.
        -- intros u Hu. rewrite nth_error_upd in Hu. destruct (Nat.eq_dec t u) as [<-|ne]; [rewrite Et in Hu; discriminate|].
           destruct (I10 u Hu) as [T' L]. split; [exact T'|]. destruct L as [L1 L2]. split; [|cbn; discriminate]. cbn. intros [E|E]; [congruence|auto].
      + (* runlock *)
        injection Hs as <- <-. inversion Hty as [| | | | | | | |? Hwm Hk]; subst. destruct Hl as (Hl1 & Hl2 & Hl3).
        destruct (ty_after _ _ Hk) as [r ->]. destruct Hp as (zs & T & Ez & X).
        exists [Takes t m zs r], A, pend. split; [|intros E; left; split; [intros ? ? ? ? [[= <- <- <- <-]|[]]; split; [exact Hwm|exact (Ez E)]|symmetry; apply app_nil_r]].
        constructor; cbn [mo_mem mo_lock mo_clock mo_threads lk_writer lk_readers lk_runlock]; try assumption; try reflexivity.
        -- rewrite seen_app, (proj1 I1). reflexivity.
        -- rewrite app_nil_r. exact I2.
        -- apply reads_clock_snoc; [exact I3|discriminate].
        -- rewrite effects_app. econstructor; [exact I4|]. unfold seq_call. specialize (X []). rewrite app_nil_r in X. exact X.
        -- intros E. rewrite reads_app, effect_reads_app, (I7 E), (Ez E). cbn. rewrite !app_nil_r. reflexivity.
        -- intros u E. rewrite (I8 u E). reflexivity.
        -- intros u th Hu. rewrite nth_error_upd in Hu. destruct (Nat.eq_dec t u) as [<-|ne].
           ++ rewrite Et in Hu. injection Hu as <-. exists After. split; [exact Hk|]. split; [split; [cbn; apply remove_In|exact Hl2]|]. exists r. split; [reflexivity|]. eapply turns_app_one; [exact T|constructor].
           ++ eapply (Oth (Some (Takes t m zs r))); try eassumption; cbn [mo_lock mo_mem]; [intros y [= <-]; reflexivity|intros f Hf; reflexivity| |auto|auto].
              intros q Hq. unfold at_lock in *. cbn [lk_runlock lk_readers lk_writer] in *.
              assert (NI : ~ In u (lk_readers (mo_lock w)) -> ~ In u (remove Nat.eq_dec t (lk_readers (mo_lock w)))) by (intros Y Z; apply in_remove in Z; tauto).
              destruct q; repeat match goal with H : _ /\ _ |- _ => destruct H end; repeat split; auto.
              ** match goal with H : lk_readers _ = [] |- _ => rewrite H; reflexivity end.
              ** apply in_in_remove; [congruence|assumption].
        -- intros u Hu. rewrite nth_error_upd in Hu. destruct (Nat.eq_dec t u) as [<-|ne]; [rewrite Et in Hu; discriminate|].
           destruct (I10 u Hu) as [T' L]. split; [apply turns_other; [exact T'|cbn; congruence]|]. destruct L as [L1 L2]. split; [|exact L2]. cbn. intros Z. apply in_remove in Z. tauto.
  Qed.

  Lemma linv_exec s0 t0 n sched : exists tr A pend, linv s0 t0 (fst (mon_exec feq body s0 t0 n sched)) (snd (mon_exec feq body s0 t0 n sched)) tr A pend.
  Proof.
    unfold mon_exec. refine (exec_inv (mstep feq body) (fun w evs => exists tr A pend, linv s0 t0 w evs tr A pend) _ sched _ [] _).
    - intros w l w' es evs (tr & A & pend & H) Hs. destruct (linv_step _ _ _ _ _ _ _ _ _ _ H Hs) as (tr' & A' & pend' & H' & _). eauto.
    - exists [], s0, []. apply linv0.
  Qed.
End lin.
