(** No races, no deadlock, calls return; stretches of a history. *)
From Verif Require Import Common Threads MonitorModel MonitorSpec MonitorProofs.

Section runs.
  Context {F V R M : Type}.
  Variable feq : forall f g : F, {f = g} + {f <> g}.
  Variable body : M -> code F V R.
  Variable const : F -> bool.
  Variable early : bool.
  Variable writes : M -> bool.
  Hypothesis typed : forall m, ty const early (writes m) Before (body m).
  Notation linv := (linv feq body const early writes).
  Notation step := (mstep feq body).

  Lemma no_race s0 t0 w evs tr A pend : linv s0 t0 w evs tr A pend -> ~ race w.
  Proof.
    intros I (t & u & f & a & b & ne & Ht & Hu & Hab).
    assert (G : forall t u f b, t <> u -> about_to w t = Some (f, true) -> about_to w u = Some (f, b) -> False).
    { clear t u f a b ne Ht Hu Hab. intros t u f b ne Ht Hu. unfold about_to in *.
      destruct (nth_error (mo_threads w) t) as [[[m c]|]|] eqn:Et; try discriminate. destruct c; try discriminate. injection Ht as ->.
      destruct (nth_error (mo_threads w) u) as [[[m' c']|]|] eqn:Eu; try discriminate.
      destruct (li_threads _ _ _ _ _ _ _ _ _ _ _ _ I t _ Et) as (p & Hty & Hl & _).
      destruct (li_threads _ _ _ _ _ _ _ _ _ _ _ _ I u _ Eu) as (q & Hty' & Hl' & _).
      inversion Hty as [| | |? ? ? Hc Hk| | | | |]; subst. destruct Hl as [L1 L2].
      destruct c'; try discriminate; injection Hu as -> <-.
      - inversion Hty' as [| |? ? ? Hg Hk'| | | | | |]; subst. destruct q; cbn in Hg, Hl'; try contradiction; [congruence| |].
        + destruct Hl' as [_ L3]. congruence.
        + destruct Hl' as [L3 _]. rewrite L1 in L3. destruct L3.
      - inversion Hty' as [| | |? ? ? Hc' Hk'| | | | |]; subst. destruct Hl' as [_ L3]. congruence. }
    destruct Hab as [-> | ->]; [eapply G; [exact ne|exact Ht|exact Hu]|eapply G; [|exact Hu|exact Ht]; congruence].
  Qed.

  Lemma can_move s0 t0 w evs tr A pend t : linv s0 t0 w evs tr A pend -> in_call w t -> exists u, (u < length (mo_threads w))%nat /\ step w (MGo u) <> None.
  Proof.
    intros I [[m c] Et].
    assert (T := fun u th => li_threads _ _ _ _ _ _ _ _ _ _ _ _ I u th). assert (Ab := fun u => li_absent _ _ _ _ _ _ _ _ _ _ _ _ I u).
    assert (Lt : forall u x, nth_error (mo_threads w) u = Some x -> (u < length (mo_threads w))%nat) by (intros u x Hu; apply nth_error_Some; congruence).
    (* a goroutine that has the lock is in a call *)
    assert (W : forall u b, lk_writer (mo_lock w) = Some (u, b) -> exists m' c', nth_error (mo_threads w) u = Some (Some (m', c')) /\ ty const early (writes m') (if b then InW else Pend) c').
    { intros u b E. destruct (nth_error (mo_threads w) u) as [[[m' c']|]|] eqn:Eu.
      - destruct (T u _ Eu) as (p & Hty & Hl & _). exists m', c'. split; [reflexivity|].
        destruct p; cbn in Hl; [destruct Hl as [_ Hl]; exfalso; exact (Hl b E)|destruct Hl as [_ Hl]|destruct Hl as [_ Hl]|destruct Hl as (_ & Hl & _); exfalso; exact (Hl b E)|destruct Hl as [_ Hl]; exfalso; exact (Hl b E)];
        rewrite E in Hl; injection Hl as ->; exact Hty.
      - destruct (T u _ Eu) as [_ [_ L]]. exfalso. exact (L b E).
      - destruct (Ab u Eu) as [_ [_ L]]. exfalso. exact (L b E). }
    assert (Rd : forall u, In u (lk_readers (mo_lock w)) -> exists m' c', nth_error (mo_threads w) u = Some (Some (m', c')) /\ (ty const early (writes m') InR c' \/ lk_readers (mo_lock w) = [])).
    { intros u E. destruct (nth_error (mo_threads w) u) as [[[m' c']|]|] eqn:Eu.
      - destruct (T u _ Eu) as (p & Hty & Hl & _). exists m', c'. split; [reflexivity|].
        destruct p; cbn in Hl; [exfalso; exact (proj1 Hl E)|exfalso; exact (proj1 Hl E)|right; exact (proj1 Hl)|left; exact Hty|exfalso; exact (proj1 Hl E)].
      - destruct (T u _ Eu) as [_ [L _]]. exfalso. exact (L E).
      - destruct (Ab u Eu) as [_ [L _]]. exfalso. exact (L E). }
    destruct (lk_writer (mo_lock w)) as [[u [|]]|] eqn:Ew.
    - destruct (W u true eq_refl) as (m' & c' & Eu & Hty). exists u. split; [eapply Lt; exact Eu|]. cbn [mstep]. rewrite Eu.
      inversion Hty as [? ? X|? ? X|? ? ? X| | | |? X| |]; subst; cbn; try discriminate.
    - destruct (lk_readers (mo_lock w)) as [|v rest] eqn:Er.
      + destruct (W u false eq_refl) as (m' & c' & Eu & Hty). exists u. split; [eapply Lt; exact Eu|]. cbn [mstep]. rewrite Eu.
        inversion Hty as [? ? X|? ? X|? ? ? X| | | |? X| |]; subst; cbn; try discriminate; try contradiction.
        unfold lk_acquire. rewrite Ew, Er, Nat.eqb_refl. discriminate.
      + destruct (Rd v (or_introl eq_refl)) as (m' & c' & Ev & [Hty|X]); [|discriminate]. exists v. split; [eapply Lt; exact Ev|]. cbn [mstep]. rewrite Ev.
        inversion Hty as [? ? X|? ? X|? ? ? X| | | |? X| |]; subst; cbn; try discriminate.
    - exists t. split; [eapply Lt; exact Et|]. cbn [mstep]. rewrite Et. destruct c; cbn; try discriminate.
      + unfold lk_announce. rewrite Ew. discriminate.
      + destruct (T t _ Et) as (p & Hty & Hl & _). inversion Hty; subst. destruct Hl as [_ Hl]. congruence.
      + unfold lk_rlock. rewrite Ew. discriminate.
  Qed.

  (** ** Calls return *)
  Inductive smaller : code F V R -> code F V R -> Prop :=
  | sm_clock k z : smaller (k z) (CClock k)
  | sm_get f k v : smaller (k v) (CGet f k)
  | sm_set f v k : smaller k (CSet f v k)
  | sm_announce k : smaller k (CAnnounce k)
  | sm_acquire k : smaller k (CAcquire k)
  | sm_unlock k : smaller k (CUnlock k)
  | sm_rlock k : smaller k (CRLock k)
  | sm_runlock k : smaller k (CRUnlock k).
  Lemma smaller_wf c : Acc smaller c.
  Proof. induction c; constructor; intros y Hy; inversion Hy; subst; auto. Qed.
  Inductive closer : option (M * code F V R) -> option (M * code F V R) -> Prop :=
  | cl_done m c : closer None (Some (m, c))
  | cl_step m c c' : smaller c' c -> closer (Some (m, c')) (Some (m, c)).
  Lemma closer_wf x : Acc closer x.
  Proof.
    assert (N : Acc closer None) by (constructor; intros y Hy; inversion Hy).
    destruct x as [[m c]|]; [|exact N]. induction (smaller_wf c) as [c _ IH]. constructor. intros y Hy. inversion Hy; subst; [exact N|auto].
  Qed.
  Definition advance (l' l : list (option (M * code F V R))) : Prop := exists i x y, nth_error l i = Some x /\ closer y x /\ l' = upd i y l.
  Lemma advance_wf l : Acc advance l.
  Proof.
    induction l as [|x l IH]; [constructor; intros y (i & a & b & H & _); destruct i; discriminate|].
    revert l IH. induction (closer_wf x) as [x _ IHx]. intros l H. induction H as [l Hl IHl].
    constructor. intros l' (i & a & b & E & C & ->). destruct i as [|i]; cbn in E |- *.
    - injection E as ->. apply IHx; [exact C|constructor; exact Hl].
    - apply IHl. exists i, a, b. auto.
  Qed.

  Lemma go_advances w t w' es : step w (MGo t) = Some (w', es) -> advance (mo_threads w') (mo_threads w).
  Proof.
    cbn [mstep]. destruct (nth_error (mo_threads w) t) as [[[m c]|]|] eqn:Et; try discriminate. intros Hs.
    assert (G : forall s x c', code_step feq t (mo_clock w) (mo_mem w) (mo_lock w) c = Some (s, x, c') -> smaller c' c).
    { intros s x c' Hc. destruct c; cbn in Hc; try discriminate; try (injection Hc as _ _ <-; constructor).
      - destruct (lk_announce _ _); [|discriminate]. injection Hc as _ _ <-. constructor.
      - destruct (lk_acquire _ _); [|discriminate]. injection Hc as _ _ <-. constructor.
      - destruct (lk_rlock _ _); [|discriminate]. injection Hc as _ _ <-. constructor. }
    assert (D : (exists r, c = CRet r) \/ exists s x c', code_step feq t (mo_clock w) (mo_mem w) (mo_lock w) c = Some (s, x, c') /\ mo_threads w' = upd t (Some (m, c')) (mo_threads w)).
    { destruct c as [r| | | | | | | |]; [left; eexists; reflexivity|right..];
      (destruct (code_step _ _ _ _ _ _) as [[[s x] c']|]; [|discriminate]; injection Hs as <- _; eexists _, _, _; split; reflexivity). }
    destruct D as [[r ->]|(s & x & c' & Ec & ->)].
    - injection Hs as <- _. exists t, (Some (m, CRet r)), None. split; [exact Et|]. split; [apply cl_done|reflexivity].
    - exists t, (Some (m, c)), (Some (m, c')). split; [exact Et|]. split; [apply cl_step; eapply G; exact Ec|reflexivity].
  Qed.

  (** The machine after the first [k] labels. *)
  Definition after (w : mon F V R M) (sched : nat -> mlabel M) (k : nat) : mon F V R M := fst (exec step w (first k sched)).
  Lemma after_S w sched k : after w sched (S k) = match step (after w sched k) (sched k) with Some (w', _) => w' | None => after w sched k end.
  Proof.
    unfold after, first. rewrite seq_S, map_app, exec_app. cbn [map Nat.add plus].
    destruct (exec step w (map sched (seq 0 k))) as [w1 e1]. cbn [exec fst]. destruct (step w1 (sched k)) as [[w2 e2]|]; reflexivity.
  Qed.

  Lemma linv_from s0 t0 sched : forall w evs tr A pend, linv s0 t0 w evs tr A pend ->
    exists tr' A' pend', linv s0 t0 (fst (exec step w sched)) (evs ++ snd (exec step w sched)) (tr ++ tr') A' pend'.
  Proof.
    induction sched as [|l sched IH]; intros w evs tr A pend I; cbn [exec].
    - exists [], A, pend. rewrite !app_nil_r. exact I.
    - destruct (step w l) as [[w1 es]|] eqn:Es; [|apply IH with (1 := I)].
      destruct (linv_step feq body const early writes typed _ _ _ _ _ _ _ _ _ _ I Es) as (tr1 & A1 & p1 & I1 & _).
      destruct (IH _ _ _ _ _ I1) as (tr2 & A2 & p2 & I2). destruct (exec step w1 sched) as [w2 es2]. cbn [fst snd] in *.
      exists (tr1 ++ tr2), A2, p2. rewrite !app_assoc. exact I2.
  Qed.

  Lemma step_length w l w' es : step w l = Some (w', es) -> length (mo_threads w') = length (mo_threads w).
  Proof.
    destruct l as [z|t m|t]; cbn [mstep].
    - intros [= <- _]. reflexivity.
    - destruct (nth_error (mo_threads w) t) as [[|]|]; try discriminate. intros [= <- _]. apply upd_length.
    - intros H. apply go_advances in H. destruct H as (i & x & y & _ & _ & ->). apply upd_length.
  Qed.
  Lemma after_length w sched k : length (mo_threads (after w sched k)) = length (mo_threads w).
  Proof.
    induction k as [|k IH]; [reflexivity|]. rewrite after_S. destruct (step (after w sched k) (sched k)) as [[w' es]|] eqn:E; [|exact IH].
    rewrite (step_length _ _ _ _ E). exact IH.
  Qed.

  Definition same_but_clock (w w' : mon F V R M) : Prop := mo_lock w = mo_lock w' /\ mo_threads w = mo_threads w'.
  Lemma go_same w w' u : same_but_clock w w' -> step w (MGo u) <> None -> step w' (MGo u) <> None.
  Proof.
    intros [E1 E2]. cbn [mstep]. rewrite <- E2. destruct (nth_error (mo_threads w) u) as [[[m c]|]|]; try congruence.
    destruct c; cbn; rewrite <- ?E1; try discriminate.
    - destruct (lk_announce u (mo_lock w)); congruence.
    - destruct (lk_acquire u (mo_lock w)); congruence.
    - destruct (lk_rlock u (mo_lock w)); congruence.
  Qed.

  (** From moment [i] to [i + d], where a goroutine that could move at [i] gets its turn, some goroutine moves. *)
  Lemma someone_moves w sched u : (forall i, no_call (sched i)) -> forall d i w0, same_but_clock w0 (after w sched i) -> step w0 (MGo u) <> None ->
    sched (i + d)%nat = MGo u -> exists j, advance (mo_threads (after w sched j)) (mo_threads w0).
  Proof.
    intros NC. induction d as [|d IH]; intros i w0 Sm En Hs.
    - rewrite Nat.add_0_r in Hs. exists (S i). rewrite after_S, Hs. pose proof (go_same _ _ _ Sm En) as En'.
      destruct (step (after w sched i) (MGo u)) as [[w' es]|] eqn:E; [|congruence]. apply go_advances in E. rewrite (proj2 Sm). exact E.
    - pose proof (NC i) as Ni. destruct (sched i) as [z|t m|t] eqn:El; [|destruct Ni|].
      + apply (IH (S i)); [|exact En|rewrite <- plus_n_Sm in Hs; exact Hs]. rewrite after_S, El. cbn [mstep]. exact Sm.
      + destruct (step (after w sched i) (MGo t)) as [[w' es]|] eqn:E.
        * exists (S i). rewrite after_S, El, E. apply go_advances in E. rewrite (proj2 Sm). exact E.
        * apply (IH (S i)); [|exact En|rewrite <- plus_n_Sm in Hs; exact Hs]. rewrite after_S, El, E. exact Sm.
  Qed.

  Lemma idle_dec (w : mon F V R M) : (exists t, in_call w t) \/ forall t, ~ in_call w t.
  Proof.
    unfold in_call. induction (mo_threads w) as [|[x|] l IH].
    - right. intros t [x H]. destruct t; discriminate.
    - left. exists O, x. reflexivity.
    - destruct IH as [[t [x H]]|H]; [left; exists (S t), x; exact H|right]. intros [|t] [x Hx]; [discriminate|]. exact (H t (ex_intro _ x Hx)).
  Qed.

  Lemma calls_return s0 t0 w evs tr A pend sched : linv s0 t0 w evs tr A pend ->
    (forall i, no_call (sched i)) -> fair (length (mo_threads w)) sched -> exists k, forall t, ~ in_call (after w sched k) t.
  Proof.
    intros I NC Fr.
    assert (G : forall l, Acc advance l -> forall i, mo_threads (after w sched i) = l -> exists k, forall t, ~ in_call (after w sched k) t).
    { intros l H. induction H as [l _ IH]. intros i El. destruct (idle_dec (after w sched i)) as [[t Ht]|H]; [|exists i; exact H].
      destruct (linv_from s0 t0 (first i sched) _ _ _ _ _ I) as (tr' & A' & p' & I'). fold (after w sched i) in I'.
      destruct (can_move _ _ _ _ _ _ _ _ I' Ht) as (u & Lu & Mu). rewrite after_length in Lu.
      destruct (Fr u i Lu) as (j & Lj & Ej). replace j with (i + (j - i))%nat in Ej by lia.
      destruct (someone_moves w sched u NC _ i (after w sched i) (conj eq_refl eq_refl) Mu Ej) as (k & Hk). rewrite El in Hk.
      exact (IH _ Hk k eq_refl). }
    exact (G _ (advance_wf _) 0%nat eq_refl).
  Qed.

  (** ** Stretches of a history *)
  Notation reads := (@reads R M). Notation seen := (@seen R M). Notation effects := (@effects R M).
  (** Calls that take the write lock, in the order in which they have it. *)
  Definition sections (y : list (obs R M)) : list (M * list Z * R) := filter (fun e => writes (fst (fst e))) (effects y).
  Definition readings (l : list (M * list Z * R)) : list Z := flat_map (fun e => snd (fst e)) l.
  Definition chunk (pend : list Z) (y : list (obs R M)) (pend' : list Z) : Prop :=
    (sections y = [] /\ pend' = pend ++ reads y) \/
    exists m p r rest, sections y = (m, pend ++ p, r) :: rest /\ reads y = p ++ readings rest ++ pend'.

  Lemma sections_app a b : sections (a ++ b) = sections a ++ sections b.
  Proof. unfold sections. rewrite effects_app. apply filter_app. Qed.
  Lemma readings_app a b : readings (a ++ b) = readings a ++ readings b.
  Proof. apply flat_map_app. Qed.
  Lemma quiet_sections y : quiet writes y -> sections y = [].
  Proof.
    unfold sections, quiet. induction y as [|x y IH]; intros H; [reflexivity|].
    assert (IH' : filter (fun e => writes (fst (fst e))) (effects y) = []) by (apply IH; intros u m zs r Hi; eapply H; right; exact Hi).
    destruct x as [e|t z|t m zs r]; cbn; [exact IH'|exact IH'|]. destruct (H t m zs r (or_introl eq_refl)) as [-> _]. exact IH'.
  Qed.
  Lemma chunk_portion pend y p1 y' p2 : chunk pend y p1 -> portion writes p1 y' p2 -> chunk pend (y ++ y') p2.
  Proof.
    unfold chunk. rewrite sections_app, reads_app. intros [[E1 E2]|(m & p & r & rest & E1 & E2)] [[Q E3]|(t & m' & r' & -> & Hw & ->)].
    - left. rewrite E1, (quiet_sections _ Q), E3, E2. split; [reflexivity|]. rewrite app_assoc. reflexivity.
    - right. exists m', (reads y), r', []. rewrite E1. unfold sections. cbn. rewrite Hw, E2, app_nil_r. auto.
    - right. exists m, p, r, rest. rewrite E1, (quiet_sections _ Q), E3, E2, !app_nil_r, !app_assoc. auto.
    - right. exists m, p, r, (rest ++ [(m', p1, r')]). rewrite E1. unfold sections. cbn. rewrite Hw, E2, readings_app. cbn. rewrite !app_nil_r. auto.
  Qed.
  Lemma linv_chunk s0 t0 sched : early = false -> forall w evs tr y A pend p0, linv s0 t0 w evs (tr ++ y) A pend -> chunk p0 y pend ->
    exists y' A' pend', linv s0 t0 (fst (exec step w sched)) (evs ++ snd (exec step w sched)) (tr ++ y ++ y') A' pend' /\ chunk p0 (y ++ y') pend'.
  Proof.
    intros Ee. induction sched as [|l sched IH]; intros w evs tr y A pend p0 I C; cbn [exec].
    - exists [], A, pend. rewrite !app_nil_r. auto.
    - destruct (step w l) as [[w1 es]|] eqn:Es; [|apply IH with (1 := I); exact C].
      destruct (linv_step feq body const early writes typed _ _ _ _ _ _ _ _ _ _ I Es) as (tr1 & A1 & p1 & I1 & P1). rewrite <- app_assoc in I1.
      destruct (IH _ _ _ _ _ _ p0 I1 (chunk_portion _ _ _ _ _ C (P1 Ee))) as (y2 & A2 & p2 & I2 & C2). destruct (exec step w1 sched) as [w2 es2]. cbn [fst snd] in *.
      exists (tr1 ++ y2), A2, p2. rewrite !app_assoc in *. auto.
  Qed.

  (** ** Calls that start and return in a stretch *)
  Definition next (t : nat) (s : stage R M) (x : obs R M) : stage R M :=
    match x with
    | Seen (MTime _) => s
    | Seen (MCalled u m) => if Nat.eq_dec u t then Called m [] else s
    | Seen (MReturned u _ _) => if Nat.eq_dec u t then Waiting else s
    | Reads u z => if Nat.eq_dec u t then match s with Called m zs => Called m (zs ++ [z]) | _ => s end else s
    | Takes u m _ r => if Nat.eq_dec u t then Effected m r else s
    end.
  Lemma turn_next t s x s' : turn t s x s' -> s' = next t s x.
  Proof. intros H. inversion H; subst; cbn; try (destruct (Nat.eq_dec t t); congruence); try (destruct (Nat.eq_dec u t); congruence). Qed.
  Lemma turns_split t a b : forall s s2, @turns R M t s (a ++ b) s2 -> exists s1, turns t s a s1 /\ turns t s1 b s2.
  Proof.
    induction b as [|x b IH] using rev_ind; intros s s2 H; [exists s2; rewrite app_nil_r in H; split; [exact H|constructor]|].
    rewrite app_assoc in H. inversion H as [? E1 E2 E3|? tr' s1 x' ? H1 H2 E1 E2 E3]; subst.
    - destruct (a ++ b); discriminate.
    - apply app_inj_tail in E2. destruct E2 as [-> ->]. destruct (IH _ _ H1) as (s3 & H3 & H4). exists s3. split; [exact H3|]. econstructor; eassumption.
  Qed.
  Lemma turns_one t s x s2 : @turns R M t s [x] s2 -> turn t s x s2.
  Proof.
    intros H. inversion H as [? E1 E2 E3|? tr' s1 x' ? H1 H2 E1 E2 E3]; subst. destruct tr' as [|y tr']; [|destruct tr'; discriminate].
    injection E2 as ->. remember [] as l eqn:El in H1. destruct H1 as [|s tr2 s3 x3 s4 H3 H4]; [exact H2|destruct tr2; discriminate].
  Qed.

  Lemma NoDup_remove_nat u l : NoDup l -> NoDup (remove Nat.eq_dec u l).
  Proof. induction 1 as [|v l Nv N IH]; cbn; [constructor|]. destruct (Nat.eq_dec u v); [exact IH|]. constructor; [intros H; apply in_remove in H; tauto|exact IH]. Qed.
  Lemma count_remove (f : nat -> bool) u l : NoDup l -> In u l -> count f l = (if f u then 1 else 0) + count f (remove Nat.eq_dec u l).
  Proof.
    induction l as [|v l IH]; intros N I; [destruct I|]. inversion N as [|? ? Nv N']; subst. cbn [remove]. destruct (Nat.eq_dec u v) as [<-|ne].
    - cbn [count]. rewrite notin_remove by exact Nv. reflexivity.
    - destruct I as [->|I]; [congruence|]. cbn [count]. rewrite (IH N' I). lia.
  Qed.

  (** The stretch [y], before which goroutines are in stages [st] and the clock shows [c]. *)
  Lemma finished_count (P : M * R -> bool) (ok : Z -> bool) y : forall (st : nat -> stage R M) open c,
    (forall t, exists s, turns t (st t) y s) -> NoDup open ->
    (forall t, In t open -> st t <> Waiting /\ forall m zs, st t = Called m zs -> forallb ok zs = true) ->
    ok c = true -> (forall z, In (MTime z) (seen y) -> ok z = true) -> reads_clock c y ->
    count P (finished_from open (seen y)) <=
      count (fun e => P (fst (fst e), snd e) && forallb ok (snd (fst e))) (effects y) +
      count (fun t => match st t with Effected m r => P (m, r) | _ => false end) open.
  Proof.
    induction y as [|x y IH]; intros st open c Ht ND Ho Hc Hz Hr.
    - cbn. apply count_nonneg.
    - assert (Turn : forall t, turn t (st t) x (next t (st t) x)).
      { intros t. destruct (Ht t) as [s Hs]. change (x :: y) with ([x] ++ y) in Hs. apply turns_split in Hs. destruct Hs as (s1 & H1 & _).
        apply turns_one in H1. rewrite <- (turn_next _ _ _ _ H1). exact H1. }
      assert (Ht' : forall t, exists s, turns t (next t (st t) x) y s).
      { intros t. destruct (Ht t) as [s Hs]. change (x :: y) with ([x] ++ y) in Hs. apply turns_split in Hs. destruct Hs as (s1 & H1 & H2).
        apply turns_one in H1. rewrite <- (turn_next _ _ _ _ H1). exists s. exact H2. }
      set (c' := match x with Seen (MTime z) => z | _ => c end).
      assert (Hc' : ok c' = true) by (unfold c'; destruct x as [[z| |]| |]; try exact Hc; apply Hz; left; reflexivity).
      assert (Hz' : forall z, In (MTime z) (seen y) -> ok z = true) by (intros z Hi; apply Hz; destruct x as [e| |]; [right|..]; exact Hi).
      assert (Hr' : reads_clock c' y).
      { intros y1 t z y2 E. specialize (Hr (x :: y1) t z y2). rewrite E in Hr. specialize (Hr eq_refl). rewrite Hr. unfold c'. destruct x as [[]| |]; reflexivity. }
      specialize (IH (fun t => next t (st t) x)).
      (* goroutines that [x] is not about *)
      assert (Oth : forall t, whose x <> Some t -> next t (st t) x = st t).
      { intros t Hn. destruct x as [[z|u m|u m r]|u z|u m zs r]; cbn in Hn |- *; try reflexivity; destruct (Nat.eq_dec u t); congruence. }
      assert (Same : forall l, (forall t, In t l -> whose x <> Some t) ->
        count (fun t => match next t (st t) x with Effected m r => P (m, r) | _ => false end) l = count (fun t => match st t with Effected m r => P (m, r) | _ => false end) l).
      { intros l Hl. apply count_ext. intros t Hi. rewrite (Oth t (Hl t Hi)). reflexivity. }
      destruct x as [[z|u m|u m r]|u z|u m zs r]; cbn [MonitorSpec.seen MonitorSpec.effects flat_map app finished_from] in *.
      + specialize (IH open c' Ht' ND). cbn [next] in IH. apply IH; auto.
      + pose proof (Turn u) as Tu. assert (Nu : ~ In u open).
        { intros Hi. destruct (Ho u Hi) as [Hw _]. inversion Tu; congruence. }
        specialize (IH (u :: open) c' Ht' (NoDup_cons _ Nu ND)). cbn [count] in IH. rewrite (Same open) in IH by (intros t Hi [= ->]; exact (Nu Hi)).
        replace (match next u (st u) (Seen (MCalled u m)) with Effected m r => P (m, r) | _ => false end) with false in IH by (cbn; destruct (Nat.eq_dec u u); congruence).
        cbn iota in IH. rewrite Z.add_0_l in IH. apply IH; auto.
        intros t [<-|Hi]; [cbn; destruct (Nat.eq_dec u u); [split; [discriminate|intros ? ? [= _ <-]; reflexivity]|congruence]|].
        rewrite Oth by (intros [= ->]; exact (Nu Hi)). apply Ho. exact Hi.
      + pose proof (Turn u) as Tu. assert (Su : st u = Effected m r) by (inversion Tu; congruence).
        destruct (in_dec Nat.eq_dec u open) as [Hi|Nu].
        * rewrite (count_remove _ u open ND Hi), Su. cbn [count].
          assert (ND' : NoDup (remove Nat.eq_dec u open)) by (apply NoDup_remove_nat; exact ND).
          specialize (IH (remove Nat.eq_dec u open) c' Ht' ND').
          rewrite Same in IH by (intros t Ht2 [= ->]; exact (remove_In _ _ _ Ht2)).
          assert (X : count P (finished_from (remove Nat.eq_dec u open) (seen y)) <= count (fun e => P (fst (fst e), snd e) && forallb ok (snd (fst e))) (effects y) + count (fun t => match st t with Effected m r => P (m, r) | _ => false end) (remove Nat.eq_dec u open)).
          { apply IH; auto. intros t Ht2. rewrite Oth by (intros [= ->]; exact (remove_In _ _ _ Ht2)). apply Ho. apply in_remove in Ht2. tauto. }
          cbn beta iota in X |- *. unfold MonitorSpec.seen, MonitorSpec.effects in *. lia.
        * specialize (IH open c' Ht' ND). rewrite Same in IH by (intros t Hi [= ->]; exact (Nu Hi)). apply IH; auto.
          intros t Hi. rewrite Oth by (intros [= ->]; exact (Nu Hi)). apply Ho. exact Hi.
      + pose proof (Turn u) as Tu. assert (Su : exists m zs, st u = Called m zs) by (inversion Tu; subst; [eauto|congruence]). destruct Su as (m & zs & Su).
        specialize (IH open c' Ht' ND).
        assert (Ez : ok z = true) by (rewrite (Hr [] u z y eq_refl); exact Hc).
        replace (count (fun t => match st t with Effected m r => P (m, r) | _ => false end) open) with (count (fun t => match next t (st t) (Reads u z) with Effected m r => P (m, r) | _ => false end) open).
        * apply IH; auto. intros t Hi. destruct (Nat.eq_dec u t) as [<-|ne].
          -- cbn. destruct (Nat.eq_dec u u); [|congruence]. rewrite Su. split; [discriminate|]. intros ? ? [= <- <-]. rewrite forallb_app. cbn. rewrite Ez. destruct (Ho u Hi) as [_ X]. rewrite (X _ _ Su). reflexivity.
          -- rewrite Oth by (intros [= ->]; congruence). apply Ho. exact Hi.
        * apply count_ext. intros t _. destruct (Nat.eq_dec u t) as [<-|ne]; [|rewrite Oth by (intros [= ->]; congruence); reflexivity]. cbn. destruct (Nat.eq_dec u u); [|congruence]. rewrite Su. reflexivity.
      + pose proof (Turn u) as Tu. assert (Su : st u = Called m zs) by (inversion Tu; congruence).
        specialize (IH open c' Ht' ND). cbn [count fst snd].
        assert (X : count P (finished_from open (seen y)) <= count (fun e => P (fst (fst e), snd e) && forallb ok (snd (fst e))) (effects y) + count (fun t => match next t (st t) (Takes u m zs r) with Effected m r => P (m, r) | _ => false end) open).
        { apply IH; auto. intros t Hi. destruct (Nat.eq_dec u t) as [<-|ne]; [cbn; destruct (Nat.eq_dec u u); [split; discriminate|congruence]|]. rewrite Oth by (intros [= ->]; congruence). apply Ho. exact Hi. }
        destruct (in_dec Nat.eq_dec u open) as [Hi|Nu].
        * rewrite (count_remove _ u open ND Hi) in X. rewrite (count_remove _ u open ND Hi). rewrite Su. rewrite Same in X by (intros t Ht2 [= ->]; exact (remove_In _ _ _ Ht2)).
          replace (match next u (st u) (Takes u m zs r) with Effected m r => P (m, r) | _ => false end) with (P (m, r)) in X by (cbn; destruct (Nat.eq_dec u u); congruence).
          destruct (Ho u Hi) as [_ Y]. rewrite (Y _ _ Su), andb_true_r. cbn beta iota in X |- *. unfold MonitorSpec.seen, MonitorSpec.effects in *. lia.
        * rewrite Same in X by (intros t Hi [= ->]; exact (Nu Hi)). unfold MonitorSpec.seen, MonitorSpec.effects in *. destruct (P (m, r) && forallb ok zs); lia.
  Qed.

  (** ** The clock *)
  Definition times (evs : list (mevent R M)) : list Z := flat_map (fun e => match e with MTime z => [z] | _ => [] end) evs.
  Lemma times_app a b : times (a ++ b) = times a ++ times b.
  Proof. apply flat_map_app. Qed.
  Lemma times_ticks sched : forall w, times (snd (exec step w sched)) = ticks sched.
  Proof.
    induction sched as [|l sched IH]; intros w; [reflexivity|]. cbn [exec]. destruct (step w l) as [[w' es]|] eqn:E.
    - specialize (IH w'). destruct (exec step w' sched) as [w2 es2]. cbn [snd] in *. rewrite times_app, IH. destruct l as [z|t m|t]; cbn [mstep] in E.
      + injection E as <- <-. reflexivity.
      + destruct (nth_error (mo_threads w) t) as [[|]|]; try discriminate. injection E as <- <-. reflexivity.
      + destruct (nth_error (mo_threads w) t) as [[[m c]|]|]; try discriminate.
        assert (X : times es = []) by (destruct c; try (injection E as <- <-; reflexivity); destruct (code_step _ _ _ _ _ _) as [[[? ?] ?]|]; try discriminate; injection E as <- <-; reflexivity).
        rewrite X. reflexivity.
    - rewrite IH. destruct l; cbn [mstep] in E; [discriminate|reflexivity|reflexivity].
  Qed.
  Lemma in_times z evs : In (MTime z) evs -> In z (times evs).
  Proof. intros H. apply in_flat_map. exists (MTime z). split; [exact H|left; reflexivity]. Qed.
  Lemma clock_last t0 evs : clock_after t0 evs = last (times evs) t0.
  Proof.
    unfold clock_after. revert t0. induction evs as [|e evs IH]; intros t0; [reflexivity|]. cbn [fold_left]. rewrite IH.
    destruct e as [z| |]; try reflexivity. cbn [times flat_map app]. fold (times evs). destruct (times evs) as [|y l]; [reflexivity|]. cbn [last]. clear. revert y. induction l as [|x l IH]; intros y; [reflexivity|]. cbn [last]. destruct l; [reflexivity|apply (IH x)].
  Qed.
  Lemma clock_after_app t0 a b : @clock_after R M t0 (a ++ b) = clock_after (clock_after t0 a) b.
  Proof. apply fold_left_app. Qed.
  Lemma nondecreasing_snoc l (z : Z) : nondecreasing l -> Forall (fun y => y <= z) l -> nondecreasing (l ++ [z]).
  Proof.
    induction l as [|x l IH]; cbn; [auto|]. intros [H1 H2] H3. inversion H3; subst. split; [apply Forall_app; split; [exact H1|constructor; [assumption|constructor]]|]. apply IH; assumption.
  Qed.
  Lemma clock_bound t0 evs : nondecreasing (t0 :: times evs) -> Forall (fun y => y <= clock_after t0 evs) (t0 :: times evs).
  Proof.
    revert t0. induction evs as [|e evs IH]; intros t0 H; [constructor; [cbn; lia|constructor]|].
    destruct e as [z| |]; [|apply IH; exact H|apply IH; exact H]. cbn [times flat_map app] in H. fold (times evs) in H. change (clock_after t0 (MTime z :: evs)) with (clock_after z evs).
    destruct H as [H1 H2]. specialize (IH z H2). change (times (MTime z :: evs)) with (z :: times evs). constructor; [|exact IH].
    inversion IH; inversion H1; subst. lia.
  Qed.
  Lemma last_in (l : list Z) d : l <> [] -> In (last l d) l.
  Proof. induction l as [|x l IH]; [congruence|]. intros _. cbn. destruct l; [left; reflexivity|right; apply IH; discriminate]. Qed.
  Lemma reads_sorted c y : reads_clock c y -> nondecreasing (c :: times (seen y)) ->
    nondecreasing (c :: reads y) /\ Forall (fun z => z <= clock_after c (seen y)) (c :: reads y).
  Proof.
    induction y as [|x y IH] using rev_ind; intros Hr Hn.
    - split; [cbn; auto|constructor; [cbn; lia|constructor]].
    - assert (Hr' : reads_clock c y) by (intros y1 t z y2 ->; apply (Hr y1 t z (y2 ++ [x])); rewrite <- app_assoc; reflexivity).
      rewrite seen_app, times_app in Hn. rewrite seen_app, clock_after_app, reads_app.
      assert (Hn' : nondecreasing (c :: times (seen y))) by (exact (proj1 (nondecreasing_app (c :: times (seen y)) _ Hn))).
      destruct (IH Hr' Hn') as [I1 I2]. destruct x as [[z|u m|u m r]|u z|u m zs r]; cbn [MonitorProofs.reads MonitorSpec.seen flat_map app] in *; rewrite ?app_nil_r in *; auto.
      + split; [exact I1|]. change (clock_after (clock_after c (seen y)) [MTime z]) with z.
        assert (L : clock_after c (seen y) <= z).
        { rewrite clock_last. apply (nondecreasing_app_le (c :: times (seen y)) [z]); [exact Hn| |left; reflexivity].
          destruct (times (seen y)) as [|a l] eqn:E; [left; reflexivity|]. right. apply last_in. discriminate. }
        eapply Forall_impl; [|exact I2]. cbn. intros; lia.
      + specialize (Hr y u z [] eq_refl). split.
        * apply (nondecreasing_snoc (c :: reads y) z); [exact I1|]. rewrite Hr. exact I2.
        * change (clock_after (clock_after c (seen y)) []) with (clock_after c (seen y)). change (c :: reads y ++ [z]) with ((c :: reads y) ++ [z]). apply Forall_app. split; [exact I2|]. constructor; [lia|constructor].
  Qed.
  Lemma reads_clock_split c a b : reads_clock c (a ++ b) -> reads_clock c a /\ reads_clock (clock_after c (seen a)) b.
  Proof.
    intros H. split.
    - intros y1 t z y2 ->. apply (H y1 t z (y2 ++ b)). rewrite <- app_assoc. reflexivity.
    - intros y1 t z y2 ->. rewrite (H (a ++ y1) t z y2); [|rewrite <- app_assoc; reflexivity]. rewrite seen_app. apply clock_after_app.
  Qed.

  (** ** A moment and what follows *)
  Lemma mo_clock_last s0 t0 w evs tr A pend : linv s0 t0 w evs tr A pend -> mo_clock w = last (times evs) t0.
  Proof. intros I. rewrite <- (li_clock _ _ _ _ _ _ _ _ _ _ _ _ I). apply clock_last. Qed.

  Lemma each_once_linv s0 t0 w evs tr A pend : linv s0 t0 w evs tr A pend -> each_once tr.
  Proof.
    intros I t. destruct (nth_error (mo_threads w) t) as [th|] eqn:Et.
    - pose proof (li_threads _ _ _ _ _ _ _ _ _ _ _ _ I t th Et) as H. destruct th as [[m c]|]; cbn [thread_ok] in H.
      + destruct H as (p & _ & _ & H). destruct p; destruct H as (? & H); try (destruct H as [H _]; eexists; exact H). destruct H as [_ H]. eexists; exact H.
      + destruct H as [H _]. eexists; exact H.
    - destruct (li_absent _ _ _ _ _ _ _ _ _ _ _ _ I t Et) as [H _]. eexists; exact H.
  Qed.

  Lemma stages t s s1 y : @turns R M t s y s1 -> s1 = fold_left (next t) y s.
  Proof. intros H. induction H as [|s y s1 x s2 H1 IH H2]; [reflexivity|]. rewrite fold_left_app. cbn. rewrite <- IH. apply turn_next. exact H2. Qed.

  Lemma stretch s0 t0 w evs tr A p sched : linv s0 t0 w evs tr A p -> let r := exec step w sched in
    exists y A' p', linv s0 t0 (fst r) (evs ++ snd r) (tr ++ y) A' p' /\
      (early = false -> chunk p y p') /\ reads_clock (mo_clock w) y /\ seen y = snd r /\
      forall P ok, ok (mo_clock w) = true -> Forall (fun z => ok z = true) (ticks sched) ->
        count P (finished (snd r)) <= count (fun e => P (fst (fst e), snd e) && forallb ok (snd (fst e))) (effects y).
  Proof.
    intros I r.
    assert (X : exists y A' p', linv s0 t0 (fst r) (evs ++ snd r) (tr ++ y) A' p' /\ (early = false -> chunk p y p')).
    { destruct (Bool.bool_dec early false) as [Ee|Ee].
      - destruct (linv_chunk s0 t0 sched Ee w evs tr [] A p p) as (y & A2 & p2 & I2 & C); [rewrite app_nil_r; exact I|left; split; [reflexivity|symmetry; apply app_nil_r]|].
        exists y, A2, p2. split; [exact I2|intros _; exact C].
      - destruct (linv_from s0 t0 sched _ _ _ _ _ I) as (y & A2 & p2 & I2). exists y, A2, p2. split; [exact I2|contradiction]. }
    destruct X as (y & A2 & p2 & I2 & C). exists y, A2, p2.
    assert (Sn : seen y = snd r).
    { pose proof (li_seen _ _ _ _ _ _ _ _ _ _ _ _ I2) as E. rewrite seen_app, (li_seen _ _ _ _ _ _ _ _ _ _ _ _ I) in E. apply app_inv_head in E. exact E. }
    assert (Ck : clock_after t0 (seen tr) = mo_clock w) by (rewrite (li_seen _ _ _ _ _ _ _ _ _ _ _ _ I); exact (li_clock _ _ _ _ _ _ _ _ _ _ _ _ I)).
    assert (Rc : reads_clock (mo_clock w) y) by (rewrite <- Ck; exact (proj2 (reads_clock_split _ _ _ (li_reads _ _ _ _ _ _ _ _ _ _ _ _ I2)))).
    split; [exact I2|]. split; [exact C|]. split; [exact Rc|]. split; [exact Sn|].
    intros P ok Ok1 Ok2. rewrite <- Sn.
    pose (st := fun t => fold_left (next t) tr Waiting).
    pose proof (finished_count P ok y st [] (mo_clock w)) as Fc. cbn [count] in Fc. rewrite Z.add_0_r in Fc. apply Fc.
    - intros t. destruct (each_once_linv _ _ _ _ _ _ _ I2 t) as [s E]. destruct (turns_split _ _ _ _ _ E) as (s1 & E1 & E2).
      exists s. unfold st. rewrite <- (stages _ _ _ _ E1). exact E2.
    - constructor.
    - intros t [].
    - exact Ok1.
    - intros z Hz. rewrite Sn in Hz. apply in_times in Hz. unfold r in Hz. rewrite times_ticks in Hz. rewrite Forall_forall in Ok2. apply Ok2. exact Hz.
    - exact Rc.
  Qed.

  Lemma clock_of s0 t0 n sched : mo_clock (fst (mon_exec feq body s0 t0 n sched)) = last (ticks sched) t0.
  Proof.
    destruct (linv_exec feq body const early writes typed s0 t0 n sched) as (tr & A & p & I).
    rewrite (mo_clock_last _ _ _ _ _ _ _ I). unfold mon_exec. rewrite times_ticks. reflexivity.
  Qed.

  (** ** Moments without calls *)
  Lemma idle_waiting s0 t0 w evs tr A p : linv s0 t0 w evs tr A p -> (forall t, ~ in_call w t) ->
    (forall t, turns t Waiting tr Waiting) /\ A = mo_mem w.
  Proof.
    intros I Id. assert (G : forall t, turns t Waiting tr Waiting /\ at_lock (mo_lock w) t Before).
    { intros t. destruct (nth_error (mo_threads w) t) as [[x|]|] eqn:Et.
      - exfalso. apply (Id t). exists x. exact Et.
      - exact (li_threads _ _ _ _ _ _ _ _ _ _ _ _ I t _ Et).
      - exact (li_absent _ _ _ _ _ _ _ _ _ _ _ _ I t Et). }
    split; [intros t; apply G|]. apply (li_same _ _ _ _ _ _ _ _ _ _ _ _ I). intros t. apply (proj2 (proj2 (G t))).
  Qed.
  Lemma taken_called t y : forall s, turns t Waiting y s ->
    (forall m, (exists zs, s = Called m zs) \/ (exists r, s = Effected m r) -> In (MCalled t m) (seen y)) /\
    forall m zs r, In (Takes t m zs r) y -> In (MCalled t m) (seen y).
  Proof.
    induction y as [|x y IH] using rev_ind; intros s H.
    - split; [|intros ? ? ? []]. assert (s = Waiting) by (rewrite (stages _ _ _ _ H); reflexivity). subst s. intros m [[? E]|[? E]]; discriminate.
    - destruct (turns_split _ _ _ _ _ H) as (s1 & H1 & H2). destruct (IH _ H1) as [I1 I2]. apply turns_one in H2. rewrite seen_app. split.
      + intros m Hm. apply in_or_app. inversion H2; subst; try (left; apply I1; exact Hm).
        * right. left. destruct Hm as [[? [= -> _]]|[? Hm]]; [reflexivity|discriminate].
        * left. apply I1. left. destruct Hm as [[? [= -> _]]|[? Hm]]; [eexists; reflexivity|discriminate].
        * left. apply I1. left. destruct Hm as [[? Hm]|[? [= -> _]]]; [discriminate|eexists; reflexivity].
        * destruct Hm as [[? Hm]|[? Hm]]; discriminate.
      + intros m zs r Hi. apply in_or_app. left. apply in_app_or in Hi. destruct Hi as [Hi|[->|[]]]; [eapply I2; exact Hi|]. apply I1. left. inversion H2; subst; [eexists; reflexivity|congruence].
  Qed.
  Lemma called_sched t m sched : forall w, In (MCalled t m) (snd (exec step w sched)) -> In (MCall t m) sched.
  Proof.
    induction sched as [|l sched IH]; intros w H; [destruct H|]. cbn [exec] in H. destruct (step w l) as [[w' es]|] eqn:E; [|right; exact (IH _ H)].
    specialize (IH w'). destruct (exec step w' sched) as [w2 es2]. cbn [snd] in *. apply in_app_or in H. destruct H as [H|H]; [left|right; exact (IH H)].
    destruct l as [z|u m'|u]; cbn [mstep] in E.
    - injection E as <- <-. destruct H as [H|[]]. discriminate.
    - destruct (nth_error (mo_threads w) u) as [[|]|]; try discriminate. injection E as <- <-. destruct H as [[= -> ->]|[]]. reflexivity.
    - exfalso. destruct (nth_error (mo_threads w) u) as [[[m' c]|]|]; try discriminate.
      destruct c; try (destruct (code_step _ _ _ _ _ _) as [[[? ?] ?]|]; [|discriminate]; injection E as <- <-; destruct H); injection E as <- <-; destruct H as [H|[]]; discriminate.
  Qed.
  (** Methods that take effect after a moment without calls are called after it. *)
  Lemma later_effects s0 t0 w evs tr A p sched y A' p' : linv s0 t0 w evs tr A p -> (forall t, ~ in_call w t) ->
    linv s0 t0 (fst (exec step w sched)) (evs ++ snd (exec step w sched)) (tr ++ y) A' p' ->
    forall m zs r, In (m, zs, r) (effects y) -> exists t, In (MCall t m) sched.
  Proof.
    intros I Id I2 m zs r Hi. destruct (idle_waiting _ _ _ _ _ _ _ I Id) as [Wt _].
    apply in_flat_map in Hi. destruct Hi as (x & Hx & Hi). destruct x as [e|t z|t m' zs' r']; try (destruct Hi; fail). destruct Hi as [[= -> -> ->]|[]].
    exists t. apply (called_sched t m sched w).
    assert (Sn : seen y = snd (exec step w sched)).
    { pose proof (li_seen _ _ _ _ _ _ _ _ _ _ _ _ I2) as E. rewrite seen_app, (li_seen _ _ _ _ _ _ _ _ _ _ _ _ I) in E. apply app_inv_head in E. exact E. }
    rewrite <- Sn. destruct (each_once_linv _ _ _ _ _ _ _ I2 t) as [s E]. destruct (turns_split _ _ _ _ _ E) as (s1 & E1 & E2).
    assert (s1 = Waiting) by (rewrite (stages _ _ _ _ E1); symmetry; exact (stages _ _ _ _ (Wt t))). subst s1.
    exact (proj2 (taken_called t y s E2) m zs r Hx).
  Qed.
End runs.

(** ** Calls one after the other *)
Section obo.
  Context {R M S T : Type}.
  Lemma obo_app (one : S -> M -> list Z -> R -> S -> Prop) l1 l2 : forall s s2, one_by_one one s (l1 ++ l2) s2 <-> exists s1, one_by_one one s l1 s1 /\ one_by_one one s1 l2 s2.
  Proof.
    induction l2 as [|x l2 IH] using rev_ind; intros s s2; split.
    - rewrite app_nil_r. intros H. exists s2. split; [exact H|constructor].
    - intros (s1 & H1 & H2). rewrite app_nil_r. remember [] as l eqn:El in H2. destruct H2 as [|s1 l s3 m zs r s4 _ _]; [exact H1|destruct l; discriminate].
    - rewrite app_assoc. remember ((l1 ++ l2) ++ [x]) as l eqn:El. intros H. destruct H as [s|s l s3 m zs r s4 H1 H2]; [destruct (l1 ++ l2); discriminate|].
      apply app_inj_tail in El. destruct El as [-> <-]. apply IH in H1. destruct H1 as (s5 & H5 & H6). exists s5. split; [exact H5|]. econstructor; eassumption.
    - intros (s1 & H1 & H2). remember (l2 ++ [x]) as l eqn:El. destruct H2 as [s1|s1 l s3 m zs r s4 H3 H4]; [destruct l2; discriminate|].
      apply app_inj_tail in El. destruct El as [-> <-]. rewrite app_assoc. econstructor; [|exact H4]. apply IH. eauto.
  Qed.
  Lemma obo_cons (one : S -> M -> list Z -> R -> S -> Prop) m zs r l s s2 : one_by_one one s ((m, zs, r) :: l) s2 <-> exists s1, one s m zs r s1 /\ one_by_one one s1 l s2.
  Proof.
    change ((m, zs, r) :: l) with ([(m, zs, r)] ++ l). rewrite obo_app. split; intros (s1 & H1 & H2); exists s1; (split; [|exact H2]).
    - remember [(m, zs, r)] as x eqn:E. destruct H1 as [|s l' s3 m' zs' r' s4 H3 H4]; [discriminate|]. destruct l' as [|? l']; [|destruct l'; discriminate]. injection E as -> -> ->.
      remember [] as e eqn:Ee in H3. destruct H3 as [|? l0]; [exact H4|destruct l0; discriminate].
    - change [(m, zs, r)] with ([] ++ [(m, zs, r)]). econstructor; [constructor|exact H1].
  Qed.
  Lemma obo_nil (one : S -> M -> list Z -> R -> S -> Prop) s s2 : one_by_one one s [] s2 -> s2 = s.
  Proof. intros H. remember [] as e eqn:Ee. destruct H as [|? l0]; [reflexivity|destruct l0; discriminate]. Qed.
  Lemma obo_map (one : S -> M -> list Z -> R -> S -> Prop) (two : T -> M -> list Z -> R -> T -> Prop) (abs : S -> T) (Inv : S -> Prop) :
    (forall s m zs r s', Inv s -> one s m zs r s' -> Inv s' /\ two (abs s) m zs r (abs s')) ->
    forall s l s', one_by_one one s l s' -> Inv s -> Inv s' /\ one_by_one two (abs s) l (abs s').
  Proof.
    intros H s l s' Ho Hi. induction Ho as [s|s l s1 m zs r s2 H1 IH H2]; [split; [exact Hi|constructor]|].
    destruct (IH Hi) as [I1 I2]. destruct (H _ _ _ _ _ I1 H2) as [I3 I4]. split; [exact I3|]. econstructor; eassumption.
  Qed.
End obo.
