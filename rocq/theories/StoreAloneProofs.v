(** A call that no other call overlaps is the call of the sequential model. *)
From Verif Require Import Common Bytes Threads StoreModel StoreConcModel StoreConcSpec StoreConcProofs StoreConcFresh StoreAloneSpec.
Local Open Scope string_scope.
Local Open Scope list_scope.

(** ** Clock readings *)
Lemma reads_app zs1 zs2 l1 l2 : clock_reads zs1 l1 -> clock_reads zs2 l2 -> clock_reads (zs1 ++ zs2) (l1 ++ l2).
Proof.
  intros H1 H2. induction H1 as [zs|z zs l H IH|z zs l H IH]; cbn.
  - induction zs as [|z zs IH]; [exact H2|]. apply reads_later. exact IH.
  - apply reads_now. exact IH.
  - apply reads_later. exact IH.
Qed.
Lemma last_cons {A} (x y : A) l : last (x :: l) y = last l x.
Proof. revert x y. induction l as [|z l IH]; intros x y; [reflexivity|]. change (last (z :: l) y = last (z :: l) x). rewrite !IH. reflexivity. Qed.
Lemma reads_seq z zs1 zs2 l1 l2 : clock_reads (z :: zs1) l1 -> clock_reads (last zs1 z :: zs2) l2 -> clock_reads (z :: zs1 ++ zs2) (l1 ++ l2).
Proof.
  revert z l1. induction zs1 as [|z1 zs1 IH]; intros z l1 H1 H2.
  - cbn in H2 |- *. remember [z] as zz. induction H1 as [zs|y zs l H1' IH1|y zs l H1' IH1].
    + exact H2.
    + injection Heqzz as -> ->. cbn. apply reads_now. apply IH1. reflexivity.
    + injection Heqzz as -> ->. inversion H1'; subst. exact H2.
  - rewrite last_cons in H2. remember (z :: z1 :: zs1) as zz eqn:E. induction H1 as [zs|y zs l H1' IH1|y zs l H1' IH1].
    + subst zs. apply reads_later. apply (IH z1 []); [constructor|exact H2].
    + injection E as -> ->. cbn [app]. apply reads_now. apply IH1. reflexivity.
    + injection E as -> ->. apply reads_later. apply (IH z1); [exact H1'|exact H2].
Qed.
Lemma reads_sub z zs l : clock_reads (z :: zs) l -> forall y, clock_reads (y :: z :: zs) l.
Proof. intros H y. apply reads_later. exact H. Qed.

Section alone.
  Context {V : Type} (ok : nat -> bool) (ord : nat -> list (string * string) -> list (string * string)).
  Notation per := (redis_persister ok ord).

  (** What goroutine [t] does when it is the only one; the clock shows these values. *)
  Definition conf : Type := node V * redis * list (instr V) * regs V.
  Inductive goes (t : nat) : list Z -> conf -> conf -> Prop :=
  | goes_nil c : goes t [] c c
  | goes_cons now zs n r i rest g n' r' new g' c : istep ok ord t now n r g i = Some (n', r', new, g') ->
      goes t zs (n', r', new ++ rest, g') c -> goes t (now :: zs) (n, r, i :: rest, g) c.

  Lemma goes_split t zs p1 : forall n r p2 g n2 r2 q g2,
    goes t zs (n, r, p1 ++ p2, g) (n2, r2, q, g2) -> (length q <= length p2)%nat ->
    exists zs1 zs2 n1 r1 g1, zs = zs1 ++ zs2 /\ goes t zs1 (n, r, p1, g) (n1, r1, [], g1) /\ goes t zs2 (n1, r1, p2, g1) (n2, r2, q, g2).
  Proof.
    revert p1. induction zs as [|z zs IH]; intros p1 n r p2 g n2 r2 q g2 H Hq.
    - inversion H as [c E1 E2|]; subst. destruct p1 as [|i p1]; [|rewrite app_length in Hq; cbn in Hq; lia].
      exists [], [], n2, r2, g2. split; [reflexivity|]. split; constructor.
    - destruct p1 as [|i p1].
      + exists [], (z :: zs), n, r, g. split; [reflexivity|]. split; [constructor|exact H].
      + inversion H as [|? ? ? ? ? ? ? n' r' new g' ? Hi Hg]; subst. rewrite app_assoc in Hg.
        destruct (IH _ _ _ _ _ _ _ _ _ Hg Hq) as (zs1 & zs2 & n1 & r1 & g1 & -> & A & B).
        exists (z :: zs1), zs2, n1, r1, g1. split; [reflexivity|]. split; [|exact B]. econstructor; [exact Hi|exact A].
  Qed.

  (** A store that nobody uses. *)
  Definition calm_node (m : option nat) (pol : policy) (s : store V) (last : option Z) : node V := Node s rw0 rw0 pol m last.
  Notation idle_node := (calm_node None).

  (** What a piece of a call does: clock readings, and the function of the sequential model. *)
  Definition sem {R} (z : Z) (zs : list Z) (s : store V) (last0 : option Z) (r : redis) (F : (nat -> Z * Z) -> store V * world redis -> store V * world redis * R)
    (s1 : store V) (last1 : option Z) (r1 : redis) (res : R) : Prop :=
    exists l, clock_reads (z :: zs) (flat_map (fun p => [fst p; snd p]) l) /\
      forall clk tick, (forall i p, nth_error l i = Some p -> clk (tick + i)%nat = p) ->
        F clk (s, World r last0 tick) = ((s1, World r1 last1 (tick + length l)), res).

  Lemma sem_pure {R} z zs s last r F s1 r1 (res : R) :
    (forall clk tick, F clk (s, World r last tick) = ((s1, World r1 last tick), res)) -> sem z zs s last r F s1 last r1 res.
  Proof. intros H. exists []. split; [constructor|]. intros clk tick _. rewrite Nat.add_0_r. apply H. Qed.

  Lemma sem_bind {R1 R2} z zs1 zs2 s last0 r (F : _ -> _ -> _ * R1) (G : R1 -> _ -> _ -> _ * R2) s1 last1 r1 res1 s2 last2 r2 res2 :
    sem z zs1 s last0 r F s1 last1 r1 res1 -> sem (last zs1 z) zs2 s1 last1 r1 (G res1) s2 last2 r2 res2 ->
    sem z (zs1 ++ zs2) s last0 r (fun clk x => let (y, a) := F clk x in G a clk y) s2 last2 r2 res2.
  Proof.
    intros (l1 & A1 & B1) (l2 & A2 & B2). exists (l1 ++ l2). split.
    - rewrite flat_map_app. apply reads_seq; assumption.
    - intros clk tick Hc. rewrite (B1 clk tick).
      + rewrite app_length, Nat.add_assoc. apply B2. intros i p Hi. rewrite <- Nat.add_assoc. apply Hc.
        rewrite nth_error_app2; [|lia]. rewrite <- Hi. f_equal. lia.
      + intros i p Hi. apply Hc. rewrite nth_error_app1; [exact Hi|]. apply nth_error_Some. congruence.
  Qed.

  Lemma sem_ext {R} z zs s last0 r (F G : _ -> _ -> _ * R) s1 last1 r1 res : (forall clk x, F clk x = G clk x) ->
    sem z zs s last0 r F s1 last1 r1 res -> sem z zs s last0 r G s1 last1 r1 res.
  Proof. intros E (l & A & B). exists l. split; [exact A|]. intros clk tick H. rewrite <- E. apply B. exact H. Qed.

  Ltac stp H := inversion H as [|? ? ? ? ? ? ? ? ? ? ? ? ?Hi ?Hg]; subst; clear H;
    match goal with Hi : istep _ _ _ _ _ _ _ _ = Some _, Hg : goes _ _ _ _ |- _ =>
      cbn [istep calm_node get_lock set_lock set_mlock set_last with_maps rlock runlock announce acquire unlock rw0 rw_writer rw_readers
           n_maps n_plock n_klock n_pol n_mlock n_last] in Hi; rename Hg into H end.
  Ltac fin H := inversion H; subst; clear H.

  Lemma runlock_self t : runlock t (RW [t] None) = rw0.
  Proof. unfold runlock. cbn. destruct (Nat.eq_dec t t); [reflexivity|congruence]. Qed.
  Lemma unlock_self t : unlock (RW [] (Some (t, true))) = rw0.
  Proof. reflexivity. Qed.

  (** UpdateNoPersist. *)
  Definition keep_err (keep : bool) (e : option kverror) (g : regs V) : regs V := match e with Some e => add_err keep e g | None => g end.
  Lemma goes_update t m zs pol s last r keep k v g n1 r1 g1 :
    goes t zs (calm_node m pol s last, r, p_update keep k v, g) (n1, r1, [], g1) ->
    n1 = calm_node m pol (fst (update_no_persist s k v)) last /\ r1 = r /\ g1 = keep_err keep (snd (update_no_persist s k v)) g.
  Proof.
    intros H. unfold p_update in H. unfold update_no_persist. destruct (k =? "")%string; [fin H; auto|].
    stp H. injection Hi as <- <- <- <-. stp H. injection Hi as <- <- <- <-. cbn [app] in H. stp H. injection Hi as <- <- <- <-.
    rewrite runlock_self in H. stp H.
    change (lookup_value (fun _ : string => s_procs s k) k v) with (lookup_value (s_procs s) k v) in Hi.
    destruct (lookup_value (s_procs s) k v) as [e|p]; injection Hi as <- <- <- <-; cbn [app p_lock] in H.
    - fin H. auto.
    - stp H. injection Hi as <- <- <- <-. stp H. rewrite Nat.eqb_refl in Hi. injection Hi as <- <- <- <-.
      stp H. injection Hi as <- <- <- <-. stp H. injection Hi as <- <- <- <-. fin H. auto.
  Qed.

  Lemma goes_updates t m keep pol last r kvs : forall zs s g n1 r1 g1,
    goes t zs (calm_node m pol s last, r, flat_map (fun kv => p_update keep (fst kv) (snd kv)) kvs, g) (n1, r1, [], g1) ->
    n1 = calm_node m pol (fst (update_each s kvs)) last /\ r1 = r /\
    g1 = fold_left (fun g e => add_err keep e g) (snd (update_each s kvs)) g.
  Proof.
    induction kvs as [|[k v] kvs IH]; intros zs s g n1 r1 g1 H; cbn [flat_map] in H.
    - fin H. auto.
    - apply goes_split in H; [|cbn; lia]. destruct H as (zs1 & zs2 & n2 & r2 & g2 & -> & A & B).
      apply goes_update in A. destruct A as (-> & -> & ->). apply IH in B. destruct B as (-> & -> & ->).
      cbn [update_each fst snd]. destruct (update_no_persist s k v) as [s' e]. cbn [fst snd]. destruct (update_each s' kvs) as [s2 es].
      cbn [fst snd]. split; [reflexivity|]. split; [reflexivity|]. destruct e; reflexivity.
  Qed.

  Lemma load_each s kvs : load_entries s kvs = fst (@update_each V s kvs).
  Proof.
    revert s. induction kvs as [|[k v] kvs IH]; intros s; [reflexivity|]. cbn [load_entries fold_left fst snd update_each].
    change (fold_left (fun (s0 : store V) (kv : string * string) => fst (update_no_persist s0 (fst kv) (snd kv))) kvs (fst (update_no_persist s k v)))
      with (load_entries (fst (update_no_persist s k v)) kvs). rewrite IH.
    destruct (update_no_persist s k v) as [s' e]. cbn [fst snd]. destruct (update_each s' kvs). reflexivity.
  Qed.
  Lemma no_errs es (g : regs V) : fold_left (fun g e => add_err false e g) es g = g.
  Proof. induction es; cbn; auto. Qed.

  (** DoLoad. *)
  Lemma goes_load t z zs pol s last0 r g n1 r1 g1 :
    goes t zs (idle_node pol s last0, r, p_load pol, g) (n1, r1, [], g1) ->
    exists s1 last1, n1 = idle_node pol s1 last1 /\ g1 = g /\ sem z zs s last0 r (fun clk x => (do_load per pol clk x, tt)) s1 last1 r1 tt.
  Proof.
    intros H. destruct pol as [| |d]; cbn [p_load] in H.
    - fin H. exists s, last0. split; [reflexivity|]. split; [reflexivity|]. exists [(z, z)]. split; [cbn; repeat constructor|].
      intros clk tick _. unfold do_load. cbn [w_tick w_last w_p]. destruct (clk tick). cbn [wants_load length]. rewrite Nat.add_1_r. reflexivity.
    - inversion H as [|? ? ? ? ? ? ? ? ? ? ? ? Hi Hg]; subst; clear H. cbn [istep] in Hi. destruct (redis_load ok ord r) as [[rL kvs] done] eqn:El.
      injection Hi as <- <- <- <-. rewrite app_nil_r in Hg.
      assert (E : n1 = idle_node PolSimple (load_entries s kvs) last0 /\ r1 = rL /\ g1 = g).
      { unfold redis_load in El. destruct (ok (r_cmds r)); injection El as <- <- <-.
        - rewrite app_nil_r in Hg. apply goes_updates in Hg. rewrite no_errs in Hg. rewrite load_each. exact Hg.
        - fin Hg. auto. }
      destruct E as (-> & -> & ->). exists (load_entries s kvs), last0. split; [reflexivity|]. split; [reflexivity|]. exists [(z, z)]. split; [cbn; repeat constructor|].
      intros clk tick _. unfold do_load. cbn [w_tick w_last w_p ps_load redis_persister]. destruct (clk tick). cbn [wants_load]. rewrite El. cbn [after_load length]. rewrite Nat.add_1_r. reflexivity.
    - stp H. injection Hi as <- <- <- <-. cbn [app] in H. change (set_mlock (idle_node (PolInterval d) s last0) (Some t)) with (calm_node (Some t) (PolInterval d) s last0) in H.
      inversion H as [|? ? ? ? ? ? ? ? ? ? ? ? Hi Hg]; subst; clear H. cbn [istep calm_node n_pol n_last] in Hi.
      destruct (wants_load (PolInterval d) last0 now0) eqn:Ew; injection Hi as <- <- <- <-; cbn [app] in Hg.
      + inversion Hg as [|? ? ? ? ? ? ? ? ? ? ? ? Hi Hh]; subst; clear Hg. cbn [istep] in Hi. destruct (redis_load ok ord r) as [[rL kvs] done] eqn:El.
        injection Hi as <- <- <- <-. apply goes_split in Hh; [|cbn; lia]. destruct Hh as (zs1 & zs2 & n2 & r2 & g2 & -> & A & B).
        assert (E : exists b last1, clock_reads (now1 :: zs1) [b] /\ n2 = Node (load_entries s kvs) rw0 rw0 (PolInterval d) (Some t) last1 /\ r2 = rL /\ g2 = g /\
          last1 = after_load (PolInterval d) last0 done b).
        { assert (Up : forall zs s last r g n1 r1 g1, goes t zs (calm_node (Some t) (PolInterval d) s last, r, flat_map (fun kv => p_update false (fst kv) (snd kv)) kvs, g) (n1, r1, [], g1) ->
            n1 = calm_node (Some t) (PolInterval d) (load_entries s kvs) last /\ r1 = r /\ g1 = g).
          { clear. intros zs s last r g n1 r1 g1 H. apply goes_updates in H. rewrite no_errs in H. rewrite load_each. exact H. }
          unfold redis_load in El. unfold after_load. destruct (ok (r_cmds r)); injection El as <- <- <-.
          - destruct (Z.ltb_spec 0 d) as [Hd|Hd]; destruct (Z.leb_spec d 0) as [Hd'|Hd']; try lia.
            + apply goes_split in A; [|cbn; lia]. destruct A as (zs3 & zs4 & n3 & r3 & g3 & -> & A & C). apply Up in A. destruct A as (-> & -> & ->).
              inversion C as [|? ? ? ? ? ? ? ? ? ? ? ? Hi Hh]; subst; clear C. cbn [istep set_last n_maps n_plock n_klock n_pol n_mlock] in Hi.
              injection Hi as <- <- <- <-. fin Hh. exists now2, (Some now2). split; [|auto].
              clear. apply reads_later. induction zs3; [repeat constructor|]. apply reads_later. exact IHzs3.
            + rewrite app_nil_r in A. apply Up in A. destruct A as (-> & -> & ->). exists now1, last0. split; [repeat constructor|auto].
          - fin A. exists now1, last0. split; [repeat constructor|]. destruct (d <=? 0)%Z; auto. }
        destruct E as (b & last1 & Hb & -> & -> & -> & ->). stp B. injection Hi as <- <- <- <-. fin B.
        exists (load_entries s kvs), (after_load (PolInterval d) last0 done b). split; [reflexivity|]. split; [reflexivity|].
        exists [(now0, b)]. split.
        * cbn [flat_map fst snd app]. apply reads_later, reads_later. apply reads_now. apply reads_later.
          change (now1 :: zs1 ++ [now2]) with ((now1 :: zs1) ++ [now2]). rewrite <- (app_nil_r [b]). apply reads_app; [exact Hb|constructor].
        * intros clk tick Hc. unfold do_load. cbn [w_tick w_last w_p ps_load redis_persister]. rewrite <- (Nat.add_0_r tick), (Hc 0%nat (now0, b) eq_refl), Nat.add_0_r.
          rewrite Ew, El. cbn [length]. rewrite Nat.add_1_r. reflexivity.
      + stp Hg. injection Hi as <- <- <- <-. fin Hg. exists s, last0. split; [reflexivity|]. split; [reflexivity|]. exists [(now0, now0)]. split.
        * cbn [flat_map fst snd app]. apply reads_later, reads_later. repeat constructor.
        * intros clk tick Hc. unfold do_load. cbn [w_tick w_last w_p ps_load redis_persister]. rewrite <- (Nat.add_0_r tick), (Hc 0%nat (now0, now0) eq_refl), Nat.add_0_r.
          rewrite Ew. cbn [length]. rewrite Nat.add_1_r. reflexivity.
  Qed.

  Lemma sem_after {R} z zs1 zs2 s last0 r pol s1 last1 r1 (G : _ -> _ -> _ * R) s2 last2 r2 res :
    sem z zs1 s last0 r (fun clk x => (do_load per pol clk x, tt)) s1 last1 r1 tt ->
    sem (last zs1 z) zs2 s1 last1 r1 G s2 last2 r2 res ->
    sem z (zs1 ++ zs2) s last0 r (fun clk x => G clk (do_load per pol clk x)) s2 last2 r2 res.
  Proof.
    intros H1 H2. exact (sem_bind z zs1 zs2 s last0 r (fun clk x => (do_load per pol clk x, tt)) (fun _ => G) s1 last1 r1 tt s2 last2 r2 res H1 H2).
  Qed.

  (** The reads. *)
  Definition add_val (k : string) (v : option V) (g : regs V) : regs V :=
    match v with Some v => Regs (g_errs g) (g_vals g ++ [(k, v)]) (g_strs g) (g_err g) | None => g end.
  Definition add_str (k : string) (v : option string) (g : regs V) : regs V :=
    match v with Some v => Regs (g_errs g) (g_vals g) (g_strs g ++ [(k, v)]) (g_err g) | None => g end.

  Lemma goes_get t z zs pol s last0 r k g n1 r1 g1 :
    goes t zs (idle_node pol s last0, r, p_get pol k, g) (n1, r1, [], g1) ->
    exists s1 last1, n1 = idle_node pol s1 last1 /\ g1 = add_val k (read_value s1 k) g /\
      sem z zs s last0 r (fun clk x => get_value per pol clk x k) s1 last1 r1 (read_value s1 k).
  Proof.
    intros H. apply goes_split in H; [|cbn; lia]. destruct H as (zs1 & zs2 & n2 & r2 & g2 & -> & A & B).
    apply (goes_load t z) in A. destruct A as (s1 & last1 & -> & -> & A).
    stp B. injection Hi as <- <- <- <-. stp B. injection Hi as <- <- <- <-. stp B. injection Hi as <- <- <- <-. rewrite runlock_self in B. fin B.
    exists s1, last1. split; [reflexivity|]. split; [reflexivity|].
    assert (B : sem (last zs1 z) [now; now0; now1] s1 last1 r1 (fun clk y => (y, read_value (fst y) k)) s1 last1 r1 (read_value s1 k)) by (apply sem_pure; reflexivity).
    exact (sem_after _ _ _ _ _ _ _ _ _ _ _ _ _ _ _ A B).
  Qed.
  Lemma goes_get_str t z zs pol s last0 r k g n1 r1 g1 :
    goes t zs (idle_node pol s last0, r, p_get_str pol k, g) (n1, r1, [], g1) ->
    exists s1 last1, n1 = idle_node pol s1 last1 /\ g1 = add_str k (read_string s1 k) g /\
      sem z zs s last0 r (fun clk x => get_value_string per pol clk x k) s1 last1 r1 (read_string s1 k).
  Proof.
    intros H. apply goes_split in H; [|cbn; lia]. destruct H as (zs1 & zs2 & n2 & r2 & g2 & -> & A & B).
    apply (goes_load t z) in A. destruct A as (s1 & last1 & -> & -> & A).
    stp B. injection Hi as <- <- <- <-. stp B. injection Hi as <- <- <- <-. stp B. injection Hi as <- <- <- <-. rewrite runlock_self in B. fin B.
    exists s1, last1. split; [reflexivity|]. split; [reflexivity|].
    assert (B : sem (last zs1 z) [now; now0; now1] s1 last1 r1 (fun clk y => (y, read_string (fst y) k)) s1 last1 r1 (read_string s1 k)) by (apply sem_pure; reflexivity).
    exact (sem_after _ _ _ _ _ _ _ _ _ _ _ _ _ _ _ A B).
  Qed.

  Lemma goes_gets t pol ks : forall z zs s last0 r g n1 r1 g1,
    goes t zs (idle_node pol s last0, r, flat_map (p_get pol) (nonempty ks), g) (n1, r1, [], g1) ->
    exists s1 last1 vs, n1 = idle_node pol s1 last1 /\ g1 = Regs (g_errs g) (g_vals g ++ vs) (g_strs g) (g_err g) /\
      sem z zs s last0 r (fun clk x => get_each (get_value per pol clk) x ks) s1 last1 r1 vs.
  Proof.
    induction ks as [|k ks IH]; intros z zs s last0 r g n1 r1 g1 H; cbn [nonempty filter] in H.
    - cbn [flat_map] in H. fin H. exists s, last0, []. split; [reflexivity|]. split; [rewrite app_nil_r; destruct g1; reflexivity|].
      apply sem_pure. reflexivity.
    - destruct (k =? "")%string eqn:Ek; cbn [negb] in H.
      + apply (IH z) in H. destruct H as (s1 & last1 & vs & -> & -> & H). exists s1, last1, vs. split; [reflexivity|]. split; [reflexivity|].
        eapply sem_ext; [|exact H]. intros clk x. cbn [get_each]. rewrite Ek. reflexivity.
      + cbn [flat_map] in H. apply goes_split in H; [|cbn; lia]. destruct H as (zs1 & zs2 & n2 & r2 & g2 & -> & A & B).
        apply (goes_get t z) in A. destruct A as (s1 & last1 & -> & -> & A).
        apply (IH (last zs1 z)) in B. destruct B as (s2 & last2 & vs & -> & -> & B).
        exists s2, last2, (match read_value s1 k with Some v => (k, v) :: vs | None => vs end). split; [reflexivity|]. split.
        * destruct (read_value s1 k); cbn; rewrite <- ?app_assoc; reflexivity.
        * set (F := fun (clk : nat -> Z * Z) (x : store V * world redis) => get_value per pol clk x k) in A.
          set (G := fun (a : option V) (clk : nat -> Z * Z) (x : store V * world redis) => let (x2, kvs) := get_each (get_value per pol clk) x ks in (x2, match a with Some v => (k, v) :: kvs | None => kvs end)).
          apply (sem_ext _ _ _ _ _ (fun clk x => let (y, a) := F clk x in G a clk y)).
          -- intros clk x. cbn [get_each]. rewrite Ek. unfold F, G. reflexivity.
          -- eapply sem_bind; [exact A|]. destruct B as (l & B1 & B2). exists l. split; [exact B1|].
             intros clk tick Hc. unfold G. rewrite (B2 clk tick Hc). reflexivity.
  Qed.
  Lemma goes_gets_str t pol ks : forall z zs s last0 r g n1 r1 g1,
    goes t zs (idle_node pol s last0, r, flat_map (p_get_str pol) (nonempty ks), g) (n1, r1, [], g1) ->
    exists s1 last1 vs, n1 = idle_node pol s1 last1 /\ g1 = Regs (g_errs g) (g_vals g) (g_strs g ++ vs) (g_err g) /\
      sem z zs s last0 r (fun clk x => get_each (get_value_string per pol clk) x ks) s1 last1 r1 vs.
  Proof.
    induction ks as [|k ks IH]; intros z zs s last0 r g n1 r1 g1 H; cbn [nonempty filter] in H.
    - cbn [flat_map] in H. fin H. exists s, last0, []. split; [reflexivity|]. split; [rewrite app_nil_r; destruct g1; reflexivity|].
      apply sem_pure. reflexivity.
    - destruct (k =? "")%string eqn:Ek; cbn [negb] in H.
      + apply (IH z) in H. destruct H as (s1 & last1 & vs & -> & -> & H). exists s1, last1, vs. split; [reflexivity|]. split; [reflexivity|].
        eapply sem_ext; [|exact H]. intros clk x. cbn [get_each]. rewrite Ek. reflexivity.
      + cbn [flat_map] in H. apply goes_split in H; [|cbn; lia]. destruct H as (zs1 & zs2 & n2 & r2 & g2 & -> & A & B).
        apply (goes_get_str t z) in A. destruct A as (s1 & last1 & -> & -> & A).
        apply (IH (last zs1 z)) in B. destruct B as (s2 & last2 & vs & -> & -> & B).
        exists s2, last2, (match read_string s1 k with Some v => (k, v) :: vs | None => vs end). split; [reflexivity|]. split.
        * destruct (read_string s1 k); cbn; rewrite <- ?app_assoc; reflexivity.
        * set (F := fun (clk : nat -> Z * Z) (x : store V * world redis) => get_value_string per pol clk x k) in A.
          set (G := fun (a : option string) (clk : nat -> Z * Z) (x : store V * world redis) => let (x2, kvs) := get_each (get_value_string per pol clk) x ks in (x2, match a with Some v => (k, v) :: kvs | None => kvs end)).
          apply (sem_ext _ _ _ _ _ (fun clk x => let (y, a) := F clk x in G a clk y)).
          -- intros clk x. cbn [get_each]. rewrite Ek. unfold F, G. reflexivity.
          -- eapply sem_bind; [exact A|]. destruct B as (l & B1 & B2). exists l. split; [exact B1|].
             intros clk tick Hc. unfold G. rewrite (B2 clk tick Hc). reflexivity.
  Qed.

  (** ** Whole calls *)
  Lemma goes_ret t zs n r f0 g n1 r1 f g1 : goes t zs (n, r, [IReturn f0], g) (n1, r1, [IReturn f], g1) ->
    zs = [] /\ n1 = n /\ r1 = r /\ f = f0 /\ g1 = g.
  Proof.
    intros H. inversion H as [|? ? ? ? ? ? ? ? ? ? ? ? Hi Hg]; subst; [auto|]. cbn [istep] in Hi. injection Hi as <- <- <- <-.
    inversion Hg.
  Qed.

  Lemma sem_map {A B} z zs s last0 r (F : _ -> _ -> _ * A) (h : A -> B) s1 last1 r1 res :
    sem z zs s last0 r F s1 last1 r1 res ->
    sem z zs s last0 r (fun clk x => let (y, a) := F clk x in (y, h a)) s1 last1 r1 (h res).
  Proof. intros (l & H1 & H2). exists l. split; [exact H1|]. intros clk tick Hc. rewrite (H2 clk tick Hc). reflexivity. Qed.

  Ltac returned H := apply goes_ret in H; destruct H as (-> & -> & -> & -> & ->).
  Ltac one := match goal with Hi : Some _ = Some _ |- _ => injection Hi as <- <- <- <- end.

  Lemma goes_call t z zs pol s last0 r o n1 r1 f g1 :
    goes t zs (idle_node pol s last0, r, p_call pol o, regs0) (n1, r1, [IReturn f], g1) ->
    exists s1 last1, n1 = idle_node pol s1 last1 /\ sem z zs s last0 r (fun clk x => sop_step per pol clk x o) s1 last1 r1 (f g1).
  Proof.
    intros H. destruct o; cbn [p_call] in H.
    - (* Register *) destruct (key =? "")%string eqn:Ek.
      { returned H. exists s, last0. split; [reflexivity|]. apply sem_pure. intros. cbn. unfold register_key. rewrite Ek. reflexivity. }
      destruct vp as [p|]; [|returned H; exists s, last0; split; [reflexivity|]; apply sem_pure; intros; cbn; unfold register_key; rewrite Ek; reflexivity].
      cbn [p_lock app] in H. stp H. one. stp H. rewrite Nat.eqb_refl in Hi. one. stp H. one. stp H. rewrite Nat.eqb_refl in Hi. one. stp H.
      destruct (register_key s key def (Some p)) as [s' e] eqn:Er. one. stp H. one. stp H. one. returned H.
      exists s', last0. split; [reflexivity|]. apply sem_pure. intros. cbn. rewrite Er. reflexivity.
    - (* Deregister *) destruct (key =? "")%string eqn:Ek.
      { returned H. exists s, last0. split; [reflexivity|]. apply sem_pure. intros. cbn. unfold deregister_key. rewrite Ek. reflexivity. }
      cbn [p_lock app] in H. stp H. one. stp H. rewrite Nat.eqb_refl in Hi. one. stp H. one. stp H. rewrite Nat.eqb_refl in Hi. one.
      stp H. one. stp H. one. stp H. one. stp H. one. returned H.
      exists (drop_key s key), last0. split; [reflexivity|]. apply sem_pure. intros. cbn. rewrite Ek. reflexivity.
    - (* Update *) apply goes_split in H; [|cbn; lia]. destruct H as (zs1 & zs2 & n2 & r2 & g2 & -> & A & B).
      apply goes_update in A. destruct A as (-> & -> & ->). inversion B as [|? ? ? ? ? ? ? ? ? ? ? ? Hi Hg]; subst; clear B. cbn [istep] in Hi.
      destruct (update_no_persist s key value) as [s' e] eqn:Eu. cbn [fst snd] in *.
      destruct e as [e|]; cbn [keep_err add_err regs0 g_errs app] in Hi.
      + destruct (redis_save ok r key value) as [rS done] eqn:Es. one. returned Hg. exists s', last0. split; [reflexivity|]. apply sem_pure. intros.
        cbn [sop_step]. unfold update. rewrite Eu. cbn [ps_save redis_persister w_p]. rewrite Es. destruct done; reflexivity.
      + one. returned Hg. exists s', last0. split; [reflexivity|]. apply sem_pure. intros. cbn [sop_step]. unfold update. rewrite Eu. reflexivity.
    - (* UpdateNoPersist *) apply goes_split in H; [|cbn; lia]. destruct H as (zs1 & zs2 & n2 & r2 & g2 & -> & A & B).
      apply goes_update in A. destruct A as (-> & -> & ->). returned B. eexists. eexists. split; [reflexivity|]. apply sem_pure. intros. cbn [sop_step fst snd].
      destruct (update_no_persist s key value) as [s' e]. cbn [fst snd]. destruct e; reflexivity.
    - (* BatchUpdate *) destruct kvs as [|kv kvs].
      { returned H. exists s, last0. split; [reflexivity|]. apply sem_pure. reflexivity. }
      remember (kv :: kvs) as l eqn:El.
      apply goes_split in H; [|cbn; lia]. destruct H as (zs1 & zs2 & n2 & r2 & g2 & -> & A & B).
      apply goes_updates in A. destruct A as (-> & -> & ->). inversion B as [|? ? ? ? ? ? ? ? ? ? ? ? Hi Hg]; subst n r i rest g c zs2; clear B. cbn [istep] in Hi. one.
      returned Hg. eexists. eexists. split; [reflexivity|].
      assert (Eg : forall es g, g_errs (fold_left (fun (g : regs V) e => add_err true e g) es g) = g_errs g ++ es).
      { clear. induction es as [|e es IH]; intros g; cbn [fold_left]; [rewrite app_nil_r; reflexivity|]. rewrite IH. cbn. rewrite <- app_assoc. reflexivity. }
      apply sem_pure. intros clk tick. cbn [sop_step]. rewrite !Eg. cbn [regs0 g_errs app]. unfold batch_update. rewrite El at 1.
      destruct (update_each s l) as [s' es]. reflexivity.
    - (* Reset *) cbn [p_lock app] in H. stp H. one. stp H. rewrite Nat.eqb_refl in Hi. one. stp H. one. stp H. one. stp H. one. returned H.
      exists (clear_key s key), last0. split; [reflexivity|]. apply sem_pure. reflexivity.
    - (* Get *) apply goes_split in H; [|cbn; lia]. destruct H as (zs1 & zs2 & n2 & r2 & g2 & -> & A & B).
      apply (goes_get t z) in A. destruct A as (s1 & last1 & -> & -> & A). returned B. rewrite app_nil_r. exists s1, last1. split; [reflexivity|].
      replace (RVal (StoreConcModel.one (g_vals (add_val key (read_value s1 key) regs0)))) with (RVal (read_value s1 key)) by (destruct (read_value s1 key); reflexivity).
      exact (sem_map _ _ _ _ _ _ RVal _ _ _ _ A).
    - apply goes_split in H; [|cbn; lia]. destruct H as (zs1 & zs2 & n2 & r2 & g2 & -> & A & B).
      apply (goes_get_str t z) in A. destruct A as (s1 & last1 & -> & -> & A). returned B. rewrite app_nil_r. exists s1, last1. split; [reflexivity|].
      replace (@RStr V (StoreConcModel.one (g_strs (add_str key (read_string s1 key) regs0)))) with (@RStr V (read_string s1 key)) by (destruct (read_string s1 key); reflexivity).
      exact (sem_map _ _ _ _ _ _ RStr _ _ _ _ A).
    - (* MustGet *) apply goes_split in H; [|rewrite app_length; cbn; lia]. destruct H as (zs1 & zs2 & n2 & r2 & g2 & -> & A & B).
      apply (goes_load t z) in A. destruct A as (s1 & last1 & -> & -> & A).
      apply goes_split in B; [|cbn; lia]. destruct B as (zs3 & zs4 & n3 & r3 & g3 & -> & B & C).
      apply (goes_get t (last zs1 z)) in B. destruct B as (s2 & last2 & -> & -> & B). returned C. rewrite app_nil_r. exists s2, last2. split; [reflexivity|].
      pose proof (sem_map _ _ _ _ _ _ (fun a : option V => match a with Some v => RMust v | None => RPanic end) _ _ _ _ (sem_after _ _ _ _ _ _ _ _ _ _ _ _ _ _ _ A B)) as M.
      destruct (read_value s2 key); exact M.
    - apply goes_split in H; [|rewrite app_length; cbn; lia]. destruct H as (zs1 & zs2 & n2 & r2 & g2 & -> & A & B).
      apply (goes_load t z) in A. destruct A as (s1 & last1 & -> & -> & A).
      apply goes_split in B; [|cbn; lia]. destruct B as (zs3 & zs4 & n3 & r3 & g3 & -> & B & C).
      apply (goes_get_str t (last zs1 z)) in B. destruct B as (s2 & last2 & -> & -> & B). returned C. rewrite app_nil_r. exists s2, last2. split; [reflexivity|].
      pose proof (sem_map _ _ _ _ _ _ (fun a : option string => match a with Some v => @RMustStr V v | None => RPanic end) _ _ _ _ (sem_after _ _ _ _ _ _ _ _ _ _ _ _ _ _ _ A B)) as M.
      destruct (read_string s2 key); exact M.
    - (* BatchGet *) apply goes_split in H; [|rewrite app_length; cbn; lia]. destruct H as (zs1 & zs2 & n2 & r2 & g2 & -> & A & B).
      apply (goes_load t z) in A. destruct A as (s1 & last1 & -> & -> & A).
      apply goes_split in B; [|cbn; lia]. destruct B as (zs3 & zs4 & n3 & r3 & g3 & -> & B & C).
      apply (goes_gets t pol keys (last zs1 z)) in B. destruct B as (s2 & last2 & vs & -> & -> & B). returned C. rewrite app_nil_r. exists s2, last2. split; [reflexivity|].
      exact (sem_map _ _ _ _ _ _ RVals _ _ _ _ (sem_after _ _ _ _ _ _ _ _ _ _ _ _ _ _ _ A B)).
    - apply goes_split in H; [|rewrite app_length; cbn; lia]. destruct H as (zs1 & zs2 & n2 & r2 & g2 & -> & A & B).
      apply (goes_load t z) in A. destruct A as (s1 & last1 & -> & -> & A).
      apply goes_split in B; [|cbn; lia]. destruct B as (zs3 & zs4 & n3 & r3 & g3 & -> & B & C).
      apply (goes_gets_str t pol keys (last zs1 z)) in B. destruct B as (s2 & last2 & vs & -> & -> & B). returned C. rewrite app_nil_r. exists s2, last2. split; [reflexivity|].
      exact (sem_map _ _ _ _ _ _ RStrs _ _ _ _ (sem_after _ _ _ _ _ _ _ _ _ _ _ _ _ _ _ A B)).
  Qed.
End alone.

(** ** In the machine *)
Lemma reads_dup z zs l : clock_reads (z :: z :: zs) l -> clock_reads (z :: zs) l.
Proof.
  remember (z :: z :: zs) as zz. intros H. induction H as [zs'|y zs' l H IH|y zs' l H IH].
  - constructor.
  - injection Heqzz as -> ->. apply reads_now. apply IH. reflexivity.
  - injection Heqzz as -> ->. exact H.
Qed.

Section machine.
  Context {V : Type} (ok : nat -> bool) (ord : nat -> list (string * string) -> list (string * string)).

  Definition part_of (zs zs' : list Z) : Prop := forall l, clock_reads zs l -> clock_reads zs' l.
  Lemma part_nil zs : part_of [] zs.
  Proof. intros l H. inversion H; subst; constructor. Qed.
  Lemma part_skip z zs zs' : part_of zs zs' -> part_of zs (z :: zs').
  Proof. intros P l H. apply reads_later. apply P. exact H. Qed.
  Lemma part_keep z zs zs' : part_of zs zs' -> part_of (z :: zs) (z :: zs').
  Proof.
    intros P l H. remember (z :: zs) as zz. induction H as [x|y x l H IH|y x l H IH].
    - constructor.
    - injection Heqzz as -> ->. apply reads_now. apply IH. reflexivity.
    - injection Heqzz as -> ->. apply reads_later. apply P. exact H.
  Qed.

  Lemma exec_still (w : cworld V) sched : Forall no_calls sched -> (forall t th, nth_error (c_threads w) t = Some th -> t_prog th = []) ->
    exec (cstep ok ord) w sched = (w, []).
  Proof.
    intros HF Hi. induction HF as [|l sched Hl HF IH]; [reflexivity|]. cbn [exec]. destruct l as [t j o|t now]; [contradiction|].
    cbn [cstep]. destruct (nth_error (c_threads w) t) as [th|] eqn:E; [|exact IH]. rewrite (Hi _ _ E). exact IH.
  Qed.

  Lemma run_alone sched : Forall no_calls sched -> forall (w : cworld V) t j o p g n,
    (exists hs, inv w hs) -> (forall u th, u <> t -> nth_error (c_threads w) u = Some th -> t_prog th = []) ->
    nth_error (c_threads w) t = Some (Thread j (Some o) p g) -> nth_error (c_nodes w) j = Some n ->
    let c := exec (cstep ok ord) w sched in
    snd c = [] \/
    exists zs zr n' r' f g', goes ok ord t zs (n, c_redis w, p, g) (n', r', [IReturn f], g') /\ part_of (zs ++ [zr]) (shown sched) /\
      snd c = [EReturned t j o (f g')] /\ c_redis (fst c) = r' /\ c_nodes (fst c) = upd j n' (c_nodes w).
  Proof.
    intros HF. induction HF as [|l sched Hl HF IH]; intros w t j o p g n Hinv Ho E1 E2; [left; reflexivity|].
    destruct l as [u ? ?|u now]; [contradiction|]. cbn [exec]. change (shown (CStep u now :: sched)) with (now :: @shown V sched).
    destruct (cstep ok ord w (CStep u now)) as [[w' es]|] eqn:Es.
    2:{ destruct (IH w t j o p g n Hinv Ho E1 E2) as [A|(zs & zr & n' & r' & f & g' & A & B & C)]; [left; exact A|right].
        exists zs, zr, n', r', f, g'. split; [exact A|]. split; [apply part_skip; exact B|exact C]. }
    assert (Hinv' : exists hs, inv w' hs) by (destruct Hinv as [hs Hi]; eapply inv_step; [exact Hi|exact Es]).
    apply cstep_step in Es. destruct Es as (th & i & rest & m & n' & r' & new & g' & F1 & F2 & F3 & F4 & -> & ->).
    destruct (Nat.eq_dec u t) as [->|ne]; [|rewrite (Ho _ _ ne F1) in F2; discriminate].
    rewrite E1 in F1. injection F1 as <-. cbn [t_node t_prog t_call t_regs] in *. rewrite E2 in F3. injection F3 as <-. subst p.
    destruct Hinv as [hs Hi]. pose proof (i_threads _ _ Hi _ _ E1) as Ht. unfold thread_ok in Ht. cbn [t_call t_prog] in Ht. apply typed_cons in Ht.
    destruct Ht as [(f & -> & -> & _)|(h' & Hh & _)].
    - right. cbn [istep] in F4. injection F4 as <- <- <- <-. cbn [app] in *.
      assert (Q : forall v th, nth_error (c_threads (CWorld (c_redis w) (upd j n (c_nodes w)) (upd t (Thread j None [] g) (c_threads w)))) v = Some th -> t_prog th = []).
      { intros v th Hv. cbn [c_threads] in Hv. rewrite nth_error_upd in Hv. destruct (Nat.eq_dec t v) as [<-|nv].
        - rewrite E1 in Hv. injection Hv as <-. reflexivity.
        - eapply Ho; [|exact Hv]. congruence. }
      rewrite (exec_still _ _ HF Q). exists [], now, n, (c_redis w), f, g. split; [constructor|]. split; [apply part_keep, part_nil|].
      split; [reflexivity|]. split; reflexivity.
    - assert (Hc : match i with IReturn _ => None | _ => Some o end = Some o) by (destruct i; try reflexivity; discriminate).
      assert (Hr : returns t (Thread j (Some o) (i :: rest) g) i = []) by (destruct i; try reflexivity; discriminate).
      rewrite Hr. rewrite Hc in *. set (w1 := CWorld r' (upd j n' (c_nodes w)) (upd t (Thread j (Some o) (new ++ rest) g') (c_threads w))) in *.
      destruct (IH w1 t j o (new ++ rest) g' n' Hinv') as [A|(zs & zr & n2 & r2 & f & g2 & A & B & C & D & E)].
      + intros v th nv Hv. unfold w1 in Hv. cbn [c_threads] in Hv. rewrite nth_error_upd in Hv. destruct (Nat.eq_dec t v); [congruence|]. eapply Ho; eassumption.
      + unfold w1. cbn [c_threads]. rewrite nth_error_upd. destruct (Nat.eq_dec t t); [|congruence]. rewrite E1. reflexivity.
      + unfold w1. cbn [c_nodes]. eapply nth_error_upd_same. exact E2.
      + left. destruct (exec (cstep ok ord) w1 sched). cbn in A |- *. exact A.
      + right. exists (now :: zs), zr, n2, r2, f, g2. destruct (exec (cstep ok ord) w1 sched) as [wf ef]. cbn [fst snd] in *.
        split; [econstructor; [exact F4|exact A]|]. split; [cbn [app]; apply part_keep; exact B|]. split; [exact C|]. split; [exact D|].
        rewrite E. unfold w1. cbn [c_nodes]. clear. generalize (c_nodes w). induction j as [|j IHj]; intros [|y l]; cbn; try reflexivity. rewrite IHj. reflexivity.
  Qed.

  Lemma idle_locks (w : cworld V) hs j n : inv w hs -> (forall t, call_of w t = None) -> nth_error (c_nodes w) j = Some n ->
    n = calm_node None (n_pol n) (n_maps n) (n_last n).
  Proof.
    intros HI Hc E.
    assert (H0 : forall t th, nth_error (c_threads w) t = Some th -> hs t = held0).
    { intros t th Et. specialize (Hc t). unfold call_of in Hc. rewrite Et in Hc. pose proof (i_threads _ _ HI _ _ Et) as Ht. unfold thread_ok in Ht.
      destruct (t_call th); [discriminate|]. apply Ht. }
    assert (HM : forall l t, mode_of w hs j l t = Free).
    { intros l t. unfold mode_of. destruct (nth_error (c_threads w) t) as [th|] eqn:Et; [|reflexivity]. rewrite (H0 _ _ Et). destruct (Nat.eqb _ _), l; reflexivity. }
    assert (HL : forall l, get_lock n l = rw0).
    { intros l. destruct (i_locks _ _ HI j n l E) as [L1 L2 L3]. destruct (get_lock n l) as [rs wr]. cbn [rw_readers rw_writer] in *. unfold rw0. f_equal.
      - destruct rs as [|t rs]; [reflexivity|]. exfalso. assert (X : mode_of w hs j l t = Rd) by (apply L1; left; reflexivity). rewrite HM in X. discriminate.
      - destruct wr as [[t b]|]; [|reflexivity]. exfalso. assert (X : mode_of w hs j l t = if b then Wr else Ann) by (apply (L2 t b); reflexivity). rewrite HM in X. destruct b; discriminate. }
    assert (Hm : n_mlock n = None).
    { pose proof (i_mutex _ _ HI j n E) as M. destruct (n_mlock n) as [t|]; [|reflexivity]. exfalso. assert (X : mutex_of w hs j t = true) by (apply M; reflexivity).
      unfold mutex_of in X. destruct (nth_error (c_threads w) t) as [th|] eqn:Et; [|discriminate]. rewrite (H0 _ _ Et) in X. destruct (Nat.eqb _ _); discriminate. }
    pose proof (HL ProcLock) as HL1. pose proof (HL KvLock) as HL2. cbn [get_lock] in HL1, HL2. destruct n. cbn in *. subst. reflexivity.
  Qed.
End machine.

Lemma pols_of {V} ok ord h pols n sched : map n_pol (c_nodes (fst (@conc_exec V ok ord h pols n sched))) = pols.
Proof.
  unfold conc_exec. refine (exec_inv (cstep ok ord) (fun (w : cworld V) _ => map n_pol (c_nodes w) = pols) _ sched _ [] _).
  - intros w l w' es _ H Hs. destruct l as [t j o|t now].
    + apply cstep_call in Hs. destruct Hs as (th & nd & _ & _ & _ & -> & _). exact H.
    + apply cstep_step in Hs. destruct Hs as (th & i & rest & nd & n' & r' & new & g' & _ & _ & E3 & E4 & -> & _).
      cbn [c_nodes]. rewrite <- H. eapply map_upd; [exact E3|]. eapply istep_pol. exact E4.
  - cbn. rewrite map_map. cbn. apply map_id.
Qed.

Lemma alone_is_whole {V} ok ord h pols n sched steps t j o t1 j1 o1 r :
  let c := @conc_exec V ok ord h pols n sched in
  (forall u, calling u (snd c) = None) -> Forall no_calls steps ->
  let c2 := exec (cstep ok ord) (fst c) (CCall t j o :: steps) in
  In (EReturned t1 j1 o1 r) (snd c2) ->
  snd c2 = [ECalled t j o; EReturned t j o r] /\
  whole_call ok ord pols (shown steps) (state_of (fst c)) j o r (state_of (fst c2)).
Proof.
  intros c Hc HF c2 Hin.
  assert (Hinv : exists hs, inv (fst c) hs) by apply inv_reach.
  assert (Hidle : forall u, call_of (fst c) u = None) by (intros u; unfold c; rewrite <- calling_reach; apply Hc).
  assert (Hprog : forall u th, nth_error (c_threads (fst c)) u = Some th -> t_prog th = []).
  { intros u th E. destruct Hinv as [hs HI]. specialize (Hidle u). unfold call_of in Hidle. rewrite E in Hidle. pose proof (i_threads _ _ HI _ _ E) as Ht. unfold thread_ok in Ht.
    destruct (t_call th); [discriminate|]. apply Ht. }
  unfold c2 in *. clear c2. cbn [exec] in *. destruct (cstep ok ord (fst c) (CCall t j o)) as [[w1 es]|] eqn:Es.
  2:{ exfalso. rewrite (exec_still ok ord _ _ HF Hprog) in Hin. exact Hin. }
  assert (Hinv1 : exists hs, inv w1 hs) by (destruct Hinv as [hs HI]; eapply inv_step; [exact HI|exact Es]).
  apply cstep_call in Es. destruct Es as (th & nd & E1 & E2 & E3 & -> & ->).
  set (w1 := CWorld (c_redis (fst c)) (c_nodes (fst c)) (upd t (Thread j (Some o) (p_call (n_pol nd) o) regs0) (c_threads (fst c)))) in *.
  assert (F1 : nth_error (c_threads w1) t = Some (Thread j (Some o) (p_call (n_pol nd) o) regs0)).
  { unfold w1. cbn [c_threads]. rewrite nth_error_upd. destruct (Nat.eq_dec t t); [|congruence]. rewrite E1. reflexivity. }
  assert (F2 : forall u th, u <> t -> nth_error (c_threads w1) u = Some th -> t_prog th = []).
  { intros u th' nu Hu. unfold w1 in Hu. cbn [c_threads] in Hu. rewrite nth_error_upd in Hu. destruct (Nat.eq_dec t u); [congruence|]. eapply Hprog. exact Hu. }
  destruct (run_alone ok ord steps HF w1 t j o _ _ nd Hinv1 F2 F1 E2) as [A|(zs & zr & n' & r' & f & g' & A & B & C & D & E)].
  { exfalso. destruct (exec (cstep ok ord) w1 steps) as [wf ef]. cbn [fst snd] in *. subst ef. destruct Hin as [X|[]]. discriminate. }
  destruct (exec (cstep ok ord) w1 steps) as [wf ef]. cbn [fst snd app] in *. subst ef. cbn [app] in Hin.
  destruct Hin as [X|[X|[]]]; [discriminate|]. injection X as <- <- <- <-. split; [reflexivity|].
  assert (Hpol : nth_error pols j = Some (n_pol nd)).
  { rewrite <- (pols_of ok ord h pols n sched). fold c. rewrite nth_error_map, E2. reflexivity. }
  destruct Hinv as [hs HI]. pose proof (idle_locks _ _ _ _ HI Hidle E2) as Hn. rewrite Hn in A. cbn [n_pol calm_node] in A.
  apply (goes_call ok ord t (hd zr zs)) in A. destruct A as (s1 & last1 & -> & l & Hl & Hsem).
  exists (n_pol nd), (n_maps nd), (n_last nd), (fun i => nth i l (0, 0)%Z). eexists. split; [exact Hpol|]. split.
  { cbn [state_of fst]. rewrite nth_error_map, E2. reflexivity. }
  split.
  { apply (Hsem (fun i => nth i l (0, 0)%Z) 0%nat). intros i p Hi. cbn. apply nth_error_nth. exact Hi. }
  cbn [fst snd w_tick w_last w_p]. split.
  - apply B. rewrite Nat.add_0_l.
    assert (R : readings (fun i => nth i l (0, 0)%Z) (length l) = flat_map (fun p => [fst p; snd p]) l).
    { clear. unfold readings. rewrite !flat_map_concat_map. f_equal. apply (nth_ext _ _ [] []); [rewrite !map_length, seq_length; reflexivity|].
      intros i Hi. rewrite map_length, seq_length in Hi. rewrite (nth_indep _ [] ((fun i => [fst (nth i l (0, 0)%Z); snd (nth i l (0, 0)%Z)]) 0%nat)) by (rewrite map_length, seq_length; exact Hi).
      rewrite (map_nth (fun i => [fst (nth i l (0, 0)%Z); snd (nth i l (0, 0)%Z)])), seq_nth by exact Hi. cbn [Nat.add].
      rewrite (nth_indep _ [] ((fun p : Z * Z => [fst p; snd p]) (0, 0)%Z)) by (rewrite map_length; exact Hi). rewrite (map_nth (fun p : Z * Z => [fst p; snd p])). reflexivity. }
    rewrite R. destruct zs as [|z zs]; cbn [hd app] in *; [exact Hl|]. apply reads_dup in Hl.
    rewrite <- (app_nil_r (flat_map _ _)). change (z :: zs ++ [zr]) with ((z :: zs) ++ [zr]). apply reads_app; [exact Hl|constructor].
  - unfold state_of. cbn [fst snd]. rewrite D, E. f_equal. clear. unfold w1. cbn [c_nodes]. generalize (c_nodes (fst c)).
    induction j as [|j IHj]; intros [|y l0]; cbn; try reflexivity. rewrite IHj. reflexivity.
Qed.
