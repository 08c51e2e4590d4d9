(** Which calls return and which do not, when processors call the store they belong to. *)
From Verif Require Import Common Bytes StoreModel StorePanicModel StoreNestModel StoreNestSpec.
From Coq Require Import Permutation.
Local Open Scope string_scope.
Local Open Scope list_scope.

Section blocks.
  Context {V P : Type}.
  Variable per : persister P.
  Variable pol : policy.
  Variable clk : nat -> Z * Z.
  Notation st := (nsw V P).
  Notation updater := (st -> string -> string -> reply V P (option kverror)).

  Lemma bind_inv A B (r : reply V P A) (g : st -> A -> reply V P B) y f : bind r g = Some (y, f) ->
    (exists x a, r = Some (x, Ret a) /\ g x a = Some (y, f)) \/ (r = Some (y, Boom) /\ f = Boom) \/ (r = Some (y, Stuck) /\ f = Stuck).
  Proof.
    destruct r as [[x [a| |]]|]; cbn; [|intros [= -> <-]; auto..|discriminate]. intros H. left. exists x, a. auto.
  Qed.

  Lemma deferred_inv A g (r : reply V P A) y f : deferred g r = Some (y, f) ->
    (r = Some (y, Stuck) /\ f = Stuck) \/ exists x, r = Some (x, f) /\ y = g x /\ f <> Stuck.
  Proof.
    destruct r as [[x [a| |]]|]; cbn; [| | |discriminate].
    - intros [= <- <-]. right. exists x. repeat split. discriminate.
    - intros [= <- <-]. right. exists x. repeat split. discriminate.
    - intros [= -> <-]. auto.
  Qed.

  (** * Processors that read the store to check values *)

  Definition still (x y : st) : Prop :=
    y_procs y = y_procs x /\ y_def y = y_def x /\ y_defstr y = y_defstr x /\ y_kv y = y_kv x /\ y_kvstr y = y_kvstr x /\
    k_procs y = k_procs x /\ k_kv y = k_kv x /\ k_load y = false.

  Lemma still_reads x y : still x y -> y_read_value y = y_read_value x /\ y_read_string y = y_read_string x.
  Proof.
    intros (_ & A & B & C & D & _). unfold y_read_value, y_read_string. rewrite A, B, C, D. auto.
  Qed.

  Lemma still_trans x y z : still x y -> still y z -> still x z.
  Proof. unfold still. intuition congruence. Qed.

  Section quiet.
    Hypothesis Q : loads_nothing per pol.

    Lemma load_quiet u x : k_load x = false -> exists y, n_do_load per pol clk u x = Some (y, Ret tt) /\ still x y.
    Proof.
      intros L. unfold n_do_load. rewrite L, Bool.andb_false_r. destruct (clk (w_tick (y_w x))) as [now now2].
      destruct (wants_load pol (w_last (y_w x)) now) eqn:W.
      - destruct Q as [-> | E]; [discriminate W|]. specialize (E (w_p (y_w x))). destruct (ps_load per (w_p (y_w x))) as [[p' kvs] ok].
        cbn in E. subst kvs. cbn. eexists. split; [reflexivity|]. unfold still. cbn. auto 10.
      - eexists. split; [reflexivity|]. unfold still. cbn. auto 10.
    Qed.

    Lemma get_quiet u A (read : st -> string -> option A) x k : k_load x = false -> k_kv x = false ->
      exists y, n_get per pol clk u read x k = Some (y, Ret (read y k)) /\ still x y.
    Proof.
      intros L K. unfold n_get. destruct (load_quiet u x L) as (y & -> & S). cbn [bind].
      assert (k_kv y = false) as -> by (unfold still in S; intuition congruence). exists y. auto.
    Qed.

    Lemma prog_quiet u A (p : prog V A) : inquiry p -> forall x, k_load x = false -> k_kv x = false ->
      exists y a, n_prog per pol clk u x p = Some (y, Ret a) /\ still x y /\ answer (y_read_value x) (y_read_string x) p = Some a.
    Proof.
      induction 1 as [a|key k H IH|key k H IH]; intros x L K; cbn [n_prog answer].
      - exists x, a. split; [reflexivity|]. split; [|reflexivity]. unfold still. auto 10.
      - destruct (get_quiet u _ y_read_value x key L K) as (y & -> & S). cbn [bind]. pose proof (still_reads _ _ S) as [R1 R2].
        assert (Ly : k_load y = false /\ k_kv y = false) by (unfold still in S; intuition congruence).
        destruct (IH (y_read_value y key) y (proj1 Ly) (proj2 Ly)) as (z & a & -> & S' & E). exists z, a. split; [reflexivity|].
        split; [exact (still_trans _ _ _ S S')|]. rewrite <- R1, <- R2. exact E.
      - destruct (get_quiet u _ y_read_string x key L K) as (y & -> & S). cbn [bind]. pose proof (still_reads _ _ S) as [R1 R2].
        assert (Ly : k_load y = false /\ k_kv y = false) by (unfold still in S; intuition congruence).
        destruct (IH (y_read_string y key) y (proj1 Ly) (proj2 Ly)) as (z & a & -> & S' & E). exists z, a. split; [reflexivity|].
        split; [exact (still_trans _ _ _ S S')|]. rewrite <- R1, <- R2. exact E.
    Qed.

    Definition free (x : st) : Prop :=
      k_procs x = false /\ k_kv x = false /\ k_load x = false /\ forall k p, y_procs x k = Some p -> inquirer p.

    Lemma still_free x y : free x -> still x y -> free y.
    Proof.
      intros (A & B & C & D) S. unfold still in S. destruct S as (S1 & S2 & S3 & S4 & S5 & S6 & S7 & S8).
      unfold free. rewrite S6, S7, S1. auto.
    Qed.

    Lemma update_quiet f x k v : free x -> k <> "" ->
      exists y r, n_update per pol clk (S f) x k v = Some (y, Ret r) /\ free y /\
        match y_procs x k with
        | None => r = Some (KVError k v ("key[" ++ k ++ "] not registered")%string) /\ still x y
        | Some p =>
          match answer (y_read_value x) (y_read_string x) (n_validate p v) with
          | Some (true, _) =>
            r = None /\ y_procs y = y_procs x /\ y_def y = y_def x /\ y_defstr y = y_defstr x /\
            y_kvstr y = mset (y_kvstr x) k v /\ exists c, n_convert p v = Ans c /\ y_kv y = mset (y_kv x) k c
          | Some (false, e) => r = Some (KVError k v e) /\ still x y
          | None => False
          end
        end.
    Proof.
      intros F Hk. pose proof F as (A & B & C & D). cbn [n_update]. unfold n_update_body. rewrite (seqb_neq _ _ Hk), A.
      destruct (y_procs x k) as [p|] eqn:Ep.
      2: { exists x. eexists. split; [reflexivity|]. split; [exact F|]. split; [reflexivity|]. unfold still. auto 10. }
      destruct (D k p Ep) as [I C1]. destruct (prog_quiet (n_update per pol clk f) _ _ (I v) x C B) as (y & [ok e] & -> & S & ->). cbn [bind].
      destruct ok; cbn [negb].
      - assert (k_kv y = false) as -> by (unfold still in S; intuition congruence).
        destruct (C1 v) as [c Ec]. rewrite Ec. cbn [n_prog bind]. eexists. eexists. split; [reflexivity|].
        unfold still in S. destruct S as (S1 & S2 & S3 & S4 & S5 & S6 & S7 & S8). split.
        + unfold free. cbn. rewrite S1, S6. auto.
        + cbn. rewrite S4, S5. split; [reflexivity|]. split; [exact S1|]. split; [exact S2|]. split; [exact S3|]. split; [reflexivity|].
          exists c. auto.
      - exists y. eexists. split; [reflexivity|]. split; [exact (still_free _ _ F S)|]. auto.
    Qed.

    Lemma update_free f x k v : free x -> exists y r, n_update per pol clk (S f) x k v = Some (y, Ret r) /\ free y.
    Proof.
      intros F. destruct (String.eqb_spec k "") as [->|Hk].
      - exists x, None. cbn. auto.
      - destruct (update_quiet f x k v F Hk) as (y & r & E & G & _). exists y, r. auto.
    Qed.

    Lemma in_world_free x w : free x -> free (in_world x w).
    Proof. intros H. exact H. Qed.

    Lemma get_free f A (read : st -> string -> option A) x k : free x ->
      exists y r, n_get per pol clk (n_update per pol clk f) read x k = Some (y, Ret r) /\ free y.
    Proof.
      intros F. pose proof F as (A1 & B & C & D). destruct (get_quiet (n_update per pol clk f) _ read x k C B) as (y & E & S). exists y. eexists.
      split; [exact E|exact (still_free _ _ F S)].
    Qed.

    Lemma load_free f x : free x -> exists y, n_do_load per pol clk (n_update per pol clk f) x = Some (y, Ret tt) /\ free y.
    Proof.
      intros F. pose proof F as (A1 & B & C & D). destruct (load_quiet (n_update per pol clk f) x C) as (y & E & S). exists y.
      split; [exact E|exact (still_free _ _ F S)].
    Qed.

    Lemma get_each_free f A (read : st -> string -> option A) ks : forall x, free x ->
      exists y r, n_get_each per pol clk (n_update per pol clk f) read x ks = Some (y, Ret r) /\ free y.
    Proof.
      induction ks as [|k ks IH]; intros x F; cbn [n_get_each]; [exists x, []; auto|]. destruct (k =? "")%string; [apply IH; exact F|].
      destruct (get_free f _ read x k F) as (y & r & -> & G). cbn [bind]. destruct (IH y G) as (z & rs & -> & G'). cbn [bind]. eexists _, _. eauto.
    Qed.

    Lemma each_free f kvs : forall x, free x -> exists y r, n_update_each (n_update per pol clk (S f)) x kvs = Some (y, Ret r) /\ free y.
    Proof.
      induction kvs as [|[k v] kvs IH]; intros x F; cbn [n_update_each]; [exists x, []; auto|].
      destruct (update_free f x k v F) as (y & r & -> & G). cbn [bind]. destruct (IH y G) as (z & rs & -> & G'). cbn [bind]. eexists _, _. eauto.
    Qed.

    Lemma nmap_free A B (g : A -> B) (r : reply V P A) : (exists y a, r = Some (y, Ret a) /\ free y) -> exists y b, nmap g r = Some (y, Ret b) /\ free y.
    Proof. intros (y & a & -> & F). exists y, (g a). auto. Qed.

    Lemma step_free f x o : free x -> careful_op o -> exists y r, n_step per pol clk (S f) x o = Some (y, Ret r) /\ free y.
    Proof.
      intros F Co. pose proof F as (A & B & C & D). unfold n_step.
      destruct o as [k d vp|k|k v|k v|kvs|k|k|k|k|k|ks|ks]; apply nmap_free.
      - unfold n_register_key. destruct (k =? "")%string; [exists x; eexists; auto|]. destruct vp as [p|]; [|exists x; eexists; auto].
        rewrite A, B. cbv zeta. cbn [lock_kv lock_procs locks y_procs y_def].
        assert (F1 : free (lock_procs (lock_kv (lock_kv (lock_procs x true) true) false) false)) by (unfold free; cbn; auto).
        destruct (y_procs x k); [eexists _, _; split; [reflexivity|exact F1]|]. destruct (y_def x k); [eexists _, _; split; [reflexivity|exact F1]|].
        cbn in Co. destruct Co as [[I1 I2] [[ok e] Ea]]. rewrite Ea. cbn [n_prog bind]. destruct ok; cbn [negb]; [|eexists _, _; split; [reflexivity|exact F1]].
        destruct (I2 d) as [c Ec]. rewrite Ec. cbn [n_prog bind deferred]. eexists _, _. split; [reflexivity|]. unfold free. cbn.
        repeat split; auto. intros v. revert H. unfold mset. destruct (k0 =? k)%string; [intros [= <-]; apply I1|intros H; exact (proj1 (D _ _ H) v)].
        intros v. revert H. unfold mset. destruct (k0 =? k)%string; [intros [= <-]; apply I2|intros H; exact (proj2 (D _ _ H) v)].
      - unfold n_deregister_key. destruct (k =? "")%string; [exists x; eexists; auto|]. rewrite A, B. eexists _, _. split; [reflexivity|].
        unfold free. cbn. repeat split; auto; revert H; unfold mdel; (destruct (k0 =? k)%string; [discriminate|]); intros H; apply (D _ _ H).
      - unfold n_update_save. destruct (update_free f x k v F) as (y & r & -> & G). cbn [bind]. destruct r; [|eexists _, _; auto].
        destruct (ps_save per (w_p (y_w y)) k v). eexists _, _. split; [reflexivity|exact G].
      - apply update_free, F.
      - unfold n_batch_update. destruct kvs as [|kv kvs]; [eexists _, _; auto|]. destruct (each_free f (kv :: kvs) x F) as (y & r & -> & G).
        cbn [bind]. eexists _, _. split; [reflexivity|exact G].
      - unfold n_reset_key. rewrite B. eexists _, _. split; [reflexivity|]. unfold free. cbn. auto.
      - apply get_free, F.
      - apply get_free, F.
      - unfold n_must_get. destruct (load_free (S f) x F) as (y & -> & G). apply get_free, G.
      - unfold n_must_get. destruct (load_free (S f) x F) as (y & -> & G). apply get_free, G.
      - unfold n_batch_get. destruct (load_free (S f) x F) as (y & -> & G). apply get_each_free, G.
      - unfold n_batch_get. destruct (load_free (S f) x F) as (y & -> & G). apply get_each_free, G.
    Qed.

    Lemma run_free f os : forall x, free x -> Forall careful_op os ->
      exists y rs, n_run per pol clk (S f) x os = Some (y, map Ret rs) /\ free y.
    Proof.
      induction os as [|o os IH]; intros x F Co; cbn [n_run]; [exists x, []; auto|].
      destruct (step_free f x o F (Forall_inv Co)) as (y & r & -> & G). destruct (IH y G (Forall_inv_tail Co)) as (z & rs & -> & G').
      exists z, (r :: rs). auto.
    Qed.
  End quiet.

  Lemma new_free w : free (new_nsw w).
  Proof. unfold free. cbn. repeat split; auto; discriminate. Qed.

  (** * What calls within calls leave as it is *)

  Section keep.
    Variable K : st -> Prop.
    Variable u : updater.
    Hypothesis Kl : forall x y f, K x -> n_do_load per pol clk u x = Some (y, f) -> K y.
    Hypothesis Kr : forall x k y f, K x -> n_reset_key per x k = Some (y, f) -> K y.
    Hypothesis Ku : forall x k v y f, K x -> u x k v = Some (y, f) -> K y.

    Lemma get_keeps A (read : st -> string -> option A) x k y f : K x -> n_get per pol clk u read x k = Some (y, f) -> K y.
    Proof.
      intros H E. apply bind_inv in E. destruct E as [(z & a & E & E2)|[[E _]|[E _]]]; [|exact (Kl _ _ _ H E)..].
      pose proof (Kl _ _ _ H E) as Hz. destruct (k_kv z); injection E2 as <- <-; exact Hz.
    Qed.

    Lemma prog_keeps A (p : prog V A) : forall x y f, K x -> n_prog per pol clk u x p = Some (y, f) -> K y.
    Proof.
      induction p as [a| |key k IH|key k IH|key value k IH|key k IH]; intros x y f H E; cbn [n_prog] in E; try (injection E as <- <-; exact H);
        apply bind_inv in E.
      - destruct E as [(z & a & E & E2)|[[E _]|[E _]]]; pose proof (get_keeps _ _ _ _ _ _ H E) as Hz; [exact (IH _ _ _ _ Hz E2)|exact Hz..].
      - destruct E as [(z & a & E & E2)|[[E _]|[E _]]]; pose proof (get_keeps _ _ _ _ _ _ H E) as Hz; [exact (IH _ _ _ _ Hz E2)|exact Hz..].
      - destruct E as [(z & a & E & E2)|[[E _]|[E _]]]; pose proof (Ku _ _ _ _ _ H E) as Hz; [exact (IH _ _ _ _ Hz E2)|exact Hz..].
      - destruct E as [(z & a & E & E2)|[[E _]|[E _]]]; pose proof (Kr _ _ _ _ H E) as Hz; [exact (IH _ _ _ Hz E2)|exact Hz..].
    Qed.

    Lemma entries_keep kvs : forall x y f, K x -> n_load_entries u x kvs = Some (y, f) -> K y.
    Proof.
      induction kvs as [|[k v] kvs IH]; intros x y f H E; cbn in E; [injection E as <- <-; exact H|]. apply bind_inv in E.
      destruct E as [(z & a & E & E2)|[[E _]|[E _]]]; pose proof (Ku _ _ _ _ _ H E) as Hz; [exact (IH _ _ _ Hz E2)|exact Hz..].
    Qed.

    Lemma each_keeps kvs : forall x y f, K x -> n_update_each u x kvs = Some (y, f) -> K y.
    Proof.
      induction kvs as [|[k v] kvs IH]; intros x y f H E; cbn in E; [injection E as <- <-; exact H|]. apply bind_inv in E.
      destruct E as [(z & a & E & E2)|[[E _]|[E _]]]; pose proof (Ku _ _ _ _ _ H E) as Hz; [|exact Hz..]. apply bind_inv in E2.
      destruct E2 as [(t & b & E2 & E3)|[[E2 _]|[E2 _]]]; pose proof (IH _ _ _ Hz E2) as Ht; [injection E3 as <- <-; exact Ht|exact Ht..].
    Qed.

    Lemma get_each_keeps A (read : st -> string -> option A) ks : forall x y f, K x -> n_get_each per pol clk u read x ks = Some (y, f) -> K y.
    Proof.
      induction ks as [|k ks IH]; intros x y f H E; cbn [n_get_each] in E; [injection E as <- <-; exact H|]. destruct (k =? "")%string; [exact (IH _ _ _ H E)|].
      apply bind_inv in E. destruct E as [(z & a & E & E2)|[[E _]|[E _]]]; pose proof (get_keeps _ _ _ _ _ _ H E) as Hz; [|exact Hz..]. apply bind_inv in E2.
      destruct E2 as [(t & b & E2 & E3)|[[E2 _]|[E2 _]]]; pose proof (IH _ _ _ Hz E2) as Ht; [injection E3 as <- <-; exact Ht|exact Ht..].
    Qed.
  End keep.

  (** A property of the state that reading the clock and changing persister and loadLock do not change. *)
  Definition outer (K : st -> Prop) : Prop := forall x w b, K (lock_load (in_world x w) b) <-> K x.

  Lemma load_keeps (K : st -> Prop) u x y f : outer K -> (forall x k v y f, K x -> u x k v = Some (y, f) -> K y) ->
    K x -> n_do_load per pol clk u x = Some (y, f) -> K y.
  Proof.
    intros O Ku H E. unfold n_do_load in E. destruct (has_lock pol && k_load x); [injection E as <- <-; exact H|].
    destruct (clk (w_tick (y_w x))) as [now now2]. destruct (wants_load pol (w_last (y_w x)) now).
    - destruct (ps_load per (w_p (y_w x))) as [[p' kvs] ok].
      assert (H1 : K (in_world (lock_load x (has_lock pol)) (World p' (w_last (y_w x)) (S (w_tick (y_w x)))))) by (apply (O x (World p' (w_last (y_w x)) (S (w_tick (y_w x)))) (has_lock pol)); exact H).
      assert (R : forall z g, bind (n_load_entries u (in_world (lock_load x (has_lock pol)) (World p' (w_last (y_w x)) (S (w_tick (y_w x))))) kvs)
                   (fun x2 _ => Some (in_world x2 (World (w_p (y_w x2)) (after_load pol (w_last (y_w x2)) ok now2) (w_tick (y_w x2))), Ret tt)) = Some (z, g) -> K z).
      { intros z g B. apply bind_inv in B. destruct B as [(t & a & B & B2)|[[B _]|[B _]]]; pose proof (entries_keep K u Ku kvs _ _ _ H1 B) as Hz; [|exact Hz..].
        injection B2 as <- <-. apply (O t (World (w_p (y_w t)) (after_load pol (w_last (y_w t)) ok now2) (w_tick (y_w t))) (k_load t)). exact Hz. }
      apply deferred_inv in E. destruct E as [[E _]|(z & E & -> & _)]; [exact (R _ _ E)|]. apply (O z (y_w z) false). exact (R _ _ E).
    - injection E as <- <-. apply (O x (World (w_p (y_w x)) (w_last (y_w x)) (S (w_tick (y_w x)))) false). exact H.
  Qed.

  (** kvLock *)
  Definition kv_locked (x : st) : Prop := k_kv x = true.
  Lemma kv_outer : outer kv_locked.
  Proof. intros x w b. reflexivity. Qed.
  Lemma kv_reset x k y f : kv_locked x -> n_reset_key per x k = Some (y, f) -> kv_locked y /\ f = Stuck.
  Proof. unfold kv_locked, n_reset_key. intros H. rewrite H. intros [= <- <-]. auto. Qed.

  Lemma kv_update n : forall x k v y f, kv_locked x -> n_update per pol clk n x k v = Some (y, f) -> kv_locked y.
  Proof.
    induction n as [|n IH]; intros x k v y f H E; [discriminate|]. cbn [n_update] in E. unfold n_update_body in E.
    destruct (k =? "")%string; [injection E as <- <-; exact H|]. destruct (k_procs x); [injection E as <- <-; exact H|].
    destruct (y_procs x k) as [p|]; [|injection E as <- <-; exact H].
    assert (Kp : forall A (q : prog V A) x y f, kv_locked x -> n_prog per pol clk (n_update per pol clk n) x q = Some (y, f) -> kv_locked y).
    { intros A q. apply prog_keeps; [|intros ? ? ? ? Hx Ex; exact (proj1 (kv_reset _ _ _ _ Hx Ex))|exact IH].
      intros ? ? ? Hx Ex. exact (load_keeps _ _ _ _ _ kv_outer IH Hx Ex). }
    apply bind_inv in E. destruct E as [(z & [ok e] & E & E2)|[[E _]|[E _]]]; pose proof (Kp _ _ _ _ _ H E) as Hz; [|exact Hz..].
    destruct (negb ok); [injection E2 as <- <-; exact Hz|]. unfold kv_locked in Hz. rewrite Hz in E2. injection E2 as <- <-. exact Hz.
  Qed.

  Lemma kv_load n x y f : kv_locked x -> n_do_load per pol clk (n_update per pol clk n) x = Some (y, f) -> kv_locked y.
  Proof. intros H E. exact (load_keeps _ _ _ _ _ kv_outer (kv_update n) H E). Qed.

  Lemma kv_get n A (read : st -> string -> option A) x k y f : kv_locked x -> n_get per pol clk (n_update per pol clk n) read x k = Some (y, f) ->
    kv_locked y /\ forall a, f <> Ret a.
  Proof.
    intros H E. apply bind_inv in E. destruct E as [(z & a & E & E2)|[[E ->]|[E ->]]]; pose proof (kv_load _ _ _ _ H E) as Hz; [|split; [exact Hz|discriminate]..].
    unfold kv_locked in Hz. rewrite Hz in E2. injection E2 as <- <-. split; [exact Hz|discriminate].
  Qed.

  Lemma kv_get_each n A (read : st -> string -> option A) ks : forall x y f, kv_locked x -> n_get_each per pol clk (n_update per pol clk n) read x ks = Some (y, f) ->
    kv_locked y /\ ((exists k, In k ks /\ k <> "") -> forall a, f <> Ret a).
  Proof.
    induction ks as [|k ks IH]; intros x y f H E; cbn [n_get_each] in E.
    - injection E as <- <-. split; [exact H|]. intros (k & [] & _).
    - destruct (String.eqb_spec k "") as [->|Hk].
      + destruct (IH _ _ _ H E) as [A1 A2]. split; [exact A1|]. intros (k & [<- |Hin] & N); [congruence|]. apply A2. exists k. auto.
      + apply bind_inv in E. destruct E as [(z & a & E & E2)|[[E ->]|[E ->]]]; destruct (kv_get _ _ _ _ _ _ _ H E) as [Hz N];
          [exfalso; exact (N _ eq_refl)|split; [exact Hz|discriminate]..].
  Qed.

  Lemma nmap_inv A B (g : A -> B) (r : reply V P A) y f : nmap g r = Some (y, f) ->
    (exists a, r = Some (y, Ret a) /\ f = Ret (g a)) \/ (r = Some (y, Boom) /\ f = Boom) \/ (r = Some (y, Stuck) /\ f = Stuck).
  Proof.
    intros H. apply bind_inv in H. destruct H as [(x & a & H & [= <- <-])|H]; [left; exists a; auto|auto].
  Qed.

  Lemma kv_step n x o y f : kv_locked x -> n_step per pol clk n x o = Some (y, f) -> kv_locked y /\ (using_values o -> forall r, f <> Ret r).
  Proof.
    intros H E.
    assert (W : forall A (g : A -> sres V) (r : reply V P A) (N : Prop), nmap g r = Some (y, f) ->
      (forall z h, r = Some (z, h) -> kv_locked z /\ (N -> forall a, h <> Ret a)) -> kv_locked y /\ (N -> forall a, f <> Ret a)).
    { intros A g r N G R. apply nmap_inv in G. destruct G as [(a & G & ->)|[[G ->]|[G ->]]]; destruct (R _ _ G) as [A1 A2]; (split; [exact A1|]); [|discriminate..].
      intros HN b _. exact (A2 HN a eq_refl). }
    unfold n_step in E. destruct o as [k d vp|k|k v|k v|kvs|k|k|k|k|k|ks|ks]; apply (W _ _ _ _ E); clear W E; intros z h E; cbn [using_values].
    - unfold n_register_key in E. destruct (String.eqb_spec k "") as [->|Hk].
      { injection E as <- <-. split; [exact H|]. destruct vp; [congruence|contradiction]. }
      destruct vp as [p|]; [|injection E as <- <-; split; [exact H|contradiction]].
      destruct (k_procs x); [injection E as <- <-; split; [exact H|discriminate]|]. unfold kv_locked in H. rewrite H in E. injection E as <- <-.
      split; [exact H|discriminate].
    - unfold n_deregister_key in E. destruct (String.eqb_spec k "") as [->|Hk]; [injection E as <- <-; split; [exact H|congruence]|].
      destruct (k_procs x); [injection E as <- <-; split; [exact H|discriminate]|]. unfold kv_locked in H. rewrite H in E. injection E as <- <-.
      split; [exact H|discriminate].
    - apply bind_inv in E. destruct E as [(t & a & E & E2)|[[E ->]|[E ->]]]; pose proof (kv_update _ _ _ _ _ _ H E) as Hz; [|split; [exact Hz|contradiction]..].
      destruct a; [|injection E2 as <- <-; split; [exact Hz|contradiction]]. destruct (ps_save per (w_p (y_w t)) k v). injection E2 as <- <-. split; [exact Hz|contradiction].
    - split; [exact (kv_update _ _ _ _ _ _ H E)|contradiction].
    - unfold n_batch_update in E. destruct kvs as [|kv kvs]; [injection E as <- <-; split; [exact H|contradiction]|].
      apply bind_inv in E. destruct E as [(t & a & E & E2)|[[E ->]|[E ->]]]; pose proof (each_keeps kv_locked _ (kv_update n) _ _ _ _ H E) as Hz; [|split; [exact Hz|contradiction]..].
      injection E2 as <- <-. split; [exact Hz|contradiction].
    - destruct (kv_reset _ _ _ _ H E) as [A1 ->]. split; [exact A1|discriminate].
    - destruct (kv_get _ _ _ _ _ _ _ H E) as [A1 A2]. auto.
    - destruct (kv_get _ _ _ _ _ _ _ H E) as [A1 A2]. auto.
    - apply bind_inv in E. destruct E as [(t & a & E & E2)|[[E ->]|[E ->]]]; pose proof (kv_load _ _ _ _ H E) as Hz; [|split; [exact Hz|discriminate]..].
      destruct (kv_get _ _ _ _ _ _ _ Hz E2) as [A1 A2]. auto.
    - apply bind_inv in E. destruct E as [(t & a & E & E2)|[[E ->]|[E ->]]]; pose proof (kv_load _ _ _ _ H E) as Hz; [|split; [exact Hz|discriminate]..].
      destruct (kv_get _ _ _ _ _ _ _ Hz E2) as [A1 A2]. auto.
    - apply bind_inv in E. destruct E as [(t & a & E & E2)|[[E ->]|[E ->]]]; pose proof (kv_load _ _ _ _ H E) as Hz; [|split; [exact Hz|discriminate]..].
      exact (kv_get_each _ _ _ _ _ _ _ Hz E2).
    - apply bind_inv in E. destruct E as [(t & a & E & E2)|[[E ->]|[E ->]]]; pose proof (kv_load _ _ _ _ H E) as Hz; [|split; [exact Hz|discriminate]..].
      exact (kv_get_each _ _ _ _ _ _ _ Hz E2).
  Qed.

  Lemma run_keeps (K : st -> Prop) : (forall n x o y f, K x -> n_step per pol clk n x o = Some (y, f) -> K y) ->
    forall n os x y fs, K x -> n_run per pol clk n x os = Some (y, fs) -> K y.
  Proof.
    intros St n os. induction os as [|o os IH]; intros x y fs H E; cbn in E; [injection E as <- <-; exact H|].
    destruct (n_step per pol clk n x o) as [[z f]|] eqn:S; [|discriminate]. destruct (n_run per pol clk n z os) as [[t gs]|] eqn:R; [|discriminate].
    injection E as <- <-. exact (IH _ _ _ (St _ _ _ _ _ H S) R).
  Qed.

  Lemma kv_run n os x y fs : kv_locked x -> n_run per pol clk n x os = Some (y, fs) -> kv_locked y.
  Proof. apply run_keeps. intros ? ? ? ? ? H E. exact (proj1 (kv_step _ _ _ _ _ H E)). Qed.

  (** A program that starts with a use of the values, while kvLock is held. *)
  Lemma kv_prog n A (p : prog V A) x y f : kv_locked x -> needs_values_first p -> n_prog per pol clk (n_update per pol clk n) x p = Some (y, f) ->
    kv_locked y /\ forall a, f <> Ret a.
  Proof.
    intros H N E. destruct p as [a| |key k|key k|key value k|key k]; try contradiction; cbn [n_prog] in E; apply bind_inv in E.
    - destruct E as [(z & a & E & E2)|[[E ->]|[E ->]]]; destruct (kv_get _ _ _ _ _ _ _ H E) as [Hz Nz]; [exfalso; exact (Nz _ eq_refl)|split; [exact Hz|discriminate]..].
    - destruct E as [(z & a & E & E2)|[[E ->]|[E ->]]]; destruct (kv_get _ _ _ _ _ _ _ H E) as [Hz Nz]; [exfalso; exact (Nz _ eq_refl)|split; [exact Hz|discriminate]..].
    - destruct E as [(z & a & E & E2)|[[E ->]|[E ->]]]; destruct (kv_reset _ _ _ _ H E) as [Hz Nz]; [discriminate|split; [exact Hz|discriminate]..].
  Qed.

  (** Converting under kvLock. *)
  Lemma convert_blocks n x k v p e y f : k <> "" -> y_procs x k = Some p -> n_validate p v = Ans (true, e) -> needs_values_first (n_convert p v) ->
    k_procs x = false -> k_kv x = false ->
    n_update per pol clk n x k v = Some (y, f) -> kv_locked y /\ forall a, f <> Ret a.
  Proof.
    intros Hk Ep Ev N L1 L2 E. destruct n as [|n]; [discriminate|]. cbn [n_update] in E. unfold n_update_body in E.
    rewrite (seqb_neq _ _ Hk), L1, Ep, Ev in E. cbn [n_prog bind negb] in E. rewrite L2 in E. apply bind_inv in E.
    assert (H : kv_locked (lock_kv x true)) by reflexivity.
    destruct E as [(z & a & E & E2)|[[E ->]|[E ->]]]; destruct (kv_prog _ _ _ _ _ _ H N E) as [Hz Nz]; [exfalso; exact (Nz _ eq_refl)|split; [exact Hz|discriminate]..].
  Qed.

  (** * kvProcessorLock *)

  Definition procs_are (m : smap (nproc V)) (b : bool) (x : st) : Prop := y_procs x = m /\ k_procs x = b.
  Lemma procs_outer m b : outer (procs_are m b).
  Proof. intros x w c. reflexivity. Qed.
  Lemma procs_reset m b x k y f : procs_are m b x -> n_reset_key per x k = Some (y, f) -> procs_are m b y.
  Proof. unfold n_reset_key. intros H. destruct (k_kv x); intros [= <- <-]; exact H. Qed.

  Lemma procs_update m b n : forall x k v y f, procs_are m b x -> n_update per pol clk n x k v = Some (y, f) -> procs_are m b y.
  Proof.
    induction n as [|n IH]; intros x k v y f H E; [discriminate|]. cbn [n_update] in E. unfold n_update_body in E.
    destruct (k =? "")%string; [injection E as <- <-; exact H|]. destruct (k_procs x); [injection E as <- <-; exact H|].
    destruct (y_procs x k) as [p|]; [|injection E as <- <-; exact H].
    assert (Kp : forall A (q : prog V A) x y f, procs_are m b x -> n_prog per pol clk (n_update per pol clk n) x q = Some (y, f) -> procs_are m b y).
    { intros A q. apply prog_keeps; [|intros ? ? ? ? Hx Ex; exact (procs_reset _ _ _ _ _ _ Hx Ex)|exact IH].
      intros ? ? ? Hx Ex. exact (load_keeps _ _ _ _ _ (procs_outer m b) IH Hx Ex). }
    apply bind_inv in E. destruct E as [(z & [ok e] & E & E2)|[[E _]|[E _]]]; pose proof (Kp _ _ _ _ _ H E) as Hz; [|exact Hz..].
    destruct (negb ok); [injection E2 as <- <-; exact Hz|]. destruct (k_kv z); [injection E2 as <- <-; exact Hz|].
    apply bind_inv in E2. assert (Hz1 : procs_are m b (lock_kv z true)) by exact Hz.
    destruct E2 as [(t & c & E2 & E3)|[[E2 _]|[E2 _]]]; pose proof (Kp _ _ _ _ _ Hz1 E2) as Ht; [|exact Ht..]. injection E3 as <- <-. exact Ht.
  Qed.

  Lemma procs_load m b n x y f : procs_are m b x -> n_do_load per pol clk (n_update per pol clk n) x = Some (y, f) -> procs_are m b y.
  Proof. intros H E. exact (load_keeps _ _ _ _ _ (procs_outer m b) (procs_update m b n) H E). Qed.

  Lemma procs_prog m b n A (p : prog V A) x y f : procs_are m b x -> n_prog per pol clk (n_update per pol clk n) x p = Some (y, f) -> procs_are m b y.
  Proof.
    apply prog_keeps; [|intros ? ? ? ? Hx Ex; exact (procs_reset _ _ _ _ _ _ Hx Ex)|apply procs_update].
    intros ? ? ? Hx Ex. exact (procs_load _ _ _ _ _ _ Hx Ex).
  Qed.

  (** Registering with both locks held. *)
  Lemma register_blocks n x k d p y f : k <> "" -> y_procs x k = None -> y_def x k = None -> calls_first (n_validate p d) ->
    k_procs x = false -> k_kv x = false ->
    n_register_key per pol clk (n_update per pol clk n) x k d (Some p) = Some (y, f) ->
    (forall a, f <> Ret a) /\ (f = Stuck -> kv_locked y /\ k_procs y = true).
  Proof.
    intros Hk Ep Ed N L1 L2 E. unfold n_register_key in E. rewrite (seqb_neq _ _ Hk), L1, L2 in E. cbv zeta in E. cbn [lock_kv lock_procs locks y_procs y_def] in E.
    rewrite Ep, Ed in E. set (x1 := lock_kv (lock_procs x true) true) in E.
    assert (H1 : kv_locked x1) by reflexivity. assert (H2 : procs_are (y_procs x) true x1) by (split; reflexivity).
    assert (R : forall z g, n_prog per pol clk (n_update per pol clk n) x1 (n_validate p d) = Some (z, g) -> (forall a, g <> Ret a) /\ kv_locked z /\ k_procs z = true).
    { intros z g G. pose proof (proj2 (procs_prog _ _ _ _ _ _ _ _ H2 G)) as Pz.
      destruct (n_validate p d) as [a| |key c|key c|key value c|key c] eqn:Ev; try contradiction.
      4: { destruct (kv_prog n _ (DoReset key c) x1 z g H1 I G). auto. }
      1: { destruct (kv_prog n _ (AskVal key c) x1 z g H1 I G). auto. }
      1: { destruct (kv_prog n _ (AskStr key c) x1 z g H1 I G). auto. }
      cbn [calls_first] in N. cbn [n_prog] in G. destruct n as [|n]; [discriminate G|]. cbn [n_update] in G. unfold n_update_body in G. rewrite (seqb_neq _ _ N) in G.
      cbn [k_procs x1] in G. cbn in G. injection G as <- <-. split; [discriminate|]. split; [reflexivity|reflexivity]. }
    apply deferred_inv in E. destruct E as [[E ->]|(z & E & -> & Nf)]; apply bind_inv in E.
    - split; [discriminate|]. intros _. destruct E as [(t & a & E & _)|[[E ?]|[E _]]]; [exfalso; exact (proj1 (R _ _ E) a eq_refl)|discriminate|exact (proj2 (R _ _ E))].
    - destruct E as [(t & a & E & _)|[[E ->]|[E ->]]]; [exfalso; exact (proj1 (R _ _ E) a eq_refl)|split; discriminate|congruence].
  Qed.

  (** * loadLock *)

  Section interval.
    Hypothesis HL : has_lock pol = true.
    Definition load_locked (x : st) : Prop := k_load x = true.

    Lemma ll_load u x : load_locked x -> n_do_load per pol clk u x = Some (x, Stuck).
    Proof. intros H. unfold n_do_load. unfold load_locked in H. rewrite HL, H. reflexivity. Qed.

    Lemma ll_reset x k y f : load_locked x -> n_reset_key per x k = Some (y, f) -> load_locked y.
    Proof. unfold n_reset_key. intros H. destruct (k_kv x); intros [= <- <-]; exact H. Qed.

    Lemma ll_prog u A (p : prog V A) : (forall x k v y f, load_locked x -> u x k v = Some (y, f) -> load_locked y) ->
      forall x y f, load_locked x -> n_prog per pol clk u x p = Some (y, f) -> load_locked y.
    Proof.
      intros Ku. apply prog_keeps; [|intros ? ? ? ? Hx Ex; exact (ll_reset _ _ _ _ Hx Ex)|exact Ku].
      intros ? ? ? Hx Ex. rewrite (ll_load _ _ Hx) in Ex. injection Ex as <- <-. exact Hx.
    Qed.

    Lemma ll_update n : forall x k v y f, load_locked x -> n_update per pol clk n x k v = Some (y, f) -> load_locked y.
    Proof.
      induction n as [|n IH]; intros x k v y f H E; [discriminate|]. cbn [n_update] in E. unfold n_update_body in E.
      destruct (k =? "")%string; [injection E as <- <-; exact H|]. destruct (k_procs x); [injection E as <- <-; exact H|].
      destruct (y_procs x k) as [p|]; [|injection E as <- <-; exact H].
      apply bind_inv in E. destruct E as [(z & [ok e] & E & E2)|[[E _]|[E _]]]; pose proof (ll_prog _ _ _ IH _ _ _ H E) as Hz; [|exact Hz..].
      destruct (negb ok); [injection E2 as <- <-; exact Hz|]. destruct (k_kv z); [injection E2 as <- <-; exact Hz|].
      apply bind_inv in E2. assert (Hz1 : load_locked (lock_kv z true)) by exact Hz.
      destruct E2 as [(t & c & E2 & E3)|[[E2 _]|[E2 _]]]; pose proof (ll_prog _ _ _ IH _ _ _ Hz1 E2) as Ht; [|exact Ht..]. injection E3 as <- <-. exact Ht.
    Qed.

    Lemma ll_reading n x o : load_locked x -> reading o -> n_step per pol clk n x o = Some (x, Stuck).
    Proof.
      intros H R. unfold n_step. destruct o; try contradiction; unfold n_must_get, n_batch_get, n_get; rewrite (ll_load _ _ H); reflexivity.
    Qed.

    Lemma ll_step n x o y f : load_locked x -> n_step per pol clk n x o = Some (y, f) -> load_locked y.
    Proof.
      intros H E. assert (Rd : reading o -> load_locked y).
      { intros R. rewrite (ll_reading n x o H R) in E. injection E as <- <-. exact H. }
      unfold n_step in E. destruct o as [k d vp|k|k v|k v|kvs|k|k|k|k|k|ks|ks]; try (apply Rd; exact I); clear Rd;
        assert (W : forall A (g : A -> sres V) (r : reply V P A), nmap g r = Some (y, f) -> exists h, r = Some (y, h)) by
          (intros A g r G; apply nmap_inv in G; destruct G as [(a & G & _)|[[G _]|[G _]]]; eexists; exact G);
        apply W in E; clear W; destruct E as [h E].
      - unfold n_register_key in E. destruct (k =? "")%string; [injection E as <- <-; exact H|]. destruct vp as [p|]; [|injection E as <- <-; exact H].
        destruct (k_procs x); [injection E as <- <-; exact H|]. destruct (k_kv x); [injection E as <- <-; exact H|].
        assert (H1 : load_locked (lock_kv (lock_procs x true) true)) by exact H. cbv zeta in E.
        set (x1 := lock_kv (lock_procs x true) true) in *. clearbody x1.
        apply deferred_inv in E.
        assert (R : forall z g, match y_procs x1 k with
            | Some _ => Some (x1, Ret (Some ("key[" ++ k ++ "] ValueProcessor duplicated")%string))
            | None => match y_def x1 k with
              | Some _ => Some (x1, Ret (Some ("key[" ++ k ++ "] default value duplicated")%string))
              | None => bind (n_prog per pol clk (n_update per pol clk n) x1 (n_validate p d)) (fun x2 r => let (ok, err) := r in
                  if negb ok then Some (x2, Ret (Some err))
                  else bind (n_prog per pol clk (n_update per pol clk n) x2 (n_convert p d)) (fun x3 c =>
                    Some (NSW (mset (y_procs x3) k p) (mset (y_def x3) k c) (mset (y_defstr x3) k d)
                          (y_kv x3) (y_kvstr x3) (y_w x3) (k_procs x3) (k_kv x3) (k_load x3), Ret None)))
              end end = Some (z, g) -> load_locked z).
        { intros z g G. destruct (y_procs x1 k); [injection G as <- <-; exact H1|]. destruct (y_def x1 k); [injection G as <- <-; exact H1|].
          apply bind_inv in G. destruct G as [(t & [ok e] & G & G2)|[[G _]|[G _]]]; pose proof (ll_prog _ _ _ (ll_update n) _ _ _ H1 G) as Hz; [|exact Hz..].
          destruct (negb ok); [injection G2 as <- <-; exact Hz|]. apply bind_inv in G2.
          destruct G2 as [(t2 & c & G2 & G3)|[[G2 _]|[G2 _]]]; pose proof (ll_prog _ _ _ (ll_update n) _ _ _ Hz G2) as Ht; [|exact Ht..]. injection G3 as <- <-. exact Ht. }
        destruct E as [[E _]|(z & E & -> & _)]; exact (R _ _ E).
      - unfold n_deregister_key in E. destruct (k =? "")%string; [injection E as <- <-; exact H|]. destruct (k_procs x); [injection E as <- <-; exact H|].
        destruct (k_kv x); injection E as <- <-; exact H.
      - apply bind_inv in E. destruct E as [(t & a & E & E2)|[[E _]|[E _]]]; pose proof (ll_update _ _ _ _ _ _ H E) as Hz; [|exact Hz..].
        destruct a; [|injection E2 as <- <-; exact Hz]. destruct (ps_save per (w_p (y_w t)) k v). injection E2 as <- <-. exact Hz.
      - exact (ll_update _ _ _ _ _ _ H E).
      - unfold n_batch_update in E. destruct kvs as [|kv kvs]; [injection E as <- <-; exact H|].
        apply bind_inv in E. destruct E as [(t & a & E & E2)|[[E _]|[E _]]]; pose proof (each_keeps load_locked _ (ll_update n) _ _ _ _ H E) as Hz; [|exact Hz..].
        injection E2 as <- <-. exact Hz.
      - exact (ll_reset _ _ _ _ H E).
    Qed.

    Lemma ll_run n os x y fs : load_locked x -> n_run per pol clk n x os = Some (y, fs) -> load_locked y.
    Proof. apply run_keeps. apply ll_step. Qed.

    (** A load that meets a value whose check reads the store. *)
    Lemma entry_blocks n x k v p m b y f : load_locked x -> procs_are m b x -> m k = Some p -> k <> "" -> asks_first (n_validate p v) ->
      n_update per pol clk n x k v = Some (y, f) -> f = Stuck.
    Proof.
      intros H [Hm Hb] Ep Hk N E. destruct n as [|n]; [discriminate|]. cbn [n_update] in E. unfold n_update_body in E.
      rewrite (seqb_neq _ _ Hk), Hm, Ep in E. destruct (k_procs x); [injection E as <- <-; reflexivity|].
      destruct (n_validate p v); try contradiction; cbn [n_prog] in E; unfold n_get in E; rewrite (ll_load _ _ H) in E; cbn [bind] in E; injection E as <- <-; reflexivity.
    Qed.

    Lemma entries_block n kvs : forall x k v p m b y f, load_locked x -> procs_are m b x -> m k = Some p -> k <> "" -> asks_first (n_validate p v) -> In (k, v) kvs ->
      n_load_entries (n_update per pol clk n) x kvs = Some (y, f) -> forall a, f <> Ret a.
    Proof.
      induction kvs as [|[k0 v0] kvs IH]; intros x k v p m b y f H Hp Ep Hk N Hin E a; [destruct Hin|]. cbn in E. apply bind_inv in E.
      destruct E as [(z & c & E & E2)|[[E ->]|[E ->]]]; [|discriminate..]. destruct Hin as [[= -> ->]|Hin].
      - pose proof (entry_blocks _ _ _ _ _ _ _ _ _ H Hp Ep Hk N E). discriminate.
      - exact (IH _ _ _ _ _ _ _ _ (ll_update _ _ _ _ _ _ H E) (procs_update _ _ _ _ _ _ _ _ Hp E) Ep Hk N Hin E2 a).
    Qed.

    Lemma load_blocks n x k v p y f : wants_load pol (w_last (y_w x)) (fst (clk (w_tick (y_w x)))) = true ->
      In (k, v) (snd (fst (ps_load per (w_p (y_w x))))) -> y_procs x k = Some p -> k <> "" -> asks_first (n_validate p v) ->
      n_do_load per pol clk (n_update per pol clk n) x = Some (y, f) -> (forall a, f <> Ret a) /\ (f = Stuck -> load_locked y).
    Proof.
      intros W Hin Ep Hk N E. unfold n_do_load in E. rewrite HL in E. cbn [andb] in E. destruct (k_load x) eqn:L.
      { injection E as <- <-. split; [discriminate|]. intros _. exact L. }
      destruct (clk (w_tick (y_w x))) as [now now2]. cbn in W. rewrite W in E. destruct (ps_load per (w_p (y_w x))) as [[p' kvs] ok]. cbn in Hin.
      set (x1 := in_world (lock_load x true) (World p' (w_last (y_w x)) (S (w_tick (y_w x))))) in E.
      assert (H1 : load_locked x1) by reflexivity. assert (H2 : procs_are (y_procs x) (k_procs x) x1) by (split; reflexivity).
      assert (R : forall z g, n_load_entries (n_update per pol clk n) x1 kvs = Some (z, g) -> (forall a, g <> Ret a) /\ load_locked z).
      { intros z g G. split; [exact (entries_block _ _ _ _ _ _ _ _ _ _ H1 H2 Ep Hk N Hin G)|].
        exact (entries_keep load_locked _ (ll_update n) _ _ _ _ H1 G). }
      apply deferred_inv in E. destruct E as [[E ->]|(z & E & -> & Nf)]; apply bind_inv in E.
      - split; [discriminate|]. intros _. destruct E as [(t & a & E & _)|[[E ?]|[E _]]]; [exfalso; exact (proj1 (R _ _ E) a eq_refl)|discriminate|exact (proj2 (R _ _ E))].
      - destruct E as [(t & a & E & _)|[[E ->]|[E ->]]]; [exfalso; exact (proj1 (R _ _ E) a eq_refl)|split; discriminate|congruence].
    Qed.

    Lemma reading_blocks n x o k v p y f : wants_load pol (w_last (y_w x)) (fst (clk (w_tick (y_w x)))) = true ->
      In (k, v) (snd (fst (ps_load per (w_p (y_w x))))) -> y_procs x k = Some p -> k <> "" -> asks_first (n_validate p v) -> reading o ->
      n_step per pol clk n x o = Some (y, f) -> (forall r, f <> Ret r) /\ (f = Stuck -> load_locked y).
    Proof.
      intros W Hin Ep Hk N R E.
      assert (X : forall A (g : st -> unit -> reply V P A) h, bind (n_do_load per pol clk (n_update per pol clk n) x) g = Some (y, h) -> (forall r, h <> Ret r) /\ (h = Stuck -> load_locked y)).
      { intros A g h B. apply bind_inv in B. destruct B as [(z & a & B & B2)|[[B ->]|[B ->]]]; destruct (load_blocks _ _ _ _ _ _ _ W Hin Ep Hk N B) as [A1 A2];
          [exfalso; exact (A1 _ eq_refl)|split; discriminate|split; [discriminate|auto]]. }
      assert (Y : forall A (g : A -> sres V) (q : st -> unit -> reply V P A), nmap g (bind (n_do_load per pol clk (n_update per pol clk n) x) q) = Some (y, f) ->
         (forall r, f <> Ret r) /\ (f = Stuck -> load_locked y)).
      { intros A g q G. apply nmap_inv in G. destruct G as [(a & G & ->)|[[G ->]|[G ->]]]; destruct (X _ _ _ G) as [A1 A2];
          [exfalso; exact (A1 _ eq_refl)|split; discriminate|split; [discriminate|auto]]. }
      unfold n_step in E. destruct o; try contradiction; exact (Y _ _ _ E).
    Qed.
  End interval.
End blocks.
