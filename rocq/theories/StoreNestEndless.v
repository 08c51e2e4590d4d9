(** Calls that wait for ever, and calls within calls without end. *)
From Verif Require Import Common Bytes StoreModel StorePanicModel StoreNestModel StoreNestSpec StoreNestBlocks.
From Coq Require Import Permutation.
Local Open Scope string_scope.
Local Open Scope list_scope.

Section waits.
  Context {V P : Type}.
  Variable per : persister P.
  Variable pol : policy.
  Variable clk : nat -> Z * Z.
  Notation st := (nsw V P).
  Hypothesis Q : loads_nothing per pol.

  Lemma get_waits u A (read : st -> string -> option A) x k : k_load x = false -> k_kv x = true ->
    exists y, n_get per pol clk u read x k = Some (y, Stuck).
  Proof.
    intros L K. unfold n_get. destruct (load_quiet per pol clk Q u x L) as (y & -> & S). cbn [bind].
    assert (k_kv y = true) as -> by (unfold still in S; intuition congruence). exists y. reflexivity.
  Qed.

  Lemma prog_waits u A (p : prog V A) x : k_load x = false -> k_kv x = true -> needs_values_first p ->
    exists y, n_prog per pol clk u x p = Some (y, Stuck).
  Proof.
    intros L K N. destruct p as [a| |key k|key k|key value k|key k]; try contradiction; cbn [n_prog].
    - destruct (get_waits u _ y_read_value x key L K) as [y ->]. exists y. reflexivity.
    - destruct (get_waits u _ y_read_string x key L K) as [y ->]. exists y. reflexivity.
    - unfold n_reset_key. rewrite K. exists x. reflexivity.
  Qed.

  Lemma convert_waits f (x : st) k v p e : k <> "" -> y_procs x k = Some p -> n_validate p v = Ans (true, e) -> needs_values_first (n_convert p v) ->
    k_procs x = false -> k_kv x = false -> k_load x = false ->
    exists y, n_update per pol clk (S f) x k v = Some (y, Stuck).
  Proof.
    intros Hk Ep Ev N L1 L2 L3. cbn [n_update]. unfold n_update_body. rewrite (seqb_neq _ _ Hk), L1, Ep, Ev. cbn [n_prog bind negb]. rewrite L2.
    destruct (prog_waits (n_update per pol clk f) _ _ (lock_kv x true) L3 eq_refl N) as [y ->]. exists y. reflexivity.
  Qed.

  Lemma register_waits f (x : st) k d p : k <> "" -> y_procs x k = None -> y_def x k = None -> calls_first (n_validate p d) ->
    k_procs x = false -> k_kv x = false -> k_load x = false ->
    exists y, n_register_key per pol clk (n_update per pol clk (S f)) x k d (Some p) = Some (y, Stuck).
  Proof.
    intros Hk Ep Ed N L1 L2 L3. unfold n_register_key. rewrite (seqb_neq _ _ Hk), L1, L2. cbv zeta. cbn [lock_kv lock_procs locks y_procs y_def].
    rewrite Ep, Ed. set (x1 := lock_kv (lock_procs x true) true).
    assert (X : exists y, n_prog per pol clk (n_update per pol clk (S f)) x1 (n_validate p d) = Some (y, Stuck)).
    { destruct (n_validate p d) as [a| |key c|key c|key value c|key c]; try contradiction.
      - apply prog_waits; [exact L3|reflexivity|exact I].
      - apply prog_waits; [exact L3|reflexivity|exact I].
      - cbn [calls_first] in N. exists x1. cbn [n_prog n_update]. unfold n_update_body. rewrite (seqb_neq _ _ N). reflexivity.
      - apply prog_waits; [exact L3|reflexivity|exact I]. }
    destruct X as [y E]. exists y. cbn [bind deferred]. rewrite E. reflexivity.
  Qed.
End waits.

Section endless.
  Context {V : Type}.
  Variable ord : nat -> list (string * string) -> list (string * string).
  Variable clk : nat -> Z * Z.
  Hypothesis Ho : forall n h, Permutation (ord n h) h.
  Notation st := (nsw V redis).
  Notation per := (redis_persister (fun _ => true) ord).
  Variables (k v : string) (p : nproc V).
  Hypothesis Hk : k <> "".
  Hypothesis Hp : asks_first (n_validate p v).

  (** The saved values hold one whose check reads the store. *)
  Definition trapped (x : st) : Prop :=
    k_procs x = false /\ k_kv x = false /\ (forall k p, y_procs x k = Some p -> inquirer p) /\
    y_procs x k = Some p /\ In (k, v) (r_hash (w_p (y_w x))).

  Lemma entries_trapped u kvs : In (k, v) kvs ->
    (forall x k' v', trapped x -> u x k' v' = None \/ exists y r, u x k' v' = Some (y, Ret r) /\ trapped y) ->
    (forall x, trapped x -> u x k v = None) ->
    forall x, trapped x -> n_load_entries u x kvs = None.
  Proof.
    intros Hin H1 H2. induction kvs as [|[k0 v0] kvs IH]; intros x T; [destruct Hin|]. cbn. destruct Hin as [[= -> ->]|Hin].
    - rewrite (H2 x T). reflexivity.
    - destruct (H1 x k0 v0 T) as [-> |(y & r & -> & Ty)]; [reflexivity|]. cbn. exact (IH Hin y Ty).
  Qed.

  Lemma load_trapped u : (forall x k' v', trapped x -> u x k' v' = None \/ exists y r, u x k' v' = Some (y, Ret r) /\ trapped y) ->
    (forall x, trapped x -> u x k v = None) -> forall x, trapped x -> n_do_load per PolSimple clk u x = None.
  Proof.
    intros H1 H2 x T. unfold n_do_load. cbn [has_lock andb]. destruct (clk (w_tick (y_w x))) as [now now2]. cbn [wants_load].
    cbn [redis_persister ps_load redis_load]. unfold redis_load.
    rewrite (entries_trapped u); [reflexivity| |exact H1|exact H2|].
    - apply Permutation_in with (l := r_hash (w_p (y_w x))); [apply Permutation_sym, Ho|apply T].
    - exact T.
  Qed.

  Lemma asks_none u A (q : prog V A) x : n_do_load per PolSimple clk u x = None -> asks_first q -> n_prog per PolSimple clk u x q = None.
  Proof. intros E N. destruct q; try contradiction; cbn [n_prog]; unfold n_get; rewrite E; reflexivity. Qed.

  Lemma update_trapped n : forall x, trapped x ->
    (forall k' v', n_update per PolSimple clk n x k' v' = None \/ exists y r, n_update per PolSimple clk n x k' v' = Some (y, Ret r) /\ trapped y) /\
    n_update per PolSimple clk n x k v = None.
  Proof.
    induction n as [|n IH]; intros x T; [cbn; auto|].
    assert (L : n_do_load per PolSimple clk (n_update per PolSimple clk n) x = None).
    { apply load_trapped; [intros y k' v' Ty; exact (proj1 (IH y Ty) k' v')|intros y Ty; exact (proj2 (IH y Ty))|exact T]. }
    pose proof T as (T1 & T2 & T3 & T4 & T5). cbn [n_update]. split.
    - intros k' v'. unfold n_update_body. destruct (k' =? "")%string; [right; exists x, None; auto|]. rewrite T1.
      destruct (y_procs x k') as [q|] eqn:Eq; [|right; eexists x, _; eauto]. destruct (T3 _ _ Eq) as [I1 I2].
      specialize (I1 v'). inversion I1 as [[ok e] Ea|key c _ Ea|key c _ Ea].
      + cbn [n_prog bind]. destruct ok; cbn [negb]; [|right; eexists x, _; eauto]. rewrite T2. destruct (I2 v') as [c ->]. cbn [n_prog bind].
        right. eexists _, _. split; [reflexivity|]. unfold trapped. cbn. auto.
      + left. rewrite (asks_none _ _ _ _ L); [reflexivity|exact I].
      + left. rewrite (asks_none _ _ _ _ L); [reflexivity|exact I].
    - unfold n_update_body. rewrite (seqb_neq _ _ Hk), T1, T4, (asks_none _ _ _ _ L Hp). reflexivity.
  Qed.

  Lemma load_endless n x : trapped x -> n_do_load per PolSimple clk (n_update per PolSimple clk n) x = None.
  Proof.
    intros T. apply load_trapped; [intros y k' v' Ty; exact (proj1 (update_trapped n y Ty) k' v')|intros y Ty; exact (proj2 (update_trapped n y Ty))|exact T].
  Qed.

  Lemma reading_endless n x o : trapped x -> reading o -> n_step per PolSimple clk n x o = None.
  Proof.
    intros T R. unfold n_step. destruct o; try contradiction; unfold n_must_get, n_batch_get, n_get; rewrite (load_endless n x T); reflexivity.
  Qed.
End endless.
