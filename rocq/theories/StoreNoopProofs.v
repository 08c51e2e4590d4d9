(** Proofs about the store with the no-op persister. *)
From Verif Require Import Common Bytes Threads StoreModel StoreSpec StoreProofs StoreNoopSpec.
Local Open Scope list_scope.

Section noop.
  Context {V : Type}.
  Variable pol : policy.
  Variable clk : nat -> Z * Z.
  Notation nsw := (@sw V unit).

  Lemma do_load_nothing (x : nsw) : fst (do_load noop_persister pol clk x) = fst x.
  Proof.
    destruct x as [s w]. unfold do_load. destruct (clk (w_tick w)). destruct (wants_load pol (w_last w) z); reflexivity.
  Qed.

  Lemma get_each_nothing {A} (get : nsw -> string -> nsw * option A) (read : store V -> string -> option A) keys :
    (forall x k, fst (fst (get x k)) = fst x /\ snd (get x k) = read (fst x) k) ->
    forall x, read (fst x) ""%string = None ->
      fst (fst (get_each get x keys)) = fst x /\ snd (get_each get x keys) = hits (read (fst x)) keys.
  Proof.
    intros Hget. induction keys as [|k keys IH]; intros x He; [split; reflexivity|]. cbn [get_each hits].
    destruct (String.eqb_spec k "") as [->|Hk]; [rewrite He; apply IH; exact He|].
    destruct (Hget x k) as (A1 & A2). destruct (get x k) as [x1 r]. cbn [fst snd] in *. subst r.
    rewrite <- A1 in He. destruct (IH x1 He) as (B1 & B2). rewrite A1 in *.
    destruct (get_each get x1 keys) as [x2 kvs]. cbn [fst snd] in *. split; [congruence|].
    rewrite B2. destruct (read (fst x) k); reflexivity.
  Qed.

  Lemma register_answer (s : store V) est k d vp : rel s est ->
    RErr (snd (register_key s k d vp)) = answer est (ORegister k d vp).
  Proof.
    intros R. cbn [answer]. unfold register_key. destruct (String.eqb k ""); [reflexivity|].
    destruct vp as [p|]; [|reflexivity]. destruct (R k) as (A1 & _ & A3 & _). rewrite A1.
    destruct (est k) as [e|]; cbn [option_map] in *; [reflexivity|]. rewrite A3.
    unfold accepts. destruct (p_validate p d) as [[|] err]; reflexivity.
  Qed.

  Lemma noop_step (x : nsw) est o : rel (fst x) est ->
    snd (sop_step noop_persister pol clk x o) = answer est o /\
    rel (fst (fst (sop_step noop_persister pol clk x o))) (fun k => key_step k (est k) o).
  Proof.
    intros R.
    assert (Hg : forall (x' : nsw) k, fst (fst (get_value noop_persister pol clk x' k)) = fst x' /\
                   snd (get_value noop_persister pol clk x' k) = read_value (fst x') k).
    { intros x' k. unfold get_value. cbn [fst snd]. rewrite do_load_nothing. split; reflexivity. }
    assert (Hs : forall (x' : nsw) k, fst (fst (get_value_string noop_persister pol clk x' k)) = fst x' /\
                   snd (get_value_string noop_persister pol clk x' k) = read_string (fst x') k).
    { intros x' k. unfold get_value_string. cbn [fst snd]. rewrite do_load_nothing. split; reflexivity. }
    assert (Rv : forall k, read_value (fst x) k = current_value (est k)) by (intros k; apply (rel_reads _ _ k R)).
    assert (Rs : forall k, read_string (fst x) k = current (est k)) by (intros k; apply (rel_reads _ _ k R)).
    assert (E0 := rel_empty _ _ R).
    destruct o as [k d vp|k|k v|k v|kvs|k|k|k|k|k|ks|ks]; cbn [sop_step].
    - pose proof (rel_register _ _ k d vp R) as H. pose proof (register_answer _ _ k d vp R) as H2.
      destruct (register_key (fst x) k d vp) as [s' e]. split; assumption.
    - destruct x as [s w]. cbn [fst] in *. unfold deregister_key. split; [reflexivity|]. cbn [key_step].
      keq k ""%string; [|apply rel_drop; exact R].
      apply (rel_ext _ est); [|exact R]. intros k. keq ""%string k; [exact E0|reflexivity].
    - destruct x as [s w]. cbn [fst] in *. unfold update. pose proof (rel_update _ _ k v R) as H.
      cbn [answer]. rewrite (update_no_persist_exact _ _ k v R) in *.
      destruct (rejected (registration (est k)) k v); cbn; [split; [reflexivity|exact H]|].
      destruct (registration (est k)) as [[p d]|]; split; try reflexivity; exact H.
    - pose proof (rel_update _ _ k v R) as H. cbn [answer]. rewrite (update_no_persist_exact _ _ k v R) in *.
      destruct (rejected (registration (est k)) k v); cbn; [split; [reflexivity|exact H]|].
      destruct (registration (est k)) as [[p d]|]; split; try reflexivity; exact H.
    - destruct x as [s w]. cbn [fst] in *. unfold batch_update. pose proof (rel_load kvs _ _ R) as H.
      pose proof (update_each_errors kvs s est R) as He. rewrite <- update_each_fst in H.
      destruct kvs as [|kv kvs]; [split; [reflexivity|exact R]|].
      destruct (update_each s (kv :: kvs)) as [s' errs]. cbn [fst snd] in *. subst errs. split; [reflexivity|exact H].
    - destruct x as [s w]. cbn [fst] in *. split; [reflexivity|]. apply rel_clear. exact R.
    - destruct (Hg x k) as (A & B). rewrite Rv in B. destruct (get_value noop_persister pol clk x k) as [x' r]. cbn [fst snd] in *.
      rewrite A, B. split; [reflexivity|exact R].
    - destruct (Hs x k) as (A & B). rewrite Rs in B. destruct (get_value_string noop_persister pol clk x k) as [x' r]. cbn [fst snd] in *.
      rewrite A, B. split; [reflexivity|exact R].
    - unfold must_get_value. destruct (Hg (do_load noop_persister pol clk x) k) as (A & B). rewrite do_load_nothing in A, B. rewrite Rv in B.
      destruct (get_value noop_persister pol clk (do_load noop_persister pol clk x) k) as [x' r]. cbn [fst snd] in *.
      rewrite A, B. split; [reflexivity|exact R].
    - unfold must_get_value_string. destruct (Hs (do_load noop_persister pol clk x) k) as (A & B). rewrite do_load_nothing in A, B. rewrite Rs in B.
      destruct (get_value_string noop_persister pol clk (do_load noop_persister pol clk x) k) as [x' r]. cbn [fst snd] in *.
      rewrite A, B. split; [reflexivity|exact R].
    - unfold batch_get_values.
      destruct (get_each_nothing _ read_value ks Hg (do_load noop_persister pol clk x)) as (A & B).
      { rewrite do_load_nothing, Rv, E0. reflexivity. }
      rewrite do_load_nothing in A, B. destruct (get_each _ _ ks) as [x' r]. cbn [fst snd] in *.
      rewrite A, B, (hits_ext _ _ ks Rv). split; [reflexivity|exact R].
    - unfold batch_get_value_string.
      destruct (get_each_nothing _ read_string ks Hs (do_load noop_persister pol clk x)) as (A & B).
      { rewrite do_load_nothing, Rs, E0. reflexivity. }
      rewrite do_load_nothing in A, B. destruct (get_each _ _ ks) as [x' r]. cbn [fst snd] in *.
      rewrite A, B, (hits_ext _ _ ks Rs). split; [reflexivity|exact R].
  Qed.

  Lemma noop_answers (w : world unit) (os : list (sop V)) :
    snd (sop_run noop_persister pol clk (new_store, w) os) = answers [] os.
  Proof.
    assert (H : forall os pre (x : nsw), rel (fst x) (fun k => key_state k pre) ->
      snd (sop_run noop_persister pol clk x os) = answers pre os).
    { clear. induction os as [|o os IH]; intros pre x R; [reflexivity|]. cbn [sop_run answers].
      destruct (noop_step x _ o R) as (A & B). destruct (sop_step noop_persister pol clk x o) as [x1 r]. cbn [fst snd] in *.
      specialize (IH (pre ++ [o]) x1). destruct (sop_run noop_persister pol clk x1 os) as [x2 rs]. cbn [snd] in *.
      rewrite A, IH; [reflexivity|]. eapply rel_ext; [|exact B]. intros k. unfold key_state. rewrite fold_left_app. reflexivity. }
    apply H. apply rel_new.
  Qed.
End noop.
