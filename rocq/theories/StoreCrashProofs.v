(** Lemmas about a config store whose persister may panic. *)
From Verif Require Import Common Bytes StoreModel StorePanicModel StorePanicSpec StorePanicProofs StoreCrashModel StoreCrashSpec.
Local Open Scope string_scope.
Local Open Scope list_scope.

Section crash.
  Context {V P : Type}.
  Variable per : cpersister P.
  Variable pol : policy.
  Variable clk : nat -> Z * Z.
  Notation pstep := (pop_step (V := V) (calm per) pol clk).
  Notation prun := (pop_run (V := V) (calm per) pol clk).
  Notation pload := (p_do_load (V := V) (calm per) pol clk).

  (** A load: the same state; the result differs only if the persister panics. *)
  Lemma load_same (x : psw V P) : fst (c_do_load per pol clk x) = fst (pload x) /\
    (snd (c_do_load per pol clk x) = snd (pload x) \/
     snd (c_do_load per pol clk x) = Boom /\ snd (pload x) = Ret tt /\ load_panics per pol clk x).
  Proof.
    unfold c_do_load, p_do_load, load_panics. destruct (has_lock pol && x_load x); [split; [reflexivity|left; reflexivity]|].
    destruct (clk (w_tick (x_w x))) as [now now2]. cbn [fst]. destruct (wants_load pol (w_last (x_w x)) now); [|split; [reflexivity|left; reflexivity]].
    cbn [calm ps_load]. destruct (c_load per (w_p (x_w x))) as [[p' kvs] r]. destruct (p_load_entries (x_s x) kvs) as [s' [a| |]]; [|split; [reflexivity|left; reflexivity]..].
    destruct r as [ok|]; [split; [reflexivity|left; reflexivity]|]. split; [|right; repeat split; reflexivity].
    cbn. replace (after_load pol (w_last (x_w x)) false now2) with (w_last (x_w x)); [reflexivity|]. destruct pol as [| |d]; cbn; try reflexivity. destruct (d <=? 0)%Z; reflexivity.
  Qed.
  Lemma load_boom (x : psw V P) : load_panics per pol clk x -> ~ returned (snd (c_do_load per pol clk x)).
  Proof.
    intros (W & L) [a E]. unfold c_do_load in E. destruct (has_lock pol && x_load x); [discriminate|]. destruct (clk (w_tick (x_w x))) as [now now2]. cbn [fst] in W. rewrite W in E.
    destruct (c_load per (w_p (x_w x))) as [[p' kvs] r]. cbn in L. subst r. destruct (p_load_entries (x_s x) kvs) as [s' [b| |]]; discriminate.
  Qed.

  (** One load, as a read of no key. *)
  Lemma load_read (x : psw V P) : fst (pstep x (QGet "")) = fst (pload x).
  Proof. cbn [pop_step]. unfold p_get. destruct (pload x) as [y [a| |]]; cbn; try reflexivity. destruct (l_kv (x_s y)); reflexivity. Qed.

  (** The state after a panicking read: some loads, the last of which panicked. *)
  Definition loads_until (x x' : psw V P) : Prop :=
    exists i, x' = fst (prun x (repeat (QGet "") (S i))) /\ load_panics per pol clk (fst (prun x (repeat (QGet "") i))).
  Lemma until_one x x' : x' = fst (pload x) -> load_panics per pol clk x -> loads_until x x'.
  Proof.
    intros -> L. exists O. split; [|exact L]. cbn [repeat pop_run]. pose proof (load_read x) as R. destruct (pstep x (QGet "")) as [y f]. exact (eq_sym R).
  Qed.
  Lemma run_cons x o os : fst (prun x (o :: os)) = fst (prun (fst (pstep x o)) os).
  Proof. cbn [pop_run]. destruct (pstep x o) as [y f]. cbn. destruct (prun y os). reflexivity. Qed.
  Lemma until_more x x' : loads_until (fst (pload x)) x' -> loads_until x x'.
  Proof.
    intros (i & E & L). exists (S i). cbn [repeat]. cbn [repeat] in E. rewrite run_cons, load_read. split; [exact E|]. rewrite run_cons, load_read. exact L.
  Qed.

  (** Reads: as with errors, or a panic in a load. *)
  Definition alike {A} (x : psw V P) (c p : psw V P * fate A) : Prop := c = p \/ snd c = Boom /\ loads_until x (fst c).

  Lemma get_alike A (read : pstore V -> string -> option A) x k : alike x (c_get per pol clk read x k) (p_get (calm per) pol clk read x k).
  Proof.
    unfold c_get, p_get. destruct (load_same x) as [E1 E2]. destruct (c_do_load per pol clk x) as [y f]. destruct (pload x) as [z g] eqn:Ez. cbn [fst snd] in *. subst z.
    destruct E2 as [->|(-> & -> & L)]; [left; reflexivity|]. right. split; [reflexivity|]. cbn. apply until_one; [rewrite Ez; reflexivity|exact L].
  Qed.
  Lemma get_state A (read : pstore V -> string -> option A) x k : fst (p_get (calm per) pol clk read x k) = fst (pload x).
  Proof. unfold p_get. destruct (pload x) as [y [a| |]]; try reflexivity. destruct (l_kv (x_s y)); reflexivity. Qed.
  Lemma must_alike A (read : pstore V -> string -> option A) x k : alike x (c_must_get per pol clk read x k) (p_must_get (calm per) pol clk read x k).
  Proof.
    unfold c_must_get, p_must_get. destruct (load_same x) as [E1 E2]. destruct (c_do_load per pol clk x) as [y f]. destruct (pload x) as [z g] eqn:Ez. cbn [fst snd] in *. subst z.
    destruct E2 as [->|(-> & -> & L)].
    - destruct g as [a| |]; [|left; reflexivity..]. destruct (get_alike A read y k) as [->|[B U]]; [left; reflexivity|]. right. split; [exact B|]. apply until_more. rewrite Ez. exact U.
    - right. split; [reflexivity|]. cbn. apply until_one; [rewrite Ez; reflexivity|exact L].
  Qed.
  Lemma each_alike A (read : pstore V -> string -> option A) ks : forall x, alike x (c_get_each per pol clk read x ks) (p_get_each (calm per) pol clk read x ks).
  Proof.
    induction ks as [|k ks IH]; intros x; cbn [c_get_each p_get_each]; [left; reflexivity|]. destruct (k =? "")%string; [apply IH|].
    pose proof (get_state A read x k) as St. destruct (get_alike A read x k) as [->|[B U]].
    - destruct (p_get (calm per) pol clk read x k) as [y [r| |]]; [|left; reflexivity..]. cbn [fst] in St. destruct (IH y) as [->|[B U]]; [left; reflexivity|].
      right. destruct (c_get_each per pol clk read y ks) as [z h]. cbn in B, U |- *. subst h. split; [reflexivity|]. apply until_more. rewrite <- St. exact U.
    - right. destruct (c_get per pol clk read x k) as [y f]. cbn in B, U. subst f. split; [reflexivity|exact U].
  Qed.
  Lemma batch_alike A (read : pstore V -> string -> option A) x ks : alike x (c_batch_get per pol clk read x ks) (p_batch_get (calm per) pol clk read x ks).
  Proof.
    unfold c_batch_get, p_batch_get. destruct (load_same x) as [E1 E2]. destruct (c_do_load per pol clk x) as [y f]. destruct (pload x) as [z g] eqn:Ez. cbn [fst snd] in *. subst z.
    destruct E2 as [->|(-> & -> & L)].
    - destruct g as [a| |]; [|left; reflexivity..]. destruct (each_alike A read ks y) as [->|[B U]]; [left; reflexivity|]. right. split; [exact B|]. apply until_more. rewrite Ez. exact U.
    - right. split; [reflexivity|]. cbn. apply until_one; [rewrite Ez; reflexivity|exact L].
  Qed.
  Lemma fmap_alike A B (g : A -> B) x c p : alike x c p -> alike x (fmap g c) (fmap g p).
  Proof. intros [->|[E U]]; [left; reflexivity|]. right. destruct c as [y f]. cbn in *. subst f. split; [reflexivity|exact U]. Qed.

  Lemma read_step (x : psw V P) (o : pop V) : is_read o -> alike x (c_step per pol clk x o) (pstep x o).
  Proof.
    intros R. destruct o; try destruct R; cbn [c_step pop_step]; apply fmap_alike.
    - apply get_alike.
    - apply get_alike.
    - apply must_alike.
    - apply must_alike.
    - apply batch_alike.
    - apply batch_alike.
  Qed.
  Lemma read_panics (x : psw V P) (o : pop V) : is_read o -> load_panics per pol clk x -> ~ returned (snd (c_step per pol clk x o)).
  Proof.
    intros R L. pose proof (load_boom x L) as B. assert (F : forall A (g : A -> sres V) (r : psw V P * fate A), ~ returned (snd r) -> ~ returned (snd (fmap g r))).
    { intros A g [y f] N [a E]. apply N. destruct f; try discriminate. eexists. reflexivity. }
    destruct o; try destruct R; cbn [c_step]; apply F; unfold c_get, c_must_get, c_batch_get; destruct (c_do_load per pol clk x) as [y [a| |]]; cbn in *;
      try (intros [b E]; discriminate); exfalso; apply B; eexists; reflexivity.
  Qed.

  Lemma load_last (x : psw V P) : load_panics per pol clk x -> w_last (x_w (fst (c_do_load per pol clk x))) = w_last (x_w x).
  Proof.
    intros (W & L). unfold c_do_load. destruct (has_lock pol && x_load x); [reflexivity|]. destruct (clk (w_tick (x_w x))) as [now now2]. cbn [fst] in W. rewrite W.
    destruct (c_load per (w_p (x_w x))) as [[p' kvs] r]. cbn in L. subst r. destruct (p_load_entries (x_s x) kvs) as [s' [b| |]]; reflexivity.
  Qed.
  Lemma read_last (x : psw V P) (o : pop V) y f : is_read o -> load_panics per pol clk x -> c_step per pol clk x o = (y, f) -> w_last (x_w y) = w_last (x_w x).
  Proof.
    intros R L E. pose proof (load_boom x L) as B. pose proof (load_last x L) as W.
    destruct o; try destruct R; cbn [c_step] in E; unfold c_get, c_must_get, c_batch_get in E; destruct (c_do_load per pol clk x) as [z [a| |]]; cbn in *;
      try (exfalso; apply B; eexists; reflexivity); injection E as <- _; exact W.
  Qed.

  (** Other calls: the same state; a panic instead of the result exactly if the persister panics. *)
  Lemma write_step (x : psw V P) (o : pop V) : ~ is_read o -> fst (c_step per pol clk x o) = fst (pstep x o) /\
    ((snd (c_step per pol clk x o) = snd (pstep x o) /\ ~ write_panics per pol clk x o) \/ (snd (c_step per pol clk x o) = Boom /\ write_panics per pol clk x o)).
  Proof.
    intros N. destruct o as [k d vp|k|k v|k v|kvs|k|k|k|k|k|ks|ks]; try (destruct (N I)); cbn [c_step].
    - split; [reflexivity|]. left. split; [reflexivity|]. intros [].
    - unfold write_panics. cbn [pop_step]. unfold c_deregister_key, p_deregister_key. destruct (String.eqb_spec k "") as [->|K].
      { split; [reflexivity|]. left. split; [reflexivity|]. intros [X _]. congruence. }
      destruct (l_procs (x_s x)); [split; [reflexivity|]; left; split; [reflexivity|]; intros (_ & [a E] & _); discriminate|].
      destruct (l_kv (x_s x)); [split; [reflexivity|]; left; split; [reflexivity|]; intros (_ & [a E] & _); discriminate|].
      cbn [calm ps_delete]. destruct (c_delete per (w_p (x_w x)) k) as [p' [ok|]]; (split; [reflexivity|]).
      + left. split; [reflexivity|]. intros (_ & _ & X). discriminate.
      + right. split; [reflexivity|]. split; [exact K|]. split; [eexists; reflexivity|reflexivity].
    - unfold write_panics. cbn [pop_step]. unfold c_update, p_update. destruct (p_update_no_persist (x_s x) k v) as [s' [[e|]| |]] eqn:U;
        [|split; [reflexivity|]; left; (split; [reflexivity|]); intros ([e0 E] & _); discriminate..].
      cbn [calm ps_save]. destruct (c_save per (w_p (x_w x)) k v) as [p' [ok|]]; (split; [reflexivity|]).
      + left. split; [reflexivity|]. intros (_ & X). discriminate.
      + right. split; [reflexivity|]. split; [exists e; reflexivity|reflexivity].
    - split; [reflexivity|]. left. split; [reflexivity|]. intros [].
    - unfold write_panics. cbn [pop_step]. unfold c_batch_update, p_batch_update. destruct kvs as [|kv kvs]; [split; [reflexivity|]; left; split; [reflexivity|]; intros [X _]; congruence|].
      destruct (p_update_each (x_s x) (kv :: kvs)) as [s' [errs| |]];
        [|split; [reflexivity|]; left; (split; [reflexivity|]); intros (_ & e0 & E & _); discriminate..].
      cbn [calm ps_batch]. fold (accepted errs (kv :: kvs)). destruct (c_batch per (w_p (x_w x)) (accepted errs (kv :: kvs))) as [p' [ok|]] eqn:B; (split; [reflexivity|]).
      + left. split; [reflexivity|]. intros (_ & e0 & E & X). cbn in E. injection E as <-. rewrite B in X. discriminate.
      + right. split; [reflexivity|]. split; [discriminate|]. exists errs. split; [reflexivity|]. rewrite B. reflexivity.
    - unfold write_panics. cbn [pop_step]. unfold c_reset_key, p_reset_key.
      destruct (l_kv (x_s x)); [split; [reflexivity|]; left; split; [reflexivity|]; intros ([a E] & _); discriminate|].
      cbn [calm ps_delete]. destruct (c_delete per (w_p (x_w x)) k) as [p' [ok|]]; (split; [reflexivity|]).
      + left. split; [reflexivity|]. intros (_ & X). discriminate.
      + right. split; [reflexivity|]. split; [eexists; reflexivity|reflexivity].
  Qed.

  (** No lock is left behind. *)
  Lemma is_read_dec (o : pop V) : {is_read o} + {~ is_read o}.
  Proof. destruct o; cbn; (left; exact I) || (right; tauto). Qed.
  Lemma crash_fine (x : psw V P) (o : pop V) x' f : fine x -> sound_op o -> c_step per pol clk x o = (x', f) -> fine x' /\ f <> Stuck.
  Proof.
    intros F So E. destruct (pstep x o) as [y g] eqn:Ep. destruct (step_fine _ _ _ _ _ _ _ F So Ep) as [Fy Ng]. destruct (is_read_dec o) as [R|R].
    - destruct (read_step x o R) as [K|[K (i & U & _)]]; rewrite E in *.
      + rewrite Ep in K. injection K as -> ->. auto.
      + cbn [fst snd] in K, U. subst f. split; [|discriminate]. destruct (prun x (repeat (QGet "") (S i))) as [z fs] eqn:Er. cbn in U. subst z.
        refine (proj1 (run_fine _ _ _ _ _ _ _ F _ Er)). apply Forall_forall. intros q Hq. apply repeat_spec in Hq. subst q. exact I.
    - destruct (write_step x o R) as [K1 K2]. rewrite E, Ep in K1, K2. cbn in K1, K2. subst y. split; [exact Fy|]. destruct K2 as [[-> _]|[-> _]]; [exact Ng|discriminate].
  Qed.
  Lemma crash_run_fine (os : list (pop V)) : forall x x' fs, fine x -> Forall sound_op os -> c_run per pol clk x os = (x', fs) -> fine x' /\ Forall (fun f => f <> Stuck) fs.
  Proof.
    induction os as [|o os IH]; intros x x' fs F So E; cbn in E.
    - injection E as <- <-. split; [exact F|constructor].
    - inversion So as [|? ? So1 So2]; subst. destruct (c_step per pol clk x o) as [y f] eqn:S. destruct (crash_fine _ _ _ _ F So1 S) as [A B].
      destruct (c_run per pol clk y os) as [z gs] eqn:R. injection E as <- <-. destruct (IH _ _ _ A So2 R) as [C D]. split; [exact C|constructor; assumption].
  Qed.
End crash.

(** A persister that does not panic. *)
Section same.
  Context {V P : Type}.
  Variable per : persister P.
  Variable pol : policy.
  Variable clk : nat -> Z * Z.
  Lemma steady_load (x : psw V P) : c_do_load (steady per) pol clk x = p_do_load per pol clk x.
  Proof.
    unfold c_do_load, p_do_load. destruct (has_lock pol && x_load x); [reflexivity|]. destruct (clk (w_tick (x_w x))) as [now now2].
    destruct (wants_load pol (w_last (x_w x)) now); [|reflexivity]. cbn [steady c_load]. destruct (ps_load per (w_p (x_w x))) as [[p' kvs] ok]. reflexivity.
  Qed.
  Lemma steady_get A (read : pstore V -> string -> option A) (x : psw V P) k : c_get (steady per) pol clk read x k = p_get per pol clk read x k.
  Proof. unfold c_get, p_get. rewrite steady_load. reflexivity. Qed.
  Lemma steady_must A (read : pstore V -> string -> option A) (x : psw V P) k : c_must_get (steady per) pol clk read x k = p_must_get per pol clk read x k.
  Proof. unfold c_must_get, p_must_get. rewrite steady_load. destruct (p_do_load per pol clk x) as [y [a| |]]; try reflexivity. apply steady_get. Qed.
  Lemma steady_each A (read : pstore V -> string -> option A) ks : forall x : psw V P, c_get_each (steady per) pol clk read x ks = p_get_each per pol clk read x ks.
  Proof.
    induction ks as [|k ks IH]; intros x; cbn [c_get_each p_get_each]; [reflexivity|]. destruct (k =? "")%string; [apply IH|]. rewrite steady_get.
    destruct (p_get per pol clk read x k) as [y [r| |]]; try reflexivity. rewrite IH. reflexivity.
  Qed.
  Lemma steady_batch A (read : pstore V -> string -> option A) (x : psw V P) ks : c_batch_get (steady per) pol clk read x ks = p_batch_get per pol clk read x ks.
  Proof. unfold c_batch_get, p_batch_get. rewrite steady_load. destruct (p_do_load per pol clk x) as [y [a| |]]; try reflexivity. apply steady_each. Qed.
  Lemma steady_step (x : psw V P) (o : pop V) : c_step (steady per) pol clk x o = pop_step per pol clk x o.
  Proof.
    destruct o; cbn [c_step pop_step]; try reflexivity; rewrite ?steady_get, ?steady_must, ?steady_batch; try reflexivity; f_equal.
    - unfold c_deregister_key, p_deregister_key. destruct (_ =? "")%string; [reflexivity|]. destruct (l_procs (x_s x)); [reflexivity|]. destruct (l_kv (x_s x)); [reflexivity|].
      cbn [steady c_delete]. destruct (ps_delete per _ _). reflexivity.
    - unfold c_update, p_update. destruct (p_update_no_persist (x_s x) _ _) as [s' [[e|]| |]]; try reflexivity. cbn [steady c_save]. destruct (ps_save per _ _ _). reflexivity.
    - unfold c_batch_update, p_batch_update. destruct kvs as [|kv kvs]; [reflexivity|]. destruct (p_update_each (x_s x) (kv :: kvs)) as [s' [errs| |]]; try reflexivity.
      cbn [steady c_batch]. destruct (ps_batch per _ _). reflexivity.
    - unfold c_reset_key, p_reset_key. destruct (l_kv (x_s x)); [reflexivity|]. cbn [steady c_delete]. destruct (ps_delete per _ _). reflexivity.
  Qed.
  Lemma steady_run (os : list (pop V)) : forall x : psw V P, c_run (steady per) pol clk x os = pop_run per pol clk x os.
  Proof. induction os as [|o os IH]; intros x; cbn; [reflexivity|]. rewrite steady_step. destruct (pop_step per pol clk x o). rewrite IH. reflexivity. Qed.
End same.

(** Without persister, under the policy that never loads: the state is the one with NoopPersister. *)
Section bare.
  Context {V : Type}.
  Variable clk : nat -> Z * Z.
  Lemma bare_load (x : psw V unit) : c_do_load nil_persister PolNoop clk x = p_do_load noop_persister PolNoop clk x.
  Proof. unfold c_do_load, p_do_load. cbn. destruct (clk (w_tick (x_w x))). reflexivity. Qed.
  Lemma bare_get A (read : pstore V -> string -> option A) (x : psw V unit) k : c_get nil_persister PolNoop clk read x k = p_get noop_persister PolNoop clk read x k.
  Proof. unfold c_get, p_get. rewrite bare_load. reflexivity. Qed.
  Lemma bare_must A (read : pstore V -> string -> option A) (x : psw V unit) k : c_must_get nil_persister PolNoop clk read x k = p_must_get noop_persister PolNoop clk read x k.
  Proof. unfold c_must_get, p_must_get. rewrite bare_load. destruct (p_do_load _ _ clk x) as [y [a| |]]; try reflexivity; apply bare_get. Qed.
  Lemma bare_each A (read : pstore V -> string -> option A) ks : forall x : psw V unit, c_get_each nil_persister PolNoop clk read x ks = p_get_each noop_persister PolNoop clk read x ks.
  Proof.
    induction ks as [|k ks IH]; intros x; cbn [c_get_each p_get_each]; [reflexivity|]. destruct (k =? "")%string; [apply IH|]. rewrite bare_get.
    destruct (p_get _ _ clk read x k) as [y [r| |]]; try reflexivity; rewrite IH; reflexivity.
  Qed.
  Lemma bare_batch A (read : pstore V -> string -> option A) (x : psw V unit) ks : c_batch_get nil_persister PolNoop clk read x ks = p_batch_get noop_persister PolNoop clk read x ks.
  Proof. unfold c_batch_get, p_batch_get. rewrite bare_load. destruct (p_do_load _ _ clk x) as [y [a| |]]; try reflexivity; apply bare_each. Qed.
  Lemma bare_step (x : psw V unit) (o : pop V) : c_step nil_persister PolNoop clk x o =
    (fst (pop_step noop_persister PolNoop clk x o), without_persister o (snd (pop_step noop_persister PolNoop clk x o))).
  Proof.
    assert (D : forall r : psw V unit * fate (sres V), r = (fst r, snd r)) by (intros []; reflexivity).
    destruct o; cbn [c_step pop_step]; rewrite ?bare_get, ?bare_must, ?bare_batch; cbn [without_persister]; try (apply D).
    - unfold c_deregister_key, p_deregister_key. destruct (key =? "")%string; [reflexivity|]. destruct (l_procs (x_s x)); [reflexivity|]. destruct (l_kv (x_s x)); reflexivity.
    - unfold c_update, p_update. destruct (p_update_no_persist (x_s x) _ _) as [s' [[e|]| |]]; reflexivity.
    - unfold c_batch_update, p_batch_update. destruct kvs as [|kv kvs]; [reflexivity|]. destruct (p_update_each (x_s x) (kv :: kvs)) as [s' [errs| |]]; reflexivity.
    - unfold c_reset_key, p_reset_key. destruct (l_kv (x_s x)); reflexivity.
  Qed.
  Lemma bare_run (os : list (pop V)) : forall x : psw V unit, fst (c_run nil_persister PolNoop clk x os) = fst (pop_run noop_persister PolNoop clk x os) /\
    snd (c_run nil_persister PolNoop clk x os) = map (fun q => without_persister (fst q) (snd q)) (combine os (snd (pop_run noop_persister PolNoop clk x os))).
  Proof.
    induction os as [|o os IH]; intros x; cbn; [split; reflexivity|]. rewrite bare_step. destruct (pop_step noop_persister PolNoop clk x o) as [y f]. cbn. destruct (IH y) as [A B].
    destruct (c_run nil_persister PolNoop clk y os) as [z gs]. destruct (pop_run noop_persister PolNoop clk y os) as [z' gs']. cbn in *. subst. split; reflexivity.
  Qed.
End bare.
