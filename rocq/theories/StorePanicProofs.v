(** Lemmas about a config store whose processors may panic. *)
From Verif Require Import Common Bytes StoreModel RsaModel UrlModel UrlProofs StorePanicModel StorePanicSpec.
From Coq Require Import Permutation.
Local Open Scope string_scope.
Local Open Scope list_scope.

Section panics.
  Context {V P : Type}.
  Variable per : persister P.
  Variable pol : policy.
  Variable clk : nat -> Z * Z.

  (** * No lock is left behind *)

  Definition healthy (s : pstore V) : Prop :=
    l_kv s = false /\ l_procs s = false /\ forall k p, q_procs s k = Some p -> sound_proc p.

  Lemma update_healthy s k v s' f : healthy s -> p_update_no_persist s k v = (s', f) ->
    healthy s' /\ f <> Stuck /\ q_procs s' = q_procs s /\ (f = Boom -> s' = s) /\ (f = Boom <-> poison s k v).
  Proof.
    intros (H1 & H2 & H3) E. unfold p_update_no_persist in E.
    assert (R : forall a, (s', f) = (s, Ret a) -> ~ poison s k v -> healthy s' /\ f <> Stuck /\ q_procs s' = q_procs s /\ (f = Boom -> s' = s) /\ (f = Boom <-> poison s k v)).
    { intros a [= -> ->] N. split; [repeat split; assumption|]. split; [discriminate|]. split; [reflexivity|]. split; [discriminate|]. split; [discriminate|contradiction]. }
    destruct (String.eqb_spec k "") as [->|Hk].
    { apply (R _ (eq_sym E)). intros [X _]. congruence. }
    rewrite H2 in E. destruct (q_procs s k) as [p|] eqn:Ep.
    2: { apply (R _ (eq_sym E)). intros (_ & p & X & _). congruence. }
    destruct (q_validate p v) as [[[|] e]|] eqn:Ev; cbn [negb] in E.
    - rewrite H1 in E. destruct (q_convert p v) as [c|] eqn:Ec; [|exfalso; exact (H3 k p Ep v e Ev Ec)].
      injection E as <- <-. split; [repeat split; assumption|]. split; [discriminate|]. split; [reflexivity|]. split; [discriminate|]. split; [discriminate|].
      intros (_ & p' & X & Y). congruence.
    - apply (R _ (eq_sym E)). intros (_ & p' & X & Y). congruence.
    - injection E as <- <-. split; [repeat split; assumption|]. split; [discriminate|]. split; [reflexivity|]. split; [reflexivity|].
      split; [intros _|reflexivity]. split; [exact Hk|]. exists p. auto.
  Qed.

  Lemma register_healthy s k d vp s' f : healthy s -> (forall p, vp = Some p -> sound_proc p) ->
    p_register_key s k d vp = (s', f) -> healthy s' /\ f <> Stuck /\ (f = Boom -> s' = s).
  Proof.
    intros (H1 & H2 & H3) Hv E. unfold p_register_key in E. destruct (String.eqb_spec k "") as [->|Hk].
    { injection E as <- <-. repeat split; auto; discriminate. }
    destruct vp as [p|]; [|injection E as <- <-; repeat split; auto; discriminate].
    rewrite H1, H2 in E. destruct (q_procs s k); [injection E as <- <-; repeat split; auto; discriminate|].
    destruct (q_def s k); [injection E as <- <-; repeat split; auto; discriminate|].
    destruct (q_validate p d) as [[[|] e]|]; cbn in E.
    - destruct (q_convert p d) as [c|]; injection E as <- <-; repeat split; auto; try discriminate.
      cbn. intros k' p'. unfold mset. destruct (k' =? k)%string; [intros [= <-]; auto|apply H3].
    - injection E as <- <-. repeat split; auto; discriminate.
    - injection E as <- <-. repeat split; auto; discriminate.
  Qed.

  Lemma load_healthy kvs : forall s s' f, healthy s -> p_load_entries s kvs = (s', f) ->
    healthy s' /\ f <> Stuck /\ q_procs s' = q_procs s.
  Proof.
    induction kvs as [|[k v] kvs IH]; intros s s' f H E; cbn in E.
    - injection E as <- <-. split; [exact H|]. split; [discriminate|reflexivity].
    - destruct (p_update_no_persist s k v) as [s1 g] eqn:U. destruct (update_healthy _ _ _ _ _ H U) as (A & B & C & _ & _).
      destruct g as [e| |]; [|injection E as <- <-; split; [exact A|]; split; [discriminate|exact C]|congruence].
      destruct (IH _ _ _ A E) as (D & F & G). split; [exact D|]. split; [exact F|congruence].
  Qed.

  Definition fine (x : psw V P) : Prop := healthy (x_s x) /\ x_load x = false.

  Lemma do_load_fine x x' f : fine x -> p_do_load per pol clk x = (x', f) ->
    fine x' /\ f <> Stuck /\ q_procs (x_s x') = q_procs (x_s x).
  Proof.
    intros [H L] E. unfold p_do_load in E. rewrite L, Bool.andb_false_r in E.
    destruct (clk (w_tick (x_w x))) as [now now2]. destruct (wants_load pol (w_last (x_w x)) now).
    - destruct (ps_load per (w_p (x_w x))) as [[p' kvs] ok]. destruct (p_load_entries (x_s x) kvs) as [s' g] eqn:G.
      destruct (load_healthy _ _ _ _ H G) as (A & B & C).
      destruct g; [| |congruence]; injection E as <- <-; (split; [split; [exact A|first [exact L|reflexivity]]|]; split; [discriminate|exact C]).
    - injection E as <- <-. split; [split; [exact H|first [exact L|reflexivity]]|]. split; [discriminate|reflexivity].
  Qed.

  Lemma get_fine A (read : pstore V -> string -> option A) (x : psw V P) k x' f : fine x -> p_get per pol clk read x k = (x', f) ->
    fine x' /\ f <> Stuck.
  Proof.
    intros H E. unfold p_get in E. destruct (p_do_load per pol clk x) as [y g] eqn:D.
    destruct (do_load_fine _ _ _ H D) as (F & G & _). pose proof F as [(K & _) _].
    destruct g; [rewrite K in E| |congruence]; injection E as <- <-; split; auto; discriminate.
  Qed.

  Lemma get_each_fine A (read : pstore V -> string -> option A) ks : forall (x : psw V P) x' f, fine x ->
    p_get_each per pol clk read x ks = (x', f) -> fine x' /\ f <> Stuck.
  Proof.
    induction ks as [|k ks IH]; intros x x' f H E; cbn in E.
    - injection E as <- <-. split; [exact H|discriminate].
    - destruct (k =? "")%string; [exact (IH _ _ _ H E)|]. destruct (p_get per pol clk read x k) as [y g] eqn:G.
      destruct (get_fine _ _ _ _ _ _ H G) as [Fy Ng]. destruct g as [r| |]; [|injection E as <- <-; split; [exact Fy|discriminate]|congruence].
      destruct (p_get_each per pol clk read y ks) as [z h] eqn:E2. destruct (IH _ _ _ Fy E2) as [Fz Nh].
      destruct h; injection E as <- <-; split; auto; discriminate.
  Qed.

  Lemma update_each_healthy kvs : forall s s' f, healthy s -> p_update_each s kvs = (s', f) -> healthy s' /\ f <> Stuck.
  Proof.
    induction kvs as [|[k v] kvs IH]; intros s s' f H E; cbn in E.
    - injection E as <- <-. split; [exact H|discriminate].
    - destruct (p_update_no_persist s k v) as [s1 g] eqn:U. destruct (update_healthy _ _ _ _ _ H U) as (A & B & _).
      destruct g as [e| |]; [|injection E as <- <-; split; [exact A|discriminate]|congruence].
      destruct (p_update_each s1 kvs) as [s2 h] eqn:E2. destruct (IH _ _ _ A E2) as [C D].
      destruct h; injection E as <- <-; split; auto; discriminate.
  Qed.

  Lemma fmap_eq A B (g : A -> B) (r : psw V P * fate A) x f : fmap g r = (x, f) ->
    x = fst r /\ (f = Boom <-> snd r = Boom) /\ (f = Stuck <-> snd r = Stuck).
  Proof.
    destruct r as [y o]. cbn. intros [= <- <-]. split; [reflexivity|]. destruct o; split; split; congruence.
  Qed.

  Lemma step_fine x o x' f : fine x -> sound_op o -> pop_step per pol clk x o = (x', f) -> fine x' /\ f <> Stuck.
  Proof.
    intros H So E.
    assert (W : forall A (r : psw V P * fate A) (g : A -> sres V), fmap g r = (x', f) -> (fine (fst r) /\ snd r <> Stuck) -> fine x' /\ f <> Stuck).
    { intros A r g G [F N]. apply fmap_eq in G. destruct G as (-> & _ & G). split; [exact F|]. rewrite G. exact N. }
    destruct o as [k d vp|k|k v|k v|kvs|k|k|k|k|k|ks|ks]; cbn [pop_step] in E.
    - destruct (p_register_key (x_s x) k d vp) as [s' g] eqn:R. apply (W _ _ _ E). cbn. destruct H as [H L].
      assert (Sp : forall p, vp = Some p -> sound_proc p) by (intros p ->; exact So).
      destruct (register_healthy _ _ _ _ _ _ H Sp R) as (A & B & _). split; [split; [exact A|first [exact L|reflexivity]]|exact B].
    - apply (W _ _ _ E). unfold p_deregister_key. destruct H as [(H1 & H2 & H3) L]. destruct (k =? "")%string; [split; [split; [split; auto|first [exact L|reflexivity]]|discriminate]|].
      rewrite H1, H2. cbn. split; [|discriminate]. split; [|first [exact L|reflexivity]]. split; [reflexivity|split; [reflexivity|]]. cbn.
      intros k' p'. unfold mdel. destruct (k' =? k)%string; [discriminate|apply H3].
    - apply (W _ _ _ E). unfold p_update. destruct H as [H L]. destruct (p_update_no_persist (x_s x) k v) as [s' g] eqn:U.
      destruct (update_healthy _ _ _ _ _ H U) as (A & B & _).
      destruct g as [[e|]| |]; [|split; [split; [exact A|first [exact L|reflexivity]]|discriminate]..|congruence].
      destruct (ps_save per (w_p (x_w x)) k v). split; [split; [exact A|first [exact L|reflexivity]]|discriminate].
    - destruct (p_update_no_persist (x_s x) k v) as [s' g] eqn:U. apply (W _ _ _ E). destruct H as [H L].
      destruct (update_healthy _ _ _ _ _ H U) as (A & B & _). split; [split; [exact A|first [exact L|reflexivity]]|exact B].
    - apply (W _ _ _ E). unfold p_batch_update. destruct kvs as [|kv kvs]; [split; [exact H|discriminate]|]. destruct H as [H L].
      destruct (p_update_each (x_s x) (kv :: kvs)) as [s' g] eqn:U. destruct (update_each_healthy _ _ _ _ H U) as (A & B).
      destruct g; (split; [split; [exact A|first [exact L|reflexivity]]|try discriminate; exact B]).
    - apply (W _ _ _ E). unfold p_reset_key. destruct H as [(H1 & H2 & H3) L]. rewrite H1. split; [|discriminate]. split; [|first [exact L|reflexivity]]. repeat split; auto.
    - apply (W _ _ _ E). destruct (p_get per pol clk p_read_value x k) eqn:G. exact (get_fine _ _ _ _ _ _ H G).
    - apply (W _ _ _ E). destruct (p_get per pol clk p_read_string x k) eqn:G. exact (get_fine _ _ _ _ _ _ H G).
    - apply (W _ _ _ E). unfold p_must_get. destruct (p_do_load per pol clk x) as [y g] eqn:D. destruct (do_load_fine _ _ _ H D) as (F & G & _).
      destruct g; [|split; [exact F|discriminate]|congruence]. destruct (p_get per pol clk p_read_value y k) eqn:E2. exact (get_fine _ _ _ _ _ _ F E2).
    - apply (W _ _ _ E). unfold p_must_get. destruct (p_do_load per pol clk x) as [y g] eqn:D. destruct (do_load_fine _ _ _ H D) as (F & G & _).
      destruct g; [|split; [exact F|discriminate]|congruence]. destruct (p_get per pol clk p_read_string y k) eqn:E2. exact (get_fine _ _ _ _ _ _ F E2).
    - apply (W _ _ _ E). unfold p_batch_get. destruct (p_do_load per pol clk x) as [y g] eqn:D. destruct (do_load_fine _ _ _ H D) as (F & G & _).
      destruct g; [|split; [exact F|discriminate]|congruence]. destruct (p_get_each per pol clk p_read_value y ks) eqn:E2. exact (get_each_fine _ _ _ _ _ _ F E2).
    - apply (W _ _ _ E). unfold p_batch_get. destruct (p_do_load per pol clk x) as [y g] eqn:D. destruct (do_load_fine _ _ _ H D) as (F & G & _).
      destruct g; [|split; [exact F|discriminate]|congruence]. destruct (p_get_each per pol clk p_read_string y ks) eqn:E2. exact (get_each_fine _ _ _ _ _ _ F E2).
  Qed.

  Lemma run_fine os : forall x x' fs, fine x -> Forall sound_op os -> pop_run per pol clk x os = (x', fs) ->
    fine x' /\ Forall (fun f => f <> Stuck) fs.
  Proof.
    induction os as [|o os IH]; intros x x' fs H So E; cbn in E.
    - injection E as <- <-. split; [exact H|constructor].
    - inversion So as [|? ? So1 So2]; subst. destruct (pop_step per pol clk x o) as [y f] eqn:S. destruct (step_fine _ _ _ _ H So1 S) as [A B].
      destruct (pop_run per pol clk y os) as [z gs] eqn:R. injection E as <- <-. destruct (IH _ _ _ A So2 R) as [C D]. split; [exact C|constructor; assumption].
  Qed.

  Lemma new_fine w : fine (new_psw w).
  Proof. split; [|reflexivity]. split; [reflexivity|split; [reflexivity|]]. cbn. discriminate. Qed.

  Lemma reached_fine w os : Forall sound_op os -> fine (fst (pop_run per pol clk (new_psw w) os)).
  Proof.
    intros So. destruct (pop_run per pol clk (new_psw w) os) as [x fs] eqn:R. exact (proj1 (run_fine _ _ _ _ (new_fine w) So R)).
  Qed.

  (** * What a panic leaves *)

  Lemma update_boom x k v x' f : fine x -> pop_step per pol clk x (QUpdateNoPersist k v) = (x', f) ->
    (f = Boom <-> poison (x_s x) k v) /\ (f = Boom -> x' = x).
  Proof.
    intros [H L] E. cbn [pop_step] in E. destruct (p_update_no_persist (x_s x) k v) as [s' g] eqn:U.
    destruct (update_healthy _ _ _ _ _ H U) as (_ & _ & _ & B & C). apply fmap_eq in E. destruct E as (-> & E & _). cbn in E |- *.
    rewrite E, C. split; [reflexivity|]. intros Po. rewrite (B (proj2 C Po)). destruct x. reflexivity.
  Qed.

  Lemma update_save_boom x k v x' f : fine x -> pop_step per pol clk x (QUpdate k v) = (x', f) ->
    (f = Boom <-> poison (x_s x) k v) /\ (f = Boom -> x' = x).
  Proof.
    intros [H L] E. cbn [pop_step] in E. unfold p_update in E. destruct (p_update_no_persist (x_s x) k v) as [s' g] eqn:U.
    destruct (update_healthy _ _ _ _ _ H U) as (_ & N & _ & B & C). apply fmap_eq in E. destruct E as (-> & E & _).
    rewrite E. destruct g as [[e|]| |].
    - destruct (ps_save per (w_p (x_w x)) k v) as [p' ok]. cbn. split; [|discriminate]. rewrite <- C. split; discriminate.
    - cbn. split; [|discriminate]. rewrite <- C. split; discriminate.
    - cbn. split; [exact C|]. intros _. rewrite (B eq_refl). destruct x. reflexivity.
    - congruence.
  Qed.

  Lemma register_boom x k d vp x' f : fine x -> sound_op (QRegister k d vp) -> pop_step per pol clk x (QRegister k d vp) = (x', f) -> f = Boom -> x' = x.
  Proof.
    intros [H L] So E Hf. cbn [pop_step] in E. destruct (p_register_key (x_s x) k d vp) as [s' g] eqn:U.
    assert (Sp : forall p, vp = Some p -> sound_proc p) by (intros p ->; exact So).
    destruct (register_healthy _ _ _ _ _ _ H Sp U) as (_ & _ & B). apply fmap_eq in E. destruct E as (-> & E & _). cbn in E |- *.
    rewrite (B (proj1 E Hf)). destruct x. reflexivity.
  Qed.

  Lemma update_each_boom kvs : forall x s', fine x -> p_update_each (x_s x) kvs = (s', Boom) ->
    exists a k v b, kvs = a ++ (k, v) :: b /\ poison (x_s x) k v /\
      put_s x s' = fst (pop_run per pol clk x (map (fun kv => QUpdateNoPersist (fst kv) (snd kv)) a)) /\
      Forall returned (snd (pop_run per pol clk x (map (fun kv => QUpdateNoPersist (fst kv) (snd kv)) a))).
  Proof.
    induction kvs as [|[k v] kvs IH]; intros x s' H E; cbn in E; [discriminate|].
    destruct (p_update_no_persist (x_s x) k v) as [s1 g] eqn:U. pose proof H as [Hh L].
    destruct (update_healthy _ _ _ _ _ Hh U) as (A & B & C & D & F). destruct g as [e| |]; [| |congruence].
    - destruct (p_update_each s1 kvs) as [s2 h] eqn:E2. destruct h; try discriminate. injection E as <-.
      destruct (IH (put_s x s1) s2) as (a & k' & v' & b & -> & Po & R1 & R2); [split; [exact A|first [exact L|reflexivity]]|exact E2|].
      exists ((k, v) :: a), k', v', b. split; [reflexivity|]. split.
      + destruct Po as (X & p & Y & Z). cbn in Y. rewrite C in Y. split; [exact X|]. exists p. auto.
      + cbn [map pop_run fst snd pop_step]. rewrite U. cbn [fmap].
        destruct (pop_run per pol clk (put_s x s1) _) as [y fs] eqn:R. cbn in *. split; [exact R1|]. constructor; [eexists; reflexivity|exact R2].
    - injection E as <-. exists [], k, v, kvs. split; [reflexivity|]. split; [apply F; reflexivity|]. cbn.
      split; [rewrite (D eq_refl); destruct x; reflexivity|constructor].
  Qed.

  Lemma batch_boom x kvs x' : fine x -> pop_step per pol clk x (QBatchUpdate kvs) = (x', Boom) ->
    exists a k v b, kvs = a ++ (k, v) :: b /\ poison (x_s x) k v /\
      x' = fst (pop_run per pol clk x (map (fun kv => QUpdateNoPersist (fst kv) (snd kv)) a)) /\
      Forall returned (snd (pop_run per pol clk x (map (fun kv => QUpdateNoPersist (fst kv) (snd kv)) a))) /\
      w_p (x_w x') = w_p (x_w x).
  Proof.
    intros H E. cbn [pop_step] in E. unfold p_batch_update in E. destruct kvs as [|kv kvs]; [discriminate|].
    destruct (p_update_each (x_s x) (kv :: kvs)) as [s' g] eqn:U. destruct g as [e| |]; try discriminate.
    destruct (update_each_boom _ _ _ H U) as (a & k & v & b & R1 & R2 & R3 & R4). injection E as <-.
    exists a, k, v, b. auto.
  Qed.

  (** * Persisted poison *)

  Lemma load_poison kvs : forall (s : pstore V) s' f k v, In (k, v) kvs -> poison s k v -> p_load_entries s kvs = (s', f) -> f = Boom \/ f = Stuck.
  Proof.
    induction kvs as [|[k1 v1] kvs IH]; intros s s' f k v Hin Po E; [destruct Hin|]. cbn in E.
    destruct (p_update_no_persist s k1 v1) as [s1 g] eqn:U. destruct Hin as [X|X].
    - injection X as -> ->. destruct Po as (Hk & p & Hp & Hv). unfold p_update_no_persist in U.
      destruct (String.eqb_spec k "") as [Y|_]; [congruence|]. destruct (l_procs s); [injection U as <- <-; injection E as <- <-; auto|].
      rewrite Hp, Hv in U. injection U as <- <-. injection E as <- <-. auto.
    - destruct g as [e| |]; [|injection E as <- <-; auto..]. refine (IH _ _ _ _ _ X _ E).
      destruct Po as (Hk & p & Hp & Hv). split; [exact Hk|]. exists p. split; [|exact Hv]. rewrite <- Hp. clear -U.
      unfold p_update_no_persist in U. destruct (k1 =? "")%string; [injection U as <- _; reflexivity|]. destruct (l_procs s); [injection U as <- _; reflexivity|].
      destruct (q_procs s k1) as [q|]; [|injection U as <- _; reflexivity]. destruct (q_validate q v1) as [[[|] ?]|]; cbn in U; [|injection U as <- _; reflexivity..].
      destruct (l_kv s); [injection U as <- _; reflexivity|]. destruct (q_convert q v1); injection U as <- _; reflexivity.
  Qed.

  Lemma wants_always last now : always_loads pol -> wants_load pol last now = true.
  Proof. intros [-> |(d & -> & H)]; [reflexivity|]. cbn. apply Z.leb_le in H. rewrite H. reflexivity. Qed.

  Lemma do_load_poison (x : psw V P) x' f k v : always_loads pol -> In (k, v) (snd (fst (ps_load per (w_p (x_w x))))) -> poison (x_s x) k v ->
    p_do_load per pol clk x = (x', f) -> ~ returned f.
  Proof.
    intros Ha Hin Po E. unfold p_do_load in E. destruct (has_lock pol && x_load x); [injection E as _ <-; intros [? X]; discriminate|].
    destruct (clk (w_tick (x_w x))) as [now now2]. rewrite (wants_always _ now Ha) in E.
    destruct (ps_load per (w_p (x_w x))) as [[p' kvs] ok]. destruct (p_load_entries (x_s x) kvs) as [s' g] eqn:G.
    destruct (load_poison _ _ _ _ _ _ Hin Po G) as [-> | ->]; injection E as _ <-; intros [? X]; discriminate.
  Qed.

  Lemma read_poison (x : psw V P) o x' f k v : always_loads pol -> In (k, v) (snd (fst (ps_load per (w_p (x_w x))))) -> poison (x_s x) k v ->
    is_read o -> pop_step per pol clk x o = (x', f) -> ~ returned f.
  Proof.
    intros Ha Hin Po Hr E.
    assert (D : forall A (r : psw V P * fate A) (g : A -> sres V), fmap g r = (x', f) -> ~ returned (snd r) -> ~ returned f).
    { intros A [y o'] g X N [a ->]. cbn in X. destruct o'; try discriminate. apply N. eexists. reflexivity. }
    destruct (p_do_load per pol clk x) as [y g] eqn:L. pose proof (do_load_poison _ _ _ _ _ Ha Hin Po L) as N.
    assert (G : g = Boom \/ g = Stuck) by (destruct g; [exfalso; apply N; eexists; reflexivity|auto..]).
    destruct o; try destruct Hr; cbn [pop_step] in E; apply (D _ _ _ E); unfold p_get, p_must_get, p_batch_get; rewrite L;
      destruct G as [-> | ->]; intros [? X]; discriminate.
  Qed.

  (** * A lock that is never released *)

  Lemma update_locked (s : pstore V) k v s' f : l_kv s = true -> p_update_no_persist s k v = (s', f) -> l_kv s' = true /\ q_kv s' = q_kv s.
  Proof.
    intros H E. unfold p_update_no_persist in E. destruct (k =? "")%string; [injection E as <- _; auto|]. destruct (l_procs s); [injection E as <- _; auto|].
    destruct (q_procs s k) as [q|]; [|injection E as <- _; auto]. destruct (q_validate q v) as [[[|] ?]|]; cbn in E; [|injection E as <- _; auto..].
    rewrite H in E. injection E as <- _; auto.
  Qed.

  Lemma load_locked kvs : forall (s : pstore V) s' f, l_kv s = true -> p_load_entries s kvs = (s', f) -> l_kv s' = true.
  Proof.
    induction kvs as [|[k v] kvs IH]; intros s s' f H E; cbn in E; [injection E as <- _; exact H|].
    destruct (p_update_no_persist s k v) as [s1 g] eqn:U. destruct (update_locked _ _ _ _ _ H U) as [A _].
    destruct g; [exact (IH _ _ _ A E)|injection E as <- _; exact A..].
  Qed.

  Lemma do_load_locked (x : psw V P) x' f : l_kv (x_s x) = true -> p_do_load per pol clk x = (x', f) -> l_kv (x_s x') = true.
  Proof.
    intros H E. unfold p_do_load in E. destruct (has_lock pol && x_load x); [injection E as <- _; exact H|].
    destruct (clk (w_tick (x_w x))) as [now now2]. destruct (wants_load pol (w_last (x_w x)) now); [|injection E as <- _; exact H].
    destruct (ps_load per (w_p (x_w x))) as [[p' kvs] ok]. destruct (p_load_entries (x_s x) kvs) as [s' g] eqn:G.
    pose proof (load_locked _ _ _ _ H G). destruct g; injection E as <- _; assumption.
  Qed.

  Lemma get_locked A (read : pstore V -> string -> option A) (x : psw V P) k x' f : l_kv (x_s x) = true -> p_get per pol clk read x k = (x', f) ->
    l_kv (x_s x') = true /\ ~ returned f.
  Proof.
    intros H E. unfold p_get in E. destruct (p_do_load per pol clk x) as [y g] eqn:D. pose proof (do_load_locked _ _ _ H D) as L.
    destruct g; [rewrite L in E|..]; injection E as <- <-; split; auto; intros [? X]; discriminate.
  Qed.

  Lemma get_each_locked A (read : pstore V -> string -> option A) ks : forall (x : psw V P) x' f, l_kv (x_s x) = true ->
    p_get_each per pol clk read x ks = (x', f) -> l_kv (x_s x') = true.
  Proof.
    induction ks as [|k ks IH]; intros x x' f H E; cbn in E; [injection E as <- _; exact H|].
    destruct (k =? "")%string; [exact (IH _ _ _ H E)|]. destruct (p_get per pol clk read x k) as [y g] eqn:G. destruct (get_locked _ _ _ _ _ _ H G) as [L _].
    destruct g; [|injection E as <- _; exact L..]. destruct (p_get_each per pol clk read y ks) as [z h] eqn:E2. pose proof (IH _ _ _ L E2).
    destruct h; injection E as <- _; assumption.
  Qed.

  Lemma update_each_locked kvs : forall (s : pstore V) s' f, l_kv s = true -> p_update_each s kvs = (s', f) -> l_kv s' = true.
  Proof.
    induction kvs as [|[k v] kvs IH]; intros s s' f H E; cbn in E; [injection E as <- _; exact H|].
    destruct (p_update_no_persist s k v) as [s1 g] eqn:U. destruct (update_locked _ _ _ _ _ H U) as [A _].
    destruct g; [|injection E as <- _; exact A..]. destruct (p_update_each s1 kvs) as [s2 h] eqn:E2. pose proof (IH _ _ _ A E2).
    destruct h; injection E as <- _; assumption.
  Qed.

  Lemma step_locked (x : psw V P) o x' f : l_kv (x_s x) = true -> pop_step per pol clk x o = (x', f) -> l_kv (x_s x') = true.
  Proof.
    intros H E. destruct o as [k d vp|k|k v|k v|kvs|k|k|k|k|k|ks|ks]; cbn [pop_step] in E.
    - destruct (p_register_key (x_s x) k d vp) as [s' g] eqn:U. apply fmap_eq in E. destruct E as (-> & _). cbn. unfold p_register_key in U.
      destruct (k =? "")%string; [injection U as <- _; exact H|]. destruct vp; [|injection U as <- _; exact H].
      destruct (l_procs (x_s x)); [injection U as <- _; exact H|]. rewrite H in U. injection U as <- _. exact H.
    - apply fmap_eq in E. destruct E as (-> & _). unfold p_deregister_key. destruct (k =? "")%string; [exact H|].
      destruct (l_procs (x_s x)); [exact H|]. rewrite H. exact H.
    - apply fmap_eq in E. destruct E as (-> & _). unfold p_update. destruct (p_update_no_persist (x_s x) k v) as [s' g] eqn:U.
      destruct (update_locked _ _ _ _ _ H U) as [A _]. destruct g as [[e|]| |]; try exact A. destruct (ps_save per (w_p (x_w x)) k v). exact A.
    - destruct (p_update_no_persist (x_s x) k v) as [s' g] eqn:U. apply fmap_eq in E. destruct E as (-> & _). exact (proj1 (update_locked _ _ _ _ _ H U)).
    - apply fmap_eq in E. destruct E as (-> & _). unfold p_batch_update. destruct kvs as [|kv kvs]; [exact H|].
      destruct (p_update_each (x_s x) (kv :: kvs)) as [s' g] eqn:U. pose proof (update_each_locked _ _ _ _ H U). destruct g; assumption.
    - apply fmap_eq in E. destruct E as (-> & _). unfold p_reset_key. rewrite H. exact H.
    - apply fmap_eq in E. destruct E as (-> & _). destruct (p_get per pol clk p_read_value x k) eqn:G. exact (proj1 (get_locked _ _ _ _ _ _ H G)).
    - apply fmap_eq in E. destruct E as (-> & _). destruct (p_get per pol clk p_read_string x k) eqn:G. exact (proj1 (get_locked _ _ _ _ _ _ H G)).
    - apply fmap_eq in E. destruct E as (-> & _). unfold p_must_get. destruct (p_do_load per pol clk x) as [y g] eqn:D. pose proof (do_load_locked _ _ _ H D) as L.
      destruct g; [|exact L..]. destruct (p_get per pol clk p_read_value y k) eqn:G. exact (proj1 (get_locked _ _ _ _ _ _ L G)).
    - apply fmap_eq in E. destruct E as (-> & _). unfold p_must_get. destruct (p_do_load per pol clk x) as [y g] eqn:D. pose proof (do_load_locked _ _ _ H D) as L.
      destruct g; [|exact L..]. destruct (p_get per pol clk p_read_string y k) eqn:G. exact (proj1 (get_locked _ _ _ _ _ _ L G)).
    - apply fmap_eq in E. destruct E as (-> & _). unfold p_batch_get. destruct (p_do_load per pol clk x) as [y g] eqn:D. pose proof (do_load_locked _ _ _ H D) as L.
      destruct g; [|exact L..]. destruct (p_get_each per pol clk p_read_value y ks) eqn:G. exact (get_each_locked _ _ _ _ _ _ L G).
    - apply fmap_eq in E. destruct E as (-> & _). unfold p_batch_get. destruct (p_do_load per pol clk x) as [y g] eqn:D. pose proof (do_load_locked _ _ _ H D) as L.
      destruct g; [|exact L..]. destruct (p_get_each per pol clk p_read_string y ks) eqn:G. exact (get_each_locked _ _ _ _ _ _ L G).
  Qed.

  Lemma run_locked os : forall (x : psw V P), l_kv (x_s x) = true -> l_kv (x_s (fst (pop_run per pol clk x os))) = true.
  Proof.
    induction os as [|o os IH]; intros x H; [exact H|]. cbn [pop_run]. destruct (pop_step per pol clk x o) as [y f] eqn:S.
    pose proof (step_locked _ _ _ _ H S) as L. specialize (IH y L). destruct (pop_run per pol clk y os). exact IH.
  Qed.

  Lemma get_each_stuck A (read : pstore V -> string -> option A) ks : forall (x : psw V P) x' f, l_kv (x_s x) = true -> (exists k, In k ks /\ k <> "") ->
    p_get_each per pol clk read x ks = (x', f) -> ~ returned f.
  Proof.
    induction ks as [|k ks IH]; intros x x' f H (k' & Hin & Hk) E; [destruct Hin|]. cbn in E. destruct (String.eqb_spec k "") as [->|N].
    - refine (IH _ _ _ H _ E). destruct Hin as [X|X]; [congruence|]. exists k'. auto.
    - destruct (p_get per pol clk read x k) as [y g] eqn:G. destruct (get_locked _ _ _ _ _ _ H G) as [_ NR].
      destruct g; [exfalso; apply NR; eexists; reflexivity|injection E as _ <-; intros [? X]; discriminate..].
  Qed.

  Lemma step_stuck (x : psw V P) o x' f : l_kv (x_s x) = true -> needs_kv o -> pop_step per pol clk x o = (x', f) -> ~ returned f.
  Proof.
    intros H N E.
    assert (D : forall A (r : psw V P * fate A) (g : A -> sres V), fmap g r = (x', f) -> ~ returned (snd r) -> ~ returned f).
    { intros A [y o'] g X M [a ->]. cbn in X. destruct o'; try discriminate. apply M. eexists. reflexivity. }
    destruct o as [k d vp|k|k v|k v|kvs|k|k|k|k|k|ks|ks]; cbn [pop_step needs_kv] in E, N; try contradiction.
    - destruct vp as [p|]; [|contradiction]. destruct (p_register_key (x_s x) k d (Some p)) as [s' g] eqn:U. apply (D _ _ _ E). cbn.
      unfold p_register_key in U. destruct (String.eqb_spec k "") as [X|_]; [congruence|]. rewrite H in U.
      destruct (l_procs (x_s x)); injection U as _ <-; intros [? X]; discriminate.
    - apply (D _ _ _ E). unfold p_deregister_key. destruct (String.eqb_spec k "") as [X|_]; [congruence|]. rewrite H.
      destruct (l_procs (x_s x)); intros [? X]; discriminate.
    - apply (D _ _ _ E). unfold p_reset_key. rewrite H. intros [? X]; discriminate.
    - apply (D _ _ _ E). destruct (p_get per pol clk p_read_value x k) eqn:G. exact (proj2 (get_locked _ _ _ _ _ _ H G)).
    - apply (D _ _ _ E). destruct (p_get per pol clk p_read_string x k) eqn:G. exact (proj2 (get_locked _ _ _ _ _ _ H G)).
    - apply (D _ _ _ E). unfold p_must_get. destruct (p_do_load per pol clk x) as [y g] eqn:L. pose proof (do_load_locked _ _ _ H L) as K.
      destruct g; [|intros [? X]; discriminate..]. destruct (p_get per pol clk p_read_value y k) eqn:G. exact (proj2 (get_locked _ _ _ _ _ _ K G)).
    - apply (D _ _ _ E). unfold p_must_get. destruct (p_do_load per pol clk x) as [y g] eqn:L. pose proof (do_load_locked _ _ _ H L) as K.
      destruct g; [|intros [? X]; discriminate..]. destruct (p_get per pol clk p_read_string y k) eqn:G. exact (proj2 (get_locked _ _ _ _ _ _ K G)).
    - apply (D _ _ _ E). unfold p_batch_get. destruct (p_do_load per pol clk x) as [y g] eqn:L. pose proof (do_load_locked _ _ _ H L) as K.
      destruct g; [|intros [? X]; discriminate..]. destruct (p_get_each per pol clk p_read_value y ks) eqn:G. exact (get_each_stuck _ _ _ _ _ _ K N G).
    - apply (D _ _ _ E). unfold p_batch_get. destruct (p_do_load per pol clk x) as [y g] eqn:L. pose proof (do_load_locked _ _ _ H L) as K.
      destruct g; [|intros [? X]; discriminate..]. destruct (p_get_each per pol clk p_read_string y ks) eqn:G. exact (get_each_stuck _ _ _ _ _ _ K N G).
  Qed.

  Lemma boom_locks (x : psw V P) k v x' : pop_step per pol clk x (QUpdateNoPersist k v) = (x', Boom) -> ~ poison (x_s x) k v ->
    l_kv (x_s x') = true.
  Proof.
    intros E N. cbn [pop_step] in E. destruct (p_update_no_persist (x_s x) k v) as [s' g] eqn:U. apply fmap_eq in E. destruct E as (-> & E & _). cbn in E |- *.
    pose proof (proj1 E eq_refl) as ->. unfold p_update_no_persist in U. destruct (String.eqb_spec k "") as [->|Hk]; [discriminate|]. destruct (l_procs (x_s x)); [discriminate|].
    destruct (q_procs (x_s x) k) as [p|] eqn:Ep; [|discriminate]. destruct (q_validate p v) as [[[|] e]|] eqn:Ev; cbn in U; [|discriminate|].
    - destruct (l_kv (x_s x)); [discriminate|]. destruct (q_convert p v); [discriminate|]. injection U as <-. reflexivity.
    - exfalso. apply N. split; [exact Hk|]. exists p. auto.
  Qed.

  (** * Without panics *)

  Definition same_store (s : store V) (q : pstore V) : Prop :=
    (forall k, q_procs q k = option_map total (s_procs s k)) /\ q_def q = s_def s /\ q_defstr q = s_defstr s /\
    q_kv q = s_kv s /\ q_kvstr q = s_kvstr s /\ l_procs q = false /\ l_kv q = false.
  Definition same_world (x : store V * world P) (y : psw V P) : Prop :=
    same_store (fst x) (x_s y) /\ x_w y = snd x /\ x_load y = false.

  Ltac same := repeat split; auto.

  Lemma update_same s q k v : same_store s q -> exists q', p_update_no_persist q k v = (q', Ret (snd (update_no_persist s k v))) /\
    same_store (fst (update_no_persist s k v)) q'.
  Proof.
    intros (H1 & H2 & H3 & H4 & H5 & H6 & H7). unfold p_update_no_persist, update_no_persist, lookup_value.
    destruct (k =? "")%string; [exists q; same|]. rewrite H6, H1. destruct (s_procs s k) as [p|]; cbn [option_map]; [|exists q; same].
    cbn [q_validate total q_convert]. destruct (p_validate p v) as [ok e]. destruct ok; cbn [negb]; [|exists q; same].
    rewrite H7. eexists. split; [reflexivity|]. unfold write_value. cbn. same; cbn; congruence.
  Qed.

  Lemma register_same s q k d vp : same_store s q -> exists q', p_register_key q k d (option_map total vp) = (q', Ret (snd (register_key s k d vp))) /\
    same_store (fst (register_key s k d vp)) q'.
  Proof.
    intros (H1 & H2 & H3 & H4 & H5 & H6 & H7). unfold p_register_key, register_key. destruct (k =? "")%string; [exists q; same|].
    destruct vp as [p|]; cbn [option_map]; [|exists q; same]. rewrite H6, H7, H1. destruct (s_procs s k); cbn [option_map]; [exists q; same|].
    rewrite H2. destruct (s_def s k); [exists q; same|]. cbn [q_validate total q_convert]. destruct (p_validate p d) as [ok e]. destruct ok; cbn [negb]; [|exists q; same].
    eexists. split; [reflexivity|]. cbn. same; cbn; try congruence. intros k'. unfold mset. destruct (k' =? k)%string; [reflexivity|apply H1].
  Qed.

  Lemma load_same kvs : forall s q, same_store s q -> exists q', p_load_entries q kvs = (q', Ret tt) /\ same_store (load_entries s kvs) q'.
  Proof.
    unfold load_entries. induction kvs as [|[k v] kvs IH]; intros s q H; cbn [p_load_entries fold_left]; [exists q; auto|].
    destruct (update_same s q k v H) as (q1 & -> & H1). apply IH. exact H1.
  Qed.

  Lemma do_load_same x y : same_world x y -> exists y', p_do_load per pol clk y = (y', Ret tt) /\ same_world (do_load per pol clk x) y'.
  Proof.
    destruct x as [s w]. intros (H & Hw & L). cbn in H, Hw. subst w. unfold p_do_load, do_load. rewrite L, Bool.andb_false_r.
    destruct (clk (w_tick (x_w y))) as [now now2]. destruct (wants_load pol (w_last (x_w y)) now).
    - destruct (ps_load per (w_p (x_w y))) as [[p' kvs] ok]. destruct (load_same kvs s (x_s y) H) as (q & -> & Hq).
      eexists. split; [reflexivity|]. split; [exact Hq|]. split; reflexivity.
    - eexists. split; [reflexivity|]. split; [exact H|]. split; reflexivity.
  Qed.

  Lemma get_same A (read : store V -> string -> option A) (pread : pstore V -> string -> option A) x y k :
    (forall s q, same_store s q -> pread q k = read s k) -> same_world x y ->
    exists y', p_get per pol clk pread y k = (y', Ret (read (fst (do_load per pol clk x)) k)) /\ same_world (do_load per pol clk x) y'.
  Proof.
    intros Hr H. destruct (do_load_same x y H) as (y' & E & H'). unfold p_get. rewrite E. pose proof H' as ((_ & _ & _ & _ & _ & _ & K) & _ & _).
    rewrite K. rewrite (Hr _ _ (proj1 H')). exists y'. auto.
  Qed.

  Lemma read_value_same s q k : same_store s q -> p_read_value q k = read_value s k.
  Proof. intros (_ & A & _ & B & _). unfold p_read_value, read_value. rewrite A, B. reflexivity. Qed.
  Lemma read_string_same s q k : same_store s q -> p_read_string q k = read_string s k.
  Proof. intros (_ & _ & A & _ & B & _). unfold p_read_string, read_string. rewrite A, B. reflexivity. Qed.

  Lemma get_each_same A (read : store V -> string -> option A) (pread : pstore V -> string -> option A) (get : store V * world P -> string -> (store V * world P) * option A) :
    (forall s q k, same_store s q -> pread q k = read s k) ->
    (forall x k, get x k = (do_load per pol clk x, read (fst (do_load per pol clk x)) k)) ->
    forall ks x y, same_world x y -> exists y', p_get_each per pol clk pread y ks = (y', Ret (snd (get_each get x ks))) /\ same_world (fst (get_each get x ks)) y'.
  Proof.
    intros Hr Hg. induction ks as [|k ks IH]; intros x y H; cbn [p_get_each get_each]; [exists y; auto|].
    destruct (k =? "")%string; [apply IH; exact H|]. rewrite Hg. destruct (get_same A read pread x y k (fun s q => Hr s q k) H) as (y1 & -> & H1).
    destruct (IH _ _ H1) as (y2 & -> & H2). destruct (get_each get (do_load per pol clk x) ks) as [x2 kvs]. exists y2. auto.
  Qed.

  Lemma update_each_same kvs : forall s q, same_store s q ->
    exists q', p_update_each q kvs = (q', Ret (snd (update_each s kvs))) /\ same_store (fst (update_each s kvs)) q'.
  Proof.
    induction kvs as [|[k v] kvs IH]; intros s q H; cbn [p_update_each update_each]; [exists q; auto|].
    destruct (update_same s q k v H) as (q1 & -> & H1). destruct (update_no_persist s k v) as [s1 e]. cbn in H1 |- *.
    destruct (IH _ _ H1) as (q2 & -> & H2). destruct (update_each s1 kvs) as [s2 es]. cbn in H2 |- *. exists q2. destruct e; auto.
  Qed.

  Lemma step_same x y o : same_world x y -> exists y', pop_step per pol clk y (lifted o) = (y', Ret (snd (sop_step per pol clk x o))) /\
    same_world (fst (sop_step per pol clk x o)) y'.
  Proof.
    intros H. pose proof H as (Hs & Hw & L). destruct o as [k d vp|k|k v|k v|kvs|k|k|k|k|k|ks|ks]; cbn [lifted pop_step sop_step].
    - destruct (register_same _ _ k d vp Hs) as (q & -> & Hq). destruct (register_key (fst x) k d vp) as [s' e]. cbn in *. eexists. split; [reflexivity|].
      split; [exact Hq|split; assumption].
    - unfold p_deregister_key, deregister_key. destruct x as [s w]. cbn in *. subst w. destruct Hs as (H1 & H2 & H3 & H4 & H5 & H6 & H7).
      destruct (k =? "")%string; [exists y; split; [reflexivity|exact H]|]. rewrite H6, H7. cbn. eexists. split; [reflexivity|].
      split; [|split; [reflexivity|first [exact L|reflexivity]]]. cbn. unfold drop_key. same; cbn; try congruence. intros k'. unfold mdel. destruct (k' =? k)%string; [reflexivity|apply H1].
    - unfold p_update, update. destruct x as [s w]. cbn in *. subst w. destruct (update_same s _ k v Hs) as (q & -> & Hq).
      destruct (update_no_persist s k v) as [s' e]. cbn in *. destruct e as [e|].
      + destruct (ps_save per (w_p (x_w y)) k v) as [p' ok]. cbn. eexists. split; [reflexivity|]. split; [exact Hq|]. split; [reflexivity|first [exact L|reflexivity]].
      + cbn. eexists. split; [reflexivity|]. split; [exact Hq|]. split; [reflexivity|first [exact L|reflexivity]].
    - destruct (update_same _ _ k v Hs) as (q & -> & Hq). destruct (update_no_persist (fst x) k v) as [s' e]. cbn in *. eexists. split; [reflexivity|].
      split; [exact Hq|split; assumption].
    - unfold p_batch_update, batch_update. destruct x as [s w]. cbn in *. subst w. destruct kvs as [|kv kvs]; [cbn; exists y; split; [reflexivity|exact H]|].
      destruct (update_each_same (kv :: kvs) s _ Hs) as (q & -> & Hq). destruct (update_each s (kv :: kvs)) as [s' es]. cbn [fst snd] in *.
      cbn [fmap]. eexists. split; [reflexivity|]. split; [exact Hq|]. split; [reflexivity|first [exact L|reflexivity]].
    - unfold p_reset_key, reset_key. destruct x as [s w]. cbn in *. subst w. destruct Hs as (H1 & H2 & H3 & H4 & H5 & H6 & H7).
      rewrite H7. cbn. eexists. split; [reflexivity|]. split; [|split; [reflexivity|first [exact L|reflexivity]]]. cbn. unfold clear_key. same; cbn; try congruence.
    - destruct (get_same V read_value p_read_value x y k (fun s q => read_value_same s q k) H) as (y' & -> & H'). unfold get_value. exists y'. auto.
    - destruct (get_same string read_string p_read_string x y k (fun s q => read_string_same s q k) H) as (y' & -> & H'). unfold get_value_string. exists y'. auto.
    - unfold p_must_get, must_get_value, get_value. destruct (do_load_same x y H) as (y1 & -> & H1).
      destruct (get_same V read_value p_read_value _ y1 k (fun s q => read_value_same s q k) H1) as (y' & -> & H'). exists y'. auto.
    - unfold p_must_get, must_get_value_string, get_value_string. destruct (do_load_same x y H) as (y1 & -> & H1).
      destruct (get_same string read_string p_read_string _ y1 k (fun s q => read_string_same s q k) H1) as (y' & -> & H'). exists y'. auto.
    - unfold p_batch_get, batch_get_values. destruct (do_load_same x y H) as (y1 & -> & H1).
      destruct (get_each_same V read_value p_read_value (get_value per pol clk) read_value_same (fun _ _ => eq_refl) ks _ y1 H1) as (y' & -> & H').
      destruct (get_each _ _ ks) as [x2 r]. exists y'. auto.
    - unfold p_batch_get, batch_get_value_string. destruct (do_load_same x y H) as (y1 & -> & H1).
      destruct (get_each_same string read_string p_read_string (get_value_string per pol clk) read_string_same (fun _ _ => eq_refl) ks _ y1 H1) as (y' & -> & H').
      destruct (get_each _ _ ks) as [x2 r]. exists y'. auto.
  Qed.

  Lemma run_same os : forall x y, same_world x y -> exists y', pop_run per pol clk y (map lifted os) = (y', map Ret (snd (sop_run per pol clk x os))) /\
    same_world (fst (sop_run per pol clk x os)) y'.
  Proof.
    induction os as [|o os IH]; intros x y H; cbn [map pop_run sop_run]; [exists y; auto|].
    destruct (step_same x y o H) as (y1 & -> & H1). destruct (sop_step per pol clk x o) as [x1 r]. cbn in H1 |- *.
    destruct (IH _ _ H1) as (y2 & -> & H2). destruct (sop_run per pol clk x1 os) as [x2 rs]. exists y2. auto.
  Qed.

  Lemma new_same w : same_world (new_store, w) (new_psw w).
  Proof. split; [|split; reflexivity]. repeat split. Qed.
End panics.

Lemma total_sound V (p : proc V) : sound_proc (total p).
Proof. intros v e _. discriminate. Qed.

Lemma key_sound K (read : string -> outcome K) show : sound_proc (key_processor read show).
Proof.
  intros v e H. cbn in *. unfold rsa_validate, rsa_convert in *. destruct (v =? "")%string; [discriminate|].
  destruct (read v); cbn in *; [discriminate|discriminate|discriminate].
Qed.

(** * Reading the same hash again and again *)

Section redis.
  Context {V : Type}.
  Variable ord : nat -> list (string * string) -> list (string * string).
  Variable pol : policy.
  Variable clk : nat -> Z * Z.
  Hypothesis Hord : forall n h, Permutation (ord n h) h.
  Let per := redis_persister (fun _ => true) ord.

  (** The processors and the hash. *)
  Definition view (x : psw V redis) := (q_procs (x_s x), r_hash (w_p (x_w x))).

  Lemma do_load_view x x' f : fine x -> p_do_load per pol clk x = (x', f) -> view x' = view x /\ fine x' /\ f <> Stuck.
  Proof.
    intros H E. destruct (do_load_fine per pol clk _ _ _ H E) as (A & B & C). split; [|auto]. unfold view. rewrite C. f_equal.
    unfold p_do_load in E. destruct (has_lock pol && x_load x); [injection E as <- _; reflexivity|].
    destruct (clk (w_tick (x_w x))) as [now now2]. destruct (wants_load pol (w_last (x_w x)) now); [|injection E as <- _; reflexivity].
    cbn in E. destruct (p_load_entries (x_s x) _) as [s' g]. destruct g; injection E as <- _; reflexivity.
  Qed.

  Lemma get_view A (read : pstore V -> string -> option A) (x : psw V redis) k x' f : fine x -> p_get per pol clk read x k = (x', f) -> view x' = view x /\ fine x' /\ f <> Stuck.
  Proof.
    intros H E. destruct (get_fine per pol clk _ _ _ _ _ _ H E) as (A1 & A2). split; [|auto]. unfold p_get in E. destruct (p_do_load per pol clk x) as [y g] eqn:D.
    destruct (do_load_view _ _ _ H D) as (B & _). destruct g; [destruct (l_kv (x_s y))|..]; injection E as <- _; exact B.
  Qed.

  Lemma get_each_view A (read : pstore V -> string -> option A) ks : forall (x : psw V redis) x' f, fine x -> p_get_each per pol clk read x ks = (x', f) -> view x' = view x.
  Proof.
    induction ks as [|k ks IH]; intros x x' f H E; cbn in E; [injection E as <- _; reflexivity|].
    destruct (k =? "")%string; [exact (IH _ _ _ H E)|]. destruct (p_get per pol clk read x k) as [y g] eqn:G. destruct (get_view _ _ _ _ _ _ H G) as (B & C & _).
    destruct g; [|injection E as <- _; exact B..]. destruct (p_get_each per pol clk read y ks) as [z h] eqn:E2. pose proof (IH _ _ _ C E2) as D.
    destruct h; injection E as <- _; congruence.
  Qed.

  Lemma read_view (x : psw V redis) o x' f : fine x -> is_read o -> pop_step per pol clk x o = (x', f) -> view x' = view x.
  Proof.
    intros H Hr E. destruct o; try destruct Hr; cbn [pop_step] in E; apply fmap_eq in E; destruct E as (-> & _); unfold p_must_get, p_batch_get.
    - destruct (p_get per pol clk p_read_value x key) eqn:G. exact (proj1 (get_view _ _ _ _ _ _ H G)).
    - destruct (p_get per pol clk p_read_string x key) eqn:G. exact (proj1 (get_view _ _ _ _ _ _ H G)).
    - destruct (p_do_load per pol clk x) as [y g] eqn:D. destruct (do_load_view _ _ _ H D) as (B & C & _). destruct g; [|exact B..].
      destruct (p_get per pol clk p_read_value y key) eqn:G. rewrite <- B. exact (proj1 (get_view _ _ _ _ _ _ C G)).
    - destruct (p_do_load per pol clk x) as [y g] eqn:D. destruct (do_load_view _ _ _ H D) as (B & C & _). destruct g; [|exact B..].
      destruct (p_get per pol clk p_read_string y key) eqn:G. rewrite <- B. exact (proj1 (get_view _ _ _ _ _ _ C G)).
    - destruct (p_do_load per pol clk x) as [y g] eqn:D. destruct (do_load_view _ _ _ H D) as (B & C & _). destruct g; [|exact B..].
      destruct (p_get_each per pol clk p_read_value y keys) eqn:G. rewrite <- B. exact (get_each_view _ _ _ _ _ _ C G).
    - destruct (p_do_load per pol clk x) as [y g] eqn:D. destruct (do_load_view _ _ _ H D) as (B & C & _). destruct g; [|exact B..].
      destruct (p_get_each per pol clk p_read_string y keys) eqn:G. rewrite <- B. exact (get_each_view _ _ _ _ _ _ C G).
  Qed.

  Lemma reads_sound os : Forall (@is_read V) os -> Forall sound_op os.
  Proof. apply Forall_impl. intros o. destruct o; cbn; tauto. Qed.

  Lemma reads_poisoned os : forall (x : psw V redis) k v, always_loads pol -> fine x -> In (k, v) (r_hash (w_p (x_w x))) -> poison (x_s x) k v ->
    Forall is_read os -> Forall (eq Boom) (snd (pop_run per pol clk x os)).
  Proof.
    induction os as [|o os IH]; intros x k v Ha H Hin Po Hr; [constructor|]. inversion Hr as [|? ? H1 H2]; subst.
    cbn [pop_run]. destruct (pop_step per pol clk x o) as [y f] eqn:S.
    assert (So : sound_op o) by (destruct o; cbn in *; tauto).
    destruct (step_fine per pol clk _ _ _ _ H So S) as [Fy Ns]. pose proof (read_view _ _ _ _ H H1 S) as Vw.
    assert (NB : ~ returned f).
    { apply (read_poison per pol clk x o y f k v Ha); try assumption. cbn. apply (Permutation_in _ (Permutation_sym (Hord _ _))). exact Hin. }
    assert (R : Forall (eq Boom) (snd (pop_run per pol clk y os))).
    { injection Vw as Vp Vh. apply (IH y k v Ha Fy); [rewrite Vh; exact Hin| |exact H2]. destruct Po as (Hk & p & Hp & Hv). split; [exact Hk|]. exists p. rewrite Vp. auto. }
    destruct (pop_run per pol clk y os) as [z fs]. cbn in *. constructor; [|exact R]. destruct f; [exfalso; apply NB; eexists; reflexivity|reflexivity|congruence].
  Qed.

  Lemma load_clean kvs : forall (s : pstore V) s' f, healthy s -> (forall k v, In (k, v) kvs -> ~ poison s k v) -> p_load_entries s kvs = (s', f) -> f = Ret tt.
  Proof.
    induction kvs as [|[k v] kvs IH]; intros s s' f H C E; cbn in E; [injection E as _ <-; reflexivity|].
    destruct (p_update_no_persist s k v) as [s1 g] eqn:U. destruct (update_healthy _ _ _ _ _ H U) as (A & B & D & _ & F).
    destruct g as [e| |]; [|exfalso; apply (C k v); [left; reflexivity|apply F; reflexivity]|congruence].
    apply (IH s1 s' f A); [|exact E]. intros k' v' Hin (X & p & Y & Z). apply (C k' v'); [right; exact Hin|]. split; [exact X|]. exists p. rewrite <- D. auto.
  Qed.

  Definition clean (x : psw V redis) : Prop := forall k v, In (k, v) (r_hash (w_p (x_w x))) -> ~ poison (x_s x) k v.
  Lemma clean_view (x y : psw V redis) : view y = view x -> clean x -> clean y.
  Proof. intros E C k v Hin (X & p & Y & Z). injection E as Ep Eh. apply (C k v); [rewrite <- Eh; exact Hin|]. split; [exact X|]. exists p. rewrite <- Ep. auto. Qed.

  Lemma do_load_clean (x : psw V redis) x' f : fine x -> clean x -> p_do_load per pol clk x = (x', f) -> f = Ret tt.
  Proof.
    intros [H L] C E. unfold p_do_load in E. rewrite L, Bool.andb_false_r in E.
    destruct (clk (w_tick (x_w x))) as [now now2]. destruct (wants_load pol (w_last (x_w x)) now); [|injection E as _ <-; reflexivity].
    cbn in E. destruct (p_load_entries (x_s x) (ord _ _)) as [s' g] eqn:G. apply load_clean in G; [subst g; injection E as _ <-; reflexivity|exact H|].
    intros k v Hin. apply C. exact (Permutation_in _ (Hord _ _) Hin).
  Qed.

  Lemma get_clean A (read : pstore V -> string -> option A) (x : psw V redis) k x' f : fine x -> clean x -> p_get per pol clk read x k = (x', f) -> returned f.
  Proof.
    intros H C E. unfold p_get in E. destruct (p_do_load per pol clk x) as [y g] eqn:D. destruct (do_load_view _ _ _ H D) as (_ & [(K & _) _] & _).
    apply do_load_clean in D; [|assumption..]. subst g. rewrite K in E. injection E as _ <-. eexists. reflexivity.
  Qed.

  Lemma get_each_clean A (read : pstore V -> string -> option A) ks : forall (x : psw V redis) x' f, fine x -> clean x -> p_get_each per pol clk read x ks = (x', f) -> returned f.
  Proof.
    induction ks as [|k ks IH]; intros x x' f H C E; cbn in E; [injection E as _ <-; eexists; reflexivity|].
    destruct (k =? "")%string; [exact (IH _ _ _ H C E)|]. destruct (p_get per pol clk read x k) as [y g] eqn:G. destruct (get_view _ _ _ _ _ _ H G) as (B & D & _).
    apply get_clean in G; [|assumption..]. destruct G as [r ->]. destruct (p_get_each per pol clk read y ks) as [z h] eqn:E2.
    destruct (IH _ _ _ D (clean_view _ _ B C) E2) as [r2 ->]. injection E as _ <-. eexists. reflexivity.
  Qed.

  Lemma read_clean (x : psw V redis) o x' f : fine x -> clean x -> is_read o -> pop_step per pol clk x o = (x', f) -> returned f.
  Proof.
    intros H C Hr E.
    assert (W : forall A (r : psw V redis * fate A) (g : A -> sres V), fmap g r = (x', f) -> returned (snd r) -> returned f).
    { intros A [y o'] g X [a Y]. cbn in X, Y. subst o'. injection X as _ <-. eexists. reflexivity. }
    destruct o; try destruct Hr; cbn [pop_step] in E; apply (W _ _ _ E); unfold p_must_get, p_batch_get.
    - destruct (p_get per pol clk p_read_value x key) eqn:G. exact (get_clean _ _ _ _ _ _ H C G).
    - destruct (p_get per pol clk p_read_string x key) eqn:G. exact (get_clean _ _ _ _ _ _ H C G).
    - destruct (p_do_load per pol clk x) as [y g] eqn:D. destruct (do_load_view _ _ _ H D) as (B & F & _). apply do_load_clean in D; [|assumption..]. subst g.
      destruct (p_get per pol clk p_read_value y key) eqn:G. exact (get_clean _ _ _ _ _ _ F (clean_view _ _ B C) G).
    - destruct (p_do_load per pol clk x) as [y g] eqn:D. destruct (do_load_view _ _ _ H D) as (B & F & _). apply do_load_clean in D; [|assumption..]. subst g.
      destruct (p_get per pol clk p_read_string y key) eqn:G. exact (get_clean _ _ _ _ _ _ F (clean_view _ _ B C) G).
    - destruct (p_do_load per pol clk x) as [y g] eqn:D. destruct (do_load_view _ _ _ H D) as (B & F & _). apply do_load_clean in D; [|assumption..]. subst g.
      destruct (p_get_each per pol clk p_read_value y keys) eqn:G. exact (get_each_clean _ _ _ _ _ _ F (clean_view _ _ B C) G).
    - destruct (p_do_load per pol clk x) as [y g] eqn:D. destruct (do_load_view _ _ _ H D) as (B & F & _). apply do_load_clean in D; [|assumption..]. subst g.
      destruct (p_get_each per pol clk p_read_string y keys) eqn:G. exact (get_each_clean _ _ _ _ _ _ F (clean_view _ _ B C) G).
  Qed.

  Lemma hdel_in (h : list (string * string)) k kv : In kv (hdel h k) <-> In kv h /\ fst kv <> k.
  Proof. unfold hdel. rewrite filter_In, Bool.negb_true_iff, String.eqb_neq. tauto. Qed.

  (** Resetting or deregistering the key makes reads work again. *)
  Lemma reset_recovers (x : psw V redis) k o x1 f1 x2 f2 : fine x ->
    (forall k' v, In (k', v) (r_hash (w_p (x_w x))) -> k' <> k -> ~ poison (x_s x) k' v) ->
    pop_step per pol clk x (QReset k) = (x1, f1) -> is_read o -> pop_step per pol clk x1 o = (x2, f2) -> f1 = Ret RDone /\ returned f2.
  Proof.
    intros H C E Hr E2. assert (Fx : fine x1) by exact (proj1 (step_fine per pol clk x (QReset k) x1 f1 H I E)).
    cbn [pop_step] in E. unfold p_reset_key in E. pose proof H as [(K & _) _]. rewrite K in E. cbn [fmap] in E. injection E as <- <-. split; [reflexivity|].
    refine (read_clean _ _ _ _ Fx _ Hr E2). intros k' v Hin Po. cbn in Hin. apply hdel_in in Hin. destruct Hin as [Hin N]. exact (C k' v Hin N Po).
  Qed.
End redis.
