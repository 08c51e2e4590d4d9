(** Lemmas about a config store whose processors call the store they belong to. *)
From Verif Require Import Common Bytes StoreModel StorePanicModel StorePanicSpec StoreNestModel StoreNestSpec.
From Coq Require Import Permutation.
Local Open Scope string_scope.
Local Open Scope list_scope.

Section nest.
  Context {V P : Type}.
  Variable per : persister P.
  Variable pol : policy.
  Variable clk : nat -> Z * Z.
  Notation st := (nsw V P).
  Notation updater := (st -> string -> string -> reply V P (option kverror)).

  (** * More fuel changes no result *)

  Definition below {A} (r r' : reply V P A) : Prop := r = None \/ r = r'.

  Lemma below_refl A (r : reply V P A) : below r r.
  Proof. right. reflexivity. Qed.

  Lemma below_bind A B (r r' : reply V P A) (f f' : st -> A -> reply V P B) :
    below r r' -> (forall x a, below (f x a) (f' x a)) -> below (bind r f) (bind r' f').
  Proof.
    intros [-> | ->] H; [left; reflexivity|]. destruct r' as [[x [a| |]]|]; cbn; [apply H| | |]; apply below_refl.
  Qed.

  Lemma below_deferred A g (r r' : reply V P A) : below r r' -> below (deferred g r) (deferred g r').
  Proof. intros [-> | ->]; [left; reflexivity|apply below_refl]. Qed.

  Section two.
    Variable u u' : updater.
    Hypothesis U : forall x k v, below (u x k v) (u' x k v).

    Lemma below_entries kvs : forall x, below (n_load_entries u x kvs) (n_load_entries u' x kvs).
    Proof.
      induction kvs as [|[k v] kvs IH]; intros x; cbn; [apply below_refl|]. apply below_bind; [apply U|]. intros y _. apply IH.
    Qed.

    Lemma below_load x : below (n_do_load per pol clk u x) (n_do_load per pol clk u' x).
    Proof.
      unfold n_do_load. destruct (has_lock pol && k_load x); [apply below_refl|]. destruct (clk (w_tick (y_w x))) as [now now2].
      destruct (wants_load pol (w_last (y_w x)) now); [|apply below_refl]. destruct (ps_load per (w_p (y_w x))) as [[p' kvs] ok].
      apply below_deferred, below_bind; [apply below_entries|]. intros y _. apply below_refl.
    Qed.

    Lemma below_get A (read : st -> string -> option A) x k : below (n_get per pol clk u read x k) (n_get per pol clk u' read x k).
    Proof. apply below_bind; [apply below_load|]. intros y _. apply below_refl. Qed.

    Lemma below_prog A (p : prog V A) : forall x, below (n_prog per pol clk u x p) (n_prog per pol clk u' x p).
    Proof.
      induction p as [a| |key k IH|key k IH|key value k IH|key k IH]; intros x; cbn [n_prog]; try apply below_refl.
      - apply below_bind; [apply below_get|]. intros y r. apply IH.
      - apply below_bind; [apply below_get|]. intros y r. apply IH.
      - apply below_bind; [apply U|]. intros y r. apply IH.
      - apply below_bind; [apply below_refl|]. intros y r. apply IH.
    Qed.

    Lemma below_body x k v : below (n_update_body per pol clk u x k v) (n_update_body per pol clk u' x k v).
    Proof.
      unfold n_update_body. destruct (k =? "")%string; [apply below_refl|]. destruct (k_procs x); [apply below_refl|].
      destruct (y_procs x k) as [p|]; [|apply below_refl]. apply below_bind; [apply below_prog|]. intros x1 [ok err].
      destruct (negb ok); [apply below_refl|]. destruct (k_kv x1); [apply below_refl|]. apply below_bind; [apply below_prog|].
      intros x2 c. apply below_refl.
    Qed.

    Lemma below_register x k d vp : below (n_register_key per pol clk u x k d vp) (n_register_key per pol clk u' x k d vp).
    Proof.
      unfold n_register_key. destruct (k =? "")%string; [apply below_refl|]. destruct vp as [p|]; [|apply below_refl].
      destruct (k_procs x); [apply below_refl|]. destruct (k_kv x); [apply below_refl|]. apply below_deferred. cbv zeta.
      destruct (y_procs _ k); [apply below_refl|]. destruct (y_def _ k); [apply below_refl|].
      apply below_bind; [apply below_prog|]. intros x1 [ok err]. destruct (negb ok); [apply below_refl|].
      apply below_bind; [apply below_prog|]. intros x2 c. apply below_refl.
    Qed.

    Lemma below_each kvs : forall x, below (n_update_each u x kvs) (n_update_each u' x kvs).
    Proof.
      induction kvs as [|[k v] kvs IH]; intros x; cbn; [apply below_refl|]. apply below_bind; [apply U|]. intros y e.
      apply below_bind; [apply IH|]. intros z es. apply below_refl.
    Qed.

    Lemma below_get_each A (read : st -> string -> option A) ks : forall x,
      below (n_get_each per pol clk u read x ks) (n_get_each per pol clk u' read x ks).
    Proof.
      induction ks as [|k ks IH]; intros x; cbn [n_get_each]; [apply below_refl|]. destruct (k =? "")%string; [apply IH|].
      apply below_bind; [apply below_get|]. intros y r. apply below_bind; [apply IH|]. intros z es. apply below_refl.
    Qed.
  End two.

  Lemma update_grows f : forall x k v, below (n_update per pol clk f x k v) (n_update per pol clk (S f) x k v).
  Proof.
    induction f as [|f IH]; intros x k v; [left; reflexivity|]. cbn [n_update]. apply below_body. exact IH.
  Qed.

  Lemma step_grows f (x : st) o : below (n_step per pol clk f x o) (n_step per pol clk (S f) x o).
  Proof.
    pose proof (update_grows f) as U. unfold n_step, nmap.
    destruct o as [k d vp|k|k v|k v|kvs|k|k|k|k|k|ks|ks]; (apply below_bind; [|intros; apply below_refl]).
    - apply below_register, U.
    - apply below_refl.
    - apply below_bind; [apply U|]. intros. apply below_refl.
    - apply U.
    - unfold n_batch_update. destruct kvs; [apply below_refl|]. apply below_bind; [apply below_each, U|]. intros. apply below_refl.
    - apply below_refl.
    - apply below_get, U.
    - apply below_get, U.
    - apply below_bind; [apply below_load, U|]. intros. apply below_get, U.
    - apply below_bind; [apply below_load, U|]. intros. apply below_get, U.
    - apply below_bind; [apply below_load, U|]. intros. apply below_get_each, U.
    - apply below_bind; [apply below_load, U|]. intros. apply below_get_each, U.
  Qed.

  Lemma step_more f g (x : st) o y r : (f <= g)%nat -> n_step per pol clk f x o = Some (y, r) -> n_step per pol clk g x o = Some (y, r).
  Proof.
    intros L H. induction L as [|g L IH]; [exact H|]. destruct (step_grows g x o) as [E|E]; congruence.
  Qed.

  Lemma ends_once (x : st) o y f y' f' : ends per pol clk x o y f -> ends per pol clk x o y' f' -> y = y' /\ f = f'.
  Proof.
    intros [n H] [m H']. destruct (PeanoNat.Nat.le_ge_cases n m) as [L|L].
    - rewrite (step_more _ _ _ _ _ _ L H) in H'. injection H' as -> ->. auto.
    - rewrite (step_more _ _ _ _ _ _ L H') in H. injection H as -> ->. auto.
  Qed.

  (** * Processors that do not call the store *)

  Definition alike (x : st) (q : psw V P) : Prop :=
    (forall k, y_procs x k = option_map plain (q_procs (x_s q) k)) /\
    y_def x = q_def (x_s q) /\ y_defstr x = q_defstr (x_s q) /\ y_kv x = q_kv (x_s q) /\ y_kvstr x = q_kvstr (x_s q) /\
    y_w x = x_w q /\ k_procs x = l_procs (x_s q) /\ k_kv x = l_kv (x_s q) /\ k_load x = x_load q /\
    (has_lock pol = false -> k_load x = false).

  Definition agrees {A} (r : reply V P A) (s : psw V P * fate A) : Prop := exists y, r = Some (y, snd s) /\ alike y (fst s).

  Lemma agrees_bind A B (r : reply V P A) s (f : st -> A -> reply V P B) (g : psw V P -> A -> psw V P * fate B) :
    agrees r s -> (forall y q a, alike y q -> agrees (f y a) (g q a)) ->
    agrees (bind r f) (match s with (q, Ret a) => g q a | (q, Boom) => (q, Boom) | (q, Stuck) => (q, Stuck) end).
  Proof.
    intros (y & -> & Y) H. destruct s as [q [a| |]]; cbn in *; [apply H; exact Y| |]; exists y; auto.
  Qed.

  Ltac same := unfold alike in *; cbn in *; intuition congruence.

  Lemma agrees_update f x q k v : alike x q ->
    agrees (n_update per pol clk (S f) x k v) (let (s', e) := p_update_no_persist (x_s q) k v in (put_s q s', e)).
  Proof.
    intros A. pose proof A as (A1 & A2 & A3 & A4 & A5 & A6 & A7 & A8 & A9 & A10). cbn [n_update]. unfold n_update_body, p_update_no_persist.
    destruct (k =? "")%string; [exists x; same|]. rewrite A7. destruct (l_procs (x_s q)) eqn:L; [exists x; same|].
    rewrite A1. destruct (q_procs (x_s q) k) as [p|] eqn:Ep; cbn [option_map]; [|exists x; same].
    cbn [plain n_validate]. destruct (q_validate p v) as [[[|] e]|]; cbn [plain_prog n_prog bind negb].
    - rewrite A8. destruct (l_kv (x_s q)) eqn:K; [exists x; same|]. cbn [plain n_convert].
      destruct (q_convert p v) as [c|]; cbn [plain_prog n_prog bind].
      + eexists. split; [reflexivity|]. same.
      + eexists. split; [reflexivity|]. same.
    - exists x; same.
    - exists x; same.
  Qed.

  Lemma agrees_register f x q k d vp : alike x q ->
    agrees (n_register_key per pol clk (n_update per pol clk f) x k d (option_map plain vp))
      (let (s', e) := p_register_key (x_s q) k d vp in (put_s q s', e)).
  Proof.
    intros A. pose proof A as (A1 & A2 & A3 & A4 & A5 & A6 & A7 & A8 & A9 & A10). unfold n_register_key, p_register_key.
    destruct (k =? "")%string; [exists x; same|]. destruct vp as [p|]; cbn [option_map]; [|exists x; same].
    rewrite A7. destruct (l_procs (x_s q)) eqn:L; [exists x; same|]. rewrite A8. destruct (l_kv (x_s q)) eqn:K.
    { eexists. split; [reflexivity|]. same. }
    cbv zeta. cbn [lock_kv lock_procs locks y_procs y_def]. rewrite A1. destruct (q_procs (x_s q) k) as [p0|] eqn:Ep; cbn [option_map].
    { eexists. split; [reflexivity|]. same. }
    rewrite A2. destruct (q_def (x_s q) k) eqn:Ed. { eexists. split; [reflexivity|]. same. }
    cbn [plain n_validate]. destruct (q_validate p d) as [[[|] e]|]; cbn [plain_prog n_prog bind negb].
    - cbn [plain n_convert]. destruct (q_convert p d) as [c|]; cbn [plain_prog n_prog bind]; eexists; (split; [reflexivity|]).
      + assert (Q : forall k0, mset (y_procs x) k (plain p) k0 = option_map plain (mset (q_procs (x_s q)) k p k0)).
        { intros k0. unfold mset. destruct (k0 =? k)%string; [reflexivity|apply A1]. } same.
      + same.
    - eexists. split; [reflexivity|]. same.
    - eexists. split; [reflexivity|]. same.
  Qed.

  Lemma agrees_entries f kvs : forall x q, alike x q ->
    agrees (n_load_entries (n_update per pol clk (S f)) x kvs) (let (s', e) := p_load_entries (x_s q) kvs in (put_s q s', e)).
  Proof.
    induction kvs as [|[k v] kvs IH]; intros x q A; cbn [n_load_entries p_load_entries].
    - exists x. destruct q as [s w l]. split; [reflexivity|exact A].
    - destruct (agrees_update f x q k v A) as (y & -> & Y). destruct (p_update_no_persist (x_s q) k v) as [s1 [e| |]]; cbn in *.
      + specialize (IH y _ Y). cbn in IH. destruct (p_load_entries s1 kvs). exact IH.
      + exists y; auto.
      + exists y; auto.
  Qed.

  Lemma agrees_load f x q : alike x q -> agrees (n_do_load per pol clk (n_update per pol clk (S f)) x) (p_do_load per pol clk q).
  Proof.
    intros A. pose proof A as (A1 & A2 & A3 & A4 & A5 & A6 & A7 & A8 & A9 & A10). unfold n_do_load, p_do_load. rewrite A9, A6.
    destruct (has_lock pol && x_load q) eqn:L; [exists x; same|]. destruct (clk (w_tick (x_w q))) as [now now2].
    destruct (wants_load pol (w_last (x_w q)) now).
    - destruct (ps_load per (w_p (x_w q))) as [[p' kvs] ok].
      set (w1 := World p' (w_last (x_w q)) (S (w_tick (x_w q)))).
      assert (B : alike (in_world (lock_load x (has_lock pol)) w1) (PSW (x_s q) w1 (has_lock pol))) by (subst w1; same).
      destruct (agrees_entries f kvs _ _ B) as (y & E & Y). cbn [x_s] in E, Y. rewrite E. clear E. destruct (p_load_entries (x_s q) kvs) as [s' [e| |]]; cbn in *.
      + assert (Lf : x_load q = false) by (apply Bool.andb_false_iff in L; destruct L as [L|L]; [rewrite <- A9; apply A10; exact L|exact L]).
        eexists. split; [reflexivity|]. unfold alike in *. cbn in *. destruct Y as (Y1 & Y2 & Y3 & Y4 & Y5 & Y6 & Y7 & Y8 & Y9 & Y10).
        rewrite Y6. subst w1. cbn. repeat split; auto; congruence.
      + assert (Lf : x_load q = false) by (apply Bool.andb_false_iff in L; destruct L as [L|L]; [rewrite <- A9; apply A10; exact L|exact L]).
        eexists. split; [reflexivity|]. unfold alike in *. cbn in *. destruct Y as (Y1 & Y2 & Y3 & Y4 & Y5 & Y6 & Y7 & Y8 & Y9 & Y10).
        subst w1. cbn. repeat split; auto; congruence.
      + assert (Lf : x_load q = false) by (apply Bool.andb_false_iff in L; destruct L as [L|L]; [rewrite <- A9; apply A10; exact L|exact L]).
        eexists. split; [reflexivity|]. unfold alike in *. cbn in *. destruct Y as (Y1 & Y2 & Y3 & Y4 & Y5 & Y6 & Y7 & Y8 & Y9 & Y10).
        subst w1. cbn. repeat split; auto; try congruence. rewrite Lf. exact Y9.
    - assert (Lf : x_load q = false) by (apply Bool.andb_false_iff in L; destruct L as [L|L]; [rewrite <- A9; apply A10; exact L|exact L]).
      eexists. split; [reflexivity|]. same.
  Qed.

  Lemma agrees_get f A (r : st -> string -> option A) r' x q k : alike x q -> (forall y s, alike y s -> r y k = r' (x_s s) k) ->
    agrees (n_get per pol clk (n_update per pol clk (S f)) r x k) (p_get per pol clk r' q k).
  Proof.
    intros Al R. destruct (agrees_load f x q Al) as (y & E & Y). unfold n_get, p_get. rewrite E. destruct (p_do_load per pol clk q) as [s [e| |]]; cbn in *; [|exists y; auto..].
    assert (K : k_kv y = l_kv (x_s s)) by (unfold alike in Y; tauto). rewrite K. destruct (l_kv (x_s s)); exists y; cbn; [auto|]. rewrite (R y s Y). auto.
  Qed.

  Lemma read_value_alike y s k : alike y s -> y_read_value y k = p_read_value (x_s s) k.
  Proof. intros (_ & D & _ & K & _). unfold y_read_value, p_read_value. rewrite D, K. reflexivity. Qed.
  Lemma read_string_alike y s k : alike y s -> y_read_string y k = p_read_string (x_s s) k.
  Proof. intros (_ & _ & D & _ & K & _). unfold y_read_string, p_read_string. rewrite D, K. reflexivity. Qed.

  Lemma agrees_get_each f A (r : st -> string -> option A) r' ks : (forall k y s, alike y s -> r y k = r' (x_s s) k) -> forall x q, alike x q ->
    agrees (n_get_each per pol clk (n_update per pol clk (S f)) r x ks) (p_get_each per pol clk r' q ks).
  Proof.
    intros R. induction ks as [|k ks IH]; intros x q Al; cbn [n_get_each p_get_each]; [exists x; auto|]. destruct (k =? "")%string; [apply IH; exact Al|].
    destruct (agrees_get f A r r' x q k Al (R k)) as (y & -> & Y). destruct (p_get per pol clk r' q k) as [s [e| |]]; cbn [bind snd fst] in *; [|exists y; auto..].
    destruct (IH y s Y) as (z & -> & Z). destruct (p_get_each per pol clk r' s ks) as [t [g| |]]; cbn [bind snd fst] in *; exists z; auto.
  Qed.

  Lemma agrees_each f kvs : forall x q, alike x q ->
    agrees (n_update_each (n_update per pol clk (S f)) x kvs) (let (s', e) := p_update_each (x_s q) kvs in (put_s q s', e)).
  Proof.
    induction kvs as [|[k v] kvs IH]; intros x q Al; cbn [n_update_each p_update_each].
    - exists x. destruct q as [s w l]. split; [reflexivity|exact Al].
    - destruct (agrees_update f x q k v Al) as (y & -> & Y). destruct (p_update_no_persist (x_s q) k v) as [s1 [e| |]]; cbn [bind snd fst] in *; [|exists y; auto..].
      destruct (IH y _ Y) as (z & E & Z). cbn [put_s x_s] in E, Z. rewrite E. clear E. destruct (p_update_each s1 kvs) as [t [g| |]]; cbn [bind snd fst] in *; exists z; auto.
  Qed.

  Lemma agrees_nmap A B (g : A -> B) r s : agrees r s -> agrees (nmap g r) (fmap g s).
  Proof. intros (y & -> & Y). destruct s as [q [a| |]]; exists y; auto. Qed.

  Lemma agrees_step f x q o : alike x q -> agrees (n_step per pol clk (S f) x (nested o)) (pop_step per pol clk q o).
  Proof.
    intros Al. pose proof Al as (A1 & A2 & A3 & A4 & A5 & A6 & A7 & A8 & A9 & A10). unfold n_step.
    destruct o as [k d vp|k|k v|k v|kvs|k|k|k|k|k|ks|ks]; cbn [nested pop_step].
    - pose proof (agrees_register (S f) x q k d vp Al) as R. destruct (p_register_key (x_s q) k d vp) as [s' e]. apply agrees_nmap. exact R.
    - apply agrees_nmap. unfold n_deregister_key, p_deregister_key. destruct (k =? "")%string; [exists x; auto|]. rewrite A7, A8.
      destruct (l_procs (x_s q)) eqn:L; [exists x; auto|]. destruct (l_kv (x_s q)) eqn:K; eexists; (split; [reflexivity|]); [same|].
      assert (Q : forall k0, mdel (y_procs x) k k0 = option_map plain (mdel (q_procs (x_s q)) k k0)).
      { intros k0. unfold mdel. destruct (k0 =? k)%string; [reflexivity|apply A1]. } rewrite A6. unfold alike. cbn. repeat split; auto; congruence.
    - apply agrees_nmap. unfold n_update_save, p_update. destruct (agrees_update f x q k v Al) as (y & -> & Y).
      destruct (p_update_no_persist (x_s q) k v) as [s1 [[e|]| |]]; cbn [bind snd fst] in *; [|exists y; auto..].
      assert (W : y_w y = x_w q) by (unfold alike in Y; cbn in Y; tauto). rewrite W. destruct (ps_save per (w_p (x_w q)) k v) as [p' ok].
      eexists. split; [reflexivity|]. same.
    - pose proof (agrees_update f x q k v Al) as R. destruct (p_update_no_persist (x_s q) k v). apply agrees_nmap. exact R.
    - apply agrees_nmap. unfold n_batch_update, p_batch_update. destruct kvs as [|kv kvs]; [exists x; auto|].
      destruct (agrees_each f (kv :: kvs) x q Al) as (y & -> & Y). destruct (p_update_each (x_s q) (kv :: kvs)) as [s1 [es| |]]; cbn [bind snd fst] in *; [|exists y; auto..].
      assert (W : y_w y = x_w q) by (unfold alike in Y; cbn in Y; tauto). rewrite W. eexists. split; [reflexivity|]. same.
    - apply agrees_nmap. unfold n_reset_key, p_reset_key. rewrite A8. destruct (l_kv (x_s q)) eqn:K; [exists x; auto|].
      eexists. split; [reflexivity|]. rewrite A6. unfold alike. cbn. repeat split; auto; congruence.
    - apply agrees_nmap, agrees_get; [exact Al|]. intros. apply read_value_alike. assumption.
    - apply agrees_nmap, agrees_get; [exact Al|]. intros. apply read_string_alike. assumption.
    - apply agrees_nmap. unfold n_must_get, p_must_get. destruct (agrees_load f x q Al) as (y & -> & Y).
      destruct (p_do_load per pol clk q) as [s [e| |]]; cbn [bind snd fst] in *; [|exists y; auto..].
      apply agrees_get; [exact Y|]. intros. apply read_value_alike. assumption.
    - apply agrees_nmap. unfold n_must_get, p_must_get. destruct (agrees_load f x q Al) as (y & -> & Y).
      destruct (p_do_load per pol clk q) as [s [e| |]]; cbn [bind snd fst] in *; [|exists y; auto..].
      apply agrees_get; [exact Y|]. intros. apply read_string_alike. assumption.
    - apply agrees_nmap. unfold n_batch_get, p_batch_get. destruct (agrees_load f x q Al) as (y & -> & Y).
      destruct (p_do_load per pol clk q) as [s [e| |]]; cbn [bind snd fst] in *; [|exists y; auto..].
      apply agrees_get_each; [|exact Y]. intros. apply read_value_alike. assumption.
    - apply agrees_nmap. unfold n_batch_get, p_batch_get. destruct (agrees_load f x q Al) as (y & -> & Y).
      destruct (p_do_load per pol clk q) as [s [e| |]]; cbn [bind snd fst] in *; [|exists y; auto..].
      apply agrees_get_each; [|exact Y]. intros. apply read_string_alike. assumption.
  Qed.

  Lemma agrees_run f os : forall x q, alike x q ->
    exists y, n_run per pol clk (S f) x (map nested os) = Some (y, snd (pop_run per pol clk q os)) /\ alike y (fst (pop_run per pol clk q os)).
  Proof.
    induction os as [|o os IH]; intros x q Al; cbn [n_run map pop_run]; [exists x; auto|].
    destruct (agrees_step f x q o Al) as (y & -> & Y). destruct (pop_step per pol clk q o) as [q1 r]. cbn [fst snd] in *.
    destruct (IH y q1 Y) as (z & -> & Z). destruct (pop_run per pol clk q1 os) as [q2 rs]. exists z. auto.
  Qed.

  Lemma new_alike w : alike (new_nsw w) (new_psw w).
  Proof. unfold alike. cbn. repeat split; auto. Qed.
End nest.
