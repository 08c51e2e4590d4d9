(** Lock discipline of the concurrent store: no races, no deadlock, bounded work. *)
From Coq Require Import Permutation.
From Verif Require Import Common Bytes Threads StoreModel StoreSpec StoreConcModel StoreConcSpec.
Local Open Scope list_scope.

(** ** What a goroutine holds, as a type of its remaining program *)
Inductive mode := Free | Rd | Ann | Wr.
Record held := Held { hp : mode; hk : mode; hm : bool }.
Definition held0 : held := Held Free Free false.
Definition mode_at (h : held) (l : lock) : mode := match l with ProcLock => hp h | KvLock => hk h end.

Definition itype {V} (h : held) (i : instr V) : option held :=
  match i, h with
  | IRLock ProcLock, Held Free Free m => Some (Held Rd Free m)
  | IRLock KvLock, Held Free Free m => Some (Held Free Rd m)
  | IRUnlock ProcLock, Held Rd Free m => Some (Held Free Free m)
  | IRUnlock KvLock, Held Free Rd m => Some (Held Free Free m)
  | IAnnounce ProcLock, Held Free Free m => Some (Held Ann Free m)
  | IAnnounce KvLock, Held Free Free m => Some (Held Free Ann m)
  | IAnnounce KvLock, Held Wr Free m => Some (Held Wr Ann m)
  | IAcquire ProcLock, Held Ann Free m => Some (Held Wr Free m)
  | IAcquire KvLock, Held Free Ann m => Some (Held Free Wr m)
  | IAcquire KvLock, Held Wr Ann m => Some (Held Wr Wr m)
  | IUnlock KvLock, Held p Wr m => Some (Held p Free m)
  | IUnlock ProcLock, Held Wr Free m => Some (Held Free Free m)
  | IMLock, Held Free Free false => Some (Held Free Free true)
  | IMUnlock, Held Free Free true => Some (Held Free Free false)
  | IClock, Held Free Free true => Some h
  | IHGetAll mark, Held Free Free m => if mark && negb m then None else Some h
  | IMark, Held Free Free true => Some h
  | ILookup _ _ _, Held Rd Free m => Some (Held Free Free m)
  | ICheck _ _ _ _, Held Free Free _ => Some h
  | IWrite _ _ _, Held Free Wr _ => Some h
  | IBatch _, Held Free Free _ => Some h
  | ISave _ _, Held Free Free _ => Some h
  | IDelete _, Held _ Wr _ => Some h
  | IRegister _ _ _, Held Wr Wr _ => Some h
  | IDrop _, Held Wr Wr _ => Some h
  | IClear _, Held Free Wr _ => Some h
  | IRead _, Held Free Rd _ => Some h
  | IReadStr _, Held Free Rd _ => Some h
  | _, _ => None
  end.

Fixpoint typed {V} (h : held) (p : list (instr V)) : Prop :=
  match p with
  | [] => False
  | [IReturn _] => h = held0
  | i :: rest => exists h', itype h i = Some h' /\ typed h' rest
  end.

Lemma typed_cons {V} h (i : instr V) rest : typed h (i :: rest) ->
  (exists f, i = IReturn f /\ rest = [] /\ h = held0) \/ (exists h', itype h i = Some h' /\ typed h' rest).
Proof.
  cbn [typed]. destruct i; eauto. destruct rest; [intros ->; left; eauto|eauto].
Qed.

Lemma typed_intro {V} h (i : instr V) rest h' : itype h i = Some h' -> typed h' rest -> typed h (i :: rest).
Proof. intros H1 H2. cbn [typed]. destruct i; eauto. destruct rest; [|eauto]. cbn in H2. contradiction. Qed.

Definition thread_ok {V} (h : held) (th : thread V) : Prop :=
  match t_call th with
  | None => t_prog th = [] /\ h = held0
  | Some _ => typed h (t_prog th)
  end.

(** ** Programs of the calls are well typed *)
Lemma typed_update {V} keep k v m (rest : list (instr V)) :
  typed (Held Free Free m) rest -> typed (Held Free Free m) (p_update keep k v ++ rest).
Proof.
  intros H. unfold p_update. destruct (k =? "")%string; [exact H|].
  cbn [app]. eapply typed_intro; [reflexivity|]. eapply typed_intro; [reflexivity|]. exact H.
Qed.

Lemma typed_updates {V} keep kvs m (rest : list (instr V)) :
  typed (Held Free Free m) rest ->
  typed (Held Free Free m) (flat_map (fun kv => p_update keep (fst kv) (snd kv)) kvs ++ rest).
Proof.
  intros H. induction kvs as [|kv kvs IH]; [exact H|]. cbn [flat_map]. rewrite <- app_assoc. apply typed_update. exact IH.
Qed.

Lemma typed_load {V} pol (rest : list (instr V)) : typed held0 rest -> typed held0 (p_load pol ++ rest).
Proof.
  intros H. destruct pol; [exact H| |]; cbn [p_load app]; repeat (eapply typed_intro; [reflexivity|]); exact H.
Qed.

Lemma typed_get {V} pol k (rest : list (instr V)) : typed held0 rest -> typed held0 (p_get pol k ++ rest).
Proof.
  intros H. unfold p_get. rewrite <- app_assoc. apply typed_load. cbn [app]. repeat (eapply typed_intro; [reflexivity|]). exact H.
Qed.
Lemma typed_get_str {V} pol k (rest : list (instr V)) : typed held0 rest -> typed held0 (p_get_str pol k ++ rest).
Proof.
  intros H. unfold p_get_str. rewrite <- app_assoc. apply typed_load. cbn [app]. repeat (eapply typed_intro; [reflexivity|]). exact H.
Qed.
Lemma typed_gets {V} (g : string -> list (instr V)) ks rest :
  (forall k rest, typed held0 rest -> typed held0 (g k ++ rest)) -> typed held0 rest -> typed held0 (flat_map g ks ++ rest).
Proof.
  intros Hg H. induction ks as [|k ks IH]; [exact H|]. cbn [flat_map]. rewrite <- app_assoc. apply Hg. exact IH.
Qed.

Lemma typed_call {V} pol (o : sop V) : typed held0 (p_call pol o).
Proof.
  assert (R : forall f, typed held0 [@IReturn V f]) by (intros f; reflexivity).
  destruct o; cbn [p_call].
  - destruct (key =? "")%string; [apply R|]. destruct vp; [|apply R].
    cbn [p_lock app]. repeat (eapply typed_intro; [reflexivity|]). apply R.
  - destruct (key =? "")%string; [apply R|]. cbn [p_lock app]. repeat (eapply typed_intro; [reflexivity|]). apply R.
  - apply typed_update. eapply typed_intro; [reflexivity|]. apply R.
  - apply typed_update. apply R.
  - destruct kvs as [|kv kvs]; [apply R|]. apply typed_updates. eapply typed_intro; [reflexivity|]. apply R.
  - cbn [p_lock app]. repeat (eapply typed_intro; [reflexivity|]). apply R.
  - apply typed_get, R.
  - apply typed_get_str, R.
  - apply typed_load, typed_get, R.
  - apply typed_load, typed_get_str, R.
  - apply typed_load, typed_gets; [apply typed_get|apply R].
  - apply typed_load, typed_gets; [apply typed_get_str|apply R].
Qed.

(** ** Locks *)
Definition fupd {A} (f : nat -> A) (t : nat) (x : A) : nat -> A := fun u => if Nat.eqb u t then x else f u.
Lemma fupd_same {A} (f : nat -> A) t x : fupd f t x t = x.
Proof. unfold fupd. rewrite Nat.eqb_refl. reflexivity. Qed.
Lemma fupd_other {A} (f : nat -> A) t x u : u <> t -> fupd f t x u = f u.
Proof. intros H. unfold fupd. apply Nat.eqb_neq in H. rewrite H. reflexivity. Qed.

Record lock_ok (x : rw) (m : nat -> mode) : Prop := {
  lo_readers : forall t, In t (rw_readers x) <-> m t = Rd;
  lo_writer : forall t b, rw_writer x = Some (t, b) <-> m t = if b then Wr else Ann;
  lo_excl : forall t, rw_writer x = Some (t, true) -> rw_readers x = [] }.

Lemma lock_ok_ext x m m' : (forall t, m' t = m t) -> lock_ok x m -> lock_ok x m'.
Proof. intros E [H1 H2 H3]. constructor; [intros t; rewrite E; apply H1|intros t b; rewrite E; apply H2|exact H3]. Qed.

Lemma lock_ok_rlock x m t x' : lock_ok x m -> m t = Free -> rlock t x = Some x' -> lock_ok x' (fupd m t Rd).
Proof.
  intros [H1 H2 H3] Hm H. unfold rlock in H. destruct (rw_writer x) eqn:W; [discriminate|]. injection H as <-.
  constructor; cbn [rw_readers rw_writer].
  - intros u. cbn [In]. destruct (Nat.eq_dec u t) as [->|n].
    + rewrite fupd_same. split; auto.
    + rewrite fupd_other by exact n. rewrite <- H1. split; [intros [X|X]; [congruence|exact X]|auto].
  - intros u b. split; [discriminate|]. intros Hu. destruct (Nat.eq_dec u t) as [->|n].
    + rewrite fupd_same in Hu. destruct b; discriminate.
    + rewrite fupd_other in Hu by exact n. apply H2 in Hu. discriminate.
  - discriminate.
Qed.

Lemma lock_ok_runlock x m t : lock_ok x m -> m t = Rd -> lock_ok (runlock t x) (fupd m t Free).
Proof.
  intros [H1 H2 H3] Hm. constructor; cbn [runlock rw_readers rw_writer].
  - intros u. destruct (Nat.eq_dec u t) as [->|n].
    + rewrite fupd_same. split; [intros X; apply remove_In in X; contradiction|discriminate].
    + rewrite fupd_other by exact n. rewrite <- H1. split.
      * intros X. apply in_remove in X. apply X.
      * intros X. apply in_in_remove; assumption.
  - intros u b. destruct (Nat.eq_dec u t) as [->|n].
    + rewrite fupd_same. rewrite H2, Hm. destruct b; split; discriminate.
    + rewrite fupd_other by exact n. apply H2.
  - intros u W. apply H3 in W. rewrite W. reflexivity.
Qed.

Lemma lock_ok_announce x m t x' : lock_ok x m -> m t = Free -> announce t x = Some x' -> lock_ok x' (fupd m t Ann).
Proof.
  intros [H1 H2 H3] Hm H. unfold announce in H. destruct (rw_writer x) eqn:W; [discriminate|]. injection H as <-.
  constructor; cbn [rw_readers rw_writer].
  - intros u. rewrite H1. destruct (Nat.eq_dec u t) as [->|n].
    + rewrite fupd_same, Hm. split; discriminate.
    + rewrite fupd_other by exact n. reflexivity.
  - intros u b. destruct (Nat.eq_dec u t) as [->|n].
    + rewrite fupd_same. destruct b; split; congruence.
    + rewrite fupd_other by exact n. split; [congruence|]. intros X. apply H2 in X. discriminate.
  - congruence.
Qed.

Lemma lock_ok_acquire x m t x' : lock_ok x m -> m t = Ann -> acquire t x = Some x' -> lock_ok x' (fupd m t Wr).
Proof.
  intros [H1 H2 H3] Hm H. unfold acquire in H. destruct (rw_writer x) as [[u [|]]|] eqn:W; try discriminate.
  destruct (rw_readers x) eqn:R; [|discriminate]. destruct (Nat.eqb u t) eqn:E; [|discriminate]. apply Nat.eqb_eq in E. subst u. injection H as <-.
  constructor; cbn [rw_readers rw_writer].
  - intros u. rewrite H1. destruct (Nat.eq_dec u t) as [->|n].
    + rewrite fupd_same, Hm. split; discriminate.
    + rewrite fupd_other by exact n. reflexivity.
  - intros u b. destruct (Nat.eq_dec u t) as [->|n].
    + rewrite fupd_same. destruct b; split; congruence.
    + rewrite fupd_other by exact n. split; [congruence|]. intros X. apply H2 in X. congruence.
  - reflexivity.
Qed.

Lemma lock_ok_unlock x m t : lock_ok x m -> m t = Wr -> lock_ok (unlock x) (fupd m t Free).
Proof.
  intros [H1 H2 H3] Hm. assert (W : rw_writer x = Some (t, true)) by (apply H2; exact Hm).
  constructor; cbn [unlock rw_readers rw_writer].
  - intros u. rewrite H1. destruct (Nat.eq_dec u t) as [->|n].
    + rewrite fupd_same, Hm. split; discriminate.
    + rewrite fupd_other by exact n. reflexivity.
  - intros u b. split; [discriminate|]. destruct (Nat.eq_dec u t) as [->|n].
    + rewrite fupd_same. destruct b; discriminate.
    + rewrite fupd_other by exact n. intros X. apply H2 in X. congruence.
  - discriminate.
Qed.

Definition mlock_ok (x : option nat) (m : nat -> bool) : Prop := forall t, x = Some t <-> m t = true.

(** ** The invariant *)
Definition mode_of {V} (w : cworld V) (hs : nat -> held) (j : nat) (l : lock) (t : nat) : mode :=
  match nth_error (c_threads w) t with
  | Some th => if Nat.eqb (t_node th) j then mode_at (hs t) l else Free
  | None => Free
  end.
Definition mutex_of {V} (w : cworld V) (hs : nat -> held) (j : nat) (t : nat) : bool :=
  match nth_error (c_threads w) t with
  | Some th => if Nat.eqb (t_node th) j then hm (hs t) else false
  | None => false
  end.

Record inv {V} (w : cworld V) (hs : nat -> held) : Prop := {
  i_threads : forall t th, nth_error (c_threads w) t = Some th -> thread_ok (hs t) th;
  i_nodes : forall t th o, nth_error (c_threads w) t = Some th -> t_call th = Some o -> (t_node th < length (c_nodes w))%nat;
  i_locks : forall j n l, nth_error (c_nodes w) j = Some n -> lock_ok (get_lock n l) (mode_of w hs j l);
  i_mutex : forall j n, nth_error (c_nodes w) j = Some n -> mlock_ok (n_mlock n) (mutex_of w hs j) }.

Lemma inv0 {V} h pols n : @inv V (cworld0 h pols n) (fun _ => held0).
Proof.
  assert (T : forall t (th : thread V), nth_error (repeat (Thread 0 None [] regs0) n) t = Some th -> th = Thread 0 None [] regs0)
    by (intros t th H; apply nth_error_In in H; apply repeat_spec in H; exact H).
  assert (M : forall j l t, mode_of (cworld0 (V := V) h pols n) (fun _ => held0) j l t = Free).
  { intros j l t. unfold mode_of. cbn [c_threads cworld0]. destruct (nth_error _ t) eqn:E; [|reflexivity].
    destruct (Nat.eqb _ j); [|reflexivity]. destruct l; reflexivity. }
  assert (M' : forall j t, mutex_of (cworld0 (V := V) h pols n) (fun _ => held0) j t = false).
  { intros j t. unfold mutex_of. destruct (nth_error _ t); [|reflexivity]. destruct (Nat.eqb _ j); reflexivity. }
  constructor; cbn [c_threads c_nodes cworld0].
  - intros t th H. apply T in H. subst. split; reflexivity.
  - intros t th o H. apply T in H. subst. discriminate.
  - intros j nd l H. rewrite nth_error_map in H. destruct (nth_error pols j); [|discriminate]. cbn in H. injection H as <-.
    constructor.
    + intros t. rewrite M. destruct l; cbn; intuition discriminate.
    + intros t b. rewrite M. destruct l, b; cbn; split; discriminate.
    + destruct l; discriminate.
  - intros j nd H t. rewrite nth_error_map in H. destruct (nth_error pols j); [|discriminate]. cbn in H. injection H as <-.
    rewrite M'. cbn. split; discriminate.
Qed.

(** One instruction: types, locks. *)
Section one_step.
  Context {V : Type} (ok : nat -> bool) (ord : nat -> list (string * string) -> list (string * string)).

  Lemma istep_typed t now (n : node V) r g i n' r' new g' h rest h' :
    istep ok ord t now n r g i = Some (n', r', new, g') -> itype h i = Some h' -> typed h' rest ->
    exists h1, typed h1 (new ++ rest) /\
      (forall l m, lock_ok (get_lock n l) m -> m t = mode_at h l -> lock_ok (get_lock n' l) (fupd m t (mode_at h1 l))) /\
      (forall m, mlock_ok (n_mlock n) m -> m t = hm h -> mlock_ok (n_mlock n') (fupd m t (hm h1))).
  Proof.
    assert (Same : forall x m hh, lock_ok x m -> m t = hh -> lock_ok x (fupd m t hh)).
    { intros x m hh H E. eapply lock_ok_ext; [|exact H]. intros u. unfold fupd. destruct (Nat.eqb u t) eqn:X; [|reflexivity].
      apply Nat.eqb_eq in X. subst. reflexivity. }
    assert (SameM : forall x m b, mlock_ok x m -> m t = b -> mlock_ok x (fupd m t b)).
    { intros x m b H E u. unfold fupd. destruct (Nat.eqb u t) eqn:X; [|apply H]. apply Nat.eqb_eq in X. subst. apply H. }
    intros Hs Ht Hr.
    destruct i; cbn [istep] in Hs; cbn [itype] in Ht.
    (* IRLock *)
    - destruct (rlock t (get_lock n l)) eqn:E; [|discriminate]. injection Hs as <- <- <- <-.
      exists h'. split; [exact Hr|]. split.
      + intros l' m Hl Hm. destruct l, l', h as [[] [] hm0]; try discriminate; injection Ht as <-; cbn [set_lock get_lock n_plock n_klock mode_at hp hk] in *;
          solve [eapply lock_ok_rlock; eassumption|apply Same; assumption].
      + intros m Hl Hm. destruct l, h as [[] [] hm0]; try discriminate; injection Ht as <-; apply SameM; assumption.
    (* IRUnlock *)
    - injection Hs as <- <- <- <-.
      exists h'. split; [exact Hr|]. split.
      + intros l' m Hl Hm. destruct l, l', h as [[] [] hm0]; try discriminate; injection Ht as <-; cbn [set_lock get_lock n_plock n_klock mode_at hp hk] in *;
          solve [eapply lock_ok_runlock; eassumption|apply Same; assumption].
      + intros m Hl Hm. destruct l, h as [[] [] hm0]; try discriminate; injection Ht as <-; apply SameM; assumption.
    (* IAnnounce *)
    - destruct (announce t (get_lock n l)) eqn:E; [|discriminate]. injection Hs as <- <- <- <-.
      exists h'. split; [exact Hr|]. split.
      + intros l' m Hl Hm. destruct l, l', h as [[] [] hm0]; try discriminate; injection Ht as <-; cbn [set_lock get_lock n_plock n_klock mode_at hp hk] in *;
          solve [eapply lock_ok_announce; eassumption|apply Same; assumption].
      + intros m Hl Hm. destruct l, h as [[] [] hm0]; try discriminate; injection Ht as <-; apply SameM; assumption.
    (* IAcquire *)
    - destruct (acquire t (get_lock n l)) eqn:E; [|discriminate]. injection Hs as <- <- <- <-.
      exists h'. split; [exact Hr|]. split.
      + intros l' m Hl Hm. destruct l, l', h as [[] [] hm0]; try discriminate; injection Ht as <-; cbn [set_lock get_lock n_plock n_klock mode_at hp hk] in *;
          solve [eapply lock_ok_acquire; eassumption|apply Same; assumption].
      + intros m Hl Hm. destruct l, h as [[] [] hm0]; try discriminate; injection Ht as <-; apply SameM; assumption.
    (* IUnlock *)
    - injection Hs as <- <- <- <-.
      exists h'. split; [exact Hr|]. split.
      + intros l' m Hl Hm. destruct l, l', h as [[] [] hm0]; try discriminate; injection Ht as <-; cbn [set_lock get_lock n_plock n_klock mode_at hp hk] in *;
          solve [eapply lock_ok_unlock; eassumption|apply Same; assumption].
      + intros m Hl Hm. destruct l, h as [[] [] hm0]; try discriminate; injection Ht as <-; apply SameM; assumption.
    (* IMLock *)
    - destruct (n_mlock n) eqn:E; [discriminate|]. injection Hs as <- <- <- <-.
      exists h'. split; [exact Hr|]. destruct h as [[] [] []]; try discriminate. injection Ht as <-. split.
      + intros l m Hl Hm. apply Same; [destruct l; exact Hl|]. rewrite Hm. destruct l; reflexivity.
      + intros m Hl Hm u. cbn [set_mlock n_mlock hm]. unfold fupd. destruct (Nat.eqb u t) eqn:X.
        * apply Nat.eqb_eq in X. subst. split; auto.
        * apply Nat.eqb_neq in X. rewrite <- (Hl u). split; congruence.
    (* IMUnlock *)
    - injection Hs as <- <- <- <-.
      exists h'. split; [exact Hr|]. destruct h as [[] [] []]; try discriminate. injection Ht as <-. split.
      + intros l m Hl Hm. apply Same; [destruct l; exact Hl|]. rewrite Hm. destruct l; reflexivity.
      + intros m Hl Hm u. cbn [set_mlock n_mlock hm] in *. unfold fupd. split; [discriminate|].
        destruct (Nat.eqb u t) eqn:X; [discriminate|]. apply Nat.eqb_neq in X. intros Hu.
        apply Hl in Hu. apply Hl in Hm. congruence.
    (* IClock *)
    - destruct h as [[] [] []]; try discriminate. injection Ht as <-. exists (Held Free Free true).
      destruct (wants_load _ _ now); injection Hs as <- <- <- <-; (split; [|split; auto]); [|exact Hr].
      cbn [app]. eapply typed_intro; [cbn [itype negb]; rewrite andb_false_r; reflexivity|exact Hr].
    (* IHGetAll *)
    - unfold redis_load in Hs.
      destruct h as [[] [] hm0]; try discriminate. destruct (mark && negb hm0) eqn:Hmk; [discriminate|]. injection Ht as <-.
      exists (Held Free Free hm0). destruct (ok (r_cmds r)); injection Hs as <- <- <- <-; (split; [|split; auto]).
      + rewrite <- app_assoc. apply typed_updates. destruct mark; [|exact Hr]. destruct hm0; [|discriminate].
        cbn [app]. eapply typed_intro; [reflexivity|exact Hr].
      + exact Hr.
    (* IMark *)
    - destruct h as [[] [] []]; try discriminate. injection Ht as <-. injection Hs as <- <- <- <-.
      exists (Held Free Free true). split; [exact Hr|]. split; [intros l m Hl Hm; apply Same; [destruct l; exact Hl|exact Hm]|intros m Hl Hm; apply SameM; assumption].
    (* ILookup *)
    - destruct h as [[] [] hm0]; try discriminate. injection Ht as <-. injection Hs as <- <- <- <-.
      exists (Held Rd Free hm0). split; [|split; auto]. cbn [app]. repeat (eapply typed_intro; [reflexivity|]). exact Hr.
    (* ICheck *)
    - destruct h as [[] [] hm0]; try discriminate. injection Ht as <-. exists (Held Free Free hm0).
      destruct (lookup_value _ k v); injection Hs as <- <- <- <-; (split; [|split; auto]); [exact Hr|].
      cbn [p_lock app]. repeat (eapply typed_intro; [reflexivity|]). exact Hr.
    (* IWrite *)
    - destruct h as [[] [] hm0]; try discriminate. injection Ht as <-. injection Hs as <- <- <- <-.
      exists (Held Free Wr hm0). split; [exact Hr|]. split; [intros l m Hl Hm; apply Same; [destruct l; exact Hl|exact Hm]|intros m Hl Hm; apply SameM; assumption].
    (* IBatch *)
    - destruct h as [[] [] hm0]; try discriminate. injection Ht as <-. injection Hs as <- <- <- <-.
      exists (Held Free Free hm0). split; [exact Hr|split; auto].
    (* ISave *)
    - destruct h as [[] [] hm0]; try discriminate. injection Ht as <-. exists (Held Free Free hm0).
      destruct (g_errs g); [injection Hs as <- <- <- <-; split; [exact Hr|split; auto]|].
      destruct (redis_save ok r k v). injection Hs as <- <- <- <-. split; [exact Hr|split; auto].
    (* IDelete *)
    - destruct h as [hp0 [] hm0]; try discriminate. injection Ht as <-. injection Hs as <- <- <- <-.
      exists (Held hp0 Wr hm0). split; [exact Hr|split; auto].
    (* IRegister *)
    - destruct h as [[] [] hm0]; try discriminate. injection Ht as <-.
      destruct (register_key (n_maps n) k d (Some p)). injection Hs as <- <- <- <-.
      exists (Held Wr Wr hm0). split; [exact Hr|]. split; [intros l m Hl Hm; apply Same; [destruct l; exact Hl|exact Hm]|intros m Hl Hm; apply SameM; assumption].
    (* IDrop *)
    - destruct h as [[] [] hm0]; try discriminate. injection Ht as <-. injection Hs as <- <- <- <-.
      exists (Held Wr Wr hm0). split; [exact Hr|]. split; [intros l m Hl Hm; apply Same; [destruct l; exact Hl|exact Hm]|intros m Hl Hm; apply SameM; assumption].
    (* IClear *)
    - destruct h as [[] [] hm0]; try discriminate. injection Ht as <-. injection Hs as <- <- <- <-.
      exists (Held Free Wr hm0). split; [exact Hr|]. split; [intros l m Hl Hm; apply Same; [destruct l; exact Hl|exact Hm]|intros m Hl Hm; apply SameM; assumption].
    (* IRead, IReadStr *)
    - destruct h as [[] [] hm0]; try discriminate. injection Ht as <-. injection Hs as <- <- <- <-.
      exists (Held Free Rd hm0). split; [exact Hr|split; auto].
    - destruct h as [[] [] hm0]; try discriminate. injection Ht as <-. injection Hs as <- <- <- <-.
      exists (Held Free Rd hm0). split; [exact Hr|split; auto].
    - discriminate.
  Qed.

  Lemma istep_return t now (n : node V) r g f q : istep ok ord t now n r g (IReturn f) = Some q -> q = (n, r, [], g).
  Proof. cbn. congruence. Qed.

  (** The parts of a step. *)
  Lemma cstep_step (w : cworld V) t now w' es : cstep ok ord w (CStep t now) = Some (w', es) ->
    exists th i rest n n' r' new g', nth_error (c_threads w) t = Some th /\ t_prog th = i :: rest /\
      nth_error (c_nodes w) (t_node th) = Some n /\ istep ok ord t now n (c_redis w) (t_regs th) i = Some (n', r', new, g') /\
      w' = CWorld r' (upd (t_node th) n' (c_nodes w))
             (upd t (Thread (t_node th) (match i with IReturn _ => None | _ => t_call th end) (new ++ rest) g') (c_threads w)) /\
      es = returns t th i.
  Proof.
    unfold cstep. destruct (nth_error (c_threads w) t) as [th|] eqn:E1; [|discriminate].
    destruct (t_prog th) as [|i rest] eqn:E2; [discriminate|].
    destruct (nth_error (c_nodes w) (t_node th)) as [n|] eqn:E3; [|discriminate].
    destruct (istep _ _ _ _ _ _ _ i) as [[[[n' r'] new] g']|] eqn:E4; [|discriminate].
    intros H. injection H as <- <-. exists th, i, rest, n, n', r', new, g'. auto 10.
  Qed.
  Lemma cstep_call (w : cworld V) t j o w' es : cstep ok ord w (CCall t j o) = Some (w', es) ->
    exists th n, nth_error (c_threads w) t = Some th /\ nth_error (c_nodes w) j = Some n /\ t_call th = None /\
      w' = CWorld (c_redis w) (c_nodes w) (upd t (Thread j (Some o) (p_call (n_pol n) o) regs0) (c_threads w)) /\
      es = [ECalled t j o].
  Proof.
    unfold cstep. destruct (nth_error (c_threads w) t) as [th|] eqn:E1; [|discriminate].
    destruct (nth_error (c_nodes w) j) as [n|] eqn:E2; [|discriminate].
    destruct (t_call th) eqn:E3; [discriminate|]. intros H. injection H as <- <-. exists th, n. auto 10.
  Qed.

  Lemma inv_step (w : cworld V) hs l w' es : inv w hs -> cstep ok ord w l = Some (w', es) -> exists hs', inv w' hs'.
  Proof.
    intros [HT HN HL HM] H. destruct l as [t j o|t now].
    - apply cstep_call in H. destruct H as (th & n & E1 & E2 & E3 & -> & _).
      pose proof (HT _ _ E1) as Hth. unfold thread_ok in Hth. rewrite E3 in Hth. destruct Hth as [_ Hh].
      exists hs. constructor; cbn [c_threads c_nodes].
      + intros u th' Hu. rewrite nth_error_upd in Hu. destruct (Nat.eq_dec t u) as [<-|ne].
        * rewrite E1 in Hu. injection Hu as <-. unfold thread_ok. cbn [t_call t_prog]. rewrite Hh. apply typed_call.
        * apply HT. exact Hu.
      + intros u th' o' Hu Ho. rewrite nth_error_upd in Hu. destruct (Nat.eq_dec t u) as [<-|ne].
        * rewrite E1 in Hu. injection Hu as <-. cbn [t_node]. apply nth_error_Some. congruence.
        * eapply HN; eassumption.
      + intros j' n' l' Hj. eapply lock_ok_ext; [|apply HL; exact Hj]. intros u. unfold mode_of. cbn [c_threads].
        rewrite nth_error_upd. destruct (Nat.eq_dec t u) as [<-|ne]; [|reflexivity]. rewrite E1. cbn [t_node]. rewrite Hh.
        destruct (Nat.eqb j j'), (Nat.eqb (t_node th) j'), l'; reflexivity.
      + intros j' n' Hj u. rewrite (HM _ _ Hj u). unfold mutex_of. cbn [c_threads].
        rewrite nth_error_upd. destruct (Nat.eq_dec t u) as [<-|ne]; [|reflexivity]. rewrite E1. cbn [t_node]. rewrite Hh.
        destruct (Nat.eqb j j'), (Nat.eqb (t_node th) j'); reflexivity.
    - apply cstep_step in H. destruct H as (th & i & rest & n & n' & r' & new & g' & E1 & E2 & E3 & E4 & -> & _).
      pose proof (HT _ _ E1) as Hth. unfold thread_ok in Hth.
      destruct (t_call th) as [o|] eqn:E5; [|destruct Hth as [Hth _]; congruence].
      rewrite E2 in Hth. apply typed_cons in Hth.
      assert (D : exists h1, thread_ok h1 (Thread (t_node th) (match i with IReturn _ => None | _ => Some o end) (new ++ rest) g') /\
        (forall l m, lock_ok (get_lock n l) m -> m t = mode_at (hs t) l -> lock_ok (get_lock n' l) (fupd m t (mode_at h1 l))) /\
        (forall m, mlock_ok (n_mlock n) m -> m t = hm (hs t) -> mlock_ok (n_mlock n') (fupd m t (hm h1)))).
      { destruct Hth as [(f & -> & -> & Hh)|(h' & Hi & Hr)].
        - apply istep_return in E4. injection E4 as -> -> -> ->. exists held0. split; [split; reflexivity|].
          rewrite Hh. split.
          + intros l m Hl Hm. eapply lock_ok_ext; [|exact Hl]. intros u. unfold fupd. destruct (Nat.eqb u t) eqn:X; [|reflexivity].
            apply Nat.eqb_eq in X. subst. symmetry. exact Hm.
          + intros m Hl Hm u. unfold fupd. destruct (Nat.eqb u t) eqn:X; [|apply Hl]. apply Nat.eqb_eq in X. subst.
            rewrite <- Hm. apply Hl.
        - destruct (istep_typed _ _ _ _ _ _ _ _ _ _ _ _ _ E4 Hi Hr) as (h1 & A & B & C). exists h1. split; [|split; assumption].
          unfold thread_ok. cbn [t_call t_prog]. destruct i; try exact A. discriminate Hi. }
      destruct D as (h1 & D1 & D2 & D3). exists (fupd hs t h1). constructor; cbn [c_threads c_nodes].
      + intros u th' Hu. rewrite nth_error_upd in Hu. destruct (Nat.eq_dec t u) as [<-|ne].
        * rewrite E1 in Hu. injection Hu as <-. rewrite fupd_same. exact D1.
        * rewrite fupd_other by congruence. apply HT. exact Hu.
      + intros u th' o' Hu Ho. rewrite upd_length. rewrite nth_error_upd in Hu. destruct (Nat.eq_dec t u) as [<-|ne].
        * rewrite E1 in Hu. injection Hu as <-. cbn [t_node]. apply nth_error_Some. congruence.
        * eapply HN; eassumption.
      + intros j' nd l' Hj. rewrite nth_error_upd in Hj. destruct (Nat.eq_dec (t_node th) j') as [<-|nj].
        * rewrite E3 in Hj. injection Hj as <-.
          eapply lock_ok_ext; [|eapply D2; [apply HL; exact E3|]].
          -- intros u. unfold mode_of, fupd. cbn [c_threads]. rewrite nth_error_upd. destruct (Nat.eq_dec t u) as [<-|ne].
             ++ rewrite E1. cbn [t_node]. rewrite !Nat.eqb_refl. reflexivity.
             ++ assert (X : Nat.eqb u t = false) by (apply Nat.eqb_neq; congruence). rewrite X. reflexivity.
          -- unfold mode_of. rewrite E1, Nat.eqb_refl. reflexivity.
        * eapply lock_ok_ext; [|apply HL; exact Hj]. intros u. unfold mode_of, fupd. cbn [c_threads]. rewrite nth_error_upd.
          apply Nat.eqb_neq in nj. destruct (Nat.eq_dec t u) as [<-|ne].
          -- rewrite E1. cbn [t_node]. rewrite nj. reflexivity.
          -- assert (X : Nat.eqb u t = false) by (apply Nat.eqb_neq; congruence). rewrite X. reflexivity.
      + intros j' nd Hj. rewrite nth_error_upd in Hj. destruct (Nat.eq_dec (t_node th) j') as [<-|nj].
        * rewrite E3 in Hj. injection Hj as <-.
          assert (Y : mlock_ok (n_mlock n') (fupd (mutex_of w hs (t_node th)) t (hm h1))).
          { apply D3; [apply HM; exact E3|]. unfold mutex_of. rewrite E1, Nat.eqb_refl. reflexivity. }
          intros u. rewrite (Y u). unfold mutex_of, fupd. cbn [c_threads]. rewrite nth_error_upd. destruct (Nat.eq_dec t u) as [<-|ne].
          -- rewrite E1. cbn [t_node]. rewrite !Nat.eqb_refl. reflexivity.
          -- assert (X : Nat.eqb u t = false) by (apply Nat.eqb_neq; congruence). rewrite X. reflexivity.
        * intros u. rewrite (HM _ _ Hj u). unfold mutex_of, fupd. cbn [c_threads]. rewrite nth_error_upd.
          apply Nat.eqb_neq in nj. destruct (Nat.eq_dec t u) as [<-|ne].
          -- rewrite E1. cbn [t_node]. rewrite nj. reflexivity.
          -- assert (X : Nat.eqb u t = false) by (apply Nat.eqb_neq; congruence). rewrite X. reflexivity.
  Qed.

  Lemma inv_exec (w : cworld V) sched : (exists hs, inv w hs) -> exists hs, inv (fst (exec (cstep ok ord) w sched)) hs.
  Proof.
    intros H. refine (exec_inv (cstep ok ord) (fun w _ => exists hs, inv w hs) _ sched w [] H).
    intros s l s1 es _ [hs Hi] Hs. eapply inv_step; eassumption.
  Qed.

  Lemma inv_reach h pols n sched : exists hs, inv (fst (@conc_exec V ok ord h pols n sched)) hs.
  Proof. apply inv_exec. eexists. apply inv0. Qed.
End one_step.

(** ** No races *)
Lemma accesses_held {V} h (i : instr V) h' x a : itype h i = Some h' -> In (x, a) (accesses i) ->
  match x with
  | MProcs => if a then hp h = Wr else hp h = Rd
  | MDef | MDefStr | MKv | MKvStr => if a then hk h = Wr else hk h = Rd
  | MLast => hm h = true
  end.
Proof.
  intros Ht Hi. destruct i; cbn [accesses] in Hi; try contradiction; cbn [itype] in Ht; destruct h as [[] [] []]; try discriminate;
    repeat (destruct Hi as [Hi|Hi]; [injection Hi as <- <-; reflexivity|]); contradiction.
Qed.

Lemma no_race {V} (w : cworld V) hs : inv w hs -> ~ race w.
Proof.
  intros [HT HN HL HM] (t & u & j & x & a & b & ne & (th & i & rest & E1 & E2 & E3 & E4) & (th' & i' & rest' & F1 & F2 & F3 & F4) & ab).
  assert (A : forall t th i rest x a, nth_error (c_threads w) t = Some th -> t_prog th = i :: rest -> In (x, a) (accesses i) ->
    match x with
    | MProcs => if a then hp (hs t) = Wr else hp (hs t) = Rd
    | MDef | MDefStr | MKv | MKvStr => if a then hk (hs t) = Wr else hk (hs t) = Rd
    | MLast => hm (hs t) = true
    end /\ exists o, t_call th = Some o).
  { clear - HT. intros t th i rest x a E1 E3 E4. pose proof (HT _ _ E1) as H. unfold thread_ok in H. destruct (t_call th); [|destruct H; congruence].
    rewrite E3 in H. apply typed_cons in H. destruct H as [(f & -> & _)|(h' & Hi & _)]; [contradiction|].
    split; [eapply accesses_held; eassumption|eauto]. }
  destruct (A _ _ _ _ _ _ E1 E3 E4) as [A1 [o Ho]]. destruct (A _ _ _ _ _ _ F1 F3 F4) as [A2 _].
  destruct (nth_error (c_nodes w) j) as [n|] eqn:En.
  2:{ apply nth_error_None in En. specialize (HN _ _ _ E1 Ho). lia. }
  assert (M1 : forall l, mode_of w hs j l t = mode_at (hs t) l) by (intros l; unfold mode_of; rewrite E1, E2, Nat.eqb_refl; reflexivity).
  assert (M2 : forall l, mode_of w hs j l u = mode_at (hs u) l) by (intros l; unfold mode_of; rewrite F1, F2, Nat.eqb_refl; reflexivity).
  assert (X : forall l, ~ (mode_at (hs t) l = Wr /\ (mode_at (hs u) l = Wr \/ mode_at (hs u) l = Rd)) /\ ~ (mode_at (hs u) l = Wr /\ (mode_at (hs t) l = Wr \/ mode_at (hs t) l = Rd))).
  { intros l. destruct (HL j n l En) as [L1 L2 L3]. rewrite <- M1, <- M2.
    assert (G : forall t u, t <> u -> mode_of w hs j l t = Wr /\ (mode_of w hs j l u = Wr \/ mode_of w hs j l u = Rd) -> False).
    { intros t0 u0 n0 [P [Q|Q]]; apply (L2 t0 true) in P; [apply (L2 u0 true) in Q; congruence|].
      apply L1 in Q. rewrite (L3 _ P) in Q. contradiction. }
    split; intros HH; (eapply G; [|exact HH]); congruence. }
  pose proof (X ProcLock) as [XP1 XP2]. pose proof (X KvLock) as [XK1 XK2]. cbn [mode_at] in *.
  destruct x.
  - destruct a, b; try discriminate; tauto.
  - destruct a, b; try discriminate; tauto.
  - destruct a, b; try discriminate; tauto.
  - destruct a, b; try discriminate; tauto.
  - destruct a, b; try discriminate; tauto.
  - pose proof (HM _ _ En) as M. assert (P : mutex_of w hs j t = true) by (unfold mutex_of; rewrite E1, E2, Nat.eqb_refl; exact A1).
    assert (Q : mutex_of w hs j u = true) by (unfold mutex_of; rewrite F1, F2, Nat.eqb_refl; exact A2).
    apply M in P. apply M in Q. congruence.
Qed.

(** ** No deadlock *)
Definition can_go {V} ok ord (w : cworld V) (t : nat) : Prop := forall now, exists q, cstep ok ord w (CStep t now) = Some q.

Lemma go_intro {V} ok ord (w : cworld V) t th i rest n :
  nth_error (c_threads w) t = Some th -> t_prog th = i :: rest -> nth_error (c_nodes w) (t_node th) = Some n ->
  (forall now, istep ok ord t now n (c_redis w) (t_regs th) i <> None) -> can_go ok ord w t.
Proof.
  intros E1 E2 E3 H now. unfold cstep. rewrite E1, E2, E3. specialize (H now).
  destruct (istep ok ord t now n (c_redis w) (t_regs th) i) as [[[[? ?] ?] ?]|]; [eauto|congruence].
Qed.

(** The instructions that can wait. *)
Definition waits {V} (i : instr V) : bool :=
  match i with IRLock _ | IAnnounce _ | IAcquire _ | IMLock => true | _ => false end.
Lemma no_wait {V} ok ord t now (n : node V) r g i : waits i = false -> istep ok ord t now n r g i <> None.
Proof.
  destruct i; cbn [waits istep]; try discriminate; intros _.
  - destruct (wants_load _ _ _); discriminate.
  - destruct (redis_load ok ord r) as [[? ?] ?]. discriminate.
  - destruct (lookup_value _ k v); discriminate.
  - destruct (g_errs g); [discriminate|]. destruct (redis_save ok r k v). discriminate.
  - destruct (register_key _ k d _). discriminate.
Qed.

Section progress.
  Context {V : Type} (ok : nat -> bool) (ord : nat -> list (string * string) -> list (string * string)) (w : cworld V) (hs : nat -> held).
  Hypothesis HI : inv w hs.

  (** A goroutine with a lock in some mode on store [j]. *)
  Lemma busy_parts t th : nth_error (c_threads w) t = Some th -> hs t <> held0 \/ t_call th <> None ->
    exists i rest n h', t_prog th = i :: rest /\ nth_error (c_nodes w) (t_node th) = Some n /\
      ((exists f, i = IReturn f) \/ itype (hs t) i = Some h').
  Proof.
    intros E H. destruct HI as [HT HN _ _]. pose proof (HT _ _ E) as Ho. unfold thread_ok in Ho.
    destruct (t_call th) as [o|] eqn:Ec; [|destruct Ho, H; congruence].
    destruct (nth_error (c_nodes w) (t_node th)) as [n|] eqn:En.
    2:{ apply nth_error_None in En. specialize (HN _ _ _ E Ec). lia. }
    destruct (t_prog th) as [|i rest]; [contradiction|]. apply typed_cons in Ho.
    destruct Ho as [(f & -> & _ & Hh)|(h' & Hi & _)].
    - exists (IReturn f), rest, n, held0. eauto 10.
    - exists i, rest, n, h'. auto.
  Qed.

  Lemma mode_of_some j l t : mode_of w hs j l t <> Free ->
    exists th, nth_error (c_threads w) t = Some th /\ t_node th = j /\ mode_of w hs j l t = mode_at (hs t) l.
  Proof.
    unfold mode_of. destruct (nth_error (c_threads w) t) as [th|]; [|congruence].
    destruct (Nat.eqb (t_node th) j) eqn:E; [|congruence]. apply Nat.eqb_eq in E. eauto.
  Qed.

  Lemma kv_goes t th : nth_error (c_threads w) t = Some th -> hk (hs t) <> Free -> exists u, can_go ok ord w u.
  Proof.
    intros E Hk. destruct (busy_parts t th E) as (i & rest & n & h' & E2 & E3 & Hi).
    { left. intros X. rewrite X in Hk. apply Hk. reflexivity. }
    destruct (waits i) eqn:Hw.
    2:{ exists t. eapply go_intro; eauto. intros now. apply no_wait. exact Hw. }
    destruct Hi as [[f ->]|Hi]; [discriminate|].
    destruct (hs t) as [p k m] eqn:Eh. cbn [hk] in Hk.
    destruct i; try discriminate; cbn [itype] in Hi.
    - destruct l, p, k; try discriminate; congruence.
    - destruct l, p, k; try discriminate; congruence.
    - destruct l; [destruct p, k; try discriminate; congruence|]. destruct k; try (destruct p; discriminate).
      (* waits for the readers of kvLock *)
      destruct HI as [_ _ HL _]. destruct (HL _ _ KvLock E3) as [L1 L2 L3]. cbn [get_lock] in *.
      assert (Ht : mode_of w hs (t_node th) KvLock t = Ann) by (unfold mode_of; rewrite E, Nat.eqb_refl, Eh; reflexivity).
      apply (L2 t false) in Ht.
      destruct (rw_readers (n_klock n)) as [|u rs] eqn:Er.
      + exists t. eapply go_intro; eauto. intros now. cbn [istep get_lock]. unfold acquire. rewrite Ht, Er, Nat.eqb_refl. discriminate.
      + assert (Hu : mode_of w hs (t_node th) KvLock u = Rd) by (apply L1; left; reflexivity).
        destruct (mode_of_some (t_node th) KvLock u) as (thu & Eu & Nu & Mu); [congruence|]. rewrite Hu in Mu. cbn [mode_at] in Mu.
        destruct (busy_parts u thu Eu) as (iu & restu & nu & hu' & Fu & Gu & Hiu).
        { left. intros X. rewrite X in Mu. discriminate. }
        exists u. eapply go_intro; eauto. intros now. apply no_wait.
        destruct Hiu as [[f ->]|Hiu]; [reflexivity|]. destruct (hs u) as [pu ku mu]. cbn [hk] in Mu. subst ku.
        destruct iu; try reflexivity; cbn [itype] in Hiu; try destruct l; destruct pu; discriminate.
    - destruct p, k, m; try discriminate; congruence.
  Qed.

  Lemma proc_goes t th : nth_error (c_threads w) t = Some th -> hp (hs t) <> Free -> exists u, can_go ok ord w u.
  Proof.
    intros E Hp.
    destruct (hk (hs t)) eqn:Hk; try (apply (kv_goes t th E); congruence).
    destruct (busy_parts t th E) as (i & rest & n & h' & E2 & E3 & Hi).
    { left. intros X. rewrite X in Hp. apply Hp. reflexivity. }
    destruct (waits i) eqn:Hw.
    2:{ exists t. eapply go_intro; eauto. intros now. apply no_wait. exact Hw. }
    destruct Hi as [[f ->]|Hi]; [discriminate|].
    destruct (hs t) as [p k m] eqn:Eh. cbn [hp hk] in *. subst k.
    destruct HI as [_ _ HL _].
    destruct i; try discriminate; cbn [itype] in Hi.
    - destruct l, p; try discriminate; congruence.
    - destruct l; [destruct p; try discriminate; congruence|].
      (* waits for the writer of kvLock *)
      destruct (HL _ _ KvLock E3) as [L1 L2 L3]. cbn [get_lock] in *.
      destruct (rw_writer (n_klock n)) as [[u b]|] eqn:Ew.
      + assert (Hu : mode_of w hs (t_node th) KvLock u = if b then Wr else Ann) by (apply L2; reflexivity).
        destruct (mode_of_some (t_node th) KvLock u) as (thu & Eu & Nu & Mu); [destruct b; congruence|].
        apply (kv_goes u thu Eu). cbn [mode_at] in Mu. rewrite <- Mu, Hu. destruct b; discriminate.
      + exists t. eapply go_intro; eauto. intros now. cbn [istep get_lock]. unfold announce. rewrite Ew. discriminate.
    - destruct l; [|destruct p; discriminate]. destruct p; try discriminate.
      (* waits for the readers of kvProcessorLock *)
      destruct (HL _ _ ProcLock E3) as [L1 L2 L3]. cbn [get_lock] in *.
      assert (Ht : mode_of w hs (t_node th) ProcLock t = Ann) by (unfold mode_of; rewrite E, Nat.eqb_refl, Eh; reflexivity).
      apply (L2 t false) in Ht.
      destruct (rw_readers (n_plock n)) as [|u rs] eqn:Er.
      + exists t. eapply go_intro; eauto. intros now. cbn [istep get_lock]. unfold acquire. rewrite Ht, Er, Nat.eqb_refl. discriminate.
      + assert (Hu : mode_of w hs (t_node th) ProcLock u = Rd) by (apply L1; left; reflexivity).
        destruct (mode_of_some (t_node th) ProcLock u) as (thu & Eu & Nu & Mu); [congruence|]. rewrite Hu in Mu. cbn [mode_at] in Mu.
        destruct (busy_parts u thu Eu) as (iu & restu & nu & hu' & Fu & Gu & Hiu).
        { left. intros X. rewrite X in Mu. discriminate. }
        exists u. eapply go_intro; eauto. intros now. apply no_wait.
        destruct Hiu as [[f ->]|Hiu]; [reflexivity|]. destruct (hs u) as [pu ku mu]. cbn [hp] in Mu. subst pu.
        destruct iu; try reflexivity; cbn [itype] in Hiu; try destruct l; destruct ku; discriminate.
    - destruct p; try discriminate. congruence.
  Qed.

  Lemma some_goes t th : nth_error (c_threads w) t = Some th -> t_call th <> None -> exists u, can_go ok ord w u.
  Proof.
    (* first without the mutex *)
    assert (A : forall t th, nth_error (c_threads w) t = Some th -> t_call th <> None ->
      (forall rest, t_prog th <> IMLock :: rest) -> exists u, can_go ok ord w u).
    { clear t th. intros t th E Hc Hm.
      destruct (hk (hs t)) eqn:Hk; try (apply (kv_goes t th E); congruence).
      destruct (hp (hs t)) eqn:Hp; try (apply (proc_goes t th E); congruence).
      destruct (busy_parts t th E (or_intror Hc)) as (i & rest & n & h' & E2 & E3 & Hi).
      destruct (waits i) eqn:Hw.
      2:{ exists t. eapply go_intro; eauto. intros now. apply no_wait. exact Hw. }
      destruct Hi as [[f ->]|Hi]; [discriminate|].
      destruct (hs t) as [p k m] eqn:Eh. cbn [hp hk] in *. subst k p.
      assert (W : forall l, rw_writer (get_lock n l) = None \/ exists u, can_go ok ord w u).
      { intros l. pose proof (i_locks _ _ HI _ _ l E3) as [L1 L2 L3].
        destruct (rw_writer (get_lock n l)) as [[u b]|] eqn:Ew; [right|left; reflexivity].
        assert (Hu : mode_of w hs (t_node th) l u = if b then Wr else Ann) by (apply L2; reflexivity).
        destruct (mode_of_some (t_node th) l u) as (thu & Eu & Nu & Mu); [destruct b; congruence|].
        rewrite Hu in Mu. destruct l; cbn [mode_at] in Mu.
        - apply (proc_goes u thu Eu). rewrite <- Mu. destruct b; discriminate.
        - apply (kv_goes u thu Eu). rewrite <- Mu. destruct b; discriminate. }
      destruct i; try discriminate; cbn [itype] in Hi.
      - destruct (W l) as [Hl|Hl]; [|exact Hl]. exists t. eapply go_intro; eauto. intros now. cbn [istep]. unfold rlock. rewrite Hl. discriminate.
      - destruct (W l) as [Hl|Hl]; [|exact Hl]. exists t. eapply go_intro; eauto. intros now. cbn [istep]. unfold announce. rewrite Hl. discriminate.
      - destruct l; discriminate.
      - exfalso. eapply Hm; exact E2. }
    intros E Hc. destruct (t_prog th) as [|i rest] eqn:Ep; [apply (A t th E Hc); intros ? Xp; rewrite Ep in Xp; discriminate Xp|].
    destruct i; try (apply (A t th E Hc); intros ? Xp; rewrite Ep in Xp; discriminate Xp).
    destruct (busy_parts t th E (or_intror Hc)) as (i & rest' & n & h' & E2 & E3 & Hi).
    destruct (n_mlock n) as [u|] eqn:Em.
    - pose proof (i_mutex _ _ HI _ _ E3) as M. apply M in Em. unfold mutex_of in Em.
      destruct (nth_error (c_threads w) u) as [thu|] eqn:Eu; [|discriminate].
      destruct (Nat.eqb (t_node thu) (t_node th)) eqn:En; [|discriminate].
      pose proof (i_threads _ _ HI _ _ Eu) as Ho. unfold thread_ok in Ho.
      destruct (t_call thu) eqn:Ec; [|destruct Ho as [_ Ho]; rewrite Ho in Em; discriminate].
      apply (A u thu Eu); [congruence|]. intros rest'' X. rewrite X in Ho. apply typed_cons in Ho.
      destruct Ho as [(f & Y & _)|(h'' & Y & _)]; [discriminate|]. cbn [itype] in Y. destruct (hs u) as [[] [] []]; try discriminate.
    - exists t. rewrite Ep in E2. injection E2 as <- <-. eapply go_intro; eauto. intros now. cbn [istep]. rewrite Em. discriminate.
  Qed.
End progress.

(** ** Bounded work *)
Local Open Scope nat_scope.
Definition weight {V} (H : nat) (i : instr V) : nat :=
  match i with
  | IHGetAll _ => 8 * H + 2
  | IClock => 8 * H + 3
  | ILookup _ _ _ => 7
  | ICheck _ _ _ _ => 5
  | _ => 1
  end.
(** Entries the instruction may add to the hash. *)
Definition adds {V} (i : instr V) : nat := match i with IBatch kvs => length kvs | ISave _ _ => 1 | _ => 0 end.

Fixpoint total {A} (f : A -> nat) (l : list A) : nat := match l with [] => 0 | x :: l' => f x + total f l' end.
Lemma total_app {A} (f : A -> nat) l1 l2 : total f (l1 ++ l2) = total f l1 + total f l2.
Proof. induction l1 as [|x l1 IH]; cbn [app total]; [reflexivity|]. rewrite IH. lia. Qed.
Lemma total_upd {A} (f : A -> nat) i x l o : nth_error l i = Some o -> total f (upd i x l) + f o = total f l + f x.
Proof.
  revert i; induction l as [|z l IH]; intros [|i] H; cbn [nth_error upd total] in *; try discriminate.
  - injection H as ->. lia.
  - specialize (IH i H). lia.
Qed.
Lemma total_le {A} (f g : A -> nat) l : (forall x, f x <= g x) -> total f l <= total g l.
Proof. intros H. induction l as [|x l IH]; cbn [total]; [lia|]. specialize (H x). lia. Qed.

Definition room {V} (w : cworld V) : nat :=
  length (r_hash (c_redis w)) + total (fun th => total adds (t_prog th)) (c_threads w).
Definition work_at {V} (H : nat) (w : cworld V) : nat := total (fun th => total (weight H) (t_prog th)) (c_threads w).
Definition work {V} (w : cworld V) : nat := work_at (room w) w.

Lemma weight_mono {V} H H' (i : instr V) : H <= H' -> weight H i <= weight H' i.
Proof. intros L. destruct i; cbn [weight]; lia. Qed.
Lemma work_mono {V} H H' (w : cworld V) : H <= H' -> work_at H w <= work_at H' w.
Proof. intros L. apply total_le. intros th. apply total_le. intros i. apply weight_mono. exact L. Qed.

Lemma hset_length h k v : length (hset h k v) <= S (length h).
Proof. induction h as [|[k' v'] h IH]; cbn; [lia|]. destruct (k' =? k)%string; cbn; lia. Qed.
Lemma hmset_length kvs h : length (hmset h kvs) <= length h + length kvs.
Proof.
  unfold hmset. revert h. induction kvs as [|kv kvs IH]; intros h; cbn [fold_left length]; [lia|].
  specialize (IH (hset h (fst kv) (snd kv))). pose proof (hset_length h (fst kv) (snd kv)). lia.
Qed.
Lemma filter_le {A} (f : A -> bool) l : length (filter f l) <= length l.
Proof. induction l as [|x l IH]; cbn; [lia|]. destruct (f x); cbn; lia. Qed.
Lemma redis_batch_length ok r kvs : length (r_hash (fst (redis_batch ok r kvs))) <= length (r_hash r) + length kvs.
Proof.
  unfold redis_batch. destruct kvs; [cbn; lia|]. destruct (ok (r_cmds r)); cbn [fst r_hash]; [apply hmset_length|lia].
Qed.

Lemma updates_weight {V} H keep kvs : total (weight H) (flat_map (fun kv => @p_update V keep (fst kv) (snd kv)) kvs) <= 8 * length kvs.
Proof.
  induction kvs as [|kv kvs IH]; cbn [flat_map length]; [cbn; lia|]. rewrite total_app.
  unfold p_update at 1. destruct (fst kv =? "")%string; cbn -[Nat.mul] in *; lia.
Qed.
Lemma updates_adds {V} keep kvs : total adds (flat_map (fun kv => @p_update V keep (fst kv) (snd kv)) kvs) = 0.
Proof.
  induction kvs as [|kv kvs IH]; cbn [flat_map]; [reflexivity|]. rewrite total_app, IH.
  unfold p_update. destruct (fst kv =? "")%string; reflexivity.
Qed.

Section bounded.
  Context {V : Type} (ok : nat -> bool) (ord : nat -> list (string * string) -> list (string * string)).
  Hypothesis Hord : any_order ord.

  Lemma istep_work t now (n : node V) r g i n' r' new g' H :
    istep ok ord t now n r g i = Some (n', r', new, g') -> length (r_hash r) <= H ->
    total (weight H) new < weight H i /\ length (r_hash r') + total adds new <= length (r_hash r) + adds i.
  Proof.
    intros Hs HH. destruct i; cbn [istep] in Hs.
    - destruct (rlock _ _); [|discriminate]. injection Hs as <- <- <- <-. cbn. lia.
    - injection Hs as <- <- <- <-. cbn. lia.
    - destruct (announce _ _); [|discriminate]. injection Hs as <- <- <- <-. cbn. lia.
    - destruct (acquire _ _); [|discriminate]. injection Hs as <- <- <- <-. cbn. lia.
    - injection Hs as <- <- <- <-. cbn. lia.
    - destruct (n_mlock n); [discriminate|]. injection Hs as <- <- <- <-. cbn. lia.
    - injection Hs as <- <- <- <-. cbn. lia.
    - destruct (wants_load _ _ _); injection Hs as <- <- <- <-; cbn; lia.
    - unfold redis_load in Hs. destruct (ok (r_cmds r)); injection Hs as <- <- <- <-; cbn [weight r_hash adds].
      + rewrite !total_app, updates_adds. pose proof (@updates_weight V H false (ord (r_cmds r) (r_hash r))) as U.
        rewrite <- (Permutation_length (Hord (r_cmds r) (r_hash r))) in U. destruct mark; cbn [total weight adds]; lia.
      + cbn. lia.
    - injection Hs as <- <- <- <-. cbn. lia.
    - injection Hs as <- <- <- <-. cbn. lia.
    - destruct (lookup_value _ k v); injection Hs as <- <- <- <-; cbn; lia.
    - injection Hs as <- <- <- <-. cbn. lia.
    - injection Hs as <- <- <- <-. cbn [weight adds].
      pose proof (redis_batch_length ok r (filter (fun kv => negb (existsb (fun e => (ke_key e =? fst kv)%string) (g_errs g))) kvs)) as B.
      pose proof (filter_le (fun kv => negb (existsb (fun e => (ke_key e =? fst kv)%string) (g_errs g))) kvs) as F. cbn [total]. lia.
    - destruct (g_errs g); [injection Hs as <- <- <- <-; cbn; lia|]. destruct (redis_save ok r k v) as [r1 b] eqn:E. injection Hs as <- <- <- <-.
      pose proof (redis_batch_length ok r [(k, v)]) as B. unfold redis_save in E. rewrite E in B. cbn in *. lia.
    - injection Hs as <- <- <- <-. unfold redis_delete. destruct (ok (r_cmds r)); cbn [fst r_hash weight adds]; [|cbn; lia].
      unfold hdel. pose proof (filter_le (fun kv => negb (fst kv =? k)%string) (r_hash r)) as F. cbn [total]. lia.
    - destruct (register_key _ _ _ _). injection Hs as <- <- <- <-. cbn. lia.
    - injection Hs as <- <- <- <-. cbn. lia.
    - injection Hs as <- <- <- <-. cbn. lia.
    - injection Hs as <- <- <- <-. cbn. lia.
    - injection Hs as <- <- <- <-. cbn. lia.
    - injection Hs as <- <- <- <-. cbn. lia.
  Qed.

  Lemma cstep_work (w : cworld V) l w' es : no_calls l -> cstep ok ord w l = Some (w', es) -> work w' < work w.
  Proof.
    destruct l as [|t now]; [contradiction|]. intros _ H. apply cstep_step in H.
    destruct H as (th & i & rest & n & n' & r' & new & g' & E1 & E2 & E3 & E4 & -> & _).
    set (w' := CWorld _ _ _).
    assert (L : length (r_hash (c_redis w)) <= room w) by (unfold room; lia).
    destruct (istep_work _ _ _ _ _ _ _ _ _ _ _ E4 L) as [A B].
    assert (R : room w' <= room w).
    { unfold room, w'. cbn [c_redis c_threads]. pose proof (total_upd (fun th => total adds (t_prog th)) t
        (Thread (t_node th) (match i with IReturn _ => None | _ => t_call th end) (new ++ rest) g') _ _ E1) as U.
      cbn [t_prog] in U. rewrite E2, total_app in U. change (total adds (i :: rest)) with (adds i + total adds rest) in U. lia. }
    assert (W : work_at (room w) w' < work w).
    { unfold work, work_at, w'. cbn [c_threads]. pose proof (total_upd (fun th => total (weight (room w)) (t_prog th)) t
        (Thread (t_node th) (match i with IReturn _ => None | _ => t_call th end) (new ++ rest) g') _ _ E1) as U.
      cbn [t_prog] in U. rewrite E2, total_app in U. change (total (weight (room w)) (i :: rest)) with (weight (room w) i + total (weight (room w)) rest) in U. lia. }
    pose proof (work_mono _ _ w' R). unfold work at 1. lia.
  Qed.

  Lemma carried_work sched (w : cworld V) : Forall no_calls sched ->
    carried_out (cstep ok ord) w sched + work (fst (exec (cstep ok ord) w sched)) <= work w.
  Proof.
    intros HF. revert w. induction HF as [|l sched Hl HF IH]; intros w; cbn [carried_out exec]; [cbn; lia|].
    destruct (cstep ok ord w l) as [[w1 es]|] eqn:E; [|apply IH].
    specialize (IH w1). destruct (exec (cstep ok ord) w1 sched) as [w2 es2]. cbn [fst] in *.
    pose proof (cstep_work _ _ _ _ Hl E). lia.
  Qed.

  Lemma carried_none sched (w : cworld V) : carried_out (cstep ok ord) w sched = 0 -> exec (cstep ok ord) w sched = (w, []).
  Proof.
    induction sched as [|l sched IH]; cbn [carried_out exec]; [reflexivity|].
    destruct (cstep ok ord w l) as [[w1 es]|]; [discriminate|exact IH].
  Qed.
  Lemma carried_app s1 s2 (w : cworld V) : carried_out (cstep ok ord) w (s1 ++ s2) =
    carried_out (cstep ok ord) w s1 + carried_out (cstep ok ord) (fst (exec (cstep ok ord) w s1)) s2.
  Proof.
    revert w. induction s1 as [|l s1 IH]; intros w; cbn [app carried_out exec]; [reflexivity|].
    destruct (cstep ok ord w l) as [[w1 es]|]; [|apply IH]. rewrite IH. destruct (exec (cstep ok ord) w1 s1) as [w2 es2]. cbn [fst]. lia.
  Qed.

  Definition idle_all (w : cworld V) : Prop := forall t th, nth_error (c_threads w) t = Some th -> t_call th = None.
  Lemma idle_dec (w : cworld V) : idle_all w \/ exists t th, nth_error (c_threads w) t = Some th /\ t_call th <> None.
  Proof.
    unfold idle_all. induction (c_threads w) as [|th l IH].
    - left. intros [|t] th H; discriminate.
    - destruct (t_call th) eqn:E; [right; exists 0, th; split; [reflexivity|congruence]|].
      destruct IH as [IH|(t & th' & H1 & H2)]; [left|right; exists (S t), th'; auto].
      intros [|t] th' H; cbn in H; [injection H as <-; exact E|eapply IH; exact H].
  Qed.

  Lemma steps_length (w : cworld V) sched : length (c_threads (fst (exec (cstep ok ord) w sched))) = length (c_threads w).
  Proof.
    revert w. induction sched as [|l sched IH]; intros w; cbn [exec]; [reflexivity|].
    destruct (cstep ok ord w l) as [[w1 es]|] eqn:E; [|apply IH]. specialize (IH w1).
    destruct (exec (cstep ok ord) w1 sched) as [w2 es2]. cbn [fst] in *. rewrite IH.
    destruct l as [t j o|t now].
    - apply cstep_call in E. destruct E as (? & ? & _ & _ & _ & -> & _). apply upd_length.
    - apply cstep_step in E. destruct E as (? & ? & ? & ? & ? & ? & ? & ? & _ & _ & _ & _ & -> & _). apply upd_length.
  Qed.

  Definition segment {A} (f : nat -> A) (a b : nat) : list A := map f (seq a (b - a)).
  Lemma segment_app {A} (f : nat -> A) a b c : a <= b -> b <= c -> segment f a c = segment f a b ++ segment f b c.
  Proof.
    intros H1 H2. unfold segment. rewrite <- map_app. f_equal. replace (c - a) with ((b - a) + (c - b)) by lia. rewrite seq_app.
    replace (a + (b - a)) with b by lia. reflexivity.
  Qed.

  Lemma fair_done n f : fair_steps n f -> forall N (w : cworld V) a, work w <= N -> length (c_threads w) = n -> (exists hs, inv w hs) ->
    exists b, a <= b /\ idle_all (fst (exec (cstep ok ord) w (segment f a b))).
  Proof.
    intros [F1 F2]. induction N as [N IH] using lt_wf_ind. intros w a HN Hn [hs HI].
    destruct (idle_dec w) as [Hi|(t & th & Ht & Hc)].
    { exists a. split; [lia|]. unfold segment. rewrite Nat.sub_diag. exact Hi. }
    destruct (some_goes ok ord w hs HI t th Ht Hc) as [u Hu].
    assert (Lu : u < n).
    { destruct (Hu 0%Z) as [q Hq]. unfold cstep in Hq. destruct (nth_error (c_threads w) u) eqn:E; [|discriminate].
      rewrite <- Hn. apply nth_error_Some. congruence. }
    destruct (F2 u a Lu) as (m & now & Hm & Em).
    set (sg := segment f a (S m)).
    assert (Fs : forall b c, Forall no_calls (segment f b c)).
    { intros b c. unfold segment. apply Forall_forall. intros x Hx. apply in_map_iff in Hx. destruct Hx as (z & <- & _). apply F1. }
    assert (C : 0 < carried_out (cstep ok ord) w sg).
    { unfold sg. rewrite (segment_app f a m (S m)) by lia. rewrite carried_app.
      destruct (carried_out (cstep ok ord) w (segment f a m)) eqn:E; [|lia].
      rewrite (carried_none _ _ E). cbn [fst]. unfold segment. replace (S m - m) with 1 by lia. cbn [seq map carried_out]. rewrite Em.
      destruct (Hu now) as [[w1 es] Hq]. rewrite Hq. lia. }
    pose proof (carried_work sg w (Fs _ _)) as CW.
    destruct (IH (work (fst (exec (cstep ok ord) w sg))) ltac:(lia) (fst (exec (cstep ok ord) w sg)) (S m) ltac:(lia)) as (b & Hb & Hd).
    - rewrite steps_length. exact Hn.
    - apply inv_exec. eauto.
    - exists b. split; [lia|]. rewrite (segment_app f a (S m) b) by lia. rewrite exec_app. fold sg.
      destruct (exec (cstep ok ord) w sg) as [w1 e1]. cbn [fst] in *.
      destruct (exec (cstep ok ord) w1 (segment f (S m) b)). exact Hd.
  Qed.
End bounded.

(** ** Events and the state *)
Lemma calling_app {V} t (tr es : list (cevent V)) : calling t (tr ++ es) = fold_left (calling_step t) es (calling t tr).
Proof. apply fold_left_app. Qed.

Definition call_of {V} (w : cworld V) (t : nat) : option (nat * sop V) :=
  match nth_error (c_threads w) t with
  | Some th => match t_call th with Some o => Some (t_node th, o) | None => None end
  | None => None
  end.

Lemma calling_step_ok {V} ok ord (w : cworld V) l w' es tr : (exists hs, inv w hs) -> (forall t, calling t tr = call_of w t) ->
  cstep ok ord w l = Some (w', es) -> forall t, calling t (tr ++ es) = call_of w' t.
Proof.
  intros [hs HI] H Hs t. rewrite calling_app. destruct l as [u j o|u now].
  - apply cstep_call in Hs. destruct Hs as (th & n & E1 & E2 & E3 & -> & ->). cbn [fold_left calling_step].
    unfold call_of. cbn [c_threads]. rewrite nth_error_upd. destruct (Nat.eq_dec u t) as [<-|ne].
    + rewrite Nat.eqb_refl, E1. reflexivity.
    + apply Nat.eqb_neq in ne. rewrite ne. apply H.
  - apply cstep_step in Hs. destruct Hs as (th & i & rest & n & n' & r' & new & g' & E1 & E2 & E3 & E4 & -> & ->).
    unfold call_of at 1. cbn [c_threads]. rewrite nth_error_upd.
    pose proof (i_threads _ _ HI _ _ E1) as Ho. unfold thread_ok in Ho. destruct (t_call th) as [o|] eqn:Ec; [|destruct Ho; congruence].
    unfold returns. rewrite Ec. destruct (Nat.eq_dec u t) as [<-|ne].
    + rewrite E1. cbn [t_call t_node]. destruct i; cbn [fold_left calling_step]; rewrite ?Nat.eqb_refl; try reflexivity;
        rewrite H; unfold call_of; rewrite E1, Ec; reflexivity.
    + assert (X : fold_left (calling_step t) (match i with IReturn f => [EReturned u (t_node th) o (f (t_regs th))] | _ => [] end) (calling t tr) = calling t tr).
      { destruct i; try reflexivity. cbn. apply Nat.eqb_neq in ne. rewrite ne. reflexivity. }
      transitivity (calling t tr); [destruct i; exact X|apply H].
Qed.

Lemma calling_exec {V} ok ord (w : cworld V) tr sched : (exists hs, inv w hs) -> (forall t, calling t tr = call_of w t) ->
  forall t, calling t (tr ++ snd (exec (cstep ok ord) w sched)) = call_of (fst (exec (cstep ok ord) w sched)) t.
Proof.
  intros HI H.
  refine (proj2 (exec_inv (cstep ok ord) (fun w tr => (exists hs, inv w hs) /\ forall t, calling t tr = call_of w t) _ sched w tr (conj HI H))).
  intros s l s1 es tr' [[hs I1] I2] Hs. split; [eapply inv_step; eassumption|]. eapply calling_step_ok; [exists hs; exact I1|exact I2|exact Hs].
Qed.

Lemma calling_reach {V} ok ord h pols n sched t :
  calling t (snd (@conc_exec V ok ord h pols n sched)) = call_of (fst (conc_exec ok ord h pols n sched)) t.
Proof.
  unfold conc_exec. change (snd (exec (cstep ok ord) (cworld0 h pols n) sched)) with ([] ++ snd (exec (cstep ok ord) (@cworld0 V h pols n) sched)).
  apply calling_exec; [eexists; apply inv0|]. intros u. unfold call_of. cbn [c_threads cworld0].
  destruct (nth_error _ u) as [th|] eqn:E; [|reflexivity]. apply nth_error_In, repeat_spec in E. subst. reflexivity.
Qed.

(** ** The statements *)
Lemma conc_race_free {V} ok ord h pols n sched : ~ race (fst (@conc_exec V ok ord h pols n sched)).
Proof. destruct (@inv_reach V ok ord h pols n sched) as [hs HI]. eapply no_race; exact HI. Qed.

Lemma conc_some_goes {V} ok ord h pols n sched t c : let w := fst (@conc_exec V ok ord h pols n sched) in
  calling t (snd (conc_exec ok ord h pols n sched)) = Some c ->
  exists u, (u < n)%nat /\ forall now, exists q, cstep ok ord w (CStep u now) = Some q.
Proof.
  intros w H. rewrite calling_reach in H. fold w in H. unfold call_of in H.
  destruct (nth_error (c_threads w) t) as [th|] eqn:E; [|discriminate]. destruct (t_call th) eqn:Ec; [|discriminate].
  destruct (@inv_reach V ok ord h pols n sched) as [hs HI]. fold w in HI.
  destruct (some_goes ok ord w hs HI t th E) as [u Hu]; [congruence|]. exists u. split; [|exact Hu].
  destruct (Hu 0%Z) as [q Hq]. unfold cstep in Hq. destruct (nth_error (c_threads w) u) eqn:Eu; [|discriminate].
  assert (L : length (c_threads w) = n) by (unfold w, conc_exec; rewrite steps_length; apply repeat_length).
  rewrite <- L. apply nth_error_Some. congruence.
Qed.

Lemma conc_bounded {V} ok ord h pols n sched : any_order ord -> exists N, forall sched', Forall no_calls sched' ->
  (carried_out (cstep ok ord) (fst (@conc_exec V ok ord h pols n sched)) sched' <= N)%nat.
Proof. intros Ho. exists (work (fst (@conc_exec V ok ord h pols n sched))). intros sched' HF. pose proof (carried_work ok ord Ho sched' (fst (@conc_exec V ok ord h pols n sched)) HF). lia. Qed.

Lemma prefix_segment {A} m (f : nat -> A) : prefix m f = segment f 0 m.
Proof. unfold prefix, segment. rewrite Nat.sub_0_r. reflexivity. Qed.

Lemma conc_all_return {V} ok ord h pols n sched f : any_order ord -> fair_steps n f ->
  exists m, forall t, calling t (snd (@conc_exec V ok ord h pols n (sched ++ prefix m f))) = None.
Proof.
  intros Ho Hf. destruct (fair_done ok ord Ho n f Hf _ (fst (@conc_exec V ok ord h pols n sched)) 0 (le_n _)) as (b & _ & Hb).
  - unfold conc_exec. rewrite steps_length. apply repeat_length.
  - apply inv_reach.
  - exists b. intros t. rewrite calling_reach. rewrite prefix_segment. unfold conc_exec in *. rewrite exec_app.
    destruct (exec (cstep ok ord) (cworld0 h pols n) sched) as [w1 e1]. cbn [fst] in Hb.
    destruct (exec (cstep ok ord) w1 (segment f 0 b)) as [w2 e2]. cbn [fst] in *.
    unfold call_of. destruct (nth_error (c_threads w2) t) as [th|] eqn:E; [|reflexivity]. rewrite (Hb _ _ E). reflexivity.
Qed.
