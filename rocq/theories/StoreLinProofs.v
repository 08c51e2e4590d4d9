(** Every single-key call takes effect at one instant. *)
From Verif Require Import Common Bytes Threads StoreModel StoreConcModel StoreConcSpec StoreConcProofs StoreConcFresh StoreLinSpec.
Local Open Scope list_scope.

Section lin.
  Context {V : Type} (ok : nat -> bool) (ord : nat -> list (string * string) -> list (string * string)).
  Notation per := (redis_persister ok ord).
  Notation clk0 := (fun _ : nat => (0, 0)%Z).

  Definition is_update (o : sop V) (k v : string) : Prop := o = OUpdate k v \/ o = OUpdateNoPersist k v.
  Definition ret_update : instr V := IReturn (fun g => RKVErr (hd_error (g_errs g))).
  Definition tail (o : sop V) : list (instr V) :=
    match o with OUpdate k v => [ISave k v; ret_update] | _ => [ret_update] end.
  (** The parts of a read: what is read, and what it returns. *)
  Definition reads (o : sop V) (i : instr V) (f : regs V -> sres V) : Prop :=
    match o with
    | OGet k => i = IRead k /\ f = (fun g => RVal (one (g_vals g)))
    | OGetString k => i = IReadStr k /\ f = (fun g => RStr (one (g_strs g)))
    | OMustGet k => i = IRead k /\ f = (fun g => match one (g_vals g) with Some v => RMust v | None => RPanic end)
    | OMustGetString k => i = IReadStr k /\ f = (fun g => match one (g_strs g) with Some v => RMustStr v | None => RPanic end)
    | _ => False
    end.

  Inductive shape (procs : smap (proc V)) (j : nat) : option (sop V) -> list (instr V) -> regs V -> stage V -> Prop :=
  | s_idle g : shape procs j None [] g Waiting
  | s_u0 o k v : is_update o k v -> k <> ""%string -> shape procs j (Some o) (IRLock ProcLock :: ILookup true k v :: tail o) regs0 (Called j o)
  | s_u1 o k v : is_update o k v -> k <> ""%string -> shape procs j (Some o) (ILookup true k v :: tail o) regs0 (Called j o)
  | s_u2 o k v : is_update o k v -> k <> ""%string -> shape procs j (Some o) (IRUnlock ProcLock :: ICheck true (procs k) k v :: tail o) regs0 (Called j o)
  | s_u3 o k v : is_update o k v -> k <> ""%string -> shape procs j (Some o) (ICheck true (procs k) k v :: tail o) regs0 (Called j o)
  | s_u4 o k v p : is_update o k v -> k <> ""%string -> lookup_value procs k v = inr p ->
      shape procs j (Some o) (IAnnounce KvLock :: IAcquire KvLock :: IWrite p k v :: IUnlock KvLock :: tail o) regs0 (Called j o)
  | s_u5 o k v p : is_update o k v -> k <> ""%string -> lookup_value procs k v = inr p ->
      shape procs j (Some o) (IAcquire KvLock :: IWrite p k v :: IUnlock KvLock :: tail o) regs0 (Called j o)
  | s_u6 o k v p : is_update o k v -> k <> ""%string -> lookup_value procs k v = inr p ->
      shape procs j (Some o) (IWrite p k v :: IUnlock KvLock :: tail o) regs0 (Called j o)
  | s_u7 o k v : is_update o k v -> shape procs j (Some o) (IUnlock KvLock :: tail o) regs0 (Effected j o (RKVErr None))
  | s_u8 k v : shape procs j (Some (OUpdate k v)) [ISave k v; ret_update] regs0 (Effected j (OUpdate k v) (RKVErr None))
  | s_bad k v e : k <> ""%string -> lookup_value procs k v = inl e ->
      shape procs j (Some (OUpdate k v)) [ISave k v; ret_update] (add_err true e regs0) (Called j (OUpdate k v))
  | s_empty v : shape procs j (Some (OUpdate ""%string v)) [ISave ""%string v; ret_update] regs0 (Called j (OUpdate ""%string v))
  | s_r0 k : shape procs j (Some (OReset k)) (p_call PolNoop (OReset k)) regs0 (Called j (OReset k))
  | s_r1 k : shape procs j (Some (OReset k)) [IAcquire KvLock; IClear k; IDelete k; IUnlock KvLock; IReturn (fun _ => RDone)] regs0 (Called j (OReset k))
  | s_r2 k : shape procs j (Some (OReset k)) [IClear k; IDelete k; IUnlock KvLock; IReturn (fun _ => RDone)] regs0 (Called j (OReset k))
  | s_r3 k : shape procs j (Some (OReset k)) [IDelete k; IUnlock KvLock; IReturn (fun _ => RDone)] regs0 (Called j (OReset k))
  | s_r4 k : shape procs j (Some (OReset k)) [IUnlock KvLock; IReturn (fun _ => RDone)] regs0 (Effected j (OReset k) RDone)
  | s_g0 o i f : reads o i f -> shape procs j (Some o) [IRLock KvLock; i; IRUnlock KvLock; IReturn f] regs0 (Called j o)
  | s_g1 o i f : reads o i f -> shape procs j (Some o) [i; IRUnlock KvLock; IReturn f] regs0 (Called j o)
  | s_g2 o f g : shape procs j (Some o) [IRUnlock KvLock; IReturn f] g (Effected j o (f g))
  | s_end o f g : shape procs j (Some o) [IReturn f] g (Effected j o (f g)).

  Definition deletes (i : instr V) : Prop := match i with IDelete _ => True | _ => False end.
  Definition starts_delete (p : list (instr V)) : Prop := exists k rest, p = IDelete k :: rest.
  (** The call [o] on the store [s] over Redis [r], alone. *)
  Definition alone (s : store V) (r : redis) (o : sop V) (s' : store V) (r' : redis) (res : sres V) : Prop :=
    exists m, sop_step per PolNoop clk0 (s, World r None 0) o = ((s', World r' None m), res).

  Inductive effect (j : nat) (o : option (sop V)) (n n' : node V) (r r' : redis) (i : instr V) (p' : list (instr V)) (g g' : regs V) (st : stage V) : Prop :=
  | e_quiet : n_maps n' = n_maps n -> r' = r -> ~ deletes i -> ~ starts_delete p' -> (forall f, i <> IReturn f) ->
      shape (s_procs (n_maps n)) j o p' g' st -> effect j o n n' r r' i p' g g' st
  | e_clear k rest : i = IClear k -> n_maps n' = clear_key (n_maps n) k -> r' = r -> p' = IDelete k :: rest ->
      shape (s_procs (n_maps n)) j o p' g' st -> effect j o n n' r r' i p' g g' st
  | e_memory o' res : o = Some o' -> st = Called j o' -> (exists x b, In (x, b) (accesses i) /\ x <> MProcs /\ x <> MLast) -> ~ starts_delete p' ->
      s_procs (n_maps n') = s_procs (n_maps n) -> (forall f, i <> IReturn f) ->
      alone (n_maps n) r o' (n_maps n') r' res -> shape (s_procs (n_maps n)) j o p' g' (Effected j o' res) -> effect j o n n' r r' i p' g g' st
  | e_delete o' res k : o = Some o' -> st = Called j o' -> i = IDelete k -> n_maps n' = n_maps n -> ~ starts_delete p' ->
      (forall s, n_maps n = clear_key s k -> alone s r o' (n_maps n') r' res) ->
      shape (s_procs (n_maps n)) j o p' g' (Effected j o' res) -> effect j o n n' r r' i p' g g' st
  | e_free o' res : o = Some o' -> st = Called j o' -> n_maps n' = n_maps n -> ~ deletes i -> ~ starts_delete p' -> (forall f, i <> IReturn f) ->
      (forall s, s_procs s = s_procs (n_maps n) -> alone s r o' s r' res) ->
      shape (s_procs (n_maps n)) j o p' g' (Effected j o' res) -> effect j o n n' r r' i p' g g' st
  | e_return o' f : o = Some o' -> i = IReturn f -> st = Effected j o' (f g) -> n' = n -> r' = r -> p' = [] -> effect j o n n' r r' i p' g g' st.

  Lemma lookup_fun (procs : smap (proc V)) k v : lookup_value (fun _ => procs k) k v = lookup_value procs k v.
  Proof. reflexivity. Qed.

  Lemma not_starts_tail o : ~ starts_delete (tail o).
  Proof. intros (k & rest & H). destruct o; discriminate. Qed.

  Lemma alone_update_bad s r k v e : k <> ""%string -> lookup_value (s_procs s) k v = inl e ->
    alone s r (OUpdateNoPersist k v) s r (RKVErr (Some e)) /\
    alone s r (OUpdate k v) s (fst (redis_save ok r k v)) (RKVErr (if snd (redis_save ok r k v) then Some e else None)).
  Proof.
    intros Hk Hl. apply String.eqb_neq in Hk. split; exists 0%nat; cbn [sop_step fst snd].
    - unfold update_no_persist. rewrite Hk, Hl. reflexivity.
    - unfold update, update_no_persist. rewrite Hk, Hl. cbn [ps_save redis_persister w_p]. destruct (redis_save ok r k v). reflexivity.
  Qed.

  Lemma shape_step t now n r g i rest n' r' new g' j o st :
    shape (s_procs (n_maps n)) j o (i :: rest) g st -> istep ok ord t now n r g i = Some (n', r', new, g') ->
    effect j o n n' r r' i (new ++ rest) g g' st.
  Proof.
    intros H Hs. inversion H; subst; clear H; cbn [istep] in Hs;
      try match goal with X : is_update _ _ _ |- _ => rename X into Hu end;
      try match goal with X : _ <> ""%string |- _ => rename X into Hk end;
      try match goal with X : lookup_value _ _ _ = _ |- _ => rename X into Hl end;
      try match goal with X : reads _ _ _ |- _ => rename X into Hr end.
    - (* u0 *) destruct (rlock _ _); [|discriminate]. injection Hs as <- <- <- <-. apply e_quiet; auto; try discriminate; try (intros (? & ? & X); discriminate). apply s_u1; assumption.
    - injection Hs as <- <- <- <-. apply e_quiet; auto; try discriminate; try (intros (? & ? & X); discriminate). apply s_u2; assumption.
    - injection Hs as <- <- <- <-. apply e_quiet; auto; try discriminate; try (intros (? & ? & X); discriminate). apply s_u3; assumption.
    - (* check *) rewrite lookup_fun in Hs. destruct (lookup_value (s_procs (n_maps n)) k v) as [e|p] eqn:L; injection Hs as <- <- <- <-.
      + destruct Hu as [-> | ->].
        * apply e_quiet; auto; try discriminate; try (intros (? & ? & X); discriminate). apply s_bad; assumption.
        * eapply (e_free _ _ _ _ _ _ _ _ _ _ _ (OUpdateNoPersist k v) (RKVErr (Some e))); auto; try discriminate; try (intros (? & ? & X); discriminate).
          -- intros s Hp. rewrite <- Hp in L. apply (alone_update_bad s r k v e Hk L).
          -- exact (s_end _ j (OUpdateNoPersist k v) (fun g => RKVErr (hd_error (g_errs g))) (add_err true e regs0)).
      + apply e_quiet; auto; try discriminate; try (intros (? & ? & X); discriminate). cbn [p_lock app]. apply s_u4; assumption.
    - destruct (announce _ _); [|discriminate]. injection Hs as <- <- <- <-. apply e_quiet; auto; try discriminate; try (intros (? & ? & X); discriminate). apply s_u5; assumption.
    - destruct (acquire _ _); [|discriminate]. injection Hs as <- <- <- <-. apply e_quiet; auto; try discriminate; try (intros (? & ? & X); discriminate). apply s_u6; assumption.
    - (* write *) injection Hs as <- <- <- <-. eapply (e_memory _ _ _ _ _ _ _ _ _ _ _ o0 (RKVErr None)); auto; try discriminate; try (intros (? & ? & X); discriminate).
      + exists MKv, true. cbn. split; [auto|split; discriminate].
      + exists 0%nat. apply String.eqb_neq in Hk. destruct Hu as [-> | ->]; cbn [sop_step fst snd]; unfold update, update_no_persist; rewrite Hk, Hl; reflexivity.
      + exact (s_u7 _ j o0 k v Hu).
    - injection Hs as <- <- <- <-. apply e_quiet; auto; try discriminate.
      + apply not_starts_tail.
      + destruct Hu as [-> | ->]; [apply s_u8|]. exact (s_end _ j (OUpdateNoPersist k v) (fun g => RKVErr (hd_error (g_errs g))) regs0).
    - cbn [regs0 g_errs] in Hs. injection Hs as <- <- <- <-. apply e_quiet; auto; try discriminate; try (intros (? & ? & X); discriminate).
      exact (s_end _ j (OUpdate k v) (fun g => RKVErr (hd_error (g_errs g))) regs0).
    - (* bad *) cbn [add_err regs0 g_errs app] in Hs. destruct (redis_save ok r k v) as [r1 done] eqn:Er. injection Hs as <- <- <- <-.
      eapply (e_free _ _ _ _ _ _ _ _ _ _ _ (OUpdate k v) (RKVErr (if done then Some e else None))); auto; try discriminate; try (intros (? & ? & X); discriminate).
      + intros s Hp. rewrite <- Hp in Hl. pose proof (proj2 (alone_update_bad s r k v e Hk Hl)) as X. rewrite Er in X. exact X.
      + destruct done; [exact (s_end _ j (OUpdate k v) (fun g => RKVErr (hd_error (g_errs g))) (add_err true e regs0))|].
        exact (s_end _ j (OUpdate k v) (fun g => RKVErr (hd_error (g_errs g))) (Regs [] [] [] None)).
    - cbn [regs0 g_errs] in Hs. injection Hs as <- <- <- <-.
      eapply (e_free _ _ _ _ _ _ _ _ _ _ _ (OUpdate ""%string v) (RKVErr None)); auto; try discriminate; try (intros (? & ? & X); discriminate).
      + intros s _. exists 0%nat. reflexivity.
      + exact (s_end _ j (OUpdate ""%string v) (fun g => RKVErr (hd_error (g_errs g))) regs0).
    - cbn [istep] in Hs. destruct (announce _ _); [|discriminate]. injection Hs as <- <- <- <-. apply e_quiet; auto; try discriminate; try (intros (? & ? & X); discriminate). apply s_r1.
    - destruct (acquire _ _); [|discriminate]. injection Hs as <- <- <- <-. apply e_quiet; auto; try discriminate; try (intros (? & ? & X); discriminate). apply s_r2.
    - injection Hs as <- <- <- <-. eapply e_clear; try reflexivity. apply s_r3.
    - injection Hs as <- <- <- <-. eapply (e_delete _ _ _ _ _ _ _ _ _ _ _ (OReset k) RDone k); auto; try (intros (? & ? & X); discriminate).
      + intros s Hp. rewrite Hp. exists 0%nat. reflexivity.
      + apply s_r4.
    - injection Hs as <- <- <- <-. apply e_quiet; auto; try discriminate; try (intros (? & ? & X); discriminate).
      exact (s_end _ j (OReset k) (fun _ => RDone) regs0).
    - destruct (rlock _ _); [|discriminate]. injection Hs as <- <- <- <-. apply e_quiet; auto; try discriminate.
      + intros (? & ? & X). cbn in X. injection X as -> _. destruct o0; cbn in Hr; try contradiction; destruct Hr; discriminate.
      + apply s_g1; assumption.
    - (* read *)
      assert (Hi : n' = n /\ r' = r /\ new = [] /\ alone (n_maps n) r o0 (n_maps n) r (f g')).
      { destruct o0; cbn in Hr; try contradiction; destruct Hr as [-> ->]; cbn [istep] in Hs; injection Hs as <- <- <- <-; (split; [reflexivity|]; split; [reflexivity|]; split; [reflexivity|]); eexists; cbn [sop_step];
        unfold must_get_value, must_get_value_string, get_value, get_value_string, do_load; cbn [wants_load w_last w_tick w_p fst snd];
        destruct (read_value (n_maps n) key) eqn:R1, (read_string (n_maps n) key) eqn:R2; cbn; rewrite ?R1, ?R2; reflexivity. }
      destruct Hi as (-> & -> & -> & Ha). eapply (e_memory _ _ _ _ _ _ _ _ _ _ _ o0 (f g')); auto; try (intros (? & ? & X); discriminate).
      + destruct o0; cbn in Hr; try contradiction; destruct Hr as [-> _]; cbn; eexists; eexists; (split; [left; reflexivity|split; discriminate]).
      + intros f0 E. subst i. destruct o0; cbn in Hr; try contradiction; destruct Hr; discriminate.
      + apply s_g2.
    - injection Hs as <- <- <- <-. apply e_quiet; auto; try discriminate; try (intros (? & ? & X); discriminate). apply s_end.
    - injection Hs as <- <- <- <-. eapply e_return; reflexivity.
  Qed.

  (** ** Exclusion *)
  Definition touches (i : instr V) : Prop := (exists x b, In (x, b) (accesses i) /\ x <> MProcs /\ x <> MLast) \/ deletes i.

  Lemma touches_held h (i : instr V) h' : itype h i = Some h' -> touches i -> hk h = Wr \/ hk h = Rd.
  Proof.
    intros Ht [(x & b & Hin & n1 & n2)|Hd].
    - pose proof (accesses_held _ _ _ _ _ Ht Hin) as H. destruct x; try congruence; destruct b; auto.
    - destruct i; try contradiction. cbn in Ht. destruct h as [hp0 [] hm0]; try discriminate. auto.
  Qed.

  Lemma excl (w : cworld V) hs t u th thu i rest k restu : inv w hs -> t <> u ->
    nth_error (c_threads w) t = Some th -> nth_error (c_threads w) u = Some thu -> t_node thu = t_node th ->
    t_prog th = i :: rest -> touches i -> t_prog thu = IDelete k :: restu -> False.
  Proof.
    intros [HT HN HL _] ne E1 F1 Ej E2 Hi F2.
    assert (A : forall t th i rest, nth_error (c_threads w) t = Some th -> t_prog th = i :: rest -> touches i ->
      (exists h', itype (hs t) i = Some h') /\ exists o, t_call th = Some o).
    { clear - HT. intros t th i rest E1 E2 Hi. pose proof (HT _ _ E1) as H. unfold thread_ok in H. destruct (t_call th); [|destruct H; congruence].
      rewrite E2 in H. apply typed_cons in H. destruct H as [(f & -> & _)|(h' & Hh & _)]; [|eauto].
      destruct Hi as [(x & b & [] & _)|[]]. }
    destruct (A _ _ _ _ E1 E2 Hi) as [[h' Ht] [o Ho]]. destruct (A _ _ _ _ F1 F2 (or_intror I)) as [[hu Hu] _].
    destruct (nth_error (c_nodes w) (t_node th)) as [n|] eqn:En.
    2:{ apply nth_error_None in En. specialize (HN _ _ _ E1 Ho). lia. }
    destruct (HL (t_node th) n KvLock En) as [L1 L2 L3].
    assert (M1 : mode_of w hs (t_node th) KvLock t = hk (hs t)) by (unfold mode_of; rewrite E1, Nat.eqb_refl; reflexivity).
    assert (M2 : mode_of w hs (t_node th) KvLock u = hk (hs u)) by (unfold mode_of; rewrite F1, Ej, Nat.eqb_refl; reflexivity).
    assert (Wu : hk (hs u) = Wr) by (cbn in Hu; destruct (hs u) as [hp0 [] hm0]; try discriminate; reflexivity).
    rewrite <- M2 in Wu. apply (L2 u true) in Wu.
    destruct (touches_held _ _ _ Ht Hi) as [X|X]; rewrite <- M1 in X.
    - apply (L2 t true) in X. congruence.
    - apply L1 in X. rewrite (L3 _ Wu) in X. contradiction.
  Qed.

  (** ** Histories *)
  Definition by_thread (t : nat) (x : obs V) : Prop :=
    match x with Seen (ECalled u _ _) | Seen (EReturned u _ _ _) | Takes u _ _ _ => u = t end.
  Lemma turns_other t u s tr s1 tr' : u <> t -> Forall (by_thread u) tr' -> turns t s tr s1 -> turns t s (tr ++ tr') s1.
  Proof.
    intros ne. revert tr. induction tr' as [|x tr' IH]; intros tr HF H; [rewrite app_nil_r; exact H|].
    inversion HF as [|? ? Hx HF']; subst. replace (tr ++ x :: tr') with ((tr ++ [x]) ++ tr') by (rewrite <- app_assoc; reflexivity).
    apply IH; [exact HF'|]. eapply turns_snoc; [exact H|]. destruct x as [[v j o|v j o r]|v j o r]; cbn in Hx; subst v; constructor; exact ne.
  Qed.
  Lemma seen_app a b : @seen V (a ++ b) = seen a ++ seen b.
  Proof. apply flat_map_app. Qed.
  Lemma effects_app a b : @effects V (a ++ b) = effects a ++ effects b.
  Proof. apply flat_map_app. Qed.

  (** ** The invariant *)
  Definition stage_ok (w : cworld V) (tr : list (obs V)) (t : nat) (th : thread V) : Prop :=
    exists st, turns t Waiting tr st /\
      ((t_call th = None /\ t_prog th = [] /\ st = Waiting) \/
       exists n, nth_error (c_nodes w) (t_node th) = Some n /\
         shape (s_procs (n_maps n)) (t_node th) (t_call th) (t_prog th) (t_regs th) st).
  Definition node_ok (w : cworld V) (j : nat) (n : node V) (s : store V) : Prop :=
    s_procs s = s_procs (n_maps n) /\
    (forall t th k rest, nth_error (c_threads w) t = Some th -> t_node th = j -> t_prog th = IDelete k :: rest -> n_maps n = clear_key s k) /\
    ((forall t th, nth_error (c_threads w) t = Some th -> t_node th = j -> ~ starts_delete (t_prog th)) -> n_maps n = s).

  Variable pols : list policy.
  Variable x0 : list (store V) * redis.
  Record lin (w : cworld V) (tr : list (obs V)) (x : list (store V) * redis) : Prop := {
    l_inv : exists hs, inv w hs;
    l_pols : map n_pol (c_nodes w) = pols;
    l_seq : one_by_one ok ord x0 (effects tr) x;
    l_redis : snd x = c_redis w;
    l_len : length (fst x) = length (c_nodes w);
    l_node : forall j n s, nth_error (c_nodes w) j = Some n -> nth_error (fst x) j = Some s -> node_ok w j n s;
    l_stage : forall t th, nth_error (c_threads w) t = Some th -> stage_ok w tr t th;
    l_none : forall t, nth_error (c_threads w) t = None -> turns t Waiting tr Waiting }.

  Lemma stages_keep w t j n n' th th' r' tr tr' :
    (forall u thu, nth_error (c_threads w) u = Some thu -> stage_ok w tr u thu) ->
    nth_error (c_threads w) t = Some th -> nth_error (c_nodes w) j = Some n -> s_procs (n_maps n') = s_procs (n_maps n) ->
    Forall (by_thread t) tr' ->
    let w' := CWorld r' (upd j n' (c_nodes w)) (upd t th' (c_threads w)) in
    stage_ok w' (tr ++ tr') t th' ->
    forall u thu, nth_error (c_threads w') u = Some thu -> stage_ok w' (tr ++ tr') u thu.
  Proof.
    intros H E1 E2 Hp HF w' Ht u thu Hu. unfold w' in Hu. cbn [c_threads] in Hu. rewrite nth_error_upd in Hu.
    destruct (Nat.eq_dec t u) as [<-|ne].
    - rewrite E1 in Hu. injection Hu as <-. exact Ht.
    - destruct (H _ _ Hu) as (st & Htr & Hst). exists st. split; [eapply turns_other; eassumption|].
      destruct Hst as [X|(m & Em & Hs)]; [left; exact X|right]. unfold w'. cbn [c_nodes]. rewrite nth_error_upd.
      destruct (Nat.eq_dec j (t_node thu)) as [->|nj].
      + rewrite E2. exists n'. split; [reflexivity|]. rewrite Hp. rewrite E2 in Em. injection Em as <-. exact Hs.
      + exists m. split; assumption.
  Qed.

  Lemma none_keep (w : cworld V) t th th' tr tr' :
    (forall u, nth_error (c_threads w) u = None -> turns u Waiting tr Waiting) -> nth_error (c_threads w) t = Some th -> Forall (by_thread t) tr' ->
    forall u, nth_error (upd t th' (c_threads w)) u = None -> turns u Waiting (tr ++ tr') Waiting.
  Proof.
    intros H E HF u Hu. rewrite nth_error_upd in Hu. destruct (Nat.eq_dec t u) as [<-|ne]; [rewrite E in Hu; discriminate|].
    eapply turns_other; [|exact HF|apply H; exact Hu]. congruence.
  Qed.

  Lemma upd_self {A} i (y : A) l : nth_error l i = Some y -> upd i y l = l.
  Proof. revert i. induction l as [|z l IH]; intros [|i] H; cbn in *; try discriminate; [congruence|]. rewrite IH; auto. Qed.

  (** A call starts. *)
  Lemma lin_call w tr x t j o w' es : lin w tr x -> single_call pols (CCall t j o) -> cstep ok ord w (CCall t j o) = Some (w', es) ->
    exists tr' x', seen tr' = es /\ lin w' (tr ++ tr') x'.
  Proof.
    intros [HI HP HS HR HL HN HG HO] Hl Hs. pose proof Hs as Hs0. apply cstep_call in Hs. destruct Hs as (th & n & E1 & E2 & E3 & -> & ->).
    destruct HI as [hs HI]. pose proof (inv_step ok ord _ _ _ _ _ HI Hs0) as HI'.
    assert (Hpol : nth_error pols j = Some (n_pol n)) by (rewrite <- HP, nth_error_map, E2; reflexivity).
    assert (Hw : CWorld (c_redis w) (c_nodes w) (upd t (Thread j (Some o) (p_call (n_pol n) o) regs0) (c_threads w)) =
      CWorld (c_redis w) (upd j n (c_nodes w)) (upd t (Thread j (Some o) (p_call (n_pol n) o) regs0) (c_threads w))) by (rewrite (upd_self j n); auto).
    destruct (HG _ _ E1) as (st & Htr & Hst).
    assert (Hst' : st = Waiting).
    { destruct Hst as [(_ & _ & X)|(m & _ & X)]; [exact X|]. rewrite E3 in X. inversion X. reflexivity. }
    subst st. clear Hst.
    assert (Nodes : (forall k rest, p_call (n_pol n) o <> IDelete k :: rest) -> forall j' n' s, nth_error (c_nodes w) j' = Some n' -> nth_error (fst x) j' = Some s ->
      node_ok (CWorld (c_redis w) (c_nodes w) (upd t (Thread j (Some o) (p_call (n_pol n) o) regs0) (c_threads w))) j' n' s).
    { intros Hd j' n' s Hn Hx. destruct (HN _ _ _ Hn Hx) as (A & B & C). split; [exact A|]. split.
      - intros u thu k rest Hu Hj Hp. cbn [c_threads] in Hu. rewrite nth_error_upd in Hu. destruct (Nat.eq_dec t u) as [<-|ne].
        + rewrite E1 in Hu. injection Hu as <-. cbn in Hp. exfalso. eapply Hd. exact Hp.
        + eapply B; eassumption.
      - intros H. apply C. intros u thu Hu Hj. destruct (Nat.eq_dec t u) as [<-|ne].
        + rewrite E1 in Hu. injection Hu as <-. destruct (HG _ _ E1) as (st & _ & [(_ & X & _)|(m & _ & X)]).
          * rewrite X. intros (? & ? & ?). discriminate.
          * rewrite E3 in X. inversion X. intros (? & ? & ?). discriminate.
        + eapply (H u thu); [|exact Hj]. cbn [c_threads]. rewrite nth_error_upd. destruct (Nat.eq_dec t u); [congruence|exact Hu]. }
    assert (Plain : (forall k rest, p_call (n_pol n) o <> IDelete k :: rest) ->
      shape (s_procs (n_maps n)) j (Some o) (p_call (n_pol n) o) regs0 (Called j o) ->
      exists tr' x', seen tr' = [ECalled t j o] /\
        lin (CWorld (c_redis w) (c_nodes w) (upd t (Thread j (Some o) (p_call (n_pol n) o) regs0) (c_threads w))) (tr ++ tr') x').
    { intros Hd Hsh. exists [Seen (ECalled t j o)], x. split; [reflexivity|]. constructor; auto.
      - rewrite effects_app. cbn. rewrite app_nil_r. exact HS.
      - rewrite Hw. apply (stages_keep w t j n n th); auto; [repeat constructor|].
        exists (Called j o). split; [eapply turns_snoc; [exact Htr|constructor]|]. right. exists n. cbn [c_nodes t_node t_call t_prog t_regs].
        split; [eapply nth_error_upd_same; exact E2|exact Hsh].
      - cbn [c_threads]. eapply none_keep; eauto. repeat constructor. }
    cbn [single_call] in Hl. destruct o; try contradiction.
    - (* Update *) apply Plain; cbn [p_call]; unfold p_update; destruct (key =? "")%string eqn:Ek.
      + discriminate.
      + discriminate.
      + apply String.eqb_eq in Ek. subst key. apply s_empty.
      + apply String.eqb_neq in Ek. exact (s_u0 _ j (OUpdate key value) key value (or_introl eq_refl) Ek).
    - (* UpdateNoPersist *)
      destruct (key =? "")%string eqn:Ek.
      + apply String.eqb_eq in Ek. subst key. set (o := OUpdateNoPersist ""%string value) in *.
        exists [Seen (ECalled t j o); Takes t j o (RKVErr None)], x. split; [reflexivity|].
        constructor; auto.
        * rewrite effects_app. cbn. eapply obo_snoc; [exact HS|].
          destruct (nth_error (fst x) j) as [s|] eqn:Ex.
          2:{ apply nth_error_None in Ex. rewrite HL in Ex. apply nth_error_None in Ex. congruence. }
          exists s. eexists. split; [exact Ex|]. split; [reflexivity|]. cbn. rewrite (upd_self j s) by exact Ex. destruct x; reflexivity.
        * apply Nodes. discriminate.
        * rewrite Hw. apply (stages_keep w t j n n th); auto; [repeat constructor|].
          exists (Effected j o (RKVErr None)). split.
          -- replace (tr ++ [Seen (ECalled t j o); Takes t j o (RKVErr None)]) with ((tr ++ [Seen (ECalled t j o)]) ++ [Takes t j o (RKVErr None)]) by (rewrite <- app_assoc; reflexivity).
             eapply turns_snoc; [eapply turns_snoc; [exact Htr|constructor]|constructor].
          -- right. exists n. cbn [c_nodes t_node t_call t_prog t_regs]. split; [eapply nth_error_upd_same; exact E2|].
             exact (s_end _ j o (fun g => RKVErr (hd_error (g_errs g))) regs0).
        * cbn [c_threads]. eapply none_keep; eauto. repeat constructor.
      + apply Plain; cbn [p_call]; unfold p_update; rewrite Ek; [discriminate|].
        apply String.eqb_neq in Ek. exact (s_u0 _ j (OUpdateNoPersist key value) key value (or_intror eq_refl) Ek).
    - apply Plain; [discriminate|]. apply s_r0.
    - rewrite Hl in Hpol. injection Hpol as Hpol. rewrite <- Hpol. rewrite <- Hpol in Plain. apply Plain; [discriminate|]. apply s_g0. cbn. auto.
    - rewrite Hl in Hpol. injection Hpol as Hpol. rewrite <- Hpol. rewrite <- Hpol in Plain. apply Plain; [discriminate|]. apply s_g0. cbn. auto.
    - rewrite Hl in Hpol. injection Hpol as Hpol. rewrite <- Hpol. rewrite <- Hpol in Plain. apply Plain; [discriminate|]. apply s_g0. cbn. auto.
    - rewrite Hl in Hpol. injection Hpol as Hpol. rewrite <- Hpol. rewrite <- Hpol in Plain. apply Plain; [discriminate|]. apply s_g0. cbn. auto.
  Qed.

  Lemma nodes_keep w t th th' n' (x : list (store V) * redis) s' r' j :
    (forall j n s, nth_error (c_nodes w) j = Some n -> nth_error (fst x) j = Some s -> node_ok w j n s) ->
    nth_error (c_threads w) t = Some th -> t_node th = j -> t_node th' = j ->
    let w' := CWorld r' (upd j n' (c_nodes w)) (upd t th' (c_threads w)) in
    node_ok w' j n' s' ->
    forall j1 n1 s1, nth_error (c_nodes w') j1 = Some n1 -> nth_error (upd j s' (fst x)) j1 = Some s1 -> node_ok w' j1 n1 s1.
  Proof.
    intros H E1 Ej Ej' w' Hok j1 n1 s1 Hn Hs. unfold w' in Hn. cbn [c_nodes] in Hn. rewrite nth_error_upd in Hn. rewrite nth_error_upd in Hs.
    destruct (Nat.eq_dec j j1) as [<-|ne].
    - destruct (nth_error (c_nodes w) j); [|discriminate]. destruct (nth_error (fst x) j); [|discriminate]. injection Hn as <-. injection Hs as <-. exact Hok.
    - destruct (H _ _ _ Hn Hs) as (A & B & C). split; [exact A|]. split.
      + intros u thu k rest Hu Hj Hp. unfold w' in Hu. cbn [c_threads] in Hu. rewrite nth_error_upd in Hu. destruct (Nat.eq_dec t u) as [<-|nu].
        * rewrite E1 in Hu. injection Hu as <-. congruence.
        * eapply B; eassumption.
      + intros Hno. apply C. intros u thu Hu Hj. destruct (Nat.eq_dec t u) as [<-|nu].
        * rewrite E1 in Hu. injection Hu as <-. congruence.
        * apply (Hno u); [|exact Hj]. unfold w'. cbn [c_threads]. rewrite nth_error_upd. destruct (Nat.eq_dec t u); [congruence|exact Hu].
  Qed.

  Lemma node_same w t th th' n n' s r' j i rest :
    node_ok w j n s -> nth_error (c_threads w) t = Some th -> t_node th = j -> t_prog th = i :: rest -> ~ deletes i ->
    ~ starts_delete (t_prog th') -> n_maps n' = n_maps n ->
    node_ok (CWorld r' (upd j n' (c_nodes w)) (upd t th' (c_threads w))) j n' s.
  Proof.
    intros (A & B & C) E1 Ej E2 Hi Hp Hm. unfold node_ok. rewrite Hm. split; [exact A|]. cbn [c_threads]. split.
    - intros u thu k rest' Hu Hj Hpu. rewrite nth_error_upd in Hu. destruct (Nat.eq_dec t u) as [<-|nu].
      + rewrite E1 in Hu. injection Hu as <-. exfalso. apply Hp. exists k, rest'. exact Hpu.
      + eapply B; eassumption.
    - intros Hno. apply C. intros u thu Hu Hj. destruct (Nat.eq_dec t u) as [<-|nu].
      + rewrite E1 in Hu. injection Hu as <-. rewrite E2. intros (k & rr & X). injection X as -> _. apply Hi. exact I.
      + apply (Hno u); [|exact Hj]. rewrite nth_error_upd. destruct (Nat.eq_dec t u); [congruence|exact Hu].
  Qed.

  (** Only goroutine [t] could be between the two halves of a Reset. *)
  Lemma node_fresh w t th th' n' s' r' j : nth_error (c_threads w) t = Some th ->
    (forall u thu, u <> t -> nth_error (c_threads w) u = Some thu -> t_node thu = j -> ~ starts_delete (t_prog thu)) ->
    ~ starts_delete (t_prog th') -> n_maps n' = s' ->
    node_ok (CWorld r' (upd j n' (c_nodes w)) (upd t th' (c_threads w))) j n' s'.
  Proof.
    intros E1 Ho Hp Hm. unfold node_ok. rewrite Hm. split; [reflexivity|]. split; [|reflexivity]. cbn [c_threads].
    intros u thu k rest Hu Hj Hpu. exfalso. rewrite nth_error_upd in Hu. destruct (Nat.eq_dec t u) as [<-|nu].
    - rewrite E1 in Hu. injection Hu as <-. apply Hp. exists k, rest. exact Hpu.
    - apply (Ho u thu); [congruence|exact Hu|exact Hj|]. exists k, rest. exact Hpu.
  Qed.

  Lemma lin_go w tr x t now w' es : lin w tr x -> cstep ok ord w (CStep t now) = Some (w', es) ->
    exists tr' x', seen tr' = es /\ lin w' (tr ++ tr') x'.
  Proof.
    intros [HI HP HS HR HL HN HG HO] Hs. pose proof Hs as Hs0. apply cstep_step in Hs.
    destruct Hs as (th & i & rest & n & n' & r' & new & g' & E1 & E2 & E3 & E4 & Ew & ->).
    destruct HI as [hs HI]. pose proof (inv_step ok ord _ _ _ _ _ HI Hs0) as HI'.
    remember (t_node th) as j eqn:Ej. symmetry in Ej.
    remember (Thread j (match i with IReturn _ => None | _ => t_call th end) (new ++ rest) g') as th' eqn:Eth.
    assert (Ej' : t_node th' = j) by (subst th'; reflexivity).
    assert (Ep' : t_prog th' = new ++ rest) by (subst th'; reflexivity).
    destruct (nth_error (fst x) j) as [s|] eqn:Ex.
    2:{ apply nth_error_None in Ex. rewrite HL in Ex. apply nth_error_None in Ex. congruence. }
    assert (Hpol' : map n_pol (upd j n' (c_nodes w)) = pols) by (rewrite <- HP; eapply map_upd; [exact E3|]; eapply istep_pol; exact E4).
    destruct (HG _ _ E1) as (st & Htr & Hst).
    destruct Hst as [(_ & X & _)|(m & Em & Hsh)]; [congruence|]. rewrite Ej in Em. rewrite E3 in Em. injection Em as <-.
    rewrite E2, Ej in Hsh. pose proof (shape_step _ _ _ _ _ _ _ _ _ _ _ _ _ _ Hsh E4) as He. rewrite <- Ep' in He.
    pose proof (HN _ _ _ E3 Ex) as Hnode.
    assert (Others : touches i -> forall u thu, u <> t -> nth_error (c_threads w) u = Some thu -> t_node thu = j -> ~ starts_delete (t_prog thu)).
    { intros Hi u thu nu Hu Hj (k & rr & X). eapply (excl w hs t u th thu); eauto. congruence. }
    (* What has to be shown in each case. *)
    assert (Done : forall tr' s' st', seen tr' = returns t th i -> Forall (by_thread t) tr' -> s_procs (n_maps n') = s_procs (n_maps n) ->
      one_by_one ok ord x0 (effects (tr ++ tr')) (upd j s' (fst x), r') -> node_ok w' j n' s' -> turns t Waiting (tr ++ tr') st' ->
      ((t_call th' = None /\ t_prog th' = [] /\ st' = Waiting) \/ shape (s_procs (n_maps n)) j (t_call th') (t_prog th') (t_regs th') st') ->
      exists tr' x', seen tr' = returns t th i /\ lin w' (tr ++ tr') x').
    { intros tr' s' st' H1 H2 H3 H4 H5 H6 H7. exists tr', (upd j s' (fst x), r'). split; [exact H1|]. subst w'. constructor; auto.
      - cbn [fst c_nodes]. rewrite !upd_length. exact HL.
      - cbn [fst]. eapply nodes_keep; eauto.
      - eapply stages_keep; eauto. exists st'. split; [exact H6|]. destruct H7 as [H7|H7]; [left; exact H7|right].
        exists n'. rewrite Ej'. split; [cbn [c_nodes]; eapply nth_error_upd_same; exact E3|]. rewrite H3. exact H7.
      - cbn [c_threads]. eapply none_keep; eauto. }
    assert (Same : upd j s (fst x) = fst x) by (apply upd_self; exact Ex).
    assert (Eff : forall o res s', effects (tr ++ [Takes t j o res]) = effects tr ++ [(j, o, res)] /\
      (alone s (c_redis w) o s' r' res -> one_by_one ok ord x0 (effects (tr ++ [Takes t j o res])) (upd j s' (fst x), r'))).
    { intros o res s'. rewrite effects_app. split; [reflexivity|]. intros [mm Ha]. eapply obo_snoc; [exact HS|].
      exists s. eexists. split; [exact Ex|]. rewrite HR. split; [exact Ha|]. reflexivity. }
    assert (Call : (forall f, i <> IReturn f) -> t_call th' = t_call th /\ returns t th i = []).
    { intros Hf. subst th'. destruct i; try (split; reflexivity). exfalso. eapply Hf. reflexivity. }
    assert (Nil : forall y : list (store V) * redis, effects (tr ++ []) = effects tr) by (intros _; rewrite app_nil_r; reflexivity).
    destruct He as [M1 -> M2 M3 M4 M5|k rr -> M1 -> M3 M4|o res M1 M2 M3 M4 M5 M6 M7 M8|o res k M1 M2 -> M4 M5 M6 M7|o res M1 M2 M3 M4 M5 M6 M7 M8|o f M1 M2 M3 -> -> M5].
    - (* quiet *) destruct (Call M4) as [C1 C2]. apply (Done [] s st).
      + rewrite C2. reflexivity.
      + constructor.
      + rewrite M1. reflexivity.
      + rewrite app_nil_r, Same, <- HR. destruct x; exact HS.
      + subst w'. eapply node_same; eauto.
      + rewrite app_nil_r. exact Htr.
      + right. rewrite C1. replace (t_regs th') with g' by (subst th'; reflexivity). exact M5.
    - (* clear *) destruct (Call ltac:(intros f; discriminate)) as [C1 C2].
      assert (T : touches (IClear k : instr V)) by (left; exists MKv, true; cbn; split; [auto|split; discriminate]).
      assert (Hs : n_maps n = s).
      { apply Hnode. intros u thu Hu Hj. destruct (Nat.eq_dec t u) as [<-|nu]; [|eapply Others; eauto].
        rewrite E1 in Hu. injection Hu as <-. rewrite E2. intros (? & ? & X). discriminate. }
      apply (Done [] s st).
      + rewrite C2. reflexivity.
      + constructor.
      + rewrite M1. reflexivity.
      + rewrite app_nil_r, Same, <- HR. destruct x; exact HS.
      + subst w'. split; [rewrite M1, Hs; reflexivity|]. cbn [c_threads]. split.
        * intros u thu k' rest' Hu Hj Hp. rewrite nth_error_upd in Hu. destruct (Nat.eq_dec t u) as [<-|nu].
          -- rewrite E1 in Hu. injection Hu as <-. rewrite M3 in Hp. injection Hp as <- <-. rewrite M1, Hs. reflexivity.
          -- exfalso. eapply (Others T u thu); eauto. exists k', rest'. exact Hp.
        * intros Hno. exfalso. apply (Hno t th'); [rewrite nth_error_upd; destruct (Nat.eq_dec t t); [rewrite E1; reflexivity|congruence]|exact Ej'|].
          exists k, rr. exact M3.
      + rewrite app_nil_r. exact Htr.
      + right. rewrite C1. replace (t_regs th') with g' by (subst th'; reflexivity). exact M4.
    - (* memory *) destruct (Call M6) as [C1 C2]. assert (T : touches i) by (left; exact M3).
      assert (Hs : n_maps n = s).
      { apply Hnode. intros u thu Hu Hj. destruct (Nat.eq_dec t u) as [<-|nu]; [|eapply Others; eauto].
        rewrite E1 in Hu. injection Hu as <-. rewrite E2. intros (k & rr & X). injection X as -> _. destruct M3 as (? & ? & [] & _). }
      apply (Done [Takes t j o res] (n_maps n') (Effected j o res)).
      + rewrite C2. reflexivity.
      + repeat constructor.
      + exact M5.
      + apply Eff. rewrite <- Hs. exact M7.
      + subst w'. eapply node_fresh; eauto.
      + eapply turns_snoc; [exact Htr|]. rewrite M2. constructor.
      + right. rewrite C1. replace (t_regs th') with g' by (subst th'; reflexivity). exact M8.
    - (* delete *) destruct (Call ltac:(intros f; discriminate)) as [C1 C2].
      assert (T : touches (IDelete k : instr V)) by (right; exact I).
      assert (Hs : n_maps n = clear_key s k) by (destruct Hnode as (_ & B & _); eapply B; eauto).
      apply (Done [Takes t j o res] (n_maps n') (Effected j o res)).
      + rewrite C2. reflexivity.
      + repeat constructor.
      + rewrite M4. reflexivity.
      + apply Eff. apply M6. exact Hs.
      + subst w'. eapply node_fresh; eauto.
      + eapply turns_snoc; [exact Htr|]. rewrite M2. constructor.
      + right. rewrite C1. replace (t_regs th') with g' by (subst th'; reflexivity). exact M7.
    - (* free *) destruct (Call M6) as [C1 C2].
      apply (Done [Takes t j o res] s (Effected j o res)).
      + rewrite C2. reflexivity.
      + repeat constructor.
      + rewrite M3. reflexivity.
      + apply Eff. apply M7. apply Hnode.
      + subst w'. eapply node_same; eauto.
      + eapply turns_snoc; [exact Htr|]. rewrite M2. constructor.
      + right. rewrite C1. replace (t_regs th') with g' by (subst th'; reflexivity). exact M8.
    - (* return *) subst i. apply (Done [Seen (EReturned t j o (f (t_regs th)))] s Waiting).
      + cbn. rewrite M1, Ej. reflexivity.
      + repeat constructor.
      + reflexivity.
      + rewrite effects_app. cbn. rewrite app_nil_r, Same, <- HR. destruct x; exact HS.
      + subst w'. eapply node_same; eauto. rewrite M5. intros (? & ? & X). discriminate.
      + eapply turns_snoc; [exact Htr|]. rewrite M3. constructor.
      + left. subst th'. cbn [t_call t_prog] in *. auto.
  Qed.

  Lemma lin_run sched : forall w tr x, lin w tr x -> Forall (single_call pols) sched ->
    exists tr' x', seen tr' = snd (exec (cstep ok ord) w sched) /\ lin (fst (exec (cstep ok ord) w sched)) (tr ++ tr') x'.
  Proof.
    induction sched as [|l sched IH]; intros w tr x H HF; cbn [exec].
    - exists [], x. split; [reflexivity|]. rewrite app_nil_r. exact H.
    - inversion HF as [|? ? Hl HF']; subst. destruct (cstep ok ord w l) as [[w1 es]|] eqn:Es; [|apply IH with (x := x); assumption].
      assert (S : exists tr' x', seen tr' = es /\ lin w1 (tr ++ tr') x').
      { destruct l; [eapply lin_call; eassumption|eapply lin_go; eassumption]. }
      destruct S as (tr1 & x1 & <- & H1). destruct (IH _ _ _ H1 HF') as (tr2 & x2 & E2 & H2).
      destruct (exec (cstep ok ord) w1 sched) as [w2 es2]. cbn [fst snd] in *. exists (tr1 ++ tr2), x2.
      rewrite seen_app, E2, app_assoc. split; [reflexivity|exact H2].
  Qed.

  Lemma lin_start (w : cworld V) : (exists hs, inv w hs) -> map n_pol (c_nodes w) = pols -> x0 = contents w ->
    (forall t, call_of w t = None) -> lin w [] x0.
  Proof.
    intros [hs HI] HP Hx Hc.
    assert (Idle : forall t th, nth_error (c_threads w) t = Some th -> t_call th = None /\ t_prog th = []).
    { intros t th E. specialize (Hc t). unfold call_of in Hc. rewrite E in Hc. destruct HI as [HT _ _ _]. specialize (HT _ _ E). unfold thread_ok in HT.
      destruct (t_call th); [discriminate|]. destruct HT; auto. }
    constructor; auto.
    - exists hs. exact HI.
    - constructor.
    - rewrite Hx. reflexivity.
    - rewrite Hx. cbn. apply map_length.
    - intros j n s Hn Hs. rewrite Hx in Hs. cbn [contents fst] in Hs. rewrite nth_error_map, Hn in Hs. injection Hs as <-.
      split; [reflexivity|]. split; [|reflexivity]. intros t th k rest E _ E2. destruct (Idle _ _ E). congruence.
    - intros t th E. exists Waiting. split; [constructor|]. left. destruct (Idle _ _ E). auto.
    - constructor.
  Qed.

  Lemma lin_end w tr x : lin w tr x -> (forall t, call_of w t = None) -> x = contents w.
  Proof.
    intros [[hs HI] HP HS HR HL HN HG HO] Hc. destruct x as [ss r]. cbn [fst snd] in *. unfold contents. f_equal; [|exact HR].
    assert (Hj : forall j, nth_error ss j = nth_error (map n_maps (c_nodes w)) j).
    { intros j. rewrite nth_error_map. destruct (nth_error (c_nodes w) j) as [n|] eqn:En.
      - destruct (nth_error ss j) as [s|] eqn:Es.
        + cbn. destruct (HN _ _ _ En Es) as (_ & _ & C). rewrite C; [reflexivity|]. intros t th E _ (k & rr & X).
          specialize (Hc t). unfold call_of in Hc. rewrite E in Hc. destruct HI as [HT _ _ _]. specialize (HT _ _ E). unfold thread_ok in HT.
          destruct (t_call th); [discriminate|]. destruct HT. congruence.
        + apply nth_error_None in Es. rewrite HL in Es. apply nth_error_None in Es. congruence.
      - apply nth_error_None in En. rewrite <- HL in En. apply nth_error_None in En. rewrite En. reflexivity. }
    clear - Hj. revert Hj. generalize (map n_maps (c_nodes w)) as l. induction ss as [|s ss IH]; intros [|y l] H.
    - reflexivity.
    - specialize (H 0%nat). discriminate.
    - specialize (H 0%nat). discriminate.
    - f_equal; [specialize (H 0%nat); cbn in H; congruence|]. apply IH. intros j. apply (H (S j)).
  Qed.
End lin.

Lemma pols_reach {V} ok ord h pols n sched : map n_pol (c_nodes (fst (@conc_exec V ok ord h pols n sched))) = pols.
Proof.
  unfold conc_exec. refine (exec_inv (cstep ok ord) (fun (w : cworld V) _ => map n_pol (c_nodes w) = pols) _ sched _ [] _).
  - intros w l w' es _ H Hs. destruct l as [t j o|t now].
    + apply cstep_call in Hs. destruct Hs as (th & nd & _ & _ & _ & -> & _). exact H.
    + apply cstep_step in Hs. destruct Hs as (th & i & rest & nd & n' & r' & new & g' & _ & _ & E3 & E4 & -> & _).
      cbn [c_nodes]. rewrite <- H. eapply map_upd; [exact E3|]. eapply istep_pol. exact E4.
  - cbn. rewrite map_map. cbn. apply map_id.
Qed.

Lemma conc_linear {V} ok ord h pols n sched sched2 :
  let c := @conc_exec V ok ord h pols n sched in
  (forall t, calling t (snd c) = None) -> Forall (single_call pols) sched2 ->
  let c2 := exec (cstep ok ord) (fst c) sched2 in
  exists tr x, seen tr = snd c2 /\ each_once tr /\ one_by_one ok ord (contents (fst c)) (effects tr) x /\
    snd x = c_redis (fst c2) /\
    ((forall t, calling t (snd c ++ snd c2) = None) -> x = contents (fst c2)).
Proof.
  intros c Hc HF c2.
  assert (Hi : exists hs, inv (fst c) hs) by apply inv_reach.
  assert (Hidle : forall t, call_of (fst c) t = None) by (intros t; unfold c; rewrite <- calling_reach; apply Hc).
  pose proof (lin_start ok ord pols (contents (fst c)) (fst c) Hi (pols_reach ok ord h pols n sched) eq_refl Hidle) as L0.
  destruct (lin_run ok ord pols (contents (fst c)) sched2 _ _ _ L0 HF) as (tr & x & E & L). cbn [app] in L.
  exists tr, x. split; [exact E|]. split.
  { intros t. destruct (nth_error (c_threads (fst c2)) t) as [th|] eqn:Et.
    - destruct (l_stage _ _ _ _ _ _ _ L t th Et) as (st & Ht & _). exists st. exact Ht.
    - exists Waiting. apply (l_none _ _ _ _ _ _ _ L). exact Et. }
  split; [apply (l_seq _ _ _ _ _ _ _ L)|]. split; [apply (l_redis _ _ _ _ _ _ _ L)|].
  intros Hend. eapply lin_end; [exact L|]. intros t. rewrite <- (calling_exec ok ord (fst c) (snd c) sched2 Hi); [apply Hend|].
  intros u. apply calling_reach.
Qed.
