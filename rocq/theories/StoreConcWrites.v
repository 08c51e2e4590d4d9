(** BatchUpdate and Reset among other calls: what is saved when they return. *)
From Coq Require Import Permutation.
From Verif Require Import Common Bytes Threads StoreModel StoreSpec StoreProofs StoreConcModel StoreConcSpec StoreConcProofs StoreConcFresh.
Local Open Scope list_scope.

Section writes.
  Context {V : Type}.
  Variable ok : nat -> bool.
  Variable ord : nat -> list (string * string) -> list (string * string).
  Variable (j t : nat) (k : string).

  (** Instructions that do not change what is saved for the key. *)
  Definition off (i : instr V) : Prop :=
    match i with
    | IBatch kvs => ~ In k (map fst kvs)
    | ISave k' _ | IDelete k' => k' <> k
    | _ => True
    end.
  Lemma from_off j' o i : from_call o i -> ~ interferes j k j' o -> off i.
  Proof.
    intros Hf Hi. destruct i; cbn [from_call off] in *; auto.
    - subst o. exact Hi.
    - subst o. exact Hi.
    - destruct Hf as [->| ->]; exact Hi.
  Qed.

  Lemma istep_off u now (n : node V) r g i n' r' new g' : istep ok ord u now n r g i = Some (n', r', new, g') -> off i ->
    hget (r_hash r') k = hget (r_hash r) k.
  Proof.
    assert (B : forall r kvs, ~ In k (map fst kvs) -> hget (r_hash (fst (redis_batch ok r kvs))) k = hget (r_hash r) k).
    { intros r0 kvs H. unfold redis_batch. destruct kvs as [|kv kvs]; [reflexivity|].
      destruct (ok _); cbn [fst r_hash]; [apply hget_hmset_other; exact H|reflexivity]. }
    intros Hs Ha. step_cases Hs; try reflexivity.
    - apply B. intros Hin. apply Ha. apply in_map_iff in Hin. destruct Hin as (kv & E & Hin). apply filter_In in Hin.
      apply in_map_iff. exists kv. tauto.
    - unfold redis_save in Esv. specialize (B r [(k1, v1)]). rewrite Esv in B. apply B. intros [H|[]]. exact (Ha H).
    - unfold redis_delete. destruct (ok _); [|reflexivity]. cbn. rewrite hget_hdel.
      assert (E : (k1 =? k)%string = false) by (apply String.eqb_neq; exact Ha). rewrite E. reflexivity.
  Qed.

  Lemma istep_cmds u now (n : node V) r g i n' r' new g' : istep ok ord u now n r g i = Some (n', r', new, g') ->
    (r_cmds r <= r_cmds r')%nat.
  Proof.
    assert (B : forall r kvs, (r_cmds r <= r_cmds (fst (redis_batch ok r kvs)))%nat).
    { intros r0 kvs. unfold redis_batch. destruct kvs; [cbn; lia|]. destruct (ok _); cbn; lia. }
    intros Hs. step_cases Hs; try (cbn; lia).
    - apply B.
    - unfold redis_save in Esv. specialize (B r [(k1, v1)]). rewrite Esv in B. exact B.
    - unfold redis_delete. destruct (ok _); cbn; lia.
  Qed.

  (** ** BatchUpdate *)
  Section batch.
    Variable (j0 : nat) (kvs : list (string * string)) (v : string).
    Hypothesis Hin : In (k, v) kvs.
    Hypothesis Hnd : NoDup (map fst kvs).

    Definition batch_ret : instr V := IReturn (fun g => RKVErrs (g_errs g)).
    Definition phase (w : cworld V) (tr : list (cevent V)) : Prop :=
      (exists th, nth_error (c_threads w) t = Some th /\ t_node th = j0 /\ t_call th = Some (OBatchUpdate kvs) /\
        (forall r, ~ In (EReturned t j0 (OBatchUpdate kvs) r) tr) /\
        ((exists pre, t_prog th = pre ++ [IBatch kvs; batch_ret]) \/
         (t_prog th = [batch_ret] /\ (hget (r_hash (c_redis w)) k = Some v \/ In k (map ke_key (g_errs (t_regs th))))))) \/
      ((forall j' o, call_of w t = Some (j', o) -> ~ interferes j k j' o) /\
       forall errs, In (EReturned t j0 (OBatchUpdate kvs) (RKVErrs errs)) tr -> ~ In k (map ke_key errs) ->
         hget (r_hash (c_redis w)) k = Some v).
    Record during (w : cworld V) (tr : list (cevent V)) : Prop := {
      du_inv : exists hs, inv w hs;
      du_origin : origin w;
      du_works : forall m, (r_cmds (c_redis w) <= m)%nat -> ok m = true;
      du_calm : forall u j' o, u <> t -> call_of w u = Some (j', o) -> ~ interferes j k j' o;
      du_phase : phase w tr }.

    Lemma batch_interferes j' : interferes j k j' (OBatchUpdate kvs : sop V).
    Proof. cbn. apply in_map_iff. exists (k, v). auto. Qed.

    Lemma call_of_upd (w : cworld V) (u u' : nat) th0 (th' : thread V) r ns : nth_error (c_threads w) u = Some th0 ->
      call_of (CWorld r ns (upd u th' (c_threads w))) u' =
      if Nat.eq_dec u u' then match t_call th' with Some o => Some (t_node th', o) | None => None end else call_of w u'.
    Proof.
      intros H. unfold call_of. cbn [c_threads]. rewrite nth_error_upd. destruct (Nat.eq_dec u u'); [|reflexivity]. rewrite H. reflexivity.
    Qed.

    Lemma during_step w l w' es tr : spares_key j k l -> during w tr -> cstep ok ord w l = Some (w', es) -> during w' (tr ++ es).
    Proof.
      intros Hl [[hs HI] HO HW HC HP] Hs.
      pose proof (inv_step ok ord w hs l w' es HI Hs) as HI'. pose proof (origin_step ok ord w l w' es HO Hs) as HO'.
      destruct l as [u j' o|u now].
      - apply cstep_call in Hs. destruct Hs as (th & n & E1 & E2 & E3 & -> & ->).
        constructor; auto.
        + intros u' j1 o1 Hu. rewrite (call_of_upd w u u' th) by exact E1. cbn [t_call t_node].
          destruct (Nat.eq_dec u u') as [<-|ne]; [|apply HC; exact Hu]. intros H. injection H as <- <-. exact Hl.
        + destruct HP as [(th1 & P1 & P2 & P3 & P4 & P5)|[P1 P2]].
          * left. assert (ne : u <> t) by (intros ->; congruence). exists th1. cbn [c_threads c_redis]. rewrite nth_error_upd_other by exact ne.
            repeat (split; [assumption|]). split; [|exact P5]. intros r H. apply in_app_iff in H. destruct H as [H|[H|[]]]; [exact (P4 r H)|discriminate].
          * right. split.
            { intros j1 o1. rewrite (call_of_upd w u t th) by exact E1. cbn [t_call t_node].
              destruct (Nat.eq_dec u t); [|apply P1]. intros H. injection H as <- <-. exact Hl. }
            intros errs H. apply in_app_iff in H. destruct H as [H|[H|[]]]; [apply P2; exact H|discriminate].
      - apply cstep_step in Hs. destruct Hs as (th & i & rest & n & n' & r' & new & g' & E1 & E2 & E3 & E4 & -> & ->).
        pose proof (i_threads _ _ HI _ _ E1) as Hth. unfold thread_ok in Hth.
        destruct (t_call th) as [o|] eqn:Ec; [|destruct Hth; congruence].
        pose proof (HO _ _ _ E1 Ec) as Hfr. rewrite E2 in Hfr, Hth. apply typed_cons in Hth. inversion_clear Hfr as [|? ? Hf1 _].
        assert (Hret : forall f, i = IReturn f -> rest = []).
        { intros f ->. destruct Hth as [(f' & _ & -> & _)|(h' & H & _)]; [reflexivity|discriminate]. }
        assert (Hcall : call_of w u = Some (t_node th, o)) by (unfold call_of; rewrite E1, Ec; reflexivity).
        pose proof (istep_cmds _ _ _ _ _ _ _ _ _ _ E4) as Hcm.
        constructor; auto.
        + cbn [c_redis]. intros m Hm. apply HW. lia.
        + intros u' j1 o1 Hu. rewrite (call_of_upd w u u' th) by exact E1. cbn [t_call t_node].
          destruct (Nat.eq_dec u u') as [<-|ne]; [|apply HC; exact Hu]. destruct i; try discriminate; intros H; injection H as <- <-; apply (HC u _ _ Hu Hcall).
        + destruct (Nat.eq_dec u t) as [->|ne].
          * destruct HP as [(th1 & P1 & P2 & P3 & P4 & P5)|[P1 P2]].
            { rewrite E1 in P1. injection P1 as <-. rewrite Ec in P3. injection P3 as ->. destruct P5 as [[pre P5]|[P5 P6]].
              - rewrite E2 in P5. left. eexists. cbn [c_threads c_redis]. rewrite nth_error_upd_same with (y := th) by exact E1.
                split; [reflexivity|]. cbn [t_node t_call t_prog t_regs]. split; [exact P2|].
                assert (Hi : forall f, i <> IReturn f).
                { intros f ->. rewrite (Hret _ eq_refl) in P5. destruct pre as [|? [|? [|]]]; discriminate. }
                split; [destruct i; try reflexivity; exfalso; eapply Hi; reflexivity|].
                split.
                { intros r H. apply in_app_iff in H. destruct H as [H|H]; [exact (P4 r H)|]. unfold returns in H. destruct i; try destruct H. eapply Hi; reflexivity. }
                destruct pre as [|i0 pre]; cbn in P5; injection P5 as -> ->.
                + right. cbn [istep] in E4. injection E4 as <- <- <- <-. split; [reflexivity|].
                  set (bad := fun e : kverror => (ke_key e =? k)%string).
                  destruct (existsb bad (g_errs (t_regs th))) eqn:Eb.
                  * right. apply existsb_exists in Eb. destruct Eb as (e & He & Hb). apply String.eqb_eq in Hb. apply in_map_iff. exists e. auto.
                  * left. set (l := filter _ kvs).
                    assert (Hl' : In (k, v) l) by (apply filter_In; split; [exact Hin|]; cbn [fst]; unfold bad in Eb; rewrite Eb; reflexivity).
                    assert (ND : NoDup (map fst l)).
                    { unfold l. clear - Hnd. induction kvs as [|kv kvs0 IH]; [constructor|]. cbn in Hnd. inversion Hnd; subst. cbn [filter].
                      destruct (negb _); [|apply IH; assumption]. cbn. constructor; [|apply IH; assumption].
                      intros H. apply H1. apply in_map_iff in H. destruct H as (kv' & <- & H). apply filter_In in H. apply in_map. tauto. }
                    unfold redis_batch. destruct l as [|kv l]; [destruct Hl'|]. rewrite (HW _ (le_n _)). cbn [fst r_hash]. apply hget_hmset_in; assumption.
                + left. exists (new ++ pre). rewrite app_assoc. reflexivity.
              - rewrite E2 in P5. injection P5 as -> ->. cbn in E4. injection E4 as <- <- <- <-. right. split.
                { intros j1 o1. rewrite (call_of_upd w t t th) by exact E1. cbn [t_call]. destruct (Nat.eq_dec t t); [discriminate|contradiction]. }
                intros errs H Hk. cbn [c_redis]. apply in_app_iff in H. destruct H as [H|H]; [exfalso; eapply P4; exact H|].
                unfold returns, batch_ret in H. rewrite Ec in H. destruct H as [H|[]]. injection H as _ <-. tauto. }
            { right. assert (Hoff : off i) by (eapply from_off; [exact Hf1|apply P1; exact Hcall]). cbn [c_redis].
              rewrite (istep_off _ _ _ _ _ _ _ _ _ _ E4 Hoff). split.
              - intros j1 o1. rewrite (call_of_upd w t t th) by exact E1. cbn [t_call t_node]. destruct (Nat.eq_dec t t); [|contradiction].
                destruct i; try discriminate; intros H; injection H as <- <-; apply (P1 _ _ Hcall).
              - intros errs H. apply in_app_iff in H. destruct H as [H|H]; [apply P2; exact H|].
                exfalso. unfold returns in H. rewrite Ec in H. destruct i; try (destruct H; fail). destruct H as [H|[]]. injection H as _ Ho _.
                subst o. apply (P1 _ _ Hcall). apply batch_interferes. }
          * assert (Hoff : off i) by (eapply from_off; [exact Hf1|eapply HC; [exact ne|exact Hcall]]).
            assert (Hes : forall r, In (EReturned t j0 (OBatchUpdate kvs) r) (tr ++ returns u th i) -> In (EReturned t j0 (OBatchUpdate kvs) r) tr).
            { intros r H. apply in_app_iff in H. destruct H as [H|H]; [exact H|]. unfold returns in H. rewrite Ec in H.
              destruct i; try (destruct H; fail). destruct H as [H|[]]. injection H. intros. congruence. }
            pose proof (istep_off _ _ _ _ _ _ _ _ _ _ E4 Hoff) as Hsame.
            destruct HP as [(th1 & P1 & P2 & P3 & P4 & P5)|[P1 P2]].
            { left. exists th1. cbn [c_threads c_redis]. rewrite nth_error_upd_other by exact ne. repeat (split; [assumption|]).
              split; [intros r H; exact (P4 r (Hes r H))|]. rewrite Hsame. exact P5. }
            { right. split.
              - intros j1 o1. rewrite (call_of_upd w u t th) by exact E1. destruct (Nat.eq_dec u t); [contradiction|apply P1].
              - intros errs H. cbn [c_redis]. rewrite Hsame. apply P2. apply Hes. exact H. }
    Qed.
  End batch.
End writes.

Lemma conc_batch {V} ok ord h pols n sched sched2 t j j0 k v kvs errs :
  let c := @conc_exec V ok ord h pols n sched in
  calm j k (snd c) -> calling t (snd c) = None -> redis_works ok (fst c) ->
  In (k, v) kvs -> NoDup (map fst kvs) -> Forall (spares_key j k) sched2 ->
  let c2 := exec (cstep ok ord) (fst c) (CCall t j0 (OBatchUpdate kvs) :: sched2) in
  In (EReturned t j0 (OBatchUpdate kvs) (RKVErrs errs)) (snd c2) -> ~ In k (map ke_key errs) ->
  saved (fst c2) k = Some v /\ calm j k (snd c ++ snd c2).
Proof.
  intros c Hc Hi Hw Hin Hnd HF c2 Hret Herr. unfold c2 in *. cbn [exec] in *.
  destruct (@inv_reach V ok ord h pols n sched) as [hs HI]. fold c in HI.
  assert (HO : origin (fst c)) by apply origin_reach.
  assert (HC : forall u j' o, call_of (fst c) u = Some (j', o) -> ~ interferes j k j' o).
  { intros u j' o H. eapply Hc. unfold c. rewrite calling_reach. exact H. }
  unfold c in Hi. rewrite calling_reach in Hi. fold c in Hi.
  assert (End : forall (w : cworld V) tr, during ok j t k j0 kvs v w tr -> In (EReturned t j0 (OBatchUpdate kvs) (RKVErrs errs)) tr ->
    saved w k = Some v /\ forall u j' (o : sop V), call_of w u = Some (j', o) -> ~ interferes j k j' o).
  { intros w tr [_ _ _ D4 D5] Hr. destruct D5 as [(th & _ & _ & _ & P4 & _)|[P1 P2]]; [exfalso; eapply P4; exact Hr|].
    split; [eapply P2; eassumption|]. intros u j' o Hu. destruct (Nat.eq_dec u t) as [->|ne]; [apply P1; exact Hu|eapply D4; eassumption]. }
  assert (Fin : forall (w : cworld V) tr tr0, during ok j t k j0 kvs v w tr -> (forall u, calling u (snd c ++ tr0) = call_of w u) -> (exists hs, inv w hs) ->
    In (EReturned t j0 (OBatchUpdate kvs) (RKVErrs errs)) (tr ++ snd (exec (cstep ok ord) w sched2)) ->
    saved (fst (exec (cstep ok ord) w sched2)) k = Some v /\ calm j k ((snd c ++ tr0) ++ snd (exec (cstep ok ord) w sched2))).
  { intros w tr tr0 HD HCa Hi' Hr.
    pose proof (exec_inv_lab (cstep ok ord) (spares_key j k) (during ok j t k j0 kvs v)
      (fun s l s1 es tr Hl HI Hs => during_step ok ord j t k j0 kvs v Hin Hnd s l s1 es tr Hl HI Hs) sched2 HF w tr HD) as HD'.
    destruct (End _ _ HD' Hr) as [S1 S2]. split; [exact S1|]. intros u j' o Hu. rewrite (calling_exec ok ord w _ sched2 Hi' HCa) in Hu.
    eapply S2; exact Hu. }
  assert (D0 : during ok j t k j0 kvs v (fst c) []).
  { constructor; auto.
    - exists hs. exact HI.
    - intros u j' o _ Hu. eapply HC; exact Hu.
    - right. split; [rewrite Hi; discriminate|]. intros errs' []. }
  assert (HCa : forall u, calling u (snd c) = call_of (fst c) u) by (intros u; apply calling_reach).
  destruct (cstep ok ord (fst c) (CCall t j0 (OBatchUpdate kvs))) as [[w1 es]|] eqn:Es.
  2:{ pose proof (Fin (fst c) [] [] D0) as F. rewrite app_nil_r in F. apply F; auto. exists hs. exact HI. }
  pose proof (inv_step ok ord _ hs _ _ _ HI Es) as HI1. pose proof (origin_step ok ord _ _ _ _ HO Es) as HO1.
  assert (HCa1 : forall u, calling u (snd c ++ es) = call_of w1 u).
  { intros u. eapply calling_step_ok; [exists hs; exact HI|exact HCa|exact Es]. }
  apply cstep_call in Es. destruct Es as (th & nd & E1 & E2 & E3 & -> & ->).
  match type of HI1 with exists hs, inv ?w hs => set (w1 := w) in * end.
  assert (D1 : during ok j t k j0 kvs v w1 []).
  { constructor; auto.
    - intros u j' o Hu. unfold w1. rewrite (call_of_upd (fst c) t u th) by exact E1. destruct (Nat.eq_dec t u) as [<-|ne]; [contradiction|apply HC].
    - left. eexists. unfold w1. cbn [c_threads]. rewrite nth_error_upd_same with (y := th) by exact E1. split; [reflexivity|].
      cbn [t_node t_call t_prog]. split; [reflexivity|]. split; [reflexivity|]. split; [intros r []|]. left.
      destruct kvs as [|kv kvs']; [destruct Hin|]. eexists. cbn [p_call]. reflexivity. }
  destruct (exec (cstep ok ord) w1 sched2) as [w2 es2] eqn:Ex. cbn [fst snd] in *.
  pose proof (Fin w1 [] [ECalled t j0 (OBatchUpdate kvs)] D1 HCa1 HI1) as F. rewrite Ex in F. cbn [fst snd] in F. cbn [app] in F.
  destruct F as [F1 F2]; [destruct Hret as [Hret|Hret]; [discriminate|exact Hret]|]. split; [exact F1|].
  rewrite <- app_assoc in F2. exact F2.
Qed.

(** ** Reset *)
Section reset.
  Context {V : Type}.
  Variable ok : nat -> bool.
  Variable ord : nat -> list (string * string) -> list (string * string).
  Variable (j t : nat) (k : string) (p : proc V) (s : option string) (x : option V).

  Definition reset_ret : instr V := IReturn (fun _ => RDone).
  Definition rest_clear : list (instr V) := [IClear k; IDelete k; IUnlock KvLock; reset_ret].
  Definition spared (w : cworld V) (u : nat) : Prop :=
    forall j' o, call_of w u = Some (j', o) -> ~ interferes j k j' o /\ (j' = j -> is_read o = false).
  Definition cleared (w : cworld V) : Prop := forall n, nth_error (c_nodes w) j = Some n -> fresh k s x n.
  Definition gone (w : cworld V) : Prop := hget (r_hash (c_redis w)) k = None.
  Definition rphase (w : cworld V) (tr : list (cevent V)) : Prop :=
    (exists th, nth_error (c_threads w) t = Some th /\ t_node th = j /\ t_call th = Some (OReset k) /\
      (forall r, ~ In (EReturned t j (OReset k) r) tr) /\
      (t_prog th = [IAnnounce KvLock; IAcquire KvLock] ++ rest_clear \/ t_prog th = IAcquire KvLock :: rest_clear \/ t_prog th = rest_clear \/
       (t_prog th = [IDelete k; IUnlock KvLock; reset_ret] /\ cleared w) \/
       (t_prog th = [IUnlock KvLock; reset_ret] /\ cleared w /\ gone w) \/
       (t_prog th = [reset_ret] /\ cleared w /\ gone w))) \/
    (spared w t /\ forall r, In (EReturned t j (OReset k) r) tr -> cleared w /\ gone w).
  Record resetting (w : cworld V) (tr : list (cevent V)) : Prop := {
    re_inv : exists hs, inv w hs;
    re_origin : origin w;
    re_works : forall m, (r_cmds (c_redis w) <= m)%nat -> ok m = true;
    re_def : forall n, nth_error (c_nodes w) j = Some n -> s_defstr (n_maps n) k = s /\ s_def (n_maps n) k = x /\ s_procs (n_maps n) k = Some p;
    re_others : forall u, u <> t -> spared w u;
    re_phase : rphase w tr }.

  Definition quiet_label (l : clabel V) : Prop := spares_key j k l /\ no_reads j l.

  Let none_ok : forall v : string, None = Some v -> accepts p v = true /\ s = Some v /\ x = Some (p_convert p v).
  Proof. discriminate. Qed.

  Lemma spared_allowed w u th o i : nth_error (c_threads w) u = Some th -> t_call th = Some o -> spared w u -> from_call o i ->
    allowed j k None p (t_node th) i.
  Proof.
    intros Hu Ho Hs Hf. destruct (Hs (t_node th) o) as [H1 H2]; [unfold call_of; rewrite Hu, Ho; reflexivity|].
    eapply from_allowed; [exact Hf|exact H1|]. intros Hr Ej. specialize (H2 Ej). congruence.
  Qed.

  Lemma resetting_step w l w' es tr : quiet_label l -> resetting w tr -> cstep ok ord w l = Some (w', es) -> resetting w' (tr ++ es).
  Proof.
    intros [Hl1 Hl2] [[hs HI] HO HW HD HS HP] Hs.
    pose proof (inv_step ok ord w hs l w' es HI Hs) as HI'. pose proof (origin_step ok ord w l w' es HO Hs) as HO'.
    destruct l as [u j' o|u now].
    - apply cstep_call in Hs. destruct Hs as (th & n & E1 & E2 & E3 & -> & ->).
      assert (HS' : forall u', spared w u' -> spared (CWorld (c_redis w) (c_nodes w) (upd u (Thread j' (Some o) (p_call (n_pol n) o) regs0) (c_threads w))) u').
      { intros u' Hu j1 o1. rewrite (call_of_upd w u u' th) by exact E1. cbn [t_call t_node].
        destruct (Nat.eq_dec u u') as [<-|ne]; [|apply Hu]. intros H. injection H as <- <-. split; [exact Hl1|exact Hl2]. }
      constructor; auto.
      destruct HP as [(th1 & P1 & P2 & P3 & P4 & P5)|[P1 P2]].
      + left. assert (ne : u <> t) by (intros ->; congruence). exists th1. cbn [c_threads]. rewrite nth_error_upd_other by exact ne.
        repeat (split; [assumption|]). split; [|exact P5]. intros r H. apply in_app_iff in H. destruct H as [H|[H|[]]]; [exact (P4 r H)|discriminate].
      + right. split; [apply HS'; exact P1|].
        intros r H. apply in_app_iff in H. destruct H as [H|[H|[]]]; [apply (P2 r); exact H|discriminate].
    - apply cstep_step in Hs. destruct Hs as (th & i & rest & n & n' & r' & new & g' & E1 & E2 & E3 & E4 & -> & ->).
      pose proof (i_threads _ _ HI _ _ E1) as Hth. unfold thread_ok in Hth.
      destruct (t_call th) as [o|] eqn:Ec; [|destruct Hth; congruence].
      pose proof (HO _ _ _ E1 Ec) as Hfr. rewrite E2 in Hfr. inversion_clear Hfr as [|? ? Hf1 _]. clear Hth.
      assert (Hcall : call_of w u = Some (t_node th, o)) by (unfold call_of; rewrite E1, Ec; reflexivity).
      assert (Hcm : (r_cmds (c_redis w) <= r_cmds r')%nat) by (eapply istep_cmds; exact E4).
      match goal with |- resetting ?w1 _ => set (w' := w1) end.
      assert (HS' : forall u', spared w u' -> spared w' u').
      { intros u' Hu j1 o1. unfold w'. rewrite (call_of_upd w u u' th) by exact E1. cbn [t_call t_node].
        destruct (Nat.eq_dec u u') as [<-|ne]; [|apply Hu]. destruct i; try discriminate; intros H; injection H as <- <-; apply (Hu _ _ Hcall). }
      assert (Hnode : forall n1, nth_error (c_nodes w') j = Some n1 ->
                (t_node th = j /\ n1 = n') \/ (t_node th <> j /\ nth_error (c_nodes w) j = Some n1)).
      { intros n1 Hn. unfold w' in Hn. cbn [c_nodes] in Hn. rewrite nth_error_upd in Hn. destruct (Nat.eq_dec (t_node th) j) as [Ej|ne]; [|right; auto].
        rewrite E3 in Hn. injection Hn as <-. auto. }
      (* a spared goroutine *)
      assert (Sp : spared w u -> (cleared w -> cleared w') /\ (gone w -> gone w') /\
                (forall n1, nth_error (c_nodes w') j = Some n1 -> s_defstr (n_maps n1) k = s /\ s_def (n_maps n1) k = x /\ s_procs (n_maps n1) k = Some p)).
      { intros Hu. pose proof (spared_allowed w u th o i E1 Ec Hu Hf1) as Ha. split; [|split].
        - intros Hc n1 Hn. destruct (Hnode _ Hn) as [[Ej ->]|[Ej H]]; [|apply Hc; exact H]. rewrite Ej in E3, Ha.
          eapply (istep_fresh ok ord j k None p s x none_ok); try eassumption. apply Hc. exact E3.
        - unfold gone, w'. cbn [c_redis]. intros Hg.
          assert (Ho : off k i) by (eapply from_off; [exact Hf1|apply (Hu _ _ Hcall)]).
          assert (Q : hget (r_hash r') k = hget (r_hash (c_redis w)) k) by (eapply (istep_off ok ord j k); [exact E4|exact Ho]). congruence.
        - intros n1 Hn. destruct (Hnode _ Hn) as [[Ej ->]|[Ej H]]; [|apply HD; exact H]. rewrite Ej in E3, Ha.
          assert (Q : s_procs (n_maps n') k = s_procs (n_maps n) k /\ s_def (n_maps n') k = s_def (n_maps n) k /\ s_defstr (n_maps n') k = s_defstr (n_maps n) k)
            by (eapply istep_procs; [exact E4|exact Ha]).
          destruct Q as (-> & -> & ->). apply HD. exact E3. }
      assert (Hes : (u <> t \/ spared w u) -> forall r, In (EReturned t j (OReset k) r) (tr ++ returns u th i) -> In (EReturned t j (OReset k) r) tr).
      { intros Hne r H. apply in_app_iff in H. destruct H as [H|H]; [exact H|]. unfold returns in H. rewrite Ec in H.
        destruct i; try (destruct H; fail). destruct H as [H|[]]. injection H as Hu Hj Ho _. exfalso. destruct Hne as [Hne|Hne]; [congruence|].
        subst o. destruct (Hne _ _ Hcall) as [H _]. apply H. reflexivity. }
      assert (Keep : spared w u -> u <> t \/ spared w t -> rphase w' (tr ++ returns u th i)).
      { intros Hu Hut. destruct (Sp Hu) as (S1 & S2 & _). destruct HP as [(th1 & P1 & P2 & P3 & P4 & P5)|[P1 P2]].
        - destruct (Nat.eq_dec u t) as [->|ne].
          { exfalso. rewrite E1 in P1. injection P1 as <-. rewrite Ec in P3. injection P3 as ->. destruct (Hu _ _ Hcall) as [H _]. apply H. reflexivity. }
          left. exists th1. unfold w' at 1. cbn [c_threads]. rewrite nth_error_upd_other by exact ne. repeat (split; [assumption|]).
          split; [intros r H; eapply P4; apply Hes; [left; exact ne|exact H]|]. clear - P5 S1 S2. tauto.
        - right. split; [apply HS'; exact P1|]. intros r H. destruct (P2 r) as [Q1 Q2]; [|split; auto]. apply Hes; [|exact H].
          destruct (Nat.eq_dec u t) as [->|ne]; [right; exact P1|left; exact ne]. }
      destruct (Nat.eq_dec u t) as [->|ne].
      2:{ pose proof (HS _ ne) as Hu. constructor; auto; [|apply (Sp Hu)].
          unfold w'. cbn [c_redis]. intros m Hm. apply HW. lia. }
      destruct HP as [(th1 & P1 & P2 & P3 & P4 & P5)|[P1 P2]].
      2:{ constructor; auto; [|apply (Sp P1)]. unfold w'. cbn [c_redis]. intros m Hm. apply HW. lia. }
      rewrite E1 in P1. injection P1 as <-. rewrite Ec in P3. injection P3 as ->.
      assert (HW' : forall m, (r_cmds (c_redis w') <= m)%nat -> ok m = true) by (unfold w'; cbn [c_redis]; intros m Hm; apply HW; lia).
      assert (HS2 : forall u, u <> t -> spared w' u) by (intros u Hu; apply HS', HS; exact Hu).
      assert (E1' : forall th', nth_error (upd t th' (c_threads w)) t = Some th') by (intros th'; eapply nth_error_upd_same; exact E1).
      rewrite P2 in E3. pose proof (HD _ E3) as (D1 & D2 & D3).
      assert (Hn' : forall n1, nth_error (c_nodes w') j = Some n1 -> n1 = n').
      { intros n1 Hn. destruct (Hnode _ Hn) as [[_ ->]|[H _]]; [reflexivity|contradiction]. }
      assert (Same : n_maps n' = n_maps n -> (forall n1, nth_error (c_nodes w') j = Some n1 -> s_defstr (n_maps n1) k = s /\ s_def (n_maps n1) k = x /\ s_procs (n_maps n1) k = Some p) /\ (cleared w -> cleared w')).
      { intros Em. split.
        - intros n1 Hn. rewrite (Hn' _ Hn), Em. auto.
        - intros Hc n1 Hn. rewrite (Hn' _ Hn). unfold fresh. rewrite Em. apply Hc. exact E3. }
      rewrite E2 in P5.
      destruct P5 as [P5|[P5|[P5|[[P5 Q1]|[[P5 [Q1 Q2]]|[P5 [Q1 Q2]]]]]]]; cbn [app] in P5; injection P5 as -> ->; cbn [istep] in E4.
      + destruct (announce _ _); [|discriminate]. injection E4 as <- <- <- <-. destruct (Same eq_refl) as [S1 S2].
        constructor; auto. left. eexists. unfold w' at 1. cbn [c_threads]. rewrite E1'. split; [reflexivity|]. cbn [t_node t_call t_prog].
        repeat (split; [first [assumption|reflexivity]|]). cbn [returns]. rewrite app_nil_r. split; [exact P4|]. right. left. reflexivity.
      + destruct (acquire _ _); [|discriminate]. injection E4 as <- <- <- <-. destruct (Same eq_refl) as [S1 S2].
        constructor; auto. left. eexists. unfold w' at 1. cbn [c_threads]. rewrite E1'. split; [reflexivity|]. cbn [t_node t_call t_prog].
        repeat (split; [first [assumption|reflexivity]|]). cbn [returns]. rewrite app_nil_r. split; [exact P4|]. right. right. left. reflexivity.
      + injection E4 as <- <- <- <-. constructor; auto.
        * intros n1 Hn. rewrite (Hn' _ Hn). auto.
        * left. eexists. unfold w' at 1. cbn [c_threads]. rewrite E1'. split; [reflexivity|]. cbn [t_node t_call t_prog].
          repeat (split; [first [assumption|reflexivity]|]). cbn [returns]. rewrite app_nil_r. split; [exact P4|]. right. right. right. left. split; [reflexivity|].
          intros n1 Hn. rewrite (Hn' _ Hn). unfold fresh, read_string, read_value. cbn. rewrite !mdel_same. auto.
      + injection E4 as <- <- <- <-. destruct (Same eq_refl) as [S1 S2]. constructor; auto.
        left. eexists. unfold w' at 1. cbn [c_threads]. rewrite E1'. split; [reflexivity|]. cbn [t_node t_call t_prog].
        repeat (split; [first [assumption|reflexivity]|]). cbn [returns]. rewrite app_nil_r. split; [exact P4|]. right. right. right. right. left. split; [reflexivity|].
        split; [auto|]. unfold gone, w'. cbn [c_redis]. unfold redis_delete. rewrite (HW _ (le_n _)). cbn [fst r_hash]. rewrite hget_hdel, seqb_refl. reflexivity.
      + injection E4 as <- <- <- <-. destruct (Same eq_refl) as [S1 S2]. constructor; auto.
        left. eexists. unfold w' at 1. cbn [c_threads]. rewrite E1'. split; [reflexivity|]. cbn [t_node t_call t_prog].
        repeat (split; [first [assumption|reflexivity]|]). cbn [returns]. rewrite app_nil_r. split; [exact P4|]. right. right. right. right. right. split; [reflexivity|]. split; [auto|exact Q2].
      + injection E4 as <- <- <- <-. destruct (Same eq_refl) as [S1 S2]. constructor; auto.
        right. split; [|intros r _; split; [auto|exact Q2]].
        intros j1 o1. unfold w'. rewrite (call_of_upd w t t th) by exact E1. cbn [t_call reset_ret]. destruct (Nat.eq_dec t t); [discriminate|contradiction].
  Qed.
End reset.

Lemma conc_reset {V} ok ord h pols n sched sched2 t j k p s x r :
  let c := @conc_exec V ok ord h pols n sched in
  calm j k (snd c) -> unread j (snd c) -> calling t (snd c) = None -> redis_works ok (fst c) ->
  has_processor (fst c) j k p -> defaults (fst c) j k s x ->
  Forall (spares_key j k) sched2 -> Forall (no_reads j) sched2 ->
  let c2 := exec (cstep ok ord) (fst c) (CCall t j (OReset k) :: sched2) in
  In (EReturned t j (OReset k) r) (snd c2) ->
  saved (fst c2) k = None /\ reads_as (fst c2) j k s x /\ calm j k (snd c ++ snd c2) /\ unread j (snd c ++ snd c2) /\
  has_processor (fst c2) j k p.
Proof.
  intros c Hc Hu Hi Hw [nd0 [Hnd0 Hpr]] [nd [Hnd Hdef]] HF1 HF2 c2 Hret. rewrite Hnd in Hnd0. injection Hnd0 as <-.
  assert (HF : Forall (quiet_label j k) sched2).
  { rewrite Forall_forall in *. intros l Hl. split; auto. }
  destruct (@inv_reach V ok ord h pols n sched) as [hs HI]. fold c in HI.
  assert (HO : origin (fst c)) by apply origin_reach.
  assert (HS : forall u, spared j k (fst c) u).
  { intros u j' o H. assert (E : calling u (snd c) = Some (j', o)) by (unfold c; rewrite calling_reach; exact H).
    split; [eapply Hc; exact E|]. intros ->. eapply Hu; exact E. }
  unfold c in Hi. rewrite calling_reach in Hi. fold c in Hi.
  assert (Len : (j < length (c_nodes (fst c)))%nat) by (apply nth_error_Some; congruence).
  assert (NL : forall (w : cworld V) sched', length (c_nodes (fst (exec (cstep ok ord) w sched'))) = length (c_nodes w)).
  { intros w sched'. refine (exec_inv (cstep ok ord) (fun w1 _ => length (c_nodes w1) = length (c_nodes w)) _ sched' w [] eq_refl).
    intros w1 l w2 es _ H Hs. destruct l as [u j' o|u now].
    - apply cstep_call in Hs. destruct Hs as (? & ? & _ & _ & _ & -> & _). exact H.
    - apply cstep_step in Hs. destruct Hs as (? & ? & ? & ? & ? & ? & ? & ? & _ & _ & _ & _ & -> & _). cbn. rewrite upd_length. exact H. }
  assert (Fin : forall (w : cworld V) tr tr0, resetting ok j t k p s x w tr -> (forall u, calling u (snd c ++ tr0) = call_of w u) ->
    length (c_nodes w) = length (c_nodes (fst c)) ->
    In (EReturned t j (OReset k) r) (tr ++ snd (exec (cstep ok ord) w sched2)) ->
    let f := exec (cstep ok ord) w sched2 in
    saved (fst f) k = None /\ reads_as (fst f) j k s x /\ calm j k ((snd c ++ tr0) ++ snd f) /\ unread j ((snd c ++ tr0) ++ snd f) /\ has_processor (fst f) j k p).
  { intros w tr tr0 HD HCa HL Hr f.
    pose proof (exec_inv_lab (cstep ok ord) (quiet_label j k) (resetting ok j t k p s x)
      (fun s0 l s1 es tr Hl HI Hs => resetting_step ok ord j t k p s x s0 l s1 es tr Hl HI Hs) sched2 HF w tr HD) as HD'. fold f in HD', Hr.
    destruct HD' as [_ _ _ D3 D4 D5]. destruct D5 as [(th & _ & _ & _ & P4 & _)|[P1 P2]]; [exfalso; eapply P4; exact Hr|].
    destruct (P2 r Hr) as [Q1 Q2].
    assert (Sp : forall u, spared j k (fst f) u) by (intros u; destruct (Nat.eq_dec u t) as [->|ne]; auto).
    assert (Ca : forall u, calling u ((snd c ++ tr0) ++ snd f) = call_of (fst f) u).
    { intros u. apply calling_exec; [apply HD|exact HCa]. }
    split; [exact Q2|]. split; [|split; [|split]].
    - destruct (nth_error (c_nodes (fst f)) j) as [n1|] eqn:En; [|apply nth_error_None in En; unfold f in En; rewrite NL in En; lia].
      exists n1. split; [exact En|]. apply Q1. exact En.
    - intros u j' o H. rewrite Ca in H. apply (Sp u _ _ H).
    - intros u o H. rewrite Ca in H. apply (Sp u _ _ H). reflexivity.
    - destruct (nth_error (c_nodes (fst f)) j) as [n1|] eqn:En; [|apply nth_error_None in En; unfold f in En; rewrite NL in En; lia].
      exists n1. split; [exact En|]. apply D3. reflexivity. }
  assert (HD : forall n1, nth_error (c_nodes (fst c)) j = Some n1 -> s_defstr (n_maps n1) k = s /\ s_def (n_maps n1) k = x /\ s_procs (n_maps n1) k = Some p).
  { intros n1 H. rewrite Hnd in H. injection H as <-. destruct Hdef. auto. }
  assert (HCa : forall u, calling u (snd c) = call_of (fst c) u) by (intros u; apply calling_reach).
  unfold c2 in *. cbn [exec] in *. destruct (cstep ok ord (fst c) (CCall t j (OReset k))) as [[w1 es]|] eqn:Es.
  2:{ pose proof (Fin (fst c) [] []) as F. rewrite app_nil_r in F. apply F; auto. constructor; auto; [exists hs; exact HI|].
      right. split; [apply HS|]. intros r' []. }
  pose proof (inv_step ok ord _ hs _ _ _ HI Es) as HI1. pose proof (origin_step ok ord _ _ _ _ HO Es) as HO1.
  assert (HCa1 : forall u, calling u (snd c ++ es) = call_of w1 u).
  { intros u. eapply calling_step_ok; [exists hs; exact HI|exact HCa|exact Es]. }
  apply cstep_call in Es. destruct Es as (th & nd' & E1 & E2 & E3 & -> & ->).
  match type of HI1 with exists hs, inv ?w hs => set (w1 := w) in * end.
  assert (D1 : resetting ok j t k p s x w1 []).
  { constructor; auto.
    - intros u Hut j' o. unfold w1. rewrite (call_of_upd (fst c) t u th) by exact E1. destruct (Nat.eq_dec t u) as [<-|ne]; [contradiction|apply HS].
    - left. eexists. unfold w1. cbn [c_threads]. rewrite nth_error_upd_same with (y := th) by exact E1. split; [reflexivity|].
      cbn [t_node t_call t_prog]. split; [reflexivity|]. split; [reflexivity|]. split; [intros r' []|]. left. reflexivity. }
  destruct (exec (cstep ok ord) w1 sched2) as [w2 es2] eqn:Ex. cbn [fst snd] in *.
  pose proof (Fin w1 [] [ECalled t j (OReset k)] D1 HCa1 eq_refl) as F. rewrite Ex in F. cbn [fst snd app] in F.
  rewrite <- app_assoc in F. apply F. destruct Hret as [Hret|Hret]; [discriminate|exact Hret].
Qed.

Lemma cmds_grow {V} ok ord (w : cworld V) sched : (r_cmds (c_redis w) <= r_cmds (c_redis (fst (exec (cstep ok ord) w sched))))%nat.
Proof.
  refine (exec_inv (cstep ok ord) (fun w1 _ => (r_cmds (c_redis w) <= r_cmds (c_redis w1))%nat) _ sched w [] (le_n _)).
  intros w1 l w2 es _ H Hs. destruct l as [u j' o|u now].
  - apply cstep_call in Hs. destruct Hs as (? & ? & _ & _ & _ & -> & _). exact H.
  - apply cstep_step in Hs. destruct Hs as (? & ? & ? & ? & ? & ? & ? & ? & _ & _ & _ & E & -> & _). cbn [c_redis].
    apply istep_cmds in E. lia.
Qed.
