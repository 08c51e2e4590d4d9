(** What reads of the concurrent store show: which values reach which process. *)
From Coq Require Import Permutation.
From Verif Require Import Common Bytes Threads StoreModel StoreSpec StoreProofs StoreConcModel StoreConcSpec StoreConcProofs.
Local Open Scope list_scope.

Lemma exec_inv_lab {S L E : Type} (step : S -> L -> option (S * list E)) (P : L -> Prop) (I : S -> list E -> Prop) :
  (forall s l s1 es tr, P l -> I s tr -> step s l = Some (s1, es) -> I s1 (tr ++ es)) ->
  forall sched, Forall P sched -> forall s tr, I s tr -> I (fst (exec step s sched)) (tr ++ snd (exec step s sched)).
Proof.
  intros Hstep sched HF. induction HF as [|l sched Hl HF IH]; intros s tr HI; cbn.
  - rewrite app_nil_r. exact HI.
  - destruct (step s l) as [[s1 es]|] eqn:Est; [|apply IH; exact HI].
    specialize (IH s1 (tr ++ es) (Hstep _ _ _ _ _ Hl HI Est)).
    destruct (exec step s1 sched) as [s2 es2]. cbn in *. rewrite app_assoc. exact IH.
Qed.

Lemma hget_of_in h k v : NoDup (map fst h) -> In (k, v) h -> hget h k = Some v.
Proof.
  induction h as [|[k' v'] h IH]; cbn; intros ND H; [contradiction|]. inversion ND as [|? ? N1 N2]; subst.
  destruct H as [H|H].
  - injection H as -> ->. rewrite seqb_refl. reflexivity.
  - destruct (k' =? k)%string eqn:E; [|apply IH; assumption]. apply String.eqb_eq in E. subst. exfalso. apply N1.
    apply in_map_iff. exists (k, v). auto.
Qed.

Ltac each := repeat first [apply Forall_nil | apply Forall_cons]; try exact I; try reflexivity; try assumption; cbn; auto.

(** ** Where the instructions of a call come from *)
Definition from_call {V} (o : sop V) (i : instr V) : Prop :=
  match i with
  | IBatch kvs => o = OBatchUpdate kvs
  | ISave k v => o = OUpdate k v
  | IDelete k => o = ODeregister k \/ o = OReset k
  | IDrop k => o = ODeregister k
  | IClear k => o = OReset k
  | IRegister k d p => o = ORegister k d (Some p)
  | ILookup _ k v | ICheck _ _ k v | IWrite _ k v =>
    is_read o = true \/ o = OUpdate k v \/ o = OUpdateNoPersist k v \/ exists kvs, o = OBatchUpdate kvs /\ In (k, v) kvs
  | IMLock | IMUnlock | IClock | IHGetAll _ | IMark | IRead _ | IReadStr _ => is_read o = true
  | _ => True
  end.

Lemma from_update {V} (o : sop V) keep k v :
  (is_read o = true \/ o = OUpdate k v \/ o = OUpdateNoPersist k v \/ exists kvs, o = OBatchUpdate kvs /\ In (k, v) kvs) ->
  Forall (from_call o) (p_update keep k v).
Proof. intros H. unfold p_update. destruct (k =? "")%string; each. Qed.
Lemma from_load {V} (o : sop V) pol : is_read o = true -> Forall (from_call o) (p_load pol).
Proof. intros H. destruct pol; each. Qed.
Lemma Forall_flat_map {A B} (P : B -> Prop) (f : A -> list B) l : (forall a, In a l -> Forall P (f a)) -> Forall P (flat_map f l).
Proof.
  intros H. induction l as [|a l IH]; [constructor|]. cbn. apply Forall_app. split; [apply H; left; reflexivity|].
  apply IH. intros b Hb. apply H. right. exact Hb.
Qed.

Lemma from_p_call {V} pol (o : sop V) : Forall (from_call o) (p_call pol o).
Proof.
  assert (G : forall (o : sop V) k, is_read o = true -> Forall (from_call o) (p_get pol k)).
  { intros o' k H. apply Forall_app. split; [apply from_load; exact H|]. each. }
  assert (GS : forall (o : sop V) k, is_read o = true -> Forall (from_call o) (p_get_str pol k)).
  { intros o' k H. apply Forall_app. split; [apply from_load; exact H|]. each. }
  destruct o; cbn [p_call].
  - destruct (key =? "")%string; [each|]. destruct vp; each.
  - destruct (key =? "")%string; each.
  - apply Forall_app. split; [apply from_update; auto|each].
  - apply Forall_app. split; [apply from_update; auto|each].
  - destruct kvs as [|kv kvs]; [each|]. apply Forall_app. split; [|each].
    apply Forall_flat_map. intros [k v] Hk. apply from_update. right. right. right. exists (kv :: kvs). auto.
  - each.
  - apply Forall_app. split; [apply G; reflexivity|each].
  - apply Forall_app. split; [apply GS; reflexivity|each].
  - apply Forall_app. split; [apply from_load; reflexivity|]. apply Forall_app. split; [apply G; reflexivity|each].
  - apply Forall_app. split; [apply from_load; reflexivity|]. apply Forall_app. split; [apply GS; reflexivity|each].
  - apply Forall_app. split; [apply from_load; reflexivity|]. apply Forall_app. split; [|each].
    apply Forall_flat_map. intros k _. apply G. reflexivity.
  - apply Forall_app. split; [apply from_load; reflexivity|]. apply Forall_app. split; [|each].
    apply Forall_flat_map. intros k _. apply GS. reflexivity.
Qed.

(** What an instruction pushes; tactic to go through the cases. *)
Ltac step_cases Hs :=
  match type of Hs with
  | istep ?okf _ _ _ ?n ?r ?g ?i = Some _ =>
    destruct i as [l|l|l|l|l| | | |mark| |keep k1 v1|keep p1 k1 v1|p1 k1 v1|kvs1|k1 v1|k1|k1 d1 p1|k1|k1|k1|k1|f1]; cbn [istep] in Hs;
    [ destruct (rlock _ _); [injection Hs as <- <- <- <-|discriminate Hs]
    | injection Hs as <- <- <- <-
    | destruct (announce _ _); [injection Hs as <- <- <- <-|discriminate Hs]
    | destruct (acquire _ _); [injection Hs as <- <- <- <-|discriminate Hs]
    | injection Hs as <- <- <- <-
    | destruct (n_mlock n) eqn:Emx; [discriminate Hs|injection Hs as <- <- <- <-]
    | injection Hs as <- <- <- <-
    | destruct (wants_load _ _ _) eqn:Ewl; injection Hs as <- <- <- <-
    | unfold redis_load in Hs; destruct (okf _) eqn:Eok; injection Hs as <- <- <- <-
    | injection Hs as <- <- <- <-
    | injection Hs as <- <- <- <-
    | destruct (lookup_value _ _ _) eqn:Elv; injection Hs as <- <- <- <-
    | injection Hs as <- <- <- <-
    | injection Hs as <- <- <- <-
    | destruct (g_errs g) eqn:Eg; [injection Hs as <- <- <- <-|destruct (redis_save _ _ _ _) eqn:Esv; injection Hs as <- <- <- <-]
    | injection Hs as <- <- <- <-
    | destruct (register_key _ _ _ _) eqn:Erk; injection Hs as <- <- <- <-
    | injection Hs as <- <- <- <-
    | injection Hs as <- <- <- <-
    | injection Hs as <- <- <- <-
    | injection Hs as <- <- <- <-
    | injection Hs as <- <- <- <- ]
  end.

Lemma lookup_inr {V} (q : option (proc V)) k v p : lookup_value (fun _ => q) k v = inr p -> q = Some p /\ accepts p v = true.
Proof.
  unfold lookup_value, accepts. destruct q as [p'|]; [|discriminate]. destruct (p_validate p' v) as [[] e] eqn:E; cbn; [|discriminate].
  intros H. injection H as <-. rewrite E. auto.
Qed.

Section fresh.
  Context {V : Type} (ok : nat -> bool) (ord : nat -> list (string * string) -> list (string * string)).
  Hypothesis Hord : any_order ord.

  Lemma from_istep (o : sop V) t now n r g i n' r' new g' :
    istep ok ord t now n r g i = Some (n', r', new, g') -> from_call o i -> Forall (from_call o) new.
  Proof.
    intros Hs Hf. step_cases Hs; try (each; fail).
    - apply Forall_app. split; [|destruct mark; each].
      apply Forall_flat_map. intros kv _. apply from_update. left. exact Hf.
  Qed.

  Definition origin (w : cworld V) : Prop := forall t th o,
    nth_error (c_threads w) t = Some th -> t_call th = Some o -> Forall (from_call o) (t_prog th).

  Lemma origin_step w l w' es : origin w -> cstep ok ord w l = Some (w', es) -> origin w'.
  Proof.
    intros HO Hs t th o Ht Ho. destruct l as [u j o'|u now].
    - apply cstep_call in Hs. destruct Hs as (th0 & n & E1 & E2 & E3 & -> & _). cbn [c_threads] in Ht.
      rewrite nth_error_upd in Ht. destruct (Nat.eq_dec u t) as [<-|ne]; [|eapply HO; eassumption].
      rewrite E1 in Ht. injection Ht as <-. injection Ho as <-. apply from_p_call.
    - apply cstep_step in Hs. destruct Hs as (th0 & i & rest & n & n' & r' & new & g' & E1 & E2 & E3 & E4 & -> & _). cbn [c_threads] in Ht.
      rewrite nth_error_upd in Ht. destruct (Nat.eq_dec u t) as [<-|ne]; [|eapply HO; eassumption].
      rewrite E1 in Ht. injection Ht as <-. cbn [t_call t_prog] in *.
      assert (Ho' : t_call th0 = Some o) by (destruct i; first [exact Ho|discriminate Ho]).
      specialize (HO _ _ _ E1 Ho'). rewrite E2 in HO. inversion HO as [|? ? H1 H2]; subst.
      apply Forall_app. split; [eapply from_istep; eassumption|exact H2].
  Qed.

  Lemma origin_reach h pols n sched : origin (fst (@conc_exec V ok ord h pols n sched)).
  Proof.
    refine (exec_inv (cstep ok ord) (fun w _ => origin w) _ sched (cworld0 h pols n) [] _).
    - intros s l s1 es _ H Hs. eapply origin_step; eassumption.
    - intros t th o Ht Ho. cbn in Ht. apply nth_error_In, repeat_spec in Ht. subst. discriminate.
  Qed.

  (** ** The hash and the policies *)
  Lemma istep_hash t now (n : node V) r g i n' r' new g' : istep ok ord t now n r g i = Some (n', r', new, g') ->
    NoDup (map fst (r_hash r)) -> NoDup (map fst (r_hash r')).
  Proof.
    assert (B : forall r kvs, NoDup (map fst (r_hash r)) -> NoDup (map fst (r_hash (fst (redis_batch ok r kvs))))).
    { intros r0 kvs H. unfold redis_batch. destruct kvs; [exact H|]. destruct (ok _); [apply hmset_nodup|]; exact H. }
    intros Hs H. step_cases Hs; try exact H.
    - apply B. exact H.
    - unfold redis_save in Esv. specialize (B r [(k1, v1)] H). rewrite Esv in B. exact B.
    - unfold redis_delete. destruct (ok _); [apply hdel_nodup|]; exact H.
  Qed.
  Lemma istep_pol t now (n : node V) r g i n' r' new g' : istep ok ord t now n r g i = Some (n', r', new, g') -> n_pol n' = n_pol n.
  Proof. intros Hs. step_cases Hs; try reflexivity; destruct l; reflexivity. Qed.

  Definition basics (pols : list policy) (w : cworld V) : Prop :=
    NoDup (map fst (r_hash (c_redis w))) /\ map n_pol (c_nodes w) = pols.
  Lemma map_upd {A B} (f : A -> B) i x l o : nth_error l i = Some o -> f x = f o -> map f (upd i x l) = map f l.
  Proof.
    revert i. induction l as [|z l IH]; intros [|i] H E; cbn in *; try discriminate.
    - injection H as ->. rewrite E. reflexivity.
    - f_equal. apply IH; assumption.
  Qed.
  Lemma basics_step pols w l w' es : basics pols w -> cstep ok ord w l = Some (w', es) -> basics pols w'.
  Proof.
    intros [H1 H2] Hs. destruct l as [u j o'|u now].
    - apply cstep_call in Hs. destruct Hs as (th0 & n & E1 & E2 & E3 & -> & _). split; assumption.
    - apply cstep_step in Hs. destruct Hs as (th0 & i & rest & n & n' & r' & new & g' & E1 & E2 & E3 & E4 & -> & _).
      split; cbn [c_redis c_nodes]; [eapply istep_hash; eassumption|]. rewrite (map_upd _ _ _ _ _ E3); [exact H2|eapply istep_pol; exact E4].
  Qed.
  Lemma basics_reach h pols n sched : NoDup (map fst h) -> basics pols (fst (@conc_exec V ok ord h pols n sched)).
  Proof.
    intros ND. refine (exec_inv (cstep ok ord) (fun w _ => basics pols w) _ sched (cworld0 h pols n) [] _).
    - intros s l s1 es _ H Hs. eapply basics_step; eassumption.
    - split; [exact ND|]. cbn. rewrite map_map. cbn. apply map_id.
  Qed.

  Section key.
    Variable (j : nat) (k : string) (sv : option string) (p : proc V) (s : option string) (x : option V).
    Hypothesis Hk : k <> ""%string.
    Hypothesis Hsv : forall v, sv = Some v -> accepts p v = true /\ s = Some v /\ x = Some (p_convert p v).

    (** Instructions of a goroutine working on store [j'] that leave key [k] alone, or write what is saved. *)
    Definition allowed (j' : nat) (i : instr V) : Prop :=
      match i with
      | IBatch kvs => ~ In k (map fst kvs)
      | ISave k' _ | IDelete k' | IDrop k' | IClear k' => k' <> k
      | IRegister k' _ _ => j' = j -> k' <> k
      | ILookup _ k' v' => j' = j -> k' = k -> sv = Some v'
      | ICheck _ q k' v' => j' = j -> k' = k -> sv = Some v' /\ q = Some p
      | IWrite q k' v' => j' = j -> k' = k -> sv = Some v' /\ q = p
      | _ => True
      end.

    Definition fresh (n : node V) : Prop := read_string (n_maps n) k = s /\ read_value (n_maps n) k = x.

    Lemma mset_ne {A} (m : smap A) k1 v1 : k1 <> k -> mset m k1 v1 k = m k.
    Proof. intros H. apply mset_other. congruence. Qed.
    Lemma mdel_ne {A} (m : smap A) k1 : k1 <> k -> mdel m k1 k = m k.
    Proof. intros H. apply mdel_other. congruence. Qed.

    Lemma istep_saved t now (n : node V) r g i n' r' new g' j' : istep ok ord t now n r g i = Some (n', r', new, g') -> allowed j' i ->
      hget (r_hash r') k = hget (r_hash r) k /\ (r_cmds r <= r_cmds r')%nat.
    Proof.
      assert (B : forall r kvs, ~ In k (map fst kvs) ->
        hget (r_hash (fst (redis_batch ok r kvs))) k = hget (r_hash r) k /\ (r_cmds r <= r_cmds (fst (redis_batch ok r kvs)))%nat).
      { intros r0 kvs H. unfold redis_batch. destruct kvs as [|kv kvs]; [split; [reflexivity|cbn; lia]|].
        destruct (ok _); cbn [fst r_hash r_cmds]; (split; [|lia]); [apply hget_hmset_other; exact H|reflexivity]. }
      intros Hs Ha. step_cases Hs; try (split; [reflexivity|cbn; lia]).
      - apply B. intros Hin. apply Ha. apply in_map_iff in Hin. destruct Hin as (kv & E & Hin). apply filter_In in Hin.
        apply in_map_iff. exists kv. tauto.
      - unfold redis_save in Esv. specialize (B r [(k1, v1)]). rewrite Esv in B. apply B. intros [X|[]]. apply Ha. exact X.
      - unfold redis_delete. destruct (ok _); cbn [fst r_hash r_cmds]; (split; [|lia]); [|reflexivity].
        rewrite hget_hdel. cbn in Ha. apply String.eqb_neq in Ha. rewrite Ha. reflexivity.
    Qed.

    Lemma istep_procs t now n r g i n' r' new g' : istep ok ord t now n r g i = Some (n', r', new, g') -> allowed j i ->
      s_procs (n_maps n') k = s_procs (n_maps n) k /\ s_def (n_maps n') k = s_def (n_maps n) k /\ s_defstr (n_maps n') k = s_defstr (n_maps n) k.
    Proof.
      intros Hs Ha. step_cases Hs; try (repeat split; reflexivity); try (destruct l; repeat split; reflexivity).
      - specialize (Ha eq_refl). unfold register_key in Erk. destruct (k1 =? "")%string; [injection Erk as <- <-; auto|].
        destruct (s_procs (n_maps n) k1); [injection Erk as <- <-; auto|]. destruct (s_def (n_maps n) k1); [injection Erk as <- <-; auto|].
        destruct (p_validate p1 d1) as [[] e]; cbn in Erk; injection Erk as <- <-; [|auto].
        cbn. rewrite !mset_ne by exact Ha. auto.
      - cbn in Ha. cbn. rewrite !mdel_ne by exact Ha. auto.
    Qed.

    Lemma istep_fresh t now n r g i n' r' new g' : istep ok ord t now n r g i = Some (n', r', new, g') -> allowed j i ->
      fresh n -> fresh n'.
    Proof.
      intros Hs Ha [F1 F2]. unfold fresh, read_string, read_value in *. step_cases Hs; try (split; assumption); try (destruct l; split; assumption).
      - cbn. destruct (String.string_dec k1 k) as [E|E]; [|rewrite !mset_ne by exact E; split; assumption].
        subst k1. rewrite !mset_same. destruct (Ha eq_refl eq_refl) as [E1 ->]. destruct (Hsv _ E1) as (_ & -> & ->). split; reflexivity.
      - specialize (Ha eq_refl). unfold register_key in Erk. destruct (k1 =? "")%string; [injection Erk as <- <-; auto|].
        destruct (s_procs (n_maps n) k1); [injection Erk as <- <-; auto|]. destruct (s_def (n_maps n) k1); [injection Erk as <- <-; auto|].
        destruct (p_validate p1 d1) as [[] e]; cbn in Erk; injection Erk as <- <-; [|auto].
        cbn. rewrite !mset_ne by exact Ha. auto.
      - cbn in Ha. cbn. rewrite !mdel_ne by exact Ha. auto.
      - cbn in Ha. cbn. rewrite !mdel_ne by exact Ha. auto.
    Qed.

    Lemma istep_allowed t now n r g i n' r' new g' j' : istep ok ord t now n r g i = Some (n', r', new, g') -> allowed j' i ->
      NoDup (map fst (r_hash r)) -> hget (r_hash r) k = sv -> (j' = j -> sv <> None -> s_procs (n_maps n) k = Some p) ->
      Forall (allowed j') new.
    Proof.
      intros Hs Ha ND Hh Hp. step_cases Hs; try (each; fail).
      - apply Forall_app. split; [|destruct mark; each]. apply Forall_flat_map. intros [k1 v1] Hin. cbn [fst snd].
        unfold p_update. destruct (k1 =? "")%string; each. cbn. intros _ ->. rewrite <- Hh. apply hget_of_in; [exact ND|].
        eapply Permutation_in; [apply Permutation_sym, Hord|exact Hin].
      - each. cbn in *. intros Ej ->. specialize (Ha Ej eq_refl). split; [exact Ha|]. apply Hp; [exact Ej|congruence].
      - apply lookup_inr in Elv. destruct Elv as [-> _]. each. cbn in *. intros Ej ->. destruct (Ha Ej eq_refl) as [E1 E2].
        split; [exact E1|congruence].
    Qed.

    (** ** Every read of the key comes after something that makes it fresh *)
    Definition covers (clk : bool) (i : instr V) : bool :=
      match i with
      | IHGetAll _ => true
      | IClock => clk
      | ILookup _ k' _ | ICheck _ _ k' _ | IWrite _ k' _ => (k' =? k)%string
      | _ => false
      end.
    Definition uses (i : instr V) : bool := match i with IRead k' | IReadStr k' => (k' =? k)%string | _ => false end.
    Definition marks (i : instr V) : bool := match i with IMark => true | _ => false end.
    Fixpoint guarded (c f : instr V -> bool) (pr : list (instr V)) : Prop :=
      match pr with
      | [] => True
      | i :: rest => if c i then True else if f i then False else guarded c f rest
      end.

    Lemma guarded_pass c f a b : Forall (fun i => f i = false) a -> guarded c f b -> guarded c f (a ++ b).
    Proof.
      intros HF Hb. induction HF as [|i a Hi HF IH]; [exact Hb|]. cbn. destruct (c i); [exact I|]. rewrite Hi. exact IH.
    Qed.
    Lemma guarded_cover c f a b : Forall (fun i => f i = false) a -> Exists (fun i => c i = true) a -> guarded c f (a ++ b).
    Proof.
      intros HF HE. induction HF as [|i a Hi HF IH]; [inversion HE|]. cbn. destruct (c i) eqn:E; [exact I|]. rewrite Hi.
      apply IH. inversion HE; subst; [congruence|assumption].
    Qed.
    Lemma guarded_free c f a : Forall (fun i => f i = false) a -> guarded c f a.
    Proof. intros H. rewrite <- (app_nil_r a). apply guarded_pass; [exact H|exact I]. Qed.

    (** [f] is one of the two kinds of instructions that must be guarded. *)
    Definition guard_kind (f : instr V -> bool) : Prop := f = uses \/ f = marks.
    Lemma updates_plain f kvs keep : guard_kind f ->
      Forall (fun i => f i = false) (flat_map (fun kv => p_update keep (fst kv) (snd kv)) kvs).
    Proof.
      intros Hf. apply Forall_flat_map. intros kv _. unfold p_update. destruct (_ =? _)%string; each; destruct Hf as [->| ->]; reflexivity.
    Qed.

    Lemma istep_guard c f t now n r g i n' r' new g' rest : guard_kind f ->
      istep ok ord t now n r g i = Some (n', r', new, g') -> allowed j i ->
      (exists v, sv = Some v) -> NoDup (map fst (r_hash r)) -> hget (r_hash r) k = sv -> s_procs (n_maps n) k = Some p ->
      ok (r_cmds r) = true ->
      (c = true -> i = IClock -> wants_load (n_pol n) (n_last n) now = false -> fresh n') ->
      guarded (covers c) f (i :: rest) ->
      fresh n' \/ guarded (covers c) f (new ++ rest).
    Proof.
      intros Hf Hs Ha [v Ev] ND Hh Hp Hok Hclk HG.
      assert (Plain : covers c i = false -> guarded (covers c) f rest).
      { intros Hc. cbn in HG. rewrite Hc in HG. destruct (f i); [contradiction|exact HG]. }
      step_cases Hs; try (right; apply Plain; reflexivity).
      - right. exact I.
      - destruct c; [left; apply Hclk; auto|right; apply Plain; reflexivity].
      - right. rewrite <- app_assoc. apply guarded_cover; [apply updates_plain; exact Hf|].
        apply Exists_exists. assert (Hin : In (k, v) (ord (r_cmds r) (r_hash r))).
        { eapply Permutation_in; [apply Hord|]. apply hget_in. congruence. }
        exists (ILookup false k v). split; [|apply seqb_refl]. apply in_flat_map. exists (k, v). split; [exact Hin|].
        unfold p_update. cbn [fst snd]. destruct (k =? "")%string eqn:E; [apply String.eqb_eq in E; contradiction|]. right. left. reflexivity.
      - congruence.
      - right. destruct (k1 =? k)%string eqn:E.
        + cbn. rewrite E. destruct (f (IRUnlock ProcLock)) eqn:Ef; [destruct Hf as [->| ->]; discriminate Ef|exact I].
        + apply guarded_pass; [each; destruct Hf as [->| ->]; reflexivity|]. apply Plain. exact E.
      - right. apply Plain. cbn. destruct (k1 =? k)%string eqn:E; [|reflexivity]. exfalso. apply String.eqb_eq in E. subst k1.
        destruct (Ha eq_refl eq_refl) as [E1 ->]. destruct (Hsv _ E1) as [Hacc _]. unfold lookup_value, accepts in *.
        destruct (p_validate p v1) as [b e]. cbn in Hacc. subst b. discriminate.
      - right. destruct (k1 =? k)%string eqn:E.
        + cbn. rewrite E. destruct (f (IAnnounce KvLock)) eqn:Ef; [destruct Hf as [->| ->]; discriminate Ef|].
          destruct (f (IAcquire KvLock)) eqn:Ef2; [destruct Hf as [->| ->]; discriminate Ef2|exact I].
        + apply guarded_pass; [each; destruct Hf as [->| ->]; reflexivity|]. apply Plain. exact E.
      - destruct (k1 =? k)%string eqn:E; [|right; apply Plain; exact E]. left. apply String.eqb_eq in E. subst k1.
        destruct (Ha eq_refl eq_refl) as [E1 ->]. destruct (Hsv _ E1) as (_ & X1 & X2).
        unfold fresh, read_string, read_value. cbn. rewrite !mset_same, X1, X2. split; reflexivity.
    Qed.

    (** ** What a call has read so far *)
    Definition expected (o : sop V) : list string :=
      match o with OGet k' | OMustGet k' => [k'] | OBatchGet ks => nonempty ks | _ => [] end.
    Definition expected_str (o : sop V) : list string :=
      match o with OGetString k' | OMustGetString k' => [k'] | OBatchGetString ks => nonempty ks | _ => [] end.
    Definition reads_of (pr : list (instr V)) : list string := flat_map (fun i => match i with IRead k' => [k'] | _ => [] end) pr.
    Definition strs_of (pr : list (instr V)) : list string := flat_map (fun i => match i with IReadStr k' => [k'] | _ => [] end) pr.
    Definition ret_of (o : sop V) : regs V -> sres V :=
      match o with
      | OGet _ => fun g => RVal (one (g_vals g))
      | OGetString _ => fun g => RStr (one (g_strs g))
      | OMustGet _ => fun g => match one (g_vals g) with Some v => RMust v | None => RPanic end
      | OMustGetString _ => fun g => match one (g_strs g) with Some v => RMustStr v | None => RPanic end
      | OBatchGet _ => fun g => RVals (g_vals g)
      | OBatchGetString _ => fun g => RStrs (g_strs g)
      | _ => fun _ => RDone
      end.
    Definition matches {A} (y : option A) (done : list string) (l : list (string * A)) : Prop :=
      Forall (fun kv => In (fst kv) done) l /\ entries k l = copies k y (count k done).
    Definition regs_ok (o : sop V) (pr : list (instr V)) (g : regs V) : Prop :=
      (exists done, done ++ reads_of pr = expected o /\ matches x done (g_vals g)) /\
      (exists done, done ++ strs_of pr = expected_str o /\ matches s done (g_strs g)) /\
      exists pre, pr = pre ++ [IReturn (ret_of o)].

    Lemma reads_of_app a b : reads_of (a ++ b) = reads_of a ++ reads_of b.
    Proof. apply flat_map_app. Qed.
    Lemma strs_of_app a b : strs_of (a ++ b) = strs_of a ++ strs_of b.
    Proof. apply flat_map_app. Qed.
    Lemma reads_load pol : reads_of (p_load pol) = [] /\ strs_of (p_load pol) = [].
    Proof. destruct pol; split; reflexivity. Qed.
    Lemma reads_get pol k' : reads_of (p_get pol k') = [k'] /\ strs_of (p_get pol k') = [].
    Proof. unfold p_get. rewrite reads_of_app, strs_of_app. destruct (reads_load pol) as [-> ->]. split; reflexivity. Qed.
    Lemma reads_get_str pol k' : reads_of (p_get_str pol k') = [] /\ strs_of (p_get_str pol k') = [k'].
    Proof. unfold p_get_str. rewrite reads_of_app, strs_of_app. destruct (reads_load pol) as [-> ->]. split; reflexivity. Qed.
    Lemma reads_gets pol ks : reads_of (flat_map (p_get pol) ks) = ks /\ strs_of (flat_map (p_get pol) ks) = [].
    Proof.
      induction ks as [|k' ks [IH1 IH2]]; [split; reflexivity|]. cbn [flat_map]. rewrite reads_of_app, strs_of_app, IH1, IH2.
      destruct (reads_get pol k') as [-> ->]. split; reflexivity.
    Qed.
    Lemma reads_get_strs pol ks : reads_of (flat_map (p_get_str pol) ks) = [] /\ strs_of (flat_map (p_get_str pol) ks) = ks.
    Proof.
      induction ks as [|k' ks [IH1 IH2]]; [split; reflexivity|]. cbn [flat_map]. rewrite reads_of_app, strs_of_app, IH1, IH2.
      destruct (reads_get_str pol k') as [-> ->]. split; reflexivity.
    Qed.

    Lemma matches_nil {A} (y : option A) : matches y [] [].
    Proof. split; [constructor|]. destruct y; reflexivity. Qed.

    Lemma regs_call pol o : is_read o = true -> regs_ok o (p_call pol o) regs0.
    Proof.
      intros Ho. split; [|split].
      - exists []. split; [|apply matches_nil]. cbn [app].
        destruct o; try discriminate; cbn [p_call expected]; rewrite ?reads_of_app;
          rewrite ?(proj1 (reads_load pol)), ?(proj1 (reads_get pol key)), ?(proj1 (reads_get_str pol key)),
            ?(proj1 (reads_gets pol (nonempty keys))), ?(proj1 (reads_get_strs pol (nonempty keys))); cbn; rewrite ?app_nil_r; reflexivity.
      - exists []. split; [|apply matches_nil]. cbn [app].
        destruct o; try discriminate; cbn [p_call expected_str]; rewrite ?strs_of_app;
          rewrite ?(proj2 (reads_load pol)), ?(proj2 (reads_get pol key)), ?(proj2 (reads_get_str pol key)),
            ?(proj2 (reads_gets pol (nonempty keys))), ?(proj2 (reads_get_strs pol (nonempty keys))); cbn; rewrite ?app_nil_r; reflexivity.
      - destruct o; try discriminate; cbn [p_call ret_of]; rewrite ?app_assoc; eexists; reflexivity.
    Qed.

    Lemma count_app a b : count k (a ++ b) = (count k a + count k b)%nat.
    Proof. unfold count. rewrite filter_app, app_length. reflexivity. Qed.
    Lemma copies_app {A} (y : option A) a b : copies k y (a + b) = copies k y a ++ copies k y b.
    Proof. destruct y; cbn; [apply repeat_app|reflexivity]. Qed.

    Lemma matches_step {A} (y z : option A) done l k1 : matches y done l -> (k1 = k -> z = y) ->
      matches y (done ++ [k1]) (match z with Some v => l ++ [(k1, v)] | None => l end).
    Proof.
      intros [M1 M2] Hz.
      assert (M1' : Forall (fun kv : string * A => In (fst kv) (done ++ [k1])) l).
      { eapply Forall_impl; [|exact M1]. intros kv H. apply in_app_iff. auto. }
      split.
      - destruct z; [|exact M1']. apply Forall_app. split; [exact M1'|]. constructor; [|constructor]. apply in_app_iff. right. left. reflexivity.
      - rewrite count_app, copies_app, <- M2. unfold count, entries. cbn [filter]. destruct (String.string_dec k1 k) as [->|n].
        + rewrite (Hz eq_refl), seqb_refl. destruct y; cbn [length copies repeat].
          * rewrite filter_app. cbn [filter fst]. rewrite seqb_refl. reflexivity.
          * rewrite app_nil_r. reflexivity.
        + assert (E : (k =? k1)%string = false) by (apply String.eqb_neq; congruence). rewrite E. cbn [length].
          assert (C0 : copies k y 0 = []) by (destruct y; reflexivity). rewrite C0, app_nil_r.
          destruct z; [|reflexivity]. rewrite filter_app. cbn [filter fst]. rewrite E, app_nil_r. reflexivity.
    Qed.

    Lemma istep_noreads t now (n : node V) r g i n' r' new g' : istep ok ord t now n r g i = Some (n', r', new, g') ->
      reads_of new = [] /\ strs_of new = [].
    Proof.
      intros Hs. step_cases Hs; try (split; reflexivity).
      rewrite reads_of_app, strs_of_app.
      assert (U : forall kvs, reads_of (flat_map (fun kv => p_update false (fst kv) (snd kv)) kvs) = [] /\
                              strs_of (flat_map (fun kv => p_update false (fst kv) (snd kv)) kvs) = []).
      { induction kvs as [|kv kvs [IH1 IH2]]; [split; reflexivity|]. cbn [flat_map]. rewrite reads_of_app, strs_of_app, IH1, IH2.
        unfold p_update. destruct (_ =? _)%string; split; reflexivity. }
      destruct (U (ord (r_cmds r) (r_hash r))) as [-> ->]. destruct mark; split; reflexivity.
    Qed.

    Lemma regs_step o t now n r g i n' r' new g' rest : istep ok ord t now n r g i = Some (n', r', new, g') ->
      (uses i = true -> fresh n) -> (forall f, i <> IReturn f) -> regs_ok o (i :: rest) g -> regs_ok o (new ++ rest) g'.
    Proof.
      intros Hs Hu Hr (R1 & R2 & pre & R3).
      pose proof (istep_noreads _ _ _ _ _ _ _ _ _ _ Hs) as [N1 N2].
      split; [|split].
      - destruct R1 as (done & E & M). rewrite reads_of_app, N1. cbn [app].
        assert (D : (exists k1, i = IRead k1) \/ (reads_of (i :: rest) = reads_of rest /\ g_vals g' = g_vals g)).
        { clear - Hs. step_cases Hs; try (right; split; reflexivity); try (left; eexists; reflexivity).
          - right. split; [reflexivity|]. destruct keep; reflexivity.
          - right. split; [reflexivity|]. destruct b; reflexivity.
          - right. split; [reflexivity|]. destruct (read_string _ _); reflexivity. }
        destruct D as [[k1 ->]|[D1 D2]].
        + cbn [istep] in Hs. injection Hs as <- <- <- <-. exists (done ++ [k1]). cbn in E. split; [rewrite <- app_assoc; exact E|].
          assert (X : g_vals match read_value (n_maps n) k1 with Some v => Regs (g_errs g) (g_vals g ++ [(k1, v)]) (g_strs g) (g_err g) | None => g end =
                      match read_value (n_maps n) k1 with Some v => g_vals g ++ [(k1, v)] | None => g_vals g end) by (destruct (read_value _ _); reflexivity).
          rewrite X. apply matches_step; [exact M|]. intros ->. apply Hu. cbn. apply seqb_refl.
        + exists done. rewrite D2, <- D1. split; assumption.
      - destruct R2 as (done & E & M). rewrite strs_of_app, N2. cbn [app].
        assert (D : (exists k1, i = IReadStr k1) \/ (strs_of (i :: rest) = strs_of rest /\ g_strs g' = g_strs g)).
        { clear - Hs. step_cases Hs; try (right; split; reflexivity); try (left; eexists; reflexivity).
          - right. split; [reflexivity|]. destruct keep; reflexivity.
          - right. split; [reflexivity|]. destruct b; reflexivity.
          - right. split; [reflexivity|]. destruct (read_value _ _); reflexivity. }
        destruct D as [[k1 ->]|[D1 D2]].
        + cbn [istep] in Hs. injection Hs as <- <- <- <-. exists (done ++ [k1]). cbn in E. split; [rewrite <- app_assoc; exact E|].
          assert (X : g_strs match read_string (n_maps n) k1 with Some v => Regs (g_errs g) (g_vals g) (g_strs g ++ [(k1, v)]) (g_err g) | None => g end =
                      match read_string (n_maps n) k1 with Some v => g_strs g ++ [(k1, v)] | None => g_strs g end) by (destruct (read_string _ _); reflexivity).
          rewrite X. apply matches_step; [exact M|]. intros ->. apply Hu. cbn. apply seqb_refl.
        + exists done. rewrite D2, <- D1. split; assumption.
      - destruct pre as [|i0 pre]; cbn in R3; injection R3 as -> ->; [exfalso; eapply Hr; reflexivity|].
        exists (new ++ pre). rewrite app_assoc. reflexivity.
    Qed.

    Lemma count_nonempty ks : count k (nonempty ks) = count k ks.
    Proof.
      unfold count, nonempty. induction ks as [|k1 ks IH]; [reflexivity|]. cbn [filter].
      destruct (k1 =? "")%string eqn:E1; cbn [negb filter].
      - apply String.eqb_eq in E1. subst k1. assert (E : (k =? "")%string = false) by (apply String.eqb_neq; exact Hk). rewrite E. exact IH.
      - destruct (k =? k1)%string; cbn [length]; rewrite IH; reflexivity.
    Qed.
    Lemma matches_one {A} (y : option A) l : matches y [k] l -> one l = y.
    Proof.
      intros [M1 M2]. assert (E : entries k l = l).
      { clear M2. unfold entries. induction M1 as [|kv l H M1 IH]; [reflexivity|]. cbn. destruct H as [H|[]]. rewrite <- H, seqb_refl, IH. reflexivity. }
      rewrite E in M2. unfold count in M2. cbn in M2. rewrite seqb_refl in M2. cbn in M2. rewrite M2. destruct y; reflexivity.
    Qed.

    Lemma regs_return o f g : is_read o = true -> regs_ok o [IReturn f] g -> shows k s x o (f g).
    Proof.
      intros Ho ((d1 & E1 & M1) & (d2 & E2 & M2) & pre & R3). cbn in E1, E2. rewrite app_nil_r in E1, E2. subst d1 d2.
      assert (Hf : f = ret_of o).
      { destruct pre as [|i [|i' pre]]; cbn in R3; [injection R3 as ->; reflexivity|discriminate|discriminate]. }
      subst f. destruct o; try discriminate; cbn [shows ret_of expected expected_str] in *.
      - intros ->. rewrite (matches_one _ _ M1). reflexivity.
      - intros ->. rewrite (matches_one _ _ M2). reflexivity.
      - intros ->. rewrite (matches_one _ _ M1). reflexivity.
      - intros ->. rewrite (matches_one _ _ M2). reflexivity.
      - eexists. split; [reflexivity|]. destruct M1 as [_ M1]. rewrite M1, count_nonempty. reflexivity.
      - eexists. split; [reflexivity|]. destruct M2 as [_ M2]. rewrite M2, count_nonempty. reflexivity.
    Qed.

    (** ** Programs of calls *)
    Lemma allowed_call pol j' o : ~ interferes j k j' o -> Forall (allowed j') (p_call pol o).
    Proof.
      intros Hi. assert (G : forall k', Forall (allowed j') (p_get pol k') /\ Forall (allowed j') (p_get_str pol k') /\ Forall (allowed j') (p_load pol)).
      { intros k'. destruct pol; repeat split; each. }
      assert (L : Forall (allowed j') (p_load pol)) by apply (G k).
      assert (U : forall k1 v1 keep, (j' = j -> k1 <> k) -> Forall (allowed j') (p_update keep k1 v1)).
      { intros k1 v1 keep H. unfold p_update. destruct (k1 =? "")%string; each. intros Ej Ek. exfalso. apply H; assumption. }
      destruct o; cbn [p_call interferes] in *.
      - destruct (key =? "")%string; [each|]. destruct vp; each.
      - destruct (key =? "")%string; each.
      - apply Forall_app. split; [apply U; intros _; exact Hi|each].
      - apply Forall_app. split; [apply U; intros E1 E2; apply Hi; auto|each].
      - destruct kvs as [|kv kvs]; [each|]. apply Forall_app. split; [|each].
        apply Forall_flat_map. intros kv' Hin. apply U. intros _ E. apply Hi. apply in_map_iff. exists kv'. auto.
      - each.
      - apply Forall_app. split; [apply G|each].
      - apply Forall_app. split; [apply G|each].
      - apply Forall_app. split; [exact L|]. apply Forall_app. split; [apply G|each].
      - apply Forall_app. split; [exact L|]. apply Forall_app. split; [apply G|each].
      - apply Forall_app. split; [exact L|]. apply Forall_app. split; [apply Forall_flat_map; intros; apply G|each].
      - apply Forall_app. split; [exact L|]. apply Forall_app. split; [apply Forall_flat_map; intros; apply G|each].
    Qed.

    Lemma from_allowed j' o i : from_call o i -> ~ interferes j k j' o -> (is_read o = true -> j' <> j) -> allowed j' i.
    Proof.
      intros Hf Hi Hr. destruct i; cbn [from_call allowed] in *; auto.
      - intros Ej ->. exfalso. destruct Hf as [Hf|[->|[->|(kvs & -> & Hin)]]]; cbn in Hi; [apply Hr; assumption|auto|auto|].
        apply Hi. apply in_map_iff. exists (k, v). auto.
      - intros Ej ->. exfalso. destruct Hf as [Hf|[->|[->|(kvs & -> & Hin)]]]; cbn in Hi; [apply Hr; assumption|auto|auto|].
        apply Hi. apply in_map_iff. exists (k, v). auto.
      - intros Ej ->. exfalso. destruct Hf as [Hf|[->|[->|(kvs & -> & Hin)]]]; cbn in Hi; [apply Hr; assumption|auto|auto|].
        apply Hi. apply in_map_iff. exists (k, v). auto.
      - subst o. exact Hi.
      - subst o. exact Hi.
      - destruct Hf as [->| ->]; exact Hi.
      - subst o. cbn in Hi. intros Ej Ek. apply Hi. auto.
      - subst o. exact Hi.
      - subst o. exact Hi.
    Qed.

    Lemma guarded_loads pol rest : pol <> PolNoop -> guarded (covers true) uses (p_load pol ++ rest).
    Proof. intros H. destruct pol; [contradiction|exact I|exact I]. Qed.
    Lemma uses_call pol o : is_read o = false -> Forall (fun i => uses i = false) (p_call pol o).
    Proof.
      assert (U : forall kvs, Forall (fun i => uses i = false) (flat_map (fun kv => @p_update V true (fst kv) (snd kv)) kvs))
        by (intros kvs; apply updates_plain; left; reflexivity).
      assert (U1 : forall k1 v1, Forall (fun i => uses i = false) (@p_update V true k1 v1))
        by (intros k1 v1; unfold p_update; destruct (_ =? _)%string; each).
      destruct o; try discriminate; intros _; cbn [p_call].
      - destruct (key =? "")%string; [each|]. destruct vp; each.
      - destruct (key =? "")%string; each.
      - apply Forall_app. split; [apply U1|each].
      - apply Forall_app. split; [apply U1|each].
      - destruct kvs as [|kv kvs]; [each|]. apply Forall_app. split; [apply U|each].
      - each.
    Qed.
    Lemma guarded_call pol o : pol <> PolNoop -> guarded (covers true) uses (p_call pol o).
    Proof.
      intros Hp. destruct (is_read o) eqn:Ho; [|apply guarded_free, uses_call; exact Ho].
      destruct o; try discriminate; cbn [p_call]; unfold p_get, p_get_str; rewrite <- ?app_assoc; apply guarded_loads; exact Hp.
    Qed.
    Lemma marks_call pol o : Forall (fun i => marks i = false) (p_call pol o).
    Proof.
      assert (U : forall kvs, Forall (fun i => marks i = false) (flat_map (fun kv => @p_update V true (fst kv) (snd kv)) kvs))
        by (intros kvs; apply updates_plain; right; reflexivity).
      assert (U1 : forall k1 v1, Forall (fun i => marks i = false) (@p_update V true k1 v1))
        by (intros k1 v1; unfold p_update; destruct (_ =? _)%string; each).
      assert (L : Forall (fun i : instr V => marks i = false) (p_load pol)) by (destruct pol; each).
      assert (G : forall k', Forall (fun i : instr V => marks i = false) (p_get pol k')) by (intros k'; apply Forall_app; split; [exact L|each]).
      assert (GS : forall k', Forall (fun i : instr V => marks i = false) (p_get_str pol k')) by (intros k'; apply Forall_app; split; [exact L|each]).
      destruct o; cbn [p_call].
      - destruct (key =? "")%string; [each|]. destruct vp; each.
      - destruct (key =? "")%string; each.
      - apply Forall_app. split; [apply U1|each].
      - apply Forall_app. split; [apply U1|each].
      - destruct kvs as [|kv kvs]; [each|]. apply Forall_app. split; [apply U|each].
      - each.
      - apply Forall_app. split; [apply G|each].
      - apply Forall_app. split; [apply GS|each].
      - apply Forall_app. split; [exact L|]. apply Forall_app. split; [apply G|each].
      - apply Forall_app. split; [exact L|]. apply Forall_app. split; [apply GS|each].
      - apply Forall_app. split; [exact L|]. apply Forall_app. split; [apply Forall_flat_map; intros; apply G|each].
      - apply Forall_app. split; [exact L|]. apply Forall_app. split; [apply Forall_flat_map; intros; apply GS|each].
    Qed.

    (** ** The invariant of the reads *)
    Section reads.
      Variable (pol : policy) (T : Z) (mine : nat -> Prop).
      Hypothesis Hpol : sv <> None -> pol <> PolNoop.
      Definition late : Prop := match pol with PolInterval d => 0 < d | _ => False end.

      Record core (w : cworld V) : Prop := {
        co_nodup : NoDup (map fst (r_hash (c_redis w)));
        co_saved : hget (r_hash (c_redis w)) k = sv;
        co_works : sv <> None -> forall m, (r_cmds (c_redis w) <= m)%nat -> ok m = true;
        co_pol : forall n, nth_error (c_nodes w) j = Some n -> n_pol n = pol;
        co_proc : forall n, nth_error (c_nodes w) j = Some n -> sv <> None -> s_procs (n_maps n) k = Some p;
        co_none : forall n, nth_error (c_nodes w) j = Some n -> sv = None -> fresh n;
        co_allowed : forall t th, nth_error (c_threads w) t = Some th -> Forall (allowed (t_node th)) (t_prog th);
        co_guard : forall t th n, nth_error (c_threads w) t = Some th -> t_node th = j -> mine t -> nth_error (c_nodes w) j = Some n ->
          fresh n \/ (sv <> None /\ guarded (covers true) uses (t_prog th));
        co_mark : late -> forall t th n, nth_error (c_threads w) t = Some th -> t_node th = j -> nth_error (c_nodes w) j = Some n ->
          fresh n \/ (sv <> None /\ guarded (covers false) marks (t_prog th));
        co_last : late -> forall n z, nth_error (c_nodes w) j = Some n -> n_last n = Some z -> T < z -> fresh n;
        co_regs : forall t th o, nth_error (c_threads w) t = Some th -> t_node th = j -> mine t -> t_call th = Some o ->
          is_read o = true -> regs_ok o (t_prog th) (t_regs th) }.

      Definition timely (l : clabel V) : Prop :=
        match l with
        | CStep t now => sv <> None -> mine t -> match pol with PolInterval d => 0 < d -> T + d <= now | _ => True end
        | CCall _ j' o => ~ interferes j k j' o
        end.

      Lemma istep_last t now (n : node V) r g i n' r' new g' : istep ok ord t now n r g i = Some (n', r', new, g') ->
        n_last n' = n_last n \/ i = IMark.
      Proof. intros Hs. step_cases Hs; try (left; reflexivity); try (left; destruct l; reflexivity); right; reflexivity. Qed.

      Lemma core_call w t j' o w' es : core w -> ~ interferes j k j' o -> cstep ok ord w (CCall t j' o) = Some (w', es) -> core w'.
      Proof.
        intros [C1 C2 C3 C4 C5 C0 C6 C7 C8 C9 C10] Hi Hs.
        apply cstep_call in Hs. destruct Hs as (th0 & n0 & E1 & E2 & E3 & -> & _).
        assert (NS : sv = None \/ sv <> None) by (destruct sv; [right; discriminate|left; reflexivity]).
        constructor; cbn [c_redis c_nodes c_threads]; auto.
        - intros u th Hu. rewrite nth_error_upd in Hu. destruct (Nat.eq_dec t u) as [<-|ne]; [|eapply C6; eassumption].
          rewrite E1 in Hu. injection Hu as <-. apply allowed_call. exact Hi.
        - intros u th n Hu Hj Hm Hn. rewrite nth_error_upd in Hu. destruct (Nat.eq_dec t u) as [<-|ne]; [|eapply C7; eassumption].
          rewrite E1 in Hu. injection Hu as <-. cbn [t_node t_prog] in *. subst j'.
          rewrite E2 in Hn. injection Hn as <-. destruct NS as [NS|NS]; [left; auto|right]. split; [exact NS|].
          rewrite (C4 _ E2). apply guarded_call. auto.
        - intros HL u th n Hu Hj Hn. rewrite nth_error_upd in Hu. destruct (Nat.eq_dec t u) as [<-|ne]; [|eapply C8; eassumption].
          rewrite E1 in Hu. injection Hu as <-. cbn [t_node t_prog] in *. subst j'.
          destruct NS as [NS|NS]; [left; auto|right]. split; [exact NS|]. apply guarded_free, marks_call.
        - intros u th o' Hu Hj Hm Ho Hr. rewrite nth_error_upd in Hu. destruct (Nat.eq_dec t u) as [<-|ne]; [|eapply C10; eassumption].
          rewrite E1 in Hu. injection Hu as <-. cbn [t_call t_prog t_regs] in *. injection Ho as <-. apply regs_call. exact Hr.
      Qed.

      Lemma core_step w hs t now w' es : core w -> inv w hs -> timely (CStep t now) -> cstep ok ord w (CStep t now) = Some (w', es) ->
        core w' /\ forall u o r, In (EReturned u j o r) es -> mine u -> shows k s x o r.
      Proof.
        intros [C1 C2 C3 C4 C5 C0 C6 C7 C8 C9 C10] HI HT Hs.
        apply cstep_step in Hs. destruct Hs as (th & i & rest & n & n' & r' & new & g' & E1 & E2 & E3 & E4 & -> & ->).
        pose proof (i_threads _ _ HI _ _ E1) as Hth. unfold thread_ok in Hth.
        destruct (t_call th) as [o|] eqn:Ec; [|destruct Hth; congruence].
        rewrite E2 in Hth. apply typed_cons in Hth. clear HI.
        assert (Hret : forall f, i = IReturn f -> rest = []).
        { intros f ->. destruct Hth as [(f' & _ & -> & _)|(h' & H & _)]; [reflexivity|discriminate]. }
        clear Hth.
        pose proof (C6 _ _ E1) as HA. rewrite E2 in HA. inversion_clear HA as [|? ? HA1 HA2].
        assert (NS : sv = None \/ sv <> None) by (destruct sv; [right; discriminate|left; reflexivity]).
        pose proof (istep_saved _ _ _ _ _ _ _ _ _ _ _ E4 HA1) as [S1 S2].
        assert (SM : sv <> None -> exists v, sv = Some v) by (destruct sv; [eexists; reflexivity|contradiction]).
        assert (Hnode : forall n1, nth_error (upd (t_node th) n' (c_nodes w)) j = Some n1 ->
                  (t_node th = j /\ n1 = n') \/ (t_node th <> j /\ nth_error (c_nodes w) j = Some n1)).
        { intros n1 Hn. rewrite nth_error_upd in Hn. destruct (Nat.eq_dec (t_node th) j) as [Ej|ne]; [|right; auto].
          rewrite E3 in Hn. injection Hn as <-. auto. }
        assert (Hold : forall n1, nth_error (upd (t_node th) n' (c_nodes w)) j = Some n1 -> exists n2, nth_error (c_nodes w) j = Some n2 /\
                  (fresh n2 -> fresh n1) /\ n_pol n1 = n_pol n2 /\ s_procs (n_maps n1) k = s_procs (n_maps n2) k).
        { intros n1 Hn. destruct (Hnode _ Hn) as [[Ej ->]|[Ej H]].
          - rewrite Ej in E3, HA1. exists n. split; [exact E3|]. split; [eapply istep_fresh; eassumption|].
            split; [eapply istep_pol; eassumption|]. eapply istep_procs; eassumption.
          - exists n1. auto. }
        assert (Hclk : mine t -> t_node th = j -> sv <> None -> i = IClock -> wants_load (n_pol n) (n_last n) now = false -> fresh n').
        { intros Hm Ej Hsv' Hi Hw. rewrite Ej in E3. rewrite (C4 _ E3) in Hw. specialize (HT Hsv' Hm). specialize (Hpol Hsv').
          assert (F : fresh n).
          { assert (HL : forall d, pol = PolInterval d -> 0 < d -> late /\ T + d <= now)
              by (intros d Ep Hd; unfold late; rewrite Ep in *; auto).
            unfold wants_load in Hw. destruct pol as [| |d] eqn:Ep; try discriminate; [contradiction|].
            destruct (d <=? 0) eqn:Ed; cbn in Hw; [discriminate|]. apply Z.leb_gt in Ed.
            destruct (n_last n) as [z|] eqn:El; [|discriminate]. destruct (HL d eq_refl Ed) as [HL1 HL2].
            apply (C9 HL1 n z E3 El). apply negb_false_iff, Z.ltb_lt in Hw. lia. }
          subst i. eapply istep_fresh; try eassumption. }
        split.
        { constructor; cbn [c_redis c_nodes c_threads].
          - eapply istep_hash; eassumption.
          - congruence.
          - intros H m Hm. apply C3; [exact H|lia].
          - intros n1 Hn. destruct (Hold _ Hn) as (n2 & H & _ & -> & _). auto.
          - intros n1 Hn Hsv'. destruct (Hold _ Hn) as (n2 & H & _ & _ & ->). auto.
          - intros n1 Hn Hsv'. destruct (Hold _ Hn) as (n2 & H & Hf & _). auto.
          - intros u th1 Hu. rewrite nth_error_upd in Hu. destruct (Nat.eq_dec t u) as [<-|ne]; [|eapply C6; eassumption].
            rewrite E1 in Hu. injection Hu as <-. cbn [t_node t_prog]. apply Forall_app. split; [|exact HA2].
            eapply istep_allowed; try eassumption. intros Ej Hsv'. rewrite Ej in E3. auto.
          - intros u th1 n1 Hu Hj Hm Hn. destruct (Hold _ Hn) as (n2 & Hn2 & Hf & _). rewrite nth_error_upd in Hu. destruct (Nat.eq_dec t u) as [<-|ne].
            + rewrite E1 in Hu. injection Hu as <-. cbn [t_node t_prog] in *. destruct (Hnode _ Hn) as [[_ ->]|[? _]]; [|contradiction].
              destruct (C7 t th n2 E1 Hj Hm Hn2) as [F|[Hsv' G]]; [left; auto|]. rewrite Hj in E3, HA1. rewrite E2 in G.
              destruct (istep_guard true uses _ _ _ _ _ _ _ _ _ _ rest (or_introl eq_refl) E4 HA1 (SM Hsv') C1 C2 (C5 _ E3 Hsv')
                (C3 Hsv' _ (le_n _)) (fun _ Hi Hw => Hclk Hm Hj Hsv' Hi Hw) G); [left|right]; auto.
            + destruct (C7 u th1 n2 Hu Hj Hm Hn2) as [F|F]; [left; auto|right; exact F].
          - intros HL u th1 n1 Hu Hj Hn. destruct (Hold _ Hn) as (n2 & Hn2 & Hf & _). rewrite nth_error_upd in Hu. destruct (Nat.eq_dec t u) as [<-|ne].
            + rewrite E1 in Hu. injection Hu as <-. cbn [t_node t_prog] in *. destruct (Hnode _ Hn) as [[_ ->]|[? _]]; [|contradiction].
              destruct (C8 HL t th n2 E1 Hj Hn2) as [F|[Hsv' G]]; [left; auto|]. rewrite Hj in E3, HA1. rewrite E2 in G.
              assert (X : false = true -> i = IClock -> wants_load (n_pol n) (n_last n) now = false -> fresh n') by discriminate.
              destruct (istep_guard false marks _ _ _ _ _ _ _ _ _ _ rest (or_intror eq_refl) E4 HA1 (SM Hsv') C1 C2 (C5 _ E3 Hsv')
                (C3 Hsv' _ (le_n _)) X G); [left|right]; auto.
            + destruct (C8 HL u th1 n2 Hu Hj Hn2) as [F|F]; [left; auto|right; exact F].
          - intros HL n1 z Hn Hz HTz. destruct (Hold _ Hn) as (n2 & Hn2 & Hf & _). destruct (Hnode _ Hn) as [[Hj ->]|[? _]].
            + apply Hf. destruct (istep_last _ _ _ _ _ _ _ _ _ _ E4) as [El| ->].
              * rewrite Hj in E3. rewrite E3 in Hn2. injection Hn2 as <-. eapply C9; eauto. congruence.
              * destruct (C8 HL t th n2 E1 Hj Hn2) as [F|[_ G]]; [exact F|]. rewrite E2 in G. destruct G.
            + rewrite nth_error_upd_other in Hn by assumption. rewrite Hn2 in Hn. injection Hn as <-. eapply C9; eassumption.
          - intros u th1 o' Hu Hj Hm Ho Hr. rewrite nth_error_upd in Hu. destruct (Nat.eq_dec t u) as [<-|ne]; [|eapply C10; eassumption].
            rewrite E1 in Hu. injection Hu as <-. cbn [t_call t_prog t_regs t_node] in *.
            assert (Hi : forall f, i <> IReturn f) by (intros f ->; discriminate).
            assert (Ho' : o' = o) by (destruct i; congruence). subst o'.
            pose proof (C10 t th o E1 Hj Hm Ec Hr) as R. rewrite E2 in R. rewrite Hj in E3.
            eapply regs_step; try eassumption. intros Hu.
            destruct (C7 t th n E1 Hj Hm E3) as [F|[_ G]]; [exact F|]. rewrite E2 in G. cbn in G.
            assert (Hc : covers true i = false) by (destruct i; try discriminate; reflexivity). rewrite Hc, Hu in G. destruct G. }
        intros u o' r Hin Hm. unfold returns in Hin. rewrite Ec in Hin. destruct i; try (destruct Hin; fail).
        destruct Hin as [H|[]]. injection H as <- Hj <- <-.
        destruct (is_read o) eqn:Hr; [|destruct o; try discriminate; exact I].
        apply regs_return; [exact Hr|]. pose proof (C10 t th o E1 Hj Hm Ec Hr) as R. rewrite E2, (Hret _ eq_refl) in R. exact R.
      Qed.

      Lemma core_run w hs sched : core w -> inv w hs -> Forall timely sched ->
        core (fst (exec (cstep ok ord) w sched)) /\
        forall u o r, In (EReturned u j o r) (snd (exec (cstep ok ord) w sched)) -> mine u -> shows k s x o r.
      Proof.
        intros HC HI HF.
        pose (I := fun (w : cworld V) (tr : list (cevent V)) => (exists hs, inv w hs) /\ core w /\
          forall u o r, In (EReturned u j o r) tr -> mine u -> shows k s x o r).
        assert (H : I (fst (exec (cstep ok ord) w sched)) ([] ++ snd (exec (cstep ok ord) w sched))).
        { refine (exec_inv_lab (cstep ok ord) timely I _ sched HF w [] _).
          - intros w1 l w2 es tr Hl ([hs1 HI1] & HC1 & Htr) Hs. split; [eapply inv_step; eassumption|]. destruct l as [t j' o'|t now].
            + split; [eapply core_call; eassumption|]. apply cstep_call in Hs. destruct Hs as (? & ? & _ & _ & _ & _ & ->).
              intros u' o1 r' Hin. apply in_app_iff in Hin. destruct Hin as [Hin|[Hin|[]]]; [eauto|discriminate].
            + destruct (core_step _ _ _ _ _ _ HC1 HI1 Hl Hs) as [HC2 He]. split; [exact HC2|].
              intros u' o1 r' Hin. apply in_app_iff in Hin. destruct Hin as [Hin|Hin]; [eapply Htr; eassumption|eapply He; eassumption].
          - split; [eexists; exact HI|]. split; [exact HC|]. intros u' o' r' []. }
        apply H.
      Qed.

      (** At a moment when no call changes the key and no call reads the store. *)
      Lemma plain_progs (w : cworld V) hs t th (f : instr V -> bool) : inv w hs -> origin w -> (f = uses \/ f = marks) ->
        (forall o, call_of w t = Some (j, o) -> is_read o = false) ->
        nth_error (c_threads w) t = Some th -> t_node th = j -> Forall (fun i => f i = false) (t_prog th).
      Proof.
        intros HI HO Hf HU Ht Hj. pose proof (i_threads _ _ HI _ _ Ht) as Hth. unfold thread_ok in Hth.
        destruct (t_call th) as [o|] eqn:Ec; [|destruct Hth as [-> _]; constructor].
        assert (Ho : is_read o = false) by (apply HU; unfold call_of; rewrite Ht, Ec, Hj; reflexivity).
        eapply Forall_impl; [|eapply HO; eassumption]. intros i Hi. destruct Hf as [-> | ->]; destruct i; try reflexivity; cbn in Hi; congruence.
      Qed.

      Lemma core_start w hs :
        inv w hs -> origin w -> NoDup (map fst (r_hash (c_redis w))) -> hget (r_hash (c_redis w)) k = sv ->
        (sv <> None -> forall m, (r_cmds (c_redis w) <= m)%nat -> ok m = true) ->
        (forall n, nth_error (c_nodes w) j = Some n -> n_pol n = pol /\ (sv <> None -> s_procs (n_maps n) k = Some p) /\
          (sv = None -> fresh n) /\ (late -> forall z, n_last n = Some z -> z <= T \/ sv = None)) ->
        (forall t j' o, call_of w t = Some (j', o) -> ~ interferes j k j' o) ->
        (forall t o, call_of w t = Some (j, o) -> is_read o = false) -> core w.
      Proof.
        intros HI HO ND Hs Hw Hn HC HU.
        assert (NS : sv = None \/ sv <> None) by (destruct sv; [right; discriminate|left; reflexivity]).
        constructor; auto; try (intros n H; apply Hn; exact H).
        - intros t th Ht. pose proof (i_threads _ _ HI _ _ Ht) as Hth. unfold thread_ok in Hth.
          destruct (t_call th) as [o|] eqn:Ec; [|destruct Hth as [-> _]; constructor].
          assert (E : call_of w t = Some (t_node th, o)) by (unfold call_of; rewrite Ht, Ec; reflexivity).
          eapply Forall_impl; [|eapply HO; eassumption]. intros i Hi. eapply from_allowed; [exact Hi|eapply HC; exact E|].
          intros Hr Ej. rewrite Ej in E. apply HU in E. congruence.
        - intros t th n Ht Hj _ Hn'. destruct NS as [NS|NS]; [left; apply Hn; assumption|right; split; [exact NS|]].
          apply guarded_free. eapply plain_progs; eauto.
        - intros _ t th n Ht Hj Hn'. destruct NS as [NS|NS]; [left; apply Hn; assumption|right; split; [exact NS|]].
          apply guarded_free. eapply plain_progs; eauto.
        - intros HL n z Hn' Hz HT. destruct (Hn _ Hn') as (_ & _ & H1 & H2). destruct (H2 HL z Hz) as [H|H]; [lia|auto].
        - intros t th o Ht Hj _ Hc Hr. exfalso. assert (E : call_of w t = Some (j, o)) by (unfold call_of; rewrite Ht, Hc, Hj; reflexivity).
          apply HU in E. congruence.
      Qed.
    End reads.

    Lemma core_idle pol T t w hs : inv w hs -> core pol T (fun _ => False) w -> call_of w t = None -> core pol T (eq t) w.
    Proof.
      intros HI [C1 C2 C3 C4 C5 C0 C6 C7 C8 C9 C10] Hc.
      assert (P : forall th, nth_error (c_threads w) t = Some th -> t_call th = None /\ t_prog th = []).
      { intros th Ht. unfold call_of in Hc. rewrite Ht in Hc. destruct (t_call th) eqn:Ec; [discriminate|]. split; [reflexivity|].
        pose proof (i_threads _ _ HI _ _ Ht) as Hth. unfold thread_ok in Hth. rewrite Ec in Hth. apply Hth. }
      assert (NS : sv = None \/ sv <> None) by (destruct sv; [right; discriminate|left; reflexivity]).
      constructor; auto.
      - intros u th n Ht Hj <- Hn. destruct (P _ Ht) as [_ ->]. destruct NS as [NS|NS]; [left; auto|right; split; [exact NS|exact I]].
      - intros u th o Ht Hj <- Hc' _. destruct (P _ Ht) as [E _]. congruence.
    Qed.
  End key.

  Lemma last_reach h pols n sched T : Forall (until T) sched ->
    forall j nd z, nth_error (c_nodes (fst (@conc_exec V ok ord h pols n sched))) j = Some nd -> n_last nd = Some z -> z <= T.
  Proof.
    intros HF.
    refine (exec_inv_lab (cstep ok ord) (until T) (fun w _ => forall j nd z, nth_error (c_nodes w) j = Some nd -> n_last nd = Some z -> z <= T)
      _ sched HF (cworld0 h pols n) [] _).
    - intros w l w' es _ Hl H Hs j nd z Hj Hz. destruct l as [t j' o|t now].
      + apply cstep_call in Hs. destruct Hs as (? & ? & _ & _ & _ & -> & _). eapply H; eassumption.
      + apply cstep_step in Hs. destruct Hs as (th & i & rest & n1 & n' & r' & new & g' & E1 & E2 & E3 & E4 & -> & _).
        cbn [c_nodes] in Hj. rewrite nth_error_upd in Hj. destruct (Nat.eq_dec (t_node th) j) as [Ej|ne]; [|eapply H; eassumption].
        rewrite E3 in Hj. injection Hj as <-. destruct (istep_last _ _ _ _ _ _ _ _ _ _ E4) as [El| ->].
        * eapply H; [exact E3|congruence].
        * cbn in E4. injection E4 as <- _ _ _. cbn in Hz. injection Hz as <-. exact Hl.
    - intros j nd z Hj Hz. cbn in Hj. apply nth_error_In, in_map_iff in Hj. destruct Hj as (q & <- & _). discriminate.
  Qed.
End fresh.

(** ** The statements *)
Lemma node_pol {V} ok ord h pols n sched j pol nd : NoDup (map fst h) -> nth_error pols j = Some pol ->
  nth_error (c_nodes (fst (@conc_exec V ok ord h pols n sched))) j = Some nd -> n_pol nd = pol.
Proof.
  intros ND Hp Hn. destruct (@basics_reach V ok ord h pols n sched ND) as [_ E].
  rewrite <- E in Hp. rewrite (map_nth_error n_pol _ _ Hn) in Hp. congruence.
Qed.

Lemma conc_app {V} ok ord h pols n sched1 sched2 :
  fst (@conc_exec V ok ord h pols n (sched1 ++ sched2)) = fst (exec (cstep ok ord) (fst (conc_exec ok ord h pols n sched1)) sched2) /\
  snd (@conc_exec V ok ord h pols n (sched1 ++ sched2)) =
    snd (conc_exec ok ord h pols n sched1) ++ snd (exec (cstep ok ord) (fst (conc_exec ok ord h pols n sched1)) sched2).
Proof.
  unfold conc_exec. rewrite exec_app. destruct (exec (cstep ok ord) (cworld0 h pols n) sched1) as [w1 e1]. cbn [fst snd].
  destruct (exec (cstep ok ord) w1 sched2) as [w2 e2]. split; reflexivity.
Qed.

Lemma conc_seen {V} ok ord h pols n sched sched1 sched2 j k v p pol T t o r :
  any_order ord -> NoDup (map fst h) -> k <> ""%string -> nth_error pols j = Some pol -> pol <> PolNoop ->
  let c := @conc_exec V ok ord h pols n sched in
  saved (fst c) k = Some v -> has_processor (fst c) j k p -> accepts p v = true ->
  calm j k (snd c) -> unread j (snd c) -> redis_works ok (fst c) ->
  Forall (spares_key j k) (sched1 ++ sched2) ->
  (forall d, pol = PolInterval d -> 0 < d -> Forall (until T) sched /\ Forall (sees_from t (T + d)) sched2) ->
  let c1 := conc_exec ok ord h pols n (sched ++ sched1) in
  calling t (snd c1) = None ->
  In (EReturned t j o r) (snd (exec (cstep ok ord) (fst c1) sched2)) ->
  shows k (Some v) (Some (p_convert p v)) o r.
Proof.
  intros Hord ND Hk Hp Hpol c Hs [nd [Hnd Hpr]] Ha Hc Hu Hw HF HT c1 Hidle Hin.
  set (sv := Some v) in *. set (s := Some v). set (x := Some (p_convert p v)).
  assert (Hsv : forall v', sv = Some v' -> accepts p v' = true /\ s = Some v' /\ x = Some (p_convert p v')).
  { intros v' E. injection E as <-. auto. }
  assert (Hpol' : sv <> None -> pol <> PolNoop) by (intros _; exact Hpol).
  destruct (@inv_reach V ok ord h pols n sched) as [hs HI]. fold c in HI.
  destruct (@inv_reach V ok ord h pols n (sched ++ sched1)) as [hs1 HI1]. fold c1 in HI1.
  assert (CO : core ok j k sv p s x pol T (fun _ => False) (fst c)).
  { eapply core_start; [exact Hsv|exact Hpol'|..].
    - exact HI.
    - apply origin_reach.
    - apply (@basics_reach V ok ord h pols n sched ND).
    - exact Hs.
    - intros _. exact Hw.
    - intros n1 Hn1. rewrite Hnd in Hn1. injection Hn1 as <-. split; [eapply node_pol; eassumption|]. split; [intros _; exact Hpr|].
      split; [discriminate|]. intros HL z Hz. left. unfold late in HL. destruct pol as [| |d]; try contradiction.
      eapply last_reach; [apply (HT d eq_refl HL)|exact Hnd|exact Hz].
    - intros u j' o' H. eapply Hc. unfold c. rewrite calling_reach. exact H.
    - intros u o' H. apply (Hu u). unfold c. rewrite calling_reach. exact H. }
  apply Forall_app in HF. destruct HF as [HF1 HF2].
  assert (T1 : Forall (timely j k sv pol T (fun _ => False)) sched1).
  { eapply Forall_impl; [|exact HF1]. intros [u j' o'|u now] Hl; cbn in *; [exact Hl|intros _ []]. }
  pose proof (core_run ok ord Hord j k sv p s x Hk Hsv pol T (fun _ => False) Hpol' _ _ _ CO HI T1) as [CO1 _].
  destruct (@conc_app V ok ord h pols n sched sched1) as [E1 E2]. fold c c1 in E1, E2. rewrite <- E1 in CO1.
  rewrite E2 in Hidle. rewrite <- E2 in Hidle. unfold c1 in Hidle. rewrite calling_reach in Hidle. fold c1 in Hidle.
  pose proof (core_idle ok j k sv p s x Hsv pol T t _ _ HI1 CO1 Hidle) as CO2.
  assert (T2 : Forall (timely j k sv pol T (eq t)) sched2).
  { apply Forall_forall. intros l Hl. rewrite Forall_forall in HF2. specialize (HF2 l Hl). destruct l as [u j' o'|u now]; cbn in *; [exact HF2|].
    intros _ <-. destruct pol as [| |d]; auto. intros Hd. destruct (HT d eq_refl Hd) as [_ H]. rewrite Forall_forall in H.
    apply (H _ Hl eq_refl). }
  destruct (core_run ok ord Hord j k sv p s x Hk Hsv pol T (eq t) Hpol' _ _ _ CO2 HI1 T2) as [_ R]. exact (R t o r Hin eq_refl).
Qed.

Lemma conc_keeps {V} ok ord h pols n sched sched' j k p s x t o r :
  any_order ord -> NoDup (map fst h) -> k <> ""%string ->
  let c := @conc_exec V ok ord h pols n sched in
  saved (fst c) k = None -> has_processor (fst c) j k p -> reads_as (fst c) j k s x ->
  calm j k (snd c) -> unread j (snd c) -> Forall (spares_key j k) sched' ->
  In (EReturned t j o r) (snd (exec (cstep ok ord) (fst c) sched')) -> shows k s x o r.
Proof.
  intros Hord ND Hk c Hs [nd [Hnd Hpr]] [nd' [Hnd' Hr]] Hc Hu HF Hin. rewrite Hnd in Hnd'. injection Hnd' as <-.
  assert (Hsv : forall v', None = Some v' -> accepts p v' = true /\ s = Some v' /\ x = Some (p_convert p v')) by discriminate.
  assert (Hpol' : (None : option string) <> None -> n_pol nd <> PolNoop) by (intros H; contradiction).
  destruct (@inv_reach V ok ord h pols n sched) as [hs HI]. fold c in HI.
  assert (CO : core ok j k None p s x (n_pol nd) 0 (fun _ => True) (fst c)).
  { eapply core_start; [exact Hsv|exact Hpol'|..].
    - exact HI.
    - apply origin_reach.
    - apply (@basics_reach V ok ord h pols n sched ND).
    - exact Hs.
    - intros H; contradiction.
    - intros n1 Hn1. rewrite Hnd in Hn1. injection Hn1 as <-. split; [reflexivity|]. split; [intros H; contradiction|].
      split; [intros _; exact Hr|]. intros _ z _. right. reflexivity.
    - intros u j' o' H. eapply Hc. unfold c. rewrite calling_reach. exact H.
    - intros u o' H. apply (Hu u). unfold c. rewrite calling_reach. exact H. }
  assert (T1 : Forall (timely j k None (n_pol nd) 0 (fun _ => True)) sched').
  { eapply Forall_impl; [|exact HF]. intros [u j' o'|u now] Hl; cbn in *; [exact Hl|intros H; contradiction]. }
  destruct (core_run ok ord Hord j k None p s x Hk Hsv (n_pol nd) 0 (fun _ => True) Hpol' _ _ _ CO HI T1) as [_ R]. exact (R t o r Hin I).
Qed.
