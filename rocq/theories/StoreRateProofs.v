(** A store with an interval asks Redis at most once per interval, however many goroutines read it. *)
From Coq Require Import Sorted.
From Verif Require Import Common Bytes Threads StoreModel StoreConcModel StoreConcSpec StoreConcProofs StoreConcFresh StoreConcWrites StoreAloneSpec StoreAloneProofs StoreRateSpec.
Local Open Scope list_scope.

(** ** The parts of a program that have to do with loading *)
Inductive tok := TL | TC | TG | TX | TM | TU.
Definition tok_of {V} (i : instr V) : list tok :=
  match i with
  | IMLock => [TL] | IClock => [TC] | IHGetAll true => [TG] | IHGetAll false => [TX] | IMark => [TM] | IMUnlock => [TU]
  | _ => []
  end.
Definition toks {V} (p : list (instr V)) : list tok := flat_map tok_of p.
Lemma toks_app {V} (p q : list (instr V)) : toks (p ++ q) = toks p ++ toks q.
Proof. apply flat_map_app. Qed.

Inductive loads : list tok -> Prop :=
| loads_nil : loads []
| loads_cons l : loads l -> loads (TL :: TC :: TU :: l).
Lemma loads_app a b : loads a -> loads b -> loads (a ++ b).
Proof. intros H Hb. induction H; cbn; [exact Hb|constructor; assumption]. Qed.

Lemma toks_update {V} keep k v : toks (@p_update V keep k v) = [].
Proof. unfold p_update. destruct (k =? "")%string; reflexivity. Qed.
Lemma toks_updates {V} keep kvs : toks (flat_map (fun kv => @p_update V keep (fst kv) (snd kv)) kvs) = [].
Proof. induction kvs as [|kv kvs IH]; [reflexivity|]. cbn [flat_map]. rewrite toks_app, toks_update. exact IH. Qed.
Lemma loads_get {V} d k : loads (toks (@p_get V (PolInterval d) k)).
Proof. cbn. repeat constructor. Qed.
Lemma loads_get_str {V} d k : loads (toks (@p_get_str V (PolInterval d) k)).
Proof. cbn. repeat constructor. Qed.
Lemma loads_flat {V A} (g : A -> list (instr V)) ks : (forall k, loads (toks (g k))) -> loads (toks (flat_map g ks)).
Proof. intros H. induction ks as [|k ks IH]; [constructor|]. cbn [flat_map]. rewrite toks_app. apply loads_app; [apply H|exact IH]. Qed.

Lemma loads_call {V} d (o : sop V) : loads (toks (p_call (PolInterval d) o)).
Proof.
  destruct o; cbn [p_call].
  - destruct (key =? "")%string; [constructor|]. destruct vp; constructor.
  - destruct (key =? "")%string; constructor.
  - rewrite toks_app, toks_update. constructor.
  - rewrite toks_app, toks_update. constructor.
  - destruct kvs as [|kv kvs]; [constructor|]. rewrite toks_app, toks_updates. constructor.
  - constructor.
  - rewrite toks_app. apply loads_app; [apply loads_get|constructor].
  - rewrite toks_app. apply loads_app; [apply loads_get_str|constructor].
  - rewrite !toks_app. apply loads_app; [repeat constructor|]. apply loads_app; [apply loads_get|constructor].
  - rewrite !toks_app. apply loads_app; [repeat constructor|]. apply loads_app; [apply loads_get_str|constructor].
  - rewrite !toks_app. apply loads_app; [repeat constructor|]. apply loads_app; [apply loads_flat; apply loads_get|constructor].
  - rewrite !toks_app. apply loads_app; [repeat constructor|]. apply loads_app; [apply loads_flat; apply loads_get_str|constructor].
Qed.

Section rate.
  Context {V : Type} (ok : nat -> bool) (ord : nat -> list (string * string) -> list (string * string)).
  Variables (j : nat) (d : Z).
  Hypothesis dpos : (0 < d)%Z.

  (** The one that holds the lock of the load policy, between its loads. *)
  Inductive inside : list tok -> Prop :=
  | in_clock l : loads l -> inside (TC :: TU :: l)
  | in_get l : loads l -> inside (TG :: TU :: l)
  | in_mark l : loads l -> inside (TM :: TU :: l)
  | in_end l : loads l -> inside (TU :: l).

  Definition mine (n : node V) (t : nat) : bool := match n_mlock n with Some u => Nat.eqb u t | None => false end.
  Record sound (w : cworld V) : Prop := {
    so_inv : exists hs, inv w hs;
    so_pol : forall n, nth_error (c_nodes w) j = Some n -> n_pol n = PolInterval d;
    so_toks : forall n t th, nth_error (c_nodes w) j = Some n -> nth_error (c_threads w) t = Some th -> t_node th = j ->
      if mine n t then inside (toks (t_prog th)) else loads (toks (t_prog th)) }.

  (** What one instruction does to the lock and the time of the last load. *)
  Lemma istep_load t now (n : node V) r g i n' r' new g' : istep ok ord t now n r g i = Some (n', r', new, g') -> n_pol n = PolInterval d ->
    match tok_of i with
    | [] => n_mlock n' = n_mlock n /\ n_last n' = n_last n /\ toks new = []
    | TL :: _ => n_mlock n = None /\ n_mlock n' = Some t /\ n_last n' = n_last n /\ toks new = []
    | TC :: _ => n_mlock n' = n_mlock n /\ n_last n' = n_last n /\
        (toks new = [] \/ toks new = [TG] /\ forall l, n_last n = Some l -> (l + d <= now)%Z)
    | TG :: _ => n_mlock n' = n_mlock n /\ n_last n' = n_last n /\ (toks new = [TM] \/ toks new = [] /\ ok (r_cmds r) = false)
    | TX :: _ => True
    | TM :: _ => n_mlock n' = n_mlock n /\ n_last n' = Some now /\ toks new = []
    | TU :: _ => n_mlock n' = None /\ n_last n' = n_last n /\ toks new = []
    end.
  Proof.
    intros H Hp. destruct i; cbn [istep tok_of] in *.
    - destruct (rlock _ _); [|discriminate]. injection H as <- <- <- <-. destruct l; auto.
    - injection H as <- <- <- <-. destruct l; auto.
    - destruct (announce _ _); [|discriminate]. injection H as <- <- <- <-. destruct l; auto.
    - destruct (acquire _ _); [|discriminate]. injection H as <- <- <- <-. destruct l; auto.
    - injection H as <- <- <- <-. destruct l; auto.
    - destruct (n_mlock n); [discriminate|]. injection H as <- <- <- <-. auto.
    - injection H as <- <- <- <-. auto.
    - rewrite Hp in H. cbn [wants_load] in H. destruct (Z.leb_spec d 0) as [X|X]; [lia|]. destruct (Z.ltb_spec 0 d) as [Y|Y]; [|lia].
      destruct (n_last n) as [l|] eqn:El.
      + destruct (Z.ltb_spec (now - d) l) as [Q|Q]; cbn [negb] in H; injection H as <- <- <- <-; [auto|].
        split; [reflexivity|]. split; [exact El|]. right. split; [reflexivity|]. intros l0 [= <-]. lia.
      + injection H as <- <- <- <-. split; [reflexivity|]. split; [exact El|]. right. split; [reflexivity|]. discriminate.
    - destruct mark; cbn [tok_of]; [|trivial]. unfold redis_load in H. destruct (ok (r_cmds r)) eqn:Eo; injection H as <- <- <- <-.
      + split; [reflexivity|]. split; [reflexivity|]. left. rewrite toks_app, toks_updates. reflexivity.
      + auto.
    - injection H as <- <- <- <-. auto.
    - injection H as <- <- <- <-. auto.
    - destruct (lookup_value _ _ _); injection H as <- <- <- <-; auto.
    - injection H as <- <- <- <-. auto.
    - injection H as <- <- <- <-. auto.
    - destruct (g_errs g); [|destruct (redis_save ok r k v)]; injection H as <- <- <- <-; auto.
    - injection H as <- <- <- <-. auto.
    - destruct (register_key (n_maps n) k d0 (Some p)); injection H as <- <- <- <-; auto.
    - injection H as <- <- <- <-. auto.
    - injection H as <- <- <- <-. auto.
    - injection H as <- <- <- <-. auto.
    - injection H as <- <- <- <-. auto.
    - injection H as <- <- <- <-. auto.
  Qed.

  Lemma sound_call (w : cworld V) t j1 o w' es : sound w -> cstep ok ord w (CCall t j1 o) = Some (w', es) ->
    sound w' /\ c_nodes w' = c_nodes w /\ forall n u th, nth_error (c_nodes w) j = Some n -> mine n u = true -> nth_error (c_threads w) u = Some th -> t_node th = j ->
      nth_error (c_threads w') u = Some th.
  Proof.
    intros [HI HP HT] Hs. pose proof Hs as Hs0. apply cstep_call in Hs. destruct Hs as (th & nd & E1 & E2 & E3 & -> & ->).
    destruct HI as [hs HI]. pose proof (inv_step ok ord _ _ _ _ _ HI Hs0) as HI'.
    assert (Hp : t_prog th = []).
    { pose proof (i_threads _ _ HI _ _ E1) as X. unfold thread_ok in X. rewrite E3 in X. apply X. }
    assert (Hm : forall n, nth_error (c_nodes w) j = Some n -> mine n t = false).
    { intros n En. destruct (mine n t) eqn:M; [|reflexivity]. exfalso. unfold mine in M. destruct (n_mlock n) as [u|] eqn:Em; [|discriminate].
      apply Nat.eqb_eq in M. subst u. apply (i_mutex _ _ HI j n En) in Em. unfold mutex_of in Em. rewrite E1 in Em.
      pose proof (i_threads _ _ HI _ _ E1) as X. unfold thread_ok in X. rewrite E3 in X. destruct X as [_ X]. rewrite X in Em. destruct (Nat.eqb _ _); discriminate. }
    split; [|split; [reflexivity|]].
    - constructor; [exact HI'|exact HP|]. cbn [c_nodes c_threads]. intros n u thu En Hu Hj. rewrite nth_error_upd in Hu. destruct (Nat.eq_dec t u) as [<-|ne].
      + rewrite E1 in Hu. injection Hu as <-. cbn [t_node t_prog] in *. subst j1. rewrite En in E2. injection E2 as <-. rewrite (Hm _ En), (HP _ En). apply loads_call.
      + eapply HT; eassumption.
    - intros n u thu En M Hu Hj. cbn [c_threads]. rewrite nth_error_upd. destruct (Nat.eq_dec t u) as [<-|ne]; [|exact Hu].
      rewrite (Hm _ En) in M. discriminate.
  Qed.

  Lemma sound_step (w : cworld V) t now w' es : sound w -> cstep ok ord w (CStep t now) = Some (w', es) -> sound w'.
  Proof.
    intros [HI HP HT] Hs. pose proof Hs as Hs0. apply cstep_step in Hs.
    destruct Hs as (th & i & rest & n & n' & r' & new & g' & E1 & E2 & E3 & E4 & -> & ->).
    destruct HI as [hs HI]. pose proof (inv_step ok ord _ _ _ _ _ HI Hs0) as HI'.
    destruct (Nat.eq_dec (t_node th) j) as [Ej|nj].
    2:{ constructor; [exact HI'| |]; cbn [c_nodes c_threads].
      - intros m Hm. rewrite nth_error_upd in Hm. destruct (Nat.eq_dec (t_node th) j); [congruence|]. apply HP. exact Hm.
      - intros m u thu Hm Hu Hj. rewrite nth_error_upd in Hm. destruct (Nat.eq_dec (t_node th) j); [congruence|].
        rewrite nth_error_upd in Hu. destruct (Nat.eq_dec t u) as [<-|ne]; [rewrite E1 in Hu; injection Hu as <-; cbn [t_node] in Hj; congruence|]. eapply HT; eassumption. }
    rewrite Ej in *. pose proof (istep_load _ _ _ _ _ _ _ _ _ _ E4 (HP _ E3)) as Hl.
    pose proof (HT _ _ _ E3 E1 Ej) as Ht. rewrite E2 in Ht. change (toks (i :: rest)) with (tok_of i ++ toks rest) in Ht.
    constructor; [exact HI'| |]; cbn [c_nodes c_threads].
    - intros m Hm. rewrite nth_error_upd in Hm. destruct (Nat.eq_dec j j); [|congruence]. rewrite E3 in Hm. injection Hm as <-. rewrite (istep_pol _ _ _ _ _ _ _ _ _ _ _ _ E4). apply HP. exact E3.
    - intros m u thu Hm Hu Hj. rewrite nth_error_upd in Hm. destruct (Nat.eq_dec j j); [|congruence]. rewrite E3 in Hm. injection Hm as <-.
      rewrite nth_error_upd in Hu. destruct (Nat.eq_dec t u) as [<-|ne].
      + rewrite E1 in Hu. injection Hu as <-. cbn [t_prog]. rewrite toks_app. unfold mine in *.
        destruct (tok_of i) as [|k0 tk] eqn:Ek.
        * destruct Hl as (Hl1 & _ & Hl3). rewrite Hl1, Hl3. exact Ht.
        * assert (Ek' : tk = []) by (destruct i as [| | | | | | | |[]| | | | | | | | | | | | |]; try discriminate; injection Ek as _ <-; reflexivity). subst tk.
          cbn [app] in Ht. destruct k0.
          -- destruct Hl as (Hl0 & Hl1 & _ & Hl3). rewrite Hl0 in Ht. rewrite Hl1, Hl3, Nat.eqb_refl. cbn [app]. inversion Ht; subst. constructor. assumption.
          -- destruct Hl as (Hl1 & _ & Hl3). rewrite Hl1. destruct (match n_mlock n with Some u => Nat.eqb u t | None => false end); [|inversion Ht].
             inversion Ht; subst. destruct Hl3 as [-> | [-> _]]; cbn [app]; constructor; assumption.
          -- destruct Hl as (Hl1 & _ & Hl3). rewrite Hl1. destruct (match n_mlock n with Some u => Nat.eqb u t | None => false end); [|inversion Ht].
             inversion Ht; subst. destruct Hl3 as [-> | [-> _]]; cbn [app]; constructor; assumption.
          -- exfalso. destruct (match n_mlock n with Some u => Nat.eqb u t | None => false end); inversion Ht.
          -- destruct Hl as (Hl1 & _ & Hl3). rewrite Hl1, Hl3. destruct (match n_mlock n with Some u => Nat.eqb u t | None => false end); [|inversion Ht].
             inversion Ht; subst. cbn [app]. constructor; assumption.
          -- destruct Hl as (Hl1 & _ & Hl3). rewrite Hl1, Hl3. destruct (match n_mlock n with Some u => Nat.eqb u t | None => false end); [|inversion Ht].
             inversion Ht; subst. cbn [app]. assumption.
      + pose proof (HT _ _ _ E3 Hu Hj) as Htu. unfold mine in *. assert (Nu : Nat.eqb t u = false) by (apply Nat.eqb_neq; exact ne).
        assert (Lk : match n_mlock n' with Some v => Nat.eqb v u | None => false end = match n_mlock n with Some v => Nat.eqb v u | None => false end).
        { destruct (tok_of i) as [|k0 tk]; [destruct Hl as (-> & _); reflexivity|]. destruct k0.
          - destruct Hl as (-> & -> & _). exact Nu.
          - destruct Hl as (-> & _). reflexivity.
          - destruct Hl as (-> & _). reflexivity.
          - destruct (match n_mlock n with Some u => Nat.eqb u t | None => false end); inversion Ht.
          - destruct Hl as (-> & _). reflexivity.
          - destruct Hl as (-> & _). destruct (n_mlock n) as [v|]; [|reflexivity]. destruct (Nat.eqb v t) eqn:Ev; [apply Nat.eqb_eq in Ev; subst v; symmetry; exact Nu|inversion Ht]. }
        rewrite Lk. exact Htu.
  Qed.

  (** ** Counting *)
  Variable T0 : Z.
  Definition stage (w : cworld V) (n : node V) : option tok :=
    match n_mlock n with
    | Some t => match nth_error (c_threads w) t with Some th => hd_error (toks (t_prog th)) | None => None end
    | None => None
    end.
  Definition good (n : node V) (cur k : Z) : Prop := (k = 0 \/ exists l, n_last n = Some l /\ T0 + (k - 1) * d <= l <= cur)%Z.
  Definition tally (s : option tok) (n : node V) (cur k : Z) : Prop :=
    match s with
    | Some TG => (T0 + k * d <= cur)%Z
    | Some TM => (T0 + (k - 1) * d <= cur)%Z
    | _ => good n cur k
    end.
  Record counted (w : cworld V) (cur k : Z) : Prop := {
    co_time : (T0 <= cur)%Z; co_pos : (0 <= k)%Z;
    co_tally : forall n, nth_error (c_nodes w) j = Some n -> tally (stage w n) n cur k }.

  Lemma tally_later s n cur cur' k : tally s n cur k -> (cur <= cur')%Z -> tally s n cur' k.
  Proof.
    assert (G : good n cur k -> (cur <= cur')%Z -> good n cur' k).
    { intros [->|(l & E & X)] L; [left; reflexivity|]. right. exists l. split; [exact E|lia]. }
    intros H L. destruct s as [[]|]; cbn [tally] in *; auto; lia.
  Qed.
  Lemma tally_bound s n cur k : tally s n cur k -> (T0 <= cur)%Z -> (T0 + (k - 1) * d <= cur)%Z.
  Proof.
    assert (G : good n cur k -> (T0 <= cur)%Z -> (T0 + (k - 1) * d <= cur)%Z).
    { intros [->|(l & E & X)] L; nia. }
    intros H L. destruct s as [[]|]; cbn [tally] in *; auto; nia.
  Qed.

  Lemma holder_at (w : cworld V) n t : sound w -> nth_error (c_nodes w) j = Some n -> n_mlock n = Some t ->
    exists th, nth_error (c_threads w) t = Some th /\ t_node th = j.
  Proof.
    intros HS En Em. destruct (so_inv _ HS) as [hs HI]. apply (i_mutex _ _ HI j n En) in Em. unfold mutex_of in Em.
    destruct (nth_error (c_threads w) t) as [th|]; [|discriminate]. destruct (Nat.eqb_spec (t_node th) j) as [E|E]; [|discriminate].
    exists th. auto.
  Qed.

  Lemma counted_call (w : cworld V) t j1 o w' es cur k : sound w -> counted w cur k ->
    cstep ok ord w (CCall t j1 o) = Some (w', es) -> counted w' cur k.
  Proof.
    intros HS [H1 H2 H3] Hs. destruct (sound_call _ _ _ _ _ _ HS Hs) as (_ & En & Hh).
    constructor; [exact H1|exact H2|]. rewrite En. intros n Hn. specialize (H3 n Hn).
    assert (St : stage w' n = stage w n).
    { unfold stage. destruct (n_mlock n) as [u|] eqn:Em; [|reflexivity]. destruct (holder_at _ _ _ HS Hn Em) as (th & Eu & Ej).
      rewrite Eu, (Hh n u th Hn); [reflexivity| |exact Eu|exact Ej]. unfold mine. rewrite Em. apply Nat.eqb_refl. }
    rewrite St. exact H3.
  Qed.

  Lemma counted_step (w : cworld V) t now w' es cur k : sound w -> counted w cur k -> ok (r_cmds (c_redis w)) = true -> (cur <= now)%Z ->
    cstep ok ord w (CStep t now) = Some (w', es) ->
    counted w' now (k + if sends_hgetall j w (CStep t now) then 1 else 0)%Z.
  Proof.
    intros HS [H1 H2 H3] Hok Hc Hs. pose proof Hs as Hs0. apply cstep_step in Hs.
    destruct Hs as (th & i & rest & n & n' & r' & new & g' & E1 & E2 & E3 & E4 & -> & ->).
    unfold sends_hgetall. rewrite E1, E2.
    destruct (Nat.eqb_spec (t_node th) j) as [Ej|nj]; cbn [andb].
    2:{ rewrite Z.add_0_r. constructor; [lia|exact H2|]. intros m Hm. cbn [c_nodes] in Hm. rewrite nth_error_upd in Hm. destruct (Nat.eq_dec (t_node th) j); [congruence|].
      match goal with |- tally (stage ?x m) _ _ _ => assert (St : stage x m = stage w m) end.
      { unfold stage. destruct (n_mlock m) as [u|] eqn:Em; [|reflexivity]. destruct (holder_at _ _ _ HS Hm Em) as (thu & Eu & Eju). cbn [c_threads].
        rewrite nth_error_upd. destruct (Nat.eq_dec t u) as [<-|ne]; [congruence|reflexivity]. }
      rewrite St. eapply tally_later; [apply H3; exact Hm|exact Hc]. }
    rewrite Ej in *. specialize (H3 n E3). pose proof (istep_load _ _ _ _ _ _ _ _ _ _ E4 (so_pol _ HS _ E3)) as Hl.
    pose proof (so_toks _ HS _ _ _ E3 E1 Ej) as Ht. rewrite E2 in Ht. change (toks (i :: rest)) with (tok_of i ++ toks rest) in Ht.
    match goal with |- counted ?x _ _ => set (w' := x) end.
    assert (Me : n_mlock n' = Some t -> stage w' n' = hd_error (toks new ++ toks rest)).
    { intros X. unfold stage, w'. rewrite X. cbn [c_threads]. rewrite nth_error_upd. destruct (Nat.eq_dec t t); [|congruence]. rewrite E1. cbn [t_prog]. rewrite toks_app. reflexivity. }
    assert (Mo : n_mlock n = Some t -> stage w n = hd_error (tok_of i ++ toks rest)).
    { intros X. unfold stage. rewrite X, E1, E2. reflexivity. }
    assert (Kt : forall m, nth_error (c_nodes w') j = Some m -> m = n').
    { intros m Hm. unfold w' in Hm. cbn [c_nodes] in Hm. rewrite nth_error_upd in Hm. destruct (Nat.eq_dec j j); [|congruence]. rewrite E3 in Hm. congruence. }
    assert (Hy : forall x tk, tok_of i = x :: tk -> x <> TL -> n_mlock n = Some t /\ x <> TX).
    { intros x tk Ek Nx. rewrite Ek in Ht. unfold mine in Ht. destruct (n_mlock n) as [u|] eqn:Em.
      - destruct (Nat.eqb_spec u t) as [->|ne]; [|inversion Ht; congruence]. split; [reflexivity|]. intros ->. inversion Ht.
      - inversion Ht; congruence. }
    constructor; [lia|destruct (match i with IHGetAll _ => true | _ => false end); lia|]. intros m Hm. rewrite (Kt m Hm). clear m Hm Kt.
    assert (Gl : forall kk, good n cur kk -> n_last n' = n_last n -> good n' now kk).
    { intros kk [->|(l & El & X)] E; [left; reflexivity|]. right. exists l. rewrite E. split; [exact El|lia]. }
    destruct (tok_of i) as [|x tk] eqn:Ek.
    - assert (Ei : match i with IHGetAll _ => true | _ => false end = false) by (destruct i as [| | | | | | | |[]| | | | | | | | | | | | |]; try reflexivity; discriminate).
      rewrite Ei, Z.add_0_r. destruct Hl as (Hl1 & Hl2 & Hl3).
      assert (St : stage w' n' = stage w n).
      { destruct (n_mlock n) as [u|] eqn:Em; [|unfold stage; rewrite Hl1, Em; reflexivity]. destruct (Nat.eq_dec u t) as [->|ne].
        - rewrite Me, Mo by congruence. rewrite Hl3. reflexivity.
        - unfold stage, w'. rewrite Hl1, Em. cbn [c_threads]. rewrite nth_error_upd. destruct (Nat.eq_dec t u); [congruence|reflexivity]. }
      rewrite St. apply tally_later with (1 := H3) in Hc. destruct (stage w n) as [[]|]; cbn [tally] in *; try exact Hc; unfold good in *; rewrite Hl2; exact Hc.
    - destruct x.
      + destruct Hl as (Hl0 & Hl1 & Hl2 & Hl3). unfold mine in Ht. rewrite Hl0 in Ht.
        assert (Ei : match i with IHGetAll _ => true | _ => false end = false) by (destruct i as [| | | | | | | |[]| | | | | | | | | | | | |]; try reflexivity; discriminate).
        rewrite Ei, Z.add_0_r. rewrite (Me Hl1), Hl3. inversion Ht as [|l0 Hl4 El0]. destruct tk as [|? tk]; [|destruct i as [| | | | | | | |[]| | | | | | | | | | | | |]; discriminate].
        cbn [app] in El0. destruct (toks rest) as [|y ?]; [discriminate|]. injection El0 as <- _. cbn [app hd_error tally].
        unfold stage in H3. rewrite Hl0 in H3. cbn [tally] in H3. apply Gl; assumption.
      + destruct (Hy _ _ eq_refl) as [Em _]; [discriminate|]. destruct Hl as (Hl1 & Hl2 & Hl3).
        assert (Ei : match i with IHGetAll _ => true | _ => false end = false) by (destruct i as [| | | | | | | |[]| | | | | | | | | | | | |]; try reflexivity; discriminate).
        rewrite Ei, Z.add_0_r. rewrite (Mo Em) in H3. cbn [app hd_error tally] in H3. rewrite Me by congruence.
        unfold mine in Ht. rewrite Em, Nat.eqb_refl in Ht. inversion Ht as [l0 Hl4 El0| | |]. destruct tk as [|? tk]; [|destruct i as [| | | | | | | |[]| | | | | | | | | | | | |]; discriminate].
        cbn [app] in El0. destruct Hl3 as [-> | [-> Hd]]; cbn [app].
        * rewrite <- El0. cbn [hd_error tally]. apply Gl; assumption.
        * cbn [hd_error tally]. destruct H3 as [->|(l & El & X)]; [lia|]. specialize (Hd l El). nia.
      + destruct (Hy _ _ eq_refl) as [Em _]; [discriminate|]. destruct Hl as (Hl1 & Hl2 & Hl3).
        assert (Ei : match i with IHGetAll _ => true | _ => false end = true) by (destruct i as [| | | | | | | |[]| | | | | | | | | | | | |]; try reflexivity; discriminate).
        rewrite Ei. rewrite (Mo Em) in H3. cbn [app hd_error tally] in H3. rewrite Me by congruence.
        destruct Hl3 as [-> | [_ Bad]]; [|congruence]. cbn [app hd_error tally]. replace (k + 1 - 1)%Z with k by lia. lia.
      + destruct (Hy _ _ eq_refl) as [_ Bad]; [discriminate|]. congruence.
      + destruct (Hy _ _ eq_refl) as [Em _]; [discriminate|]. destruct Hl as (Hl1 & Hl2 & Hl3).
        assert (Ei : match i with IHGetAll _ => true | _ => false end = false) by (destruct i as [| | | | | | | |[]| | | | | | | | | | | | |]; try reflexivity; discriminate).
        rewrite Ei, Z.add_0_r. rewrite (Mo Em) in H3. cbn [app hd_error tally] in H3. rewrite Me by congruence. rewrite Hl3.
        unfold mine in Ht. rewrite Em, Nat.eqb_refl in Ht. inversion Ht as [| |l0 Hl4 El0|]. destruct tk as [|? tk]; [|destruct i as [| | | | | | | |[]| | | | | | | | | | | | |]; discriminate].
        cbn [app] in El0. rewrite <- El0. cbn [app hd_error tally]. right. exists now. split; [exact Hl2|lia].
      + destruct (Hy _ _ eq_refl) as [Em _]; [discriminate|]. destruct Hl as (Hl1 & Hl2 & Hl3).
        assert (Ei : match i with IHGetAll _ => true | _ => false end = false) by (destruct i as [| | | | | | | |[]| | | | | | | | | | | | |]; try reflexivity; discriminate).
        rewrite Ei, Z.add_0_r. rewrite (Mo Em) in H3. cbn [app hd_error tally] in H3. unfold stage. rewrite Hl1. cbn [tally]. apply Gl; assumption.
  Qed.

  Lemma counted_run T1 sched : forall (w : cworld V) cur k, sound w -> counted w cur k -> redis_works ok w -> (cur <= T1)%Z ->
    StronglySorted Z.le (shown sched) -> Forall (fun z => (cur <= z <= T1)%Z) (shown sched) ->
    nth_error (c_nodes w) j <> None -> (k + hgetalls ok ord j w sched <= 1 + (T1 - T0) / d)%Z.
  Proof.
    induction sched as [|l sched IH]; intros w cur k HS HC HW HT1 Hsrt Hall Hj.
    - cbn [hgetalls]. rewrite Z.add_0_r. destruct (nth_error (c_nodes w) j) as [n|] eqn:En; [|congruence].
      pose proof (tally_bound _ _ _ _ (co_tally _ _ _ HC n En) (co_time _ _ _ HC)) as B.
      assert (k - 1 <= (T1 - T0) / d)%Z by (apply Z.div_le_lower_bound; nia). lia.
    - cbn [hgetalls]. destruct (cstep ok ord w l) as [[w' es]|] eqn:E.
      + assert (HW' : redis_works ok w').
        { intros m Hm. apply HW. pose proof (cmds_grow ok ord w [l]) as X. cbn [exec] in X. rewrite E in X. cbn [fst] in X. lia. }
        assert (Hj' : nth_error (c_nodes w') j <> None).
        { destruct l as [t j1 o|t now].
          - destruct (sound_call _ _ _ _ _ _ HS E) as (_ & -> & _). exact Hj.
          - pose proof E as X. apply cstep_step in X. destruct X as (? & ? & ? & ? & ? & ? & ? & ? & _ & _ & _ & _ & -> & _). cbn [c_nodes].
            apply nth_error_Some. rewrite upd_length. apply nth_error_Some. exact Hj. }
        destruct l as [t j1 o|t now].
        * pose proof (IH _ _ _ (proj1 (sound_call _ _ _ _ _ _ HS E)) (counted_call _ _ _ _ _ _ _ _ HS HC E) HW' HT1 Hsrt Hall Hj') as X. cbn [sends_hgetall]. lia.
        * cbn [shown flat_map app] in Hsrt, Hall. apply StronglySorted_inv in Hsrt. destruct Hsrt as [Hs1 Hs2]. inversion Hall as [|? ? Ha1 Ha2]; subst.
          assert (HC' : counted w' now (k + if sends_hgetall j w (CStep t now) then 1 else 0)).
          { eapply counted_step; [exact HS|exact HC|apply HW; lia|lia|exact E]. }
          assert (Hall' : Forall (fun z => (now <= z <= T1)%Z) (shown sched)).
          { apply Forall_forall. intros z Hz. rewrite Forall_forall in Hs2, Ha2. split; [apply Hs2; exact Hz|apply Ha2; exact Hz]. }
          pose proof (IH _ _ _ (sound_step _ _ _ _ _ HS E) HC' HW' ltac:(lia) Hs1 Hall' Hj') as X.
          destruct (sends_hgetall j w (CStep t now)); lia.
      + destruct l as [t j1 o|t now].
        * apply (IH w cur k); assumption.
        * cbn [shown flat_map app] in Hsrt, Hall. apply StronglySorted_inv in Hsrt. destruct Hsrt as [Hs1 _]. inversion Hall; subst. apply (IH w cur k); assumption.
  Qed.
End rate.

Lemma hgetalls_rate {V} ok ord h pols n sched j d (sched2 : list (clabel V)) a b :
  let c := conc_exec ok ord h pols n sched in
  nth_error pols j = Some (PolInterval d) -> (0 < d)%Z -> redis_works ok (fst c) -> (a <= b)%Z -> clock_from_to a b sched2 ->
  (hgetalls ok ord j (fst c) sched2 <= 1 + (b - a) / d)%Z.
Proof.
  intros c Hp Hd HW Hab [H1 H2].
  assert (HS : sound j d (fst c)).
  { unfold c, conc_exec. refine (exec_inv (cstep ok ord) (fun w _ => sound j d w) _ sched _ [] _).
    - intros w l w' es _ HS E. destruct l as [t j1 o|t now]; [eapply sound_call; eassumption|eapply sound_step; eassumption].
    - constructor.
      + exists (fun _ => held0). apply inv0.
      + intros m Hm. cbn in Hm. rewrite nth_error_map, Hp in Hm. injection Hm as <-. reflexivity.
      + intros m t th Hm Ht _. cbn in Hm, Ht. rewrite nth_error_map, Hp in Hm. injection Hm as <-. cbn. apply nth_error_In, repeat_spec in Ht. subst th. constructor. }
  assert (X : (0 + hgetalls ok ord j (fst c) sched2 <= 1 + (b - a) / d)%Z); [|lia].
  apply (counted_run ok ord j d Hd a b sched2 (fst c) a 0); try assumption; [|].
  - constructor; [lia|lia|]. intros m Hm. destruct (stage (fst c) m) as [[]|]; cbn [tally]; unfold good; try (left; reflexivity); lia.
  - pose proof (pols_of ok ord h pols n sched) as P. intros E. apply (f_equal (option_map n_pol)) in E. rewrite <- nth_error_map in E. unfold c in E. rewrite P, Hp in E. discriminate.
Qed.
