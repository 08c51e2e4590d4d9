(** Proofs about the config store. *)
From Verif Require Import Common Bytes Threads StoreModel StoreSpec.
From Coq Require Import Permutation.

Ltac keq k k' :=
  let E := fresh "E" in
  destruct (String.eqb_spec k k') as [E|E]; [try subst|].

(** The five maps of a store describe the state [est] of each key. *)
Definition rel1 {V} (s : store V) (k : string) (e : option (entry V)) : Prop :=
  s_procs s k = option_map e_proc e /\
  s_defstr s k = option_map e_def e /\
  s_def s k = option_map (fun e => p_convert (e_proc e) (e_def e)) e /\
  s_kvstr s k = match e with Some e => e_cur e | None => None end /\
  s_kv s k = match e with
             | Some e => option_map (p_convert (e_proc e)) (e_cur e)
             | None => None
             end /\
  match e with
  | Some e => accepts (e_proc e) (e_def e) = true /\
              (forall v, e_cur e = Some v -> accepts (e_proc e) v = true) /\ k <> ""%string
  | None => True
  end.

Definition rel {V} (s : store V) (est : string -> option (entry V)) : Prop := forall k, rel1 s k (est k).

Lemma rel_new {V} : rel (@new_store V) (fun _ => None).
Proof. intros k. repeat split. Qed.

Lemma rel_ext {V} (s : store V) e1 e2 : (forall k, e1 k = e2 k) -> rel s e1 -> rel s e2.
Proof. intros H R k. rewrite <- H. apply R. Qed.

Lemma rel_empty {V} (s : store V) est : rel s est -> est ""%string = None.
Proof.
  intros R. destruct (R ""%string) as (_ & _ & _ & _ & _ & H).
  destruct (est ""%string); [destruct H as (_ & _ & H); congruence|reflexivity].
Qed.

Lemma rel_update {V} (s : store V) est k v : rel s est ->
  rel (fst (update_no_persist s k v)) (fun k' => if String.eqb k k' then offer (est k') v else est k').
Proof.
  intros R k'. pose proof (rel_empty _ _ R) as H0. unfold update_no_persist.
  keq k ""%string.
  - cbn [fst]. keq ""%string k'; [rewrite H0; apply (eq_ind _ (rel1 s _) (R _) _ H0)|apply R].
  - unfold lookup_value. destruct (R k) as (A1 & A2 & A3 & A4 & A5 & A6). rewrite A1.
    destruct (est k) as [[p d c]|] eqn:Ek; cbn in *.
    + destruct (p_validate p v) as [ok err] eqn:Ev.
      destruct ok; cbn [negb fst].
      * keq k k'.
        -- rewrite Ek. cbn. unfold accepts. rewrite Ev. cbn.
           unfold rel1, write_value. cbn. rewrite !mset_same. repeat split; try assumption; try tauto.
           intros v' [= <-]. unfold accepts. rewrite Ev. reflexivity.
        -- pose proof (R k') as Hk. unfold rel1, write_value in *. cbn.
           rewrite !mset_other by congruence. exact Hk.
      * keq k k'; [|apply R]. rewrite Ek. cbn. unfold accepts. rewrite Ev. cbn. rewrite <- Ek. apply R.
    + keq k k'; [|apply R]. rewrite Ek. cbn. rewrite <- Ek. apply R.
Qed.

Definition offers {V} (kvs : list (string * string)) (k : string) (e : option (entry V)) :=
  fold_left (fun e kv => if String.eqb (fst kv) k then offer e (snd kv) else e) kvs e.

Lemma rel_load {V} kvs (s : store V) est : rel s est ->
  rel (load_entries s kvs) (fun k => offers kvs k (est k)).
Proof.
  revert s est. induction kvs as [|[k v] kvs IH]; intros s est R; [exact R|].
  cbn. apply (IH _ (fun k' => if String.eqb k k' then offer (est k') v else est k')).
  apply rel_update. exact R.
Qed.

Lemma update_each_fst {V} (s : store V) kvs :
  fst (update_each s kvs) = load_entries s kvs.
Proof.
  revert s. induction kvs as [|[k v] kvs IH]; intros s; [reflexivity|].
  cbn. destruct (update_no_persist s k v) as [s1 err]. specialize (IH s1).
  destruct (update_each s1 kvs) as [s2 errs]. cbn in *. exact IH.
Qed.

Lemma rel_register {V} (s : store V) est k d vp : rel s est ->
  rel (fst (register_key s k d vp)) (fun k' => key_step k' (est k') (ORegister k d vp)).
Proof.
  intros R k'. unfold register_key. pose proof (rel_empty _ _ R) as H0.
  assert (Hsame : forall e, e = est k' -> rel1 s k' e) by (intros e ->; apply R).
  keq k ""%string.
  { cbn [fst]. apply Hsame. cbn [key_step]. destruct vp as [p|]; [|reflexivity].
    destruct (est k') as [e|] eqn:Ek; [reflexivity|].
    keq ""%string k'; reflexivity. }
  destruct vp as [p|]; [|cbn [fst]; apply R].
  destruct (R k) as (A1 & A2 & A3 & A4 & A5 & A6). rewrite A1.
  destruct (est k) as [e|] eqn:Ek; cbn [option_map].
  { cbn [fst]. apply Hsame. cbn. destruct (est k') eqn:Ek'; [reflexivity|].
    keq k k'; [congruence|reflexivity]. }
  rewrite A3. cbn [option_map].
  destruct (p_validate p d) as [ok err] eqn:Ev. destruct ok; cbn [negb fst key_step].
  - keq k k'.
    + rewrite Ek. rewrite (seqb_neq _ _ E). unfold accepts. rewrite Ev. cbn.
      unfold rel1. cbn. rewrite !mset_same. repeat split; try assumption.
      * unfold accepts. rewrite Ev. reflexivity.
      * intros v [=].
    + cbn. destruct (est k') as [e'|] eqn:Ek'; pose proof (R k') as Hk; rewrite Ek' in Hk;
        unfold rel1 in *; cbn in *; rewrite !mset_other by congruence; exact Hk.
  - apply Hsame. destruct (est k') as [e'|] eqn:Ek'; [reflexivity|].
    unfold accepts. rewrite Ev. cbn. rewrite !andb_false_r. reflexivity.
Qed.

Lemma rel_drop {V} (s : store V) est k : rel s est ->
  rel (drop_key s k) (fun k' => if String.eqb k k' then None else est k').
Proof.
  intros R k'. pose proof (R k') as Hk. keq k k'; unfold rel1, drop_key in *; cbn.
  - rewrite !mdel_same. repeat split.
  - rewrite !mdel_other by congruence. exact Hk.
Qed.

Lemma rel_clear {V} (s : store V) est k : rel s est ->
  rel (clear_key s k) (fun k' => if String.eqb k k'
     then option_map (fun e => Entry (e_proc e) (e_def e) None) (est k') else est k').
Proof.
  intros R k'. pose proof (R k') as Hk. keq k k'; unfold rel1, clear_key in *; cbn.
  - rewrite !mdel_same. destruct (est k') as [e|]; cbn in *; [|tauto].
    repeat split; try tauto. intros v [=].
  - rewrite !mdel_other by congruence. exact Hk.
Qed.

Lemma rel_reads {V} (s : store V) est k : rel s est ->
  read_string s k = current (est k) /\ read_value s k = current_value (est k).
Proof.
  intros R. destruct (R k) as (A1 & A2 & A3 & A4 & A5 & A6). unfold read_string, read_value.
  rewrite A2, A3, A4, A5. destruct (est k) as [[p d c]|]; cbn; [|auto]. destruct c; auto.
Qed.

Section ops.
  Context {V P : Type}.
  Variable per : persister P.
  Variable pol : policy.
  Variable clk : nat -> Z * Z.

  (** The entries that the loads of one call hand to the store. *)
  Lemma do_load_store (x : @sw V P) :
    exists kvs, fst (do_load per pol clk x) = load_entries (fst x) kvs /\ (pol = PolNoop -> kvs = []).
  Proof.
    destruct x as [s w]. unfold do_load. destruct (clk (w_tick w)) as [n1 n2].
    destruct (wants_load pol (w_last w) n1) eqn:E.
    - destruct (ps_load per (w_p w)) as [[p' kvs] ok]. exists kvs. split; [reflexivity|].
      intros ->. discriminate.
    - exists []. split; reflexivity.
  Qed.

  Lemma load_entries_app (s : store V) a b : load_entries s (a ++ b) = load_entries (load_entries s a) b.
  Proof. apply fold_left_app. Qed.

  Lemma get_each_store {A} (get : @sw V P -> string -> sw * option A) keys :
    (forall x k, exists kvs, fst (fst (get x k)) = load_entries (fst x) kvs /\ (pol = PolNoop -> kvs = [])) ->
    forall x, exists kvs, fst (fst (get_each get x keys)) = load_entries (fst x) kvs /\ (pol = PolNoop -> kvs = []).
  Proof.
    intros Hget. induction keys as [|k keys IH]; intros x; cbn; [exists []; split; reflexivity|].
    destruct (String.eqb k ""); [apply IH|].
    destruct (Hget x k) as (a & Ha & Ha0). destruct (get x k) as [x1 r] eqn:E1. cbn in Ha.
    destruct (IH x1) as (b & Hb & Hb0). destruct (get_each get x1 keys) as [x2 kvs]. cbn in *.
    exists (a ++ b)%list. split; [rewrite load_entries_app; congruence|].
    intros H. rewrite (Ha0 H), (Hb0 H). reflexivity.
  Qed.

  Lemma get_store (x : @sw V P) k :
    (exists kvs, fst (fst (get_value per pol clk x k)) = load_entries (fst x) kvs /\ (pol = PolNoop -> kvs = [])) /\
    (exists kvs, fst (fst (get_value_string per pol clk x k)) = load_entries (fst x) kvs /\ (pol = PolNoop -> kvs = [])).
  Proof. unfold get_value, get_value_string. split; apply do_load_store. Qed.

  (** Effect of one call on the store, up to the loads it makes. *)
  Lemma sop_step_rel (x : @sw V P) o est : rel (fst x) est ->
    exists kvs, (pol = PolNoop -> kvs = []) /\
      rel (fst (fst (sop_step per pol clk x o))) (fun k => offers kvs k (key_step k (est k) o)).
  Proof.
    assert (Hload : forall (x' x'' : @sw V P) kvs, fst x' = load_entries (fst x'') kvs ->
       rel (fst x'') est -> rel (fst x') (fun k => offers kvs k (est k))).
    { intros x' x'' kvs -> R. apply rel_load. exact R. }
    assert (Hmore : forall (x' : @sw V P) k,
       (exists kvs, fst (fst (get_value per pol clk (do_load per pol clk x') k)) = load_entries (fst x') kvs /\ (pol = PolNoop -> kvs = [])) /\
       (exists kvs, fst (fst (get_value_string per pol clk (do_load per pol clk x') k)) = load_entries (fst x') kvs /\ (pol = PolNoop -> kvs = []))).
    { intros x' k. destruct (do_load_store x') as (a & Ha & Ha0).
      destruct (get_store (do_load per pol clk x') k) as ((b & Hb & Hb0) & (c & Hc & Hc0)).
      split; [exists (a ++ b)%list|exists (a ++ c)%list]; rewrite load_entries_app, <- Ha;
        (split; [assumption|]); intros H; rewrite (Ha0 H); auto. }
    destruct x as [s w]. intros R. cbn [fst] in R.
    destruct o as [k d vp|k|k v|k v|kvs|k|k|k|k|k|ks|ks]; cbn [sop_step key_step].
    - exists []. split; [reflexivity|]. cbn [fst snd]. pose proof (rel_register s est k d vp R) as H.
      destruct (register_key s k d vp). exact H.
    - exists []. split; [reflexivity|]. unfold deregister_key. cbn.
      keq k ""%string; [|apply rel_drop; exact R].
      apply (rel_ext _ est); [|exact R]. intros k. keq ""%string k; [apply (rel_empty _ _ R)|reflexivity].
    - exists []. split; [reflexivity|]. unfold update. pose proof (rel_update s est k v R) as H.
      destruct (update_no_persist s k v) as [s' [e|]]; [destruct (ps_save per (w_p w) k v)|]; exact H.
    - exists []. split; [reflexivity|]. cbn [fst snd]. pose proof (rel_update s est k v R) as H.
      destruct (update_no_persist s k v). exact H.
    - exists []. split; [reflexivity|]. unfold batch_update. pose proof (rel_load kvs s est R) as H.
      rewrite <- update_each_fst in H.
      destruct kvs; [exact R|].
      destruct (update_each s (p :: kvs)). exact H.
    - exists []. split; [reflexivity|]. cbn. apply rel_clear. exact R.
    - destruct (get_store (s, w) k) as ((kvs & H & H0) & _). exists kvs. split; [exact H0|].
      destruct (get_value per pol clk (s, w) k) as [x' r]. apply (Hload x' (s, w)); assumption.
    - destruct (get_store (s, w) k) as (_ & (kvs & H & H0)). exists kvs. split; [exact H0|].
      destruct (get_value_string per pol clk (s, w) k) as [x' r]. apply (Hload x' (s, w)); assumption.
    - destruct (Hmore (s, w) k) as ((kvs & H & H0) & _). exists kvs. split; [exact H0|].
      unfold must_get_value.
      destruct (get_value per pol clk (do_load per pol clk (s, w)) k) as [x' r]. apply (Hload x' (s, w)); assumption.
    - destruct (Hmore (s, w) k) as (_ & (kvs & H & H0)). exists kvs. split; [exact H0|].
      unfold must_get_value_string.
      destruct (get_value_string per pol clk (do_load per pol clk (s, w)) k) as [x' r]. apply (Hload x' (s, w)); assumption.
    - destruct (do_load_store (s, w)) as (a & Ha & Ha0).
      destruct (get_each_store (get_value per pol clk) ks (fun x k => proj1 (get_store x k)) (do_load per pol clk (s, w)))
        as (b & Hb & Hb0).
      exists (a ++ b)%list. split; [intros H; rewrite (Ha0 H); auto|].
      unfold batch_get_values. destruct (get_each _ _ _) as [x' r]. apply (Hload x' (s, w)); [|exact R].
      cbn [fst] in *. rewrite load_entries_app, <- Ha. exact Hb.
    - destruct (do_load_store (s, w)) as (a & Ha & Ha0).
      destruct (get_each_store (get_value_string per pol clk) ks (fun x k => proj2 (get_store x k)) (do_load per pol clk (s, w)))
        as (b & Hb & Hb0).
      exists (a ++ b)%list. split; [intros H; rewrite (Ha0 H); auto|].
      unfold batch_get_value_string. destruct (get_each _ _ _) as [x' r]. apply (Hload x' (s, w)); [|exact R].
      cbn [fst] in *. rewrite load_entries_app, <- Ha. exact Hb.
  Qed.

  Lemma sop_run_fst (x : @sw V P) o os :
    fst (sop_run per pol clk x (o :: os)) = fst (sop_run per pol clk (fst (sop_step per pol clk x o)) os).
  Proof.
    cbn. destruct (sop_step per pol clk x o) as [x1 r]. cbn.
    destruct (sop_run per pol clk x1 os). reflexivity.
  Qed.
End ops.

Lemma sop_run_rel_noop {V P} (per : persister P) clk os : forall (x : @sw V P) est, rel (fst x) est ->
  rel (fst (fst (sop_run per PolNoop clk x os))) (fun k => fold_left (key_step k) os (est k)).
Proof.
  induction os as [|o os IH]; intros x est R; [exact R|].
  rewrite sop_run_fst. cbn [fold_left].
  destruct (sop_step_rel per PolNoop clk x o est R) as (kvs & H0 & H).
  rewrite (H0 eq_refl) in H. apply (IH _ _ H).
Qed.

Lemma do_load_noop {V P} (per : persister P) clk (x : @sw V P) : fst (do_load per PolNoop clk x) = fst x.
Proof. destruct x as [s w]. unfold do_load. destruct (clk (w_tick w)). reflexivity. Qed.

Lemma get_each_noop {V P A} (per : persister P) clk (get : @sw V P -> string -> sw * option A)
    (f : store V -> string -> option A) :
  (forall x k, get x k = (do_load per PolNoop clk x, f (fst (do_load per PolNoop clk x)) k)) ->
  (forall s, f s ""%string = None \/ True) ->
  forall keys x, snd (get_each get x keys) = hits (fun k => if String.eqb k "" then None else f (fst x) k) keys.
Proof.
  intros Hget _. induction keys as [|k keys IH]; intros x; [reflexivity|].
  cbn [get_each hits]. destruct (String.eqb k ""); [apply IH|].
  rewrite (Hget x k), do_load_noop. specialize (IH (do_load per PolNoop clk x)).
  rewrite do_load_noop in IH.
  destruct (get_each get (do_load per PolNoop clk x) keys) as [x2 kvs]. cbn in *.
  rewrite IH. destruct (f (fst x) k); reflexivity.
Qed.

Lemma hits_ext {A} (f g : string -> option A) keys : (forall k, f k = g k) -> hits f keys = hits g keys.
Proof. intros H. induction keys as [|k keys IH]; cbn; [reflexivity|]. rewrite H, IH. reflexivity. Qed.

(** C39. *)
Lemma reads_exact {V P} (per : persister P) clk (w : world P) (os : list (sop V)) :
  let x := fst (sop_run per PolNoop clk (new_store, w) os) in
  let read o := snd (sop_step per PolNoop clk x o) in
  (forall k, read (OGetString k) = RStr (current (key_state k os))) /\
  (forall k, read (OGet k) = RVal (current_value (key_state k os))) /\
  (forall k, read (OMustGetString k) =
     match current (key_state k os) with Some v => RMustStr v | None => RPanic end) /\
  (forall k, read (OMustGet k) =
     match current_value (key_state k os) with Some v => RMust v | None => RPanic end) /\
  (forall ks, read (OBatchGetString ks) = RStrs (hits (fun k => current (key_state k os)) ks)) /\
  (forall ks, read (OBatchGet ks) = RVals (hits (fun k => current_value (key_state k os)) ks)).
Proof.
  intros x read.
  assert (R : rel (fst x) (fun k => key_state k os)).
  { apply (sop_run_rel_noop per clk os (new_store, w) (fun _ => None)). apply rel_new. }
  clearbody x.
  assert (A : forall k, read_string (fst x) k = current (key_state k os)) by (intros k; apply (rel_reads _ _ k R)).
  assert (B : forall k, read_value (fst x) k = current_value (key_state k os)) by (intros k; apply (rel_reads _ _ k R)).
  unfold read. cbn [sop_step].
  unfold get_value_string, get_value, must_get_value, must_get_value_string, batch_get_values, batch_get_value_string.
  split; [|split; [|split; [|split; [|split]]]].
  - intros k. cbn. rewrite do_load_noop, A. reflexivity.
  - intros k. cbn. rewrite do_load_noop, B. reflexivity.
  - intros k. unfold get_value_string. cbn. rewrite !do_load_noop, A. reflexivity.
  - intros k. unfold get_value. cbn. rewrite !do_load_noop, B. reflexivity.
  - intros ks.
    pose proof (get_each_noop per clk (get_value_string per PolNoop clk) read_string
      (fun _ _ => eq_refl) (fun _ => or_intror I) ks (do_load per PolNoop clk x)) as H.
    rewrite do_load_noop in H. destruct (get_each _ _ _) as [x' r]. cbn in H |- *. f_equal. rewrite H.
    apply hits_ext. intros k. keq k ""%string; [|apply A].
    pose proof (rel_empty _ _ R) as E0. cbn in E0. rewrite E0. reflexivity.
  - intros ks.
    pose proof (get_each_noop per clk (get_value per PolNoop clk) read_value
      (fun _ _ => eq_refl) (fun _ => or_intror I) ks (do_load per PolNoop clk x)) as H.
    rewrite do_load_noop in H. destruct (get_each _ _ _) as [x' r]. cbn in H |- *. f_equal. rewrite H.
    apply hits_ext. intros k. keq k ""%string; [|apply B].
    pose proof (rel_empty _ _ R) as E0. cbn in E0. rewrite E0. reflexivity.
Qed.

(** Registrations do not depend on updates and loads. *)
Lemma registration_offer {V} (e : option (entry V)) v : registration (offer e v) = registration e.
Proof. destruct e as [[p d c]|]; cbn; [destruct (accepts p v)|]; reflexivity. Qed.

Lemma registration_offers {V} kvs k (e : option (entry V)) : registration (offers kvs k e) = registration e.
Proof.
  unfold offers. revert e. induction kvs as [|[k' v] kvs IH]; intros e; [reflexivity|].
  cbn. rewrite IH. destruct (String.eqb k' k); [apply registration_offer|reflexivity].
Qed.

Lemma registration_step {V} k (e1 e2 : option (entry V)) o :
  registration e1 = registration e2 -> registration (key_step k e1 o) = registration (key_step k e2 o).
Proof.
  intros H. destruct o as [k' d [p|]|k'|k' v|k' v|kvs|k'|k'|k'|k'|k'|ks|ks]; cbn [key_step]; try exact H.
  - destruct e1 as [e1|], e2 as [e2|]; cbn in H |- *; try discriminate; [exact H|].
    destruct (_ && _ && _); reflexivity.
  - destruct (String.eqb k' k); [reflexivity|exact H].
  - destruct (String.eqb k' k); [rewrite !registration_offer|]; exact H.
  - destruct (String.eqb k' k); [rewrite !registration_offer|]; exact H.
  - fold (offers kvs k e1). fold (offers kvs k e2). rewrite !registration_offers. exact H.
  - destruct (String.eqb k' k); [|exact H].
    destruct e1 as [e1|], e2 as [e2|]; cbn in H |- *; congruence.
Qed.

Lemma sop_run_reg {V P} (per : persister P) pol clk os : forall (x : @sw V P) est e0, rel (fst x) est ->
  (forall k, registration (est k) = registration (e0 k)) ->
  exists est', rel (fst (fst (sop_run per pol clk x os))) est' /\
    forall k, registration (est' k) = registration (fold_left (key_step k) os (e0 k)).
Proof.
  induction os as [|o os IH]; intros x est e0 R Hr; [exists est; split; assumption|].
  rewrite sop_run_fst. cbn [fold_left].
  destruct (sop_step_rel per pol clk x o est R) as (kvs & _ & H).
  apply (IH _ _ (fun k => key_step k (e0 k) o) H). intros k.
  rewrite registration_offers. apply registration_step. apply Hr.
Qed.

Lemma reachable_rel {V P} (per : persister P) pol clk w (os : list (sop V)) :
  exists est, rel (fst (fst (sop_run per pol clk (new_store, w) os))) est /\
    forall k, registration (est k) = registration (key_state k os).
Proof. apply (sop_run_reg per pol clk os (new_store, w) (fun _ => None)); [apply rel_new|reflexivity]. Qed.

(** C40. *)
Lemma views_agree {V P} (per : persister P) pol clk (w : world P) (os : list (sop V)) k :
  let x := fst (sop_run per pol clk (new_store, w) os) in
  let read o := snd (sop_step per pol clk x o) in
  match registration (key_state k os) with
  | None => read (OGetString k) = RStr None /\ read (OGet k) = RVal None
  | Some (p, d) => exists s, read (OGetString k) = RStr (Some s) /\ accepts p s = true /\
                     read (OGet k) = RVal (Some (p_convert p s))
  end.
Proof.
  intros x read. destruct (reachable_rel per pol clk w os) as (est & R & Hreg). fold x in R.
  unfold read. cbn [sop_step get_value get_value_string].
  unfold get_value, get_value_string.
  destruct (do_load_store per pol clk x) as (kvs & Hl & _).
  assert (R2 : rel (fst (do_load per pol clk x)) (fun k => offers kvs k (est k))).
  { rewrite Hl. apply rel_load. exact R. }
  destruct (rel_reads _ _ k R2) as (A & B). cbn. rewrite A, B.
  specialize (Hreg k). rewrite <- Hreg, <- (registration_offers kvs k).
  destruct (R2 k) as (_ & _ & _ & _ & _ & Hv).
  destruct (offers kvs k (est k)) as [[p d [c|]]|]; cbn in *.
  - exists c. destruct Hv as (_ & Hv & _). auto.
  - exists d. destruct Hv as (Hv & _). auto.
  - split; reflexivity.
Qed.

(** What UpdateNoPersist does, in terms of the registration. *)
Lemma update_no_persist_exact {V} (s : store V) est k v : rel s est ->
  update_no_persist s k v =
  if rejected (registration (est k)) k v then (s, Some (rejection (registration (est k)) k v))
  else match registration (est k) with
       | Some (p, _) => (write_value s p k v, None)
       | None => (s, None)
       end.
Proof.
  intros R. unfold update_no_persist, rejected, rejection. pose proof (rel_empty _ _ R) as E0.
  keq k ""%string; [rewrite E0; reflexivity|].
  unfold lookup_value. destruct (R k) as (A1 & _). rewrite A1.
  destruct (est k) as [[p d c]|]; cbn; [|reflexivity].
  unfold accepts. destruct (p_validate p v) as [[|] err]; reflexivity.
Qed.

(** C41. *)
Lemma rejected_update {V P} (per : persister P) pol clk (w : world P) (os : list (sop V)) k v :
  let x := fst (sop_run per pol clk (new_store, w) os) in
  let reg := registration (key_state k os) in
  rejected reg k v = true ->
  snd (sop_step per pol clk x (OUpdateNoPersist k v)) = RKVErr (Some (rejection reg k v)) /\
  forall os', snd (sop_run per pol clk (fst (sop_step per pol clk x (OUpdateNoPersist k v))) os') =
              snd (sop_run per pol clk x os').
Proof.
  intros x reg H. destruct (reachable_rel per pol clk w os) as (est & R & Hreg). fold x in R.
  cbn [sop_step]. rewrite (update_no_persist_exact _ _ _ _ R), Hreg. fold reg. rewrite H. cbn.
  destruct x as [s w']. split; reflexivity.
Qed.

Lemma accepted_update {V P} (per : persister P) clk (w : world P) (os : list (sop V)) k v p d :
  let x := fst (sop_run per PolNoop clk (new_store, w) os) in
  let x' := fst (sop_step per PolNoop clk x (OUpdateNoPersist k v)) in
  registration (key_state k os) = Some (p, d) -> accepts p v = true ->
  snd (sop_step per PolNoop clk x (OUpdateNoPersist k v)) = RKVErr None /\
  snd (sop_step per PolNoop clk x' (OGetString k)) = RStr (Some v) /\
  snd (sop_step per PolNoop clk x' (OGet k)) = RVal (Some (p_convert p v)) /\
  forall k', k' <> k ->
    snd (sop_step per PolNoop clk x' (OGetString k')) = snd (sop_step per PolNoop clk x (OGetString k')) /\
    snd (sop_step per PolNoop clk x' (OGet k')) = snd (sop_step per PolNoop clk x (OGet k')).
Proof.
  intros x x' Hr Ha. destruct (reachable_rel per PolNoop clk w os) as (est & R & Hreg). fold x in R.
  assert (Hk : k <> ""%string).
  { intros ->. rewrite <- Hreg, (rel_empty _ _ R) in Hr. discriminate. }
  assert (Hx : sop_step per PolNoop clk x (OUpdateNoPersist k v) = ((write_value (fst x) p k v, snd x), RKVErr None)).
  { cbn [sop_step]. rewrite (update_no_persist_exact _ _ _ _ R), Hreg, Hr. unfold rejected.
    rewrite Ha, (seqb_neq _ _ Hk). reflexivity. }
  unfold x'. rewrite Hx. cbn [fst snd]. split; [reflexivity|].
  cbn [sop_step]. unfold get_value_string, get_value, read_string, read_value. cbn [snd].
  rewrite !do_load_noop. cbn [fst write_value s_kv s_kvstr s_def s_defstr].
  rewrite !mset_same. split; [reflexivity|]. split; [reflexivity|].
  intros k' Hne.
  rewrite !mset_other by congruence. split; reflexivity.
Qed.

Lemma map_filter_ext {A B} (f f' : A -> B) (g g' : A -> bool) l :
  (forall x, f x = f' x) -> (forall x, g x = g' x) -> map f (filter g l) = map f' (filter g' l).
Proof. intros Hf Hg. rewrite (filter_ext _ _ Hg). apply map_ext. exact Hf. Qed.

Lemma update_each_errors {V} kvs : forall (s : store V) est, rel s est ->
  snd (update_each s kvs) =
  map (fun kv => rejection (registration (est (fst kv))) (fst kv) (snd kv))
    (filter (fun kv => rejected (registration (est (fst kv))) (fst kv) (snd kv)) kvs).
Proof.
  induction kvs as [|[k v] kvs IH]; intros s est R; [reflexivity|].
  cbn [update_each filter fst snd].
  pose proof (rel_update s est k v R) as R'. pose proof (update_no_persist_exact s est k v R) as Hx.
  destruct (update_no_persist s k v) as [s1 err]. cbn [fst] in R'.
  specialize (IH _ _ R'). destruct (update_each s1 kvs) as [s2 errs]. cbn [snd] in *.
  assert (Hreg : forall k', registration (if String.eqb k k' then offer (est k') v else est k') = registration (est k')).
  { intros k'. destruct (String.eqb k k'); [apply registration_offer|reflexivity]. }
  assert (Hf : errs = map (fun kv => rejection (registration (est (fst kv))) (fst kv) (snd kv))
    (filter (fun kv => rejected (registration (est (fst kv))) (fst kv) (snd kv)) kvs)).
  { rewrite IH. apply map_filter_ext; intros [k' v']; cbn [fst snd]; rewrite Hreg; reflexivity. }
  rewrite Hf. destruct (rejected (registration (est k)) k v); cbn [map fst snd].
  - injection Hx as -> ->. reflexivity.
  - destruct (registration (est k)) as [[p d]|]; injection Hx as -> ->; reflexivity.
Qed.

Lemma batch_errors {V P} (per : persister P) pol clk (w : world P) (os : list (sop V)) kvs :
  let x := fst (sop_run per pol clk (new_store, w) os) in
  let reg k := registration (key_state k os) in
  snd (sop_step per pol clk x (OBatchUpdate kvs)) =
  RKVErrs (map (fun kv => rejection (reg (fst kv)) (fst kv) (snd kv))
             (filter (fun kv => rejected (reg (fst kv)) (fst kv) (snd kv)) kvs)).
Proof.
  intros x reg. destruct (reachable_rel per pol clk w os) as (est & R & Hreg). fold x in R.
  cbn [sop_step]. unfold batch_update. destruct x as [s w'].
  destruct kvs as [|kv kvs]; [reflexivity|].
  pose proof (update_each_errors (kv :: kvs) s est R) as H.
  destruct (update_each s (kv :: kvs)) as [s' errs]. cbn [snd] in H |- *. rewrite H. f_equal.
  apply map_filter_ext; intros [k' v']; unfold reg; cbn [fst snd]; rewrite Hreg; reflexivity.
Qed.

(** C42. *)
Lemma update_persistence {V P} (per : persister P) pol clk (w : world P) (os : list (sop V)) k v :
  let x := fst (sop_run per pol clk (new_store, w) os) in
  let reg := registration (key_state k os) in
  let p := w_p (snd x) in
  let x' := fst (sop_step per pol clk x (OUpdate k v)) in
  let r := snd (sop_step per pol clk x (OUpdate k v)) in
  if rejected reg k v
  then w_p (snd x') = fst (ps_save per p k v) /\
       r = RKVErr (if snd (ps_save per p k v) then Some (rejection reg k v) else None)
  else w_p (snd x') = p /\ r = RKVErr None.
Proof.
  intros x reg p. destruct (reachable_rel per pol clk w os) as (est & R & Hreg). fold x in R.
  cbn [sop_step]. unfold update. unfold p. clear p. destruct x as [s w']. cbn [fst] in R. cbn [snd].
  rewrite (update_no_persist_exact _ _ _ _ R), Hreg. fold reg.
  destruct (rejected reg k v).
  - destruct (ps_save per (w_p w') k v) as [p' ok]. cbn. split; reflexivity.
  - destruct reg as [[pr d]|]; cbn; split; reflexivity.
Qed.

(** ** The Redis hash *)
Lemma hget_hset h k v k' : hget (hset h k v) k' = if String.eqb k k' then Some v else hget h k'.
Proof.
  induction h as [|[k1 v1] h IH]; cbn; [reflexivity|].
  keq k1 k; cbn; [destruct (String.eqb k k'); reflexivity|].
  rewrite IH. keq k1 k'; [rewrite (seqb_neq k k') by congruence|]; reflexivity.
Qed.

Lemma hset_keys h k v k' : In k' (map fst (hset h k v)) <-> k' = k \/ In k' (map fst h).
Proof.
  induction h as [|[k1 v1] h IH]; cbn; [intuition congruence|].
  keq k1 k; cbn; [intuition congruence|]. rewrite IH. intuition congruence.
Qed.

Lemma hset_nodup h k v : NoDup (map fst h) -> NoDup (map fst (hset h k v)).
Proof.
  induction h as [|[k1 v1] h IH]; cbn; intros H.
  - constructor; [intros []|constructor].
  - inversion H as [|? ? H1 H2]; subst. keq k1 k; cbn; [constructor; assumption|].
    constructor; [|apply IH; exact H2]. rewrite hset_keys. intros [->|H3]; [congruence|exact (H1 H3)].
Qed.

Lemma hmset_nodup kvs : forall h, NoDup (map fst h) -> NoDup (map fst (hmset h kvs)).
Proof.
  induction kvs as [|[k v] kvs IH]; intros h H; [exact H|]. apply IH. apply hset_nodup. exact H.
Qed.

Lemma hget_hmset_other kvs k : ~ In k (map fst kvs) -> forall h, hget (hmset h kvs) k = hget h k.
Proof.
  induction kvs as [|[k1 v1] kvs IH]; intros H h; [reflexivity|]. cbn in H |- *.
  fold (hmset (hset h k1 v1) kvs). rewrite IH by tauto. rewrite hget_hset, (seqb_neq k1 k) by tauto. reflexivity.
Qed.

Lemma hget_hmset_in kvs k v : NoDup (map fst kvs) -> In (k, v) kvs -> forall h, hget (hmset h kvs) k = Some v.
Proof.
  induction kvs as [|[k1 v1] kvs IH]; intros Hn H h; [destruct H|].
  inversion Hn as [|? ? H1 H2]; subst. destruct H as [[= -> ->]|H].
  - cbn. fold (hmset (hset h k v) kvs). rewrite hget_hmset_other by exact H1.
    rewrite hget_hset, seqb_refl. reflexivity.
  - apply (IH H2 H).
Qed.

Lemma hdel_nodup h k : NoDup (map fst h) -> NoDup (map fst (hdel h k)).
Proof.
  induction h as [|[k1 v1] h IH]; cbn; intros H; [constructor|].
  inversion H as [|? ? H1 H2]; subst. destruct (negb (String.eqb k1 k)); [|auto].
  cbn. constructor; [|auto]. intros H3. apply H1. unfold hdel in H3. rewrite in_map_iff in *.
  destruct H3 as (y & Hy & H3). exists y. split; [exact Hy|]. rewrite filter_In in H3. tauto.
Qed.

Lemma hget_hdel h k k' : hget (hdel h k) k' = if String.eqb k k' then None else hget h k'.
Proof.
  induction h as [|[k1 v1] h IH]; cbn; [destruct (String.eqb k k'); reflexivity|].
  keq k1 k; cbn.
  - fold (hdel h k). rewrite IH. keq k k'; reflexivity.
  - fold (hdel h k). rewrite IH. keq k1 k'; [rewrite (seqb_neq k k') by congruence|]; reflexivity.
Qed.

Lemma hget_none h k : hget h k = None -> ~ In k (map fst h).
Proof.
  induction h as [|[k1 v1] h IH]; cbn; [tauto|]. keq k1 k; [discriminate|]. intros H [H1|H1]; [congruence|].
  exact (IH H H1).
Qed.

Lemma hget_in h k v : hget h k = Some v -> In (k, v) h.
Proof.
  induction h as [|[k1 v1] h IH]; cbn; [discriminate|]. keq k1 k; [intros [= ->]; auto|auto].
Qed.

Lemma offers_absent {V} kvs k (e : option (entry V)) : ~ In k (map fst kvs) -> offers kvs k e = e.
Proof.
  unfold offers. revert e. induction kvs as [|[k1 v1] kvs IH]; intros e H; [reflexivity|]. cbn in *.
  rewrite (seqb_neq k1 k) by tauto. apply IH. tauto.
Qed.

Lemma offers_present {V} kvs k v (e : option (entry V)) :
  NoDup (map fst kvs) -> In (k, v) kvs -> offers kvs k e = offer e v.
Proof.
  unfold offers. revert e. induction kvs as [|[k1 v1] kvs IH]; intros e Hn H; [destruct H|].
  inversion Hn as [|? ? H1 H2]; subst. cbn. destruct H as [[= -> ->]|H].
  - rewrite seqb_refl. apply (offers_absent kvs k). exact H1.
  - rewrite (seqb_neq k1 k); [apply IH; assumption|].
    intros ->. apply H1. apply in_map_iff. exists (k, v). split; [reflexivity|exact H].
Qed.

(** C43, C44. *)
Lemma batch_hash {V} ok ord pol clk (w : world redis) (os : list (sop V)) kvs :
  let per := redis_persister ok ord in
  let x := fst (sop_run per pol clk (new_store, w) os) in
  let x' := fst (sop_step per pol clk x (OBatchUpdate kvs)) in
  let reg k := registration (key_state k os) in
  let h := r_hash (w_p (snd x)) in
  let h' := r_hash (w_p (snd x')) in
  NoDup (map fst kvs) -> ~ In ""%string (map fst kvs) ->
  ok (r_cmds (w_p (snd x))) = true ->
  (forall k v, In (k, v) kvs -> rejected (reg k) k v = false ->
     hget h' k = Some v /\ read_string (fst x') k = Some v) /\
  (forall k v, In (k, v) kvs -> rejected (reg k) k v = true ->
     hget h' k = hget h k /\ read_string (fst x') k = read_string (fst x) k) /\
  (forall k, ~ In k (map fst kvs) ->
     hget h' k = hget h k /\ read_string (fst x') k = read_string (fst x) k) /\
  (NoDup (map fst h) -> NoDup (map fst h')).
Proof.
  intros per x x' reg h h' Hn He Hok.
  destruct (reachable_rel per pol clk w os) as (est & R & Hreg). fold x in R.
  set (bad := fun kv : string * string => rejected (reg (fst kv)) (fst kv) (snd kv)).
  assert (Hin : forall k v v', In (k, v) kvs -> In (k, v') kvs -> v = v').
  { intros k v v'. generalize Hn. generalize kvs. clear. induction kvs as [|[a b] l IH]; intros Hn H1 H2; [destruct H1|].
    inversion Hn as [|? ? H3 H4]; subst.
    assert (Hno : forall u, ~ In (a, u) l) by (intros u Hu; apply H3, in_map_iff; exists (a, u); auto).
    destruct H1 as [[= <- <-]|H1], H2 as [[= <-]|H2]; auto; try (subst; exfalso; eapply Hno; eassumption). }
  assert (Hx : r_hash (w_p (snd x')) = hmset h (filter (fun kv => negb (bad kv)) kvs) /\
               rel (fst x') (fun k => offers kvs k (est k))).
  { unfold x'. cbn [sop_step]. unfold batch_update. destruct x as [s w'] eqn:Ex. cbn [fst snd] in *.
    destruct kvs as [|kv kvs0] eqn:Ek; [split; [reflexivity|exact R]|]. rewrite <- Ek in *.
    pose proof (update_each_errors kvs s est R) as Herr.
    pose proof (rel_load kvs s est R) as R'. rewrite <- update_each_fst in R'.
    destruct (update_each s kvs) as [s' errs]. cbn [fst snd] in *.
    split; [|exact R'].
    assert (Hf : filter (fun kv1 : string * string => negb (existsb (fun e => (ke_key e =? fst kv1)%string) errs)) kvs
                 = filter (fun kv => negb (bad kv)) kvs).
    { apply filter_ext_in. intros [k v] Hkv. f_equal. cbn [fst]. unfold bad. cbn [fst snd].
      rewrite Herr. destruct (rejected (reg k) k v) eqn:Er.
      - apply existsb_exists. exists (rejection (registration (est k)) k v). split; [|apply seqb_refl].
        apply in_map_iff. exists (k, v). split; [reflexivity|]. apply filter_In. split; [exact Hkv|].
        cbn. rewrite Hreg. exact Er.
      - apply not_true_is_false. rewrite existsb_exists. intros (e & He1 & He2).
        apply in_map_iff in He1. destruct He1 as ([k2 v2] & <- & He1). cbn in He2.
        apply String.eqb_eq in He2. subst k2. apply filter_In in He1. destruct He1 as (He1 & He3).
        cbn in He3. rewrite Hreg, (Hin k v2 v He1 Hkv) in He3. fold (reg k) in He3. congruence. }
    rewrite Hf. clear Hf. cbn [per redis_persister ps_batch].
    unfold redis_batch, with_p. cbn [w_p].
    destruct (filter (fun kv => negb (bad kv)) kvs) as [|kv1 l]; [reflexivity|].
    rewrite Hok. reflexivity. }
  destruct Hx as (Hh & R'). fold h' in Hh. rewrite Hh.
  assert (Hn2 : NoDup (map fst (filter (fun kv => negb (bad kv)) kvs))).
  { generalize (fun kv => negb (bad kv)). intros f. clear - Hn. induction kvs as [|[a b] l IH]; [constructor|].
    inversion Hn as [|? ? H3 H4]; subst. cbn. destruct (f (a, b)); [|auto]. cbn. constructor; [|auto].
    intros H. apply H3. apply in_map_iff in H. destruct H as (y & Hy & H). apply filter_In in H.
    apply in_map_iff. exists y. tauto. }
  assert (Hread : forall k, read_string (fst x') k = current (offers kvs k (est k))) by
    (intros k; apply (rel_reads _ _ k R')).
  assert (Hread0 : forall k, read_string (fst x) k = current (est k)) by
    (intros k; apply (rel_reads _ _ k R)).
  split; [|split; [|split]].
  - intros k v Hkv Hr. split.
    + apply hget_hmset_in; [exact Hn2|]. apply filter_In. split; [exact Hkv|]. unfold bad. cbn. rewrite Hr. reflexivity.
    + rewrite Hread, (offers_present kvs k v) by assumption.
      assert (Hk : k <> ""%string) by (intros ->; apply He, in_map_iff; exists (""%string, v); auto).
      unfold rejected in Hr. rewrite (seqb_neq _ _ Hk) in Hr. unfold reg in Hr. rewrite <- Hreg in Hr.
      destruct (est k) as [[p d c]|]; cbn in Hr |- *; [|discriminate].
      destruct (accepts p v); [reflexivity|discriminate].
  - intros k v Hkv Hr. split.
    + apply hget_hmset_other. intros H. apply in_map_iff in H. destruct H as ([k2 v2] & Hk2 & H).
      cbn in Hk2. subst k2. apply filter_In in H. destruct H as (H1 & H2).
      rewrite (Hin k v2 v H1 Hkv) in H2. unfold bad in H2. cbn in H2. rewrite Hr in H2. discriminate.
    + rewrite Hread, Hread0, (offers_present kvs k v) by assumption.
      unfold rejected, reg in Hr. rewrite <- Hreg in Hr. destruct (est k) as [[p d c]|]; cbn in *; [|reflexivity].
      destruct (accepts p v); [rewrite andb_false_r in Hr; discriminate|reflexivity].
  - intros k Hk. split.
    + apply hget_hmset_other. intros H. apply Hk. apply in_map_iff in H. destruct H as (y & Hy & H).
      apply filter_In in H. apply in_map_iff. exists y. tauto.
    + rewrite Hread, Hread0, offers_absent by assumption. reflexivity.
  - intros H. apply hmset_nodup. exact H.
Qed.

(** The persister state after one call is reached by persister calls about the keys of the call. *)
Section persister_invariant.
  Context {V P : Type}.
  Variable per : persister P.
  Variable pol : policy.
  Variable clk : nat -> Z * Z.
  Variable k : string.
  Variable I : P -> Prop.
  Hypothesis I_load : forall p, I p -> I (fst (fst (ps_load per p))) /\
    ~ In k (map fst (snd (fst (ps_load per p)))).
  Hypothesis I_save : forall p k' v, k' <> k -> I p -> I (fst (ps_save per p k' v)).
  Hypothesis I_batch : forall p kvs, ~ In k (map fst kvs) -> I p -> I (fst (ps_batch per p kvs)).
  Hypothesis I_delete : forall p k', k' <> k -> I p -> I (fst (ps_delete per p k')).

  Definition spared (e : option (entry V)) (x : @sw V P) : Prop := rel1 (fst x) k e /\ I (w_p (snd x)).

  Lemma rel1_update_other (s : store V) e k' v : k' <> k -> rel1 s k e -> rel1 (fst (update_no_persist s k' v)) k e.
  Proof.
    intros Hne R. unfold update_no_persist. destruct (String.eqb k' ""); [exact R|].
    destruct (lookup_value (s_procs s) k' v) as [e'|p]; [exact R|].
    unfold rel1, write_value in *. cbn. rewrite !mset_other by congruence. exact R.
  Qed.

  Lemma rel1_load_other kvs : ~ In k (map fst kvs) -> forall (s : store V) e, rel1 s k e -> rel1 (load_entries s kvs) k e.
  Proof.
    induction kvs as [|[k' v] kvs IH]; intros H s e R; [exact R|]. cbn in *.
    apply IH; [tauto|]. apply rel1_update_other; [tauto|exact R].
  Qed.

  Lemma do_load_spared e x : spared e x -> spared e (do_load per pol clk x).
  Proof.
    intros (R & Hi). destruct x as [s w]. unfold do_load. destruct (clk (w_tick w)) as [n1 n2].
    cbn [fst snd] in *. destruct (wants_load pol (w_last w) n1); [|split; assumption].
    destruct (I_load (w_p w) Hi) as (H1 & H2). destruct (ps_load per (w_p w)) as [[p' kvs] ok]. cbn in *.
    split; [apply rel1_load_other; assumption|exact H1].
  Qed.

  Lemma get_each_spared {A} (get : @sw V P -> string -> sw * option A) e :
    (forall x k', spared e x -> spared e (fst (get x k'))) ->
    forall keys x, spared e x -> spared e (fst (get_each get x keys)).
  Proof.
    intros Hg. induction keys as [|k' keys IH]; intros x H; [exact H|]. cbn.
    destruct (String.eqb k' ""); [apply IH; exact H|].
    pose proof (Hg x k' H) as H1. destruct (get x k') as [x1 r]. pose proof (IH x1 H1) as H2.
    destruct (get_each get x1 keys). exact H2.
  Qed.

  Lemma sop_step_spared e x o : spares k o -> spared e x -> spared e (fst (sop_step per pol clk x o)).
  Proof.
    intros Ho (R & Hi). destruct x as [s w]. cbn [fst snd] in *.
    assert (Hs : spared e (s, w)) by (split; assumption).
    destruct o as [k' d vp|k'|k' v|k' v|kvs|k'|k'|k'|k'|k'|ks|ks]; cbn [sop_step spares] in *.
    - split; [|destruct (register_key (fst (s, w)) k' d vp); exact Hi].
      unfold register_key. cbn [fst]. destruct (String.eqb k' ""); [exact R|].
      destruct vp as [p|]; [|exact R]. destruct (s_procs s k'); [exact R|]. destruct (s_def s k'); [exact R|].
      destruct (p_validate p d) as [[|] err]; [|exact R]. unfold rel1 in *. cbn.
      rewrite !mset_other by congruence. exact R.
    - unfold deregister_key. cbn. destruct (String.eqb k' ""); [exact Hs|]. split.
      + unfold rel1 in *. cbn. rewrite !mdel_other by congruence. exact R.
      + cbn. apply I_delete; assumption.
    - unfold update. pose proof (rel1_update_other s e k' v Ho R) as H.
      destruct (update_no_persist s k' v) as [s' [er|]].
      + pose proof (I_save (w_p w) k' v Ho Hi) as H2. destruct (ps_save per (w_p w) k' v) as [p' ok].
        split; [exact H|exact H2].
      + split; [exact H|exact Hi].
    - pose proof (rel1_update_other s e k' v Ho R) as H. cbn [fst snd].
      destruct (update_no_persist s k' v) as [s' er]. split; [exact H|exact Hi].
    - unfold batch_update. destruct kvs as [|kv kvs0] eqn:Ek; [exact Hs|]. rewrite <- Ek in *.
      pose proof (rel1_load_other kvs Ho s e R) as H. rewrite <- update_each_fst in H.
      destruct (update_each s kvs) as [s' errs]. split; [exact H|]. cbn. apply I_batch; [|exact Hi].
      intros Hin. apply Ho. apply in_map_iff in Hin. destruct Hin as (y & Hy & Hin). apply filter_In in Hin.
      apply in_map_iff. exists y. tauto.
    - cbn. split.
      + unfold rel1 in *. cbn. rewrite !mdel_other by congruence. exact R.
      + cbn. apply I_delete; assumption.
    - apply (do_load_spared e (s, w) Hs).
    - apply (do_load_spared e (s, w) Hs).
    - apply (do_load_spared e _ (do_load_spared e (s, w) Hs)).
    - apply (do_load_spared e _ (do_load_spared e (s, w) Hs)).
    - pose proof (get_each_spared (get_value per pol clk) e (fun x k' => do_load_spared e x) ks _
        (do_load_spared e (s, w) Hs)) as H. unfold batch_get_values. destruct (get_each _ _ _). exact H.
    - pose proof (get_each_spared (get_value_string per pol clk) e (fun x k' => do_load_spared e x) ks _
        (do_load_spared e (s, w) Hs)) as H. unfold batch_get_value_string. destruct (get_each _ _ _). exact H.
  Qed.

  Lemma sop_run_spared e os : Forall (spares k) os -> forall x, spared e x -> spared e (fst (sop_run per pol clk x os)).
  Proof.
    induction 1 as [|o os Ho _ IH]; intros x H; [exact H|]. rewrite sop_run_fst. apply IH.
    apply sop_step_spared; assumption.
  Qed.

  Lemma spared_reads e x : spared e x ->
    snd (sop_step per pol clk x (OGetString k)) = RStr (current e) /\
    snd (sop_step per pol clk x (OGet k)) = RVal (current_value e).
  Proof.
    intros H. apply do_load_spared in H. destruct H as ((A1 & A2 & A3 & A4 & A5 & _) & _).
    cbn. unfold read_string, read_value. rewrite A2, A3, A4, A5.
    destruct e as [[p d [c|]]|]; split; reflexivity.
  Qed.
End persister_invariant.

(** The hash keeps one entry per key. *)
Lemma redis_nodup {V} ok ord pol clk (os : list (sop V)) : forall x,
  NoDup (map fst (r_hash (w_p (snd x)))) ->
  NoDup (map fst (r_hash (w_p (snd (fst (sop_run (redis_persister ok ord) pol clk x os)))))).
Proof.
  set (per := redis_persister ok ord).
  set (nd := fun x : @sw V redis => NoDup (map fst (r_hash (w_p (snd x))))).
  assert (Hb : forall r kvs, NoDup (map fst (r_hash r)) -> NoDup (map fst (r_hash (fst (redis_batch ok r kvs))))).
  { intros r kvs H. unfold redis_batch. destruct kvs; [exact H|]. destruct (ok (r_cmds r)); [|exact H].
    apply hmset_nodup. exact H. }
  assert (Hd : forall r k, NoDup (map fst (r_hash r)) -> NoDup (map fst (r_hash (fst (redis_delete ok r k))))).
  { intros r k H. unfold redis_delete. destruct (ok (r_cmds r)); [|exact H]. apply hdel_nodup. exact H. }
  assert (Hl : forall x, nd x -> nd (do_load per pol clk x)).
  { intros [s w] H. unfold do_load. destruct (clk (w_tick w)). destruct (wants_load _ _ _); [|exact H].
    cbn. unfold redis_load. destruct (ok (r_cmds (w_p w))); exact H. }
  assert (Hg : forall A (get : @sw V redis -> string -> sw * option A),
    (forall x k, nd x -> nd (fst (get x k))) -> forall keys x, nd x -> nd (fst (get_each get x keys))).
  { intros A get Hget. induction keys as [|k keys IH]; intros x H; [exact H|]. cbn.
    destruct (String.eqb k ""); [apply IH; exact H|]. pose proof (Hget x k H) as H1.
    destruct (get x k) as [x1 r]. pose proof (IH x1 H1) as H2. destruct (get_each get x1 keys). exact H2. }
  change (forall x, nd x -> nd (fst (sop_run per pol clk x os))).
  induction os as [|o os IH]; intros x H; [exact H|]. rewrite sop_run_fst. apply IH.
  destruct o as [k' d vp|k'|k' v|k' v|kvs|k'|k'|k'|k'|k'|ks|ks]; cbn [sop_step].
  - destruct (register_key (fst x) k' d vp). exact H.
  - destruct x as [s w]. cbn. destruct (String.eqb k' ""); [exact H|]. apply Hd. exact H.
  - destruct x as [s w]. unfold update. destruct (update_no_persist s k' v) as [s' [er|]]; [|exact H].
    cbn [ps_save per redis_persister]. pose proof (Hb (w_p w) [(k', v)] H) as H2.
    unfold redis_save. destruct (redis_batch ok (w_p w) [(k', v)]). exact H2.
  - destruct (update_no_persist (fst x) k' v). exact H.
  - destruct x as [s w]. unfold batch_update. destruct kvs; [exact H|].
    destruct (update_each s (p :: kvs)). apply Hb. exact H.
  - destruct x as [s w]. apply Hd. exact H.
  - apply (Hl x H).
  - apply (Hl x H).
  - apply (Hl _ (Hl x H)).
  - apply (Hl _ (Hl x H)).
  - pose proof (Hg V (get_value per pol clk) (fun x k => Hl x) ks _ (Hl x H)) as H2.
    unfold batch_get_values. destruct (get_each _ _ _). exact H2.
  - pose proof (Hg string (get_value_string per pol clk) (fun x k => Hl x) ks _ (Hl x H)) as H2.
    unfold batch_get_value_string. destruct (get_each _ _ _). exact H2.
Qed.

Definition orders (ord : nat -> list (string * string) -> list (string * string)) : Prop :=
  forall n l, Permutation (ord n l) l.

Lemma offers_hash {V} h l k (e : option (entry V)) : NoDup (map fst h) -> Permutation l h ->
  offers l k e = match hget h k with Some v => offer e v | None => e end.
Proof.
  intros Hn Hp.
  assert (Hp2 : Permutation (map fst l) (map fst h)) by (apply Permutation_map; exact Hp).
  destruct (hget h k) as [v|] eqn:Eg.
  - apply offers_present.
    + apply (Permutation_NoDup (Permutation_sym Hp2) Hn).
    + apply (Permutation_in _ (Permutation_sym Hp)). apply hget_in. exact Eg.
  - apply offers_absent. intros H. apply (hget_none _ _ Eg). apply (Permutation_in _ Hp2). exact H.
Qed.

(** A fresh store with some registrations reads what the hash holds, if it is acceptable. *)
Lemma fresh_store_reads {V} ok ord pol clk h n (regs : list (sop V)) k v p d :
  let per := redis_persister ok ord in
  let x := fst (sop_run per pol clk (new_store, World (Redis h n) None 0) regs) in
  pol <> PolNoop -> orders ord -> ok n = true -> NoDup (map fst h) -> Forall is_register regs ->
  hget h k = Some v -> registration (key_state k regs) = Some (p, d) -> accepts p v = true ->
  snd (sop_step per pol clk x (OGetString k)) = RStr (Some v) /\
  snd (sop_step per pol clk x (OGet k)) = RVal (Some (p_convert p v)).
Proof.
  intros per x Hpol Hord Hok Hn Hregs Hg Hr Ha.
  assert (Hw : snd x = World (Redis h n) None 0).
  { unfold x. clear - Hregs. generalize (@new_store V). induction Hregs as [|o os Ho _ IH]; intros s; [reflexivity|].
    rewrite sop_run_fst. destruct o; try contradiction. cbn [sop_step fst].
    destruct (register_key s key def vp). apply IH. }
  destruct (reachable_rel per pol clk (World (Redis h n) None 0) regs) as (est & R & Hreg). fold x in R.
  destruct x as [s w]. cbn in Hw. subst w. cbn [fst] in R.
  assert (Hl : fst (do_load per pol clk (s, World (Redis h n) None 0)) = load_entries s (ord n h)).
  { unfold do_load. destruct (clk _) as [n1 n2]. cbn [w_last].
    assert (Hwant : wants_load pol None n1 = true) by (destruct pol as [| |dd]; [congruence|reflexivity|cbn; destruct (dd <=? 0)%Z; reflexivity]).
    rewrite Hwant. cbn. unfold redis_load. cbn. rewrite Hok. reflexivity. }
  cbn [sop_step]. unfold get_value, get_value_string. cbn [snd]. rewrite Hl.
  pose proof (rel_load (ord n h) s est R) as R2.
  destruct (rel_reads _ _ k R2) as (A & B). rewrite A, B.
  rewrite (offers_hash h (ord n h) k (est k) Hn (Hord n h)), Hg.
  rewrite <- Hreg in Hr. destruct (est k) as [[p' d' c]|]; cbn in Hr; [|discriminate].
  injection Hr as -> ->. cbn. rewrite Ha. split; reflexivity.
Qed.

Lemma restart_reads {V} okA ordA polA clkA wA (osA : list (sop V)) kvs okB ordB polB clkB regs k v :
  let perA := redis_persister okA ordA in
  let xA := fst (sop_run perA polA clkA (new_store, wA) osA) in
  let rA := w_p (snd xA) in
  let rA' := w_p (snd (fst (sop_step perA polA clkA xA (OBatchUpdate kvs)))) in
  let perB := redis_persister okB ordB in
  let xB := fst (sop_run perB polB clkB (new_store, World rA' None 0) regs) in
  NoDup (map fst (r_hash (w_p wA))) -> NoDup (map fst kvs) -> ~ In ""%string (map fst kvs) ->
  okA (r_cmds rA) = true -> polB <> PolNoop -> orders ordB -> okB (r_cmds rA') = true ->
  Forall is_register regs -> In (k, v) kvs ->
  rejected (registration (key_state k osA)) k v = false ->
  registration (key_state k regs) = registration (key_state k osA) ->
  snd (sop_step perB polB clkB xB (OGetString k)) = RStr (Some v).
Proof.
  intros perA xA rA rA' perB xB Hh Hn He HokA Hpol Hord HokB Hregs Hin Hrej Hreg.
  destruct (batch_hash okA ordA polA clkA wA osA kvs Hn He HokA) as (H1 & _ & _ & H4).
  destruct (H1 k v Hin Hrej) as (Hg & _).
  assert (Hk : k <> ""%string) by (intros ->; apply He, in_map_iff; exists (""%string, v); auto).
  unfold rejected in Hrej. rewrite (seqb_neq _ _ Hk) in Hrej.
  destruct (registration (key_state k osA)) as [[p d]|]; [|discriminate].
  assert (Ha : accepts p v = true) by (cbn in Hrej; destruct (accepts p v); [reflexivity|discriminate]).
  assert (Hnd : NoDup (map fst (r_hash rA'))) by (apply H4; apply redis_nodup; exact Hh).
  assert (Hg' : hget (r_hash rA') k = Some v) by exact Hg.
  unfold xB. clear xB Hg H1 H4. clearbody rA'. destruct rA' as [h n].
  exact (proj1 (fresh_store_reads okB ordB polB clkB h n regs k v p d Hpol Hord HokB Hnd Hregs Hg' Hreg Ha)).
Qed.

(** C45. *)
Definition absent (k : string) (r : redis) : Prop := NoDup (map fst (r_hash r)) /\ hget (r_hash r) k = None.

Lemma absent_hyps ok ord k : orders ord ->
  (forall p, absent k p -> absent k (fst (fst (ps_load (redis_persister ok ord) p))) /\
    ~ In k (map fst (snd (fst (ps_load (redis_persister ok ord) p))))) /\
  (forall p k' v, k' <> k -> absent k p -> absent k (fst (ps_save (redis_persister ok ord) p k' v))) /\
  (forall p kvs, ~ In k (map fst kvs) -> absent k p -> absent k (fst (ps_batch (redis_persister ok ord) p kvs))) /\
  (forall p k', k' <> k -> absent k p -> absent k (fst (ps_delete (redis_persister ok ord) p k'))).
Proof.
  intros Hord.
  assert (Hb : forall p kvs, ~ In k (map fst kvs) -> absent k p -> absent k (fst (redis_batch ok p kvs))).
  { intros p kvs Hk (H1 & H2). unfold redis_batch. destruct kvs; [split; assumption|].
    destruct (ok (r_cmds p)); [|split; assumption]. split; cbn [fst r_hash].
    - apply hmset_nodup. exact H1.
    - rewrite hget_hmset_other by exact Hk. exact H2. }
  split; [|split; [|split]].
  - intros p (H1 & H2). cbn. unfold redis_load. destruct (ok (r_cmds p)); cbn; [|split; [split; assumption|tauto]].
    split; [split; assumption|]. intros H. apply (hget_none _ _ H2).
    apply (Permutation_in k (Permutation_map fst (Hord (r_cmds p) (r_hash p)))). exact H.
  - intros p k' v Hne H. apply (Hb p [(k', v)]); [cbn; intuition|exact H].
  - intros p kvs Hk H. apply Hb; assumption.
  - intros p k' Hne (H1 & H2). cbn. unfold redis_delete. destruct (ok (r_cmds p)); [|split; assumption].
    split; cbn [fst r_hash]; [apply hdel_nodup; exact H1|]. rewrite hget_hdel, (seqb_neq _ _ Hne). exact H2.
Qed.

Lemma deleted_absent ok r k : ok (r_cmds r) = true -> NoDup (map fst (r_hash r)) ->
  absent k (fst (redis_delete ok r k)).
Proof.
  intros Hok H. unfold redis_delete. rewrite Hok. split; cbn [fst r_hash]; [apply hdel_nodup; exact H|].
  rewrite hget_hdel, seqb_refl. reflexivity.
Qed.

Lemma reset_sticks {V} ok ord pol clk w (os os2 : list (sop V)) k :
  let per := redis_persister ok ord in
  let x := fst (sop_run per pol clk (new_store, w) os) in
  let x1 := fst (sop_step per pol clk x (OReset k)) in
  let x2 := fst (sop_run per pol clk x1 os2) in
  let reg := registration (key_state k os) in
  orders ord -> NoDup (map fst (r_hash (w_p w))) -> ok (r_cmds (w_p (snd x))) = true ->
  Forall (spares k) os2 ->
  snd (sop_step per pol clk x2 (OGetString k)) = RStr (option_map snd reg) /\
  snd (sop_step per pol clk x2 (OGet k)) = RVal (option_map (fun r => p_convert (fst r) (snd r)) reg).
Proof.
  intros per x x1 x2 reg Hord Hn Hok Hs.
  destruct (absent_hyps ok ord k Hord) as (I1 & I2 & I3 & I4).
  destruct (reachable_rel per pol clk w os) as (est & R & Hreg). fold x in R.
  pose proof (redis_nodup ok ord pol clk os (new_store, w) Hn) as Hnd. fold per x in Hnd.
  set (e := option_map (fun e => Entry (e_proc e) (e_def e) None) (est k)).
  assert (H1 : spared k (absent k) e x1).
  { unfold x1. destruct x as [s w']. cbn [sop_step fst snd reset_key] in *. split.
    - pose proof (rel_clear s est k R k) as H. cbv beta in H. rewrite seqb_refl in H. exact H.
    - cbn. apply deleted_absent; assumption. }
  apply (sop_run_spared per pol clk k (absent k) I1 I2 I3 I4 e os2 Hs) in H1. fold x2 in H1.
  destruct (spared_reads per pol clk k (absent k) I1 e x2 H1) as (A & B).
  rewrite A, B. unfold reg. rewrite <- Hreg. unfold e. destruct (est k) as [[p d c]|]; split; reflexivity.
Qed.

Lemma deregister_sticks {V} ok ord pol clk w (os os2 : list (sop V)) k :
  let per := redis_persister ok ord in
  let x := fst (sop_run per pol clk (new_store, w) os) in
  let x1 := fst (sop_step per pol clk x (ODeregister k)) in
  let x2 := fst (sop_run per pol clk x1 os2) in
  orders ord -> NoDup (map fst (r_hash (w_p w))) -> ok (r_cmds (w_p (snd x))) = true ->
  k <> ""%string -> Forall (spares k) os2 ->
  snd (sop_step per pol clk x2 (OGetString k)) = RStr None /\
  snd (sop_step per pol clk x2 (OGet k)) = RVal None /\
  forall p d, accepts p d = true ->
    let x3 := fst (sop_step per pol clk x2 (ORegister k d (Some p))) in
    snd (sop_step per pol clk x2 (ORegister k d (Some p))) = RErr None /\
    snd (sop_step per pol clk x3 (OGetString k)) = RStr (Some d) /\
    snd (sop_step per pol clk x3 (OGet k)) = RVal (Some (p_convert p d)).
Proof.
  intros per x x1 x2 Hord Hn Hok Hk Hs.
  destruct (absent_hyps ok ord k Hord) as (I1 & I2 & I3 & I4).
  destruct (reachable_rel per pol clk w os) as (est & R & Hreg). fold x in R.
  pose proof (redis_nodup ok ord pol clk os (new_store, w) Hn) as Hnd. fold per x in Hnd.
  assert (H1 : spared k (absent k) None x1).
  { unfold x1. destruct x as [s w']. unfold sop_step, deregister_key. rewrite (seqb_neq _ _ Hk). cbn [fst snd] in *. split.
    - pose proof (rel_drop s est k R k) as H. cbv beta in H. rewrite seqb_refl in H. exact H.
    - cbn. apply deleted_absent; assumption. }
  apply (sop_run_spared per pol clk k (absent k) I1 I2 I3 I4 None os2 Hs) in H1. fold x2 in H1.
  destruct (spared_reads per pol clk k (absent k) I1 None x2 H1) as (A & B).
  split; [exact A|]. split; [exact B|]. intros p d Ha x3.
  destruct H1 as (R2 & Ha2). destruct x2 as [s w']. cbn [fst snd] in *.
  assert (Hx : exists s', sop_step per pol clk (s, w') (ORegister k d (Some p)) = ((s', w'), RErr None) /\
     rel1 s' k (Some (Entry p d None))).
  { destruct R2 as (A1 & A2 & A3 & A4 & A5 & _). cbn in A1, A2, A3, A4, A5.
    cbn [sop_step fst snd]. unfold register_key. rewrite (seqb_neq _ _ Hk), A1, A3.
    unfold accepts in Ha. destruct (p_validate p d) as [okd err] eqn:Ev. cbn in Ha. subst okd. cbn [negb].
    eexists. split; [reflexivity|]. unfold rel1. cbn. rewrite !mset_same. unfold accepts. rewrite Ev.
    repeat split; try assumption. intros v [=]. }
  destruct Hx as (s' & Hx & R3). unfold x3. rewrite Hx. cbn [fst snd]. split; [reflexivity|].
  apply (spared_reads per pol clk k (absent k) I1 (Some (Entry p d None)) (s', w')).
  split; [exact R3|exact Ha2].
Qed.

Lemma reset_others {V P} (per : persister P) clk (w : world P) (os : list (sop V)) k o k' :
  let x := fst (sop_run per PolNoop clk (new_store, w) os) in
  let x1 := fst (sop_step per PolNoop clk x o) in
  (o = OReset k \/ o = ODeregister k) -> k' <> k ->
  snd (sop_step per PolNoop clk x1 (OGetString k')) = snd (sop_step per PolNoop clk x (OGetString k')) /\
  snd (sop_step per PolNoop clk x1 (OGet k')) = snd (sop_step per PolNoop clk x (OGet k')).
Proof.
  intros x x1 Ho Hne. unfold x1. destruct x as [s w']. cbn [sop_step].
  unfold get_value, get_value_string. cbn [snd]. rewrite !do_load_noop. unfold read_string, read_value.
  destruct Ho as [-> | ->]; cbn [sop_step fst].
  - cbn [reset_key fst clear_key s_kv s_kvstr s_def s_defstr]. rewrite !mdel_other by congruence. split; reflexivity.
  - unfold deregister_key. destruct (String.eqb k ""); cbn [fst]; [split; reflexivity|].
    cbn [drop_key s_kv s_kvstr s_def s_defstr]. rewrite !mdel_other by congruence. split; reflexivity.
Qed.

(** ** Load policy (C47) *)
Fixpoint policy_last (pol : policy) (last : option Z) (calls : list (Z * Z * bool)) : option Z :=
  match calls with
  | [] => last
  | (now, now2, ok) :: rest =>
    policy_last pol (if wants_load pol last now then after_load pol last ok now2 else last) rest
  end.

Lemma policy_run_length pol calls : forall last, length (policy_run pol last calls) = length calls.
Proof.
  induction calls as [|[[now now2] ok] calls IH]; intros last; cbn; [reflexivity|].
  destruct (wants_load pol last now); cbn; rewrite IH; reflexivity.
Qed.

Lemma policy_run_app pol a : forall last b,
  policy_run pol last (a ++ b) = (policy_run pol last a ++ policy_run pol (policy_last pol last a) b)%list.
Proof.
  induction a as [|[[now now2] ok] a IH]; intros last b; cbn; [reflexivity|].
  destruct (wants_load pol last now); cbn; rewrite IH; reflexivity.
Qed.

Lemma policy_last_app pol a : forall last b,
  policy_last pol last (a ++ b) = policy_last pol (policy_last pol last a) b.
Proof.
  induction a as [|[[now now2] ok] a IH]; intros last b; cbn; [reflexivity|]. apply IH.
Qed.

Lemma nondecreasing_app_inv a b : nondecreasing (a ++ b) ->
  nondecreasing a /\ nondecreasing b /\ forall x y, In x a -> In y b -> x <= y.
Proof.
  induction a as [|x a IH]; cbn; intros H; [repeat split; [exact H|intros x y []]|].
  destruct H as (H1 & H2). destruct (IH H2) as (A & B & C). rewrite Forall_app in H1. destruct H1 as (H1 & H3).
  repeat split; try assumption. intros x' y [<-|Hx] Hy; [|apply C; assumption].
  rewrite Forall_forall in H3. apply H3. exact Hy.
Qed.

Lemma combine_app {A B} (a1 a2 : list A) (b1 b2 : list B) : length a1 = length b1 ->
  combine (a1 ++ a2) (b1 ++ b2) = (combine a1 b1 ++ combine a2 b2)%list.
Proof.
  revert b1. induction a1 as [|x a1 IH]; intros [|y b1] H; cbn in *; try discriminate; [reflexivity|].
  f_equal. apply IH. lia.
Qed.

Lemma policy_last_spec d calls : 0 < d -> nondecreasing (readings calls) ->
  match policy_last (PolInterval d) None calls with
  | None => forall e, ~ succeeded calls (policy_run (PolInterval d) None calls) e
  | Some l => succeeded calls (policy_run (PolInterval d) None calls) l /\
              forall e, succeeded calls (policy_run (PolInterval d) None calls) e -> e <= l
  end.
Proof.
  intros Hd. induction calls as [|[[now now2] ok] calls IH] using rev_ind; intros Hc.
  { cbn. intros e (now & H). destruct H. }
  unfold readings in Hc. rewrite flat_map_app in Hc. destruct (nondecreasing_app_inv _ _ Hc) as (Hc1 & _ & Hle).
  specialize (IH Hc1). rewrite policy_last_app, policy_run_app. cbn [policy_last policy_run].
  set (last := policy_last (PolInterval d) None calls) in *.
  assert (Hsucc : forall b e, succeeded (calls ++ [(now, now2, ok)]) (policy_run (PolInterval d) None calls ++ [b]) e <->
     succeeded calls (policy_run (PolInterval d) None calls) e \/ (b = true /\ ok = true /\ e = now2)).
  { intros b e. unfold succeeded. rewrite combine_app by (symmetry; apply policy_run_length). split.
    - intros (n & H). apply in_app_or in H. destruct H as [H|[[= -> -> -> ->]|[]]]; [left; exists n; exact H|auto].
    - intros [(n & H)|(-> & -> & ->)]; [exists n|exists now]; apply in_or_app; [auto|right; left; reflexivity]. }
  assert (Hold : forall e, succeeded calls (policy_run (PolInterval d) None calls) e -> e <= now2).
  { intros e (n & H). apply in_combine_l in H. apply Hle; [|right; left; reflexivity].
    apply in_flat_map. exists (n, e, true). split; [exact H|right; left; reflexivity]. }
  destruct (wants_load (PolInterval d) last now).
  - cbn [after_load]. assert (E : (d <=? 0)%Z = false) by lia. rewrite E. destruct ok.
    + split; [apply Hsucc; auto|]. intros e He. apply Hsucc in He. destruct He as [He|(_ & _ & ->)]; [apply Hold; exact He|lia].
    + destruct last as [l|].
      * destruct IH as (H1 & H2). split; [apply Hsucc; auto|]. intros e He. apply Hsucc in He.
        destruct He as [He|(_ & [=] & _)]. apply H2. exact He.
      * intros e He. apply Hsucc in He. destruct He as [He|(_ & [=] & _)]. exact (IH e He).
  - destruct last as [l|].
    + destruct IH as (H1 & H2). split; [apply Hsucc; auto|]. intros e He. apply Hsucc in He.
      destruct He as [He|([=] & _)]. apply H2. exact He.
    + intros e He. apply Hsucc in He. destruct He as [He|([=] & _)]. exact (IH e He).
Qed.

Lemma interval_policy_exact d pre now now2 ok post : 0 < d ->
  let calls := (pre ++ (now, now2, ok) :: post)%list in
  nondecreasing (readings calls) ->
  nth_error (policy_run (PolInterval d) None calls) (length pre) =
    Some (wants_load (PolInterval d) (policy_last (PolInterval d) None pre) now) /\
  (nth_error (policy_run (PolInterval d) None calls) (length pre) = Some true <->
   forall e, succeeded pre (policy_run (PolInterval d) None pre) e -> e + d <= now).
Proof.
  intros Hd calls Hc. unfold calls in *.
  assert (Hnth : nth_error (policy_run (PolInterval d) None (pre ++ (now, now2, ok) :: post)) (length pre) =
    Some (wants_load (PolInterval d) (policy_last (PolInterval d) None pre) now)).
  { rewrite policy_run_app, nth_error_app2; rewrite policy_run_length; [|lia]. rewrite Nat.sub_diag. cbn [policy_run].
    destruct (wants_load (PolInterval d) (policy_last (PolInterval d) None pre) now); reflexivity. }
  split; [exact Hnth|]. rewrite Hnth.
  unfold readings in Hc. rewrite flat_map_app in Hc. destruct (nondecreasing_app_inv _ _ Hc) as (Hc1 & _ & Hle).
  pose proof (policy_last_spec d pre Hd Hc1) as H. cbn [wants_load]. assert (E : (d <=? 0)%Z = false) by lia. rewrite E.
  destruct (policy_last (PolInterval d) None pre) as [l|].
  - destruct H as (H1 & H2). split.
    + intros [= Hl] e He. specialize (H2 e He). lia.
    + intros He. specialize (He l H1). f_equal. lia.
  - split; [|reflexivity]. intros _ e He. exfalso. exact (H e He).
Qed.

Lemma simple_policy_always pol calls : pol = PolSimple \/ (exists d, pol = PolInterval d /\ d <= 0) ->
  forall last, Forall (eq true) (policy_run pol last calls).
Proof.
  intros Hp. induction calls as [|[[now now2] ok] calls IH]; intros last; [constructor|]. cbn.
  assert (Hw : wants_load pol last now = true).
  { destruct Hp as [-> | (d & -> & Hd)]; [reflexivity|]. cbn. assert (E : (d <=? 0)%Z = true) by lia. rewrite E. reflexivity. }
  rewrite Hw. constructor; [reflexivity|apply IH].
Qed.

Lemma noop_policy_never calls : forall last, Forall (eq false) (policy_run PolNoop last calls).
Proof. induction calls as [|[[now now2] ok] calls IH]; intros last; cbn; constructor; [reflexivity|apply IH]. Qed.

(** ** Interleavings (C46) *)
Definition writing {V} (ths : list (spc V)) t p k v : Prop := nth_error ths t = Some (SWriting p k v).

Lemma register_other {V} (s : store V) k' d vp k : k' <> k ->
  let s' := fst (register_key s k' d vp) in
  s_procs s' k = s_procs s k /\ s_def s' k = s_def s k /\ s_defstr s' k = s_defstr s k /\
  s_kv s' k = s_kv s k /\ s_kvstr s' k = s_kvstr s k.
Proof.
  intros Hne. unfold register_key. destruct (String.eqb k' ""); [repeat split|].
  destruct vp as [p|]; [|repeat split]. destruct (s_procs s k'); [repeat split|].
  destruct (s_def s k'); [repeat split|]. destruct (p_validate p d) as [[|] err]; [|repeat split].
  cbn. rewrite !mset_other by congruence. repeat split.
Qed.

Lemma rel1_register {V} (s : store V) k d vp e : rel1 s k e ->
  rel1 (fst (register_key s k d vp)) k (key_step k e (ORegister k d vp)).
Proof.
  intros R. pose proof R as (A1 & A2 & A3 & A4 & A5 & A6). unfold register_key. cbn [key_step].
  rewrite seqb_refl. keq k ""%string.
  { cbn [fst]. destruct vp as [p|]; [|exact R]. destruct e; exact R. }
  destruct vp as [p|]; [|exact R]. rewrite A1. destruct e as [e|]; [exact R|]. cbn in A1, A2, A3, A4, A5 |- *.
  rewrite A3. unfold accepts. destruct (p_validate p d) as [[|] err] eqn:Ev; [|exact R]. cbn [negb fst andb].
  unfold rel1. cbn. rewrite !mset_same. repeat split; try assumption; [|intros v [=]].
  unfold accepts. rewrite Ev. reflexivity.
Qed.

Lemma overtaken_app k tr1 tr2 : overtaken k tr1 -> overtaken k (tr1 ++ tr2).
Proof.
  intros (t & v & l1 & l2 & l3 & -> & H). exists t, v, l1, l2, (l3 ++ tr2)%list. split; [|exact H].
  rewrite <- !app_assoc. reflexivity.
Qed.

Lemma reg_ops_app {V} (a b : list (slab V)) : reg_ops (a ++ b) = (reg_ops a ++ reg_ops b)%list.
Proof. induction a as [|l a IH]; [reflexivity|]. destruct l; cbn; rewrite IH; reflexivity. Qed.

Lemma interleaving_inv {V} n (sched : list (slab V)) k :
  let r := store_exec n sched in
  let s := fst (fst r) in let ths := snd (fst r) in let tr := snd r in
  ~ overtaken k tr ->
  (exists e, rel1 s k e /\ registration e = registration (key_state k (reg_ops sched)) /\
     forall t p v, writing ths t p k v -> option_map e_proc e = Some p /\ accepts p v = true) /\
  (forall t p v, writing ths t p k v ->
     exists l1 l2, tr = (l1 ++ [EUpdating t k v] ++ l2)%list /\ ~ In (EUpdated t None) l2).
Proof.
  induction sched as [|l sched IH] using rev_ind.
  { cbn. intros _.
    assert (Hw : forall t p v, ~ writing (repeat (@SIdle V) n) t p k v).
    { intros t p v H. apply nth_error_In, repeat_spec in H. discriminate. }
    split.
    - exists None. split; [repeat split|]. split; [reflexivity|]. intros t p v H. exfalso. exact (Hw _ _ _ H).
    - intros t p v H. exfalso. exact (Hw _ _ _ H). }
  cbv zeta in *. unfold store_exec in *. rewrite exec_app.
  destruct (exec store_step (new_store, repeat SIdle n) sched) as [[s ths] tr] eqn:Ex. cbn [fst snd] in IH |- *.
  cbn [exec]. rewrite reg_ops_app. unfold key_state in *. rewrite fold_left_app.
  set (e0 := fold_left (key_step k) (reg_ops sched) None) in *.
  assert (Hkeep : forall tr2, (forall t, ~ In (EUpdated t None) tr2) ->
     (forall t p v, writing ths t p k v -> exists l1 l2, tr = (l1 ++ [EUpdating t k v] ++ l2)%list /\ ~ In (EUpdated t None) l2) ->
     (forall t p v, writing ths t p k v -> exists l1 l2, (tr ++ tr2)%list = (l1 ++ [EUpdating t k v] ++ l2)%list /\ ~ In (EUpdated t None) l2)).
  { intros tr2 Hno H t p v Hw. destruct (H t p v Hw) as (l1 & l2 & -> & Hn). exists l1, (l2 ++ tr2)%list.
    split; [rewrite <- !app_assoc; reflexivity|]. intros Hin. apply in_app_or in Hin. destruct Hin; [auto|eapply Hno; eassumption]. }
  destruct l as [k' d vp|k'|k'|t0 k' v0|t0]; cbn [store_step reg_ops fold_left].
  - (* register *)
    pose proof (fun H => rel1_register s k d vp H) as Hr.
    destruct (register_key s k' d vp) as [s' er] eqn:Er. cbn [fst snd]. rewrite app_nil_r. intros Hno.
    destruct IH as ((e & R & Hreg & Hpc) & Htr); [intros H; apply Hno, overtaken_app, H|].
    split; [|apply Hkeep; [intros t [[=]|[]]|exact Htr]].
    keq k' k.
    + exists (key_step k e (ORegister k d vp)). assert (Hs' : s' = fst (register_key s k d vp)) by (rewrite Er; reflexivity).
      rewrite Hs'. split; [apply rel1_register; exact R|]. split; [apply registration_step; exact Hreg|].
      intros t p v Hw. destruct (Hpc t p v Hw) as (H1 & H2). split; [|exact H2].
      destruct e as [e|]; [|discriminate]. cbn. destruct vp; exact H1.
    + exists e. destruct (register_other s k' d vp k E) as (B1 & B2 & B3 & B4 & B5). rewrite Er in B1, B2, B3, B4, B5. cbn in B1, B2, B3, B4, B5.
      split; [unfold rel1 in *; rewrite B1, B2, B3, B4, B5; exact R|]. split; [|exact Hpc].
      rewrite Hreg. unfold key_step. rewrite (seqb_neq k' k E). destruct vp; destruct e0; reflexivity.
  - (* deregister *)
    assert (Hstep : exists s', (if String.eqb k' "" then Some ((s, ths), [EDeregistered k']) else Some ((drop_key s k', ths), [EDeregistered k']))
        = Some ((s', ths), [EDeregistered k']) /\ ((k' = ""%string /\ s' = s) \/ (k' <> ""%string /\ s' = drop_key s k'))).
    { keq k' ""%string; [exists s|exists (drop_key s k')]; split; auto. }
    destruct Hstep as (s' & Hs & Hs'). rewrite Hs. cbn [fst snd app]. intros Hno.
    destruct IH as ((e & R & Hreg & Hpc) & Htr); [intros H; apply Hno, overtaken_app, H|].
    split; [|apply Hkeep; [intros t [[=]|[]]|exact Htr]].
    keq k' k.
    + assert (Hnw : forall t p v, ~ writing ths t p k v).
      { intros t p v Hw. destruct (Htr t p v Hw) as (l1 & l2 & -> & Hn). apply Hno.
        exists t, v, l1, l2, []. split; [rewrite <- !app_assoc; reflexivity|exact Hn]. }
      exists None. cbn [key_step]. rewrite seqb_refl. split; [|split; [reflexivity|intros t p v Hw; exfalso; exact (Hnw _ _ _ Hw)]].
      destruct Hs' as [(-> & ->) | (Hk & ->)].
      * destruct R as (A1 & A2 & A3 & A4 & A5 & A6). destruct e as [e|]; [destruct A6 as (_ & _ & A6); congruence|].
        repeat split; assumption.
      * unfold rel1, drop_key. cbn. rewrite !mdel_same. repeat split.
    + exists e. cbn [key_step]. rewrite (seqb_neq k' k E). split; [|split; assumption].
      destruct Hs' as [(_ & ->) | (_ & ->)]; [exact R|]. unfold rel1, drop_key in *. cbn.
      rewrite !mdel_other by congruence. exact R.
  - (* reset *)
    cbn [fst snd app]. intros Hno.
    destruct IH as ((e & R & Hreg & Hpc) & Htr); [intros H; apply Hno, overtaken_app, H|].
    split; [|apply Hkeep; [intros t [[=]|[]]|exact Htr]].
    keq k' k.
    + exists (option_map (fun e => Entry (e_proc e) (e_def e) None) e). split.
      * unfold rel1, clear_key in *. cbn. rewrite !mdel_same. destruct e as [e|]; cbn in *; [|tauto].
        repeat split; try tauto. intros v [=].
      * split; [rewrite <- Hreg; destruct e; reflexivity|]. intros t p v Hw. destruct (Hpc t p v Hw) as (H1 & H2).
        destruct e as [e|]; [|discriminate]. split; assumption.
    + exists e. split; [|split; assumption]. unfold rel1, clear_key in *. cbn. rewrite !mdel_other by congruence. exact R.
  - (* lookup *)
    destruct (nth_error ths t0) as [[|p1 k1 v1]|] eqn:Et; cbn [fst snd];
      try (rewrite ?app_nil_r; exact IH).
    assert (Hidle : forall tr2, (forall t, t <> t0 -> ~ In (EUpdated t None) tr2) ->
       (forall t p v, writing ths t p k v -> exists l1 l2, tr = (l1 ++ [EUpdating t k v] ++ l2)%list /\ ~ In (EUpdated t None) l2) ->
       (forall t p v, writing ths t p k v -> exists l1 l2, (tr ++ tr2)%list = (l1 ++ [EUpdating t k v] ++ l2)%list /\ ~ In (EUpdated t None) l2)).
    { intros tr2 Hn H t p v Hw. destruct (H t p v Hw) as (l1 & l2 & -> & Hn2). exists l1, (l2 ++ tr2)%list.
      split; [rewrite <- !app_assoc; reflexivity|]. intros Hin. apply in_app_or in Hin. destruct Hin as [Hin|Hin]; [auto|].
      apply (Hn t); [|exact Hin]. intros ->. unfold writing in Hw. congruence. }
    keq k' ""%string.
    + cbn [fst snd app]. intros Hno. destruct IH as ((e & R & Hreg & Hpc) & Htr); [intros H; apply Hno, overtaken_app, H|].
      split; [exists e; auto|]. apply Hidle; [|exact Htr]. intros t Ht [[=]|[]]. congruence.
    + unfold lookup_value. destruct (s_procs s k') as [p0|] eqn:Ep; [destruct (p_validate p0 v0) as [[|] err] eqn:Ev|]; cbn [negb fst snd app].
      * intros Hno. destruct IH as ((e & R & Hreg & Hpc) & Htr); [intros H; apply Hno, overtaken_app, H|]. split.
        -- exists e. split; [exact R|]. split; [exact Hreg|]. intros t p v Hw. unfold writing in Hw.
           rewrite nth_error_upd in Hw. destruct (Nat.eq_dec t0 t) as [<-|Hne].
           ++ rewrite Et in Hw. injection Hw as -> -> ->. destruct R as (A1 & _). split; [congruence|].
              unfold accepts. rewrite Ev. reflexivity.
           ++ apply (Hpc t p v Hw).
        -- intros t p v Hw. unfold writing in Hw. rewrite nth_error_upd in Hw. destruct (Nat.eq_dec t0 t) as [<-|Hne].
           ++ rewrite Et in Hw. injection Hw as -> -> ->. exists tr, []. split; [reflexivity|intros []].
           ++ apply (Hkeep [EUpdating t0 k' v0]) with (p := p); [intros t' [[=]|[]]|exact Htr|exact Hw].
      * intros Hno. destruct IH as ((e & R & Hreg & Hpc) & Htr); [intros H; apply Hno, overtaken_app, H|].
        split; [exists e; auto|]. apply Hkeep; [|exact Htr]. intros t [[=]|[]].
      * intros Hno. destruct IH as ((e & R & Hreg & Hpc) & Htr); [intros H; apply Hno, overtaken_app, H|].
        split; [exists e; auto|]. apply Hkeep; [|exact Htr]. intros t [[=]|[]].
  - (* write *)
    destruct (nth_error ths t0) as [[|p1 k1 v1]|] eqn:Et; cbn [fst snd];
      try (rewrite ?app_nil_r; exact IH).
    cbn [app]. intros Hno. destruct IH as ((e & R & Hreg & Hpc) & Htr); [intros H; apply Hno, overtaken_app, H|].
    assert (Hw' : forall t p v, writing (upd t0 SIdle ths) t p k v -> t <> t0 /\ writing ths t p k v).
    { intros t p v Hw. unfold writing in *. rewrite nth_error_upd in Hw. destruct (Nat.eq_dec t0 t) as [<-|Hne].
      - rewrite Et in Hw. discriminate.
      - auto. }
    split.
    + keq k1 k.
      * destruct (Hpc t0 p1 v1 Et) as (H1 & H2). destruct e as [[p d c]|]; [|discriminate]. cbn in H1. injection H1 as ->.
        exists (Some (Entry p1 d (Some v1))). split; [|split; [exact Hreg|]].
        -- unfold rel1, write_value in *. cbn in *. rewrite !mset_same. repeat split; try tauto. intros v [= <-]. exact H2.
        -- intros t p v Hw. apply Hw' in Hw. destruct (Hpc t p v (proj2 Hw)) as (H3 & H4). split; assumption.
      * exists e. split; [|split; [exact Hreg|]].
        -- unfold rel1, write_value in *. cbn. rewrite !mset_other by congruence. exact R.
        -- intros t p v Hw. apply Hw' in Hw. apply (Hpc t p v (proj2 Hw)).
    + intros t p v Hw. apply Hw' in Hw. destruct Hw as (Hne & Hw). destruct (Htr t p v Hw) as (l1 & l2 & -> & Hn).
      exists l1, (l2 ++ [EUpdated t0 None])%list. split; [rewrite <- !app_assoc; reflexivity|].
      intros Hin. apply in_app_or in Hin. destruct Hin as [Hin|[[=]|[]]]; [auto|congruence].
Qed.

Lemma interleaving_reads {V} n (sched : list (slab V)) k :
  let s := fst (fst (store_exec n sched)) in
  ~ overtaken k (snd (store_exec n sched)) ->
  match registration (key_state k (reg_ops sched)) with
  | None => read_string s k = None /\ read_value s k = None
  | Some (p, d) => exists v, read_string s k = Some v /\ accepts p v = true /\ read_value s k = Some (p_convert p v)
  end.
Proof.
  intros s Hno. destruct (interleaving_inv n sched k Hno) as ((e & R & Hreg & _) & _).
  fold s in R. rewrite <- Hreg. destruct R as (A1 & A2 & A3 & A4 & A5 & A6).
  unfold read_string, read_value. rewrite A2, A3, A4, A5.
  destruct e as [[p d [c|]]|]; cbn in *.
  - exists c. destruct A6 as (_ & A6 & _). auto.
  - exists d. destruct A6 as (A6 & _). auto.
  - auto.
Qed.

(** Without any condition: both views still come from one accepted value. *)
Lemma interleaving_views {V} n (sched : list (slab V)) k v :
  let s := fst (fst (store_exec n sched)) in
  read_string s k = Some v ->
  exists p d, In (LRegister k d (Some p)) sched /\ accepts p v = true /\ read_value s k = Some (p_convert p v).
Proof.
  cbv zeta.
  assert (Hinv : forall sched : list (slab V), let r := store_exec n sched in
    let s := fst (fst r) in
    let once p := exists d, In (LRegister k d (Some p)) sched in
    (forall p, s_procs s k = Some p -> once p) /\
    (forall t p v, writing (snd (fst r)) t p k v -> once p /\ accepts p v = true) /\
    match s_kvstr s k, s_kv s k with
    | Some v, Some u => exists p, once p /\ accepts p v = true /\ u = p_convert p v
    | None, None => True
    | _, _ => False
    end /\
    match s_defstr s k, s_def s k with
    | Some v, Some u => exists p, once p /\ accepts p v = true /\ u = p_convert p v
    | None, None => True
    | _, _ => False
    end).
  { clear. intros sched. induction sched as [|l sched IH] using rev_ind.
    { cbn. split; [intros p [=]|]. split; [|split; exact I].
      intros t p v H. apply nth_error_In, repeat_spec in H. discriminate. }
    cbv zeta in *. unfold store_exec in *. rewrite exec_app.
    destruct (exec store_step (new_store, repeat SIdle n) sched) as [[s ths] tr] eqn:Ex. cbn [fst snd] in IH |- *.
    destruct IH as (H1 & H2 & H3 & H4).
    assert (Hm : forall p, (exists d, In (LRegister k d (Some p)) sched) -> exists d, In (LRegister k d (Some p)) (sched ++ [l])).
    { intros p (d & H). exists d. apply in_or_app. auto. }
    assert (H1' : forall p, s_procs s k = Some p -> exists d, In (LRegister k d (Some p)) (sched ++ [l])) by auto.
    assert (H2' : forall t p v, writing ths t p k v -> (exists d, In (LRegister k d (Some p)) (sched ++ [l])) /\ accepts p v = true).
    { intros t p v H. destruct (H2 t p v H). auto. }
    assert (H3' : match s_kvstr s k, s_kv s k with
      | Some v, Some u => exists p, (exists d, In (LRegister k d (Some p)) (sched ++ [l])) /\ accepts p v = true /\ u = p_convert p v
      | None, None => True | _, _ => False end).
    { destruct (s_kvstr s k), (s_kv s k); try exact H3. destruct H3 as (p & A & B & C). exists p. auto. }
    assert (H4' : match s_defstr s k, s_def s k with
      | Some v, Some u => exists p, (exists d, In (LRegister k d (Some p)) (sched ++ [l])) /\ accepts p v = true /\ u = p_convert p v
      | None, None => True | _, _ => False end).
    { destruct (s_defstr s k), (s_def s k); try exact H4. destruct H4 as (p & A & B & C). exists p. auto. }
    clear H1 H2 H3 H4 Hm. cbn [exec].
    destruct l as [k' d vp|k'|k'|t0 k' v0|t0]; cbn [store_step].
    - keq k' k.
      + unfold register_key. destruct (String.eqb k ""); [cbn; auto|]. destruct vp as [p|]; [|cbn; auto].
        destruct (s_procs s k) eqn:E1; [cbn; rewrite ?E1; auto|]. destruct (s_def s k) eqn:E2; [cbn; rewrite ?E1, ?E2; auto|].
        destruct (p_validate p d) as [[|] err] eqn:Ev; cbn [negb fst snd]; [|rewrite ?E1, ?E2; auto].
        cbn. rewrite !mset_same. 
        assert (Hin : exists d0, In (LRegister k d0 (Some p)) (sched ++ [LRegister k d (Some p)])).
        { exists d. apply in_or_app. right. left. reflexivity. }
        split; [intros p' [= <-]; exact Hin|]. split; [exact H2'|]. split; [exact H3'|].
        exists p. split; [exact Hin|]. unfold accepts. rewrite Ev. auto.
      + destruct (register_other s k' d vp k E) as (B1 & B2 & B3 & B4 & B5).
        destruct (register_key s k' d vp) as [s' er]. cbn [fst snd] in *. rewrite B1, B2, B3, B4, B5. auto.
    - destruct (String.eqb k' ""); [cbn; auto|]. cbn [fst snd drop_key s_procs s_kv s_kvstr s_def s_defstr].
      keq k' k; [rewrite !mdel_same; split; [intros p [=]|auto]|rewrite !mdel_other by congruence; auto].
    - cbn [fst snd clear_key s_procs s_kv s_kvstr s_def s_defstr].
      keq k' k; [rewrite !mdel_same; auto|rewrite !mdel_other by congruence; auto].
    - destruct (nth_error ths t0) as [[|p1 k1 v1]|] eqn:Et; cbn [fst snd]; auto.
      destruct (String.eqb k' ""); [cbn; auto|]. unfold lookup_value.
      destruct (s_procs s k') as [p0|] eqn:Ep; [destruct (p_validate p0 v0) as [[|] err] eqn:Ev|]; cbn [negb fst snd]; auto.
      split; [exact H1'|]. split; [|split; assumption].
      intros t p v Hw. unfold writing in Hw. rewrite nth_error_upd in Hw.
      destruct (Nat.eq_dec t0 t) as [<-|Hne]; [rewrite Et in Hw; injection Hw as -> -> ->|apply (H2' t p v Hw)].
      split; [auto|]. unfold accepts. rewrite Ev. reflexivity.
    - destruct (nth_error ths t0) as [[|p1 k1 v1]|] eqn:Et; cbn [fst snd]; auto.
      cbn [write_value s_procs s_kv s_kvstr s_def s_defstr].
      assert (H2'' : forall t p v, writing (upd t0 SIdle ths) t p k v -> (exists d, In (LRegister k d (Some p)) (sched ++ [LWrite t0])) /\ accepts p v = true).
      { intros t p v Hw. unfold writing in Hw. rewrite nth_error_upd in Hw.
        destruct (Nat.eq_dec t0 t) as [<-|Hne]; [rewrite Et in Hw; discriminate|apply (H2' t p v Hw)]. }
      split; [exact H1'|]. split; [exact H2''|]. split; [|exact H4'].
      keq k1 k; [rewrite !mset_same|rewrite !mset_other by congruence; exact H3'].
      destruct (H2' t0 p1 v1 Et) as (A & B). exists p1. auto. }
  intros H. destruct (Hinv sched) as (_ & _ & H3 & H4). unfold read_string, read_value in *.
  set (s := fst (fst (store_exec n sched))) in *.
  destruct (s_kvstr s k) as [v1|], (s_kv s k) as [u1|]; try contradiction.
  - injection H as ->. destruct H3 as (p & (d & Hd) & A & ->). exists p, d. auto.
  - destruct (s_defstr s k) as [v1|], (s_def s k) as [u1|]; try contradiction; try discriminate.
    injection H as ->. destruct H4 as (p & (d & Hd) & A & ->). exists p, d. auto.
Qed.
