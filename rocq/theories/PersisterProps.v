(** Theorems about the persisters by themselves (C112). *)
From Verif Require Import Common Bytes StoreModel StoreProofs PersisterSpec.
From Coq Require Import Permutation.
Local Open Scope string_scope.
Local Open Scope list_scope.

Section redis.
  Variable ok : nat -> bool.
  Variable ord : nat -> list (string * string) -> list (string * string).
  Notation per := (redis_persister ok ord).

  Definition holds (r : redis) (m : smap string) : Prop := NoDup (map fst (r_hash r)) /\ forall k, hget (r_hash r) k = m k.

  Lemma hmset_holds kvs : forall h m, NoDup (map fst h) -> (forall k, hget h k = m k) ->
    NoDup (map fst (hmset h kvs)) /\ forall k, hget (hmset h kvs) k = fold_left (fun m kv => mset m (fst kv) (snd kv)) kvs m k.
  Proof.
    induction kvs as [|[k0 v0] kvs IH]; intros h m N H; [split; [exact N|exact H]|]. cbn. apply IH; [apply hset_nodup; exact N|].
    intros k. cbn. rewrite hget_hset, H. unfold mset. rewrite String.eqb_sym. reflexivity.
  Qed.

  Lemma step_holds r m c : holds r m -> let (r', b) := pcall_step per r c in
    b = (if sends c then ok (r_cmds r) else true) /\ r_cmds r' = (if sends c then S (r_cmds r) else r_cmds r) /\
    holds r' (if b then saved_after m c else m).
  Proof.
    intros [N H]. destruct c as [k v|kvs|k]; cbn [pcall_step redis_persister ps_save ps_batch ps_delete redis_save redis_delete sends saved_after].
    - unfold redis_save, redis_batch. destruct (ok (r_cmds r)); cbn; (split; [reflexivity|split; [reflexivity|]]); [|split; [exact N|exact H]].
      exact (hmset_holds [(k, v)] _ _ N H).
    - unfold redis_batch. destruct kvs as [|kv kvs]; [split; [reflexivity|split; [reflexivity|split; [exact N|exact H]]]|].
      destruct (ok (r_cmds r)); (split; [reflexivity|split; [reflexivity|]]); [|split; [exact N|exact H]].
      exact (hmset_holds (kv :: kvs) _ _ N H).
    - unfold redis_delete. destruct (ok (r_cmds r)); (split; [reflexivity|split; [reflexivity|]]); [|split; [exact N|exact H]].
      split; [apply hdel_nodup; exact N|]. intros k'. cbn. rewrite hget_hdel, H. unfold mdel. rewrite String.eqb_sym. reflexivity.
  Qed.

  Lemma run_holds cs : forall r m, holds r m -> let (r', bs) := pcall_run per r cs in
    map fst bs = cs /\ holds r' (saved_by m bs).
  Proof.
    induction cs as [|c cs IH]; intros r m H; cbn [pcall_run]; [split; [reflexivity|exact H]|].
    pose proof (step_holds r m c H) as S. destruct (pcall_step per r c) as [r1 b]. destruct S as (_ & _ & S). specialize (IH r1 _ S).
    destruct (pcall_run per r1 cs) as [r2 bs]. destruct IH as [A B]. split; [cbn; rewrite A; reflexivity|exact B].
  Qed.
End redis.

(** The Redis persister is a map: whichever commands fail, Load hands out, once each and in some order, exactly the
    values saved last by calls that returned no error and not deleted since by one that returned no error. *)
Theorem redis_persister_map : forall ok ord (r : redis) (cs : list pcall) m,
  (forall n h, Permutation (ord n h) h) -> NoDup (map fst (r_hash r)) -> (forall k v, In (k, v) (r_hash r) <-> m k = Some v) ->
  let per := redis_persister ok ord in
  let (r', bs) := pcall_run per r cs in
  let '(_, kvs, fine) := ps_load per r' in
  map fst bs = cs /\
  if fine then NoDup (map fst kvs) /\ forall k v, In (k, v) kvs <-> saved_by m bs k = Some v else kvs = [].
Proof.
  intros ok ord r cs m Ho N Hm per.
  assert (H : holds r m).
  { split; [exact N|]. intros k. destruct (hget (r_hash r) k) as [v|] eqn:E; [symmetry; apply Hm, hget_in, E|].
    destruct (m k) as [v|] eqn:E2; [|reflexivity]. exfalso. apply Hm in E2. exact (hget_none _ _ E (in_map fst _ _ E2)). }
  pose proof (run_holds ok ord cs r m H) as R. fold per in R. destruct (pcall_run per r cs) as [r' bs]. destruct R as [A [B C]].
  cbn [per redis_persister ps_load]. unfold redis_load. destruct (ok (r_cmds r')); (split; [exact A|]); [|reflexivity].
  split.
  - apply (Permutation_NoDup (l := map fst (r_hash r'))); [|exact B]. apply Permutation_map, Permutation_sym, Ho.
  - intros k v. rewrite <- C. split.
    + intros I. apply (Permutation_in _ (Ho _ _)) in I. clear -B I. induction (r_hash r') as [|[k0 v0] h IH]; [destruct I|]. inversion B as [|? ? X Y]; subst.
      cbn. destruct I as [[= -> ->]|I]; [rewrite String.eqb_refl; reflexivity|]. destruct (String.eqb_spec k0 k) as [->|_]; [|exact (IH Y I)].
      exfalso. apply X. exact (in_map fst _ _ I).
    + intros E. apply (Permutation_in _ (Permutation_sym (Ho _ _))). apply hget_in. exact E.
Qed.
Print Assumptions redis_persister_map.

(** A call returns an error exactly if its command failed; BatchSave of nothing sends none and returns no error. *)
Theorem redis_persister_reports : forall ok ord (r : redis) c,
  let (r', b) := pcall_step (redis_persister ok ord) r c in
  b = (if sends c then ok (r_cmds r) else true) /\ r_cmds r' = (if sends c then S (r_cmds r) else r_cmds r) /\
  (b = false -> r_hash r' = r_hash r) /\
  snd (ps_load (redis_persister ok ord) r) = ok (r_cmds r) /\ r_hash (fst (fst (ps_load (redis_persister ok ord) r))) = r_hash r.
Proof.
  intros ok ord r c. assert (L : snd (ps_load (redis_persister ok ord) r) = ok (r_cmds r) /\ r_hash (fst (fst (ps_load (redis_persister ok ord) r))) = r_hash r).
  { cbn. unfold redis_load. destruct (ok (r_cmds r)); auto. }
  destruct c as [k v|kvs|k]; cbn [pcall_step redis_persister ps_save ps_batch ps_delete redis_save redis_delete sends].
  - unfold redis_save, redis_batch. destruct (ok (r_cmds r)) eqn:E; cbn [fst snd r_cmds r_hash]; (split; [reflexivity|split; [reflexivity|split; [try discriminate; reflexivity|exact L]]]).
  - unfold redis_batch. destruct kvs; [split; [reflexivity|split; [reflexivity|split; [discriminate|exact L]]]|].
    destruct (ok (r_cmds r)) eqn:E; cbn [fst snd r_cmds r_hash]; (split; [reflexivity|split; [reflexivity|split; [try discriminate; reflexivity|exact L]]]).
  - unfold redis_delete. destruct (ok (r_cmds r)) eqn:E; cbn [fst snd r_cmds r_hash]; (split; [reflexivity|split; [reflexivity|split; [try discriminate; reflexivity|exact L]]]).
Qed.
Print Assumptions redis_persister_reports.

Example redis_persister_case :
  let per := redis_persister (fun n => negb (Nat.eqb n 2)) (fun _ h => rev h) in
  let (r', bs) := pcall_run per (Redis [] 0) [CBatch [("a", "1"); ("b", "2")]; CSave "a" "3"; CDelete "b"; CBatch []; CSave "c" "4"] in
  map snd bs = [true; true; false; true; true] /\ ps_load per r' = (Redis [("a", "3"); ("b", "2"); ("c", "4")] 5, [("c", "4"); ("b", "2"); ("a", "3")], true).
Proof. vm_compute. auto. Qed.

(** The persister that saves nothing reports no errors and hands out nothing. *)
Theorem noop_persister_exact : forall (cs : list pcall),
  map snd (snd (pcall_run noop_persister tt cs)) = map (fun _ => true) cs /\
  ps_load noop_persister (fst (pcall_run noop_persister tt cs)) = (tt, [], true).
Proof.
  induction cs as [|c cs [A B]]; [split; reflexivity|]. cbn [pcall_run]. 
  assert (E : pcall_step noop_persister tt c = (tt, true)) by (destruct c; reflexivity). rewrite E. destruct (pcall_run noop_persister tt cs) as [p bs]. cbn in *.
  rewrite A. split; [reflexivity|]. destruct p. reflexivity.
Qed.
Print Assumptions noop_persister_exact.
