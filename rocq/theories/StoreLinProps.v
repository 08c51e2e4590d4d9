(** Property theorems for the config store: calls with one key take effect at one instant (C97). *)
From Verif Require Import Common Bytes Threads StoreModel StoreSpec StoreProofs StoreProps.
From Verif Require Import StoreConcModel StoreConcSpec StoreConcProofs StoreConcProps StoreLinSpec StoreLinProofs.
Local Open Scope string_scope.
Local Open Scope list_scope.

(** C97.  From any moment at which no call is under way: whatever the goroutines of all processes do from there
    with Update, UpdateNoPersist, Reset and, in stores that never load, the reads of one key, there are instants
    at which the calls take effect, each between call and return, so that results, stores and Redis are those of
    the calls made one after the other in this order. *)
Theorem store_single_calls_at_one_instant : forall V ok ord h pols n sched sched2,
  let c := @conc_exec V ok ord h pols n sched in
  (forall t, calling t (snd c) = None) -> Forall (single_call pols) sched2 ->
  let c2 := exec (cstep ok ord) (fst c) sched2 in
  exists tr x, seen tr = snd c2 /\ each_once tr /\ one_by_one ok ord (contents (fst c)) (effects tr) x /\
    snd x = c_redis (fst c2) /\
    ((forall t, calling t (snd c ++ snd c2) = None) -> x = contents (fst c2)).
Proof. exact @conc_linear. Qed.
Print Assumptions store_single_calls_at_one_instant.

(** Registers keys "a" and "b" with defaults "x" and "y" in the only store. *)
Definition two_keys : list (clabel Z) :=
  CCall 0 0 (ORegister "a" "x" (Some short)) :: go 0 9 1 ++ CCall 0 0 (ORegister "b" "y" (Some short)) :: go 0 9 1.
Definition two_keys_world := conc_exec always as_is [] [PolNoop] 3 two_keys.

(** A Reset, an Update and two reads at the same time; the second read is called before the write and sees it. *)
Definition overlapping : list (clabel Z) :=
  CCall 0 0 (OUpdate "a" "new") :: CCall 1 0 (OGetString "a") :: go 0 3 2 ++ go 1 9 2 ++
  CCall 1 0 (OGetString "a") :: CCall 2 0 (OReset "b") :: go 2 2 2 ++ go 0 1 2 ++ go 2 9 2 ++ go 0 9 2 ++ go 1 9 2.
Example store_single_calls_case :
  (forall t, calling t (snd two_keys_world) = None) /\ Forall (single_call [PolNoop]) overlapping /\
  snd (exec (cstep always as_is) (fst two_keys_world) overlapping) =
    [ECalled 0 0 (OUpdate "a" "new"); ECalled 1 0 (OGetString "a"); EReturned 1 0 (OGetString "a") (RStr (Some "x"));
     ECalled 1 0 (OGetString "a"); ECalled 2 0 (OReset "b"); EReturned 2 0 (OReset "b") RDone;
     EReturned 0 0 (OUpdate "a" "new") (RKVErr None); EReturned 1 0 (OGetString "a") (RStr (Some "new"))].
Proof.
  split; [intros t; unfold two_keys_world; rewrite calling_reach; destruct t as [|[|[|[|t]]]]; vm_compute; reflexivity|].
  split; [repeat constructor|vm_compute; reflexivity].
Qed.

(** A history that no choice of instants explains. *)
Definition not_at_one_instant (sched : list (clabel Z)) : Prop :=
  let c2 := exec (cstep always as_is) (fst two_keys_world) sched in
  (forall t, calling t (snd two_keys_world) = None) /\ (forall t, calling t (snd two_keys_world ++ snd c2) = None) /\
  ~ exists tr x, seen tr = snd c2 /\ each_once tr /\ one_by_one always as_is (contents (fst two_keys_world)) (effects tr) x.

Lemma turn_det {V} t (s : stage V) x s1 s2 : turn t s x s1 -> turn t s x s2 -> s1 = s2.
Proof. intros H1 H2. inversion H1; subst; inversion H2; subst; congruence. Qed.
Lemma turns_cons {V} t (s : stage V) x tr s2 : turns t s (x :: tr) s2 -> exists s1, turn t s x s1 /\ turns t s1 tr s2.
Proof.
  remember (x :: tr) as l. intros H. revert tr Heql. induction H as [|s l s1 y s2 H IH Hy]; intros tr E; [discriminate|].
  destruct l as [|z l]; cbn in E; injection E as -> <-.
  - inversion H; subst; [|destruct tr; discriminate]. exists s2. split; [exact Hy|constructor].
  - destruct (IH l eq_refl) as (s3 & A & B). exists s3. split; [exact A|]. eapply turns_snoc; eassumption.
Qed.
Lemma one_by_one_cons {V} ok ord (x : list (store V) * redis) j o r l x2 : one_by_one ok ord x ((j, o, r) :: l) x2 ->
  exists x1, one_call ok ord x j o r x1 /\ one_by_one ok ord x1 l x2.
Proof.
  remember ((j, o, r) :: l) as m. intros H. revert l Heqm. induction H as [|x m x1 j' o' r' x2 H IH Hy]; intros l E; [discriminate|].
  destruct m as [|[[j1 o1] r1] m]; cbn in E.
  - injection E as -> -> -> <-. inversion H; subst; [|destruct l; discriminate]. exists x2. split; [exact Hy|constructor].
  - injection E as -> -> -> <-. destruct (IH m eq_refl) as (x3 & A & B). exists x3. split; [exact A|]. eapply obo_snoc; eassumption.
Qed.

(** For a history [es] of goroutines 0 and 1: what is left of it. *)
Definition left_over (s0 s1 : stage Z) (tr : list (obs Z)) (x : list (store Z) * redis) (es : list (cevent Z)) : Prop :=
  seen tr = es /\ (exists s, turns 0 s0 tr s) /\ (exists s, turns 1 s1 tr s) /\ (forall u, exists s, turns (S (S u)) Waiting tr s) /\
  exists x', one_by_one always as_is x (effects tr) x'.
Definition effect_of (x : list (store Z) * redis) (j : nat) (o : sop Z) : sres Z * (list (store Z) * redis) :=
  match nth_error (fst x) j with
  | Some s => let (y, r) := sop_step (redis_persister always as_is) PolNoop (fun _ => (0, 0)%Z) (s, World (snd x) None 0) o in
      (r, (upd j (fst y) (fst x), w_p (snd y)))
  | None => (RDone, x)
  end.
Definition of_two (e : cevent Z) : Prop := match e with ECalled u _ _ | EReturned u _ _ _ => (u < 2)%nat end.

Lemma left_over_next s0 s1 tr x e es : left_over s0 s1 tr x (e :: es) -> of_two e ->
  (exists tr' s0' s1', left_over s0' s1' tr' x es /\ turn 0 s0 (Seen e) s0' /\ turn 1 s1 (Seen e) s1') \/
  (exists tr' j o r, s0 = Called j o /\ r = fst (effect_of x j o) /\ left_over (Effected j o r) s1 tr' (snd (effect_of x j o)) (e :: es)) \/
  (exists tr' j o r, s1 = Called j o /\ r = fst (effect_of x j o) /\ left_over s0 (Effected j o r) tr' (snd (effect_of x j o)) (e :: es)).
Proof.
  intros (A & [a H0] & [b H1] & H2 & [x' H3]) He. destruct tr as [|y tr]; [discriminate|].
  apply turns_cons in H0. destruct H0 as (a' & T0 & H0). apply turns_cons in H1. destruct H1 as (b' & T1 & H1).
  assert (Rest : (forall u, turn (S (S u)) Waiting y Waiting) -> forall u, exists s, turns (S (S u)) Waiting tr s).
  { intros T u. destruct (H2 u) as [s Hs]. apply turns_cons in Hs. destruct Hs as (s' & T2 & Hs).
    rewrite <- (turn_det _ _ _ _ _ (T u) T2) in Hs. exists s. exact Hs. }
  destruct y as [e'|u j o r].
  - left. cbn in A. injection A as -> A. exists tr, a', b'. split; [|auto]. split; [exact A|]. split; [eauto|]. split; [eauto|]. split; [|eauto].
    apply Rest. intros u. destruct e; cbn in He; constructor; lia.
  - right. cbn in A. cbn [effects flat_map] in H3. apply one_by_one_cons in H3. destruct H3 as (x1 & C & H3).
    assert (Ex : r = fst (effect_of x j o) /\ x1 = snd (effect_of x j o)).
    { destruct C as (s & y & C1 & C2 & C3). unfold effect_of. rewrite C1, C2. auto. }
    destruct Ex as [-> ->]. destruct u as [|[|u]].
    + left. exists tr, j, o. eexists. inversion T0; subst; try congruence. inversion T1; subst; try congruence. split; [reflexivity|]. split; [reflexivity|].
      split; [exact A|]. split; [eauto|]. split; [eauto|]. split; [|eauto]. apply Rest. intros u. constructor. discriminate.
    + right. exists tr, j, o. eexists. inversion T1; subst; try congruence. inversion T0; subst; try congruence. split; [reflexivity|]. split; [reflexivity|].
      split; [exact A|]. split; [eauto|]. split; [eauto|]. split; [|eauto]. apply Rest. intros u. constructor. discriminate.
    + exfalso. destruct (H2 u) as [s Hs]. apply turns_cons in Hs. destruct Hs as (s' & T2 & _). inversion T2; congruence.
Qed.

Ltac own := try match goal with X : ?a <> ?a |- _ => destruct (X eq_refl) end.
Ltac explain H := apply left_over_next in H; [|cbn; lia];
  destruct H as [(?tr & ?s0 & ?s1 & H & ?T0 & ?T1)|[(?tr & ?j & ?o & ?r & ?E & ?R & H)|(?tr & ?j & ?o & ?r & ?E & ?R & H)]];
  [inversion T0; subst; own; inversion T1; subst; own; clear T0 T1
  |try discriminate E; injection E as <- <-; vm_compute in R; subst|try discriminate E; injection E as <- <-; vm_compute in R; subst].

(** The calls with several keys do not: BatchGet can return values that were never there together, and a
    BatchUpdate can be seen half done. *)
Theorem store_batches_at_one_instant_refuted :
  (exists sched, not_at_one_instant sched /\ Forall (fun l => match l with CCall _ _ (OBatchGetString _ | OUpdate _ _) | CStep _ _ => True | _ => False end) sched) /\
  (exists sched, not_at_one_instant sched /\ Forall (fun l => match l with CCall _ _ (OBatchUpdate _ | OGetString _) | CStep _ _ => True | _ => False end) sched).
Proof.
  assert (Quiet : forall t, calling t (snd two_keys_world) = None).
  { intros t. unfold two_keys_world. rewrite calling_reach. destruct t as [|[|[|[|t]]]]; vm_compute; reflexivity. }
  assert (Reduce : forall es, (forall tr, left_over Waiting Waiting tr (contents (fst two_keys_world)) es -> False) ->
    ~ exists tr x, seen tr = es /\ each_once tr /\ one_by_one always as_is (contents (fst two_keys_world)) (effects tr) x).
  { intros es H (tr & x & E1 & E2 & E3). apply (H tr). split; [exact E1|]. split; [apply E2|]. split; [apply E2|]. split; [intros u; apply E2|eauto]. }
  split.
  - exists (CCall 0 0 (OBatchGetString ["a"; "b"]) :: go 0 3 2 ++ CCall 1 0 (OUpdate "a" "n1") :: go 1 20 2 ++ CCall 1 0 (OUpdate "b" "n2") :: go 1 20 2 ++ go 0 20 2).
    split; [|repeat constructor]. split; [exact Quiet|].
    match goal with |- context [exec ?s ?w ?l] => remember (exec s w l) as c2 eqn:E2 end.
    assert (E : snd c2 = [ECalled 0 0 (OBatchGetString ["a"; "b"]); ECalled 1 0 (OUpdate "a" "n1"); EReturned 1 0 (OUpdate "a" "n1") (RKVErr None);
      ECalled 1 0 (OUpdate "b" "n2"); EReturned 1 0 (OUpdate "b" "n2") (RKVErr None);
      EReturned 0 0 (OBatchGetString ["a"; "b"]) (RStrs [("a", "x"); ("b", "n2")])]) by (subst c2; vm_compute; reflexivity).
    cbn zeta. rewrite E. clear E E2 c2. split; [|apply Reduce; intros tr H; do 9 (try explain H)].
    intros t. unfold calling. rewrite fold_left_app. change (fold_left (calling_step t) (snd two_keys_world) None) with (calling t (snd two_keys_world)).
    rewrite Quiet. destruct t as [|[|t]]; reflexivity.
  - exists (CCall 1 0 (OBatchUpdate [("a", "n1"); ("b", "n2")]) :: go 1 8 2 ++ CCall 0 0 (OGetString "a") :: go 0 20 2 ++ CCall 0 0 (OGetString "b") :: go 0 20 2 ++ go 1 20 2).
    split; [|repeat constructor]. split; [exact Quiet|].
    match goal with |- context [exec ?s ?w ?l] => remember (exec s w l) as c2 eqn:E2 end.
    assert (E : snd c2 = [ECalled 1 0 (OBatchUpdate [("a", "n1"); ("b", "n2")]); ECalled 0 0 (OGetString "a"); EReturned 0 0 (OGetString "a") (RStr (Some "n1"));
      ECalled 0 0 (OGetString "b"); EReturned 0 0 (OGetString "b") (RStr (Some "y"));
      EReturned 1 0 (OBatchUpdate [("a", "n1"); ("b", "n2")]) (RKVErrs [])]) by (subst c2; vm_compute; reflexivity).
    cbn zeta. rewrite E. clear E E2 c2. split; [|apply Reduce; intros tr H; do 9 (try explain H)].
    intros t. unfold calling. rewrite fold_left_app. change (fold_left (calling_step t) (snd two_keys_world) None) with (calling t (snd two_keys_world)).
    rewrite Quiet. destruct t as [|[|t]]; reflexivity.
Qed.
Print Assumptions store_batches_at_one_instant_refuted.
