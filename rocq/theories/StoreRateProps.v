(** Property theorems for the config store: how often Redis is asked (C99). *)
From Coq Require Import Sorted.
From Verif Require Import Common Bytes Threads StoreModel StoreSpec StoreProofs StoreProps.
From Verif Require Import StoreConcModel StoreConcSpec StoreConcProofs StoreConcProps StoreAloneSpec StoreRateSpec StoreRateProofs.
Local Open Scope string_scope.
Local Open Scope list_scope.

(** C99.  A store that loads at intervals of [d] asks Redis for everything at most once, and once more per full
    interval, in any stretch of time, however many goroutines call it: when Redis answers. *)
Theorem store_load_rate : forall V ok ord h pols n sched j d sched2 a b,
  let c := @conc_exec V ok ord h pols n sched in
  nth_error pols j = Some (PolInterval d) -> (0 < d)%Z -> redis_works ok (fst c) ->
  (a <= b)%Z -> clock_from_to a b sched2 ->
  (hgetalls ok ord j (fst c) sched2 <= 1 + (b - a) / d)%Z.
Proof. exact @hgetalls_rate. Qed.
Print Assumptions store_load_rate.

(** Three goroutines read at the same time, and again when the interval is over: two loads in 10 units of time. *)
Definition crowd : list (clabel Z) :=
  [CCall 0 1 (OGetString "a"); CCall 1 1 (OGetString "a"); CCall 2 1 (OGetString "a")] ++
  go 0 4 2 ++ go 1 4 2 ++ go 0 30 2 ++ go 1 30 5 ++ go 2 30 11 ++
  [CCall 1 1 (OGetString "a")] ++ go 1 30 12.
Example store_load_rate_case :
  let c := conc_exec always as_is [] [PolNoop; PolInterval 10] 3 registered in
  redis_works always (fst c) /\ clock_from_to 2 12 crowd /\ hgetalls always as_is 1 (fst c) crowd = 2%Z.
Proof.
  cbn zeta. split; [intros m _; reflexivity|]. split; [|vm_compute; reflexivity].
  split; [|apply Forall_forall; intros z Hz; vm_compute in Hz; lia].
  assert (E : forall l : list Z, (fix srt l := match l with [] => true | x :: r => (forallb (Z.leb x) r && srt r)%bool end) l = true -> StronglySorted Z.le l).
  { induction l as [|x l IH]; intros H; [constructor|]. apply andb_prop in H. destruct H as [H1 H2]. constructor; [apply IH; exact H2|].
    apply Forall_forall. intros y Hy. rewrite forallb_forall in H1. apply Z.leb_le. apply H1. exact Hy. }
  apply E. vm_compute. reflexivity.
Qed.

(** C99, when Redis does not answer: every read asks it again, at the same instant. *)
Definition again : list (clabel Z) := CCall 0 0 (OGetString "a") :: go 0 20 0.
Definition failing (m : nat) (g : regs Z) : cworld Z :=
  CWorld (Redis [] m) [Node new_store rw0 rw0 (PolInterval 10) None None] [Thread 0 None [] g].
Lemma asked_again m g : exists g', exec (cstep (fun _ => false) as_is) (failing m g) again =
  (failing (S m) g', [ECalled 0 0 (OGetString "a"); EReturned 0 0 (OGetString "a") (RStr None)]) /\
  forall rest, hgetalls (fun _ => false) as_is 0 (failing m g) (again ++ rest) =
    (1 + hgetalls (fun _ => false) as_is 0 (failing (S m) g') rest)%Z.
Proof. exists regs0. split; [vm_compute; reflexivity|]. intros rest. reflexivity. Qed.

Theorem store_load_rate_refuted : forall m, exists sched2,
  let c := @conc_exec Z (fun _ => false) as_is [] [PolInterval 10] 1 [] in
  clock_from_to 0 0 sched2 /\ hgetalls (fun _ => false) as_is 0 (fst c) sched2 = Z.of_nat m.
Proof.
  intros m. exists (flat_map (fun _ => again) (seq 0 m)). cbv zeta. split.
  - assert (A : Forall (fun z => z = 0%Z) (shown (flat_map (fun _ => again) (seq 0 m)))).
    { generalize (seq 0 m). intros l. induction l as [|x l IH]; [constructor|]. cbn [flat_map]. unfold shown. rewrite flat_map_app. apply Forall_app. split; [repeat constructor|exact IH]. }
    split; [|eapply Forall_impl; [|exact A]; cbv beta; lia].
    induction A as [|z l Hz A IH]; constructor; [exact IH|]. eapply Forall_impl; [|exact A]. cbv beta. lia.
  - change (fst (@conc_exec Z (fun _ => false) as_is [] [PolInterval 10] 1 [])) with (failing 0 regs0).
    generalize (@regs0 Z). generalize 0%nat at 2. generalize (seq 0 m) (seq_length m 0). intros l. revert m.
    induction l as [|x l IH]; intros m <- q g; [reflexivity|]. cbn [flat_map]. destruct (asked_again q g) as (g' & _ & ->).
    rewrite (IH (length l) eq_refl). cbn [length]. lia.
Qed.
Print Assumptions store_load_rate_refuted.
