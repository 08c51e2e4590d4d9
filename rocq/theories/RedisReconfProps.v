(** C113: the Redis TTL rate limiter while its parameters change. *)
From Verif Require Import Common Bytes RedisTtlModel RedisTtlSpec RedisTtlProofs RedisReconfSpec RedisReconfProofs.
Local Open Scope string_scope.
Local Open Scope Z_scope.

(** C113.  Whatever calls with whatever parameters came before, with any network faults: once window and
    timeout stay the same and the capacity never goes down, the calls made since then let at most the
    largest capacity pass in any span of a window. *)
Theorem redis_reconfigured_bound : forall rk window timeout K skew pre cs x,
  0 < window -> 0 < timeout -> 0 <= K -> window * second + 2 * skew <= 2 * timeout * second ->
  separate (pre ++ cs) -> nondecreasing (map c_t cs) -> Forall (in_sync skew) cs ->
  settled rk window timeout K cs -> nondecreasing (capacities rk cs) ->
  passes_in rk x (x + window * second) (answers_after pre cs) <= K.
Proof. exact reconf. Qed.
Print Assumptions redis_reconfigured_bound.

(** First ten per second, then three, then four, each per four seconds. *)
Example redis_reconfigured_bound_case :
  let f P t := Call new_limiter (OpShouldBlock P P "k" "k" "m") t (t * 1000000) NetOk in
  let A := Params 10 1 5 in let B := Params 3 4 2 in let C := Params 4 4 2 in
  let pre := [f A 0; f A 10; f A 20; f A 30; f A 40] in
  let cs := [f B 50; f B 2100; f B 5050; f B 5060; f C 5070; f C 5080; f C 5090] in
  separate (pre ++ cs) /\ nondecreasing (map c_t cs) /\ Forall (in_sync 0) cs /\ settled "_rl:k" 4 2 4 cs /\
  nondecreasing (capacities "_rl:k" cs) /\ 4 * second + 2 * 0 <= 2 * 2 * second /\
  snd (do_calls pre mempty) = repeat (Returned zero_result) 5 /\
  map snd (answers_after pre cs) =
    [Returned (Result true true 2 "m"); Returned (Result true true 2 "m"); Returned zero_result; Returned zero_result;
     Returned zero_result; Returned zero_result; Returned (Result true true 2 "m")] /\
  passes_in "_rl:k" (5050 * 1000000) (5050 * 1000000 + 4 * second) (answers_after pre cs) = 4.
Proof.
  cbv zeta.
  split; [intros c1 c2 H1 H2 _; cbn in H1, H2; decompose [or False] H1; decompose [or False] H2; subst; discriminate|].
  split; [cbn; repeat split; repeat constructor; lia|]. split; [repeat constructor; cbn; lia|].
  split.
  { intros c p0 p k b m H. cbn in H. decompose [or False] H; subst; intros [= <- <-] _; unfold params_set; cbn; lia. }
  split; [cbn; repeat split; repeat constructor; lia|]. split; [unfold second; lia|].
  split; [vm_compute; reflexivity|]. split; vm_compute; reflexivity.
Qed.

(** A capacity that goes down and up again does not keep even the larger bound, for all parameters whose
    block ends within the window. *)
Theorem redis_reconfigured_bound_refuted : forall P,
  params_set P -> 2 <= p_capacity P -> p_timeout P < p_window P ->
  exists cs, separate cs /\ nondecreasing (map c_t cs) /\ Forall (in_sync 0) cs /\
    (forall c, In c cs -> c_lim c = new_limiter /\ c_net c = NetOk /\
       exists p, c_op c = OpShouldBlock p p "k" "k" "m" /\ (p = P \/ p = Params 1 (p_window P) (p_timeout P))) /\
    passes_in "_rl:k" 0 (p_window P * second) (combine cs (snd (do_calls cs mempty))) = p_capacity P + 1.
Proof. exact up_down. Qed.
Print Assumptions redis_reconfigured_bound_refuted.

Example redis_reconfigured_bound_refuted_case :
  let P := Params 5 60 40 in
  params_set P /\ 2 <= p_capacity P /\ p_timeout P < p_window P /\
  p_window P * second + 2 * 0 <= 2 * p_timeout P * second.
Proof. unfold params_set, second. cbn. lia. Qed.
