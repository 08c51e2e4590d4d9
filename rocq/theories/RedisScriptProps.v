(** C121: the scripts of the Redis TTL rate limiter. *)
From Verif Require Import Common Bytes RedisTtlModel RedisTtlSpec RedisReconfSpec RedisLapseModel RedisLapseSpec RedisScriptModel RedisScriptSpec RedisScriptProofs.
Local Open Scope string_scope.
Local Open Scope Z_scope.
Local Open Scope list_scope.

(** A call whose script is not usable (its process never got the digest from LoadScript, or the server does not have
    the script) is let pass, whatever the data say, and changes nothing. *)
Theorem script_missing_passes : forall pre p s c,
  ~ usable (needs c) p s pre ->
  let y := fst (do_sevents pre start) in
  snd (do_sevent (SCall p s c) y) = ROutcome (Returned zero_result) /\
  current (y_hist (fst (do_sevent (SCall p s c) y)) s) = current (y_hist y s).
Proof.
  intros pre p s c U y. subst y. cbn [do_sevent]. rewrite (call_unusable _ _ _ _ _ U). cbn. rewrite fset_same. split; reflexivity.
Qed.
Print Assumptions script_missing_passes.

(** Any number of processes and servers: what calls at one server return is what they return on that server alone,
    if those whose script is not usable do not reach it. *)
Theorem script_servers_separate : forall s pre es, exists before fs,
  seen_as s [] pre before /\ seen_as s pre es fs /\
  map snd (at_server_after s pre es) = map snd (returns_after before fs).
Proof.
  intros s pre es. destruct (seen_exists s pre []) as [b B]. destruct (seen_exists s es pre) as [f F]. exists b, f. split; [exact B|]. split; [exact F|].
  unfold at_server_after, returns_after. rewrite (proj2 (seen_run s es pre f F)). pose proof (proj1 (seen_run s pre [] b B)) as H. cbn in H. rewrite H. reflexivity.
Qed.
Print Assumptions script_servers_separate.

(** LoadScript panics unless both SCRIPT LOAD succeed; if it does not panic, both scripts are usable for its process
    at its server, until that server loses them; it changes no data. *)
Theorem script_load : forall pre p s n1 n2,
  let r := do_sevent (SLoad p s n1 n2) (fst (do_sevents pre start)) in
  (forall ok, snd r = RLoaded ok -> (ok = true <-> n1 = NetOk /\ n2 = NetOk)) /\
  (snd r = RLoaded true -> forall sc es, existsb (forgets s) es = false -> usable sc p s (pre ++ SLoad p s n1 n2 :: es)) /\
  (forall s', y_hist (fst r) s' = y_hist (fst (do_sevents pre start)) s').
Proof.
  intros pre p s n1 n2. cbn [do_sevent]. pose proof (load_hist p s n1 n2 (fst (do_sevents pre start))) as L.
  assert (E : snd (load_scripts p s n1 n2 (fst (do_sevents pre start))) = net_is n1 NetOk && net_is n2 NetOk) by (unfold load_scripts, load_script; destruct n1, n2; reflexivity).
  destruct (load_scripts p s n1 n2 (fst (do_sevents pre start))) as [y ok]. cbn [fst snd] in *. subst ok. split; [|split].
  - intros ok E. injection E as <-. destruct n1, n2; cbn; intuition discriminate.
  - intros E sc es N. assert (Q : n1 = NetOk /\ n2 = NetOk) by (destruct n1, n2; cbn in E; try discriminate; auto). destruct Q as [-> ->].
    change (pre ++ SLoad p s NetOk NetOk :: es) with (pre ++ [SLoad p s NetOk NetOk] ++ es). rewrite app_assoc. apply usable_keeps; [apply load_makes_usable|exact N].
  - intros s'. rewrite L. reflexivity.
Qed.
Print Assumptions script_load.

(** While every call at a server finds its script, the bound of C116 holds for the calls of all processes. *)
Theorem script_bound : forall s rk window timeout K skew pre es x,
  0 < window -> 0 < timeout -> 0 <= K -> window * second + 2 * skew <= 2 * timeout * second ->
  separate (calls_of (plain s (pre ++ es))) -> nondecreasing (map event_t (plain s es)) -> Forall (in_sync skew) (calls_of (plain s es)) ->
  settled rk window timeout K (calls_of (plain s es)) -> nondecreasing (capacities rk (calls_of (plain s es))) ->
  ready s pre es ->
  passes_in rk x (x + window * second) (at_server_after s pre es) <= K * (1 + lapses_in rk (x - skew) (x + window * second + skew) (plain s es)).
Proof. exact ready_bound. Qed.
Print Assumptions script_bound.

(** A server keeps all its data but loses its scripts: that a key stays blocked, and that at most capacity requests
    pass, are false then, however long LoadScript is not called again. *)
Theorem script_flush_refuted : forall n,
  let P := Params 1 4 3 in
  let c := Call new_limiter (OpShouldBlock P P "k" "k" "m") 0 0 NetOk in
  let used := [SLoad 0 0 NetOk NetOk; SCall 0 0 c; SCall 0 0 c]%nat in
  let flush := SRestart 0 0 (fun _ => Some O) in
  map snd (at_server_after 0 [] used) = [Returned zero_result; Returned (Result true true 3 "m")] /\
  at_server_after 0 (used ++ [flush]) (repeat (SCall 0 0 c) n) = repeat (c, Returned zero_result) n.
Proof.
  intros n P c used flush. split; [vm_compute; reflexivity|].
  assert (U : forall m, ~ usable Script1 0 0 ((used ++ [flush]) ++ repeat (SCall 0 0 c) m)).
  { intros m [_ (a & e & b & E & B & F)]. rewrite <- app_assoc in E. subst flush.
    refine (flushed _ _ _ _ _ _ _ _ _ E B F _). intros x Hx. apply repeat_spec in Hx. subst x. reflexivity. }
  unfold at_server_after. set (pre0 := used ++ [flush]) in *. clearbody pre0. clear used flush. revert pre0 U. induction n as [|n IH]; intros pre0 U; [reflexivity|]. cbn [repeat do_sevents].
  assert (U0 : ~ usable (needs c) 0 0 pre0) by (specialize (U O); rewrite app_nil_r in U; exact U).
  pose proof (script_missing_passes pre0 0 0 c U0) as [Q _]. specialize (IH (pre0 ++ [SCall 0%nat 0%nat c])). rewrite run_snoc in IH.
  destruct (do_sevent (SCall 0 0 c) (fst (do_sevents pre0 start))) as [y r]. cbn [fst snd] in *. subst r.
  destruct (do_sevents (repeat (SCall 0%nat 0%nat c) n) y) as [y2 rs]. cbn. f_equal. apply IH. intros m. rewrite <- app_assoc. apply (U (S m)).
Qed.
Print Assumptions script_flush_refuted.

(** Two processes, two servers.  Process 1 loads at server 0 although process 0 uses it first; process 0 loads at
    server 1 only.  Server 0 then restarts. *)
Example script_case :
  let P := Params 1 4 3 in
  let f p s t := SCall p s (Call new_limiter (OpShouldBlock P P "k" "k" "m") t (t * 1000000) NetOk) in
  let g p s t := SCall p s (Call new_limiter (OpIsBlocked "k") t (t * 1000000) NetOk) in
  snd (do_sevents [f 0%nat 0%nat 0; SLoad 1 0 NetOk NetOk; f 0%nat 0%nat 1; f 1%nat 0%nat 2; f 0%nat 0%nat 3; SLoad 0 1 NetOk NetLostReply; f 0%nat 0%nat 4; g 0%nat 0%nat 5; g 1%nat 0%nat 6;
    SRestart 0 7 (fun _ => Some O); f 1%nat 0%nat 8; SLoad 0 0 NetLostReply NetOk; f 1%nat 0%nat 9; g 1%nat 0%nat 10] start) =
  [ROutcome (Returned zero_result); RLoaded true; ROutcome (Returned zero_result); ROutcome (Returned zero_result); ROutcome (Returned zero_result); RLoaded false;
   ROutcome (Returned (Result true true 3 "m")); ROutcome (Returned zero_result); ROutcome (Returned (Result true false 3 "m"));
   RNone; ROutcome (Returned zero_result); RLoaded false; ROutcome (Returned (Result true false 3 "m")); ROutcome (Returned zero_result)].
Proof. vm_compute. reflexivity. Qed.

Example script_ready_case :
  let P := Params 1 4 3 in
  let f p t := SCall p 0 (Call new_limiter (OpShouldBlock P P "k" "k" "m") t (t * 1000000) NetOk) in
  let pre := [SLoad 0 0 NetOk NetOk; SLoad 1 0 NetOk NetOk]%nat in
  let es := [f 0%nat 1; f 1%nat 2; SLapse 0 3 (fun k => if (k =? "_rl:k")%string then None else Some O); f 1%nat 4] in
  ready 0 pre es /\ settled "_rl:k" 4 3 1 (calls_of (plain 0 es)) /\ Forall (in_sync 0) (calls_of (plain 0 es)) /\
  map snd (at_server_after 0 pre es) = [Returned zero_result; Returned (Result true true 3 "m"); Returned (Result true false 3 "m")].
Proof.
  cbv zeta. split; [|split; [|split]].
  - intros a p c b E. assert (U : usable (needs c) p 0 [SLoad 0 0 NetOk NetOk; SLoad 1 0 NetOk NetOk]).
    { assert (Q : p = 0%nat \/ p = 1%nat). { assert (I : In (SCall p 0 c) (a ++ SCall p 0 c :: b)) by (apply in_elt). rewrite <- E in I. cbn in I. decompose [or False] I; try discriminate; match goal with H : SCall _ _ _ = _ |- _ => injection H as <- _ end; auto. }
      split; [destruct Q as [-> | ->]; destruct (needs c); reflexivity|]. exists [], (SLoad 0 0 NetOk NetOk), [SLoad 1 0 NetOk NetOk]. split; [reflexivity|]. split; [destruct (needs c); reflexivity|reflexivity]. }
    apply usable_keeps; [exact U|]. destruct (existsb (forgets 0) a) eqn:X; [|reflexivity]. apply existsb_exists in X. destruct X as (x & I & Fx). assert (J : In x (a ++ SCall p 0 c :: b)) by (apply in_or_app; auto). rewrite <- E in J. cbn in J.
    decompose [or False] J; subst x; discriminate.
  - intros c p0 p k b m H. cbn in H. decompose [or False] H; subst; intros [= <- <-] _; unfold params_set; cbn; lia.
  - repeat constructor; cbn; lia.
  - vm_compute. reflexivity.
Qed.
