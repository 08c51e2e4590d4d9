(** Proofs about the connections of an HTTP client to one host. *)
From Verif Require Import Common HttpPoolModel HttpPoolSpec.
Local Open Scope Z_scope.

Record hsound (l : hlimits) (s : hpool) : Prop := {
  hs_idle : 0 <= hp_idle s; hs_used : 0 <= hp_used s; hs_dialing : 0 <= hp_dialing s; hs_deciding : 0 <= hp_deciding s;
  hs_queued : 0 <= hp_queued s; hs_redialing : 0 <= hp_redialing s; hs_cleaning : 0 <= hp_cleaning s;
  hs_count : hp_count s = host_conns s; hs_limit : hp_count s <= hl_conns l;
  hs_wait : hl_wait l = false -> hp_deciding s = 0 /\ hp_queued s = 0 /\ hp_redialing s = 0 }.
Ltac split_ifs :=
  repeat match goal with
  | H : context [if ?b then _ else _] |- _ => destruct b eqn:?
  | H : Some _ = Some _ |- _ => injection H as H; subst
  | H : None = Some _ |- _ => discriminate H
  end.
Ltac bools := repeat rewrite ?andb_true_iff, ?andb_false_iff in *.
Ltac fields := cbn [hp_count hp_idle hp_used hp_dialing hp_deciding hp_queued hp_redialing hp_cleaning] in *.
Lemma new_hsound l : 0 <= hl_conns l -> hsound l new_host.
Proof. intros P. constructor; unfold new_host, host_conns; fields; lia. Qed.
Lemma hstep_sound l e s s' : hsound l s -> http_step l e s = Some s' -> hsound l s'.
Proof.
  intros [I U D De Q R C N L W] H. destruct s as [count idle used dialing deciding queued redialing cleaning]. unfold host_conns in *. fields.
  destruct l as [conns wait]. cbn [hl_conns hl_wait] in *.
  destruct wait; [clear W|specialize (W eq_refl)];
    destruct e; cbn [http_step] in H; unfold meets, dec_count, release in H; fields; cbn [hl_conns hl_wait andb] in H; split_ifs; bools; constructor; unfold host_conns; fields; cbn [hl_conns hl_wait]; try discriminate; lia.
Qed.
Lemma hrun_sound l es : forall s s', hsound l s -> http_run l es s = Some s' -> hsound l s'.
Proof.
  induction es as [|e es IH]; intros s s' G H; cbn in H; [now injection H as <-|]. destruct (http_step l e s) as [s1|] eqn:E; [|discriminate].
  exact (IH s1 s' (hstep_sound l e s s1 G E) H).
Qed.
Lemma limit_is n : host_limit n (max_conns n).
Proof. unfold host_limit, max_conns. destruct (n <=? 0) eqn:E; lia. Qed.

(** With callers that queue at once, none waits in vain. *)
Definition calm_queue (l : hlimits) (s : hpool) : Prop := 0 < hp_queued s + hp_deciding s -> hp_idle s = 0 /\ hp_count s = hl_conns l.
Lemma hstep_calm l e s s' : hsound l s -> calm_queue l s -> (0 < hp_deciding s -> e = HQueue) -> e <> HMissed -> http_step l e s = Some s' -> calm_queue l s'.
Proof.
  intros [I U D De Q R C N L W] K A M H. destruct s as [count idle used dialing deciding queued redialing cleaning]. unfold host_conns, calm_queue in *. fields.
  destruct l as [conns wait]. cbn [hl_conns hl_wait] in *.
  destruct (Z.eq_dec deciding 0) as [D0|D0].
  - clear A. destruct wait; [clear W|specialize (W eq_refl)];
    destruct e; try congruence; cbn [http_step] in H; unfold meets, dec_count, release in H; fields; cbn [hl_conns hl_wait andb] in H; split_ifs; bools; fields; lia.
  - assert (E : e = HQueue) by (apply A; lia). subst e. cbn [http_step] in H. split_ifs. fields. lia.
Qed.
Lemma hrun_calm l es : forall s s', hsound l s -> calm_queue l s -> queues_at_once l es s -> http_run l es s = Some s' -> calm_queue l s'.
Proof.
  induction es as [|e es IH]; intros s s' G K A H; cbn [http_run queues_at_once] in *; [now injection H as <-|]. destruct A as (A1 & A2 & A3).
  destruct (http_step l e s) as [s1|] eqn:E; [|discriminate]. exact (IH s1 s' (hstep_sound l e s s1 G E) (hstep_calm l e s s1 G K A1 A2 E) A3 H).
Qed.
