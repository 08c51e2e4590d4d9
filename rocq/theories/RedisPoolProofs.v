(** Proofs about the connection pool of Redis clients. *)
From Verif Require Import Common ConfsModel RedisPoolModel RedisPoolSpec.
Local Open Scope Z_scope.

Record rsound (l : rlimits) (s : rpool) : Prop := {
  rs_waiting : 0 <= rp_waiting s; rs_asking : 0 <= rp_asking s; rs_discarding : 0 <= rp_discarding s; rs_dialing : 0 <= rp_dialing s;
  rs_used : 0 <= rp_used s; rs_extra : 0 <= rp_extra s; rs_leaving : 0 <= rp_leaving s; rs_reaping : 0 <= rp_reaping s;
  rs_free : 0 <= rp_free s; rs_adding : 0 <= rp_adding s;
  rs_turns : rp_turns s = busy s; rs_limit : rp_turns s <= rl_size l;
  rs_lost : 0 <= rp_lost s; rs_undo : rl_undo l = true -> rp_lost s = 0;
  rs_len : rp_len s = rp_free s + rp_adding s + rp_lost s;
  rs_size : rp_size s = rp_free s + rp_adding s + rp_used s + rp_discarding s + rp_lost s; rs_full : rp_size s <= rl_size l;
  rs_made : rp_adding s <= Z.max 0 (rl_min l);
  rs_min : rl_min l <= 0 -> rp_adding s = 0 /\ rp_lost s = 0 /\ rp_extra s = 0 /\ redis_conns s <= rl_size l }.
Ltac split_ifs :=
  repeat match goal with
  | H : context [if ?b then _ else _] |- _ => destruct b eqn:?
  | H : Some _ = Some _ |- _ => injection H as H; subst
  | H : None = Some _ |- _ => discriminate H
  end.
Ltac bools := repeat rewrite ?andb_true_iff, ?andb_false_iff in *.
Ltac fields := cbn [rp_turns rp_waiting rp_asking rp_discarding rp_dialing rp_used rp_extra rp_leaving rp_reaping rp_free rp_adding rp_len rp_size rp_lost] in *.
Lemma rstep_sound l e s s' : rsound l s -> redis_step l e s = Some s' -> rsound l s'.
Proof.
  intros [W A D I U X L R F Ad T Tl Lo Un Ln Sz Fu Ma M] H. destruct s as [turns waiting asking discarding dialing used extra leaving reaping free adding len size lost].
  unfold busy, redis_conns, in_use in *. fields.
  destruct e; cbn [redis_step] in H; unfold check_min in H; split_ifs; bools; constructor; unfold busy, redis_conns, in_use; fields; first [lia|intros Hu; specialize (Un Hu); lia|congruence].
Qed.
Lemma new_sound l : 0 <= rl_size l -> rsound l (new_pool l).
Proof.
  intros P. unfold new_pool, check_min. destruct (rl_min l =? 0) eqn:E; constructor; unfold busy, redis_conns, in_use; fields; try reflexivity; lia.
Qed.
Lemma rrun_sound l es : forall s s', rsound l s -> redis_run l es s = Some s' -> rsound l s'.
Proof.
  induction es as [|e es IH]; intros s s' G H; cbn in H; [now injection H as <-|]. destruct (redis_step l e s) as [s1|] eqn:E; [|discriminate].
  exact (IH s1 s' (rstep_sound l e s s1 G E) H).
Qed.
Definition supplied (l : rlimits) (s : rpool) : Prop := rl_min l <= rp_len s \/ rp_size s = rl_size l.
Lemma rstep_supplied l e s s' : rsound l s -> supplied l s -> e <> RAddFailed -> redis_step l e s = Some s' -> supplied l s'.
Proof.
  intros [W A D I U X L R F Ad T Tl Lo Un Ln Sz Fu Ma M] Q N H. destruct s as [turns waiting asking discarding dialing used extra leaving reaping free adding len size lost].
  unfold busy, redis_conns, in_use, supplied in *. fields.
  destruct e; try congruence; cbn [redis_step] in H; unfold check_min in H; split_ifs; bools; fields; lia.
Qed.
Lemma rrun_supplied l es : forall s s', rsound l s -> supplied l s -> ~ In RAddFailed es -> redis_run l es s = Some s' -> supplied l s'.
Proof.
  induction es as [|e es IH]; intros s s' G Q N H; cbn in H; [now injection H as <-|]. destruct (redis_step l e s) as [s1|] eqn:E; [|discriminate].
  apply (IH s1 s' (rstep_sound l e s s1 G E)); [|intros X; apply N; now right|exact H]. apply (rstep_supplied l e s s1 G Q); [|exact E]. intros ->. apply N. now left.
Qed.
Lemma new_supplied l : 0 <= rl_size l -> supplied l (new_pool l).
Proof. intros P. unfold new_pool, check_min, supplied. destruct (rl_min l =? 0) eqn:E; fields; lia. Qed.
