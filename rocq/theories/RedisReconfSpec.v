(** Specification of the Redis TTL rate limiter while its parameters change. *)
From Verif Require Import Common Bytes RedisTtlModel RedisTtlSpec.
Local Open Scope string_scope.
Local Open Scope Z_scope.

(** The capacities that the calls counted under [rk] use, in the order of the calls. *)
Definition capacities (rk : string) (cs : list call) : list Z :=
  flat_map (fun c =>
    match c_op c, counted_under c with
    | OpShouldBlock _ p _ _ _, Some k => if (k =? rk)%string then [p_capacity p] else []
    | _, _ => []
    end) cs.

(** From now on the calls counted under [rk] use this window and this timeout; capacities lie in [1, K]. *)
Definition settled (rk : string) (window timeout K : Z) (cs : list call) : Prop :=
  forall c p0 p k b m, In c cs -> c_op c = OpShouldBlock p0 p k b m -> counted_under c = Some rk ->
    params_set p0 /\ 0 < p_capacity p <= K /\ p_window p = window /\ p_timeout p = timeout.

(** What the calls [cs] return after the calls [pre]. *)
Definition answers_after (pre cs : list call) : list (call * outcome) :=
  combine cs (snd (do_calls cs (fst (do_calls pre mempty)))).
