(** Specification of the Redis TTL rate limiter on a Redis that loses data. *)
From Verif Require Import Common Bytes RedisTtlModel RedisTtlSpec RedisReconfSpec RedisLapseModel.
Local Open Scope string_scope.
Local Open Scope Z_scope.

Definition calls_of (es : list event) : list call :=
  flat_map (fun e => match e with Serve c => [c] | Lapse _ _ => [] end) es.

(** When an event happens, by the Redis clock. *)
Definition event_t (e : event) : Z := match e with Serve c => c_t c | Lapse t _ => t end.

(** Number of lapses that change the key [rk], at Redis times (ms) that overlap [a, b] (ns). *)
Definition lapses_in (rk : string) (a b : Z) (es : list event) : Z :=
  count (fun e =>
    match e with
    | Serve _ => false
    | Lapse t back =>
      match back rk with
      | Some O => false
      | _ => (a <? (t + 1) * 1000000) && (t * 1000000 <=? b)
      end
    end) es.

(** What the calls of [es] return after the events [pre]. *)
Definition returns_after (pre es : list event) : list (call * outcome) :=
  snd (do_events es (fst (do_events pre []))).

(** What a call returns after [es]. *)
Definition then_returns (es : list event) (c : call) : outcome := snd (do_call c (current (fst (do_events es [])))).
