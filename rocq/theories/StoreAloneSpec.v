(** Specification: a call that no other call overlaps. *)
From Verif Require Import Common Bytes Threads StoreModel StoreConcModel StoreConcSpec.
Local Open Scope list_scope.

(** The stores with the times of their last loads, and the Redis hash. *)
Definition state (V : Type) : Type := list (store V * option Z) * redis.
Definition state_of {V} (w : cworld V) : state V := (map (fun n => (n_maps n, n_last n)) (c_nodes w), c_redis w).

(** The clock values a schedule shows. *)
Definition shown {V} (sched : list (clabel V)) : list Z := flat_map (fun l => match l with CStep _ z => [z] | CCall _ _ _ => [] end) sched.

(** [l] reads the clock that shows [zs], one value after the other. *)
Inductive clock_reads : list Z -> list Z -> Prop :=
| reads_none zs : clock_reads zs []
| reads_now z zs l : clock_reads (z :: zs) l -> clock_reads (z :: zs) (z :: l)
| reads_later z zs l : clock_reads zs l -> clock_reads (z :: zs) l.

(** The first [m] pairs of clock readings. *)
Definition readings (clk : nat -> Z * Z) (m : nat) : list Z := flat_map (fun i => [fst (clk i); snd (clk i)]) (seq 0 m).

(** The call [o] of store [j] as in the sequential store (C39-C47), the clock showing [zs]. *)
Definition whole_call {V} ok ord (pols : list policy) (zs : list Z) (x : state V) (j : nat) (o : sop V) (r : sres V) (x' : state V) : Prop :=
  exists pol s last clk y, nth_error pols j = Some pol /\ nth_error (fst x) j = Some (s, last) /\
    sop_step (redis_persister ok ord) pol clk (s, World (snd x) last 0) o = (y, r) /\
    clock_reads zs (readings clk (w_tick (snd y))) /\
    x' = (upd j (fst y, w_last (snd y)) (fst x), w_p (snd y)).
