(** Specification of the connection pool. *)
From Verif Require Import Common ConfsModel SqlPoolModel.
Local Open Scope Z_scope.

(** Connections that exist, or are being made or closed. *)
Definition connections (s : dbpool) : Z := db_free s + db_used s + db_dialing s + db_opening s + db_closing s.
(** Nothing is under way and no caller has a connection. *)
Definition at_rest (s : dbpool) : Prop := db_used s = 0 /\ db_dialing s = 0 /\ db_opening s = 0 /\ db_closing s = 0.
(** How many idle connections a configuration allows. *)
Definition idle_allowed (p : pool) (n : Z) : Prop :=
  (p_idle p <= 0 -> n = 0) /\ (0 < p_idle p -> p_open p <= 0 -> n = p_idle p) /\ (0 < p_idle p -> 0 < p_open p -> n = Z.min (p_idle p) (p_open p)).
(** No caller insists on a new connection. *)
Definition any_will_do (es : list pool_event) : Prop := ~ In (Ask true) es.
(** No caller comes. *)
Definition no_call (e : pool_event) : Prop := forall b, e <> Ask b.
(** An endless execution from [s] on in which no further caller comes. *)
Definition endless (l : limits) (s : dbpool) : Prop :=
  exists (st : nat -> dbpool) (ev : nat -> pool_event), st 0%nat = s /\ forall i, no_call (ev i) /\ pool_step l (ev i) (st i) = Some (st (S i)).
