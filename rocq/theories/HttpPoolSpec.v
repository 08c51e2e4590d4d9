(** Specification of the connections of an HTTP client to one host. *)
From Verif Require Import Common HttpPoolModel.
Local Open Scope Z_scope.

(** Connections that exist or are being made; those that have been given up and are being closed do not count. *)
Definition host_conns (s : hpool) : Z := hp_idle s + hp_used s + hp_dialing s + hp_redialing s + hp_cleaning s.
(** The limit on connections per host. *)
Definition host_limit (configured n : Z) : Prop := (configured <= 0 -> n = 512) /\ (0 < configured -> n = configured).
(** No caller has a connection or is on its way to one, and nothing else is under way; callers in the queue only wait. *)
Definition host_rest (s : hpool) : Prop := hp_used s = 0 /\ hp_dialing s = 0 /\ hp_deciding s = 0 /\ hp_redialing s = 0 /\ hp_cleaning s = 0.
(** Calls come one after the other: no caller looks for a connection, queues, or gets or loses one while another is
    between finding none and queueing. *)
Fixpoint queues_at_once (l : hlimits) (es : list http_event) (s : hpool) : Prop :=
  match es with
  | [] => True
  | e :: es' => (0 < hp_deciding s -> e = HQueue) /\ e <> HMissed /\
                match http_step l e s with Some s' => queues_at_once l es' s' | None => True end
  end.
