(** Specification of the scripts of the Redis TTL rate limiter, in terms of what happened only. *)
From Verif Require Import Common Bytes RedisTtlModel RedisTtlSpec RedisLapseModel RedisLapseSpec RedisScriptModel.
Local Open Scope Z_scope.

Definition net_is (a b : net) : bool :=
  match a, b with NetOk, NetOk | NetLostRequest, NetLostRequest | NetLostReply, NetLostReply => true | _, _ => false end.

(** Which of the scripts a call needs. *)
Definition needs (c : call) : script := match c_op c with OpShouldBlock _ _ _ _ _ => Script1 | OpIsBlocked _ => Script2 end.

(** LoadScript of process [p] got the digest of the script (on any server). *)
Definition learnt (sc : script) (p : nat) (e : sevent) : bool :=
  match e with
  | SLoad q _ n1 n2 => (q =? p)%nat && net_is n1 NetOk && match sc with Script1 => true | Script2 => net_is n2 NetOk end
  | _ => false
  end.
(** LoadScript (of any process) brought the script to server [s]. *)
Definition brought (sc : script) (s : nat) (e : sevent) : bool :=
  match e with
  | SLoad _ r n1 n2 => (r =? s)%nat && match sc with Script1 => negb (net_is n1 NetLostRequest) | Script2 => net_is n1 NetOk && negb (net_is n2 NetLostRequest) end
  | _ => false
  end.
(** Server [s] loses its scripts. *)
Definition forgets (s : nat) (e : sevent) : bool := match e with SRestart r _ _ => (r =? s)%nat | _ => false end.

(** After [pre]: process [p] has learnt the digest, and server [s] was brought the script and kept it. *)
Definition usable (sc : script) (p s : nat) (pre : list sevent) : Prop :=
  existsb (learnt sc p) pre = true /\
  exists a e b, pre = (a ++ e :: b)%list /\ brought sc s e = true /\ existsb (forgets s) b = false.

(** The same call, not reaching the server. *)
Definition unreached (c : call) : call := Call (c_lim c) (c_op c) (c_t c) (c_ns c) NetLostRequest.

(** The calls at server [s], with what they returned. *)
Fixpoint at_server (s : nat) (es : list sevent) (rs : list sresult) : list (call * outcome) :=
  match es, rs with
  | SCall _ r c :: es', ROutcome o :: rs' => if (r =? s)%nat then (c, o) :: at_server s es' rs' else at_server s es' rs'
  | _ :: es', _ :: rs' => at_server s es' rs'
  | _, _ => []
  end.
Definition at_server_after (s : nat) (pre es : list sevent) : list (call * outcome) :=
  at_server s es (snd (do_sevents es (fst (do_sevents pre start)))).

(** What happens at server [s] in the eyes of RedisLapseModel.v, calls as they are. *)
Fixpoint plain (s : nat) (es : list sevent) : list event :=
  match es with
  | [] => []
  | SLoad _ _ _ _ :: es' => plain s es'
  | SCall _ r c :: es' => if (r =? s)%nat then Serve c :: plain s es' else plain s es'
  | SLapse r t back :: es' | SRestart r t back :: es' => if (r =? s)%nat then Lapse t back :: plain s es' else plain s es'
  end.

(** [fs] is that, with the calls whose script is not usable not reaching the server. *)
Inductive seen_as (s : nat) : list sevent -> list sevent -> list event -> Prop :=
  | Seen_nil pre : seen_as s pre [] []
  | Seen_load pre p r n1 n2 es fs : seen_as s (pre ++ [SLoad p r n1 n2]) es fs -> seen_as s pre (SLoad p r n1 n2 :: es) fs
  | Seen_call pre p c es fs : usable (needs c) p s pre -> seen_as s (pre ++ [SCall p s c]) es fs -> seen_as s pre (SCall p s c :: es) (Serve c :: fs)
  | Seen_lost pre p c es fs : ~ usable (needs c) p s pre -> seen_as s (pre ++ [SCall p s c]) es fs -> seen_as s pre (SCall p s c :: es) (Serve (unreached c) :: fs)
  | Seen_other pre p r c es fs : r <> s -> seen_as s (pre ++ [SCall p r c]) es fs -> seen_as s pre (SCall p r c :: es) fs
  | Seen_lapse pre t back es fs : seen_as s (pre ++ [SLapse s t back]) es fs -> seen_as s pre (SLapse s t back :: es) (Lapse t back :: fs)
  | Seen_lapse_other pre r t back es fs : r <> s -> seen_as s (pre ++ [SLapse r t back]) es fs -> seen_as s pre (SLapse r t back :: es) fs
  | Seen_restart pre t back es fs : seen_as s (pre ++ [SRestart s t back]) es fs -> seen_as s pre (SRestart s t back :: es) (Lapse t back :: fs)
  | Seen_restart_other pre r t back es fs : r <> s -> seen_as s (pre ++ [SRestart r t back]) es fs -> seen_as s pre (SRestart r t back :: es) fs.

(** In [es] after [pre] every call at server [s] finds its script. *)
Definition ready (s : nat) (pre es : list sevent) : Prop :=
  forall a p c b, es = (a ++ SCall p s c :: b)%list -> usable (needs c) p s (pre ++ a).
