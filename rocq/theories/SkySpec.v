(** Specification of traces. *)
From Verif Require Import Common Bytes ProcsModel SkyModel.
Local Open Scope string_scope.
Local Open Scope list_scope.
Local Open Scope Z_scope.

Definition span_of (e : event) : Z :=
  match e with Start n _ _ _ _ | Component n _ | Tag n _ _ | Layer n _ | Fail n _ | End n => n end.
Definition events_of (n : Z) (t : list event) : list event := filter (fun e => span_of e =? n) t.
(** Neither start nor end. *)
Definition middle (e : event) : Prop := match e with Start _ _ _ _ _ | End _ => False | _ => True end.

(** Started once, then some information, then nothing ... *)
Definition left_open (l : list event) : Prop :=
  exists n k p name peer mids, l = Start n k p name peer :: mids /\ Forall middle mids.
(** ... or ended once, and nothing after the end. *)
Definition closed (l : list event) : Prop :=
  exists n k p name peer mids, l = Start n k p name peer :: mids ++ [End n] /\ Forall middle mids.

(** [t] tells the whole life of the spans from [a] to [b], and nothing about other spans; if [p], some of
    them may not have ended. *)
Definition lives (p : bool) (a b : Z) (t : list event) : Prop :=
  a <= b /\
  (forall n, a <= n < b -> closed (events_of n t) \/ p = true /\ left_open (events_of n t)) /\
  (forall n, ~ (a <= n < b) -> events_of n t = []).

(** Hooks of which at most one traces, and none after it fails before the command. *)
Definition other (h : hook) : Prop := match h with Other _ _ => True | Tracing _ _ => False end.
Definition passing (h : hook) : Prop := match h with Other None _ => True | _ => False end.
Definition tame_hooks (hs : list hook) : Prop :=
  Forall other hs \/ exists pre o ok post, hs = pre ++ Tracing o ok :: post /\ Forall other pre /\ Forall passing post.
Fixpoint tame (p : prog) : Prop :=
  match p with
  | PBind p k => tame p /\ forall e, tame (k e)
  | PRedis hooks _ | PPipeline hooks _ => tame_hooks hooks
  | _ => True
  end.

(** The messages in a trace. *)
Definition silent (t : list event) : Prop := forall n m, In (Fail n m) t -> m = None.
Fixpoint silent_options (p : prog) : Prop :=
  let quiet o := log_error o = false /\ log_4xx_body o = false in
  match p with
  | PBind p k => silent_options p /\ forall e, silent_options (k e)
  | PRedis hooks _ | PPipeline hooks _ => forall o ok, In (Tracing o ok) hooks -> redis_log_error o = false
  | PClient o _ _ _ _ | PTrace o _ _ => quiet o
  | _ => True
  end.

(** A handler that leaves the other handlers alone. *)
Fixpoint plain (p : prog) : Prop :=
  match p with
  | PBind p k => plain p /\ forall e, plain (k e)
  | PAbort | PNext | PTrace _ _ _ => False
  | _ => True
  end.

(** The errors of commands, without empty ones at the front. *)
Fixpoint errors_of (cs : list command) : list string :=
  match cs with
  | [] => []
  | c :: cs' => match c_err c with Some e => e :: errors_of cs' | None => errors_of cs' end
  end.
Fixpoint drop_empty (l : list string) : list string :=
  match l with
  | "" :: l' => drop_empty l'
  | _ => l
  end.

(** Every parent is known at the start of its child: it is the span that was current before, or one started since. *)
Fixpoint linked (known : option Z -> Prop) (t : list event) : Prop :=
  match t with
  | [] => True
  | Start n _ p _ _ :: t' => known p /\ linked (fun q => known q \/ q = Some n) t'
  | _ :: t' => linked known t'
  end.

(** One handler on its own: world, response and result. *)
Definition alone (req : request) (p : prog) (w : world) (r : response) : world * response * result :=
  let '(s, res) := run req (fun s => (s, Ret None)) p (mkState w [] r) in (world_of s, resp s, res).
(** Handlers one after the other, all without error. *)
Inductive passes (req : request) : list prog -> world -> response -> world -> response -> Prop :=
| passes_nil w r : passes req [] w r w r
| passes_cons p ps w r w1 r1 w2 r2 : alone req p w r = (w1, r1, Ret None) -> passes req ps w1 r1 w2 r2 ->
    passes req (p :: ps) w r w2 r2.

(** The span of a request: its start, and what a request with this outcome tells. *)
Definition request_started (req : request) (w : world) : world :=
  mkWorld (next w + 1) (Some (next w))
    (trace w ++ [Start (next w) Entry (stored w) (method req ++ ":" ++ path req)%string "";
                 Component (next w) 5004; Tag (next w) "http.method" (method req); Tag (next w) "url" (url req); Layer (next w) Http]).
Definition failure_of (o : http_opts) (e : option err) (ctx_err : option string) (res : response) : option (option string) :=
  match e, ctx_err with
  | Some e, _ => Some (if log_error o then Some (message e) else None)
  | None, Some e => Some (if log_error o then Some e else None)
  | None, None => if 400 <=? status res then Some (if log_4xx_body o then Some (body res) else None) else None
  end.
Definition finish_events (n : Z) (failure : option (option string)) (status : Z) : list event :=
  match failure with Some m => [Fail n m] | None => [] end ++ [Tag n "status_code" (itoa status); End n].

Definition last_addr (l : list redis_option) : string :=
  fold_left (fun a x => match x with WithAddr b => b | _ => a end) l "".
Definition last_db (l : list redis_option) : string :=
  fold_left (fun a x => match x with WithDb b => itoa b | _ => a end) l "".
