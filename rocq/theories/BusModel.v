(** Model of /repo/event/bus.go as a thread machine: client goroutines calling the API and dispatcher
    goroutines started by GoDispatch.

    Go's own primitives are modelled by their documented meaning.  A channel is a buffer with a capacity
    and a closed flag; a receive takes the head of the buffer, or the value of a blocked sender if the
    buffer is empty; a send hands its value to a parked receiver if there is one, else appends to the
    buffer if there is room, else blocks (or takes the [default] branch); a send on a closed channel and
    closing a closed channel panic.  Which of several parked goroutines is served is left open (Go
    serves them in order).  Critical sections under the write lock contain no blocking operation and are
    one step, possible when no dispatcher holds the read lock; that a waiting writer keeps new readers
    out is not modelled (the model then has more executions, not fewer).  A panicking client goroutine
    stops; the process is taken to survive, as when the caller recovers.  Events are integers standing
    for arbitrary values. *)
From Verif Require Import Common Bytes Threads.
Local Open Scope string_scope.
Local Open Scope Z_scope.

(** bus.go:113-121 FullStrategy. *)
Definition Drop : Z := 0.
Definition Block : Z := 1.

(** bus.go:123-130 Receiver (with the channel both C and ch stand for). *)
Record recv := Recv { r_name : string; r_strategy : Z; r_cap : Z; r_buf : list Z; r_closed : bool }.

(** What a client can do; [r] is the number of the receiver in order of creation. *)
Inductive bop :=
| OpSend (v : Z)                                 (* bus.C <- v *)
| OpNew (name : string) (cap : Z) (strategy : Z) (* NewRecvStrategy *)
| OpClose (r : nat)                              (* Receiver.Close *)
| OpBusClose                                     (* FanOutBus.Close *)
| OpGo                                           (* GoDispatch *)
| OpRecv (r : nat)                               (* v, ok := <-recv.C *)
| OpDrain (r : nat)                              (* Receiver.Drain *)
| OpCollect (r : nat).                           (* Receiver.CollectTimeout *)

(** Client goroutine. *)
Inductive cpc :=
| CIdle
| CSend (v : Z)
| CNew (name : string) (cap : Z) (strategy : Z)  (* at 73, the channel is made *)
| CClose (r : nat)                               (* at 107 *)
| CBusClose                                      (* at 88 *)
| CRecv (r : nat) (parked : bool)
| CDrain (r : nat) (acc : list Z)                (* at 142 *)
| CCollect (r : nat) (acc : list (option Z)) (parked : bool)  (* at 161; [None] is the zero value of a closed channel *)
| CDead.

(** Dispatcher goroutine, bus.go:96-104. *)
Inductive dpc :=
| DRecv                                     (* at 97, receiving from b.ch *)
| DLock (v : Z)                             (* at 98 *)
| DIter (v : Z) (todo : list nat)           (* in the loop 99-101, holding the read lock *)
| DBlocked (v : Z) (r : nat) (todo : list nat)  (* blocked at 180 *)
| DDone
| DDead.

Record bus := Bus {
  b_cap : Z; b_buf : list Z; b_closed : bool;   (* the channel b.ch *)
  b_map : list (string * nat);                  (* recvMap: name -> receiver *)
  b_recvs : list recv;                          (* all receivers ever made *)
  b_disp : list dpc;
  b_clients : list cpc;
  b_stuck : bool                                (* a goroutine has panicked holding the write lock *)
}.

Inductive bevent :=
| ECall (i : nat) (o : bop)                       (* goroutine i starts a call *)
| ESent (i : nat) (v : Z)                       (* a send to bus.C completes *)
| ETaken (d : nat) (v : Z)                      (* dispatcher d receives it *)
| EBegin (d : nat) (v : Z) (targets : list nat) (* d has the read lock and starts its loop over the receivers *)
| EDelivered (d : nat) (r : nat) (v : Z)
| EDropped (d : nat) (r : nat) (v : Z)
| EIgnored (d : nat) (r : nat) (v : Z)          (* receiver with an unknown strategy *)
| EFinish (d : nat) (v : Z)                     (* d releases the read lock *)
| EEnd (d : nat)
| EDispPanic (d : nat)
| EReg (i : nat) (r : nat) (name : string) (cap strategy : Z)
| EClosedRecv (r : nat)
| ECloseReturns (i : nat) (r : nat)
| EBusClosing (i : nat)                         (* b.ch closed *)
| EBusClosed (i : nat)                          (* FanOutBus.Close returns *)
| EGot (i : nat) (r : nat) (v : option Z)       (* goroutine i receives from receiver r; None: closed *)
| EDrained (i : nat) (r : nat) (data : list Z)
| ECollected (i : nat) (r : nat) (data : list (option Z))
| EWaits (i : nat) (r : nat)                    (* goroutine i starts waiting for an event of receiver r *)
| EGone (i : nat)                               (* GoDispatch returns *)
| EClientPanic (i : nat)
| EClosePanic (i : nat).                        (* a panic with the write lock held *)

Inductive blabel :=
| LCall (i : nat) (o : bop)
| LClient (i : nat) (d : nat)             (* client i takes its next step, with dispatcher d if it needs one *)
| LTimeout (i : nat)                      (* the timer of client i's CollectTimeout fires and is chosen *)
| LDisp (d : nat) (k : nat) (i : nat).    (* dispatcher d takes its next step: receiver number k of the rest, parked client i *)

(** bus.go:37-44 NewFanOutBus, used by [n] goroutines; [bufSize] is not negative. *)
Definition new_bus (bufSize : Z) (n : nat) : bus := Bus bufSize [] false [] [] [] (repeat CIdle n) false.

Definition set_disp (d : nat) (p : dpc) (s : bus) : bus :=
  Bus (b_cap s) (b_buf s) (b_closed s) (b_map s) (b_recvs s) (upd d p (b_disp s)) (b_clients s) (b_stuck s).
Definition set_client (i : nat) (p : cpc) (s : bus) : bus :=
  Bus (b_cap s) (b_buf s) (b_closed s) (b_map s) (b_recvs s) (b_disp s) (upd i p (b_clients s)) (b_stuck s).
Definition set_buf (buf : list Z) (s : bus) : bus :=
  Bus (b_cap s) buf (b_closed s) (b_map s) (b_recvs s) (b_disp s) (b_clients s) (b_stuck s).
Definition set_recv (r : nat) (x : recv) (s : bus) : bus :=
  Bus (b_cap s) (b_buf s) (b_closed s) (b_map s) (upd r x (b_recvs s)) (b_disp s) (b_clients s) (b_stuck s).
Definition set_map (m : list (string * nat)) (s : bus) : bus :=
  Bus (b_cap s) (b_buf s) (b_closed s) m (b_recvs s) (b_disp s) (b_clients s) (b_stuck s).
Definition set_stuck (s : bus) : bus :=
  Bus (b_cap s) (b_buf s) (b_closed s) (b_map s) (b_recvs s) (b_disp s) (b_clients s) true.

Definition with_buf (x : recv) (buf : list Z) : recv := Recv (r_name x) (r_strategy x) (r_cap x) buf (r_closed x).
Definition closed (x : recv) : recv := Recv (r_name x) (r_strategy x) (r_cap x) (r_buf x) true.

(** Go maps, as far as needed: lookup, delete and assignment. *)
Fixpoint lookup (m : list (string * nat)) (name : string) : option nat :=
  match m with
  | [] => None
  | (k, r) :: m' => if k =? name then Some r else lookup m' name
  end%string.
Fixpoint remove (m : list (string * nat)) (name : string) : list (string * nat) :=
  match m with
  | [] => []
  | (k, r) :: m' => if (k =? name)%string then remove m' name else (k, r) :: remove m' name
  end.
Definition assign (m : list (string * nat)) (name : string) (r : nat) : list (string * nat) :=
  (remove m name ++ [(name, r)])%list.

Fixpoint remove_nth {A} (k : nat) (l : list A) : list A :=
  match l, k with
  | [], _ => []
  | _ :: l', O => l'
  | x :: l', S k' => x :: remove_nth k' l'
  end.

(** The receiver a client is parked on. *)
Definition parked_on (c : cpc) (r : nat) : bool :=
  match c with
  | CRecv r' true => Nat.eqb r' r
  | CCollect r' _ true => Nat.eqb r' r
  | _ => false
  end.
Definition blocked_on (p : dpc) (r : nat) : bool :=
  match p with DBlocked _ r' _ => Nat.eqb r' r | _ => false end.
Definition reading (p : dpc) : bool :=
  match p with DIter _ _ | DBlocked _ _ _ => true | _ => false end.

(** No dispatcher holds the read lock, and the write lock is not held for ever. *)
Definition lockable (s : bus) : bool := negb (existsb reading (b_disp s)) && negb (b_stuck s).

(** Receiving from the channel of receiver [r]: the value ([None]: closed and empty), or nothing if the
    channel is empty and no sender is blocked on it. *)
Definition take (s : bus) (r d : nat) : option (option Z * bus * list bevent) :=
  match nth_error (b_recvs s) r with
  | None => None
  | Some x =>
    match r_buf x with
    | v :: rest => Some (Some v, set_recv r (with_buf x rest) s, [])
    | [] =>
      if r_closed x then Some (None, s, [])
      else match nth_error (b_disp s) d with
           | Some (DBlocked v r' todo) =>
             if Nat.eqb r' r then Some (Some v, set_disp d (DIter v todo) s, [EDelivered d r v]) else None
           | _ => None
           end
    end
  end.

(** The receive of a parked client is served: [v] goes to it. *)
Definition serve (c : cpc) (v : option Z) : cpc :=
  match c with
  | CCollect r acc _ => CCollect r (acc ++ [v]) false
  | _ => CIdle
  end.

(** bus.go:171-182 onEvent of receiver [r] with event [v] by dispatcher [d]; [again]: the dispatcher is
    already blocked there. *)
Definition offer (s : bus) (d : nat) (v : Z) (r : nat) (todo : list nat) (i : nat) (again : bool)
    : option (bus * list bevent) :=
  match nth_error (b_recvs s) r with
  | None => None
  | Some x =>
    if (r_strategy x =? Drop) || (r_strategy x =? Block) then
      if r_closed x then Some (set_disp d DDead s, [EDispPanic d])
      else if existsb (fun c => parked_on c r) (b_clients s) then
        match nth_error (b_clients s) i with
        | Some c =>
          if parked_on c r
          then Some (set_disp d (DIter v todo) (set_client i (serve c (Some v)) s), [EDelivered d r v; EGot i r (Some v)])
          else None
        | None => None
        end
      else if Z.of_nat (length (r_buf x)) <? r_cap x
      then Some (set_disp d (DIter v todo) (set_recv r (with_buf x (r_buf x ++ [v])) s), [EDelivered d r v])
      else if r_strategy x =? Drop then Some (set_disp d (DIter v todo) s, [EDropped d r v])
      else if again then None
      else Some (set_disp d (DBlocked v r todo) s, [])
    else Some (set_disp d (DIter v todo) s, [EIgnored d r v])
  end.

(** bus.go:106-111 deregisterRecv, called by Close (132-135). *)
Definition deregister (s : bus) (i : nat) (r : nat) : option (bus * list bevent) :=
  match nth_error (b_recvs s) r with
  | None => None
  | Some me =>
    match lookup (b_map s) (r_name me) with
    | None => Some (set_stuck (set_client i CDead s), [EClosePanic i])          (* nil.ch *)
    | Some r' =>
      match nth_error (b_recvs s) r' with
      | None => None
      | Some x =>
        if r_closed x then Some (set_stuck (set_client i CDead s), [EClosePanic i])
        else Some (set_client i CIdle (set_map (remove (b_map s) (r_name me)) (set_recv r' (closed x) s)),
                   [EClosedRecv r'; ECloseReturns i r])
      end
    end
  end.

Definition is_closed (s : bus) (r : nat) : bool :=
  match nth_error (b_recvs s) r with Some x => r_closed x | None => false end.

(** bus.go:88-93: the loop closes every registered receiver. *)
Fixpoint close_all (rs : list nat) (l : list recv) : list recv :=
  match rs with
  | [] => l
  | r :: rs' => close_all rs' (match nth_error l r with Some x => upd r (closed x) l | None => l end)
  end.
Definition bus_close_crit (s : bus) (i : nat) : bus * list bevent :=
  let rs := map snd (b_map s) in
  if existsb (is_closed s) rs then (set_stuck (set_client i CDead s), [EClosePanic i])
  else (set_client i CIdle
          (Bus (b_cap s) (b_buf s) (b_closed s) [] (close_all rs (b_recvs s)) (b_disp s) (b_clients s) (b_stuck s)),
        (map EClosedRecv rs ++ [EBusClosed i])%list).

(** bus.go:48-78 NewRecvStrategy (NewRecv: with Drop), the part under the lock. *)
Definition register (s : bus) (i : nat) (name : string) (cap strategy : Z) : bus * list bevent :=
  let r := length (b_recvs s) in
  (set_client i CIdle
     (Bus (b_cap s) (b_buf s) (b_closed s) (assign (b_map s) name r)
          (b_recvs s ++ [Recv name strategy cap [] false]) (b_disp s) (b_clients s) (b_stuck s)),
   [EReg i r name cap strategy]).

(** A client starts a call. *)
Definition call (s : bus) (i : nat) (o : bop) : option (bus * list bevent) :=
  match o with
  | OpSend v => Some (set_client i (CSend v) s, [])
  | OpNew name cap strategy =>
    if cap <? 0 then Some (set_client i CDead s, [EClientPanic i])               (* 63: makechan *)
    else Some (set_client i (CNew name cap strategy) s, [])
  | OpClose r =>
    match nth_error (b_recvs s) r with Some _ => Some (set_client i (CClose r) s, []) | None => None end
  | OpBusClose =>                                                                (* 87 *)
    if b_closed s then Some (set_client i CDead s, [EClientPanic i])
    else Some (set_client i CBusClose
                 (Bus (b_cap s) (b_buf s) true (b_map s) (b_recvs s) (b_disp s) (b_clients s) (b_stuck s)), [EBusClosing i])
  | OpGo =>                                                                      (* 81-83 *)
    Some (Bus (b_cap s) (b_buf s) (b_closed s) (b_map s) (b_recvs s) (b_disp s ++ [DRecv]) (b_clients s) (b_stuck s), [EGone i])
  | OpRecv r =>
    match nth_error (b_recvs s) r with Some _ => Some (set_client i (CRecv r false) s, []) | None => None end
  | OpDrain r =>                                                                 (* 138-139 *)
    match nth_error (b_recvs s) r with Some _ => Some (set_client i (CDrain r []) s, []) | None => None end
  | OpCollect r =>                                                               (* 156-158 *)
    match nth_error (b_recvs s) r with Some _ => Some (set_client i (CCollect r [] false) s, []) | None => None end
  end.

(** The next step of a client that is in a call. *)
Definition client_step (s : bus) (i d : nat) (c : cpc) : option (bus * list bevent) :=
  match c with
  | CIdle | CDead => None
  | CSend v =>
    if b_closed s then Some (set_client i CDead s, [EClientPanic i])
    else if Z.of_nat (length (b_buf s)) <? b_cap s
    then Some (set_client i CIdle (set_buf (b_buf s ++ [v]) s), [ESent i v])
    else match b_buf s, nth_error (b_disp s) d with
         | [], Some DRecv => Some (set_client i CIdle (set_disp d (DLock v) s), [ESent i v; ETaken d v])
         | _, _ => None
         end
  | CNew name cap strategy => if lockable s then Some (register s i name cap strategy) else None
  | CClose r => if lockable s then deregister s i r else None
  | CBusClose => if lockable s then Some (bus_close_crit s i) else None
  | CRecv r parked =>
    match take s r d with
    | Some (v, s', es) => Some (set_client i CIdle s', (es ++ [EGot i r v])%list)
    | None =>
      if existsb (fun p => blocked_on p r) (b_disp s) || parked then None
      else Some (set_client i (CRecv r true) s, [EWaits i r])
    end
  | CDrain r acc =>                                                              (* 141-151 *)
    match take s r d with
    | Some (Some v, s', es) => Some (set_client i (CDrain r (acc ++ [v])) s', (es ++ [EGot i r (Some v)])%list)
    | Some (None, s', es) => Some (set_client i CIdle s', (es ++ [EDrained i r acc])%list)
    | None =>
      if existsb (fun p => blocked_on p r) (b_disp s) then None
      else Some (set_client i CIdle s, [EDrained i r acc])
    end
  | CCollect r acc parked =>                                                     (* 160-167 *)
    match take s r d with
    | Some (v, s', es) => Some (set_client i (CCollect r (acc ++ [v]) false) s', (es ++ [EGot i r v])%list)
    | None =>
      if existsb (fun p => blocked_on p r) (b_disp s) || parked then None
      else Some (set_client i (CCollect r acc true) s, [EWaits i r])
    end
  end.

(** The next step of a dispatcher. *)
Definition disp_step (s : bus) (d k i : nat) (p : dpc) : option (bus * list bevent) :=
  match p with
  | DRecv =>                                                                     (* 97 *)
    match b_buf s with
    | v :: rest => Some (set_disp d (DLock v) (set_buf rest s), [ETaken d v])
    | [] => if b_closed s then Some (set_disp d DDone s, [EEnd d]) else None
    end
  | DLock v =>                                                                   (* 98 *)
    if b_stuck s then None
    else Some (set_disp d (DIter v (map snd (b_map s))) s, [EBegin d v (map snd (b_map s))])
  | DIter v [] => Some (set_disp d DRecv s, [EFinish d v])                       (* 102 *)
  | DIter v todo =>                                                              (* 99-101 *)
    match nth_error todo k with
    | Some r => offer s d v r (remove_nth k todo) i false
    | None => None
    end
  | DBlocked v r todo => offer s d v r todo i true                               (* 180 *)
  | DDone | DDead => None
  end.

Definition bstep (s : bus) (l : blabel) : option (bus * list bevent) :=
  match l with
  | LCall i o =>
    match nth_error (b_clients s) i with
    | Some CIdle => match call s i o with Some (s', es) => Some (s', ECall i o :: es) | None => None end
    | _ => None
    end
  | LClient i d =>
    match nth_error (b_clients s) i with Some c => client_step s i d c | None => None end
  | LTimeout i =>                                                                (* 164-165 *)
    match nth_error (b_clients s) i with
    | Some (CCollect r acc _) => Some (set_client i CIdle s, [ECollected i r acc])
    | _ => None
    end
  | LDisp d k i =>
    match nth_error (b_disp s) d with Some p => disp_step s d k i p | None => None end
  end.

Definition bus_exec (bufSize : Z) (n : nat) (sched : list blabel) : bus * list bevent :=
  exec bstep (new_bus bufSize n) sched.
