(** The config store under concurrency: several processes, each with its own store
    (/repo/confstore/store.go) and load policy (loader.go), all over one Redis hash (persister.go), and any
    number of goroutines.  A call is a list of instructions, each of them one atomic action: one operation on
    one lock, one access to the maps of a store, one Redis command, one clock reading.
    The value processors are functions (they return, do not panic and do not call the store). *)
From Verif Require Import Common Bytes Threads StoreModel.
Local Open Scope string_scope.
Local Open Scope list_scope.

(** store.go:12, 15: the two RW locks of a store. *)
Inductive lock := ProcLock | KvLock.

(** sync.RWMutex: the goroutines that hold it for reading; the goroutine that has called Lock first, and
    whether it has the lock already (true) or still waits for the readers to leave (false).  A goroutine
    waiting in Lock keeps new readers out.  When the writer unlocks, either a waiting reader or the next
    writer may come first (Go: the readers). *)
Record rw := RW { rw_readers : list nat; rw_writer : option (nat * bool) }.
Definition rw0 : rw := RW [] None.

Definition rlock (t : nat) (x : rw) : option rw :=
  match rw_writer x with None => Some (RW (t :: rw_readers x) None) | Some _ => None end.
Definition runlock (t : nat) (x : rw) : rw := RW (remove Nat.eq_dec t (rw_readers x)) (rw_writer x).
Definition announce (t : nat) (x : rw) : option rw :=
  match rw_writer x with None => Some (RW (rw_readers x) (Some (t, false))) | Some _ => None end.
Definition acquire (t : nat) (x : rw) : option rw :=
  match rw_writer x, rw_readers x with
  | Some (u, false), [] => if Nat.eqb u t then Some (RW [] (Some (t, true))) else None
  | _, _ => None
  end.
Definition unlock (x : rw) : rw := RW (rw_readers x) None.

(** A store with its locks, and its load policy with its lock (loader.go:31-35). *)
Record node (V : Type) := Node {
  n_maps : store V;
  n_plock : rw;
  n_klock : rw;
  n_pol : policy;
  n_mlock : option nat;
  n_last : option Z }.
Arguments Node {V}. Arguments n_maps {V}. Arguments n_plock {V}. Arguments n_klock {V}.
Arguments n_pol {V}. Arguments n_mlock {V}. Arguments n_last {V}.

(** Local variables of the running call: errors, values and texts collected so far, error of RegisterKey. *)
Record regs (V : Type) := Regs {
  g_errs : list kverror;
  g_vals : list (string * V);
  g_strs : list (string * string);
  g_err : option string }.
Arguments Regs {V}. Arguments g_errs {V}. Arguments g_vals {V}. Arguments g_strs {V}. Arguments g_err {V}.
Definition regs0 {V} : regs V := Regs [] [] [] None.

Inductive instr (V : Type) :=
| IRLock (l : lock) | IRUnlock (l : lock)
| IAnnounce (l : lock) | IAcquire (l : lock)                 (* together: Lock *)
| IUnlock (l : lock)
| IMLock | IMUnlock                                          (* loader.go:38-39 *)
| IClock                                                     (* loader.go:41-48 *)
| IHGetAll (mark : bool)                                     (* persister.go:45 *)
| IMark                                                      (* loader.go:54 *)
| ILookup (keep : bool) (k v : string)                       (* store.go:144 *)
| ICheck (keep : bool) (p : option (proc V)) (k v : string)  (* store.go:147-161 *)
| IWrite (p : proc V) (k v : string)                         (* store.go:164-165 *)
| IBatch (kvs : list (string * string))                      (* store.go:110-122 *)
| ISave (k v : string)                                       (* store.go:128-134 *)
| IDelete (k : string)                                       (* store.go:90, 261 *)
| IRegister (k d : string) (p : proc V)                      (* store.go:53-68 *)
| IDrop (k : string)                                         (* store.go:84-88 *)
| IClear (k : string)                                        (* store.go:259-260 *)
| IRead (k : string)                                         (* store.go:230-235 *)
| IReadStr (k : string)                                      (* store.go:245-251 *)
| IReturn (f : regs V -> sres V).
Arguments IRLock {V}. Arguments IRUnlock {V}. Arguments IAnnounce {V}. Arguments IAcquire {V}.
Arguments IUnlock {V}. Arguments IMLock {V}. Arguments IMUnlock {V}. Arguments IClock {V}.
Arguments IHGetAll {V}. Arguments IMark {V}. Arguments ILookup {V}. Arguments ICheck {V}. Arguments IWrite {V}.
Arguments IBatch {V}. Arguments ISave {V}. Arguments IDelete {V}. Arguments IRegister {V}. Arguments IDrop {V}.
Arguments IClear {V}. Arguments IRead {V}. Arguments IReadStr {V}. Arguments IReturn {V}.

Section programs.
  Context {V : Type}.
  Notation prog := (list (instr V)).

  (** store.go:138-168 UpdateNoPersist; [keep]: the caller collects the error.  The lookup is followed by the
      unlock of line 145 and the check, see [istep]. *)
  Definition p_update (keep : bool) (k v : string) : prog :=
    if k =? "" then [] else [IRLock ProcLock; ILookup keep k v].

  (** loader.go:16-18, 66-68, 37-56 DoLoad. *)
  Definition p_load (pol : policy) : prog :=
    match pol with
    | PolNoop => []
    | PolSimple => [IHGetAll false]
    | PolInterval _ => [IMLock; IClock; IMUnlock]
    end.

  (** Lock, store.go:47, 50, 78, 81, 163, 256. *)
  Definition p_lock (l : lock) : prog := [IAnnounce l; IAcquire l].

  (** store.go:224-237 GetValue and 239-253 GetValueString, up to the return. *)
  Definition p_get (pol : policy) (k : string) : prog :=
    p_load pol ++ [IRLock KvLock; IRead k; IRUnlock KvLock].
  Definition p_get_str (pol : policy) (k : string) : prog :=
    p_load pol ++ [IRLock KvLock; IReadStr k; IRUnlock KvLock].

  (** store.go:174-177, 191-194: empty keys are left out. *)
  Definition nonempty (ks : list string) : list string := filter (fun k => negb (k =? "")) ks.

  Definition one {A} (l : list (string * A)) : option A := option_map snd (hd_error l).

  (** The calls of the interface. *)
  Definition p_call (pol : policy) (o : sop V) : prog :=
    match o with
    | ORegister k d vp =>                                                         (* 38-71 *)
      if k =? "" then [IReturn (fun _ => RErr (Some "key is required"))]
      else match vp with
      | None => [IReturn (fun _ => RErr (Some "ValueProcessor is required"))]
      | Some p =>
        p_lock ProcLock ++ p_lock KvLock ++
        [IRegister k d p; IUnlock KvLock; IUnlock ProcLock; IReturn (fun g => RErr (g_err g))]
      end
    | ODeregister k =>                                                            (* 73-95 *)
      if k =? "" then [IReturn (fun _ => RDone)]
      else p_lock ProcLock ++ p_lock KvLock ++
           [IDrop k; IDelete k; IUnlock KvLock; IUnlock ProcLock; IReturn (fun _ => RDone)]
    | OUpdate k v =>                                                              (* 126-136 *)
      p_update true k v ++ [ISave k v; IReturn (fun g => RKVErr (hd_error (g_errs g)))]
    | OUpdateNoPersist k v => p_update true k v ++ [IReturn (fun g => RKVErr (hd_error (g_errs g)))]
    | OBatchUpdate [] => [IReturn (fun _ => RKVErrs [])]                          (* 97-124 *)
    | OBatchUpdate kvs =>
      flat_map (fun kv => p_update true (fst kv) (snd kv)) kvs ++ [IBatch kvs; IReturn (fun g => RKVErrs (g_errs g))]
    | OReset k =>                                                                 (* 255-265 *)
      p_lock KvLock ++ [IClear k; IDelete k; IUnlock KvLock; IReturn (fun _ => RDone)]
    | OGet k => p_get pol k ++ [IReturn (fun g => RVal (one (g_vals g)))]
    | OGetString k => p_get_str pol k ++ [IReturn (fun g => RStr (one (g_strs g)))]
    | OMustGet k =>                                                               (* 204-212 *)
      p_load pol ++ p_get pol k ++
      [IReturn (fun g => match one (g_vals g) with Some v => RMust v | None => RPanic end)]
    | OMustGetString k =>                                                         (* 214-222 *)
      p_load pol ++ p_get_str pol k ++
      [IReturn (fun g => match one (g_strs g) with Some v => RMustStr v | None => RPanic end)]
    | OBatchGet ks =>                                                             (* 170-185 *)
      p_load pol ++ flat_map (p_get pol) (nonempty ks) ++ [IReturn (fun g => RVals (g_vals g))]
    | OBatchGetString ks =>                                                       (* 187-202 *)
      p_load pol ++ flat_map (p_get_str pol) (nonempty ks) ++ [IReturn (fun g => RStrs (g_strs g))]
    end.
End programs.

(** A goroutine: the store of its current or last call, the call if any, and what is left to do. *)
Record thread (V : Type) := Thread {
  t_node : nat;
  t_call : option (sop V);
  t_prog : list (instr V);
  t_regs : regs V }.
Arguments Thread {V}. Arguments t_node {V}. Arguments t_call {V}. Arguments t_prog {V}. Arguments t_regs {V}.

Record cworld (V : Type) := CWorld {
  c_redis : redis;
  c_nodes : list (node V);
  c_threads : list (thread V) }.
Arguments CWorld {V}. Arguments c_redis {V}. Arguments c_nodes {V}. Arguments c_threads {V}.

(** The scheduler lets goroutine [t] call method [o] of store [j], or go on; [now] is what the clock shows. *)
Inductive clabel (V : Type) :=
| CCall (t j : nat) (o : sop V)
| CStep (t : nat) (now : Z).
Arguments CCall {V}. Arguments CStep {V}.

Inductive cevent (V : Type) :=
| ECalled (t j : nat) (o : sop V)
| EReturned (t j : nat) (o : sop V) (r : sres V).
Arguments ECalled {V}. Arguments EReturned {V}.

Section step.
  Context {V : Type}.
  (** Whether Redis command number [n] succeeds; the order in which its answer is iterated over. *)
  Variable ok : nat -> bool.
  Variable ord : nat -> list (string * string) -> list (string * string).

  Definition with_maps (n : node V) (s : store V) : node V :=
    Node s (n_plock n) (n_klock n) (n_pol n) (n_mlock n) (n_last n).
  Definition get_lock (n : node V) (l : lock) : rw := match l with ProcLock => n_plock n | KvLock => n_klock n end.
  Definition set_lock (n : node V) (l : lock) (x : rw) : node V :=
    match l with
    | ProcLock => Node (n_maps n) x (n_klock n) (n_pol n) (n_mlock n) (n_last n)
    | KvLock => Node (n_maps n) (n_plock n) x (n_pol n) (n_mlock n) (n_last n)
    end.
  Definition set_mlock (n : node V) (m : option nat) : node V :=
    Node (n_maps n) (n_plock n) (n_klock n) (n_pol n) m (n_last n).
  Definition set_last (n : node V) (z : option Z) : node V :=
    Node (n_maps n) (n_plock n) (n_klock n) (n_pol n) (n_mlock n) z.
  Definition add_err (keep : bool) (e : kverror) (g : regs V) : regs V :=
    if keep then Regs (g_errs g ++ [e]) (g_vals g) (g_strs g) (g_err g) else g.

  (** What one instruction of goroutine [t] does: to the store, to Redis, which instructions it puts in front
      of the rest, and to the local variables.  [None]: it has to wait. *)
  Definition istep (t : nat) (now : Z) (n : node V) (r : redis) (g : regs V) (i : instr V)
    : option (node V * redis * list (instr V) * regs V) :=
    match i with
    | IRLock l => match rlock t (get_lock n l) with Some x => Some (set_lock n l x, r, [], g) | None => None end
    | IRUnlock l => Some (set_lock n l (runlock t (get_lock n l)), r, [], g)
    | IAnnounce l => match announce t (get_lock n l) with Some x => Some (set_lock n l x, r, [], g) | None => None end
    | IAcquire l => match acquire t (get_lock n l) with Some x => Some (set_lock n l x, r, [], g) | None => None end
    | IUnlock l => Some (set_lock n l (unlock (get_lock n l)), r, [], g)
    | IMLock => match n_mlock n with None => Some (set_mlock n (Some t), r, [], g) | Some _ => None end
    | IMUnlock => Some (set_mlock n None, r, [], g)
    | IClock =>
      if wants_load (n_pol n) (n_last n) now
      then Some (n, r, [IHGetAll (match n_pol n with PolInterval d => (0 <? d)%Z | _ => false end)], g)
      else Some (n, r, [], g)
    | IHGetAll mark =>
      let '(r', kvs, done) := redis_load ok ord r in
      Some (n, r', if done then flat_map (fun kv => p_update false (fst kv) (snd kv)) kvs ++ (if mark then [IMark] else [])
                   else [], g)
    | IMark => Some (set_last n (Some now), r, [], g)
    | ILookup keep k v => Some (n, r, [IRUnlock ProcLock; ICheck keep (s_procs (n_maps n) k) k v], g)
    | ICheck keep p k v =>
      match lookup_value (fun _ => p) k v with
      | inl e => Some (n, r, [], add_err keep e g)
      | inr p => Some (n, r, p_lock KvLock ++ [IWrite p k v; IUnlock KvLock], g)
      end
    | IWrite p k v => Some (with_maps n (write_value (n_maps n) p k v), r, [], g)
    | IBatch kvs =>
      Some (n, fst (redis_batch ok r (filter (fun kv => negb (existsb (fun e => ke_key e =? fst kv) (g_errs g))) kvs)), [], g)
    | ISave k v =>
      match g_errs g with
      | [] => Some (n, r, [], g)
      | _ =>
        let (r', done) := redis_save ok r k v in
        Some (n, r', [], if done then g else Regs [] (g_vals g) (g_strs g) (g_err g))
      end
    | IDelete k => Some (n, fst (redis_delete ok r k), [], g)
    | IRegister k d p =>
      let (s', e) := register_key (n_maps n) k d (Some p) in
      Some (with_maps n s', r, [], Regs (g_errs g) (g_vals g) (g_strs g) e)
    | IDrop k => Some (with_maps n (drop_key (n_maps n) k), r, [], g)
    | IClear k => Some (with_maps n (clear_key (n_maps n) k), r, [], g)
    | IRead k =>
      Some (n, r, [], match read_value (n_maps n) k with
                      | Some v => Regs (g_errs g) (g_vals g ++ [(k, v)]) (g_strs g) (g_err g)
                      | None => g
                      end)
    | IReadStr k =>
      Some (n, r, [], match read_string (n_maps n) k with
                      | Some v => Regs (g_errs g) (g_vals g) (g_strs g ++ [(k, v)]) (g_err g)
                      | None => g
                      end)
    | IReturn _ => Some (n, r, [], g)
    end.

  (** What the call returns when this instruction is its last. *)
  Definition returns (t : nat) (th : thread V) (i : instr V) : list (cevent V) :=
    match i, t_call th with
    | IReturn f, Some o => [EReturned t (t_node th) o (f (t_regs th))]
    | _, _ => []
    end.

  Definition cstep (w : cworld V) (l : clabel V) : option (cworld V * list (cevent V)) :=
    match l with
    | CCall t j o =>
      match nth_error (c_threads w) t, nth_error (c_nodes w) j with
      | Some th, Some n =>
        match t_call th with
        | None =>
          Some (CWorld (c_redis w) (c_nodes w) (upd t (Thread j (Some o) (p_call (n_pol n) o) regs0) (c_threads w)),
                [ECalled t j o])
        | Some _ => None
        end
      | _, _ => None
      end
    | CStep t now =>
      match nth_error (c_threads w) t with
      | Some th =>
        match t_prog th, nth_error (c_nodes w) (t_node th) with
        | i :: rest, Some n =>
          match istep t now n (c_redis w) (t_regs th) i with
          | Some (n', r', new, g') =>
            Some (CWorld r' (upd (t_node th) n' (c_nodes w))
                    (upd t (Thread (t_node th) (match i with IReturn _ => None | _ => t_call th end) (new ++ rest) g') (c_threads w)),
                  returns t th i)
          | None => None
          end
        | _, _ => None
        end
      | None => None
      end
    end.

  (** [n] goroutines, one store per load policy (store.go:24-36), Redis with some hash. *)
  Definition cworld0 (h : list (string * string)) (pols : list policy) (n : nat) : cworld V :=
    CWorld (Redis h 0) (map (fun pol => Node new_store rw0 rw0 pol None None) pols)
      (repeat (Thread 0 None [] regs0) n).

  Definition conc_exec h pols n (sched : list (clabel V)) : cworld V * list (cevent V) :=
    exec cstep (cworld0 h pols n) sched.
End step.
