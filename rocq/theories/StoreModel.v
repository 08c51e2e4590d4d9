(** Executable model of the config store (/repo/confstore/store.go, loader.go, persister.go). *)
From Verif Require Import Common Bytes Threads.
Local Open Scope string_scope.

(** confstore/interface.go:67-71 ValueProcessor.  [V] stands for Go's [interface{}] results. *)
Record proc (V : Type) := Proc {
  p_validate : string -> bool * string;
  p_convert : string -> V }.
Arguments Proc {V}. Arguments p_validate {V}. Arguments p_convert {V}.

(** confstore/interface.go:99-103 KVError. *)
Record kverror := KVError { ke_key : string; ke_value : string; ke_msg : string }.

(** confstore/store.go:11-22 defaultImpl: the five maps.  The two locks only order the operations:
    the sequential model runs whole methods, the interleaving model at the end of this file runs
    lock regions. *)
Record store (V : Type) := Store {
  s_procs : smap (proc V);
  s_def : smap V;
  s_defstr : smap string;
  s_kv : smap V;
  s_kvstr : smap string }.
Arguments Store {V}. Arguments s_procs {V}. Arguments s_def {V}. Arguments s_defstr {V}.
Arguments s_kv {V}. Arguments s_kvstr {V}.

(** confstore/store.go:24-36 NewStore. *)
Definition new_store {V} : store V := Store mempty mempty mempty mempty mempty.

(** confstore/interface.go:73-83 Persister.  A persister is a state machine; [ps_load] yields the
    key-values it hands to UpdateNoPersist, in order, and whether it returned without an error.
    The boolean of the others says "no error".  (A Load that calls other methods of the store is
    not modelled; neither persister of the package does.) *)
Record persister (P : Type) := Persister {
  ps_load : P -> P * list (string * string) * bool;
  ps_save : P -> string -> string -> P * bool;
  ps_batch : P -> list (string * string) -> P * bool;
  ps_delete : P -> string -> P * bool }.
Arguments Persister {P}. Arguments ps_load {P}. Arguments ps_save {P}. Arguments ps_batch {P}.
Arguments ps_delete {P}.

(** confstore/persister.go:12-29 noopPersister. *)
Definition noop_persister : persister unit :=
  Persister (fun p => (p, [], true)) (fun p _ _ => (p, true)) (fun p _ => (p, true)) (fun p _ => (p, true)).

(** The Redis hash behind the redis persister: HMSET of one field, HDEL, HGET.  Redis semantics,
    not code of the repository. *)
Fixpoint hset (h : list (string * string)) (k v : string) : list (string * string) :=
  match h with
  | [] => [(k, v)]
  | (k', v') :: h' => if k' =? k then (k, v) :: h' else (k', v') :: hset h' k v
  end.
Definition hdel (h : list (string * string)) (k : string) : list (string * string) :=
  filter (fun kv => negb (fst kv =? k)) h.
Fixpoint hget (h : list (string * string)) (k : string) : option string :=
  match h with
  | [] => None
  | (k', v') :: h' => if k' =? k then Some v' else hget h' k
  end.
Definition hmset (h : list (string * string)) (kvs : list (string * string)) : list (string * string) :=
  fold_left (fun h kv => hset h (fst kv) (snd kv)) kvs h.

(** State of the redis persister: the hash, and a count of commands sent so far.  [ok n] says
    whether command [n] succeeds (a failing command leaves the hash alone), [ord n] is the order in
    which Go iterates over the map returned by HGETALL. *)
Record redis := Redis { r_hash : list (string * string); r_cmds : nat }.

(** confstore/persister.go:44-58 Load. *)
Definition redis_load (ok : nat -> bool) (ord : nat -> list (string * string) -> list (string * string))
    (r : redis) : redis * list (string * string) * bool :=
  let r' := Redis (r_hash r) (S (r_cmds r)) in
  if ok (r_cmds r) then (r', ord (r_cmds r) (r_hash r), true) else (r', [], false).

(** confstore/persister.go:64-78 BatchSave. *)
Definition redis_batch (ok : nat -> bool) (r : redis) (kvs : list (string * string)) : redis * bool :=
  match kvs with
  | [] => (r, true)
  | _ =>
    if ok (r_cmds r) then (Redis (hmset (r_hash r) kvs) (S (r_cmds r)), true)
    else (Redis (r_hash r) (S (r_cmds r)), false)
  end.

(** confstore/persister.go:60-62 Save. *)
Definition redis_save (ok : nat -> bool) (r : redis) (k v : string) : redis * bool :=
  redis_batch ok r [(k, v)].

(** confstore/persister.go:80-83 Delete. *)
Definition redis_delete (ok : nat -> bool) (r : redis) (k : string) : redis * bool :=
  if ok (r_cmds r) then (Redis (hdel (r_hash r) k) (S (r_cmds r)), true)
  else (Redis (r_hash r) (S (r_cmds r)), false).

(** confstore/persister.go:31-42 NewRedisPersister. *)
Definition redis_persister ok ord : persister redis :=
  Persister (redis_load ok ord) (redis_save ok) (redis_batch ok) (redis_delete ok).

(** confstore/loader.go: the three load policies (13-18, 58-68, 20-35). *)
Inductive policy := PolNoop | PolSimple | PolInterval (min_interval : Z).

(** confstore/loader.go:37-56 DoLoad up to the call of Load, 16-18, 66-68: is Load called?  [last]
    is lastLoadTs; [None] is Go's zero time, which no real clock reading minus a Duration (at most
    292 years) precedes. *)
Definition wants_load (pol : policy) (last : option Z) (now : Z) : bool :=
  match pol with
  | PolNoop => false
  | PolSimple => true
  | PolInterval d =>
    if (d <=? 0)%Z then true
    else match last with
         | Some l => negb (now - d <? l)%Z
         | None => true
         end
  end.

(** confstore/loader.go:50-55: lastLoadTs after Load returned. *)
Definition after_load (pol : policy) (last : option Z) (ok : bool) (now2 : Z) : option Z :=
  match pol with
  | PolInterval d => if (d <=? 0)%Z then last else if ok then Some now2 else last
  | _ => last
  end.

(** What surrounds a store: persister state, load-policy state, number of DoLoad calls so far. *)
Record world (P : Type) := World { w_p : P; w_last : option Z; w_tick : nat }.
Arguments World {P}. Arguments w_p {P}. Arguments w_last {P}. Arguments w_tick {P}.

(** confstore/store.go:38-71 RegisterKey; [None] for vp is a nil processor. *)
Definition register_key {V} (s : store V) (key def : string) (vp : option (proc V))
  : store V * option string :=
  if key =? "" then (s, Some "key is required")
  else match vp with
  | None => (s, Some "ValueProcessor is required")
  | Some vp =>
    match s_procs s key with
    | Some _ => (s, Some ("key[" ++ key ++ "] ValueProcessor duplicated"))
    | None =>
      match s_def s key with
      | Some _ => (s, Some ("key[" ++ key ++ "] default value duplicated"))
      | None =>
        let (ok, err) := p_validate vp def in
        if negb ok then (s, Some err)
        else (Store (mset (s_procs s) key vp) (mset (s_def s) key (p_convert vp def))
                (mset (s_defstr s) key def) (s_kv s) (s_kvstr s), None)
      end
    end
  end.

(** confstore/store.go:84-88, the map part of DeregisterKey. *)
Definition drop_key {V} (s : store V) (key : string) : store V :=
  Store (mdel (s_procs s) key) (mdel (s_def s) key) (mdel (s_defstr s) key)
    (mdel (s_kv s) key) (mdel (s_kvstr s) key).

(** confstore/store.go:143-161, the first part of UpdateNoPersist: look up and validate. *)
Definition lookup_value {V} (procs : smap (proc V)) (key value : string) : kverror + proc V :=
  match procs key with
  | None => inl (KVError key value ("key[" ++ key ++ "] not registered"))
  | Some p =>
    let (ok, err) := p_validate p value in
    if negb ok then inl (KVError key value err) else inr p
  end.

(** confstore/store.go:163-166, the second part of UpdateNoPersist: write under kvLock. *)
Definition write_value {V} (s : store V) (p : proc V) (key value : string) : store V :=
  Store (s_procs s) (s_def s) (s_defstr s)
    (mset (s_kv s) key (p_convert p value)) (mset (s_kvstr s) key value).

(** confstore/store.go:138-168 UpdateNoPersist. *)
Definition update_no_persist {V} (s : store V) (key value : string) : store V * option kverror :=
  if key =? "" then (s, None)
  else match lookup_value (s_procs s) key value with
  | inl e => (s, Some e)
  | inr p => (write_value s p key value, None)
  end.

(** What Load does to the store: one UpdateNoPersist per entry, errors only logged
    (confstore/persister.go:50-55). *)
Definition load_entries {V} (s : store V) (kvs : list (string * string)) : store V :=
  fold_left (fun s kv => fst (update_no_persist s (fst kv) (snd kv))) kvs s.

(** confstore/store.go:227-236 and 242-252: the map part of GetValue and GetValueString. *)
Definition read_value {V} (s : store V) (key : string) : option V :=
  match s_kv s key with Some v => Some v | None => s_def s key end.
Definition read_string {V} (s : store V) (key : string) : option string :=
  match s_kvstr s key with Some v => Some v | None => s_defstr s key end.

(** confstore/store.go:259-260, the map part of ResetKey. *)
Definition clear_key {V} (s : store V) (key : string) : store V :=
  Store (s_procs s) (s_def s) (s_defstr s) (mdel (s_kv s) key) (mdel (s_kvstr s) key).

Section ops.
  Context {V P : Type}.
  Variable per : persister P.
  Variable pol : policy.
  (** The two clock readings of the [n]th DoLoad call. *)
  Variable clk : nat -> Z * Z.

  Definition sw : Type := store V * world P.

  (** confstore/loader.go DoLoad (16-18, 37-56, 66-68), called by every read. *)
  Definition do_load (x : sw) : sw :=
    let (s, w) := x in
    let (now, now2) := clk (w_tick w) in
    if wants_load pol (w_last w) now then
      let '(p', kvs, ok) := ps_load per (w_p w) in
      (load_entries s kvs, World p' (after_load pol (w_last w) ok now2) (S (w_tick w)))
    else (s, World (w_p w) (w_last w) (S (w_tick w))).

  Definition with_p (w : world P) (p : P) : world P := World p (w_last w) (w_tick w).

  (** confstore/store.go:73-95 DeregisterKey. *)
  Definition deregister_key (x : sw) (key : string) : sw :=
    let (s, w) := x in
    if key =? "" then (s, w)
    else (drop_key s key, with_p w (fst (ps_delete per (w_p w) key))).

  (** confstore/store.go:255-265 ResetKey. *)
  Definition reset_key (x : sw) (key : string) : sw :=
    let (s, w) := x in
    (clear_key s key, with_p w (fst (ps_delete per (w_p w) key))).

  (** confstore/store.go:126-136 Update. *)
  Definition update (x : sw) (key value : string) : sw * option kverror :=
    let (s, w) := x in
    let (s', err) := update_no_persist s key value in
    match err with
    | Some e =>
      let (p', ok) := ps_save per (w_p w) key value in
      ((s', with_p w p'), if ok then Some e else None)
    | None => ((s', w), None)
    end.

  (** confstore/store.go:103-108: the loop of BatchUpdate. *)
  Fixpoint update_each (s : store V) (kvs : list (string * string)) : store V * list kverror :=
    match kvs with
    | [] => (s, [])
    | (k, v) :: rest =>
      let (s1, err) := update_no_persist s k v in
      let (s2, errs) := update_each s1 rest in
      (s2, match err with Some e => e :: errs | None => errs end)
    end.

  (** confstore/store.go:97-124 BatchUpdate. *)
  Definition batch_update (x : sw) (kvs : list (string * string)) : sw * list kverror :=
    let (s, w) := x in
    match kvs with
    | [] => ((s, w), [])
    | _ =>
      let (s', errs) := update_each s kvs in
      let okkvs := filter (fun kv => negb (existsb (fun e => ke_key e =? fst kv) errs)) kvs in
      ((s', with_p w (fst (ps_batch per (w_p w) okkvs))), errs)
    end.

  (** confstore/store.go:224-237 GetValue. *)
  Definition get_value (x : sw) (key : string) : sw * option V :=
    let x' := do_load x in (x', read_value (fst x') key).

  (** confstore/store.go:239-253 GetValueString. *)
  Definition get_value_string (x : sw) (key : string) : sw * option string :=
    let x' := do_load x in (x', read_string (fst x') key).

  (** confstore/store.go:204-212 MustGetValue; [None] is the panic. *)
  Definition must_get_value (x : sw) (key : string) : sw * option V :=
    get_value (do_load x) key.

  (** confstore/store.go:214-222 MustGetValueString; [None] is the panic. *)
  Definition must_get_value_string (x : sw) (key : string) : sw * option string :=
    get_value_string (do_load x) key.

  (** confstore/store.go:174-183: the loop of BatchGetValues, and 191-200 of BatchGetValueString. *)
  Fixpoint get_each {A} (get : sw -> string -> sw * option A) (x : sw) (keys : list string)
    : sw * list (string * A) :=
    match keys with
    | [] => (x, [])
    | key :: rest =>
      if key =? "" then get_each get x rest
      else
        let (x1, r) := get x key in
        let (x2, kvs) := get_each get x1 rest in
        (x2, match r with Some v => (key, v) :: kvs | None => kvs end)
    end.

  (** confstore/store.go:170-185 BatchGetValues. *)
  Definition batch_get_values (x : sw) (keys : list string) : sw * list (string * V) :=
    get_each get_value (do_load x) keys.

  (** confstore/store.go:187-202 BatchGetValueString. *)
  Definition batch_get_value_string (x : sw) (keys : list string) : sw * list (string * string) :=
    get_each get_value_string (do_load x) keys.

  (** A call of the store's interface. *)
  Inductive sop :=
  | ORegister (key def : string) (vp : option (proc V))
  | ODeregister (key : string)
  | OUpdate (key value : string)
  | OUpdateNoPersist (key value : string)
  | OBatchUpdate (kvs : list (string * string))
  | OReset (key : string)
  | OGet (key : string)
  | OGetString (key : string)
  | OMustGet (key : string)
  | OMustGetString (key : string)
  | OBatchGet (keys : list string)
  | OBatchGetString (keys : list string).

  (** What the call returns. *)
  Inductive sres :=
  | RDone
  | RErr (e : option string)
  | RKVErr (e : option kverror)
  | RKVErrs (es : list kverror)
  | RVal (v : option V)
  | RStr (v : option string)
  | RMust (v : V)
  | RMustStr (v : string)
  | RPanic
  | RVals (vs : list (string * V))
  | RStrs (vs : list (string * string)).

  Definition sop_step (x : sw) (o : sop) : sw * sres :=
    match o with
    | ORegister k d vp => let (s', e) := register_key (fst x) k d vp in ((s', snd x), RErr e)
    | ODeregister k => (deregister_key x k, RDone)
    | OUpdate k v => let (x', e) := update x k v in (x', RKVErr e)
    | OUpdateNoPersist k v =>
      let (s', e) := update_no_persist (fst x) k v in ((s', snd x), RKVErr e)
    | OBatchUpdate kvs => let (x', es) := batch_update x kvs in (x', RKVErrs es)
    | OReset k => (reset_key x k, RDone)
    | OGet k => let (x', r) := get_value x k in (x', RVal r)
    | OGetString k => let (x', r) := get_value_string x k in (x', RStr r)
    | OMustGet k =>
      let (x', r) := must_get_value x k in
      (x', match r with Some v => RMust v | None => RPanic end)
    | OMustGetString k =>
      let (x', r) := must_get_value_string x k in
      (x', match r with Some v => RMustStr v | None => RPanic end)
    | OBatchGet ks => let (x', r) := batch_get_values x ks in (x', RVals r)
    | OBatchGetString ks => let (x', r) := batch_get_value_string x ks in (x', RStrs r)
    end.

  Fixpoint sop_run (x : sw) (os : list sop) : sw * list sres :=
    match os with
    | [] => (x, [])
    | o :: rest =>
      let (x1, r) := sop_step x o in
      let (x2, rs) := sop_run x1 rest in (x2, r :: rs)
    end.
End ops.
Arguments sop : clear implicits.
Arguments sres : clear implicits.

(** ** Interleavings of lock regions

    RegisterKey and DeregisterKey hold both locks for their whole body, ResetKey and the reads hold
    kvLock (store.go:256, 227, 242): one step each.  UpdateNoPersist is two regions: lookup under
    kvProcessorLock (143-145) followed by Validate without lock, then the write under kvLock
    (163-166).  The persister plays no role here. *)
Inductive spc (V : Type) :=
| SIdle
| SWriting (p : proc V) (key value : string).   (* store.go:162, between the two regions *)
Arguments SIdle {V}. Arguments SWriting {V}.

Inductive slab (V : Type) :=
| LRegister (key def : string) (vp : option (proc V))
| LDeregister (key : string)
| LReset (key : string)
| LUpdate (t : nat) (key value : string)
| LWrite (t : nat).
Arguments LRegister {V}. Arguments LDeregister {V}. Arguments LReset {V}. Arguments LUpdate {V}.
Arguments LWrite {V}.

(** Events seen from outside. *)
Inductive sevt :=
| ERegistered (key : string) (e : option string)
| EDeregistered (key : string)
| EReset (key : string)
| EUpdating (t : nat) (key value : string)              (* accepted, not written yet *)
| EUpdated (t : nat) (e : option kverror).              (* UpdateNoPersist returned *)

Definition store_step {V} (x : store V * list (spc V)) (l : slab V)
  : option ((store V * list (spc V)) * list sevt) :=
  let (s, ths) := x in
  match l with
  | LRegister k d vp => let (s', e) := register_key s k d vp in Some ((s', ths), [ERegistered k e])
  | LDeregister k =>
    if k =? "" then Some ((s, ths), [EDeregistered k]) else Some ((drop_key s k, ths), [EDeregistered k])
  | LReset k => Some ((clear_key s k, ths), [EReset k])
  | LUpdate t k v =>
    match nth_error ths t with
    | Some SIdle =>
      if k =? "" then Some ((s, ths), [EUpdated t None])
      else match lookup_value (s_procs s) k v with
      | inl e => Some ((s, ths), [EUpdated t (Some e)])
      | inr p => Some ((s, upd t (SWriting p k v) ths), [EUpdating t k v])
      end
    | _ => None
    end
  | LWrite t =>
    match nth_error ths t with
    | Some (SWriting p k v) => Some ((write_value s p k v, upd t SIdle ths), [EUpdated t None])
    | _ => None
    end
  end.

Definition store_exec {V} (n : nat) (sched : list (slab V)) :=
  exec store_step (new_store, repeat SIdle n) sched.

(** A sequence of DoLoad calls in the order in which they get loadLock (loader.go:38-39): the clock
    reading before, the one after, and whether Load (if called) succeeds.  Result: was Load called? *)
Fixpoint policy_run (pol : policy) (last : option Z) (calls : list (Z * Z * bool)) : list bool :=
  match calls with
  | [] => []
  | (now, now2, ok) :: rest =>
    if wants_load pol last now then true :: policy_run pol (after_load pol last ok now2) rest
    else false :: policy_run pol last rest
  end.
