(** Executable model of the config store with a persister whose methods may panic, a nil one for instance
    (/repo/confstore/store.go, loader.go).  Otherwise as StorePanicModel.v: processors may panic too, calls run one
    after the other, the caller recovers from a panic and uses the store on. *)
From Verif Require Import Common Bytes Threads StoreModel StorePanicModel.
Local Open Scope string_scope.

(** confstore/interface.go:74-83 Persister; [None]: the method panics.  Load may hand out entries before. *)
Record cpersister (P : Type) := CPersister {
  c_load : P -> P * list (string * string) * option bool;
  c_save : P -> string -> string -> P * option bool;
  c_batch : P -> list (string * string) -> P * option bool;
  c_delete : P -> string -> P * option bool }.
Arguments CPersister {P}. Arguments c_load {P}. Arguments c_save {P}. Arguments c_batch {P}. Arguments c_delete {P}.

(** A persister that does not panic. *)
Definition steady {P} (per : persister P) : cpersister P :=
  CPersister (fun p => let '(p', kvs, ok) := ps_load per p in (p', kvs, Some ok))
    (fun p k v => let (p', ok) := ps_save per p k v in (p', Some ok))
    (fun p kvs => let (p', ok) := ps_batch per p kvs in (p', Some ok))
    (fun p k => let (p', ok) := ps_delete per p k in (p', Some ok)).

(** A nil persister: every call of a method panics. *)
Definition nil_persister : cpersister unit :=
  CPersister (fun p => (p, [], None)) (fun p _ _ => (p, None)) (fun p _ => (p, None)) (fun p _ => (p, None)).

Section ops.
  Context {V P : Type}.
  Variable per : cpersister P.
  Variable pol : policy.
  Variable clk : nat -> Z * Z.

  (** loader.go:37-56, 16-18, 66-68 DoLoad: loadLock is unlocked by defer, lastLoadTs is set only after Load has
      returned without error. *)
  Definition c_do_load (x : psw V P) : psw V P * fate unit :=
    if has_lock pol && x_load x then (x, Stuck)
    else
      let w := x_w x in
      let (now, now2) := clk (w_tick w) in
      if wants_load pol (w_last w) now then
        let '(p', kvs, r) := c_load per (w_p w) in
        match p_load_entries (x_s x) kvs with
        | (s', Ret _) =>
          match r with
          | Some ok => (PSW s' (World p' (after_load pol (w_last w) ok now2) (S (w_tick w))) (x_load x), Ret tt)
          | None => (PSW s' (World p' (w_last w) (S (w_tick w))) (x_load x), Boom)
          end
        | (s', Boom) => (PSW s' (World p' (w_last w) (S (w_tick w))) (x_load x), Boom)
        | (s', Stuck) => (PSW s' (World p' (w_last w) (S (w_tick w))) (x_load x || has_lock pol), Stuck)
        end
      else (PSW (x_s x) (World (w_p w) (w_last w) (S (w_tick w))) (x_load x), Ret tt).

  (** store.go:73-95 DeregisterKey: Delete is called last, both locks are unlocked by defer. *)
  Definition c_deregister_key (x : psw V P) (key : string) : psw V P * fate unit :=
    let s := x_s x in
    if key =? "" then (x, Ret tt)
    else if l_procs s then (x, Stuck)
    else if l_kv s then (put_s x (set_procs_locked s), Stuck)
    else let (p', r) := c_delete per (w_p (x_w x)) key in
         (put_sp x (PStore (mdel (q_procs s) key) (mdel (q_def s) key) (mdel (q_defstr s) key) (mdel (q_kv s) key)
                      (mdel (q_kvstr s) key) (l_procs s) (l_kv s)) p', match r with Some _ => Ret tt | None => Boom end).

  (** store.go:255-265 ResetKey: the same with kvLock. *)
  Definition c_reset_key (x : psw V P) (key : string) : psw V P * fate unit :=
    let s := x_s x in
    if l_kv s then (x, Stuck)
    else let (p', r) := c_delete per (w_p (x_w x)) key in
         (put_sp x (PStore (q_procs s) (q_def s) (q_defstr s) (mdel (q_kv s) key) (mdel (q_kvstr s) key) (l_procs s) (l_kv s)) p',
          match r with Some _ => Ret tt | None => Boom end).

  (** store.go:126-136 Update: no lock is held. *)
  Definition c_update (x : psw V P) (key value : string) : psw V P * fate (option kverror) :=
    match p_update_no_persist (x_s x) key value with
    | (s', Ret (Some e)) =>
      let (p', r) := c_save per (w_p (x_w x)) key value in
      (put_sp x s' p', match r with Some ok => Ret (if ok then Some e else None) | None => Boom end)
    | (s', f) => (put_s x s', f)
    end.

  (** store.go:97-124 BatchUpdate: no lock is held. *)
  Definition c_batch_update (x : psw V P) (kvs : list (string * string)) : psw V P * fate (list kverror) :=
    match kvs with
    | [] => (x, Ret [])
    | _ =>
      match p_update_each (x_s x) kvs with
      | (s', Ret errs) =>
        let okkvs := filter (fun kv => negb (existsb (fun e => ke_key e =? fst kv) errs)) kvs in
        let (p', r) := c_batch per (w_p (x_w x)) okkvs in
        (put_sp x s' p', match r with Some _ => Ret errs | None => Boom end)
      | (s', f) => (put_s x s', f)
      end
    end.

  (** store.go:224-253 GetValue and GetValueString; [read] is the map part. *)
  Definition c_get {A} (read : pstore V -> string -> option A) (x : psw V P) (key : string) : psw V P * fate (option A) :=
    match c_do_load x with
    | (x', Ret _) => if l_kv (x_s x') then (x', Stuck) else (x', Ret (read (x_s x') key))
    | (x', Boom) => (x', Boom)
    | (x', Stuck) => (x', Stuck)
    end.

  (** store.go:204-222 MustGetValue and MustGetValueString. *)
  Definition c_must_get {A} (read : pstore V -> string -> option A) (x : psw V P) (key : string) : psw V P * fate (option A) :=
    match c_do_load x with
    | (x', Ret _) => c_get read x' key
    | (x', Boom) => (x', Boom)
    | (x', Stuck) => (x', Stuck)
    end.

  (** store.go:170-202 BatchGetValues and BatchGetValueString. *)
  Fixpoint c_get_each {A} (read : pstore V -> string -> option A) (x : psw V P) (keys : list string)
    : psw V P * fate (list (string * A)) :=
    match keys with
    | [] => (x, Ret [])
    | key :: rest =>
      if key =? "" then c_get_each read x rest
      else
        match c_get read x key with
        | (x1, Ret r) =>
          match c_get_each read x1 rest with
          | (x2, Ret kvs) => (x2, Ret (match r with Some v => (key, v) :: kvs | None => kvs end))
          | y => y
          end
        | (x1, Boom) => (x1, Boom)
        | (x1, Stuck) => (x1, Stuck)
        end
    end.
  Definition c_batch_get {A} (read : pstore V -> string -> option A) (x : psw V P) (keys : list string)
    : psw V P * fate (list (string * A)) :=
    match c_do_load x with
    | (x', Ret _) => c_get_each read x' keys
    | (x', Boom) => (x', Boom)
    | (x', Stuck) => (x', Stuck)
    end.

  (** A call of the store's interface; those that do not use the persister as in StorePanicModel.v. *)
  Definition c_step (x : psw V P) (o : pop V) : psw V P * fate (sres V) :=
    match o with
    | QRegister k d vp => let (s', e) := p_register_key (x_s x) k d vp in fmap RErr (put_s x s', e)
    | QDeregister k => fmap (fun _ => RDone) (c_deregister_key x k)
    | QUpdate k v => fmap RKVErr (c_update x k v)
    | QUpdateNoPersist k v => let (s', e) := p_update_no_persist (x_s x) k v in fmap RKVErr (put_s x s', e)
    | QBatchUpdate kvs => fmap RKVErrs (c_batch_update x kvs)
    | QReset k => fmap (fun _ => RDone) (c_reset_key x k)
    | QGet k => fmap RVal (c_get p_read_value x k)
    | QGetString k => fmap RStr (c_get p_read_string x k)
    | QMustGet k => fmap (fun r => match r with Some v => RMust v | None => RPanic end) (c_must_get p_read_value x k)
    | QMustGetString k => fmap (fun r => match r with Some v => RMustStr v | None => RPanic end) (c_must_get p_read_string x k)
    | QBatchGet ks => fmap RVals (c_batch_get p_read_value x ks)
    | QBatchGetString ks => fmap RStrs (c_batch_get p_read_string x ks)
    end.

  Fixpoint c_run (x : psw V P) (os : list (pop V)) : psw V P * list (fate (sres V)) :=
    match os with
    | [] => (x, [])
    | o :: rest =>
      let (x1, r) := c_step x o in
      let (x2, rs) := c_run x1 rest in (x2, r :: rs)
    end.
End ops.
