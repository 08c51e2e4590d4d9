(** Executable model of the config store with processors that may panic (/repo/confstore/store.go, loader.go,
    persister.go).  Calls run one after the other; the caller recovers from a panic and the store is used on. *)
From Verif Require Import Common Bytes Threads StoreModel RsaModel UrlModel.
Local Open Scope string_scope.

(** confstore/interface.go:67-71 ValueProcessor; [None]: the method panics. *)
Record pproc (V : Type) := PProc {
  q_validate : string -> option (bool * string);
  q_convert : string -> option V }.
Arguments PProc {V}. Arguments q_validate {V}. Arguments q_convert {V}.

(** A processor that does not panic. *)
Definition total {V} (p : proc V) : pproc V :=
  PProc (fun s => Some (p_validate p s)) (fun s => Some (p_convert p s)).

(** procs.go:182-224, the processors for keys ([None] as value is a nil pointer). *)
Definition outcome_option {A} (o : outcome A) : option A := match o with Ok a => Some a | _ => None end.
Definition key_processor {K} (read : string -> outcome K) (show : error -> string) : pproc (option K) :=
  PProc (fun s => outcome_option (rsa_validate read show s)) (fun s => outcome_option (rsa_convert read s)).

(** store.go:11-22 defaultImpl.  [l_kv], [l_procs]: the lock is locked for writing by a call that will never
    unlock it. *)
Record pstore (V : Type) := PStore {
  q_procs : smap (pproc V);
  q_def : smap V;
  q_defstr : smap string;
  q_kv : smap V;
  q_kvstr : smap string;
  l_procs : bool;
  l_kv : bool }.
Arguments PStore {V}. Arguments q_procs {V}. Arguments q_def {V}. Arguments q_defstr {V}. Arguments q_kv {V}.
Arguments q_kvstr {V}. Arguments l_procs {V}. Arguments l_kv {V}.

Definition set_kv_locked {V} (s : pstore V) : pstore V :=
  PStore (q_procs s) (q_def s) (q_defstr s) (q_kv s) (q_kvstr s) (l_procs s) true.
Definition set_procs_locked {V} (s : pstore V) : pstore V :=
  PStore (q_procs s) (q_def s) (q_defstr s) (q_kv s) (q_kvstr s) true (l_kv s).

(** How a call ends: it returns, panics, or waits forever. *)
Inductive fate (A : Type) := Ret (a : A) | Boom | Stuck.
Arguments Ret {A}. Arguments Boom {A}. Arguments Stuck {A}.

(** store.go:38-71 RegisterKey: both locks, unlocked by defer. *)
Definition p_register_key {V} (s : pstore V) (key def : string) (vp : option (pproc V)) : pstore V * fate (option string) :=
  if key =? "" then (s, Ret (Some "key is required"))
  else match vp with
  | None => (s, Ret (Some "ValueProcessor is required"))
  | Some vp =>
    if l_procs s then (s, Stuck)
    else if l_kv s then (set_procs_locked s, Stuck)
    else match q_procs s key with
    | Some _ => (s, Ret (Some ("key[" ++ key ++ "] ValueProcessor duplicated")))
    | None =>
      match q_def s key with
      | Some _ => (s, Ret (Some ("key[" ++ key ++ "] default value duplicated")))
      | None =>
        match q_validate vp def with
        | None => (s, Boom)
        | Some (ok, err) =>
          if negb ok then (s, Ret (Some err))
          else match q_convert vp def with
               | None => (s, Boom)
               | Some v => (PStore (mset (q_procs s) key vp) (mset (q_def s) key v) (mset (q_defstr s) key def)
                              (q_kv s) (q_kvstr s) (l_procs s) (l_kv s), Ret None)
               end
        end
      end
    end
  end.

(** store.go:138-168 UpdateNoPersist: Validate runs without lock, Convert under kvLock without defer. *)
Definition p_update_no_persist {V} (s : pstore V) (key value : string) : pstore V * fate (option kverror) :=
  if key =? "" then (s, Ret None)
  else if l_procs s then (s, Stuck)
  else match q_procs s key with
  | None => (s, Ret (Some (KVError key value ("key[" ++ key ++ "] not registered"))))
  | Some p =>
    match q_validate p value with
    | None => (s, Boom)
    | Some (ok, err) =>
      if negb ok then (s, Ret (Some (KVError key value err)))
      else if l_kv s then (s, Stuck)
      else match q_convert p value with
           | None => (set_kv_locked s, Boom)
           | Some v => (PStore (q_procs s) (q_def s) (q_defstr s) (mset (q_kv s) key v) (mset (q_kvstr s) key value)
                          (l_procs s) (l_kv s), Ret None)
           end
    end
  end.

(** persister.go:50-55, the loop of Load. *)
Fixpoint p_load_entries {V} (s : pstore V) (kvs : list (string * string)) : pstore V * fate unit :=
  match kvs with
  | [] => (s, Ret tt)
  | (k, v) :: rest =>
    match p_update_no_persist s k v with
    | (s', Ret _) => p_load_entries s' rest
    | (s', Boom) => (s', Boom)
    | (s', Stuck) => (s', Stuck)
    end
  end.

Section ops.
  Context {V P : Type}.
  Variable per : persister P.
  Variable pol : policy.
  Variable clk : nat -> Z * Z.

  (** The store, its surroundings, and whether loadLock (loader.go:31) stays locked. *)
  Record psw := PSW { x_s : pstore V; x_w : world P; x_load : bool }.

  (** loader.go:37-56, 16-18, 66-68 DoLoad: only the interval policy has a lock, unlocked by defer. *)
  Definition has_lock : bool := match pol with PolInterval _ => true | _ => false end.
  Definition p_do_load (x : psw) : psw * fate unit :=
    if has_lock && x_load x then (x, Stuck)
    else
      let w := x_w x in
      let (now, now2) := clk (w_tick w) in
      if wants_load pol (w_last w) now then
        let '(p', kvs, ok) := ps_load per (w_p w) in
        match p_load_entries (x_s x) kvs with
        | (s', Ret _) => (PSW s' (World p' (after_load pol (w_last w) ok now2) (S (w_tick w))) (x_load x), Ret tt)
        | (s', Boom) => (PSW s' (World p' (w_last w) (S (w_tick w))) (x_load x), Boom)
        | (s', Stuck) => (PSW s' (World p' (w_last w) (S (w_tick w))) (x_load x || has_lock), Stuck)
        end
      else (PSW (x_s x) (World (w_p w) (w_last w) (S (w_tick w))) (x_load x), Ret tt).

  Definition put_s (x : psw) (s : pstore V) : psw := PSW s (x_w x) (x_load x).
  Definition put_sp (x : psw) (s : pstore V) (p : P) : psw := PSW s (with_p (x_w x) p) (x_load x).

  (** store.go:73-95 DeregisterKey. *)
  Definition p_deregister_key (x : psw) (key : string) : psw * fate unit :=
    let s := x_s x in
    if key =? "" then (x, Ret tt)
    else if l_procs s then (x, Stuck)
    else if l_kv s then (put_s x (set_procs_locked s), Stuck)
    else (put_sp x (PStore (mdel (q_procs s) key) (mdel (q_def s) key) (mdel (q_defstr s) key) (mdel (q_kv s) key)
                      (mdel (q_kvstr s) key) (l_procs s) (l_kv s)) (fst (ps_delete per (w_p (x_w x)) key)), Ret tt).

  (** store.go:255-265 ResetKey. *)
  Definition p_reset_key (x : psw) (key : string) : psw * fate unit :=
    let s := x_s x in
    if l_kv s then (x, Stuck)
    else (put_sp x (PStore (q_procs s) (q_def s) (q_defstr s) (mdel (q_kv s) key) (mdel (q_kvstr s) key) (l_procs s) (l_kv s))
            (fst (ps_delete per (w_p (x_w x)) key)), Ret tt).

  (** store.go:126-136 Update. *)
  Definition p_update (x : psw) (key value : string) : psw * fate (option kverror) :=
    match p_update_no_persist (x_s x) key value with
    | (s', Ret (Some e)) =>
      let (p', ok) := ps_save per (w_p (x_w x)) key value in (put_sp x s' p', Ret (if ok then Some e else None))
    | (s', f) => (put_s x s', f)
    end.

  (** store.go:103-108: the loop of BatchUpdate. *)
  Fixpoint p_update_each (s : pstore V) (kvs : list (string * string)) : pstore V * fate (list kverror) :=
    match kvs with
    | [] => (s, Ret [])
    | (k, v) :: rest =>
      match p_update_no_persist s k v with
      | (s1, Ret err) =>
        match p_update_each s1 rest with
        | (s2, Ret errs) => (s2, Ret (match err with Some e => e :: errs | None => errs end))
        | r => r
        end
      | (s1, Boom) => (s1, Boom)
      | (s1, Stuck) => (s1, Stuck)
      end
    end.

  (** store.go:97-124 BatchUpdate. *)
  Definition p_batch_update (x : psw) (kvs : list (string * string)) : psw * fate (list kverror) :=
    match kvs with
    | [] => (x, Ret [])
    | _ =>
      match p_update_each (x_s x) kvs with
      | (s', Ret errs) =>
        let okkvs := filter (fun kv => negb (existsb (fun e => ke_key e =? fst kv) errs)) kvs in
        (put_sp x s' (fst (ps_batch per (w_p (x_w x)) okkvs)), Ret errs)
      | (s', f) => (put_s x s', f)
      end
    end.

  (** store.go:224-237 GetValue and 239-253 GetValueString; [read] is the map part. *)
  Definition p_get {A} (read : pstore V -> string -> option A) (x : psw) (key : string) : psw * fate (option A) :=
    match p_do_load x with
    | (x', Ret _) => if l_kv (x_s x') then (x', Stuck) else (x', Ret (read (x_s x') key))
    | (x', Boom) => (x', Boom)
    | (x', Stuck) => (x', Stuck)
    end.
  Definition p_read_value (s : pstore V) (key : string) : option V :=
    match q_kv s key with Some v => Some v | None => q_def s key end.
  Definition p_read_string (s : pstore V) (key : string) : option string :=
    match q_kvstr s key with Some v => Some v | None => q_defstr s key end.

  (** store.go:204-222 MustGetValue and MustGetValueString. *)
  Definition p_must_get {A} (read : pstore V -> string -> option A) (x : psw) (key : string) : psw * fate (option A) :=
    match p_do_load x with
    | (x', Ret _) => p_get read x' key
    | (x', Boom) => (x', Boom)
    | (x', Stuck) => (x', Stuck)
    end.

  (** store.go:174-183, 191-200: the loops of BatchGetValues and BatchGetValueString. *)
  Fixpoint p_get_each {A} (read : pstore V -> string -> option A) (x : psw) (keys : list string)
    : psw * fate (list (string * A)) :=
    match keys with
    | [] => (x, Ret [])
    | key :: rest =>
      if key =? "" then p_get_each read x rest
      else
        match p_get read x key with
        | (x1, Ret r) =>
          match p_get_each read x1 rest with
          | (x2, Ret kvs) => (x2, Ret (match r with Some v => (key, v) :: kvs | None => kvs end))
          | y => y
          end
        | (x1, Boom) => (x1, Boom)
        | (x1, Stuck) => (x1, Stuck)
        end
    end.
  (** store.go:170-202 *)
  Definition p_batch_get {A} (read : pstore V -> string -> option A) (x : psw) (keys : list string)
    : psw * fate (list (string * A)) :=
    match p_do_load x with
    | (x', Ret _) => p_get_each read x' keys
    | (x', Boom) => (x', Boom)
    | (x', Stuck) => (x', Stuck)
    end.

  (** A call of the store's interface. *)
  Inductive pop :=
  | QRegister (key def : string) (vp : option (pproc V))
  | QDeregister (key : string)
  | QUpdate (key value : string)
  | QUpdateNoPersist (key value : string)
  | QBatchUpdate (kvs : list (string * string))
  | QReset (key : string)
  | QGet (key : string)
  | QGetString (key : string)
  | QMustGet (key : string)
  | QMustGetString (key : string)
  | QBatchGet (keys : list string)
  | QBatchGetString (keys : list string).

  Definition fmap {A B} (f : A -> B) (r : psw * fate A) : psw * fate B :=
    let (x, o) := r in (x, match o with Ret a => Ret (f a) | Boom => Boom | Stuck => Stuck end).

  (** [RPanic] is the panic of a Must method for a key without value. *)
  Definition pop_step (x : psw) (o : pop) : psw * fate (sres V) :=
    match o with
    | QRegister k d vp => let (s', e) := p_register_key (x_s x) k d vp in fmap RErr (put_s x s', e)
    | QDeregister k => fmap (fun _ => RDone) (p_deregister_key x k)
    | QUpdate k v => fmap RKVErr (p_update x k v)
    | QUpdateNoPersist k v => let (s', e) := p_update_no_persist (x_s x) k v in fmap RKVErr (put_s x s', e)
    | QBatchUpdate kvs => fmap RKVErrs (p_batch_update x kvs)
    | QReset k => fmap (fun _ => RDone) (p_reset_key x k)
    | QGet k => fmap RVal (p_get p_read_value x k)
    | QGetString k => fmap RStr (p_get p_read_string x k)
    | QMustGet k => fmap (fun r => match r with Some v => RMust v | None => RPanic end) (p_must_get p_read_value x k)
    | QMustGetString k => fmap (fun r => match r with Some v => RMustStr v | None => RPanic end) (p_must_get p_read_string x k)
    | QBatchGet ks => fmap RVals (p_batch_get p_read_value x ks)
    | QBatchGetString ks => fmap RStrs (p_batch_get p_read_string x ks)
    end.

  Fixpoint pop_run (x : psw) (os : list pop) : psw * list (fate (sres V)) :=
    match os with
    | [] => (x, [])
    | o :: rest =>
      let (x1, r) := pop_step x o in
      let (x2, rs) := pop_run x1 rest in (x2, r :: rs)
    end.

  (** store.go:24-36 NewStore. *)
  Definition new_psw (w : world P) : psw :=
    PSW (PStore mempty mempty mempty mempty mempty false false) w false.
End ops.
Arguments psw : clear implicits.
Arguments pop : clear implicits.
