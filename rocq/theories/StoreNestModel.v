(** Executable model of the config store with processors that call the store they belong to
    (/repo/confstore/store.go, loader.go, persister.go).  One goroutine calls; when it waits for a lock that it holds
    itself it waits for ever, and other goroutines may use the store on. *)
From Verif Require Import Common Bytes Threads StoreModel StorePanicModel.
Local Open Scope string_scope.

(** What a method of a processor does: it answers, panics, or calls the store and goes on with the result:
    GetValue, GetValueString, UpdateNoPersist, ResetKey.  (The Must and Batch methods make these calls; Update adds
    a call of the persister.  Registration from within a processor is not modelled.) *)
Inductive prog (V A : Type) :=
| Ans (a : A)
| Fail
| AskVal (key : string) (k : option V -> prog V A)
| AskStr (key : string) (k : option string -> prog V A)
| DoUpdate (key value : string) (k : option kverror -> prog V A)
| DoReset (key : string) (k : prog V A).
Arguments Ans {V A}. Arguments Fail {V A}. Arguments AskVal {V A}. Arguments AskStr {V A}.
Arguments DoUpdate {V A}. Arguments DoReset {V A}.

(** confstore/interface.go:67-71 ValueProcessor. *)
Record nproc (V : Type) := NProc {
  n_validate : string -> prog V (bool * string);
  n_convert : string -> prog V V }.
Arguments NProc {V}. Arguments n_validate {V}. Arguments n_convert {V}.

(** store.go:11-22 defaultImpl, its surroundings, and whether kvProcessorLock, kvLock (for writing) and loadLock
    (loader.go:31) are locked. *)
Record nsw (V P : Type) := NSW {
  y_procs : smap (nproc V);
  y_def : smap V;
  y_defstr : smap string;
  y_kv : smap V;
  y_kvstr : smap string;
  y_w : world P;
  k_procs : bool;
  k_kv : bool;
  k_load : bool }.
Arguments NSW {V P}. Arguments y_procs {V P}. Arguments y_def {V P}. Arguments y_defstr {V P}. Arguments y_kv {V P}.
Arguments y_kvstr {V P}. Arguments y_w {V P}. Arguments k_procs {V P}. Arguments k_kv {V P}. Arguments k_load {V P}.

(** How a call ends, and the state then; [None]: it did not end with so many nested updates. *)
Definition reply (V P A : Type) : Type := option (nsw V P * fate A).

Section ops.
  Context {V P : Type}.
  Variable per : persister P.
  Variable pol : policy.
  Variable clk : nat -> Z * Z.
  Notation st := (nsw V P).

  Definition in_world (x : st) (w : world P) : st :=
    NSW (y_procs x) (y_def x) (y_defstr x) (y_kv x) (y_kvstr x) w (k_procs x) (k_kv x) (k_load x).
  Definition locks (x : st) (procs kv load : bool) : st :=
    NSW (y_procs x) (y_def x) (y_defstr x) (y_kv x) (y_kvstr x) (y_w x) procs kv load.
  Definition lock_kv (x : st) (b : bool) : st := locks x (k_procs x) b (k_load x).
  Definition lock_procs (x : st) (b : bool) : st := locks x b (k_kv x) (k_load x).
  Definition lock_load (x : st) (b : bool) : st := locks x (k_procs x) (k_kv x) b.

  Definition bind {A B} (r : reply V P A) (f : st -> A -> reply V P B) : reply V P B :=
    match r with
    | Some (x, Ret a) => f x a
    | Some (x, Boom) => Some (x, Boom)
    | Some (x, Stuck) => Some (x, Stuck)
    | None => None
    end.
  (** Go's defer: also after a panic, never if the call waits for ever. *)
  Definition deferred {A} (g : st -> st) (r : reply V P A) : reply V P A :=
    match r with
    | Some (x, Ret a) => Some (g x, Ret a)
    | Some (x, Boom) => Some (g x, Boom)
    | r => r
    end.

  (** store.go:227-236 and 242-252: the map part of GetValue and GetValueString. *)
  Definition y_read_value (x : st) (key : string) : option V :=
    match y_kv x key with Some v => Some v | None => y_def x key end.
  Definition y_read_string (x : st) (key : string) : option string :=
    match y_kvstr x key with Some v => Some v | None => y_defstr x key end.

  (** store.go:255-265 ResetKey. *)
  Definition n_reset_key (x : st) (key : string) : reply V P unit :=
    if k_kv x then Some (x, Stuck)
    else Some (NSW (y_procs x) (y_def x) (y_defstr x) (mdel (y_kv x) key) (mdel (y_kvstr x) key)
                 (with_p (y_w x) (fst (ps_delete per (w_p (y_w x)) key))) (k_procs x) (k_kv x) (k_load x), Ret tt).

  Section nested.
    (** UpdateNoPersist, as called from processors and by Load. *)
    Variable upd : st -> string -> string -> reply V P (option kverror).

    (** persister.go:50-55, the loop of Load. *)
    Fixpoint n_load_entries (x : st) (kvs : list (string * string)) : reply V P unit :=
      match kvs with
      | [] => Some (x, Ret tt)
      | (k, v) :: rest => bind (upd x k v) (fun x' _ => n_load_entries x' rest)
      end.

    (** loader.go:37-56, 16-18, 66-68 DoLoad: only the interval policy has a lock, unlocked by defer. *)
    Definition n_do_load (x : st) : reply V P unit :=
      if has_lock pol && k_load x then Some (x, Stuck)
      else
        let w := y_w x in
        let (now, now2) := clk (w_tick w) in
        let x1 := lock_load x (has_lock pol) in
        if wants_load pol (w_last w) now then
          let '(p', kvs, ok) := ps_load per (w_p w) in
          deferred (fun x => lock_load x false)
            (bind (n_load_entries (in_world x1 (World p' (w_last w) (S (w_tick w)))) kvs)
               (fun x2 _ =>
                  let w2 := y_w x2 in
                  Some (in_world x2 (World (w_p w2) (after_load pol (w_last w2) ok now2) (w_tick w2)), Ret tt)))
        else Some (lock_load (in_world x1 (World (w_p w) (w_last w) (S (w_tick w)))) false, Ret tt).

    (** store.go:224-237 GetValue and 239-253 GetValueString; [read] is the map part. *)
    Definition n_get {A} (read : st -> string -> option A) (x : st) (key : string) : reply V P (option A) :=
      bind (n_do_load x) (fun x' _ => if k_kv x' then Some (x', Stuck) else Some (x', Ret (read x' key))).

    (** A method of a processor. *)
    Fixpoint n_prog {A} (x : st) (p : prog V A) : reply V P A :=
      match p with
      | Ans a => Some (x, Ret a)
      | Fail => Some (x, Boom)
      | AskVal key k => bind (n_get y_read_value x key) (fun x' r => n_prog x' (k r))
      | AskStr key k => bind (n_get y_read_string x key) (fun x' r => n_prog x' (k r))
      | DoUpdate key value k => bind (upd x key value) (fun x' r => n_prog x' (k r))
      | DoReset key k => bind (n_reset_key x key) (fun x' _ => n_prog x' k)
      end.

    (** store.go:138-168 UpdateNoPersist: Validate runs without lock, Convert under kvLock without defer. *)
    Definition n_update_body (x : st) (key value : string) : reply V P (option kverror) :=
      if key =? "" then Some (x, Ret None)
      else if k_procs x then Some (x, Stuck)
      else match y_procs x key with
      | None => Some (x, Ret (Some (KVError key value ("key[" ++ key ++ "] not registered"))))
      | Some p =>
        bind (n_prog x (n_validate p value)) (fun x1 r =>
          let (ok, err) := r in
          if negb ok then Some (x1, Ret (Some (KVError key value err)))
          else if k_kv x1 then Some (x1, Stuck)
          else bind (n_prog (lock_kv x1 true) (n_convert p value)) (fun x2 c =>
            Some (NSW (y_procs x2) (y_def x2) (y_defstr x2) (mset (y_kv x2) key c) (mset (y_kvstr x2) key value)
                    (y_w x2) (k_procs x2) false (k_load x2), Ret None)))
      end.

    (** store.go:38-71 RegisterKey: both locks, unlocked by defer. *)
    Definition n_register_key (x : st) (key def : string) (vp : option (nproc V)) : reply V P (option string) :=
      if key =? "" then Some (x, Ret (Some "key is required"))
      else match vp with
      | None => Some (x, Ret (Some "ValueProcessor is required"))
      | Some vp =>
        if k_procs x then Some (x, Stuck)
        else if k_kv x then Some (lock_procs x true, Stuck)
        else deferred (fun x => lock_procs (lock_kv x false) false) (
          let x := lock_kv (lock_procs x true) true in
          match y_procs x key with
          | Some _ => Some (x, Ret (Some ("key[" ++ key ++ "] ValueProcessor duplicated")))
          | None =>
            match y_def x key with
            | Some _ => Some (x, Ret (Some ("key[" ++ key ++ "] default value duplicated")))
            | None =>
              bind (n_prog x (n_validate vp def)) (fun x1 r =>
                let (ok, err) := r in
                if negb ok then Some (x1, Ret (Some err))
                else bind (n_prog x1 (n_convert vp def)) (fun x2 c =>
                  Some (NSW (mset (y_procs x2) key vp) (mset (y_def x2) key c) (mset (y_defstr x2) key def)
                          (y_kv x2) (y_kvstr x2) (y_w x2) (k_procs x2) (k_kv x2) (k_load x2), Ret None)))
            end
          end)
      end.

    (** store.go:126-136 Update. *)
    Definition n_update_save (x : st) (key value : string) : reply V P (option kverror) :=
      bind (upd x key value) (fun x' r =>
        match r with
        | Some e =>
          let (p', ok) := ps_save per (w_p (y_w x')) key value in
          Some (in_world x' (with_p (y_w x') p'), Ret (if ok then Some e else None))
        | None => Some (x', Ret None)
        end).

    (** store.go:103-108: the loop of BatchUpdate. *)
    Fixpoint n_update_each (x : st) (kvs : list (string * string)) : reply V P (list kverror) :=
      match kvs with
      | [] => Some (x, Ret [])
      | (k, v) :: rest =>
        bind (upd x k v) (fun x1 err =>
          bind (n_update_each x1 rest) (fun x2 errs =>
            Some (x2, Ret (match err with Some e => e :: errs | None => errs end))))
      end.

    (** store.go:97-124 BatchUpdate. *)
    Definition n_batch_update (x : st) (kvs : list (string * string)) : reply V P (list kverror) :=
      match kvs with
      | [] => Some (x, Ret [])
      | _ =>
        bind (n_update_each x kvs) (fun x' errs =>
          let okkvs := filter (fun kv => negb (existsb (fun e => ke_key e =? fst kv) errs)) kvs in
          Some (in_world x' (with_p (y_w x') (fst (ps_batch per (w_p (y_w x')) okkvs))), Ret errs))
      end.

    (** store.go:73-95 DeregisterKey. *)
    Definition n_deregister_key (x : st) (key : string) : reply V P unit :=
      if key =? "" then Some (x, Ret tt)
      else if k_procs x then Some (x, Stuck)
      else if k_kv x then Some (lock_procs x true, Stuck)
      else Some (NSW (mdel (y_procs x) key) (mdel (y_def x) key) (mdel (y_defstr x) key) (mdel (y_kv x) key)
                   (mdel (y_kvstr x) key) (with_p (y_w x) (fst (ps_delete per (w_p (y_w x)) key)))
                   (k_procs x) (k_kv x) (k_load x), Ret tt).

    (** store.go:204-222 MustGetValue and MustGetValueString. *)
    Definition n_must_get {A} (read : st -> string -> option A) (x : st) (key : string) : reply V P (option A) :=
      bind (n_do_load x) (fun x' _ => n_get read x' key).

    (** store.go:174-183, 191-200: the loops of BatchGetValues and BatchGetValueString. *)
    Fixpoint n_get_each {A} (read : st -> string -> option A) (x : st) (keys : list string)
      : reply V P (list (string * A)) :=
      match keys with
      | [] => Some (x, Ret [])
      | key :: rest =>
        if key =? "" then n_get_each read x rest
        else bind (n_get read x key) (fun x1 r =>
               bind (n_get_each read x1 rest) (fun x2 kvs =>
                 Some (x2, Ret (match r with Some v => (key, v) :: kvs | None => kvs end))))
      end.
    (** store.go:170-202 *)
    Definition n_batch_get {A} (read : st -> string -> option A) (x : st) (keys : list string)
      : reply V P (list (string * A)) :=
      bind (n_do_load x) (fun x' _ => n_get_each read x' keys).
  End nested.

  (** UpdateNoPersist with at most [fuel] updates within each other. *)
  Fixpoint n_update (fuel : nat) (x : st) (key value : string) : reply V P (option kverror) :=
    match fuel with
    | O => None
    | S fuel => n_update_body (n_update fuel) x key value
    end.

  (** A call of the store's interface. *)
  Inductive nop :=
  | NRegister (key def : string) (vp : option (nproc V))
  | NDeregister (key : string)
  | NUpdate (key value : string)
  | NUpdateNoPersist (key value : string)
  | NBatchUpdate (kvs : list (string * string))
  | NReset (key : string)
  | NGet (key : string)
  | NGetString (key : string)
  | NMustGet (key : string)
  | NMustGetString (key : string)
  | NBatchGet (keys : list string)
  | NBatchGetString (keys : list string).

  Definition nmap {A B} (f : A -> B) (r : reply V P A) : reply V P B := bind r (fun x a => Some (x, Ret (f a))).

  Definition n_step (fuel : nat) (x : st) (o : nop) : reply V P (sres V) :=
    let upd := n_update fuel in
    match o with
    | NRegister k d vp => nmap RErr (n_register_key upd x k d vp)
    | NDeregister k => nmap (fun _ => RDone) (n_deregister_key x k)
    | NUpdate k v => nmap RKVErr (n_update_save upd x k v)
    | NUpdateNoPersist k v => nmap RKVErr (upd x k v)
    | NBatchUpdate kvs => nmap RKVErrs (n_batch_update upd x kvs)
    | NReset k => nmap (fun _ => RDone) (n_reset_key x k)
    | NGet k => nmap RVal (n_get upd y_read_value x k)
    | NGetString k => nmap RStr (n_get upd y_read_string x k)
    | NMustGet k => nmap (fun r => match r with Some v => RMust v | None => RPanic end) (n_must_get upd y_read_value x k)
    | NMustGetString k => nmap (fun r => match r with Some v => RMustStr v | None => RPanic end) (n_must_get upd y_read_string x k)
    | NBatchGet ks => nmap RVals (n_batch_get upd y_read_value x ks)
    | NBatchGetString ks => nmap RStrs (n_batch_get upd y_read_string x ks)
    end.

  (** Calls one after the other; the run has no end ([None]) if a call has none. *)
  Fixpoint n_run (fuel : nat) (x : st) (os : list nop) : option (st * list (fate (sres V))) :=
    match os with
    | [] => Some (x, [])
    | o :: rest =>
      match n_step fuel x o with
      | Some (x1, r) =>
        match n_run fuel x1 rest with
        | Some (x2, rs) => Some (x2, r :: rs)
        | None => None
        end
      | None => None
      end
    end.

  (** store.go:24-36 NewStore. *)
  Definition new_nsw (w : world P) : st := NSW mempty mempty mempty mempty mempty w false false false.
End ops.
Arguments nop : clear implicits.
