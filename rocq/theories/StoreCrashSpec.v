(** Specification of a config store whose persister may panic. *)
From Verif Require Import Common Bytes StoreModel StorePanicModel StorePanicSpec StoreCrashModel.
Local Open Scope string_scope.

(** The same persister, returning an error where the other one panics. *)
Definition calm {P} (per : cpersister P) : persister P :=
  let failed r := match r with Some ok => ok | None => false end in
  Persister (fun p => let '(p', kvs, r) := c_load per p in (p', kvs, failed r))
    (fun p k v => let (p', r) := c_save per p k v in (p', failed r))
    (fun p kvs => let (p', r) := c_batch per p kvs in (p', failed r))
    (fun p k => let (p', r) := c_delete per p k in (p', failed r)).

(** The entries of a batch that were accepted: none of the errors names their key. *)
Definition accepted (errs : list kverror) (kvs : list (string * string)) : list (string * string) :=
  filter (fun kv => negb (existsb (fun e => ke_key e =? fst kv) errs)) kvs.

(** A call other than a read gets as far as asking the persister, and that panics. *)
Definition write_panics {V P} (per : cpersister P) (pol : policy) (clk : nat -> Z * Z) (x : psw V P) (o : pop V) : Prop :=
  let p := w_p (x_w x) in
  match o with
  | QUpdate k v => (exists e, snd (pop_step (calm per) pol clk x (QUpdateNoPersist k v)) = Ret (RKVErr (Some e))) /\ snd (c_save per p k v) = None
  | QBatchUpdate kvs => kvs <> [] /\ exists errs, snd (pop_step (calm per) pol clk x o) = Ret (RKVErrs errs) /\ snd (c_batch per p (accepted errs kvs)) = None
  | QReset k => returned (snd (pop_step (calm per) pol clk x o)) /\ snd (c_delete per p k) = None
  | QDeregister k => k <> "" /\ returned (snd (pop_step (calm per) pol clk x o)) /\ snd (c_delete per p k) = None
  | _ => False
  end.

(** The next read loads, and the persister panics (after handing out its entries). *)
Definition load_panics {V P} (per : cpersister P) (pol : policy) (clk : nat -> Z * Z) (x : psw V P) : Prop :=
  wants_load pol (w_last (x_w x)) (fst (clk (w_tick (x_w x)))) = true /\ snd (c_load per (w_p (x_w x))) = None.

(** What a call does on a store without persister, if it ends with [g] on one with NoopPersister. *)
Definition without_persister {V} (o : pop V) (g : fate (sres V)) : fate (sres V) :=
  match o, g with
  | QUpdate _ _, Ret (RKVErr (Some _)) => Boom
  | QBatchUpdate (_ :: _), Ret _ => Boom
  | QReset _, Ret _ => Boom
  | QDeregister k, Ret _ => if k =? "" then g else Boom
  | _, _ => g
  end.
