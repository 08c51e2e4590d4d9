(** Specification of a config store whose processors may panic. *)
From Verif Require Import Common Bytes StoreModel StorePanicModel.
Local Open Scope string_scope.

(** Values that pass the check can be converted. *)
Definition sound_proc {V} (p : pproc V) : Prop :=
  forall v e, q_validate p v = Some (true, e) -> q_convert p v <> None.
Definition sound_op {V} (o : pop V) : Prop :=
  match o with QRegister _ _ (Some p) => sound_proc p | _ => True end.

(** The call with processors that do not panic. *)
Definition lifted {V} (o : sop V) : pop V :=
  match o with
  | ORegister k d vp => QRegister k d (option_map total vp)
  | ODeregister k => QDeregister k
  | OUpdate k v => QUpdate k v
  | OUpdateNoPersist k v => QUpdateNoPersist k v
  | OBatchUpdate kvs => QBatchUpdate kvs
  | OReset k => QReset k
  | OGet k => QGet k
  | OGetString k => QGetString k
  | OMustGet k => QMustGet k
  | OMustGetString k => QMustGetString k
  | OBatchGet ks => QBatchGet ks
  | OBatchGetString ks => QBatchGetString ks
  end.

(** Calls that read values. *)
Definition is_read {V} (o : pop V) : Prop :=
  match o with
  | QGet _ | QGetString _ | QMustGet _ | QMustGetString _ | QBatchGet _ | QBatchGetString _ => True
  | _ => False
  end.

(** Calls that use the values: all but updates. *)
Definition needs_kv {V} (o : pop V) : Prop :=
  match o with
  | QGet _ | QGetString _ | QMustGet _ | QMustGetString _ | QReset _ => True
  | QDeregister k => k <> ""
  | QRegister k _ (Some _) => k <> ""
  | QBatchGet ks | QBatchGetString ks => exists k, In k ks /\ k <> ""
  | _ => False
  end.

(** Checking the value [v] for [k] panics. *)
Definition poison {V} (s : pstore V) (k v : string) : Prop :=
  k <> "" /\ exists p, q_procs s k = Some p /\ q_validate p v = None.

Definition returned {A} (f : fate A) : Prop := exists a, f = Ret a.

(** Policies that ask the persister at every read. *)
Definition always_loads (pol : policy) : Prop := pol = PolSimple \/ exists d, pol = PolInterval d /\ (d <= 0)%Z.
