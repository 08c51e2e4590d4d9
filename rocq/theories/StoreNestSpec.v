(** Specification of a config store whose processors call the store they belong to. *)
From Verif Require Import Common Bytes StoreModel StorePanicModel StoreNestModel.
Local Open Scope string_scope.

(** Processors that do not call the store. *)
Definition plain_prog {V A} (o : option A) : prog V A := match o with Some a => Ans a | None => Fail end.
Definition plain {V} (p : pproc V) : nproc V :=
  NProc (fun s => plain_prog (q_validate p s)) (fun s => plain_prog (q_convert p s)).
Definition nested {V} (o : pop V) : nop V :=
  match o with
  | QRegister k d vp => NRegister k d (option_map plain vp)
  | QDeregister k => NDeregister k
  | QUpdate k v => NUpdate k v
  | QUpdateNoPersist k v => NUpdateNoPersist k v
  | QBatchUpdate kvs => NBatchUpdate kvs
  | QReset k => NReset k
  | QGet k => NGet k
  | QGetString k => NGetString k
  | QMustGet k => NMustGet k
  | QMustGetString k => NMustGetString k
  | QBatchGet ks => NBatchGet ks
  | QBatchGetString ks => NBatchGetString ks
  end.

(** A method that reads values of the store and then answers. *)
Inductive inquiry {V A} : prog V A -> Prop :=
| inq_ans a : inquiry (Ans a)
| inq_val key k (H : forall r, inquiry (k r)) : inquiry (AskVal key k)
| inq_str key k (H : forall r, inquiry (k r)) : inquiry (AskStr key k).

(** Its answer, if the store shows [val] and [str]. *)
Fixpoint answer {V A} (val : string -> option V) (str : string -> option string) (p : prog V A) : option A :=
  match p with
  | Ans a => Some a
  | AskVal key k => answer val str (k (val key))
  | AskStr key k => answer val str (k (str key))
  | _ => None
  end.

(** A processor that reads the store to check a value, and not to convert it. *)
Definition inquirer {V} (p : nproc V) : Prop :=
  (forall v, inquiry (n_validate p v)) /\ (forall v, exists c, n_convert p v = Ans c).

(** Registration of such a processor, with a default value that it accepts or rejects without reading. *)
Definition careful_op {V} (o : nop V) : Prop :=
  match o with
  | NRegister _ d (Some p) => inquirer p /\ exists a, n_validate p d = Ans a
  | _ => True
  end.

(** Stores that never get values from their persister. *)
Definition loads_nothing {P} (per : persister P) (pol : policy) : Prop :=
  pol = PolNoop \/ forall q, snd (fst (ps_load per q)) = [].

(** The first thing a method does is to read the store. *)
Definition asks_first {V A} (p : prog V A) : Prop :=
  match p with AskVal _ _ | AskStr _ _ => True | _ => False end.
(** ... to read or to reset a key. *)
Definition needs_values_first {V A} (p : prog V A) : Prop :=
  match p with AskVal _ _ | AskStr _ _ | DoReset _ _ => True | _ => False end.
(** ... to call any method of the store. *)
Definition calls_first {V A} (p : prog V A) : Prop :=
  match p with AskVal _ _ | AskStr _ _ | DoReset _ _ => True | DoUpdate k _ _ => k <> "" | _ => False end.

(** Calls that read values. *)
Definition reading {V} (o : nop V) : Prop :=
  match o with
  | NGet _ | NGetString _ | NMustGet _ | NMustGetString _ | NBatchGet _ | NBatchGetString _ => True
  | _ => False
  end.
(** Calls that use the values: all but updates. *)
Definition using_values {V} (o : nop V) : Prop :=
  match o with
  | NGet _ | NGetString _ | NMustGet _ | NMustGetString _ | NReset _ => True
  | NDeregister k => k <> ""
  | NRegister k _ (Some _) => k <> ""
  | NBatchGet ks | NBatchGetString ks => exists k, In k ks /\ k <> ""
  | _ => False
  end.

Section calls.
  Context {V P : Type}.
  Variable per : persister P.
  Variable pol : policy.
  Variable clk : nat -> Z * Z.

  (** The call ends thus, however deep calls within calls go on the way. *)
  Definition ends (x : nsw V P) (o : nop V) (y : nsw V P) (f : fate (sres V)) : Prop :=
    exists fuel, n_step per pol clk fuel x o = Some (y, f).
  Definition never_returns (x : nsw V P) (o : nop V) : Prop :=
    forall y r, ~ ends x o y (Ret r).
  (** Calls within calls without end: the stack overflows. *)
  Definition endless (x : nsw V P) (o : nop V) : Prop := forall y f, ~ ends x o y f.
  (** The state after some calls. *)
  Definition reached (x : nsw V P) (os : list (nop V)) (y : nsw V P) : Prop :=
    exists fuel fs, n_run per pol clk fuel x os = Some (y, fs).
End calls.
