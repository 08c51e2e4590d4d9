(** Specification of the config store: each key on its own. *)
From Verif Require Import Common Bytes Threads StoreModel.

(** [p] accepts the string [v]. *)
Definition accepts {V} (p : proc V) (v : string) : bool := fst (p_validate p v).

(** A registered key: its processor, its default, and the value set since, if any. *)
Record entry (V : Type) := Entry { e_proc : proc V; e_def : string; e_cur : option string }.
Arguments Entry {V}. Arguments e_proc {V}. Arguments e_def {V}. Arguments e_cur {V}.

Definition offer {V} (e : option (entry V)) (v : string) : option (entry V) :=
  match e with
  | Some (Entry p d c) => if accepts p v then Some (Entry p d (Some v)) else e
  | None => None
  end.

(** The effect of one call on key [k]. *)
Definition key_step {V} (k : string) (e : option (entry V)) (o : sop V) : option (entry V) :=
  match o with
  | ORegister k' d (Some p) =>
    match e with
    | None => if String.eqb k' k && negb (String.eqb k "") && accepts p d then Some (Entry p d None) else None
    | Some _ => e
    end
  | ODeregister k' => if String.eqb k' k then None else e
  | OUpdate k' v | OUpdateNoPersist k' v => if String.eqb k' k then offer e v else e
  | OBatchUpdate kvs =>
    fold_left (fun e kv => if String.eqb (fst kv) k then offer e (snd kv) else e) kvs e
  | OReset k' =>
    if String.eqb k' k then option_map (fun e => Entry (e_proc e) (e_def e) None) e else e
  | _ => e
  end.

Definition key_state {V} (k : string) (os : list (sop V)) : option (entry V) :=
  fold_left (key_step k) os None.

(** The string a key should read as. *)
Definition current {V} (e : option (entry V)) : option string :=
  match e with
  | Some (Entry _ d c) => Some (match c with Some v => v | None => d end)
  | None => None
  end.

(** The typed value a key should read as. *)
Definition current_value {V} (e : option (entry V)) : option V :=
  match e with
  | Some (Entry p d c) => Some (p_convert p (match c with Some v => v | None => d end))
  | None => None
  end.

(** The registration part of a key's state: processor and default. *)
Definition registration {V} (e : option (entry V)) : option (proc V * string) :=
  option_map (fun e => (e_proc e, e_def e)) e.

(** The hits among some keys, in order. *)
Fixpoint hits {A} (f : string -> option A) (keys : list string) : list (string * A) :=
  match keys with
  | [] => []
  | k :: rest => match f k with Some v => (k, v) :: hits f rest | None => hits f rest end
  end.

(** The call does not mention key [k] in an updating way. *)
Definition spares {V} (k : string) (o : sop V) : Prop :=
  match o with
  | ORegister k' _ _ | ODeregister k' | OUpdate k' _ | OUpdateNoPersist k' _ | OReset k' => k' <> k
  | OBatchUpdate kvs => ~ In k (map fst kvs)
  | _ => True
  end.

(** Some update of [k] that has been accepted but not yet written is overtaken by a deregistration
    of [k]. *)
Definition overtaken (k : string) (tr : list sevt) : Prop :=
  exists t v l1 l2 l3, tr = l1 ++ [EUpdating t k v] ++ l2 ++ [EDeregistered k] ++ l3 /\
    ~ In (EUpdated t None) l2.

(** The registrations and deregistrations of a schedule, in order. *)
Fixpoint reg_ops {V} (sched : list (slab V)) : list (sop V) :=
  match sched with
  | [] => []
  | LRegister k d vp :: rest => ORegister k d vp :: reg_ops rest
  | LDeregister k :: rest => ODeregister k :: reg_ops rest
  | _ :: rest => reg_ops rest
  end.

(** With the registrations [reg], an update of [k] to [v] is rejected. *)
Definition rejected {V} (reg : option (proc V * string)) (k v : string) : bool :=
  negb (String.eqb k "") &&
  match reg with Some (p, _) => negb (accepts p v) | None => true end.

(** The error such an update reports. *)
Definition rejection {V} (reg : option (proc V * string)) (k v : string) : kverror :=
  KVError k v
    match reg with
    | Some (p, _) => snd (p_validate p v)
    | None => ("key[" ++ k ++ "] not registered")%string
    end.

Definition is_register {V} (o : sop V) : Prop := match o with ORegister _ _ _ => True | _ => False end.

(** The clock readings of a sequence of DoLoad calls, in order. *)
Definition readings (calls : list (Z * Z * bool)) : list Z :=
  flat_map (fun c => [fst (fst c); snd (fst c)]) calls.

(** Among the calls [calls] with decisions [ds], a load that succeeded and ended at [e]. *)
Definition succeeded (calls : list (Z * Z * bool)) (ds : list bool) (e : Z) : Prop :=
  exists now, In ((now, e, true), true) (combine calls ds).
