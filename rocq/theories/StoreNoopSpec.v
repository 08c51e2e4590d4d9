(** Specification of the store that persists nothing: one entry per key, and what each call answers. *)
From Verif Require Import Common Bytes Threads StoreModel StoreSpec.
Local Open Scope string_scope.
Local Open Scope list_scope.

(** What a call answers when key [k] is in state [est k]. *)
Definition answer {V} (est : string -> option (entry V)) (o : sop V) : sres V :=
  let reg k := registration (est k) in
  match o with
  | ORegister k d vp =>
    RErr (if k =? "" then Some "key is required"
          else match vp, est k with
               | None, _ => Some "ValueProcessor is required"
               | Some _, Some _ => Some ("key[" ++ k ++ "] ValueProcessor duplicated")%string
               | Some p, None => if accepts p d then None else Some (snd (p_validate p d))
               end)
  | ODeregister _ | OReset _ => RDone
  | OUpdate k v | OUpdateNoPersist k v =>
    RKVErr (if rejected (reg k) k v then Some (rejection (reg k) k v) else None)
  | OBatchUpdate kvs =>
    RKVErrs (map (fun kv => rejection (reg (fst kv)) (fst kv) (snd kv))
               (filter (fun kv => rejected (reg (fst kv)) (fst kv) (snd kv)) kvs))
  | OGet k => RVal (current_value (est k))
  | OGetString k => RStr (current (est k))
  | OMustGet k => match current_value (est k) with Some v => RMust v | None => RPanic end
  | OMustGetString k => match current (est k) with Some v => RMustStr v | None => RPanic end
  | OBatchGet ks => RVals (hits (fun k => current_value (est k)) ks)
  | OBatchGetString ks => RStrs (hits (fun k => current (est k)) ks)
  end.

(** What the calls [os] answer after the calls [pre]. *)
Fixpoint answers {V} (pre os : list (sop V)) : list (sres V) :=
  match os with
  | [] => []
  | o :: rest => answer (fun k => key_state k pre) o :: answers (pre ++ [o]) rest
  end.
