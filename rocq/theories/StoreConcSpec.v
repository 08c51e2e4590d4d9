(** Specification of the config store under concurrency. *)
From Coq Require Import Permutation.
From Verif Require Import Common Bytes Threads StoreModel StoreSpec StoreConcModel.
Local Open Scope list_scope.

(** The call goroutine [t] is in, and on which store, after the events [tr]. *)
Definition calling_step {V} (t : nat) (c : option (nat * sop V)) (e : cevent V) : option (nat * sop V) :=
  match e with
  | ECalled u j o => if Nat.eqb u t then Some (j, o) else c
  | EReturned u _ _ _ => if Nat.eqb u t then None else c
  end.
Definition calling {V} (t : nat) (tr : list (cevent V)) : option (nat * sop V) := fold_left (calling_step t) tr None.

(** The maps of a store and the time of the last load: Go memory that several goroutines use. *)
Inductive memory := MProcs | MDef | MDefStr | MKv | MKvStr | MLast.

(** What an action reads ([false]) and writes ([true]) of them. *)
Definition accesses {V} (i : instr V) : list (memory * bool) :=
  match i with
  | IClock => [(MLast, false)]                                                    (* loader.go:46 *)
  | IMark => [(MLast, true)]                                                      (* loader.go:54 *)
  | ILookup _ _ _ => [(MProcs, false)]                                            (* store.go:144 *)
  | IWrite _ _ _ => [(MKv, true); (MKvStr, true)]                                 (* store.go:164-165 *)
  | IRegister _ _ _ => [(MProcs, true); (MDef, true); (MDefStr, true)]            (* store.go:53-68 *)
  | IDrop _ => [(MProcs, true); (MKv, true); (MKvStr, true); (MDef, true); (MDefStr, true)]   (* store.go:84-88 *)
  | IClear _ => [(MKv, true); (MKvStr, true)]                                     (* store.go:259-260 *)
  | IRead _ => [(MKv, false); (MDef, false)]                                      (* store.go:230-235 *)
  | IReadStr _ => [(MKvStr, false); (MDefStr, false)]                             (* store.go:245-251 *)
  | _ => []
  end.

(** Goroutine [t] is about to access the memory [x] of store [j]. *)
Definition about_to {V} (w : cworld V) (t j : nat) (x : memory) (write : bool) : Prop :=
  exists th i rest, nth_error (c_threads w) t = Some th /\ t_node th = j /\ t_prog th = i :: rest /\ In (x, write) (accesses i).

(** Two goroutines are about to access the same memory, at least one of them for writing. *)
Definition race {V} (w : cworld V) : Prop :=
  exists t u j x a b, t <> u /\ about_to w t j x a /\ about_to w u j x b /\ a || b = true.

(** Schedules. *)
Definition no_calls {V} (l : clabel V) : Prop := match l with CCall _ _ _ => False | CStep _ _ => True end.

(** How many labels of a schedule are carried out. *)
Fixpoint carried_out {A L E} (step : A -> L -> option (A * list E)) (s : A) (sched : list L) : nat :=
  match sched with
  | [] => 0
  | l :: rest => match step s l with Some (s', _) => S (carried_out step s' rest) | None => carried_out step s rest end
  end.

(** A fair way to go on without new calls: every goroutine gets its turn again and again. *)
Definition fair_steps {V} (n : nat) (f : nat -> clabel V) : Prop :=
  (forall m, no_calls (f m)) /\
  forall t m, (t < n)%nat -> exists m' now, (m <= m')%nat /\ f m' = CStep t now.
Definition prefix {A} (m : nat) (f : nat -> A) : list A := map f (seq 0 m).

(** A call that may change what is saved for key [k], or key [k] of store [j]. *)
Definition interferes {V} (j : nat) (k : string) (j' : nat) (o : sop V) : Prop :=
  match o with
  | ODeregister k' | OUpdate k' _ | OReset k' => k' = k
  | OBatchUpdate kvs => In k (map fst kvs)
  | ORegister k' _ _ | OUpdateNoPersist k' _ => j' = j /\ k' = k
  | _ => False
  end.

Definition spares_key {V} (j : nat) (k : string) (l : clabel V) : Prop :=
  match l with CCall _ j' o => ~ interferes j k j' o | CStep _ _ => True end.

Definition is_read {V} (o : sop V) : bool :=
  match o with OGet _ | OGetString _ | OMustGet _ | OMustGetString _ | OBatchGet _ | OBatchGetString _ => true | _ => false end.

(** No call that may change key [k] is under way. *)
Definition calm {V} (j : nat) (k : string) (tr : list (cevent V)) : Prop :=
  forall t j' o, calling t tr = Some (j', o) -> ~ interferes j k j' o.
(** No call that reads store [j] is under way. *)
Definition unread {V} (j : nat) (tr : list (cevent V)) : Prop :=
  forall t o, calling t tr = Some (j, o) -> is_read o = false.

(** The result [r] of the call [o] shows the text [s] and the value [x] for key [k]. *)
Definition count (k : string) (ks : list string) : nat := length (filter (String.eqb k) ks).
Definition entries {A} (k : string) (l : list (string * A)) : list (string * A) := filter (fun kv => String.eqb k (fst kv)) l.
Definition copies {A} (k : string) (x : option A) (n : nat) : list (string * A) :=
  match x with Some v => repeat (k, v) n | None => [] end.
Definition shows {V} (k : string) (s : option string) (x : option V) (o : sop V) (r : sres V) : Prop :=
  match o with
  | OGet k' => k' = k -> r = RVal x
  | OGetString k' => k' = k -> r = RStr s
  | OMustGet k' => k' = k -> r = match x with Some v => RMust v | None => RPanic end
  | OMustGetString k' => k' = k -> r = match s with Some v => RMustStr v | None => RPanic end
  | OBatchGet ks => exists vs, r = RVals vs /\ entries k vs = copies k x (count k ks)
  | OBatchGetString ks => exists vs, r = RStrs vs /\ entries k vs = copies k s (count k ks)
  | _ => True
  end.

(** Key [k] of store [j]: its processor, what it reads as now, what is saved. *)
Definition has_processor {V} (w : cworld V) (j : nat) (k : string) (p : proc V) : Prop :=
  exists n, nth_error (c_nodes w) j = Some n /\ s_procs (n_maps n) k = Some p.
Definition reads_as {V} (w : cworld V) (j : nat) (k : string) (s : option string) (x : option V) : Prop :=
  exists n, nth_error (c_nodes w) j = Some n /\ read_string (n_maps n) k = s /\ read_value (n_maps n) k = x.
Definition saved {V} (w : cworld V) (k : string) : option string := hget (r_hash (c_redis w)) k.
(** Every Redis command from here on succeeds. *)
Definition redis_works {V} (ok : nat -> bool) (w : cworld V) : Prop :=
  forall m, (r_cmds (c_redis w) <= m)%nat -> ok m = true.
(** Maps are iterated over in some order. *)
Definition any_order (ord : nat -> list (string * string) -> list (string * string)) : Prop := forall m l, Permutation l (ord m l).

(** The text and the value key [k] of store [j] has when nothing has been written for it. *)
Definition defaults {V} (w : cworld V) (j : nat) (k : string) (s : option string) (x : option V) : Prop :=
  exists n, nth_error (c_nodes w) j = Some n /\ s_defstr (n_maps n) k = s /\ s_def (n_maps n) k = x.

(** The clock does not show more than [z]; goroutine [t] does not see it show less than [z]. *)
Definition until {V} (z : Z) (l : clabel V) : Prop := match l with CStep _ now => (now <= z)%Z | CCall _ _ _ => True end.
Definition sees_from {V} (t : nat) (z : Z) (l : clabel V) : Prop :=
  match l with CStep u now => u = t -> (z <= now)%Z | CCall _ _ _ => True end.
(** No call that reads store [j]. *)
Definition no_reads {V} (j : nat) (l : clabel V) : Prop :=
  match l with CCall _ j' o => j' = j -> is_read o = false | CStep _ _ => True end.
