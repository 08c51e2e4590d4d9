(** Specification of config loading: which fields there are, what a yaml document, the environment and
    the command line say about a field. *)
From Coq Require Import Relations.
From Verif Require Import Common Bytes ConfNamesModel ConfNamesSpec ConfLoadModel.
Local Open Scope string_scope.
Local Open Scope list_scope.

(** * Getting at fields *)

(** A field is named by the steps that lead to it from the config variable. *)
Inductive step := SField (i : nat) | SDeref.

(** Where the steps lead: exported and embedded fields, non-nil pointers. *)
Fixpoint walk (E : tenv) (m : mem) (l : loc) (t : ty) (p : list step) : option (loc * ty) :=
  match p with
  | [] => Some (l, t)
  | SField i :: p' =>
    match t with
    | TStruct s =>
      match nth_error (E s) i with
      | Some f => if fexp f || fanon f then walk E m (fld l i) (fty f) p' else None
      | None => None
      end
    | _ => None
    end
  | SDeref :: p' =>
    match t with
    | TPtr t' => match cells m l with CPtr l' => walk E m l' t' p' | _ => None end
    | _ => None
    end
  end.

(** The value of the field at [p]; a field below a nil pointer counts as zero. *)
Definition value_at (E : tenv) (m : mem) (l : loc) (t : ty) (p : list step) : cell :=
  match walk E m l t p with Some (l', _) => cells m l' | None => CZero end.

(** No two ways to the same variable: no pointer leads to something that can be reached otherwise. *)
Definition unshared (E : tenv) (m : mem) (l : loc) (t : ty) : Prop :=
  forall p1 p2 l' t1 t2,
    walk E m l t p1 = Some (l', t1) -> walk E m l t p2 = Some (l', t2) -> p1 = p2.

(** Pointers point to allocated objects. *)
Definition allocated (m : mem) (l : loc) : Prop := (fst l < next m)%nat.
Definition mem_ok (m : mem) : Prop := forall l l', cells m l = CPtr l' -> allocated m l'.

(** Field names are not empty. *)
Definition names_ok (E : tenv) : Prop := forall s f, In f (E s) -> fname f <> "".

(** The ways on from an exported field of type [t] to a value: none, or one pointer. *)
Inductive through : ty -> list step -> ty -> Prop :=
| through_here t : through t [] t
| through_ptr t : through (TPtr t) [SDeref] t.

(** [settable E s p t]: the steps [p] lead from a struct [s] to a field of type [t], through exported
    fields that are structs or pointers to structs. *)
Inductive settable (E : tenv) : nat -> list step -> ty -> Prop :=
| settable_here s i f :
    nth_error (E s) i = Some f -> fexp f = true -> settable E s [SField i] (fty f)
| settable_below s i f q s' p t :
    nth_error (E s) i = Some f -> fexp f = true -> through (fty f) q (TStruct s') ->
    settable E s' p t -> settable E s (SField i :: q ++ p) t.

(** [visible E s names p k named]: the steps [p] lead from a struct [s] to a value of a supported kind
    through exported fields; [names] are the names of the fields on the way that are not embedded. *)
Definition own_name (f : field) : list string := if fanon f then [] else [fname f].
Inductive visible (E : tenv) : nat -> list string -> list step -> kind -> bool -> Prop :=
| visible_here s i f q k named :
    nth_error (E s) i = Some f -> fexp f = true -> through (fty f) q (TScalar k named) ->
    visible E s (own_name f) (SField i :: q) k named
| visible_below s i f q s' names p k named :
    nth_error (E s) i = Some f -> fexp f = true -> through (fty f) q (TStruct s') ->
    visible E s' names p k named ->
    visible E s (own_name f ++ names) (SField i :: q ++ p) k named.

(** A struct directly inside another: an exported field holds it or points to it. *)
Definition inside (E : tenv) (s' s : nat) : Prop :=
  exists f q, In f (E s) /\ fexp f = true /\ through (fty f) q (TStruct s').

(** A type that contains, at some depth, a type that contains itself. *)
Definition recursive (E : tenv) (s : nat) : Prop :=
  exists s', clos_refl_trans nat (inside E) s' s /\ clos_trans nat (inside E) s' s'.

(** * What the command line says *)

Definition dashes (d : string) : Prop := d = "-" \/ d = "--".
(** A text that can be a flag name. *)
Definition flag_name (n : string) : Prop :=
  n <> "" /\ ~ mentions "=" n /\ forall r, n <> ("-" ++ r)%string.
(** An argument that ends the flags. *)
Definition ends_flags (a : string) : Prop :=
  a = "-" \/ a = "--" \/ forall r, a <> ("-" ++ r)%string.

(** [gives known args asg]: the arguments are the assignments [asg] followed by the remaining
    arguments; [known n b]: there is a flag [n], [b] tells whether it is boolean. *)
Inductive gives (known : string -> bool -> Prop) : list string -> list (string * string) -> Prop :=
| gives_end : gives known [] []
| gives_rest a rest : ends_flags a -> gives known (a :: rest) []
| gives_eq d n b v rest asg :
    dashes d -> flag_name n -> known n b -> gives known rest asg ->
    gives known ((d ++ n ++ "=" ++ v)%string :: rest) ((n, v) :: asg)
| gives_bool d n rest asg :
    dashes d -> flag_name n -> known n true -> gives known rest asg ->
    gives known ((d ++ n)%string :: rest) ((n, "true") :: asg)
| gives_next d n v rest asg :
    dashes d -> flag_name n -> known n false -> gives known rest asg ->
    gives known ((d ++ n)%string :: v :: rest) ((n, v) :: asg).

(** The last value given to a flag. *)
Fixpoint last_given (asg : list (string * string)) (n : string) : option string :=
  match asg with
  | [] => None
  | (n', v) :: asg' =>
    match last_given asg' n with
    | Some v' => Some v'
    | None => if (n =? n')%string then Some v else None
    end
  end.

(** * What a yaml document says *)

Inductive said := SaidNull | Said (s : string).

(** The steps to the field a key selects: field indices, with any number of pointers before each. *)
Inductive index_path (E : tenv) : ty -> list nat -> list step -> ty -> Prop :=
| index_end t : index_path E t [] [] t
| index_ptr t i idx p t' :
    index_path E t (i :: idx) p t' -> index_path E (TPtr t) (i :: idx) (SDeref :: p) t'
| index_field s i f idx p t' :
    nth_error (E s) i = Some f -> fexp f = true \/ fanon f = true -> index_path E (fty f) idx p t' ->
    index_path E (TStruct s) (i :: idx) (SField i :: p) t'.

(** [says key E t n p x]: the document [n], read as a value of type [t], says [x] about the variable
    at [p]. *)
Inductive says (key : nat -> string -> option (list nat)) (E : tenv)
  : ty -> ynode -> list step -> said -> Prop :=
| says_null t : says key E (TPtr t) YNull [] SaidNull
| says_scalar k named s : says key E (TScalar k named) (YScalar s) [] (Said s)
| says_ptr t n p x : n <> YNull -> says key E t n p x -> says key E (TPtr t) n (SDeref :: p) x
| says_entry s kvs name n idx q t p x :
    In (name, n) kvs -> key s name = Some idx -> index_path E (TStruct s) idx q t ->
    says key E t n p x -> says key E (TStruct s) (YMap kvs) (q ++ p) x.

(** Different keys select different fields, and not a field inside another's. *)
Definition keys_ok (key : nat -> string -> option (list nat)) : Prop :=
  forall s n1 n2 i1 i2 r,
    key s n1 = Some i1 -> key s n2 = Some i2 -> i2 = i1 ++ r -> n1 = n2.

(** The document does not set a pointer on the way [p] to null. *)
Definition no_null_on (key : nat -> string -> option (list nat)) (E : tenv) (t : ty) (n : ynode)
  (p : list step) : Prop :=
  forall p1 p2, p = p1 ++ p2 -> ~ says key E t n p1 SaidNull.

(** No field is set twice by a mapping. *)
Definition set_once (key : nat -> string -> option (list nat)) (s : nat) (kvs : list (string * ynode)) : Prop :=
  forall i j n1 n2 x1 x2 idx,
    nth_error kvs i = Some (n1, x1) -> nth_error kvs j = Some (n2, x2) ->
    key s n1 = Some idx -> key s n2 = Some idx -> i = j.

(** The document can be decoded into a value of type [t]. *)
Inductive fits (w : world) (E : tenv) : ty -> ynode -> Prop :=
| fits_null t : t <> TOther -> fits w E t YNull
| fits_other n : w_yother w n <> None -> fits w E TOther n
| fits_ptr t n : n <> YNull -> fits w E t n -> fits w E (TPtr t) n
| fits_scalar k named s : w_yscalar w k s <> None -> fits w E (TScalar k named) (YScalar s)
| fits_map s kvs :
    set_once (w_key w) s kvs ->
    (forall name n idx, In (name, n) kvs -> w_key w s name = Some idx ->
       idx <> [] /\ exists q t, index_path E (TStruct s) idx q t /\ fits w E t n) ->
    fits w E (TStruct s) (YMap kvs).

(** * Load *)

Definition is_bool (k : kind) : bool := match k with KBool => true | _ => false end.

(** The flags that exist when Load parses the command line. *)
Definition known_flag (w : world) (E : tenv) (s : nat) (yname n : string) (b : bool) : Prop :=
  (exists accepts, In (n, (b, accepts)) (w_pre w)) \/
  (n = yname /\ yname <> "" /\ b = false) \/
  (exists names p k named, visible E s names p k named /\ n = flag_style (dotted names) /\ b = is_bool k).

(** The document that the yaml flag names; an empty one if there is none. *)
Definition config_doc (w : world) (yname : string) (asg : list (string * string)) : option ynode :=
  match last_given asg yname with
  | None => Some YNull
  | Some f => if (f =? "")%string then Some YNull else w_file w f
  end.

(** The value a field has to get: [flag], [env] and [yaml] are what was said about it. *)
Definition expected (w : world) (k : kind) (flag env : option string) (yaml : string -> Prop)
  (initial c : cell) : Prop :=
  match flag, env with
  | Some v, _ => exists x, w_parse w k v = Some x /\ c = CVal x
  | None, Some v => exists x, w_parse w k v = Some x /\ c = CVal x
  | None, None =>
    (forall s, yaml s -> exists x, w_yscalar w k s = Some x /\ c = CVal x) /\
    ((forall s, ~ yaml s) -> c = initial)
  end.

(** Two names that are the same, or a field that cannot be registered. *)
Definition conflict (w : world) (E : tenv) (s : nat) (yname : string) : Prop :=
  (yname <> "" /\ In yname (map fst (w_pre w))) \/
  (exists names p k, visible E s names p k true) \/
  (exists names1 p1 k1 d1 names2 p2 k2 d2,
     visible E s names1 p1 k1 d1 /\ visible E s names2 p2 k2 d2 /\ p1 <> p2 /\
     (env_style (dotted names1) = env_style (dotted names2) \/
      flag_style (dotted names1) = flag_style (dotted names2))) \/
  (exists names p k d, visible E s names p k d /\
     (flag_style (dotted names) = yname /\ yname <> "" \/
      In (flag_style (dotted names)) (map fst (w_pre w)))).
