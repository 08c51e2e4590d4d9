(** Executable model of config loading (/repo/conf/{reflect,env,flag,yaml,conf}.go).

    Reflection.  A Go type is a [ty]; struct types are numbered and a type environment lists the
    fields of each, so recursive types can be expressed.  A variable lives at a location: an
    allocated object and the indices of the fields leading into it.  Memory maps locations of
    pointer and scalar variables to cells; [CZero] is the zero value of whatever type the variable has
    (nil for a pointer).  Pointers may point anywhere, also into the middle of an object.

    [encoding/flag] is modelled for what is used: registration with the panic on a redefined name,
    [Set], and the argument syntax of [Parse].  [gopkg.in/yaml.v3] is modelled on documents that are
    trees of null, scalars, mappings and sequences (aliases, merge keys and custom unmarshalers are
    not modelled).  Conversions of text to a value are inputs. *)
From Verif Require Import Common Bytes ConfNamesModel.
Local Open Scope string_scope.
Local Open Scope list_scope.

(** The kinds that conf/reflect.go:126-127 accepts; [KDuration] is the type time.Duration, whose kind
    is Int64. *)
Inductive kind := KBool | KFloat64 | KInt | KInt64 | KString | KUint | KUint64 | KDuration.

(** [TScalar k named]: [named] is true for a defined type ("type Port int") other than time.Duration.
    [TOther] is every other type (slices, maps, int32, interfaces, ...). *)
Inductive ty :=
| TScalar (k : kind) (named : bool)
| TStruct (s : nat)
| TPtr (t : ty)
| TOther.

(** reflect.StructField: Name, Anonymous, PkgPath == "", Type. *)
Record field := mkField { fname : string; fanon : bool; fexp : bool; fty : ty }.
Definition tenv : Type := nat -> list field.

Definition loc : Type := nat * list nat.
Definition loc_dec : forall a b : loc, {a = b} + {a <> b}.
Proof. repeat decide equality. Defined.
(** The variable that is field number [i] of the struct variable [l]. *)
Definition fld (l : loc) (i : nat) : loc := (fst l, snd l ++ [i]).

Inductive scalar := SBool (b : bool) | SInt (z : Z) | SFloat (bits : Z) | SStr (s : string) | SAny (n : nat).
Inductive cell := CZero | CPtr (l : loc) | CVal (v : scalar).
Record mem := mkMem { cells : loc -> cell; next : nat }.

Definition store (m : mem) (l : loc) (c : cell) : mem :=
  mkMem (fun l' => if loc_dec l' l then c else cells m l') (next m).
(** reflect.New: a fresh object, all zero. *)
Definition alloc (m : mem) : mem :=
  mkMem (fun l' => if Nat.eqb (fst l') (next m) then CZero else cells m l') (S (next m)).
Definition is_nil (c : cell) : bool := match c with CPtr _ => false | _ => true end.

(** "v.Set(reflect.New(t))" for the pointer variable [l]. *)
Definition set_new (m : mem) (l : loc) : mem := store (alloc m) l (CPtr (next m, [])).

(** A loop over the fields of a struct with the field's index. *)
Fixpoint each {A} (f : A -> nat -> field -> option A) (i : nat) (fs : list field) (a : A) : option A :=
  match fs with
  | [] => Some a
  | x :: fs' => match f a i x with Some a' => each f (S i) fs' a' | None => None end
  end.

(** conf/reflect.go:31-59 initPtrValue for the variable [l]; [ro] is "not CanSet" (reached through an
    unexported field; variables are addressable).  What v.Elem() yields can be set iff [v] can.
    [None]: the recursion is deeper than [fuel]. *)
Fixpoint init_at (fuel : nat) (E : tenv) (m : mem) (l : loc) (t : ty) (ro : bool) : option mem :=
  match fuel with
  | O => None
  | S n =>
    let body := fun m l t =>
      if ro then Some m
      else match t with
           | TStruct s =>
             each (fun m i f => init_at n E m (fld l i) (fty f) (negb (fexp f))) 0 (E s) m
           | _ => Some m
           end in
    match t with
    | TPtr t' =>
      let m := if is_nil (cells m l) && negb ro then set_new m l else m in
      match cells m l with
      | CPtr l' => body m l' t'
      | _ => Some m
      end
    | _ => body m l t
    end
  end.

(** conf/reflect.go:26-28 initStruct for a non-nil pointer to the variable [l] of type [t].  The pointer
    itself is not nil, so only its target is looked at. *)
Definition init_struct (fuel : nat) (E : tenv) (m : mem) (l : loc) (t : ty) : option mem :=
  match t with
  | TStruct s => each (fun m i f => init_at fuel E m (fld l i) (fty f) (negb (fexp f))) 0 (E s) m
  | _ => Some m
  end.

(** One call of the visitor: the path and the variable. *)
Record entry := mkEntry { epath : string; eloc : loc; ekind : kind; enamed : bool }.

(** conf/reflect.go:111-151 visitExportedFieldsPath; the calls of the visitor are listed in order (a
    visitor never changes which fields exist). *)
Fixpoint visit_path (fuel : nat) (E : tenv) (m : mem) (l : loc) (t : ty) (ro : bool) (path : string)
  : option (list entry) :=
  match fuel with
  | O => None
  | S n =>
    let body := fun l t =>
      if ro then Some []
      else match t with
           | TScalar k named => Some [mkEntry path l k named]
           | TStruct s =>
             each (fun acc i f =>
                     let path' := if fanon f then path
                                  else if (path =? "")%string then fname f
                                  else (path ++ "." ++ fname f)%string in
                     match visit_path n E m (fld l i) (fty f) (negb (fexp f)) path' with
                     | Some es => Some (acc ++ es)
                     | None => None
                     end) 0 (E s) []
           | _ => Some []
           end in
    match t with
    | TPtr t' => match cells m l with CPtr l' => body l' t' | _ => Some [] end
    | _ => body l t
    end
  end.

(** conf/reflect.go:80-109 visitExportedFields for a non-nil pointer to [l]. *)
Definition visit (fuel : nat) (E : tenv) (m : mem) (l : loc) (t : ty) : option (list entry) :=
  match t with
  | TStruct s =>
    each (fun acc i f =>
            match visit_path fuel E m (fld l i) (fty f) (negb (fexp f))
                    (if fanon f then "" else fname f) with
            | Some es => Some (acc ++ es)
            | None => None
            end) 0 (E s) []
  | _ => Some []
  end.

(** What a registered flag is bound to: a config variable, the local variable yamlFile
    (conf/conf.go:36-39), or a variable of somebody else who registered on the same flag set ([isbool]:
    a boolean flag; [accepts]: which texts its Set takes). *)
Inductive binding :=
| BField (k : kind) (l : loc)
| BYaml
| BForeign (isbool : bool) (accepts : string -> bool).
Definition flagset : Type := list (string * binding).

Fixpoint find_flag (fs : flagset) (n : string) : option binding :=
  match fs with
  | [] => None
  | (n', b) :: fs' => if (n =? n')%string then Some b else find_flag fs' n
  end.

(** flag.FlagSet.Var: panics ([None]) if the name is taken. *)
Definition add_flag (fs : flagset) (n : string) (b : binding) : option flagset :=
  match find_flag fs n with
  | Some _ => None
  | None => Some (fs ++ [(n, b)])
  end.

(** conf/env.go:43-73 and conf/flag.go:44-74: registering the visited fields.  A defined type fails the
    type assertion "vi.( *bool )" and panics.  BoolVar etc. also assign the default, which is the
    variable's own value, so memory does not change. *)
Fixpoint register (style : string -> string) (fs : flagset) (es : list entry) : option flagset :=
  match es with
  | [] => Some fs
  | e :: es' =>
    if enamed e then None
    else match add_flag fs (style (epath e)) (BField (ekind e) (eloc e)) with
         | Some fs' => register style fs' es'
         | None => None
         end
  end.

(** A parsed yaml document. *)
Inductive ynode :=
| YNull
| YScalar (s : string)
| YMap (kvs : list (string * ynode))
| YSeq (ns : list ynode).

(** The surroundings of a call of Load.
    [w_parse]: flag.Value.Set of each kind of flag;
    [w_env]: os.LookupEnv; [w_args]: os.Args[1:]; [w_pre]: what is on flag.CommandLine already
    (name, whether boolean, which texts are accepted);
    [w_file]: ioutil.ReadFile and the yaml parser ([None]: an error; a document without content is
    [YNull]);
    [w_key]: for a struct type and a mapping key the field the yaml library selects, as field indices
    (more than one for an inlined struct);
    [w_yscalar]: the yaml library's conversion of a scalar; [w_yother]: its decoding into other types. *)
Record world := mkWorld {
  w_parse : kind -> string -> option scalar;
  w_env : string -> option string;
  w_args : list string;
  w_pre : list (string * (bool * (string -> bool)));
  w_file : string -> option ynode;
  w_key : nat -> string -> option (list nat);
  w_yscalar : kind -> string -> option scalar;
  w_yother : ynode -> option scalar }.

Definition pre_flags (w : world) : flagset :=
  map (fun x => (fst x, BForeign (fst (snd x)) (snd (snd x)))) (w_pre w).

(** flag.Value.Set on the memory and the variable yamlFile.  [None]: an error. *)
Definition set_flag (w : world) (st : mem * string) (b : binding) (v : string) : option (mem * string) :=
  match b with
  | BField k l =>
    match w_parse w k v with
    | Some x => Some (store (fst st) l (CVal x), snd st)
    | None => None
    end
  | BYaml => Some (fst st, v)
  | BForeign _ accepts => if accepts v then Some st else None
  end.

(** Cutting a flag argument at the first '=' that is not its first character. *)
Fixpoint cut_eq (s : string) : string * option string :=
  match s with
  | String.EmptyString => ("", None)
  | String.String c s' =>
    if Ascii.eqb c "=" then ("", Some s')
    else let '(n, v) := cut_eq s' in (String.String c n, v)
  end.
Definition cut_name (s : string) : string * option string :=
  match s with
  | String.EmptyString => ("", None)
  | String.String c s' => let '(n, v) := cut_eq s' in (String.String c n, v)
  end.

(** The first argument of flag.FlagSet.parseOne: end of the flags, a syntax error, or a name with an
    optional value. *)
Inductive head := HStop | HBad | HFlag (name : string) (value : option string).
Definition parse_head (s : string) : head :=
  match s with
  | String.String c1 (String.String c2 r) =>
    if negb (Ascii.eqb c1 "-") then HStop
    else
      let '(name, stop) :=
        if Ascii.eqb c2 "-" then (r, match r with String.EmptyString => true | _ => false end)
        else (String.String c2 r, false) in
      if stop then HStop
      else match name with
           | String.EmptyString => HBad
           | String.String c _ =>
             if Ascii.eqb c "-" || Ascii.eqb c "=" then HBad
             else let '(n, v) := cut_name name in HFlag n v
           end
  | _ => HStop
  end.

Definition is_bool_flag (b : binding) : bool :=
  match b with
  | BField KBool _ => true
  | BForeign isbool _ => isbool
  | _ => false
  end.

(** flag.FlagSet.Parse: repeats parseOne.  [None]: an error (or a request for help), which ends the
    process. *)
Fixpoint parse_args (w : world) (fs : flagset) (args : list string) (st : mem * string)
  : option (mem * string) :=
  match args with
  | [] => Some st
  | a :: rest =>
    match parse_head a with
    | HStop => Some st
    | HBad => None
    | HFlag n v =>
      match find_flag fs n with
      | None => None
      | Some b =>
        match v with
        | Some v =>
          match set_flag w st b v with Some st' => parse_args w fs rest st' | None => None end
        | None =>
          if is_bool_flag b then
            match set_flag w st b "true" with Some st' => parse_args w fs rest st' | None => None end
          else
            match rest with
            | [] => None
            | v :: rest' =>
              match set_flag w st b v with Some st' => parse_args w fs rest' st' | None => None end
            end
        end
      end
    end
  end.

(** conf/env.go:77-90 envResolver.Resolve; [names] is r.environ. *)
Fixpoint env_resolve (w : world) (fs : flagset) (names : list string) (st : mem * string)
  : option (mem * string) :=
  match names with
  | [] => Some st
  | n :: names' =>
    match w_env w n with
    | None => env_resolve w fs names' st
    | Some v =>
      match find_flag fs n with
      | None => None
      | Some b =>
        match set_flag w st b v with
        | Some st' => env_resolve w fs names' st'
        | None => None
        end
      end
    end
  end.

(** yaml.v3 decode.go prepare: follows pointers, allocating where they are nil. *)
Fixpoint deref (m : mem) (l : loc) (t : ty) : mem * loc * ty :=
  match t with
  | TPtr t' =>
    let m := if is_nil (cells m l) then set_new m l else m in
    match cells m l with
    | CPtr l' => deref m l' t'
    | _ => (m, l, t)
    end
  | _ => (m, l, t)
  end.

(** yaml.v3 decode.go fieldByIndex.  Only exported and embedded fields have keys; anything else does
    not occur and is an error here. *)
Fixpoint field_by_index (E : tenv) (m : mem) (l : loc) (t : ty) (idx : list nat) : option (mem * loc * ty) :=
  match idx with
  | [] => Some (m, l, t)
  | i :: idx' =>
    match deref m l t with
    | (m, l, TStruct s) =>
      match nth_error (E s) i with
      | Some f => if fexp f || fanon f then field_by_index E m (fld l i) (fty f) idx' else None
      | None => None
      end
    | _ => None
    end
  end.

Fixpoint idx_in (i : list nat) (l : list (list nat)) : bool :=
  match l with
  | [] => false
  | j :: l' => if list_eq_dec Nat.eq_dec i j then true else idx_in i l'
  end.

(** yaml.v3 decode.go mappingStruct: the entries of a mapping decoded into a struct, with [unmarshal]
    for the values.  Unknown keys are ignored; setting a field twice is an error. *)
Definition entries (un : mem -> loc -> ty -> ynode -> option mem) (w : world) (E : tenv) (s : nat) (l : loc) :=
  fix go (kvs : list (string * ynode)) (seen : list (list nat)) (m : mem) : option mem :=
    match kvs with
    | [] => Some m
    | (key, n) :: kvs' =>
      match w_key w s key with
      | None => go kvs' seen m
      | Some idx =>
        if idx_in idx seen then None
        else match idx with
             | [] => None
             | _ :: _ =>
               match field_by_index E m l (TStruct s) idx with
               | None => None
               | Some (m, l', t') =>
                 match un m l' t' n with
                 | None => None
                 | Some m => go kvs' (idx :: seen) m
                 end
               end
             end
      end
    end.

(** yaml.v3 decode.go unmarshal into the variable [l].  [None]: a type error is recorded; decoding goes
    on but ends with an error, and Load exits.  A null sets pointers and other nillable types to
    their zero value and leaves the rest alone.  Decoding into other types is opaque and only writes the
    variable itself. *)
Fixpoint unmarshal (w : world) (E : tenv) (m : mem) (l : loc) (t : ty) (n : ynode) {struct n} : option mem :=
  match n with
  | YNull =>
    match t with
    | TPtr _ => Some (store m l CZero)
    | TOther => match w_yother w n with Some v => Some (store m l (CVal v)) | None => None end
    | _ => Some m
    end
  | _ =>
    let '(m, l, t) := deref m l t in
    match t with
    | TOther => match w_yother w n with Some v => Some (store m l (CVal v)) | None => None end
    | TScalar k _ =>
      match n with
      | YScalar s => match w_yscalar w k s with Some v => Some (store m l (CVal v)) | None => None end
      | _ => None
      end
    | TStruct s =>
      match n with
      | YMap kvs => entries (unmarshal w E) w E s l kvs [] m
      | _ => None
      end
    | TPtr _ => None
    end
  end.

(** conf/yaml.go:29-41 yamlFileResolver.Resolve. *)
Definition yaml_resolve (w : world) (E : tenv) (m : mem) (l : loc) (t : ty) (file : string) : option mem :=
  match w_file w file with
  | None => None
  | Some doc => unmarshal w E m l t doc
  end.

Inductive outcome := Loaded (m : mem) | Exited | Panicked | OutOfFuel.

(** conf/conf.go:30-64 Load for a non-nil pointer to the variable [l] of type [t].  flag.Parse (line 48)
    and flagResolver.Resolve (lines 57-62) both parse the arguments on the same flag set. *)
Definition load (fuel : nat) (w : world) (E : tenv) (m : mem) (l : loc) (t : ty) (yname : string) : outcome :=
  match init_struct fuel E m l t with
  | None => OutOfFuel
  | Some m1 =>
    match (if (yname =? "")%string then Some (pre_flags w) else add_flag (pre_flags w) yname BYaml) with
    | None => Panicked
    | Some fs0 =>
      match visit fuel E m1 l t with
      | None => OutOfFuel
      | Some es =>
        match register env_style [] es with
        | None => Panicked
        | Some efs =>
          match register flag_style fs0 es with
          | None => Panicked
          | Some ffs =>
            match parse_args w ffs (w_args w) (m1, "") with
            | None => Exited
            | Some (m2, file) =>
              match (if (file =? "")%string then Some m2 else yaml_resolve w E m2 l t file) with
              | None => Exited
              | Some m3 =>
                match env_resolve w efs (map (fun e => env_style (epath e)) es) (m3, file) with
                | None => Exited
                | Some st4 =>
                  match parse_args w ffs (w_args w) st4 with
                  | None => Exited
                  | Some (m5, _) => Loaded m5
                  end
                end
              end
            end
          end
        end
      end
    end
  end.
