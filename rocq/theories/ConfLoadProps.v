(** Theorems about config loading (C53-C55).  [s] is the type of the config variable, [l] the variable,
    [E] the declarations of the struct types.  The premises on memory: pointers point to something,
    and no two pointers below the config variable lead to the same place. *)
From Coq Require Import Relations.
From Verif Require Import Common Bytes ConfNamesModel ConfNamesSpec ConfLoadModel ConfLoadSpec
  ConfLoadProofs ConfLoadInit ConfLoadFlags ConfLoadYaml ConfLoadFits ConfLoadRuns ConfLoadEnd.
Local Open Scope string_scope.
Local Open Scope list_scope.
Local Open Scope nat_scope.

(** * C54 *)

(** Initialisation ends if the type does not contain itself, whatever the variable holds. *)
Theorem init_terminates : forall E s, Acc (inside E) s ->
  exists fuel, forall m l, init_struct fuel E m l (TStruct s) <> None.
Proof. exact init_terminates_fuel. Qed.
Print Assumptions init_terminates.

(** It never ends if the type contains a recursive type. *)
Theorem init_diverges : forall E s, recursive E s ->
  forall fuel m l, init_struct fuel E m l (TStruct s) = None.
Proof. exact (fun E s H fuel m l => init_diverges_fuel E (recursive E) (recursive_step E) fuel s m l H). Qed.
Print Assumptions init_diverges.

(** Afterwards no exported pointer field is nil. *)
Theorem init_no_nil : forall fuel E m l s m' p t,
  mem_ok m -> allocated m l -> unshared E m l (TStruct s) ->
  init_struct fuel E m l (TStruct s) = Some m' -> settable E s p (TPtr t) ->
  exists lp l', walk E m' l (TStruct s) p = Some (lp, TPtr t) /\ cells m' lp = CPtr l'.
Proof. exact no_nil. Qed.
Print Assumptions init_no_nil.

(** Only exported pointer fields that were nil have changed, to fresh objects; everything that could be
    reached still can, and every value is as before (values in fresh objects are zero). *)
Theorem init_keeps : forall fuel E m l s m',
  mem_ok m -> allocated m l -> unshared E m l (TStruct s) ->
  init_struct fuel E m l (TStruct s) = Some m' ->
  (forall a, allocated m a -> cells m' a <> cells m a ->
     (forall l', cells m a <> CPtr l') /\ (exists o, next m <= o /\ cells m' a = CPtr (o, [])) /\
     exists p t1, settable E s p (TPtr t1) /\ walk E m' l (TStruct s) p = Some (a, TPtr t1)) /\
  (forall p x, walk E m l (TStruct s) p = Some x -> walk E m' l (TStruct s) p = Some x) /\
  (forall p lp tp, walk E m' l (TStruct s) p = Some (lp, tp) -> (forall t, tp <> TPtr t) ->
     value_at E m' l (TStruct s) p = value_at E m l (TStruct s) p) /\
  mem_ok m' /\ unshared E m' l (TStruct s).
Proof. exact keeps. Qed.
Print Assumptions init_keeps.

(** * C55 *)

(** The visitor is called once for each supported field that can be reached, with its dotted path. *)
Theorem visit_exact : forall fuel E m l s es, names_ok E -> visit fuel E m l (TStruct s) = Some es ->
  exists ps, NoDup ps /\
    (forall p, In p ps <-> exists names k named lp, visible E s names p k named /\
                             walk E m l (TStruct s) p = Some (lp, TScalar k named)) /\
    Forall2 (fun p e => exists names, visible E s names p (ekind e) (enamed e) /\ epath e = dotted names /\
                          walk E m l (TStruct s) p = Some (eloc e, TScalar (ekind e) (enamed e))) ps es.
Proof. exact visited. Qed.
Print Assumptions visit_exact.

Theorem visit_terminates : forall E s, Acc (inside E) s ->
  exists fuel, forall m l, visit fuel E m l (TStruct s) <> None.
Proof. exact visit_ends. Qed.
Print Assumptions visit_terminates.

(** After initialisation all supported fields can be reached. *)
Theorem visit_after_init : forall fuel E m l s m' names p k named,
  mem_ok m -> allocated m l -> unshared E m l (TStruct s) ->
  init_struct fuel E m l (TStruct s) = Some m' -> visible E s names p k named ->
  exists lp, walk E m' l (TStruct s) p = Some (lp, TScalar k named).
Proof. exact visible_loaded. Qed.
Print Assumptions visit_after_init.

(** Load panics exactly if two fields have the same flag or env name, a flag name is already taken, or a
    field has a defined scalar type. *)
Theorem load_panics : forall fuel w E m l s yname,
  mem_ok m -> allocated m l -> unshared E m l (TStruct s) -> names_ok E ->
  load fuel w E m l (TStruct s) yname <> OutOfFuel ->
  (load fuel w E m l (TStruct s) yname = Panicked <-> conflict w E s yname).
Proof. exact panics_iff. Qed.
Print Assumptions load_panics.

(** * C53 *)

(** Load ends for types that do not contain themselves; for recursive types it does not. *)
Theorem load_terminates : forall E s, Acc (inside E) s ->
  exists fuel, forall w m l yname, load fuel w E m l (TStruct s) yname <> OutOfFuel.
Proof. exact load_fuel. Qed.
Print Assumptions load_terminates.

Theorem load_recursive : forall fuel w E m l s yname, recursive E s ->
  load fuel w E m l (TStruct s) yname = OutOfFuel.
Proof. exact load_diverges. Qed.
Print Assumptions load_recursive.

(** If Load succeeds, the command line can be read in exactly one way, there is a readable document, and
    each supported field that the document does not cut off holds the flag value, else the env value,
    else the yaml value, else its initial value. *)
Theorem load_precedence : forall fuel w E m l s yname,
  mem_ok m -> allocated m l -> unshared E m l (TStruct s) ->
  names_ok E -> keys_ok (w_key w) -> NoDup (map fst (w_pre w)) ->
  forall m', load fuel w E m l (TStruct s) yname = Loaded m' ->
  exists asg doc,
    (forall asg', gives (known_flag w E s yname) (w_args w) asg' <-> asg' = asg) /\
    config_doc w yname asg = Some doc /\
    forall names p k named, visible E s names p k named ->
      no_null_on (w_key w) E (TStruct s) doc p ->
      exists lp, walk E m' l (TStruct s) p = Some (lp, TScalar k named) /\
        expected w k (last_given asg (flag_style (dotted names))) (w_env w (env_style (dotted names)))
          (fun v => says (w_key w) E (TStruct s) doc p (Said v))
          (value_at E m l (TStruct s) p) (cells m' lp).
Proof. exact precedence. Qed.
Print Assumptions load_precedence.

(** Load succeeds exactly if there is no conflict of names, the arguments are flags that exist, followed
    by the rest, the file can be read and fits the type, and all values given by flags and envs can be
    parsed. *)
Theorem load_succeeds : forall fuel w E m l s yname,
  mem_ok m -> allocated m l -> unshared E m l (TStruct s) ->
  names_ok E -> keys_ok (w_key w) -> NoDup (map fst (w_pre w)) ->
  load fuel w E m l (TStruct s) yname <> OutOfFuel ->
  ((exists m', load fuel w E m l (TStruct s) yname = Loaded m') <->
   ~ conflict w E s yname /\
   exists asg doc,
     gives (known_flag w E s yname) (w_args w) asg /\
     config_doc w yname asg = Some doc /\ fits w E (TStruct s) doc /\
     (forall n b acc v, In (n, (b, acc)) (w_pre w) -> In (n, v) asg -> acc v = true) /\
     (forall names p k named v, visible E s names p k named ->
        In (flag_style (dotted names), v) asg \/ w_env w (env_style (dotted names)) = Some v ->
        w_parse w k v <> None)).
Proof. exact loads_iff. Qed.
Print Assumptions load_succeeds.

(** * An example

    type Conf struct { Name string; Db *Db; Base; hidden int; Tags []string }
    type Db struct { Port int; Ttl *time.Duration; Debug bool }
    type Base struct { Level string } *)
Definition demo_env (s : nat) : list field :=
  match s with
  | 0 => [mkField "Name" false true (TScalar KString false); mkField "Db" false true (TPtr (TStruct 1));
          mkField "Base" true true (TStruct 2); mkField "hidden" false false (TScalar KInt false);
          mkField "Tags" false true TOther]
  | 1 => [mkField "Port" false true (TScalar KInt false); mkField "Ttl" false true (TPtr (TScalar KDuration false));
          mkField "Debug" false true (TScalar KBool false)]
  | 2 => [mkField "Level" false true (TScalar KString false)]
  | _ => []
  end.
Definition demo_root : loc := (0, []).
Definition demo_mem : mem :=
  mkMem (fun l => if loc_dec l (0, [0]) then CVal (SStr "none")
                  else if loc_dec l (0, [2; 0]) then CVal (SStr "info") else CZero) 1.
Definition demo_parse (k : kind) (s : string) : option scalar :=
  match k with
  | KString => Some (SStr s)
  | KBool => if (s =? "true")%string then Some (SBool true) else if (s =? "false")%string then Some (SBool false) else None
  | _ => if (s =? "7")%string then Some (SInt 7) else if (s =? "8")%string then Some (SInt 8)
         else if (s =? "9")%string then Some (SInt 9) else None
  end.
Definition demo_key (s : nat) (n : string) : option (list nat) :=
  match s with
  | 0 => if (n =? "name")%string then Some [0] else if (n =? "db")%string then Some [1] else None
  | 1 => if (n =? "port")%string then Some [0] else if (n =? "ttl")%string then Some [1] else None
  | _ => None
  end.
Definition demo_file (doc : ynode) (f : string) : option ynode := if (f =? "c.yaml")%string then Some doc else None.
Definition demo_world (args : list string) (env : string -> option string) (doc : ynode) : world :=
  mkWorld demo_parse env args [("v", (true, fun s => (s =? "true")%string))] (demo_file doc) demo_key demo_parse (fun _ => None).

Example demo_mem_ok : mem_ok demo_mem /\ allocated demo_mem demo_root /\ unshared demo_env demo_mem demo_root (TStruct 0).
Proof.
  assert (H : forall a l', cells demo_mem a <> CPtr l').
  { intros a l'. cbn [cells demo_mem]. destruct (loc_dec a (0, [0])); [discriminate|].
    destruct (loc_dec a (0, [2; 0])); discriminate. }
  split; [intros a l' Hc; exfalso; exact (H _ _ Hc)|]. split; [unfold allocated; cbn; lia|].
  apply unshared_plain. exact H.
Qed.

Example demo_names_ok : names_ok demo_env.
Proof.
  intros [|[|[|s]]] f Hf; cbn [demo_env In] in Hf;
    repeat (destruct Hf as [<-|Hf]; [discriminate|]); destruct Hf.
Qed.

Example demo_keys_ok : keys_ok demo_key.
Proof.
  intros s n1 n2 i1 i2 r. unfold demo_key. destruct s as [|[|s]]; try discriminate.
  - destruct (n1 =? "name")%string eqn:A1, (n2 =? "name")%string eqn:A2,
      (n1 =? "db")%string eqn:A3, (n2 =? "db")%string eqn:A4; try discriminate;
      intros H1 H2 H3; injection H1 as <-; injection H2 as <-; try discriminate;
      repeat match goal with H : (_ =? _)%string = true |- _ => apply String.eqb_eq in H end; congruence.
  - destruct (n1 =? "port")%string eqn:A1, (n2 =? "port")%string eqn:A2,
      (n1 =? "ttl")%string eqn:A3, (n2 =? "ttl")%string eqn:A4; try discriminate;
      intros H1 H2 H3; injection H1 as <-; injection H2 as <-; try discriminate;
      repeat match goal with H : (_ =? _)%string = true |- _ => apply String.eqb_eq in H end; congruence.
Qed.

Example demo_type : Acc (inside demo_env) 0.
Proof.
  assert (H : forall s, s = 1 \/ s = 2 -> Acc (inside demo_env) s).
  { intros s Hs. constructor. intros s' (f & q & Hf & _ & Ht). exfalso.
    destruct Hs as [->| ->]; cbn [demo_env In] in Hf;
      repeat (destruct Hf as [<-|Hf]; [cbn [fty] in Ht; inversion Ht|]); destruct Hf. }
  constructor. intros s' (f & q & Hf & _ & Ht). cbn [demo_env In] in Hf. apply H.
  repeat (destruct Hf as [<-|Hf];
    [cbn [fty] in Ht; destruct (through_split _ _ _ Ht) as [[_ E]|[_ E]]; try discriminate; injection E as <-; tauto|]).
  destruct Hf.
Qed.

(** The flag wins over the env, the env over the yaml file, the yaml file over the initial value. *)
Definition demo_args : list string := ["-c"; "c.yaml"; "--db-port=9"; "-db-debug"; "-v"; "rest"; "-name=x"].
Definition demo_environ (n : string) : option string :=
  if (n =? "DB_PORT")%string then Some "8" else if (n =? "DB_TTL")%string then Some "8" else None.
Definition demo_doc : ynode :=
  YMap [("name", YScalar "app"); ("other", YNull); ("db", YMap [("port", YScalar "7"); ("ttl", YScalar "7")])].
Example load_case :
  match load 5 (demo_world demo_args demo_environ demo_doc) demo_env demo_mem demo_root (TStruct 0) "c" with
  | Loaded m' => Some (map (value_at demo_env m' demo_root (TStruct 0))
      [[SField 0]; [SField 1; SDeref; SField 0]; [SField 1; SDeref; SField 1; SDeref]; [SField 1; SDeref; SField 2]; [SField 2; SField 0]])
  | _ => None
  end = Some [CVal (SStr "app"); CVal (SInt 9); CVal (SInt 8); CVal (SBool true); CVal (SStr "info")].
Proof. vm_compute. reflexivity. Qed.

(** The fields that are visited, before and after initialisation. *)
Example visit_case :
  option_map (map epath) (visit 5 demo_env demo_mem demo_root (TStruct 0)) = Some ["Name"; "Level"] /\
  option_map (fun m => option_map (map epath) (visit 5 demo_env m demo_root (TStruct 0)))
    (init_struct 5 demo_env demo_mem demo_root (TStruct 0)) =
  Some (Some ["Name"; "Db.Port"; "Db.Ttl"; "Db.Debug"; "Level"]).
Proof. split; vm_compute; reflexivity. Qed.

(** The other outcomes. *)
Example load_outcomes :
  let run args doc yname := load 5 (demo_world args (fun _ => None) doc) demo_env demo_mem demo_root (TStruct 0) yname in
  run ["--db-port=x"] YNull "c" = Exited /\ run ["-unknown"] YNull "c" = Exited /\
  run ["-c=missing"] YNull "c" = Exited /\ run ["-c=c.yaml"] (YMap [("db", YScalar "x")]) "c" = Exited /\
  run [] YNull "level" = Panicked /\ run [] YNull "v" = Panicked.
Proof. vm_compute. repeat (split; [reflexivity|]). reflexivity. Qed.

(** A field below a pointer that the file sets to null: the flag is given and Load succeeds, but the
    field is not there. *)
Theorem load_null_refuted : exists w E m l s yname m' asg names p k,
  mem_ok m /\ allocated m l /\ unshared E m l (TStruct s) /\ names_ok E /\ keys_ok (w_key w) /\
  NoDup (map fst (w_pre w)) /\
  load 5 w E m l (TStruct s) yname = Loaded m' /\
  gives (known_flag w E s yname) (w_args w) asg /\ visible E s names p k false /\
  last_given asg (flag_style (dotted names)) = Some "9" /\ walk E m' l (TStruct s) p = None.
Proof.
  set (w := demo_world ["-c=c.yaml"; "-db-port=9"] (fun _ => None) (YMap [("db", YNull)])).
  destruct (load 5 w demo_env demo_mem demo_root (TStruct 0) "c") as [m'| | |] eqn:H;
    try (vm_compute in H; discriminate).
  destruct demo_mem_ok as (H1 & H2 & H3).
  exists w, demo_env, demo_mem, demo_root, 0, "c", m', [("c", "c.yaml"); ("db-port", "9")], ["Db"; "Port"],
    [SField 1; SDeref; SField 0], KInt.
  split; [exact H1|]. split; [exact H2|]. split; [exact H3|]. split; [exact demo_names_ok|].
  split; [exact demo_keys_ok|]. split; [constructor; [intros []|constructor]|]. split; [exact H|].
  assert (Hv : visible demo_env 0 ["Db"; "Port"] [SField 1; SDeref; SField 0] KInt false).
  { apply (visible_below demo_env 0 1 (mkField "Db" false true (TPtr (TStruct 1))) [SDeref] 1 ["Port"] [SField 0]);
      [reflexivity|reflexivity|constructor|].
    apply (visible_here demo_env 1 0 (mkField "Port" false true (TScalar KInt false)) []); [reflexivity|reflexivity|constructor]. }
  assert (Hn : forall n, In n ["c"; "db-port"] -> flag_name n).
  { intros n [<-|[<-|[]]]; (split; [discriminate|]; split; [|intros r Hr; discriminate]);
      vm_compute; intuition discriminate. }
  split.
  { apply (gives_eq _ "-" "c" false "c.yaml"); [left; reflexivity|apply Hn; left; reflexivity| |].
    - right. left. split; [reflexivity|]. split; [discriminate|reflexivity].
    - apply (gives_eq _ "-" "db-port" false "9"); [left; reflexivity|apply Hn; right; left; reflexivity| |constructor].
      right. right. exists ["Db"; "Port"], [SField 1; SDeref; SField 0], KInt, false.
      split; [exact Hv|]. split; vm_compute; reflexivity. }
  split; [exact Hv|]. split; [vm_compute; reflexivity|].
  vm_compute in H. injection H as <-. vm_compute. reflexivity.
Qed.
Print Assumptions load_null_refuted.

(** Two pointers to the same struct: the value given for one field ends up in the other as well. *)
Definition pair_env (s : nat) : list field :=
  match s with
  | 0 => [mkField "A" false true (TPtr (TStruct 1)); mkField "B" false true (TPtr (TStruct 1))]
  | 1 => [mkField "X" false true (TScalar KInt false)]
  | _ => []
  end.
Definition pair_mem : mem :=
  mkMem (fun l => if loc_dec l (0, [0]) then CPtr (1, []) else if loc_dec l (0, [1]) then CPtr (1, []) else CZero) 2.
Theorem load_shared_refuted : exists w E m l s m',
  mem_ok m /\ allocated m l /\ names_ok E /\
  load 5 w E m l (TStruct s) "" = Loaded m' /\ visible E s ["A"; "X"] [SField 0; SDeref; SField 0] KInt false /\
  w_args w = ["-b-x=8"] /\ (forall n, w_env w n = None) /\
  value_at E m l (TStruct s) [SField 0; SDeref; SField 0] = CZero /\
  value_at E m' l (TStruct s) [SField 0; SDeref; SField 0] = CVal (SInt 8).
Proof.
  set (w := demo_world ["-b-x=8"] (fun _ => None) YNull).
  destruct (load 5 w pair_env pair_mem demo_root (TStruct 0) "") as [m'| | |] eqn:H;
    try (vm_compute in H; discriminate).
  exists w, pair_env, pair_mem, demo_root, 0, m'.
  split.
  { intros a l'. cbn [cells pair_mem]. destruct (loc_dec a (0, [0])); [|destruct (loc_dec a (0, [1])); [|discriminate]];
      intros Hc; injection Hc as <-; unfold allocated; cbn; lia. }
  split; [unfold allocated; cbn; lia|]. split.
  { intros [|[|s]] f Hf; cbn [pair_env In] in Hf; repeat (destruct Hf as [<-|Hf]; [discriminate|]); destruct Hf. }
  split; [exact H|]. split.
  { apply (visible_below pair_env 0 0 (mkField "A" false true (TPtr (TStruct 1))) [SDeref] 1 ["X"] [SField 0]);
      [reflexivity|reflexivity|constructor|].
    apply (visible_here pair_env 1 0 (mkField "X" false true (TScalar KInt false)) []); [reflexivity|reflexivity|constructor]. }
  split; [reflexivity|]. split; [reflexivity|]. split; [reflexivity|].
  vm_compute in H. injection H as <-. vm_compute. reflexivity.
Qed.
Print Assumptions load_shared_refuted.

(** A list: type Node struct { Next *Node }. *)
Definition list_env (s : nat) : list field :=
  match s with 0 => [mkField "Next" false true (TPtr (TStruct 0))] | _ => [] end.
Example recursive_case : recursive list_env 0.
Proof.
  exists 0. split; [apply rt_refl|]. apply t_step. exists (mkField "Next" false true (TPtr (TStruct 0))), [SDeref].
  split; [left; reflexivity|]. split; [reflexivity|constructor].
Qed.
