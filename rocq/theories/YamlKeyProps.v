(** Theorems about the keys of config files (C128). *)
From Verif Require Import Common Bytes ConfsModel ConfNamesModel ConfNamesSpec DurationModel DurationSpec DurationProps
  ConfLoadModel ConfLoadSpec ConfLoadEnd ConfLoadProps FlagValueModel FlagValueSpec YamlScalarModel YamlScalarSpec YamlScalarProps YamlKeyModel YamlKeySpec YamlKeyProofs.
Local Open Scope string_scope.
Local Open Scope list_scope.

(** The keys of a struct are read off the tags and the names of the fields; if nothing is wrong with the type, and only
    then, there are such keys, and each selects one field. *)
Theorem yaml_keys : forall fuel tags E s,
  match struct_info fuel tags E s with
  | Info _ => ~ wrong tags E s /\ forall k idx, yaml_key fuel tags E s k = Some idx <-> keyed tags E s k idx
  | Bad => wrong tags E s
  | Deep => True
  end.
Proof.
  intros fuel tags E s. pose proof (info_right fuel tags E s) as R. pose proof (key_iff fuel tags E s) as K. destruct (struct_info fuel tags E s) as [l| |]; [|exact R|exact I].
  split; [apply R|]. exact (K l eq_refl).
Qed.
Print Assumptions yaml_keys.

(** The reading of the type ends, unless structs are inlined in themselves. *)
Theorem yaml_keys_end : forall tags E s, Acc (inlines tags E) s -> exists n, forall k, struct_info (n + k) tags E s <> Deep.
Proof. intros tags E s A. destruct (info_ends tags E s A) as (n & H). exists n. intros k. now rewrite info_more. Qed.
Print Assumptions yaml_keys_end.

(** Different keys select different fields. *)
Theorem yaml_keys_distinct : forall fuel tags E, keys_ok (yaml_key fuel tags E).
Proof. exact keys_are_ok. Qed.
Print Assumptions yaml_keys_distinct.

(** What a document says about a field is what it has below the keys that lead to the field. *)
Theorem yaml_says : forall fuel tags E s names p k named doc v, (forall s', exists l, struct_info fuel tags E s' = Info l) ->
  visible E s names p k named ->
  (says (yaml_key fuel tags E) E (TStruct s) doc p (Said v) <-> exists ks, key_path tags E s ks p /\ entry doc ks v).
Proof.
  intros fuel tags E s names p k named doc v Hi V. split.
  - intros S. destruct (says_path fuel tags E Hi s names p k named V doc v S) as (ks & K & En & _). now exists ks.
  - intros (ks & K & En). exact (path_says fuel tags E s ks p Hi K doc v En).
Qed.
Print Assumptions yaml_says.

(** By convention these keys are the names in lower case. *)
Theorem yaml_convention : forall fuel tags E s names p k named doc v, (forall s', exists l, struct_info fuel tags E s' = Info l) ->
  conventional tags E -> visible E s names p k named ->
  (says (yaml_key fuel tags E) E (TStruct s) doc p (Said v) <-> entry doc (map to_lower names) v).
Proof.
  intros fuel tags E s names p k named doc v Hi Cv V. split.
  - intros S. destruct (says_path fuel tags E Hi s names p k named V doc v S) as (ks & _ & En & C). now rewrite <- (C Cv).
  - intros En. apply (path_says fuel tags E s (map to_lower names) p Hi); [now apply (visible_path tags E s names p k named)|exact En].
Qed.
Print Assumptions yaml_convention.

(** Load: a field that neither flags nor environment variables say anything about holds what the file has below the
    names in lower case, and if the file has nothing there, what it held before. *)
Theorem yaml_load : forall fuel fuel' lim quoted tags w E m l s yname, version lim -> w_yscalar w = file_scalar lim quoted ->
  w_key w = yaml_key fuel' tags E -> (forall s', exists l, struct_info fuel' tags E s' = Info l) -> conventional tags E ->
  mem_ok m -> allocated m l -> unshared E m l (TStruct s) -> names_ok E -> NoDup (map fst (w_pre w)) ->
  forall m', load fuel w E m l (TStruct s) yname = Loaded m' ->
  exists asg doc,
    gives (known_flag w E s yname) (w_args w) asg /\ config_doc w yname asg = Some doc /\
    forall names p k named, visible E s names p k named -> no_null_on (w_key w) E (TStruct s) doc p ->
      last_given asg (flag_style (dotted names)) = None -> w_env w (env_style (dotted names)) = None ->
      exists lp, walk E m' l (TStruct s) p = Some (lp, TScalar k named) /\
        (forall v, entry doc (map to_lower names) v -> exists x, cells m' lp = CVal x /\ file_sets lim (quoted v) k v x) /\
        ((forall v, ~ entry doc (map to_lower names) v) -> cells m' lp = value_at E m l (TStruct s) p).
Proof.
  intros fuel fuel' lim quoted tags w E m l s yname V P Ky Hi Cv H1 H2 H3 H4 H6 m' L.
  assert (H5 : keys_ok (w_key w)) by (rewrite Ky; apply keys_are_ok).
  destruct (load_precedence fuel w E m l s yname H1 H2 H3 H4 H5 H6 m' L) as (asg & doc & G & C & F). exists asg, doc. split; [now apply G|]. split; [exact C|].
  intros names p k named Vs N Fl En. destruct (F names p k named Vs N) as (lp & W & X). exists lp. split; [exact W|]. unfold expected in X. rewrite Fl, En, P, Ky in X. destruct X as [X1 X2]. split.
  - intros v Sd. destruct (X1 v (proj2 (yaml_convention fuel' tags E s names p k named doc v Hi Cv Vs) Sd)) as (x & Y & Z1). exists x. split; [exact Z1|].
    unfold file_scalar in Y. destruct (decode lim (quoted v) k v) as [|x'|] eqn:D; try discriminate. injection Y as ->. now apply yaml_scalar_meaning.
  - intros Nn. apply X2. intros v S. apply (Nn v). now apply (yaml_convention fuel' tags E s names p k named doc v Hi Cv Vs).
Qed.
Print Assumptions yaml_load.

(** The example of the documentation, with an embedded struct:
    type Conf struct { Foo *foo; Base `yaml:",inline"` }, type foo struct { Bar *bar }, type bar struct { BazBoom string },
    type Base struct { Level int } *)
Definition doc_env (s : nat) : list field :=
  match s with
  | 0 => [mkField "Foo" false true (TPtr (TStruct 1)); mkField "Base" true true (TStruct 3)]
  | 1 => [mkField "Bar" false true (TPtr (TStruct 2))]
  | 2 => [mkField "BazBoom" false true (TScalar KString false)]
  | 3 => [mkField "Level" false true (TScalar KInt false)]
  | _ => []
  end%nat.
Definition doc_tags (inline : string) (s i : nat) : string := if (Nat.eqb s 0 && Nat.eqb i 1)%bool then inline else "".
Definition doc_world (inline : string) (doc : ynode) : world :=
  mkWorld (flag_value go1_18) (fun _ => None) ["-c=app.yaml"] [] (fun n => if (n =? "app.yaml")%string then Some doc else None)
    (yaml_key 3 (doc_tags inline) doc_env) (file_scalar go1_18 (fun _ => false)) (fun _ => None).
Definition doc_values (inline : string) (doc : ynode) : option (list cell) :=
  match load 9 (doc_world inline doc) doc_env (mkMem (fun _ => CZero) 1) (0%nat, []) (TStruct 0) "c" with
  | Loaded m' => Some (map (value_at doc_env m' (0%nat, []) (TStruct 0)) [[SField 0; SDeref; SField 0; SDeref; SField 0]; [SField 1; SField 0]])
  | _ => None
  end.
Example yaml_key_premises :
  (forall s', exists l, struct_info 3 (doc_tags ",inline") doc_env s' = Info l) /\ conventional (doc_tags ",inline") doc_env /\
  Acc (inlines (doc_tags ",inline") doc_env) 0%nat /\ names_ok doc_env /\
  visible doc_env 0 ["Foo"; "Bar"; "BazBoom"] [SField 0; SDeref; SField 0; SDeref; SField 0] KString false /\
  visible doc_env 0 ["Level"] [SField 1; SField 0] KInt false.
Proof.
  split; [|split; [|split; [|split; [|split]]]].
  - intros [|[|[|[|s]]]]; eexists; vm_compute; reflexivity.
  - intros [|[|[|[|s]]]] [|[|i]] f H; cbn in H; try discriminate; try (destruct i; discriminate); injection H as <-; cbn; try reflexivity.
    split; [reflexivity|]. exists [], 3%nat. constructor.
  - assert (A : Acc (inlines (doc_tags ",inline") doc_env) 3%nat).
    { constructor. intros s' (i & f & name & flags & (Hf & _) & _ & _ & L). destruct i as [|[|i]]; cbn in Hf; try discriminate. injection Hf as <-. cbn in L. inversion L. }
    constructor. intros s' (i & f & name & flags & (Hf & _) & P & Hi & L). destruct i as [|[|[|i]]]; cbn in Hf; try discriminate; injection Hf as <-.
    + apply parts_iff in P. cbn in P. injection P as <- <-. destruct Hi.
    + cbn in L. inversion L; subst. exact A.
  - intros [|[|[|[|s]]]] f H; cbn [doc_env In] in H; repeat (destruct H as [<-|H]; [discriminate|]); destruct H.
  - apply (visible_below doc_env 0 0 (mkField "Foo" false true (TPtr (TStruct 1))) [SDeref] 1 ["Bar"; "BazBoom"] [SField 0; SDeref; SField 0]); [reflexivity|reflexivity|constructor|].
    apply (visible_below doc_env 1 0 (mkField "Bar" false true (TPtr (TStruct 2))) [SDeref] 2 ["BazBoom"] [SField 0]); [reflexivity|reflexivity|constructor|].
    apply (visible_here doc_env 2 0 (mkField "BazBoom" false true (TScalar KString false)) []); [reflexivity|reflexivity|constructor].
  - apply (visible_below doc_env 0 1 (mkField "Base" true true (TStruct 3)) [] 3 ["Level"] [SField 0]); [reflexivity|reflexivity|constructor|].
    apply (visible_here doc_env 3 0 (mkField "Level" false true (TScalar KInt false)) []); [reflexivity|reflexivity|constructor].
Qed.
Example yaml_key_cases :
  doc_values ",inline" (YMap [("foo", YMap [("bar", YMap [("bazboom", YScalar "x")])]); ("level", YScalar "3")]) = Some [CVal (SStr "x"); CVal (SInt 3)] /\
  doc_values ",inline" (YMap [("foo", YMap [("bar", YMap [("bazBoom", YScalar "x")])]); ("Level", YScalar "3")]) = Some [CZero; CZero] /\
  entry (YMap [("foo", YMap [("bar", YMap [("bazboom", YScalar "x")])])]) (map to_lower ["Foo"; "Bar"; "BazBoom"]) "x" /\
  struct_info 2 (fun _ i => if Nat.eqb i 0 then "a,omitempty" else if Nat.eqb i 1 then "-" else "c,flow")
    (fun _ => [mkField "X" false true TOther; mkField "Y" false true TOther; mkField "Z" false true TOther; mkField "w" false false TOther]) 0 =
    Info [("a", [0%nat]); ("c", [2%nat])].
Proof.
  split; [vm_compute; reflexivity|]. split; [vm_compute; reflexivity|]. split; [|vm_compute; reflexivity].
  apply (entry_below _ "foo" (YMap [("bar", YMap [("bazboom", YScalar "x")])])); [now left|].
  apply (entry_below _ "bar" (YMap [("bazboom", YScalar "x")])); [now left|].
  apply (entry_below _ "bazboom" (YScalar "x")); [now left|constructor].
Qed.

(** Files do not follow the names of flags without further ado: an embedded struct that is not inlined needs a key of its
    own, which the flag does not have, and what the file has below the name of the flag is ignored; and two fields whose
    names differ in upper and lower case only have different flags, but such a type has no keys. *)
Theorem yaml_names_refuted :
  (known_flag (doc_world "" YNull) doc_env 0 "c" "level" false /\
   doc_values "" (YMap [("level", YScalar "3")]) = Some [CZero; CZero] /\
   doc_values "" (YMap [("base", YMap [("level", YScalar "3")])]) = Some [CZero; CVal (SInt 3)]) /\
  exists E a b, visible E 0 [a] [SField 0] KInt false /\ visible E 0 [b] [SField 1] KInt false /\
    flag_style a <> flag_style b /\ env_style a <> env_style b /\
    wrong (fun _ _ => "") E 0 /\ struct_info 1 (fun _ _ => "") E 0 = Bad.
Proof.
  split.
  - split; [|vm_compute; split; reflexivity]. right. right. exists ["Level"], [SField 1; SField 0], KInt, false. split; [apply yaml_key_premises|]. split; reflexivity.
  - exists (fun s => match s with O => [mkField "TimeOut" false true (TScalar KInt false); mkField "Timeout" false true (TScalar KInt false)] | _ => [] end), "TimeOut", "Timeout".
    split; [apply (visible_here _ 0 0 (mkField "TimeOut" false true (TScalar KInt false)) []); [reflexivity|reflexivity|constructor]|].
    split; [apply (visible_here _ 0 1 (mkField "Timeout" false true (TScalar KInt false)) []); [reflexivity|reflexivity|constructor]|].
    split; [vm_compute; discriminate|]. split; [vm_compute; discriminate|]. split; [|vm_compute; reflexivity].
    match goal with |- wrong ?t ?E ?s => pose proof (yaml_keys 1 t E s) as K end. vm_compute in K. exact K.
Qed.
Print Assumptions yaml_names_refuted.
