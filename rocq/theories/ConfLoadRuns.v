(** Load as a whole. *)
From Verif Require Import Common Bytes Threads ConfNamesModel ConfNamesSpec ConfNamesProofs
  ConfLoadModel ConfLoadSpec ConfLoadProofs ConfLoadInit ConfLoadFlags ConfLoadYaml ConfLoadFits.
Local Open Scope string_scope.
Local Open Scope list_scope.
Local Open Scope nat_scope.

(** * Visiting ends *)

Lemma visit_path_fuel E m : forall n l t ro path es,
  visit_path n E m l t ro path = Some es -> visit_path (S n) E m l t ro path = Some es.
Proof.
  induction n as [|n IH]; intros l t ro path es H; [discriminate|].
  assert (Hb : forall l s es,
    each (fun acc i f =>
            let path' := if fanon f then path
                         else if (path =? "")%string then fname f
                         else (path ++ "." ++ fname f)%string in
            match visit_path n E m (fld l i) (fty f) (negb (fexp f)) path' with
            | Some es => Some (acc ++ es) | None => None end) 0 (E s) [] = Some es ->
    each (fun acc i f =>
            let path' := if fanon f then path
                         else if (path =? "")%string then fname f
                         else (path ++ "." ++ fname f)%string in
            match visit_path (S n) E m (fld l i) (fty f) (negb (fexp f)) path' with
            | Some es => Some (acc ++ es) | None => None end) 0 (E s) [] = Some es).
  { intros l1 s es1. apply each_ext. intros acc i f acc'. cbn zeta.
    match goal with |- match visit_path n E m ?a ?b ?c ?d with _ => _ end = _ -> _ =>
      destruct (visit_path n E m a b c d) as [es2|] eqn:Hv; [|discriminate]; rewrite (IH _ _ _ _ _ Hv) end.
    intros Ha. exact Ha. }
  remember (S n) as n1 eqn:Hn1. cbn [visit_path]. rewrite Hn1 in H. cbn [visit_path] in H.
  destruct t as [k named|s|t|].
  - exact H.
  - destruct ro; [exact H|]. apply Hb. exact H.
  - destruct (cells m l) as [|l'|v]; [exact H| |exact H].
    destruct ro; [exact H|]. destruct t as [k named|s|t|]; try exact H. apply Hb. exact H.
  - exact H.
Qed.

Lemma visit_path_more E m l t ro path es n k :
  n <= k -> visit_path n E m l t ro path = Some es -> visit_path k E m l t ro path = Some es.
Proof.
  intros Hk. induction Hk as [|k Hk IH]; intros H; [exact H|]. apply visit_path_fuel, IH, H.
Qed.

Lemma visit_more E m l t es n k :
  n <= k -> visit n E m l t = Some es -> visit k E m l t = Some es.
Proof.
  intros Hk. destruct t as [kd named|s|t|]; try (intros H; exact H).
  cbn [visit]. apply each_ext. intros acc i f acc'.
  destruct (visit_path n E m (fld l i) (fty f) (negb (fexp f)) (if fanon f then "" else fname f)) as [es1|] eqn:Hv;
    [|discriminate].
  rewrite (visit_path_more _ _ _ _ _ _ _ _ k Hk Hv). intros H. exact H.
Qed.

(** The fields of [s] can be visited within [n] steps, from any path. *)
Definition enough (E : tenv) (n s : nat) : Prop :=
  forall m l f, In f (E s) -> forall i path, visit_path n E m (fld l i) (fty f) (negb (fexp f)) path <> None.

Lemma visit_terminates_fuel E s : Acc (inside E) s -> exists n, enough E n s.
Proof.
  induction 1 as [s _ IH].
  assert (Hf : forall fs, incl fs (E s) ->
    exists n, forall f, In f fs -> forall m l path, visit_path n E m l (fty f) (negb (fexp f)) path <> None).
  { induction fs as [|f fs IHf]; intros Hincl.
    - exists 0. intros f [].
    - destruct IHf as [n1 H1]; [intros x Hx; apply Hincl; right; exact Hx|].
      assert (H2 : exists n2, forall m l path, visit_path n2 E m l (fty f) (negb (fexp f)) path <> None).
      { assert (Hbody : forall q s', fexp f = true -> through (fty f) q (TStruct s') -> exists n, forall m l path,
          each (fun acc i f =>
            let path' := if fanon f then path
                         else if (path =? "")%string then fname f
                         else (path ++ "." ++ fname f)%string in
            match visit_path n E m (fld l i) (fty f) (negb (fexp f)) path' with
            | Some es => Some (acc ++ es) | None => None end) 0 (E s') [] <> None).
        { intros q s' He Ht. destruct (IH s') as [n Hn].
          - exists f, q. split; [apply Hincl; left; reflexivity|]. split; assumption.
          - exists n. intros m l path. apply each_some. intros i g acc Hg. cbn zeta.
            match goal with |- match ?v with _ => _ end <> _ => destruct v as [es|] eqn:Hv; [discriminate|] end.
            exfalso. exact (Hn m l g Hg i _ Hv). }
        destruct (fexp f) eqn:He.
        2: { exists 1. intros m l path. cbn [visit_path negb]. destruct (fty f); try discriminate.
             destruct (cells m l); discriminate. }
        cbn [negb]. destruct (fty f) as [k named|s'|t|] eqn:Hty.
        - exists 1. intros m l path. discriminate.
        - destruct (Hbody [] s' eq_refl) as [n Hn]; [constructor|]. exists (S n). intros m l path. apply Hn.
        - destruct t as [k named|s'|t|].
          + exists 1. intros m l path. cbn [visit_path]. destruct (cells m l); discriminate.
          + destruct (Hbody [SDeref] s' eq_refl) as [n Hn]; [constructor|]. exists (S n). intros m l path.
            cbn [visit_path]. destruct (cells m l); try discriminate. apply Hn.
          + exists 1. intros m l path. cbn [visit_path]. destruct (cells m l); discriminate.
          + exists 1. intros m l path. cbn [visit_path]. destruct (cells m l); discriminate.
        - exists 1. intros m l path. discriminate. }
      destruct H2 as [n2 H2]. exists (n1 + n2). intros g [<-|Hg] m l path.
      + destruct (visit_path n2 E m l (fty f) (negb (fexp f)) path) as [es|] eqn:Hm.
        * rewrite (visit_path_more _ _ _ _ _ _ _ n2 (n1 + n2) ltac:(lia) Hm). discriminate.
        * exfalso. exact (H2 m l path Hm).
      + destruct (visit_path n1 E m l (fty g) (negb (fexp g)) path) as [es|] eqn:Hm.
        * rewrite (visit_path_more _ _ _ _ _ _ _ n1 (n1 + n2) ltac:(lia) Hm). discriminate.
        * exfalso. exact (H1 g Hg m l path Hm). }
  destruct (Hf (E s) (fun x Hx => Hx)) as [n Hn]. exists n. intros m l f Hin i path. apply Hn. exact Hin.
Qed.

Lemma enough_visit E n s m l : enough E n s -> visit n E m l (TStruct s) <> None.
Proof.
  intros H. cbn [visit]. apply each_some. intros i f acc Hf.
  match goal with |- match ?v with _ => _ end <> _ => destruct v as [es|] eqn:Hv; [discriminate|] end.
  exfalso. exact (H m l f Hf i _ Hv).
Qed.

Lemma load_fuel E s : Acc (inside E) s ->
  exists fuel, forall w m l yname, load fuel w E m l (TStruct s) yname <> OutOfFuel.
Proof.
  intros H. destruct (init_terminates_fuel E s H) as [n1 H1]. destruct (visit_terminates_fuel E s H) as [n2 H2].
  exists (n1 + n2). intros w m l yname. unfold load.
  destruct (init_struct n1 E m l (TStruct s)) as [m1|] eqn:Hi; [|exfalso; exact (H1 m l Hi)].
  rewrite (init_struct_more E m l (TStruct s) m1 n1 (n1 + n2) ltac:(lia) Hi).
  destruct (if (yname =? "")%string then Some (pre_flags w) else add_flag (pre_flags w) yname BYaml); [|discriminate].
  destruct (visit n2 E m1 l (TStruct s)) as [es|] eqn:Hv; [|exfalso; exact (enough_visit _ _ _ _ _ H2 Hv)].
  rewrite (visit_more E m1 l (TStruct s) es n2 (n1 + n2) ltac:(lia) Hv).
  destruct (register env_style [] es); [|discriminate]. destruct (register flag_style f es); [|discriminate].
  destruct (parse_args w f1 (w_args w) (m1, "")) as [[m2 file]|]; [|discriminate].
  destruct (if (file =? "")%string then Some m2 else yaml_resolve w E m2 l (TStruct s) file); [|discriminate].
  destruct (env_resolve w f0 (map (fun e => env_style (epath e)) es) (m0, file)); [|discriminate].
  destruct (parse_args w f1 (w_args w) p) as [[m5 file']|]; discriminate.
Qed.

(** * After initialisation *)

Lemma visible_settable E s names p k named : visible E s names p k named ->
  exists p0 t q, settable E s p0 t /\ through t q (TScalar k named) /\ p = p0 ++ q.
Proof.
  induction 1 as [s i f q k named Hf He Ht|s i f q s' names p k named Hf He Ht Hv IH].
  - exists [SField i], (fty f), q. split; [constructor; assumption|]. split; [exact Ht|reflexivity].
  - destruct IH as (p0 & t & q0 & Hs & Ht0 & ->). exists (SField i :: q ++ p0), t, q0.
    split; [apply (settable_below E s i f q s' p0 t); assumption|]. split; [exact Ht0|].
    cbn [Datatypes.app]. rewrite <- app_assoc. reflexivity.
Qed.

Section Load.
Context (w : world) (E : tenv) (l : loc) (s : nat) (yname : string)
  (Hnames : names_ok E) (Hkeys : keys_ok (w_key w)) (Hpre : NoDup (map fst (w_pre w))).
Notation W m p := (walk E m l (TStruct s) p).
Notation inv := (inv E l (TStruct s)).

Lemma visible_walk m fuel m1 names p k named :
  inv m -> init_struct fuel E m l (TStruct s) = Some m1 -> visible E s names p k named ->
  exists lp, W m1 p = Some (lp, TScalar k named).
Proof.
  intros Hi H Hv. destruct (init_struct_inv fuel E m l s m1 Hi H) as (_ & _ & _ & Hg).
  destruct (visible_settable _ _ _ _ _ _ Hv) as (p0 & t & q & Hs & Ht & ->).
  destruct (Hg p0 t Hs) as (lp & Hw & Hc).
  destruct (through_split _ _ _ Ht) as [[-> ->]|[-> ->]].
  - exists lp. rewrite app_nil_r. exact Hw.
  - destruct (Hc _ eq_refl) as [l' Hl']. exists l'. rewrite (walk_snoc E _ _ _ _ _ _ _ Hw). cbn [walk].
    rewrite Hl'. reflexivity.
Qed.

(** What has been registered. *)
Record registered (m1 : mem) (es : list entry) (efs ffs : flagset) : Prop := {
  r_inv : inv m1;
  r_in : forall names p k named, visible E s names p k named ->
    exists e, In e es /\ epath e = dotted names /\ ekind e = k /\ enamed e = named /\
      W m1 p = Some (eloc e, TScalar k named);
  r_out : forall e, In e es -> exists names p, visible E s names p (ekind e) (enamed e) /\
      epath e = dotted names /\ W m1 p = Some (eloc e, TScalar (ekind e) (enamed e));
  r_loc : forall e1 e2, In e1 es -> In e2 es -> eloc e1 = eloc e2 -> e1 = e2;
  r_env : forall n b, find_flag efs n = Some b <-> exists e, In e es /\ (n, b) = bind_of env_style e;
  r_flag : forall n b, find_flag ffs n = Some b <->
    In (n, b) (pre_flags w) \/ (yname <> "" /\ n = yname /\ b = BYaml) \/
    exists e, In e es /\ (n, b) = bind_of flag_style e;
  r_named : forall e, In e es -> enamed e = false;
  r_envs : NoDup (map (fun e => env_style (epath e)) es);
  r_flags : NoDup (map fst ffs) }.

Lemma items_entries m1 fuel es : inv m1 -> visit fuel E m1 l (TStruct s) = Some es ->
  (forall names p k named, visible E s names p k named -> exists lp, W m1 p = Some (lp, TScalar k named)) ->
  (forall names p k named, visible E s names p k named ->
    exists e, In e es /\ epath e = dotted names /\ ekind e = k /\ enamed e = named /\
      W m1 p = Some (eloc e, TScalar k named)) /\
  (forall e, In e es -> exists names p, visible E s names p (ekind e) (enamed e) /\
      epath e = dotted names /\ W m1 p = Some (eloc e, TScalar (ekind e) (enamed e))) /\
  (forall e1 e2, In e1 es -> In e2 es -> eloc e1 = eloc e2 -> e1 = e2) /\
  (forall i j e1 e2, nth_error es i = Some e1 -> nth_error es j = Some e2 -> i <> j ->
     exists names1 p1 names2 p2, p1 <> p2 /\
       visible E s names1 p1 (ekind e1) (enamed e1) /\ epath e1 = dotted names1 /\
       visible E s names2 p2 (ekind e2) (enamed e2) /\ epath e2 = dotted names2).
Proof.
  intros Hi Hv Hw. destruct (visit_items E m1 Hnames fuel l s es Hv) as (xs & -> & Hnd & Hx).
  split; [|split; [|split]].
  - intros names p k named Hvis. destruct (Hw _ _ _ _ Hvis) as [lp Hlp].
    set (e := mkEntry (dotted names) lp k named).
    assert (Hin : In (names, p, e) xs).
    { apply Hx. cbn [ekind enamed epath eloc]. split; [exact Hvis|]. split; [reflexivity|exact Hlp]. }
    exists e. split; [apply in_map_iff; exists (names, p, e); split; [reflexivity|exact Hin]|].
    repeat (split; [reflexivity|]). exact Hlp.
  - intros e He. apply in_map_iff in He. destruct He as ([[names p] e'] & Heq & Hin). cbn [snd] in Heq. subst e'.
    apply Hx in Hin. exists names, p. exact Hin.
  - intros e1 e2 H1 H2 Hl. apply in_map_iff in H1. apply in_map_iff in H2.
    destruct H1 as ([[n1 p1] e1'] & Heq1 & Hin1), H2 as ([[n2 p2] e2'] & Heq2 & Hin2). cbn [snd] in *. subst e1' e2'.
    pose proof (proj1 (Hx _) Hin1) as (_ & _ & W1). pose proof (proj1 (Hx _) Hin2) as (_ & _ & W2).
    rewrite Hl in W1. pose proof (inv_un _ _ _ _ Hi _ _ _ _ _ W1 W2) as Hp.
    assert (Hsame : forall (ys : list item) x y, NoDup (map (fun x => snd (fst x)) ys) -> In x ys -> In y ys ->
              snd (fst x) = snd (fst y) -> x = y).
    { clear. induction ys as [|z ys IH]; intros x y Hd Hx Hy Hxy; [destruct Hx|]. cbn [map] in Hd. inversion Hd; subst.
      destruct Hx as [<-|Hx], Hy as [<-|Hy].
      - reflexivity.
      - exfalso. apply H1. apply in_map_iff. exists y. split; [symmetry; exact Hxy|exact Hy].
      - exfalso. apply H1. apply in_map_iff. exists x. split; [exact Hxy|exact Hx].
      - apply IH; assumption. }
    pose proof (Hsame xs _ _ Hnd Hin1 Hin2 Hp) as Heq. congruence.
  - intros i j e1 e2 H1 H2 Hij. 
    assert (Hn : forall k e, nth_error (map snd xs) k = Some e ->
              exists x, nth_error xs k = Some x /\ snd x = e).
    { intros k e Hk. rewrite nth_error_map in Hk. destruct (nth_error xs k) as [x|]; [|discriminate].
      exists x. split; [reflexivity|]. cbn [option_map] in Hk. congruence. }
    destruct (Hn i e1 H1) as ([[n1 p1] e1'] & X1 & Heq1). destruct (Hn j e2 H2) as ([[n2 p2] e2'] & X2 & Heq2).
    cbn [snd] in *. subst e1' e2'. exists n1, p1, n2, p2.
    pose proof (proj1 (Hx _) (nth_error_In _ _ X1)) as (V1 & E1 & _).
    pose proof (proj1 (Hx _) (nth_error_In _ _ X2)) as (V2 & E2 & _).
    split; [|split; [exact V1|split; [exact E1|split; [exact V2|exact E2]]]].
    intros ->. apply Hij. apply (proj1 (NoDup_nth_error _) Hnd).
    + rewrite map_length. apply nth_error_Some. congruence.
    + rewrite !nth_error_map, X1, X2. reflexivity.
Qed.

Lemma find_flag_iff fs n b : NoDup (map fst fs) -> (find_flag fs n = Some b <-> In (n, b) fs).
Proof. intros H. split; [apply find_flag_in|apply find_flag_nodup; exact H]. Qed.

Lemma nodup_app {A} (a b : list A) : NoDup a -> NoDup b -> (forall x, In x b -> ~ In x a) -> NoDup (a ++ b).
Proof.
  induction a as [|x a IH]; intros Ha Hb Hd; [exact Hb|]. cbn [Datatypes.app]. inversion Ha; subst. constructor.
  - rewrite in_app_iff. intros [H|H]; [contradiction|]. apply (Hd x H). left. reflexivity.
  - apply IH; [assumption..|]. intros y Hy Hya. apply (Hd y Hy). right. exact Hya.
Qed.

Lemma map_fst_bind style es : map fst (map (bind_of style) es) = map (fun e => style (epath e)) es.
Proof. rewrite map_map. reflexivity. Qed.

Lemma pre_names : map fst (pre_flags w) = map fst (w_pre w).
Proof. unfold pre_flags. rewrite map_map. reflexivity. Qed.

Lemma registered_intro fuel m m1 es fs0 efs ffs :
  inv m -> init_struct fuel E m l (TStruct s) = Some m1 ->
  (if (yname =? "")%string then Some (pre_flags w) else add_flag (pre_flags w) yname BYaml) = Some fs0 ->
  visit fuel E m1 l (TStruct s) = Some es ->
  register env_style [] es = Some efs -> register flag_style fs0 es = Some ffs ->
  registered m1 es efs ffs.
Proof.
  intros Hi Hinit Hy Hv He Hf.
  destruct (init_struct_inv fuel E m l s m1 Hi Hinit) as (Hi1 & _).
  destruct (items_entries m1 fuel es Hi1 Hv (fun names p k named => visible_walk m fuel m1 names p k named Hi Hinit))
    as (A & B & C & _).
  pose proof (register_spec env_style es []) as Re. rewrite He in Re. destruct Re as (-> & R1 & R2 & _).
  pose proof (register_spec flag_style es fs0) as Rf. rewrite Hf in Rf. destruct Rf as (-> & _ & F2 & F3).
  assert (H0 : NoDup (map fst fs0) /\ forall n b, In (n, b) fs0 <->
            In (n, b) (pre_flags w) \/ (yname <> "" /\ n = yname /\ b = BYaml)).
  { destruct (yname =? "")%string eqn:Hy0.
    - injection Hy as <-. apply String.eqb_eq in Hy0. split; [rewrite pre_names; exact Hpre|].
      intros n b. split; [intros H; left; exact H|]. intros [H|(H & _)]; [exact H|contradiction].
    - apply String.eqb_neq in Hy0. unfold add_flag in Hy.
      destruct (find_flag (pre_flags w) yname) eqn:Hfy; [discriminate|]. injection Hy as <-.
      apply find_flag_none in Hfy. split.
      + rewrite map_app. cbn [map fst]. apply nodup_app.
        * rewrite pre_names. exact Hpre.
        * constructor; [intros []|constructor].
        * intros x [<-|[]]. exact Hfy.
      + intros n b. rewrite in_app_iff. cbn [In]. split.
        * intros [H|[H|[]]]; [left; exact H|]. right. split; [exact Hy0|]. split; congruence.
        * intros [H|(_ & -> & ->)]; [left; exact H|]. right. left. reflexivity. }
  destruct H0 as [H0 H0'].
  assert (Hnd : NoDup (map fst (fs0 ++ map (bind_of flag_style) es))).
  { rewrite map_app, map_fst_bind. apply nodup_app; [exact H0|exact F2|]. intros x Hx.
    apply in_map_iff in Hx. destruct Hx as (e & <- & Hin). exact (F3 e Hin). }
  constructor; try assumption.
  - intros n b. cbn [Datatypes.app]. rewrite find_flag_iff by (rewrite map_fst_bind; exact R2).
    rewrite in_map_iff. split; intros (e & H1 & H2); exists e; split; congruence || assumption.
  - intros n b. rewrite find_flag_iff by exact Hnd. rewrite in_app_iff, H0', in_map_iff. split.
    + intros [[H|H]|(e & H1 & H2)]; [left; exact H|right; left; exact H|].
      right. right. exists e. split; [exact H2|congruence].
    + intros [H|[H|(e & H1 & H2)]]; [left; left; exact H|left; right; exact H|].
      right. exists e. split; [congruence|exact H1].
Qed.

Lemma load_split fuel m m' : load fuel w E m l (TStruct s) yname = Loaded m' ->
  exists m1 es fs0 efs ffs m2 file m3 st4 file5,
    init_struct fuel E m l (TStruct s) = Some m1 /\
    (if (yname =? "")%string then Some (pre_flags w) else add_flag (pre_flags w) yname BYaml) = Some fs0 /\
    visit fuel E m1 l (TStruct s) = Some es /\
    register env_style [] es = Some efs /\ register flag_style fs0 es = Some ffs /\
    parse_args w ffs (w_args w) (m1, "") = Some (m2, file) /\
    (if (file =? "")%string then Some m2 else yaml_resolve w E m2 l (TStruct s) file) = Some m3 /\
    env_resolve w efs (map (fun e => env_style (epath e)) es) (m3, file) = Some st4 /\
    parse_args w ffs (w_args w) st4 = Some (m', file5).
Proof.
  unfold load. intros H.
  destruct (init_struct fuel E m l (TStruct s)) as [m1|]; [|discriminate].
  destruct (if (yname =? "")%string then Some (pre_flags w) else add_flag (pre_flags w) yname BYaml) as [fs0|] eqn:Hy;
    [|discriminate].
  destruct (visit fuel E m1 l (TStruct s)) as [es|] eqn:Hv; [|discriminate].
  destruct (register env_style [] es) as [efs|] eqn:He; [|discriminate].
  destruct (register flag_style fs0 es) as [ffs|] eqn:Hf; [|discriminate].
  destruct (parse_args w ffs (w_args w) (m1, "")) as [[m2 file]|] eqn:Hp; [|discriminate].
  destruct (if (file =? "")%string then Some m2 else yaml_resolve w E m2 l (TStruct s) file) as [m3|] eqn:Hyy;
    [|discriminate].
  destruct (env_resolve w efs (map (fun e => env_style (epath e)) es) (m3, file)) as [st4|] eqn:Hr; [|discriminate].
  destruct (parse_args w ffs (w_args w) st4) as [[m5 file5]|] eqn:Hp5; [|discriminate].
  injection H as ->. exists m1, es, fs0, efs, ffs, m2, file, m3, st4, file5.
  repeat (split; [reflexivity || assumption|]). assumption.
Qed.

(** Known flags are the registered ones. *)
Lemma knows_known m1 es efs ffs n b : registered m1 es efs ffs ->
  (knows ffs n b <-> known_flag w E s yname n b).
Proof.
  intros R. unfold knows, known_flag. split.
  - intros (bd & Hf & Hb). apply (r_flag _ _ _ _ R) in Hf. destruct Hf as [H|[(H1 & -> & ->)|(e & He & Heq)]].
    + left. unfold pre_flags in H. apply in_map_iff in H. destruct H as ([n' [b' acc]] & Heq & Hin).
      cbn [fst snd] in Heq. assert (n' = n) as -> by congruence. assert (bd = BForeign b' acc) as -> by congruence.
      cbn [is_bool_flag] in Hb. subst b'. exists acc. exact Hin.
    + right. left. split; [reflexivity|]. split; [exact H1|]. symmetry. exact Hb.
    + right. right. destruct (r_out _ _ _ _ R e He) as (names & p & Hv & Hp & _).
      exists names, p, (ekind e), (enamed e). split; [exact Hv|]. unfold bind_of in Heq.
      split; [rewrite <- Hp; congruence|]. assert (bd = BField (ekind e) (eloc e)) as -> by congruence.
      symmetry. exact Hb.
  - intros [(acc & Hin)|[(-> & Hy & ->)|(names & p & k & named & Hv & -> & ->)]].
    + exists (BForeign b acc). split; [|reflexivity]. apply (r_flag _ _ _ _ R). left. unfold pre_flags.
      apply in_map_iff. exists (n, (b, acc)). split; [reflexivity|exact Hin].
    + exists BYaml. split; [|reflexivity]. apply (r_flag _ _ _ _ R). right. left. repeat (split; [assumption||reflexivity|]).
      reflexivity.
    + destruct (r_in _ _ _ _ R _ _ _ _ Hv) as (e & He & Hp & Hk & Hn & _).
      exists (BField k (eloc e)). split; [|destruct k; reflexivity]. apply (r_flag _ _ _ _ R). right. right.
      exists e. split; [exact He|]. unfold bind_of. rewrite Hp, Hk. reflexivity.
Qed.

Lemma gives_names known args asg : gives known args asg -> forall n v, In (n, v) asg -> n <> "".
Proof.
  induction 1 as [|a rest Ha|d n b v rest asg Hd Hn Hk _ IH|d n rest asg Hd Hn Hk _ IH
    |d n v rest asg Hd Hn Hk _ IH]; intros n' v' Hin; try (destruct Hin; fail).
  all: destruct Hin as [Heq|Hin]; [assert (n' = n) as -> by congruence; exact (proj1 Hn)|exact (IH _ _ Hin)].
Qed.

Lemma file_given m1 es efs ffs asg st' : registered m1 es efs ffs ->
  gives (knows ffs) (w_args w) asg -> apply_all w ffs asg (m1, "") = Some st' ->
  snd st' = match last_given asg yname with Some f => f | None => "" end.
Proof.
  intros R Hg Ha. destruct (String.string_dec yname "") as [Hy|Hy].
  - assert (Hl : last_given asg yname = None).
    { destruct (last_given asg yname) as [v|] eqn:Hl; [|reflexivity]. exfalso.
      apply last_given_in in Hl. exact (gives_names _ _ _ Hg _ _ Hl Hy). }
    rewrite Hl. clear Hl Hg. change "" with (snd (m1, "")). revert Ha. generalize (m1, "").
    induction asg as [|[n v] asg IH]; intros st Ha; cbn [apply_all] in Ha; [congruence|].
    destruct (find_flag ffs n) as [b|] eqn:Hf; [|discriminate].
    destruct (set_flag w st b v) as [st1|] eqn:Hs; [|discriminate]. rewrite (IH _ Ha).
    destruct b as [k lb| |isb acc]; cbn [set_flag] in Hs.
    + destruct (w_parse w k v) as [x|]; [|discriminate]. injection Hs as <-. reflexivity.
    + exfalso. apply (r_flag _ _ _ _ R) in Hf. destruct Hf as [H|[(H & _)|(e & _ & H)]].
      * unfold pre_flags in H. apply in_map_iff in H. destruct H as (z & H & _). discriminate.
      * contradiction.
      * discriminate.
    + destruct (acc v); [congruence|discriminate].
  - change "" with (snd (m1, "")). apply (apply_all_file w ffs yname); [|left|exact Ha].
    + intros n Hf. apply (r_flag _ _ _ _ R) in Hf. destruct Hf as [H|[(_ & H & _)|(e & _ & H)]].
      * unfold pre_flags in H. apply in_map_iff in H. destruct H as (z & H & _). discriminate.
      * exact H.
      * discriminate.
    + apply (r_flag _ _ _ _ R). right. left. split; [exact Hy|]. split; reflexivity.
Qed.

(** Assignments only write scalars of the config variable. *)
Lemma field_binding m1 es efs ffs n k lb : registered m1 es efs ffs ->
  find_flag ffs n = Some (BField k lb) \/ find_flag efs n = Some (BField k lb) ->
  exists e, In e es /\ eloc e = lb /\ ekind e = k.
Proof.
  intros R [H|H].
  - apply (r_flag _ _ _ _ R) in H. destruct H as [H|[(_ & _ & H)|(e & He & H)]].
    + unfold pre_flags in H. apply in_map_iff in H. destruct H as (z & H & _). discriminate.
    + discriminate.
    + exists e. unfold bind_of in H. split; [exact He|]. split; congruence.
  - apply (r_env _ _ _ _ R) in H. destruct H as (e & He & H). exists e. unfold bind_of in H.
    split; [exact He|]. split; congruence.
Qed.

Lemma assigned_cells m1 es efs ffs fs asg st st' : registered m1 es efs ffs -> fs = ffs \/ fs = efs ->
  apply_all w fs asg st = Some st' -> forall a, cells (fst st') a <> cells (fst st) a ->
  exists p k named x, W m1 p = Some (a, TScalar k named) /\ cells (fst st') a = CVal x.
Proof.
  intros R Hfs Ha a Hne. destruct (apply_all_cells _ _ _ _ _ Ha a Hne) as (n & k & x & Hf & Hx).
  destruct (field_binding m1 es efs ffs n k a R) as (e & He & <- & <-).
  - destruct Hfs as [->| ->]; [left|right]; exact Hf.
  - destruct (r_out _ _ _ _ R e He) as (names & p & _ & _ & Hw). exists p, (ekind e), (enamed e), x.
    split; [exact Hw|exact Hx].
Qed.

(** A walk that is as in [m1] stays so when scalars of [m1] are assigned. *)
Lemma assigned_walk m1 es efs ffs fs asg st st' p : registered m1 es efs ffs -> fs = ffs \/ fs = efs ->
  apply_all w fs asg st = Some st' ->
  (forall p1 p2, p = p1 ++ p2 -> W (fst st) p1 = W m1 p1) -> W (fst st') p = W (fst st) p.
Proof.
  intros R Hfs Ha Hp. apply walk_frame. intros p1 p2 l1 t1 -> Hw.
  assert (Hdec : cells (fst st') l1 = cells (fst st) l1 \/ cells (fst st') l1 <> cells (fst st) l1)
    by (repeat decide equality).
  destruct Hdec as [H|H]; [exact H|]. exfalso.
  destruct (assigned_cells m1 es efs ffs fs asg st st' R Hfs Ha l1 H) as (q & k & named & x & Hq & _).
  rewrite (Hp p1 (SDeref :: p2) eq_refl) in Hw.
  pose proof (inv_un _ _ _ _ (r_inv _ _ _ _ R) _ _ _ _ _ Hw Hq) as ->. congruence.
Qed.

Lemma assigned_inv m1 es efs ffs asg st' : registered m1 es efs ffs ->
  apply_all w ffs asg (m1, "") = Some st' -> inv (fst st').
Proof.
  intros R Ha. apply (inv_less E l (TStruct s) m1).
  - exact (r_inv _ _ _ _ R).
  - exact (apply_all_next _ _ _ _ _ Ha).
  - intros a b Hab.
    assert (Hdec : cells (fst st') a = cells m1 a \/ cells (fst st') a <> cells m1 a) by (repeat decide equality).
    destruct Hdec as [H|H]; [congruence|]. exfalso.
    destruct (assigned_cells m1 es efs ffs ffs asg (m1, "") st' R (or_introl eq_refl) Ha a H) as (q & k & named & x & _ & Hx).
    congruence.
Qed.

Lemma bound_flag m1 es efs ffs e : registered m1 es efs ffs -> In e es ->
  find_flag ffs (flag_style (epath e)) = Some (BField (ekind e) (eloc e)) /\
  forall n k, find_flag ffs n = Some (BField k (eloc e)) -> n = flag_style (epath e).
Proof.
  intros R He. split.
  - apply (r_flag _ _ _ _ R). right. right. exists e. split; [exact He|reflexivity].
  - intros n k Hf. apply (r_flag _ _ _ _ R) in Hf. destruct Hf as [H|[(_ & _ & H)|(e' & He' & H)]].
    + unfold pre_flags in H. apply in_map_iff in H. destruct H as (z & H & _). discriminate.
    + discriminate.
    + unfold bind_of in H. rewrite (r_loc _ _ _ _ R e e' He He' ltac:(congruence)). congruence.
Qed.

Lemma bound_env m1 es efs ffs e : registered m1 es efs ffs -> In e es ->
  find_flag efs (env_style (epath e)) = Some (BField (ekind e) (eloc e)) /\
  forall n k, find_flag efs n = Some (BField k (eloc e)) -> n = env_style (epath e).
Proof.
  intros R He. split.
  - apply (r_env _ _ _ _ R). exists e. split; [exact He|reflexivity].
  - intros n k Hf. apply (r_env _ _ _ _ R) in Hf. destruct Hf as (e' & He' & H).
    unfold bind_of in H. rewrite (r_loc _ _ _ _ R e e' He He' ltac:(congruence)). congruence.
Qed.

Lemma says_null_struct p x : ~ says (w_key w) E (TStruct s) YNull p x.
Proof. intros H. inversion H. Qed.

Lemma load_spec fuel m m' :
  inv m -> load fuel w E m l (TStruct s) yname = Loaded m' ->
  exists asg doc,
    (forall asg', gives (known_flag w E s yname) (w_args w) asg' <-> asg' = asg) /\ config_doc w yname asg = Some doc /\
    fits w E (TStruct s) doc /\
    (forall names p k named, visible E s names p k named ->
       named = false /\
       (forall v, In (flag_style (dotted names), v) asg -> w_parse w k v <> None) /\
       (forall v, w_env w (env_style (dotted names)) = Some v -> w_parse w k v <> None) /\
       (no_null_on (w_key w) E (TStruct s) doc p ->
        exists lp, W m' p = Some (lp, TScalar k named) /\
          expected w k (last_given asg (flag_style (dotted names))) (w_env w (env_style (dotted names)))
            (fun v => says (w_key w) E (TStruct s) doc p (Said v))
            (value_at E m l (TStruct s) p) (cells m' lp))).
Proof.
  intros Hi H.
  destruct (load_split fuel m m' H)
    as (m1 & es & fs0 & efs & ffs & m2 & file & m3 & st4 & file5 & Hinit & Hy & Hv & He & Hf & Hp2 & Hyy & Hr & Hp5).
  pose proof (registered_intro fuel m m1 es fs0 efs ffs Hi Hinit Hy Hv He Hf) as R.
  destruct (parse_args_inv w ffs _ _ _ Hp2) as [asg Hg].
  rewrite (parse_args_gives w ffs _ _ Hg) in Hp2, Hp5. rewrite env_resolve_asg in Hr.
  pose proof (file_given m1 es efs ffs asg _ R Hg Hp2) as Hfile. cbn [snd] in Hfile.
  pose proof (assigned_inv m1 es efs ffs asg _ R Hp2) as Hi2. cbn [fst] in Hi2.
  assert (Hdoc : exists doc, config_doc w yname asg = Some doc /\ unmarshal w E m2 l (TStruct s) doc = Some m3).
  { unfold config_doc. destruct (file =? "")%string eqn:Hfe.
    - exists YNull. split; [|cbn [unmarshal]; exact Hyy]. apply String.eqb_eq in Hfe.
      destruct (last_given asg yname) as [f|]; [|reflexivity]. rewrite <- Hfile, Hfe. reflexivity.
    - unfold yaml_resolve in Hyy. destruct (w_file w file) as [doc|] eqn:Hw; [|discriminate].
      exists doc. split; [|exact Hyy]. destruct (last_given asg yname) as [f|].
      + subst f. rewrite Hfe. exact Hw.
      + subst file. discriminate. }
  destruct Hdoc as (doc & Hdoc & Hun).
  exists asg, doc. split.
  { intros asg'. split; [|intros ->].
    - intros Hg'. apply (gives_unique_known (knows ffs)) with (args := w_args w).
      + intros n b1 b2 (x & H1 & H2) (y & H3 & H4). congruence.
      + refine (gives_weaken _ _ _ _ _ Hg'). intros n b. apply (knows_known _ _ _ _ _ _ R).
      + exact Hg.
    - refine (gives_weaken _ _ _ _ _ Hg). intros n b. apply (knows_known _ _ _ _ _ _ R). }
  split; [exact Hdoc|]. split; [apply (unmarshal_fits w E doc (TStruct s) m2 l); congruence|].
  intros names p k named Hvis.
  destruct (r_in _ _ _ _ R _ _ _ _ Hvis) as (e & Hein & Hpath & Hk & Hnm & Hw1).
  assert (Hnamed : named = false) by (rewrite <- Hnm; exact (r_named _ _ _ _ R e Hein)).
  destruct (bound_flag _ _ _ _ e R Hein) as [Bf Uf]. destruct (bound_env _ _ _ _ e R Hein) as [Be Ue].
  rewrite Hpath, Hk in Bf, Be. rewrite Hpath in Uf, Ue.
  split; [exact Hnamed|]. split; [|split].
  - intros v Hin. destruct (apply_all_acc _ _ _ _ _ Hp2 _ _ Hin) as (b & Hb & Hok).
    rewrite Bf in Hb. injection Hb as <-. exact Hok.
  - intros v Henv.
    destruct (apply_all_acc _ _ _ _ _ Hr (env_style (dotted names)) v) as (b & Hb & Hok).
    + apply env_asg_in. split; [|exact Henv]. apply in_map_iff. exists e. split; [rewrite Hpath; reflexivity|exact Hein].
    + rewrite Be in Hb. injection Hb as <-. exact Hok.
  - intros Hnn. set (lp := eloc e) in *.
    (* walks of the prefixes of p *)
    assert (W2 : forall p1 p2, p = p1 ++ p2 -> W m2 p1 = W m1 p1).
    { intros p1 p2 _. apply (assigned_walk m1 es efs ffs ffs asg (m1, "") (m2, file) p1 R (or_introl eq_refl) Hp2).
      intros p3 p4 _. reflexivity. }
    assert (Hnn' : forall p1 p2, p = p1 ++ p2 -> no_null w E [] (TStruct s) doc p1).
    { intros p1 p2 Hp q1 q2 r Hq -> Hs. cbn [Datatypes.app] in Hq. apply (Hnn r (q2 ++ p2)); [|exact Hs].
      rewrite Hp, Hq, app_assoc. reflexivity. }
    pose proof (unmarshal_decodes w E l (TStruct s) Hkeys doc m2 [] l (TStruct s) m3 Hi2 eq_refl Hun) as [_ Hd].
    assert (Hwp : forall p1 p2, p = p1 ++ p2 -> exists x, W m2 p1 = Some x).
    { intros p1 p2 Hp. rewrite (W2 p1 p2 Hp). rewrite Hp in Hw1.
      destruct (walk_prefix E _ _ _ _ _ _ Hw1) as (l1 & t1 & H1). exists (l1, t1). exact H1. }
    assert (W3 : forall p1 p2, p = p1 ++ p2 -> W m3 p1 = W m1 p1).
    { intros p1 p2 Hp. destruct (Hwp p1 p2 Hp) as [x Hx].
      destruct (Hd p1 x Hx (Hnn' p1 p2 Hp)) as [Hw _]. rewrite Hw. exact (W2 p1 p2 Hp). }
    assert (W4 : forall p1 p2, p = p1 ++ p2 -> W (fst st4) p1 = W m1 p1).
    { intros p1 p2 Hp. rewrite (assigned_walk m1 es efs ffs efs _ _ _ p1 R (or_intror eq_refl) Hr); cbn [fst].
      - exact (W3 p1 p2 Hp).
      - intros p3 p4 Hp3. apply (W3 p3 (p4 ++ p2)). rewrite Hp, Hp3, app_assoc. reflexivity. }
    assert (W5 : W m' p = W m1 p).
    { change m' with (fst (m', file5)).
      rewrite (assigned_walk m1 es efs ffs ffs _ _ _ p R (or_introl eq_refl) Hp5).
      - apply (W4 p []). rewrite app_nil_r. reflexivity.
      - intros p3 p4 Hp3. exact (W4 p3 p4 Hp3). }
    exists lp. split; [rewrite W5; exact Hw1|].
    (* values *)
    pose proof (apply_all_value w ffs lp _ _ Bf Uf _ _ _ Hp2) as V2. cbn [fst] in V2.
    pose proof (apply_all_value w efs lp _ _ Be Ue _ _ _ Hr) as V4. cbn [fst] in V4.
    pose proof (apply_all_value w ffs lp _ _ Bf Uf _ _ _ Hp5) as V5. cbn [fst] in V5.
    rewrite last_given_env in V4.
    destruct (in_dec String.string_dec (env_style (dotted names)) (map (fun e => env_style (epath e)) es)) as [_|Hno].
    2: { exfalso. apply Hno. apply in_map_iff. exists e. split; [rewrite Hpath; reflexivity|exact Hein]. }
    unfold expected. destruct (last_given asg (flag_style (dotted names))) as [v|].
    + exact V5.
    + rewrite V5. destruct (w_env w (env_style (dotted names))) as [v|].
      * exact V4.
      * rewrite V4. destruct (Hwp p []) as [x Hx]; [rewrite app_nil_r; reflexivity|].
        destruct (Hd p x Hx (Hnn' p [] ltac:(rewrite app_nil_r; reflexivity))) as [_ Hc].
        destruct (Hc lp k named) as [C1 C2].
        { rewrite (W2 p [] ltac:(rewrite app_nil_r; reflexivity)). exact Hw1. }
        split.
        -- intros v Hs. apply C1. exists p. split; [reflexivity|exact Hs].
        -- intros Hs. rewrite C2, V2.
           ++ destruct (init_struct_inv fuel E m l s m1 Hi Hinit) as (_ & Hgrow & _).
              pose proof (grow_val _ _ _ _ _ Hgrow p lp _ Hw1 ltac:(discriminate)) as Hval.
              rewrite <- Hval. unfold value_at. rewrite Hw1. reflexivity.
           ++ intros v (r & -> & Hr'). exact (Hs v Hr').
Qed.

(** * Conflicts *)

Lemma not_nodup_pair {A B} (f : A -> B) (dec : forall a b : B, {a = b} + {a <> b}) (xs : list A) :
  ~ NoDup (map f xs) -> exists i j x y, i <> j /\ nth_error xs i = Some x /\ nth_error xs j = Some y /\ f x = f y.
Proof.
  induction xs as [|x xs IH]; intros H.
  - exfalso. apply H. constructor.
  - destruct (in_dec dec (f x) (map f xs)) as [Hin|Hin].
    + apply in_map_iff in Hin. destruct Hin as (y & Hy & Hyin). apply In_nth_error in Hyin. destruct Hyin as [j Hj].
      exists 0, (S j), x, y. split; [discriminate|]. split; [reflexivity|]. split; [exact Hj|congruence].
    + destruct IH as (i & j & a & b & Hij & Ha & Hb & Hab).
      * intros Hn. apply H. cbn [map]. constructor; assumption.
      * exists (S i), (S j), a, b. split; [congruence|]. split; [exact Ha|]. split; [exact Hb|exact Hab].
Qed.

Lemma in_nodup_eq {A B} (f : A -> B) (xs : list A) : NoDup (map f xs) ->
  forall x y, In x xs -> In y xs -> f x = f y -> x = y.
Proof.
  induction xs as [|z xs IH]; cbn [map]; intros Hd x y Hx Hy Hxy; [destruct Hx|]. inversion Hd; subst.
  destruct Hx as [<-|Hx], Hy as [<-|Hy].
  - reflexivity.
  - exfalso. apply H1. apply in_map_iff. exists y. split; [congruence|exact Hy].
  - exfalso. apply H1. apply in_map_iff. exists x. split; [congruence|exact Hx].
  - apply IH; assumption.
Qed.

Lemma load_panics_iff fuel m : inv m ->
  load fuel w E m l (TStruct s) yname <> OutOfFuel ->
  (load fuel w E m l (TStruct s) yname = Panicked <-> conflict w E s yname).
Proof.
  intros Hi Hfuel. unfold load in *.
  destruct (init_struct fuel E m l (TStruct s)) as [m1|] eqn:Hinit; [|contradiction].
  destruct (init_struct_inv fuel E m l s m1 Hi Hinit) as (Hi1 & _).
  pose proof (fun names p k named => visible_walk m fuel m1 names p k named Hi Hinit) as Hw.
  destruct (if (yname =? "")%string then Some (pre_flags w) else add_flag (pre_flags w) yname BYaml) as [fs0|] eqn:Hy.
  2: { split; [|reflexivity]. intros _. left. destruct (yname =? "")%string eqn:Hy0; [discriminate|].
       apply String.eqb_neq in Hy0. split; [exact Hy0|]. unfold add_flag in Hy.
       destruct (find_flag (pre_flags w) yname) as [b|] eqn:Hf; [|discriminate].
       apply find_flag_in in Hf. rewrite <- pre_names. apply in_map_iff. exists (yname, b). split; [reflexivity|exact Hf]. }
  assert (Hfs0 : forall n, In n (map fst fs0) <-> In n (map fst (w_pre w)) \/ (n = yname /\ yname <> "")).
  { intros n. rewrite <- pre_names. destruct (yname =? "")%string eqn:Hy0.
    - injection Hy as <-. apply String.eqb_eq in Hy0. split; [intros H; left; exact H|].
      intros [H|[_ H]]; [exact H|contradiction].
    - apply String.eqb_neq in Hy0. unfold add_flag in Hy.
      destruct (find_flag (pre_flags w) yname) as [b|]; [discriminate|]. injection Hy as <-.
      rewrite map_app, in_app_iff. cbn [map fst In]. split.
      + intros [H|[H|[]]]; [left; exact H|right; split; [symmetry; exact H|exact Hy0]].
      + intros [H|[-> _]]; [left; exact H|right; left; reflexivity]. }
  assert (Hnoy : ~ (yname <> "" /\ In yname (map fst (w_pre w)))).
  { intros [H1 H2]. apply seqb_neq in H1. rewrite H1 in Hy. unfold add_flag in Hy. rewrite <- pre_names in H2.
    destruct (find_flag (pre_flags w) yname) as [b|] eqn:Hf; [discriminate|]. apply find_flag_none in Hf. exact (Hf H2). }
  destruct (visit fuel E m1 l (TStruct s)) as [es|] eqn:Hv; [|contradiction].
  destruct (items_entries m1 fuel es Hi1 Hv Hw) as (A & B & C & D).
  (* a failed registration is a conflict *)
  assert (Hbad : forall style fs, style = env_style /\ fs = [] \/ style = flag_style /\ fs = fs0 ->
            register style fs es = None -> conflict w E s yname).
  { intros style fs Hst Hr. pose proof (register_spec style es fs) as Rs. rewrite Hr in Rs.
    destruct Rs as [(e & He & Hn)|[Hd|(e & He & Hin)]].
    - right. left. destruct (B e He) as (names & p & Hvis & _). rewrite Hn in Hvis. exists names, p, (ekind e). exact Hvis.
    - right. right. left. destruct (not_nodup_pair _ String.string_dec _ Hd) as (i & j & x & y & Hij & Hx & Hy' & Hxy).
      destruct (D i j x y Hx Hy' Hij) as (n1 & p1 & n2 & p2 & Hp & V1 & E1 & V2 & E2).
      exists n1, p1, (ekind x), (enamed x), n2, p2, (ekind y), (enamed y).
      split; [exact V1|]. split; [exact V2|]. split; [exact Hp|]. cbn beta in Hxy. rewrite E1, E2 in Hxy.
      destruct Hst as [[-> _]|[-> _]]; [left|right]; exact Hxy.
    - destruct Hst as [[_ ->]|[-> ->]]; [destruct Hin|]. right. right. right.
      destruct (B e He) as (names & p & Hvis & Hp & _). exists names, p, (ekind e), (enamed e). split; [exact Hvis|].
      rewrite <- Hp. apply Hfs0 in Hin. destruct Hin as [Hin|Hin]; [right; exact Hin|left; exact Hin]. }
  destruct (register env_style [] es) as [efs|] eqn:He.
  2: { split; [|reflexivity]. intros _. exact (Hbad env_style [] (or_introl (conj eq_refl eq_refl)) He). }
  destruct (register flag_style fs0 es) as [ffs|] eqn:Hf.
  2: { split; [|reflexivity]. intros _. exact (Hbad flag_style fs0 (or_intror (conj eq_refl eq_refl)) Hf). }
  assert (Hgood : ~ conflict w E s yname).
  { pose proof (register_spec env_style es []) as Re. rewrite He in Re. destruct Re as (_ & R1 & R2 & _).
    pose proof (register_spec flag_style es fs0) as Rf. rewrite Hf in Rf. destruct Rf as (_ & _ & F2 & F3).
    intros [H|[(names & p & k & Hvis)|[(n1 & p1 & k1 & d1 & n2 & p2 & k2 & d2 & V1 & V2 & Hp & Hs)|(names & p & k & d & Hvis & Hs)]]].
    - exact (Hnoy H).
    - destruct (A _ _ _ _ Hvis) as (e & Hin & _ & _ & Hn & _). rewrite (R1 e Hin) in Hn. discriminate.
    - destruct (A _ _ _ _ V1) as (e1 & I1 & P1 & K1 & N1 & W1). destruct (A _ _ _ _ V2) as (e2 & I2 & P2 & K2 & N2 & W2).
      assert (Heq : e1 = e2).
      { destruct Hs as [Hs|Hs].
        - apply (in_nodup_eq _ _ R2); [exact I1|exact I2|]. rewrite P1, P2. exact Hs.
        - apply (in_nodup_eq _ _ F2); [exact I1|exact I2|]. rewrite P1, P2. exact Hs. }
      subst e2. apply Hp. exact (inv_un _ _ _ _ Hi1 _ _ _ _ _ W1 W2).
    - destruct (A _ _ _ _ Hvis) as (e & Hin & Hp & _). apply (F3 e Hin). apply Hfs0. rewrite Hp.
      destruct Hs as [Hs|Hs]; [right; exact Hs|left; exact Hs]. }
  split; [|intros Hc; exfalso; exact (Hgood Hc)].
  destruct (parse_args w ffs (w_args w) (m1, "")) as [[m2 file]|]; [|discriminate].
  destruct (if (file =? "")%string then Some m2 else yaml_resolve w E m2 l (TStruct s) file); [|discriminate].
  destruct (env_resolve w efs (map (fun e => env_style (epath e)) es) (m0, file)); [|discriminate].
  destruct (parse_args w ffs (w_args w) p) as [[m5 file']|]; discriminate.
Qed.

(** Everybody else's flags got texts they accept. *)
Lemma load_foreign fuel m m' asg n b acc v :
  inv m -> load fuel w E m l (TStruct s) yname = Loaded m' ->
  gives (known_flag w E s yname) (w_args w) asg -> In (n, (b, acc)) (w_pre w) -> In (n, v) asg -> acc v = true.
Proof.
  intros Hi H Hg Hin Hv.
  destruct (load_split fuel m m' H)
    as (m1 & es & fs0 & efs & ffs & m2 & file & m3 & st4 & file5 & Hinit & Hy & Hvi & He & Hf & Hp2 & _).
  pose proof (registered_intro fuel m m1 es fs0 efs ffs Hi Hinit Hy Hvi He Hf) as R.
  assert (Hg' : gives (knows ffs) (w_args w) asg).
  { refine (gives_weaken _ _ _ _ _ Hg). intros n1 b1. apply (knows_known _ _ _ _ _ _ R). }
  rewrite (parse_args_gives w ffs _ _ Hg') in Hp2.
  destruct (apply_all_acc _ _ _ _ _ Hp2 _ _ Hv) as (bd & Hb & Hok).
  assert (Hb' : find_flag ffs n = Some (BForeign b acc)).
  { apply (r_flag _ _ _ _ R). left. unfold pre_flags. apply in_map_iff. exists (n, (b, acc)). split; [reflexivity|exact Hin]. }
  rewrite Hb' in Hb. injection Hb as <-. exact Hok.
Qed.

(** * Success *)

Lemma load_succeeds_if fuel m asg doc : inv m ->
  load fuel w E m l (TStruct s) yname <> OutOfFuel -> ~ conflict w E s yname ->
  gives (known_flag w E s yname) (w_args w) asg ->
  config_doc w yname asg = Some doc -> fits w E (TStruct s) doc ->
  (forall n b acc v, In (n, (b, acc)) (w_pre w) -> In (n, v) asg -> acc v = true) ->
  (forall names p k named v, visible E s names p k named ->
     In (flag_style (dotted names), v) asg \/ w_env w (env_style (dotted names)) = Some v ->
     w_parse w k v <> None) ->
  exists m', load fuel w E m l (TStruct s) yname = Loaded m'.
Proof.
  intros Hi Hfuel Hnc Hg Hdoc Hfits Hacc Hparse.
  assert (Hnp : load fuel w E m l (TStruct s) yname <> Panicked).
  { intros H. apply Hnc. apply (load_panics_iff fuel m Hi Hfuel). exact H. }
  unfold load in *.
  destruct (init_struct fuel E m l (TStruct s)) as [m1|] eqn:Hinit; [|contradiction].
  destruct (if (yname =? "")%string then Some (pre_flags w) else add_flag (pre_flags w) yname BYaml) as [fs0|] eqn:Hy;
    [|contradiction].
  destruct (visit fuel E m1 l (TStruct s)) as [es|] eqn:Hv; [|contradiction].
  destruct (register env_style [] es) as [efs|] eqn:He; [|contradiction].
  destruct (register flag_style fs0 es) as [ffs|] eqn:Hf; [|contradiction].
  pose proof (registered_intro fuel m m1 es fs0 efs ffs Hi Hinit Hy Hv He Hf) as R.
  assert (Hg' : gives (knows ffs) (w_args w) asg).
  { refine (gives_weaken _ _ _ _ _ Hg). intros n b. apply (knows_known _ _ _ _ _ _ R). }
  rewrite (parse_args_gives w ffs _ _ Hg').
  assert (Hargs : forall st, apply_all w ffs asg st <> None).
  { apply apply_all_ok. intros n v Hin.
    assert (Hkn : exists b, find_flag ffs n = Some b).
    { assert (G : forall known args asg, gives known args asg -> forall n v, In (n, v) asg -> exists b, known n b).
      { clear. induction 1 as [|a rest Ha|d n b v rest asg Hd Hn Hk _ IH|d n rest asg Hd Hn Hk _ IH
          |d n v rest asg Hd Hn Hk _ IH]; intros n' v' Hin; try (destruct Hin; fail).
        - destruct Hin as [Heq|Hin]; [assert (n' = n) as -> by congruence; exists b; exact Hk|exact (IH _ _ Hin)].
        - destruct Hin as [Heq|Hin]; [assert (n' = n) as -> by congruence; exists true; exact Hk|exact (IH _ _ Hin)].
        - destruct Hin as [Heq|Hin]; [assert (n' = n) as -> by congruence; exists false; exact Hk|exact (IH _ _ Hin)]. }
      destruct (G _ _ _ Hg' n v Hin) as (b & bd & Hbd & _). exists bd. exact Hbd. }
    destruct Hkn as [b Hb]. exists b. split; [exact Hb|].
    apply (r_flag _ _ _ _ R) in Hb. destruct Hb as [H|[(_ & _ & ->)|(e & Hein & H)]].
    - unfold pre_flags in H. apply in_map_iff in H. destruct H as ([n' [b' acc]] & Heq & Hin').
      cbn [fst snd] in Heq. assert (n' = n) as -> by congruence. assert (b = BForeign b' acc) as -> by congruence.
      exact (Hacc n b' acc v Hin' Hin).
    - exact I.
    - unfold bind_of in H. assert (b = BField (ekind e) (eloc e)) as -> by congruence.
      destruct (r_out _ _ _ _ R e Hein) as (names & p & Hvis & Hp & _).
      apply (Hparse names p _ _ v Hvis). left. rewrite <- Hp. assert (n = flag_style (epath e)) as <- by congruence.
      exact Hin. }
  destruct (apply_all w ffs asg (m1, "")) as [[m2 file]|] eqn:Hp2; [|exfalso; exact (Hargs _ Hp2)].
  pose proof (file_given m1 es efs ffs asg _ R Hg' Hp2) as Hfile. cbn [snd] in Hfile.
  assert (Hyy : exists m3, (if (file =? "")%string then Some m2 else yaml_resolve w E m2 l (TStruct s) file) = Some m3).
  { destruct (file =? "")%string eqn:Hfe; [exists m2; reflexivity|]. unfold yaml_resolve.
    unfold config_doc in Hdoc. destruct (last_given asg yname) as [f|]; [|subst file; discriminate].
    subst f. rewrite Hfe in Hdoc. rewrite Hdoc.
    pose proof (proj2 (unmarshal_fits w E doc (TStruct s) m2 l) Hfits) as Hu.
    destruct (unmarshal w E m2 l (TStruct s) doc) as [m3|]; [exists m3; reflexivity|contradiction]. }
  destruct Hyy as [m3 ->]. rewrite env_resolve_asg.
  destruct (apply_all w efs (env_asg w (map (fun e => env_style (epath e)) es)) (m3, file)) as [st4|] eqn:Hr.
  2: { exfalso. revert Hr. apply apply_all_ok. intros n v Hin. apply env_asg_in in Hin. destruct Hin as [Hin Henv].
       apply in_map_iff in Hin. destruct Hin as (e & <- & Hein). exists (BField (ekind e) (eloc e)).
       split; [exact (proj1 (bound_env _ _ _ _ e R Hein))|].
       destruct (r_out _ _ _ _ R e Hein) as (names & p & Hvis & Hp & _).
       apply (Hparse names p _ _ v Hvis). right. rewrite <- Hp. exact Henv. }
  rewrite (parse_args_gives w ffs _ _ Hg').
  destruct (apply_all w ffs asg st4) as [[m5 file5]|] eqn:Hp5; [|exfalso; exact (Hargs _ Hp5)].
  exists m5. reflexivity.
Qed.

End Load.
