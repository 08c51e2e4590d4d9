(** The theorems about config loading, with their premises spelled out. *)
From Coq Require Import Relations.
From Verif Require Import Common Bytes ConfNamesModel ConfNamesSpec
  ConfLoadModel ConfLoadSpec ConfLoadProofs ConfLoadInit ConfLoadFlags ConfLoadYaml ConfLoadFits ConfLoadRuns.
Local Open Scope string_scope.
Local Open Scope list_scope.
Local Open Scope nat_scope.

Lemma mk_inv E l s m : mem_ok m -> allocated m l -> unshared E m l (TStruct s) -> inv E l (TStruct s) m.
Proof. intros H1 H2 H3. constructor; assumption. Qed.

Lemma no_nil fuel E m l s m' p t :
  mem_ok m -> allocated m l -> unshared E m l (TStruct s) ->
  init_struct fuel E m l (TStruct s) = Some m' -> settable E s p (TPtr t) ->
  exists lp l', walk E m' l (TStruct s) p = Some (lp, TPtr t) /\ cells m' lp = CPtr l'.
Proof.
  intros H1 H2 H3 H Hs.
  destruct (init_struct_inv fuel E m l s m' (mk_inv _ _ _ _ H1 H2 H3) H) as (_ & _ & _ & Hg).
  destruct (Hg p _ Hs) as (lp & Hw & Hc). destruct (Hc t eq_refl) as [l' Hl]. exists lp, l'. split; assumption.
Qed.

Lemma keeps fuel E m l s m' :
  mem_ok m -> allocated m l -> unshared E m l (TStruct s) ->
  init_struct fuel E m l (TStruct s) = Some m' ->
  (forall a, allocated m a -> cells m' a <> cells m a ->
     (forall l', cells m a <> CPtr l') /\ (exists o, next m <= o /\ cells m' a = CPtr (o, [])) /\
     exists p t1, settable E s p (TPtr t1) /\ walk E m' l (TStruct s) p = Some (a, TPtr t1)) /\
  (forall p x, walk E m l (TStruct s) p = Some x -> walk E m' l (TStruct s) p = Some x) /\
  (forall p lp tp, walk E m' l (TStruct s) p = Some (lp, tp) -> (forall t, tp <> TPtr t) ->
     value_at E m' l (TStruct s) p = value_at E m l (TStruct s) p) /\
  mem_ok m' /\ unshared E m' l (TStruct s).
Proof.
  intros H1 H2 H3 H.
  destruct (init_struct_inv fuel E m l s m' (mk_inv _ _ _ _ H1 H2 H3) H) as (Hi & Hg & Hc & _).
  split; [exact Hc|]. split; [exact (grow_walk _ _ _ _ _ Hg)|]. split; [exact (grow_val _ _ _ _ _ Hg)|].
  split; [exact (inv_ok _ _ _ _ Hi)|exact (inv_un _ _ _ _ Hi)].
Qed.

Lemma visited fuel E m l s es : names_ok E -> visit fuel E m l (TStruct s) = Some es ->
  exists ps, NoDup ps /\
    (forall p, In p ps <-> exists names k named lp, visible E s names p k named /\
                             walk E m l (TStruct s) p = Some (lp, TScalar k named)) /\
    Forall2 (fun p e => exists names, visible E s names p (ekind e) (enamed e) /\ epath e = dotted names /\
                          walk E m l (TStruct s) p = Some (eloc e, TScalar (ekind e) (enamed e))) ps es.
Proof.
  intros Hn H. destruct (visit_items E m Hn fuel l s es H) as (xs & -> & Hnd & Hx).
  exists (map (fun x => snd (fst x)) xs). split; [exact Hnd|]. split.
  - intros p. rewrite in_map_iff. split.
    + intros ([[names p'] e] & Hp & Hin). cbn [fst snd] in Hp. subst p'. apply Hx in Hin.
      destruct Hin as (H1 & _ & H2). exists names, (ekind e), (enamed e), (eloc e). split; assumption.
    + intros (names & k & named & lp & H1 & H2). exists (names, p, mkEntry (dotted names) lp k named).
      split; [reflexivity|]. apply Hx. split; [exact H1|]. split; [reflexivity|exact H2].
  - assert (Hall : forall x, In x xs -> exists names, visible E s names (snd (fst x)) (ekind (snd x)) (enamed (snd x)) /\
              epath (snd x) = dotted names /\
              walk E m l (TStruct s) (snd (fst x)) = Some (eloc (snd x), TScalar (ekind (snd x)) (enamed (snd x)))).
    { intros [[names p] e] Hin. exists names. exact (proj1 (Hx (names, p, e)) Hin). }
    clear Hx Hnd H. induction xs as [|x xs IH]; cbn [map]; constructor.
    + apply Hall. left. reflexivity.
    + apply IH. intros y Hy. apply Hall. right. exact Hy.
Qed.

Lemma visible_loaded fuel E m l s m' names p k named :
  mem_ok m -> allocated m l -> unshared E m l (TStruct s) ->
  init_struct fuel E m l (TStruct s) = Some m' -> visible E s names p k named ->
  exists lp, walk E m' l (TStruct s) p = Some (lp, TScalar k named).
Proof.
  intros H1 H2 H3 H Hv. exact (visible_walk E l s m fuel m' names p k named (mk_inv _ _ _ _ H1 H2 H3) H Hv).
Qed.

Lemma visit_ends E s : Acc (inside E) s -> exists fuel, forall m l, visit fuel E m l (TStruct s) <> None.
Proof.
  intros H. destruct (visit_terminates_fuel E s H) as [n Hn]. exists n. intros m l. exact (enough_visit E n s m l Hn).
Qed.

Section World.
Context (fuel : nat) (w : world) (E : tenv) (m : mem) (l : loc) (s : nat) (yname : string)
  (Hok : mem_ok m) (Hal : allocated m l) (Hun : unshared E m l (TStruct s))
  (Hnames : names_ok E) (Hkeys : keys_ok (w_key w)) (Hpre : NoDup (map fst (w_pre w))).

Lemma precedence m' :
  load fuel w E m l (TStruct s) yname = Loaded m' ->
  exists asg doc,
    (forall asg', gives (known_flag w E s yname) (w_args w) asg' <-> asg' = asg) /\
    config_doc w yname asg = Some doc /\
    forall names p k named, visible E s names p k named ->
      no_null_on (w_key w) E (TStruct s) doc p ->
      exists lp, walk E m' l (TStruct s) p = Some (lp, TScalar k named) /\
        expected w k (last_given asg (flag_style (dotted names))) (w_env w (env_style (dotted names)))
          (fun v => says (w_key w) E (TStruct s) doc p (Said v))
          (value_at E m l (TStruct s) p) (cells m' lp).
Proof.
  intros H. destruct (load_spec w E l s yname Hnames Hkeys Hpre fuel m m' (mk_inv _ _ _ _ Hok Hal Hun) H)
    as (asg & doc & Hg & Hd & _ & Hv).
  exists asg, doc. split; [exact Hg|]. split; [exact Hd|]. intros names p k named Hvis.
  exact (proj2 (proj2 (proj2 (Hv names p k named Hvis)))).
Qed.

Lemma loads_iff :
  load fuel w E m l (TStruct s) yname <> OutOfFuel ->
  ((exists m', load fuel w E m l (TStruct s) yname = Loaded m') <->
   ~ conflict w E s yname /\
   exists asg doc,
     gives (known_flag w E s yname) (w_args w) asg /\
     config_doc w yname asg = Some doc /\ fits w E (TStruct s) doc /\
     (forall n b acc v, In (n, (b, acc)) (w_pre w) -> In (n, v) asg -> acc v = true) /\
     (forall names p k named v, visible E s names p k named ->
        In (flag_style (dotted names), v) asg \/ w_env w (env_style (dotted names)) = Some v ->
        w_parse w k v <> None)).
Proof.
  intros Hfuel. pose proof (mk_inv _ _ _ _ Hok Hal Hun) as Hi. split.
  - intros [m' H]. split.
    + intros Hc. apply (load_panics_iff w E l s yname Hnames fuel m Hi Hfuel) in Hc. congruence.
    + destruct (load_spec w E l s yname Hnames Hkeys Hpre fuel m m' Hi H) as (asg & doc & Hg & Hd & Hf & Hv).
      exists asg, doc. split; [apply Hg; reflexivity|]. split; [exact Hd|]. split; [exact Hf|]. split.
      * intros n b acc v. apply (load_foreign w E l s yname Hnames Hpre fuel m m' asg n b acc v Hi H).
        apply Hg. reflexivity.
      * intros names p k named v Hvis [Hin|Hin].
        -- exact (proj1 (proj2 (Hv names p k named Hvis)) v Hin).
        -- exact (proj1 (proj2 (proj2 (Hv names p k named Hvis))) v Hin).
  - intros (Hnc & asg & doc & Hg & Hd & Hf & Ha & Hp).
    exact (load_succeeds_if w E l s yname Hnames Hpre fuel m asg doc Hi Hfuel Hnc Hg Hd Hf Ha Hp).
Qed.

Lemma panics_iff :
  load fuel w E m l (TStruct s) yname <> OutOfFuel ->
  (load fuel w E m l (TStruct s) yname = Panicked <-> conflict w E s yname).
Proof. exact (load_panics_iff w E l s yname Hnames fuel m (mk_inv _ _ _ _ Hok Hal Hun)). Qed.

End World.

Lemma load_diverges fuel w E m l s yname : recursive E s -> load fuel w E m l (TStruct s) yname = OutOfFuel.
Proof.
  intros H. unfold load.
  rewrite (init_diverges_fuel E (recursive E) (recursive_step E) fuel s m l H). reflexivity.
Qed.

(** A config variable without pointers that are set is not shared. *)
Lemma unshared_plain E m l s : (forall a l', cells m a <> CPtr l') -> unshared E m l (TStruct s).
Proof.
  intros H.
  assert (G : forall p l t l' t', walk E m l t p = Some (l', t') -> exists is, p = map SField is /\ l' = (fst l, snd l ++ is)).
  { induction p as [|[i|] p IH]; intros l1 t l' t' Hw; cbn [walk] in Hw.
    - exists []. split; [reflexivity|]. rewrite app_nil_r. destruct l1. cbn [fst snd]. congruence.
    - destruct t as [| s1| |]; try discriminate. destruct (nth_error (E s1) i) as [f|]; [|discriminate].
      destruct (fexp f || fanon f); [|discriminate]. destruct (IH _ _ _ _ Hw) as (is & -> & ->).
      exists (i :: is). split; [reflexivity|]. unfold fld. cbn [fst snd]. rewrite <- app_assoc. reflexivity.
    - destruct t as [| |t1|]; try discriminate. destruct (cells m l1) as [|l2|] eqn:Hc; try discriminate.
      exfalso. exact (H _ _ Hc). }
  intros p1 p2 l' t1 t2 H1 H2. destruct (G _ _ _ _ _ H1) as (i1 & -> & E1). destruct (G _ _ _ _ _ H2) as (i2 & -> & E2).
  rewrite E1 in E2. assert (Hs : snd l ++ i1 = snd l ++ i2) by congruence. apply app_inv_head in Hs. congruence.
Qed.
