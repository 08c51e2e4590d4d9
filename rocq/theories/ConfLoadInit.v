(** initStruct: what it does, when it ends.  visitExportedFields: what it visits. *)
From Coq Require Import Relations.
From Verif Require Import Common Bytes Threads ConfNamesSpec ConfNamesProofs ConfLoadModel ConfLoadSpec ConfLoadProofs.
Local Open Scope string_scope.
Local Open Scope list_scope.
Local Open Scope nat_scope.

(** initStruct is initPtrValue on a settable struct. *)
Lemma init_struct_at fuel E m l t m' :
  init_struct fuel E m l t = Some m' ->
  exists t', (t = TStruct t' /\ init_at (S fuel) E m l t false = Some m') \/
             ((forall s, t <> TStruct s) /\ m' = m).
Proof.
  intros H. destruct t as [k named|s|t|]; cbn [init_struct] in H.
  - exists 0. right. split; [discriminate|congruence].
  - exists s. left. split; [reflexivity|]. exact H.
  - exists 0. right. split; [discriminate|congruence].
  - exists 0. right. split; [discriminate|congruence].
Qed.

Lemma init_struct_inv fuel E m l s m' :
  inv E l (TStruct s) m -> init_struct fuel E m l (TStruct s) = Some m' ->
  inv E l (TStruct s) m' /\ grow E l (TStruct s) m m' /\
  (forall a, allocated m a -> cells m' a <> cells m a ->
     (forall l', cells m a <> CPtr l') /\ (exists o, next m <= o /\ cells m' a = CPtr (o, [])) /\
     exists p t1, settable E s p (TPtr t1) /\ walk E m' l (TStruct s) p = Some (a, TPtr t1)) /\
  (forall p t, settable E s p t -> good E l (TStruct s) m' p t).
Proof.
  intros Hi H. pose proof (init_at_inv E l (TStruct s) (S fuel) m [] l (TStruct s) false m' Hi
    (fun _ => eq_refl) H) as (H1 & H2 & H3 & H4).
  split; [exact H1|]. split; [exact H2|]. split.
  - intros a Ha Hne. destruct (H3 a Ha Hne) as (A & B & p & t1 & C & D).
    split; [exact A|]. split; [exact B|]. exists p, t1. split; [|exact D].
    destruct C as [[_ C]|(q & s' & p' & Ht & Hs & ->)]; [discriminate|].
    inversion Ht; subst. exact Hs.
  - intros p t Hs. apply (H4 eq_refl p t). right. exists [], s, p. split; [constructor|].
    split; [exact Hs|reflexivity].
Qed.

Lemma through_split t q t' : through t q t' -> (q = [] /\ t = t') \/ (q = [SDeref] /\ t = TPtr t').
Proof. intros H. destruct H; [left|right]; split; reflexivity. Qed.

(** * Termination *)

Lemma init_at_fuel E : forall n m l t ro m',
  init_at n E m l t ro = Some m' -> init_at (S n) E m l t ro = Some m'.
Proof.
  induction n as [|n IH]; intros m l t ro m' H; [discriminate|].
  assert (Hb : forall m l s m',
    each (fun m i f => init_at n E m (fld l i) (fty f) (negb (fexp f))) 0 (E s) m = Some m' ->
    each (fun m i f => init_at (S n) E m (fld l i) (fty f) (negb (fexp f))) 0 (E s) m = Some m').
  { intros m1 l1 s m2. apply each_ext. intros a i f a' Ha. apply IH. exact Ha. }
  remember (S n) as n1 eqn:Hn1. cbn [init_at]. rewrite Hn1 in H. cbn [init_at] in H.
  destruct t as [k named|s|t|].
  - exact H.
  - destruct ro; [exact H|]. apply Hb. exact H.
  - match goal with |- match cells ?x l with _ => _ end = _ => set (m1 := x) in * end.
    destruct (cells m1 l) as [|l'|v]; [exact H| |exact H].
    destruct ro; [exact H|]. destruct t as [k named|s|t|]; try exact H. apply Hb. exact H.
  - exact H.
Qed.

Lemma init_at_more E m l t ro m' n k :
  n <= k -> init_at n E m l t ro = Some m' -> init_at k E m l t ro = Some m'.
Proof.
  intros Hk. induction Hk as [|k Hk IH]; intros H; [exact H|]. apply init_at_fuel, IH, H.
Qed.

Lemma init_struct_more E m l t m' n k :
  n <= k -> init_struct n E m l t = Some m' -> init_struct k E m l t = Some m'.
Proof.
  intros Hk. destruct t as [kd named|s|t|]; try (intros H; exact H).
  cbn [init_struct]. apply each_ext. intros a i f a'. apply init_at_more. exact Hk.
Qed.

Lemma init_ro n E m l t : init_at (S n) E m l t true = Some m.
Proof.
  cbn [init_at]. destruct t; try reflexivity. rewrite andb_false_r. destruct (cells m l); reflexivity.
Qed.

Lemma init_ptr_cell m l :
  exists l', cells (if is_nil (cells m l) && negb false then set_new m l else m) l = CPtr l'.
Proof.
  cbn [negb]. rewrite andb_true_r. destruct (cells m l) as [|l'|v] eqn:Hc; cbn [is_nil].
  - exists (next m, []). apply set_new_self.
  - exists l'. exact Hc.
  - exists (next m, []). apply set_new_self.
Qed.

Lemma init_terminates_fuel E s : Acc (inside E) s ->
  exists fuel, forall m l, init_struct fuel E m l (TStruct s) <> None.
Proof.
  induction 1 as [s _ IH].
  assert (Hf : forall fs, incl fs (E s) ->
    exists fuel, forall f, In f fs -> forall m l, init_at fuel E m l (fty f) (negb (fexp f)) <> None).
  { induction fs as [|f fs IHf]; intros Hincl.
    - exists 0. intros f [].
    - destruct IHf as [n1 H1]; [intros x Hx; apply Hincl; right; exact Hx|].
      assert (H2 : exists n2, forall m l, init_at n2 E m l (fty f) (negb (fexp f)) <> None).
      { destruct (fexp f) eqn:He; [|exists 1; intros m l; cbn [negb]; rewrite init_ro; discriminate].
        assert (Hin : forall q s', through (fty f) q (TStruct s') ->
                  exists fuel, forall m l, init_struct fuel E m l (TStruct s') <> None).
        { intros q s' Ht. apply IH. exists f, q. split; [apply Hincl; left; reflexivity|].
          split; assumption. }
        destruct (fty f) as [k named|s'|t|] eqn:Hty.
        - exists 1. intros m l. discriminate.
        - destruct (Hin [] s') as [n Hn]; [constructor|]. exists (S n). intros m l. apply Hn.
        - destruct t as [k named|s'|t|].
          4: { exists 1. intros m l. cbn [init_at]. destruct (init_ptr_cell m l) as [l' Hl].
               cbn [negb] in *. rewrite Hl. discriminate. }
          3: { exists 1. intros m l. cbn [init_at]. destruct (init_ptr_cell m l) as [l' Hl].
               cbn [negb] in *. rewrite Hl. discriminate. }
          + exists 1. intros m l. cbn [init_at]. destruct (init_ptr_cell m l) as [l' Hl].
            cbn [negb] in *. rewrite Hl. discriminate.
          + destruct (Hin [SDeref] s') as [n Hn]; [constructor|]. exists (S n). intros m l.
            cbn [init_at]. destruct (init_ptr_cell m l) as [l' Hl]. cbn [negb] in *. rewrite Hl. apply Hn.
        - exists 1. intros m l. discriminate. }
      destruct H2 as [n2 H2]. exists (n1 + n2). intros g [<-|Hg] m l.
      + destruct (init_at n2 E m l (fty f) (negb (fexp f))) as [m'|] eqn:Hm.
        * rewrite (init_at_more E m l (fty f) (negb (fexp f)) m' n2 (n1 + n2)); [discriminate|lia|exact Hm].
        * exfalso. exact (H2 m l Hm).
      + destruct (init_at n1 E m l (fty g) (negb (fexp g))) as [m'|] eqn:Hm.
        * rewrite (init_at_more E m l (fty g) (negb (fexp g)) m' n1 (n1 + n2)); [discriminate|lia|exact Hm].
        * exfalso. exact (H1 g Hg m l Hm). }
  destruct (Hf (E s) (fun x Hx => Hx)) as [fuel Hfuel]. exists fuel. intros m l. cbn [init_struct].
  apply each_some. intros i f a Hin. apply Hfuel. exact Hin.
Qed.

Lemma init_diverges_fuel E (P : nat -> Prop) :
  (forall s, P s -> exists s', inside E s' s /\ P s') ->
  forall fuel s m l, P s -> init_struct fuel E m l (TStruct s) = None.
Proof.
  intros Hc. induction fuel as [|n IH]; intros s m l Hs; cbn [init_struct].
  - destruct (Hc s Hs) as (s' & (f & q & Hin & _ & _) & _). apply In_nth_error in Hin. destruct Hin as [i Hi].
    apply (each_none _ i f _ _ _ Hi). reflexivity.
  - destruct (Hc s Hs) as (s' & (f & q & Hin & He & Ht) & Hs'). apply In_nth_error in Hin. destruct Hin as [i Hi].
    apply (each_none _ i f _ _ _ Hi). intros a.
    pose proof (fun m l => IH s' m l Hs') as IH'.
    rewrite He. cbn [negb]. destruct (through_split _ _ _ Ht) as [[_ Hs1]|[_ Hs1]]; rewrite Hs1.
    + cbn [init_at]. apply IH'.
    + cbn [init_at]. destruct (init_ptr_cell a (fld l (0 + i))) as [l' Hl]. cbn [negb] in *. rewrite Hl. apply IH'.
Qed.

Lemma recursive_step E s : recursive E s -> exists s', inside E s' s /\ recursive E s'.
Proof.
  intros (s' & H1 & H2).
  assert (Hlast : forall a b, clos_trans nat (inside E) a b ->
            exists z, clos_refl_trans nat (inside E) a z /\ inside E z b).
  { intros a b H. apply clos_trans_tn1 in H. destruct H as [b H|y b H Hr].
    - exists a. split; [apply rt_refl|exact H].
    - exists y. split; [|exact H]. apply clos_tn1_trans in Hr. clear -Hr. induction Hr as [x y H|x y z _ I1 _ I2].
      + apply rt_step. exact H.
      + exact (rt_trans _ _ _ _ _ I1 I2). }
  assert (Hcase : s' = s \/ clos_trans nat (inside E) s' s).
  { clear H2. induction H1 as [x y H|x|x y z _ I1 _ I2].
    - right. apply t_step. exact H.
    - left. reflexivity.
    - destruct I1 as [->|I1], I2 as [->|I2]; [left; reflexivity|right; exact I2|right; exact I1|].
      right. exact (t_trans _ _ _ _ _ I1 I2). }
  destruct Hcase as [->|Hc].
  - destruct (Hlast _ _ H2) as (z & Hz1 & Hz2). exists z. split; [exact Hz2|]. exists s. split; assumption.
  - destruct (Hlast _ _ Hc) as (z & Hz1 & Hz2). exists z. split; [exact Hz2|]. exists s'. split; assumption.
Qed.

(** * Visiting *)

Definition join (path : string) (names : list string) : string :=
  match names with
  | [] => path
  | _ => if (path =? "")%string then dotted names else (path ++ "." ++ dotted names)%string
  end.

(** What can be seen from a field of type [t]. *)
Definition seen (E : tenv) (t : ty) (names : list string) (p : list step) (k : kind) (named : bool) : Prop :=
  (names = [] /\ through t p (TScalar k named)) \/
  exists q s p', through t q (TStruct s) /\ visible E s names p' k named /\ p = q ++ p'.

Lemma visible_split E s names p k named : visible E s names p k named <->
  exists i f names' p', nth_error (E s) i = Some f /\ fexp f = true /\ names = own_name f ++ names' /\
    p = SField i :: p' /\ seen E (fty f) names' p' k named.
Proof.
  split.
  - intros H. destruct H as [s i f q k named Hf He Ht|s i f q s' names p k named Hf He Ht Hs].
    + exists i, f, [], q. rewrite app_nil_r. repeat (split; [assumption||reflexivity|]).
      left. split; [reflexivity|exact Ht].
    + exists i, f, names, (q ++ p). repeat (split; [assumption||reflexivity|]). right.
      exists q, s', p. repeat (split; [assumption|]). reflexivity.
  - intros (i & f & names' & p' & Hf & He & -> & -> & [[-> Ht]|(q & s' & p1 & Ht & Hs & ->)]).
    + rewrite app_nil_r. apply visible_here; assumption.
    + apply (visible_below E s i f q s' names' p1); assumption.
Qed.

(** A visited field: its names, the steps to it and the call of the visitor. *)
Definition item : Type := list string * list step * entry.
Definition listed (E : tenv) (m : mem) (l : loc) (t : ty) (path : string) (x : item) : Prop :=
  let '(names, p, e) := x in
  seen E t names p (ekind e) (enamed e) /\ epath e = join path names /\
  walk E m l t p = Some (eloc e, TScalar (ekind e) (enamed e)).
Definition exact_items (S : item -> Prop) (es : list entry) : Prop :=
  exists xs, es = map snd xs /\ NoDup (map (fun x => snd (fst x)) xs) /\ forall x, In x xs <-> S x.

Lemma exact_nil S : (forall x, ~ S x) -> exact_items S [].
Proof.
  intros H. exists []. split; [reflexivity|]. split; [constructor|].
  intros x. split; [intros []|intros Hx; exact (H x Hx)].
Qed.

Lemma exact_iff (S T : item -> Prop) es :
  (forall x, S x <-> T x) -> exact_items S es -> exact_items T es.
Proof.
  intros H (xs & H1 & H2 & H3). exists xs. split; [exact H1|]. split; [exact H2|].
  intros x. rewrite H3. apply H.
Qed.

Lemma exact_app (S T : item -> Prop) es fs :
  (forall x y, S x -> T y -> snd (fst x) <> snd (fst y)) ->
  exact_items S es -> exact_items T fs -> exact_items (fun x => S x \/ T x) (es ++ fs).
Proof.
  intros Hd (xs & -> & Hx & Hxs) (ys & -> & Hy & Hys). exists (xs ++ ys).
  split; [symmetry; apply map_app|]. split.
  - rewrite map_app.
    assert (G : forall a b : list (list step), NoDup a -> NoDup b -> (forall z, In z a -> ~ In z b) -> NoDup (a ++ b)).
    { induction a as [|z a IH]; intros b Ha Hb Hab; [exact Hb|]. cbn [Datatypes.app]. inversion Ha; subst.
      constructor.
      - rewrite in_app_iff. intros [H|H]; [contradiction|]. exact (Hab z (or_introl eq_refl) H).
      - apply IH; [assumption..|]. intros z' Hz'. apply Hab. right. exact Hz'. }
    apply G; [assumption..|]. intros z Hz1 Hz2. apply in_map_iff in Hz1. apply in_map_iff in Hz2.
    destruct Hz1 as (x & <- & Hx1), Hz2 as (y & Hxy & Hy1).
    apply (Hd x y); [apply Hxs, Hx1|apply Hys, Hy1|congruence].
  - intros x. rewrite in_app_iff, Hxs, Hys. reflexivity.
Qed.

Lemma exact_map (S T : item -> Prop) (g : item -> item) es :
  (forall x, snd (g x) = snd x) ->
  (forall x y, snd (fst (g x)) = snd (fst (g y)) -> snd (fst x) = snd (fst y)) ->
  (forall y, T y <-> exists x, S x /\ y = g x) ->
  exact_items S es -> exact_items T es.
Proof.
  intros Hs Hinj Ht (xs & -> & Hx & Hxs). exists (map g xs). split; [|split].
  - rewrite map_map. apply map_ext. intros x. symmetry. apply Hs.
  - rewrite map_map. clear Hxs Ht. induction xs as [|x xs IH]; cbn [map] in *; [constructor|].
    inversion Hx; subst. constructor; [|apply IH; assumption].
    intros Hin. apply in_map_iff in Hin. destruct Hin as (y & Hy & Hyin). apply H1.
    apply in_map_iff. exists y. split; [apply Hinj; exact Hy|exact Hyin].
  - intros y. rewrite in_map_iff, Ht. split.
    + intros (x & <- & Hin). exists x. split; [apply Hxs, Hin|reflexivity].
    + intros (x & Hin & ->). exists x. split; [reflexivity|apply Hxs, Hin].
Qed.

Lemma dotted_cons n names : names <> [] -> dotted (n :: names) = (n ++ "." ++ dotted names)%string.
Proof. intros H. destruct names; [contradiction|]. reflexivity. Qed.

Lemma join_step path f names : fname f <> "" ->
  join (if fanon f then path else if (path =? "")%string then fname f else (path ++ "." ++ fname f)%string)
    names = join path (own_name f ++ names).
Proof.
  intros Hn. unfold own_name. destruct (fanon f); [reflexivity|].
  cbn [Datatypes.app join]. destruct names as [|n names].
  - cbn [join]. destruct (path =? "")%string; reflexivity.
  - rewrite dotted_cons by discriminate. unfold join. destruct (path =? "")%string eqn:Hp.
    + rewrite (seqb_neq _ _ Hn). reflexivity.
    + assert (Hne : ((path ++ "." ++ fname f) =? "")%string = false).
      { apply seqb_neq. destruct path; discriminate. }
      rewrite Hne, !append_assoc'. reflexivity.
Qed.

Lemma join_top f names : fname f <> "" ->
  join (if fanon f then "" else fname f) names = join "" (own_name f ++ names).
Proof. intros Hn. rewrite <- (join_step "" f names Hn). reflexivity. Qed.

Section Visit.
Context (E : tenv) (m : mem) (Hnames : names_ok E).

Definition fields_seen (l : loc) (s : nat) (path : string) (i : nat) (x : item) : Prop :=
  let '(names, p, e) := x in
  exists j f names' p', j < i /\ nth_error (E s) j = Some f /\ fexp f = true /\
    names = own_name f ++ names' /\ p = SField j :: p' /\
    seen E (fty f) names' p' (ekind e) (enamed e) /\ epath e = join path names /\
    walk E m (fld l j) (fty f) p' = Some (eloc e, TScalar (ekind e) (enamed e)).

Lemma visit_fields n l s path es (step_path : field -> string) :
  (forall f names, fname f <> "" -> join (step_path f) names = join path (own_name f ++ names)) ->
  (forall l t ro path es, visit_path n E m l t ro path = Some es ->
     exact_items (fun x => ro = false /\ listed E m l t path x) es) ->
  each (fun acc i f => match visit_path n E m (fld l i) (fty f) (negb (fexp f)) (step_path f) with
                       | Some es => Some (acc ++ es) | None => None end) 0 (E s) [] = Some es ->
  exact_items (fields_seen l s path (length (E s))) es.
Proof.
  intros Hj IH He.
  refine (each_inv _ (fun i acc => exact_items (fields_seen l s path i) acc) (E s) _ [] es _ He).
  - intros i f acc acc' Hf Hacc Hs.
    destruct (visit_path n E m (fld l i) (fty f) (negb (fexp f)) (step_path f)) as [fs|] eqn:Hv; [|discriminate].
    injection Hs as <-. apply IH in Hv.
    assert (Hfn : fname f <> "") by (apply (Hnames s); apply (nth_error_In _ _ Hf)).
    assert (Hv' : exact_items (fun y => let '(names, p, e) := y in
        exists names' p', fexp f = true /\ names = own_name f ++ names' /\ p = SField i :: p' /\
          seen E (fty f) names' p' (ekind e) (enamed e) /\ epath e = join path names /\
          walk E m (fld l i) (fty f) p' = Some (eloc e, TScalar (ekind e) (enamed e))) fs).
    { refine (exact_map _ _ (fun x => (own_name f ++ fst (fst x), SField i :: snd (fst x), snd x)) fs _ _ _ Hv).
      - intros x. reflexivity.
      - intros x y H. cbn [fst snd] in H. congruence.
      - intros [[names p] e]. split.
        + intros (names' & p' & He' & -> & -> & H1 & H2 & H3). exists (names', p', e). split; [|reflexivity].
          split; [rewrite He'; reflexivity|]. cbn [listed]. split; [exact H1|]. split; [|exact H3].
          rewrite Hj by exact Hfn. exact H2.
        + intros ([[names' p'] e'] & (He' & H1 & H2 & H3) & Heq). cbn [fst snd] in Heq.
          assert (e' = e) as -> by congruence. exists names', p'.
          split; [destruct (fexp f); [reflexivity|discriminate]|].
          assert (names = own_name f ++ names') as -> by congruence.
          assert (p = SField i :: p') as -> by congruence.
          repeat (split; [reflexivity|]). split; [exact H1|]. split; [|exact H3].
          rewrite Hj in H2 by exact Hfn. exact H2. }
    refine (exact_iff _ _ _ _ (exact_app _ _ _ _ _ Hacc Hv')).
    + intros [[names p] e]. split.
      * intros [(j & g & names' & p' & Hj' & H)|(names' & p' & H1 & H2 & H3 & H)].
        -- exists j, g, names', p'. split; [lia|exact H].
        -- exists i, f, names', p'. split; [lia|]. split; [exact Hf|]. split; [exact H1|].
           split; [exact H2|]. split; [exact H3|exact H].
      * intros (j & g & names' & p' & Hj' & Hg & H1 & H2 & H3 & H).
        destruct (Nat.eq_dec j i) as [->|Hn].
        -- right. assert (g = f) as -> by congruence. exists names', p'.
           split; [exact H1|]. split; [exact H2|]. split; [exact H3|exact H].
        -- left. exists j, g, names', p'. split; [lia|]. split; [exact Hg|]. split; [exact H1|].
           split; [exact H2|]. split; [exact H3|exact H].
    + intros [[names p] e] [[names2 p2] e2] (j & g & n1 & p1 & Hj' & _ & _ & _ & -> & _)
        (n2' & p2' & _ & _ & -> & _). cbn [fst snd]. intros [= Hji _]. lia.
  - apply exact_nil. intros [[names p] e] (j & f & n' & p' & Hj' & _). lia.
Qed.

Lemma fields_seen_all l s path names p e :
  fields_seen l s path (length (E s)) (names, p, e) <->
  visible E s names p (ekind e) (enamed e) /\ epath e = join path names /\
  walk E m l (TStruct s) p = Some (eloc e, TScalar (ekind e) (enamed e)).
Proof.
  unfold fields_seen. rewrite visible_split. split.
  - intros (j & f & names' & p' & Hj & Hf & He & -> & -> & H1 & H2 & H3).
    split; [exists j, f, names', p'; repeat (split; [assumption||reflexivity|]); exact H1|].
    split; [exact H2|]. cbn [walk]. rewrite Hf, He. exact H3.
  - intros ((j & f & names' & p' & Hf & He & -> & -> & H1) & H2 & H3).
    exists j, f, names', p'. split; [apply nth_error_Some; congruence|].
    repeat (split; [assumption||reflexivity|]). cbn [walk] in H3. rewrite Hf, He in H3. exact H3.
Qed.

Lemma visit_path_exact n : forall l t ro path es,
  visit_path n E m l t ro path = Some es ->
  exact_items (fun x => ro = false /\ listed E m l t path x) es.
Proof.
  induction n as [|n IH]; intros l t ro path es Hv; [discriminate|].
  destruct ro.
  { assert (es = []) as ->.
    { cbn [visit_path] in Hv. destruct t; try congruence. destruct (cells m l); congruence. }
    apply exact_nil. intros x [H _]. discriminate. }
  (* a value that is not a pointer *)
  assert (Hbody : forall l t es, (forall t', t <> TPtr t') ->
    match t with
    | TScalar k named => Some [mkEntry path l k named]
    | TStruct s =>
      each (fun acc i f =>
              let path' := if fanon f then path
                           else if (path =? "")%string then fname f
                           else (path ++ "." ++ fname f)%string in
              match visit_path n E m (fld l i) (fty f) (negb (fexp f)) path' with
              | Some es => Some (acc ++ es)
              | None => None
              end) 0 (E s) []
    | _ => Some []
    end = Some es -> exact_items (listed E m l t path) es).
  { clear l t es Hv. intros l t es Hnp Hv. destruct t as [k named|s|t|].
    - injection Hv as <-. exists [([], [], mkEntry path l k named)]. split; [reflexivity|].
      split; [constructor; [intros []|constructor]|]. intros [[names p] e]. split.
      + intros [H|[]]. assert (names = []) as -> by congruence. assert (p = []) as -> by congruence.
        assert (e = mkEntry path l k named) as -> by congruence. cbn [listed ekind enamed epath eloc].
        split; [left; split; [reflexivity|constructor]|]. split; reflexivity.
      + intros (H1 & H2 & H3). destruct H1 as [[-> Ht]|(q & s & p' & Ht & _)]; [|inversion Ht].
        assert (p = []) as -> by (inversion Ht; reflexivity). cbn [walk] in H3. cbn [join] in H2. left.
        destruct e as [pe le ke ne]. cbn [epath eloc ekind enamed] in *. congruence.
    - cbn zeta in Hv. apply visit_fields with (path := path) in Hv.
      + refine (exact_iff _ _ _ _ Hv). intros [[names p] e]. rewrite fields_seen_all. cbn [listed]. split.
        * intros (H1 & H2). split; [|exact H2]. right. exists [], s, p. split; [constructor|].
          split; [exact H1|reflexivity].
        * intros (H1 & H2). split; [|exact H2]. destruct H1 as [[-> Ht]|(q & s' & p' & Ht & Hs & ->)].
          -- inversion Ht.
          -- inversion Ht; subst. exact Hs.
      + intros f names Hf. apply join_step. exact Hf.
      + exact IH.
    - exfalso. exact (Hnp t eq_refl).
    - injection Hv as <-. apply exact_nil. intros [[names p] e] (H1 & _).
      destruct H1 as [[-> Ht]|(q & s & p' & Ht & _)]; inversion Ht. }
  assert (G : exact_items (listed E m l t path) es).
  { destruct t as [k named|s|t|].
    - apply Hbody; [discriminate|exact Hv].
    - apply Hbody; [discriminate|exact Hv].
    - cbn [visit_path] in Hv.
      destruct (cells m l) as [|l'|v] eqn:Hl.
      + injection Hv as <-. apply exact_nil. intros [[names p] e] (H1 & _ & H3).
        assert (Hp : exists p', p = SDeref :: p').
        { destruct H1 as [[_ Ht]|(q & s & p' & Ht & _ & ->)]; inversion Ht; subst; eexists; reflexivity. }
        destruct Hp as [p' ->]. cbn [walk] in H3. rewrite Hl in H3. discriminate.
      + assert (Hb : exact_items (fun x => (forall t', t <> TPtr t') /\ listed E m l' t path x) es).
        { destruct t as [k named|s|t|].
          - refine (exact_iff _ _ _ _ (Hbody l' (TScalar k named) es _ Hv)); [|discriminate].
            intros x. split; [intros H; split; [discriminate|exact H]|intros [_ H]; exact H].
          - refine (exact_iff _ _ _ _ (Hbody l' (TStruct s) es _ Hv)); [|discriminate].
            intros x. split; [intros H; split; [discriminate|exact H]|intros [_ H]; exact H].
          - injection Hv as <-. apply exact_nil. intros x [H _]. exact (H t eq_refl).
          - refine (exact_iff _ _ _ _ (Hbody l' TOther es _ Hv)); [|discriminate].
            intros x. split; [intros H; split; [discriminate|exact H]|intros [_ H]; exact H]. }
        refine (exact_map _ _ (fun x => (fst (fst x), SDeref :: snd (fst x), snd x)) es _ _ _ Hb).
        * intros x. reflexivity.
        * intros x y H. cbn [fst snd] in H. congruence.
        * intros [[names p] e]. cbn [listed]. split.
          -- intros (H1 & H2 & H3).
             destruct H1 as [[-> Ht]|(q & s & p' & Ht & Hs & ->)].
             ++ assert (p = [SDeref] /\ t = TScalar (ekind e) (enamed e)) as [-> ->]
                  by (inversion Ht; split; reflexivity).
                exists ([], [], e). split; [|reflexivity]. split; [discriminate|].
                split; [left; split; [reflexivity|constructor]|]. split; [exact H2|].
                cbn [walk] in *. rewrite Hl in H3. exact H3.
             ++ assert (q = [SDeref] /\ t = TStruct s) as [-> ->] by (inversion Ht; split; reflexivity).
                exists (names, p', e). split; [|reflexivity]. split; [discriminate|].
                split; [right; exists [], s, p'; split; [constructor|split; [exact Hs|reflexivity]]|].
                split; [exact H2|]. cbn [Datatypes.app walk] in H3. rewrite Hl in H3. exact H3.
          -- intros ([[names' p'] e'] & (Hnp & H1 & H2 & H3) & Heq). cbn [fst snd] in Heq.
             assert (names = names') as -> by congruence. assert (e = e') as -> by congruence.
             assert (p = SDeref :: p') as -> by congruence.
             split; [|split; [exact H2|cbn [walk]; rewrite Hl; exact H3]].
             destruct H1 as [[-> Ht]|(q & s & p1 & Ht & Hs & ->)].
             ++ left. split; [reflexivity|]. inversion Ht as [t' Heq'|t' Heq']; subst; [constructor|].
                exfalso. exact (Hnp _ eq_refl).
             ++ right. exists (SDeref :: q), s, p1. split; [|split; [exact Hs|reflexivity]].
                inversion Ht as [t' Heq'|t' Heq']; subst; [constructor|]. exfalso. exact (Hnp _ eq_refl).
      + injection Hv as <-. apply exact_nil. intros [[names p] e] (H1 & _ & H3).
        assert (Hp : exists p', p = SDeref :: p').
        { destruct H1 as [[_ Ht]|(q & s & p' & Ht & _ & ->)]; inversion Ht; subst; eexists; reflexivity. }
        destruct Hp as [p' ->]. cbn [walk] in H3. rewrite Hl in H3. discriminate.
    - apply Hbody; [discriminate|exact Hv]. }
  refine (exact_iff _ _ _ _ G). intros x. split; [intros H; split; [reflexivity|exact H]|intros [_ H]; exact H].
Qed.

Lemma join_empty names : join "" names = dotted names.
Proof. destruct names; reflexivity. Qed.

Lemma visit_items fuel l s es : visit fuel E m l (TStruct s) = Some es ->
  exact_items (fun x => let '(names, p, e) := x in
    visible E s names p (ekind e) (enamed e) /\ epath e = dotted names /\
    walk E m l (TStruct s) p = Some (eloc e, TScalar (ekind e) (enamed e))) es.
Proof.
  cbn [visit]. intros Hv. apply visit_fields with (path := "") in Hv.
  - refine (exact_iff _ _ _ _ Hv). intros [[names p] e]. rewrite fields_seen_all, join_empty. reflexivity.
  - intros f names Hf. apply join_top. exact Hf.
  - apply visit_path_exact.
Qed.

End Visit.
