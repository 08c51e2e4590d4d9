(** Lemmas about memory, initialisation and visiting. *)
From Verif Require Import Common Bytes Threads ConfNamesSpec ConfLoadModel ConfLoadSpec.
Local Open Scope string_scope.
Local Open Scope list_scope.
Local Open Scope nat_scope.

(** * Generic *)

Lemma step_dec (a b : step) : {a = b} + {a <> b}.
Proof. repeat decide equality. Defined.

Lemma prefix_dec (q p : list step) : {r | p = q ++ r} + {forall r, p <> q ++ r}.
Proof.
  revert p. induction q as [|a q IH]; intros p.
  - left. exists p. reflexivity.
  - destruct p as [|b p].
    + right. intros r H. discriminate.
    + destruct (step_dec a b) as [->|Hn].
      * destruct (IH p) as [[r ->]|Hn].
        -- left. exists r. reflexivity.
        -- right. intros r [= H]. exact (Hn r H).
      * right. intros r H. cbn [Datatypes.app] in H. congruence.
Qed.

Lemma store_same m l c : cells (store m l c) l = c.
Proof. cbn [store cells]. destruct (loc_dec l l); congruence. Qed.
Lemma store_other m l c l' : l' <> l -> cells (store m l c) l' = cells m l'.
Proof. cbn [store cells]. destruct (loc_dec l' l); congruence. Qed.

Lemma each_inv {A} (step : A -> nat -> field -> option A) (P : nat -> A -> Prop) fs :
  (forall i f a a', nth_error fs i = Some f -> P i a -> step a i f = Some a' -> P (S i) a') ->
  forall a a', P 0 a -> each step 0 fs a = Some a' -> P (length fs) a'.
Proof.
  intros Hs.
  assert (G : forall gs k a a', (forall i, nth_error gs i = nth_error fs (k + i)) ->
            P k a -> each step k gs a = Some a' -> P (k + length gs) a').
  { induction gs as [|g gs IH]; intros k a a' Hg Hp He.
    - cbn [each] in He. injection He as <-. cbn [length]. rewrite Nat.add_0_r. exact Hp.
    - cbn [each] in He. destruct (step a k g) as [a1|] eqn:Hst; [|discriminate].
      replace (k + length (g :: gs)) with (S k + length gs) by (cbn [length]; lia).
      apply (IH (S k) a1).
      + intros i. rewrite Nat.add_succ_comm. exact (Hg (S i)).
      + apply (Hs k g a a1); [|exact Hp|exact Hst].
        rewrite <- (Nat.add_0_r k). rewrite <- Hg. reflexivity.
      + exact He. }
  intros a a' Hp He. exact (G fs 0 a a' (fun i => eq_refl) Hp He).
Qed.

Lemma each_none {A} (step : A -> nat -> field -> option A) i f :
  forall fs k a, nth_error fs i = Some f -> (forall a, step a (k + i) f = None) -> each step k fs a = None.
Proof.
  induction i as [|i IH]; intros [|g fs] k a Hn Hs; cbn [nth_error] in Hn; try discriminate.
  - injection Hn as ->. cbn [each]. rewrite <- (Nat.add_0_r k), Hs. reflexivity.
  - cbn [each]. destruct (step a k g) as [a'|]; [|reflexivity].
    apply IH; [exact Hn|]. intros b. rewrite Nat.add_succ_comm. apply Hs.
Qed.

Lemma each_some {A} (step : A -> nat -> field -> option A) fs :
  (forall i f a, In f fs -> step a i f <> None) -> forall k a, each step k fs a <> None.
Proof.
  induction fs as [|f fs IH]; intros Hs k a; cbn [each].
  - discriminate.
  - destruct (step a k f) as [a'|] eqn:Hst.
    + apply IH. intros i g b Hg. apply Hs. right. exact Hg.
    + exfalso. exact (Hs k f a (or_introl eq_refl) Hst).
Qed.

Lemma each_ext {A} (s1 s2 : A -> nat -> field -> option A) :
  (forall a i f a', s1 a i f = Some a' -> s2 a i f = Some a') ->
  forall fs k a a', each s1 k fs a = Some a' -> each s2 k fs a = Some a'.
Proof.
  intros Hs. induction fs as [|f fs IH]; intros k a a' He; cbn [each] in *.
  - exact He.
  - destruct (s1 a k f) as [a1|] eqn:H1; [|discriminate]. rewrite (Hs _ _ _ _ H1). exact (IH _ _ _ He).
Qed.

(** * Walking *)

Section Walk.
Context (E : tenv).

Lemma walk_app m p q : forall l t,
  walk E m l t (p ++ q) =
  match walk E m l t p with Some (l', t') => walk E m l' t' q | None => None end.
Proof.
  induction p as [|a p IH]; intros l t.
  - reflexivity.
  - destruct a as [i|]; cbn [Datatypes.app walk].
    + destruct t; try reflexivity. destruct (nth_error (E s) i) as [f|]; [|reflexivity].
      destruct (fexp f || fanon f); [apply IH|reflexivity].
    + destruct t; try reflexivity. destruct (cells m l); try reflexivity. apply IH.
Qed.

Lemma walk_snoc m p q l t l1 t1 :
  walk E m l t p = Some (l1, t1) -> walk E m l t (p ++ q) = walk E m l1 t1 q.
Proof. intros H. rewrite walk_app, H. reflexivity. Qed.

(** Walking only looks at the pointers on the way. *)
Lemma walk_frame m m' p : forall l t,
  (forall p1 p2 l1 t1, p = p1 ++ SDeref :: p2 -> walk E m l t p1 = Some (l1, TPtr t1) ->
     cells m' l1 = cells m l1) ->
  walk E m' l t p = walk E m l t p.
Proof.
  induction p as [|a p IH]; intros l t H.
  - reflexivity.
  - destruct a as [i|]; cbn [walk].
    + destruct t; try reflexivity. destruct (nth_error (E s) i) as [f|] eqn:Hf; [|reflexivity].
      destruct (fexp f || fanon f) eqn:He; [|reflexivity]. apply IH.
      intros p1 p2 l1 t1 -> Hw. apply (H (SField i :: p1) p2 l1 t1); [reflexivity|].
      cbn [walk]. rewrite Hf, He. exact Hw.
    + destruct t; try reflexivity.
      assert (Hc : cells m' l = cells m l) by (apply (H [] p l t); reflexivity).
      rewrite Hc. destruct (cells m l) as [|l'|v] eqn:Hl; try reflexivity. apply IH.
      intros p1 p2 l1 t1 -> Hw. apply (H (SDeref :: p1) p2 l1 t1); [reflexivity|].
      cbn [walk]. rewrite Hl. exact Hw.
Qed.

Lemma walk_prefix m l t p1 p2 x :
  walk E m l t (p1 ++ p2) = Some x -> exists l1 t1, walk E m l t p1 = Some (l1, t1).
Proof.
  rewrite walk_app. destruct (walk E m l t p1) as [[l1 t1]|]; [|discriminate].
  intros _. exists l1, t1. reflexivity.
Qed.

Lemma walk_allocated m p : mem_ok m -> forall l t l' t',
  allocated m l -> walk E m l t p = Some (l', t') -> allocated m l'.
Proof.
  intros Hok. induction p as [|a p IH]; intros l t l' t' Ha Hw.
  - cbn [walk] in Hw. injection Hw as <- _. exact Ha.
  - destruct a as [i|]; cbn [walk] in Hw.
    + destruct t; try discriminate. destruct (nth_error (E s) i) as [f|]; [|discriminate].
      destruct (fexp f || fanon f); [|discriminate]. apply (IH (fld l i) (fty f) l' t'); [exact Ha|exact Hw].
    + destruct t; try discriminate. destruct (cells m l) as [|l1|v] eqn:Hl; try discriminate.
      apply (IH l1 t l' t'); [exact (Hok _ _ Hl)|exact Hw].
Qed.

(** Inside a fresh object there are no pointers to follow. *)
Lemma walk_fresh m o : (forall idx, cells m (o, idx) = CZero) -> forall p idx t l' t',
  walk E m (o, idx) t p = Some (l', t') -> exists is, p = map SField is /\ l' = (o, idx ++ is).
Proof.
  intros Hz. induction p as [|a p IH]; intros idx t l' t' Hw.
  - cbn [walk] in Hw. injection Hw as <- _. exists []. rewrite app_nil_r. split; reflexivity.
  - destruct a as [i|]; cbn [walk] in Hw.
    + destruct t; try discriminate. destruct (nth_error (E s) i) as [f|]; [|discriminate].
      destruct (fexp f || fanon f); [|discriminate]. unfold fld in Hw. cbn [fst snd] in Hw.
      destruct (IH _ _ _ _ Hw) as (is & -> & ->). exists (i :: is). rewrite <- app_assoc.
      split; reflexivity.
    + destruct t; try discriminate. rewrite Hz in Hw. discriminate.
Qed.

End Walk.

Lemma map_SField_inj is1 is2 : map SField is1 = map SField is2 -> is1 = is2.
Proof.
  revert is2. induction is1 as [|i is1 IH]; intros [|j is2]; cbn [map]; try discriminate; intros H.
  - reflexivity.
  - f_equal; [congruence|]. apply IH. congruence.
Qed.

(** * A config variable and its memory *)

Section Root.
Context (E : tenv) (l0 : loc) (t0 : ty).
Notation W m p := (walk E m l0 t0 p).
Notation val m p := (value_at E m l0 t0 p).

Record inv (m : mem) : Prop := {
  inv_ok : mem_ok m;
  inv_root : allocated m l0;
  inv_un : unshared E m l0 t0 }.

Record grow (m m' : mem) : Prop := {
  grow_next : next m <= next m';
  grow_walk : forall p x, W m p = Some x -> W m' p = Some x;
  grow_val : forall p lp tp, W m' p = Some (lp, tp) -> (forall t, tp <> TPtr t) -> val m' p = val m p;
  grow_ptr : forall l l', cells m l = CPtr l' -> allocated m l -> cells m' l = CPtr l' }.

Lemma grow_refl m : grow m m.
Proof. constructor; auto. Qed.

Lemma grow_trans m1 m2 m3 : grow m1 m2 -> grow m2 m3 -> grow m1 m3.
Proof.
  intros G1 G2. constructor.
  - pose proof (grow_next _ _ G1). pose proof (grow_next _ _ G2). lia.
  - intros p x H. apply (grow_walk _ _ G2), (grow_walk _ _ G1), H.
  - intros p lp tp H Ht. rewrite (grow_val _ _ G2 p lp tp H Ht).
    destruct (W m2 p) as [[l2 t2]|] eqn:H2.
    + pose proof (grow_walk _ _ G2 _ _ H2) as H3. rewrite H in H3. injection H3 as <- <-.
      apply (grow_val _ _ G1 p _ _ H2 Ht).
    + unfold value_at. rewrite H2. destruct (W m1 p) as [x|] eqn:H1; [|reflexivity].
      rewrite (grow_walk _ _ G1 _ _ H1) in H2. discriminate.
  - intros l l' H Ha. apply (grow_ptr _ _ G2).
    + exact (grow_ptr _ _ G1 _ _ H Ha).
    + pose proof (grow_next _ _ G1). unfold allocated in *. lia.
Qed.

Lemma set_new_self m l : cells (set_new m l) l = CPtr (next m, []).
Proof. apply store_same. Qed.
Lemma set_new_old m l l' : l' <> l -> fst l' <> next m -> cells (set_new m l) l' = cells m l'.
Proof.
  intros Hn Ha. unfold set_new. rewrite store_other by exact Hn. cbn [alloc cells].
  apply Nat.eqb_neq in Ha. rewrite Ha. reflexivity.
Qed.
Lemma set_new_fresh m l idx : allocated m l -> cells (set_new m l) (next m, idx) = CZero.
Proof.
  intros Ha. unfold set_new. rewrite store_other.
  - cbn [alloc cells fst]. rewrite Nat.eqb_refl. reflexivity.
  - intros H. unfold allocated in Ha. rewrite <- H in Ha. cbn [fst] in Ha. lia.
Qed.

Lemma set_new_next m l : next (set_new m l) = S (next m).
Proof. reflexivity. Qed.

Section SetNew.
Context (m : mem) (q : list step) (l : loc) (t : ty)
  (Hinv : inv m) (Hq : W m q = Some (l, TPtr t)) (Hnil : is_nil (cells m l) = true).

Lemma sn_alloc : allocated m l.
Proof. exact (walk_allocated E m q (inv_ok _ Hinv) l0 t0 l (TPtr t) (inv_root _ Hinv) Hq). Qed.

Lemma sn_keep p x : W m p = Some x -> W (set_new m l) p = Some x.
Proof.
  intros H. rewrite <- H. apply walk_frame. intros p1 p2 l1 t1 -> Hw. apply set_new_old.
  - intros ->. rewrite (walk_snoc E _ _ _ _ _ _ _ Hw) in H. cbn [walk] in H.
    destruct (cells m l); [discriminate|cbn [is_nil] in Hnil; discriminate|discriminate].
  - pose proof (walk_allocated E m p1 (inv_ok _ Hinv) _ _ _ _ (inv_root _ Hinv) Hw) as Ha.
    unfold allocated in Ha. lia.
Qed.

Lemma sn_new p x : W (set_new m l) p = Some x ->
  W m p = Some x \/
  W m p = None /\ exists r, p = q ++ SDeref :: r /\ walk E (set_new m l) (next m, []) t r = Some x.
Proof.
  intros H. destruct (W m p) as [y|] eqn:Hm.
  - left. rewrite (sn_keep _ _ Hm) in H. congruence.
  - right. split; [reflexivity|]. destruct (prefix_dec (q ++ [SDeref]) p) as [[r ->]|Hn].
    + exists r. rewrite <- app_assoc in *. cbn [Datatypes.app] in *. split; [reflexivity|].
      rewrite (walk_snoc E _ _ _ _ _ _ _ (sn_keep _ _ Hq)) in H. cbn [walk] in H.
      rewrite set_new_self in H. exact H.
    + exfalso.
      assert (Hf : W (set_new m l) p = W m p).
      { apply walk_frame. intros p1 p2 l1 t1 -> Hw. apply set_new_old.
        - intros ->. pose proof (inv_un _ Hinv _ _ _ _ _ Hw Hq) as ->.
          apply (Hn p2). rewrite <- app_assoc. reflexivity.
        - pose proof (walk_allocated E m p1 (inv_ok _ Hinv) _ _ _ _ (inv_root _ Hinv) Hw) as Ha.
          unfold allocated in Ha. lia. }
      rewrite Hf in H. congruence.
Qed.

Lemma sn_fresh_loc r l' t' :
  walk E (set_new m l) (next m, []) t r = Some (l', t') ->
  exists is, r = map SField is /\ l' = (next m, is).
Proof.
  intros H. destruct (walk_fresh E _ (next m) (fun idx => set_new_fresh m l idx sn_alloc) _ _ _ _ _ H)
    as (is & H1 & H2). exists is. split; assumption.
Qed.

Lemma sn_inv : inv (set_new m l).
Proof.
  pose proof sn_alloc as Ha. constructor.
  - intros a b Hab. unfold allocated. rewrite set_new_next.
    destruct (loc_dec a l) as [->|Hn].
    + rewrite set_new_self in Hab. injection Hab as <-. cbn [fst]. lia.
    + destruct (Nat.eq_dec (fst a) (next m)) as [Hf|Hf].
      * destruct a as [o idx]. cbn [fst] in Hf. subst o. rewrite set_new_fresh in Hab by exact Ha. discriminate.
      * rewrite set_new_old in Hab by assumption. pose proof (inv_ok _ Hinv _ _ Hab) as Hb.
        unfold allocated in Hb. lia.
  - pose proof (inv_root _ Hinv) as Hr. unfold allocated in *. rewrite set_new_next. lia.
  - intros p1 p2 l' t1 t2 H1 H2.
    destruct (sn_new _ _ H1) as [H1'|(_ & r1 & -> & H1')], (sn_new _ _ H2) as [H2'|(_ & r2 & -> & H2')].
    + exact (inv_un _ Hinv _ _ _ _ _ H1' H2').
    + pose proof (walk_allocated E m p1 (inv_ok _ Hinv) _ _ _ _ (inv_root _ Hinv) H1') as Hl.
      destruct (sn_fresh_loc _ _ _ H2') as (is & _ & ->). unfold allocated in Hl. cbn [fst] in Hl. lia.
    + pose proof (walk_allocated E m p2 (inv_ok _ Hinv) _ _ _ _ (inv_root _ Hinv) H2') as Hl.
      destruct (sn_fresh_loc _ _ _ H1') as (is & _ & ->). unfold allocated in Hl. cbn [fst] in Hl. lia.
    + destruct (sn_fresh_loc _ _ _ H1') as (is1 & -> & E1). destruct (sn_fresh_loc _ _ _ H2') as (is2 & -> & E2).
      assert (is1 = is2) as -> by congruence. reflexivity.
Qed.

Lemma sn_grow : grow m (set_new m l).
Proof.
  pose proof sn_alloc as Ha. constructor.
  - rewrite set_new_next. lia.
  - exact sn_keep.
  - intros p lp tp H Ht. unfold value_at. rewrite H.
    destruct (sn_new _ _ H) as [H'|(H' & r & -> & Hr)]; rewrite H'.
    + apply set_new_old.
      * intros ->. pose proof (inv_un _ Hinv _ _ _ _ _ H' Hq) as ->. rewrite Hq in H'. injection H' as <-.
        apply (Ht t). reflexivity.
      * pose proof (walk_allocated E m p (inv_ok _ Hinv) _ _ _ _ (inv_root _ Hinv) H') as Hl.
        unfold allocated in Hl. lia.
    + destruct (sn_fresh_loc _ _ _ Hr) as (is & _ & ->). apply set_new_fresh, Ha.
  - intros a b Hab Hal. rewrite set_new_old; [exact Hab| |unfold allocated in Hal; lia].
    intros ->. rewrite Hab in Hnil. discriminate.
Qed.

End SetNew.

(** * initStruct *)

Definition good (m : mem) (p : list step) (t : ty) : Prop :=
  exists lp, W m p = Some (lp, t) /\ forall t1, t = TPtr t1 -> exists l', cells m lp = CPtr l'.

Lemma good_grow m m' p t : inv m -> grow m m' -> good m p t -> good m' p t.
Proof.
  intros Hi Hg (lp & Hw & Hc). exists lp. split; [exact (grow_walk _ _ Hg _ _ Hw)|].
  intros t1 Ht. destruct (Hc t1 Ht) as (l' & Hl). exists l'. apply (grow_ptr _ _ Hg _ _ Hl).
  exact (walk_allocated E m p (inv_ok _ Hi) _ _ _ _ (inv_root _ Hi) Hw).
Qed.

(** The steps below a field. *)
Definition below (t : ty) (p : list step) (t' : ty) : Prop :=
  p = [] /\ t' = t \/
  exists q s p', through t q (TStruct s) /\ settable E s p' t' /\ p = q ++ p'.

Definition changed (m m' : mem) (q : list step) (t : ty) : Prop :=
  forall l, allocated m l -> cells m' l <> cells m l ->
    (forall l', cells m l <> CPtr l') /\ (exists o, next m <= o /\ cells m' l = CPtr (o, [])) /\
    exists p t1, below t p (TPtr t1) /\ W m' (q ++ p) = Some (l, TPtr t1).

Lemma settable_split s p t : settable E s p t <->
  exists i f p', nth_error (E s) i = Some f /\ fexp f = true /\ p = SField i :: p' /\ below (fty f) p' t.
Proof.
  split.
  - intros H. destruct H as [s i f Hf He|s i f q s' p t Hf He Ht Hs].
    + exists i, f, []. repeat (split; [assumption||reflexivity|]). left. split; reflexivity.
    + exists i, f, (q ++ p). repeat (split; [assumption||reflexivity|]). right.
      exists q, s', p. repeat (split; [assumption|]). reflexivity.
  - intros (i & f & p' & Hf & He & -> & [[-> ->]|(q & s' & p1 & Ht & Hs & ->)]).
    + apply settable_here; assumption.
    + apply (settable_below E s i f q s' p1 t); assumption.
Qed.

Lemma init_at_inv fuel : forall m q l t ro m',
  inv m -> (ro = false -> W m q = Some (l, t)) -> init_at fuel E m l t ro = Some m' ->
  inv m' /\ grow m m' /\ changed m m' q t /\
  (ro = false -> forall p t', below t p t' -> good m' (q ++ p) t').
Proof.
  induction fuel as [|n IH]; intros m q l t ro m' Hi Hq Hr; [discriminate|].
  destruct ro.
  { assert (m' = m) as ->.
    { cbn [init_at] in Hr. destruct t; try congruence. rewrite andb_false_r in Hr.
      destruct (cells m l); congruence. }
    split; [exact Hi|]. split; [apply grow_refl|]. split; [|discriminate].
    intros a _ Hc. contradiction. }
  specialize (Hq eq_refl).
  (* the fields of a struct *)
  assert (Hbody : forall m q l s m', inv m -> W m q = Some (l, TStruct s) ->
    each (fun m i f => init_at n E m (fld l i) (fty f) (negb (fexp f))) 0 (E s) m = Some m' ->
    inv m' /\ grow m m' /\
    (forall a, allocated m a -> cells m' a <> cells m a ->
       (forall l', cells m a <> CPtr l') /\ (exists o, next m <= o /\ cells m' a = CPtr (o, [])) /\
       exists p t1, settable E s p (TPtr t1) /\ W m' (q ++ p) = Some (a, TPtr t1)) /\
    (forall p t', settable E s p t' -> good m' (q ++ p) t')).
  { clear m q l t m' Hi Hq Hr. intros m q l s m' Hi Hq He.
    pose (P := fun (i : nat) (m1 : mem) =>
      inv m1 /\ grow m m1 /\
      (forall a, allocated m a -> cells m1 a <> cells m a ->
         (forall l', cells m a <> CPtr l') /\ (exists o, next m <= o /\ cells m1 a = CPtr (o, [])) /\
         exists p t1, settable E s p (TPtr t1) /\ W m1 (q ++ p) = Some (a, TPtr t1)) /\
      (forall j f p t', j < i -> nth_error (E s) j = Some f -> fexp f = true -> below (fty f) p t' ->
         good m1 (q ++ SField j :: p) t')).
    assert (HP : P (length (E s)) m').
    { refine (each_inv _ P (E s) _ m m' _ He).
      - intros i f m1 m2 Hf (Hi1 & Hg1 & Hc1 & Hd1) Hs.
        assert (Hw : negb (fexp f) = false -> W m1 (q ++ [SField i]) = Some (fld l i, fty f)).
        { intros Hx. rewrite (walk_snoc E _ _ _ _ _ _ _ (grow_walk _ _ Hg1 _ _ Hq)). cbn [walk].
          rewrite Hf. destruct (fexp f); [reflexivity|discriminate]. }
        destruct (IH _ _ _ _ _ _ Hi1 Hw Hs) as (Hi2 & Hg2 & Hc2 & Hd2).
        split; [exact Hi2|]. split; [exact (grow_trans _ _ _ Hg1 Hg2)|]. split.
        + intros a Ha Hne.
          assert (Ha1 : allocated m1 a)
            by (pose proof (grow_next _ _ Hg1); unfold allocated in *; lia).
          assert (Hdec : cells m2 a = cells m1 a \/ cells m2 a <> cells m1 a)
            by (repeat decide equality).
          destruct Hdec as [Heq|Hne2].
          * rewrite Heq in *. destruct (Hc1 a Ha Hne) as (H1 & H2 & p & t1 & H3 & H4).
            split; [exact H1|]. split; [exact H2|]. exists p, t1. split; [exact H3|].
            exact (grow_walk _ _ Hg2 _ _ H4).
          * destruct (Hc2 a Ha1 Hne2) as (H1 & (o & Ho & H2) & p & t1 & H3 & H4).
            split; [|split].
            -- intros l' Hl. apply (H1 l'). exact (grow_ptr _ _ Hg1 _ _ Hl Ha).
            -- exists o. split; [|exact H2]. pose proof (grow_next _ _ Hg1). lia.
            -- destruct (fexp f) eqn:Hx.
               ++ exists (SField i :: p), t1. split.
                  ** apply settable_split. exists i, f, p. repeat (split; [assumption||reflexivity|]). exact H3.
                  ** rewrite <- app_assoc in H4. exact H4.
               ++ exfalso. cbn [negb] in Hs. destruct n as [|n']; [discriminate|].
                  assert (m2 = m1) as ->.
                  { cbn [init_at] in Hs. destruct (fty f); try congruence. rewrite andb_false_r in Hs.
                    destruct (cells m1 (fld l i)); congruence. }
                  congruence.
        + intros j g p t' Hj Hg Hx Hb. destruct (Nat.eq_dec j i) as [->|Hn].
          * assert (g = f) as -> by congruence. specialize (Hd2 ltac:(rewrite Hx; reflexivity) p t' Hb).
            rewrite <- app_assoc in Hd2. exact Hd2.
          * apply (good_grow m1 m2); [exact Hi1|exact Hg2|]. apply (Hd1 j g p t'); [lia|assumption..].
      - split; [exact Hi|]. split; [apply grow_refl|]. split.
        + intros a _ Hc. contradiction.
        + intros j f p t' Hj. lia. }
    destruct HP as (Hi' & Hg' & Hc' & Hd'). split; [exact Hi'|]. split; [exact Hg'|].
    split; [exact Hc'|]. intros p t' Hs. apply settable_split in Hs.
    destruct Hs as (i & f & p' & Hf & Hx & -> & Hb). apply (Hd' i f p' t'); [|assumption..].
    apply nth_error_Some. congruence. }
  destruct t as [k named|s|t'|].
  - cbn [init_at] in Hr. injection Hr as <-. split; [exact Hi|]. split; [apply grow_refl|]. split.
    + intros a _ Hc. contradiction.
    + intros _ p t' [[-> ->]|(r & s & p' & Ht & _)].
      * exists l. rewrite app_nil_r. split; [exact Hq|]. discriminate.
      * inversion Ht.
  - cbn [init_at] in Hr. destruct (Hbody _ _ _ _ _ Hi Hq Hr) as (Hi' & Hg' & Hc' & Hd').
    split; [exact Hi'|]. split; [exact Hg'|]. split.
    + intros a Ha Hne. destruct (Hc' a Ha Hne) as (H1 & H2 & p & t1 & H3 & H4).
      split; [exact H1|]. split; [exact H2|]. exists p, t1. split; [|exact H4].
      right. exists [], s, p. split; [constructor|]. split; [exact H3|reflexivity].
    + intros _ p t' [[-> ->]|(r & s' & p' & Ht & Hs & ->)].
      * exists l. rewrite app_nil_r. split; [exact (grow_walk _ _ Hg' _ _ Hq)|]. discriminate.
      * inversion Ht; subst. cbn [Datatypes.app]. exact (Hd' p' t' Hs).
  - cbn [init_at] in Hr.
    set (m1 := if is_nil (cells m l) && negb false then set_new m l else m) in *.
    assert (H1 : inv m1 /\ grow m m1 /\ (exists l', cells m1 l = CPtr l') /\
              forall a, allocated m a -> cells m1 a <> cells m a ->
                a = l /\ (forall l', cells m l <> CPtr l') /\ cells m1 l = CPtr (next m, [])).
    { unfold m1. cbn [negb]. rewrite andb_true_r. destruct (is_nil (cells m l)) eqn:Hn.
      - split; [exact (sn_inv m q l t' Hi Hq Hn)|]. split; [exact (sn_grow m q l t' Hi Hq Hn)|]. split.
        + exists (next m, []). apply set_new_self.
        + intros a Ha Hne. destruct (loc_dec a l) as [->|Hal].
          * split; [reflexivity|]. split; [|apply set_new_self]. intros l' Hl. rewrite Hl in Hn. discriminate.
          * exfalso. apply Hne. apply set_new_old; [exact Hal|]. unfold allocated in Ha. lia.
      - split; [exact Hi|]. split; [apply grow_refl|]. split.
        + destruct (cells m l) as [|l'|v]; try discriminate. exists l'. reflexivity.
        + intros a _ Hne. contradiction. }
    destruct H1 as (Hi1 & Hg1 & (l' & Hl') & Hc1).
    pose proof (grow_walk _ _ Hg1 _ _ Hq) as Hq1.
    rewrite Hl' in Hr.
    assert (Hq' : W m1 (q ++ [SDeref]) = Some (l', t')).
    { rewrite (walk_snoc E _ _ _ _ _ _ _ Hq1). cbn [walk]. rewrite Hl'. reflexivity. }
    assert (H2 : inv m' /\ grow m1 m' /\
      (forall a, allocated m1 a -> cells m' a <> cells m1 a ->
       (forall l', cells m1 a <> CPtr l') /\ (exists o, next m1 <= o /\ cells m' a = CPtr (o, [])) /\
       exists s p t1, t' = TStruct s /\ settable E s p (TPtr t1) /\
         W m' ((q ++ [SDeref]) ++ p) = Some (a, TPtr t1)) /\
      (forall s p t'', t' = TStruct s -> settable E s p t'' -> good m' ((q ++ [SDeref]) ++ p) t'')).
    { destruct t' as [k named|s|t'|]; try (injection Hr as <-; split; [exact Hi1|]; split; [apply grow_refl|];
        split; [intros a _ Hc; contradiction|discriminate]).
      destruct (Hbody _ _ _ _ _ Hi1 Hq' Hr) as (A & B & C & D).
      split; [exact A|]. split; [exact B|]. split.
      - intros a Ha Hne. destruct (C a Ha Hne) as (C1 & C2 & p & t1 & C3 & C4).
        split; [exact C1|]. split; [exact C2|]. exists s, p, t1. repeat (split; [assumption||reflexivity|]). exact C4.
      - intros s' p t'' [= <-] Hs. exact (D p t'' Hs). }
    destruct H2 as (Hi2 & Hg2 & Hc2 & Hd2).
    assert (Hg : grow m m') by exact (grow_trans _ _ _ Hg1 Hg2).
    split; [exact Hi2|]. split; [exact Hg|]. split.
    + intros a Ha Hne.
      assert (Ha1 : allocated m1 a) by (pose proof (grow_next _ _ Hg1); unfold allocated in *; lia).
      assert (Hdec : cells m1 a = cells m a \/ cells m1 a <> cells m a) by (repeat decide equality).
      destruct Hdec as [Heq|Hne1].
      * rewrite <- Heq in Hne. destruct (Hc2 a Ha1 Hne) as (D1 & (o & Ho & D2) & s & p & t1 & -> & D3 & D4).
        split; [intros x; rewrite <- Heq; apply D1|]. split.
        -- exists o. split; [pose proof (grow_next _ _ Hg1); lia|exact D2].
        -- exists (SDeref :: p), t1. split.
           ++ right. exists [SDeref], s, p. split; [constructor|]. split; [exact D3|reflexivity].
           ++ rewrite <- app_assoc in D4. exact D4.
      * destruct (Hc1 a Ha Hne1) as (-> & D1 & D2). split; [exact D1|]. split.
        -- exists (next m). split; [lia|]. exact (grow_ptr _ _ Hg2 _ _ D2 Ha1).
        -- exists [], t'. split; [left; split; reflexivity|]. rewrite app_nil_r. exact (grow_walk _ _ Hg _ _ Hq).
    + intros _ p t'' [[-> ->]|(r & s & p' & Ht & Hs & ->)].
      * exists l. rewrite app_nil_r. split; [exact (grow_walk _ _ Hg _ _ Hq)|]. intros _ _. exists l'.
        apply (grow_ptr _ _ Hg2 _ _ Hl').
        exact (walk_allocated E m1 q (inv_ok _ Hi1) _ _ _ _ (inv_root _ Hi1) Hq1).
      * inversion Ht; subst. rewrite app_assoc. apply (Hd2 s); [reflexivity|exact Hs].
  - cbn [init_at] in Hr. injection Hr as <-. split; [exact Hi|]. split; [apply grow_refl|]. split.
    + intros a _ Hc. contradiction.
    + intros _ p t' [[-> ->]|(r & s & p' & Ht & _)].
      * exists l. rewrite app_nil_r. split; [exact Hq|]. discriminate.
      * inversion Ht.
Qed.

End Root.
