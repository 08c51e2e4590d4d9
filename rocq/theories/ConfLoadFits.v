(** Decoding succeeds exactly for the documents that fit the type. *)
From Verif Require Import Common Bytes ConfLoadModel ConfLoadSpec ConfLoadProofs ConfLoadYaml.
Local Open Scope string_scope.
Local Open Scope list_scope.
Local Open Scope nat_scope.

Fixpoint strip (t : ty) : ty := match t with TPtr t' => strip t' | _ => t end.

Lemma strip_end t t1 : strip t <> TPtr t1.
Proof. induction t; try discriminate. exact IHt. Qed.

Lemma deref_strip t : forall m l, snd (deref m l t) = strip t.
Proof.
  induction t as [k named|s|t IH|]; intros m l; try reflexivity. cbn [deref strip].
  set (m1 := if is_nil (cells m l) then set_new m l else m).
  assert (H : exists l1, cells m1 l = CPtr l1).
  { unfold m1. destruct (cells m l) as [|l1|v] eqn:Hl; cbn [is_nil].
    - eexists. apply set_new_self.
    - exists l1. exact Hl.
    - eexists. apply set_new_self. }
  destruct H as [l1 ->]. apply IH.
Qed.

Section Fits.
Context (w : world) (E : tenv).

Lemma fits_strip t n : n <> YNull -> (fits w E t n <-> fits w E (strip t) n).
Proof.
  intros Hn. induction t as [k named|s|t IH|]; try reflexivity. cbn [strip]. rewrite <- IH. split.
  - intros H. inversion H; subst; [contradiction|assumption].
  - intros H. apply fits_ptr; assumption.
Qed.

Lemma index_strip t i idx q t' : index_path E t (i :: idx) q t' ->
  exists q', index_path E (strip t) (i :: idx) q' t'.
Proof.
  revert q. induction t as [k named|s|t IH|]; intros q H; try (eexists; exact H). cbn [strip].
  inversion H; subst. apply (IH p). assumption.
Qed.
Lemma strip_index t i idx q t' : index_path E (strip t) (i :: idx) q t' ->
  exists q', index_path E t (i :: idx) q' t'.
Proof.
  revert q. induction t as [k named|s|t IH|]; intros q H; try (eexists; exact H). cbn [strip] in H.
  destruct (IH _ H) as [q' H']. eexists. apply index_ptr. exact H'.
Qed.

Lemma field_by_index_ok idx : forall t q t' m l, index_path E t idx q t' ->
  exists m' l', field_by_index E m l t idx = Some (m', l', t').
Proof.
  induction idx as [|i idx IH]; intros t q t' m l H; cbn [field_by_index].
  - inversion H; subst. exists m, l. reflexivity.
  - apply index_strip in H. destruct H as [q' H]. pose proof (deref_strip t m l) as Hd.
    destruct (deref m l t) as [[m1 l1] t1]. cbn [snd] in Hd. subst t1.
    inversion H as [|t2 i' idx' p' t2' H' Ht|s i' f idx' p' t2' Hf Hx H' Hs]; subst.
    + exfalso. exact (strip_end t t2 (eq_sym Ht)).
    + rewrite Hf. apply orb_true_iff in Hx. rewrite Hx. exact (IH _ _ _ _ _ H').
Qed.

Lemma field_by_index_path idx : forall t m l m' l' t', field_by_index E m l t idx = Some (m', l', t') ->
  exists q, index_path E t idx q t'.
Proof.
  induction idx as [|i idx IH]; intros t m l m' l' t' H; cbn [field_by_index] in H.
  - injection H as _ _ <-. eexists. constructor.
  - pose proof (deref_strip t m l) as Hd. destruct (deref m l t) as [[m1 l1] t1]. cbn [snd] in Hd. subst t1.
    destruct (strip t) as [k named|s|t1|] eqn:Hs; try discriminate.
    destruct (nth_error (E s) i) as [f|] eqn:Hf; [|discriminate].
    destruct (fexp f || fanon f) eqn:Hx; [|discriminate]. apply orb_true_iff in Hx.
    destruct (IH _ _ _ _ _ _ H) as [q Hq]. apply (strip_index t i idx (SField i :: q)). rewrite Hs.
    apply index_field with (f := f); assumption.
Qed.

Lemma idx_in_false idx seen : ~ In idx seen -> idx_in idx seen = false.
Proof.
  induction seen as [|j seen IH]; intros H; [reflexivity|]. cbn [idx_in].
  destruct (list_eq_dec Nat.eq_dec idx j) as [->|_]; [exfalso; apply H; left; reflexivity|].
  apply IH. intros Hi. apply H. right. exact Hi.
Qed.

Definition decodable (n : ynode) : Prop := forall t m l, unmarshal w E m l t n <> None <-> fits w E t n.

Definition entries_ok (s : nat) (kvs : list (string * ynode)) : Prop :=
  forall name n idx, In (name, n) kvs -> w_key w s name = Some idx ->
    idx <> [] /\ exists q t, index_path E (TStruct s) idx q t /\ fits w E t n.

Lemma set_once_cons s kv kvs : set_once (w_key w) s (kv :: kvs) <->
  set_once (w_key w) s kvs /\
  forall idx, w_key w s (fst kv) = Some idx -> forall name n, In (name, n) kvs -> w_key w s name <> Some idx.
Proof.
  split.
  - intros H. split.
    + intros i j n1 n2 x1 x2 idx H1 H2 K1 K2. specialize (H (S i) (S j) n1 n2 x1 x2 idx H1 H2 K1 K2). lia.
    + intros idx Hk name n Hin Hk2. apply In_nth_error in Hin. destruct Hin as [j Hj].
      destruct kv as [n0 x0]. specialize (H 0 (S j) n0 name x0 n idx eq_refl Hj Hk Hk2). lia.
  - intros [H1 H2] i j n1 n2 x1 x2 idx Hi Hj K1 K2. destruct i as [|i], j as [|j]; cbn [nth_error] in Hi, Hj.
    + reflexivity.
    + exfalso. injection Hi as ->. apply nth_error_In in Hj. exact (H2 idx K1 n2 x2 Hj K2).
    + exfalso. injection Hj as ->. apply nth_error_In in Hi. exact (H2 idx K2 n1 x1 Hi K1).
    + f_equal. exact (H1 i j n1 n2 x1 x2 idx Hi Hj K1 K2).
Qed.

Lemma entries_fits s l kvs : Forall (fun kv => decodable (snd kv)) kvs ->
  forall seen m, entries (unmarshal w E) w E s l kvs seen m <> None <->
    (set_once (w_key w) s kvs /\ entries_ok s kvs /\
     forall name n idx, In (name, n) kvs -> w_key w s name = Some idx -> ~ In idx seen).
Proof.
  induction 1 as [|[key n] kvs Hn Hkvs IH]; intros seen m.
  - cbn [entries]. split; [|discriminate]. intros _. split.
    + intros i j n1 n2 x1 x2 idx H. destruct i; discriminate.
    + split; [intros name n idx []|intros name n idx []].
  - cbn [snd] in Hn. cbn [entries]. fold (entries (unmarshal w E) w E s l).
    rewrite set_once_cons. cbn [fst].
    destruct (w_key w s key) as [idx|] eqn:Hk.
    2: { rewrite IH. split.
         - intros (H1 & H2 & H3). split; [split; [exact H1|discriminate]|]. split.
           + intros name n' idx [Heq|Hin] Hk'; [congruence|exact (H2 name n' idx Hin Hk')].
           + intros name n' idx [Heq|Hin] Hk'; [congruence|exact (H3 name n' idx Hin Hk')].
         - intros ((H1 & _) & H2 & H3). split; [exact H1|]. split.
           + intros name n' idx Hin Hk'. exact (H2 name n' idx (or_intror Hin) Hk').
           + intros name n' idx Hin Hk'. exact (H3 name n' idx (or_intror Hin) Hk'). }
    split.
    + intros H. destruct (idx_in idx seen) eqn:Hs; [contradiction|].
      assert (Hns : ~ In idx seen) by (intros Hi; rewrite (idx_in_true _ _ Hi) in Hs; discriminate).
      destruct idx as [|i0 idx0]; [contradiction|]. remember (i0 :: idx0) as idx eqn:Hidx.
      destruct (field_by_index E m l (TStruct s) idx) as [[[m1 l1] t1]|] eqn:Hf; [|contradiction].
      destruct (unmarshal w E m1 l1 t1 n) as [m2|] eqn:Hu; [|contradiction].
      apply IH in H. destruct H as (H1 & H2 & H3). split; [|split].
      * split; [exact H1|]. intros idx' [= <-] name n' Hin Hk'. apply (H3 name n' idx Hin Hk'). left. reflexivity.
      * intros name n' idx' [Heq|Hin] Hk'; [|exact (H2 name n' idx' Hin Hk')].
        assert (name = key) as -> by congruence. assert (n' = n) as -> by congruence.
        assert (idx' = idx) as -> by congruence. split; [congruence|].
        destruct (field_by_index_path _ _ _ _ _ _ _ Hf) as [q Hq]. exists q, t1. split; [exact Hq|].
        apply (Hn t1 m1 l1). congruence.
      * intros name n' idx' [Heq|Hin] Hk'.
        -- assert (name = key) as -> by congruence. assert (idx' = idx) as -> by congruence. exact Hns.
        -- intros Hi. apply (H3 name n' idx' Hin Hk'). right. exact Hi.
    + intros ((H1 & H1') & H2 & H3).
      rewrite (idx_in_false _ _ (H3 key n idx (or_introl eq_refl) Hk)).
      destruct (H2 key n idx (or_introl eq_refl) Hk) as (Hne & q & t & Hq & Hfit).
      destruct idx as [|i0 idx0]; [contradiction|]. remember (i0 :: idx0) as idx eqn:Hidx.
      destruct (field_by_index_ok idx _ q t m l Hq) as (m1 & l1 & ->).
      pose proof (proj2 (Hn t m1 l1) Hfit) as Hu. destruct (unmarshal w E m1 l1 t n) as [m2|]; [|contradiction].
      apply IH. split; [exact H1|]. split.
      * intros name n' idx' Hin Hk'. exact (H2 name n' idx' (or_intror Hin) Hk').
      * intros name n' idx' Hin Hk' [Heq|Hi].
        -- subst idx'. exact (H1' idx eq_refl name n' Hin Hk').
        -- exact (H3 name n' idx' (or_intror Hin) Hk' Hi).
Qed.

Lemma unmarshal_fits n : decodable n.
Proof.
  induction n as [|s0|kvs IHkvs|ns] using ynode_rect'; intros t m l.
  - cbn [unmarshal]. destruct t as [k named|s|t|].
    + split; [intros _; constructor; discriminate|discriminate].
    + split; [intros _; constructor; discriminate|discriminate].
    + split; [intros _; constructor; discriminate|discriminate].
    + split.
      * intros H. apply fits_other. destruct (w_yother w YNull); [discriminate|contradiction].
      * intros H. inversion H; subst; [contradiction|]. destruct (w_yother w YNull); [discriminate|contradiction].
  - rewrite fits_strip by discriminate. cbn [unmarshal]. pose proof (deref_strip t m l) as Hd.
    destruct (deref m l t) as [[m1 l1] t1]. cbn [snd] in Hd. subst t1.
    destruct (strip t) as [k named|s|t1|] eqn:Hs.
    + split.
      * intros H. apply fits_scalar. destruct (w_yscalar w k s0); [discriminate|contradiction].
      * intros H. inversion H; subst. destruct (w_yscalar w k s0); [discriminate|contradiction].
    + split; [contradiction|]. intros H. inversion H.
    + exfalso. exact (strip_end _ _ Hs).
    + split.
      * intros H. apply fits_other. destruct (w_yother w (YScalar s0)); [discriminate|contradiction].
      * intros H. inversion H; subst. destruct (w_yother w (YScalar s0)); [discriminate|contradiction].
  - rewrite fits_strip by discriminate. cbn [unmarshal]. pose proof (deref_strip t m l) as Hd.
    destruct (deref m l t) as [[m1 l1] t1]. cbn [snd] in Hd. subst t1.
    destruct (strip t) as [k named|s|t1|] eqn:Hs.
    + split; [contradiction|]. intros H. inversion H.
    + rewrite (entries_fits s l1 kvs IHkvs). split.
      * intros (H1 & H2 & _). apply fits_map; assumption.
      * intros H. inversion H; subst. split; [assumption|]. split; [assumption|]. intros name n idx _ _ [].
    + exfalso. exact (strip_end _ _ Hs).
    + split.
      * intros H. apply fits_other. destruct (w_yother w (YMap kvs)); [discriminate|contradiction].
      * intros H. inversion H; subst. destruct (w_yother w (YMap kvs)); [discriminate|contradiction].
  - rewrite fits_strip by discriminate. cbn [unmarshal]. pose proof (deref_strip t m l) as Hd.
    destruct (deref m l t) as [[m1 l1] t1]. cbn [snd] in Hd. subst t1.
    destruct (strip t) as [k named|s|t1|] eqn:Hs.
    + split; [contradiction|]. intros H. inversion H.
    + split; [contradiction|]. intros H. inversion H.
    + exfalso. exact (strip_end _ _ Hs).
    + split.
      * intros H. apply fits_other. destruct (w_yother w (YSeq ns)); [discriminate|contradiction].
      * intros H. inversion H; subst. destruct (w_yother w (YSeq ns)); [discriminate|contradiction].
Qed.

End Fits.
