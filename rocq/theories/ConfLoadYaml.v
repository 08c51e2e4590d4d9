(** Decoding a yaml document changes exactly what the document speaks about. *)
From Verif Require Import Common Bytes ConfLoadModel ConfLoadSpec ConfLoadProofs.
Local Open Scope string_scope.
Local Open Scope list_scope.
Local Open Scope nat_scope.

Section YnodeInd.
Context (P : ynode -> Prop)
  (Hnull : P YNull) (Hscalar : forall s, P (YScalar s))
  (Hmap : forall kvs, Forall (fun kv => P (snd kv)) kvs -> P (YMap kvs))
  (Hseq : forall ns, P (YSeq ns)).
Fixpoint ynode_rect' (n : ynode) : P n :=
  match n with
  | YNull => Hnull
  | YScalar s => Hscalar s
  | YMap kvs =>
    Hmap kvs ((fix go (kvs : list (string * ynode)) : Forall (fun kv => P (snd kv)) kvs :=
      match kvs with
      | [] => Forall_nil _
      | kv :: kvs' => Forall_cons kv (ynode_rect' (snd kv)) (go kvs')
      end) kvs)
  | YSeq ns => Hseq ns
  end.
End YnodeInd.

(** * Steps *)

Fixpoint fields_of (p : list step) : list nat :=
  match p with
  | [] => []
  | SField i :: p' => i :: fields_of p'
  | SDeref :: p' => fields_of p'
  end.

Lemma fields_of_app p q : fields_of (p ++ q) = fields_of p ++ fields_of q.
Proof. induction p as [|[i|] p IH]; cbn [Datatypes.app fields_of]; [reflexivity|rewrite IH; reflexivity|exact IH]. Qed.

Lemma index_path_fields E t idx p t' : index_path E t idx p t' -> fields_of p = idx.
Proof. induction 1; cbn [fields_of]; [reflexivity|assumption|f_equal; assumption]. Qed.

Lemma index_path_fun E t idx p t' : index_path E t idx p t' ->
  forall p2 t2, index_path E t idx p2 t2 -> p2 = p /\ t2 = t'.
Proof.
  induction 1 as [t|t i idx p t' H IH|s i f idx p t' Hf Hx H IH]; intros p2 t2 H2; inversion H2; subst.
  - split; reflexivity.
  - match goal with H : index_path E t _ _ t2 |- _ => destruct (IH _ _ H) as [-> ->] end. split; reflexivity.
  - assert (f0 = f) as -> by congruence.
    match goal with H : index_path E (fty f) _ _ t2 |- _ => destruct (IH _ _ H) as [-> ->] end. split; reflexivity.
Qed.

Lemma app_prefix {A} (p1 p2 q1 q2 : list A) : p1 ++ p2 = q1 ++ q2 ->
  (exists r, q1 = p1 ++ r) \/ (exists r, p1 = q1 ++ r).
Proof.
  revert q1. induction p1 as [|a p1 IH]; intros q1 H.
  - left. exists q1. reflexivity.
  - destruct q1 as [|b q1]; [right; exists (a :: p1); reflexivity|].
    cbn [Datatypes.app] in H. injection H as -> H. destruct (IH _ H) as [[r ->]|[r ->]].
    + left. exists r. reflexivity.
    + right. exists r. reflexivity.
Qed.

Section Yaml.
Context (w : world) (E : tenv) (l0 : loc) (t0 : ty) (Hkeys : keys_ok (w_key w)).
Notation W m p := (walk E m l0 t0 p).
Notation inv := (inv E l0 t0).
Notation grow := (grow E l0 t0).
Notation says := (says (w_key w) E).

(** * Stores *)

Lemma walk_less m m' p : (forall l l', cells m' l = CPtr l' -> cells m l = CPtr l') ->
  forall l t x, walk E m' l t p = Some x -> walk E m l t p = Some x.
Proof.
  intros H. induction p as [|[i|] p IH]; intros l t x Hw; cbn [walk] in *.
  - exact Hw.
  - destruct t; try discriminate. destruct (nth_error (E s) i) as [f|]; [|discriminate].
    destruct (fexp f || fanon f); [|discriminate]. apply IH. exact Hw.
  - destruct t; try discriminate. destruct (cells m' l) as [|l'|v] eqn:Hl; try discriminate.
    rewrite (H _ _ Hl). apply IH. exact Hw.
Qed.

Lemma inv_less m m' : inv m -> next m' = next m ->
  (forall l l', cells m' l = CPtr l' -> cells m l = CPtr l') -> inv m'.
Proof.
  intros [H1 H2 H3] Hn Hc. constructor.
  - intros l l' Hl. unfold allocated. rewrite Hn. exact (H1 _ _ (Hc _ _ Hl)).
  - unfold allocated. rewrite Hn. exact H2.
  - intros p1 p2 l' t1 t2 Hp1 Hp2. apply (H3 p1 p2 l' t1 t2); apply (walk_less m m'); assumption.
Qed.

Lemma store_less m l c : (forall l', c <> CPtr l') ->
  forall a b, cells (store m l c) a = CPtr b -> cells m a = CPtr b.
Proof.
  intros Hc a b H. destruct (loc_dec a l) as [->|Hn].
  - rewrite store_same in H. exfalso. exact (Hc b H).
  - rewrite store_other in H by exact Hn. exact H.
Qed.

(** Writing a variable that is not a pointer. *)
Lemma store_walk m q l t c p : inv m -> W m q = Some (l, t) -> (forall t', t <> TPtr t') ->
  W (store m l c) p = W m p.
Proof.
  intros Hi Hq Ht. apply walk_frame. intros p1 p2 l1 t1 _ Hw. apply store_other. intros ->.
  pose proof (inv_un _ _ _ _ Hi _ _ _ _ _ Hw Hq) as ->. rewrite Hw in Hq. injection Hq as Hq.
  exact (Ht t1 (eq_sym Hq)).
Qed.

(** * What decoding does to the variable at [p] *)

(** [m'] results from [m]; of the values that the document gives to [p] one is there; nothing else changes. *)
Definition told (m m' : mem) (p : list step) (said : string -> Prop) : Prop :=
  W m' p = W m p /\
  forall lp k named, W m p = Some (lp, TScalar k named) ->
    (forall s, said s -> exists x, w_yscalar w k s = Some x /\ cells m' lp = CVal x) /\
    ((forall s, ~ said s) -> cells m' lp = cells m lp).

Lemma grow_told m m' p x : grow m m' -> W m p = Some x -> told m m' p (fun _ => False).
Proof.
  intros Hg Hp. split; [rewrite Hp; exact (grow_walk _ _ _ _ _ Hg _ _ Hp)|].
  intros lp k named Hlp. split; [intros s []|]. intros _.
  pose proof (grow_walk _ _ _ _ _ Hg _ _ Hlp) as Hlp'.
  pose proof (grow_val _ _ _ _ _ Hg _ _ _ Hlp' ltac:(discriminate)) as Hv.
  unfold value_at in Hv. rewrite Hlp, Hlp' in Hv. exact Hv.
Qed.

Lemma told_after m m1 m' p (said : string -> Prop) :
  told m m1 p (fun _ => False) -> told m1 m' p said -> told m m' p said.
Proof.
  intros [H1 H2] [H3 H4]. split; [congruence|]. intros lp k named Hp.
  rewrite <- H1 in Hp. destruct (H4 lp k named Hp) as [A B]. split; [exact A|].
  intros Hn. rewrite (B Hn). rewrite H1 in Hp. apply (H2 lp k named Hp). intros s [].
Qed.

Lemma told_before m m1 m' p (said : string -> Prop) :
  told m m1 p said -> told m1 m' p (fun _ => False) -> told m m' p said.
Proof.
  intros [H1 H2] [H3 H4]. split; [congruence|]. intros lp k named Hp.
  assert (Hc : cells m' lp = cells m1 lp).
  { rewrite <- H1 in Hp. apply (H4 lp k named Hp). intros s []. }
  rewrite Hc. exact (H2 lp k named Hp).
Qed.

Lemma told_iff m m' p (s1 s2 : string -> Prop) : (forall s, s1 s <-> s2 s) -> told m m' p s1 -> told m m' p s2.
Proof.
  intros H [H1 H2]. split; [exact H1|]. intros lp k named Hp. destruct (H2 lp k named Hp) as [A B]. split.
  - intros s Hs. apply A, H, Hs.
  - intros Hn. apply B. intros s Hs. apply (Hn s), H, Hs.
Qed.

(** * Following pointers *)

Lemma deref_spec t : forall m q l m' l' t', inv m -> W m q = Some (l, t) -> deref m l t = (m', l', t') ->
  exists ds, inv m' /\ grow m m' /\ W m' (q ++ ds) = Some (l', t') /\ (forall t1, t' <> TPtr t1) /\
    fields_of ds = [] /\
    (forall n p x, n <> YNull -> (says t n p x <-> exists p', p = ds ++ p' /\ says t' n p' x)) /\
    (forall i idx p t2, index_path E t (i :: idx) p t2 <->
       exists p', p = ds ++ p' /\ index_path E t' (i :: idx) p' t2).
Proof.
  induction t as [k named|s|t IH|]; intros m q l m' l' t' Hi Hq Hd.
  3: { cbn [deref] in Hd.
    set (m1 := if is_nil (cells m l) then set_new m l else m) in *.
    assert (H1 : inv m1 /\ grow m m1 /\ exists l1, cells m1 l = CPtr l1).
    { unfold m1. destruct (is_nil (cells m l)) eqn:Hn.
      - split; [exact (sn_inv E l0 t0 m q l t Hi Hq Hn)|]. split; [exact (sn_grow E l0 t0 m q l t Hi Hq Hn)|].
        eexists. apply set_new_self.
      - split; [exact Hi|]. split; [apply grow_refl|]. destruct (cells m l); try discriminate. eexists. reflexivity. }
    destruct H1 as (Hi1 & Hg1 & l1 & Hl1). rewrite Hl1 in Hd.
    assert (Hq1 : W m1 (q ++ [SDeref]) = Some (l1, t)).
    { rewrite (walk_snoc E _ _ _ _ _ _ _ (grow_walk _ _ _ _ _ Hg1 _ _ Hq)). cbn [walk]. rewrite Hl1. reflexivity. }
    destruct (IH _ _ _ _ _ _ Hi1 Hq1 Hd) as (ds & A & B & C & D & F & S & I).
    exists (SDeref :: ds). split; [exact A|]. split; [exact (grow_trans _ _ _ _ _ _ Hg1 B)|].
    split; [rewrite <- app_assoc in C; exact C|]. split; [exact D|]. split; [exact F|]. split.
    - intros n p x Hn. split.
      + intros Hs. inversion Hs; subst; [contradiction|].
        match goal with H : ConfLoadSpec.says _ _ t _ _ _ |- _ => apply (S n _ x Hn) in H; destruct H as (p' & -> & H') end.
        exists p'. split; [reflexivity|exact H'].
      + intros (p' & -> & Hs). cbn [Datatypes.app]. apply says_ptr; [exact Hn|]. apply (S n _ x Hn).
        exists p'. split; [reflexivity|exact Hs].
    - intros i idx p t2. split.
      + intros H. inversion H; subst.
        match goal with H : index_path E t _ _ t2 |- _ => apply I in H; destruct H as (p' & -> & H') end.
        exists p'. split; [reflexivity|exact H'].
      + intros (p' & -> & H). cbn [Datatypes.app]. apply index_ptr. apply I. exists p'. split; [reflexivity|exact H]. }
  all: cbn [deref] in Hd; assert (m' = m) as -> by congruence; assert (l' = l) as -> by congruence.
  all: match goal with Hd : (_, _, ?t) = _ |- _ => assert (t' = t) as -> by congruence end.
  all: exists []; rewrite app_nil_r; split; [exact Hi|]; split; [apply grow_refl|]; split; [exact Hq|];
    split; [discriminate|]; split; [reflexivity|]; split; intros.
  all: split; [intros Hs; eexists; split; [reflexivity|exact Hs]|intros (p' & -> & Hs); exact Hs].
Qed.

Lemma deref_end t : forall m l, match deref m l t with (_, _, t') => forall t1, t' <> TPtr t1 end.
Proof.
  induction t as [k named|s|t IH|]; intros m l; try discriminate. cbn [deref].
  set (m1 := if is_nil (cells m l) then set_new m l else m).
  assert (H : exists l1, cells m1 l = CPtr l1).
  { unfold m1. destruct (cells m l) as [|l1|v] eqn:Hl; cbn [is_nil].
    - eexists. apply set_new_self.
    - exists l1. exact Hl.
    - eexists. apply set_new_self. }
  destruct H as [l1 ->]. apply IH.
Qed.

Lemma field_by_index_spec idx : forall m q l t m' l' t', inv m -> W m q = Some (l, t) ->
  field_by_index E m l t idx = Some (m', l', t') ->
  exists p, index_path E t idx p t' /\ inv m' /\ grow m m' /\ W m' (q ++ p) = Some (l', t').
Proof.
  induction idx as [|i idx IH]; intros m q l t m' l' t' Hi Hq Hf; cbn [field_by_index] in Hf.
  - injection Hf as <- <- <-. exists []. rewrite app_nil_r. split; [constructor|]. split; [exact Hi|].
    split; [apply grow_refl|exact Hq].
  - destruct (deref m l t) as [[m1 l1] t1] eqn:Hd.
    destruct (deref_spec t m q l m1 l1 t1 Hi Hq Hd) as (ds & Hi1 & Hg1 & Hq1 & _ & _ & _ & HI).
    destruct t1 as [k named|s|t1|]; try discriminate.
    destruct (nth_error (E s) i) as [f|] eqn:Hn; [|discriminate].
    destruct (fexp f || fanon f) eqn:Hx; [|discriminate].
    assert (Hq2 : W m1 ((q ++ ds) ++ [SField i]) = Some (fld l1 i, fty f)).
    { rewrite (walk_snoc E _ _ _ _ _ _ _ Hq1). cbn [walk]. rewrite Hn, Hx. reflexivity. }
    destruct (IH _ _ _ _ _ _ _ Hi1 Hq2 Hf) as (p & A & B & C & D).
    exists (ds ++ SField i :: p). split; [|split; [exact B|split; [exact (grow_trans _ _ _ _ _ _ Hg1 C)|]]].
    + apply HI. exists (SField i :: p). split; [reflexivity|]. apply index_field with (f := f); [exact Hn| |exact A].
      apply orb_true_iff in Hx. exact Hx.
    + rewrite <- !app_assoc in D. exact D.
Qed.

(** * Decoding *)

Definition no_null (q : list step) (t : ty) (n : ynode) (p : list step) : Prop :=
  forall p1 p2 r, p = p1 ++ p2 -> p1 = q ++ r -> ~ says t n r SaidNull.

Definition decodes (n : ynode) : Prop :=
  forall m q l t m', inv m -> W m q = Some (l, t) -> unmarshal w E m l t n = Some m' ->
    inv m' /\
    forall p x, W m p = Some x -> no_null q t n p ->
      told m m' p (fun s => exists r, p = q ++ r /\ says t n r (Said s)).

(** What the entries of a mapping say about [p]. *)
Definition entries_say (q : list step) (s : nat) (kvs : list (string * ynode)) (p : list step) (x : said) : Prop :=
  exists name n idx qi t r, In (name, n) kvs /\ w_key w s name = Some idx /\
    index_path E (TStruct s) idx qi t /\ says t n r x /\ p = q ++ qi ++ r.

Lemma idx_in_true idx seen : In idx seen -> idx_in idx seen = true.
Proof.
  induction seen as [|j seen IH]; intros H; [destruct H|]. cbn [idx_in].
  destruct (list_eq_dec Nat.eq_dec idx j); [reflexivity|]. destruct H as [H|H]; [congruence|exact (IH H)].
Qed.

Lemma entries_seen un s l : forall kvs seen m m', entries un w E s l kvs seen m = Some m' ->
  forall name n idx, In (name, n) kvs -> w_key w s name = Some idx -> ~ In idx seen.
Proof.
  induction kvs as [|[key n0] kvs IH]; intros seen m m' H name n idx Hin Hk; [destruct Hin|].
  cbn [entries] in H. fold (entries un w E s l) in H. destruct Hin as [Heq|Hin].
  - assert (key = name) as -> by congruence. rewrite Hk in H. intros Hs. rewrite (idx_in_true _ _ Hs) in H. discriminate.
  - destruct (w_key w s key) as [idx0|]; [|exact (IH _ _ _ H _ _ _ Hin Hk)].
    destruct (idx_in idx0 seen); [discriminate|]. destruct idx0 as [|i0 idx0]; [discriminate|].
    destruct (field_by_index E m l (TStruct s) (i0 :: idx0)) as [[[m1 l1] t1]|]; [|discriminate].
    destruct (un m1 l1 t1 n0) as [m2|]; [|discriminate].
    pose proof (IH _ _ _ H _ _ _ Hin Hk) as Hn. intros Hs. apply Hn. right. exact Hs.
Qed.

Lemma entries_spec s l : forall kvs, Forall (fun kv => decodes (snd kv)) kvs ->
  forall seen m q m', inv m -> W m q = Some (l, TStruct s) ->
    entries (unmarshal w E) w E s l kvs seen m = Some m' ->
    inv m' /\
    forall p x, W m p = Some x ->
      (forall p1 p2, p = p1 ++ p2 -> ~ entries_say q s kvs p1 SaidNull) ->
      told m m' p (fun y => entries_say q s kvs p (Said y)).
Proof.
  induction 1 as [|[key n] kvs Hn Hkvs IH]; intros seen m q m' Hi Hq H.
  - cbn [entries] in H. injection H as <-. split; [exact Hi|]. intros p x _ _. split; [reflexivity|].
    intros lp k named _. split.
    + intros y (name & n & idx & qi & t & r & [] & _).
    + reflexivity.
  - cbn [snd] in Hn. cbn [entries] in H. fold (entries (unmarshal w E) w E s l) in H.
    destruct (w_key w s key) as [idx|] eqn:Hk.
    2: { destruct (IH _ _ _ _ Hi Hq H) as [A B]. split; [exact A|]. intros p x Hp Hnn.
         assert (Hiff : forall p z, entries_say q s kvs p z <-> entries_say q s ((key, n) :: kvs) p z).
         { intros p' z. split.
           - intros (name & n' & idx & qi & t & r & Hin & H'). exists name, n', idx, qi, t, r.
             split; [right; exact Hin|exact H'].
           - intros (name & n' & idx & qi & t & r & [Heq|Hin] & Hk' & H').
             + exfalso. congruence.
             + exists name, n', idx, qi, t, r. split; [exact Hin|]. split; [exact Hk'|exact H']. }
         apply (told_iff _ _ _ (fun y => entries_say q s kvs p (Said y))); [intros y; apply Hiff|].
         apply (B p x Hp). intros p1 p2 Hpp Hs. apply (Hnn p1 p2 Hpp). apply Hiff. exact Hs. }
    destruct (idx_in idx seen) eqn:Hseen; [discriminate|].
    destruct idx as [|i0 idx0]; [discriminate|]. remember (i0 :: idx0) as idx eqn:Hidx.
    destruct (field_by_index E m l (TStruct s) idx) as [[[m1 l1] t1]|] eqn:Hf; [|discriminate].
    destruct (unmarshal w E m1 l1 t1 n) as [m2|] eqn:Hu; [|discriminate].
    destruct (field_by_index_spec idx m q l (TStruct s) m1 l1 t1 Hi Hq Hf) as (qi & HI & Hi1 & Hg1 & Hq1).
    destruct (Hn m1 (q ++ qi) l1 t1 m2 Hi1 Hq1 Hu) as [Hi2 Hd].
    assert (Hne : qi <> []).
    { intros ->. apply index_path_fields in HI. cbn [fields_of] in HI. congruence. }
    assert (Hq2 : W m2 q = Some (l, TStruct s)).
    { pose proof (grow_walk _ _ _ _ _ Hg1 _ _ Hq) as Hqm1. destruct (Hd q _ Hqm1) as [Hw _].
      - intros p1 p2 r Hp Hp1. exfalso. rewrite Hp1 in Hp. rewrite <- !app_assoc in Hp.
        apply (f_equal (@length step)) in Hp. rewrite !app_length in Hp.
        destruct qi; [contradiction|]. cbn [length] in Hp. lia.
      - rewrite Hw. exact Hqm1. }
    destruct (IH _ _ _ _ Hi2 Hq2 H) as [Hi' Hr]. split; [exact Hi'|]. intros p x Hp Hnn.
    pose proof (grow_told _ _ _ _ Hg1 Hp) as T1.
    pose proof (grow_walk _ _ _ _ _ Hg1 _ _ Hp) as Hp1.
    assert (T2 : told m1 m2 p (fun y => exists r, p = (q ++ qi) ++ r /\ says t1 n r (Said y))).
    { apply (Hd p x Hp1). intros p1 p2 r Hpp Hpr Hs. apply (Hnn p1 p2 Hpp).
      exists key, n, idx, qi, t1, r. split; [left; reflexivity|]. split; [exact Hk|]. split; [exact HI|].
      split; [exact Hs|]. rewrite app_assoc. exact Hpr. }
    assert (Hp2 : W m2 p = Some x) by (rewrite (proj1 T2); exact Hp1).
    assert (T3 : told m2 m' p (fun y => entries_say q s kvs p (Said y))).
    { apply (Hr p x Hp2). intros p1 p2 Hpp (name & n' & idx' & qi' & t' & r & Hin & H').
      apply (Hnn p1 p2 Hpp). exists name, n', idx', qi', t', r. split; [right; exact Hin|exact H']. }
    (* the head entry and the others do not speak about the same variable *)
    assert (Hdis : (exists r, p = (q ++ qi) ++ r) -> forall y, ~ entries_say q s kvs p y).
    { intros [r Hr1] y (name & n' & idx' & qi' & t' & r' & Hin & Hk' & HI' & _ & Hr2).
      assert (Hc : qi ++ r = qi' ++ r').
      { apply (app_inv_head q). rewrite <- Hr2, Hr1, app_assoc. reflexivity. }
      assert (Hname : name = key).
      { destruct (app_prefix _ _ _ _ Hc) as [[r1 Hr3]|[r1 Hr3]].
        - symmetry. apply (Hkeys s key name idx idx' (fields_of r1) Hk Hk').
          apply index_path_fields in HI. apply index_path_fields in HI'.
          rewrite <- HI, <- HI', Hr3. apply fields_of_app.
        - apply (Hkeys s name key idx' idx (fields_of r1) Hk' Hk).
          apply index_path_fields in HI. apply index_path_fields in HI'.
          rewrite <- HI, <- HI', Hr3. apply fields_of_app. }
      subst name. assert (idx' = idx) by congruence. subst idx'.
      apply (entries_seen _ _ _ _ _ _ _ H key n' idx Hin Hk'). left. reflexivity. }
    apply (told_after _ m1); [exact T1|].
    destruct (prefix_dec (q ++ qi) p) as [[r0 Hr0]|Hnp].
    + apply (told_before _ m2).
      * apply (told_iff _ _ _ _ _ (fun y => conj (fun h => h) (fun h => h))) in T2.
        refine (told_iff _ _ _ _ _ _ T2). intros y. split.
        -- intros (r & Hpr & Hs). exists key, n, idx, qi, t1, r. split; [left; reflexivity|].
           split; [exact Hk|]. split; [exact HI|]. split; [exact Hs|]. rewrite app_assoc. exact Hpr.
        -- intros (name & n' & idx' & qi' & t' & r & [Heq|Hin] & Hk' & HI' & Hs & Hpr).
           ++ assert (name = key) by congruence. assert (n' = n) by congruence. subst name n'.
              assert (idx' = idx) by congruence. subst idx'.
              destruct (index_path_fun _ _ _ _ _ HI _ _ HI') as [-> ->].
              exists r. split; [rewrite <- app_assoc; exact Hpr|exact Hs].
           ++ exfalso. apply (Hdis (ex_intro _ r0 Hr0) (Said y)).
              exists name, n', idx', qi', t', r. split; [exact Hin|]. split; [exact Hk'|]. split; [exact HI'|].
              split; [exact Hs|exact Hpr].
      * refine (told_iff _ _ _ _ _ _ T3). intros y. split; [|intros []].
        apply (Hdis (ex_intro _ r0 Hr0)).
    + apply (told_after _ m2).
      * refine (told_iff _ _ _ _ _ _ T2). intros y. split; [|intros []].
        intros (r & Hpr & _). exact (Hnp r Hpr).
      * refine (told_iff _ _ _ _ _ _ T3). intros y. split.
        -- intros (name & n' & idx' & qi' & t' & r & Hin & H'). exists name, n', idx', qi', t', r.
           split; [right; exact Hin|exact H'].
        -- intros (name & n' & idx' & qi' & t' & r & [Heq|Hin] & Hk' & HI' & Hs & Hpr).
           ++ exfalso. assert (name = key) by congruence. subst name.
              assert (idx' = idx) by congruence. subst idx'.
              destruct (index_path_fun _ _ _ _ _ HI _ _ HI') as [-> _].
              apply (Hnp r). rewrite <- app_assoc. exact Hpr.
           ++ exists name, n', idx', qi', t', r. split; [exact Hin|]. split; [exact Hk'|]. split; [exact HI'|].
              split; [exact Hs|exact Hpr].
Qed.

(** Storing a value that is not a pointer at [q]. *)
Lemma store_inv m l c : inv m -> (forall l', c <> CPtr l') -> inv (store m l c).
Proof. intros Hi Hc. apply (inv_less m); [exact Hi|reflexivity|]. apply store_less. exact Hc. Qed.

Lemma store_told m q l t v p (said : string -> Prop) :
  inv m -> W m q = Some (l, t) -> (forall t', t <> TPtr t') ->
  (forall k named s, t = TScalar k named -> p = q -> said s -> w_yscalar w k s = Some v) ->
  (forall s, said s -> p = q) ->
  (p = q -> forall k named, t = TScalar k named -> exists s, said s) ->
  told m (store m l (CVal v)) p said.
Proof.
  intros Hi Hq Ht H1 H2 H3. split; [exact (store_walk m q l t _ p Hi Hq Ht)|].
  intros lp k named Hp. split.
  - intros s Hs. pose proof (H2 s Hs) as ->. assert (t = TScalar k named) as -> by congruence.
    assert (lp = l) as -> by congruence.
    exists v. split; [exact (H1 k named s eq_refl eq_refl Hs)|apply store_same].
  - intros Hns. apply store_other. intros ->.
    pose proof (inv_un _ _ _ _ Hi _ _ _ _ _ Hp Hq) as ->. assert (t = TScalar k named) as -> by congruence.
    destruct (H3 eq_refl k named eq_refl) as [s Hs]. exact (Hns s Hs).
Qed.

Lemma unmarshal_decodes n : decodes n.
Proof.
  induction n as [|s0|kvs IHkvs|ns] using ynode_rect'; intros m q l t m' Hi Hq Hu.
  - cbn [unmarshal] in Hu. destruct t as [k named|s|t|].
    + injection Hu as <-. split; [exact Hi|]. intros p x _ _. split; [reflexivity|]. intros lp k0 named0 _. split.
      * intros s (r & _ & Hs). inversion Hs.
      * reflexivity.
    + injection Hu as <-. split; [exact Hi|]. intros p x _ _. split; [reflexivity|]. intros lp k0 named0 _. split.
      * intros s' (r & _ & Hs). inversion Hs.
      * reflexivity.
    + injection Hu as <-. split; [apply store_inv; [exact Hi|discriminate]|]. intros p x Hp Hnn.
      assert (Hnp : forall r, p <> q ++ r).
      { intros r ->. apply (Hnn q r [] eq_refl); [rewrite app_nil_r; reflexivity|]. constructor. }
      split.
      * apply walk_frame. intros p1 p2 l1 t1 -> Hw. apply store_other. intros ->.
        pose proof (inv_un _ _ _ _ Hi _ _ _ _ _ Hw Hq) as ->. exact (Hnp (SDeref :: p2) eq_refl).
      * intros lp k named Hlp. split.
        -- intros s (r & -> & _). exfalso. exact (Hnp r eq_refl).
        -- intros _. apply store_other. intros ->.
           pose proof (inv_un _ _ _ _ Hi _ _ _ _ _ Hlp Hq) as ->. apply (Hnp []). rewrite app_nil_r. reflexivity.
    + destruct (w_yother w YNull) as [v|]; [|discriminate]. injection Hu as <-.
      split; [apply store_inv; [exact Hi|discriminate]|]. intros p x Hp _.
      apply (store_told m q l TOther v p); [exact Hi|exact Hq|discriminate|discriminate| |discriminate].
      intros s (r & _ & Hs). inversion Hs.
  - cbn [unmarshal] in Hu. destruct (deref m l t) as [[m1 l1] t1] eqn:Hd.
    destruct (deref_spec t m q l m1 l1 t1 Hi Hq Hd) as (ds & Hi1 & Hg1 & Hq1 & Hnp & _ & HS & _).
    destruct t1 as [k named|s|t1|]; try discriminate.
    + destruct (w_yscalar w k s0) as [v|] eqn:Hv; [|discriminate]. injection Hu as <-.
      split; [apply store_inv; [exact Hi1|discriminate]|]. intros p x Hp _.
      apply (told_after _ m1); [exact (grow_told _ _ _ _ Hg1 Hp)|].
      assert (Hsay : forall y, (exists r, p = q ++ r /\ says t (YScalar s0) r (Said y)) <-> p = q ++ ds /\ y = s0).
      { intros y. split.
        - intros (r & Hpr & Hs). apply HS in Hs; [|discriminate]. destruct Hs as (p' & -> & Hs). inversion Hs; subst.
          split; [rewrite app_nil_r; reflexivity|reflexivity].
        - intros [-> ->]. exists ds. split; [reflexivity|]. apply HS; [discriminate|]. exists [].
          split; [rewrite app_nil_r; reflexivity|constructor]. }
      apply (store_told m1 (q ++ ds) l1 (TScalar k named) v p); [exact Hi1|exact Hq1|discriminate| | |].
      * intros k' named' y Ht _ Hy. apply Hsay in Hy. destruct Hy as [_ ->]. congruence.
      * intros y Hy. apply Hsay in Hy. exact (proj1 Hy).
      * intros Hpq k' named' _. exists s0. apply Hsay. split; [exact Hpq|reflexivity].
    + destruct (w_yother w (YScalar s0)) as [v|]; [|discriminate]. injection Hu as <-.
      split; [apply store_inv; [exact Hi1|discriminate]|]. intros p x Hp _.
      apply (told_after _ m1); [exact (grow_told _ _ _ _ Hg1 Hp)|].
      apply (store_told m1 (q ++ ds) l1 TOther v p); [exact Hi1|exact Hq1|discriminate|discriminate| |discriminate].
      intros y (r & _ & Hs). apply HS in Hs; [|discriminate]. destruct Hs as (p' & _ & Hs). inversion Hs.
  - cbn [unmarshal] in Hu. destruct (deref m l t) as [[m1 l1] t1] eqn:Hd.
    destruct (deref_spec t m q l m1 l1 t1 Hi Hq Hd) as (ds & Hi1 & Hg1 & Hq1 & Hnp & _ & HS & _).
    destruct t1 as [k named|s|t1|]; try discriminate.
    + destruct (entries_spec s l1 kvs IHkvs [] m1 (q ++ ds) m' Hi1 Hq1 Hu) as [Hi' He].
      split; [exact Hi'|]. intros p x Hp Hnn.
      apply (told_after _ m1); [exact (grow_told _ _ _ _ Hg1 Hp)|].
      assert (Hsay : forall p y, (exists r, p = q ++ r /\ says t (YMap kvs) r y) <-> entries_say (q ++ ds) s kvs p y).
      { intros p' y. split.
        - intros (r & -> & Hs). apply HS in Hs; [|discriminate]. destruct Hs as (r' & -> & Hs).
          inversion Hs as [| | |s' kvs' name n' idx qi t' r1 x' Hin Hk HI Hs']; subst.
          exists name, n', idx, qi, t', r1. repeat (split; [assumption|]). rewrite <- !app_assoc. reflexivity.
        - intros (name & n' & idx & qi & t' & r & Hin & Hk & HI & Hs & ->).
          exists (ds ++ qi ++ r). split; [rewrite <- !app_assoc; reflexivity|]. apply HS; [discriminate|].
          exists (qi ++ r). split; [reflexivity|]. apply (says_entry _ _ s kvs name n' idx qi t'); assumption. }
      refine (told_iff _ _ _ _ _ _ (He p x (grow_walk _ _ _ _ _ Hg1 _ _ Hp) _)).
      * intros y. symmetry. apply Hsay.
      * intros p1 p2 Hpp Hs. apply Hsay in Hs. destruct Hs as (r & Hr & Hs). exact (Hnn p1 p2 r Hpp Hr Hs).
    + destruct (w_yother w (YMap kvs)) as [v|]; [|discriminate]. injection Hu as <-.
      split; [apply store_inv; [exact Hi1|discriminate]|]. intros p x Hp _.
      apply (told_after _ m1); [exact (grow_told _ _ _ _ Hg1 Hp)|].
      apply (store_told m1 (q ++ ds) l1 TOther v p); [exact Hi1|exact Hq1|discriminate|discriminate| |discriminate].
      intros y (r & _ & Hs). apply HS in Hs; [|discriminate]. destruct Hs as (p' & _ & Hs). inversion Hs.
  - cbn [unmarshal] in Hu. destruct (deref m l t) as [[m1 l1] t1] eqn:Hd.
    destruct (deref_spec t m q l m1 l1 t1 Hi Hq Hd) as (ds & Hi1 & Hg1 & Hq1 & Hnp & _ & HS & _).
    destruct t1 as [k named|s|t1|]; try discriminate.
    destruct (w_yother w (YSeq ns)) as [v|]; [|discriminate]. injection Hu as <-.
    split; [apply store_inv; [exact Hi1|discriminate]|]. intros p x Hp _.
    apply (told_after _ m1); [exact (grow_told _ _ _ _ Hg1 Hp)|].
    apply (store_told m1 (q ++ ds) l1 TOther v p); [exact Hi1|exact Hq1|discriminate|discriminate| |discriminate].
    intros y (r & _ & Hs). apply HS in Hs; [|discriminate]. destruct Hs as (p' & _ & Hs). inversion Hs.
Qed.

End Yaml.
