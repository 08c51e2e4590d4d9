(** Proofs about the keys of config files. *)
From Verif Require Import Common Bytes ConfNamesModel ConfNamesSpec ConfNamesProofs ConfsModel ConfsSpec ConfsProofs ConfLoadModel ConfLoadSpec ConfLoadYaml FlagValueProofs YamlKeyModel YamlKeySpec.
Local Open Scope string_scope.
Local Open Scope list_scope.

Lemma lower_name_eq s : lower_name s = to_lower s.
Proof.
  unfold to_lower. induction s as [|c s IH]; [reflexivity|]. cbn [lower_name smap_chars]. rewrite IH. f_equal. apply Ascii.eqb_eq.
  apply (all_ascii (fun c => Ascii.eqb (lower_ascii c) (translate uppers lowers c))). vm_compute. reflexivity.
Qed.
Lemma parts_iff t name flags : tag_parts t name flags <-> split "," t = name :: flags.
Proof.
  rewrite <- cuts_split. unfold tag_parts, cuts. split.
  - intros (E & N & F). split; [discriminate|]. split; [exact E|]. rewrite Forall_forall in F. intros p [<-|H]; [exact N|now apply F].
  - intros (_ & E & F). split; [exact E|]. split; [apply F; now left|]. apply Forall_forall. intros x H. apply F. now right.
Qed.
Lemma split_some c s : exists a l, split c s = a :: l.
Proof. destruct s as [|x s]; cbn [split]; [eauto|]. destruct (Ascii.eqb x c); [eauto|]. destruct (split c s); eauto. Qed.
Lemma leads_base t s : leads t s <-> base t = Some s.
Proof. split; [induction 1; cbn; auto|]. induction t; cbn [base]; try discriminate; [intros H; injection H as <-; constructor|intros H; constructor; auto]. Qed.

Lemma find_key_in l n idx : find_key l n = Some idx -> In (n, idx) l.
Proof. induction l as [|[k i] l IH]; [discriminate|]. cbn [find_key]. destruct (String.eqb_spec k n) as [->|]; [intros H; injection H as ->; now left|intros H; right; auto]. Qed.
Lemma find_key_none l n : find_key l n = None <-> ~ In n (map fst l).
Proof.
  induction l as [|[k i] l IH]; cbn [find_key map fst In]; [tauto|]. destruct (String.eqb_spec k n) as [->|N]; [split; [discriminate|tauto]|]. rewrite IH. tauto.
Qed.
Lemma find_key_nodup l n idx : NoDup (map fst l) -> In (n, idx) l -> find_key l n = Some idx.
Proof.
  induction l as [|[k i] l IH]; [intros _ []|]. cbn [map fst find_key]. intros N [H|H].
  - injection H as -> ->. now rewrite String.eqb_refl.
  - inversion N as [|? ? N1 N2]; subst. destruct (String.eqb_spec k n) as [->|]; [|auto]. exfalso. apply N1. apply in_map_iff. exists (n, idx). now split.
Qed.
Lemma nodup_snoc {A} (l : list A) x : NoDup l -> ~ In x l -> NoDup (l ++ [x]).
Proof. intros H N. apply NoDup_rev in H. rewrite <- (rev_involutive (l ++ [x])). apply NoDup_rev. rewrite rev_app_distr. cbn. constructor; [now rewrite <- in_rev|exact H]. Qed.
Lemma add_keys_some new : forall acc r, NoDup (map fst acc) -> add_keys acc new = Some r -> r = acc ++ new /\ NoDup (map fst r).
Proof.
  induction new as [|[k idx] new IH]; intros acc r N; cbn [add_keys]; [intros H; injection H as <-; now rewrite app_nil_r|].
  destruct (find_key acc k) eqn:F; [discriminate|]. intros H. apply find_key_none in F. apply IH in H.
  - rewrite <- app_assoc in H. exact H.
  - rewrite map_app. now apply nodup_snoc.
Qed.
Definition key_dec : forall a b : string * list nat, {a = b} + {a <> b}.
Proof. repeat decide equality. Defined.
Lemma add_keys_none new : forall acc, NoDup (map fst new) -> add_keys acc new = None -> exists k i1 i2, In (k, i1) acc /\ In (k, i2) new.
Proof.
  intros acc N. assert (G : forall new' acc', add_keys acc' new' = None -> incl new' new -> NoDup (map fst new') -> (forall k i, In (k, i) acc' -> ~ In (k, i) acc -> In k (map fst new) /\ ~ In k (map fst new')) ->
    exists k i1 i2, In (k, i1) acc /\ In (k, i2) new).
  { induction new' as [|[k idx] new' IH]; intros acc' H I N' A; cbn [add_keys] in H; [discriminate|]. destruct (find_key acc' k) as [i|] eqn:F.
    - apply find_key_in in F. destruct (in_dec key_dec (k, i) acc) as [Y|Y].
      + exists k, i, idx. split; [exact Y|]. apply I. now left.
      + exfalso. apply (proj2 (A k i F Y)). now left.
    - cbn [map fst] in N'. inversion N' as [|? ? N1 N2]; subst. apply (IH _ H); [intros x Hx; apply I; now right|exact N2|].
      intros k' i' Hin Hn. apply in_app_or in Hin. destruct Hin as [Hin|[Hin|[]]].
      + destruct (A k' i' Hin Hn) as [A1 A2]. split; [exact A1|]. intros K. apply A2. now right.
      + injection Hin as <- <-. split; [|exact N1]. apply in_map_iff. exists (k, idx). split; [reflexivity|]. apply I. now left. }
  intros H. apply (G new acc H); [apply incl_refl|exact N|]. intros k i H1 H2. contradiction.
Qed.

(** * The keys of a struct *)

Section Fields.
  Variables (tags : ytags) (E : tenv) (sub : nat -> info).
  Definition right_info (s : nat) (r : info) : Prop :=
    match r with
    | Info l => NoDup (map fst l) /\ (forall k idx, In (k, idx) l <-> keyed tags E s k idx) /\ ~ wrong tags E s
    | Bad => wrong tags E s
    | Deep => True
    end.
  Hypothesis Sub : forall s, right_info s (sub s).

  (** What is wrong with field [j] alone. *)
  Definition field_wrong (s j : nat) : Prop :=
    exists f name flags, counts tags E s j f /\ tag_parts (tags s j) name flags /\
      ((exists x, In x flags /\ ~ In x ["omitempty"; "flow"; "inline"]) \/
       (In "inline" flags /\ ((forall s', ~ leads (fty f) s') \/ exists s', leads (fty f) s' /\ wrong tags E s'))).
  Definition state (s i : nat) (acc : keyed_list) : Prop :=
    NoDup (map fst acc) /\ (forall k idx, In (k, idx) acc <-> keyed tags E s k idx /\ exists j r, idx = j :: r /\ (j < i)%nat) /\
    forall j, (j < i)%nat -> ~ field_wrong s j.

  Lemma keyed_head s k idx : keyed tags E s k idx -> exists j r f, idx = j :: r /\ counts tags E s j f.
  Proof. intros [s0 i f name flags C _ _|s0 i f name flags s' k0 idx0 C _ _ _ _]; eauto 6. Qed.
  Lemma keyed_at s k j r f name flags : keyed tags E s k (j :: r) -> counts tags E s j f -> tag_parts (tags s j) name flags ->
    (~ In "inline" flags /\ r = [] /\ k = (if (name =? "")%string then to_lower (fname f) else name)) \/
    (In "inline" flags /\ exists s', leads (fty f) s' /\ keyed tags E s' k r).
  Proof.
    intros K C P. inversion K as [s0 i0 f0 name0 flags0 C0 P0 N0|s0 i0 f0 name0 flags0 s' k0 idx0 C0 P0 I0 L0 K0]; subst.
    - assert (f0 = f) as -> by (destruct C0 as [C0 _], C as [C _]; congruence).
      apply parts_iff in P, P0. rewrite P0 in P. injection P as -> ->. left. tauto.
    - assert (f0 = f) as -> by (destruct C0 as [C0 _], C as [C _]; congruence).
      apply parts_iff in P, P0. rewrite P0 in P. injection P as -> ->. right. split; [exact I0|]. exists s'. tauto.
  Qed.
  Lemma skip_state s i acc f : nth_error (E s) i = Some f -> ~ counts tags E s i f -> state s i acc -> state s (S i) acc.
  Proof.
    intros Hf Nc (N & A & W). split; [exact N|]. split.
    - intros k idx. rewrite A. split; intros (K & j & r & -> & L); (split; [exact K|]); exists j, r; (split; [reflexivity|]); [lia|].
      destruct (Nat.eq_dec j i) as [->|]; [|lia]. exfalso. destruct (keyed_head _ _ _ K) as (j & r' & f' & Ej & C). injection Ej as <- <-. pose proof C as [C1 _]. assert (f' = f) by congruence. subst. contradiction.
    - intros j L. destruct (Nat.eq_dec j i) as [->|]; [|apply W; lia]. intros (f' & name & flags & C & _). pose proof C as [C1 _]. assert (f' = f) by congruence. subst. contradiction.
  Qed.
  Lemma wrong_field s j : field_wrong s j -> wrong tags E s.
  Proof.
    intros (f & name & flags & C & P & [(x & Hx & Nx)|(Hi & [Hn|(s' & L & Wr)])]).
    - eapply wrong_flag; eassumption.
    - eapply wrong_inline; eassumption.
    - eapply wrong_below; eassumption.
  Qed.
  Lemma state_right s acc i : state s i acc -> (List.length (E s) <= i)%nat -> right_info s (Info acc).
  Proof.
    intros (N & A & W) L. assert (B : forall j f, counts tags E s j f -> (j < i)%nat).
    { intros j f [C _]. assert (nth_error (E s) j <> None) as H by congruence. apply nth_error_Some in H. lia. }
    cbn [right_info]. assert (A' : forall k idx, In (k, idx) acc <-> keyed tags E s k idx).
    { intros k idx. rewrite A. split; [tauto|]. intros K. split; [exact K|]. destruct (keyed_head _ _ _ K) as (j & r & f & -> & C). exists j, r. split; [reflexivity|now apply (B j f)]. }
    split; [exact N|]. split; [exact A'|]. intros Wr. inversion Wr as [s0 k i1 i2 K1 K2 Ne|s0 j f name flags x C P Hx Nx|s0 j f name flags C P Hi Hn|s0 j f name flags s' C P Hi Hl Hw]; subst.
    - apply A' in K1, K2. apply (find_key_nodup _ _ _ N) in K1, K2. congruence.
    - apply (W j (B j f C)). exists f, name, flags. split; [exact C|]. split; [exact P|]. left. now exists x.
    - apply (W j (B j f C)). exists f, name, flags. split; [exact C|]. split; [exact P|]. right. tauto.
    - apply (W j (B j f C)). exists f, name, flags. split; [exact C|]. split; [exact P|]. right. split; [exact Hi|]. right. now exists s'.
  Qed.
  Lemma fields_right s fs : forall i acc pre, E s = pre ++ fs -> List.length pre = i -> state s i acc -> right_info s (fields_info sub (tags s) i fs acc).
  Proof.
    induction fs as [|f fs IH]; intros i acc pre Ep Hl St.
    - cbn [fields_info]. apply (state_right s acc i St). rewrite Ep, app_nil_r. lia.
    - assert (Hf : nth_error (E s) i = Some f) by (rewrite Ep, nth_error_app2, Hl, Nat.sub_diag by lia; reflexivity).
      assert (Nx : forall acc', state s (S i) acc' -> right_info s (fields_info sub (tags s) (S i) fs acc')).
      { intros acc' St'. apply (IH (S i) acc' (pre ++ [f])); [rewrite Ep, <- app_assoc; reflexivity|rewrite app_length; cbn; lia|exact St']. }
      cbn [fields_info]. destruct (negb (fexp f) && negb (fanon f)) eqn:Ex.
      { apply Nx. apply (skip_state s i acc f Hf); [|exact St]. intros (_ & [H|H] & _); rewrite H in Ex; cbn in Ex; [discriminate|]. rewrite andb_false_r in Ex. discriminate. }
      destruct (String.eqb_spec (tags s i) "-") as [Td|Td].
      { apply Nx. apply (skip_state s i acc f Hf); [|exact St]. intros (_ & _ & H). contradiction. }
      assert (C : counts tags E s i f) by (split; [exact Hf|split; [destruct (fexp f); [now left|right; now destruct (fanon f)]|exact Td]]).
      destruct (split_some "," (tags s i)) as (name & flags & Sp). pose proof (proj2 (parts_iff _ _ _) Sp) as P. cbv zeta. rewrite Sp. cbn [hd tl].
      destruct St as (N & A & W).
      assert (New : forall new acc', (forall k idx, In (k, idx) new <-> exists r, idx = i :: r /\ keyed tags E s k (i :: r)) -> ~ field_wrong s i -> add_keys acc new = Some acc' -> state s (S i) acc').
      { intros new acc' Hn Hw Ad. destruct (add_keys_some new acc acc' N Ad) as [-> N']. split; [exact N'|]. split.
        - intros k idx. rewrite in_app_iff, A, Hn. split.
          + intros [(K & j & r & -> & L)|(r & -> & K)]; (split; [exact K|]); eexists; eexists; (split; [reflexivity|lia]).
          + intros (K & j & r & -> & L). destruct (Nat.eq_dec j i) as [->|]; [right; exists r; tauto|left; split; [exact K|]; exists j, r; split; [reflexivity|lia]].
        - intros j L. destruct (Nat.eq_dec j i) as [->|]; [exact Hw|apply W; lia]. }
      assert (Dup : forall new, NoDup (map fst new) -> (forall k idx, In (k, idx) new <-> exists r, idx = i :: r /\ keyed tags E s k (i :: r)) -> add_keys acc new = None -> wrong tags E s).
      { intros new Nn Hn Ad. destruct (add_keys_none new acc Nn Ad) as (k & i1 & i2 & H1 & H2). apply A in H1. destruct H1 as (K1 & j & r & -> & L). apply Hn in H2. destruct H2 as (r2 & -> & K2).
        apply (wrong_twice tags E s k _ _ K1 K2). intros H. injection H as -> _. lia. }
      destruct (forallb (fun x => existsb (String.eqb x) tag_flags) flags) eqn:Fl; cbn [negb].
      2: { cbn [right_info]. assert (X : exists x, In x flags /\ ~ In x tag_flags).
           { clear -Fl. induction flags as [|x l IH]; [discriminate|]. cbn [forallb] in Fl. apply andb_false_iff in Fl. destruct Fl as [Fl|Fl].
             - exists x. split; [now left|]. intros H. apply not_true_iff_false in Fl. apply Fl. apply existsb_exists. exists x. split; [exact H|apply String.eqb_refl].
             - destruct (IH Fl) as (y & H1 & H2). exists y. split; [now right|exact H2]. }
           destruct X as (x & X1 & X2). exact (wrong_flag tags E s i f name flags x C P X1 X2). }
      assert (Kn : forall x, In x flags -> In x ["omitempty"; "flow"; "inline"]).
      { intros x Hx. rewrite forallb_forall in Fl. specialize (Fl x Hx). apply existsb_exists in Fl. destruct Fl as (y & Hy & Ey). apply String.eqb_eq in Ey. subst. exact Hy. }
      destruct (existsb (String.eqb "inline") flags) eqn:Il.
      + assert (Hi : In "inline" flags) by (apply existsb_exists in Il; destruct Il as (y & Hy & Ey); apply String.eqb_eq in Ey; now subst).
        destruct (base (fty f)) as [s'|] eqn:B.
        2: { cbn [right_info]. apply (wrong_inline tags E s i f name flags C P Hi). intros s' L. apply leads_base in L. congruence. }
        pose proof (proj2 (leads_base _ _) B) as L. pose proof (Sub s') as Hs. destruct (sub s') as [l| |]; cbn [right_info] in Hs |- *.
        * destruct Hs as (Nl & Al & Wl).
          assert (Hn : forall k idx, In (k, idx) (map (fun x => (fst x, i :: snd x)) l) <-> exists r, idx = i :: r /\ keyed tags E s k (i :: r)).
          { intros k idx. rewrite in_map_iff. split.
            - intros ([k0 r] & Ek & Hin). cbn [fst snd] in Ek. injection Ek as <- <-. exists r. split; [reflexivity|]. apply Al in Hin. eapply keyed_inline; eassumption.
            - intros (r & -> & K). destruct (keyed_at _ _ _ _ _ _ _ K C P) as [(Hn & _)|(_ & s2 & L2 & K2)]; [contradiction|].
              apply leads_base in L2. assert (s2 = s') as -> by congruence. exists (k, r). split; [reflexivity|now apply Al]. }
          assert (Hw : ~ field_wrong s i).
          { intros (f' & name' & flags' & C' & P' & H). assert (f' = f) as -> by (destruct C' as [C' _]; congruence). apply parts_iff in P'. rewrite Sp in P'. injection P' as <- <-.
            destruct H as [(x & Hx & Nxx)|(_ & [H|(s2 & L2 & W2)])]; [now apply Nxx, Kn|now apply (H s')|]. apply leads_base in L2. assert (s2 = s') as -> by congruence. contradiction. }
          destruct (add_keys acc (map (fun x => (fst x, i :: snd x)) l)) as [acc'|] eqn:Ad; [apply Nx; now apply (New _ _ Hn Hw)|].
          cbn [right_info]. apply (Dup (map (fun x => (fst x, i :: snd x)) l)); [rewrite map_map; cbn [fst]; exact Nl|exact Hn|exact Ad].
        * eapply wrong_below; eassumption.
        * exact I.
      + assert (Hi : ~ In "inline" flags) by (intros H; apply not_true_iff_false in Il; apply Il; apply existsb_exists; exists "inline"; split; [exact H|apply String.eqb_refl]).
        rewrite lower_name_eq. set (key := if (name =? "")%string then to_lower (fname f) else name).
        assert (Hn : forall k idx, In (k, idx) [(key, [i])] <-> exists r, idx = i :: r /\ keyed tags E s k (i :: r)).
        { intros k idx. cbn [In]. split.
          - intros [H|[]]. injection H as <- <-. exists []. split; [reflexivity|]. eapply keyed_own; eassumption.
          - intros (r & -> & K). destruct (keyed_at _ _ _ _ _ _ _ K C P) as [(_ & -> & ->)|(H & _)]; [now left|contradiction]. }
        assert (Hw : ~ field_wrong s i).
        { intros (f' & name' & flags' & C' & P' & H). apply parts_iff in P'. rewrite Sp in P'. injection P' as <- <-. destruct H as [(x & Hx & Nxx)|(H & _)]; [now apply Nxx, Kn|contradiction]. }
        destruct (add_keys acc [(key, [i])]) as [acc'|] eqn:Ad; [apply Nx; now apply (New _ _ Hn Hw)|].
        cbn [right_info]. apply (Dup [(key, [i])]); [repeat constructor; intros []|exact Hn|exact Ad].
  Qed.
End Fields.

Lemma info_right fuel tags E : forall s, right_info tags E s (struct_info fuel tags E s).
Proof.
  induction fuel as [|n IH]; intros s; [exact I|]. cbn [struct_info]. apply (fields_right tags E _ IH s (E s) 0 [] []); [reflexivity|reflexivity|].
  split; [constructor|]. split; [|intros j L; lia]. intros k idx. cbn [In]. split; [intros []|]. intros (_ & j & r & _ & L). lia.
Qed.
Lemma key_iff fuel tags E s l : struct_info fuel tags E s = Info l -> forall n idx, yaml_key fuel tags E s n = Some idx <-> keyed tags E s n idx.
Proof.
  intros H n idx. pose proof (info_right fuel tags E s) as R. unfold yaml_key. rewrite H in *. destruct R as (N & A & _). rewrite <- A. split; [apply find_key_in|now apply find_key_nodup].
Qed.
Lemma key_only fuel tags E s n idx : yaml_key fuel tags E s n = Some idx -> keyed tags E s n idx.
Proof. intros H. destruct (struct_info fuel tags E s) as [l| |] eqn:I; [now apply (key_iff fuel tags E s l I)| |]; unfold yaml_key in H; rewrite I in H; discriminate. Qed.

Lemma keyed_prefix tags E s n1 i1 : keyed tags E s n1 i1 -> forall n2 r, keyed tags E s n2 (i1 ++ r) -> n1 = n2 /\ r = [].
Proof.
  induction 1 as [s i f name flags C P N|s i f name flags s' k idx C P I L K IH]; intros n2 r K2; cbn [Datatypes.app] in K2.
  - destruct (keyed_at _ _ _ _ _ _ _ _ _ K2 C P) as [(_ & -> & ->)|(H & _)]; [split; reflexivity|contradiction].
  - destruct (keyed_at _ _ _ _ _ _ _ _ _ K2 C P) as [(H & _)|(_ & s2 & L2 & K3)]; [contradiction|]. apply leads_base in L, L2. assert (s2 = s') as -> by congruence. now apply IH.
Qed.
Lemma keys_are_ok fuel tags E : keys_ok (yaml_key fuel tags E).
Proof. intros s n1 n2 i1 i2 r H1 H2 ->. apply key_only in H1, H2. now apply (keyed_prefix tags E s n1 i1 H1 n2 r). Qed.

(** * Documents *)

Lemma entry_not_null n ks v : entry n ks v -> n <> YNull.
Proof. intros []; discriminate. Qed.
Lemma says_through key E t q t' n p x : through t q t' -> n <> YNull -> says key E t' n p x -> says key E t n (q ++ p) x.
Proof. intros [t0|t0] N S; cbn [Datatypes.app]; [exact S|]. now apply says_ptr. Qed.
Lemma path_says fuel tags E s ks p : (forall s', exists l, struct_info fuel tags E s' = Info l) -> key_path tags E s ks p ->
  forall doc v, entry doc ks v -> says (yaml_key fuel tags E) E (TStruct s) doc p (Said v).
Proof.
  intros Hi. induction 1 as [s key idx q t q2 k named K I T|s key idx q t q2 s' ks p K I T Kp IH]; intros doc v En;
    inversion En as [|kvs k0 n ks0 v0 Hin En']; subst; destruct (Hi s) as (l & Hl); pose proof (proj2 (key_iff fuel tags E s l Hl key idx) K) as Ky; eapply says_entry; try eassumption.
  - inversion En'; subst. rewrite <- (app_nil_r q2). apply (says_through _ _ _ _ _ _ _ _ T); [discriminate|constructor].
  - apply (says_through _ _ _ _ _ _ _ _ T); [eapply entry_not_null, En'|now apply IH].
Qed.

(** * The convention *)

Lemma through_leads t q s : through t q (TStruct s) -> leads t s.
Proof. intros H. inversion H; subst; [constructor|constructor; constructor]. Qed.
Lemma index_through E t q s' i idx p t' : through t q (TStruct s') -> index_path E (TStruct s') (i :: idx) p t' -> index_path E t (i :: idx) (q ++ p) t'.
Proof. intros H. inversion H; subst; cbn [Datatypes.app]; [trivial|]. intros I. now apply index_ptr. Qed.
Lemma path_inline tags E s i f name flags q s' ks p : counts tags E s i f -> tag_parts (tags s i) name flags -> In "inline" flags -> through (fty f) q (TStruct s') ->
  key_path tags E s' ks p -> key_path tags E s ks (SField i :: q ++ p).
Proof.
  intros C P Hi T K. assert (G : forall key idx q0 t, keyed tags E s' key idx -> index_path E (TStruct s') idx q0 t -> keyed tags E s key (i :: idx) /\ index_path E (TStruct s) (i :: idx) (SField i :: q ++ q0) t).
  { intros key idx q0 t Ky Ip. split; [eapply keyed_inline; try eassumption; now apply through_leads in T|]. destruct (keyed_head _ _ _ _ _ Ky) as (j & r & f' & -> & _).
    destruct C as (C1 & C2 & _). eapply index_field; [exact C1|exact C2|]. now apply (index_through _ _ _ s'). }
  inversion K as [s0 key idx q0 t q2 k named Ky Ip T2|s0 key idx q0 t q2 s2 ks0 p0 Ky Ip T2 Kp]; subst; destruct (G _ _ _ _ Ky Ip) as [G1 G2].
  - replace (SField i :: q ++ q0 ++ q2) with ((SField i :: q ++ q0) ++ q2) by (cbn [Datatypes.app]; now rewrite <- app_assoc). eapply key_here; eassumption.
  - replace (SField i :: q ++ q0 ++ q2 ++ p0) with ((SField i :: q ++ q0) ++ q2 ++ p0) by (cbn [Datatypes.app]; now rewrite <- app_assoc). eapply key_below; eassumption.
Qed.
Lemma visible_path tags E s names p k named : conventional tags E -> visible E s names p k named -> key_path tags E s (map to_lower names) p.
Proof.
  intros Cv. induction 1 as [s i f q k named Hf Hx T|s i f q s' names p k named Hf Hx T V IH]; pose proof (Cv s i f Hf) as H; unfold own_name; destruct (fanon f) eqn:An.
  - destruct H as (_ & q' & s' & T'). exfalso. inversion T; subst; inversion T'; subst; congruence.
  - assert (C : counts tags E s i f) by (split; [exact Hf|split; [now left|rewrite H; discriminate]]).
    assert (P : tag_parts (tags s i) "" []) by (rewrite H; now apply parts_iff). cbn [map]. change (SField i :: q) with ([SField i] ++ q).
    apply (key_here tags E s (to_lower (fname f)) [i] [SField i] (fty f) q k named); [apply (keyed_own tags E s i f "" [] C P); intros []| |exact T].
    eapply index_field; [exact Hf|now left|constructor].
  - destruct H as (Tg & _). cbn [Datatypes.app]. assert (C : counts tags E s i f) by (split; [exact Hf|split; [now left|rewrite Tg; discriminate]]).
    assert (P : tag_parts (tags s i) "" ["inline"]) by (rewrite Tg; now apply parts_iff). apply (path_inline tags E s i f "" ["inline"] q s'); [exact C|exact P|now left|exact T|exact IH].
  - assert (C : counts tags E s i f) by (split; [exact Hf|split; [now left|rewrite H; discriminate]]).
    assert (P : tag_parts (tags s i) "" []) by (rewrite H; now apply parts_iff). cbn [map Datatypes.app]. change (SField i :: q ++ p) with ([SField i] ++ q ++ p).
    apply (key_below tags E s (to_lower (fname f)) [i] [SField i] (fty f) q s'); [apply (keyed_own tags E s i f "" [] C P); intros []| |exact T|exact IH].
    eapply index_field; [exact Hf|now left|constructor].
Qed.

(** * What a document says *)

Lemma said_through key E t q t' n p v : through t q t' -> (forall t2, t' <> TPtr t2) -> says key E t n (q ++ p) (Said v) -> says key E t' n p (Said v).
Proof.
  intros [t0|t0] Np S; cbn [Datatypes.app] in S; [exact S|]. inversion S as [| |t1 n1 p1 x1 N1 S1|]; subst. exact S1.
Qed.
Lemma leads_through t q s' s2 : through t q (TStruct s') -> leads t s2 -> s2 = s'.
Proof. intros T L. apply through_leads in T. apply leads_base in T, L. congruence. Qed.
Lemma index_inside E t q s' j r q0 t0 : through t q (TStruct s') -> index_path E t (j :: r) q0 t0 -> exists q1, q0 = q ++ q1 /\ index_path E (TStruct s') (j :: r) q1 t0.
Proof.
  intros T I. inversion T; subst; cbn [Datatypes.app]; [exists q0; now split|]. inversion I as [|t1 i1 idx1 p1 t1' I1|]; subst. exists p1. now split.
Qed.
Lemma says_path fuel tags E : (forall s', exists l, struct_info fuel tags E s' = Info l) -> forall s names p k named, visible E s names p k named ->
  forall doc v, says (yaml_key fuel tags E) E (TStruct s) doc p (Said v) ->
  exists ks, key_path tags E s ks p /\ entry doc ks v /\ (conventional tags E -> ks = map to_lower names).
Proof.
  intros Hi. induction 1 as [s i f q k named Hf Hx T|s i f q s' names p k named Hf Hx T V IH]; intros doc v S;
    inversion S as [| | |s0 kvs name n idx q0 t p0 x0 Hin Hk Hp Hs Es En Ep]; subst; pose proof (key_only _ _ _ _ _ _ Hk) as K; destruct (keyed_head _ _ _ _ _ K) as (j & r & f' & -> & C);
    inversion Hp as [| |s1 i1 f1 idx1 p1 t1 Hf1 Hx1 Hp1]; subst; cbn [Datatypes.app] in Ep; injection Ep as Ej Ep; subst j;
    (assert (f1 = f) by congruence; subst f1; assert (f' = f) by (destruct C as [C _]; congruence); subst f');
    destruct (split_some "," (tags s i)) as (nm & flags & Sp); pose proof (proj2 (parts_iff _ _ _) Sp) as P;
    destruct (keyed_at _ _ _ _ _ _ _ _ _ K C P) as [(Ni & -> & Ek)|(Hin' & s2 & L2 & K2)].
  - apply (fun h => conj h I) in Ek. inversion Hp1; subst. cbn [Datatypes.app] in *. rewrite <- (app_nil_r p0) in Hs. apply (said_through _ _ _ _ _ _ _ _ T) in Hs; [|intros t2; discriminate]. inversion Hs; subst n.
    exists [name]. split; [|split].
    + change (SField i :: p0) with ([SField i] ++ p0). eapply key_here; [exact K|exact Hp|exact T].
    + subst s0. eapply entry_below; [exact Hin|constructor].
    + intros Cv. specialize (Cv s i f Hf). unfold own_name. destruct (fanon f).
      * destruct Cv as (_ & q' & s' & T'). exfalso. inversion T; subst; inversion T'; subst; congruence.
      * rewrite Cv in Sp. injection Sp as <- <-. cbn [map]. now rewrite (proj1 Ek).
  - exfalso. apply leads_base in L2. clear -T L2. generalize dependent (fty f). intros t0 T L2. inversion T; subst; cbn in L2; discriminate.
  - apply (fun h => conj h I) in Ek. inversion Hp1; subst. cbn [Datatypes.app] in *. subst p0. apply (said_through _ _ _ _ _ _ _ _ T) in Hs; [|intros t2; discriminate].
    destruct (IH n v Hs) as (ks & Kp & En & Cn). exists (name :: ks). split; [|split].
    + change (SField i :: q ++ p) with ([SField i] ++ q ++ p). eapply key_below; [exact K|exact Hp|exact T|exact Kp].
    + eapply entry_below; eassumption.
    + intros Cv. rewrite (Cn Cv). specialize (Cv s i f Hf). unfold own_name. destruct (fanon f).
      * destruct Cv as (Tg & _). rewrite Tg in Sp. injection Sp as <- <-. exfalso. apply Ni. now left.
      * rewrite Cv in Sp. injection Sp as <- <-. cbn [map Datatypes.app]. now rewrite (proj1 Ek).
  - pose proof (leads_through _ _ _ _ T L2) as ->. destruct (keyed_head _ _ _ _ _ K2) as (j & r' & f2 & -> & _).
    destruct (index_inside _ _ _ _ _ _ _ _ T Hp1) as (q1 & -> & Hp2). rewrite <- app_assoc in Ep. apply app_inv_head in Ep. subst p.
    destruct (Hi s') as (l & Hl). pose proof (proj2 (key_iff fuel tags E s' l Hl name _) K2) as Ky.
    destruct (IH (YMap kvs) v) as (ks & Kp & En & Cn); [eapply says_entry; eassumption|]. exists ks. split; [|split].
    + cbn [Datatypes.app]. rewrite <- app_assoc. exact (path_inline tags E s i f nm flags q s' ks (q1 ++ p0) C P Hin' T Kp).
    + exact En.
    + intros Cv. rewrite (Cn Cv). specialize (Cv s i f Hf). unfold own_name. destruct (fanon f); [reflexivity|]. rewrite Cv in Sp. injection Sp as <- <-. destruct Hin'.
Qed.

(** * The recursion ends *)

Lemma fields_more (sub1 sub2 : nat -> info) tag fs : forall i acc, (forall s, sub1 s <> Deep -> sub2 s = sub1 s) ->
  fields_info sub1 tag i fs acc <> Deep -> fields_info sub2 tag i fs acc = fields_info sub1 tag i fs acc.
Proof.
  induction fs as [|f fs IH]; intros i acc Hs N; [reflexivity|]. cbn [fields_info] in *. cbv zeta in *.
  destruct (negb (fexp f) && negb (fanon f)); [now apply IH|]. destruct (tag i =? "-")%string; [now apply IH|].
  destruct (negb _); [reflexivity|]. destruct (existsb _ _).
  - destruct (base (fty f)) as [s'|]; [|reflexivity]. destruct (sub1 s') as [l| |] eqn:E1; [| |congruence].
    + rewrite (Hs s') by (rewrite E1; discriminate). rewrite E1. destruct (add_keys _ _); [now apply IH|reflexivity].
    + rewrite (Hs s') by (rewrite E1; discriminate). now rewrite E1.
  - destruct (add_keys _ _); [now apply IH|reflexivity].
Qed.
Lemma info_more n tags E s : struct_info n tags E s <> Deep -> forall k, struct_info (n + k) tags E s = struct_info n tags E s.
Proof.
  revert s. induction n as [|n IH]; intros s N k; [cbn in N; congruence|]. cbn [struct_info Nat.add] in *. apply fields_more; [|exact N]. intros s' N'. now apply IH.
Qed.
Lemma fields_end sub tags E s fs : forall i acc pre, E s = pre ++ fs -> List.length pre = i -> (forall s', inlines tags E s' s -> sub s' <> Deep) -> fields_info sub (tags s) i fs acc <> Deep.
Proof.
  induction fs as [|f fs IH]; intros i acc pre Ep Hl Hs; [discriminate|]. cbn [fields_info]. cbv zeta.
  assert (Hf : nth_error (E s) i = Some f) by (rewrite Ep, nth_error_app2, Hl, Nat.sub_diag by lia; reflexivity).
  assert (Nx : forall acc', fields_info sub (tags s) (S i) fs acc' <> Deep) by (intros acc'; apply (IH (S i) acc' (pre ++ [f])); [rewrite Ep, <- app_assoc; reflexivity|rewrite app_length; cbn; lia|exact Hs]).
  destruct (negb (fexp f) && negb (fanon f)) eqn:Ex; [apply Nx|]. destruct (String.eqb_spec (tags s i) "-") as [Td|Td]; [apply Nx|].
  destruct (split_some "," (tags s i)) as (name & flags & Sp). rewrite Sp. cbn [hd tl]. destruct (negb (forallb _ flags)); [discriminate|]. destruct (existsb (String.eqb "inline") flags) eqn:Il.
  - destruct (base (fty f)) as [s'|] eqn:B; [|discriminate]. assert (H : inlines tags E s' s).
    { exists i, f, name, flags. split; [split; [exact Hf|split; [destruct (fexp f); [now left|right; now destruct (fanon f)]|exact Td]]|]. split; [now apply parts_iff|]. split; [|now apply leads_base].
      apply existsb_exists in Il. destruct Il as (y & Hy & Ey). apply String.eqb_eq in Ey. now subst. }
    specialize (Hs s' H). destruct (sub s') as [l| |]; [|discriminate|congruence]. destruct (add_keys _ _); [apply Nx|discriminate].
  - destruct (add_keys _ _); [apply Nx|discriminate].
Qed.
Lemma fields_fuel tags E s fs : forall i pre, E s = pre ++ fs -> List.length pre = i -> (forall s', inlines tags E s' s -> exists n, struct_info n tags E s' <> Deep) ->
  exists n, forall j f name flags s', (i <= j)%nat -> counts tags E s j f -> tag_parts (tags s j) name flags -> In "inline" flags -> leads (fty f) s' -> struct_info n tags E s' <> Deep.
Proof.
  induction fs as [|f fs IH]; intros i pre Ep Hl H.
  - exists 0%nat. intros j f name flags s' L (Hf & _). exfalso. assert (nth_error (E s) j <> None) as X by congruence. apply nth_error_Some in X. rewrite Ep, app_nil_r in X. lia.
  - destruct (IH (S i) (pre ++ [f])) as (n2 & H2); [rewrite Ep, <- app_assoc; reflexivity|rewrite app_length; cbn; lia|exact H|].
    assert (Hf : nth_error (E s) i = Some f) by (rewrite Ep, nth_error_app2, Hl, Nat.sub_diag by lia; reflexivity).
    assert (X : exists n1, forall name flags s', counts tags E s i f -> tag_parts (tags s i) name flags -> In "inline" flags -> leads (fty f) s' -> struct_info n1 tags E s' <> Deep).
    { destruct (base (fty f)) as [s1|] eqn:B.
      2: { exists 0%nat. intros name flags s' _ _ _ L. apply leads_base in L. congruence. }
      destruct (split_some "," (tags s i)) as (name & flags & Sp). pose proof (proj2 (parts_iff _ _ _) Sp) as P.
      destruct (in_dec String.string_dec "inline" flags) as [Il|Il].
      2: { exists 0%nat. intros name' flags' s' _ P' I' _. apply parts_iff in P'. rewrite Sp in P'. injection P' as <- <-. contradiction. }
      destruct (fexp f || fanon f) eqn:Ex.
      2: { exists 0%nat. intros name' flags' s' (_ & [C|C] & _); rewrite C in Ex; [discriminate|]. rewrite orb_true_r in Ex. discriminate. }
      destruct (String.string_dec (tags s i) "-") as [Td|Td]; [exists 0%nat; intros name' flags' s' (_ & _ & C); contradiction|].
      destruct (H s1) as (n1 & H1).
      { exists i, f, name, flags. split; [|split; [exact P|split; [exact Il|now apply leads_base]]]. split; [exact Hf|]. split; [now apply orb_true_iff|exact Td]. }
      exists n1. intros name' flags' s' _ _ _ L. apply leads_base in L. assert (s' = s1) as -> by congruence. exact H1. }
    destruct X as (n1 & H1). exists (n1 + n2)%nat. intros j f' name flags s' L C P I Ld. destruct (Nat.eq_dec j i) as [->|Nj].
    + assert (f' = f) as -> by (destruct C as [C _]; congruence). pose proof (H1 name flags s' C P I Ld) as X. now rewrite info_more.
    + pose proof (H2 j f' name flags s' ltac:(lia) C P I Ld) as X. rewrite Nat.add_comm. now rewrite info_more.
Qed.
Lemma info_ends tags E s : Acc (inlines tags E) s -> exists n, struct_info n tags E s <> Deep.
Proof.
  induction 1 as [s _ IH]. destruct (fields_fuel tags E s (E s) 0 [] eq_refl eq_refl IH) as (n & H). exists (S n). cbn [struct_info].
  apply (fields_end _ tags E s (E s) 0 [] []); [reflexivity|reflexivity|]. intros s' (i & f & name & flags & C & P & I & L). apply (H i f name flags s'); [lia|exact C|exact P|exact I|exact L].
Qed.
