From Verif Require Import Common Threads AtomicBucketModel AtomicBucketSpec AtomicProgressSpec.

(** * Lock freedom: a potential that every operation without a return lowers *)

Definition beq (a b x y : Z) : Z := if a =? b then x else y.

(** Changes of tokens a goroutine can still make; depends on lastIssueTimestamp only. *)
Definition chg (lit : Z) (pc : apc) : Z :=
  match pc with
  | AIdle | ALoadTok | ALoadLit _ => 1
  | ANow _ ol | ACasTok _ ol _ _ => beq ol lit 1 3
  | ACasLit ol _ _ => beq ol lit 0 2
  | ARollback _ => 2
  | ATakeLoad | ATakeCas _ => 0
  end.
(** Whether it can still set lastIssueTimestamp. *)
Definition iss (pc : apc) : Z := match pc with ATakeLoad | ATakeCas _ => 0 | _ => 1 end.
(** Operations until it changes tokens, if nobody else does. *)
Definition loc (tok : Z) (pc : apc) : Z :=
  match pc with
  | AIdle => 5
  | ALoadTok => 4
  | ALoadLit old => beq old tok 3 7
  | ANow old _ => beq old tok 2 6
  | ACasTok old _ _ _ => beq old tok 1 5
  | ACasLit _ _ _ => 2
  | ARollback _ => 1
  | ATakeLoad => 2
  | ATakeCas old => beq old tok 1 3
  end.

Lemma beq_same a x y : beq a a x y = x.
Proof. unfold beq. rewrite Z.eqb_refl. reflexivity. Qed.

Lemma loc_range tok pc : 1 <= loc tok pc <= 7.
Proof. destruct pc; cbn; unfold beq; try lia; destruct (_ =? _); lia. Qed.

Lemma chg_range lit pc : 0 <= chg lit pc <= 3.
Proof. destruct pc; cbn; unfold beq; try lia; destruct (_ =? _); lia. Qed.

Lemma chg_lit lit lit' pc : chg lit' pc <= chg lit pc + 2.
Proof. destruct pc; cbn; unfold beq; try lia; do 2 destruct (_ =? _); lia. Qed.

Lemma sumZ_range {A} (f : A -> Z) lo hi l :
  (forall x, lo <= f x <= hi) -> lo * Z.of_nat (length l) <= sumZ f l <= hi * Z.of_nat (length l).
Proof. intros H. induction l as [|x l IH]; cbn [sumZ length]; [lia|]. specialize (H x). lia. Qed.

Lemma sumZ_shift {A} (f g : A -> Z) k l :
  (forall x, f x <= g x + k) -> sumZ f l <= sumZ g l + k * Z.of_nat (length l).
Proof. intros H. induction l as [|x l IH]; cbn [sumZ length]; [lia|]. specialize (H x). lia. Qed.

Section potential.
Variable n : Z.

Definition big (lit : Z) (l : list apc) : Z := sumZ (chg lit) l + (2 * n + 1) * sumZ iss l.
Definition pot (s : astate) : Z :=
  (7 * n + 1) * big (ab_lit s) (ab_threads s) + sumZ (loc (ab_tokens s)) (ab_threads s).

(** If [big] goes down the potential goes down, whatever else happens to the state. *)
Lemma pot_big s s1 :
  Z.of_nat (length (ab_threads s)) = n -> length (ab_threads s1) = length (ab_threads s) ->
  big (ab_lit s1) (ab_threads s1) + 1 <= big (ab_lit s) (ab_threads s) -> pot s1 + 1 <= pot s.
Proof.
  intros Hn Hl Hb. unfold pot.
  pose proof (sumZ_range _ 1 7 (ab_threads s) (loc_range (ab_tokens s))) as H0.
  pose proof (sumZ_range _ 1 7 (ab_threads s1) (loc_range (ab_tokens s1))) as H1.
  rewrite Hl, Hn in H1. rewrite Hn in H0.
  set (b1 := big _ _) in *. set (b0 := big _ _) in *. nia.
Qed.

Ltac upds E := unfold set_pc; cbn [ab_lit ab_tokens ab_threads ab_capacity ab_rate ab_clock];
  rewrite ?(sumZ_upd _ _ _ _ _ E).

Lemma pot_step s l s1 es :
  Z.of_nat (length (ab_threads s)) = n -> astep s l = Some (s1, es) -> no_return es ->
  length (ab_threads s1) = length (ab_threads s) /\
  pot s1 + (match l with AClock _ => 0 | _ => 1 end) <= pot s.
Proof.
  intros Hn Hst HR. assert (Hn0 : 0 <= n) by lia. destruct l as [t|i|i]; cbn in Hst.
  - injection Hst as <- <-. split; [reflexivity|]. unfold pot; cbn. lia.
  - destruct (nth_error (ab_threads s) i) as [pc|] eqn:E; try discriminate. destruct pc; try discriminate.
    injection Hst as <- <-. split; [cbn; apply upd_length|].
    unfold pot, big. upds E. cbn [chg iss loc]. nia.
  - destruct (nth_error (ab_threads s) i) as [pc|] eqn:E; try discriminate.
    assert (HT : forall s1 pc1, ab_threads s1 = upd i pc1 (ab_threads s) ->
                   length (ab_threads s1) = length (ab_threads s)) by (intros ? ? ->; apply upd_length).
    destruct pc; cbn in Hst; try discriminate.
    + destruct (ab_capacity s <=? ab_tokens s); injection Hst as <- <-; (split; [apply upd_length|]).
      * apply pot_big; [exact Hn|apply upd_length|]. unfold big. upds E. cbn [chg iss]. nia.
      * unfold pot, big. upds E. cbn [chg iss loc]. rewrite beq_same. nia.
    + injection Hst as <- <-. split; [apply upd_length|].
      unfold pot, big. upds E. cbn [chg iss loc]. rewrite beq_same. unfold beq. destruct (_ =? _); nia.
    + destruct (refill_delta _ _ _ _ _); injection Hst as <- <-; (split; [apply upd_length|]).
      * unfold pot, big. upds E. cbn [chg iss loc]. unfold beq. destruct (oldTokens =? _); nia.
      * apply pot_big; [exact Hn|apply upd_length|]. unfold big. upds E. cbn [chg iss].
        unfold beq. destruct (_ =? _); nia.
    + destruct (Z.eqb_spec (ab_tokens s) oldTokens) as [Et|Et]; injection Hst as <- <-;
        (split; [apply upd_length|]).
      * apply pot_big; [exact Hn|apply upd_length|]. unfold big, set_tokens. upds E. cbn [chg iss].
        unfold beq. destruct (_ =? _); nia.
      * unfold pot, big. upds E. cbn [chg iss loc]. unfold beq.
        destruct (Z.eqb_spec oldTokens (ab_tokens s)); [congruence|]. destruct (oldLit =? _); nia.
    + destruct (Z.eqb_spec (ab_lit s) oldLit) as [El|El]; injection Hst as <- <-;
        (split; [apply upd_length|]).
      * apply pot_big; [exact Hn|apply upd_length|]. unfold big, set_lit. upds E. cbn [chg iss].
        pose proof (sumZ_shift (chg now) (chg (ab_lit s)) 2 (ab_threads s) (chg_lit (ab_lit s) now)) as Hs.
        rewrite Hn in Hs. pose proof (chg_range now (ACasLit oldLit now delta)) as Hr. cbn [chg] in Hr. nia.
      * unfold pot, big. upds E. cbn [chg iss loc]. unfold beq.
        destruct (Z.eqb_spec oldLit (ab_lit s)); [congruence|]. nia.
    + injection Hst as <- <-. split; [apply upd_length|].
      apply pot_big; [exact Hn|apply upd_length|]. unfold big, set_tokens. upds E. cbn [chg iss]. nia.
    + destruct (0 <? ab_tokens s); injection Hst as <- <-; (split; [apply upd_length|]).
      * unfold pot, big. upds E. cbn [chg iss loc]. rewrite beq_same. nia.
      * inversion HR; contradiction.
    + destruct (Z.eqb_spec (ab_tokens s) oldTokens) as [Et|Et]; injection Hst as <- <-;
        (split; [apply upd_length|]).
      * inversion HR; contradiction.
      * unfold pot, big. upds E. cbn [chg iss loc]. unfold beq.
        destruct (Z.eqb_spec oldTokens (ab_tokens s)); [congruence|]. nia.
Qed.

Lemma pot_exec sched : forall s,
  Z.of_nat (length (ab_threads s)) = n -> no_return (snd (exec astep s sched)) ->
  pot (fst (exec astep s sched)) + works s sched <= pot s /\
  length (ab_threads (fst (exec astep s sched))) = length (ab_threads s).
Proof.
  induction sched as [|l sched IH]; intros s Hn HR; cbn [exec works] in *; [cbn; lia|].
  destruct (astep s l) as [[s1 es]|] eqn:Est; [|apply IH; assumption].
  specialize (IH s1). destruct (exec astep s1 sched) as [s2 es2]. cbn [fst snd] in *.
  apply Forall_app in HR. destruct HR as [HR1 HR2].
  destruct (pot_step s l s1 es Hn Est HR1) as [Hl Hp].
  destruct (IH ltac:(congruence) HR2) as [H1 H2]. split; [lia|congruence].
Qed.
End potential.

Lemma iss_range pc : 0 <= iss pc <= 1.
Proof. destruct pc; cbn; lia. Qed.

Lemma atomic_lock_free s sched :
  no_return (snd (exec astep s sched)) ->
  let n := Z.of_nat (length (ab_threads s)) in
  works s sched <= (7 * n + 1) * (2 * n * n + 4 * n) + 6 * n.
Proof.
  intros HR n0. remember n0 as n eqn:Hn. subst n0. symmetry in Hn.
  destruct (pot_exec n sched s Hn HR) as [Hp Hl].
  set (s2 := fst (exec astep s sched)) in *.
  assert (H2 : n <= pot n s2).
  { unfold pot, big.
    pose proof (sumZ_range _ 1 7 (ab_threads s2) (loc_range (ab_tokens s2))).
    pose proof (sumZ_range _ 0 3 (ab_threads s2) (chg_range (ab_lit s2))).
    pose proof (sumZ_range _ 0 1 (ab_threads s2) iss_range). rewrite Hl, Hn in *.
    assert (0 <= n) by lia. nia. }
  assert (H0 : pot n s <= (7 * n + 1) * (2 * n * n + 4 * n) + 7 * n).
  { unfold pot, big.
    pose proof (sumZ_range _ 1 7 (ab_threads s) (loc_range (ab_tokens s))).
    pose proof (sumZ_range _ 0 3 (ab_threads s) (chg_range (ab_lit s))) as H3.
    pose proof (sumZ_range _ 0 1 (ab_threads s) iss_range) as H4. rewrite Hn in *.
    assert (0 <= n) by lia.
    assert (sumZ (chg (ab_lit s)) (ab_threads s) + (2 * n + 1) * sumZ iss (ab_threads s) <= 2 * n * n + 4 * n) by nia.
    nia. }
  lia.
Qed.

(** * A goroutine that runs alone returns *)

Definition dist (s : astate) (pc : apc) : Z :=
  match pc with
  | AIdle => 0
  | ALoadTok => 7
  | ALoadLit old => beq old (ab_tokens s) 6 10
  | ANow old ol => beq old (ab_tokens s) (beq ol (ab_lit s) 5 11) 9
  | ACasTok old ol _ _ => beq old (ab_tokens s) (beq ol (ab_lit s) 4 10) 8
  | ACasLit ol _ _ => beq ol (ab_lit s) 3 9
  | ARollback _ => 8
  | ATakeLoad => 2
  | ATakeCas old => beq old (ab_tokens s) 1 3
  end.

Lemma dist_step s i pc : nth_error (ab_threads s) i = Some pc -> pc <> AIdle ->
  exists s1 es pc1, astep s (AStep i) = Some (s1, es) /\ nth_error (ab_threads s1) i = Some pc1 /\
    ((exists r, es = [ARet i r] /\ pc1 = AIdle) \/
     (no_return es /\ pc1 <> AIdle /\ dist s1 pc1 + 1 <= dist s pc)).
Proof.
  intros E Hi. cbn [astep]. rewrite E.
  assert (Hn : forall pc1, nth_error (upd i pc1 (ab_threads s)) i = Some pc1)
    by (intros pc1; eapply nth_error_upd_same; exact E).
  destruct pc; cbn [astep_thread]; try congruence.
  - destruct (_ <=? _); eexists _, _, _; (split; [reflexivity|]); (split; [apply Hn|]); right;
      (split; [constructor|]); (split; [discriminate|]); cbn; rewrite ?beq_same; lia.
  - eexists _, _, _; (split; [reflexivity|]); (split; [apply Hn|]); right;
      (split; [constructor|]); (split; [discriminate|]); cbn; rewrite beq_same. unfold beq.
    destruct (_ =? _); lia.
  - destruct (refill_delta _ _ _ _ _); eexists _, _, _; (split; [reflexivity|]); (split; [apply Hn|]); right;
      (split; [constructor|]); (split; [discriminate|]); cbn; unfold beq;
      destruct (_ =? _); try destruct (_ =? _); lia.
  - destruct (Z.eqb_spec (ab_tokens s) oldTokens) as [Et|Et];
      eexists _, _, _; (split; [reflexivity|]); (split; [apply Hn|]); right;
      (split; [constructor|]); (split; [discriminate|]); cbn; unfold beq;
      destruct (Z.eqb_spec oldTokens (ab_tokens s)); try congruence; try lia.
    destruct (_ =? _); lia.
  - destruct (Z.eqb_spec (ab_lit s) oldLit) as [Et|Et];
      eexists _, _, _; (split; [reflexivity|]); (split; [apply Hn|]); right;
      (split; [constructor|]); (split; [discriminate|]); cbn; unfold beq;
      destruct (Z.eqb_spec oldLit (ab_lit s)); try congruence; lia.
  - eexists _, _, _; (split; [reflexivity|]); (split; [apply Hn|]); right;
      (split; [repeat constructor|]); (split; [discriminate|]); cbn; lia.
  - destruct (_ <? _); eexists _, _, _; (split; [reflexivity|]); (split; [apply Hn|]).
    + right. (split; [constructor|]); (split; [discriminate|]); cbn; rewrite beq_same; lia.
    + left. eexists. split; reflexivity.
  - destruct (Z.eqb_spec (ab_tokens s) oldTokens) as [Et|Et];
      eexists _, _, _; (split; [reflexivity|]); (split; [apply Hn|]).
    + left. eexists. split; reflexivity.
    + right. (split; [constructor|]); (split; [discriminate|]); cbn; unfold beq.
      destruct (Z.eqb_spec oldTokens (ab_tokens s)); [congruence|lia].
Qed.

Lemma dist_range s pc : 0 <= dist s pc <= 11.
Proof. destruct pc; cbn; unfold beq; repeat destruct (_ =? _); lia. Qed.

Lemma atomic_alone_dist i sched : forall s pc,
  nth_error (ab_threads s) i = Some pc -> pc <> AIdle -> only i sched ->
  dist s pc <= count (fun l => match l with AStep _ => true | _ => false end) sched ->
  exists r, In (ARet i r) (snd (exec astep s sched)).
Proof.
  induction sched as [|l sched IH]; intros s pc E Hi HO Hd.
  - exfalso. cbn [count] in Hd. destruct pc; cbn in Hd; unfold beq in Hd; try congruence;
      repeat destruct (_ =? _) in Hd; lia.
  - inversion HO as [|? ? Hl HO']; subst. destruct l as [c|j|j]; [| |]; cbn [count] in Hd.
    + cbn [exec astep]. match goal with |- context [exec astep ?s1 sched] => specialize (IH s1 pc E Hi HO') end.
      assert (IH' := IH Hd). clear IH.
      destruct (exec _ _ _) as [s2 es2]. exact IH'.
    + destruct Hl.
    + cbn in Hl. subst j. destruct (dist_step s i pc E Hi) as (s1 & es & pc1 & Hst & E1 & H).
      cbn [exec]. rewrite Hst. destruct H as [(r & -> & _)|(_ & Hi1 & Hd1)].
      * exists r. destruct (exec astep s1 sched). left. reflexivity.
      * destruct (IH s1 pc1 E1 Hi1 HO' ltac:(lia)) as [r Hr]. exists r.
        destruct (exec astep s1 sched). cbn [snd] in *. apply in_or_app. right. exact Hr.
Qed.

Lemma atomic_alone i sched s pc :
  nth_error (ab_threads s) i = Some pc -> pc <> AIdle -> only i sched ->
  11 <= count (fun l => match l with AStep _ => true | _ => false end) sched ->
  exists r, In (ARet i r) (snd (exec astep s sched)).
Proof.
  intros E Hi HO Hd. apply (atomic_alone_dist i sched s pc E Hi HO).
  pose proof (dist_range s pc). lia.
Qed.
