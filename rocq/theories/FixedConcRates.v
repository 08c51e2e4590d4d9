(** How many calls the fixed window grants in real time when several goroutines use it. *)
From Verif Require Import Common Threads Float64Model Float64Proofs FixedWindowModel FixedWindowProofs MonitorModel MonitorSpec MonitorProofs MonitorRuns LimiterConcModel LimiterConcSpec LimiterConcProofs LimiterConcRates.

Section potential.
  Variables c w low a b : Z.
  Hypothesis Hc : 0 <= c < 2 ^ 63.
  Hypothesis Hw : 0 < w < 2 ^ 60.
  Hypothesis Hlow : 0 < low.
  Hypothesis Hb : b < 2 ^ 61.
  Hypothesis Hlb : b < low + 2 ^ 52.
  Hypothesis Hab : a <= b.

  Definition settled (s : fw) : Prop :=
    fw_capacity s = c /\ fw_window s = w /\ 0 <= fw_count s <= c /\ low - 2 ^ 11 <= fw_until s < b + w + 2 ^ 11.
  (** One call. *)
  Definition next_edge (s : fw) (z : Z) : Z := if z <=? fw_until s then fw_until s else fw_until s + (z - fw_until s + w - 1) / w * w.
  Definition next_used (s : fw) (z : Z) : Z := if z <=? fw_until s then fw_count s else 0.
  Lemma next_edge_ge s z : settled s -> low <= z <= b -> z <= next_edge s z < b + w + 2 ^ 11 /\ (fw_until s < z -> fw_until s + w <= next_edge s z).
  Proof.
    intros (_ & _ & _ & H) Hz. unfold next_edge. destruct (Z.leb_spec z (fw_until s)); [lia|].
    set (d := z - fw_until s). assert (E := Z.div_mod (d + w - 1) w ltac:(lia)). pose proof (Z.mod_pos_bound (d + w - 1) w ltac:(lia)).
    set (q := (d + w - 1) / w) in *. assert (Hd : 0 < d) by (unfold d; lia). assert (1 <= q) by nia. split; [nia|intros; nia].
  Qed.
  Lemma settled_acquire s z : settled s -> low <= z <= b ->
    fw_acquire s z = (Fw c w (next_edge s z) (next_used s z + (if next_used s z <? c then 1 else 0)), next_used s z <? c) /\
    settled (Fw c w (next_edge s z) (next_used s z + (if next_used s z <? c then 1 else 0))).
  Proof.
    intros S Hz. destruct (next_edge_ge s z S Hz) as [[G1 G2] _]. destruct S as (E1 & E2 & E3 & E4).
    assert (Hu : 0 <= next_used s z <= c) by (unfold next_used; destruct (z <=? fw_until s); lia).
    split.
    - unfold fw_acquire, fw_contains. unfold next_edge, next_used in *. destruct (Z.leb_spec z (fw_until s)); cbn [negb].
      + rewrite E1, E2. destruct (Z.ltb_spec (fw_count s) c).
        * rewrite i64_id by (unfold in64; lia). reflexivity.
        * rewrite Z.add_0_r. destruct s. cbn in *. subst. reflexivity.
      + unfold fw_reset, fw_contains. destruct (Z.leb_spec z (fw_until s)); [lia|]. rewrite E2. rewrite (i64_id (z - fw_until s)) by (unfold in64; lia).
        rewrite ceil_div_exact by lia. cbn [fw_count fw_capacity fw_window fw_until]. rewrite E1.
        set (k := (z - fw_until s + w - 1) / w) in *. rewrite (i64_id (k * w)) by (unfold in64; lia). rewrite (i64_id (fw_until s + k * w)) by (unfold in64; lia).
        destruct (Z.ltb_spec 0 c); [rewrite i64_id by (unfold in64; lia)|]; reflexivity.
    - unfold settled. cbn [fw_capacity fw_window fw_count fw_until]. repeat split; try lia; destruct (Z.ltb_spec (next_used s z) c); lia.
  Qed.
  Lemma fresh_acquire z : low <= z <= b -> exists u, fw_acquire (new_fw c w) z = (Fw c w u (if 0 <? c then 1 else 0), 0 <? c) /\ settled (Fw c w u (if 0 <? c then 1 else 0)).
  Proof.
    intros Hz. pose proof (fresh_first_call c w z ltac:(lia) ltac:(lia)) as H.
    assert (Hshape : exists u, fst (fw_acquire (new_fw c w) z) = Fw c w u (if 0 <? c then 1 else 0)).
    { unfold fw_acquire, fw_contains, new_fw. cbn [fw_until]. destruct (Z.leb_spec z 0); [lia|]. cbn [negb]. unfold fw_reset, fw_contains. cbn [fw_until].
      destruct (Z.leb_spec z 0); [lia|]. cbn [fw_count fw_capacity]. destruct (0 <? c); eexists; reflexivity. }
    destruct Hshape as [u Hs]. destruct (fw_acquire (new_fw c w) z) as [s r]. cbn [fst] in Hs. subst s. destruct H as [-> Hu]. cbn [fw_until] in Hu.
    exists u. split; [reflexivity|]. unfold settled. cbn [fw_capacity fw_window fw_count fw_until]. repeat split; try lia; destruct (Z.ltb_spec 0 c); lia.
  Qed.

  (** How many counted grants are still possible. *)
  Definition windows : Z := (b - a + w - 1) / w + 1.
  Definition pot (s : fw) : Z :=
    if fw_until s <? a then c * windows
    else (c - fw_count s) + c * (if b <=? fw_until s then 0 else (b - fw_until s + w - 1) / w).
  Lemma div_le x y : x <= y -> (x + w - 1) / w <= (y + w - 1) / w.
  Proof. intros. apply Z.div_le_mono; lia. Qed.
  Lemma windows_pos : 1 <= windows.
  Proof. unfold windows. assert (0 <= (b - a + w - 1) / w) by (apply Z.div_pos; lia). lia. Qed.
  Lemma pot_rest s : settled s -> a <= fw_until s -> (if b <=? fw_until s then 0 else (b - fw_until s + w - 1) / w) <= windows - 1 /\
    0 <= (if b <=? fw_until s then 0 else (b - fw_until s + w - 1) / w).
  Proof.
    intros S H. pose proof windows_pos. destruct (Z.leb_spec b (fw_until s)); [lia|]. unfold windows. pose proof (div_le (b - fw_until s) (b - a) ltac:(lia)).
    assert (0 <= (b - fw_until s + w - 1) / w) by (apply Z.div_pos; lia). lia.
  Qed.
  Lemma pot_le s : settled s -> 0 <= pot s <= c * windows.
  Proof.
    intros S. pose proof windows_pos. unfold pot. destruct (Z.ltb_spec (fw_until s) a); [nia|]. destruct (pot_rest s S H0) as [R1 R2].
    destruct S as (_ & _ & S & _). set (k := if b <=? fw_until s then 0 else (b - fw_until s + w - 1) / w) in *. nia.
  Qed.
  Lemma pot_step s z : settled s -> low <= z <= b ->
    let s' := fst (fw_acquire s z) in (if snd (fw_acquire s z) && (a <=? z) then 1 else 0) + pot s' <= pot s.
  Proof.
    intros S Hz. destruct (settled_acquire s z S Hz) as [-> S']. cbn [fst snd]. destruct (next_edge_ge s z S Hz) as [[G1 _] G3].
    set (g := if next_used s z <? c then 1 else 0) in *.
    assert (Gg : (if (next_used s z <? c) && (a <=? z) then 1 else 0) <= g) by (unfold g; destruct (next_used s z <? c); destruct (a <=? z); cbn; lia).
    destruct (Z.leb_spec z (fw_until s)) as [L|L].
    - assert (En : next_edge s z = fw_until s) by (unfold next_edge; destruct (Z.leb_spec z (fw_until s)); lia).
      assert (Eu : next_used s z = fw_count s) by (unfold next_used; destruct (Z.leb_spec z (fw_until s)); lia).
      unfold pot. cbn [fw_until fw_count]. rewrite En, Eu. rewrite Eu in Gg. destruct (Z.ltb_spec (fw_until s) a).
      + destruct (Z.leb_spec a z); [lia|]. rewrite andb_false_r. lia.
      + lia.
    - specialize (G3 L). assert (Eu : next_used s z = 0) by (unfold next_used; destruct (Z.leb_spec z (fw_until s)); lia).
      set (s' := Fw c w (next_edge s z) (next_used s z + g)) in *.
      destruct (Z.ltb_spec (next_edge s z) a) as [Ea|Ea].
      + destruct (Z.leb_spec a z); [lia|]. rewrite andb_false_r. unfold pot. cbn [s' fw_until fw_count].
        destruct (Z.ltb_spec (next_edge s z) a); [|lia]. destruct (Z.ltb_spec (fw_until s) a); lia.
      + destruct (pot_rest s' S' Ea) as [R1 R2]. unfold pot. cbn [s' fw_until fw_count] in *. destruct (Z.ltb_spec (next_edge s z) a); [lia|]. rewrite Eu in *.
        set (k := if b <=? next_edge s z then 0 else (b - next_edge s z + w - 1) / w) in *.
        destruct (Z.ltb_spec (fw_until s) a) as [Ua|Ua]; [nia|].
        destruct (Z.leb_spec b (fw_until s)); [lia|].
        assert (k <= (b - fw_until s + w - 1) / w - 1).
        { assert (1 <= (b - fw_until s + w - 1) / w) by (apply Z.div_le_lower_bound; lia).
          unfold k. destruct (Z.leb_spec b (next_edge s z)); [lia|]. replace (b - fw_until s + w - 1) with ((b - fw_until s - w + w - 1) + 1 * w) by lia.
          rewrite Z.div_add by lia. pose proof (div_le (b - next_edge s z) (b - fw_until s - w) ltac:(lia)). lia. }
        destruct S as (_ & _ & S & _). nia.
  Qed.

  (** A list of effects. *)
  Definition counted (e : fwmethod * list Z * lresult) : bool := is_grant (fst (fst e), snd e) && forallb (fun z => a <=? z) (snd (fst e)).
  Definition in_range (l : list (fwmethod * list Z * lresult)) : Prop := forall m zs r, In (m, zs, r) l -> Forall (fun z => low <= z <= b) zs.
  Lemma pot_run l : forall s s', settled s -> in_range l -> one_by_one fixed_call s l s' -> count counted l <= pot s /\ settled s'.
  Proof.
    induction l as [|[[m zs] r] l IH]; intros s s' S Rg O.
    - apply obo_nil in O. subst s'. split; [apply pot_le; exact S|exact S].
    - apply obo_cons in O. destruct O as (s1 & H1 & H2). assert (Rg' : in_range l) by (intros m' zs' r' Hi; exact (Rg m' zs' r' (or_intror Hi))).
      pose proof (Rg m zs r (or_introl eq_refl)) as Rz. cbn [count]. destruct m; cbn [fixed_call] in H1.
      + destruct H1 as (now & x & E & -> & ->). inversion Rz as [|? ? Rn _]; subst. pose proof (pot_step s now S Rn) as P. destruct (settled_acquire s now S Rn) as [E' S']. rewrite E in P, E'. cbn [fst snd] in P.
        injection E' as -> ->. destruct (IH _ _ S' Rg' H2) as [I1 I2]. split; [|exact I2]. unfold counted at 1. unfold is_grant. cbn [fst snd forallb]. rewrite andb_true_r.
        destruct (next_used s now <? c); cbn [andb] in *; lia.
      + destruct H1 as (-> & -> & ->). destruct (IH _ _ S Rg' H2) as [I1 I2]. split; [|exact I2]. exact I1.
      + destruct H1 as (-> & -> & ->). destruct (IH _ _ S Rg' H2) as [I1 I2]. split; [|exact I2]. exact I1.
  Qed.
  (** From a new limiter. *)
  Lemma fresh_run l : forall s', in_range l -> one_by_one fixed_call (new_fw c w) l s' ->
    count counted l <= c * windows + 1 /\ ((exists zs r, In (FAcquire, zs, r) l) -> settled s') /\ (s' = new_fw c w \/ settled s').
  Proof.
    pose proof windows_pos as Wp. induction l as [|[[m zs] r] l IH]; intros s' Rg O.
    - apply obo_nil in O. subst s'. split; [cbn; nia|]. split; [intros (? & ? & [])|left; reflexivity].
    - apply obo_cons in O. destruct O as (s1 & H1 & H2). assert (Rg' : in_range l) by (intros m' zs' r' Hi; exact (Rg m' zs' r' (or_intror Hi))).
      pose proof (Rg m zs r (or_introl eq_refl)) as Rz. cbn [count]. destruct m; cbn [fixed_call] in H1.
      + destruct H1 as (now & x & E & -> & ->). inversion Rz as [|? ? Rn _]; subst. destruct (fresh_acquire now Rn) as (u & E' & S'). rewrite E' in E. injection E as <- <-.
        destruct (pot_run l _ _ S' Rg' H2) as [I1 I2]. pose proof (pot_le _ S'). split; [destruct (counted _); lia|]. split; [intros _; exact I2|right; exact I2].
      + destruct H1 as (-> & -> & ->). destruct (IH _ Rg' H2) as (I1 & I2 & I3). split; [exact I1|]. split; [|exact I3]. intros (zs & r & [E|Hi]); [discriminate|]. apply I2. eauto.
      + destruct H1 as (-> & -> & ->). destruct (IH _ Rg' H2) as (I1 & I2 & I3). split; [exact I1|]. split; [|exact I3]. intros (zs & r & [E|Hi]); [discriminate|]. apply I2. eauto.
  Qed.
End potential.

Section took.
  Context {R M : Type}.
  Lemma returned_took t (y : list (obs R M)) : forall s, turns t Waiting y s ->
    (forall m r, s = Effected m r -> exists zs, In (Takes t m zs r) y) /\
    forall m r, In (Seen (MReturned t m r)) y -> exists zs, In (Takes t m zs r) y.
  Proof.
    induction y as [|x y IH] using rev_ind; intros s H.
    - split; [|intros ? ? []]. assert (s = Waiting) by (rewrite (stages _ _ _ _ H); reflexivity). subst s. discriminate.
    - destruct (turns_split _ _ _ _ _ H) as (s1 & H1 & H2). destruct (IH _ H1) as [I1 I2]. apply turns_one in H2. split.
      + intros m r ->. assert (K : s1 = Effected m r -> exists zs, In (Takes t m zs r) (y ++ [x])).
        { intros E. destruct (I1 _ _ E) as [zs Hz]. exists zs. apply in_or_app. left. exact Hz. }
        inversion H2; subst; auto. exists zs. apply in_or_app. right. left. reflexivity.
      + intros m r Hi. apply in_app_or in Hi. assert (K : (exists zs, In (Takes t m zs r) y) -> exists zs, In (Takes t m zs r) (y ++ [x])) by (intros [zs Hz]; exists zs; apply in_or_app; left; exact Hz).
        apply K. destruct Hi as [Hi|[->|[]]]; [apply I2; exact Hi|]. inversion H2; subst; [apply I1; reflexivity|congruence].
  Qed.
  Lemma in_seen e (y : list (obs R M)) : In e (seen y) -> In (Seen e) y.
  Proof. intros H. apply in_flat_map in H. destruct H as (x & Hx & Hi). destruct x; try (destruct Hi; fail). destruct Hi as [->|[]]. exact Hx. Qed.
  Lemma returned_effect t m r (y : list (obs R M)) : each_once y -> In (MReturned t m r) (seen y) -> exists zs, In (m, zs, r) (effects y).
  Proof.
    intros E H. apply in_seen in H. destruct (E t) as [s Hs]. destruct (proj2 (returned_took t y s Hs) m r H) as [zs Hz].
    exists zs. apply in_flat_map. exists (Takes t m zs r). split; [exact Hz|left; reflexivity].
  Qed.
End took.

Lemma fixed_rate c w t0 n sched1 sched2 low a b : let step := mstep fwfield_eq fw_body in
  let r1 := fixed_exec c w t0 n sched1 in let g := grants (snd (exec step (fst r1) sched2)) in
  0 <= c < 2 ^ 63 -> 0 < w < 2 ^ 60 -> 0 < low -> b < low + 2 ^ 52 -> b < 2 ^ 61 ->
  Forall (fun z => low <= z <= b) (t0 :: ticks (sched1 ++ sched2)) ->
  Forall (fun z => a <= z) (clock_at t0 sched1 :: ticks sched2) ->
  g <= c * ((b - a + w - 1) / w + 1) + 1 /\
  ((exists t r, In (MReturned t FAcquire r) (snd r1)) -> g <= c * ((b - a + w - 1) / w + 1)).
Proof.
  intros step r1 g Hc Hw Hl Hlb Hb Rg Ra. set (s0 := fw_mem (new_fw c w)).
  destruct (linv_exec fwfield_eq fw_body fw_const true fw_writes fw_typed s0 t0 n sched1) as (tr & A & p & I1). change (mon_exec fwfield_eq fw_body s0 t0 n sched1) with r1 in I1.
  destruct (stretch fwfield_eq fw_body fw_const true fw_writes fw_typed _ _ _ _ _ _ _ sched2 I1) as (y & A2 & p2 & I2 & _ & _ & Sn & Ct). fold step in I2, Sn, Ct.
  assert (Ck : mo_clock (fst r1) = clock_at t0 sched1) by (exact (clock_of fwfield_eq fw_body fw_const true fw_writes fw_typed s0 t0 n sched1)).
  rewrite Ck in Ct. specialize (Ct is_grant (fun z => a <=? z)). inversion Ra as [|? ? Ra1 Ra2]; subst.
  specialize (Ct (proj2 (Z.leb_le _ _) Ra1)).
  assert (Ft : Forall (fun z => (a <=? z) = true) (ticks sched2)) by (eapply Forall_impl; [|exact Ra2]; cbn; intros z Hz; apply Z.leb_le; exact Hz).
  specialize (Ct Ft). change (count is_grant (finished (snd (exec step (fst r1) sched2)))) with g in Ct.
  assert (Hab : a <= b).
  { inversion Rg as [|? ? Rg1 Rg2]; subst. destruct (ticks sched1) as [|z l] eqn:E1.
    - unfold clock_at in Ra1. rewrite E1 in Ra1. cbn in Ra1. lia.
    - rewrite Forall_forall in Rg2. assert (Hin : In (clock_at t0 sched1) (ticks (sched1 ++ sched2))) by (unfold clock_at; rewrite ticks_app, E1; apply in_or_app; left; apply last_in; discriminate).
      specialize (Rg2 _ Hin). lia. }
  pose proof (proj2 (obo_map _ fixed_call fixed_of (fun _ => True) (fun s m zs r s' _ Hs => conj Logic.I (fixed_seq s m zs r s' Hs)) _ _ _ (li_seq _ _ _ _ _ _ _ _ _ _ _ _ I2) Logic.I)) as O.
  unfold s0 in O. rewrite fixed_of_mem, effects_app in O. apply obo_app in O. destruct O as (b1 & O1 & O2).
  assert (Rv : in_range low b (effects (tr ++ y))).
  { intros m zs r Hi. apply Forall_forall. intros z Hz. rewrite Forall_forall in Rg. apply Rg.
    pose proof (read_values t0 _ m zs r (each_once_linv _ _ _ _ _ _ _ _ _ _ _ _ I2) (li_reads _ _ _ _ _ _ _ _ _ _ _ _ I2) Hi z Hz) as Hin.
    rewrite (li_seen _ _ _ _ _ _ _ _ _ _ _ _ I2) in Hin. rewrite times_app in Hin. unfold r1, fixed_exec, mon_exec, step in Hin. rewrite !times_ticks in Hin. rewrite <- ticks_app in Hin. exact Hin. }
  assert (Rv1 : in_range low b (effects tr)) by (intros m zs r Hi; apply (Rv m zs r); rewrite effects_app; apply in_or_app; left; exact Hi).
  assert (Rv2 : in_range low b (effects y)) by (intros m zs r Hi; apply (Rv m zs r); rewrite effects_app; apply in_or_app; right; exact Hi).
  destruct (fresh_run c w low a b Hc Hw Hl Hb Hlb Hab (effects tr) b1 Rv1 O1) as (_ & Fs & Fd).
  assert (Set' : settled c w low b b1 -> g <= c * ((b - a + w - 1) / w + 1)).
  { intros S. destruct (pot_run c w low a b Hc Hw Hl Hb Hlb Hab (effects y) b1 _ S Rv2 O2) as [P _]. pose proof (pot_le c w low a b Hc Hw Hab _ S) as Q. unfold windows in Q. unfold counted in P. lia. }
  split.
  - destruct Fd as [->|S]; [|specialize (Set' S); lia]. destruct (fresh_run c w low a b Hc Hw Hl Hb Hlb Hab (effects y) _ Rv2 O2) as (P & _). unfold windows in P. unfold counted in P. lia.
  - intros (t & r & Hi). apply Set'. apply Fs.
    rewrite <- (li_seen _ _ _ _ _ _ _ _ _ _ _ _ I1) in Hi. destruct (returned_effect t FAcquire r tr (each_once_linv _ _ _ _ _ _ _ _ _ _ _ _ I1) Hi) as [zs Hz]. eauto.
Qed.
