(** The simulation, step by step. *)
From Verif Require Import Common Threads ScheduleModel ScheduleSpec ScheduleProofs ScheduleLive ScheduleFineModel ScheduleFineSpec ScheduleFineProofs.
Local Open Scope list_scope.
Local Open Scope Z_scope.

Definition simulated (c : cfg) (s s1 : ftask) (es : list event) (t : task) : Prop :=
  exists ls t1 es' xs, exec (tstep c) t ls = (t1, es') /\ rels c s1 t1 /\ observed c s s1 es es' xs.

(** ** Events of a step *)
Lemma ob_silent c s s1 : (forall i, stg c s1 i = stg c s i) -> observed c s s1 [] [] [].
Proof. intros H. constructor; try reflexivity; [|constructor]. intros i. cbn. rewrite H. constructor. Qed.

Definition inner (e : event) : Prop := match e with ECall _ _ | ERet _ _ _ _ => False | _ => True end.
Lemma ob_events c s s1 es : (forall i, stg c s1 i = stg c s i) -> Forall inner es -> observed c s s1 es es (map Both es).
Proof.
  intros H F. constructor.
  - unfold seen, stamped. induction es as [|e es IH]; [reflexivity|]. inversion F; subst. cbn. f_equal. auto.
  - unfold effects, stamped. induction es as [|e es IH]; [reflexivity|]. inversion F; subst. cbn. f_equal. auto.
  - intros i. rewrite H. replace (filter _ _) with (@nil (Z * tobs)); [constructor|].
    unfold stamped. induction es as [|e es IH]; [reflexivity|]. inversion F; subst. cbn. destruct e; try contradiction; cbn; auto.
  - induction es as [|e es IH]; [constructor|]. inversion F; subst. constructor; [|auto]. destruct e; try contradiction; reflexivity.
Qed.
Lemma ob_call c s s1 i o : stg c s i = Idle -> stg c s1 i = Called o -> (forall j, j <> i -> stg c s1 j = stg c s j) ->
  observed c s s1 [ECall i o] [ECall i o] [Both (ECall i o)].
Proof.
  intros A B C. constructor; try reflexivity; [|repeat constructor]. intros j. cbn.
  destruct (Nat.eqb j i) eqn:E; [apply Nat.eqb_eq in E; subst j; rewrite A, B; constructor|].
  apply Nat.eqb_neq in E. rewrite C by exact E. constructor.
Qed.
Lemma ob_takes c s s1 i o r : stg c s i = Called o -> stg c s1 i = Taken o r -> (forall j, j <> i -> stg c s1 j = stg c s j) ->
  observed c s s1 [] [ERet i o r (t_now (f_task s))] [Takes (ERet i o r (t_now (f_task s)))].
Proof.
  intros A B C. constructor; try reflexivity; [|repeat constructor]. intros j. cbn.
  destruct (Nat.eqb j i) eqn:E; [apply Nat.eqb_eq in E; subst j; rewrite A, B; constructor|].
  apply Nat.eqb_neq in E. rewrite C by exact E. constructor.
Qed.
Lemma ob_returns c s s1 i o r : stg c s i = Taken o r -> stg c s1 i = Idle -> (forall j, j <> i -> stg c s1 j = stg c s j) ->
  observed c s s1 [ERet i o r (t_now (f_task s))] [] [Seen (ERet i o r (t_now (f_task s)))].
Proof.
  intros A B C. constructor; try reflexivity; [|repeat constructor]. intros j. cbn.
  destruct (Nat.eqb j i) eqn:E; [apply Nat.eqb_eq in E; subst j; rewrite A, B; constructor|].
  apply Nat.eqb_neq in E. rewrite C by exact E. constructor.
Qed.

(** ** Clients *)
Lemma clients_move c fin cl cl' i w o : All3 (crel c) fin cl cl' -> nth_error cl i = Some (CWant o) -> suits c w o ->
  All3 (crel c) (upd i (Some w) fin) cl (upd i (after c w o) cl').
Proof. intros A N S. rewrite <- (upd_same cl i _ N). apply all3_upd; [exact A|]. exists o. auto. Qed.
Lemma clients_stay c fin cl cl' i w w' o : All3 (crel c) fin cl cl' -> nth_error fin i = Some (Some w) -> nth_error cl i = Some (CWant o) ->
  suits c w' o -> after c w' o = after c w o -> All3 (crel c) (upd i (Some w') fin) cl cl'.
Proof.
  intros A F N S E. destruct (all3_nth1 _ _ _ _ A _ _ F) as (a & b & Ha & Hb & (o' & -> & -> & _)).
  assert (o' = o) as -> by congruence. rewrite <- (upd_same cl' i _ Hb), <- E. apply clients_move; assumption.
Qed.
Lemma coarse_client c fin cl cl' i w o : All3 (crel c) fin cl cl' -> nth_error fin i = Some (Some w) -> nth_error cl i = Some (CWant o) ->
  nth_error cl' i = Some (after c w o) /\ suits c w o.
Proof.
  intros A F N. destruct (all3_nth1 _ _ _ _ A _ _ F) as (a & b & Ha & Hb & (o' & -> & -> & S)).
  assert (o' = o) as -> by congruence. auto.
Qed.

Lemma stg_client c s i w o : nth_error (f_in s) i = Some (Some w) -> nth_error (t_clients (f_task s)) i = Some (CWant o) -> stg c s i = stage_of c w o.
Proof. intros A B. unfold stg. rewrite A, B. reflexivity. Qed.
Lemma stg_other c s lk kin b i x j : t_clients b = t_clients (f_task s) -> j <> i -> stg c (FTask b lk (upd i x (f_in s)) kin) j = stg c s j.
Proof. intros E N. unfold stg. cbn. rewrite E, nth_error_upd_other by auto. reflexivity. Qed.
Lemma stg_moved c s lk kin b i w w' o : nth_error (f_in s) i = Some (Some w) -> t_clients b = t_clients (f_task s) ->
  nth_error (t_clients (f_task s)) i = Some (CWant o) -> stg c (FTask b lk (upd i (Some w') (f_in s)) kin) i = stage_of c w' o.
Proof. intros A E B. unfold stg. cbn. rewrite E, B, (nth_error_upd_same i _ _ _ A). reflexivity. Qed.
Lemma stg_moved_same c s lk kin b i w w' o : nth_error (f_in s) i = Some (Some w) -> t_clients b = t_clients (f_task s) ->
  nth_error (t_clients (f_task s)) i = Some (CWant o) -> stage_of c w' o = stage_of c w o ->
  forall j, stg c (FTask b lk (upd i (Some w') (f_in s)) kin) j = stg c s j.
Proof.
  intros A E B S j. destruct (Nat.eq_dec j i) as [->|N]; [|apply stg_other; assumption].
  rewrite (stg_moved c s lk kin b i w w' o) by assumption. rewrite (stg_client c s i w o) by assumption. exact S.
Qed.
Lemma stg_same c s lk kin b : t_clients b = t_clients (f_task s) -> forall j, stg c (FTask b lk (f_in s) kin) j = stg c s j.
Proof. intros E j. unfold stg. cbn. rewrite E. reflexivity. Qed.

Lemma hold_client s i w : mutex s -> nth_error (f_in s) i = Some (Some w) -> ~ gone w -> f_lock s = Some (Client i) /\ holding s = HClient w.
Proof.
  intros M H G. assert (L : f_lock s = Some (Client i)) by (destruct (mx_in s M _ _ H); [assumption|contradiction]).
  split; [exact L|]. unfold holding. rewrite L, H. reflexivity.
Qed.
Lemma hold_consumer s k w : mutex s -> nth_error (f_kin s) k = Some (Some w) -> f_lock s = Some (Consumer k) /\ holding s = HCons w.
Proof. intros M H. pose proof (mx_kin s M _ _ H) as L. split; [exact L|]. unfold holding. rewrite L, H. reflexivity. Qed.
Lemma hold_at s i w w' b kin : f_lock s = Some (Client i) -> nth_error (f_in s) i = Some (Some w) ->
  holding (FTask b (f_lock s) (upd i (Some w') (f_in s)) kin) = HClient w'.
Proof. intros L H. unfold holding. cbn. rewrite L, (nth_error_upd_same i _ _ _ H). reflexivity. Qed.
Lemma hold_k s k w w' b : f_lock s = Some (Consumer k) -> nth_error (f_kin s) k = Some (Some w) -> holding (consumer_at k w' b s) = HCons w'.
Proof. intros L H. unfold holding, consumer_at. cbn. rewrite L, (nth_error_upd_same k _ _ _ H). reflexivity. Qed.

Ltac unrel R := destruct R as [Rnow Rruns Rtim Rsig Rfree Rlock Rst Rno Rtick Rover Rstop Rcl Rcons Rks Rprov Rps].

(** A step of a client that changes nothing but where it is. *)
Lemma client_silent c s t i o w w' b : mutex s -> rels c s t -> nth_error (f_in s) i = Some (Some w) -> ~ gone w ->
  nth_error (t_clients (f_task s)) i = Some (CWant o) -> suits c w' o -> after c w' o = after c w o -> stage_of c w' o = stage_of c w o ->
  (forall ks ps, rel c (HClient w) s t ks ps -> All3 (crel c) (upd i (Some w') (f_in s)) (t_clients b) (t_clients t) ->
     exists ks1 ps1, rel c (HClient w') (client_at i w' b s) t ks1 ps1) -> t_clients b = t_clients (f_task s) ->
  simulated c s (client_at i w' b s) [] t.
Proof.
  intros M (ks & ps & R) Hi G Hc S A St K Eb. destruct (hold_client s i w M Hi G) as [L Hh]. rewrite Hh in R.
  exists [], t, [], []. split; [reflexivity|]. split.
  - destruct (K ks ps R) as (ks1 & ps1 & R1).
    + rewrite Eb. eapply clients_stay; try eassumption. apply (rl_clients _ _ _ _ _ _ R).
    + exists ks1, ps1. unfold client_at in *. rewrite (hold_at s i w w') by assumption. exact R1.
  - apply ob_silent. apply (stg_moved_same c s _ _ b i w w' o); assumption.
Qed.

(** One in which the call takes effect. *)
Lemma client_takes c s t i o w w' b r l t1 kin : mutex s -> rels c s t -> nth_error (f_in s) i = Some (Some w) -> ~ gone w ->
  nth_error (t_clients (f_task s)) i = Some (CWant o) -> suits c w' o -> stage_of c w o = Called o -> stage_of c w' o = Taken o r ->
  t_clients b = t_clients (f_task s) ->
  (forall ks ps, rel c (HClient w) s t ks ps -> nth_error (t_clients t) i = Some (after c w o) -> suits c w o ->
     tstep c t l = Some (t1, [ERet i o r (t_now t)]) /\
     t_clients t1 = upd i (after c w' o) (t_clients t) /\
     (All3 (crel c) (upd i (Some w') (f_in s)) (t_clients b) (t_clients t1) ->
      exists ks1 ps1, rel c (HClient w') (FTask b (f_lock s) (upd i (Some w') (f_in s)) kin) t1 ks1 ps1)) ->
  simulated c s (FTask b (f_lock s) (upd i (Some w') (f_in s)) kin) [] t.
Proof.
  intros M (ks & ps & R) Hi G Hc S St St' Eb K. destruct (hold_client s i w M Hi G) as [L Hh]. rewrite Hh in R.
  destruct (coarse_client _ _ _ _ _ _ _ (rl_clients _ _ _ _ _ _ R) Hi Hc) as [Hct Sw].
  destruct (K ks ps R Hct Sw) as (E & Ec & R1).
  exists [l], t1, [ERet i o r (t_now t)], [Takes (ERet i o r (t_now (f_task s)))]. split; [cbn [exec]; rewrite E; reflexivity|]. split.
  - destruct R1 as (ks1 & ps1 & R1).
    + rewrite Eb, Ec. eapply clients_move; try eassumption. apply (rl_clients _ _ _ _ _ _ R).
    + exists ks1, ps1. rewrite (hold_at s i w w') by assumption. exact R1.
  - rewrite (rl_now _ _ _ _ _ _ R). apply ob_takes.
    + rewrite (stg_client c s i w o) by assumption. exact St.
    + rewrite (stg_moved c s _ _ b i w w' o) by assumption. exact St'.
    + intros j N. apply stg_other; assumption.
Qed.

Lemma krel_sig x a b sg : krel false x a b -> krel sg x a b.
Proof. destruct x as [[]|]; cbn; intuition discriminate. Qed.
Lemma prel_sig a b sg : prel false a b -> prel sg a b.
Proof. unfold prel. intuition discriminate. Qed.
Lemma krel_on sg x a b : krel sg x a b -> krel true x a b.
Proof. destruct x as [[]|]; cbn; intuition. Qed.
Lemma prel_on sg a b : prel sg a b -> prel true a b.
Proof. unfold prel. intuition. Qed.

Lemma sim_wstep c s t i o w s1 es : mutex s -> rels c s t -> nth_error (f_in s) i = Some (Some w) ->
  nth_error (t_clients (f_task s)) i = Some (CWant o) -> wstep c s i o w = Some (s1, es) -> simulated c s s1 es t.
Proof.
  intros M R Hi Hc E.
  assert (Sw : suits c w o) by (destruct R as (ks & ps & R); apply (coarse_client _ _ _ _ _ _ _ (rl_clients _ _ _ _ _ _ R) Hi Hc)).
  destruct w; cbn [wstep] in E; try discriminate; injection E as <- <-; cbn [suits] in Sw.
  - (* FStarted *)
    destruct (t_status (f_task s) =? started) eqn:Es.
    + unfold client_at. eapply (client_takes c s t i o FStarted) with (l := LClient i); try eassumption; [ng|exact I|reflexivity|reflexivity|reflexivity|].
      intros ks ps Q Hct _. unrel Q. cbn in Rst. split; [|split].
      * apply c_fail; [exact Hct|exact Rlock|]. apply Ref_twice; [exact Sw|]. rewrite Rst. lia.
      * reflexivity.
      * intros A. exists ks, ps. constructor; cbn; auto; try discriminate.
    + eapply (client_silent c s t i o FStarted); try eassumption; try reflexivity; [ng|].
      intros ks ps Q A. unrel Q. cbn in Rst. exists ks, ps. constructor; cbn; auto; try discriminate. split; [exact Rst|lia].
  - (* FStopped *)
    destruct (t_status (f_task s) =? stopped) eqn:Es.
    + unfold client_at. eapply (client_takes c s t i o FStopped) with (l := LClient i); try eassumption; [ng|exact I|reflexivity|reflexivity|reflexivity|].
      intros ks ps Q Hct _. unrel Q. cbn in Rst. split; [|split].
      * apply c_fail; [exact Hct|exact Rlock|]. apply Ref_over; [exact Sw|]. lia.
      * reflexivity.
      * intros A. exists ks, ps. constructor; cbn; auto; try discriminate. lia.
    + eapply (client_silent c s t i o FStopped); try eassumption; try reflexivity; [ng|].
      intros ks ps Q A. unrel Q. cbn in Rst. exists ks, ps. constructor; cbn; auto; try discriminate. split; [|split]; lia.
  - (* FMark *)
    eapply (client_silent c s t i o FMark); try eassumption; try reflexivity; [ng| | | |].
    + destruct (c_kind c) eqn:Ek; cbn; auto.
    + destruct (c_kind c) eqn:Ek; cbn [after]; rewrite ?Ek; reflexivity.
    + destruct (c_kind c) eqn:Ek; cbn [stage_of]; rewrite ?Ek; reflexivity.
    + intros ks ps Q A. unrel Q. cbn in Rst. exists ks, ps.
      destruct (c_kind c) eqn:Ek; constructor; cbn; rewrite ?Ek; auto; try discriminate; try (rewrite app_nil_r; cbn in *; rewrite app_nil_r in *; auto);
        (split; [reflexivity|]; split; lia).
  - (* FTicker *)
    destruct Sw as [Sw Ek]. unfold client_at.
    eapply (client_takes c s t i o FTicker) with (l := LClient i) (r := Ok); try eassumption; try reflexivity; [ng|cbn; rewrite Ek; reflexivity|].
    intros ks ps Q Hct _. unrel Q. cbn in Rst. split; [|split].
    + rewrite (c_start c t i o); [|exact Hct|exact Rlock|exact Sw|tauto|tauto]. rewrite Ek. reflexivity.
    + cbn. rewrite Ek. reflexivity.
    + intros A. exists ks, ps. constructor; cbn; rewrite ?Ek; auto; try discriminate; try (rewrite Rcons || rewrite Rprov; cbn; rewrite app_nil_r; reflexivity).
      * intuition congruence.
      * split; [congruence|reflexivity].
      * intros Hs. rewrite Hs in Rover. tauto.
  - (* FCons *)
    unfold client_at. cbn [f_lock f_in f_kin]. destruct (c_kind c) eqn:Ek.
    + destruct R as (ks & ps & R). destruct (hold_client s i _ M Hi ltac:(ng)) as [L Hh]. rewrite Hh in R.
      destruct (coarse_client _ _ _ _ _ _ _ (rl_clients _ _ _ _ _ _ R) Hi Hc) as [Hct _]. unrel R. cbn in Rst. rewrite Ek in Rst.
      cbn [after] in Hct. rewrite Ek in Hct.
      exists [LClient i]. eexists. exists [], []. split; [|split].
      * cbn [exec]. rewrite (c_start c t i o); [|exact Hct|exact Rlock|exact Sw|tauto|tauto]. rewrite Ek. reflexivity.
      * exists (ks ++ [KWait]), ps. rewrite (hold_at s i FCons FAppend) by assumption.
        constructor; cbn; rewrite ?Ek in *; auto; try discriminate.
        -- symmetry. tauto.
        -- intros Hs. rewrite Hs in Rover. tauto.
        -- apply (clients_move c _ _ _ i FAppend o Rcl Hc). cbn. auto.
        -- rewrite Rcons. cbn. rewrite Ek, !app_nil_r. reflexivity.
        -- apply all3_app; [exact Rks|]. cbn. auto.
        -- rewrite Rprov. cbn. rewrite Ek. reflexivity.
      * apply ob_silent. eapply (stg_moved_same c s _ _ _ i FCons FAppend o Hi); [reflexivity|exact Hc|]. cbn. rewrite Ek. reflexivity.
    + destruct R as (ks & ps & R). destruct (hold_client s i _ M Hi ltac:(ng)) as [L Hh]. rewrite Hh in R. unrel R. cbn in Rst. rewrite Ek in Rst.
      exists [], t, [], []. split; [reflexivity|]. split.
      * exists (ks ++ [KWait]), ps. rewrite (hold_at s i FCons FProv) by assumption.
        constructor; cbn; rewrite ?Ek in *; auto; try discriminate.
        -- eapply clients_stay; [exact Rcl|exact Hi|exact Hc|cbn; auto|]. cbn. rewrite Ek. reflexivity.
        -- rewrite Rcons. cbn. rewrite Ek, !app_nil_r. reflexivity.
        -- apply all3_app; [exact Rks|]. cbn. auto.
        -- rewrite Rprov. cbn. rewrite Ek. reflexivity.
      * apply ob_silent. eapply (stg_moved_same c s _ _ _ i FCons FProv o Hi); [reflexivity|exact Hc|]. cbn. rewrite Ek. reflexivity.
  - (* FProv *)
    destruct Sw as [Sw Ek].
    eapply (client_silent c s t i o FProv); try eassumption; try reflexivity; [ng|try exact I..|].
    intros ks ps Q A. unrel Q. cbn in Rst. exists ks, (ps ++ [PSend]). constructor; cbn; auto; try discriminate.
    + rewrite Rprov. cbn. rewrite app_nil_r. reflexivity.
    + apply all2_app; [exact Rps|]. left. reflexivity.
  - (* FNew *)
    destruct (t_status (f_task s) =? new) eqn:Es.
    + unfold client_at. eapply (client_takes c s t i o FNew) with (l := LClient i); try eassumption; [ng|exact I|reflexivity|reflexivity|reflexivity|].
      intros ks ps Q Hct _. unrel Q. cbn in Rst. split; [|split].
      * apply c_fail; [exact Hct|exact Rlock|]. apply Ref_new; [exact Sw|]. lia.
      * reflexivity.
      * intros A. exists ks, ps. constructor; cbn; auto; try discriminate.
    + eapply (client_silent c s t i o FNew); try eassumption; try reflexivity; [ng|].
      intros ks ps Q A. unrel Q. cbn in Rst. exists ks, ps. constructor; cbn; auto; try discriminate. split; [exact Rst|lia].
  - (* FOver *)
    destruct (t_status (f_task s) =? stopped) eqn:Es.
    + unfold client_at. eapply (client_takes c s t i o FOver) with (l := LClient i); try eassumption; [ng|exact I|reflexivity|reflexivity|reflexivity|].
      intros ks ps Q Hct _. unrel Q. cbn in Rst. split; [|split].
      * apply c_fail; [exact Hct|exact Rlock|]. apply Ref_stopped; [exact Sw|]. lia.
      * reflexivity.
      * intros A. exists ks, ps. constructor; cbn; auto; try discriminate. lia.
    + eapply (client_silent c s t i o FOver); try eassumption; try reflexivity; [ng|].
      intros ks ps Q A. unrel Q. cbn in Rst. exists ks, ps. constructor; cbn; auto; try discriminate. split; [|split]; lia.
  - (* FMarkStop *)
    eapply (client_silent c s t i o FMarkStop); try eassumption; try reflexivity; [ng|].
    intros ks ps Q A. unrel Q. cbn in Rst. exists ks, ps. constructor; cbn; auto; try discriminate. split; [reflexivity|]. split; lia.
  - (* FClose *)
    unfold client_at.
    eapply (client_takes c s t i o FClose) with (l := LClient i) (r := Ok); try eassumption; try reflexivity; [ng| | |].
    + destruct (c_kind c) eqn:Ek; cbn; auto.
    + destruct (c_kind c) eqn:Ek; cbn; [destruct o|]; reflexivity.
    + intros ks ps Q Hct _. unrel Q. cbn in Rst. split; [|split].
      * apply (c_stop c t i o); [exact Hct|exact Rlock|exact Sw|tauto|tauto].
      * destruct (c_kind c); reflexivity.
      * intros A. exists ks, ps.
        assert (Rks' : All3 (krel true) (f_kin s) (t_cons (f_task s)) ks) by (eapply all3_mono; [intros ? ? ?; apply krel_on|exact Rks]).
        assert (Rps' : Forall2 (prel true) (t_prov (f_task s)) ps) by (eapply all2_mono; [intros ? ?; apply prel_on|exact Rps]).
        destruct (c_kind c) eqn:Ek; constructor; cbn; rewrite ?Ek; auto; try tauto; try discriminate; symmetry; tauto.
  - (* FTickerStop *)
    destruct Sw as [Sw Ek].
    eapply (client_silent c s t i o FTickerStop); try eassumption; try reflexivity; [ng|try exact I..|].
    intros ks ps Q A. unrel Q. cbn in Rst. exists ks, ps. constructor; cbn; auto; try discriminate.
    intros F. rewrite (Rstop eq_refl) in F. discriminate.
  - (* FUnlock *)
    destruct R as (ks & ps & R). destruct (hold_client s i _ M Hi ltac:(ng)) as [L Hh]. rewrite Hh in R. unrel R. cbn in Rst.
    exists [], t, [], []. split; [reflexivity|]. split.
    + exists ks, ps. unfold holding. cbn [f_lock]. constructor; cbn; auto; try discriminate.
      eapply clients_stay; [exact Rcl|exact Hi|exact Hc|exact I|reflexivity].
    + apply ob_silent. eapply (stg_moved_same c s _ _ _ i (FUnlock e) (FRet e) o Hi); [reflexivity|exact Hc|]. reflexivity.
  - (* FRet *)
    destruct R as (ks & ps & R).
    assert (Hh : holding (FTask (set_client i CIdle (f_task s)) (f_lock s) (upd i None (f_in s)) (f_kin s)) = holding s).
    { unfold holding. cbn. destruct (f_lock s) as [[j|k]|] eqn:L; [|reflexivity..]. destruct (mx_client s M j L) as (w & Hw & G).
      rewrite nth_error_upd_other; [reflexivity|]. intros ->. apply G. exists e. congruence. }
    exists [], t, [], [Seen (ERet i o (outcome o e) (t_now (f_task s)))]. split; [reflexivity|]. split.
    + exists ks, ps. rewrite Hh. unrel R. constructor; cbn; auto; try discriminate.
      destruct (coarse_client _ _ _ _ _ _ _ Rcl Hi Hc) as [Hct _]. rewrite <- (upd_same (t_clients t) i _ Hct).
      apply all3_upd; [exact Rcl|]. cbn. auto.
    + apply ob_returns.
      * rewrite (stg_client c s i _ o Hi Hc). reflexivity.
      * unfold stg. cbn. rewrite (nth_error_upd_same i _ _ _ Hi), (nth_error_upd_same i _ _ _ Hc). reflexivity.
      * intros j N. unfold stg. cbn. rewrite !nth_error_upd_other by auto. reflexivity.
Qed.

(** ** The consumer *)
Lemma extra_k_cons c w : extra_k c (HCons w) = []. Proof. reflexivity. Qed.

Lemma nth_cons c h s t ks ps k b : rel c h s t ks ps -> nth_error ks k = Some b -> nth_error (t_cons t) k = Some b.
Proof. intros R E. rewrite (rl_cons _ _ _ _ _ _ R). apply nth_app_l. exact E. Qed.
Lemma upd_cons c h s t ks ps k x b : rel c h s t ks ps -> nth_error ks k = Some b -> upd k x (t_cons t) = upd k x ks ++ extra_k c h.
Proof. intros R E. rewrite (rl_cons _ _ _ _ _ _ R). eapply upd_app_l. exact E. Qed.

Lemma ks_stay sg kin cs ks k x' a b : All3 (krel sg) kin cs ks -> nth_error cs k = Some a -> nth_error ks k = Some b -> krel sg x' a b ->
  All3 (krel sg) (upd k x' kin) cs ks.
Proof. intros A Ha Hb K. rewrite <- (upd_same cs k _ Ha), <- (upd_same ks k _ Hb). apply all3_upd; assumption. Qed.
Lemma ks_move sg kin cs ks k x' a b' : All3 (krel sg) kin cs ks -> nth_error cs k = Some a -> krel sg x' a b' ->
  All3 (krel sg) (upd k x' kin) cs (upd k b' ks).
Proof. intros A Ha K. rewrite <- (upd_same cs k _ Ha). apply all3_upd; assumption. Qed.

Lemma sim_kstep c s t k w x : mutex s -> rels c s t -> nth_error (f_kin s) k = Some (Some w) -> nth_error (t_cons (f_task s)) k = Some x ->
  simulated c s (kstep c s k w) [] t.
Proof.
  intros M (ks & ps & R) Hk Hx. destruct (hold_consumer s k w M Hk) as [L Hh]. rewrite Hh in R.
  destruct (all3_nth1 _ _ _ _ (rl_ks _ _ _ _ _ _ R) _ _ Hk) as (a & b & Ha & Hb & K). assert (a = x) as -> by congruence. clear Ha.
  pose proof (nth_cons _ _ _ _ _ _ _ _ R Hb) as Hbt. pose proof (fun y => upd_cons c (HCons w) s t ks ps k y b R Hb) as U.
  destruct w; cbn [kstep]; cbn [krel] in K.
  - (* IStatus *)
    destruct K as [-> K].
    assert (Q : exists ls t1, exec (tstep c) t ls = (t1, []) /\ t1 = set_cons k (if t_status t =? stopped then KDone else KNo) t).
    { destruct K as [->|[Hs ->]].
      - exists [LCons k]. eexists. split; [|reflexivity]. cbn [exec tstep]. unfold cons_step. rewrite Hbt, (rl_locked _ _ _ _ _ _ R). cbn [at_append].
        destruct (t_status t =? stopped); reflexivity.
      - exists [LConsStop k]. eexists. split; [|reflexivity]. cbn [exec tstep]. rewrite Hbt, (rl_sig _ _ _ _ _ _ R), Hs.
        rewrite (rl_over _ _ _ _ _ _ R Hs). reflexivity. }
    destruct Q as (ls & t1 & E & ->). exists ls. eexists. exists [], []. split; [exact E|]. split.
    + exists (upd k (if t_status t =? stopped then KDone else KNo) ks), ps. rewrite (hold_k s k IStatus) by assumption.
      pose proof (U (if t_status t =? stopped then KDone else KNo)) as U'. unrel R. cbn in Rst.
      constructor; cbn; auto; try discriminate. eapply ks_move; [exact Rks|exact Hx|]. cbn. rewrite Rst. auto.
    + apply ob_silent, stg_same. reflexivity.
  - (* IGot *)
    destruct K as [-> ->]. exists [], t, [], []. split; [reflexivity|]. split.
    + exists ks, ps. unrel R. cbn in Rst. unfold holding, leave. cbn [f_lock]. constructor; cbn; auto; try discriminate.
      rewrite <- (upd_same ks k _ Hb). apply all3_upd; [exact Rks|]. cbn. auto.
    + apply ob_silent, stg_same. reflexivity.
  - (* INo *)
    destruct K as [-> ->]. exists [], t, [], []. split; [reflexivity|]. split.
    + exists ks, ps. rewrite (hold_k s k INo) by assumption. unrel R. cbn in Rst. constructor; cbn; auto; try discriminate.
      eapply ks_stay; try eassumption. cbn. auto.
    + apply ob_silent, stg_same. reflexivity.
  - (* IWrite *)
    destruct K as [-> ->]. exists [], t, [], []. split; [reflexivity|]. split.
    + exists ks, ps. rewrite (hold_k s k (IWrite n)) by assumption. unrel R. cbn in Rst, Rno. constructor; cbn; auto; try discriminate; [lia|].
      eapply ks_stay; try eassumption. cbn. auto.
    + apply ob_silent, stg_same. reflexivity.
  - (* IRead *)
    destruct K as [-> ->]. exists [], t, [], []. split; [reflexivity|]. split.
    + exists ks, ps. rewrite (hold_k s k IRead) by assumption. unrel R. cbn in Rst, Rno. constructor; cbn; auto; try discriminate.
      eapply ks_stay; try eassumption. cbn. auto.
    + apply ob_silent, stg_same. reflexivity.
  - (* IRet *)
    destruct K as [-> ->]. exists [LCons k]. eexists. exists [], []. split; [|split].
    + cbn [exec tstep]. unfold cons_step. rewrite Hbt, (rl_locked _ _ _ _ _ _ R). cbn [at_append].
      instantiate (1 := set_cons k (match c_kind c with Delay => KRun (length (t_runs t)) | Rate => KWait end)
        (set_runs (t_runs t ++ [Run (t_no t + 1) RStart JNone 0 false]) (set_no (t_no t + 1) t))). destruct (c_kind c); reflexivity.
    + exists (upd k (match c_kind c with Delay => KRun (length (t_runs t)) | Rate => KWait end) ks), ps.
      pose proof (U (match c_kind c with Delay => KRun (length (t_runs t)) | Rate => KWait end)) as U'. unrel R. cbn in Rst, Rno.
      destruct Rno as [Rno ->]. unfold holding, leave. cbn [f_lock]. constructor; cbn; auto; try discriminate.
      * rewrite Rruns, Rno. reflexivity.
      * apply all3_upd; [exact Rks|]. left. rewrite Rruns. reflexivity.
    + apply ob_silent, stg_same. reflexivity.
Qed.

Lemma free_hold s : f_lock s = None -> holding s = HNone.
Proof. intros L. unfold holding. rewrite L. reflexivity. Qed.

(** Taking the lock. *)
Lemma sim_take_client c s t i o : mutex s -> rels c s t -> f_lock s = None -> nth_error (f_in s) i = Some None ->
  nth_error (t_clients (f_task s)) i = Some (CWant o) ->
  simulated c s (FTask (f_task s) (Some (Client i)) (upd i (Some (enter o)) (f_in s)) (f_kin s)) [] t.
Proof.
  intros M (ks & ps & R) L Hi Hc. rewrite (free_hold s L) in R. exists [], t, [], []. split; [reflexivity|]. split.
  - exists ks, ps. unfold holding. cbn [f_lock f_in]. rewrite (nth_error_upd_same i _ _ _ Hi). unrel R. cbn in Rst.
    assert (A : All3 (crel c) (upd i (Some (enter o)) (f_in s)) (t_clients (f_task s)) (t_clients t)).
    { destruct (all3_nth1 _ _ _ _ Rcl _ _ Hi) as (a & b & Ha & Hb & (-> & _)).
      rewrite <- (upd_same (t_clients t) i _ Hb). assert (a = CWant o) as -> by congruence.
      replace (CWant o) with (after c (enter o) o) at 1 by (destruct o; reflexivity). apply clients_move; [exact Rcl|exact Hc|].
      destruct o; reflexivity. }
    destruct o; constructor; cbn; auto; try discriminate.
  - apply ob_silent. intros j. unfold stg. cbn. destruct (Nat.eq_dec i j) as [->|N].
    + rewrite (nth_error_upd_same j _ _ _ Hi), Hi, Hc. destruct o; reflexivity.
    + rewrite nth_error_upd_other by exact N. reflexivity.
Qed.
Lemma sim_take_consumer c s t k w a : mutex s -> rels c s t -> f_lock s = None -> nth_error (f_kin s) k = Some None ->
  nth_error (t_cons (f_task s)) k = Some a -> (a = KCheck /\ w = IStatus \/ a = KNo /\ w = INo) ->
  simulated c s (FTask (f_task s) (Some (Consumer k)) (f_in s) (upd k (Some w) (f_kin s))) [] t.
Proof.
  intros M (ks & ps & R) L Hk Ha Q. rewrite (free_hold s L) in R. exists [], t, [], []. split; [reflexivity|]. split.
  - exists ks, ps. unfold holding. cbn [f_lock f_kin]. rewrite (nth_error_upd_same k _ _ _ Hk). unrel R. cbn in Rst.
    destruct (all3_nth1 _ _ _ _ Rks _ _ Hk) as (a' & b & Ha' & Hb & K). assert (a' = a) as -> by congruence.
    destruct Q as [[-> ->]|[-> ->]]; constructor; cbn; auto; try discriminate; (eapply ks_stay; try eassumption); cbn in *; intuition discriminate.
  - apply ob_silent, stg_same. reflexivity.
Qed.

(** ** Steps outside the lock *)
Lemma sim_outside c s t b es ls t1 : mutex s -> (forall ks ps, rel c (holding s) s t ks ps ->
    exec (tstep c) t ls = (t1, es) /\ exists ks1 ps1, rel c (holding s) (FTask b (f_lock s) (f_in s) (f_kin s)) t1 ks1 ps1) ->
  rels c s t -> t_clients b = t_clients (f_task s) -> Forall inner es -> simulated c s (FTask b (f_lock s) (f_in s) (f_kin s)) es t.
Proof.
  intros M K (ks & ps & R) Eb F. destruct (K ks ps R) as (E & R1). exists ls, t1, es, (map Both es). split; [exact E|]. split; [exact R1|].
  apply ob_events; [|exact F]. apply stg_same. exact Eb.
Qed.

Lemma kwait_rel sg x b : krel sg x KWait b -> x = None /\ b = KWait.
Proof. destruct x as [[]|]; cbn; intuition discriminate. Qed.

Lemma prov_nth c h s t ks ps p a : rel c h s t ks ps -> nth_error (t_prov (f_task s)) p = Some a ->
  exists b, nth_error ps p = Some b /\ nth_error (t_prov t) p = Some b /\ prel (t_sig (f_task s)) a b /\
    forall x, upd p x (t_prov t) = upd p x ps ++ extra_p c h.
Proof.
  intros R E. destruct (all2_nth _ _ _ (rl_ps _ _ _ _ _ _ R) _ _ E) as (b & Hb & P). exists b. split; [exact Hb|].
  rewrite (rl_prov _ _ _ _ _ _ R). split; [apply nth_app_l; exact Hb|]. split; [exact P|]. intros x. eapply upd_app_l. exact Hb.
Qed.
Lemma cons_nth c h s t ks ps k a : rel c h s t ks ps -> nth_error (t_cons (f_task s)) k = Some a ->
  exists x b, nth_error (f_kin s) k = Some x /\ nth_error ks k = Some b /\ nth_error (t_cons t) k = Some b /\ krel (t_sig (f_task s)) x a b /\
    forall y, upd k y (t_cons t) = upd k y ks ++ extra_k c h.
Proof.
  intros R E. destruct (all3_nth2 _ _ _ _ (rl_ks _ _ _ _ _ _ R) _ _ E) as (x & b & Hx & Hb & K). exists x, b. split; [exact Hx|]. split; [exact Hb|].
  split; [eapply nth_cons; eassumption|]. split; [exact K|]. intros y. eapply upd_cons; eassumption.
Qed.
Lemma kin_upd sg kin cs ks k x a b : All3 (krel sg) kin cs ks -> nth_error kin k = Some x -> krel sg x a b -> All3 (krel sg) kin (upd k a cs) (upd k b ks).
Proof. intros A E K. rewrite <- (upd_same kin k _ E). apply all3_upd; assumption. Qed.
Lemma kin_upd1 sg kin cs ks k x a b : All3 (krel sg) kin cs ks -> nth_error kin k = Some x -> nth_error ks k = Some b -> krel sg x a b ->
  All3 (krel sg) kin (upd k a cs) ks.
Proof. intros A E Eb K. rewrite <- (upd_same ks k _ Eb). eapply kin_upd; eassumption. Qed.
Lemma prov_upd1 sg l ps p a b : Forall2 (prel sg) l ps -> nth_error ps p = Some b -> prel sg a b -> Forall2 (prel sg) (upd p a l) ps.
Proof. intros A E P. rewrite <- (upd_same ps p _ E). apply all2_upd; assumption. Qed.

Lemma sim_call c s t i o : mutex s -> rels c s t -> nth_error (t_clients (f_task s)) i = Some CIdle ->
  simulated c s (FTask (set_client i (CWant o) (f_task s)) (f_lock s) (f_in s) (f_kin s)) [ECall i o] t.
Proof.
  intros M (ks & ps & R) Hc. destruct (all3_nth2 _ _ _ _ (rl_clients _ _ _ _ _ _ R) _ _ Hc) as (x & b & Hx & Hb & C).
  destruct x as [w|]; cbn [crel] in C; [destruct C as (o' & F & _); discriminate|]. destruct C as [-> _].
  exists [LCall i o], (set_client i (CWant o) t), [ECall i o], [Both (ECall i o)]. split; [cbn [exec tstep]; rewrite Hb; reflexivity|]. split.
  - exists ks, ps. change (holding _) with (holding s). unrel R. constructor; cbn; auto.
    rewrite <- (upd_same (f_in s) i _ Hx). apply all3_upd; [exact Rcl|]. cbn. eauto.
  - apply ob_call.
    + unfold stg. rewrite Hx, Hc. reflexivity.
    + unfold stg. cbn. rewrite Hx, (nth_error_upd_same i _ _ _ Hc). reflexivity.
    + intros j N. unfold stg. cbn. rewrite nth_error_upd_other by auto. reflexivity.
Qed.

Lemma run_inner c now sg r r' es : rtrans c now sg r r' es -> Forall inner es.
Proof. intros H; inversion H; subst; unfold cancels; try destruct (r_done r); repeat constructor. Qed.

Lemma sim_run c s t l j b es : mutex s -> rels c s t -> run_label l = Some j -> tstep c (f_task s) l = Some (b, es) ->
  simulated c s (FTask b (f_lock s) (f_in s) (f_kin s)) es t.
Proof.
  intros M R El E. pose proof R as (ks & ps & Q).
  destruct (run_same c (f_task s) t l j b es El (rl_runs _ _ _ _ _ _ Q) (rl_now _ _ _ _ _ _ Q) (rl_sig _ _ _ _ _ _ Q) E) as (rs & -> & Et).
  destruct (tstep_run c _ _ _ _ _ El E) as (r & r' & _ & Tr & _).
  apply (sim_outside c s t _ es [l] (set_runs rs t)); auto; [|eapply run_inner; exact Tr].
  intros ks' ps' R'. split; [cbn [exec]; rewrite Et; rewrite app_nil_r; reflexivity|]. exists ks', ps'. unrel R'. constructor; cbn; auto.
Qed.

(** A receive from jobQ: the coarse consumer receives too unless the task is stopped. *)
Lemma receive_rel c h s t ks ps k b : rel c h s t ks ps -> receive k (f_task s) = Some b ->
  b = set_cons k KCheck (f_task s) /\
  (exists t1, receive k t = Some t1 /\ t1 = set_cons k KCheck t /\ All3 (krel (t_sig (f_task s))) (f_kin s) (t_cons b) (upd k KCheck ks) /\
     t_cons t1 = upd k KCheck ks ++ extra_k c h) /\
  (t_sig (f_task s) = true -> All3 (krel (t_sig (f_task s))) (f_kin s) (t_cons b) ks).
Proof.
  intros R E. apply receive_some in E as [Hk ->]. destruct (cons_nth _ _ _ _ _ _ _ _ R Hk) as (x & b & Hx & Hb & Ht & K & U).
  apply kwait_rel in K as [-> ->]. split; [reflexivity|]. split.
  - exists (set_cons k KCheck t). unfold receive. rewrite Ht. split; [reflexivity|]. split; [reflexivity|]. split; [|apply U].
    eapply kin_upd; [apply (rl_ks _ _ _ _ _ _ R)|exact Hx|]. cbn. auto.
  - intros Hs. eapply kin_upd1; [apply (rl_ks _ _ _ _ _ _ R)|exact Hx|exact Hb|]. cbn. auto.
Qed.

Ltac by_outside ls t1 := apply (sim_outside _ _ _ _ [] ls t1); [assumption| |assumption|reflexivity|constructor].
Ltac goes := cbn [exec tstep]; first [reflexivity|idtac].

Lemma sim_step c s t l s1 es : mutex s -> rels c s t -> fstep0 c s l = Some (s1, es) -> simulated c s s1 es t.
Proof.
  intros M R E. destruct l; cbn [fstep0] in E;
    try (apply outside_some in E as (b & E & ->); eapply sim_run; [exact M|exact R| |exact E]; reflexivity);
    try (apply outside_some in E as (b & E & ->); cbn [tstep] in E).
  - (* LTime *)
    destruct (0 <=? d) eqn:Ed; [|discriminate]. injection E as <- <-. by_outside [LTime d] (set_now (t_now t + d) t).
    intros ks ps Q. unrel Q. split; [cbn [exec tstep]; rewrite Ed; reflexivity|]. exists ks, ps. constructor; cbn; auto; lia.
  - (* LCall *)
    destruct (nth_error (t_clients (f_task s)) i) as [[| |]|] eqn:Hc; try discriminate. injection E as <- <-. apply sim_call; assumption.
  - (* LClient *)
    destruct (nth_error (f_in s) i) as [[w|]|] eqn:Hi; [| |discriminate];
      (destruct (nth_error (t_clients (f_task s)) i) as [[|o|o]|] eqn:Hc; try discriminate).
    + eapply sim_wstep; eassumption.
    + destruct (f_lock s) as [ow|] eqn:L; [discriminate|]. injection E as <- <-. apply sim_take_client; assumption.
  - (* LClientSend *)
    destruct (nth_error (f_in s) i) as [[w|]|] eqn:Hi; try discriminate. destruct w; try discriminate.
    destruct (receive k (f_task s)) as [b|] eqn:Hr; [|discriminate]. injection E as <- <-.
    destruct R as (ks & ps & R). destruct (hold_client s i _ M Hi ltac:(ng)) as [L Hh]. pose proof R as R0. rewrite Hh in R.
    destruct (all3_nth1 _ _ _ _ (rl_clients _ _ _ _ _ _ R) _ _ Hi) as (a & b' & Ha & Hb & (o & -> & -> & S)).
    unfold client_at. eapply (client_takes c s t i o FAppend) with (l := LClientSend i k) (r := Ok)
        (t1 := set_client i CIdle (set_locked false (set_cons k KCheck t)));
      try eassumption; try reflexivity; [exists ks, ps; exact R0|ng| |].
    + apply receive_some in Hr as [_ ->]. reflexivity.
    + intros ks' ps' Q Hct _. destruct (receive_rel _ _ _ _ _ _ _ _ Q Hr) as (-> & (t1 & Et & -> & A & U) & _). split; [|split].
      * cbn [tstep]. rewrite Hct, Et. cbn [after]. unfold returns. cbn [outcome]. reflexivity.
      * reflexivity.
      * intros A3. unrel Q. exists (upd k KCheck ks'), ps'. constructor; cbn; auto; discriminate.
  - (* LClientStop *)
    destruct (nth_error (f_in s) i) as [[w|]|] eqn:Hi; try discriminate. destruct w; try discriminate.
    destruct (t_sig (f_task s)) eqn:Hs; [|discriminate]. injection E as <- <-.
    pose proof R as (ks & ps & R0). destruct (hold_client s i _ M Hi ltac:(ng)) as [L Hh].
    destruct (all3_nth1 _ _ _ _ (rl_clients _ _ _ _ _ _ R0) _ _ Hi) as (a & b' & Ha & Hb & (o & -> & -> & S)).
    unfold client_at. eapply (client_takes c s t i o FAppend) with (l := LClientStop i) (r := Ok)
        (t1 := set_client i CIdle (set_locked false t));
      try eassumption; try reflexivity; [ng|].
    intros ks' ps' Q Hct _. split; [|split].
    + cbn [tstep]. rewrite Hct. cbn [after]. rewrite (rl_sig _ _ _ _ _ _ Q), Hs. unfold returns. reflexivity.
    + reflexivity.
    + intros A3. unrel Q. exists ks', ps'. constructor; cbn; auto; discriminate.
  - (* LCons *)
    destruct (nth_error (f_kin s) k) as [[w|]|] eqn:Hk; [| |discriminate];
      (destruct (nth_error (t_cons (f_task s)) k) as [x|] eqn:Hc; [|discriminate]).
    + injection E as <- <-. eapply sim_kstep; eassumption.
    + destruct x; try (apply outside_some in E as (b & E & ->); unfold cons_step in E; rewrite Hc in E; try discriminate).
      * destruct (f_lock s) as [ow|] eqn:L; [discriminate|]. injection E as <- <-. eapply sim_take_consumer; try eassumption. auto.
      * destruct (f_lock s) as [ow|] eqn:L; [discriminate|]. injection E as <- <-. eapply sim_take_consumer; try eassumption. auto.
      * destruct (nth_error (t_runs (f_task s)) j) as [r|] eqn:Hr; [|discriminate]. destruct (r_pc r) eqn:Hp; try discriminate. injection E as <- <-.
        by_outside [LCons k] (set_timers (t_timers t ++ [TGo]) (set_cons k KWait t)).
        intros ks ps Q. destruct (cons_nth _ _ _ _ _ _ _ _ Q Hc) as (x & b & Hx & Hb & Ht & K & U). assert (x = None) as -> by congruence.
        destruct K as [->|(_ & F & _)]; [|discriminate]. unrel Q. split.
        -- cbn [exec tstep]. unfold cons_step. rewrite Ht, Rruns, Hr, Hp. reflexivity.
        -- exists (upd k KWait ks), ps. constructor; cbn; auto; [congruence|]. eapply kin_upd; [exact Rks|exact Hx|]. cbn. auto.
  - (* LConsStop *)
    destruct (nth_error (t_cons (f_task s)) k) as [[]|] eqn:Hc; try discriminate. destruct (t_sig (f_task s)) eqn:Hs; [|discriminate]. injection E as <- <-.
    by_outside [LConsStop k] (set_cons k KDone t).
    intros ks ps Q. destruct (cons_nth _ _ _ _ _ _ _ _ Q Hc) as (x & b & Hx & Hb & Ht & K & U). apply kwait_rel in K as [-> ->]. unrel Q. split.
    + cbn [exec tstep]. rewrite Ht, Rsig, Hs. reflexivity.
    + exists (upd k KDone ks), ps. constructor; cbn; auto. eapply kin_upd; [exact Rks|exact Hx|]. cbn. auto.
  - (* LProvSend *)
    destruct (nth_error (t_prov (f_task s)) p) as [[]|] eqn:Hp; try discriminate. destruct (receive k (f_task s)) as [b0|] eqn:Hr; [|discriminate]. injection E as <- <-.
    destruct (t_sig (f_task s)) eqn:Hs.
    + apply receive_some in Hr as Hr'. destruct Hr' as [_ ->]. by_outside (@nil label) t.
      intros ks ps Q. split; [reflexivity|]. destruct (receive_rel _ _ _ _ _ _ _ _ Q Hr) as (_ & _ & A).
      destruct (prov_nth _ _ _ _ _ _ _ _ Q Hp) as (b & Hb & _ & P & _). unrel Q. exists ks, ps. constructor; cbn; auto.
      eapply prov_upd1; [exact Rps|exact Hb|]. right. rewrite Hs in *. destruct P as [->|(_ & _ & P)]; repeat split; congruence.
    + apply receive_some in Hr as Hr'. destruct Hr' as [_ ->]. by_outside [LProvSend p k] (set_prov p PTick (set_cons k KCheck t)).
      intros ks ps Q. destruct (receive_rel _ _ _ _ _ _ _ _ Q Hr) as (_ & (t1 & Et & -> & A & U) & _).
      destruct (prov_nth _ _ _ _ _ _ _ _ Q Hp) as (b & Hb & Hbt & P & Up). rewrite Hs in P. destruct P as [->|(F & _)]; [|discriminate].
      split; [cbn [exec tstep]; rewrite Hbt, Et; reflexivity|]. unrel Q. exists (upd k KCheck ks), (upd p PTick ps). constructor; cbn; auto.
      apply all2_upd; [exact Rps|]. left. reflexivity.
  - (* LProvTick *)
    destruct (nth_error (t_prov (f_task s)) p) as [[]|] eqn:Hp; try discriminate. destruct (t_tickbuf (f_task s)) eqn:Hb; [|discriminate]. injection E as <- <-.
    destruct (t_sig (f_task s)) eqn:Hs.
    + by_outside (@nil label) t. intros ks ps Q. split; [reflexivity|].
      destruct (prov_nth _ _ _ _ _ _ _ _ Q Hp) as (b & Hbp & _ & P & _). unrel Q. exists ks, ps. constructor; cbn; auto; [intros F; congruence|].
      eapply prov_upd1; [exact Rps|exact Hbp|]. right. rewrite Hs in *. destruct P as [->|(_ & _ & P)]; repeat split; congruence.
    + by_outside [LProvTick p] (set_prov p PSend (set_tick (t_tick t) false t)). intros ks ps Q.
      destruct (prov_nth _ _ _ _ _ _ _ _ Q Hp) as (b & Hbp & Hbt & P & Up). rewrite Hs in P. destruct P as [->|(F & _)]; [|discriminate].
      unrel Q. destruct (Rtick Hs) as [T1 T2]. split; [cbn [exec tstep]; rewrite Hbt, T2, Hb; reflexivity|].
      exists ks, (upd p PSend ps). constructor; cbn; auto. apply all2_upd; [exact Rps|]. left. reflexivity.
  - (* LProvStop *)
    assert (exists a, nth_error (t_prov (f_task s)) p = Some a /\ a <> PDone /\ t_sig (f_task s) = true /\ b = set_prov p PDone (f_task s) /\ es = []) as (a & Hp & Na & Hs & -> & ->).
    { destruct (nth_error (t_prov (f_task s)) p) as [a|]; [|discriminate]. exists a.
      destruct a, (t_sig (f_task s)); try discriminate; injection E as <- <-; repeat split; discriminate. }
    by_outside [LProvStop p] (set_prov p PDone t). intros ks ps Q.
    destruct (prov_nth _ _ _ _ _ _ _ _ Q Hp) as (b & Hbp & Hbt & P & Up). assert (Nb : b <> PDone) by (destruct P as [->|(_ & _ & P)]; assumption).
    unrel Q. split; [cbn [exec tstep]; rewrite Hbt, Rsig, Hs; destruct b; try reflexivity; contradiction|].
    exists ks, (upd p PDone ps). constructor; cbn; auto. apply all2_upd; [exact Rps|]. left. reflexivity.
  - (* LTicker *)
    unfold ticker_step in E. destruct (t_tick (f_task s)) as [next|] eqn:Ht; [|discriminate]. destruct (next <=? t_now (f_task s)) eqn:El; [|discriminate]. injection E as <- <-.
    destruct (t_sig (f_task s)) eqn:Hs.
    + by_outside (@nil label) t. intros ks ps Q. split; [reflexivity|]. unrel Q. exists ks, ps. constructor; cbn; auto. intros F; congruence.
    + by_outside [LTicker] (set_tick (Some (next + c_interval c * (1 + (t_now t - next) / c_interval c))) true t). intros ks ps Q. unrel Q.
      destruct (Rtick Hs) as [T1 T2]. split; [cbn [exec tstep]; unfold ticker_step; rewrite T1, Ht, Rnow, El; reflexivity|].
      exists ks, ps. constructor; cbn; auto. intros _. rewrite Rnow. auto.
  - (* LTimer *)
    destruct (nth_error (t_timers (f_task s)) j) as [[|a| |]|] eqn:Hj; try discriminate.
    + injection E as <- <-. by_outside [LTimer j] (set_timer j (TArmed (t_now t + c_interval c)) t). intros ks ps Q. unrel Q.
      split; [cbn [exec tstep]; rewrite Rtim, Hj; reflexivity|]. exists ks, ps. constructor; cbn; auto. rewrite Rtim, Rnow. reflexivity.
    + destruct (a <=? t_now (f_task s)) eqn:El; [|discriminate]. injection E as <- <-. by_outside [LTimer j] (set_timer j TSend t). intros ks ps Q. unrel Q.
      split; [cbn [exec tstep]; rewrite Rtim, Hj, Rnow, El; reflexivity|]. exists ks, ps. constructor; cbn; auto. rewrite Rtim. reflexivity.
  - (* LTimerSend *)
    destruct (nth_error (t_timers (f_task s)) j) as [[]|] eqn:Hj; try discriminate. destruct (receive k (f_task s)) as [b0|] eqn:Hr; [|discriminate]. injection E as <- <-.
    apply receive_some in Hr as Hr'. destruct Hr' as [_ ->]. destruct (t_sig (f_task s)) eqn:Hs.
    + by_outside [LTimerStop j] (set_timer j TDone t). intros ks ps Q. destruct (receive_rel _ _ _ _ _ _ _ _ Q Hr) as (_ & _ & A). unrel Q.
      split; [cbn [exec tstep]; rewrite Rtim, Hj, Rsig, Hs; reflexivity|]. exists ks, ps. constructor; cbn; auto. rewrite Rtim. reflexivity.
    + by_outside [LTimerSend j k] (set_timer j TDone (set_cons k KCheck t)). intros ks ps Q.
      destruct (receive_rel _ _ _ _ _ _ _ _ Q Hr) as (_ & (t1 & Et & -> & A & U) & _). unrel Q.
      split; [cbn [exec tstep]; rewrite Rtim, Hj, Et; reflexivity|]. exists (upd k KCheck ks), ps. constructor; cbn; auto. rewrite Rtim. reflexivity.
  - (* LTimerStop *)
    destruct (nth_error (t_timers (f_task s)) j) as [[]|] eqn:Hj; try discriminate. destruct (t_sig (f_task s)) eqn:Hs; [|discriminate]. injection E as <- <-.
    by_outside [LTimerStop j] (set_timer j TDone t). intros ks ps Q. unrel Q.
    split; [cbn [exec tstep]; rewrite Rtim, Hj, Rsig, Hs; reflexivity|]. exists ks, ps. constructor; cbn; auto. rewrite Rtim. reflexivity.
Qed.
