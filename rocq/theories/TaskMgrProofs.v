(** Proofs about the task manager. *)
From Verif Require Import Common Threads Bytes ScheduleModel ScheduleProofs TaskMgrModel TaskMgrSpec.
Local Open Scope list_scope.
Local Open Scope Z_scope.

Definition holds (p : mpc) : Z := match p with PIdle | PWant _ => 0 | _ => 1 end.

Definition pc_ok (name : nat -> string) (m : mgr) (tr : list mevent) (p : mpc) : Prop :=
  match p with
  | PIdle | PWant _ => True
  | PReg t => registered name tr (name t) = None /\ find_task (name t) (m_map m) = Some t
  | PUnreg nm t => registered name tr nm = Some t
  | PAll rest => (forall t, In t rest -> registered name tr (name t) = Some t) /\
                 (forall nm t, registered name tr nm = Some t -> In t rest \/ was_stopped t tr = true)
  end.

Definition opcall (p : mpc) : option mop :=
  match p with
  | PIdle => None
  | PWant o => Some o
  | PReg t => Some (MRegister t)
  | PUnreg nm _ => Some (MUnregister nm)
  | PAll _ => Some MUnregisterAll
  end.

(** The map against the registry: in Register the entry is already there. *)
Definition map_ok (name : nat -> string) (m : mgr) (tr : list mevent) : Prop :=
  forall nm, find_task nm (m_map m) = registered name tr nm \/
    exists i t, nth_error (m_pcs m) i = Some (PReg t) /\ nm = name t.

Record minv (name : nat -> string) (m : mgr) (tr : list mevent) : Prop := MInv {
  v_lock : sumZ holds (m_pcs m) = if m_locked m then 1 else 0;
  v_status : forall t, m_status m t = if was_stopped t tr then stopped else if was_started t tr then started else new;
  v_stopped : forall t, was_stopped t tr = true -> was_started t tr = true;
  v_reg : forall nm t, registered name tr nm = Some t -> name t = nm /\ was_started t tr = true;
  v_map : map_ok name m tr;
  v_names : Forall (fun kt => fst kt = name (snd kt)) (m_map m);
  v_nodup : NoDup (map fst (m_map m));
  v_pcs : forall i p, nth_error (m_pcs m) i = Some p -> pc_ok name m tr p;
  v_call : forall i, calling i tr = match nth_error (m_pcs m) i with Some p => opcall p | None => None end
}.

Lemma registered_app name a b : registered name (a ++ b) = fold_left (fun reg e =>
    match e with
    | VRet _ (MRegister t) MErr => reg
    | VRet _ (MRegister t) _ => mset reg (name t) t
    | VRet _ (MUnregister nm) _ => mdel reg nm
    | VRet _ MUnregisterAll _ => mempty
    | _ => reg
    end) b (registered name a).
Proof. apply fold_left_app. Qed.

Lemma calling_app i a b : calling i (a ++ b) = fold_left (fun acc e =>
    match e with
    | VCall j o => if Nat.eqb i j then Some o else acc
    | VRet j _ _ => if Nat.eqb i j then None else acc
    | _ => acc
    end) b (calling i a).
Proof. apply fold_left_app. Qed.

Lemma holds_nonneg l : Forall (fun p => 0 <= holds p) l.
Proof. apply Forall_forall. intros [] _; cbn; lia. Qed.

(** The holder of the lock is alone. *)
Lemma holder_alone name m tr i p j q : minv name m tr -> nth_error (m_pcs m) i = Some p -> nth_error (m_pcs m) j = Some q ->
  holds p = 1 -> holds q = 1 -> i = j.
Proof.
  intros HI Hi Hj Hp Hq. destruct (Nat.eq_dec i j) as [E|E]; [exact E|]. exfalso. pose proof (v_lock name m tr HI) as HL.
  pose proof (sumZ_upd holds i PIdle (m_pcs m) p Hi) as U.
  assert (P : holds q <= sumZ holds (upd i PIdle (m_pcs m))) by (apply sumZ_ge_elem with j; [apply holds_nonneg|rewrite nth_error_upd_other by exact E; exact Hj]).
  cbn [holds] in U. destruct (m_locked m); lia.
Qed.

Lemma holder_locked name m tr i p : minv name m tr -> nth_error (m_pcs m) i = Some p -> holds p = 1 -> m_locked m = true.
Proof.
  intros HI Hi Hp. pose proof (v_lock name m tr HI) as HL. pose proof (sumZ_ge_elem holds (m_pcs m) i p (holds_nonneg _) Hi).
  destruct (m_locked m); [reflexivity|lia].
Qed.

Lemma map_reg name m tr : minv name m tr -> (forall i t, nth_error (m_pcs m) i <> Some (PReg t)) -> forall nm, find_task nm (m_map m) = registered name tr nm.
Proof. intros HI HN nm. destruct (v_map name m tr HI nm) as [H|(i & t & H & _)]; [exact H|]. destruct (HN i t H). Qed.

Lemma free_noreg name m tr : minv name m tr -> m_locked m = false -> forall i t, nth_error (m_pcs m) i <> Some (PReg t).
Proof. intros HI HL i t H. pose proof (holder_locked name m tr i _ HI H eq_refl). congruence. Qed.

Lemma find_in nm t l : NoDup (map fst l) -> In (nm, t) l -> find_task nm l = Some t.
Proof.
  induction l as [|(k, x) l IH]; [intros _ []|]. cbn [map fst find_task]. intros ND [E|Hin].
  - injection E as -> ->. rewrite seqb_refl. reflexivity.
  - inversion ND as [|? ? N1 N2]; subst. rewrite seqb_neq; [apply IH; assumption|]. intros ->. apply N1. apply in_map_iff. exists (k, t). auto.
Qed.

Lemma find_some nm t l : find_task nm l = Some t -> In (nm, t) l.
Proof.
  induction l as [|(k, x) l IH]; [discriminate|]. cbn [find_task]. destruct (String.eqb nm k) eqn:E.
  - intros [=]. subst. apply String.eqb_eq in E. subst. left. reflexivity.
  - intros H. right. apply IH, H.
Qed.

Lemma find_none nm l : find_task nm l = None -> ~ In nm (map fst l).
Proof.
  induction l as [|(k, x) l IH]; [intros _ []|]. cbn [find_task map fst]. destruct (String.eqb nm k) eqn:E; [discriminate|].
  intros H [->|Hin]; [rewrite seqb_refl in E; discriminate|exact (IH H Hin)].
Qed.

Lemma find_delete nm nm' l : find_task nm' (delete_task nm l) = if String.eqb nm' nm then None else find_task nm' l.
Proof.
  induction l as [|(k, x) l IH]; cbn [delete_task filter find_task fst]; [destruct (String.eqb nm' nm); reflexivity|].
  fold (delete_task nm l). destruct (String.eqb nm k) eqn:E; cbn [negb].
  - apply String.eqb_eq in E. subst k. rewrite IH. destruct (String.eqb nm' nm); reflexivity.
  - cbn [find_task]. destruct (String.eqb nm' k) eqn:E'; [|exact IH]. apply String.eqb_eq in E'. subst k.
    destruct (String.eqb nm' nm) eqn:E2; [|reflexivity]. apply String.eqb_eq in E2. subst. rewrite seqb_refl in E. discriminate.
Qed.

Lemma delete_sub nm l x : In x (delete_task nm l) -> In x l.
Proof. intros H. apply filter_In in H. apply H. Qed.

Lemma delete_nodup nm l : NoDup (map fst l) -> NoDup (map fst (delete_task nm l)).
Proof.
  induction l as [|(k, x) l IH]; cbn [delete_task filter map fst]; [auto|]. intros ND. inversion ND as [|? ? N1 N2]; subst. fold (delete_task nm l).
  destruct (negb (String.eqb nm k)); [|apply IH, N2]. cbn [map fst]. constructor; [|apply IH, N2].
  intros Hin. apply N1. apply in_map_iff in Hin. destruct Hin as (y & Ey & Hy). apply in_map_iff. exists y. split; [exact Ey|apply delete_sub in Hy; exact Hy].
Qed.

Lemma remove_nth_in {A} k (l : list A) x y : nth_error l k = Some x -> In y l -> y = x \/ In y (remove_nth k l).
Proof.
  revert k. induction l as [|z l IH]; intros k Hk; [destruct k; discriminate|]. destruct k as [|k]; cbn in Hk.
  - injection Hk as ->. intros [->|H]; [left; reflexivity|right; exact H].
  - intros [->|H]; [right; left; reflexivity|]. destruct (IH k Hk H) as [?|?]; [left; assumption|right; right; assumption].
Qed.

Lemma remove_nth_sub {A} k (l : list A) y : In y (remove_nth k l) -> In y l.
Proof.
  revert k. induction l as [|z l IH]; intros k H; [destruct k; destruct H|]. destruct k as [|k]; [right; exact H|].
  destruct H as [->|H]; [left; reflexivity|right; exact (IH k H)].
Qed.

(** ** Shapes of steps *)

Inductive mtrans (name : nat -> string) (m : mgr) : mgr -> list mevent -> Prop :=
| W_call i o : nth_error (m_pcs m) i = Some PIdle -> mtrans name m (with_mpc i (PWant o) m) [VCall i o]
| W_start i t : nth_error (m_pcs m) i = Some (PWant (MStart t)) -> m_status m t <> started -> m_status m t <> stopped ->
    mtrans name m (with_mpc i PIdle (set_st t started m)) [VRet i (MStart t) MOk]
| W_nostart i t : nth_error (m_pcs m) i = Some (PWant (MStart t)) -> m_status m t = started \/ m_status m t = stopped ->
    mtrans name m (with_mpc i PIdle m) [VRet i (MStart t) MErr]
| W_stop i t : nth_error (m_pcs m) i = Some (PWant (MStop t)) -> m_status m t <> new -> m_status m t <> stopped ->
    mtrans name m (with_mpc i PIdle (set_st t stopped m)) [VStopped i t; VRet i (MStop t) MOk]
| W_nostop i t : nth_error (m_pcs m) i = Some (PWant (MStop t)) -> m_status m t = new \/ m_status m t = stopped ->
    mtrans name m (with_mpc i PIdle m) [VRet i (MStop t) MErr]
| W_dup i t x : nth_error (m_pcs m) i = Some (PWant (MRegister t)) -> m_locked m = false -> find_task (name t) (m_map m) = Some x ->
    mtrans name m (with_mpc i PIdle m) [VRet i (MRegister t) MErr]
| W_insert i t : nth_error (m_pcs m) i = Some (PWant (MRegister t)) -> m_locked m = false -> find_task (name t) (m_map m) = None ->
    mtrans name m (with_mpc i (PReg t) (with_lock true (with_map ((name t, t) :: m_map m) m))) []
| W_reg i t : nth_error (m_pcs m) i = Some (PReg t) -> m_status m t <> started -> m_status m t <> stopped ->
    mtrans name m (with_mpc i PIdle (with_lock false (set_st t started m))) [VRet i (MRegister t) MOk]
| W_regpanic i t : nth_error (m_pcs m) i = Some (PReg t) -> m_status m t = started \/ m_status m t = stopped ->
    mtrans name m (with_mpc i PIdle (with_lock false m)) [VRet i (MRegister t) MPanic]
| W_absent i nm : nth_error (m_pcs m) i = Some (PWant (MUnregister nm)) -> m_locked m = false -> find_task nm (m_map m) = None ->
    mtrans name m (with_mpc i PIdle m) [VRet i (MUnregister nm) MOk]
| W_found i nm t : nth_error (m_pcs m) i = Some (PWant (MUnregister nm)) -> m_locked m = false -> find_task nm (m_map m) = Some t ->
    mtrans name m (with_mpc i (PUnreg nm t) (with_lock true m)) []
| W_unreg i nm t : nth_error (m_pcs m) i = Some (PUnreg nm t) -> m_status m t <> new -> m_status m t <> stopped ->
    mtrans name m (with_mpc i PIdle (with_lock false (with_map (delete_task nm (m_map m)) (set_st t stopped m)))) [VStopped i t; VRet i (MUnregister nm) MOk]
| W_unreg' i nm t : nth_error (m_pcs m) i = Some (PUnreg nm t) -> m_status m t = new \/ m_status m t = stopped ->
    mtrans name m (with_mpc i PIdle (with_lock false (with_map (delete_task nm (m_map m)) m))) [VRet i (MUnregister nm) MOk]
| W_all i : nth_error (m_pcs m) i = Some (PWant MUnregisterAll) -> m_locked m = false ->
    mtrans name m (with_mpc i (PAll (map snd (m_map m))) (with_lock true m)) []
| W_one i rest k t : nth_error (m_pcs m) i = Some (PAll rest) -> nth_error rest k = Some t -> m_status m t <> new -> m_status m t <> stopped ->
    mtrans name m (with_mpc i (PAll (remove_nth k rest)) (set_st t stopped m)) [VStopped i t]
| W_one' i rest k t : nth_error (m_pcs m) i = Some (PAll rest) -> nth_error rest k = Some t -> m_status m t = new \/ m_status m t = stopped ->
    mtrans name m (with_mpc i (PAll (remove_nth k rest)) m) []
| W_cleared i : nth_error (m_pcs m) i = Some (PAll []) ->
    mtrans name m (with_mpc i PIdle (with_lock false (with_map [] m))) [VRet i MUnregisterAll MOk].

Lemma mstep_trans name m l m1 es : mstep name m l = Some (m1, es) -> mtrans name m m1 es.
Proof.
  destruct l as [i o|i k]; cbn [mstep]; intros E.
  { destruct (nth_error (m_pcs m) i) as [[]|] eqn:Ei; try discriminate. injection E as <- <-. apply W_call, Ei. }
  assert (B : forall (a b : Z), (a =? b) = true -> a = b) by (intros a b; apply Z.eqb_eq).
  assert (B' : forall (a b : Z), (a =? b) = false -> a <> b) by (intros a b; apply Z.eqb_neq).
  destruct (nth_error (m_pcs m) i) as [[|[t|nm| |t|t]|t|nm t|[|x rest]]|] eqn:Ei; try discriminate.
  - destruct (m_locked m) eqn:EL; [discriminate|]. destruct (find_task (name t) (m_map m)) eqn:Ef; injection E as <- <-; [eapply W_dup|apply W_insert]; eassumption.
  - destruct (m_locked m) eqn:EL; [discriminate|]. destruct (find_task nm (m_map m)) eqn:Ef; injection E as <- <-; [apply W_found|apply W_absent]; assumption.
  - destruct (m_locked m) eqn:EL; [discriminate|]. injection E as <- <-. apply W_all; assumption.
  - unfold do_start in E. destruct (m_status m t =? started) eqn:E1; [injection E as <- <-; apply W_nostart; auto|].
    destruct (m_status m t =? stopped) eqn:E2; injection E as <- <-; [apply W_nostart|apply W_start]; auto.
  - unfold do_stop in E. destruct (m_status m t =? new) eqn:E1; [injection E as <- <-; apply W_nostop; auto|].
    destruct (m_status m t =? stopped) eqn:E2; injection E as <- <-; [apply W_nostop|apply W_stop]; auto.
  - unfold do_start in E. destruct (m_status m t =? started) eqn:E1; [injection E as <- <-; apply W_regpanic; auto|].
    destruct (m_status m t =? stopped) eqn:E2; injection E as <- <-; [apply W_regpanic|apply W_reg]; auto.
  - unfold do_stop in E. destruct (m_status m t =? new) eqn:E1; [injection E as <- <-; eapply W_unreg'; eauto|].
    destruct (m_status m t =? stopped) eqn:E2; injection E as <- <-; [eapply W_unreg'|eapply W_unreg]; eauto.
  - injection E as <- <-. apply W_cleared; assumption.
  - destruct (nth_error (x :: rest) k) as [t|] eqn:Ek; [|discriminate].
    unfold do_stop in E. destruct (m_status m t =? new) eqn:E1; [injection E as <- <-; eapply W_one'; eauto|].
    destruct (m_status m t =? stopped) eqn:E2; injection E as <- <-; [eapply W_one'|eapply W_one]; eauto.
Qed.

Ltac ms := cbn [m_locked m_map m_status m_pcs with_mpc with_lock with_map set_st] in *.

Lemma pcs_call (l : list mpc) i p p' j : nth_error l i = Some p ->
  match nth_error (upd i p' l) j with Some q => opcall q | None => None end =
  if Nat.eqb j i then opcall p' else match nth_error l j with Some q => opcall q | None => None end.
Proof.
  intros H. destruct (Nat.eqb j i) eqn:E.
  - apply Nat.eqb_eq in E. subst. rewrite (nth_error_upd_same _ _ _ _ H). reflexivity.
  - apply Nat.eqb_neq in E. rewrite nth_error_upd_other by congruence. reflexivity.
Qed.

Lemma call_quiet (name : nat -> string) m tr i p p' : (forall j, calling j tr = match nth_error (m_pcs m) j with Some q => opcall q | None => None end) ->
  nth_error (m_pcs m) i = Some p -> opcall p' = opcall p ->
  forall j, calling j tr = match nth_error (upd i p' (m_pcs m)) j with Some q => opcall q | None => None end.
Proof.
  intros H Hi E j. rewrite (pcs_call _ i p p' j Hi), E, (H j). destruct (Nat.eqb j i) eqn:Ej; [|reflexivity].
  apply Nat.eqb_eq in Ej. subst. rewrite Hi. reflexivity.
Qed.

Lemma was_app_started t a b : was_started t (a ++ b) = was_started t a || was_started t b.
Proof. apply existsb_app. Qed.
Lemma was_app_stopped t a b : was_stopped t (a ++ b) = was_stopped t a || was_stopped t b.
Proof. apply existsb_app. Qed.

Lemma started_st name m tr t : minv name m tr -> was_started t tr = false -> m_status m t = new.
Proof.
  intros HI H. rewrite (v_status name m tr HI t), H. destruct (was_stopped t tr) eqn:E; [|reflexivity].
  apply (v_stopped name m tr HI) in E. congruence.
Qed.

(** Statuses after the events of a step. *)
Lemma status_start name m tr t es : minv name m tr -> m_status m t <> started -> m_status m t <> stopped ->
  (forall x, was_started x es = Nat.eqb t x) -> (forall x, was_stopped x es = false) ->
  (forall x, (if Nat.eqb x t then started else m_status m x) =
    if was_stopped x (tr ++ es) then stopped else if was_started x (tr ++ es) then started else new) /\
  (forall x, was_stopped x (tr ++ es) = true -> was_started x (tr ++ es) = true).
Proof.
  intros HI H1 H2 Hs Hp. split; intros x; rewrite was_app_started, was_app_stopped, Hs, Hp, orb_false_r.
  - rewrite (v_status name m tr HI x). destruct (Nat.eqb x t) eqn:E.
    + apply Nat.eqb_eq in E. subst x. rewrite Nat.eqb_refl, orb_true_r. destruct (was_stopped t tr) eqn:E1; [|reflexivity].
      rewrite (v_status name m tr HI t), E1 in H2. congruence.
    + rewrite Nat.eqb_sym, E, orb_false_r. reflexivity.
  - intros H. rewrite (v_stopped name m tr HI x H). reflexivity.
Qed.

Lemma status_stop name m tr t es : minv name m tr -> m_status m t <> new -> m_status m t <> stopped ->
  (forall x, was_started x es = false) -> (forall x, was_stopped x es = Nat.eqb t x) ->
  (forall x, (if Nat.eqb x t then stopped else m_status m x) =
    if was_stopped x (tr ++ es) then stopped else if was_started x (tr ++ es) then started else new) /\
  (forall x, was_stopped x (tr ++ es) = true -> was_started x (tr ++ es) = true).
Proof.
  intros HI H1 H2 Hs Hp. split; intros x; rewrite was_app_started, was_app_stopped, Hs, Hp, orb_false_r.
  - rewrite (v_status name m tr HI x). destruct (Nat.eqb x t) eqn:E.
    + apply Nat.eqb_eq in E. subst x. rewrite Nat.eqb_refl, orb_true_r. reflexivity.
    + rewrite Nat.eqb_sym, E, orb_false_r. reflexivity.
  - intros H. apply orb_true_iff in H. destruct H as [H|H]; [apply (v_stopped name m tr HI x H)|]. apply Nat.eqb_eq in H. subst x.
    rewrite (v_status name m tr HI t) in H1. destruct (was_stopped t tr) eqn:E; [apply (v_stopped name m tr HI t E)|].
    destruct (was_started t tr); [reflexivity|congruence].
Qed.

Lemma status_quiet name m tr es : minv name m tr -> (forall x, was_started x es = false) -> (forall x, was_stopped x es = false) ->
  (forall x, m_status m x = if was_stopped x (tr ++ es) then stopped else if was_started x (tr ++ es) then started else new) /\
  (forall x, was_stopped x (tr ++ es) = true -> was_started x (tr ++ es) = true).
Proof.
  intros HI Hs Hp. split; intros x; rewrite was_app_started, was_app_stopped, Hs, Hp, !orb_false_r; [apply (v_status name m tr HI)|apply (v_stopped name m tr HI)].
Qed.

(** Goroutines other than the one that moves. *)
Lemma pcs_others name m m1 tr es i p : minv name m tr -> (forall nm, registered name (tr ++ es) nm = registered name tr nm) -> m_map m1 = m_map m ->
  m_pcs m1 = upd i p (m_pcs m) -> pc_ok name m1 (tr ++ es) p -> forall j q, nth_error (m_pcs m1) j = Some q -> pc_ok name m1 (tr ++ es) q.
Proof.
  intros HI ER EM EP Hp j q Hj. rewrite EP, nth_error_upd in Hj. destruct (Nat.eq_dec i j) as [<-|Hne].
  - destruct (nth_error (m_pcs m) i) eqn:Ei; [|discriminate]. injection Hj as <-. exact Hp.
  - pose proof (v_pcs name m tr HI j q Hj) as V. unfold pc_ok in *. destruct q; rewrite ?ER, ?EM; auto.
    destruct V as (V1 & V2). split; [intros t H; rewrite ER; auto|]. intros nm t H. rewrite ER in H. rewrite was_app_stopped.
    destruct (V2 nm t H) as [?| ->]; [left; assumption|right; reflexivity].
Qed.

Lemma pcs_holder name m m1 tr es i p0 p : minv name m tr -> nth_error (m_pcs m) i = Some p0 -> holds p0 = 1 ->
  m_pcs m1 = upd i p (m_pcs m) -> pc_ok name m1 (tr ++ es) p -> forall j q, nth_error (m_pcs m1) j = Some q -> pc_ok name m1 (tr ++ es) q.
Proof.
  intros HI Hi H0 EP Hp j q Hj. rewrite EP, nth_error_upd in Hj. destruct (Nat.eq_dec i j) as [<-|Hne].
  - rewrite Hi in Hj. injection Hj as <-. exact Hp.
  - destruct q; try exact I; destruct Hne; apply (holder_alone name m tr i p0 j _ HI Hi Hj H0 eq_refl).
Qed.

Lemma reg_started name m tr es : minv name m tr -> (forall nm, registered name (tr ++ es) nm = registered name tr nm) ->
  forall nm t, registered name (tr ++ es) nm = Some t -> name t = nm /\ was_started t (tr ++ es) = true.
Proof. intros HI ER nm t H. rewrite ER in H. destruct (v_reg name m tr HI nm t H) as (A & B). rewrite was_app_started, B. auto. Qed.

Lemma minv_keep name m tr es m1 i p p' : minv name m tr -> nth_error (m_pcs m) i = Some p -> holds p = 0 -> holds p' = 0 ->
  m_pcs m1 = upd i p' (m_pcs m) -> m_locked m1 = m_locked m -> m_map m1 = m_map m ->
  (forall x, m_status m1 x = if was_stopped x (tr ++ es) then stopped else if was_started x (tr ++ es) then started else new) /\
    (forall x, was_stopped x (tr ++ es) = true -> was_started x (tr ++ es) = true) ->
  (forall nm, registered name (tr ++ es) nm = registered name tr nm) ->
  (forall j, calling j (tr ++ es) = if Nat.eqb j i then opcall p' else calling j tr) ->
  minv name m1 (tr ++ es).
Proof.
  intros HI Hi Hp Hp' EP EL EM (S1 & S2) ER EC. constructor; auto.
  - rewrite EP, EL, (sumZ_upd holds i p' _ p Hi), (v_lock name m tr HI). lia.
  - apply (reg_started name m tr es HI ER).
  - intros nm. rewrite EM, ER. destruct (v_map name m tr HI nm) as [H|(j & t & H & E)]; [left; exact H|right]. exists j, t. split; [|exact E].
    rewrite EP, nth_error_upd_other; [exact H|]. intros ->. rewrite Hi in H. injection H as ->. discriminate Hp.
  - rewrite EM. apply (v_names name m tr HI).
  - rewrite EM. apply (v_nodup name m tr HI).
  - apply (pcs_others name m m1 tr es i p' HI ER EM EP). destruct p'; cbn in Hp'; lia || exact I.
  - intros j. rewrite EC, EP, (pcs_call _ i p p' j Hi), (v_call name m tr HI j). reflexivity.
Qed.

Lemma minv_release name m tr es m1 i p : minv name m tr -> nth_error (m_pcs m) i = Some p -> holds p = 1 ->
  m_pcs m1 = upd i PIdle (m_pcs m) -> m_locked m1 = false ->
  (forall x, m_status m1 x = if was_stopped x (tr ++ es) then stopped else if was_started x (tr ++ es) then started else new) /\
    (forall x, was_stopped x (tr ++ es) = true -> was_started x (tr ++ es) = true) ->
  (forall nm, find_task nm (m_map m1) = registered name (tr ++ es) nm) ->
  (forall nm t, registered name (tr ++ es) nm = Some t -> registered name tr nm = Some t) ->
  Forall (fun kt => fst kt = name (snd kt)) (m_map m1) -> NoDup (map fst (m_map m1)) ->
  (forall j, calling j (tr ++ es) = if Nat.eqb j i then None else calling j tr) ->
  minv name m1 (tr ++ es).
Proof.
  intros HI Hi Hp EP EL (S1 & S2) EM ER F1 F2 EC. constructor; auto.
  - rewrite EP, EL, (sumZ_upd holds i PIdle _ p Hi), (v_lock name m tr HI), (holder_locked name m tr i p HI Hi Hp), Hp. reflexivity.
  - intros nm t H. apply ER in H. destruct (v_reg name m tr HI nm t H) as (A & B). rewrite was_app_started, B. auto.
  - intros nm. left. apply EM.
  - apply (pcs_holder name m m1 tr es i p PIdle HI Hi Hp EP I).
  - intros j. rewrite EC, EP, (pcs_call _ i p PIdle j Hi), (v_call name m tr HI j). reflexivity.
Qed.

Lemma only_holder name m tr i p : minv name m tr -> nth_error (m_pcs m) i = Some p -> holds p = 1 -> (forall t, p <> PReg t) ->
  forall nm, find_task nm (m_map m) = registered name tr nm.
Proof.
  intros HI Hi Hp Hn. apply (map_reg name m tr HI). intros j t Hj. pose proof (holder_alone name m tr i p j _ HI Hi Hj Hp eq_refl) as E.
  subst j. rewrite Hi in Hj. injection Hj as ->. destruct (Hn t eq_refl).
Qed.

Lemma delete_ok name m tr nm : minv name m tr -> (forall x, find_task x (m_map m) = registered name tr x) ->
  (forall x, find_task x (delete_task nm (m_map m)) = mdel (registered name tr) nm x) /\
  Forall (fun kt => fst kt = name (snd kt)) (delete_task nm (m_map m)) /\ NoDup (map fst (delete_task nm (m_map m))).
Proof.
  intros HI H. split; [|split].
  - intros x. rewrite find_delete, H. reflexivity.
  - apply Forall_forall. intros kt Hin. apply delete_sub in Hin. exact (proj1 (Forall_forall _ _) (v_names name m tr HI) kt Hin).
  - apply delete_nodup, (v_nodup name m tr HI).
Qed.

Lemma mdel_some {A} (r : smap A) nm x v : mdel r nm x = Some v -> r x = Some v.
Proof. unfold mdel. destruct (String.eqb x nm); [discriminate|auto]. Qed.

Lemma minv_trans name m tr m1 es : minv name m tr -> mtrans name m m1 es -> minv name m1 (tr ++ es).
Proof.
  intros HI HT. destruct HT.
  - apply (minv_keep name m tr _ _ i PIdle (PWant o)); auto.
    + apply (status_quiet name _ _ _ HI); intros; reflexivity.
    + intros nm. rewrite registered_app. reflexivity.
    + intros j. rewrite calling_app. reflexivity.
  - apply (minv_keep name m tr _ _ i (PWant (MStart t)) PIdle); auto.
    + apply (status_start name m tr t _ HI H0 H1); [|reflexivity]. intros x. cbn. apply orb_false_r.
    + intros nm. rewrite registered_app. reflexivity.
    + intros j. rewrite calling_app. reflexivity.
  - apply (minv_keep name m tr _ _ i (PWant (MStart t)) PIdle); auto.
    + apply (status_quiet name _ _ _ HI); intros; reflexivity.
    + intros nm. rewrite registered_app. reflexivity.
    + intros j. rewrite calling_app. reflexivity.
  - apply (minv_keep name m tr _ _ i (PWant (MStop t)) PIdle); auto.
    + apply (status_stop name m tr t _ HI H0 H1); [reflexivity|]. intros x. cbn. apply orb_false_r.
    + intros nm. rewrite registered_app. reflexivity.
    + intros j. rewrite calling_app. reflexivity.
  - apply (minv_keep name m tr _ _ i (PWant (MStop t)) PIdle); auto.
    + apply (status_quiet name _ _ _ HI); intros; reflexivity.
    + intros nm. rewrite registered_app. reflexivity.
    + intros j. rewrite calling_app. reflexivity.
  - apply (minv_keep name m tr _ _ i (PWant (MRegister t)) PIdle); auto.
    + apply (status_quiet name _ _ _ HI); intros; reflexivity.
    + intros nm. rewrite registered_app. reflexivity.
    + intros j. rewrite calling_app. reflexivity.
  - (* insert *)
    pose proof (map_reg name m tr HI (free_noreg name m tr HI H0)) as MR. rewrite app_nil_r. constructor; ms.
    + rewrite (sumZ_upd holds i _ _ _ H), (v_lock name m tr HI), H0. reflexivity.
    + apply (v_status name m tr HI).
    + apply (v_stopped name m tr HI).
    + apply (v_reg name m tr HI).
    + intros nm. ms. cbn [find_task]. destruct (String.eqb nm (name t)) eqn:E.
      * apply String.eqb_eq in E. right. exists i, t. split; [apply (nth_error_upd_same _ _ _ _ H)|exact E].
      * left. apply MR.
    + constructor; [reflexivity|apply (v_names name m tr HI)].
    + cbn [map fst]. constructor; [apply find_none, H1|apply (v_nodup name m tr HI)].
    + intros j q Hj. rewrite nth_error_upd in Hj. destruct (Nat.eq_dec i j) as [<-|Hne].
      * rewrite H in Hj. injection Hj as <-. cbn [pc_ok]. ms. cbn [find_task]. rewrite <- MR, seqb_refl. auto.
      * destruct q; try exact I; pose proof (holder_locked name m tr j _ HI Hj eq_refl); congruence.
    + apply (call_quiet name m tr i _ _ (v_call name m tr HI) H). reflexivity.
  - (* registered *)
    pose proof (v_pcs name m tr HI i _ H) as (R0 & R1).
    destruct (status_start name m tr t [VRet i (MRegister t) MOk] HI H0 H1) as (S1 & S2); [intros x; cbn; apply orb_false_r|reflexivity|].
    assert (ER : forall nm, registered name (tr ++ [VRet i (MRegister t) MOk]) nm = if String.eqb nm (name t) then Some t else registered name tr nm)
      by (intros nm; rewrite registered_app; reflexivity).
    constructor; ms; auto.
    + rewrite (sumZ_upd holds i _ _ _ H), (v_lock name m tr HI), (holder_locked name m tr i _ HI H eq_refl). reflexivity.
    + intros nm x Hx. rewrite ER in Hx. destruct (String.eqb nm (name t)) eqn:E.
      * injection Hx as <-. apply String.eqb_eq in E. split; [auto|]. rewrite was_app_started. cbn. rewrite Nat.eqb_refl. apply orb_true_r.
      * destruct (v_reg name m tr HI nm x Hx) as (A & B). rewrite was_app_started, B. auto.
    + intros nm. left. ms. rewrite ER. destruct (String.eqb nm (name t)) eqn:E.
      * apply String.eqb_eq in E. subst. exact R1.
      * destruct (v_map name m tr HI nm) as [Hm|(j & x & Hj & Hx)]; [exact Hm|].
        pose proof (holder_alone name m tr i _ j _ HI H Hj eq_refl eq_refl) as Eij. subst j. rewrite H in Hj. injection Hj as <-. subst nm. rewrite seqb_refl in E. discriminate.
    + apply (v_names name m tr HI).
    + apply (v_nodup name m tr HI).
    + exact (pcs_holder name m (with_mpc i PIdle (with_lock false (set_st t started m))) tr _ i _ PIdle HI H eq_refl eq_refl I).
    + intros j. rewrite calling_app. cbn [fold_left]. rewrite (pcs_call _ i _ PIdle j H), <- (v_call name m tr HI j). reflexivity.
  - (* Register panics *)
    pose proof (v_pcs name m tr HI i _ H) as (R0 & R1).
    assert (ST : was_started t tr = true).
    { destruct (was_started t tr) eqn:E; [reflexivity|]. apply (started_st name m tr t HI) in E. rewrite E in H0. destruct H0; discriminate. }
    destruct (status_quiet name m tr [VRet i (MRegister t) MPanic] HI) as (S1 & S2); [reflexivity|reflexivity|].
    assert (ER : forall nm, registered name (tr ++ [VRet i (MRegister t) MPanic]) nm = if String.eqb nm (name t) then Some t else registered name tr nm)
      by (intros nm; rewrite registered_app; reflexivity).
    constructor; ms; auto.
    + rewrite (sumZ_upd holds i _ _ _ H), (v_lock name m tr HI), (holder_locked name m tr i _ HI H eq_refl). reflexivity.
    + intros nm x Hx. rewrite ER in Hx. rewrite was_app_started. destruct (String.eqb nm (name t)) eqn:E.
      * injection Hx as <-. apply String.eqb_eq in E. rewrite ST. auto.
      * destruct (v_reg name m tr HI nm x Hx) as (A & B). rewrite B. auto.
    + intros nm. left. ms. rewrite ER. destruct (String.eqb nm (name t)) eqn:E.
      * apply String.eqb_eq in E. subst. exact R1.
      * destruct (v_map name m tr HI nm) as [Hm|(j & x & Hj & Hx)]; [exact Hm|].
        pose proof (holder_alone name m tr i _ j _ HI H Hj eq_refl eq_refl) as Eij. subst j. rewrite H in Hj. injection Hj as <-. subst nm. rewrite seqb_refl in E. discriminate.
    + apply (v_names name m tr HI).
    + apply (v_nodup name m tr HI).
    + exact (pcs_holder name m (with_mpc i PIdle (with_lock false m)) tr _ i _ PIdle HI H eq_refl eq_refl I).
    + intros j. rewrite calling_app. cbn [fold_left]. rewrite (pcs_call _ i _ PIdle j H), <- (v_call name m tr HI j). reflexivity.
  - (* nothing to unregister *)
    apply (minv_keep name m tr _ _ i (PWant (MUnregister nm)) PIdle); auto.
    + apply (status_quiet name _ _ _ HI); intros; reflexivity.
    + intros nm'. rewrite registered_app. cbn [fold_left]. unfold mdel. destruct (String.eqb nm' nm) eqn:E; [|reflexivity].
      apply String.eqb_eq in E. subst. rewrite <- (map_reg name m tr HI (free_noreg name m tr HI H0)). symmetry. exact H1.
    + intros j. rewrite calling_app. reflexivity.
  - (* found *)
    pose proof (map_reg name m tr HI (free_noreg name m tr HI H0)) as MR. rewrite app_nil_r. constructor; ms; try apply HI.
    + rewrite (sumZ_upd holds i _ _ _ H), (v_lock name m tr HI), H0. reflexivity.
    + intros x. left. apply MR.
    + intros j q Hj. rewrite nth_error_upd in Hj. destruct (Nat.eq_dec i j) as [<-|Hne].
      * rewrite H in Hj. injection Hj as <-. cbn [pc_ok]. rewrite <- MR. exact H1.
      * destruct q; try exact I; pose proof (holder_locked name m tr j _ HI Hj eq_refl); congruence.
    + apply (call_quiet name m tr i _ _ (v_call name m tr HI) H). reflexivity.
  - (* unregistered *)
    pose proof (only_holder name m tr i _ HI H eq_refl ltac:(discriminate)) as MR. destruct (delete_ok name m tr nm HI MR) as (D1 & D2 & D3).
    apply (minv_release name m tr _ _ i _ HI H eq_refl); auto.
    + apply (status_stop name m tr t _ HI H0 H1); [reflexivity|]. intros x. cbn. apply orb_false_r.
    + intros x. rewrite registered_app. apply D1.
    + intros x v. rewrite registered_app. apply mdel_some.
    + intros j. rewrite calling_app. reflexivity.
  - pose proof (only_holder name m tr i _ HI H eq_refl ltac:(discriminate)) as MR. destruct (delete_ok name m tr nm HI MR) as (D1 & D2 & D3).
    apply (minv_release name m tr _ _ i _ HI H eq_refl); auto.
    + apply (status_quiet name _ _ _ HI); intros; reflexivity.
    + intros x. rewrite registered_app. apply D1.
    + intros x v. rewrite registered_app. apply mdel_some.
    + intros j. rewrite calling_app. reflexivity.
  - (* UnregisterAll begins *)
    pose proof (map_reg name m tr HI (free_noreg name m tr HI H0)) as MR. rewrite app_nil_r. constructor; ms; try apply HI.
    + rewrite (sumZ_upd holds i _ _ _ H), (v_lock name m tr HI), H0. reflexivity.
    + intros x. left. apply MR.
    + intros j q Hj. rewrite nth_error_upd in Hj. destruct (Nat.eq_dec i j) as [<-|Hne].
      * rewrite H in Hj. injection Hj as <-. cbn [pc_ok]. split.
        -- intros t Ht. apply in_map_iff in Ht. destruct Ht as ((k, x) & <- & Hin). cbn [snd]. rewrite <- MR. apply find_in; [apply (v_nodup name m tr HI)|].
           pose proof (proj1 (Forall_forall _ _) (v_names name m tr HI) _ Hin) as E. cbn in E. subst k. exact Hin.
        -- intros nm t Ht. left. rewrite <- MR in Ht. apply find_some in Ht. apply in_map_iff. exists (nm, t). auto.
      * destruct q; try exact I; pose proof (holder_locked name m tr j _ HI Hj eq_refl); congruence.
    + apply (call_quiet name m tr i _ _ (v_call name m tr HI) H). reflexivity.
  - pose proof (v_pcs name m tr HI i _ H) as (V1 & V2). pose proof (only_holder name m tr i _ HI H eq_refl ltac:(discriminate)) as MR.
    destruct (status_stop name m tr t [VStopped i t] HI H1 H2) as (S1 & S2); [reflexivity|intros x; cbn; apply orb_false_r|].
    assert (ER : forall nm, registered name (tr ++ [VStopped i t]) nm = registered name tr nm) by (intros nm; rewrite registered_app; reflexivity).
    constructor; ms; auto; try apply HI.
    + rewrite (sumZ_upd holds i _ _ _ H), (v_lock name m tr HI). cbn [holds]. lia.
    + apply (reg_started name m tr _ HI ER).
    + intros nm. left. rewrite ER. apply MR.
    + apply (pcs_others name m (with_mpc i (PAll (remove_nth k rest)) (set_st t stopped m)) tr _ i (PAll (remove_nth k rest)) HI ER eq_refl eq_refl). cbn [pc_ok]. split.
      * intros x Hx. rewrite ER. apply V1. apply remove_nth_sub in Hx. exact Hx.
      * intros nm x Hx. rewrite ER in Hx. rewrite was_app_stopped. destruct (V2 nm x Hx) as [Hin| ->]; [|right; reflexivity].
        destruct (remove_nth_in k rest t x H0 Hin) as [->|?]; [right; cbn; rewrite Nat.eqb_refl; apply orb_true_r|left; assumption].
    + intros j. rewrite calling_app. cbn [fold_left]. apply (call_quiet name m tr i _ _ (v_call name m tr HI) H). reflexivity.
  - pose proof (v_pcs name m tr HI i _ H) as (V1 & V2). pose proof (only_holder name m tr i _ HI H eq_refl ltac:(discriminate)) as MR. rewrite app_nil_r.
    assert (ST : was_stopped t tr = true).
    { destruct (v_reg name m tr HI _ t (V1 t (nth_error_In _ _ H0))) as (_ & B). pose proof (v_status name m tr HI t) as S. rewrite B in S.
      destruct (was_stopped t tr); [reflexivity|]. rewrite S in H1. destruct H1; discriminate. }
    constructor; ms; auto; try apply HI.
    + rewrite (sumZ_upd holds i _ _ _ H), (v_lock name m tr HI). cbn [holds]. lia.
    + intros nm. left. apply MR.
    + rewrite <- (app_nil_r tr). apply (pcs_others name m (with_mpc i (PAll (remove_nth k rest)) m) tr [] i (PAll (remove_nth k rest)) HI); [intros nm; rewrite app_nil_r; reflexivity|reflexivity|reflexivity|].
      rewrite app_nil_r. cbn [pc_ok]. split.
      * intros x Hx. apply V1. apply remove_nth_sub in Hx. exact Hx.
      * intros nm x Hx. destruct (V2 nm x Hx) as [Hin| ->]; [|right; reflexivity].
        destruct (remove_nth_in k rest t x H0 Hin) as [->|?]; [right; exact ST|left; assumption].
    + apply (call_quiet name m tr i _ _ (v_call name m tr HI) H). reflexivity.
  - apply (minv_release name m tr _ _ i _ HI H eq_refl); ms; auto.
    + apply (status_quiet name _ _ _ HI); intros; reflexivity.
    + intros x. rewrite registered_app. reflexivity.
    + intros x v. rewrite registered_app. discriminate.
    + constructor.
    + intros j. rewrite calling_app. reflexivity.
Qed.

Lemma minv_init name n : minv name (minit n) [].
Proof.
  constructor; cbn; try discriminate; auto.
  - rewrite sumZ_repeat0; reflexivity.
  - intros nm. left. reflexivity.
  - constructor.
  - intros i p H. apply nth_error_In, repeat_spec in H. subst. exact I.
  - intros i. destruct (nth_error (repeat PIdle n) i) as [p|] eqn:E; [|reflexivity]. apply nth_error_In, repeat_spec in E. subst. reflexivity.
Qed.

Lemma mgr_inv name n sched : minv name (fst (mexec name n sched)) (snd (mexec name n sched)).
Proof.
  unfold mexec. apply (exec_inv (mstep name) (minv name)) with (tr := []); [|apply minv_init].
  intros s l s1 es tr HI E. apply (minv_trans name s tr s1 es HI (mstep_trans name s l s1 es E)).
Qed.

Lemma mgr_trace (Q : list mevent -> mevent -> Prop) name n sched pre e post :
  (forall m tr m1 es, minv name m tr -> mtrans name m m1 es -> forall a e b, es = a ++ e :: b -> Q (tr ++ a) e) ->
  snd (mexec name n sched) = pre ++ e :: post -> Q pre e.
Proof.
  intros HQ. unfold mexec.
  enough (K : minv name (fst (exec (mstep name) (minit n) sched)) (snd (exec (mstep name) (minit n) sched)) /\
    forall pre e post, snd (exec (mstep name) (minit n) sched) = pre ++ e :: post -> Q pre e) by (apply (proj2 K)).
  apply (exec_inv (mstep name) (fun m tr => minv name m tr /\ forall pre e post, tr = pre ++ e :: post -> Q pre e)) with (tr := []).
  2: { split; [apply minv_init|]. intros p e0 q E. destruct p; discriminate E. }
  - clear pre e post. intros s l s1 es tr (HI & HP) E. pose proof (mstep_trans name s l s1 es E) as HT. split; [apply (minv_trans name s tr s1 es HI HT)|].
    intros pre e post Ep. destruct (cut_event _ _ _ _ _ Ep) as [(x & ->)|(x & -> & ->)]; [apply (HP pre e x eq_refl)|].
    apply (HQ s tr s1 _ HI HT x e post eq_refl).
Qed.

Lemma cut1 {A} (x : A) a e b : [x] = a ++ e :: b -> a = [] /\ e = x.
Proof. destruct a as [|y [|]]; intros [=]; subst; auto. Qed.

Lemma cut2 {A} (x y : A) a e b : [x; y] = a ++ e :: b -> (a = [] /\ e = x) \/ (a = [x] /\ e = y).
Proof. destruct a as [|z [|z' [|]]]; intros [=]; subst; auto. Qed.

Ltac cut E :=
  match type of E with
  | [] = ?a ++ _ :: _ => destruct a; discriminate E
  | [_] = _ => apply cut1 in E; destruct E as (-> & ->)
  | [_; _] = _ => apply cut2 in E; destruct E as [(-> & ->)|(-> & ->)]
  end; rewrite ?app_nil_r.

Lemma not_started name m tr t : minv name m tr -> m_status m t <> started -> m_status m t <> stopped -> was_started t tr = false.
Proof.
  intros HI H1 H2. pose proof (v_status name m tr HI t) as S. destruct (was_stopped t tr) eqn:E; [congruence|].
  destruct (was_started t tr); [congruence|reflexivity].
Qed.
Lemma has_started name m tr t : minv name m tr -> m_status m t = started \/ m_status m t = stopped -> was_started t tr = true.
Proof.
  intros HI H. destruct (was_started t tr) eqn:E; [reflexivity|]. apply (started_st name m tr t HI) in E. rewrite E in H. destruct H; discriminate.
Qed.
Lemma running name m tr t : minv name m tr -> m_status m t <> new -> m_status m t <> stopped -> was_started t tr = true /\ was_stopped t tr = false.
Proof.
  intros HI H1 H2. pose proof (v_status name m tr HI t) as S. destruct (was_stopped t tr); [congruence|].
  destruct (was_started t tr); [auto|congruence].
Qed.
Lemma not_running name m tr t : minv name m tr -> m_status m t = new \/ m_status m t = stopped -> was_started t tr && negb (was_stopped t tr) = false.
Proof.
  intros HI H. pose proof (v_status name m tr HI t) as S. destruct (was_stopped t tr); [apply andb_false_r|].
  destruct (was_started t tr); [|reflexivity]. rewrite S in H. destruct H; discriminate.
Qed.

(** ** The results of calls *)

Definition result_ok (name : nat -> string) (a : list mevent) (e : mevent) : Prop :=
  match e with
  | VRet i (MRegister t) r => r = register_due name a t
  | VRet i (MStart t) r => r = if was_started t a then MErr else MOk
  | VRet i (MUnregister nm) r => r = MOk /\ forall t, registered name a nm = Some t -> was_stopped t a = true
  | VRet i MUnregisterAll r => r = MOk /\ forall nm t, registered name a nm = Some t -> was_stopped t a = true
  | VRet i (MStop t) r =>
      (r = MErr /\ was_started t a && negb (was_stopped t a) = false) \/ (r = MOk /\ exists a', a = a' ++ [VStopped i t])
  | VStopped i t => was_started t a = true /\ was_stopped t a = false /\
      (calling i a = Some (MStop t) \/ registered name a (name t) = Some t /\ (calling i a = Some (MUnregister (name t)) \/ calling i a = Some MUnregisterAll))
  | VCall _ _ => True
  end.

Lemma results name n sched a e b : snd (mexec name n sched) = a ++ e :: b -> result_ok name a e.
Proof.
  apply (mgr_trace (result_ok name)). clear. intros m tr m1 es HI HT a e b E.
  assert (CL : forall i p, nth_error (m_pcs m) i = Some p -> calling i tr = opcall p) by (intros i p H; rewrite (v_call name m tr HI i), H; reflexivity).
  destruct HT; cut E; cbn [result_ok]; auto.
  - rewrite (not_started name m tr t HI H0 H1). reflexivity.
  - rewrite (has_started name m tr t HI H0). reflexivity.
  - destruct (running name m tr t HI H0 H1) as (A & B). split; [exact A|]. split; [exact B|]. left. apply (CL i _ H).
  - right. split; [reflexivity|]. exists tr. reflexivity.
  - left. split; [reflexivity|]. apply (not_running name m tr t HI H0).
  - unfold register_due. rewrite <- (map_reg name m tr HI (free_noreg name m tr HI H0)), H1. reflexivity.
  - destruct (v_pcs name m tr HI i _ H) as (R0 & _). unfold register_due. rewrite R0, (not_started name m tr t HI H0 H1). reflexivity.
  - destruct (v_pcs name m tr HI i _ H) as (R0 & _). unfold register_due. rewrite R0, (has_started name m tr t HI H0). reflexivity.
  - split; [reflexivity|]. intros t Ht. rewrite <- (map_reg name m tr HI (free_noreg name m tr HI H0)), H1 in Ht. discriminate.
  - pose proof (v_pcs name m tr HI i _ H) as V. cbn [pc_ok] in V. destruct (v_reg name m tr HI nm t V) as (Hn & _).
    destruct (running name m tr t HI H0 H1) as (A & B). split; [exact A|]. split; [exact B|]. right. rewrite Hn. split; [exact V|]. left. apply (CL i _ H).
  - split; [reflexivity|]. intros x Hx. pose proof (v_pcs name m tr HI i _ H) as V. cbn [pc_ok] in V. rewrite registered_app in Hx. cbn [fold_left] in Hx.
    rewrite was_app_stopped. assert (x = t) by congruence. subst. cbn. rewrite Nat.eqb_refl. apply orb_true_r.
  - split; [reflexivity|]. intros x Hx. pose proof (v_pcs name m tr HI i _ H) as V. cbn [pc_ok] in V. assert (x = t) by congruence. subst x.
    pose proof (not_running name m tr t HI H0) as NR. rewrite (proj2 (v_reg name m tr HI nm t V)) in NR. apply negb_false_iff in NR. exact NR.
  - destruct (v_pcs name m tr HI i _ H) as (V1 & _). pose proof (V1 t (nth_error_In _ _ H0)) as R.
    destruct (running name m tr t HI H1 H2) as (A & B). split; [exact A|]. split; [exact B|]. right. split; [exact R|]. right. apply (CL i _ H).
  - destruct (v_pcs name m tr HI i _ H) as (_ & V2). split; [reflexivity|]. intros nm t Ht. destruct (V2 nm t Ht) as [[]|?]; assumption.
Qed.

Lemma registry name n sched nm t : registered name (snd (mexec name n sched)) nm = Some t ->
  name t = nm /\ was_started t (snd (mexec name n sched)) = true.
Proof. apply (v_reg name _ _ (mgr_inv name n sched)). Qed.

(** ** Calls return *)

Definition mback (name : nat -> string) (m : mgr) (i : nat) (o : mop) : Prop :=
  exists sched', Forall (fun l => match l with MStep _ _ => True | MCall _ _ => False end) sched' /\
    exists r, In (VRet i o r) (snd (exec (mstep name) m sched')).

Lemma mexec_cons name m l m1 es sched : mstep name m l = Some (m1, es) ->
  exec (mstep name) m (l :: sched) = (fst (exec (mstep name) m1 sched), es ++ snd (exec (mstep name) m1 sched)).
Proof. intros E. cbn [exec]. rewrite E. destruct (exec (mstep name) m1 sched). reflexivity. Qed.

Lemma mback_step name m i k m1 es j o : mstep name m (MStep i k) = Some (m1, es) -> mback name m1 j o -> mback name m j o.
Proof.
  intros E (sched' & HF & r & H). exists (MStep i k :: sched'). split; [constructor; [exact I|exact HF]|]. exists r.
  rewrite (mexec_cons name m _ m1 es _ E). cbn [snd]. apply in_app_iff. right. exact H.
Qed.

Lemma mback_now name m i k m1 es o r : mstep name m (MStep i k) = Some (m1, es) -> In (VRet i o r) es -> mback name m i o.
Proof.
  intros E H. exists [MStep i k]. split; [repeat constructor|]. exists r. rewrite (mexec_cons name m _ m1 es _ E). cbn [snd]. apply in_app_iff. left. exact H.
Qed.

(** The holder can finish, and the lock is free then. *)
Lemma holder_finishes name i : forall k m p, nth_error (m_pcs m) i = Some p -> holds p = 1 -> match p with PAll rest => length rest = k | _ => k = O end ->
  exists sched' , Forall (fun l => match l with MStep _ _ => True | MCall _ _ => False end) sched' /\
    (exists o r, opcall p = Some o /\ In (VRet i o r) (snd (exec (mstep name) m sched'))) /\
    m_locked (fst (exec (mstep name) m sched')) = false /\
    (forall j, j <> i -> nth_error (m_pcs (fst (exec (mstep name) m sched'))) j = nth_error (m_pcs m) j).
Proof.
  assert (ST : forall t m, exists m1 ok, do_start t m = (m1, ok) /\ m_pcs m1 = m_pcs m).
  { intros t m. unfold do_start. destruct (m_status m t =? started); [eauto|]. destruct (m_status m t =? stopped); eauto. }
  assert (SP : forall t m, exists m1 es ok, do_stop i t m = (m1, es, ok) /\ m_pcs m1 = m_pcs m).
  { intros t m. unfold do_stop. destruct (m_status m t =? new); [eauto 6|]. destruct (m_status m t =? stopped); eauto 6. }
  induction k as [|k IH]; intros m p Hi Hp Hk.
  - exists [MStep i 0]. split; [repeat constructor|]. cbn [exec mstep]. rewrite Hi.
    destruct p as [| |t|nm t|rest]; try discriminate Hp.
    + destruct (ST t m) as (m1 & ok & -> & EP). cbn. split; [|split; [reflexivity|intros j Hj; rewrite nth_error_upd_other, EP by congruence; reflexivity]].
      eexists; eexists. split; [reflexivity|]. left. reflexivity.
    + destruct (SP t m) as (m1 & es & ok & -> & EP). cbn. split; [|split; [reflexivity|intros j Hj; rewrite nth_error_upd_other, EP by congruence; reflexivity]].
      eexists; eexists. split; [reflexivity|]. rewrite app_nil_r. apply in_app_iff. right. left. reflexivity.
    + destruct rest; [|discriminate]. cbn. split; [|split; [reflexivity|intros j Hj; rewrite nth_error_upd_other by congruence; reflexivity]].
      eexists; eexists. split; [reflexivity|]. left. reflexivity.
  - destruct p as [| |t|nm t|[|t rest]]; try discriminate Hk; try discriminate Hp.
    destruct (SP t m) as (m1 & es & ok & E1 & EP).
    assert (E : mstep name m (MStep i 0) = Some (with_mpc i (PAll rest) m1, es)) by (cbn [mstep]; rewrite Hi; cbn [nth_error]; rewrite E1; reflexivity).
    destruct (IH (with_mpc i (PAll rest) m1) (PAll rest)) as (sched' & HF & (o & r & Ho & Hin) & HL & HO).
    + ms. rewrite EP. apply (nth_error_upd_same _ _ _ _ Hi).
    + reflexivity.
    + cbn in Hk. lia.
    + exists (MStep i 0 :: sched'). split; [constructor; [exact I|exact HF]|]. rewrite (mexec_cons name m _ _ _ _ E). cbn [fst snd]. split; [|split; [exact HL|]].
      * exists o, r. split; [exact Ho|]. apply in_app_iff. right. exact Hin.
      * intros j Hj. rewrite (HO j Hj). ms. rewrite nth_error_upd_other, EP by congruence. reflexivity.
Qed.

Lemma want_back name m i o : nth_error (m_pcs m) i = Some (PWant o) -> m_locked m = false -> mback name m i o.
Proof.
  intros Hi EL.
  assert (K : exists m1 es, mstep name m (MStep i 0) = Some (m1, es) /\
    ((exists r, In (VRet i o r) es) \/ exists p, nth_error (m_pcs m1) i = Some p /\ holds p = 1 /\ opcall p = Some o)).
  { cbn [mstep]. rewrite Hi, EL. destruct o as [t|nm| |t|t].
    - destruct (find_task (name t) (m_map m)); eexists; eexists; (split; [reflexivity|]); [left; eexists; left; reflexivity|].
      right. exists (PReg t). split; [ms; apply (nth_error_upd_same _ _ _ _ Hi)|]. auto.
    - destruct (find_task nm (m_map m)); eexists; eexists; (split; [reflexivity|]); [|left; eexists; left; reflexivity].
      right. eexists. split; [ms; apply (nth_error_upd_same _ _ _ _ Hi)|]. auto.
    - eexists; eexists; (split; [reflexivity|]). right. eexists. split; [ms; apply (nth_error_upd_same _ _ _ _ Hi)|]. auto.
    - destruct (do_start t m) as [m1 ok]. eexists; eexists; (split; [reflexivity|]). left. eexists. left. reflexivity.
    - destruct (do_stop i t m) as [[m1 es] ok]. eexists; eexists; (split; [reflexivity|]). left. eexists. apply in_app_iff. right. left. reflexivity. }
  destruct K as (m1 & es & E & [(r & H)|(p & Hp & H1 & Ho)]); [apply (mback_now name m i 0 m1 es o r E H)|].
  apply (mback_step name m i 0 m1 es i o E).
  destruct (holder_finishes name i (match p with PAll rest => length rest | _ => O end) m1 p Hp H1) as (sched' & HF & (o' & r & Ho' & Hin) & _); [destruct p; reflexivity|].
  exists sched'. split; [exact HF|]. exists r. congruence.
Qed.

Lemma manager_returns name n sched i o : calling i (snd (mexec name n sched)) = Some o ->
  exists sched' r, Forall (fun l => match l with MStep _ _ => True | MCall _ _ => False end) sched' /\
    In (VRet i o r) (snd (exec (mstep name) (fst (mexec name n sched)) sched')).
Proof.
  intros H. pose proof (mgr_inv name n sched) as HI. set (m := fst (mexec name n sched)) in *. set (tr := snd (mexec name n sched)) in *.
  enough (B : mback name m i o) by (destruct B as (sched' & HF & r & Hin); eauto).
  rewrite (v_call name m tr HI i) in H. destruct (nth_error (m_pcs m) i) as [p|] eqn:Hi; [|discriminate].
  destruct (m_locked m) eqn:EL.
  - assert (K : exists j q, nth_error (m_pcs m) j = Some q /\ holds q = 1).
    { pose proof (v_lock name m tr HI) as HL. rewrite EL in HL. clear -HL. revert HL. generalize (m_pcs m). induction l as [|x l IH]; cbn [sumZ]; [discriminate|].
      intros HL. assert (D : holds x = 0 \/ holds x = 1) by (destruct x; cbn; lia). destruct D as [D|D].
      - destruct (IH ltac:(lia)) as (j & q & A & B). exists (S j), q. auto.
      - exists O, x. auto. }
    destruct K as (j & q & Hj & Hq).
    destruct (holder_finishes name j (match q with PAll rest => length rest | _ => O end) m q Hj Hq) as (sched1 & HF & (o' & r & Ho' & Hin) & HL & HO); [destruct q; reflexivity|].
    destruct (Nat.eq_dec i j) as [<-|Hne]; [exists sched1; split; [exact HF|]; exists r; congruence|].
    assert (Hp : p = PWant o).
    { destruct p; cbn in H; try congruence; destruct Hne; apply (holder_alone name m tr i _ j q HI Hi Hj eq_refl Hq). }
    subst p. destruct (want_back name (fst (exec (mstep name) m sched1)) i o) as (sched2 & HF2 & r2 & Hin2); [rewrite (HO i Hne); exact Hi|exact HL|].
    exists (sched1 ++ sched2). split; [apply Forall_app; auto|]. exists r2. rewrite exec_app. destruct (exec (mstep name) m sched1) as [m1 es1]. cbn [fst snd] in *.
    destruct (exec (mstep name) m1 sched2) as [m2 es2]. cbn [fst snd] in *. apply in_app_iff. right. exact Hin2.
  - destruct p as [|o'| | |]; cbn in H; try discriminate; try (pose proof (holder_locked name m tr i _ HI Hi eq_refl); congruence).
    injection H as ->. apply (want_back name m i o Hi EL).
Qed.
