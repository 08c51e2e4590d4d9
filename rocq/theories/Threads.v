(** Thread machines: a state, labels chosen by the scheduler, and events that the environment sees. *)
From Verif Require Import Common.

(** Replace element [i] of a list. *)
Fixpoint upd {A} (i : nat) (x : A) (l : list A) : list A :=
  match l, i with
  | [], _ => []
  | _ :: l', O => x :: l'
  | y :: l', S i' => y :: upd i' x l'
  end.

Fixpoint sumZ {A} (f : A -> Z) (l : list A) : Z :=
  match l with
  | [] => 0
  | x :: l' => f x + sumZ f l'
  end.

(** Run a schedule from [s].  A label that is not enabled in the current state is ignored, so every
    list of labels is a schedule and every execution is the execution of some list of labels.
    Returns the final state and the events in the order they happened. *)
Fixpoint exec {S L E : Type} (step : S -> L -> option (S * list E)) (s : S) (sched : list L)
  : S * list E :=
  match sched with
  | [] => (s, [])
  | l :: sched' =>
      match step s l with
      | None => exec step s sched'
      | Some (s1, es) => let '(s2, es2) := exec step s1 sched' in (s2, es ++ es2)
      end
  end.

Lemma upd_length {A} i (x : A) l : length (upd i x l) = length l.
Proof. revert i; induction l as [|y l IH]; intros [|i]; cbn; auto. Qed.

Lemma nth_error_upd_same {A} i (x : A) l y : nth_error l i = Some y -> nth_error (upd i x l) i = Some x.
Proof. revert i; induction l as [|z l IH]; intros [|i] H; cbn in *; try discriminate; auto. Qed.

Lemma nth_error_upd_other {A} i j (x : A) l : i <> j -> nth_error (upd i x l) j = nth_error l j.
Proof.
  revert i j; induction l as [|z l IH]; intros [|i] [|j] H; cbn; auto; try congruence.
Qed.

Lemma nth_error_upd {A} i j (x : A) l :
  nth_error (upd i x l) j =
  if Nat.eq_dec i j then match nth_error l i with Some _ => Some x | None => None end
  else nth_error l j.
Proof.
  destruct (Nat.eq_dec i j) as [<-|n]; [|apply nth_error_upd_other; exact n].
  destruct (nth_error l i) eqn:E; [eapply nth_error_upd_same; eassumption|].
  apply nth_error_None. rewrite upd_length. apply nth_error_None. exact E.
Qed.

Lemma Forall_upd {A} (P : A -> Prop) i x l : Forall P l -> P x -> Forall P (upd i x l).
Proof.
  revert i; induction l as [|z l IH]; intros [|i] HF Hx; cbn; auto;
    inversion HF; subst; constructor; auto.
Qed.

Lemma Forall_nth {A} (P : A -> Prop) i l x : Forall P l -> nth_error l i = Some x -> P x.
Proof. intros HF H. rewrite Forall_forall in HF. apply HF. eapply nth_error_In; eassumption. Qed.

Lemma sumZ_upd {A} (f : A -> Z) i x l o :
  nth_error l i = Some o -> sumZ f (upd i x l) = sumZ f l - f o + f x.
Proof.
  revert i; induction l as [|z l IH]; intros [|i] H; cbn in *; try discriminate.
  - injection H as ->. lia.
  - rewrite (IH i H). lia.
Qed.

Lemma sumZ_nonneg {A} (f : A -> Z) l : Forall (fun x => 0 <= f x) l -> 0 <= sumZ f l.
Proof. induction 1; cbn; lia. Qed.

Lemma sumZ_app {A} (f : A -> Z) l1 l2 : sumZ f (l1 ++ l2) = sumZ f l1 + sumZ f l2.
Proof. induction l1; cbn; lia. Qed.

Lemma sumZ_zero {A} (f : A -> Z) l : Forall (fun x => f x = 0) l -> sumZ f l = 0.
Proof. induction 1; cbn; lia. Qed.

Lemma sumZ_ext {A} (f g : A -> Z) l : Forall (fun x => f x = g x) l -> sumZ f l = sumZ g l.
Proof. induction 1; cbn; lia. Qed.

Lemma sumZ_le {A} (f g : A -> Z) l : Forall (fun x => f x <= g x) l -> sumZ f l <= sumZ g l.
Proof. induction 1; cbn; lia. Qed.

Lemma sumZ_ge_elem {A} (f : A -> Z) l i x :
  Forall (fun x => 0 <= f x) l -> nth_error l i = Some x -> f x <= sumZ f l.
Proof.
  revert i; induction l as [|z l IH]; intros [|i] HF H; cbn in *; try discriminate;
    inversion HF; subst.
  - injection H as ->. pose proof (sumZ_nonneg f l ltac:(assumption)). lia.
  - specialize (IH i ltac:(assumption) H). lia.
Qed.

(** Invariants over (state, events so far). *)
Lemma exec_inv {S L E : Type} (step : S -> L -> option (S * list E)) (I : S -> list E -> Prop) :
  (forall s l s1 es tr, I s tr -> step s l = Some (s1, es) -> I s1 (tr ++ es)) ->
  forall sched s tr, I s tr -> I (fst (exec step s sched)) (tr ++ snd (exec step s sched)).
Proof.
  intros Hstep. induction sched as [|l sched IH]; intros s tr HI; cbn.
  - rewrite app_nil_r. exact HI.
  - destruct (step s l) as [[s1 es]|] eqn:Est; [|apply IH; exact HI].
    specialize (IH s1 (tr ++ es) (Hstep _ _ _ _ _ HI Est)).
    destruct (exec step s1 sched) as [s2 es2]. cbn in *. rewrite app_assoc. exact IH.
Qed.

Lemma exec_app {S L E : Type} (step : S -> L -> option (S * list E)) l1 l2 s :
  exec step s (l1 ++ l2) =
  (let '(s1, e1) := exec step s l1 in let '(s2, e2) := exec step s1 l2 in (s2, e1 ++ e2)).
Proof.
  revert s; induction l1 as [|l l1 IH]; intros s; cbn [app exec].
  - destruct (exec step s l2); reflexivity.
  - destruct (step s l) as [[s1 es]|].
    + rewrite IH. destruct (exec step s1 l1) as [s2 e2]. destruct (exec step s2 l2).
      rewrite app_assoc. reflexivity.
    + rewrite IH. reflexivity.
Qed.

(** The same when only labels satisfying [P] are scheduled; the invariant may count labels. *)
Lemma exec_inv_on {S L E : Type} (step : S -> L -> option (S * list E)) (P : L -> Prop)
  (I : nat -> S -> list E -> Prop) :
  (forall n s l s1 es tr, P l -> I n s tr -> step s l = Some (s1, es) -> I (Datatypes.S n) s1 (tr ++ es)) ->
  (forall n s tr, I n s tr -> I (Datatypes.S n) s tr) ->
  forall sched n s tr, Forall P sched -> I n s tr ->
    I (n + length sched)%nat (fst (exec step s sched)) (tr ++ snd (exec step s sched)).
Proof.
  intros Hstep Hmono. induction sched as [|l sched IH]; intros n s tr HP HI; cbn [exec length].
  - rewrite Nat.add_0_r, app_nil_r. exact HI.
  - inversion HP as [|? ? Hl HP']; subst. rewrite <- Nat.add_succ_comm.
    destruct (step s l) as [[s1 es]|] eqn:Est; [|apply IH; auto].
    specialize (IH (Datatypes.S n) s1 (tr ++ es) HP' (Hstep _ _ _ _ _ _ Hl HI Est)).
    destruct (exec step s1 sched) as [s2 es2]. cbn [fst snd] in *. rewrite app_assoc. exact IH.
Qed.
