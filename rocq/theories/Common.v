(** Shared vocabulary: Go's 64-bit integers, counting over lists, ordered clock readings. *)
From Coq Require Export List ZArith Lia Bool.
Export ListNotations.
Open Scope Z_scope.

(** Two's-complement wrap of a mathematical integer to Go's [int64] (and, on 64-bit
    platforms, [int]).  Language semantics, not code of the repository. *)
Definition i64 (z : Z) : Z := (z + 2 ^ 63) mod 2 ^ 64 - 2 ^ 63.

(** [z] is a value of Go's [int64]. *)
Definition in64 (z : Z) : Prop := - 2 ^ 63 <= z < 2 ^ 63.

(** [time.Second] in nanoseconds. *)
Definition second : Z := 1000000000.

(** Number of elements of a list that satisfy a test. *)
Fixpoint count {A} (f : A -> bool) (l : list A) : Z :=
  match l with
  | [] => 0
  | x :: l' => (if f x then 1 else 0) + count f l'
  end.

(** Clock readings that never go backwards. *)
Fixpoint nondecreasing (l : list Z) : Prop :=
  match l with
  | [] => True
  | x :: l' => Forall (fun y => x <= y) l' /\ nondecreasing l'
  end.

Lemma i64_id z : in64 z -> i64 z = z.
Proof. unfold in64, i64; intros H; rewrite Z.mod_small; lia. Qed.

Lemma in64_i64 z : in64 (i64 z).
Proof. unfold in64, i64. pose proof (Z.mod_pos_bound (z + 2^63) (2^64)); lia. Qed.

Lemma i64_add_l x y : i64 (i64 x + y) = i64 (x + y).
Proof.
  unfold i64.
  replace ((x + 2 ^ 63) mod 2 ^ 64 - 2 ^ 63 + y + 2 ^ 63) with ((x + 2 ^ 63) mod 2 ^ 64 + y) by lia.
  rewrite Zplus_mod_idemp_l. f_equal. f_equal. lia.
Qed.

Lemma i64_add_r x y : i64 (x + i64 y) = i64 (x + y).
Proof. rewrite Z.add_comm, i64_add_l. f_equal. lia. Qed.

Lemma count_app {A} (f : A -> bool) l1 l2 : count f (l1 ++ l2) = count f l1 + count f l2.
Proof. induction l1 as [|x l1 IH]; cbn [count app]; [lia|]. rewrite IH. lia. Qed.

Lemma count_nonneg {A} (f : A -> bool) l : 0 <= count f l.
Proof. induction l as [|x l IH]; cbn [count]; [lia|]. destruct (f x); lia. Qed.

Lemma count_le_length {A} (f : A -> bool) l : count f l <= Z.of_nat (length l).
Proof. induction l as [|x l IH]; cbn [count length]; [lia|]. destruct (f x); lia. Qed.

Lemma count_ext {A} (f g : A -> bool) l :
  (forall x, In x l -> f x = g x) -> count f l = count g l.
Proof.
  induction l as [|x l IH]; intros H; cbn [count]; [reflexivity|].
  rewrite (H x (or_introl eq_refl)), IH; [reflexivity|].
  intros y Hy; apply H; right; exact Hy.
Qed.

Lemma count_le {A} (f g : A -> bool) l :
  (forall x, In x l -> f x = true -> g x = true) -> count f l <= count g l.
Proof.
  induction l as [|x l IH]; intros H; cbn [count]; [lia|].
  assert (count f l <= count g l) by (apply IH; intros y Hy; apply H; right; exact Hy).
  pose proof (H x (or_introl eq_refl)) as Hx.
  destruct (f x); [rewrite Hx by reflexivity|destruct (g x)]; lia.
Qed.

Lemma nondecreasing_app l1 l2 :
  nondecreasing (l1 ++ l2) -> nondecreasing l1 /\ nondecreasing l2.
Proof.
  induction l1 as [|x l1 IH]; cbn [app nondecreasing]; [tauto|].
  intros [HF HN]. apply Forall_app in HF. destruct HF as [HF1 HF2].
  destruct (IH HN). tauto.
Qed.

Lemma nondecreasing_app_le l1 l2 x y :
  nondecreasing (l1 ++ l2) -> In x l1 -> In y l2 -> x <= y.
Proof.
  induction l1 as [|z l1 IH]; cbn [app nondecreasing In]; [tauto|].
  intros [HF HN] [->|Hx] Hy.
  - rewrite Forall_forall in HF. apply HF. apply in_or_app. right. exact Hy.
  - exact (IH HN Hx Hy).
Qed.
