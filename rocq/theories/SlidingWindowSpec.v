(** What the sliding window theorems talk about.  From the model only the vocabulary of operations
    ([swop]) is used. *)
From Verif Require Import Common SlidingWindowModel.

(** Number of granted calls whose timestamp lies in the closed interval [x, y]. *)
Definition granted_in (x y : Z) (calls : list (Z * bool)) : Z :=
  count (fun c => snd c && (x <=? fst c) && (fst c <=? y)) calls.

(** The ideal limiter: remembers every grant and admits a call at [now] iff fewer than [c] grants lie
    in [now - w, now]. *)
Fixpoint ideal_sliding (c w : Z) (history : list (Z * bool)) (nows : list Z) : list (Z * bool) :=
  match nows with
  | [] => []
  | now :: nows' =>
      let call := (now, granted_in (now - w) now history <? c) in
      call :: ideal_sliding c w (history ++ [call]) nows'
  end.

(** Clock readings far from the int64 limits. *)
Definition readable (t : Z) : Prop := - 2 ^ 62 <= t < 2 ^ 62.

Definition op_readable (op : swop) : Prop :=
  match op with SwAcquire now => readable now | SwUpdate _ _ => True end.

(** Histories whose reconfigurations never lower the capacity and never lengthen the window. *)
Fixpoint grows (c w : Z) (ops : list swop) : Prop :=
  match ops with
  | [] => True
  | SwAcquire _ :: ops' => grows c w ops'
  | SwUpdate c' w' :: ops' => c <= c' /\ w' <= w /\ grows c' w' ops'
  end.
