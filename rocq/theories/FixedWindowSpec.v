(** The ideal fixed window limiter; independent of the model. *)
From Verif Require Import Common.

(** Windows of length [w] counted from the edge [u]: window [k >= 1] is [(u + (k-1) w, u + k w]], and
    window 0 is everything up to [u]. *)
Definition window_of (u w t : Z) : Z := if t <=? u then 0 else (t - u + w - 1) / w.

(** Granted calls in window [k]. *)
Definition granted_in_window (u w k : Z) (calls : list (Z * bool)) : Z :=
  count (fun c => snd c && (window_of u w (fst c) =? k)) calls.

(** Granted calls with timestamps in the closed interval [x, y]. *)
Definition granted_between (x y : Z) (calls : list (Z * bool)) : Z :=
  count (fun c => snd c && (x <=? fst c) && (fst c <=? y)) calls.

(** Admit a call iff fewer than [c] calls of its own window were admitted; [used] permits of window 0
    are already gone. *)
Fixpoint ideal_fixed (c u w used : Z) (history : list (Z * bool)) (nows : list Z) : list (Z * bool) :=
  match nows with
  | [] => []
  | now :: nows' =>
      let k := window_of u w now in
      let already := (if k =? 0 then used else 0) + granted_in_window u w k history in
      let call := (now, already <? c) in
      call :: ideal_fixed c u w used (history ++ [call]) nows'
  end.

(** Each call is less than 2^53 ns (104 days) after the previous one (the first: after [u]). *)
Fixpoint steady (u : Z) (nows : list Z) : Prop :=
  match nows with
  | [] => True
  | now :: nows' => now - u < 2 ^ 53 /\ steady now nows'
  end.
