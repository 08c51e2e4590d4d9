(** Specification: methods of an object called by several goroutines. *)
From Verif Require Import Common Threads MonitorModel.

Section spec.
  Context {F V R M : Type}.

  (** ** Races *)
  (** The field that a goroutine is about to read (false) or write (true). *)
  Definition about_to (w : mon F V R M) (t : nat) : option (F * bool) :=
    match nth_error (mo_threads w) t with
    | Some (Some (_, CGet f _)) => Some (f, false)
    | Some (Some (_, CSet f _ _)) => Some (f, true)
    | _ => None
    end.
  Definition race (w : mon F V R M) : Prop :=
    exists t u f a b, t <> u /\ about_to w t = Some (f, a) /\ about_to w u = Some (f, b) /\ (a = true \/ b = true).

  (** ** Progress *)
  Definition in_call (w : mon F V R M) (t : nat) : Prop := exists x, nth_error (mo_threads w) t = Some (Some x).
  Definition no_call (l : mlabel M) : Prop := match l with MCall _ _ => False | _ => True end.

  (** An endless schedule that gives each of [n] goroutines its turn again and again. *)
  Definition fair (n : nat) (sched : nat -> mlabel M) : Prop := forall t i, (t < n)%nat -> exists j, (i <= j)%nat /\ sched j = MGo t.
  (** Its first [k] labels. *)
  Definition first (k : nat) (sched : nat -> mlabel M) : list (mlabel M) := map sched (seq 0 k).

  (** ** Calls that take effect at one instant
      A history with these instants: what is seen from outside, the clock readings of goroutines, and "the call of
      [m] by goroutine [t], which has read the clock as [zs], takes effect with result [r]". *)
  Inductive obs := Seen (e : mevent R M) | Reads (t : nat) (z : Z) | Takes (t : nat) (m : M) (zs : list Z) (r : R).
  Definition seen (tr : list obs) : list (mevent R M) := flat_map (fun x => match x with Seen e => [e] | _ => [] end) tr.
  Definition effects (tr : list obs) : list (M * list Z * R) :=
    flat_map (fun x => match x with Takes _ m zs r => [(m, zs, r)] | _ => [] end) tr.

  (** Every call of goroutine [t] takes effect exactly once, after it is called and before it returns; its clock
      readings come in between; it returns the result that it had then. *)
  Inductive stage := Waiting | Called (m : M) (zs : list Z) | Effected (m : M) (r : R).
  Inductive turn (t : nat) : stage -> obs -> stage -> Prop :=
  | turn_call m : turn t Waiting (Seen (MCalled t m)) (Called m [])
  | turn_read m zs z : turn t (Called m zs) (Reads t z) (Called m (zs ++ [z]))
  | turn_effect m zs r : turn t (Called m zs) (Takes t m zs r) (Effected m r)
  | turn_return m r : turn t (Effected m r) (Seen (MReturned t m r)) Waiting
  | turn_time s z : turn t s (Seen (MTime z)) s
  | turn_other_call s u m : u <> t -> turn t s (Seen (MCalled u m)) s
  | turn_other_read s u z : u <> t -> turn t s (Reads u z) s
  | turn_other_effect s u m zs r : u <> t -> turn t s (Takes u m zs r) s
  | turn_other_return s u m r : u <> t -> turn t s (Seen (MReturned u m r)) s.
  Inductive turns (t : nat) : stage -> list obs -> stage -> Prop :=
  | turns_nil s : turns t s [] s
  | turns_snoc s tr s1 x s2 : turns t s tr s1 -> turn t s1 x s2 -> turns t s (tr ++ [x]) s2.
  Definition each_once (tr : list obs) : Prop := forall t, exists s, turns t Waiting tr s.

  (** What the clock shows at the end of a history that begins with [t0]. *)
  Definition clock_after (t0 : Z) (evs : list (mevent R M)) : Z :=
    fold_left (fun c e => match e with MTime z => z | _ => c end) evs t0.
  (** Readings are of the clock. *)
  Definition reads_clock (t0 : Z) (tr : list obs) : Prop :=
    forall tr1 t z tr2, tr = tr1 ++ Reads t z :: tr2 -> z = clock_after t0 (seen tr1).

  (** Calls one after the other: from object state [s] the call of [m] with clock readings [zs] returns [r] and
      leaves [s'] when [one s m zs r s']. *)
  Inductive one_by_one {S : Type} (one : S -> M -> list Z -> R -> S -> Prop) : S -> list (M * list Z * R) -> S -> Prop :=
  | obo_nil s : one_by_one one s [] s
  | obo_snoc s l s1 m zs r s2 : one_by_one one s l s1 -> one s1 m zs r s2 -> one_by_one one s (l ++ [(m, zs, r)]) s2.

  (** The clock values of a schedule that do not go back from [t0]. *)
  Definition ticks (sched : list (mlabel M)) : list Z := flat_map (fun l => match l with MTick z => [z] | _ => [] end) sched.
  Definition steady_clock (t0 : Z) (sched : list (mlabel M)) : Prop := nondecreasing (t0 :: ticks sched).

  (** Calls of a history that started and returned in it, with their results. *)
  Fixpoint finished_from (open : list nat) (evs : list (mevent R M)) : list (M * R) :=
    match evs with
    | [] => []
    | MTime _ :: rest => finished_from open rest
    | MCalled t _ :: rest => finished_from (t :: open) rest
    | MReturned t m r :: rest =>
      if in_dec Nat.eq_dec t open then (m, r) :: finished_from (remove Nat.eq_dec t open) rest else finished_from open rest
    end.
  Definition finished : list (mevent R M) -> list (M * R) := finished_from [].
End spec.
Arguments obs : clear implicits. Arguments stage : clear implicits.
