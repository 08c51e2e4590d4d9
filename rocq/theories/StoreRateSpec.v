(** Specification: how often a store asks Redis for everything. *)
From Coq Require Import Sorted.
From Verif Require Import Common Bytes Threads StoreModel StoreConcModel StoreConcSpec StoreAloneSpec.
Local Open Scope list_scope.

Section spec.
  Context {V : Type} (ok : nat -> bool) (ord : nat -> list (string * string) -> list (string * string)).

  (** This step sends HGETALL from store [j]. *)
  Definition sends_hgetall (j : nat) (w : cworld V) (l : clabel V) : bool :=
    match l with
    | CStep t _ =>
      match nth_error (c_threads w) t with
      | Some th => Nat.eqb (t_node th) j && match t_prog th with IHGetAll _ :: _ => true | _ => false end
      | None => false
      end
    | CCall _ _ _ => false
    end.

  (** How many times store [j] sends HGETALL. *)
  Fixpoint hgetalls (j : nat) (w : cworld V) (sched : list (clabel V)) : Z :=
    match sched with
    | [] => 0
    | l :: rest =>
      match cstep ok ord w l with
      | Some (w', _) => (if sends_hgetall j w l then 1 else 0) + hgetalls j w' rest
      | None => hgetalls j w rest
      end
    end%Z.
End spec.

(** The clock does not go back and shows values from [a] to [b]. *)
Definition clock_from_to {V} (a b : Z) (sched : list (clabel V)) : Prop :=
  StronglySorted Z.le (shown sched) /\ Forall (fun z => (a <= z <= b)%Z) (shown sched).
