(** Specification: calls of the config store that take effect at one instant. *)
From Verif Require Import Common Bytes Threads StoreModel StoreConcModel StoreConcSpec.
Local Open Scope list_scope.

(** Calls with one key; the reads only in stores that never load. *)
Definition single_call {V} (pols : list policy) (l : clabel V) : Prop :=
  match l with
  | CCall _ j o =>
    match o with
    | OUpdate _ _ | OUpdateNoPersist _ _ | OReset _ => True
    | OGet _ | OGetString _ | OMustGet _ | OMustGetString _ => nth_error pols j = Some PolNoop
    | _ => False
    end
  | CStep _ _ => True
  end.

Section spec.
  Context {V : Type}.

  (** A history with the instants at which calls take effect: what is seen from outside, and "the call [o] of
      goroutine [t] to store [j] takes effect, its result is [r]". *)
  Inductive obs := Seen (e : cevent V) | Takes (t j : nat) (o : sop V) (r : sres V).

  (** What is seen of it from outside. *)
  Definition seen (tr : list obs) : list (cevent V) := flat_map (fun x => match x with Seen e => [e] | Takes _ _ _ _ => [] end) tr.
  (** The calls in the order in which they take effect. *)
  Definition effects (tr : list obs) : list (nat * sop V * sres V) :=
    flat_map (fun x => match x with Seen _ => [] | Takes _ j o r => [(j, o, r)] end) tr.

  (** Every call of goroutine [t] takes effect exactly once, after it is called and before it returns, and returns
      the result that it had then. *)
  Inductive stage := Waiting | Called (j : nat) (o : sop V) | Effected (j : nat) (o : sop V) (r : sres V).
  Inductive turn (t : nat) : stage -> obs -> stage -> Prop :=
  | turn_call j o : turn t Waiting (Seen (ECalled t j o)) (Called j o)
  | turn_effect j o r : turn t (Called j o) (Takes t j o r) (Effected j o r)
  | turn_return j o r : turn t (Effected j o r) (Seen (EReturned t j o r)) Waiting
  | turn_other_call s u j o : u <> t -> turn t s (Seen (ECalled u j o)) s
  | turn_other_return s u j o r : u <> t -> turn t s (Seen (EReturned u j o r)) s
  | turn_other_effect s u j o r : u <> t -> turn t s (Takes u j o r) s.
  Inductive turns (t : nat) : stage -> list obs -> stage -> Prop :=
  | turns_nil s : turns t s [] s
  | turns_snoc s tr s1 x s2 : turns t s tr s1 -> turn t s1 x s2 -> turns t s (tr ++ [x]) s2.
  Definition each_once (tr : list obs) : Prop := forall t, exists s, turns t Waiting tr s.

  (** Calls one after the other, each as in the sequential store (C39-C46), on stores over one Redis hash. *)
  Variable ok : nat -> bool.
  Variable ord : nat -> list (string * string) -> list (string * string).
  Definition one_call (x : list (store V) * redis) (j : nat) (o : sop V) (r : sres V) (x' : list (store V) * redis) : Prop :=
    exists s y, nth_error (fst x) j = Some s /\
      sop_step (redis_persister ok ord) PolNoop (fun _ => (0, 0)%Z) (s, World (snd x) None 0) o = (y, r) /\
      x' = (upd j (fst y) (fst x), w_p (snd y)).
  Inductive one_by_one : list (store V) * redis -> list (nat * sop V * sres V) -> list (store V) * redis -> Prop :=
  | obo_nil x : one_by_one x [] x
  | obo_snoc x l x1 j o r x2 : one_by_one x l x1 -> one_call x1 j o r x2 -> one_by_one x (l ++ [(j, o, r)]) x2.

  (** The stores and the Redis hash of a world. *)
  Definition contents (w : cworld V) : list (store V) * redis := (map n_maps (c_nodes w), c_redis w).
End spec.
Arguments obs : clear implicits.
Arguments stage : clear implicits.
