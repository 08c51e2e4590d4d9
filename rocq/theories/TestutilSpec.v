(** Specification of the test helpers. *)
From Verif Require Import Common Bytes TestutilModel.

(** What a helper is meant to check. *)
Definition holds {V} (deep : V -> V -> bool) (h : helper V) : Prop :=
  match h with
  | HShould _ (_, e) => exists v, e = Panics v
  | HExpect _ expected (_, e) =>
    exists v, e = Panics v /\ match v, expected with
                              | None, None => True
                              | Some x, Some y => deep x y = true
                              | _, _ => False
                              end
  | HShouldNot _ (_, e) => forall v, e <> Panics v
  end.
Definition body_of {V} (h : helper V) : body V := match h with HShould _ f | HExpect _ _ f | HShouldNot _ f => f end.

(** The function under test neither ends the goroutine nor panics with nil. *)
Definition plain_body {V} (f : body V) : Prop := snd f <> Exits /\ snd f <> Panics None.
