(** Specification of nested circuit breakers: what one breaker, and what one goroutine, sees. *)
From Verif Require Import Common Threads BreakerModel BreakerSpec BreakerNestModel.

(** The events of breaker [b]. *)
Definition at_breaker (b : nat) (ev : nevent) : list bevent :=
  match ev with NEv _ b' e => if Nat.eqb b' b then [e] else [] | NBack _ _ _ => [] end.
Definition of_breaker (b : nat) (tr : list nevent) : list bevent := flat_map (at_breaker b) tr.

Definition nclock_ok (l : nlabel) : Prop := match l with NClock t => 0 <= t < 2 ^ 62 | _ => True end.
Definition nlength_ok (sched : list nlabel) : Prop := Z.of_nat (length sched) < 2 ^ 62.

(** What goroutine [g] sees: calls of Do and of callbacks, and their ends. *)
Inductive nvisible :=
| WCall (b i : nat)                   (* call number i of Do, of breaker b *)
| WOnOpen (b i : nat)
| WTask (b i : nat)
| WTaskEnd (b i : nat) (o : outcome)
| WOnError (b i : nat) (e : Z)
| WReturn (b i : nat).                (* Do is over *)
Definition sees (g : nat) (ev : nevent) : list nvisible :=
  match ev with
  | NEv g' b e =>
    if Nat.eqb g' g then
      match e with
      | ECall i => [WCall b i]
      | EOnOpen i => [WOnOpen b i]
      | ETask i => [WTask b i]
      | EDone i o => [WTaskEnd b i o]
      | EOnError i e => [WOnError b i e]
      | EConsult _ _ _ | EFailure _ | ESuccess => []
      end
    else []
  | NBack g' b i => if Nat.eqb g' g then [WReturn b i] else []
  end.
Definition seen_by (g : nat) (tr : list nevent) : list nvisible := flat_map (sees g) tr.

(** Whole calls of Do, one after the other, with whole calls inside their callbacks. *)
Inductive whole_calls : list nvisible -> Prop :=
| wc_none : whole_calls []
| wc_more l d : whole_calls l -> whole_call d -> whole_calls (l ++ d)
with whole_call : list nvisible -> Prop :=
| wc_refused b i inner : whole_calls inner -> whole_call (WCall b i :: WOnOpen b i :: inner ++ [WReturn b i])
| wc_done b i inner o : whole_calls inner -> (o = TaskOk \/ o = TaskPanic) ->
    whole_call (WCall b i :: WTask b i :: inner ++ [WTaskEnd b i o; WReturn b i])
| wc_failed b i inner e inner2 : whole_calls inner -> whole_calls inner2 ->
    whole_call (WCall b i :: WTask b i :: inner ++ WTaskEnd b i (TaskErr e) :: WOnError b i e :: inner2 ++ [WReturn b i]).

(** Accesses to the fields. *)
Inductive kfield := KThreshold | KTimeout | KLast | KFailures.
Definition access (pc : fpc) : option (kfield * bool) :=   (* [true]: a write *)
  match pc with
  | FFail1 _ | FFail2 _ | FInc1 _ => Some (KFailures, false)
  | FThr1 _ _ | FThr2 _ _ => Some (KThreshold, false)
  | FLast _ => Some (KLast, false)
  | FTimeout _ _ => Some (KTimeout, false)
  | FInc2 _ _ | FZero1 => Some (KFailures, true)
  | FStamp _ _ | FZero2 => Some (KLast, true)
  | _ => None
  end.
(** Calls [i] and [j] are about to access the same field, and one of them writes. *)
Definition races (s : nstate) (i j : nat) : Prop :=
  i <> j /\ exists b pc pc' f w w', nth_error (n_acts s) i = Some (b, pc) /\ nth_error (n_acts s) j = Some (b, pc') /\
    access pc = Some (f, w) /\ access pc' = Some (f, w') /\ (w || w' = true).

(** User code of goroutine [g] runs: in a callback, or outside all calls of Do. *)
Definition user_runs (s : nstate) (g : nat) : Prop :=
  match nth_error (n_stacks s) g with
  | Some [] => True
  | Some (i :: _) => exists b pc, nth_error (n_acts s) i = Some (b, pc) /\ in_user pc = true
  | None => False
  end.
Definition is_step (l : nlabel) : Prop := match l with NStep _ => True | _ => False end.

(** [runs_on s m s']: from [s], [m] steps inside calls of Do, by any goroutines in any order, lead to [s']. *)
Inductive runs_on : nstate -> nat -> nstate -> Prop :=
| ro_none s : runs_on s 0 s
| ro_step s g s1 es m s2 : nstep s (NStep g) = Some (s1, es) -> runs_on s1 m s2 -> runs_on s (S m) s2.
Definition all_in_user_code (s : nstate) : Prop := forall g, (g < length (n_stacks s))%nat -> user_runs s g.

(** Goroutine [g] wants the read lock of a breaker whose write lock somebody waits for: Go may hold it back. *)
Definition waits (b : nat) (a : nat * fpc) : bool := match a with (b', FLock _) => Nat.eqb b' b | _ => false end.
Definition held_back (s : nstate) (g : nat) : Prop :=
  exists i below b now, nth_error (n_stacks s) g = Some (i :: below) /\ nth_error (n_acts s) i = Some (b, FRLock now) /\ existsb (waits b) (n_acts s) = true.
