(** Executable model of the test helpers (/repo/testutil/panic.go).

    A test writes lines with Errorf, each of which makes it fail.  The function under test may write lines itself
    and returns, panics, or ends the goroutine (runtime.Goexit, which t.FailNow and t.SkipNow use). *)
From Verif Require Import Common Bytes.
Local Open Scope string_scope.

Section helpers.
  (** Values other than nil; reflect.DeepEqual on them; %v; the value that recover returns for panic(nil): nil to
      Go 1.20 (and later for modules that ask for it), a *runtime.PanicNilError from Go 1.21 on. *)
  Context {V : Type}.
  Variable deep : V -> V -> bool.
  Variable show : option V -> string.
  Variable for_nil : option V.

  Inductive finish := Returns | Panics (v : option V) | Exits.
  Definition body : Type := list string * finish.

  (** recover() in a deferred function; nil if there is no panic. *)
  Definition recovered (f : finish) : option V :=
    match f with
    | Panics (Some v) => Some v
    | Panics None => for_nil
    | _ => None
    end.
  (** How the helper ends after it has recovered. *)
  Definition ends (f : finish) : finish := match f with Exits => Exits | _ => Returns end.

  (** reflect.DeepEqual on interface values: nil equals only nil. *)
  Definition deep_equal (a b : option V) : bool :=
    match a, b with
    | None, None => true
    | Some x, Some y => deep x y
    | _, _ => false
    end.

  (** panic.go:8-12 ShouldPanic: the lines written, and how it ends. *)
  Definition should_panic (title : string) (f : body) : body :=
    let (lines, e) := f in
    match e with
    | Returns => (lines ++ [(title ++ " did not panicked")%string], Returns)%list
    | Panics _ => (lines, ends e)
    | Exits => (lines, ends e)
    end.

  (** panic.go:14-23 ExpectPanic: a function that returns makes two lines if a value is expected. *)
  Definition expect_panic (title : string) (expected : option V) (f : body) : body :=
    let (lines, e) := f in
    let lines := match e with Returns => (lines ++ [(title ++ " did not panicked")%string])%list | _ => lines end in
    let r := recovered e in
    (if negb (deep_equal r expected) then (lines ++ [(title ++ " panic = [" ++ show r ++ "], want [" ++ show expected ++ "]")%string])%list else lines, ends e).

  (** panic.go:24-31 ShouldNotPanic *)
  Definition should_not_panic (title : string) (f : body) : body :=
    let (lines, e) := f in
    match recovered e with
    | Some v => ((lines ++ [(title ++ " panicked, message: " ++ show (Some v))%string])%list, ends e)
    | None => (lines, ends e)
    end.

  (** A test: helpers called one after the other; none is called after the goroutine has ended. *)
  Inductive helper := HShould (title : string) (f : body) | HExpect (title : string) (expected : option V) (f : body) | HShouldNot (title : string) (f : body).
  Definition help (h : helper) : body :=
    match h with
    | HShould title f => should_panic title f
    | HExpect title expected f => expect_panic title expected f
    | HShouldNot title f => should_not_panic title f
    end.
  Fixpoint run_test (hs : list helper) : list string :=
    match hs with
    | [] => []
    | h :: hs' =>
      match help h with
      | (lines, Exits) => lines
      | (lines, _) => (lines ++ run_test hs')%list
      end
    end.
End helpers.
Arguments finish : clear implicits. Arguments body : clear implicits. Arguments helper : clear implicits.
