(** What the task manager must do, in terms of the events of an execution. *)
From Verif Require Import Common Threads Bytes TaskMgrModel.
Local Open Scope list_scope.
Local Open Scope Z_scope.

(** Tasks started and stopped so far, by whatever call.  The start is part of a call of Start or Register
    that succeeds. *)
Definition was_started (t : nat) (tr : list mevent) : bool := 
  existsb (fun e => match e with VRet _ (MRegister x) MOk | VRet _ (MStart x) MOk => Nat.eqb x t | _ => false end) tr.
Definition was_stopped (t : nat) (tr : list mevent) : bool := 
  existsb (fun e => match e with VStopped _ x => Nat.eqb x t | _ => false end) tr.

(** Which task is registered under a name: as the calls that have returned tell. *)
Definition registered (name : nat -> string) (tr : list mevent) : smap nat :=
  fold_left (fun reg e =>
    match e with
    | VRet _ (MRegister t) MErr => reg
    | VRet _ (MRegister t) _ => mset reg (name t) t
    | VRet _ (MUnregister nm) _ => mdel reg nm
    | VRet _ MUnregisterAll _ => mempty
    | _ => reg
    end) tr mempty.

(** The call goroutine [i] is in. *)
Definition calling (i : nat) (tr : list mevent) : option mop :=
  fold_left (fun acc e =>
    match e with
    | VCall j o => if Nat.eqb i j then Some o else acc
    | VRet j _ _ => if Nat.eqb i j then None else acc
    | _ => acc
    end) tr None.

(** Result of a call of Register. *)
Definition register_due (name : nat -> string) (tr : list mevent) (t : nat) : mres :=
  match registered name tr (name t) with
  | Some _ => MErr
  | None => if was_started t tr then MPanic else MOk
  end.
