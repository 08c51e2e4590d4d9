(** Specification of the persisters by themselves: what calls report, and what Load hands out afterwards. *)
From Verif Require Import Common Bytes StoreModel.
Local Open Scope string_scope.
Local Open Scope list_scope.

(** Calls that change what is saved. *)
Inductive pcall := CSave (k v : string) | CBatch (kvs : list (string * string)) | CDelete (k : string).

(** The map of saved values after a call. *)
Definition saved_after (m : smap string) (c : pcall) : smap string :=
  match c with
  | CSave k v => mset m k v
  | CBatch kvs => fold_left (fun m kv => mset m (fst kv) (snd kv)) kvs m
  | CDelete k => mdel m k
  end.

(** ... and after several, of which only those without an error count. *)
Definition saved_by (m : smap string) (cs : list (pcall * bool)) : smap string :=
  fold_left (fun m (c : pcall * bool) => if snd c then saved_after m (fst c) else m) cs m.

(** Does the call send a command? *)
Definition sends (c : pcall) : bool := match c with CBatch [] => false | _ => true end.

Section calls.
  Context {P : Type}.
  Variable per : persister P.
  Definition pcall_step (p : P) (c : pcall) : P * bool :=
    match c with
    | CSave k v => ps_save per p k v
    | CBatch kvs => ps_batch per p kvs
    | CDelete k => ps_delete per p k
    end.
  (** The calls with whether they returned without an error. *)
  Fixpoint pcall_run (p : P) (cs : list pcall) : P * list (pcall * bool) :=
    match cs with
    | [] => (p, [])
    | c :: rest =>
      let (p1, b) := pcall_step p c in
      let (p2, bs) := pcall_run p1 rest in (p2, (c, b) :: bs)
    end.
End calls.
