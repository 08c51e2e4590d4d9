(** Objects whose methods are run by several goroutines: one step is one access to a field, one operation on
    the lock of the object, or one reading of the clock.  The methods of the limiters and of the circuit breaker
    are written as such code in LimiterConcModel.v; this file has no counterpart in /repo but the Go language and
    package sync. *)
From Verif Require Import Common Threads.

(** ** sync.RWMutex
    The readers, and the writer with whether it has the lock or waits for the readers to leave; a waiting writer
    holds back new readers and other writers.  A sync.Mutex is one without readers. *)
Record rwlock := RWLock { lk_readers : list nat; lk_writer : option (nat * bool) }.
Definition rwlock0 : rwlock := RWLock [] None.
Definition lk_rlock (t : nat) (x : rwlock) : option rwlock :=
  match lk_writer x with None => Some (RWLock (t :: lk_readers x) None) | Some _ => None end.
Definition lk_runlock (t : nat) (x : rwlock) : rwlock := RWLock (remove Nat.eq_dec t (lk_readers x)) (lk_writer x).
Definition lk_announce (t : nat) (x : rwlock) : option rwlock :=
  match lk_writer x with None => Some (RWLock (lk_readers x) (Some (t, false))) | Some _ => None end.
Definition lk_acquire (t : nat) (x : rwlock) : option rwlock :=
  match lk_writer x, lk_readers x with
  | Some (u, false), [] => if Nat.eqb u t then Some (RWLock [] (Some (t, true))) else None
  | _, _ => None
  end.
Definition lk_unlock (x : rwlock) : rwlock := RWLock (lk_readers x) None.

(** ** Code of methods
    over fields [F] with values [V], returning [R]. *)
Inductive code (F V R : Type) :=
| CRet (r : R)
| CClock (k : Z -> code F V R)               (* nowFn() *)
| CGet (f : F) (k : V -> code F V R)         (* reads a field *)
| CSet (f : F) (v : V) (k : code F V R)      (* writes a field *)
| CAnnounce (k : code F V R)                 (* Lock(), up to waiting for readers *)
| CAcquire (k : code F V R)                  (* Lock() returns *)
| CUnlock (k : code F V R)
| CRLock (k : code F V R)
| CRUnlock (k : code F V R).
Arguments CRet {F V R}. Arguments CClock {F V R}. Arguments CGet {F V R}. Arguments CSet {F V R}.
Arguments CAnnounce {F V R}. Arguments CAcquire {F V R}. Arguments CUnlock {F V R}. Arguments CRLock {F V R}. Arguments CRUnlock {F V R}.
Definition CLock {F V R} (k : code F V R) : code F V R := CAnnounce (CAcquire k).

Section machine.
  Context {F V R M : Type}.
  Variable feq : forall f g : F, {f = g} + {f <> g}.
  Variable body : M -> code F V R.

  Definition mem := F -> V.
  Definition store_at (m : mem) (f : F) (v : V) : mem := fun g => if feq f g then v else m g.

  (** The fields, the lock, the clock behind nowFn, and for every goroutine the method it is in with what is left of it. *)
  Record mon := Mon { mo_mem : mem; mo_lock : rwlock; mo_clock : Z; mo_threads : list (option (M * code F V R)) }.

  Inductive mlabel :=
  | MTick (z : Z)               (* the clock now shows z *)
  | MCall (t : nat) (m : M)     (* goroutine t calls m *)
  | MGo (t : nat).              (* goroutine t makes its next step *)
  Inductive mevent :=
  | MTime (z : Z)
  | MCalled (t : nat) (m : M)
  | MReturned (t : nat) (m : M) (r : R).

  (** What one step of goroutine [t] does to fields and lock; [None]: it waits (or returns). *)
  Definition code_step (t : nat) (clock : Z) (s : mem) (x : rwlock) (c : code F V R) : option (mem * rwlock * code F V R) :=
    match c with
    | CRet _ => None
    | CClock k => Some (s, x, k clock)
    | CGet f k => Some (s, x, k (s f))
    | CSet f v k => Some (store_at s f v, x, k)
    | CAnnounce k => match lk_announce t x with Some y => Some (s, y, k) | None => None end
    | CAcquire k => match lk_acquire t x with Some y => Some (s, y, k) | None => None end
    | CUnlock k => Some (s, lk_unlock x, k)
    | CRLock k => match lk_rlock t x with Some y => Some (s, y, k) | None => None end
    | CRUnlock k => Some (s, lk_runlock t x, k)
    end.

  Definition mstep (w : mon) (l : mlabel) : option (mon * list mevent) :=
    match l with
    | MTick z => Some (Mon (mo_mem w) (mo_lock w) z (mo_threads w), [MTime z])
    | MCall t m =>
      match nth_error (mo_threads w) t with
      | Some None => Some (Mon (mo_mem w) (mo_lock w) (mo_clock w) (upd t (Some (m, body m)) (mo_threads w)), [MCalled t m])
      | _ => None
      end
    | MGo t =>
      match nth_error (mo_threads w) t with
      | Some (Some (m, CRet r)) =>
        Some (Mon (mo_mem w) (mo_lock w) (mo_clock w) (upd t None (mo_threads w)), [MReturned t m r])
      | Some (Some (m, c)) =>
        match code_step t (mo_clock w) (mo_mem w) (mo_lock w) c with
        | Some (s, x, c') => Some (Mon s x (mo_clock w) (upd t (Some (m, c')) (mo_threads w)), [])
        | None => None
        end
      | _ => None
      end
    end.

  (** An object with fields [s], [n] goroutines, the clock showing [t0]. *)
  Definition mon0 (s : mem) (t0 : Z) (n : nat) : mon := Mon s rwlock0 t0 (repeat None n).
  Definition mon_exec (s : mem) (t0 : Z) (n : nat) (sched : list mlabel) : mon * list mevent := exec mstep (mon0 s t0 n) sched.
End machine.
Arguments mon : clear implicits. Arguments mlabel : clear implicits. Arguments mevent : clear implicits.
Arguments MTick {M}. Arguments MCall {M}. Arguments MGo {M}.
Arguments MTime {R M}. Arguments MCalled {R M}. Arguments MReturned {R M}.
Arguments mem : clear implicits.
