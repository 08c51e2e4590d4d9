(** Executable model of the connection pool behind the *sql.DB that the constructors of /repo/confs return
    (/repo/confs/mysql.go:99-106 and 132-134, oracle.go:73-80 and 140-142, postgresql.go:71-78 and 144-146): first
    SetMaxOpenConns, then SetMaxIdleConns, before the first connection is made.  The pool is that of database/sql of the Go
    standard library, written down from memory of its source, which is not in the repo.
    Every event is one critical section under db.mu; connecting and closing happen outside of it.
    Simplifications: connections are counted, not told apart; when a connection is too old is not computed, any
    connection may be at any time; DB.Close, Conn and the dependencies of open statements are left out. *)
From Verif Require Import Common ConfsModel.
Local Open Scope Z_scope.

(** The fields maxOpen and maxIdleCount. *)
Record limits := mkLimits { li_open : Z; li_idle : Z }.
(** maxIdleConnsLocked *)
Definition max_idle (l : limits) : Z := if li_idle l =? 0 then 2 else if li_idle l <? 0 then 0 else li_idle l.
Definition set_max_idle (n : Z) (l : limits) : limits :=
  let l := mkLimits (li_open l) (if 0 <? n then n else -1) in
  if (0 <? li_open l) && (li_open l <? max_idle l) then mkLimits (li_open l) (li_open l) else l.
Definition set_max_open (n : Z) (l : limits) : limits :=
  let l := mkLimits (if n <? 0 then 0 else n) (li_idle l) in
  if (0 <? li_open l) && (li_open l <? max_idle l) then set_max_idle n l else l.
(** mysql.go:104-105 and the corresponding lines *)
Definition pool_limits (p : pool) : limits := set_max_idle (p_idle p) (set_max_open (p_open p) (mkLimits 0 0)).

(** numOpen; the idle connections freeConn; connections in the hands of callers; callers that connect; connections that
    the goroutine connectionOpener has been told to make; connections that are being closed; connRequests. *)
Record dbpool := mkDb {
  db_open : Z; db_free : Z; db_used : Z; db_dialing : Z; db_opening : Z; db_closing : Z; db_waiting : Z }.
Definition fresh : dbpool := mkDb 0 0 0 0 0 0 0.

(** maybeOpenNewConnections *)
Definition maybe_open (l : limits) (s : dbpool) : dbpool :=
  let n := db_waiting s in
  let n := if 0 <? li_open l then Z.min n (li_open l - db_open s) else n in
  let n := Z.max 0 n in
  mkDb (db_open s + n) (db_free s) (db_used s) (db_dialing s) (db_opening s + n) (db_closing s) (db_waiting s).
(** putConnDBLocked of a connection that is counted nowhere but in numOpen; [None]: it is not taken. *)
Definition put_conn (l : limits) (s : dbpool) : option dbpool :=
  if (0 <? li_open l) && (li_open l <? db_open s) then None
  else if 0 <? db_waiting s then
    Some (mkDb (db_open s) (db_free s) (db_used s + 1) (db_dialing s) (db_opening s) (db_closing s) (db_waiting s - 1))
  else if db_free s <? max_idle l then
    Some (mkDb (db_open s) (db_free s + 1) (db_used s) (db_dialing s) (db_opening s) (db_closing s) (db_waiting s))
  else None.

Inductive pool_event :=
| Ask (always_new : bool) (* conn: a caller wants a connection *)
| Dialed | DialFailed     (* the caller's connecting ends *)
| PutBack | PutBad        (* a caller gives its connection back; it is broken *)
| Outdated                (* a caller was handed a connection that is too old *)
| Opened | OpenFailed     (* openNewConnection ends *)
| Expired                 (* an idle connection is too old: found by the cleaner or by conn *)
| ClosedConn              (* finalClose ends *)
| GaveUp.                 (* the context of a waiting caller ends *)

Definition pool_step (l : limits) (e : pool_event) (s : dbpool) : option dbpool :=
  let 'mkDb open free used dialing opening closing waiting := s in
  match e with
  | Ask always_new =>
    if negb always_new && (0 <? free) then Some (mkDb open (free - 1) (used + 1) dialing opening closing waiting)
    else if (0 <? li_open l) && (li_open l <=? open) then Some (mkDb open free used dialing opening closing (waiting + 1))
    else Some (mkDb (open + 1) free used (dialing + 1) opening closing waiting)
  | Dialed => if 0 <? dialing then Some (mkDb open free (used + 1) (dialing - 1) opening closing waiting) else None
  | DialFailed => if 0 <? dialing then Some (maybe_open l (mkDb (open - 1) free used (dialing - 1) opening closing waiting)) else None
  | PutBack =>
    if 0 <? used then
      match put_conn l (mkDb open free (used - 1) dialing opening closing waiting) with
      | Some s' => Some s'
      | None => Some (mkDb open free (used - 1) dialing opening (closing + 1) waiting)
      end
    else None
  | PutBad => if 0 <? used then Some (maybe_open l (mkDb open free (used - 1) dialing opening (closing + 1) waiting)) else None
  | Outdated => if 0 <? used then Some (mkDb open free (used - 1) dialing opening (closing + 1) waiting) else None
  | Opened =>
    if 0 <? opening then
      match put_conn l (mkDb open free used dialing (opening - 1) closing waiting) with
      | Some s' => Some s'
      | None => Some (mkDb (open - 1) free used dialing (opening - 1) closing waiting)
      end
    else None
  | OpenFailed =>
    if 0 <? opening then
      Some (maybe_open l (mkDb (open - 1) free used dialing (opening - 1) closing (if 0 <? waiting then waiting - 1 else waiting)))
    else None
  | Expired => if 0 <? free then Some (mkDb open (free - 1) used dialing opening (closing + 1) waiting) else None
  | ClosedConn => if 0 <? closing then Some (maybe_open l (mkDb (open - 1) free used dialing opening (closing - 1) waiting)) else None
  | GaveUp => if 0 <? waiting then Some (mkDb open free used dialing opening closing (waiting - 1)) else None
  end.
Fixpoint pool_run (l : limits) (es : list pool_event) (s : dbpool) : option dbpool :=
  match es with
  | [] => Some s
  | e :: es' => match pool_step l e s with Some s' => pool_run l es' s' | None => None end
  end.
