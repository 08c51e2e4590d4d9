(** Executable model of the connections that the *fasthttp.Client of NewFastHttpClient
    (/repo/confs/fasthttpclient.go:80-122: MaxConnsPerHost and MaxConnWaitTimeout are the configured ones) has to one host.
    The code is that of HostClient in github.com/valyala/fasthttp (client.go: acquireConn, queueForIdle, dialConnFor,
    decConnsCount, releaseConn, closeConn, connsCleaner), written down from memory of its source, which is not in the repo.
    Every event is one critical section under connsLock (a release also holds the lock of the want it serves); connecting
    and closing happen outside.
    Simplifications: connections are counted, not told apart; any idle connection may be too old at any time; wants that
    timed out leave the queue at once (the code skips them when it comes across them). *)
From Verif Require Import Common.
Local Open Scope Z_scope.

(** MaxConns (512 is DefaultMaxConnsPerHost) and whether MaxConnWaitTimeout is above 0 *)
Definition max_conns (configured : Z) : Z := if configured <=? 0 then 512 else configured.
Record hlimits := mkHl { hl_conns : Z; hl_wait : bool }.
Definition host_limits (conns wait : Z) : hlimits := mkHl (max_conns conns) (0 <? wait).

(** [hp_count]: connsCount; [hp_idle]: conns; [hp_used]: connections with callers; [hp_dialing]: callers that connect;
    [hp_deciding]: callers that found no connection and are about to queue; [hp_queued]: callers in connsWait;
    [hp_redialing]: goroutines dialConnFor; [hp_cleaning]: connections that are no longer idle and about to be closed. *)
Record hpool := mkHp {
  hp_count : Z; hp_idle : Z; hp_used : Z; hp_dialing : Z; hp_deciding : Z; hp_queued : Z; hp_redialing : Z; hp_cleaning : Z }.
Definition new_host : hpool := mkHp 0 0 0 0 0 0 0 0.

(** decConnsCount *)
Definition dec_count (l : hlimits) (s : hpool) : hpool :=
  let 'mkHp count idle used dialing deciding queued redialing cleaning := s in
  if hl_wait l && (0 <? queued) then mkHp count idle used dialing deciding (queued - 1) (redialing + 1) cleaning
  else mkHp (count - 1) idle used dialing deciding queued redialing cleaning.
(** releaseConn of a connection that is counted nowhere but in connsCount *)
Definition release (l : hlimits) (s : hpool) : hpool :=
  let 'mkHp count idle used dialing deciding queued redialing cleaning := s in
  if hl_wait l && (0 <? queued) then mkHp count idle (used + 1) dialing deciding (queued - 1) redialing cleaning
  else mkHp count (idle + 1) used dialing deciding queued redialing cleaning.

(** acquireConn: what a caller meets. *)
Inductive met := MIdle | MDial | MWait | MRefused.
Definition meets (l : hlimits) (s : hpool) : met :=
  if 0 <? hp_idle s then MIdle
  else if hp_count s <? hl_conns l then MDial
  else if hl_wait l then MWait else MRefused.

Inductive http_event :=
| HAsk                     (* acquireConn up to the first unlock *)
| HQueue | HTimeout        (* queueForIdle; MaxConnWaitTimeout ends *)
| HDialed | HDialFailed    (* dialHostHard of the caller *)
| HRelease                 (* releaseConn *)
| HMissed                  (* releaseConn comes across a want that is given up in this instant *)
| HClose                   (* closeConn of a connection of a caller *)
| HClean | HCleaned        (* connsCleaner takes an idle connection out of the list, and closes it *)
| HRedialed | HLate | HRedialFailed. (* dialConnFor: the caller is still there; it is not; no connection *)

Definition http_step (l : hlimits) (e : http_event) (s : hpool) : option hpool :=
  let 'mkHp count idle used dialing deciding queued redialing cleaning := s in
  match e with
  | HAsk =>
    match meets l s with
    | MIdle => Some (mkHp count (idle - 1) (used + 1) dialing deciding queued redialing cleaning)
    | MDial => Some (mkHp (count + 1) idle used (dialing + 1) deciding queued redialing cleaning)
    | MWait => Some (mkHp count idle used dialing (deciding + 1) queued redialing cleaning)
    | MRefused => Some s
    end
  | HQueue => if 0 <? deciding then Some (mkHp count idle used dialing (deciding - 1) (queued + 1) redialing cleaning) else None
  | HTimeout => if 0 <? queued then Some (mkHp count idle used dialing deciding (queued - 1) redialing cleaning) else None
  | HDialed => if 0 <? dialing then Some (mkHp count idle (used + 1) (dialing - 1) deciding queued redialing cleaning) else None
  | HDialFailed => if 0 <? dialing then Some (dec_count l (mkHp count idle used (dialing - 1) deciding queued redialing cleaning)) else None
  | HRelease => if 0 <? used then Some (release l (mkHp count idle (used - 1) dialing deciding queued redialing cleaning)) else None
  | HMissed =>
    if (0 <? used) && (0 <? queued) then Some (mkHp count (idle + 1) (used - 1) dialing deciding (queued - 1) redialing cleaning) else None
  | HClose => if 0 <? used then Some (dec_count l (mkHp count idle (used - 1) dialing deciding queued redialing cleaning)) else None
  | HClean => if 0 <? idle then Some (mkHp count (idle - 1) used dialing deciding queued redialing (cleaning + 1)) else None
  | HCleaned => if 0 <? cleaning then Some (dec_count l (mkHp count idle used dialing deciding queued redialing (cleaning - 1))) else None
  | HRedialed => if 0 <? redialing then Some (mkHp count idle (used + 1) dialing deciding queued (redialing - 1) cleaning) else None
  | HLate => if 0 <? redialing then Some (release l (mkHp count idle used dialing deciding queued (redialing - 1) cleaning)) else None
  | HRedialFailed => if 0 <? redialing then Some (dec_count l (mkHp count idle used dialing deciding queued (redialing - 1) cleaning)) else None
  end.
Fixpoint http_run (l : hlimits) (es : list http_event) (s : hpool) : option hpool :=
  match es with
  | [] => Some s
  | e :: es' => match http_step l e s with Some s' => http_run l es' s' | None => None end
  end.
