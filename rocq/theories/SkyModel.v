(** Executable model of /repo/skywalking: the routing middleware, the redis hook and the helper for HTTP
    clients, as far as the tracer and the callers see them.  Whether the tracer creates a span is an input. *)
From Verif Require Import Common Bytes ProcsModel ConfsModel.
Local Open Scope string_scope.
Local Open Scope list_scope.
Local Open Scope Z_scope.

Inductive kind := Entry | Exit.
Inductive layer := Http | Cache.

(** What the tracer is told about a span. *)
Inductive event :=
| Start (span : Z) (k : kind) (parent : option Z) (name peer : string)
| Component (span n : Z)
| Tag (span : Z) (key value : string)
| Layer (span : Z) (l : layer)
| Fail (span : Z) (message : option string)
| End (span : Z).

(** [stored] is the span of the context in the routing context (middleware.go 29-31 SetSwContext). *)
Record world := mkWorld { next : Z; stored : option Z; trace : list event }.

Definition emit (es : list event) (w : world) : world := mkWorld (next w) (stored w) (trace w ++ es).

(** The tracer creates a span with the given parent. *)
Definition start (k : kind) (parent : option Z) (name peer : string) (w : world) : world * Z :=
  (mkWorld (next w + 1) (stored w) (trace w ++ [Start (next w) k parent name peer]), next w).

(** An error: its message and, for a routing.HTTPError, its status. *)
Record err := mkErr { message : string; code : option Z }.
Definition plain_error (m : string) : err := mkErr m None.
Inductive result := Ret (e : option err) | Panicked.

Record request := mkRequest { method : string; path : string; url : string; host : string }.
Record response := mkResponse { status : Z; body : string }.

(** * skywalking/fasthttp-routing/middleware.go and skywalking/fasthttp/client_span.go *)

(** middleware.go 33-50, client_span.go 23-38: the options and those who set them. *)
Inductive http_option := WithLogError | WithLog4xxBody.
Record http_opts := mkHttpOpts { log_error : bool; log_4xx_body : bool }.
Definition apply_http (o : http_opts) (x : http_option) : http_opts :=
  match x with
  | WithLogError => mkHttpOpts true (log_4xx_body o)
  | WithLog4xxBody => mkHttpOpts (log_error o) true
  end.
Definition http_options (l : list http_option) : http_opts := fold_left apply_http l (mkHttpOpts false false).

(** middleware.go 26-28 GetOperationName, client_span.go 99-101 getOperationNameForReq *)
Definition operation_name (r : request) : string := (method r ++ ":" ++ path r)%string.

Definition http_setup (n component : Z) (r : request) : list event :=
  [Component n component; Tag n "http.method" (method r); Tag n "url" (url r); Layer n Http].

(** middleware.go 82-103: after the handlers; [returned] is their error, [ctx_err] that of the request's
    context. *)
Definition after_next (o : http_opts) (n : Z) (returned : option err) (ctx_err : option string) (res : response) : list event :=
  match returned with
  | Some e => [Fail n (if log_error o then Some (message e) else None)]
  | None =>
    match ctx_err with
    | Some e => [Fail n (if log_error o then Some e else None)]
    | None => if status res >=? 400 then [Fail n (if log_4xx_body o then Some (body res) else None)] else []
    end
  end ++ [Tag n "status_code" (itoa (status res)); End n].

(** client_span.go 52-69 CreateSpan; [tracing]: the helper has a tracer. *)
Definition create_span (tracing ok : bool) (parent : option Z) (r : request) (w : world) : world * option Z :=
  if tracing && ok then
    let '(w, n) := start Exit parent (operation_name r) (host r) w in
    (emit (http_setup n 5005 r) w, Some n)
  else (w, None).
(** client_span.go 71-84 EndSpan *)
Definition end_span (o : http_opts) (span : option Z) (res : response) (w : world) : world :=
  match span with
  | None => w
  | Some n =>
    emit ((if status res >=? 400 then [Fail n (if log_4xx_body o then Some (body res) else None)] else [])
          ++ [Tag n "status_code" (itoa (status res)); End n]) w
  end.
(** client_span.go 86-97 EndSpanError *)
Definition end_span_error (o : http_opts) (span : option Z) (err : string) (w : world) : world :=
  match span with
  | None => w
  | Some n => emit [Fail n (if log_error o then Some err else None); End n] w
  end.

(** * skywalking/redis/hook.go *)

(** Lines 21-64 *)
Inductive redis_option := WithAddr (addr : string) | WithDb (db : Z) | WithRedisLogError | WithArgsReport.
Record redis_opts := mkRedisOpts { peer : string; db : string; redis_log_error : bool; report_args : bool }.
Definition apply_redis (o : redis_opts) (x : redis_option) : redis_opts :=
  match x with
  | WithAddr a => mkRedisOpts a (db o) (redis_log_error o) (report_args o)
  | WithDb d => mkRedisOpts (peer o) (itoa d) (redis_log_error o) (report_args o)
  | WithRedisLogError => mkRedisOpts (peer o) (db o) true (report_args o)
  | WithArgsReport => mkRedisOpts (peer o) (db o) (redis_log_error o) true
  end.
Definition redis_options (l : list redis_option) : redis_opts := fold_left apply_redis l (mkRedisOpts "" "" false false).

(** A command: its name, its text with arguments, and the error it will have. *)
Record command := mkCommand { c_name : string; c_text : string; c_err : option string }.

(** Lines 131-140 quickJoin *)
Fixpoint join_loop {A} (n i : nat) (objs : list A) (sep : string) (f : A -> string) (sb : string) : string :=
  match objs with
  | [] => sb
  | x :: rest =>
    let sb := (sb ++ f x)%string in
    join_loop n (S i) rest sep f (if Nat.ltb i (n - 1) then (sb ++ sep)%string else sb)
  end.
Definition quick_join {A} (objs : list A) (sep : string) (f : A -> string) : string := join_loop (length objs) 0 objs sep f "".
(** Lines 162-174 quickJoinError *)
Definition quick_join_error (objs : list command) (sep : string) : string :=
  fold_left (fun sb c =>
    match c_err c with
    | None => sb
    | Some e => ((if (sb =? "")%string then sb else sb ++ sep) ++ e)%string
    end) objs "".

(** Lines 74-83 and 113-125: name of the operation, statement. *)
Definition redis_setup (n : Z) (o : redis_opts) (name text : string) : list event :=
  [Tag n "db.statement" (if report_args o then text else name); Tag n "db.instance" (db o); Tag n "db.type" "Redis";
   Component n 7; Layer n Cache].

(** Lines 71-85 BeforeProcess and 105-127 BeforeProcessPipeline; [None]: the span is nil and its use panics. *)
Definition before_process (o : redis_opts) (ok : bool) (parent : option Z) (name text : string) (w : world) : option (world * Z) :=
  if ok then
    let '(w, n) := start Exit parent name (peer o) w in
    Some (emit (redis_setup n o name text) w, n)
  else None.

(** Lines 87-103 AfterProcess and 142-160 AfterProcessPipeline: [span] is the active span of the context. *)
Definition after_process (o : redis_opts) (span : option Z) (err : option string) (w : world) : world :=
  match span with
  | None => w
  | Some n =>
    emit (match err with
          | Some e => [Fail n (if redis_log_error o then Some e else None)]
          | None => []
          end ++ [End n]) w
  end.

(** The hooks of a client: tracing ones, with the decision of the tracer, and other ones with the errors
    they return. *)
Inductive hook := Tracing (o : redis_opts) (ok : bool) | Other (before after : option string).

(** go-redis v7 hooks.beforeProcess: each hook gets the context of the one before; the first error ends it. *)
Fixpoint before_all (hooks : list hook) (ctx : option Z) (name text : string) (w : world) : world * option (option Z * option string) :=
  match hooks with
  | [] => (w, Some (ctx, None))
  | Tracing o ok :: rest =>
    match before_process o ok ctx name text w with
    | None => (w, None)
    | Some (w, n) => before_all rest (Some n) name text w
    end
  | Other (Some e) _ :: _ => (w, Some (ctx, Some e))
  | Other None _ :: rest => before_all rest ctx name text w
  end.
(** go-redis v7 hooks.afterProcess: all hooks get the last context; the first error counts. *)
Fixpoint after_all (hooks : list hook) (ctx : option Z) (err : option string) (w : world) : world * option string :=
  match hooks with
  | [] => (w, None)
  | Tracing o _ :: rest => after_all rest ctx err (after_process o ctx err w)
  | Other _ a :: rest =>
    let '(w, e) := after_all rest ctx err w in
    (w, match a with Some x => Some x | None => e end)
  end.
(** go-redis v7 hooks.process and processPipeline; [own] is what the command returns, [err] what the hooks see. *)
Definition process (hooks : list hook) (name text : string) (err own : option string) (w : world) : world * result :=
  match before_all hooks (stored w) name text w with
  | (w, None) => (w, Panicked)
  | (w, Some (_, Some e)) => (w, Ret (Some (plain_error e)))
  | (w, Some (ctx, None)) =>
    let '(w, e) := after_all hooks ctx err w in
    (w, Ret (option_map plain_error (match e with Some x => Some x | None => own end)))
  end.

Definition first_error (cs : list command) : option string :=
  fold_right (fun c r => match c_err c with Some e => Some e | None => r end) None cs.
(** The error text of a pipeline as the hook sees it (lines 148-149). *)
Definition pipeline_error (cs : list command) : option string :=
  let e := quick_join_error cs "|" in if (e =? "")%string then None else Some e.

(** * Requests *)

(** The rest of the handlers of a request: github.com/qiangxue/fasthttp-routing Context.Next calls them one
    by one until one returns an error; its index stays at that one. *)
Inductive prog :=
| PRet (e : option err)                            (** return *)
| PPanic
| PBind (p : prog) (k : option err -> prog)        (** go on with the error that [p] returned *)
| PRespond (r : response)                          (** write the response *)
| PAbort                                           (** Context.Abort: skip the handlers that follow *)
| PNext                                            (** Context.Next *)
| PRedis (hooks : list hook) (c : command)         (** a command with the context of the request *)
| PPipeline (hooks : list hook) (cs : list command)
| PClient (o : http_opts) (tracing ok : bool) (r : request) (answer : response + string)
| PTrace (o : http_opts) (setup : option bool) (ctx_err : option string).
(** [PTrace] is the middleware; [setup] is [None] for a nil tracer, else whether the tracer creates the span. *)

Record state := mkState { world_of : world; rest : list prog; resp : response }.
Definition in_world {A} (f : world -> world * A) (s : state) : state * A :=
  let '(w, a) := f (world_of s) in (mkState w (rest s) (resp s), a).

(** client_span.go as its users call it: CreateSpan, the call, EndSpan or EndSpanError. *)
Definition client_call (o : http_opts) (tracing ok : bool) (r : request) (answer : response + string) (w : world) : world * result :=
  let '(w, span) := create_span tracing ok (stored w) r w in
  match answer with
  | inl res => (end_span o span res w, Ret None)
  | inr e => (end_span_error o span e w, Ret (Some (plain_error e)))
  end.

(** middleware.go 62-105; 71-73: without a span. *)
Definition traced (next_handlers : state -> state * result) (req : request) (o : http_opts) (ctx_err : option string) (s : state) : state * result :=
  let '(w, n) := start Entry (stored (world_of s)) (operation_name req) "" (world_of s) in
  let w := emit (http_setup n 5004 req) w in
  match next_handlers (mkState (mkWorld (next w) (Some n) (trace w)) (rest s) (resp s)) with
  | (s, Panicked) => (s, Panicked)
  | (s, Ret e) => (mkState (emit (after_next o n e ctx_err (resp s)) (world_of s)) (rest s) (resp s), Ret None)
  end.

Fixpoint run (req : request) (next_handlers : state -> state * result) (p : prog) (s : state) : state * result :=
  match p with
  | PRet e => (s, Ret e)
  | PPanic => (s, Panicked)
  | PBind p k =>
    match run req next_handlers p s with
    | (s, Panicked) => (s, Panicked)
    | (s, Ret e) => run req next_handlers (k e) s
    end
  | PRespond r => (mkState (world_of s) (rest s) r, Ret None)
  | PAbort => (mkState (world_of s) [] (resp s), Ret None)
  | PNext => next_handlers s
  | PRedis hooks c => in_world (process hooks (c_name c) (c_text c) (c_err c) (c_err c)) s
  | PPipeline hooks cs =>
    in_world (process hooks (quick_join cs "|" c_name) (quick_join cs "|" c_text) (pipeline_error cs) (first_error cs)) s
  | PClient o tracing ok r answer => in_world (client_call o tracing ok r answer) s
  | PTrace o (Some true) ctx_err => traced next_handlers req o ctx_err s
  | PTrace _ _ _ => next_handlers s
  end.

(** Context.Next; [fuel] is at least the number of handlers left. *)
Fixpoint next_with (req : request) (fuel : nat) (s : state) : state * result :=
  match fuel, rest s with
  | S fuel', h :: rest' =>
    match run req (next_with req fuel') h (mkState (world_of s) rest' (resp s)) with
    | (s, Ret None) => next_with req fuel' s
    | r => r
    end
  | _, _ => (s, Ret None)
  end.
Definition run_handlers (req : request) (s : state) : state * result := next_with req (length (rest s)) s.

(** Router.HandleRequest: an error becomes the response. *)
Definition serve (req : request) (handlers : list prog) (w : world) : state * result :=
  match run_handlers req (mkState w handlers (mkResponse 200 "")) with
  | (s, Ret (Some e)) =>
    (mkState (world_of s) (rest s) (mkResponse (match code e with Some c => c | None => 500 end) (message e)), Ret None)
  | r => r
  end.

(** * skywalking/factory.go and conf.go *)

Record sky_conf := mkSky { server_addr : string; service_name : string; service_instance : string; service_namespace : string }.
Inductive reporter := NoopReporter | GrpcReporter (addr : string).
(** factory.go 24-38 NewGrpcOrNoopReporter; [grpc] tells whether the gRPC reporter can be made. *)
Definition new_reporter (grpc : string -> option string) (c : option sky_conf) : reporter + string :=
  match c with
  | None => inl NoopReporter
  | Some c =>
    if (server_addr c =? "")%string then inl NoopReporter
    else match grpc (server_addr c) with
         | Some e => inr e
         | None => inl (GrpcReporter (server_addr c))
         end
  end.
(** factory.go 40-45 NewTracer: service and instance *)
Definition tracer_identity (c : sky_conf) : string * string :=
  ((service_namespace c ++ "::" ++ service_name c)%string, service_instance c).
(** conf.go 12-15 String *)
Definition sky_string (c : sky_conf) : string :=
  ("{ServerAddr: " ++ server_addr c ++ ", ServiceName: " ++ service_name c ++ ", ServiceInstance: " ++ service_instance c
   ++ ", ServiceNamespace: " ++ service_namespace c ++ "}")%string.
