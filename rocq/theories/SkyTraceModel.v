(** Executable model of how traces go from service to service: the headers that the helper for HTTP clients sets
    (/repo/skywalking/fasthttp/client_span.go:52-69) and that the routing middleware reads
    (/repo/skywalking/fasthttp-routing/middleware.go:52-104), with the tracer of SkyAPM/go2sky v1.4.0 (the version in
    /repo/go.mod: trace.go, segment.go, propagation/propagation.go), whose source is not in the repo.
    Simplifications: the calls of a request happen one after the other; correlation data are left out (the header
    "sw8-correlation" is set to an empty text and not read); span numbers are not wrapped; the names that the tracer
    generates and the decisions of its sampler are inputs.  Names of operations are not empty (both helpers put a ':' or
    the path into them), and the middleware is used once per request. *)
From Verif Require Import Common Bytes ProcsModel ConfsModel PprofModel.
Local Open Scope string_scope.
Local Open Scope list_scope.
Local Open Scope Z_scope.

(** * Headers of a request (fasthttp) *)

(** Names are normalized: the first letter and those after '-' are capitals, the others small. *)
Definition upper_char (c : ascii) : ascii := if (97 <=? byte c) && (byte c <=? 122) then char_of (byte c - 32) else c.
Definition lower_char (c : ascii) : ascii := if (65 <=? byte c) && (byte c <=? 90) then char_of (byte c + 32) else c.
Fixpoint normal_from (up : bool) (k : string) : string :=
  match k with
  | String.EmptyString => ""
  | String.String c k' => String.String (if up then upper_char c else lower_char c) (normal_from (Ascii.eqb c "-") k')
  end.
Definition normal (k : string) : string := normal_from true k.

Definition headers : Type := smap string.
Definition set_header (h : headers) (k v : string) : headers := mset h (normal k) v.
Definition peek (h : headers) (k : string) : string := match h (normal k) with Some v => v | None => "" end.

(** * propagation.go *)

(** SpanContext *)
Record span_ref := Ref {
  r_sample : Z; r_trace : string; r_segment : string; r_span : Z;
  r_service : string; r_instance : string; r_endpoint : string; r_address : string }.

(** EncodeSW8 *)
Definition encode_sw8 (r : span_ref) : string :=
  String.concat "-" [itoa (r_sample r); encode_string (r_trace r); encode_string (r_segment r); itoa (r_span r);
    encode_string (r_service r); encode_string (r_instance r); encode_string (r_endpoint r); encode_string (r_address r)].

(** strconv.ParseInt with fewer bits. *)
Definition parse_bits (bits : Z) (s : string) : option Z :=
  match atoi s with
  | Some v => if (- 2 ^ (bits - 1) <=? v) && (v <? 2 ^ (bits - 1)) then Some v else None
  | None => None
  end.
(** DecodeSW8: [None] is an error, [Some None] that there is no header. *)
Definition decode_sw8 (header : string) : option (option span_ref) :=
  if (header =? "")%string then Some None
  else match split "-" header with
       | p0 :: p1 :: p2 :: p3 :: p4 :: p5 :: p6 :: p7 :: _ =>
         match parse_bits 8 p0, decode_string p1, decode_string p2, parse_bits 32 p3 with
         | Some sample, Some trace, Some segment, Some span =>
           match decode_string p4, decode_string p5, decode_string p6, decode_string p7 with
           | Some service, Some instance, Some endpoint, Some address =>
             Some (Some (Ref sample trace segment span service instance endpoint address))
           | _, _, _, _ => None
           end
         | _, _, _, _ => None
         end
       | _ => None
       end.

(** * The tracer *)

(** skywalking/conf.go:5-10 and skywalking/factory.go:40-45 NewTracer: the names of the service and the instance. *)
Record sky_conf := SkyConf { sky_namespace : string; sky_name : string; sky_instance : string }.
Definition service_name (c : sky_conf) : string := (sky_namespace c ++ "::" ++ sky_name c)%string.

(** A span as it is reported; [sp_parent] is -1 for the first span of a segment. *)
Record span := Span {
  sp_entry : bool; sp_trace : string; sp_segment : string; sp_id : Z; sp_parent : Z;
  sp_op : string; sp_peer : string; sp_service : string; sp_instance : string; sp_ref : option span_ref }.

(** What a context holds: no span, a span that is not reported, or the first span of a segment. *)
Inductive ctx := Bare | Dead | Active (first : span).

(** Incoming requests.  [q_mid]: the middleware has a tracer; [q_ready]: the tracer is registered with the
    collector; [q_sampled]: what the sampler says if it is asked. *)
Record req := Req { q_conf : sky_conf; q_mid : bool; q_ready : bool; q_sampled : bool; q_op : string }.
(** Outgoing ones.  [o_traced]: the helper has a tracer; [o_headers]: the headers before. *)
Record out := Out { o_traced : bool; o_op : string; o_host : string; o_headers : headers; o_sampled : bool }.

(** The first span of a segment takes over the trace of its reference. *)
Definition first_span (ids : nat -> string) (entry : bool) (c : sky_conf) (op peer : string) (ref : option span_ref) (w : nat) : span * nat :=
  (Span entry (match ref with Some r => r_trace r | None => ids (S w) end) (ids w) 0 (-1) op peer (service_name c) (sky_instance c) ref,
   S (S w)).

(** middleware.go:52-78 and CreateEntrySpan: the span, the context of the handlers, and the names used up.  Without a
    tracer, and if the tracer returns an error, the handlers are called without a span.  A request with a reference
    is always sampled. *)
Definition create_entry (ids : nat -> string) (q : req) (h : headers) (w : nat) : option span * ctx * nat :=
  if negb (q_mid q) then (None, Bare, w)
  else if negb (q_ready q) then (None, Dead, w)
  else match decode_sw8 (peek h "sw8") with
       | None => (None, Bare, w)
       | Some ref =>
         if q_sampled q || match ref with Some _ => true | None => false end then
           let '(s, w) := first_span ids true (q_conf q) (q_op q) "" ref w in (Some s, Active s, w)
         else (None, Dead, w)
       end.

(** The span context that an exit span [e] injects; [first] is the first span of its segment. *)
Definition span_context (c : sky_conf) (first e : span) (peer : string) : span_ref :=
  Ref 1 (sp_trace e) (sp_segment e) (sp_id e) (service_name c) (sky_instance c) (sp_op first) peer.
(** client_span.go:56-60: the injector. *)
Definition inject (h : headers) (r : span_ref) : headers := set_header (set_header h "sw8" (encode_sw8 r)) "sw8-correlation" "".

(** client_span.go:52-69 CreateSpan and CreateExitSpan, in the context of the handlers: the span, the headers of the
    request and the next number of a span. *)
Definition create_exit (ids : nat -> string) (q : req) (o : out) (c : ctx) (next : Z) (w : nat) : option span * headers * Z * nat :=
  if negb (o_traced o) || (o_host o =? "")%string || negb (q_ready q) then (None, o_headers o, next, w)
  else match c with
       | Dead => (None, o_headers o, next, w)
       | Active first =>
         let e := Span false (sp_trace first) (sp_segment first) next (sp_id first) (o_op o) (o_host o)
                    (service_name (q_conf q)) (sky_instance (q_conf q)) None in
         (Some e, inject (o_headers o) (span_context (q_conf q) first e (o_host o)), next + 1, w)
       | Bare =>
         if o_sampled o then
           let '(e, w) := first_span ids false (q_conf q) (o_op o) (o_host o) None w in
           (Some e, inject (o_headers o) (span_context (q_conf q) e e (o_host o)), next, w)
         else (None, o_headers o, next, w)
       end.

(** * Services that call each other *)

(** A request and the calls that its handlers make, each with the request that it becomes at the called service (if
    that uses the middleware). *)
Inductive node := Node (q : req) (calls : list (out * option node)).
(** The spans. *)
Inductive seen := Seen (entry : option span) (calls : list (option span * option seen)).

Definition run_calls (runner : node -> headers -> nat -> seen * nat) (ids : nat -> string) (q : req) (c : ctx) :=
  fix go (calls : list (out * option node)) (next : Z) (w : nat) : list (option span * option seen) * nat :=
    match calls with
    | [] => ([], w)
    | (o, target) :: rest =>
      let '(e, h, next, w) := create_exit ids q o c next w in
      let '(s, w) := match target with
                     | Some n => let '(s, w) := runner n h w in (Some s, w)
                     | None => (None, w)
                     end in
      let '(l, w) := go rest next w in
      ((e, s) :: l, w)
    end.

Fixpoint run (ids : nat -> string) (n : node) (h : headers) (w : nat) : seen * nat :=
  match n with
  | Node q calls =>
    let '(en, c, w) := create_entry ids q h w in
    let '(l, w) := run_calls (run ids) ids q c calls 1 w in
    (Seen en l, w)
  end.
