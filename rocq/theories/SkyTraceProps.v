(** Traces that go from service to service: the properties. *)
From Verif Require Import Common Bytes ProcsModel ConfsModel ConfsProofs PprofModel SkyTraceModel SkyTraceSpec SkyTraceProofs.
Local Open Scope string_scope.
Local Open Scope list_scope.
Local Open Scope Z_scope.

(** A shop that calls two services, of which the second calls a third; and a stock-keeping service that has no tracer. *)
Definition some_ids (k : nat) : string := itoa (Z.of_nat k).
Definition svc (ns name : string) (mid ready sampled : bool) (op : string) : req := Req (SkyConf ns name (name ++ "-1")%string) mid ready sampled op.
Definition call (op host : string) : out := Out true op host mempty false.
Definition shop : node :=
  Node (svc "prod" "shop" true true true "/GET/cart")
    [(call "GET:/user" "users:80", Some (Node (svc "prod" "users" true true false "/GET/user") []));
     (Out false "GET:/rate" "rates:80" mempty false, Some (Node (svc "prod" "rates" true true false "/GET/rate") []));
     (call "POST:/order" "orders:80",
       Some (Node (svc "prod" "orders" true true false "/POST/order") [(call "POST:/pay" "pay:80", Some (Node (svc "bank" "pay" true true false "/POST/pay") []));
                                                                       (call "GET:/stock" "stock:80", None)]))].

Example shop_spans : map (fun x => (sp_op x, sp_trace x, sp_segment x, sp_id x, match sp_ref x with Some r => r_service r | None => "" end))
    (spans (fst (run some_ids shop mempty 0)))
  = [("/GET/cart", "1", "0", 0, ""); ("GET:/user", "1", "0", 1, ""); ("/GET/user", "1", "2", 0, "prod::shop");
     ("POST:/order", "1", "0", 2, ""); ("/POST/order", "1", "4", 0, "prod::shop");
     ("POST:/pay", "1", "4", 1, ""); ("/POST/pay", "1", "6", 0, "prod::orders"); ("GET:/stock", "1", "4", 2, "")].
Proof. vm_compute. reflexivity. Qed.

(** ** Every call that has a span is continued by the called service, whatever its sampler says: same trace, and the
    reference names exactly that span. *)
Theorem trace_continues ids top h w w' all q calls en outs i o q1 calls1 e en1 outs1 :
  run ids top h w = (all, w') -> within top all (Node q calls) (Seen en outs) ->
  Z.of_nat (length calls) < 2 ^ 31 - 1 ->
  nth_error calls i = Some (o, Some (Node q1 calls1)) -> nth_error outs i = Some (Some e, Some (Seen en1 outs1)) ->
  q_mid q1 = true -> q_ready q1 = true ->
  exists x, en1 = Some x /\ sp_trace x = sp_trace e /\
    sp_ref x = Some (Ref 1 (sp_trace e) (sp_segment e) (sp_id e) (known_as (q_conf q)) (sky_instance (q_conf q)) (endpoint_of en e) (o_host o)).
Proof. intros H1 H2. exact (call_continues ids top h w w' all q calls en outs H1 H2 i o q1 calls1 e en1 outs1). Qed.
Print Assumptions trace_continues.

Example trace_continues_case :
  exists q calls en outs o q1 calls1 e en1 outs1,
    shop = Node q calls /\ fst (run some_ids shop mempty 0) = Seen en outs /\
    nth_error calls 2 = Some (o, Some (Node q1 calls1)) /\ nth_error outs 2 = Some (Some e, Some (Seen en1 outs1)) /\
    q_mid q1 = true /\ q_ready q1 = true /\ q_sampled q1 = false.
Proof. vm_compute. repeat eexists. Qed.

(** ** The calls of a traced request: those with a tracer and a host have spans, which belong to the segment of the
    request and are numbered from 1. *)
Theorem trace_calls_numbered ids top h w w' all q calls en outs i o t e s x :
  run ids top h w = (all, w') -> within top all (Node q calls) (Seen en outs) -> en = Some x ->
  nth_error calls i = Some (o, t) -> nth_error outs i = Some (e, s) ->
  (e <> None <-> o_traced o = true /\ o_host o <> "") /\
  forall y, e = Some y -> sp_trace y = sp_trace x /\ sp_segment y = sp_segment x /\ sp_parent y = sp_id x /\
    sp_id y = 1 + count_spans (firstn i outs) /\ sp_op y = o_op o /\ sp_peer y = o_host o /\ reported_by (q_conf q) y.
Proof. intros H1 H2. exact (call_numbered ids top h w w' all q calls en outs H1 H2 i o t e s x). Qed.
Print Assumptions trace_calls_numbered.

Example trace_calls_numbered_case :
  exists en outs y s, fst (run some_ids shop mempty 0) = Seen (Some en) outs /\ nth_error outs 2 = Some (Some y, s) /\ sp_id y = 2 /\ count_spans (firstn 2 outs) = 1.
Proof. vm_compute. repeat eexists. Qed.

(** ** If all services have tracers, everything that a traced request causes is one trace. *)
Theorem trace_whole ids n h w s w' x : all_traced n -> run ids n h w = (s, w') -> entry_of s = Some x ->
  (forall y, In y (spans s) -> sp_trace y = sp_trace x) /\
  (forall q calls en outs, within n s (Node q calls) (Seen en outs) ->
     en <> None /\ length outs = length calls /\ forall e t, In (e, t) outs -> e <> None).
Proof.
  intros H1 H2 H3. destruct (all_one_trace ids n h w s w' x H1 H2 H3) as [A B]. split; [exact A|].
  intros q calls en outs W. exact (B _ q calls en outs W eq_refl).
Qed.
Print Assumptions trace_whole.

Definition traced_shop : node :=
  Node (svc "prod" "shop" true true true "/GET/cart")
    [(call "POST:/order" "orders:80",
       Some (Node (svc "prod" "orders" true true false "/POST/order") [(call "POST:/pay" "pay:80", Some (Node (svc "bank" "pay" true true false "/POST/pay") []))]))].
Example trace_whole_case : all_traced traced_shop /\ length (spans (fst (run some_ids traced_shop mempty 0))) = 5%nat /\
  entry_of (fst (run some_ids traced_shop mempty 0)) <> None.
Proof.
  split; [|split; [reflexivity|discriminate]].
  apply all_traced_node; [reflexivity|reflexivity|reflexivity|intros o t [E|[]]; injection E as <- _; split; [reflexivity|discriminate]|].
  intros o n [E|[]]. injection E as _ <-.
  apply all_traced_node; [reflexivity|reflexivity|reflexivity|intros o1 t [E|[]]; injection E as <- _; split; [reflexivity|discriminate]|].
  intros o1 n [E|[]]. injection E as _ <-.
  apply all_traced_node; [reflexivity|reflexivity|reflexivity|intros o2 t []|intros o2 n []].
Qed.

(** ** What the middleware makes of the header of a request: it refers to the span that the header names; without
    header the sampler decides and there is no reference; with a header that cannot be read the request has no span. *)
Theorem trace_header ids q calls h w en outs w' : run ids (Node q calls) h w = (Seen en outs, w') -> q_mid q = true -> q_ready q = true ->
  (forall x, en = Some x -> sp_entry x = true /\ sp_id x = 0 /\ sp_parent x = -1 /\ sp_op x = q_op q /\ reported_by (q_conf q) x) /\
  (forall r, names_span (peek h "sw8") r -> exists x, en = Some x /\ sp_ref x = Some r /\ sp_trace x = r_trace r) /\
  (peek h "sw8" = "" -> (en <> None <-> q_sampled q = true) /\ forall x, en = Some x -> sp_ref x = None) /\
  (peek h "sw8" <> "" -> (forall r, ~ names_span (peek h "sw8") r) -> en = None).
Proof. exact (received ids q calls h w en outs w'). Qed.
Print Assumptions trace_header.

(** A header with a signed number and additional parts is read; one with seven parts, or with other letters, is not. *)
Example trace_header_cases :
  let h t := set_header mempty "SW8" t in
  let see t := match entry_of (fst (run some_ids (Node (svc "p" "s" true true false "/GET/") []) (h t) 0)) with
               | Some x => match sp_ref x with Some r => Some (r_trace r, r_span r, r_address r) | None => None end
               | None => None
               end in
  see "1-dA==-cw==-+7-YQ==-Yg==-Yw==-ZA==-more-parts" = Some ("t", 7, "d") /\
  see "1-dA==-cw==-7-YQ==-Yg==-Yw==" = None /\ see "1-dA==-cw==-2147483648-YQ==-Yg==-Yw==-ZA==" = None /\
  see "1-d!==-cw==-7-YQ==-Yg==-Yw==-ZA==" = None /\ see "128-dA==-cw==-7-YQ==-Yg==-Yw==-ZA==" = None.
Proof. vm_compute. repeat split. Qed.

(** ** Calls without a span leave the headers alone; calls of requests that have no span start traces of their own;
    services without a tracer that works have no spans. *)
Theorem trace_without_span ids top h w w' all q calls en outs :
  run ids top h w = (all, w') -> within top all (Node q calls) (Seen en outs) ->
  (forall i o n' s', nth_error calls i = Some (o, Some n') -> nth_error outs i = Some (None, Some s') ->
     exists w0, fst (run ids n' (o_headers o) w0) = s') /\
  (forall i o t s y, en = None -> nth_error calls i = Some (o, t) -> nth_error outs i = Some (Some y, s) ->
     sp_id y = 0 /\ sp_parent y = -1 /\ sp_ref y = None /\ q_ready q = true /\ sp_op y = o_op o /\ sp_peer y = o_host o /\ reported_by (q_conf q) y) /\
  (q_mid q = false \/ q_ready q = false -> en = None) /\
  (q_ready q = false -> forall e t, In (e, t) outs -> e = None).
Proof.
  intros H1 H2. split; [intros i o n' s'; exact (call_untraced ids top h w w' all q calls en outs H1 H2 i o n' s')|].
  split; [intros i o t s y A B C; exact (call_alone ids top h w w' all q calls en outs H1 H2 i o t (Some y) s y A B C eq_refl)|].
  destruct (run_within _ _ _ _ _ H2 _ _ _ H1) as (h0 & w0 & w0' & R).
  split; [intros Hq; exact (proj1 (not_traced _ _ _ _ _ _ _ _ R Hq))|].
  intros Hr. exact (proj2 (not_traced _ _ _ _ _ _ _ _ R (or_intror Hr)) Hr).
Qed.
Print Assumptions trace_without_span.

Example trace_without_span_case :
  let n := Node (svc "p" "a" false true false "/GET/a") [(Out true "GET:/b" "b:80" mempty true, Some (Node (svc "p" "b" true true false "/GET/b") []));
                                                         (Out true "GET:/c" "c:80" mempty false, Some (Node (svc "p" "c" true true true "/GET/c") []))] in
  map (fun x => (sp_op x, sp_trace x, sp_segment x)) (spans (fst (run some_ids n mempty 0)))
  = [("GET:/b", "1", "0"); ("/GET/b", "1", "2"); ("/GET/c", "5", "4")].
Proof. vm_compute. reflexivity. Qed.

(** ** Calls of a request that was not sampled have no spans; calls of a request whose header cannot be read, or without
    middleware, are sampled one by one. *)
Theorem trace_untraced_request ids q calls h w outs w' : run ids (Node q calls) h w = (Seen None outs, w') ->
  (q_mid q = true -> q_ready q = true -> peek h "sw8" = "" -> forall e t, In (e, t) outs -> e = None) /\
  (q_mid q = false \/ peek h "sw8" <> "" -> q_ready q = true -> forall i o t e s, nth_error calls i = Some (o, t) -> nth_error outs i = Some (e, s) ->
     (e <> None <-> o_traced o = true /\ o_host o <> "" /\ o_sampled o = true)).
Proof. exact (calls_of_untraced ids q calls h w outs w'). Qed.
Print Assumptions trace_untraced_request.

Example trace_untraced_request_cases :
  let n mid := Node (svc "p" "a" mid true false "/GET/a") [(Out true "GET:/b" "b:80" mempty true, None); (Out true "GET:/c" "c:80" mempty false, None)] in
  let ops h mid := map sp_op (spans (fst (run some_ids (n mid) h 0))) in
  ops mempty true = [] /\ ops mempty false = ["GET:/b"] /\ ops (set_header mempty "sw8" "broken") true = ["GET:/b"].
Proof. vm_compute. repeat split. Qed.

(** ** Creating the span of a call changes no header but the tracer's two. *)
Theorem trace_other_headers ids q o c next w e h next' w' : create_exit ids q o c next w = (e, h, next', w') ->
  (e = None -> h = o_headers o) /\
  (forall k, normal k <> "Sw8" -> normal k <> "Sw8-Correlation" -> peek h k = peek (o_headers o) k).
Proof. exact (exit_headers ids q o c next w e h next' w'). Qed.
Print Assumptions trace_other_headers.

Example trace_other_headers_case : normal "content-TYPE" = "Content-Type" /\ normal "content-TYPE" <> "Sw8" /\ normal "content-TYPE" <> "Sw8-Correlation" /\
  peek (snd (fst (fst (create_exit some_ids (svc "p" "a" true true true "/GET/a") (Out true "GET:/b" "b:80" (set_header mempty "Content-Type" "text/plain") true) Bare 1 0)))) "content-TYPE"
  = "text/plain".
Proof. vm_compute. repeat split; discriminate. Qed.

(** ** The tracer's names being different, no two spans have the same segment and number: a reference names one span. *)
Theorem trace_spans_distinct ids n h w s w' : (forall a b, ids a = ids b -> a = b) -> run ids n h w = (s, w') ->
  NoDup (map (fun x => (sp_segment x, sp_id x)) (spans s)).
Proof. intros Hids H. exact (proj2 (proj2 (all_unique ids Hids n h w s w' H))). Qed.
Print Assumptions trace_spans_distinct.

Example trace_spans_distinct_case : (forall a b, some_ids a = some_ids b -> a = b) /\ length (spans (fst (run some_ids shop mempty 0))) = 8%nat.
Proof. split; [intros a b H; apply Nat2Z.inj, itoa_inj; exact H|reflexivity]. Qed.

(** ** Not so: that a reference always names a span of the calling request.  Headers are only ever set, not removed: a
    request that was sent before (or whose headers were forwarded) and is sent again without a span of its own carries
    the old header. *)
Theorem trace_reference_refuted :
  ~ (forall ids n h w s w' q calls en outs i o q1 calls1 e en1 outs1 x r,
       (forall a b, ids a = ids b -> a = b) ->
       run ids n h w = (s, w') -> within n s (Node q calls) (Seen en outs) ->
       nth_error calls i = Some (o, Some (Node q1 calls1)) -> nth_error outs i = Some (e, Some (Seen en1 outs1)) ->
       en1 = Some x -> sp_ref x = Some r -> exists y, In y (spans s) /\ sp_segment y = r_segment r).
Proof.
  intros H.
  set (old := Ref 1 "before" "before" 1 "p::a" "a-1" "/GET/a" "b:80").
  set (q1 := svc "p" "b" true true false "/GET/b").
  set (o := Out true "GET:/b" "b:80" (inject mempty old) true).
  set (q := svc "p" "a" true true false "/GET/a").
  set (n := Node q [(o, Some (Node q1 []))]).
  assert (Hids : forall a b, some_ids a = some_ids b -> a = b) by (intros a b E; apply Nat2Z.inj, itoa_inj; exact E).
  destruct (run some_ids n mempty 0) as [s w'] eqn:R.
  assert (E : exists x, s = Seen None [(None, Some (Seen (Some x) []))] /\ sp_ref x = Some old /\ sp_segment x = "0").
  { vm_compute in R. injection R as <- <-. eexists. split; [reflexivity|]. split; reflexivity. }
  destruct E as (x & -> & Ex & Es).
  destruct (H some_ids n mempty 0%nat _ w' q _ None _ 0%nat o q1 [] None (Some x) [] x old Hids R (within_here _ _) eq_refl eq_refl eq_refl Ex) as (y & Hy & Ey).
  cbn in Hy. destruct Hy as [<-|[]]. rewrite Es in Ey. discriminate.
Qed.
Print Assumptions trace_reference_refuted.
