(** Theorems about tracing (C69, C73, C74). *)
From Verif Require Import Common Bytes ProcsModel ConfNamesSpec ConfNamesProofs ConfsModel ConfsProofs SkyModel SkySpec SkyProofs.
Local Open Scope string_scope.
Local Open Scope list_scope.
Local Open Scope Z_scope.

(** * Spans *)

(** Every span that a request creates is ended exactly once and not touched afterwards; if a handler panics,
    spans may stay open. *)
Theorem spans_end : forall req hs w s r, Forall tame hs -> serve req hs w = (s, r) ->
  exists t, trace (world_of s) = trace w ++ t /\
    lives (match r with Panicked => true | Ret _ => false end) (next w) (next (world_of s)) t.
Proof. intros req hs w s r. exact (serve_adds req hs w s r). Qed.
Print Assumptions spans_end.

(** A request with a handler that calls redis and another service; three spans. *)
Definition demo_req := mkRequest "GET" "/a" "http://h/a" "h".
Definition demo_opts := redis_options [WithAddr "r:1"; WithDb 2].
Definition demo_handler :=
  PBind (PRedis [Other None None; Tracing demo_opts true] (mkCommand "get" "get k" (Some "nil")))
    (fun e => PBind (PClient (http_options []) true true demo_req (inl (mkResponse 404 "no"))) (fun _ => PRet e)).
Example spans_end_case : Forall tame [PTrace (http_options [WithLogError]) (Some true) None; demo_handler] /\
  next (world_of (fst (serve demo_req [PTrace (http_options [WithLogError]) (Some true) None; demo_handler] (mkWorld 7 None [])))) = 10.
Proof.
  split; [|vm_compute; reflexivity]. apply Forall_cons; [exact I|]. apply Forall_cons; [|constructor].
  split; [|intros e; split; [exact I|intros e'; exact I]]. right. exists [Other None None], demo_opts, true, []. split; [reflexivity|].
  split; [constructor; [exact I|constructor]|constructor].
Qed.

(** Not so with two tracing hooks: one span is ended twice and the other never; ... *)
Theorem spans_end_two_hooks_refuted : exists o, forall name text own w,
  exists t, trace (fst (process [Tracing o true; Tracing o true] name text None own w)) = trace w ++ t /\
    left_open (events_of (next w) t) /\ In (End (next w + 1)) t /\
    exists a b c, events_of (next w + 1) t = a ++ End (next w + 1) :: b ++ End (next w + 1) :: c.
Proof.
  exists (redis_options [WithAddr "r:1"]). intros name text own w. unfold process.
  cbn [before_all before_process start after_all after_process emit next stored trace redis_setup fst].
  unfold emit, redis_setup. cbn [next stored trace]. eexists. split; [rewrite <- !app_assoc; reflexivity|].
  unfold events_of, redis_setup. cbn [Datatypes.app filter span_of].
  rewrite !Z.eqb_refl. replace (next w + 1 =? next w) with false by (symmetry; apply Z.eqb_neq; lia).
  replace (next w =? next w + 1) with false by (symmetry; apply Z.eqb_neq; lia).
  split; [|split].
  - eexists _, _, _, _, _, _. split; [reflexivity|]. repeat (apply Forall_cons; [exact I|]). constructor.
  - do 12 right. left. reflexivity.
  - eexists [_; _; _; _; _; _], [], []. reflexivity.
Qed.
Print Assumptions spans_end_two_hooks_refuted.

(** ... nor if a later hook refuses the command: the span stays open. *)
Theorem spans_end_refused_refuted : exists o, forall name text own w e,
  exists t, trace (fst (process [Tracing o true; Other (Some e) None] name text None own w)) = trace w ++ t /\ left_open t.
Proof.
  exists (redis_options [WithAddr "r:1"]). intros name text own w e. unfold process.
  cbn [before_all before_process start after_all after_process emit next stored trace redis_setup fst].
  unfold emit, redis_setup. cbn [next stored trace]. eexists. split; [rewrite <- !app_assoc; reflexivity|].
  eexists _, _, _, _, _, _. split; [reflexivity|]. repeat (apply Forall_cons; [exact I|]). constructor.
Qed.
Print Assumptions spans_end_refused_refuted.

(** A handler that panics leaves the span of the request open. *)
Theorem spans_end_panic_refuted : forall req o ce w, exists s t,
  serve req [PTrace o (Some true) ce; PPanic] w = (s, Panicked) /\ trace (world_of s) = trace w ++ t /\ left_open t.
Proof.
  intros req o ce w. unfold serve. rewrite traced_first. eexists. eexists. split; [reflexivity|]. split; [reflexivity|].
  eexists _, _, _, _, _, _. split; [reflexivity|]. repeat (apply Forall_cons; [exact I|]). constructor.
Qed.
Print Assumptions spans_end_panic_refuted.

(** If the tracer refuses the span of a command, the caller gets a panic instead of the command's result. *)
Theorem redis_refused_span_refuted : forall o name text err own w, process [Tracing o false] name text err own w = (w, Panicked).
Proof. reflexivity. Qed.
Print Assumptions redis_refused_span_refuted.

(** Every span's parent was current at the start or has been started since. *)
Theorem span_parents : forall req hs w, exists t, trace (world_of (fst (run_handlers req (mkState w hs (mkResponse 200 ""))))) = trace w ++ t /\
  linked (eq (stored w)) t.
Proof.
  intros req hs w. destruct (next_links req (length hs) (mkState w hs (mkResponse 200 ""))) as (t & E & L & _). exists t. auto.
Qed.
Print Assumptions span_parents.

(** The span of a request: what is told about it depends on the error, context and response after the handlers. *)
Theorem request_span : forall req o ce l w r s res, Forall tame l ->
  run_handlers req (mkState w (PTrace o (Some true) ce :: l) r) = (s, Ret res) ->
  exists t s1 e, trace (world_of s) = trace w ++ t /\
    run_handlers req (mkState (request_started req w) l r) = (s1, Ret e) /\
    trace w ++ events_of (next w) t =
      trace (request_started req w) ++ finish_events (next w) (failure_of o e ce (resp s1)) (status (resp s1)).
Proof.
  intros req o ce l w r s res Ht E. rewrite traced_first in E.
  destruct (run_handlers req (mkState (request_started req w) l r)) as [s1 [e|]] eqn:E1; [|discriminate].
  destruct (next_fine req _ (mkState (request_started req w) l r) s1 (Ret e) Ht E1) as [(t1 & T1 & L1) Ht1].
  destruct (next_fine req _ (mkState (emit (finish_events (next w) (failure_of o e ce (resp s1)) (status (resp s1))) (world_of s1)) (rest s1) (resp s1)) s (Ret res) Ht1 E) as [(t2 & T2 & L2) _].
  cbn [world_of request_started trace next emit panicked] in T1, L1, T2, L2. rewrite T1 in T2. rewrite <- !app_assoc in T2.
  eexists. exists s1, e. split; [exact T2|]. split; [reflexivity|]. rewrite !events_app.
  destruct L1 as (A1 & _ & N1), L2 as (A2 & _ & N2). rewrite (N1 (next w)), (N2 (next w)) by lia. rewrite app_nil_r. cbn [Datatypes.app].
  unfold request_started. cbn [trace]. rewrite <- app_assoc. f_equal.
  assert (F : events_of (next w) (finish_events (next w) (failure_of o e ce (resp s1)) (status (resp s1))) = finish_events (next w) (failure_of o e ce (resp s1)) (status (resp s1))).
  { apply events_own. unfold finish_events. destruct (failure_of o e ce (resp s1)); repeat constructor. }
  rewrite F. f_equal. apply events_own. repeat (apply Forall_cons; [reflexivity|]). constructor.
Qed.
Print Assumptions request_span.

Example request_span_case : exists s1,
  run_handlers demo_req (mkState (request_started demo_req (mkWorld 7 None [])) [demo_handler] (mkResponse 200 "")) = (s1, Ret (Some (mkErr "nil" None))) /\
  failure_of (http_options [WithLogError]) (Some (mkErr "nil" None)) None (resp s1) = Some (Some "nil").
Proof. eexists. split; [vm_compute; reflexivity|reflexivity]. Qed.

(** A command with a tracing hook: one span, and the caller gets what the command returned. *)
Theorem redis_span : forall o name text err own w, process [Tracing o true] name text err own w =
  (mkWorld (next w + 1) (stored w)
     (trace w ++ [Start (next w) Exit (stored w) name (peer o); Tag (next w) "db.statement" (if report_args o then text else name);
                  Tag (next w) "db.instance" (db o); Tag (next w) "db.type" "Redis"; Component (next w) 7; Layer (next w) Cache]
      ++ match err with Some e => [Fail (next w) (if redis_log_error o then Some e else None)] | None => [] end ++ [End (next w)]),
   Ret (option_map plain_error own)).
Proof. exact process_one. Qed.
Print Assumptions redis_span.

(** Pipelines: names, texts and errors joined with '|'; a failure is told exactly if some error has a text. *)
Theorem redis_pipeline : forall cs,
  quick_join cs "|" c_name = String.concat "|" (map c_name cs) /\ quick_join cs "|" c_text = String.concat "|" (map c_text cs) /\
  pipeline_error cs = (if forallb (fun e => (e =? "")%string) (errors_of cs) then None else Some (String.concat "|" (drop_empty (errors_of cs)))).
Proof.
  intros cs. split; [apply join_spec|]. split; [apply join_spec|]. destruct (forallb _ (errors_of cs)) eqn:E.
  - apply pipeline_error_none. rewrite forallb_forall in E. apply Forall_forall. intros x Hx. symmetry. apply String.eqb_eq. exact (E x Hx).
  - destruct (pipeline_error cs) as [x|] eqn:P.
    + unfold pipeline_error in P. rewrite join_error_spec in P. destruct (_ =? "")%string; [discriminate|]. congruence.
    + apply pipeline_error_none in P. exfalso. assert (T : forallb (fun e => (e =? "")%string) (errors_of cs) = true).
      { apply forallb_forall. rewrite Forall_forall in P. intros y Hy. apply String.eqb_eq. symmetry. exact (P y Hy). }
      congruence.
Qed.
Print Assumptions redis_pipeline.

Example redis_pipeline_case :
  pipeline_error [mkCommand "get" "get a" (Some ""); mkCommand "set" "set b 1" (Some "x"); mkCommand "del" "del c" None; mkCommand "del" "del d" (Some "")] = Some "x|".
Proof. reflexivity. Qed.

(** So a failed command of a pipeline is not always told. *)
Theorem redis_pipeline_failure_refuted : exists cs, first_error cs <> None /\ pipeline_error cs = None.
Proof. exists [mkCommand "get" "get a" (Some "")]. split; [discriminate|reflexivity]. Qed.
Print Assumptions redis_pipeline_failure_refuted.

(** A call of another service: one span, ended once, with what its outcome tells. *)
Theorem client_span : forall o r answer w,
  client_call o true true r answer w =
  (mkWorld (next w + 1) (stored w)
     (trace w ++ [Start (next w) Exit (stored w) (method r ++ ":" ++ path r)%string (host r);
                  Component (next w) 5005; Tag (next w) "http.method" (method r); Tag (next w) "url" (url r); Layer (next w) Http]
      ++ match answer with
         | inl res => finish_events (next w) (failure_of o None None res) (status res)
         | inr e => [Fail (next w) (if log_error o then Some e else None); End (next w)]
         end),
   match answer with inl _ => Ret None | inr e => Ret (Some (plain_error e)) end) /\
  (forall tracing ok, tracing && ok = false -> fst (client_call o tracing ok r answer w) = w /\
     snd (client_call o tracing ok r answer w) = snd (client_call o true true r answer w)).
Proof.
  intros o r answer w. split.
  - unfold client_call, create_span, start, end_span, end_span_error, emit, http_setup, operation_name, finish_events, failure_of. cbn [andb next stored trace].
    destruct answer as [res|e]; [|rewrite <- !app_assoc; reflexivity]. rewrite Z.geb_leb. destruct (400 <=? status res); rewrite <- !app_assoc; reflexivity.
  - intros tracing ok H. split; [|apply client_results]. unfold client_call, create_span. rewrite H. destruct answer; reflexivity.
Qed.
Print Assumptions client_span.

(** * What is kept from the tracer *)

(** Without the options, no error message and no response body is told; ... *)
Theorem silent_traces : forall req hs w, Forall silent_options hs ->
  exists t, trace (world_of (fst (run_handlers req (mkState w hs (mkResponse 200 ""))))) = trace w ++ t /\ silent t.
Proof. intros req hs w H. exact (proj1 (next_quiet req (length hs) (mkState w hs (mkResponse 200 "")) H)). Qed.
Print Assumptions silent_traces.

Example silent_traces_case : Forall silent_options [PTrace (http_options []) (Some true) None; demo_handler] /\
  In (Fail 7 None) (trace (world_of (fst (serve demo_req [PTrace (http_options []) (Some true) None; demo_handler] (mkWorld 7 None []))))).
Proof.
  split; [|vm_compute; tauto]. apply Forall_cons; [split; reflexivity|]. apply Forall_cons; [|constructor].
  split; [|intros e; split; [split; reflexivity|intros e'; exact I]]. intros o ok [H|[H|[]]]; [discriminate|].
  assert (o = demo_opts) by congruence. subst o. reflexivity.
Qed.

(** ... and without the option for it, the arguments of a command change nothing. *)
Theorem redis_arguments_private : forall hs name text text' err own w, (forall o ok, In (Tracing o ok) hs -> report_args o = false) ->
  process hs name text err own w = process hs name text' err own w.
Proof. exact process_private. Qed.
Print Assumptions redis_arguments_private.

(** An option is on exactly if it was given; of several addresses or databases the last counts. *)
Theorem trace_options : forall l l',
  (log_error (http_options l) = true <-> In WithLogError l) /\ (log_4xx_body (http_options l) = true <-> In WithLog4xxBody l) /\
  peer (redis_options l') = last_addr l' /\ db (redis_options l') = last_db l' /\
  (redis_log_error (redis_options l') = true <-> In WithRedisLogError l') /\ (report_args (redis_options l') = true <-> In WithArgsReport l').
Proof.
  intros l l'. destruct (http_options_spec l) as [A B]. destruct (redis_options_spec l') as (C & D & E & F). repeat (split; [assumption|]). assumption.
Qed.
Print Assumptions trace_options.

(** * Errors of handlers *)

(** Without a span, the error of a handler stops the later handlers and becomes the response. *)
Theorem untraced_error : forall req o setup ce pre h post w w1 r1 w2 r2 e, setup <> Some true -> Forall plain pre -> plain h ->
  passes req pre w (mkResponse 200 "") w1 r1 -> alone req h w1 r1 = (w2, r2, Ret (Some e)) ->
  serve req (PTrace o setup ce :: pre ++ h :: post) w =
  (mkState w2 post (mkResponse (match code e with Some c => c | None => 500 end) (message e)), Ret None).
Proof.
  intros req o setup ce pre h post w w1 r1 w2 r2 e Hs Hp Hh P A. unfold serve.
  rewrite untraced_first, (untraced_stops req pre h post w _ w1 r1 w2 r2 e Hp Hh P A) by exact Hs. reflexivity.
Qed.
Print Assumptions untraced_error.

(** With a span, the error is forgotten and the later handlers run after all. *)
Theorem traced_error : forall req o ce pre h post w w1 r1 w2 r2 e, Forall plain pre -> plain h ->
  passes req pre (request_started req w) (mkResponse 200 "") w1 r1 -> alone req h w1 r1 = (w2, r2, Ret (Some e)) ->
  run_handlers req (mkState w (PTrace o (Some true) ce :: pre ++ h :: post) (mkResponse 200 "")) =
  run_handlers req (mkState (emit (finish_events (next w) (failure_of o (Some e) ce r2) (status r2)) w2) post r2).
Proof. intros req o ce pre h post w. exact (traced_continues req o ce pre h post w (mkResponse 200 "")). Qed.
Print Assumptions traced_error.

(** So switching tracing on changes the response: here a handler that refuses the request is overruled. *)
Theorem traced_response_refuted : forall req o ce w, exists check secret e,
  plain check /\ plain secret /\ (forall w r, alone req check w r = (w, r, Ret (Some e))) /\
  resp (fst (serve req [PTrace o None ce; check; secret] w)) = mkResponse 401 "no access" /\
  resp (fst (serve req [PTrace o (Some false) ce; check; secret] w)) = mkResponse 401 "no access" /\
  resp (fst (serve req [PTrace o (Some true) ce; check; secret] w)) = mkResponse 200 "secret".
Proof.
  intros req o ce w. exists (PRet (Some (mkErr "no access" (Some 401)))), (PRespond (mkResponse 200 "secret")), (mkErr "no access" (Some 401)).
  split; [exact I|]. split; [exact I|]. split; [reflexivity|]. split; [reflexivity|]. split; reflexivity.
Qed.
Print Assumptions traced_response_refuted.

(** If no handler returns an error, tracing does not change the response. *)
Theorem traced_transparent : forall req o setup ce hs w w1 r1, Forall plain hs ->
  passes req hs w (mkResponse 200 "") w1 r1 ->
  resp (fst (serve req hs w)) = r1 /\ resp (fst (serve req (PTrace o setup ce :: hs) w)) = r1 /\
  snd (serve req hs w) = Ret None /\ snd (serve req (PTrace o setup ce :: hs) w) = Ret None.
Proof.
  intros req o setup ce hs w w1 r1 Hp P.
  assert (E : run_handlers req (mkState w hs (mkResponse 200 "")) = (mkState w1 [] r1, Ret None)).
  { pose proof (passes_run req hs _ _ _ _ [] Hp P) as E. rewrite app_nil_r in E. rewrite E. reflexivity. }
  unfold serve. rewrite E. destruct (passes_same req hs Hp _ _ _ _ (request_started req w) P) as [w1' P'].
  destruct setup as [[|]|].
  - rewrite (traced_passes req o ce hs w _ w1' r1 Hp P'). auto.
  - rewrite untraced_first, E by discriminate. auto.
  - rewrite untraced_first, E by discriminate. auto.
Qed.
Print Assumptions traced_transparent.

Example traced_transparent_case : exists w1 r1,
  passes demo_req [PBind demo_handler (fun _ => PRespond (mkResponse 404 "gone"))] (mkWorld 0 None []) (mkResponse 200 "") w1 r1 /\ status r1 = 404 /\ next w1 = 2.
Proof.
  eexists. eexists. split; [eapply passes_cons; [vm_compute; reflexivity|apply passes_nil]|]. split; reflexivity.
Qed.

(** * Reporter and tracer *)

(** Spans are sent to the configured address, or nowhere exactly if none is configured. *)
Theorem reporter_choice : forall grpc c,
  (new_reporter grpc c = inl NoopReporter <-> (c = None \/ exists k, c = Some k /\ server_addr k = "")) /\
  (forall a, new_reporter grpc c = inl (GrpcReporter a) <-> exists k, c = Some k /\ server_addr k = a /\ a <> "" /\ grpc a = None) /\
  (forall e, new_reporter grpc c = inr e <-> exists k, c = Some k /\ server_addr k <> "" /\ grpc (server_addr k) = Some e).
Proof.
  intros grpc [k|]; unfold new_reporter.
  - destruct (server_addr k =? "")%string eqn:E.
    + apply String.eqb_eq in E. split; [|split].
      * split; [|reflexivity]. intros _. right. exists k. auto.
      * intros a. split; [discriminate|]. intros (k' & Hk & Ha & N & _). assert (k' = k) by congruence. subst k'. congruence.
      * intros e. split; [discriminate|]. intros (k' & Hk & N & _). assert (k' = k) by congruence. subst k'. congruence.
    + apply String.eqb_neq in E. destruct (grpc (server_addr k)) as [x|] eqn:G; (split; [|split]).
      * split; [discriminate|]. intros [H|(k' & Hk & N)]; [discriminate|]. assert (k' = k) by congruence. subst k'. congruence.
      * intros a. split; [discriminate|]. intros (k' & Hk & Ha & _ & N). assert (k' = k) by congruence. subst k'. congruence.
      * intros e. split; [intros H; exists k; split; [reflexivity|split; [exact E|congruence]]|]. intros (k' & Hk & _ & N). assert (k' = k) by congruence. subst k'. congruence.
      * split; [discriminate|]. intros [H|(k' & Hk & N)]; [discriminate|]. assert (k' = k) by congruence. subst k'. congruence.
      * intros a. split; [intros H; exists k; assert (server_addr k = a) by congruence; subst a; auto|]. intros (k' & Hk & Ha & _ & N). assert (k' = k) by congruence. subst k'. congruence.
      * intros e. split; [discriminate|]. intros (k' & Hk & _ & N). assert (k' = k) by congruence. subst k'. congruence.
  - split; [split; [auto|reflexivity]|]. split; intros x; (split; [discriminate|]); intros (k & H & _); discriminate.
Qed.
Print Assumptions reporter_choice.

Example reporter_choice_case : new_reporter (fun _ => None) (Some (mkSky "h:1" "s" "i" "n")) = inl (GrpcReporter "h:1").
Proof. reflexivity. Qed.

(** Services with namespaces free of ':' are told apart; others may not be. *)
Theorem tracer_identities : forall a b, ~ mentions ":" (service_namespace a) -> ~ mentions ":" (service_namespace b) ->
  tracer_identity a = tracer_identity b ->
  service_namespace a = service_namespace b /\ service_name a = service_name b /\ service_instance a = service_instance b.
Proof.
  intros a b Ha Hb H. assert (E : (service_namespace a ++ "::" ++ service_name a)%string = (service_namespace b ++ "::" ++ service_name b)%string) by (unfold tracer_identity in H; congruence).
  assert (I' : service_instance a = service_instance b) by (unfold tracer_identity in H; congruence).
  destruct (identity_inj _ _ _ _ Ha Hb E). auto.
Qed.
Print Assumptions tracer_identities.

Theorem tracer_identities_refuted : exists a b, service_namespace a <> service_namespace b /\ tracer_identity a = tracer_identity b.
Proof. exists (mkSky "" "b::c" "" "a"), (mkSky "" "c" "" "a::b"). split; [discriminate|reflexivity]. Qed.
Print Assumptions tracer_identities_refuted.
