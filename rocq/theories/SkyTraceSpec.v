(** Specification of how traces go from service to service. *)
From Verif Require Import Common Bytes ProcsModel ProcsSpec ConfNamesSpec ConfsModel ConfsSpec PprofSpec SkyTraceModel.
Local Open Scope string_scope.
Local Open Scope list_scope.
Local Open Scope Z_scope.

(** The header text [h] names the span [r]: at least eight parts between '-', numbers as decimals and names in base64. *)
Definition names_span (h : string) (r : span_ref) : Prop :=
  exists p0 p1 p2 p3 p4 p5 p6 p7 more,
    cuts "-" h (p0 :: p1 :: p2 :: p3 :: p4 :: p5 :: p6 :: p7 :: more) /\
    decimal p0 (r_sample r) /\ - 2 ^ 7 <= r_sample r < 2 ^ 7 /\ base64_of p1 (r_trace r) /\ base64_of p2 (r_segment r) /\
    decimal p3 (r_span r) /\ - 2 ^ 31 <= r_span r < 2 ^ 31 /\ base64_of p4 (r_service r) /\ base64_of p5 (r_instance r) /\
    base64_of p6 (r_endpoint r) /\ base64_of p7 (r_address r).

(** [n] with the spans [s] takes place in the course of [top] with the spans [t]. *)
Inductive within : node -> seen -> node -> seen -> Prop :=
| within_here n s : within n s n s
| within_call q calls en outs i o n' e s' n s :
    nth_error calls i = Some (o, Some n') -> nth_error outs i = Some (e, Some s') -> within n' s' n s ->
    within (Node q calls) (Seen en outs) n s.

(** The entry span of a request. *)
Definition entry_of (s : seen) : option span := match s with Seen en _ => en end.

(** The name under which the caller is known to the called service. *)
Definition endpoint_of (en : option span) (e : span) : string := match en with Some x => sp_op x | None => sp_op e end.

(** The name of a service. *)
Definition known_as (c : sky_conf) : string := (sky_namespace c ++ "::" ++ sky_name c)%string.
Definition reported_by (c : sky_conf) (x : span) : Prop := sp_service x = known_as c /\ sp_instance x = sky_instance c.

(** Every service has a tracer that works, and every call names a host. *)
Inductive all_traced : node -> Prop :=
| all_traced_node q calls : q_mid q = true -> q_ready q = true -> Z.of_nat (length calls) < 2 ^ 31 - 1 ->
    (forall o t, In (o, t) calls -> o_traced o = true /\ o_host o <> "") ->
    (forall o n, In (o, Some n) calls -> all_traced n) -> all_traced (Node q calls).

(** All the spans. *)
Definition the (e : option span) : list span := match e with Some x => [x] | None => [] end.
Definition count_spans (l : list (option span * option seen)) : Z := Z.of_nat (length (flat_map (fun c => the (fst c)) l)).
Fixpoint spans (s : seen) : list span :=
  match s with
  | Seen en calls => the en ++ flat_map (fun c => the (fst c) ++ match snd c with Some s' => spans s' | None => [] end) calls
  end.
