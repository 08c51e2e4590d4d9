(** Proofs about traces that go from service to service. *)
From Verif Require Import Common Bytes ProcsModel ProcsSpec ProcsProofs ConfNamesSpec ConfsModel ConfsSpec ConfsProofs
  PprofModel PprofSpec PprofProofs JsonFloatProofs RsaProofs SkyTraceModel SkyTraceSpec.
Local Open Scope string_scope.
Local Open Scope list_scope.
Local Open Scope Z_scope.

(** * The header *)

Lemma encode_no_dash s : ~ mentions "-" (encode_string s).
Proof.
  intros H. apply letters_mentions in H.
  destruct (base64_letters _ s "-" (canonical_base64 _ _ (encode_canonical s)) H eq_refl) as [E|(d & Hd & E)]; [discriminate|].
  revert E. do 64 (destruct d as [|d]; [discriminate|]). lia.
Qed.

Lemma digits_no_dash s : all_chars is_digit s -> ~ mentions "-" s.
Proof.
  unfold mentions. induction s as [|c s IH]; cbn [all_chars has_char]; [tauto|]. intros [H1 H2] [->|H]; [|exact (IH H2 H)].
  unfold is_digit in H1. cbn [In] in H1. repeat (destruct H1 as [H1|H1]; [discriminate|]). exact H1.
Qed.

Lemma itoa_decimal z : 0 <= z -> decimal (itoa z) z.
Proof. intros H. destruct (itoa_value z H) as (H1 & H2 & H3). exists (itoa z). split; [exact H3|]. split; [exact H2|]. left. split; [reflexivity|symmetry; exact H1]. Qed.

Lemma parse_bits_spec bits s v : 1 <= bits <= 64 -> parse_bits bits s = Some v <-> decimal s v /\ - 2 ^ (bits - 1) <= v < 2 ^ (bits - 1).
Proof.
  intros Hb. unfold parse_bits.
  assert (Hp : 2 ^ (bits - 1) <= 2 ^ 63) by (apply Z.pow_le_mono_r; lia).
  split.
  - destruct (atoi s) as [x|] eqn:E; [|discriminate].
    destruct ((- 2 ^ (bits - 1) <=? x) && (x <? 2 ^ (bits - 1))) eqn:R; [|discriminate]. intros H. injection H as <-.
    apply andb_true_iff in R. destruct R as [R1 R2]. apply Z.leb_le in R1. apply Z.ltb_lt in R2.
    apply atoi_spec in E. split; [apply E|split; assumption].
  - intros [D [R1 R2]]. assert (E : atoi s = Some v) by (apply atoi_spec; split; [exact D|unfold in64; lia]). rewrite E.
    apply Z.leb_le in R1. apply Z.ltb_lt in R2. rewrite R1, R2. reflexivity.
Qed.

Lemma decode_ref h r : decode_sw8 h = Some (Some r) <-> names_span h r.
Proof.
  unfold decode_sw8, names_span. split.
  - destruct (h =? "")%string; [discriminate|].
    pose proof (split_cuts "-" h) as C.
    destruct (split "-" h) as [|p0 [|p1 [|p2 [|p3 [|p4 [|p5 [|p6 [|p7 more]]]]]]]]; try discriminate.
    destruct (parse_bits 8 p0) as [a0|] eqn:E0; [|discriminate].
    destruct (decode_string p1) as [a1|] eqn:E1; [|discriminate].
    destruct (decode_string p2) as [a2|] eqn:E2; [|discriminate].
    destruct (parse_bits 32 p3) as [a3|] eqn:E3; [|discriminate].
    destruct (decode_string p4) as [a4|] eqn:E4; [|discriminate].
    destruct (decode_string p5) as [a5|] eqn:E5; [|discriminate].
    destruct (decode_string p6) as [a6|] eqn:E6; [|discriminate].
    destruct (decode_string p7) as [a7|] eqn:E7; [|discriminate].
    intros H. injection H as <-. cbn [r_sample r_trace r_segment r_span r_service r_instance r_endpoint r_address].
    apply parse_bits_spec in E0; [|lia]. apply parse_bits_spec in E3; [|lia].
    exists p0, p1, p2, p3, p4, p5, p6, p7, more.
    repeat split; try (apply decode_spec; assumption); try apply E0; try apply E3; apply C.
  - intros (p0 & p1 & p2 & p3 & p4 & p5 & p6 & p7 & more & C & D0 & R0 & B1 & B2 & D3 & R3 & B4 & B5 & B6 & B7).
    apply cuts_split in C.
    assert (E0 : parse_bits 8 p0 = Some (r_sample r)) by (apply parse_bits_spec; [lia|split; [exact D0|exact R0]]).
    assert (E3 : parse_bits 32 p3 = Some (r_span r)) by (apply parse_bits_spec; [lia|split; [exact D3|exact R3]]).
    apply decode_spec in B1, B2, B4, B5, B6, B7.
    destruct (h =? "")%string eqn:Eh; [apply String.eqb_eq in Eh; subst h; discriminate|].
    rewrite C, E0, E3, B1, B2, B4, B5, B6, B7. destruct r; reflexivity.
Qed.

Lemma decode_none h : decode_sw8 h = Some None <-> h = "".
Proof.
  unfold decode_sw8. split; [|intros ->; reflexivity].
  destruct (h =? "")%string eqn:E; [intros _; apply String.eqb_eq; exact E|].
  destruct (split "-" h) as [|p0 [|p1 [|p2 [|p3 [|p4 [|p5 [|p6 [|p7 more]]]]]]]]; try discriminate.
  repeat match goal with |- context [match ?x with Some _ => _ | None => _ end] => destruct x end; discriminate.
Qed.

Lemma encode_names r : 0 <= r_sample r < 2 ^ 7 -> 0 <= r_span r < 2 ^ 31 -> names_span (encode_sw8 r) r.
Proof.
  intros H1 H2.
  exists (itoa (r_sample r)), (encode_string (r_trace r)), (encode_string (r_segment r)), (itoa (r_span r)),
    (encode_string (r_service r)), (encode_string (r_instance r)), (encode_string (r_endpoint r)), (encode_string (r_address r)), [].
  assert (I : forall z, 0 <= z -> ~ mentions "-" (itoa z)) by (intros z Hz; apply digits_no_dash, itoa_value, Hz).
  assert (B : forall s, base64_of (encode_string s) s) by (intros s; apply canonical_base64, encode_canonical).
  split.
  { split; [discriminate|]. split; [reflexivity|]. intros p Hp. cbn [In] in Hp.
    destruct Hp as [<-|[<-|[<-|[<-|[<-|[<-|[<-|[<-|[]]]]]]]]]; first [apply encode_no_dash|apply I; lia]. }
  split; [apply itoa_decimal; lia|]. split; [lia|]. split; [apply B|]. split; [apply B|].
  split; [apply itoa_decimal; lia|]. split; [lia|]. split; [apply B|]. split; [apply B|]. split; [apply B|]. apply B.
Qed.

Lemma peek_inject h r : peek (inject h r) "sw8" = encode_sw8 r.
Proof. reflexivity. Qed.

(** * Single steps *)

Lemma entry_shape ids q h w en c w' : create_entry ids q h w = (en, c, w') ->
  (w <= w')%nat /\
  match c with
  | Active f => en = Some f /\ q_mid q = true /\ q_ready q = true /\ sp_id f = 0 /\ sp_parent f = -1 /\ sp_op f = q_op q /\ reported_by (q_conf q) f /\ sp_segment f = ids w /\ (w < w')%nat /\
                exists ref, decode_sw8 (peek h "sw8") = Some ref /\ sp_ref f = ref /\ forall r, ref = Some r -> sp_trace f = r_trace r
  | Bare => en = None /\ (q_mid q = false \/ decode_sw8 (peek h "sw8") = None)
  | Dead => en = None /\ q_mid q = true /\ (q_ready q = false \/ q_sampled q = false /\ decode_sw8 (peek h "sw8") = Some None)
  end.
Proof.
  unfold create_entry. destruct (q_mid q) eqn:M; cbn [negb]; [|intros E; injection E as <- <- <-; split; [lia|auto]].
  destruct (q_ready q) eqn:R; cbn [negb]; [|intros E; injection E as <- <- <-; split; [lia|auto]].
  destruct (decode_sw8 (peek h "sw8")) as [ref|] eqn:D; [|intros E; injection E as <- <- <-; split; [lia|auto]].
  destruct (q_sampled q || match ref with Some _ => true | None => false end) eqn:S.
  - cbn [first_span]. intros E. injection E as <- <- <-. split; [lia|]. cbn. repeat split; try lia.
    exists ref. repeat split. intros r ->. reflexivity.
  - intros E. injection E as <- <- <-. split; [lia|]. split; [reflexivity|]. split; [reflexivity|]. right.
    apply orb_false_iff in S. destruct S as [-> S]. destruct ref; [discriminate|]. auto.
Qed.

Lemma exit_shape ids q o c next w e h next' w' : create_exit ids q o c next w = (e, h, next', w') ->
  match e with
  | None => h = o_headers o /\ next' = next /\ w' = w
  | Some x =>
    o_traced o = true /\ o_host o <> "" /\ q_ready q = true /\ sp_op x = o_op o /\ sp_peer x = o_host o /\ reported_by (q_conf q) x /\ sp_ref x = None /\
    match c with
    | Dead => False
    | Active f => h = inject (o_headers o) (span_context (q_conf q) f x (o_host o)) /\ next' = next + 1 /\ w' = w /\
                  sp_trace x = sp_trace f /\ sp_segment x = sp_segment f /\ sp_id x = next /\ sp_parent x = sp_id f
    | Bare => h = inject (o_headers o) (span_context (q_conf q) x x (o_host o)) /\ next' = next /\ (w' = S (S w)) /\
              sp_trace x = ids (S w) /\ sp_segment x = ids w /\ sp_id x = 0 /\ sp_parent x = -1
    end
  end.
Proof.
  unfold create_exit. destruct (o_traced o) eqn:T; cbn [negb orb]; [|intros E; injection E as <- <- <- <-; auto].
  destruct (o_host o =? "")%string eqn:H; cbn [orb]; [intros E; injection E as <- <- <- <-; auto|].
  apply String.eqb_neq in H.
  destruct (q_ready q) eqn:R; cbn [negb]; [|intros E; injection E as <- <- <- <-; auto].
  destruct c as [| |f].
  - destruct (o_sampled o); [|intros E; injection E as <- <- <- <-; auto].
    cbn [first_span]. intros E. injection E as <- <- <- <-. cbn. repeat split; auto.
  - intros E. injection E as <- <- <- <-. auto.
  - intros E. injection E as <- <- <- <-. cbn. repeat split; auto.
Qed.

Lemma exit_some ids q o f next w : o_traced o = true -> o_host o <> "" -> q_ready q = true ->
  exists x h, create_exit ids q o (Active f) next w = (Some x, h, next + 1, w).
Proof.
  intros T H R. unfold create_exit. rewrite T, R. apply String.eqb_neq in H. rewrite H. cbn [negb orb]. eauto.
Qed.

(** The headers that a call goes out with. *)
Lemma exit_headers ids q o c next w e h next' w' : create_exit ids q o c next w = (e, h, next', w') ->
  (e = None -> h = o_headers o) /\
  (forall k, normal k <> "Sw8" -> normal k <> "Sw8-Correlation" -> peek h k = peek (o_headers o) k).
Proof.
  intros E. apply exit_shape in E.
  assert (K : forall r k, normal k <> "Sw8" -> normal k <> "Sw8-Correlation" -> peek (inject (o_headers o) r) k = peek (o_headers o) k).
  { intros r k H1 H2. unfold peek, inject, set_header. change (normal "sw8") with "Sw8". change (normal "sw8-correlation") with "Sw8-Correlation".
    rewrite mset_other by exact H2. rewrite mset_other by exact H1. reflexivity. }
  destruct e as [x|]; [|destruct E as (-> & _); split; auto].
  split; [discriminate|]. destruct E as (_ & _ & _ & _ & _ & _ & _ & E). destruct c; [|destruct E|]; destruct E as (-> & _); apply K.
Qed.

(** * The calls of a request *)

Lemma calls_at R ids q c : forall calls next w l w' i o t,
  run_calls R ids q c calls next w = (l, w') -> nth_error calls i = Some (o, t) ->
  exists next1 w1 e h next2 w2 s, create_exit ids q o c next1 w1 = (e, h, next2, w2) /\ nth_error l i = Some (e, s) /\
    next <= next1 <= next + Z.of_nat i /\ (forall f, c = Active f -> next1 = next + count_spans (firstn i l)) /\
    (t = None -> s = None) /\ (forall n, t = Some n -> exists s' w3, R n h w2 = (s', w3) /\ s = Some s').
Proof.
  induction calls as [|[o0 t0] calls IH]; intros next w l w' i o t; [destruct i; discriminate|].
  cbn [run_calls]. destruct (create_exit ids q o0 c next w) as [[[e h] next2] w2] eqn:E.
  destruct (match t0 with Some n => let '(s, w0) := R n h w2 in (Some s, w0) | None => (None, w2) end) as [s w3] eqn:T.
  fold (run_calls R ids q c). destruct (run_calls R ids q c calls next2 w3) as [l' w4] eqn:C.
  intros H. injection H as <- <-. destruct i as [|i]; cbn [nth_error].
  - intros H. injection H as <- <-. exists next, w, e, h, next2, w2, s.
    split; [exact E|]. split; [reflexivity|]. split; [lia|]. split; [intros f _; cbn; lia|].
    split; [intros ->; injection T as <- <-; reflexivity|]. intros n ->. destruct (R n h w2) as [s' w5]. injection T as <- <-. eauto.
  - intros H. destruct (IH _ _ _ _ i o t C H) as (n1 & w1 & e1 & h1 & n2 & w5 & s1 & X1 & X2 & X3 & X4 & X5).
    exists n1, w1, e1, h1, n2, w5, s1. split; [exact X1|]. split; [exact X2|].
    pose proof (exit_shape _ _ _ _ _ _ _ _ _ _ E) as S.
    assert (N : next <= next2 <= next + 1 /\ forall f, c = Active f -> next2 = next + Z.of_nat (length (the e))).
    { destruct e as [x|]; cbn [the length].
      - destruct S as (_ & _ & _ & _ & _ & _ & _ & S). destruct c as [| |f]; [|destruct S|].
        + destruct S as (_ & -> & _). split; [lia|discriminate].
        + destruct S as (_ & -> & _). split; [lia|intros; lia].
      - destruct S as (_ & -> & _). split; [lia|intros; lia]. }
    destruct N as [N1 N2]. split; [lia|]. split; [|exact X5].
    intros f Hf. rewrite (X4 f Hf), (N2 f Hf). unfold count_spans. cbn [firstn flat_map fst]. rewrite app_length. lia.
Qed.

Lemma calls_length R ids q c : forall calls next w l w', run_calls R ids q c calls next w = (l, w') -> length l = length calls.
Proof.
  induction calls as [|[o t] calls IH]; intros next w l w'; cbn [run_calls]; [intros H; injection H as <- _; reflexivity|].
  destruct (create_exit ids q o c next w) as [[[e h] n2] w2].
  destruct (match t with Some n => let '(s, w0) := R n h w2 in (Some s, w0) | None => (None, w2) end) as [s w3].
  fold (run_calls R ids q c). destruct (run_calls R ids q c calls n2 w3) as [l' w4] eqn:C.
  intros H. injection H as <- <-. cbn [length]. rewrite (IH _ _ _ _ C). reflexivity.
Qed.

Lemma nth_both {A B} (l : list A) (l' : list B) i b : length l' = length l -> nth_error l' i = Some b -> exists a, nth_error l i = Some a.
Proof.
  intros H E. destruct (nth_error l i) as [a|] eqn:D; [eauto|]. apply nth_error_None in D.
  assert (nth_error l' i <> None) by congruence. apply nth_error_Some in H0. lia.
Qed.

(** What happens at a request, and at one of its calls. *)
Lemma run_at ids q calls h w en outs w' : run ids (Node q calls) h w = (Seen en outs, w') ->
  exists c w1, create_entry ids q h w = (en, c, w1) /\ run_calls (run ids) ids q c calls 1 w1 = (outs, w').
Proof.
  cbn [run]. destruct (create_entry ids q h w) as [[en0 c] w1]. destruct (run_calls (run ids) ids q c calls 1 w1) as [l w2] eqn:C.
  intros H. injection H as <- <- <-. eauto.
Qed.

Lemma run_within ids n s n0 s0 : within n s n0 s0 -> forall h w w', run ids n h w = (s, w') ->
  exists h0 w0 w0', run ids n0 h0 w0 = (s0, w0').
Proof.
  induction 1 as [n s|q calls en outs i o n' e s' n s H1 H2 _ IH]; [eauto|]. intros h w w' H.
  destruct (run_at _ _ _ _ _ _ _ _ H) as (c & w1 & _ & C).
  destruct (calls_at _ _ _ _ _ _ _ _ _ _ _ _ C H1) as (n1 & w2 & e1 & h1 & n2 & w3 & s1 & _ & X2 & _ & _ & _ & X5).
  destruct (X5 n' eq_refl) as (s2 & w4 & R & ->). rewrite H2 in X2. injection X2 as -> ->. exact (IH _ _ _ R).
Qed.

Section Calls.
  Variables (ids : nat -> string) (top : node) (h : headers) (w w' : nat) (all : seen) (q : req) (calls : list (out * option node))
    (en : option span) (outs : list (option span * option seen)).
  Hypothesis Hrun : run ids top h w = (all, w').
  Hypothesis Hin : within top all (Node q calls) (Seen en outs).

  Lemma call_continues i o q1 calls1 e en1 outs1 : Z.of_nat (length calls) < 2 ^ 31 - 1 ->
    nth_error calls i = Some (o, Some (Node q1 calls1)) -> nth_error outs i = Some (Some e, Some (Seen en1 outs1)) ->
    q_mid q1 = true -> q_ready q1 = true ->
    exists x, en1 = Some x /\ sp_trace x = sp_trace e /\
      sp_ref x = Some (Ref 1 (sp_trace e) (sp_segment e) (sp_id e) (known_as (q_conf q)) (sky_instance (q_conf q)) (endpoint_of en e) (o_host o)).
  Proof.
    intros Hlen H1 H2 Hm Hr. destruct (run_within _ _ _ _ _ Hin _ _ _ Hrun) as (h0 & w0 & w0' & R0).
    destruct (run_at _ _ _ _ _ _ _ _ R0) as (c & w1 & E & C).
    destruct (calls_at _ _ _ _ _ _ _ _ _ _ _ _ C H1) as (n1 & w2 & e1 & h1 & n2 & w3 & s1 & X1 & X2 & X3 & _ & _ & X5).
    destruct (X5 _ eq_refl) as (s2 & w4 & R & ->). rewrite H2 in X2. injection X2 as <- <-.
    destruct (run_at _ _ _ _ _ _ _ _ R) as (c1 & w5 & E1 & _).
    apply entry_shape in E. destruct E as [_ E]. pose proof (exit_shape _ _ _ _ _ _ _ _ _ _ X1) as S. cbn beta iota in S.
    destruct S as (_ & _ & _ & _ & _ & _ & _ & S).
    assert (Hi : Z.of_nat i < Z.of_nat (length calls)) by (apply inj_lt, nth_error_Some; congruence).
    assert (P : exists first, sp_op first = endpoint_of en e /\ h1 = inject (o_headers o) (span_context (q_conf q) first e (o_host o)) /\ 0 <= sp_id e < 2 ^ 31).
    { destruct c as [| |f]; [|destruct S|].
      - destruct E as [-> _]. destruct S as (-> & _ & _ & _ & _ & -> & _). exists e. repeat split; lia.
      - destruct E as [-> _]. destruct S as (-> & _ & _ & _ & _ & Hid & _). exists f. rewrite Hid. repeat split; lia. }
    destruct P as (first & Hop & -> & Hid).
    assert (D : decode_sw8 (peek (inject (o_headers o) (span_context (q_conf q) first e (o_host o))) "sw8") = Some (Some (span_context (q_conf q) first e (o_host o)))).
    { rewrite peek_inject. apply decode_ref, encode_names; unfold span_context; cbn [r_sample r_span]; lia. }
    apply entry_shape in E1. destruct E1 as [_ E1]. rewrite D in E1. destruct c1 as [| |f].
    - destruct E1 as [_ [E1|E1]]; [congruence|discriminate].
    - destruct E1 as [_ [_ [E1|[_ E1]]]]; [congruence|discriminate].
    - destruct E1 as (-> & _ & _ & _ & _ & _ & _ & _ & _ & ref & Eref & Hf & Ht). injection Eref as <-.
      exists f. split; [reflexivity|]. rewrite (Ht _ eq_refl), Hf. unfold span_context. rewrite Hop. cbn [r_trace]. split; reflexivity.
  Qed.

  Lemma call_numbered i o t e s x : en = Some x -> nth_error calls i = Some (o, t) -> nth_error outs i = Some (e, s) ->
    (e <> None <-> o_traced o = true /\ o_host o <> "") /\
    forall y, e = Some y -> sp_trace y = sp_trace x /\ sp_segment y = sp_segment x /\ sp_parent y = sp_id x /\
      sp_id y = 1 + count_spans (firstn i outs) /\ sp_op y = o_op o /\ sp_peer y = o_host o /\ reported_by (q_conf q) y.
  Proof.
    intros Hen H1 H2. destruct (run_within _ _ _ _ _ Hin _ _ _ Hrun) as (h0 & w0 & w0' & R0).
    destruct (run_at _ _ _ _ _ _ _ _ R0) as (c & w1 & E & C).
    destruct (calls_at _ _ _ _ _ _ _ _ _ _ _ _ C H1) as (n1 & w2 & e1 & h1 & n2 & w3 & s1 & X1 & X2 & _ & X4 & _ & _).
    rewrite H2 in X2. injection X2 as <- <-. apply entry_shape in E. destruct E as [_ E].
    destruct c as [| |f]; [destruct E; congruence|destruct E; congruence|]. destruct E as (Ef & _ & Hr & _). rewrite Hen in Ef. injection Ef as <-.
    pose proof (exit_shape _ _ _ _ _ _ _ _ _ _ X1) as S. split.
    - split; [destruct e; [intros _; split; apply S|congruence]|]. intros [T H]. destruct (exit_some ids q o x n1 w2 T H Hr) as (y & h2 & E). congruence.
    - intros y ->. destruct S as (_ & _ & _ & So & Sp & Sb & _ & _ & _ & _ & St & Ss & Si & Spa).
      rewrite Si. repeat (split; [first [assumption|exact (X4 x eq_refl)]|]). assumption.
  Qed.

  Lemma call_untraced i o n' s' : nth_error calls i = Some (o, Some n') -> nth_error outs i = Some (None, Some s') ->
    exists w0, fst (run ids n' (o_headers o) w0) = s'.
  Proof.
    intros H1 H2. destruct (run_within _ _ _ _ _ Hin _ _ _ Hrun) as (h0 & w0 & w0' & R0).
    destruct (run_at _ _ _ _ _ _ _ _ R0) as (c & w1 & E & C).
    destruct (calls_at _ _ _ _ _ _ _ _ _ _ _ _ C H1) as (n1 & w2 & e1 & h1 & n2 & w3 & s1 & X1 & X2 & _ & _ & _ & X5).
    destruct (X5 _ eq_refl) as (s2 & w4 & R & ->). rewrite H2 in X2. injection X2 as <- <-.
    apply exit_shape in X1. destruct X1 as (-> & _ & _). exists w3. rewrite R. reflexivity.
  Qed.

  (** The calls of requests that have no entry span. *)
  Lemma call_alone i o t e s y : en = None -> nth_error calls i = Some (o, t) -> nth_error outs i = Some (e, s) -> e = Some y ->
    sp_id y = 0 /\ sp_parent y = -1 /\ sp_ref y = None /\ q_ready q = true /\ sp_op y = o_op o /\ sp_peer y = o_host o /\ reported_by (q_conf q) y.
  Proof.
    intros Hen H1 H2 ->. destruct (run_within _ _ _ _ _ Hin _ _ _ Hrun) as (h0 & w0 & w0' & R0).
    destruct (run_at _ _ _ _ _ _ _ _ R0) as (c & w1 & E & C).
    destruct (calls_at _ _ _ _ _ _ _ _ _ _ _ _ C H1) as (n1 & w2 & e1 & h1 & n2 & w3 & s1 & X1 & X2 & _ & _ & _ & _).
    rewrite H2 in X2. injection X2 as <- <-. apply entry_shape in E. destruct E as [_ E].
    apply exit_shape in X1. destruct X1 as (_ & _ & Sr & So & Sp & Sb & Sf & S).
    destruct c as [| |f]; [|destruct S|destruct E; congruence]. destruct S as (_ & _ & _ & _ & _ & -> & ->). repeat (split; [first [reflexivity|assumption]|]). assumption.
  Qed.
End Calls.

(** What the middleware makes of the header. *)
Lemma received ids q calls h w en outs w' : run ids (Node q calls) h w = (Seen en outs, w') -> q_mid q = true -> q_ready q = true ->
  (forall x, en = Some x -> sp_entry x = true /\ sp_id x = 0 /\ sp_parent x = -1 /\ sp_op x = q_op q /\ reported_by (q_conf q) x) /\
  (forall r, names_span (peek h "sw8") r -> exists x, en = Some x /\ sp_ref x = Some r /\ sp_trace x = r_trace r) /\
  (peek h "sw8" = "" -> (en <> None <-> q_sampled q = true) /\ forall x, en = Some x -> sp_ref x = None) /\
  (peek h "sw8" <> "" -> (forall r, ~ names_span (peek h "sw8") r) -> en = None).
Proof.
  intros H Hm Hr. destruct (run_at _ _ _ _ _ _ _ _ H) as (c & w1 & E & _). pose proof E as Ed. apply entry_shape in E. destruct E as [_ E].
  unfold create_entry in Ed. rewrite Hm, Hr in Ed. cbn [negb] in Ed. split.
  { intros x ->. destruct c as [| |f]; [destruct E; discriminate|destruct E; discriminate|]. destruct E as (Ef & _ & _ & E1 & E2 & E3 & E4 & _).
    injection Ef as <-. split; [|auto]. revert Ed. destruct (decode_sw8 (peek h "sw8")) as [ref|]; [|discriminate].
    destruct (q_sampled q || match ref with Some _ => true | None => false end); [|discriminate]. cbn [first_span]. intros Ed. injection Ed as <- _. reflexivity. }
  split.
  { intros r Hn. apply decode_ref in Hn. destruct c as [| |f].
    - destruct E as [_ [E|E]]; congruence.
    - destruct E as [_ [_ [E|[_ E]]]]; congruence.
    - destruct E as (-> & _ & _ & _ & _ & _ & _ & _ & _ & ref & D & F1 & F2). assert (ref = Some r) by congruence. exists f. split; [reflexivity|]. split; [congruence|auto]. }
  split.
  { intros Hn. rewrite Hn in Ed. cbn in Ed. rewrite orb_false_r in Ed. destruct (q_sampled q); [|injection Ed as <- _ _].
    - injection Ed as <- _ _. split; [split; [reflexivity|discriminate]|]. intros x Ex. injection Ex as <-. reflexivity.
    - split; [split; [congruence|discriminate]|]. discriminate. }
  intros Hn Hno. revert Ed. destruct (decode_sw8 (peek h "sw8")) as [[r|]|] eqn:D; [| |intros Ed; injection Ed as <- _ _; reflexivity].
  - exfalso. apply decode_ref in D. exact (Hno r D).
  - exfalso. apply decode_none in D. exact (Hn D).
Qed.

(** Services without a tracer that works. *)
Lemma not_traced ids q calls h w en outs w' : run ids (Node q calls) h w = (Seen en outs, w') -> q_mid q = false \/ q_ready q = false ->
  en = None /\ (q_ready q = false -> forall e t, In (e, t) outs -> e = None).
Proof.
  intros H Hq. destruct (run_at _ _ _ _ _ _ _ _ H) as (c & w1 & E & C). split.
  - apply entry_shape in E. destruct E as [_ E]. destruct c as [| |f]; [apply E|apply E|]. destruct E as (_ & E1 & E2 & _). destruct Hq; congruence.
  - intros Hr e t Hin. apply In_nth_error in Hin. destruct Hin as [i Hi].
    destruct (nth_both _ _ _ _ (calls_length _ _ _ _ _ _ _ _ _ C) Hi) as [[o t0] Hi0].
    destruct (calls_at _ _ _ _ _ _ _ _ _ _ _ _ C Hi0) as (n1 & w2 & e1 & h1 & n2 & w3 & s1 & X1 & X2 & _).
    rewrite Hi in X2. injection X2 as <- <-. apply exit_shape in X1. destruct e; [|reflexivity]. destruct X1 as (_ & _ & X1 & _). congruence.
Qed.

(** When calls of requests without span have spans. *)
Lemma calls_of_untraced ids q calls h w outs w' : run ids (Node q calls) h w = (Seen None outs, w') ->
  (q_mid q = true -> q_ready q = true -> peek h "sw8" = "" -> forall e t, In (e, t) outs -> e = None) /\
  (q_mid q = false \/ peek h "sw8" <> "" -> q_ready q = true -> forall i o t e s, nth_error calls i = Some (o, t) -> nth_error outs i = Some (e, s) ->
     (e <> None <-> o_traced o = true /\ o_host o <> "" /\ o_sampled o = true)).
Proof.
  intros H. destruct (run_at _ _ _ _ _ _ _ _ H) as (c & w1 & E & C). apply entry_shape in E. destruct E as [_ E]. split.
  - intros Hm Hr Hp e t Hin. destruct c as [| |f]; [| |destruct E; discriminate].
    + destruct E as [_ [E|E]]; [congruence|]. rewrite Hp in E. discriminate.
    + apply In_nth_error in Hin. destruct Hin as [i Hi].
      destruct (nth_both _ _ _ _ (calls_length _ _ _ _ _ _ _ _ _ C) Hi) as [[o t0] Hi0].
      destruct (calls_at _ _ _ _ _ _ _ _ _ _ _ _ C Hi0) as (n1 & w2 & e1 & h1 & n2 & w3 & s1 & X1 & X2 & _).
      rewrite Hi in X2. injection X2 as <- <-. apply exit_shape in X1. destruct e; [|reflexivity].
      destruct X1 as (_ & _ & _ & _ & _ & _ & _ & []).
  - intros Hq Hr i o t e s Hi0 Hi. destruct c as [| |f]; [| |destruct E; discriminate].
    + destruct (calls_at _ _ _ _ _ _ _ _ _ _ _ _ C Hi0) as (n1 & w2 & e1 & h1 & n2 & w3 & s1 & X1 & X2 & _).
      rewrite Hi in X2. injection X2 as <- <-. unfold create_exit in X1. rewrite Hr in X1. cbn [negb] in X1. rewrite orb_false_r in X1.
      destruct (o_traced o); cbn [negb orb] in X1; [|injection X1 as <- _ _ _; split; [congruence|intros [? _]; discriminate]].
      destruct (o_host o =? "")%string eqn:Eh; [apply String.eqb_eq in Eh; injection X1 as <- _ _ _; split; [congruence|intros (_ & ? & _); congruence]|].
      apply String.eqb_neq in Eh. destruct (o_sampled o).
      * cbn [first_span] in X1. injection X1 as <- _ _ _. split; [auto|discriminate].
      * injection X1 as <- _ _ _. split; [congruence|intros (_ & _ & ?); discriminate].
    + destruct E as [_ [Em [E|[_ E]]]]; [congruence|]. apply decode_none in E. destruct Hq; congruence.
Qed.

(** * One trace *)

Lemma node_ind2 (P : node -> Prop) : (forall q calls, (forall o n, In (o, Some n) calls -> P n) -> P (Node q calls)) -> forall n, P n.
Proof.
  intros H. fix IH 1. intros [q calls]. apply H.
  induction calls as [|[o t] calls IHc]; [intros o n []|]. intros o0 n [E|Hin]; [|exact (IHc o0 n Hin)].
  destruct t as [n'|]; [|discriminate]. injection E as _ <-. apply IH.
Qed.

Lemma all_one_trace ids : forall n h w s w' x, all_traced n -> run ids n h w = (s, w') -> entry_of s = Some x ->
  (forall y, In y (spans s) -> sp_trace y = sp_trace x) /\
  (forall n0 q calls en outs, within n s n0 (Seen en outs) -> n0 = Node q calls ->
     en <> None /\ length outs = length calls /\ forall e t, In (e, t) outs -> e <> None).
Proof.
  intros n. induction n as [q calls IH] using node_ind2. intros h w s w' x Hall Hrun Hx.
  inversion Hall as [q' calls' Hm Hr Hlen Hc Hn]. subst q' calls'. destruct s as [en outs]. cbn [entry_of] in Hx. subst en.
  destruct (run_at _ _ _ _ _ _ _ _ Hrun) as (c & w1 & E & C). pose proof (calls_length _ _ _ _ _ _ _ _ _ C) as L.
  (* every call has a span, and where it leads the trace is the same *)
  assert (K : forall i e t, nth_error outs i = Some (e, t) -> exists o t0 y, nth_error calls i = Some (o, t0) /\ e = Some y /\ sp_trace y = sp_trace x /\
    match t with
    | None => True
    | Some s' => exists n' h' w2 w3 z, t0 = Some n' /\ run ids n' h' w2 = (s', w3) /\ entry_of s' = Some z /\ sp_trace z = sp_trace x
    end).
  { intros i e t Hi. destruct (nth_both _ _ _ _ L Hi) as [[o t0] Hi0]. exists o, t0.
    destruct (call_numbered ids (Node q calls) h w w' _ q calls _ outs Hrun (within_here _ _) i o t0 e t x eq_refl Hi0 Hi) as [S1 S2].
    destruct e as [y|]; [|exfalso; apply (proj2 S1); [exact (Hc _ _ (nth_error_In _ _ Hi0))|reflexivity]].
    exists y. destruct (S2 y eq_refl) as [St _]. split; [exact Hi0|]. split; [reflexivity|]. split; [exact St|].
    destruct t as [s'|]; [|exact I].
    destruct (calls_at _ _ _ _ _ _ _ _ _ _ _ _ C Hi0) as (n1 & w2 & e1 & h1 & n2 & w3 & s1 & X1 & X2 & _ & _ & X4 & X5).
    rewrite Hi in X2. injection X2 as <- <-. destruct t0 as [n'|]; [|discriminate (X4 eq_refl)].
    destruct (X5 _ eq_refl) as (s2 & w4 & R & Es). injection Es as <-.
    pose proof (Hn _ _ (nth_error_In _ _ Hi0)) as Hall'. destruct n' as [q1 calls1]. destruct s' as [en1 outs1].
    inversion Hall' as [q' calls' Hm1 Hr1 _ _ _]. subst q' calls'.
    destruct (call_continues ids (Node q calls) h w w' _ q calls _ outs Hrun (within_here _ _) i o q1 calls1 y en1 outs1 Hlen Hi0 Hi Hm1 Hr1) as (z & -> & Hz & _).
    exists (Node q1 calls1), h1, w3, w4, z. split; [reflexivity|]. split; [exact R|]. split; [reflexivity|]. congruence. }
  split.
  - intros y Hy. cbn [spans the app] in Hy. destruct Hy as [->|Hy]; [reflexivity|]. apply in_flat_map in Hy. destruct Hy as ([e t] & Hin & Hy).
    cbn [fst snd] in Hy. apply In_nth_error in Hin. destruct Hin as [i Hi]. destruct (K i e t Hi) as (o & t0 & y' & Hi0 & -> & Ht & Hs).
    cbn [the app] in Hy. destruct Hy as [->|Hy]; [exact Ht|]. destruct t as [s'|]; [|destruct Hy].
    destruct Hs as (n' & h' & w2 & w3 & z & -> & R & Ez & Tz).
    destruct (IH o n' (nth_error_In _ _ Hi0) h' w2 s' w3 z (Hn _ _ (nth_error_In _ _ Hi0)) R Ez) as [F _]. rewrite (F y Hy). exact Tz.
  - intros n0 q0 calls0 en0 outs0 W E0. subst n0. inversion W as [n1 s1|q1 calls1 en1 outs1 i o n' e s' n1 s1 H1 H2 W'].
    + subst. split; [discriminate|]. split; [exact L|]. intros e t Hin. apply In_nth_error in Hin. destruct Hin as [i Hi].
      destruct (K i e t Hi) as (o & t0 & y & _ & -> & _). discriminate.
    + subst. destruct (K i e (Some s') H2) as (o' & t0 & y & Hi0 & -> & _ & (n2 & h' & w2 & w3 & z & -> & R & Ez & Tz)).
      assert (n2 = n') by congruence. subst n2.
      destruct (IH o n' (nth_error_In _ _ H1) h' w2 s' w3 z (Hn _ _ (nth_error_In _ _ H1)) R Ez) as [_ F]. exact (F _ q0 calls0 en0 outs0 W' eq_refl).
Qed.

(** * Names of spans *)

Definition key (x : span) : string * Z := (sp_segment x, sp_id x).
Definition call_spans (l : list (option span * option seen)) : list span :=
  flat_map (fun c => the (fst c) ++ match snd c with Some s' => spans s' | None => [] end) l.

Lemma NoDup_app {A} (a b : list A) : NoDup a -> NoDup b -> (forall x, In x a -> In x b -> False) -> NoDup (a ++ b).
Proof.
  induction a as [|y a IH]; intros Ha Hb Hd; [exact Hb|]. inversion Ha as [|? ? H1 H2]. subst. cbn [app]. constructor.
  - intros H. apply in_app_or in H. destruct H as [H|H]; [exact (H1 H)|exact (Hd y (or_introl eq_refl) H)].
  - apply IH; [exact H2|exact Hb|]. intros x H3 H4. exact (Hd x (or_intror H3) H4).
Qed.

Section Unique.
  Variable ids : nat -> string.
  Hypothesis Hids : forall a b, ids a = ids b -> a = b.

  Definition made (w w' : nat) (x : span) : Prop := exists k, sp_segment x = ids k /\ (w <= k < w')%nat.
  Definition unique (n : node) : Prop := forall h w s w', run ids n h w = (s, w') ->
    (w <= w')%nat /\ (forall x, In x (spans s) -> made w w' x) /\ NoDup (map key (spans s)).

  Lemma calls_unique q c : forall calls next w l w', (forall o n, In (o, Some n) calls -> unique n) ->
    run_calls (run ids) ids q c calls next w = (l, w') ->
    (forall f, c = Active f -> exists k, sp_segment f = ids k /\ (k < w)%nat) ->
    (w <= w')%nat /\
    (forall x, In x (call_spans l) -> made w w' x \/ exists f, c = Active f /\ sp_segment x = sp_segment f /\ next <= sp_id x) /\
    NoDup (map key (call_spans l)).
  Proof.
    induction calls as [|[o t] calls IH]; intros next w l w' Hu; cbn [run_calls].
    { intros H _. injection H as <- <-. split; [lia|]. split; [intros x []|constructor]. }
    destruct (create_exit ids q o c next w) as [[[e h] n2] w2] eqn:E.
    destruct (match t with Some n => let '(s, w0) := run ids n h w2 in (Some s, w0) | None => (None, w2) end) as [s w3] eqn:T.
    fold (run_calls (run ids) ids q c). destruct (run_calls (run ids) ids q c calls n2 w3) as [l' w4] eqn:C.
    intros H Hf. injection H as <- <-.
    apply exit_shape in E.
    (* the span of the call *)
    assert (P : (w <= w2)%nat /\ next <= n2 /\ forall x, In x (the e) -> made w w2 x \/ exists f, c = Active f /\ sp_segment x = sp_segment f /\ sp_id x = next /\ n2 = next + 1).
    { destruct e as [x|]; [|destruct E as (_ & -> & ->); split; [lia|]; split; [lia|intros x []]].
      destruct E as (_ & _ & _ & _ & _ & _ & _ & E). destruct c as [| |f]; [|destruct E|].
      - destruct E as (_ & -> & -> & _ & Es & _ & _). split; [lia|]. split; [lia|]. intros y [<-|[]]. left. exists w. split; [exact Es|lia].
      - destruct E as (_ & -> & -> & _ & Es & Ei & _). split; [lia|]. split; [lia|]. intros y [<-|[]]. right. exists f. auto. }
    destruct P as (P1 & P2 & P3).
    (* the spans of the called service *)
    set (inside := match s with Some s' => spans s' | None => [] end).
    assert (Q : (w2 <= w3)%nat /\ (forall x, In x inside -> made w2 w3 x) /\ NoDup (map key inside)).
    { unfold inside. destruct t as [n|]; [|injection T as <- <-; split; [lia|]; split; [intros x []|constructor]].
      destruct (run ids n h w2) as [s' w5] eqn:R. injection T as <- <-. exact (Hu o n (or_introl eq_refl) _ _ _ _ R). }
    destruct Q as (Q1 & Q2 & Q3).
    assert (Hf' : forall f, c = Active f -> exists k, sp_segment f = ids k /\ (k < w3)%nat).
    { intros f Hc. destruct (Hf f Hc) as (k & K1 & K2). exists k. split; [exact K1|lia]. }
    destruct (IH n2 w3 l' w4 (fun o n H => Hu o n (or_intror H)) C Hf') as (I1 & I2 & I3).
    cbn [call_spans flat_map fst snd]. fold inside. fold (call_spans l'). split; [lia|]. split.
    - intros x Hx. apply in_app_or in Hx. destruct Hx as [Hx|Hx]; [apply in_app_or in Hx; destruct Hx as [Hx|Hx]|].
      + destruct (P3 x Hx) as [(k & K1 & K2)|(f & F1 & F2 & F3 & _)]; [left; exists k; split; [exact K1|lia]|right; exists f; repeat split; auto; lia].
      + destruct (Q2 x Hx) as (k & K1 & K2). left. exists k. split; [exact K1|lia].
      + destruct (I2 x Hx) as [(k & K1 & K2)|(f & F1 & F2 & F3)]; [left; exists k; split; [exact K1|lia]|right; exists f; repeat split; auto; lia].
    - rewrite !map_app. apply NoDup_app; [apply NoDup_app; [|exact Q3|]|exact I3|].
      + destruct e; cbn; repeat constructor; intros [].
      + intros kk H1 H2. apply in_map_iff in H1, H2. destruct H1 as (x & <- & H1), H2 as (y & Ek & H2). injection Ek as Es _.
        destruct (Q2 y H2) as (k & K1 & K2). destruct (P3 x H1) as [(k' & K1' & K2')|(f & F1 & F2 & _)].
        * assert (k = k') by (apply Hids; congruence). lia.
        * destruct (Hf f F1) as (k' & K1' & K2'). assert (k = k') by (apply Hids; congruence). lia.
      + intros kk H1 H2. apply in_map_iff in H2. destruct H2 as (y & <- & H2). rewrite <- map_app in H1.
        apply in_map_iff in H1. destruct H1 as (x & Ek & H1). injection Ek as Es Ei. apply in_app_or in H1. destruct H1 as [H1|H1].
        * destruct (P3 x H1) as [(k & K1 & K2)|(f & F1 & F2 & F3 & F4)]; destruct (I2 y H2) as [(k' & K1' & K2')|(f' & F1' & F2' & F3')].
          -- assert (k = k') by (apply Hids; congruence). lia.
          -- destruct (Hf f' F1') as (k' & K1' & K2'). assert (k = k') by (apply Hids; congruence). lia.
          -- destruct (Hf f F1) as (k & K1 & K2). assert (k = k') by (apply Hids; congruence). lia.
          -- lia.
        * destruct (Q2 x H1) as (k & K1 & K2). destruct (I2 y H2) as [(k' & K1' & K2')|(f' & F1' & F2' & F3')].
          -- assert (k = k') by (apply Hids; congruence). lia.
          -- destruct (Hf f' F1') as (k' & K1' & K2'). assert (k = k') by (apply Hids; congruence). lia.
  Qed.

  Lemma all_unique n : unique n.
  Proof.
    induction n as [q calls IH] using node_ind2. intros h w [en outs] w' H.
    destruct (run_at _ _ _ _ _ _ _ _ H) as (c & w1 & E & C). apply entry_shape in E. destruct E as [W E].
    assert (Hf : forall f, c = Active f -> exists k, sp_segment f = ids k /\ (k < w1)%nat).
    { intros f ->. destruct E as (_ & _ & _ & _ & _ & _ & _ & Es & Hw & _). exists w. auto. }
    destruct (calls_unique q c calls 1 w1 outs w' IH C Hf) as (I1 & I2 & I3).
    cbn [spans]. fold (call_spans outs). split; [lia|].
    destruct c as [| |f].
    - destruct E as [-> _]. cbn [the app]. split; [|exact I3]. intros x Hx.
      destruct (I2 x Hx) as [(k & K1 & K2)|(f & F & _)]; [exists k; split; [exact K1|lia]|discriminate].
    - destruct E as [-> _]. cbn [the app]. split; [|exact I3]. intros x Hx.
      destruct (I2 x Hx) as [(k & K1 & K2)|(f & F & _)]; [exists k; split; [exact K1|lia]|discriminate].
    - destruct E as (-> & _ & _ & Eid & _ & _ & _ & Es & Hw & _). cbn [the app map]. split.
      + intros x [<-|Hx]; [exists w; split; [exact Es|lia]|].
        destruct (I2 x Hx) as [(k & K1 & K2)|(f' & F & F2 & _)]; [exists k; split; [exact K1|lia]|].
        injection F as <-. exists w. split; [congruence|lia].
      + constructor; [|exact I3]. intros Hin. apply in_map_iff in Hin. destruct Hin as (y & Ek & Hy). injection Ek as Ek1 Ek2.
        destruct (I2 y Hy) as [(k & K1 & K2)|(f' & F & F2 & F3)]; [|lia]. assert (w = k) by (apply Hids; congruence). lia.
  Qed.
End Unique.
