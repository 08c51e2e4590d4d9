(** Proofs about the Redis TTL rate limiter. *)
From Verif Require Import Common Bytes RedisTtlModel RedisTtlSpec.
Local Open Scope string_scope.
Local Open Scope Z_scope.

(** ** Redis *)

Lemma live_ext t s1 s2 k : s1 k = s2 k -> live t s1 k = live t s2 k.
Proof. unfold live. intros ->. reflexivity. Qed.

Lemma live_some t s k e : live t s k = Some e ->
  s k = Some e /\ match e_exp e with Some w => t <= w | None => True end.
Proof.
  unfold live. destruct (s k) as [e'|]; [|discriminate]. destruct (e_exp e') as [w|] eqn:E.
  - destruct (Z.ltb_spec w t); [discriminate|]. intros [= <-]. rewrite E. auto.
  - intros [= <-]. rewrite E. auto.
Qed.

Lemma live_at t s k v w : s k = Some (Entry v w) ->
  match w with Some w => t <= w | None => True end -> live t s k = Some (Entry v w).
Proof.
  unfold live. intros -> H. cbn. destruct w as [w|]; [|reflexivity].
  destruct (Z.ltb_spec w t); [lia|reflexivity].
Qed.

Lemma live_none_later t t' s k : live t s k = None -> t <= t' -> live t' s k = None.
Proof.
  unfold live. destruct (s k) as [e|]; [|reflexivity]. destruct (e_exp e) as [w|]; [|discriminate].
  destruct (Z.ltb_spec w t); [|discriminate]. intros _ H'. destruct (Z.ltb_spec w t'); [reflexivity|lia].
Qed.

(** Pointwise update. *)
Definition put (s : rstore) (k : string) (e : rentry) (s' : rstore) : Prop :=
  forall k', s' k' = if (k' =? k)%string then Some e else s k'.

Lemma put_same s k e s' : put s k e s' -> s' k = Some e.
Proof. intros H. rewrite (H k), seqb_refl. reflexivity. Qed.
Lemma put_other s k e s' k' : put s k e s' -> k' <> k -> s' k' = s k'.
Proof. intros H Hk. rewrite (H k'), (seqb_neq _ _ Hk). reflexivity. Qed.
Lemma put_mset s k e : put s k e (mset s k e).
Proof. intros k'. reflexivity. Qed.
Lemma put_put s k e1 e2 s1 s2 : put s k e1 s1 -> put s1 k e2 s2 -> put s k e2 s2.
Proof. intros H1 H2 k'. rewrite (H2 k'). destruct (String.eqb_spec k' k); [reflexivity|]. apply (put_other _ _ _ _ _ H1). assumption. Qed.
Lemma put_self s k e : s k = Some e -> put s k e s.
Proof. intros H k'. destruct (String.eqb_spec k' k) as [->|]; [exact H|reflexivity]. Qed.

Definition alive (t : Z) (w : option Z) : Prop := match w with Some w => t <= w | None => True end.

Lemma live_put t s k v w s' : put s k (Entry v w) s' -> alive t w -> live t s' k = Some (Entry v w).
Proof. intros H Hw. apply live_at; [apply (put_same _ _ _ _ H)|exact Hw]. Qed.

Lemma lpops_spec t k n : forall s l w, live t s k = Some (Entry (RList l) w) -> (n < length l)%nat ->
  exists s', lpops t k n s = (s', Some tt) /\ put s k (Entry (RList (skipn n l)) w) s'.
Proof.
  induction n as [|n IH]; intros s l w Hl Hn.
  - exists s. split; [reflexivity|]. apply put_self. apply live_some in Hl. tauto.
  - destruct l as [|a [|b l]]; cbn [length] in Hn; try lia.
    pose proof (live_some _ _ _ _ Hl) as (_ & Hw). cbn in Hw.
    cbn [lpops]. unfold bind, r_lpop. cbv beta. rewrite Hl. cbn [e_val e_exp].
    destruct (IH (mset s k (Entry (RList (b :: l)) w)) (b :: l) w) as (s' & E & P).
    { apply (live_put t s); [apply put_mset|exact Hw]. }
    { cbn [length]. lia. }
    exists s'. split; [exact E|]. cbn [skipn] in *. apply (put_put _ _ _ _ _ _ (put_mset _ _ _) P).
Qed.

(** The list under the request key after a pass, if the request passes. *)
Definition passed_list (cap win now : Z) (l : list Z) : option (list Z) :=
  if Z.of_nat (length l) <? cap then Some (l ++ [now])%list
  else match skipn (Z.to_nat (Z.of_nat (length l) - cap)) l with
       | [] => Some [now]
       | o :: r => if win <? now - o then Some (r ++ [now])%list else None
       end.

Definition list_of (e : option rentry) : list Z :=
  match e with Some (Entry (RList l) _) => l | _ => [] end.

Definition script1_result (t : Z) (key keyb : string) (cap win exp now : Z) (msg : string) (s s' : rstore)
    (y : option reply) : Prop :=
  match live t s keyb with
  | Some (Entry (RStr m) w) =>
    s' = s /\ y = Some (Reply 1 0 (match w with Some w => (w - t + 500) / 1000 | None => -1 end) (Some m))
  | Some (Entry (RList _) _) => s' = s /\ y = None
  | None =>
    match live t s key with
    | Some (Entry (RStr _) _) => s' = s /\ y = None
    | e =>
      match passed_list cap win now (list_of e) with
      | Some l' => put s key (Entry (RList l') (Some (t + exp * 2 * 1000))) s' /\ y = Some pass_reply
      | None =>
        exists s1 w, s key = Some (Entry (RList (list_of e)) w) /\ alive t w /\
          put s key (Entry (RList (skipn (Z.to_nat (Z.of_nat (length (list_of e)) - cap)) (list_of e))) w) s1 /\
          put s1 keyb (Entry (RStr msg) (Some (t + exp * 1000))) s' /\
          y = Some (Reply 1 1 exp (Some msg))
      end
    end
  end.

Lemma script1_spec' t key keyb cap win exp now msg s res : 0 < cap -> 0 < win -> 0 < exp ->
  script1 t key keyb cap win exp now msg s = res ->
  script1_result t key keyb cap win exp now msg s (fst res) (snd res).
Proof.
  intros Hc Hw He. unfold script1_result, script1.
  destruct (Z.leb_spec cap 0); [lia|]. destruct (Z.leb_spec win 0); [lia|]. destruct (Z.leb_spec exp 0); [lia|].
  cbn [orb]. unfold bind at 1, r_exists. cbv beta iota.
  destruct (live t s keyb) as [[v w]|] eqn:Eb.
  { pose proof (live_some _ _ _ _ Eb) as (_ & Ha). cbn in Ha.
    unfold bind, r_ttl, r_get, ret. cbv beta. rewrite !Eb. cbn [e_exp e_val].
    destruct v as [l|m]; intros <-; cbn [fst snd]; split; try reflexivity.
    destruct w as [w|]; [|reflexivity]. rewrite Z.max_r by lia. reflexivity. }
  cbv beta iota. unfold bind at 1, r_llen. cbv beta iota. destruct (live t s key) as [[v w]|] eqn:Ek.
  - pose proof (live_some _ _ _ _ Ek) as (Hk & Ha). cbn in Ha. cbn [e_val].
    destruct v as [l|m]; [|intros <-; cbn [fst snd]; auto].
    cbn [list_of]. unfold passed_list.
    destruct (Z.ltb_spec (Z.of_nat (length l)) cap) as [Hlt|Hge].
    + unfold bind, r_rpush. cbv beta. rewrite Ek. cbn [e_val e_exp]. unfold r_expire. cbv beta.
      rewrite (live_put t s key (RList (l ++ [now])) w) by (try apply put_mset; exact Ha).
      cbn [e_val]. unfold ret. intros <-. cbn [fst snd]. split; [|reflexivity].
      apply (put_put _ _ _ _ _ _ (put_mset _ _ _) (put_mset _ _ _)).
    + set (n := Z.to_nat (Z.of_nat (length l) - cap)).
      assert (Hn : (n < length l)%nat) by (unfold n; lia).
      assert (Hpop : exists s1, (if 0 <? Z.of_nat (length l) - cap then lpops t key n else ret tt) s = (s1, Some tt) /\
                put s key (Entry (RList (skipn n l)) w) s1).
      { destruct (Z.ltb_spec 0 (Z.of_nat (length l) - cap)).
        - apply lpops_spec; assumption.
        - exists s. split; [reflexivity|]. replace n with 0%nat by (unfold n; lia). apply put_self. exact Hk. }
      destruct Hpop as (s1 & Epop & Ppop). unfold bind at 1. rewrite Epop.
      pose proof (live_put t _ _ _ _ _ Ppop Ha) as L1.
      unfold bind at 1, r_lfirst. cbv beta. rewrite L1. cbn [e_val].
      destruct (skipn n l) as [|o r] eqn:Es.
      { pose proof (skipn_length n l) as Hl. rewrite Es in Hl. cbn in Hl. lia. }
      cbn [firstn].
      destruct (Z.ltb_spec win (now - o)).
      * unfold bind at 1, r_rpush. cbv beta. rewrite L1. cbn [e_val e_exp].
        set (s2 := mset s1 key (Entry (RList ((o :: r) ++ [now])) w)).
        assert (P2 : put s key (Entry (RList ((o :: r) ++ [now])) w) s2) by (apply (put_put _ _ _ _ _ _ Ppop (put_mset _ _ _))).
        pose proof (live_put t _ _ _ _ _ P2 Ha) as L2.
        unfold bind at 1, r_lpop. cbv beta. rewrite L2. cbn [e_val e_exp app].
        destruct (r ++ [now])%list as [|x xs] eqn:Er; [destruct r; discriminate|]. rewrite <- Er in *.
        set (s3 := mset s2 key (Entry (RList (r ++ [now])) w)).
        assert (P3 : put s key (Entry (RList (r ++ [now])) w) s3) by (apply (put_put _ _ _ _ _ _ P2 (put_mset _ _ _))).
        pose proof (live_put t _ _ _ _ _ P3 Ha) as L3.
        unfold bind, r_expire. cbv beta. rewrite L3. cbn [e_val]. unfold ret. intros <-. cbn [fst snd]. split; [|reflexivity].
        apply (put_put _ _ _ _ _ _ P3 (put_mset _ _ _)).
      * assert (Hne : keyb <> key) by congruence.
        unfold bind, r_set_ex_nx. cbv beta. rewrite (live_ext t s1 s keyb) by (apply (put_other _ _ _ _ _ Ppop); exact Hne).
        rewrite Eb. unfold ret. intros <-. cbn [fst snd].
        exists s1, w. split; [exact Hk|]. split; [exact Ha|]. split; [exact Ppop|]. split; [apply put_mset|reflexivity].
  - cbn [list_of]. unfold passed_list. cbn [length]. change (Z.of_nat 0) with 0.
    destruct (Z.ltb_spec 0 cap); [|lia].
    unfold bind, r_rpush. cbv beta. rewrite Ek. unfold r_expire. cbv beta.
    rewrite (live_put t s key (RList [now]) None) by (try apply put_mset; exact I).
    cbn [e_val]. unfold ret. intros <-. cbn [fst snd]. split; [|reflexivity].
    apply (put_put _ _ _ _ _ _ (put_mset _ _ _) (put_mset _ _ _)).
Qed.

Lemma script1_spec t key keyb cap win exp now msg s : 0 < cap -> 0 < win -> 0 < exp ->
  script1_result t key keyb cap win exp now msg s
    (fst (script1 t key keyb cap win exp now msg s)) (snd (script1 t key keyb cap win exp now msg s)).
Proof. intros H1 H2 H3. apply script1_spec'; auto. Qed.

Lemma script2_spec t keyb s :
  script2 t keyb s = (s, match live t s keyb with
    | Some (Entry (RStr m) w) => Some (Reply 1 0 (match w with Some w => (w - t + 500) / 1000 | None => -1 end) (Some m))
    | Some (Entry (RList _) _) => None
    | None => Some pass_reply
    end).
Proof.
  unfold script2, bind at 1, r_exists. destruct (live t s keyb) as [[v w]|] eqn:Eb; [|reflexivity].
  pose proof (live_some _ _ _ _ Eb) as (_ & Ha). cbn in Ha.
  unfold bind, r_ttl, r_get, ret. cbv beta. rewrite !Eb. cbn [e_exp e_val].
  destruct v as [l|m]; [reflexivity|]. destruct w as [w|]; [rewrite Z.max_r by lia|]; reflexivity.
Qed.

(** ** Calls *)

Lemma append_assoc' (a b c : string) : (a ++ b) ++ c = a ++ (b ++ c).
Proof. induction a as [|x a IH]; cbn; [reflexivity|]. rewrite IH. reflexivity. Qed.
Lemma append_empty (a : string) : a ++ "" = a.
Proof. induction a as [|x a IH]; cbn; [reflexivity|]. rewrite IH. reflexivity. Qed.

Lemma tag_append (tag s : string) : (if negb (tag =? "")%string then s ++ tag else s) = s ++ tag.
Proof. destruct (String.eqb_spec tag "") as [->|]; cbn [negb]; [rewrite append_empty|]; reflexivity. Qed.

Lemma params_not_set_false p : params_not_set p = false <-> params_set p.
Proof.
  unfold params_not_set, params_set. rewrite !orb_false_iff, !Z.leb_gt. tauto.
Qed.

Lemma params_dec p : {params_set p} + {~ params_set p}.
Proof.
  destruct (params_not_set p) eqn:E; [right|left; apply params_not_set_false; exact E].
  intros H. apply params_not_set_false in H. congruence.
Qed.

Definition client_secs (c : call) : Z := Z.quot (c_ns c) second.

(** Everything a call can do. *)
Inductive call_case (c : call) (s s' : rstore) (o : outcome) : Prop :=
  | CaseIdle : s' = s -> o = Returned zero_result ->
      (c_net c <> NetOk \/ ~ effective c \/
       (exists l w, live (c_t c) s (blocked_under c) = Some (Entry (RList l) w)) \/
       (live (c_t c) s (blocked_under c) = None /\ counted_under c = None) \/
       (exists k m w, counted_under c = Some k /\ live (c_t c) s (blocked_under c) = None /\
          live (c_t c) s k = Some (Entry (RStr m) w))) ->
      call_case c s s' o
  | CaseBlocked m w : s' = s -> live (c_t c) s (blocked_under c) = Some (Entry (RStr m) w) ->
      c_net c = NetOk -> effective c ->
      o = Returned (Result true false (match w with Some w => (w - c_t c + 500) / 1000 | None => -1 end) m) ->
      call_case c s s' o
  | CasePass p0 p k b msg l' e :
      c_op c = OpShouldBlock p0 p k b msg -> params_set p0 -> params_set p ->
      live (c_t c) s (blocked_under c) = None ->
      live (c_t c) s ("_rl:" ++ k ++ l_hash_tag (c_lim c)) = e -> (forall m w, e <> Some (Entry (RStr m) w)) ->
      passed_list (p_capacity p) (p_window p) (client_secs c) (list_of e) = Some l' ->
      put s ("_rl:" ++ k ++ l_hash_tag (c_lim c)) (Entry (RList l') (Some (c_t c + p_timeout p * 2 * 1000))) s' ->
      c_net c <> NetLostRequest -> o = Returned zero_result ->
      call_case c s s' o
  | CaseTrigger p0 p k b msg l w s1 :
      c_op c = OpShouldBlock p0 p k b msg -> params_set p0 -> params_set p ->
      live (c_t c) s (blocked_under c) = None ->
      s ("_rl:" ++ k ++ l_hash_tag (c_lim c)) = Some (Entry (RList l) w) -> alive (c_t c) w ->
      passed_list (p_capacity p) (p_window p) (client_secs c) l = None ->
      put s ("_rl:" ++ k ++ l_hash_tag (c_lim c))
        (Entry (RList (skipn (Z.to_nat (Z.of_nat (length l) - p_capacity p)) l)) w) s1 ->
      put s1 (blocked_under c) (Entry (RStr msg) (Some (c_t c + p_timeout p * 1000))) s' ->
      c_net c <> NetLostRequest ->
      o = (if match c_net c with NetOk => true | _ => false end
           then Returned (Result true true (p_timeout p) msg) else Returned zero_result) ->
      call_case c s s' o.

Lemma do_call_case c s : call_case c s (fst (do_call c s)) (snd (do_call c s)).
Proof.
  destruct c as [lim op t ns n]. unfold do_call. cbn [c_op c_lim c_net c_t c_ns].
  destruct op as [p0 p k b msg|b].
  - unfold should_block2. destruct (params_not_set p0) eqn:E0.
    { apply CaseIdle; [reflexivity|reflexivity|]. right. left. unfold effective. cbn [c_op c_net].
      intros (_ & H & _). apply params_not_set_false in H. congruence. }
    apply params_not_set_false in E0. rewrite !tag_append, !append_assoc'.
    destruct (params_dec p) as [Hp|Hp].
    2:{ assert (Hs : script1 t ("_rl:" ++ k ++ l_hash_tag lim) (b ++ ":bl" ++ l_hash_tag lim) (p_capacity p)
              (p_window p) (p_timeout p) (Z.quot ns second) msg s = (s, Some pass_reply)).
        { unfold script1. destruct (Z.leb_spec (p_capacity p) 0); [reflexivity|].
          destruct (Z.leb_spec (p_window p) 0); [reflexivity|]. destruct (Z.leb_spec (p_timeout p) 0); [reflexivity|].
          exfalso. apply Hp. unfold params_set. lia. }
        unfold evalsha. apply CaseIdle; [destruct n; rewrite ?Hs; reflexivity|destruct n; rewrite ?Hs; reflexivity|].
        right. left. unfold effective. cbn. tauto. }
    pose proof Hp as (H1 & H2 & H3).
    pose proof (script1_spec t ("_rl:" ++ k ++ l_hash_tag lim) (b ++ ":bl" ++ l_hash_tag lim) (p_capacity p)
              (p_window p) (p_timeout p) (Z.quot ns second) msg s H1 H2 H3) as HS.
    unfold evalsha. destruct n.
    2:{ apply CaseIdle; [reflexivity|reflexivity|]. left. discriminate. }
    + destruct (script1 _ _ _ _ _ _ _ _ s) as (s', y). cbn [fst snd] in *.
      unfold script1_result in HS.
      destruct (live t s (b ++ ":bl" ++ l_hash_tag lim)) as [[[l|m] w]|] eqn:Eb.
      * destruct HS as (-> & ->). apply CaseIdle; [reflexivity|reflexivity|]. right. right. left. exists l, w. exact Eb.
      * destruct HS as (-> & ->). eapply CaseBlocked; [reflexivity|exact Eb|reflexivity| |reflexivity].
        split; [reflexivity|]. split; assumption.
      * destruct (live t s ("_rl:" ++ k ++ l_hash_tag lim)) as [[[l|m] w]|] eqn:Ek.
        -- destruct (passed_list _ _ _ _) as [l'|] eqn:Ep.
           ++ destruct HS as (HS & ->). eapply CasePass; [reflexivity|exact E0|exact Hp|exact Eb|exact Ek|discriminate|exact Ep|exact HS|discriminate|reflexivity].
           ++ destruct HS as (s1 & w' & A & B & C & D & ->).
              eapply CaseTrigger; [reflexivity|exact E0|exact Hp|exact Eb|exact A|exact B|exact Ep|exact C|exact D|discriminate|reflexivity].
        -- destruct HS as (-> & ->). apply CaseIdle; [reflexivity|reflexivity|]. do 4 right. exists ("_rl:" ++ k ++ l_hash_tag lim), m, w.
           split; [reflexivity|]. split; [exact Eb|exact Ek].
        -- destruct (passed_list _ _ _ _) as [l'|] eqn:Ep.
           ++ destruct HS as (HS & ->). eapply CasePass; [reflexivity|exact E0|exact Hp|exact Eb|exact Ek|discriminate|exact Ep|exact HS|discriminate|reflexivity].
           ++ destruct HS as (s1 & w' & A & B & C & D & ->).
              eapply CaseTrigger; [reflexivity|exact E0|exact Hp|exact Eb|exact A|exact B|exact Ep|exact C|exact D|discriminate|reflexivity].
    + destruct (script1 _ _ _ _ _ _ _ _ s) as (s', y). cbn [fst snd] in *.
      unfold script1_result in HS.
      destruct (live t s (b ++ ":bl" ++ l_hash_tag lim)) as [[[l|m] w]|] eqn:Eb.
      * destruct HS as (-> & ->). apply CaseIdle; [reflexivity|reflexivity|]. left. discriminate.
      * destruct HS as (-> & ->). apply CaseIdle; [reflexivity|reflexivity|]. left. discriminate.
      * destruct (live t s ("_rl:" ++ k ++ l_hash_tag lim)) as [[[l|m] w]|] eqn:Ek.
        -- destruct (passed_list _ _ _ _) as [l'|] eqn:Ep.
           ++ destruct HS as (HS & ->). eapply CasePass; [reflexivity|exact E0|exact Hp|exact Eb|exact Ek|discriminate|exact Ep|exact HS|discriminate|reflexivity].
           ++ destruct HS as (s1 & w' & A & B & C & D & ->).
              eapply CaseTrigger; [reflexivity|exact E0|exact Hp|exact Eb|exact A|exact B|exact Ep|exact C|exact D|discriminate|reflexivity].
        -- destruct HS as (-> & ->). apply CaseIdle; [reflexivity|reflexivity|]. left. discriminate.
        -- destruct (passed_list _ _ _ _) as [l'|] eqn:Ep.
           ++ destruct HS as (HS & ->). eapply CasePass; [reflexivity|exact E0|exact Hp|exact Eb|exact Ek|discriminate|exact Ep|exact HS|discriminate|reflexivity].
           ++ destruct HS as (s1 & w' & A & B & C & D & ->).
              eapply CaseTrigger; [reflexivity|exact E0|exact Hp|exact Eb|exact A|exact B|exact Ep|exact C|exact D|discriminate|reflexivity].
  - unfold is_blocked, evalsha. rewrite script2_spec. cbn [fst].
    destruct n; [|apply CaseIdle; [reflexivity|reflexivity|left; discriminate]..].
    cbn [fst snd]. destruct (live t s (b ++ ":bl")) as [[[l|m] w]|] eqn:Eb.
    + apply CaseIdle; [reflexivity|reflexivity|]. right. right. left. exists l, w. exact Eb.
    + eapply CaseBlocked; [reflexivity|exact Eb|reflexivity| |reflexivity]. split; [reflexivity|exact I].
    + apply CaseIdle; [reflexivity|reflexivity|]. do 3 right. left. split; [exact Eb|reflexivity].
Qed.

Lemma do_calls_cons c cs s :
  do_calls (c :: cs) s = (fst (do_calls cs (fst (do_call c s))),
    snd (do_call c s) :: snd (do_calls cs (fst (do_call c s)))).
Proof. cbn [do_calls]. destruct (do_call c s) as (s1, o). cbn [fst snd]. destruct (do_calls cs s1). reflexivity. Qed.

Lemma do_calls_app cs1 cs2 s :
  do_calls (cs1 ++ cs2) s =
  (fst (do_calls cs2 (fst (do_calls cs1 s))),
   (snd (do_calls cs1 s) ++ snd (do_calls cs2 (fst (do_calls cs1 s))))%list).
Proof.
  revert s. induction cs1 as [|c cs1 IH]; intros s; cbn [app].
  - cbn [do_calls fst snd app]. destruct (do_calls cs2 s); reflexivity.
  - rewrite !do_calls_cons, IH. reflexivity.
Qed.

Lemma do_calls_length cs s : length (snd (do_calls cs s)) = length cs.
Proof.
  revert s. induction cs as [|c cs IH]; intros s; [reflexivity|].
  rewrite do_calls_cons. cbn [snd length]. rewrite IH. reflexivity.
Qed.

(** ** C14: blocks last *)

Lemma block_kept c s rk m w : s rk = Some (Entry (RStr m) (Some w)) -> c_t c <= w ->
  (fst (do_call c s)) rk = Some (Entry (RStr m) (Some w)).
Proof.
  intros Hs Hw. pose proof (live_at (c_t c) s rk (RStr m) (Some w) Hs Hw) as HL.
  destruct (do_call_case c s) as [E|? ? E|? ? ? ? ? ? ? ? ? ? ? L HN ? P|? ? ? ? ? ? ? s1 ? ? ? ? HK ? ? P1 P2].
  - rewrite E. exact Hs.
  - rewrite E. exact Hs.
  - rewrite (put_other _ _ _ _ _ P); [exact Hs|]. intros Ek. rewrite <- Ek in L. rewrite HL in L. apply (HN m (Some w)). congruence.
  - rewrite (put_other _ _ _ _ _ P2) by congruence. rewrite (put_other _ _ _ _ _ P1) by congruence. exact Hs.
Qed.

Lemma blocks_kept cs s rk m w : s rk = Some (Entry (RStr m) (Some w)) -> Forall (fun c => c_t c <= w) cs ->
  (fst (do_calls cs s)) rk = Some (Entry (RStr m) (Some w)).
Proof.
  revert s. induction cs as [|c cs IH]; intros s Hs HF; [exact Hs|].
  inversion HF; subst. rewrite do_calls_cons. cbn [fst]. apply IH; [apply block_kept|]; assumption.
Qed.

Lemma zero_not_blocked r : Returned zero_result = Returned r -> res_block r = false.
Proof. intros [= <-]. reflexivity. Qed.

Lemma trigger_stores c s r : snd (do_call c s) = Returned r -> res_triggered r = true ->
  exists p0 p k b msg, c_op c = OpShouldBlock p0 p k b msg /\ r = Result true true (p_timeout p) msg /\ 0 < p_timeout p /\
    (fst (do_call c s)) (blocked_under c) = Some (Entry (RStr msg) (Some (c_t c + timeout_ms c))).
Proof.
  intros Ho Ht.
  destruct (do_call_case c s) as [E Eo|? ? E ? ? ? Eo|? ? ? ? ? ? ? ? ? ? ? L HN ? P ? Eo|p0 p k b msg ? ? s1 Hop ? Hp ? HK ? ? P1 P2 ? Eo].
  - rewrite Eo in Ho. injection Ho as <-. discriminate.
  - rewrite Eo in Ho. injection Ho as <-. discriminate.
  - rewrite Eo in Ho. injection Ho as <-. discriminate.
  - rewrite Eo in Ho. destruct (c_net c); injection Ho as <-; try discriminate.
    exists p0, p, k, b, msg. split; [exact Hop|]. split; [reflexivity|]. split; [apply Hp|].
    rewrite (put_same _ _ _ _ P2). unfold timeout_ms. rewrite Hop. reflexivity.
Qed.

Lemma effective_blocked c s rk m w : s rk = Some (Entry (RStr m) (Some w)) -> c_t c <= w ->
  blocked_under c = rk -> effective c -> snd (do_call c s) = Returned (Result true false (rounded_left (c_t c) w) m).
Proof.
  intros Hs Hw Hk He. pose proof (live_at (c_t c) s rk (RStr m) (Some w) Hs Hw) as HL. subst rk.
  destruct (do_call_case c s) as [E Eo HI|? ? E L ? ? Eo|? ? ? ? ? ? ? ? ? ? L|? ? ? ? ? ? ? s1 ? ? ? L]; try congruence.
  2:{ rewrite HL in L. injection L as <- <-. exact Eo. }
  pose proof He as (He1 & _).
  destruct HI as [H|[H|[(l & w' & H)|[(H & _)|(k & m' & w' & _ & H & _)]]]]; try congruence.
Qed.

Lemma persists c s cs c' : forall r, snd (do_call c s) = Returned r -> res_triggered r = true ->
  exists p0 p k b msg, c_op c = OpShouldBlock p0 p k b msg /\ r = Result true true (p_timeout p) msg /\ 0 < p_timeout p /\
    (Forall (fun d => c_t d <= c_t c + p_timeout p * 1000) (cs ++ [c']) ->
     blocked_under c' = blocked_under c -> effective c' ->
     snd (do_call c' (fst (do_calls cs (fst (do_call c s))))) =
       Returned (Result true false (rounded_left (c_t c') (c_t c + p_timeout p * 1000)) msg)).
Proof.
  intros r Ho Ht. destruct (trigger_stores c s r Ho Ht) as (p0 & p & k & b & msg & Hop & Hr & Hpos & Hst).
  exists p0, p, k, b, msg. do 3 (split; [assumption|]).
  assert (Et : timeout_ms c = p_timeout p * 1000) by (unfold timeout_ms; rewrite Hop; reflexivity).
  rewrite Et in Hst. intros HF Hk He. apply Forall_app in HF. destruct HF as (HF & HF'). inversion HF'; subst.
  eapply effective_blocked; [apply blocks_kept; [exact Hst|exact HF]|assumption|exact Hk|exact He].
Qed.

(** The block in force. *)
Definition str_view (t : Z) (s : rstore) (rk : string) : option (string * Z) :=
  match live t s rk with
  | Some (Entry (RStr m) (Some w)) => Some (m, w)
  | _ => None
  end.

Lemma in_force_app rk t h1 h2 : block_in_force rk t (h1 ++ h2) =
  match block_in_force rk t h2 with Some b => Some b | None => block_in_force rk t h1 end.
Proof.
  induction h1 as [|(c, o) h1 IH]; cbn [app block_in_force].
  - destruct (block_in_force rk t h2); reflexivity.
  - rewrite IH. destruct (block_in_force rk t h2); reflexivity.
Qed.

(** All strings in the store expire. *)
Definition strings_expire (s : rstore) : Prop := forall k m w, s k = Some (Entry (RStr m) w) -> w <> None.

Lemma strings_expire_call c s : strings_expire s -> strings_expire (fst (do_call c s)).
Proof.
  intros H k m w.
  destruct (do_call_case c s) as [E|? ? E|? ? k0 ? ? ? ? ? ? ? ? L HN ? P|? ? k0 ? ? ? ? s1 ? ? ? ? HK ? ? P1 P2].
  - rewrite E. apply H.
  - rewrite E. apply H.
  - rewrite (P k). destruct (String.eqb_spec k ("_rl:" ++ k0 ++ l_hash_tag (c_lim c))); [discriminate|apply H].
  - rewrite (P2 k). destruct (String.eqb_spec k (blocked_under c)); [intros [= _ <-]; discriminate|].
    rewrite (P1 k). destruct (String.eqb_spec k ("_rl:" ++ k0 ++ l_hash_tag (c_lim c))); [discriminate|apply H].
Qed.

Lemma in_force_step c s h :
  strings_expire s -> c_net c <> NetLostReply ->
  (forall rk t, c_t c <= t -> str_view t s rk = block_in_force rk t h) ->
  forall rk t, c_t c <= t ->
    str_view t (fst (do_call c s)) rk = block_in_force rk t (h ++ [(c, snd (do_call c s))]).
Proof.
  intros HE Hnet HI rk t Ht. rewrite in_force_app.
  assert (Hquiet : forall r, res_triggered r = false -> block_in_force rk t [(c, Returned r)] = None).
  { intros [[] [] ? ?]; cbn; congruence || reflexivity. }
  destruct (do_call_case c s) as [E Eo|? ? E ? ? ? Eo|? ? k0 ? ? ? ? ? ? ? ? L HN ? P ? Eo|p0 p k0 b msg l w s1 Hop ? Hp LB HK Ha ? P1 P2 ? Eo].
  - rewrite Eo, E, Hquiet by reflexivity. apply HI. exact Ht.
  - rewrite Eo, E, Hquiet by reflexivity. apply HI. exact Ht.
  - rewrite Eo, Hquiet by reflexivity. rewrite <- HI by exact Ht. unfold str_view at 1, live.
    rewrite (P rk). destruct (String.eqb_spec rk ("_rl:" ++ k0 ++ l_hash_tag (c_lim c))) as [->|Hne].
    + cbn [e_exp].
      assert (HS : str_view t s ("_rl:" ++ k0 ++ l_hash_tag (c_lim c)) = None).
      { unfold str_view. destruct e as [[[l|m] w]|].
        - apply live_some in L. destruct L as (L & _).
          destruct (live t s _) as [[v w']|] eqn:E2; [|reflexivity]. apply live_some in E2. destruct E2 as (E2 & _).
          rewrite L in E2. injection E2 as <- <-. reflexivity.
        - exfalso. apply (HN m w). reflexivity.
        - rewrite (live_none_later _ t _ _ L Ht). reflexivity. }
      rewrite HS. destruct (Z.ltb_spec (c_t c + p_timeout p * 2 * 1000) t); reflexivity.
    + unfold str_view, live. reflexivity.
  - destruct (c_net c); try congruence. rewrite Eo. cbn [block_in_force].
    assert (Hto : timeout_ms c = p_timeout p * 1000) by (unfold timeout_ms; rewrite Hop; reflexivity).
    rewrite Hto. destruct (String.eqb_spec (blocked_under c) rk) as [<-|Hne].
    + unfold str_view at 1. unfold live. rewrite (put_same _ _ _ _ P2). cbn [e_exp].
      destruct (Z.leb_spec t (c_t c + p_timeout p * 1000)); destruct (Z.ltb_spec (c_t c + p_timeout p * 1000) t); try lia.
      * reflexivity.
      * rewrite <- HI by exact Ht. unfold str_view. rewrite (live_none_later _ t _ _ LB Ht). reflexivity.
    + rewrite <- HI by exact Ht. unfold str_view, live. rewrite (put_other _ _ _ _ _ P2) by congruence.
      rewrite (P1 rk). destruct (String.eqb_spec rk ("_rl:" ++ k0 ++ l_hash_tag (c_lim c))) as [->|]; [|reflexivity].
      rewrite HK. cbn [e_exp]. destruct w as [w|]; [|reflexivity]. destruct (w <? t); reflexivity.
Qed.

Lemma in_force_run cs : forall s h,
  strings_expire s -> Forall (fun c => c_net c <> NetLostReply) cs -> nondecreasing (map c_t cs) ->
  (forall rk t, (forall c, In c (firstn 1 cs) -> c_t c <= t) -> (cs = [] -> True) ->
     Forall (fun c => c_t c <= t) (firstn 1 cs) -> str_view t s rk = block_in_force rk t h) ->
  forall rk t, Forall (fun c => c_t c <= t) cs ->
    str_view t (fst (do_calls cs s)) rk = block_in_force rk t (h ++ combine cs (snd (do_calls cs s))) /\
    strings_expire (fst (do_calls cs s)).
Proof.
  induction cs as [|c cs IH]; intros s h HE HN HM HI rk t HF.
  - cbn. rewrite app_nil_r. split; [|exact HE]. apply HI; [intros ? []|tauto|constructor].
  - inversion HN as [|? ? N1 N2]; subst. inversion HF as [|? ? F1 F2]; subst. cbn [map nondecreasing] in HM. destruct HM as (HM1 & HM2).
    rewrite do_calls_cons. cbn [fst snd combine].
    replace (h ++ (c, snd (do_call c s)) :: combine cs (snd (do_calls cs (fst (do_call c s)))))%list
      with ((h ++ [(c, snd (do_call c s))]) ++ combine cs (snd (do_calls cs (fst (do_call c s)))))%list
      by (rewrite <- app_assoc; reflexivity).
    assert (HI' : forall rk t, c_t c <= t -> str_view t s rk = block_in_force rk t h).
    { intros rk' t' Ht'. apply HI; [|tauto|constructor; [exact Ht'|constructor]]. intros d [<-|[]]. exact Ht'. }
    destruct cs as [|c2 cs2].
    + cbn [do_calls fst snd combine]. rewrite app_nil_r. split; [|apply strings_expire_call; exact HE].
      apply in_force_step; assumption.
    + apply IH; [apply strings_expire_call; exact HE|exact N2|exact HM2| |exact F2].
      intros rk' t' _ _ HF1. apply in_force_step; [exact HE|exact N1|exact HI'|].
      inversion HF1; subst. inversion HM1; subst. lia.
Qed.

Lemma in_force_exact cs c :
  Forall (fun c => c_net c <> NetLostReply) cs -> nondecreasing (map c_t (cs ++ [c])) -> effective c ->
  match block_in_force (blocked_under c) (c_t c) (combine cs (snd (do_calls cs mempty))) with
  | Some (m, until) =>
    snd (do_call c (fst (do_calls cs mempty))) = Returned (Result true false (rounded_left (c_t c) until) m)
  | None =>
    match c_op c with
    | OpIsBlocked _ => snd (do_call c (fst (do_calls cs mempty))) = Returned (Result false false 0 "")
    | OpShouldBlock _ p _ _ msg =>
      snd (do_call c (fst (do_calls cs mempty))) = Returned (Result false false 0 "") \/
      snd (do_call c (fst (do_calls cs mempty))) = Returned (Result true true (p_timeout p) msg)
    end
  end.
Proof.
  intros HN HM He. rewrite map_app in HM. cbn [map] in HM.
  assert (HF : Forall (fun d => c_t d <= c_t c) cs).
  { apply Forall_forall. intros d Hd. apply (nondecreasing_app_le _ _ _ _ HM); [apply in_map; exact Hd|left; reflexivity]. }
  apply nondecreasing_app in HM. destruct HM as (HM & _).
  assert (HE0 : strings_expire mempty) by (intros k m w [=]).
  destruct (in_force_run cs mempty [] HE0 HN HM (fun rk t _ _ _ => eq_refl) (blocked_under c) (c_t c) HF) as (HV & HE).
  cbn [app] in HV. rewrite <- HV. unfold str_view.
  set (s := fst (do_calls cs mempty)) in *.
  destruct (live (c_t c) s (blocked_under c)) as [[[l|m] w]|] eqn:L.
  - destruct (do_call_case c s) as [E Eo HI|? ? E L2 ? ? Eo|? ? ? ? ? ? ? ? ? ? L2|? ? ? ? ? ? ? s1 ? ? ? L2]; try congruence.
    rewrite Eo. destruct (c_op c); [left|]; reflexivity.
  - pose proof (live_some _ _ _ _ L) as (L' & Ha). destruct w as [w|]; [|exfalso; exact (HE _ _ _ L' eq_refl)].
    apply (effective_blocked c s (blocked_under c)); [exact L'|exact Ha|reflexivity|exact He].
  - destruct (do_call_case c s) as [E Eo HI|? ? E L2 ? ? Eo|? ? ? ? ? ? ? Hop ? ? L2 ? ? ? ? ? Eo|? ? ? ? ? ? ? s1 Hop ? ? L2 ? ? ? ? ? ? Eo]; try congruence.
    + rewrite Eo. destruct (c_op c); [left|]; reflexivity.
    + rewrite Eo, Hop. left. reflexivity.
    + rewrite Eo, Hop. destruct He as (-> & _). right. reflexivity.
Qed.

(** ** C16: shapes *)

Lemma shape_call c s : strings_expire s ->
  let o := snd (do_call c s) in
  passed o \/ (exists m ttl, triggered o m ttl /\ 0 < ttl) \/ (exists m ttl, still_blocked o m ttl /\ 0 <= ttl).
Proof.
  intros HE. cbv zeta.
  destruct (do_call_case c s) as [E Eo|m w E L ? ? Eo|? ? k0 ? ? ? ? ? ? ? ? L HN ? P ? Eo|p0 p k0 b msg l w s1 Hop ? Hp LB HK Ha ? P1 P2 ? Eo].
  - left. exact Eo.
  - right. right. apply live_some in L. destruct L as (L & Ha). destruct w as [w|]; [|exfalso; exact (HE _ _ _ L eq_refl)].
    cbn in Ha. eexists _, _. split; [exact Eo|]. apply Z.div_pos; lia.
  - left. exact Eo.
  - destruct (c_net c); [|left; exact Eo..]. right. left. eexists _, _. split; [exact Eo|apply Hp].
Qed.

Lemma shape_run cs : forall s, strings_expire s ->
  Forall (fun o => passed o \/ (exists m ttl, triggered o m ttl /\ 0 < ttl) \/ (exists m ttl, still_blocked o m ttl /\ 0 <= ttl))
    (snd (do_calls cs s)).
Proof.
  induction cs as [|c cs IH]; intros s HE; [constructor|]. rewrite do_calls_cons. cbn [snd]. constructor.
  - apply shape_call. exact HE.
  - apply IH. apply strings_expire_call. exact HE.
Qed.

Lemma shapes cs : Forall (fun o => passed o \/ (exists m ttl, triggered o m ttl /\ 0 < ttl) \/ (exists m ttl, still_blocked o m ttl /\ 0 <= ttl))
    (snd (do_calls cs mempty)).
Proof. apply shape_run. intros k m w [=]. Qed.

Lemma in_force_until rk t h m until : block_in_force rk t h = Some (m, until) ->
  t <= until /\ exists c o ttl, In (c, o) h /\ triggered o m ttl /\ blocked_under c = rk /\ until = c_t c + timeout_ms c.
Proof.
  induction h as [|(c, o) h IH]; cbn [block_in_force]; [discriminate|].
  destruct (block_in_force rk t h) as [b|].
  - intros [= ->]. destruct IH as (A & d & p & ttl & B & C); [reflexivity|]. split; [exact A|]. exists d, p, ttl. split; [right; exact B|exact C].
  - destruct o as [[[] [] ttl m']|]; try discriminate. destruct (String.eqb_spec (blocked_under c) rk) as [E|]; [|discriminate].
    destruct (Z.leb_spec t (c_t c + timeout_ms c)); [|discriminate]. intros [= <- <-]. split; [assumption|].
    exists c, (Returned (Result true true ttl m')), ttl. split; [left; reflexivity|]. split; [reflexivity|]. auto.
Qed.

Lemma zero_ttl_only_at_end cs c m :
  Forall (fun c => c_net c <> NetLostReply) cs -> nondecreasing (map c_t (cs ++ [c])) ->
  still_blocked (snd (do_call c (fst (do_calls cs mempty)))) m 0 ->
  exists d o ttl, In (d, o) (combine cs (snd (do_calls cs mempty))) /\ triggered o m ttl /\
    blocked_under d = blocked_under c /\ c_t d + timeout_ms d - 500 < c_t c <= c_t d + timeout_ms d.
Proof.
  intros HN HM HS.
  assert (He : effective c).
  { unfold still_blocked in HS.
    destruct (do_call_case c (fst (do_calls cs mempty))) as [E Eo|? ? E ? ? He Eo|? ? ? ? ? ? ? ? ? ? ? L ? ? P ? Eo|? ? ? ? ? ? ? ? ? ? ? ? ? ? ? ? ? ? Eo].
    - rewrite Eo in HS. discriminate.
    - exact He.
    - rewrite Eo in HS. discriminate.
    - rewrite Eo in HS. destruct (c_net c); discriminate. }
  pose proof (in_force_exact cs c HN HM He) as HX. unfold still_blocked in HS. rewrite HS in HX.
  destruct (block_in_force _ _ _) as [(m', until)|] eqn:E.
  - injection HX as H1 H2. subst m'. apply in_force_until in E. destruct E as (A & d & o & ttl & B & C & D & F).
    exists d, o, ttl. do 3 (split; [assumption|]). subst until. unfold rounded_left in H1.
    split; [|exact A]. apply Z.nle_gt. intros Hle.
    assert (1 <= (c_t d + timeout_ms d - c_t c + 500) / 1000) by (apply Z.div_le_lower_bound; lia). lia.
  - destruct (c_op c); [destruct HX|]; discriminate.
Qed.

(** ** C17: IsBlocked and ShouldBlock2 agree *)

Lemma append_inj_r (t a b : string) : a ++ t = b ++ t -> a = b.
Proof.
  assert (Hlen : forall x y : string, String.length (x ++ y) = (String.length x + String.length y)%nat).
  { intros x y. induction x as [|c x IH]; cbn; [reflexivity|]. rewrite IH. reflexivity. }
  revert b. induction a as [|x a IH]; intros [|y b] H; [reflexivity| | |].
  - exfalso. apply (f_equal String.length) in H. cbn in H. rewrite Hlen in H. lia.
  - exfalso. apply (f_equal String.length) in H. cbn in H. rewrite Hlen in H. lia.
  - cbn in H. injection H as -> H. f_equal. apply IH. exact H.
Qed.

Lemma agree t ns ns' p0 p k b msg m ttl s : params_set p0 -> params_set p ->
  (snd (do_call (Call new_limiter (OpIsBlocked b) t ns NetOk) s) = Returned (Result true false ttl m) <->
   snd (do_call (Call new_limiter (OpShouldBlock p0 p k b msg) t ns' NetOk) s) = Returned (Result true false ttl m)).
Proof.
  intros H0 Hp.
  set (c1 := Call new_limiter (OpIsBlocked b) t ns NetOk).
  set (c2 := Call new_limiter (OpShouldBlock p0 p k b msg) t ns' NetOk).
  assert (Hb : blocked_under c2 = blocked_under c1).
  { unfold c1, c2, blocked_under. cbn [c_op c_lim new_limiter l_hash_tag]. rewrite append_empty. reflexivity. }
  assert (He : effective c2) by (split; [reflexivity|split; assumption]).
  assert (Ht : c_t c2 = c_t c1) by reflexivity.
  destruct (do_call_case c1 s) as [E1 Eo1 HI1|m1 w1 E1 L1 ? ? Eo1|? ? ? ? ? ? ? Hop1|? ? ? ? ? ? ? ? Hop1]; try discriminate.
  - rewrite Eo1.
    destruct (do_call_case c2 s) as [E2 Eo2 HI2|m2 w2 E2 L2 ? ? Eo2|? ? ? ? ? ? ? Hop2 ? ? ? ? ? ? ? ? Eo2|? ? ? ? ? ? ? ? Hop2 ? ? ? ? ? ? ? ? ? Eo2]; rewrite Eo2; try (split; discriminate).
    rewrite Hb, Ht in L2.
    destruct HI1 as [Q|[Q|[(l & w' & Q)|[(Q & _)|(k' & m' & w' & Q & _)]]]]; try congruence; try discriminate;
      exfalso; apply Q; [reflexivity|split; [reflexivity|exact I]].
  - rewrite Eo1.
    destruct (do_call_case c2 s) as [E2 Eo2 HI2|m2 w2 E2 L2 ? ? Eo2|? ? ? ? ? ? ? Hop2 ? ? L2 ? ? ? ? ? Eo2|? ? ? ? ? ? ? ? Hop2 ? ? L2 ? ? ? ? ? ? Eo2]; rewrite Eo2.
    + rewrite Hb, Ht in HI2.
      destruct HI2 as [Q|[Q|[(l & w' & Q)|[(Q & _)|(k' & m' & w' & _ & Q & _)]]]]; try congruence; exfalso; apply Q; first [reflexivity|exact He].
    + rewrite Hb, Ht in L2. rewrite L1 in L2. injection L2 as <- <-. rewrite Ht. tauto.
    + rewrite Hb, Ht in L2. congruence.
    + rewrite Hb, Ht in L2. congruence.
Qed.

Lemma is_blocked_reads_only l n t ns b s : fst (do_call (Call l (OpIsBlocked b) t ns n) s) = s.
Proof.
  destruct (do_call_case (Call l (OpIsBlocked b) t ns n) s) as [E|? ? E|? ? ? ? ? ? ? Hop1|? ? ? ? ? ? ? ? Hop1]; try discriminate; exact E.
Qed.

(** Keys that end with a brace. *)
Fixpoint last_char (d : ascii) (s : string) : ascii :=
  match s with
  | String.EmptyString => d
  | String.String c s' => last_char c s'
  end.

Lemma last_char_app d a b : last_char d (a ++ b) = last_char (last_char d a) b.
Proof. revert d. induction a as [|x a IH]; intros d; cbn; [reflexivity|apply IH]. Qed.

Lemma cluster_tag_ends d x tag : last_char d (x ++ l_hash_tag (new_cluster_limiter tag)) = "}"%char.
Proof. cbn [new_cluster_limiter l_hash_tag]. rewrite !last_char_app. reflexivity. Qed.

Lemma cluster_keys cs : forall s, Forall cluster_call cs ->
  (forall k e, s k = Some e -> last_char "x" k = "}"%char) ->
  forall k e, (fst (do_calls cs s)) k = Some e -> last_char "x" k = "}"%char.
Proof.
  induction cs as [|c cs IH]; intros s HF HS; [exact HS|]. inversion HF as [|? ? (tag & Htag) HF']; subst.
  rewrite do_calls_cons. cbn [fst]. apply IH; [exact HF'|]. clear IH HF HF' cs.
  intros k e. destruct (do_call_case c s) as [E|? ? E|? ? k0 ? ? ? ? ? ? ? ? L HN ? P|? ? k0 b ? ? ? s1 Hop ? ? ? HK ? ? P1 P2].
  - rewrite E. apply HS.
  - rewrite E. apply HS.
  - rewrite (P k). destruct (String.eqb_spec k ("_rl:" ++ k0 ++ l_hash_tag (c_lim c))) as [->|]; [|apply HS].
    intros _. rewrite Htag, <- append_assoc'. apply cluster_tag_ends.
  - rewrite (P2 k). destruct (String.eqb_spec k (blocked_under c)) as [->|].
    + intros _. unfold blocked_under. rewrite Hop, Htag, <- append_assoc'. apply cluster_tag_ends.
    + rewrite (P1 k). destruct (String.eqb_spec k ("_rl:" ++ k0 ++ l_hash_tag (c_lim c))) as [->|]; [|apply HS].
      intros _. rewrite Htag, <- append_assoc'. apply cluster_tag_ends.
Qed.

Lemma cluster_never cs c b : Forall cluster_call cs -> c_op c = OpIsBlocked b ->
  passed (snd (do_call c (fst (do_calls cs mempty)))).
Proof.
  intros HF Hop. set (s := fst (do_calls cs mempty)).
  destruct (do_call_case c s) as [E Eo|m w E L ? ? Eo|? ? ? ? ? ? ? Hop1|? ? ? ? ? ? ? ? Hop1]; try congruence.
  - exact Eo.
  - exfalso. apply live_some in L. destruct L as (L & _).
    apply (cluster_keys cs mempty HF) in L; [|discriminate].
    unfold blocked_under in L. rewrite Hop, last_char_app in L. discriminate.
Qed.

(** ** C18: hash slots *)

Lemma after_open_app a r : free_of "{" a -> after_open (a ++ String.String "{" r) = Some r.
Proof.
  induction a as [|c a IH]; cbn [String.append after_open free_of]; [reflexivity|].
  intros (Hc & Ha). destruct (Ascii.eqb_spec c "{"); [congruence|]. apply IH. exact Ha.
Qed.

Lemma free_of_app c a b : free_of c (a ++ b) <-> free_of c a /\ free_of c b.
Proof. induction a as [|x a IH]; cbn; [tauto|]. rewrite IH. tauto. Qed.

Lemma upto_close_exists a r : exists x, upto_close (a ++ String.String "}" r) = Some x /\
  (free_of "}" a -> x = a) /\
  (match a with String.String c _ => c <> "}"%char | _ => False end -> x <> "").
Proof.
  induction a as [|c a IH]; cbn [String.append upto_close free_of].
  - exists "". rewrite Ascii.eqb_refl. split; [reflexivity|]. split; [reflexivity|tauto].
  - destruct (Ascii.eqb_spec c "}") as [->|Hc].
    + exists "". split; [reflexivity|]. split; intros H; [destruct H|]; congruence.
    + destruct IH as (x & -> & IH1 & _). exists (String.String c x). split; [reflexivity|].
      split; [intros (_ & H); rewrite IH1 by exact H; reflexivity|discriminate].
Qed.

Lemma trim_left_head s : match trim_left s with String.String c _ => is_brace c = false | _ => True end.
Proof. induction s as [|c s IH]; cbn; [exact I|]. destruct (is_brace c) eqn:E; [exact IH|exact E]. Qed.

Lemma trim_right_head c s : match trim_right (String.String c s) with String.String d _ => d = c | _ => True end.
Proof. cbn. destruct (trim_right s); [destruct (is_brace c)|]; cbn; auto. Qed.

Lemma trim_head s : match trim_braces s with String.String c _ => is_brace c = false | _ => True end.
Proof.
  unfold trim_braces. pose proof (trim_left_head s) as H. destruct (trim_left s) as [|c r]; [exact I|].
  pose proof (trim_right_head c r) as H2. destruct (trim_right (String.String c r)); [exact I|]. subst. exact H.
Qed.

Lemma same_slot tag c k b p0 p msg : trim_braces tag <> "" ->
  c_lim c = new_cluster_limiter tag -> c_op c = OpShouldBlock p0 p k b msg ->
  free_of "{" k -> free_of "{" b ->
  exists part, part <> "" /\ counted_under c <> None /\
    (forall rk, counted_under c = Some rk -> hashed_part rk = part) /\ hashed_part (blocked_under c) = part /\
    (free_of "}" (trim_braces tag) -> part = trim_braces tag).
Proof.
  intros Ht Hl Hop Hk Hb.
  destruct (upto_close_exists (trim_braces tag) "") as (part & Hup & Hfull & Hne).
  assert (Hpart : part <> "").
  { apply Hne. pose proof (trim_head tag) as HH. destruct (trim_braces tag) as [|c0 r]; [congruence|]. intros ->. discriminate. }
  assert (Hcl : forall a, free_of "{" a -> hashed_part (a ++ l_hash_tag (new_cluster_limiter tag)) = part).
  { intros a Ha. cbn [new_cluster_limiter l_hash_tag]. unfold hashed_part.
    change ("{" ++ trim_braces tag ++ "}") with (String.String "{" (trim_braces tag ++ "}")).
    rewrite after_open_app by exact Ha. change "}" with (String.String "}" ""). rewrite Hup.
    rewrite (seqb_neq _ _ Hpart). reflexivity. }
  exists part. split; [exact Hpart|]. unfold counted_under, blocked_under. rewrite Hop, Hl. split; [discriminate|].
  split; [|split].
  - intros rk Hrk. replace rk with (("_rl:" ++ k) ++ l_hash_tag (new_cluster_limiter tag)) by (rewrite append_assoc'; congruence). apply Hcl. apply free_of_app. split; [|exact Hk]. cbn. repeat split; discriminate.
  - rewrite <- append_assoc'. apply Hcl. apply free_of_app. split; [exact Hb|]. cbn. repeat split; discriminate.
  - exact Hfull.
Qed.

(** ** C19: isolation *)

(** The keys a call reads or writes. *)
Definition touches (c : call) (k : string) : Prop := k = blocked_under c \/ counted_under c = Some k.

Lemma call_frame c s k : ~ touches c k -> (fst (do_call c s)) k = s k.
Proof.
  intros H. destruct (do_call_case c s) as [E|? ? E|? ? k0 ? ? ? ? Hop ? ? ? L HN ? P|? ? k0 b ? ? ? s1 Hop ? ? ? HK ? ? P1 P2].
  - rewrite E. reflexivity.
  - rewrite E. reflexivity.
  - apply (put_other _ _ _ _ _ P). intros ->. apply H. right. unfold counted_under. rewrite Hop. reflexivity.
  - rewrite (put_other _ _ _ _ _ P2) by (intros ->; apply H; left; reflexivity).
    apply (put_other _ _ _ _ _ P1). intros ->. apply H. right. unfold counted_under. rewrite Hop. reflexivity.
Qed.

(** A call depends only on the keys it touches. *)
Lemma call_local c s1 s2 : (forall k, touches c k -> s1 k = s2 k) ->
  snd (do_call c s1) = snd (do_call c s2) /\
  forall k, touches c k -> (fst (do_call c s1)) k = (fst (do_call c s2)) k.
Proof.
  intros HA. destruct c as [lim op t ns n]. unfold do_call. cbn [c_op c_lim c_net c_t c_ns].
  assert (HL : forall k, touches (Call lim op t ns n) k -> live t s1 k = live t s2 k).
  { intros k Hk. apply live_ext. apply HA. exact Hk. }
  destruct op as [p0 p k b msg|b].
  - unfold should_block2. destruct (params_not_set p0) eqn:E0; [auto|].
    rewrite !tag_append, !append_assoc'.
    destruct (params_dec p) as [Hp|Hp].
    2:{ assert (Hs : forall s, script1 t ("_rl:" ++ k ++ l_hash_tag lim) (b ++ ":bl" ++ l_hash_tag lim) (p_capacity p)
              (p_window p) (p_timeout p) (Z.quot ns second) msg s = (s, Some pass_reply)).
        { intros s. unfold script1. destruct (Z.leb_spec (p_capacity p) 0); [reflexivity|].
          destruct (Z.leb_spec (p_window p) 0); [reflexivity|]. destruct (Z.leb_spec (p_timeout p) 0); [reflexivity|].
          exfalso. apply Hp. unfold params_set. lia. }
        unfold evalsha. destruct n; rewrite ?Hs; auto. }
    pose proof Hp as (H1 & H2 & H3).
    set (key := "_rl:" ++ k ++ l_hash_tag lim) in *. set (keyb := b ++ ":bl" ++ l_hash_tag lim) in *.
    assert (Tb : touches (Call lim (OpShouldBlock p0 p k b msg) t ns n) keyb) by (left; reflexivity).
    assert (Tk : touches (Call lim (OpShouldBlock p0 p k b msg) t ns n) key) by (right; reflexivity).
    assert (Hscript : snd (script1 t key keyb (p_capacity p) (p_window p) (p_timeout p) (Z.quot ns second) msg s1) =
                      snd (script1 t key keyb (p_capacity p) (p_window p) (p_timeout p) (Z.quot ns second) msg s2) /\
      forall k', touches (Call lim (OpShouldBlock p0 p k b msg) t ns n) k' ->
        fst (script1 t key keyb (p_capacity p) (p_window p) (p_timeout p) (Z.quot ns second) msg s1) k' =
        fst (script1 t key keyb (p_capacity p) (p_window p) (p_timeout p) (Z.quot ns second) msg s2) k').
    { pose proof (script1_spec t key keyb (p_capacity p) (p_window p) (p_timeout p) (Z.quot ns second) msg s1 H1 H2 H3) as S1.
      pose proof (script1_spec t key keyb (p_capacity p) (p_window p) (p_timeout p) (Z.quot ns second) msg s2 H1 H2 H3) as S2.
      destruct (script1 t key keyb _ _ _ _ _ s1) as (s1', y1). destruct (script1 t key keyb _ _ _ _ _ s2) as (s2', y2).
      cbn [fst snd] in *. unfold script1_result in S1, S2. rewrite (HL keyb Tb), (HL key Tk) in S1.
      destruct (live t s2 keyb) as [[[l|m] w]|].
      - destruct S1 as (-> & ->), S2 as (-> & ->). auto.
      - destruct S1 as (-> & ->), S2 as (-> & ->). auto.
      - destruct (live t s2 key) as [[[l|m] w]|].
        2:{ destruct S1 as (-> & ->), S2 as (-> & ->). auto. }
        + destruct (passed_list _ _ _ _) as [l'|].
          * destruct S1 as (P1 & ->), S2 as (P2 & ->). split; [reflexivity|].
            intros k' Hk'. rewrite (P1 k'), (P2 k'). destruct (k' =? key)%string; [reflexivity|apply HA; exact Hk'].
          * destruct S1 as (u1 & w1 & A1 & _ & B1 & C1 & ->), S2 as (u2 & w2 & A2 & _ & B2 & C2 & ->). split; [reflexivity|].
            assert (w1 = w2) by (rewrite (HA key Tk), A2 in A1; congruence). subst w2.
            intros k' Hk'. rewrite (C1 k'), (C2 k'). destruct (k' =? keyb)%string; [reflexivity|].
            rewrite (B1 k'), (B2 k'). destruct (k' =? key)%string; [reflexivity|apply HA; exact Hk'].
        + destruct (passed_list _ _ _ _) as [l'|].
          * destruct S1 as (P1 & ->), S2 as (P2 & ->). split; [reflexivity|].
            intros k' Hk'. rewrite (P1 k'), (P2 k'). destruct (k' =? key)%string; [reflexivity|apply HA; exact Hk'].
          * destruct S1 as (u1 & w1 & A1 & _ & B1 & C1 & ->), S2 as (u2 & w2 & A2 & _ & B2 & C2 & ->). split; [reflexivity|].
            assert (w1 = w2) by (rewrite (HA key Tk), A2 in A1; congruence). subst w2.
            intros k' Hk'. rewrite (C1 k'), (C2 k'). destruct (k' =? keyb)%string; [reflexivity|].
            rewrite (B1 k'), (B2 k'). destruct (k' =? key)%string; [reflexivity|apply HA; exact Hk']. }
    unfold evalsha. destruct Hscript as (X & Y).
    destruct (script1 t key keyb _ _ _ _ _ s1) as (s1', y1). destruct (script1 t key keyb _ _ _ _ _ s2) as (s2', y2).
    cbn [fst snd] in *. subst y2. destruct n; cbn [fst snd]; auto.
  - unfold is_blocked, evalsha. rewrite !script2_spec. cbn [fst snd].
    rewrite (HL (b ++ ":bl")) by (left; reflexivity). destruct n; auto.
Qed.

Lemma unrelated_touches c1 c2 k : unrelated c1 c2 -> touches c1 k -> ~ touches c2 k.
Proof.
  intros (A & B & C) [->|H1] [H2|H2].
  - congruence.
  - apply (C _ H2). reflexivity.
  - apply (proj1 (B _ H1)). exact H2.
  - apply (proj2 (B _ H1)). exact H2.
Qed.

Lemma isolation (mine : call -> bool) cs : forall c s1 s2,
  (forall c1 c2, In c1 (c :: filter mine cs) -> In c2 cs -> mine c2 = false -> unrelated c2 c1) ->
  (forall c1 k, In c1 (c :: filter mine cs) -> touches c1 k -> s1 k = s2 k) ->
  snd (do_call c (fst (do_calls cs s1))) = snd (do_call c (fst (do_calls (filter mine cs) s2))).
Proof.
  induction cs as [|d cs IH]; intros c s1 s2 HU HA.
  - cbn [filter do_calls fst]. apply call_local. intros k Hk. apply (HA c); [left; reflexivity|exact Hk].
  - rewrite do_calls_cons. cbn [fst filter] in *. destruct (mine d) eqn:Ed.
    + rewrite do_calls_cons. cbn [fst]. apply IH.
      * intros c1 c2 H1 H2 H3. apply HU; [|right; exact H2|exact H3]. destruct H1 as [H1|H1]; [left; exact H1|right; right; exact H1].
      * intros c1 k H1 Hk. destruct (call_local d s1 s2) as (_ & HD).
        { intros k' Hk'. apply (HA d); [right; left; reflexivity|exact Hk']. }
        destruct (String.eqb_spec k (blocked_under d)) as [E|N1]; [apply HD; left; exact E|].
        assert (Hdec : {counted_under d = Some k} + {counted_under d <> Some k}) by (repeat decide equality).
        destruct Hdec as [E|N2]; [apply HD; right; exact E|].
        rewrite !call_frame by (intros [?|?]; congruence).
        apply (HA c1); [destruct H1 as [H1|H1]; [left; exact H1|right; right; exact H1]|exact Hk].
    + apply IH.
      * intros c1 c2 H1 H2 H3. apply HU; [exact H1|right; exact H2|exact H3].
      * intros c1 k H1 Hk. rewrite call_frame; [apply (HA c1); assumption|].
        intros Hd. apply (unrelated_touches d c1 k (HU c1 d H1 (or_introl eq_refl) Ed) Hd Hk).
Qed.

Lemma prefix_clash k b : "_rl:" ++ k = b ++ ":bl" -> String.prefix "_rl:" b = true \/ b = "_rl".
Proof.
  intros H. destruct b as [|b0 [|b1 [|b2 [|b3 b]]]]; cbn in H; try discriminate H.
  - injection H as <- <- <- _. right. reflexivity.
  - injection H as <- <- <- <- _. left. cbn. destruct b; reflexivity.
Qed.

Lemma unrelated_same_limiter c1 c2 : c_lim c1 = c_lim c2 ->
  forall p0 p k1 b1 m q0 q k2 b2 m2,
  c_op c1 = OpShouldBlock p0 p k1 b1 m -> c_op c2 = OpShouldBlock q0 q k2 b2 m2 ->
  k1 <> k2 -> b1 <> b2 ->
  String.prefix "_rl:" b1 = false -> b1 <> "_rl" -> String.prefix "_rl:" b2 = false -> b2 <> "_rl" ->
  unrelated c1 c2.
Proof.
  intros HL p0 p k1 b1 m q0 q k2 b2 m2 H1 H2 Hk Hb B1 B1' B2 B2'.
  unfold unrelated, counted_under, blocked_under. rewrite H1, H2, HL.
  split; [|split].
  - rewrite <- !append_assoc'. intros H. apply Hb. apply append_inj_r in H. apply append_inj_r in H. exact H.
  - intros k Hk1. assert (Ek : k = "_rl:" ++ k1 ++ l_hash_tag (c_lim c2)) by congruence. clear Hk1. subst k. split.
    + rewrite <- !append_assoc'. intros H. apply append_inj_r in H. apply prefix_clash in H. destruct H; congruence.
    + intros H. assert (H' : "_rl:" ++ k2 ++ l_hash_tag (c_lim c2) = "_rl:" ++ k1 ++ l_hash_tag (c_lim c2)) by congruence.
      cbn in H'. injection H' as H'. apply append_inj_r in H'. congruence.
  - intros k Hk1. assert (Ek : k = "_rl:" ++ k2 ++ l_hash_tag (c_lim c2)) by congruence. clear Hk1. subst k.
    rewrite <- !append_assoc'. intros H. apply append_inj_r in H. apply prefix_clash in H. destruct H; congruence.
Qed.

Lemma fail_open c s :
  (c_net c = NetLostRequest \/
   (exists p0 p k b m, c_op c = OpShouldBlock p0 p k b m /\ (~ params_set p0 \/ ~ params_set p)) ->
   do_call c s = (s, Returned (Result false false 0 ""))) /\
  (c_net c = NetLostReply -> passed (snd (do_call c s))).
Proof.
  split.
  - intros H. rewrite (surjective_pairing (do_call c s)). 
    destruct (do_call_case c s) as [E Eo|? ? E L Hn He Eo|? ? k0 ? ? ? ? Hop Hp0 Hp L ? HN ? P Hn Eo|? ? k0 b ? ? ? s1 Hop Hp0 Hp ? HK ? ? P1 P2 Hn Eo].
    + rewrite E, Eo. reflexivity.
    + exfalso. destruct H as [H|(q0 & q & k1 & b1 & m1 & Hop & H)]; [congruence|]. unfold effective in He. rewrite Hop in He. tauto.
    + exfalso. destruct H as [H|(q0 & q & k1 & b1 & m1 & Hop' & H)]; [congruence|]. rewrite Hop in Hop'. injection Hop' as <- <- _ _ _. tauto.
    + exfalso. destruct H as [H|(q0 & q & k1 & b1 & m1 & Hop' & H)]; [congruence|]. rewrite Hop in Hop'. injection Hop' as <- <- _ _ _. tauto.
  - intros H. unfold passed.
    destruct (do_call_case c s) as [E Eo|? ? E L Hn He Eo|? ? k0 ? ? ? ? Hop Hp0 Hp L ? HN ? P Hn Eo|? ? k0 b ? ? ? s1 Hop Hp0 Hp ? HK ? ? P1 P2 Hn Eo].
    + exact Eo.
    + congruence.
    + exact Eo.
    + rewrite Eo, H. reflexivity.
Qed.

(** ** C15: the bound *)

Definition recent (x : Z) (l : list Z) : Z := count (fun r => x <=? r) l.

Section Bound.
Variables (rk : string) (P : params) (skew x : Z).
Hypothesis HP : params_set P.
Hypothesis Hwin : p_window P * second + 2 * skew <= 2 * p_timeout P * second.

Let X : Z := x / second.
Let y : Z := x + p_window P * second.

Definition good (c : call) : Prop :=
  in_sync skew c /\ (counted_under c <> None -> blocked_under c <> rk) /\
  forall p0 p k b m, c_op c = OpShouldBlock p0 p k b m -> counted_under c = Some rk -> p0 = P /\ p = P.

Definition in_win (c : call) : bool := (x <=? c_ns c) && (c_ns c <=? y).

(** State of the count [N] of passes in the window: nothing counted yet; all counted ones are in the
    list, which lives long enough; or the window is over. *)
Definition bound_inv (s : rstore) (N : Z) (now : Z) : Prop :=
  (s rk = None \/ exists l e, s rk = Some (Entry (RList l) (Some e)) /\ Z.of_nat (length l) <= p_capacity P) /\
  (N <= 0 \/
   (exists l e c0, s rk = Some (Entry (RList l) (Some e)) /\ N <= recent X l /\
      in_sync skew c0 /\ in_win c0 = true /\ c_t c0 + p_timeout P * 2000 <= e /\ c_t c0 <= now) \/
   (N <= p_capacity P /\ exists c0, in_sync skew c0 /\ in_win c0 = true /\ c_t c0 + p_timeout P * 2000 < now)).

Lemma recent_le l : recent X l <= Z.of_nat (length l).
Proof. apply count_le_length. Qed.

Lemma bound_inv_cap s N now : bound_inv s N now -> N <= p_capacity P.
Proof.
  destruct HP as (Hc & _). intros (H1 & [H|[(l & e & c0 & A & B & _)|(H & _)]]); [lia| |exact H].
  destruct H1 as [H1|(l' & e' & H1 & H2)]; [congruence|]. rewrite A in H1. injection H1 as <- <-.
  pose proof (recent_le l). lia.
Qed.

Lemma bound_inv_later s N now now' : bound_inv s N now -> now <= now' -> bound_inv s N now'.
Proof.
  intros (H1 & H2) Hle. split; [exact H1|].
  destruct H2 as [H|[(l & e & c0 & A & B & C & D & F & G)|(H & c0 & A & B & C)]]; [left; exact H| |].
  - right. left. exists l, e, c0. do 5 (split; [assumption|]). lia.
  - right. right. split; [exact H|]. exists c0. do 2 (split; [assumption|]). lia.
Qed.

Lemma window_over c0 c : in_sync skew c0 -> in_win c0 = true -> in_sync skew c ->
  c_t c0 + p_timeout P * 2000 < c_t c -> in_win c = false.
Proof.
  unfold in_sync, in_win, second in *. intros (A0 & A1 & A2) B (C0 & C1 & C2) D.
  apply andb_true_iff in B. destruct B as (B1 & B2). apply Z.leb_le in B1, B2.
  apply andb_false_iff. right. apply Z.leb_gt. unfold y, second in *. lia.
Qed.

Lemma secs_in_win c : in_sync skew c -> in_win c = true -> X <= client_secs c <= X + p_window P.
Proof.
  unfold in_sync, in_win, client_secs, X, y. intros (A & _) B.
  apply andb_true_iff in B. destruct B as (B1 & B2). apply Z.leb_le in B1, B2.
  unfold second in *. rewrite Z.quot_div_nonneg by lia.
  split; [apply Z.div_le_mono; lia|].
  rewrite <- Z.div_add by lia. apply Z.div_le_mono; lia.
Qed.

Lemma recent_app l1 l2 : recent X (l1 ++ l2) = recent X l1 + recent X l2.
Proof. apply count_app. Qed.
Lemma recent_one r : recent X [r] = if X <=? r then 1 else 0.
Proof. unfold recent. cbn. destruct (X <=? r); reflexivity. Qed.

(** A pass keeps all recent records, or the popped one is replaced by a recent one. *)
Lemma passed_list_recent l now l' : Z.of_nat (length l) <= p_capacity P ->
  passed_list (p_capacity P) (p_window P) now l = Some l' ->
  Z.of_nat (length l') <= p_capacity P /\
  recent X l + (if (X <=? now) && (now <=? X + p_window P) then 1 else 0) <= recent X l' /\
  recent X l <= recent X l'.
Proof.
  destruct HP as (Hc & Hw & _). intros Hl. unfold passed_list.
  destruct (Z.ltb_spec (Z.of_nat (length l)) (p_capacity P)) as [Hlt|Hge].
  - intros [= <-]. rewrite app_length, recent_app, recent_one. cbn [length].
    destruct (Z.leb_spec X now), (Z.leb_spec now (X + p_window P)); cbn [andb]; lia.
  - replace (Z.to_nat (Z.of_nat (length l) - p_capacity P)) with 0%nat by lia. cbn [skipn].
    destruct l as [|o r]; [cbn [length] in Hge; lia|].
    destruct (Z.ltb_spec (p_window P) (now - o)); [|discriminate]. intros [= <-].
    rewrite app_length, recent_app, recent_one. cbn [length] in *.
    change (recent X (o :: r)) with ((if X <=? o then 1 else 0) + recent X r).
    destruct (Z.leb_spec X now), (Z.leb_spec now (X + p_window P)), (Z.leb_spec X o); cbn [andb]; lia.
Qed.

Lemma bound_step c s N : good c -> bound_inv s N (c_t c) ->
  bound_inv (fst (do_call c s))
    (N + (match counted_under c, c_net c, snd (do_call c s) with
          | Some k, NetOk, Returned (Result false _ _ _) =>
            if (k =? rk)%string && (x <=? c_ns c) && (c_ns c <=? y) then 1 else 0
          | _, _, _ => 0
          end)) (c_t c) \/
  (counted_under c = Some rk /\ exists l w, live (c_t c) s (blocked_under c) = Some (Entry (RList l) w)).
Proof.
  intros (Hsync & Hbk & Hpar) HI.
  destruct (do_call_case c s) as [E Eo Hwhy|m w E L Hn He Eo|p0 p k0 b m l' e Hop Hp0 Hp LB L HN PL PUT Hn Eo|p0 p k0 b m l w s1 Hop Hp0 Hp LB HK Ha PL P1 P2 Hn Eo].
  - (* idle: not a counted pass, or one of the excluded cases *)
    rewrite E, Eo. cbn [zero_result].
    destruct (counted_under c) as [k|] eqn:Ec; [|left; rewrite Z.add_0_r; exact HI].
    destruct (String.eqb_spec k rk) as [->|Hk]; [|left; destruct (c_net c); cbn [andb]; rewrite Z.add_0_r; exact HI].
    destruct (c_net c) eqn:Enet; [|left; rewrite Z.add_0_r; exact HI..].
    destruct Hwhy as [H|[H|[(l & w & H)|[(_ & H)|(k & m & w & H & _ & H2)]]]]; try congruence.
    + exfalso. apply H. unfold effective. rewrite Enet. split; [reflexivity|].
      unfold counted_under in Ec. destruct (c_op c) as [p0 p k b m|b] eqn:Eop; [|discriminate].
      destruct (Hpar p0 p k b m eq_refl) as (-> & ->); [reflexivity|split; exact HP].
    + right. split; [reflexivity|]. exists l, w. exact H.
    + exfalso. injection H as <-. apply live_some in H2. destruct H2 as (H2 & _).
      destruct HI as ([HI|(l & e & HI & _)] & _); congruence.
  - left. rewrite E, Eo. destruct (counted_under c), (c_net c); rewrite Z.add_0_r; exact HI.
  - left. rewrite Eo. cbn [zero_result].
    assert (Ec : counted_under c = Some ("_rl:" ++ k0 ++ l_hash_tag (c_lim c))) by (unfold counted_under; rewrite Hop; reflexivity).
    rewrite Ec. set (key := "_rl:" ++ k0 ++ l_hash_tag (c_lim c)) in *.
    destruct (String.eqb_spec key rk) as [Ek|Hne].
    2:{ replace (N + _) with N by (destruct (c_net c); cbn [andb]; lia).
        destruct HI as (A & B). unfold bound_inv. rewrite (put_other _ _ _ _ _ PUT) by congruence. split; assumption. }
    destruct (Hpar p0 p k0 b m Hop) as (-> & ->); [rewrite Ec, Ek; reflexivity|].
    rewrite Ek in *. clear Hp0 Hp.
    set (d := match c_net c with NetOk => if true && (x <=? c_ns c) && (c_ns c <=? y) then 1 else 0 | _ => 0 end).
    assert (Hd : 0 <= d <= if in_win c then 1 else 0).
    { unfold d, in_win. cbn [andb]. destruct (c_net c), ((x <=? c_ns c) && (c_ns c <=? y)); lia. }
    assert (Hl0 : Z.of_nat (length (list_of e)) <= p_capacity P).
    { destruct e as [[[l|m'] w]|]; [|cbn; destruct HP; lia|cbn; destruct HP; lia].
      apply live_some in L. destruct L as (L & _). destruct HI as ([HI|(l2 & e2 & HI & HL)] & _); [congruence|].
      rewrite L in HI. injection HI as <- _. exact HL. }
    destruct (passed_list_recent _ _ _ Hl0 PL) as (R1 & R2 & R3).
    assert (Hin : in_win c = true -> recent X (list_of e) + 1 <= recent X l').
    { intros Hi. destruct (secs_in_win c Hsync Hi) as (S1 & S2).
      destruct (Z.leb_spec X (client_secs c)); [|lia]. destruct (Z.leb_spec (client_secs c) (X + p_window P)); [|lia]. exact R2. }
    split.
    + right. exists l', (c_t c + p_timeout P * 2 * 1000). split; [apply (put_same _ _ _ _ PUT)|exact R1].
    + destruct HI as (HI1 & [H|[(l & e0 & c0 & A & B & C & D & F & G)|(H & c0 & A & B & C)]]).
      * destruct (in_win c) eqn:Ei; [|left; lia].
        destruct (Z.leb_spec (N + d) 0); [left; assumption|]. right. left.
        exists l', (c_t c + p_timeout P * 2 * 1000), c. split; [apply (put_same _ _ _ _ PUT)|].
        split; [|split; [exact Hsync|split; [exact Ei|lia]]].
        specialize (Hin eq_refl). pose proof (count_nonneg (fun r => X <=? r) (list_of e)). unfold recent in *. lia.
      * unfold live in L. rewrite A in L. cbn [e_exp] in L. destruct (Z.ltb_spec e0 (c_t c)) as [Hex|Hex].
        -- assert (Hover : in_win c = false) by (apply (window_over c0); auto; lia).
           rewrite Hover in Hd. right. right. split.
           ++ pose proof (recent_le l). destruct HI1 as [HI1|(l2 & e2 & HI1 & HI2)]; [congruence|].
              rewrite A in HI1. injection HI1 as <- <-. lia.
           ++ exists c0. do 2 (split; [assumption|]). lia.
        -- subst e. cbn [list_of] in *. right. left. exists l', (c_t c + p_timeout P * 2 * 1000).
           destruct (in_win c) eqn:Ei.
           ++ exists c. split; [apply (put_same _ _ _ _ PUT)|]. specialize (Hin eq_refl).
              split; [lia|]. split; [exact Hsync|]. split; [exact Ei|lia].
           ++ exists c0. split; [apply (put_same _ _ _ _ PUT)|]. split; [lia|]. split; [exact C|]. split; [exact D|]. lia.
      * assert (Hover : in_win c = false) by (apply (window_over c0); auto).
        rewrite Hover in Hd. right. right. split; [lia|]. exists c0. auto.
  - left.
    assert (Hs : (fst (do_call c s)) rk = s rk).
    { assert (Hbk' : blocked_under c <> rk) by (apply Hbk; unfold counted_under; rewrite Hop; discriminate).
      rewrite (put_other _ _ _ _ _ P2) by congruence. rewrite (P1 rk).
      destruct (String.eqb_spec rk ("_rl:" ++ k0 ++ l_hash_tag (c_lim c))) as [Ek|]; [|reflexivity].
      destruct (Hpar p0 p k0 b m Hop) as (-> & ->).
      { unfold counted_under. rewrite Hop, Ek. reflexivity. }
      rewrite <- Ek in HK. rewrite HK. destruct HI as ([HI|(l2 & e2 & HI & HL)] & _); [congruence|].
      rewrite HK in HI. injection HI as <- _. replace (Z.to_nat (Z.of_nat (length l) - p_capacity P)) with 0%nat by lia. reflexivity. }
    assert (Hz : forall z, bound_inv s N z -> bound_inv (fst (do_call c s)) N z).
    { intros z (A & B). unfold bound_inv. rewrite Hs. split; assumption. }
    rewrite Eo. destruct (counted_under c), (c_net c); rewrite Z.add_0_r; apply Hz; exact HI.
Qed.

Lemma passes_in_cons c o h : passes_in rk x y ((c, o) :: h) =
  (match counted_under c, c_net c, o with
   | Some k, NetOk, Returned (Result false _ _ _) =>
     if (k =? rk)%string && (x <=? c_ns c) && (c_ns c <=? y) then 1 else 0
   | _, _, _ => 0
   end) + passes_in rk x y h.
Proof.
  unfold passes_in. cbn [count].
  destruct (counted_under c); [|reflexivity]. destruct (c_net c); try reflexivity.
  destruct o as [[[] ? ? ?]|]; reflexivity.
Qed.

(** Lists are only kept where something counts. *)
Definition lists_counted (done : list call) (s : rstore) : Prop :=
  forall k l w, s k = Some (Entry (RList l) w) -> exists c, In c done /\ counted_under c = Some k.

Lemma lists_counted_call done c s : lists_counted done s -> lists_counted (done ++ [c]) (fst (do_call c s)).
Proof.
  intros H k l w.
  assert (HW : forall l w, s k = Some (Entry (RList l) w) -> exists d, In d (done ++ [c]) /\ counted_under d = Some k).
  { intros l1 w1 H1. destruct (H k l1 w1 H1) as (d & A & B). exists d. split; [apply in_or_app; auto|exact B]. }
  destruct (do_call_case c s) as [E|? ? E|? ? k0 ? ? ? ? Hop ? ? ? L HN ? PUT|? ? k0 b ? ? ? s1 Hop ? ? ? HK ? ? P1 P2].
  - rewrite E. apply HW.
  - rewrite E. apply HW.
  - rewrite (PUT k). destruct (String.eqb_spec k ("_rl:" ++ k0 ++ l_hash_tag (c_lim c))) as [->|]; [|apply HW].
    intros _. exists c. split; [apply in_or_app; right; left; reflexivity|]. unfold counted_under. rewrite Hop. reflexivity.
  - rewrite (P2 k). destruct (String.eqb_spec k (blocked_under c)) as [->|]; [discriminate|].
    rewrite (P1 k). destruct (String.eqb_spec k ("_rl:" ++ k0 ++ l_hash_tag (c_lim c))) as [->|]; [|apply HW].
    intros _. exists c. split; [apply in_or_app; right; left; reflexivity|]. unfold counted_under. rewrite Hop. reflexivity.
Qed.

Lemma bound_run cs : forall done s N now,
  separate (done ++ cs) -> Forall good cs -> nondecreasing (now :: map c_t cs) ->
  lists_counted done s -> bound_inv s N now ->
  N + passes_in rk x y (combine cs (snd (do_calls cs s))) <= p_capacity P.
Proof.
  induction cs as [|c cs IH]; intros done s N now HS HG HM HL HI.
  - cbn. rewrite Z.add_0_r. apply (bound_inv_cap s N now HI).
  - inversion HG as [|? ? G1 G2]; subst. cbn [map nondecreasing] in HM. destruct HM as (M1 & M2).
    assert (Hnow : now <= c_t c) by (inversion M1; assumption).
    rewrite do_calls_cons. cbn [snd combine]. rewrite passes_in_cons, Z.add_assoc.
    destruct (bound_step c s N G1 (bound_inv_later _ _ _ _ HI Hnow)) as [HI'|(Hc & l & w & L)].
    + apply (IH (done ++ [c])%list (fst (do_call c s)) _ (c_t c)).
      * rewrite <- app_assoc. exact HS.
      * exact G2.
      * exact M2.
      * apply lists_counted_call. exact HL.
      * exact HI'.
    + exfalso. apply live_some in L. destruct L as (L & _). apply HL in L. destruct L as (d & D1 & D2).
      apply (HS d c); [apply in_or_app; left; exact D1|apply in_or_app; right; left; reflexivity|congruence|exact D2].
Qed.
End Bound.

Lemma passes_bound rk P skew cs x :
  params_set P -> p_window P * second + 2 * skew <= 2 * p_timeout P * second ->
  separate cs -> nondecreasing (map c_t cs) -> Forall (in_sync skew) cs ->
  (forall c p0 p k b m, In c cs -> c_op c = OpShouldBlock p0 p k b m -> counted_under c = Some rk -> p0 = P /\ p = P) ->
  passes_in rk x (x + p_window P * second) (combine cs (snd (do_calls cs mempty))) <= p_capacity P.
Proof.
  intros HP Hw HS HM HF HC.
  destruct (existsb (fun c => match counted_under c with Some k => (k =? rk)%string | None => false end) cs) eqn:Eex.
  - apply existsb_exists in Eex. destruct Eex as (c1 & Hin1 & Hc1).
    assert (Hc1' : counted_under c1 = Some rk).
    { destruct (counted_under c1) as [k|]; [|discriminate]. apply String.eqb_eq in Hc1. congruence. }
    destruct cs as [|c cs0] eqn:Ecs; [destruct Hin1|]. rewrite <- Ecs in *.
    change (passes_in rk x (x + p_window P * second) (combine cs (snd (do_calls cs mempty)))) with
      (0 + passes_in rk x (x + p_window P * second) (combine cs (snd (do_calls cs mempty)))).
    apply (bound_run rk P skew x HP Hw cs [] mempty 0 (c_t c)).
    + exact HS.
    + apply Forall_forall. intros d Hd. rewrite Forall_forall in HF. split; [apply HF; exact Hd|]. split.
      * intros Hn E. apply (HS c1 d Hin1 Hd Hn). congruence.
      * intros p0 p k b m Hop Hcu. apply (HC d p0 p k b m Hd Hop Hcu).
    + subst cs. cbn [map] in *. destruct HM as (M1 & M2). split; [constructor; [lia|exact M1]|]. split; assumption.
    + intros k l w [=].
    + split; [left; reflexivity|]. left. lia.
  - destruct HP as (Hp & _). enough (passes_in rk x (x + p_window P * second) (combine cs (snd (do_calls cs mempty))) = 0) by lia.
    unfold passes_in. generalize (snd (do_calls cs mempty)). clear HS HM HF HC.
    induction cs as [|c cs IH]; intros os; [reflexivity|]. cbn [existsb] in Eex. apply orb_false_iff in Eex.
    destruct Eex as (E1 & E2). destruct os as [|o os]; [reflexivity|]. cbn [combine count]. rewrite (IH E2).
    destruct (counted_under c) as [k|]; [|reflexivity]. rewrite E1. destruct (c_net c); try reflexivity.
    destruct o as [[[] ? ? ?]|]; reflexivity.
Qed.

(** When blocks are short the history expires too soon. *)
Definition burst (P : params) (t : Z) : call :=
  Call new_limiter (OpShouldBlock P P "k" "k" "m") t (t * 1000000) NetOk.

Lemma burst_run P n : params_set P -> Z.of_nat n <= p_capacity P ->
  let r := do_calls (repeat (burst P 0) n) mempty in
  snd r = repeat (Returned zero_result) n /\
  (fst r) "k:bl" = None /\
  (n = 0%nat -> (fst r) "_rl:k" = None) /\
  (n <> 0%nat -> (fst r) "_rl:k" = Some (Entry (RList (repeat 0 n)) (Some (p_timeout P * 2 * 1000)))).
Proof.
  intros HP. induction n as [|n IH]; intros Hn; cbv zeta in *.
  - cbn. repeat split; congruence.
  - destruct IH as (A & B & C & D); [lia|].
    replace (repeat (burst P 0) (S n)) with (repeat (burst P 0) n ++ [burst P 0])%list
      by (symmetry; apply (repeat_cons n (burst P 0))).
    rewrite do_calls_app. cbn [fst snd]. rewrite A. set (s := fst (do_calls (repeat (burst P 0) n) mempty)) in *.
    rewrite do_calls_cons. cbn [do_calls fst snd].
    assert (Hl : list_of (live 0 s "_rl:k") = repeat 0 n /\ forall m w, live 0 s "_rl:k" <> Some (Entry (RStr m) w)).
    { destruct n as [|n'].
      - unfold live. rewrite C by reflexivity. split; [reflexivity|discriminate].
      - rewrite (live_at 0 s _ _ _ (D ltac:(discriminate))) by (destruct HP; lia). split; [reflexivity|discriminate]. }
    destruct Hl as (Hl & Hl').
    assert (Hpl : passed_list (p_capacity P) (p_window P) 0 (repeat 0 n) = Some (repeat 0 (S n))).
    { unfold passed_list. rewrite repeat_length. destruct (Z.ltb_spec (Z.of_nat n) (p_capacity P)); [|lia].
      f_equal. symmetry. apply (repeat_cons n 0). }
    assert (HB : live 0 s "k:bl" = None) by (unfold live; rewrite B; reflexivity).
    destruct (do_call_case (burst P 0) s) as [E Eo Hwhy|m w E L Hnet He Eo|p0 p k0 b m l' e Hop Hp0 Hp LB L HN PL PUT Hnet Eo|p0 p k0 b m l w s1 Hop Hp0 Hp LB HK Ha PL P1 P2 Hnet Eo].
    + exfalso. cbn in Hwhy. destruct Hwhy as [H|[H|[(l & w & H)|[(_ & H)|(k & m & w & H & _ & H2)]]]]; try congruence; first
        [apply H; split; [reflexivity|split; exact HP]|injection H as <-; exact (Hl' _ _ H2)].
    + exfalso. cbn in L. congruence.
    + injection Hop as <- <- <- <- <-. cbn in L, PUT. rewrite L in Hl.
      change (client_secs (burst P 0)) with 0 in PL. rewrite Hl, Hpl in PL. injection PL as <-.
      rewrite Eo. split; [|split; [|split]].
      * change [Returned zero_result] with (repeat (Returned zero_result) 1). rewrite <- repeat_app. f_equal. lia.
      * rewrite (put_other _ _ _ _ _ PUT) by discriminate. exact B.
      * discriminate.
      * intros _. apply (put_same _ _ _ _ PUT).
    + exfalso. injection Hop as <- <- <- <- <-. cbn in HK, Ha. rewrite (live_at 0 s _ _ _ HK Ha) in Hl. cbn in Hl. subst l.
      change (client_secs (burst P 0)) with 0 in PL. congruence.
Qed.

Lemma repeat_all {A} (a x : A) n : In x (repeat a n) -> x = a.
Proof. intros H. apply repeat_spec in H. exact H. Qed.

Lemma map_repeat' {A B} (f : A -> B) a n : map f (repeat a n) = repeat (f a) n.
Proof. induction n as [|n IH]; cbn; [reflexivity|]. rewrite IH. reflexivity. Qed.

Lemma nondecreasing_repeat z n t : z <= t -> nondecreasing (repeat z n ++ [t]).
Proof.
  intros H. induction n as [|n IH]; cbn; [auto|]. split; [|exact IH]. apply Forall_forall. intros y Hy.
  apply in_app_or in Hy. destruct Hy as [Hy|[<-|[]]]; [|exact H]. apply repeat_all in Hy. lia.
Qed.

Lemma count_repeat {A} (f : A -> bool) a n : f a = true -> count f (repeat a n) = Z.of_nat n.
Proof. intros H. induction n as [|n IH]; [reflexivity|]. cbn [repeat count]. rewrite H, IH. lia. Qed.

Lemma combine_repeat {A B} (a : A) (b : B) n : combine (repeat a n) (repeat b n) = repeat (a, b) n.
Proof. induction n as [|n IH]; cbn; [reflexivity|]. rewrite IH. reflexivity. Qed.

Lemma combine_app' {A B} (a1 a2 : list A) (b1 b2 : list B) : length a1 = length b1 ->
  combine (a1 ++ a2) (b1 ++ b2) = (combine a1 b1 ++ combine a2 b2)%list.
Proof.
  revert b1. induction a1 as [|x a1 IH]; intros [|y b1] H; try discriminate; [reflexivity|].
  cbn. rewrite IH by (injection H; auto). reflexivity.
Qed.

Lemma bound_fails P : params_set P -> 2 * p_timeout P < p_window P ->
  exists cs, separate cs /\ nondecreasing (map c_t cs) /\ Forall (in_sync 0) cs /\
    (forall c, In c cs -> c_lim c = new_limiter /\ c_op c = OpShouldBlock P P "k" "k" "m" /\ c_net c = NetOk) /\
    passes_in "_rl:k" 0 (p_window P * second) (combine cs (snd (do_calls cs mempty))) = p_capacity P + 1.
Proof.
  intros HP Hw. pose proof HP as (Hc & Hwin & Hto).
  set (n := Z.to_nat (p_capacity P)). set (t := p_timeout P * 2000 + 1).
  exists (repeat (burst P 0) n ++ [burst P t])%list.
  assert (Hall : forall c, In c (repeat (burst P 0) n ++ [burst P t]) -> c = burst P 0 \/ c = burst P t).
  { intros c Hin. apply in_app_or in Hin. destruct Hin as [Hin|[<-|[]]]; [left; apply repeat_all in Hin; exact Hin|auto]. }
  split; [|split; [|split; [|split]]].
  - intros c1 c2 H1 H2 _. destruct (Hall c1 H1) as [->| ->], (Hall c2 H2) as [->| ->]; discriminate.
  - rewrite map_app, map_repeat'. apply nondecreasing_repeat. cbn. unfold t. lia.
  - apply Forall_forall. intros c Hin. unfold in_sync. destruct (Hall c Hin) as [->| ->]; cbn; unfold t; lia.
  - intros c Hin. destruct (Hall c Hin) as [->| ->]; repeat split; reflexivity.
  - destruct (burst_run P n HP) as (A & B & _ & D); [unfold n; lia|].
    rewrite do_calls_app. cbn [snd]. rewrite A.
    rewrite combine_app' by (rewrite !repeat_length; reflexivity).
    set (s := fst (do_calls (repeat (burst P 0) n) mempty)) in *. rewrite combine_repeat.
    unfold passes_in. rewrite count_app, count_repeat.
    2:{ cbn. destruct (Z.leb_spec 0 (p_window P * second)); [reflexivity|]. unfold second in *. lia. }
    rewrite do_calls_cons. cbn [do_calls fst snd combine count].
    assert (Hs : snd (do_call (burst P t) s) = Returned zero_result).
    { assert (HB : live t s "k:bl" = None) by (unfold live; rewrite B; reflexivity).
      assert (HK : live t s "_rl:k" = None).
      { unfold live. rewrite D by (unfold n; lia). cbn [e_exp].
        destruct (Z.ltb_spec (p_timeout P * 2 * 1000) t); [reflexivity|unfold t in *; lia]. }
      destruct (do_call_case (burst P t) s) as [E Eo Hwhy|m w E L Hnet He Eo|p0 p k0 b m l' e Hop Hp0 Hp LB L HN PL PUT Hnet Eo|p0 p k0 b m l w s1 Hop Hp0 Hp LB HK' Ha PL P1 P2 Hnet Eo].
      - exact Eo.
      - exfalso. cbn in L. congruence.
      - exact Eo.
      - exfalso. injection Hop as <- <- <- <- <-. cbn in HK', Ha. rewrite (live_at t s _ _ _ HK' Ha) in HK. discriminate. }
    rewrite Hs. cbn [zero_result counted_under burst c_op c_net c_ns c_lim].
    destruct (Z.leb_spec 0 (t * 1000000)); [|unfold t in *; lia].
    destruct (Z.leb_spec (t * 1000000) (p_window P * second)); [|unfold t, second in *; lia].
    cbn. unfold n. lia.
Qed.

(** ** C15: a trigger needs a full window *)

Section Full.
Variable rk : string.

Definition is_pass (co : call * outcome) : bool :=
  let (c, o) := co in
  match counted_under c, c_net c, o with
  | Some k, NetOk, Returned (Result false _ _ _) => (k =? rk)%string
  | _, _, _ => false
  end.
Definition passes_from (X : Z) (h : list (call * outcome)) : Z :=
  count (fun co => is_pass co && (X * second <=? c_ns (fst co))) h.

(** All records stand for passes, oldest first. *)
Definition full_inv (s : rstore) (now : Z) (h : list (call * outcome)) : Prop :=
  forall l w, s rk = Some (Entry (RList l) w) ->
    nondecreasing l /\ Forall (fun r => r <= now) l /\ forall X, 0 <= X -> recent X l <= passes_from X h.

Lemma passes_from_app X h1 h2 : passes_from X (h1 ++ h2) = passes_from X h1 + passes_from X h2.
Proof. apply count_app. Qed.

Lemma passes_from_one X c o : 0 <= passes_from X [(c, o)] <= 1.
Proof. unfold passes_from. cbn [count]. destruct (is_pass _ && _); lia. Qed.

Lemma skipn_nondecreasing n : forall l, nondecreasing l -> nondecreasing (skipn n l).
Proof.
  induction n as [|n IH]; intros l H; [exact H|]. destruct l as [|a l]; [exact I|]. cbn [skipn]. apply IH. apply H.
Qed.

Lemma nondecreasing_snoc l a : nondecreasing l -> Forall (fun r => r <= a) l -> nondecreasing (l ++ [a]).
Proof.
  induction l as [|b l IH]; intros H HF; cbn [app].
  - split; [constructor|exact I].
  - inversion HF; subst. destruct H as (N1 & N2). split; [|apply IH; assumption].
    apply Forall_app. split; [exact N1|]. constructor; [assumption|constructor].
Qed.

Lemma Forall_skipn {A} (Q : A -> Prop) n : forall l, Forall Q l -> Forall Q (skipn n l).
Proof.
  induction n as [|n IH]; intros l H; [exact H|]. destruct H as [|a l Ha Hl]; [constructor|]. cbn [skipn]. apply IH. exact Hl.
Qed.

Lemma recent_skipn X n : forall l, recent X (skipn n l) <= recent X l.
Proof.
  induction n as [|n IH]; intros l; [cbn [skipn]; lia|]. destruct l as [|a l]; [cbn [skipn]; lia|]. cbn [skipn].
  specialize (IH l). unfold recent in *. cbn [count]. destruct (X <=? a); lia.
Qed.

Lemma passed_list_suffix cap win now l l' : passed_list cap win now l = Some l' ->
  exists n, l' = (skipn n l ++ [now])%list.
Proof.
  unfold passed_list. destruct (_ <? _).
  - intros [= <-]. exists 0%nat. reflexivity.
  - set (n := Z.to_nat _). destruct (skipn n l) as [|o r] eqn:E.
    + intros [= <-]. exists n. rewrite E. reflexivity.
    + destruct (win <? now - o); [|discriminate]. intros [= <-]. exists (S n).
      replace (skipn (S n) l) with r; [reflexivity|]. clear -E. clearbody n. revert l E.
      induction n as [|n IH]; intros l E; [cbn [skipn] in E; subst l; reflexivity|].
      destruct l as [|a l]; [discriminate|]. cbn [skipn] in E. apply IH in E. exact E.
Qed.

Lemma full_step c s h now : c_net c <> NetLostReply -> 0 <= c_ns c -> now <= client_secs c ->
  full_inv s now h -> full_inv (fst (do_call c s)) (client_secs c) (h ++ [(c, snd (do_call c s))]).
Proof.
  intros Hnet Hns Hnow HI.
  assert (Hkeep : forall l w, s rk = Some (Entry (RList l) w) ->
    nondecreasing l /\ Forall (fun r => r <= client_secs c) l /\
    forall X, 0 <= X -> recent X l <= passes_from X (h ++ [(c, snd (do_call c s))])).
  { intros l w Hl. destruct (HI l w Hl) as (A & B & C). split; [exact A|]. split.
    - eapply Forall_impl; [|exact B]. cbn. intros; lia.
    - intros X HX. rewrite passes_from_app. specialize (C X HX). pose proof (passes_from_one X c (snd (do_call c s))). lia. }
  destruct (do_call_case c s) as [E Eo Hwhy|m w E L Hn He Eo|p0 p k0 b m l' e Hop Hp0 Hp LB L HN PL PUT Hn Eo|p0 p k0 b m l w s1 Hop Hp0 Hp LB HK Ha PL P1 P2 Hn Eo].
  - intros l w Hl. rewrite E in Hl. apply (Hkeep l w Hl).
  - intros l0 w0 Hl. rewrite E in Hl. apply (Hkeep l0 w0 Hl).
  - intros l w Hl. rewrite (PUT rk) in Hl.
    destruct (String.eqb_spec rk ("_rl:" ++ k0 ++ l_hash_tag (c_lim c))) as [Ek|Hne]; [|apply (Hkeep l w Hl)].
    injection Hl as <- _.
    assert (Hold : nondecreasing (list_of e) /\ Forall (fun r => r <= client_secs c) (list_of e) /\
                   forall X, 0 <= X -> recent X (list_of e) <= passes_from X h).
    { rewrite <- Ek in L. destruct e as [[[l|m'] w']|]; cbn [list_of].
      2,3: split; [exact I|]; split; [constructor|]; intros X _; apply count_nonneg.
      apply live_some in L. destruct L as (L & _). destruct (HI _ _ L) as (A & B & C). split; [exact A|]. split; [|exact C].
      eapply Forall_impl; [|exact B]. cbn. intros; lia. }
    destruct Hold as (A & B & C).
    destruct (passed_list_suffix _ _ _ _ _ PL) as (n & ->). split; [|split].
    + apply nondecreasing_snoc; [apply skipn_nondecreasing; exact A|apply Forall_skipn; exact B].
    + apply Forall_app. split; [apply Forall_skipn; exact B|]. constructor; [lia|constructor].
    + intros X HX. rewrite passes_from_app. unfold recent at 1. rewrite count_app. fold (recent X (skipn n (list_of e))).
      pose proof (recent_skipn X n (list_of e)). specialize (C X HX).
      assert (Hone : count (fun r => X <=? r) [client_secs c] <= passes_from X [(c, snd (do_call c s))]).
      { unfold passes_from. cbn [count fst is_pass]. rewrite Eo. unfold counted_under. rewrite Hop. cbn [zero_result].
        rewrite <- Ek, seqb_refl. destruct (c_net c); [|congruence..]. cbn [andb]. unfold client_secs.
        destruct (Z.leb_spec X (Z.quot (c_ns c) second)) as [Hx|Hx]; [|destruct (_ <=? _); lia].
        destruct (Z.leb_spec (X * second) (c_ns c)) as [Hy|Hy]; [lia|]. exfalso.
        rewrite Z.quot_div_nonneg in Hx by (unfold second; lia).
        pose proof (Z.mul_div_le (c_ns c) second). unfold second in *. lia. }
      lia.
  - intros l0 w0 Hl. rewrite (P2 rk) in Hl. destruct (String.eqb_spec rk (blocked_under c)); [discriminate|].
    rewrite (P1 rk) in Hl. destruct (String.eqb_spec rk ("_rl:" ++ k0 ++ l_hash_tag (c_lim c))) as [Ek|Hne]; [|apply (Hkeep _ _ Hl)].
    injection Hl as <- _. rewrite <- Ek in HK. destruct (Hkeep _ _ HK) as (A & B & C).
    split; [apply skipn_nondecreasing; exact A|]. split; [apply Forall_skipn; exact B|].
    intros X HX. specialize (C X HX). pose proof (recent_skipn X (Z.to_nat (Z.of_nat (length l) - p_capacity p)) l). lia.
Qed.

Lemma client_secs_mono c d : 0 <= c_ns c -> c_ns c <= c_ns d -> client_secs c <= client_secs d.
Proof.
  intros H1 H2. unfold client_secs. rewrite !Z.quot_div_nonneg by (unfold second; lia). apply Z.div_le_mono; [reflexivity|exact H2].
Qed.

Lemma full_run cs : forall s h now, Forall (fun c => c_net c <> NetLostReply) cs -> Forall (fun c => 0 <= c_ns c) cs ->
  Forall (fun c => now <= client_secs c) cs -> nondecreasing (map c_ns cs) -> full_inv s now h ->
  exists now', full_inv (fst (do_calls cs s)) now' (h ++ combine cs (snd (do_calls cs s))).
Proof.
  induction cs as [|c cs IH]; intros s h now HN H0 HF HM HI.
  - exists now. cbn [do_calls fst combine]. rewrite app_nil_r. exact HI.
  - inversion HN; subst. inversion H0; subst. inversion HF; subst. cbn [map nondecreasing] in HM. destruct HM as (M1 & M2).
    rewrite do_calls_cons. cbn [fst snd combine].
    destruct (IH (fst (do_call c s)) (h ++ [(c, snd (do_call c s))])%list (client_secs c)) as (n' & Hn'); auto.
    + rewrite Forall_forall in M1 |- *. intros d Hd. apply client_secs_mono; [assumption|]. apply M1. apply in_map. exact Hd.
    + apply (full_step c s h now); assumption.
    + exists n'. rewrite <- app_assoc in Hn'. exact Hn'.
Qed.

Lemma recent_all X l : Forall (fun r => X <= r) l -> recent X l = Z.of_nat (length l).
Proof.
  unfold recent. induction 1 as [|a l Ha Hl IH]; [reflexivity|]. cbn [count length]. rewrite IH.
  destruct (Z.leb_spec X a); lia.
Qed.

Lemma passes_from_in X x y h : x <= X * second -> Forall (fun co => c_ns (fst co) <= y) h ->
  passes_from X h <= passes_in rk x y h.
Proof.
  intros HX. unfold passes_from, passes_in. induction 1 as [|(c, o) h Hc Hh IH]; [reflexivity|].
  cbn [count fst] in *. unfold is_pass at 1.
  destruct (counted_under c) as [k|]; [|cbn [andb]; lia]. destruct (c_net c); cbn [andb]; try lia.
  destruct o as [[[] ? ? ?]|]; cbn [andb]; try lia.
  destruct (k =? rk)%string; cbn [andb]; [|lia].
  destruct (Z.leb_spec (X * second) (c_ns c)); [|destruct (_ && _); lia].
  destruct (Z.leb_spec x (c_ns c)); [|lia]. destruct (Z.leb_spec (c_ns c) y); [|lia]. cbn [andb]. lia.
Qed.
End Full.

Lemma trigger_needs_full cs c p0 p k b msg rk m ttl :
  Forall (fun c => c_net c <> NetLostReply) cs ->
  Forall (fun c => 0 <= c_ns c) (cs ++ [c]) -> nondecreasing (map c_ns (cs ++ [c])) ->
  c_op c = OpShouldBlock p0 p k b msg -> counted_under c = Some rk ->
  triggered (snd (do_call c (fst (do_calls cs mempty)))) m ttl ->
  p_capacity p <= passes_in rk (c_ns c - (p_window p + 1) * second + 1) (c_ns c) (combine cs (snd (do_calls cs mempty))).
Proof.
  intros HN H0 HM Hop Hcu Ht. apply Forall_app in H0. destruct H0 as (H0 & H0c). inversion H0c as [|? ? Hc0 _]; subst.
  assert (HM' : nondecreasing (map c_ns cs) /\ Forall (fun d => c_ns d <= c_ns c) cs).
  { clear - HM. induction cs as [|d cs IH]; [split; constructor|]. cbn [app map nondecreasing] in HM. destruct HM as (M1 & M2).
    destruct (IH M2) as (A & B). rewrite map_app in M1. apply Forall_app in M1. destruct M1 as (M0 & M1).
    split; [split; [exact M0|exact A]|]. constructor; [|exact B]. inversion M1; assumption. }
  destruct HM' as (HM1 & HM2).
  destruct (full_run rk cs mempty [] 0 HN H0) as (now & HI).
  { eapply Forall_impl; [|exact H0]. intros d Hd. unfold client_secs. apply Z.quot_pos; [exact Hd|unfold second; lia]. }
  { exact HM1. }
  { intros l w [=]. }
  cbn [app] in HI. set (s := fst (do_calls cs mempty)) in *. set (h := combine cs (snd (do_calls cs mempty))) in *.
  unfold triggered in Ht.
  destruct (do_call_case c s) as [E Eo Hwhy|m1 w E L Hn He Eo|q0 q k0 b0 m0 l' e Hop' Hp0 Hp LB L HNS PL PUT Hn Eo|q0 q k0 b0 m0 l w s1 Hop' Hp0 Hp LB HK Ha PL P1 P2 Hn Eo].
  1-3: rewrite Ht in Eo; discriminate.
  rewrite Hop in Hop'. injection Hop' as <- <- <- <- <-.
  assert (Ek : "_rl:" ++ k ++ l_hash_tag (c_lim c) = rk) by (unfold counted_under in Hcu; rewrite Hop in Hcu; congruence).
  rewrite Ek in HK. destruct (HI _ _ HK) as (A & B & C).
  unfold passed_list in PL. destruct (Z.ltb_spec (Z.of_nat (length l)) (p_capacity p)) as [|Hge]; [discriminate|].
  set (n := Z.to_nat (Z.of_nat (length l) - p_capacity p)) in *.
  destruct Hp as (Hcap & Hwin & _).
  assert (Hlen : Z.of_nat (length (skipn n l)) = p_capacity p) by (rewrite skipn_length; unfold n; lia).
  pose proof (skipn_nondecreasing n l A) as Hsort.
  destruct (skipn n l) as [|o r] eqn:Es; [discriminate|].
  destruct (Z.ltb_spec (p_window p) (client_secs c - o)) as [|Ho]; [discriminate|].
  set (X := Z.max 0 (client_secs c - p_window p)).
  assert (Hb : forall d, In d (skipn n l) -> 0 <= d -> X <= d).
  { rewrite Es. intros d Hd Hd0. destruct Hsort as (S1 & _). rewrite Forall_forall in S1. destruct Hd as [->|Hd]; [unfold X; lia|].
    specialize (S1 d Hd). unfold X; lia. }
  (* records are not negative: they are all counted at 0 *)
  assert (Hnn : Forall (fun r => 0 <= r) l).
  { specialize (HI _ _ HK). clear - HI HK H0 HN HM1. subst s.
    assert (G : forall cs s, Forall (fun c => 0 <= c_ns c) cs -> (forall k l w, s k = Some (Entry (RList l) w) -> Forall (fun r => 0 <= r) l) ->
      forall k l w, (fst (do_calls cs s)) k = Some (Entry (RList l) w) -> Forall (fun r => 0 <= r) l).
    { clear. induction cs as [|c cs IH]; intros s H0 Hs; [exact Hs|]. inversion H0; subst. rewrite do_calls_cons. cbn [fst].
      apply IH; [assumption|]. intros k l w.
      destruct (do_call_case c s) as [E|? ? E|p0 p k0 b m l' e Hop Hp0 Hp LB L HN PL PUT Hn Eo|p0 p k0 b m l1 w1 s1 Hop Hp0 Hp LB HK Ha PL P1 P2 Hn Eo].
      - rewrite E. apply Hs.
      - rewrite E. apply Hs.
      - rewrite (PUT k). destruct (k =? _)%string; [|apply Hs]. intros [= <- _].
        destruct (passed_list_suffix _ _ _ _ _ PL) as (n & ->). apply Forall_app. split.
        + apply Forall_skipn. destruct e as [[[le|]]|]; cbn [list_of]; try constructor. apply live_some in L. eapply Hs, L.
        + constructor; [|constructor]. unfold client_secs. apply Z.quot_pos; [assumption|unfold second; lia].
      - rewrite (P2 k). destruct (k =? _)%string; [discriminate|]. rewrite (P1 k). destruct (k =? _)%string; [|apply Hs].
        intros [= <- _]. apply Forall_skipn. eapply Hs, HK. }
    apply (G cs mempty H0) in HK; [exact HK|]. intros k1 l1 w1 [=]. }
  assert (Hr : recent X (skipn n l) = p_capacity p).
  { rewrite recent_all; [rewrite Es; exact Hlen|]. apply Forall_forall. intros d Hd. apply Hb; [exact Hd|].
    pose proof (Forall_skipn _ n l Hnn) as Hf. rewrite Forall_forall in Hf. apply Hf. exact Hd. }
  specialize (C X ltac:(unfold X; lia)). pose proof (recent_skipn X n l) as Hle. rewrite Hr in Hle.
  assert (Hlast : passes_from rk X h <= passes_in rk (c_ns c - (p_window p + 1) * second + 1) (c_ns c) h).
  { apply passes_from_in.
    - unfold X, client_secs. rewrite Z.quot_div_nonneg by (unfold second; lia).
      pose proof (Z.mod_pos_bound (c_ns c) second ltac:(unfold second; lia)). pose proof (Z.div_mod (c_ns c) second ltac:(unfold second; lia)).
      set (q := c_ns c / second) in *. unfold second in *. lia.
    - apply Forall_forall. intros (d, o') Hd. apply in_combine_l in Hd. rewrite Forall_forall in HM2. cbn [fst]. apply HM2. exact Hd. }
  lia.
Qed.
