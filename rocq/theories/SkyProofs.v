(** Lemmas about traces. *)
From Verif Require Import Common Bytes ProcsModel ProcsProofs ConfNamesSpec ConfNamesProofs ConfsModel ConfsSpec ConfsProofs SkyModel SkySpec.
Local Open Scope string_scope.
Local Open Scope list_scope.
Local Open Scope Z_scope.

(** * Lives of spans *)

Lemma events_app n a b : events_of n (a ++ b) = events_of n a ++ events_of n b.
Proof. apply filter_app. Qed.

Lemma events_own n l : Forall (fun e => span_of e = n) l -> events_of n l = l.
Proof.
  induction 1 as [|e l H F IH]; [reflexivity|]. unfold events_of in *. cbn [filter]. rewrite H, Z.eqb_refl, IH. reflexivity.
Qed.

Lemma events_alien n m l : n <> m -> Forall (fun e => span_of e = n) l -> events_of m l = [].
Proof.
  intros Hn. induction 1 as [|e l H F IH]; [reflexivity|]. unfold events_of in *. cbn [filter].
  destruct (Z.eqb_spec (span_of e) m); [congruence|exact IH].
Qed.

Lemma lives_nil p a : lives p a a [].
Proof. split; [lia|]. split; [intros n H; lia|reflexivity]. Qed.

Lemma lives_weaken p a b t : lives false a b t -> lives p a b t.
Proof. intros (L & H & E). split; [exact L|]. split; [|exact E]. intros n Hn. left. destruct (H n Hn) as [C|[C _]]; [exact C|discriminate]. Qed.

Lemma lives_app p a b c t u : lives false a b t -> lives p b c u -> lives p a c (t ++ u).
Proof.
  intros (L1 & H1 & E1) (L2 & H2 & E2). split; [lia|]. split.
  - intros n Hn. rewrite events_app. destruct (Z_lt_dec n b).
    + rewrite (E2 n) by lia. rewrite app_nil_r. left. destruct (H1 n) as [C|[C _]]; [lia|exact C|discriminate].
    + rewrite (E1 n) by lia. cbn [Datatypes.app]. apply H2. lia.
  - intros n Hn. rewrite events_app, E1, E2 by lia. reflexivity.
Qed.

(** A span around others. *)
Lemma lives_around p n c k par name peer mids inner : lives p (n + 1) c inner ->
  Forall (fun e => span_of e = n) mids -> Forall middle mids ->
  forall ends : list event, ends = [] /\ p = true \/
    (exists more, ends = more ++ [End n] /\ Forall (fun e => span_of e = n) more /\ Forall middle more) ->
  lives p n c (Start n k par name peer :: mids ++ inner ++ ends).
Proof.
  intros (L & H & E) Sm Mm ends He. split; [lia|].
  assert (Se : Forall (fun e => span_of e = n) ends).
  { destruct He as [[-> _]|(more & -> & Sx & _)]; [constructor|]. apply Forall_app. split; [exact Sx|constructor; [reflexivity|constructor]]. }
  change (Start n k par name peer :: mids ++ inner ++ ends) with ((Start n k par name peer :: mids) ++ inner ++ ends).
  assert (Sa : Forall (fun e => span_of e = n) (Start n k par name peer :: mids)) by (constructor; [reflexivity|exact Sm]).
  split.
  - intros m Hm. rewrite !events_app. destruct (Z.eq_dec m n) as [->|D].
    + rewrite (events_own _ _ Sa), (events_own _ _ Se), E by lia. cbn [Datatypes.app].
      destruct He as [[-> Hp]|(more & -> & _ & Mx)].
      * right. split; [exact Hp|]. rewrite app_nil_r. exists n, k, par, name, peer, mids. auto.
      * left. exists n, k, par, name, peer, (mids ++ more). rewrite app_assoc. split; [reflexivity|]. apply Forall_app. auto.
    + rewrite (events_alien _ _ _ (not_eq_sym D) Sa), (events_alien _ _ _ (not_eq_sym D) Se), app_nil_r. cbn [Datatypes.app]. apply H. lia.
  - intros m Hm. rewrite !events_app. assert (D : n <> m) by lia.
    rewrite (events_alien _ _ _ D Sa), (events_alien _ _ _ D Se), E by lia. reflexivity.
Qed.

(** What a step from [w] to [w'] added. *)
Definition adds (p : bool) (w w' : world) : Prop := exists t, trace w' = trace w ++ t /\ lives p (next w) (next w') t.

Lemma adds_refl p w : adds p w w.
Proof. exists []. rewrite app_nil_r. split; [reflexivity|apply lives_nil]. Qed.

Lemma adds_weaken p w w' : adds false w w' -> adds p w w'.
Proof. intros (t & E & L). exists t. split; [exact E|apply lives_weaken; exact L]. Qed.

Lemma adds_trans p a b c : adds false a b -> adds p b c -> adds p a c.
Proof.
  intros (t & E & L) (u & E' & L'). exists (t ++ u). rewrite E', E, app_assoc. split; [reflexivity|].
  exact (lives_app _ _ _ _ _ _ L L').
Qed.

Lemma http_setup_span n c r : Forall (fun e => span_of e = n) (http_setup n c r) /\ Forall middle (http_setup n c r).
Proof. unfold http_setup. split; repeat (apply Forall_cons; [reflexivity||exact I|]); constructor. Qed.

Lemma redis_setup_span n o a b : Forall (fun e => span_of e = n) (redis_setup n o a b) /\ Forall middle (redis_setup n o a b).
Proof. unfold redis_setup. split; repeat (apply Forall_cons; [reflexivity||exact I|]); constructor. Qed.

Lemma lives_one n k par name peer mids : Forall (fun e => span_of e = n) mids -> Forall middle mids ->
  lives false n (n + 1) (Start n k par name peer :: mids ++ [End n]).
Proof.
  intros Sm Mm. pose proof (lives_around false n (n + 1) k par name peer mids [] (lives_nil _ _) Sm Mm [End n]) as H.
  apply H. right. exists []. split; [reflexivity|]. split; constructor.
Qed.

(** * HTTP client *)

Lemma client_adds o tracing ok r answer w w' res : client_call o tracing ok r answer w = (w', res) -> adds false w w'.
Proof.
  unfold client_call, create_span. destruct (tracing && ok).
  - unfold start, emit. cbn [next stored trace]. destruct (http_setup_span (next w) 5005 r) as [S1 M1].
    destruct answer as [x|e]; cbn [end_span end_span_error]; unfold emit; cbn [next stored trace]; intros H;
      (assert (Hw : w' = fst (w', res)) by reflexivity); rewrite <- H in Hw; cbn [fst] in Hw; subst w'; unfold adds; cbn [next trace].
    + eexists. split; [rewrite <- !app_assoc; reflexivity|].
      set (errs := if status x >=? 400 then _ else _).
      assert (He : Forall (fun e => span_of e = next w) errs /\ Forall middle errs).
      { subst errs. destruct (status x >=? 400); split; try constructor; try reflexivity; try exact I; constructor. }
      replace ([Start (next w) Exit (stored w) (operation_name r) (host r)] ++ http_setup (next w) 5005 r ++ errs ++ [Tag (next w) "status_code" (itoa (status x)); End (next w)])
        with (Start (next w) Exit (stored w) (operation_name r) (host r) :: (http_setup (next w) 5005 r ++ errs ++ [Tag (next w) "status_code" (itoa (status x))]) ++ [End (next w)])
        by (rewrite <- !app_assoc; reflexivity).
      apply lives_one; apply Forall_app; (split; [assumption|]); apply Forall_app; (split; [apply He|]); (constructor; [reflexivity||exact I|constructor]).
    + eexists. split; [rewrite <- !app_assoc; reflexivity|].
      replace ([Start (next w) Exit (stored w) (operation_name r) (host r)] ++ http_setup (next w) 5005 r ++ [Fail (next w) (if log_error o then Some e else None); End (next w)])
        with (Start (next w) Exit (stored w) (operation_name r) (host r) :: (http_setup (next w) 5005 r ++ [Fail (next w) (if log_error o then Some e else None)]) ++ [End (next w)])
        by (rewrite <- !app_assoc; reflexivity).
      apply lives_one; apply Forall_app; (split; [assumption|]); (constructor; [reflexivity||exact I|constructor]).
  - destruct answer; cbn [end_span end_span_error]; intros H; (assert (Hw : w' = fst (w', res)) by reflexivity); rewrite <- H in Hw; cbn [fst] in Hw; subst w'; apply adds_refl.
Qed.

(** * Redis *)

Lemma before_others hs : forall ctx name text w, Forall other hs ->
  exists c e, before_all hs ctx name text w = (w, Some (c, e)) /\ c = ctx /\ (Forall passing hs -> e = None).
Proof.
  induction hs as [|h hs IH]; intros ctx name text w H; [exists ctx, None; auto|]. inversion H as [|? ? Ho Hr]; subst.
  destruct h as [o ok|[b|] a]; [destruct Ho| |]; cbn [before_all].
  - exists ctx, (Some b). split; [reflexivity|]. split; [reflexivity|]. intros F. inversion F as [|? ? P]. destruct P.
  - destruct (IH ctx name text w Hr) as (c & e & E & C & P). exists c, e. split; [exact E|]. split; [exact C|]. intros F. apply P. inversion F; assumption.
Qed.

Lemma after_others hs : forall ctx err w, Forall other hs -> fst (after_all hs ctx err w) = w.
Proof.
  induction hs as [|h hs IH]; intros ctx err w H; [reflexivity|]. inversion H as [|? ? Ho Hr]; subst. destruct h as [o ok|b a]; [destruct Ho|].
  cbn [after_all]. pose proof (IH ctx err w Hr) as E. destruct (after_all hs ctx err w). exact E.
Qed.

Lemma passing_other hs : Forall passing hs -> Forall other hs.
Proof. apply Forall_impl. intros [|[|] a]; cbn; tauto. Qed.

Lemma before_app a : forall b ctx name text w, Forall other a ->
  before_all (a ++ b) ctx name text w =
  match before_all a ctx name text w with
  | (w, Some (c, None)) => before_all b c name text w
  | r => r
  end.
Proof.
  induction a as [|h a IH]; intros b ctx name text w H; [reflexivity|]. inversion H as [|? ? Ho Hr]; subst.
  destruct h as [o ok|[x|] y]; [destruct Ho| |]; cbn [Datatypes.app before_all]; [reflexivity|apply IH; exact Hr].
Qed.

Lemma after_app a : forall b ctx err w, Forall other a ->
  fst (after_all (a ++ b) ctx err w) = fst (after_all b ctx err w).
Proof.
  induction a as [|h a IH]; intros b ctx err w H; [reflexivity|]. inversion H as [|? ? Ho Hr]; subst.
  destruct h as [o ok|x y]; [destruct Ho|]. cbn [Datatypes.app after_all]. rewrite <- (IH b ctx err w Hr).
  destruct (after_all (a ++ b) ctx err w). reflexivity.
Qed.

Lemma process_adds hs name text err own w w' res : tame_hooks hs -> process hs name text err own w = (w', res) ->
  adds false w w' /\ stored w' = stored w.
Proof.
  intros H E. unfold process in E. destruct H as [H|(pre & o & ok & post & -> & Hpre & Hpost)].
  - destruct (before_others hs (stored w) name text w H) as (c & e & B & -> & _). rewrite B in E. destruct e as [x|].
    + assert (w' = w) by congruence. subst w'. split; [apply adds_refl|reflexivity].
    + pose proof (after_others hs (stored w) err w H) as A. destruct (after_all hs (stored w) err w) as [u x]. cbn [fst] in A.
      assert (w' = w) by congruence. subst w'. split; [apply adds_refl|reflexivity].
  - rewrite before_app in E by exact Hpre. destruct (before_others pre (stored w) name text w Hpre) as (c & e & B & -> & _). rewrite B in E.
    destruct e as [x|]; [assert (w' = w) by congruence; subst w'; split; [apply adds_refl|reflexivity]|].
    cbn [before_all] in E. unfold before_process in E. destruct ok; [|assert (w' = w) by congruence; subst w'; split; [apply adds_refl|reflexivity]].
    unfold start in E. set (w1 := emit _ _) in E.
    destruct (before_others post (Some (next w)) name text w1 (passing_other _ Hpost)) as (c & e & B2 & -> & P). rewrite B2, (P Hpost) in E.
    pose proof (after_app pre (Tracing o true :: post) (Some (next w)) err w1 Hpre) as A.
    destruct (after_all (pre ++ Tracing o true :: post) (Some (next w)) err w1) as [u x]. cbn [fst after_all] in A.
    rewrite after_others in A by exact (passing_other _ Hpost). assert (w' = u) by congruence. subst w' u.
    destruct (redis_setup_span (next w) o name text) as [S1 M1].
    split; [|reflexivity]. subst w1. unfold adds, after_process, emit. cbn [next trace].
    eexists. split; [rewrite <- !app_assoc; reflexivity|].
    set (errs := match err with Some e => _ | None => _ end).
    assert (He : Forall (fun e => span_of e = next w) errs /\ Forall middle errs).
    { subst errs. destruct err; split; try constructor; try reflexivity; try exact I; constructor. }
    replace ([Start (next w) Exit (stored w) name (peer o)] ++ redis_setup (next w) o name text ++ errs ++ [End (next w)])
      with (Start (next w) Exit (stored w) name (peer o) :: (redis_setup (next w) o name text ++ errs) ++ [End (next w)])
      by (rewrite <- !app_assoc; reflexivity).
    apply lives_one; apply Forall_app; (split; [assumption|apply He]).
Qed.

(** * Requests *)

Definition panicked (r : result) : bool := match r with Panicked => true | Ret _ => false end.
Definition fine (f : state -> state * result) : Prop :=
  forall s s' r, Forall tame (rest s) -> f s = (s', r) -> adds (panicked r) (world_of s) (world_of s') /\ Forall tame (rest s').

Lemma traced_adds f req o ce : fine f -> fine (traced f req o ce).
Proof.
  intros Hf s s' r Ht E. unfold traced, start, emit in E. cbn [next stored trace] in E. set (n := next (world_of s)) in *.
  set (s1 := mkState _ (rest s) (resp s)) in E. destruct (f s1) as [s2 res] eqn:Ef.
  destruct (Hf s1 s2 res Ht Ef) as [(t & Et & L) T2]. subst s1. cbn [world_of next trace] in Et, L.
  destruct (http_setup_span n 5004 req) as [S1 M1]. destruct res as [e|]; cbn [panicked] in L.
  - assert (Hs : s' = fst (s', r)) by reflexivity. assert (Hr : r = snd (s', r)) by reflexivity. rewrite <- E in Hs, Hr. cbn [fst snd] in Hs, Hr.
    subst s' r. cbn [rest panicked world_of]. split; [|exact T2]. unfold adds. cbn [next trace]. rewrite Et.
    eexists. split; [rewrite <- !app_assoc; reflexivity|].
    apply (lives_around false n _ Entry (stored (world_of s)) (operation_name req) "" (http_setup n 5004 req) t L S1 M1).
    right. unfold after_next. set (errs := match e with Some e => _ | None => _ end).
    assert (He : Forall (fun e => span_of e = n) errs /\ Forall middle errs).
    { subst errs. destruct e as [x|]; [split; repeat constructor|]. destruct ce as [x|]; [split; repeat constructor|].
      destruct (status (resp s2) >=? 400); split; repeat constructor. }
    exists (errs ++ [Tag n "status_code" (itoa (status (resp s2)))]). rewrite <- !app_assoc. split; [reflexivity|].
    split; apply Forall_app; (split; [apply He|]); repeat constructor.
  - assert (Hs : s' = s2) by congruence. assert (Hr : r = Panicked) by congruence. subst s' r. split; [|exact T2].
    unfold adds. rewrite Et. eexists. split; [rewrite <- !app_assoc; reflexivity|].
    pose proof (lives_around true n _ Entry (stored (world_of s)) (operation_name req) "" (http_setup n 5004 req) t L S1 M1 [] (or_introl (conj eq_refl eq_refl))) as X.
    rewrite app_nil_r in X. exact X.
Qed.

Lemma in_world_fine f : (forall w w' r, f w = (w', r) -> adds false w w') -> fine (in_world f).
Proof.
  intros H s s' r Ht E. unfold in_world in E. destruct (f (world_of s)) as [w' r'] eqn:Ef.
  assert (s' = mkState w' (rest s) (resp s)) by congruence. subst s'. cbn [world_of rest]. split; [|exact Ht].
  apply adds_weaken. exact (H _ _ _ Ef).
Qed.

Lemma run_fine req f p : fine f -> tame p -> fine (run req f p).
Proof.
  intros Hf. induction p as [e| |p IH k IHk|x| | |hooks c|hooks cs|o tr ok r a|o setup ce]; intros Hp s s' r' Ht E; cbn [run] in E.
  - assert (s' = s) by congruence. subst s'. split; [apply adds_refl|exact Ht].
  - assert (s' = s) by congruence. subst s'. split; [apply adds_refl|exact Ht].
  - destruct Hp as [Hp Hk]. destruct (run req f p s) as [s1 [e|]] eqn:E1.
    + destruct (IH Hp s s1 _ Ht E1) as [A1 T1]. destruct (IHk e (Hk e) s1 s' r' T1 E) as [A2 T2]. split; [|exact T2]. exact (adds_trans _ _ _ _ A1 A2).
    + assert (s' = s1) by congruence. assert (r' = Panicked) by congruence. subst s' r'. exact (IH Hp s s1 _ Ht E1).
  - assert (s' = mkState (world_of s) (rest s) x) by congruence. subst s'. split; [apply adds_refl|exact Ht].
  - assert (s' = mkState (world_of s) [] (resp s)) by congruence. subst s'. split; [apply adds_refl|constructor].
  - exact (Hf _ _ _ Ht E).
  - refine (in_world_fine _ _ s s' r' Ht E). intros w w' r H. exact (proj1 (process_adds _ _ _ _ _ _ _ _ Hp H)).
  - refine (in_world_fine _ _ s s' r' Ht E). intros w w' r H. exact (proj1 (process_adds _ _ _ _ _ _ _ _ Hp H)).
  - refine (in_world_fine _ _ s s' r' Ht E). intros w w' r'' H. exact (client_adds _ _ _ _ _ _ _ _ H).
  - destruct setup as [[|]|]; [exact (traced_adds _ _ _ _ Hf _ _ _ Ht E)|exact (Hf _ _ _ Ht E)|exact (Hf _ _ _ Ht E)].
Qed.

Lemma next_fine req fuel : fine (next_with req fuel).
Proof.
  induction fuel as [|fuel IH]; intros s s' r Ht E; cbn [next_with] in E.
  - assert (s' = s) by congruence. subst s'. split; [apply adds_refl|exact Ht].
  - destruct (rest s) as [|h l] eqn:Er.
    + assert (s' = s) by congruence. subst s'. split; [apply adds_refl|rewrite Er; constructor].
    + inversion Ht as [|? ? Hh Hl]; subst. destruct (run req (next_with req fuel) h _) as [s1 r1] eqn:E1.
      destruct (run_fine req _ h IH Hh (mkState (world_of s) l (resp s)) s1 r1 Hl E1) as [A1 T1]. cbn [world_of] in A1. destruct r1 as [[e|]|].
      * assert (s' = s1) by congruence. assert (r = Ret (Some e)) by congruence. subst s' r. auto.
      * destruct (IH s1 s' r T1 E) as [A2 T2]. split; [exact (adds_trans _ _ _ _ A1 A2)|exact T2].
      * assert (s' = s1) by congruence. assert (r = Panicked) by congruence. subst s' r. auto.
Qed.

Lemma serve_adds req hs w s r : Forall tame hs -> serve req hs w = (s, r) -> adds (panicked r) w (world_of s).
Proof.
  intros Ht E. unfold serve, run_handlers in E. cbn [rest] in E. destruct (next_with req (length hs) (mkState w hs (mkResponse 200 ""))) as [s1 r1] eqn:E1.
  destruct (next_fine req (length hs) (mkState w hs (mkResponse 200 "")) s1 r1 Ht E1) as [A _]. cbn [world_of] in A.
  destruct r1 as [[e|]|].
  - assert (Hs : s = fst (s, r)) by reflexivity. assert (Hr : r = snd (s, r)) by reflexivity. rewrite <- E in Hs, Hr. cbn [fst snd] in Hs, Hr. subst s r. exact A.
  - assert (s = s1) by congruence. assert (r = Ret None) by congruence. subst. exact A.
  - assert (s = s1) by congruence. assert (r = Panicked) by congruence. subst. exact A.
Qed.

(** * The middleware in a chain *)

Lemma finish_same o n e ce res : after_next o n e ce res = finish_events n (failure_of o e ce res) (status res).
Proof.
  unfold after_next, finish_events, failure_of. rewrite Z.geb_leb. destruct e; [reflexivity|]. destruct ce; [reflexivity|].
  destruct (400 <=? status res); reflexivity.
Qed.

Lemma traced_unfold f req o ce s : traced f req o ce s =
  match f (mkState (request_started req (world_of s)) (rest s) (resp s)) with
  | (s', Panicked) => (s', Panicked)
  | (s', Ret e) => (mkState (emit (finish_events (next (world_of s)) (failure_of o e ce (resp s')) (status (resp s'))) (world_of s')) (rest s') (resp s'), Ret None)
  end.
Proof.
  unfold traced, start, emit, http_setup, operation_name, request_started. cbn [next stored trace]. rewrite <- app_assoc. cbn [Datatypes.app].
  destruct (f _) as [s' [e|]]; [|reflexivity]. rewrite finish_same. reflexivity.
Qed.

(** Handlers left never grow, and the fuel does not matter. *)
Definition shrinks (f : state -> state * result) : Prop := forall s, (length (rest (fst (f s))) <= length (rest s))%nat.

Lemma run_shrinks req f p : shrinks f -> shrinks (run req f p).
Proof.
  intros Hf. induction p as [e| |p IH k IHk|x| | |hooks c|hooks cs|o tr ok r a|o setup ce]; intros s; cbn [run].
  - reflexivity.
  - reflexivity.
  - pose proof (IH s) as H. destruct (run req f p s) as [s1 [e|]]; cbn [fst] in *; [|exact H]. pose proof (IHk e s1). lia.
  - reflexivity.
  - cbn. lia.
  - apply Hf.
  - unfold in_world. destruct (process _ _ _ _ _ _). reflexivity.
  - unfold in_world. destruct (process _ _ _ _ _ _). reflexivity.
  - unfold in_world. destruct (client_call _ _ _ _ _ _). reflexivity.
  - destruct setup as [[|]|]; try apply Hf. rewrite traced_unfold. set (s1 := mkState _ (rest s) _). pose proof (Hf s1) as H.
    destruct (f s1) as [s2 [e|]]; cbn [fst rest] in *; exact H.
Qed.

Lemma next_shrinks req fuel : shrinks (next_with req fuel).
Proof.
  induction fuel as [|fuel IH]; intros s; cbn [next_with]; [reflexivity|]. destruct (rest s) as [|h l] eqn:E; [cbn [fst]; rewrite E; reflexivity|].
  set (s1 := mkState _ l _). pose proof (run_shrinks req _ h IH s1) as H. destruct (run req (next_with req fuel) h s1) as [s2 [[e|]|]]; cbn [fst rest length] in *.
  - subst s1. cbn [rest] in H. lia.
  - pose proof (IH s2). subst s1. cbn [rest] in H. lia.
  - subst s1. cbn [rest] in H. lia.
Qed.

Lemma run_agree req f g k p : (forall s, (length (rest s) <= k)%nat -> f s = g s) -> shrinks f ->
  forall s, (length (rest s) <= k)%nat -> run req f p s = run req g p s.
Proof.
  intros H Hf. induction p as [e| |p IH c IHc|x| | |hooks c|hooks cs|o tr ok r a|o setup ce]; intros s Hs; cbn [run]; try reflexivity.
  - rewrite <- (IH s Hs). pose proof (run_shrinks req f p Hf s) as L. destruct (run req f p s) as [s1 [e|]]; [|reflexivity].
    apply IHc. cbn [fst] in L. lia.
  - exact (H s Hs).
  - destruct setup as [[|]|]; try exact (H s Hs). rewrite !traced_unfold, H by exact Hs. reflexivity.
Qed.

Lemma fuel_enough req n : forall m s, (length (rest s) <= n)%nat -> (length (rest s) <= m)%nat -> next_with req n s = next_with req m s.
Proof.
  induction n as [|n IH]; intros m s Hn Hm.
  - destruct (rest s) eqn:E; [|cbn in Hn; lia]. destruct m; cbn [next_with]; [reflexivity|rewrite E; reflexivity].
  - destruct m as [|m]; [destruct (rest s) eqn:E; [|cbn in Hm; lia]; cbn [next_with]; rewrite E; reflexivity|].
    cbn [next_with]. destruct (rest s) as [|h l] eqn:E; [reflexivity|]. cbn [length] in Hn, Hm.
    set (s1 := mkState _ l _). assert (L : (length (rest s1) <= length l)%nat) by (subst s1; reflexivity).
    rewrite (run_agree req (next_with req n) (next_with req m) (length l) h); [|intros u Hu; apply IH; lia|apply next_shrinks|exact L].
    pose proof (run_shrinks req (next_with req m) h (next_shrinks req m) s1) as S1.
    destruct (run req (next_with req m) h s1) as [s2 [[e|]|]]; try reflexivity. cbn [fst] in S1. apply IH; lia.
Qed.

Lemma handlers_nil req w r : run_handlers req (mkState w [] r) = (mkState w [] r, Ret None).
Proof. reflexivity. Qed.

Lemma handlers_cons req w h l r : run_handlers req (mkState w (h :: l) r) =
  match run req (run_handlers req) h (mkState w l r) with
  | (s, Ret None) => run_handlers req s
  | x => x
  end.
Proof.
  unfold run_handlers at 1. cbn [rest length next_with world_of resp].
  rewrite (run_agree req (next_with req (length l)) (run_handlers req) (length l) h).
  - pose proof (run_shrinks req (run_handlers req) h (fun s => next_shrinks req _ s) (mkState w l r)) as S1.
    destruct (run req (run_handlers req) h (mkState w l r)) as [s2 [[e|]|]]; try reflexivity. cbn [fst rest] in S1.
    apply fuel_enough; [exact S1|reflexivity].
  - intros s Hs. apply fuel_enough; [exact Hs|reflexivity].
  - apply next_shrinks.
  - reflexivity.
Qed.

Lemma plain_run req f p : plain p -> forall w l r,
  run req f p (mkState w l r) = let '(w', r', res) := alone req p w r in (mkState w' l r', res).
Proof.
  unfold alone. induction p as [e| |p IH k IHk|x| | |hooks c|hooks cs|o tr ok rq a|o setup ce]; intros Hp w l r; cbn [run]; try reflexivity; try (destruct Hp; fail).
  - destruct Hp as [Hp Hk]. rewrite (IH Hp).
    assert (E : run req (fun s => (s, Ret None)) p (mkState w [] r) =
      let '(w', r', res) := (let '(s, res) := run req (fun s => (s, Ret None)) p (mkState w [] r) in (world_of s, resp s, res)) in (mkState w' [] r', res)).
    { pose proof (run_shrinks req (fun s => (s, Ret None)) p (fun s => le_n _) (mkState w [] r)) as L.
      destruct (run req _ p (mkState w [] r)) as [[w1 l1 r1] res]. cbn [fst rest length] in L. destruct l1; [reflexivity|cbn in L; lia]. }
    destruct (run req (fun s => (s, Ret None)) p (mkState w [] r)) as [s1 [e|]]; [|reflexivity].
    cbv beta iota zeta in E. assert (Es : s1 = mkState (world_of s1) [] (resp s1)) by congruence. rewrite (IHk e (Hk e)). rewrite <- Es. reflexivity.
  - unfold in_world. cbn [world_of rest resp]. destruct (process _ _ _ _ _ w). reflexivity.
  - unfold in_world. cbn [world_of rest resp]. destruct (process _ _ _ _ _ w). reflexivity.
  - unfold in_world. cbn [world_of rest resp]. destruct (client_call _ _ _ _ _ w). reflexivity.
Qed.

Lemma passes_run req ps : forall w r w' r' l, Forall plain ps -> passes req ps w r w' r' ->
  run_handlers req (mkState w (ps ++ l) r) = run_handlers req (mkState w' l r').
Proof.
  induction ps as [|p ps IH]; intros w r w' r' l Hp H; inversion H; subst; [reflexivity|]. inversion Hp; subst. cbn [Datatypes.app].
  rewrite handlers_cons, plain_run by assumption.
  match goal with A : alone req p w r = _ |- _ => rewrite A end. apply IH; assumption.
Qed.

Lemma untraced_stops req pre h post w r w1 r1 w2 r2 e : Forall plain pre -> plain h -> passes req pre w r w1 r1 ->
  alone req h w1 r1 = (w2, r2, Ret (Some e)) ->
  run_handlers req (mkState w (pre ++ h :: post) r) = (mkState w2 post r2, Ret (Some e)).
Proof.
  intros Hp Hh P A. rewrite (passes_run _ _ _ _ _ _ _ Hp P), handlers_cons, plain_run, A by exact Hh. reflexivity.
Qed.

Lemma next_exhausts req n : forall s s', (length (rest s) <= n)%nat -> next_with req n s = (s', Ret None) -> rest s' = [].
Proof.
  induction n as [|n IH]; intros s s' Hn E; cbn [next_with] in E.
  - assert (s' = s) by congruence. subst s'. destruct (rest s); [reflexivity|cbn in Hn; lia].
  - destruct (rest s) as [|h l] eqn:Er; [assert (s' = s) by congruence; subst s'; exact Er|]. cbn [length] in Hn.
    pose proof (run_shrinks req _ h (next_shrinks req n) (mkState (world_of s) l (resp s))) as L.
    destruct (run req (next_with req n) h _) as [s2 [[e|]|]]; try discriminate. cbn [fst rest] in L. apply (IH s2); [lia|exact E].
Qed.

Lemma handlers_exhaust req s s' : run_handlers req s = (s', Ret None) -> rest s' = [].
Proof. apply next_exhausts. reflexivity. Qed.

Lemma untraced_first req o setup ce l w r : setup <> Some true -> run_handlers req (mkState w (PTrace o setup ce :: l) r) = run_handlers req (mkState w l r).
Proof.
  intros Hs. rewrite handlers_cons. assert (E : run req (run_handlers req) (PTrace o setup ce) (mkState w l r) = run_handlers req (mkState w l r)).
  { cbn [run]. destruct setup as [[|]|]; [congruence|reflexivity|reflexivity]. }
  rewrite E. destruct (run_handlers req (mkState w l r)) as [s [[e|]|]] eqn:Er; try reflexivity.
  pose proof (handlers_exhaust _ _ _ Er) as H. unfold run_handlers. rewrite H. reflexivity.
Qed.

Lemma traced_first req o ce l w r : run_handlers req (mkState w (PTrace o (Some true) ce :: l) r) =
  match run_handlers req (mkState (request_started req w) l r) with
  | (s, Panicked) => (s, Panicked)
  | (s, Ret e) =>
    run_handlers req (mkState (emit (finish_events (next w) (failure_of o e ce (resp s)) (status (resp s))) (world_of s)) (rest s) (resp s))
  end.
Proof.
  rewrite handlers_cons. cbn [run]. rewrite traced_unfold. cbn [world_of rest resp].
  destruct (run_handlers req (mkState (request_started req w) l r)) as [s [e|]]; reflexivity.
Qed.

Lemma traced_continues req o ce pre h post w r w1 r1 w2 r2 e : Forall plain pre -> plain h ->
  passes req pre (request_started req w) r w1 r1 -> alone req h w1 r1 = (w2, r2, Ret (Some e)) ->
  run_handlers req (mkState w (PTrace o (Some true) ce :: pre ++ h :: post) r) =
  run_handlers req (mkState (emit (finish_events (next w) (failure_of o (Some e) ce r2) (status r2)) w2) post r2).
Proof.
  intros Hp Hh P A. rewrite traced_first, (untraced_stops req pre h post _ _ _ _ _ _ _ Hp Hh P A). reflexivity.
Qed.

Lemma traced_passes req o ce hs w r w1 r1 : Forall plain hs -> passes req hs (request_started req w) r w1 r1 ->
  run_handlers req (mkState w (PTrace o (Some true) ce :: hs) r) =
  (mkState (emit (finish_events (next w) (failure_of o None ce r1) (status r1)) w1) [] r1, Ret None).
Proof.
  intros Hp P. rewrite traced_first. pose proof (passes_run req hs _ _ _ _ [] Hp P) as E. rewrite app_nil_r in E. rewrite E, handlers_nil. reflexivity.
Qed.

(** * Results do not depend on the tracer *)

Definition hook_ok (h : hook) : Prop := match h with Tracing _ ok => ok = true | Other _ _ => True end.

Lemma before_same hs : forall c c' name text w w', snd (before_all hs c name text w) = None <-> snd (before_all hs c' name text w') = None.
Proof.
  induction hs as [|[o [|]|[x|] y] hs IH]; intros c c' name text w w'; cbn [before_all before_process]; try tauto; try apply IH;
    split; discriminate.
Qed.

Lemma before_same_err hs : forall c c' name text w w',
  option_map snd (snd (before_all hs c name text w)) = option_map snd (snd (before_all hs c' name text w')).
Proof.
  induction hs as [|[o [|]|[x|] y] hs IH]; intros c c' name text w w'; cbn [before_all before_process]; try reflexivity; apply IH.
Qed.

Lemma after_same hs : forall c c' err w w', snd (after_all hs c err w) = snd (after_all hs c' err w').
Proof.
  induction hs as [|[o ok|x y] hs IH]; intros c c' err w w'; cbn [after_all]; [reflexivity|apply IH|].
  pose proof (IH c c' err w w') as H. destruct (after_all hs c err w), (after_all hs c' err w'). cbn [snd] in *. rewrite H. reflexivity.
Qed.

Lemma process_same hs name text err own w w' : snd (process hs name text err own w) = snd (process hs name text err own w').
Proof.
  unfold process. pose proof (before_same_err hs (stored w) (stored w') name text w w') as H.
  destruct (before_all hs (stored w) name text w) as [u [[c [e|]]|]], (before_all hs (stored w') name text w') as [u' [[c' [e'|]]|]]; cbn [snd option_map] in H; try discriminate; try reflexivity.
  - assert (e = e') by congruence. subst. reflexivity.
  - pose proof (after_same hs c c' err u u') as A. destruct (after_all hs c err u), (after_all hs c' err u'). cbn [snd] in *. rewrite A. reflexivity.
Qed.

Lemma client_same o tracing ok r a w w' : snd (client_call o tracing ok r a w) = snd (client_call o tracing ok r a w').
Proof. unfold client_call, create_span. destruct (tracing && ok), a; reflexivity. Qed.

Lemma alone_same req p : plain p -> forall w w' r,
  let '(_, r1, res1) := alone req p w r in let '(_, r2, res2) := alone req p w' r in r1 = r2 /\ res1 = res2.
Proof.
  assert (D : forall (f : world -> world * result) w w' l r, snd (f w) = snd (f w') ->
    let '(s, res) := in_world f (mkState w l r) in let '(s', res') := in_world f (mkState w' l r) in resp s = resp s' /\ res = res').
  { intros f w w' l r H. unfold in_world. cbn [world_of rest resp]. destruct (f w), (f w'). auto. }
  unfold alone. induction p as [e| |p IH k IHk|x| | |hooks c|hooks cs|o tr ok rq a|o setup ce]; intros Hp w w' r; cbn [run]; try (split; reflexivity); try (destruct Hp; fail).
  - destruct Hp as [Hp Hk]. pose proof (IH Hp w w' r) as H.
    pose proof (run_shrinks req (fun s => (s, Ret None)) p (fun s => le_n _) (mkState w [] r)) as L.
    pose proof (run_shrinks req (fun s => (s, Ret None)) p (fun s => le_n _) (mkState w' [] r)) as L'.
    destruct (run req (fun s => (s, Ret None)) p (mkState w [] r)) as [[w1 l1 r1] res1].
    destruct (run req (fun s => (s, Ret None)) p (mkState w' [] r)) as [[w2 l2 r2] res2]. cbn [resp rest fst length world_of] in *.
    destruct H as [-> ->]. destruct l1; [|cbn in L; lia]. destruct l2; [|cbn in L'; lia].
    destruct res2 as [e|]; [|auto]. exact (IHk e (Hk e) w1 w2 r2).
  - pose proof (D (process hooks (c_name c) (c_text c) (c_err c) (c_err c)) w w' [] r (process_same _ _ _ _ _ _ _)) as H.
    destruct (in_world _ (mkState w [] r)), (in_world _ (mkState w' [] r)). exact H.
  - pose proof (D (process hooks (quick_join cs "|" c_name) (quick_join cs "|" c_text) (pipeline_error cs) (first_error cs)) w w' [] r (process_same _ _ _ _ _ _ _)) as H.
    destruct (in_world _ (mkState w [] r)), (in_world _ (mkState w' [] r)). exact H.
  - pose proof (D (client_call o tr ok rq a) w w' [] r (client_same _ _ _ _ _ _ _)) as H.
    destruct (in_world _ (mkState w [] r)), (in_world _ (mkState w' [] r)). exact H.
Qed.

Lemma passes_same req ps : Forall plain ps -> forall w r w1 r1 w', passes req ps w r w1 r1 -> exists w1', passes req ps w' r w1' r1.
Proof.
  induction 1 as [|p ps Hp Hps IH]; intros w r w1 r1 w' P; inversion P; subst; [eexists; constructor|].
  match goal with A : alone req p w r = (?u, ?r', _), Q : passes _ _ _ _ _ _ |- _ =>
    pose proof (alone_same req p Hp w w' r) as S'; rewrite A in S'; destruct (alone req p w' r) as [[u' r''] res'] eqn:E; destruct S' as [S1 S2]; subst;
    destruct (IH _ _ _ _ u' Q) as [w1' Q'] end.
  exists w1'. econstructor; eassumption.
Qed.

(** * Silence *)

Lemma silent_app a b : silent a -> silent b -> silent (a ++ b).
Proof. intros A B n m H. apply in_app_or in H. destruct H as [H|H]; [exact (A n m H)|exact (B n m H)]. Qed.

Definition quiet (w w' : world) : Prop := exists t, trace w' = trace w ++ t /\ silent t.
Lemma quiet_refl w : quiet w w.
Proof. exists []. rewrite app_nil_r. split; [reflexivity|intros n m []]. Qed.
Lemma quiet_trans a b c : quiet a b -> quiet b c -> quiet a c.
Proof. intros (t & E & S1) (u & E' & S2). exists (t ++ u). rewrite E', E, app_assoc. split; [reflexivity|apply silent_app; assumption]. Qed.
Lemma quiet_emit t w : silent t -> quiet w (emit t w).
Proof. intros S'. exists t. auto. Qed.

Ltac no_fail := let X := fresh in intros ? ? X; cbn [In Datatypes.app] in X; repeat (destruct X as [X|X]; [congruence|]); destruct X.

Lemma before_quiet hs : forall c name text w, quiet w (fst (before_all hs c name text w)).
Proof.
  induction hs as [|[o [|]|[x|] y] hs IH]; intros c name text w; cbn [before_all before_process start]; try apply quiet_refl; [|apply IH].
  eapply quiet_trans; [|apply IH]. unfold emit, redis_setup. exists ([Start (next w) Exit c name (peer o)] ++ redis_setup (next w) o name text).
  split; [cbn [trace]; rewrite <- app_assoc; reflexivity|]. unfold redis_setup. no_fail.
Qed.

Lemma after_quiet hs : (forall o ok, In (Tracing o ok) hs -> redis_log_error o = false) -> forall c err w, quiet w (fst (after_all hs c err w)).
Proof.
  induction hs as [|[o ok|x y] hs IH]; intros H c err w; cbn [after_all]; [apply quiet_refl| |].
  - eapply quiet_trans; [|apply IH; intros o' ok' Hi; apply (H o' ok'); right; exact Hi].
    unfold after_process. destruct c as [n|]; [|apply quiet_refl]. apply quiet_emit. rewrite (H o ok) by (left; reflexivity).
    destruct err; no_fail.
  - specialize (IH (fun o' ok' Hi => H o' ok' (or_intror Hi)) c err w). destruct (after_all hs c err w). exact IH.
Qed.

Lemma process_quiet hs name text err own w : (forall o ok, In (Tracing o ok) hs -> redis_log_error o = false) ->
  quiet w (fst (process hs name text err own w)).
Proof.
  intros H. unfold process. pose proof (before_quiet hs (stored w) name text w) as B. destruct (before_all hs (stored w) name text w) as [u [[c [e|]]|]]; cbn [fst] in *; try exact B.
  pose proof (after_quiet hs H c err u) as A. destruct (after_all hs c err u). cbn [fst] in *. exact (quiet_trans _ _ _ B A).
Qed.

Lemma client_quiet o tracing ok r a w : log_error o = false /\ log_4xx_body o = false -> quiet w (fst (client_call o tracing ok r a w)).
Proof.
  intros [H1 H2]. unfold client_call, create_span. destruct (tracing && ok).
  - cbn [start]. assert (Q : quiet w (emit (http_setup (next w) 5005 r) (mkWorld (next w + 1) (stored w) (trace w ++ [Start (next w) Exit (stored w) (operation_name r) (host r)])))).
    { exists ([Start (next w) Exit (stored w) (operation_name r) (host r)] ++ http_setup (next w) 5005 r). split; [cbn [emit trace]; rewrite <- app_assoc; reflexivity|].
      unfold http_setup. no_fail. }
    destruct a as [x|e]; cbn [fst end_span end_span_error]; (eapply quiet_trans; [exact Q|]); apply quiet_emit.
    + rewrite H2. destruct (status x >=? 400); no_fail.
    + rewrite H1. no_fail.
  - destruct a; apply quiet_refl.
Qed.

Definition hush (f : state -> state * result) : Prop :=
  forall s, Forall silent_options (rest s) -> quiet (world_of s) (world_of (fst (f s))) /\ Forall silent_options (rest (fst (f s))).

Lemma run_quiet req f p : hush f -> silent_options p -> hush (run req f p).
Proof.
  intros Hf. induction p as [e| |p IH k IHk|x| | |hooks c|hooks cs|o tr ok rq a|o setup ce]; intros Hp s Hs; cbn [run].
  - split; [apply quiet_refl|exact Hs].
  - split; [apply quiet_refl|exact Hs].
  - destruct Hp as [Hp Hk]. destruct (IH Hp s Hs) as [Q T]. destruct (run req f p s) as [s1 [e|]]; cbn [fst] in *; [|auto].
    destruct (IHk e (Hk e) s1 T) as [Q2 T2]. split; [exact (quiet_trans _ _ _ Q Q2)|exact T2].
  - split; [apply quiet_refl|exact Hs].
  - split; [apply quiet_refl|constructor].
  - exact (Hf s Hs).
  - unfold in_world. pose proof (process_quiet hooks (c_name c) (c_text c) (c_err c) (c_err c) (world_of s) Hp) as Q. destruct (process _ _ _ _ _ (world_of s)). cbn in *. auto.
  - unfold in_world. pose proof (process_quiet hooks (quick_join cs "|" c_name) (quick_join cs "|" c_text) (pipeline_error cs) (first_error cs) (world_of s) Hp) as Q.
    destruct (process _ _ _ _ _ (world_of s)). cbn [fst world_of rest] in *. auto.
  - unfold in_world. pose proof (client_quiet o tr ok rq a (world_of s) Hp) as Q. destruct (client_call _ _ _ _ _ (world_of s)). cbn in *. auto.
  - destruct setup as [[|]|]; try exact (Hf s Hs). rewrite traced_unfold. set (s1 := mkState _ (rest s) _). destruct (Hf s1 Hs) as [Q T].
    assert (Q0 : quiet (world_of s) (world_of s1)) by (subst s1; unfold request_started; eexists; split; [reflexivity|no_fail]).
    destruct (f s1) as [s2 [e|]]; cbn [fst world_of rest] in *; (split; [|exact T]); (eapply quiet_trans; [exact Q0|]); (eapply quiet_trans; [exact Q|]); [|apply quiet_refl].
    apply quiet_emit. destruct Hp as [H1 H2]. unfold finish_events, failure_of. rewrite H1, H2. destruct e, ce; try no_fail. destruct (400 <=? status (resp s2)); no_fail.
Qed.

Lemma next_quiet req fuel : hush (next_with req fuel).
Proof.
  induction fuel as [|fuel IH]; intros s Hs; cbn [next_with]; [split; [apply quiet_refl|exact Hs]|].
  destruct (rest s) as [|h l] eqn:E; [cbn [fst]; rewrite E; split; [apply quiet_refl|constructor]|]. inversion Hs; subst.
  assert (Hh : silent_options h) by assumption. assert (Hl : Forall silent_options l) by assumption.
  destruct (run_quiet req _ h IH Hh (mkState (world_of s) l (resp s)) Hl) as [Q T].
  destruct (run req (next_with req fuel) h _) as [s1 [[e|]|]]; cbn [fst world_of] in *; auto.
  destruct (IH s1 T) as [Q2 T2]. split; [exact (quiet_trans _ _ _ Q Q2)|exact T2].
Qed.

(** * Parents *)

Lemma linked_weaken (t : list event) : forall (K K' : option Z -> Prop), (forall p, K p -> K' p) -> linked K t -> linked K' t.
Proof.
  induction t as [|e t IH]; intros K K' H L; [exact I|]. destruct e; cbn [linked] in *; try (apply (IH K); assumption).
  destruct L as [L1 L2]. split; [apply H; exact L1|]. refine (IH _ _ _ L2). cbn. intros q [Q|Q]; auto.
Qed.

Definition started (t : list event) (q : option Z) : Prop := exists n k p name peer, q = Some n /\ In (Start n k p name peer) t.

Lemma linked_app a : forall b K, linked K a -> linked (fun q => K q \/ started a q) b -> linked K (a ++ b).
Proof.
  induction a as [|e a IH]; intros b K La Lb; cbn [Datatypes.app].
  - refine (linked_weaken _ _ _ _ Lb). intros p [H|(n & k & q & nm & pe & _ & [])]. exact H.
  - assert (W : forall K' : option Z -> Prop, (forall q, K q -> K' q) -> (match e with Start n _ _ _ _ => K' (Some n) | _ => True end) -> linked (fun q => K' q \/ started a q) b).
    { intros K' HK HS. refine (linked_weaken _ _ _ _ Lb). intros q [H|(n & k & p & nm & pe & -> & [E|Hi])]; [left; apply HK; exact H|subst e; left; exact HS|].
      right. exists n, k, p, nm, pe. auto. }
    destruct e; cbn [linked] in *; try (apply IH; [exact La|apply W; auto]).
    destruct La as [L1 L2]. split; [exact L1|]. apply IH; [exact L2|]. apply W; auto.
Qed.

Definition known_after (K : option Z -> Prop) (t : list event) (q : option Z) : Prop := K q \/ started t q.
Definition links (w w' : world) : Prop :=
  exists t, trace w' = trace w ++ t /\ linked (eq (stored w)) t /\ known_after (eq (stored w)) t (stored w').

Lemma started_app a b q : started (a ++ b) q <-> started a q \/ started b q.
Proof.
  split.
  - intros (n & k & p & nm & pe & E & H). apply in_app_or in H. destruct H as [H|H]; [left|right]; exists n, k, p, nm, pe; auto.
  - intros [(n & k & p & nm & pe & E & H)|(n & k & p & nm & pe & E & H)]; exists n, k, p, nm, pe; (split; [exact E|]); apply in_or_app; auto.
Qed.

Lemma links_refl w : links w w.
Proof. exists []. rewrite app_nil_r. split; [reflexivity|]. split; [exact I|left; reflexivity]. Qed.

Lemma links_trans a b c : links a b -> links b c -> links a c.
Proof.
  intros (t & E & L & S1) (u & E' & L' & S2). exists (t ++ u). rewrite E', E, app_assoc. split; [reflexivity|]. split.
  - apply linked_app; [exact L|]. refine (linked_weaken _ _ _ _ L'). intros p <-. exact S1.
  - destruct S2 as [<-|S2].
    + destruct S1 as [S1|S1]; [left; exact S1|right; apply started_app; left; exact S1].
    + right. apply started_app. right. exact S2.
Qed.

(** Events that start no span. *)
Definition inner (t : list event) : Prop := forall n k p name peer, ~ In (Start n k p name peer) t.
Lemma inner_linked t K : inner t -> linked K t.
Proof.
  induction t as [|e t IH]; intros H; [exact I|]. assert (Ht : inner t) by (intros n k p nm pe Hi; exact (H n k p nm pe (or_intror Hi))).
  destruct e; cbn [linked]; try exact (IH Ht). exfalso. exact (H _ _ _ _ _ (or_introl eq_refl)).
Qed.
Lemma links_emit t w : inner t -> links w (emit t w).
Proof. intros H. exists t. split; [reflexivity|]. split; [apply inner_linked; exact H|left; reflexivity]. Qed.
Ltac no_start := let X := fresh in intros ? ? ? ? ? X; cbn [In Datatypes.app] in X; repeat (destruct X as [X|X]; [congruence|]); destruct X.

(** Hooks: the context is the current span or one started since. *)
Lemma before_links hs : forall c name text w, exists t, trace (fst (before_all hs c name text w)) = trace w ++ t /\
  stored (fst (before_all hs c name text w)) = stored w /\ linked (eq c) t.
Proof.
  induction hs as [|[o [|]|[x|] y] hs IH]; intros c name text w; cbn [before_all before_process start];
    try (exists []; rewrite app_nil_r; split; [reflexivity|split; [reflexivity|exact I]]); [|apply IH].
  set (w1 := emit _ _). destruct (IH (Some (next w)) name text w1) as (t & E & St & L).
  exists (([Start (next w) Exit c name (peer o)] ++ redis_setup (next w) o name text) ++ t). split; [rewrite E; subst w1; cbn [emit trace]; rewrite <- !app_assoc; reflexivity|].
  split; [rewrite St; reflexivity|]. apply linked_app.
  - cbn [Datatypes.app linked redis_setup]. auto.
  - refine (linked_weaken _ _ _ _ L). intros p <-. right. exists (next w), Exit, c, name, (peer o). split; [reflexivity|left; reflexivity].
Qed.

Lemma after_links hs : forall c err w, exists t, trace (fst (after_all hs c err w)) = trace w ++ t /\ stored (fst (after_all hs c err w)) = stored w /\ inner t.
Proof.
  induction hs as [|[o ok|x y] hs IH]; intros c err w; cbn [after_all].
  - exists []. rewrite app_nil_r. split; [reflexivity|]. split; [reflexivity|no_start].
  - destruct (IH c err (after_process o c err w)) as (t & E & St & L). unfold after_process in *. destruct c as [n|]; [|exists t; auto].
    set (es := match err with Some e => _ | None => _ end ++ [End n]) in *. exists (es ++ t). rewrite E, St. cbn [emit trace stored]. rewrite app_assoc.
    split; [reflexivity|]. split; [reflexivity|]. intros m k p nm pe H. apply in_app_or in H. destruct H as [H|H]; [|exact (L _ _ _ _ _ H)].
    revert H. subst es. destruct err; cbn; intuition discriminate.
  - destruct (IH c err w) as (t & E & St & L). destruct (after_all hs c err w). exists t. auto.
Qed.

Lemma process_links hs name text err own w : links w (fst (process hs name text err own w)).
Proof.
  unfold process. destruct (before_links hs (stored w) name text w) as (t & E & St & L). destruct (before_all hs (stored w) name text w) as [u [[c [e|]]|]]; cbn [fst] in *;
    try (exists t; split; [exact E|split; [exact L|left; congruence]]).
  destruct (after_links hs c err u) as (t' & E' & St' & L'). destruct (after_all hs c err u) as [u' x]. cbn [fst] in *.
  exists (t ++ t'). rewrite E', E, app_assoc. split; [reflexivity|]. split; [apply linked_app; [exact L|apply inner_linked; exact L']|left; congruence].
Qed.

Lemma client_links o tracing ok r a w : links w (fst (client_call o tracing ok r a w)).
Proof.
  unfold client_call, create_span. destruct (tracing && ok).
  - cbn [start]. assert (Q : links w (emit (http_setup (next w) 5005 r) (mkWorld (next w + 1) (stored w) (trace w ++ [Start (next w) Exit (stored w) (operation_name r) (host r)])))).
    { exists ([Start (next w) Exit (stored w) (operation_name r) (host r)] ++ http_setup (next w) 5005 r). split; [cbn [emit trace]; rewrite <- app_assoc; reflexivity|].
      split; [cbn; auto|left; reflexivity]. }
    destruct a as [x|e]; cbn [fst end_span end_span_error]; (eapply links_trans; [exact Q|]); apply links_emit.
    + destruct (status x >=? 400); no_start.
    + no_start.
  - destruct a; apply links_refl.
Qed.

Definition linking (f : state -> state * result) : Prop := forall s, links (world_of s) (world_of (fst (f s))).

Lemma run_links req f p : linking f -> linking (run req f p).
Proof.
  intros Hf. induction p as [e| |p IH k IHk|x| | |hooks c|hooks cs|o tr ok rq a|o setup ce]; intros s; cbn [run]; try apply links_refl.
  - pose proof (IH s) as Q. destruct (run req f p s) as [s1 [e|]]; cbn [fst] in *; [|exact Q]. exact (links_trans _ _ _ Q (IHk e s1)).
  - exact (Hf s).
  - unfold in_world. pose proof (process_links hooks (c_name c) (c_text c) (c_err c) (c_err c) (world_of s)) as Q. destruct (process _ _ _ _ _ (world_of s)). exact Q.
  - unfold in_world. pose proof (process_links hooks (quick_join cs "|" c_name) (quick_join cs "|" c_text) (pipeline_error cs) (first_error cs) (world_of s)) as Q.
    destruct (process _ _ _ _ _ (world_of s)). exact Q.
  - unfold in_world. pose proof (client_links o tr ok rq a (world_of s)) as Q. destruct (client_call _ _ _ _ _ (world_of s)). exact Q.
  - destruct setup as [[|]|]; try exact (Hf s). rewrite traced_unfold. set (s1 := mkState _ (rest s) _). pose proof (Hf s1) as Q.
    assert (Q0 : links (world_of s) (world_of s1)).
    { subst s1. unfold request_started. eexists. split; [reflexivity|]. cbn [world_of stored]. split; [cbn; auto|]. right.
      eexists _, _, _, _, _. split; [reflexivity|left; reflexivity]. }
    destruct (f s1) as [s2 [e|]]; cbn [fst world_of] in *; (eapply links_trans; [exact Q0|]); (eapply links_trans; [exact Q|]); [|apply links_refl].
    apply links_emit. unfold finish_events. destruct (failure_of o e ce (resp s2)); no_start.
Qed.

Lemma next_links req fuel : linking (next_with req fuel).
Proof.
  induction fuel as [|fuel IH]; intros s; cbn [next_with]; [apply links_refl|]. destruct (rest s) as [|h l] eqn:E; [apply links_refl|].
  pose proof (run_links req _ h IH (mkState (world_of s) l (resp s))) as Q. destruct (run req (next_with req fuel) h _) as [s1 [[e|]|]]; cbn [fst world_of] in *; try exact Q.
  exact (links_trans _ _ _ Q (IH s1)).
Qed.

(** * Joining *)

Lemma join_loop_spec {A} (f : A -> string) sep n : forall objs i sb, (i + length objs = n)%nat ->
  join_loop n i objs sep f sb = (sb +++ String.concat sep (map f objs)).
Proof.
  induction objs as [|x objs IH]; intros i sb H; cbn [join_loop map]; [cbn; rewrite append_empty; reflexivity|]. cbn [length] in H.
  destruct objs as [|y objs].
  - cbn [length] in H. destruct (Nat.ltb_spec i (n - 1)); [lia|]. cbn [join_loop map String.concat]. reflexivity.
  - destruct (Nat.ltb_spec i (n - 1)) as [L|L]; [|cbn [length] in H; lia]. rewrite IH by (cbn [length] in *; lia).
    cbn [map]. rewrite concat_cons2. rewrite !append_assoc'. reflexivity.
Qed.

Lemma join_spec {A} (f : A -> string) sep objs : quick_join objs sep f = String.concat sep (map f objs).
Proof. unfold quick_join. rewrite join_loop_spec by reflexivity. reflexivity. Qed.

Lemma join_error_acc cs : forall sb, sb <> "" ->
  fold_left (fun sb c => match c_err c with None => sb | Some e => ((if (sb =? "")%string then sb else sb +++ "|") +++ e) end) cs sb =
  String.concat "|" (sb :: errors_of cs).
Proof.
  induction cs as [|c cs IH]; intros sb H; [reflexivity|]. cbn [fold_left errors_of]. destruct (c_err c) as [e|]; [|apply IH; exact H].
  apply String.eqb_neq in H. rewrite H. rewrite IH.
  - rewrite (concat_cons2 "|" sb e). destruct (errors_of cs) as [|x l]; [cbn [String.concat]; rewrite append_assoc'; reflexivity|].
    rewrite !concat_cons2, !append_assoc'. reflexivity.
  - apply String.eqb_neq in H. destruct sb; [congruence|discriminate].
Qed.

Lemma join_error_spec cs : quick_join_error cs "|" = String.concat "|" (drop_empty (errors_of cs)).
Proof.
  unfold quick_join_error. induction cs as [|c cs IH]; [reflexivity|]. cbn [fold_left errors_of]. destruct (c_err c) as [e|]; [|exact IH].
  cbn [String.eqb]. change ("" +++ e) with e. destruct e as [|a e]; [exact IH|]. rewrite join_error_acc by discriminate. reflexivity.
Qed.

Lemma concat_head x l : x <> "" -> String.concat "|" (x :: l) <> "".
Proof. intros H. destruct l as [|y l]; [exact H|]. rewrite concat_cons2. destruct x; [congruence|discriminate]. Qed.

Lemma drop_empty_head l : drop_empty l = [] /\ Forall (eq "") l \/ exists x t, drop_empty l = x :: t /\ x <> "" /\ In x l.
Proof.
  induction l as [|[|a x] l IH]; [left; split; [reflexivity|constructor]| |right; exists (String.String a x), l; split; [reflexivity|split; [discriminate|left; reflexivity]]].
  cbn [drop_empty]. destruct IH as [[E F]|(x & t & E & N & H)]; [left; split; [exact E|constructor; [reflexivity|exact F]]|right].
  exists x, t. split; [exact E|split; [exact N|right; exact H]].
Qed.

Lemma pipeline_error_none cs : pipeline_error cs = None <-> Forall (eq "") (errors_of cs).
Proof.
  unfold pipeline_error. rewrite join_error_spec. destruct (drop_empty_head (errors_of cs)) as [[E F]|(x & t & E & N & H)]; rewrite E.
  - cbn. tauto.
  - pose proof (concat_head x t N) as C. apply String.eqb_neq in C. rewrite C. split; [discriminate|]. intros F. rewrite Forall_forall in F. destruct (N (eq_sym (F x H))).
Qed.

(** * Options *)

Lemma http_options_spec l : (log_error (http_options l) = true <-> In WithLogError l) /\ (log_4xx_body (http_options l) = true <-> In WithLog4xxBody l).
Proof.
  assert (G : forall l o, (log_error (fold_left apply_http l o) = true <-> log_error o = true \/ In WithLogError l) /\
    (log_4xx_body (fold_left apply_http l o) = true <-> log_4xx_body o = true \/ In WithLog4xxBody l)).
  { clear. induction l as [|x l IH]; intros o; cbn [fold_left In]; [tauto|]. destruct (IH (apply_http o x)) as [A B]. rewrite A, B.
    destruct x; cbn [apply_http log_error log_4xx_body]; split; intuition (try discriminate). }
  destruct (G l (mkHttpOpts false false)) as [A B]. unfold http_options. rewrite A, B. cbn. split; intuition discriminate.
Qed.

Lemma redis_options_spec l : let o := redis_options l in peer o = last_addr l /\ db o = last_db l /\
  (redis_log_error o = true <-> In WithRedisLogError l) /\ (report_args o = true <-> In WithArgsReport l).
Proof.
  assert (G : forall l o, let o' := fold_left apply_redis l o in
    peer o' = fold_left (fun a x => match x with WithAddr b => b | _ => a end) l (peer o) /\
    db o' = fold_left (fun a x => match x with WithDb b => itoa b | _ => a end) l (db o) /\
    (redis_log_error o' = true <-> redis_log_error o = true \/ In WithRedisLogError l) /\
    (report_args o' = true <-> report_args o = true \/ In WithArgsReport l)).
  { clear. induction l as [|x l IH]; intros o; cbn [fold_left In]; [tauto|]. destruct (IH (apply_redis o x)) as (A & B & C & D). cbv zeta. rewrite A, B, C, D.
    destruct x as [a|d| |]; cbn [apply_redis peer db redis_log_error report_args]; (split; [reflexivity|]); (split; [reflexivity|]); split; intuition (try discriminate). }
  destruct (G l (mkRedisOpts "" "" false false)) as (A & B & C & D). unfold redis_options. cbv zeta. rewrite A, B, C, D. cbn. split; [reflexivity|]. split; [reflexivity|].
  split; intuition discriminate.
Qed.

(** * Redis results and privacy *)

Lemma process_private hs name text text' err own w : (forall o ok, In (Tracing o ok) hs -> report_args o = false) ->
  process hs name text err own w = process hs name text' err own w.
Proof.
  intros H. unfold process. assert (E : forall c w, before_all hs c name text w = before_all hs c name text' w).
  { induction hs as [|[o [|]|[x|] y] hs IH]; intros c u; cbn [before_all before_process start]; try reflexivity.
    - unfold redis_setup. rewrite (H o true) by (left; reflexivity). apply IH. intros o' ok' Hi. apply (H o' ok'). right. exact Hi.
    - apply IH. intros o' ok' Hi. apply (H o' ok'). right. exact Hi. }
  rewrite E. reflexivity.
Qed.

Lemma after_private hs c e e' : (forall o ok, In (Tracing o ok) hs -> redis_log_error o = false) -> forall w,
  after_all hs c (Some e) w = after_all hs c (Some e') w.
Proof.
  induction hs as [|[o ok|x y] hs IH]; intros H w; cbn [after_all]; [reflexivity| |].
  - unfold after_process. rewrite (H o ok) by (left; reflexivity). apply IH. intros o' ok' Hi. apply (H o' ok'). right. exact Hi.
  - rewrite IH by (intros o' ok' Hi; apply (H o' ok'); right; exact Hi). reflexivity.
Qed.

Lemma process_one o name text err own w : process [Tracing o true] name text err own w =
  (mkWorld (next w + 1) (stored w)
     (trace w ++ [Start (next w) Exit (stored w) name (peer o); Tag (next w) "db.statement" (if report_args o then text else name);
                  Tag (next w) "db.instance" (db o); Tag (next w) "db.type" "Redis"; Component (next w) 7; Layer (next w) Cache]
      ++ match err with Some e => [Fail (next w) (if redis_log_error o then Some e else None)] | None => [] end ++ [End (next w)]),
   Ret (option_map plain_error own)).
Proof.
  unfold process. cbn [before_all before_process start after_all after_process emit next stored trace redis_setup].
  unfold emit. cbn [next stored trace]. rewrite <- !app_assoc. cbn [Datatypes.app]. reflexivity.
Qed.

Lemma client_results o tracing ok r a w : snd (client_call o tracing ok r a w) = snd (client_call o true true r a w).
Proof. unfold client_call, create_span. destruct tracing, ok, a; reflexivity. Qed.

Lemma identity_inj a b x y : ~ mentions ":" a -> ~ mentions ":" b -> a +++ "::" +++ x = b +++ "::" +++ y -> a = b /\ x = y.
Proof.
  revert b. induction a as [|c a IH]; intros b Ha Hb H; destruct b as [|d b]; cbn [String.append] in H.
  - split; [reflexivity|congruence].
  - exfalso. apply Hb. left. congruence.
  - exfalso. apply Ha. left. congruence.
  - destruct (IH b (fun X => Ha (or_intror X)) (fun X => Hb (or_intror X))) as [-> ->]; [cbn [String.append]; congruence|]. split; [congruence|reflexivity].
Qed.
