(** Lemmas about the scripts of the Redis TTL rate limiter. *)
From Verif Require Import Common Bytes RedisTtlModel RedisTtlSpec RedisTtlProofs RedisReconfSpec RedisReconfProofs
  RedisLapseModel RedisLapseSpec RedisLapseProofs RedisScriptModel RedisScriptSpec.
Local Open Scope Z_scope.
Local Open Scope list_scope.

Lemma fset_same A i (x : A) f : fset i x f i = x.
Proof. unfold fset. rewrite Nat.eqb_refl. reflexivity. Qed.
Lemma fset_other A i j (x : A) f : j <> i -> fset i x f j = f j.
Proof. intros N. unfold fset. destruct (Nat.eqb_spec j i); congruence. Qed.

Lemma run_snoc es e y : fst (do_sevents (es ++ [e]) y) = fst (do_sevent e (fst (do_sevents es y))).
Proof.
  revert y. induction es as [|a es IH]; intros y; cbn.
  - destruct (do_sevent e y). reflexivity.
  - destruct (do_sevent a y) as [y1 r]. specialize (IH y1). destruct (do_sevents (es ++ [e]) y1), (do_sevents es y1). exact IH.
Qed.
Notation after pre := (fst (do_sevents pre start)).

(** What is stored: digests and scripts. *)
Definition kept (sc : script) (s : nat) (pre : list sevent) : Prop :=
  exists a e b, pre = a ++ e :: b /\ brought sc s e = true /\ existsb (forgets s) b = false.
Lemma kept_snoc sc s pre e : kept sc s (pre ++ [e]) <-> brought sc s e = true \/ (forgets s e = false /\ kept sc s pre).
Proof.
  split.
  - intros (a & f & b & E & B & F). destruct (exists_last (l := f :: b)) as (b' & z & Eb); [discriminate|]. rewrite Eb, app_assoc in E. apply app_inj_tail in E. destruct E as [-> ->].
    destruct b' as [|f' b']; cbn in Eb; injection Eb as Ef Eb2.
    + left. rewrite <- Ef. exact B.
    + right. subst f' b. rewrite existsb_app in F. cbn in F. apply Bool.orb_false_iff in F. destruct F as [F1 F2]. split; [destruct (forgets s z); [discriminate|reflexivity]|]. exists a, f, b'. auto.
  - intros [B|[F (a & f & b & -> & B & Fb)]].
    + exists pre, e, []. auto.
    + exists a, f, (b ++ [e]). split; [rewrite <- app_assoc; reflexivity|]. split; [exact B|]. rewrite existsb_app, Fb. cbn. rewrite F. reflexivity.
Qed.
Lemma kept_nil sc s : ~ kept sc s [].
Proof. intros (a & e & b & E & _). destruct a; discriminate. Qed.

Record stored (pre : list sevent) (y : sys) : Prop := Stored {
  st_sha1 : forall p, y_sha1 y p = if existsb (learnt Script1 p) pre then Some Script1 else None;
  st_sha2 : forall p, y_sha2 y p = if existsb (learnt Script2 p) pre then Some Script2 else None;
  st_cache : forall s sc, existsb (script_eqb sc) (y_cache y s) = true <-> kept sc s pre }.

Lemma existsb_snoc A (f : A -> bool) l x : existsb f (l ++ [x]) = existsb f l || f x.
Proof. rewrite existsb_app. cbn. rewrite Bool.orb_false_r. reflexivity. Qed.

Lemma stored_after pre : stored pre (after pre).
Proof.
  induction pre as [|e pre IH] using rev_ind.
  { split; cbn; [reflexivity|reflexivity|]. intros s sc. split; [discriminate|]. intros K. destruct (kept_nil _ _ K). }
  rewrite run_snoc. set (y := after pre) in *. clearbody y. destruct IH as [A B C].
  assert (Same : forall p, learnt Script1 p e = false -> learnt Script2 p e = false ->
    (if existsb (learnt Script1 p) (pre ++ [e]) then Some Script1 else None) = y_sha1 y p /\ (if existsb (learnt Script2 p) (pre ++ [e]) then Some Script2 else None) = y_sha2 y p).
  { intros p E1 E2. rewrite !existsb_snoc, E1, E2, !Bool.orb_false_r, A, B. auto. }
  destruct e as [p s n1 n2|p s c|s t back|s t back]; cbn [do_sevent].
  - unfold load_scripts, load_script. destruct n1; [destruct n2|..]; cbn [fst snd]; split; intros.
    all: try (rewrite existsb_snoc; cbn [learnt net_is]; rewrite ?Bool.andb_true_r, ?Bool.andb_false_r, ?Bool.orb_false_r; cbn;
      try (unfold fset at 1; rewrite (Nat.eqb_sym p0 p); destruct (Nat.eqb_spec p p0) as [->|N]; rewrite ?Bool.orb_true_r, ?Bool.orb_false_r; try reflexivity); apply A || apply B).
    all: rewrite kept_snoc; cbn [brought forgets net_is negb andb put_cache put_sha1 put_sha2 y_cache]; rewrite ?Bool.andb_true_r, ?Bool.andb_false_r.
    all: destruct (Nat.eq_dec s0 s) as [->|N]; [rewrite ?fset_same, ?Nat.eqb_refl|rewrite ?fset_other by exact N; assert (Q : (s =? s0)%nat = false) by (apply Nat.eqb_neq; auto); rewrite ?Q].
    all: destruct sc; cbn; rewrite ?fset_same, ?Bool.orb_true_iff, ?C; intuition (try discriminate).
  - destruct (call_with p s c y (current (y_hist y s))) as [d o]. split; cbn; intros.
    + symmetry. apply Same; reflexivity.
    + symmetry. apply Same; reflexivity.
    + rewrite kept_snoc, C. cbn. intuition discriminate.
  - split; cbn; intros; [symmetry; apply Same; reflexivity..|]. rewrite kept_snoc, C. cbn. intuition discriminate.
  - split; cbn; intros; [symmetry; apply Same; reflexivity..|]. rewrite kept_snoc. cbn. destruct (Nat.eq_dec s0 s) as [->|N].
    + rewrite fset_same, Nat.eqb_refl. cbn. intuition discriminate.
    + rewrite fset_other by exact N. assert (Q : (s =? s0)%nat = false) by (apply Nat.eqb_neq; auto). rewrite Q, C. intuition discriminate.
Qed.

Lemma named1 pre p s : (usable Script1 p s pre /\ named (y_sha1 (after pre) p) (y_cache (after pre) s) = Some Script1) \/
  (~ usable Script1 p s pre /\ named (y_sha1 (after pre) p) (y_cache (after pre) s) = None).
Proof.
  destruct (stored_after pre) as [A _ C]. rewrite A. unfold usable. fold (kept Script1 s pre). rewrite <- C. unfold named.
  destruct (existsb (learnt Script1 p) pre); [|right; split; [intros [X _]; discriminate|reflexivity]]. destruct (existsb (script_eqb Script1) _); [left|right]; intuition discriminate.
Qed.
Lemma named2 pre p s : (usable Script2 p s pre /\ named (y_sha2 (after pre) p) (y_cache (after pre) s) = Some Script2) \/
  (~ usable Script2 p s pre /\ named (y_sha2 (after pre) p) (y_cache (after pre) s) = None).
Proof.
  destruct (stored_after pre) as [_ B C]. rewrite B. unfold usable. fold (kept Script2 s pre). rewrite <- C. unfold named.
  destruct (existsb (learnt Script2 p) pre); [|right; split; [intros [X _]; discriminate|reflexivity]]. destruct (existsb (script_eqb Script2) _); [left|right]; intuition discriminate.
Qed.

(** One call. *)
Lemma call_usable pre p s c d : usable (needs c) p s pre -> call_with p s c (after pre) d = do_call c d.
Proof.
  intros U. unfold call_with, do_call, needs in *. destruct (c_op c).
  - destruct (named1 pre p s) as [[_ ->]|[N _]]; [reflexivity|destruct (N U)].
  - destruct (named2 pre p s) as [[_ ->]|[N _]]; [reflexivity|destruct (N U)].
Qed.
Lemma call_unusable pre p s c d : ~ usable (needs c) p s pre -> call_with p s c (after pre) d = (d, Returned zero_result).
Proof.
  intros U. unfold call_with, needs in *. destruct (c_op c).
  - destruct (named1 pre p s) as [[V _]|[_ ->]]; [destruct (U V)|]. unfold should_block2_with. destruct (params_not_set p0); reflexivity.
  - destruct (named2 pre p s) as [[V _]|[_ ->]]; [destruct (U V)|]. reflexivity.
Qed.
Lemma call_unreached c d : do_call (unreached c) d = (d, Returned zero_result).
Proof. unfold do_call, unreached. cbn. destruct (c_op c); [|reflexivity]. unfold should_block2. destruct (params_not_set p0); reflexivity. Qed.
Lemma usable_dec sc p s pre : usable sc p s pre \/ ~ usable sc p s pre.
Proof. destruct sc; [destruct (named1 pre p s)|destruct (named2 pre p s)]; tauto. Qed.

(** Only events at a server change its data. *)
Lemma load_hist p s n1 n2 y : y_hist (fst (load_scripts p s n1 n2 y)) = y_hist y.
Proof. unfold load_scripts, load_script. destruct n1; [destruct n2|..]; reflexivity. Qed.

Lemma seen_run s : forall es pre fs, seen_as s pre es fs ->
  y_hist (fst (do_sevents es (after pre))) s = fst (do_events fs (y_hist (after pre) s)) /\
  map snd (at_server s es (snd (do_sevents es (after pre)))) = map snd (snd (do_events fs (y_hist (after pre) s))).
Proof.
  intros es pre fs H. induction H as [pre|pre p r n1 n2 es fs H IH|pre p c es fs U H IH|pre p c es fs U H IH|pre p r c es fs N H IH|pre t back es fs H IH|pre r t back es fs N H IH|pre t back es fs H IH|pre r t back es fs N H IH];
    [split; reflexivity|rewrite run_snoc in IH; cbn [do_sevents do_sevent do_events] in IH |- *..].
  - pose proof (load_hist p r n1 n2 (after pre)) as L. destruct (load_scripts p r n1 n2 (after pre)) as [y ok]. cbn [fst] in *. rewrite L in IH. destruct (do_sevents es y) as [y2 rs]. exact IH.
  - rewrite (call_usable _ _ _ _ _ U) in *. destruct (do_call c (current (y_hist (after pre) s))) as [d o]. cbn [fst put_hist y_hist] in IH. rewrite fset_same in IH. cbn in IH |- *.
    destruct (do_sevents es (put_hist s (d :: y_hist (after pre) s) (after pre))) as [y2 rs]. destruct (do_events fs (d :: y_hist (after pre) s)) as [h r]. cbn in *. rewrite Nat.eqb_refl. cbn. destruct IH as [I1 I2]. split; [exact I1|f_equal; exact I2].
  - rewrite (call_unusable _ _ _ _ _ U) in *. rewrite call_unreached. cbn [fst put_hist y_hist] in IH. rewrite fset_same in IH. cbn in IH |- *.
    set (d := current (y_hist (after pre) s)) in *.
    destruct (do_sevents es (put_hist s (d :: y_hist (after pre) s) (after pre))) as [y2 rs]. destruct (do_events fs (d :: y_hist (after pre) s)) as [h r]. cbn in *. rewrite Nat.eqb_refl. cbn. destruct IH as [I1 I2]. split; [exact I1|f_equal; exact I2].
  - destruct (call_with p r c (after pre) (current (y_hist (after pre) r))) as [d o]. cbn [fst put_hist y_hist] in IH. rewrite fset_other in IH by auto. cbn in IH |- *.
    destruct (do_sevents es (put_hist r (d :: y_hist (after pre) r) (after pre))) as [y2 rs]. cbn in *. destruct (Nat.eqb_spec r s); [congruence|]. exact IH.
  - cbn [fst put_hist y_hist] in IH. rewrite fset_same in IH. destruct (do_sevents es (put_hist s _ (after pre))) as [y2 rs]. cbn in *. exact IH.
  - cbn [fst put_hist y_hist] in IH. rewrite fset_other in IH by auto. destruct (do_sevents es (put_hist r _ (after pre))) as [y2 rs]. cbn in *. exact IH.
  - cbn [fst put_cache put_hist y_hist] in IH. rewrite fset_same in IH. destruct (do_sevents es (put_cache s [] _)) as [y2 rs]. cbn in *. exact IH.
  - cbn [fst put_cache put_hist y_hist] in IH. rewrite fset_other in IH by auto. destruct (do_sevents es (put_cache r [] _)) as [y2 rs]. cbn in *. exact IH.
Qed.

Lemma seen_exists s : forall es pre, exists fs, seen_as s pre es fs.
Proof.
  induction es as [|e es IH]; intros pre; [eexists; constructor|]. destruct (IH (pre ++ [e])) as [fs H]. destruct e as [p r n1 n2|p r c|r t back|r t back].
  - eexists. constructor. exact H.
  - destruct (Nat.eq_dec r s) as [->|N]; [|eexists; apply Seen_other; [exact N|exact H]]. destruct (usable_dec (needs c) p s pre); eexists; [apply Seen_call|apply Seen_lost]; eassumption.
  - destruct (Nat.eq_dec r s) as [->|N]; eexists; [apply Seen_lapse|apply Seen_lapse_other]; eassumption.
  - destruct (Nat.eq_dec r s) as [->|N]; eexists; [apply Seen_restart|apply Seen_restart_other]; eassumption.
Qed.

Lemma ready_tail s pre e es : ready s pre (e :: es) -> ready s (pre ++ [e]) es.
Proof. intros R a p c b ->. rewrite <- app_assoc. apply (R (e :: a) p c b). reflexivity. Qed.
Lemma ready_seen s : forall es pre, ready s pre es -> seen_as s pre es (plain s es).
Proof.
  induction es as [|e es IH]; intros pre R; [constructor|]. specialize (IH (pre ++ [e]) (ready_tail _ _ _ _ R)). destruct e as [p r n1 n2|p r c|r t back|r t back]; cbn [plain].
  - constructor. exact IH.
  - destruct (Nat.eqb_spec r s) as [->|N]; [|apply Seen_other; auto]. apply Seen_call; [|exact IH]. specialize (R [] p c es eq_refl). rewrite app_nil_r in R. exact R.
  - destruct (Nat.eqb_spec r s) as [->|N]; [apply Seen_lapse|apply Seen_lapse_other]; auto.
  - destruct (Nat.eqb_spec r s) as [->|N]; [apply Seen_restart|apply Seen_restart_other]; auto.
Qed.

Lemma at_server_calls s : forall es y, map fst (at_server s es (snd (do_sevents es y))) = calls_of (plain s es).
Proof.
  induction es as [|e es IH]; intros y; [reflexivity|]. cbn [do_sevents]. destruct e as [p r n1 n2|p r c|r t back|r t back]; cbn [do_sevent plain].
  - destruct (load_scripts p r n1 n2 y) as [y1 ok]. specialize (IH y1). destruct (do_sevents es y1). exact IH.
  - destruct (call_with p r c y (current (y_hist y r))) as [d o]. specialize (IH (put_hist r (d :: y_hist y r) y)). destruct (do_sevents es _). cbn in *. destruct (r =? s)%nat; cbn; [f_equal|]; exact IH.
  - specialize (IH (put_hist r (lapsed back (y_hist y r) :: y_hist y r) y)). destruct (do_sevents es _). cbn in *. destruct (r =? s)%nat; exact IH.
  - specialize (IH (put_cache r [] (put_hist r (lapsed back (y_hist y r) :: y_hist y r) y))). destruct (do_sevents es _). cbn in *. destruct (r =? s)%nat; exact IH.
Qed.
Lemma events_calls : forall es h, map fst (snd (do_events es h)) = calls_of es.
Proof.
  induction es as [|[c|t back] es IH]; intros h; cbn; [reflexivity|..].
  - destruct (do_call c (current h)) as [d o]. specialize (IH (d :: h)). destruct (do_events es (d :: h)). cbn in *. f_equal. exact IH.
  - apply IH.
Qed.
Lemma pairs_eq A B (l m : list (A * B)) : map fst l = map fst m -> map snd l = map snd m -> l = m.
Proof.
  revert m. induction l as [|[a b] l IH]; intros [|[c d] m] E F; cbn in *; try discriminate; [reflexivity|]. injection E as -> E. injection F as -> F. f_equal. apply IH; assumption.
Qed.

Lemma hist_start s : y_hist start s = [].
Proof. reflexivity. Qed.
Lemma ready_returns s pre es : ready s pre es -> exists fs, seen_as s [] pre fs /\ at_server_after s pre es = returns_after fs (plain s es).
Proof.
  intros R. destruct (seen_exists s pre []) as [fs F]. exists fs. split; [exact F|]. unfold at_server_after, returns_after.
  pose proof (seen_run s es pre _ (ready_seen s es pre R)) as [_ Q]. destruct (seen_run s pre [] fs F) as [H _]. cbn in H. rewrite H in Q.
  apply pairs_eq; [rewrite at_server_calls, events_calls; reflexivity|exact Q].
Qed.

Lemma seen_calls s : forall es pre fs, seen_as s pre es fs -> map (fun c => (c_lim c, c_op c)) (calls_of fs) = map (fun c => (c_lim c, c_op c)) (calls_of (plain s es)).
Proof.
  intros es pre fs H. induction H; cbn [plain]; rewrite ?Nat.eqb_refl; try (destruct (Nat.eqb_spec r s); [congruence|]); try assumption; try reflexivity; cbn; try (f_equal; assumption); assumption.
Qed.
Lemma separate_same cs ds : map (fun c => (c_lim c, c_op c)) cs = map (fun c => (c_lim c, c_op c)) ds -> separate cs -> separate ds.
Proof.
  intros E S c1 c2 H1 H2. assert (F : forall c, In c ds -> exists d, In d cs /\ counted_under c = counted_under d /\ blocked_under c = blocked_under d).
  { intros c H. apply (in_map (fun c => (c_lim c, c_op c))) in H. rewrite <- E in H. apply in_map_iff in H. destruct H as (d & Q & I). injection Q as Q1 Q2. exists d. split; [exact I|]. unfold counted_under, blocked_under. rewrite Q1, Q2. auto. }
  destruct (F c1 H1) as (d1 & I1 & A1 & B1), (F c2 H2) as (d2 & I2 & A2 & B2). rewrite A1, A2, B2. apply S; assumption.
Qed.
Lemma plain_app s es fs : plain s (es ++ fs) = plain s es ++ plain s fs.
Proof.
  induction es as [|e es IH]; [reflexivity|]. destruct e as [p r n1 n2|p r c|r t back|r t back]; cbn; rewrite IH; try reflexivity; destruct (r =? s)%nat; reflexivity.
Qed.
Lemma calls_of_app es fs : calls_of (es ++ fs) = calls_of es ++ calls_of fs.
Proof. unfold calls_of. apply flat_map_app. Qed.
Lemma ready_bound s rk window timeout K skew pre es x :
  0 < window -> 0 < timeout -> 0 <= K -> window * second + 2 * skew <= 2 * timeout * second ->
  separate (calls_of (plain s (pre ++ es))) -> nondecreasing (map event_t (plain s es)) -> Forall (in_sync skew) (calls_of (plain s es)) ->
  settled rk window timeout K (calls_of (plain s es)) -> nondecreasing (capacities rk (calls_of (plain s es))) ->
  ready s pre es ->
  passes_in rk x (x + window * second) (at_server_after s pre es) <= K * (1 + lapses_in rk (x - skew) (x + window * second + skew) (plain s es)).
Proof.
  intros W T K0 C Se N S St Ca R. destruct (ready_returns s pre es R) as (fs & F & ->). apply (lapse_bound rk window timeout K skew); try assumption.
  apply (separate_same (calls_of (plain s (pre ++ es)))); [|exact Se]. rewrite plain_app, !calls_of_app, !map_app, (seen_calls _ _ _ _ F). reflexivity.
Qed.

(** LoadScript. *)
Lemma load_makes_usable pre p s sc : usable sc p s (pre ++ [SLoad p s NetOk NetOk]).
Proof.
  split; [rewrite existsb_snoc; cbn; rewrite Nat.eqb_refl; destruct sc; apply Bool.orb_true_r|]. exists pre, (SLoad p s NetOk NetOk), []. split; [reflexivity|]. split; [|reflexivity].
  cbn. rewrite Nat.eqb_refl. destruct sc; reflexivity.
Qed.
Lemma usable_keeps sc p s pre es : usable sc p s pre -> existsb (forgets s) es = false -> usable sc p s (pre ++ es).
Proof.
  intros [L (a & e & b & -> & B & F)] N. split; [rewrite existsb_app, L; reflexivity|]. exists a, e, (b ++ es). split; [rewrite <- app_assoc; reflexivity|]. split; [exact B|]. rewrite existsb_app, F, N. reflexivity.
Qed.

(** After a restart, until something brings the script. *)
Lemma flushed sc s l m t back a e b : l ++ [SRestart s t back] ++ m = a ++ e :: b -> brought sc s e = true -> existsb (forgets s) b = false ->
  (forall x, In x m -> brought sc s x = false) -> False.
Proof.
  intros E B F M. revert a E. induction l as [|x l IH]; intros a E.
  - cbn in E. destruct a as [|y a]; cbn in E; injection E as E1 E2.
    + subst e. discriminate.
    + rewrite M in B; [discriminate|]. rewrite E2. apply in_elt.
  - destruct a as [|y a]; cbn in E; injection E as E1 E2; [|exact (IH a E2)].
    subst b. rewrite !existsb_app in F. cbn in F. rewrite Nat.eqb_refl in F. rewrite Bool.orb_true_r in F. discriminate.
Qed.
