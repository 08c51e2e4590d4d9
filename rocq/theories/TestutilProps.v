(** Theorems about the test helpers (C122). *)
From Verif Require Import Common Bytes TestutilModel TestutilSpec.
Local Open Scope string_scope.

Lemma snoc_nil A (l : list A) x : (l ++ [x])%list <> [].
Proof. destruct l; discriminate. Qed.

(** A test fails exactly if one of the checked functions reported a failure or did not do what the helper is meant
    to check; every check is made, and a panic of the function never leaves the helper. *)
Theorem helpers_verdict : forall V (deep : V -> V -> bool) show for_nil hs,
  Forall (fun h => plain_body (body_of h)) hs ->
  (run_test deep show for_nil hs = [] <-> Forall (fun h => fst (body_of h) = [] /\ holds deep h) hs) /\
  Forall (fun h => snd (help deep show for_nil h) = Returns) hs.
Proof.
  intros V deep show for_nil hs P. induction P as [|h hs [Ne Nn] P [IH1 IH2]]; [split; [split; constructor|constructor]|].
  assert (E : snd (help deep show for_nil h) = Returns /\ (fst (help deep show for_nil h) = [] <-> fst (body_of h) = [] /\ holds deep h)).
  { destruct h as [title [lines e]|title expected [lines e]|title [lines e]]; cbn in Ne, Nn |- *.
    - destruct e as [|v|]; [| |congruence]; (split; [reflexivity|]); cbn.
      + split; [intros X; destruct (snoc_nil _ _ _ X)|intros (_ & v & X); discriminate].
      + split; [intros X; split; [exact X|exists v; reflexivity]|tauto].
    - destruct e as [|[v|]|]; [| |congruence|congruence]; (split; [reflexivity|]); cbn.
      + split; [destruct expected; cbn; intros X; destruct (snoc_nil _ _ _ X)|intros (_ & v & X & _); discriminate].
      + destruct expected as [x|]; cbn.
        * destruct (deep v x) eqn:D; cbn.
          -- split; [intros X; split; [exact X|exists (Some v); auto]|tauto].
          -- split; [intros X; destruct (snoc_nil _ _ _ X)|]. intros (_ & w & X & Y). injection X as <-. congruence.
        * split; [intros X; destruct (snoc_nil _ _ _ X)|]. intros (_ & w & X & Y). injection X as <-. destruct Y.
    - destruct e as [|[v|]|]; [| |congruence|congruence]; (split; [reflexivity|]); cbn.
      + split; [intros X; split; [exact X|discriminate]|tauto].
      + split; [intros X; destruct (snoc_nil _ _ _ X)|]. intros (_ & X). destruct (X (Some v) eq_refl). }
  destruct E as [E1 E2]. split; [|constructor; assumption]. cbn. destruct (help deep show for_nil h) as [lines e]. cbn in E1, E2. subst e. split.
  - intros X. apply app_eq_nil in X. destruct X as [X Y]. constructor; [apply E2; exact X|apply IH1; exact Y].
  - intros X. inversion X as [|? ? A B]; subst. apply E2 in A. apply IH1 in B. rewrite A, B. reflexivity.
Qed.
Print Assumptions helpers_verdict.

(** Without that assumption: a function that ends the goroutine ends the test there, and is not reported by
    ShouldPanic, nor by ExpectPanic if nil is expected; panic(nil) is reported by ShouldNotPanic from Go 1.21 on only. *)
Theorem helpers_exact : forall V (deep : V -> V -> bool) show for_nil title (lines : list string) (e : finish V) expected,
  (fst (should_panic title (lines, e)) = [] <-> lines = [] /\ e <> Returns) /\
  (fst (expect_panic deep show for_nil title expected (lines, e)) = [] <->
     lines = [] /\ e <> Returns /\ deep_equal deep (recovered for_nil e) expected = true) /\
  (fst (should_not_panic show for_nil title (lines, e)) = [] <-> lines = [] /\ recovered for_nil e = None) /\
  (forall h, body_of h = (lines, e) -> (snd (help deep show for_nil h) = Exits <-> e = Exits)).
Proof.
  intros V deep show for_nil title lines e expected. split; [|split; [|split]].
  - destruct e; cbn; (split; [intros X|intros [X Y]; try congruence]); [destruct (snoc_nil _ _ _ X)|split; [exact X|discriminate]..].
  - destruct e as [|v|]; cbn [expect_panic fst]; destruct (deep_equal deep _ expected) eqn:D; cbn [negb]; (split; [intros X|intros (X & Y & Z); try congruence]);
      first [destruct (snoc_nil _ _ _ X)|split; [exact X|split; [discriminate|reflexivity]]].
  - cbn. destruct (recovered for_nil e); cbn; (split; [intros X|intros [X Y]; try congruence]); [destruct (snoc_nil _ _ _ X)|split; [exact X|reflexivity]].
  - intros [t f|t x f|t f] B; cbn in B; subst f; cbn [help].
    all: destruct e as [|[v|]|]; destruct for_nil; cbn; split; congruence.
Qed.
Print Assumptions helpers_exact.

(** That a test passes only if all checks hold is false: a function that calls runtime.Goexit, and panic(nil) to Go
    1.20. *)
Theorem helpers_verdict_refuted : forall V (deep : V -> V -> bool) show for_nil,
  ~ (forall hs, run_test deep show for_nil hs = [] -> Forall (holds deep) hs) /\
  ~ (forall hs, Forall (fun h => snd (body_of h) <> Exits) hs -> run_test deep show None hs = [] -> Forall (holds deep) hs).
Proof.
  intros V deep show for_nil. split; intros H.
  - specialize (H [HShould "t" ([], Exits)] eq_refl). apply Forall_inv in H. destruct H as [v X]. discriminate.
  - specialize (H [HShouldNot "t" ([], Panics None)]). assert (N : Forall (fun h => snd (body_of h) <> Exits) [HShouldNot "t" ([], Panics (V := V) None)]) by (repeat constructor; discriminate).
    specialize (H N eq_refl). apply Forall_inv in H. exact (H None eq_refl).
Qed.
Print Assumptions helpers_verdict_refuted.

Example helpers_case : let show (v : option nat) := match v with Some _ => "v" | None => "<nil>" end in
  let hs := [HShould "a" ([], Panics (Some 1%nat)); HExpect "b" (Some 2%nat) ([], Panics (Some 3%nat)); HShouldNot "c" ([], Returns); HExpect "d" (Some 2%nat) ([], Returns)] in
  Forall (fun h => plain_body (body_of h)) hs /\
  run_test Nat.eqb show None hs = ["b panic = [v], want [v]"; "d did not panicked"; "d panic = [<nil>], want [v]"].
Proof. split; [repeat constructor; discriminate|vm_compute; reflexivity]. Qed.
