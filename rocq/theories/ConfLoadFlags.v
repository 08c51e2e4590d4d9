(** The command line and the environment as lists of assignments. *)
From Verif Require Import Common Bytes ConfNamesModel ConfNamesSpec ConfNamesProofs
  ConfLoadModel ConfLoadSpec ConfLoadProofs.
Local Open Scope string_scope.
Local Open Scope list_scope.

(** * One argument *)

Lemma cut_eq_some s n v : cut_eq s = (n, Some v) -> s = (n ++ "=" ++ v)%string /\ ~ mentions "=" n.
Proof.
  revert n v. induction s as [|c s IH]; intros n v; cbn [cut_eq]; [discriminate|].
  destruct (Ascii.eqb c "=") eqn:Hc.
  - intros H. assert (n = "") as -> by congruence. assert (v = s) as -> by congruence.
    apply Ascii.eqb_eq in Hc as ->. split; [reflexivity|]. intros [].
  - destruct (cut_eq s) as [n' v'] eqn:Hs. intros H. assert (v' = Some v) as -> by congruence.
    assert (n = String.String c n') as -> by congruence. destruct (IH n' v eq_refl) as [-> Hm].
    split; [reflexivity|]. intros [->|Hm']; [discriminate|exact (Hm Hm')].
Qed.

Lemma cut_eq_none s n : cut_eq s = (n, None) -> s = n /\ ~ mentions "=" n.
Proof.
  revert n. induction s as [|c s IH]; intros n; cbn [cut_eq].
  - intros H. assert (n = "") as -> by congruence. split; [reflexivity|]. intros [].
  - destruct (Ascii.eqb c "=") eqn:Hc; [discriminate|].
    destruct (cut_eq s) as [n' v'] eqn:Hs. intros H. assert (v' = None) as -> by congruence.
    assert (n = String.String c n') as -> by congruence. destruct (IH n' eq_refl) as [-> Hm].
    split; [reflexivity|]. intros [->|Hm']; [discriminate|exact (Hm Hm')].
Qed.

Lemma cut_eq_app n v : ~ mentions "=" n -> cut_eq (n ++ "=" ++ v)%string = (n, Some v).
Proof.
  induction n as [|c n IH]; intros Hm; [reflexivity|]. cbn [String.append cut_eq].
  destruct (Ascii.eqb c "=") eqn:Hc.
  - apply Ascii.eqb_eq in Hc as ->. exfalso. apply Hm. left. reflexivity.
  - cbn [String.append] in IH. rewrite IH; [reflexivity|]. intros H. apply Hm. right. exact H.
Qed.

Lemma cut_eq_all n : ~ mentions "=" n -> cut_eq n = (n, None).
Proof.
  induction n as [|c n IH]; intros Hm; [reflexivity|]. cbn [cut_eq].
  destruct (Ascii.eqb c "=") eqn:Hc.
  - apply Ascii.eqb_eq in Hc as ->. exfalso. apply Hm. left. reflexivity.
  - rewrite IH; [reflexivity|]. intros H. apply Hm. right. exact H.
Qed.

(** The flag after the dashes. *)
Definition parse_name (name : string) : head :=
  match name with
  | String.EmptyString => HBad
  | String.String c _ =>
    if Ascii.eqb c "-" || Ascii.eqb c "=" then HBad
    else let '(n, v) := cut_name name in HFlag n v
  end.

Lemma flag_name_cons n : flag_name n ->
  exists c n', n = String.String c n' /\ c <> "-"%char /\ c <> "="%char /\ ~ mentions "=" n'.
Proof.
  intros (H1 & H2 & H3). destruct n as [|c n]; [contradiction|]. exists c, n.
  split; [reflexivity|]. split.
  - intros ->. apply (H3 n). reflexivity.
  - split; intros H; apply H2; [left; congruence|right; exact H].
Qed.

Lemma parse_name_eq n v : flag_name n -> parse_name (n ++ "=" ++ v)%string = HFlag n (Some v).
Proof.
  intros H. destruct (flag_name_cons n H) as (c & n' & -> & H1 & H2 & H3).
  cbn [String.append parse_name]. apply Ascii.eqb_neq in H1. apply Ascii.eqb_neq in H2.
  rewrite H1, H2. cbn [orb]. cbn [cut_name]. pose proof (cut_eq_app n' v H3) as Hc.
  cbn [String.append] in Hc. rewrite Hc. reflexivity.
Qed.

Lemma parse_name_all n : flag_name n -> parse_name n = HFlag n None.
Proof.
  intros H. destruct (flag_name_cons n H) as (c & n' & -> & H1 & H2 & H3).
  cbn [parse_name]. apply Ascii.eqb_neq in H1. apply Ascii.eqb_neq in H2.
  rewrite H1, H2. cbn [orb cut_name]. rewrite (cut_eq_all n' H3). reflexivity.
Qed.

Lemma parse_name_inv s n v : parse_name s = HFlag n v ->
  flag_name n /\ s = match v with Some v => (n ++ "=" ++ v)%string | None => n end.
Proof.
  destruct s as [|c s]; cbn [parse_name]; [discriminate|].
  destruct (Ascii.eqb c "-") eqn:H1; cbn [orb]; [discriminate|].
  destruct (Ascii.eqb c "=") eqn:H2; [discriminate|]. cbn [cut_name].
  destruct (cut_eq s) as [n' v'] eqn:Hc. intros H.
  assert (n = String.String c n') as -> by congruence. assert (v' = v) as -> by congruence.
  apply Ascii.eqb_neq in H1. apply Ascii.eqb_neq in H2.
  assert (Hf : ~ mentions "=" n' -> flag_name (String.String c n')).
  { intros Hm. split; [discriminate|]. split.
    - intros [H'|H']; [congruence|exact (Hm H')].
    - intros r Hr. cbn [String.append] in Hr. congruence. }
  destruct v as [v|].
  - destruct (cut_eq_some _ _ _ Hc) as [-> Hm]. split; [exact (Hf Hm)|reflexivity].
  - destruct (cut_eq_none _ _ Hc) as [-> Hm]. split; [exact (Hf Hm)|reflexivity].
Qed.

Lemma parse_head_dash1 c s : c <> "-"%char ->
  parse_head (String.String "-" (String.String c s)) = parse_name (String.String c s).
Proof. intros H. apply Ascii.eqb_neq in H. cbn [parse_head]. rewrite H. reflexivity. Qed.
Lemma parse_head_dash2 c s :
  parse_head (String.String "-" (String.String "-" (String.String c s))) = parse_name (String.String c s).
Proof. reflexivity. Qed.

Lemma parse_head_name d n r : dashes d -> flag_name n -> parse_head (d ++ n ++ r)%string = parse_name (n ++ r)%string.
Proof.
  intros Hd Hn. destruct (flag_name_cons n Hn) as (c & n' & -> & H1 & H2 & H3).
  destruct Hd as [->| ->]; cbn [String.append].
  - apply parse_head_dash1. exact H1.
  - apply parse_head_dash2.
Qed.

Lemma parse_head_eq d n v : dashes d -> flag_name n ->
  parse_head (d ++ n ++ "=" ++ v)%string = HFlag n (Some v).
Proof. intros Hd Hn. rewrite (parse_head_name d n _ Hd Hn). apply parse_name_eq. exact Hn. Qed.
Lemma parse_head_all d n : dashes d -> flag_name n -> parse_head (d ++ n)%string = HFlag n None.
Proof.
  intros Hd Hn. rewrite <- (append_empty n). rewrite (parse_head_name d n _ Hd Hn).
  rewrite append_empty. apply parse_name_all. exact Hn.
Qed.

Lemma parse_head_stop a : ends_flags a -> parse_head a = HStop.
Proof.
  intros [->|[->|H]]; try reflexivity. destruct a as [|c1 [|c2 r]]; try reflexivity.
  cbn [parse_head]. destruct (Ascii.eqb c1 "-") eqn:Hc; [|reflexivity].
  apply Ascii.eqb_eq in Hc as ->. exfalso. apply (H (String.String c2 r)). reflexivity.
Qed.

Lemma parse_head_inv a :
  match parse_head a with
  | HStop => ends_flags a
  | HBad => True
  | HFlag n v => flag_name n /\ exists d, dashes d /\
      a = match v with Some v => (d ++ n ++ "=" ++ v)%string | None => (d ++ n)%string end
  end.
Proof.
  assert (Hend : forall c r, c <> "-"%char -> ends_flags (String.String c r)).
  { intros c r H. right. right. intros r' Hr. cbn [String.append] in Hr. congruence. }
  destruct a as [|c1 [|c2 r]].
  - right. right. discriminate.
  - cbn [parse_head]. destruct (ascii_dec c1 "-") as [->|H]; [left; reflexivity|apply Hend; exact H].
  - destruct (ascii_dec c1 "-") as [->|H].
    2: { cbn [parse_head]. pose proof H as H'. apply Ascii.eqb_neq in H'. rewrite H'. cbn [negb]. apply Hend, H. }
    destruct (ascii_dec c2 "-") as [->|H].
    + destruct r as [|c r].
      * right. left. reflexivity.
      * rewrite parse_head_dash2. destruct (parse_name (String.String c r)) as [| |n v] eqn:Hp.
        -- cbn [parse_name] in Hp. destruct (Ascii.eqb c "-" || Ascii.eqb c "="); [discriminate|].
           destruct (cut_name (String.String c r)). discriminate.
        -- exact I.
        -- apply parse_name_inv in Hp. destruct Hp as [H1 H2]. split; [exact H1|]. exists "--".
           split; [right; reflexivity|]. rewrite H2. destruct v; reflexivity.
    + rewrite parse_head_dash1 by exact H. destruct (parse_name (String.String c2 r)) as [| |n v] eqn:Hp.
      * cbn [parse_name] in Hp. destruct (Ascii.eqb c2 "-" || Ascii.eqb c2 "="); [discriminate|].
        destruct (cut_name (String.String c2 r)). discriminate.
      * exact I.
      * apply parse_name_inv in Hp. destruct Hp as [H1 H2]. split; [exact H1|]. exists "-".
        split; [left; reflexivity|]. rewrite H2. destruct v; reflexivity.
Qed.

(** * Assignments *)

Fixpoint apply_all (w : world) (fs : flagset) (asg : list (string * string)) (st : mem * string)
  : option (mem * string) :=
  match asg with
  | [] => Some st
  | (n, v) :: asg' =>
    match find_flag fs n with
    | None => None
    | Some b => match set_flag w st b v with Some st' => apply_all w fs asg' st' | None => None end
    end
  end.

Definition knows (fs : flagset) (n : string) (b : bool) : Prop :=
  exists bd, find_flag fs n = Some bd /\ is_bool_flag bd = b.

Lemma gives_weaken (k1 k2 : string -> bool -> Prop) args asg :
  (forall n b, k1 n b -> k2 n b) -> gives k1 args asg -> gives k2 args asg.
Proof.
  intros H. induction 1.
  - constructor.
  - constructor. assumption.
  - apply (gives_eq k2 d n b); auto.
  - apply gives_bool; auto.
  - apply gives_next; auto.
Qed.

Lemma parse_args_gives w fs args asg : gives (knows fs) args asg ->
  forall st, parse_args w fs args st = apply_all w fs asg st.
Proof.
  induction 1 as [|a rest Ha|d n b v rest asg Hd Hn Hk _ IH|d n rest asg Hd Hn Hk _ IH
    |d n v rest asg Hd Hn Hk _ IH]; intros st.
  - reflexivity.
  - cbn [parse_args]. rewrite (parse_head_stop a Ha). reflexivity.
  - cbn [parse_args apply_all]. rewrite (parse_head_eq d n v Hd Hn).
    destruct (find_flag fs n); [|reflexivity]. destruct (set_flag w st b0 v); [apply IH|reflexivity].
  - cbn [parse_args apply_all]. rewrite (parse_head_all d n Hd Hn).
    destruct Hk as (bd & -> & ->). destruct (set_flag w st bd "true"); [apply IH|reflexivity].
  - cbn [parse_args apply_all]. rewrite (parse_head_all d n Hd Hn).
    destruct Hk as (bd & -> & ->). destruct (set_flag w st bd v); [apply IH|reflexivity].
Qed.

Lemma parse_args_inv w fs : forall args st st', parse_args w fs args st = Some st' ->
  exists asg, gives (knows fs) args asg.
Proof.
  fix IH 1. intros args st st'. destruct args as [|a rest].
  - intros _. exists []. constructor.
  - cbn [parse_args]. pose proof (parse_head_inv a) as Ha.
    destruct (parse_head a) as [| |n v].
    + intros _. exists []. constructor. exact Ha.
    + discriminate.
    + destruct Ha as (Hn & d & Hd & ->). destruct (find_flag fs n) as [b|] eqn:Hf; [|discriminate].
      destruct v as [v|].
      * destruct (set_flag w st b v) as [st1|]; [|discriminate]. intros H.
        destruct (IH _ _ _ H) as [asg Hg]. exists ((n, v) :: asg).
        apply (gives_eq _ d n (is_bool_flag b)); [assumption..| |exact Hg]. exists b. split; [exact Hf|reflexivity].
      * destruct (is_bool_flag b) eqn:Hb.
        -- destruct (set_flag w st b "true") as [st1|]; [|discriminate]. intros H.
           destruct (IH _ _ _ H) as [asg Hg]. exists ((n, "true") :: asg).
           apply gives_bool; [assumption..| |exact Hg]. exists b. split; assumption.
        -- destruct rest as [|v rest']; [discriminate|].
           destruct (set_flag w st b v) as [st1|]; [|discriminate]. intros H.
           destruct (IH _ _ _ H) as [asg Hg]. exists ((n, v) :: asg).
           apply gives_next; [assumption..| |exact Hg]. exists b. split; assumption.
Qed.

(** The arguments give one list of assignments. *)
Lemma gives_unique_known (known : string -> bool -> Prop) :
  (forall n b1 b2, known n b1 -> known n b2 -> b1 = b2) ->
  forall args asg1 asg2, gives known args asg1 -> gives known args asg2 -> asg1 = asg2.
Proof.
  intros Hk. assert (H : forall args asg1, gives known args asg1 -> forall asg2, gives known args asg2 -> asg1 = asg2).
  2: { intros args asg1 asg2 H1 H2. exact (H _ _ H1 _ H2). }
  induction 1 as [|a rest Ha|d n b v rest asg Hd Hn Hkn Hg IH|d n rest asg Hd Hn Hkn Hg IH
    |d n v rest asg Hd Hn Hkn Hg IH]; intros asg2 H2.
  - inversion H2. reflexivity.
  - apply parse_head_stop in Ha.
    inversion H2 as [|a' rest' _|d' n' b' v' rest' asg' Hd' Hn' _ _|d' n' rest' asg' Hd' Hn' _ _
      |d' n' v' rest' asg' Hd' Hn' _ _].
    + reflexivity.
    + pose proof (parse_head_eq d' n' v' Hd' Hn') as Hp'. cbn [String.append] in Hp'. rewrite H, Ha in Hp'. discriminate.
    + pose proof (parse_head_all d' n' Hd' Hn') as Hp'. rewrite H, Ha in Hp'. discriminate.
    + pose proof (parse_head_all d' n' Hd' Hn') as Hp'. rewrite H, Ha in Hp'. discriminate.
  - pose proof (parse_head_eq d n v Hd Hn) as Hp. remember (d ++ n ++ "=" ++ v)%string as a eqn:Ea.
    inversion H2 as [|a' rest' Ha|d' n' b' v' rest' asg' Hd' Hn' Hk' Hg'|d' n' rest' asg' Hd' Hn' Hk' Hg'
      |d' n' v' rest' asg' Hd' Hn' Hk' Hg'].
    + rewrite (parse_head_stop a Ha) in Hp. discriminate.
    + pose proof (parse_head_eq d' n' v' Hd' Hn') as Hp'. cbn [String.append] in Hp'. rewrite H, Hp in Hp'.
      assert (n' = n) as -> by congruence. assert (v' = v) as -> by congruence.
      f_equal. apply IH. exact Hg'.
    + pose proof (parse_head_all d' n' Hd' Hn') as Hp'. rewrite H, Hp in Hp'. discriminate.
    + pose proof (parse_head_all d' n' Hd' Hn') as Hp'. rewrite H, Hp in Hp'. discriminate.
  - pose proof (parse_head_all d n Hd Hn) as Hp. remember (d ++ n)%string as a eqn:Ea.
    inversion H2 as [|a' rest' Ha|d' n' b' v' rest' asg' Hd' Hn' Hk' Hg'|d' n' rest' asg' Hd' Hn' Hk' Hg'
      |d' n' v' rest' asg' Hd' Hn' Hk' Hg'].
    + rewrite (parse_head_stop a Ha) in Hp. discriminate.
    + pose proof (parse_head_eq d' n' v' Hd' Hn') as Hp'. cbn [String.append] in Hp'. rewrite H, Hp in Hp'. discriminate.
    + pose proof (parse_head_all d' n' Hd' Hn') as Hp'. rewrite H, Hp in Hp'.
      assert (n' = n) as -> by congruence. f_equal. apply IH. exact Hg'.
    + pose proof (parse_head_all d' n' Hd' Hn') as Hp'. rewrite H, Hp in Hp'.
      assert (n' = n) as -> by congruence. pose proof (Hk _ _ _ Hkn Hk'). discriminate.
  - pose proof (parse_head_all d n Hd Hn) as Hp. remember (d ++ n)%string as a eqn:Ea.
    inversion H2 as [|a' rest' Ha|d' n' b' v' rest' asg' Hd' Hn' Hk' Hg'|d' n' rest' asg' Hd' Hn' Hk' Hg'
      |d' n' v' rest' asg' Hd' Hn' Hk' Hg'].
    + rewrite (parse_head_stop a Ha) in Hp. discriminate.
    + pose proof (parse_head_eq d' n' v' Hd' Hn') as Hp'. cbn [String.append] in Hp'. rewrite H, Hp in Hp'. discriminate.
    + pose proof (parse_head_all d' n' Hd' Hn') as Hp'. rewrite H, Hp in Hp'.
      assert (n' = n) as -> by congruence. pose proof (Hk _ _ _ Hkn Hk'). discriminate.
    + pose proof (parse_head_all d' n' Hd' Hn') as Hp'. rewrite H, Hp in Hp'.
      assert (n' = n) as -> by congruence. f_equal. apply IH. exact Hg'.
Qed.

(** The environment as assignments. *)
Fixpoint env_asg (w : world) (names : list string) : list (string * string) :=
  match names with
  | [] => []
  | n :: names' => match w_env w n with Some v => (n, v) :: env_asg w names' | None => env_asg w names' end
  end.

Lemma env_resolve_asg w fs names : forall st,
  env_resolve w fs names st = apply_all w fs (env_asg w names) st.
Proof.
  induction names as [|n names IH]; intros st; [reflexivity|]. cbn [env_resolve env_asg].
  destruct (w_env w n) as [v|]; [|apply IH]. cbn [apply_all].
  destruct (find_flag fs n) as [b|]; [|reflexivity]. destruct (set_flag w st b v); [apply IH|reflexivity].
Qed.

Lemma env_asg_in w names n v : In (n, v) (env_asg w names) <-> In n names /\ w_env w n = Some v.
Proof.
  induction names as [|x names IH]; cbn [env_asg]; [split; [intros []|intros [[] _]]|].
  destruct (w_env w x) as [v'|] eqn:Hx; cbn [In]; rewrite IH; split.
  - intros [H|[H1 H2]]; [|split; [right; exact H1|exact H2]].
    assert (x = n) as -> by congruence. split; [left; reflexivity|congruence].
  - intros [[->|H1] H2]; [left; congruence|right; split; assumption].
  - intros [H1 H2]. split; [right; exact H1|exact H2].
  - intros [[->|H1] H2]; [congruence|split; assumption].
Qed.

Lemma last_given_env w names n :
  last_given (env_asg w names) n = if in_dec String.string_dec n names then w_env w n else None.
Proof.
  induction names as [|x names IH].
  - reflexivity.
  - cbn [env_asg]. destruct (w_env w x) as [v|] eqn:Hx.
    + cbn [last_given]. rewrite IH. destruct (in_dec String.string_dec n (x :: names)) as [H|H].
      * destruct (in_dec String.string_dec n names) as [H'|H'].
        -- destruct (w_env w n) as [v'|] eqn:Hn; [reflexivity|].
           destruct (n =? x)%string eqn:He; [apply String.eqb_eq in He as ->; congruence|reflexivity].
        -- destruct H as [->|H]; [|contradiction]. rewrite seqb_refl. symmetry. exact Hx.
      * destruct (in_dec String.string_dec n names) as [H'|H']; [exfalso; apply H; right; exact H'|].
        rewrite seqb_neq; [reflexivity|]. intros ->. apply H. left. reflexivity.
    + rewrite IH. destruct (in_dec String.string_dec n (x :: names)) as [H|H].
      * destruct (in_dec String.string_dec n names) as [H'|H']; [reflexivity|].
        destruct H as [->|H]; [symmetry; exact Hx|contradiction].
      * destruct (in_dec String.string_dec n names) as [H'|H']; [exfalso; apply H; right; exact H'|reflexivity].
Qed.

Lemma last_given_in asg n v : last_given asg n = Some v -> In (n, v) asg.
Proof.
  induction asg as [|[n' v'] asg IH]; cbn [last_given]; [discriminate|].
  destruct (last_given asg n) as [x|].
  - intros H. right. apply IH. exact H.
  - destruct (n =? n')%string eqn:He; [|discriminate]. apply String.eqb_eq in He as ->.
    intros H. left. congruence.
Qed.

(** * The effect of assignments *)

Lemma apply_all_acc w fs asg : forall st st', apply_all w fs asg st = Some st' ->
  forall n v, In (n, v) asg -> exists b, find_flag fs n = Some b /\
    match b with
    | BField k _ => w_parse w k v <> None
    | BYaml => True
    | BForeign _ accepts => accepts v = true
    end.
Proof.
  induction asg as [|[n' v'] asg IH]; intros st st' H n v Hin; [destruct Hin|].
  cbn [apply_all] in H. destruct (find_flag fs n') as [b|] eqn:Hf; [|discriminate].
  destruct (set_flag w st b v') as [st1|] eqn:Hs; [|discriminate]. destruct Hin as [Heq|Hin].
  - assert (n' = n) as -> by congruence. assert (v' = v) as -> by congruence.
    exists b. split; [exact Hf|]. destruct b as [k l| |isb acc]; cbn [set_flag] in Hs.
    + destruct (w_parse w k v); [discriminate|discriminate Hs].
    + exact I.
    + destruct (acc v); [reflexivity|discriminate].
  - exact (IH _ _ H _ _ Hin).
Qed.

Lemma apply_all_ok w fs asg : 
  (forall n v, In (n, v) asg -> exists b, find_flag fs n = Some b /\
    match b with
    | BField k _ => w_parse w k v <> None
    | BYaml => True
    | BForeign _ accepts => accepts v = true
    end) -> forall st, apply_all w fs asg st <> None.
Proof.
  induction asg as [|[n v] asg IH]; intros H st; cbn [apply_all]; [discriminate|].
  destruct (H n v (or_introl eq_refl)) as (b & -> & Hb).
  assert (IH' := IH (fun n v Hin => H n v (or_intror Hin))).
  destruct b as [k l| |isb acc]; cbn [set_flag].
  - destruct (w_parse w k v); [apply IH'|contradiction].
  - apply IH'.
  - rewrite Hb. apply IH'.
Qed.

Lemma apply_all_next w fs asg : forall st st', apply_all w fs asg st = Some st' ->
  next (fst st') = next (fst st).
Proof.
  induction asg as [|[n v] asg IH]; intros st st' H; cbn [apply_all] in H; [congruence|].
  destruct (find_flag fs n) as [b|]; [|discriminate].
  destruct (set_flag w st b v) as [st1|] eqn:Hs; [|discriminate]. rewrite (IH _ _ H).
  destruct b as [k l| |isb acc]; cbn [set_flag] in Hs.
  - destruct (w_parse w k v); [|discriminate]. injection Hs as <-. reflexivity.
  - injection Hs as <-. reflexivity.
  - destruct (acc v); [|discriminate]. congruence.
Qed.

(** Only bound variables change, and they get values. *)
Lemma apply_all_cells w fs asg : forall st st', apply_all w fs asg st = Some st' ->
  forall l, cells (fst st') l <> cells (fst st) l ->
    exists n k x, find_flag fs n = Some (BField k l) /\ cells (fst st') l = CVal x.
Proof.
  induction asg as [|[n v] asg IH]; intros st st' H l Hne; cbn [apply_all] in H.
  - exfalso. congruence.
  - destruct (find_flag fs n) as [b|] eqn:Hf; [|discriminate].
    destruct (set_flag w st b v) as [st1|] eqn:Hs; [|discriminate].
    assert (Hdec : cells (fst st') l = cells (fst st1) l \/ cells (fst st') l <> cells (fst st1) l)
      by (repeat decide equality).
    destruct Hdec as [Heq|Hd]; [|exact (IH _ _ H l Hd)].
    destruct b as [k l'| |isb acc]; cbn [set_flag] in Hs.
    + destruct (w_parse w k v) as [x|]; [|discriminate].
      assert (st1 = (store (fst st) l' (CVal x), snd st)) as -> by congruence. cbn [fst] in Heq.
      destruct (loc_dec l l') as [->|Hn].
      * rewrite store_same in Heq. exists n, k, x. split; [exact Hf|exact Heq].
      * rewrite store_other in Heq by exact Hn. contradiction.
    + assert (st1 = (fst st, v)) as -> by congruence. contradiction.
    + destruct (acc v); [|discriminate]. assert (st1 = st) as -> by congruence. contradiction.
Qed.

(** The variable bound by one flag only gets the last value given to the flag. *)
Lemma apply_all_value w fs l n0 k0 :
  find_flag fs n0 = Some (BField k0 l) ->
  (forall n k, find_flag fs n = Some (BField k l) -> n = n0) ->
  forall asg st st', apply_all w fs asg st = Some st' ->
    match last_given asg n0 with
    | Some v => exists x, w_parse w k0 v = Some x /\ cells (fst st') l = CVal x
    | None => cells (fst st') l = cells (fst st) l
    end.
Proof.
  intros H0 Hu. induction asg as [|[n v] asg IH]; intros st st' H; cbn [apply_all] in H.
  - assert (st' = st) as -> by congruence. reflexivity.
  - destruct (find_flag fs n) as [b|] eqn:Hf; [|discriminate].
    destruct (set_flag w st b v) as [st1|] eqn:Hs; [|discriminate].
    specialize (IH _ _ H). cbn [last_given]. destruct (last_given asg n0) as [v'|]; [exact IH|].
    destruct (n0 =? n)%string eqn:He.
    + apply String.eqb_eq in He as <-. assert (b = BField k0 l) as -> by congruence. cbn [set_flag] in Hs.
      destruct (w_parse w k0 v) as [x|]; [|discriminate]. exists x. split; [reflexivity|].
      rewrite IH. assert (st1 = (store (fst st) l (CVal x), snd st)) as -> by congruence. apply store_same.
    + rewrite IH. destruct b as [k l'| |isb acc]; cbn [set_flag] in Hs.
      * destruct (w_parse w k v) as [x|]; [|discriminate].
        assert (st1 = (store (fst st) l' (CVal x), snd st)) as -> by congruence. apply store_other.
        intros ->. pose proof (Hu _ _ Hf) as ->. rewrite seqb_refl in He. discriminate.
      * assert (st1 = (fst st, v)) as -> by congruence. reflexivity.
      * destruct (acc v); [|discriminate]. congruence.
Qed.

(** The variable yamlFile. *)
Lemma apply_all_file w fs y :
  (forall n, find_flag fs n = Some BYaml -> n = y) ->
  (find_flag fs y = Some BYaml \/ forall asg st st', apply_all w fs asg st = Some st' -> last_given asg y = None) ->
  forall asg st st', apply_all w fs asg st = Some st' ->
    snd st' = match last_given asg y with Some v => v | None => snd st end.
Proof.
  intros Hu Hy. induction asg as [|[n v] asg IH]; intros st st' H.
  - cbn [apply_all] in H. assert (st' = st) as -> by congruence. reflexivity.
  - pose proof H as Hall. cbn [apply_all] in H. destruct (find_flag fs n) as [b|] eqn:Hf; [|discriminate].
    destruct (set_flag w st b v) as [st1|] eqn:Hs; [|discriminate].
    specialize (IH _ _ H). cbn [last_given]. destruct (last_given asg y) as [v'|] eqn:Hl; [exact IH|].
    rewrite IH. destruct (y =? n)%string eqn:He.
    + apply String.eqb_eq in He as <-. destruct Hy as [Hy|Hy].
      * assert (b = BYaml) as -> by congruence. cbn [set_flag] in Hs. injection Hs as <-. reflexivity.
      * exfalso. pose proof (Hy _ _ _ Hall) as Hn. cbn [last_given] in Hn. rewrite Hl, seqb_refl in Hn. discriminate.
    + destruct b as [k l'| |isb acc]; cbn [set_flag] in Hs.
      * destruct (w_parse w k v) as [x|]; [|discriminate].
        assert (st1 = (store (fst st) l' (CVal x), snd st)) as -> by congruence. reflexivity.
      * pose proof (Hu _ Hf) as ->. rewrite seqb_refl in He. discriminate.
      * destruct (acc v); [|discriminate]. congruence.
Qed.

(** * Registration *)

Lemma find_flag_app fs1 fs2 n :
  find_flag (fs1 ++ fs2) n = match find_flag fs1 n with Some b => Some b | None => find_flag fs2 n end.
Proof.
  induction fs1 as [|[n' b] fs1 IH]; cbn [Datatypes.app find_flag]; [reflexivity|].
  destruct (n =? n')%string; [reflexivity|apply IH].
Qed.

Lemma find_flag_in fs n b : find_flag fs n = Some b -> In (n, b) fs.
Proof.
  induction fs as [|[n' b'] fs IH]; cbn [find_flag]; [discriminate|].
  destruct (n =? n')%string eqn:He.
  - apply String.eqb_eq in He as ->. intros H. left. congruence.
  - intros H. right. apply IH. exact H.
Qed.

Lemma find_flag_none fs n : find_flag fs n = None <-> ~ In n (map fst fs).
Proof.
  induction fs as [|[n' b'] fs IH]; cbn [find_flag map fst In].
  - split; [intros _ []|reflexivity].
  - destruct (n =? n')%string eqn:He.
    + apply String.eqb_eq in He as ->. split; [discriminate|]. intros H. exfalso. apply H. left. reflexivity.
    + rewrite IH. split.
      * intros H [Hn|Hn]; [subst; rewrite seqb_refl in He; discriminate|exact (H Hn)].
      * intros H Hn. apply H. right. exact Hn.
Qed.

Lemma find_flag_nodup fs n b : NoDup (map fst fs) -> In (n, b) fs -> find_flag fs n = Some b.
Proof.
  induction fs as [|[n' b'] fs IH]; cbn [map fst find_flag]; intros Hd Hin; [destruct Hin|].
  inversion Hd; subst. destruct Hin as [H|Hin].
  - assert (n' = n) as -> by congruence. rewrite seqb_refl. congruence.
  - rewrite seqb_neq; [apply IH; assumption|]. intros ->. apply H1. apply in_map_iff. exists (n', b).
    split; [reflexivity|exact Hin].
Qed.

Definition bind_of (style : string -> string) (e : entry) : string * binding :=
  (style (epath e), BField (ekind e) (eloc e)).

Lemma register_spec style es : forall fs,
  match register style fs es with
  | Some fs' => fs' = fs ++ map (bind_of style) es /\
      (forall e, In e es -> enamed e = false) /\
      NoDup (map (fun e => style (epath e)) es) /\
      (forall e, In e es -> ~ In (style (epath e)) (map fst fs))
  | None => (exists e, In e es /\ enamed e = true) \/
      ~ NoDup (map (fun e => style (epath e)) es) \/
      (exists e, In e es /\ In (style (epath e)) (map fst fs))
  end.
Proof.
  induction es as [|e es IH]; intros fs; cbn [register].
  - cbn [map]. rewrite app_nil_r. split; [reflexivity|]. split; [intros e []|].
    split; [constructor|intros e []].
  - destruct (enamed e) eqn:He.
    + left. exists e. split; [left; reflexivity|exact He].
    + unfold add_flag. destruct (find_flag fs (style (epath e))) as [b|] eqn:Hf.
      * right. right. exists e. split; [left; reflexivity|].
        apply find_flag_in in Hf. apply in_map_iff. eexists. split; [|exact Hf]. reflexivity.
      * apply find_flag_none in Hf.
        specialize (IH (fs ++ [(style (epath e), BField (ekind e) (eloc e))])).
        destruct (register style (fs ++ [(style (epath e), BField (ekind e) (eloc e))]) es) as [fs'|].
        -- destruct IH as (-> & H1 & H2 & H3). rewrite map_app in H3. cbn [map fst] in H3.
           split; [rewrite <- app_assoc; reflexivity|]. split; [|split].
           ++ intros e' [<-|Hin]; [exact He|exact (H1 e' Hin)].
           ++ cbn [map]. constructor; [|exact H2]. intros Hin. apply in_map_iff in Hin.
              destruct Hin as (e' & Heq & Hin). apply (H3 e' Hin). apply in_app_iff. right. left. congruence.
           ++ intros e' [<-|Hin]; [exact Hf|]. intros Hi. apply (H3 e' Hin). apply in_app_iff. left. exact Hi.
        -- destruct IH as [(e' & Hin & H)|[H|(e' & Hin & H)]].
           ++ left. exists e'. split; [right; exact Hin|exact H].
           ++ right. left. cbn [map]. intros Hd. inversion Hd. contradiction.
           ++ rewrite map_app in H. apply in_app_iff in H. destruct H as [H|[H|[]]].
              ** right. right. exists e'. split; [right; exact Hin|exact H].
              ** right. left. cbn [map]. intros Hd. inversion Hd. apply H2. apply in_map_iff.
                 exists e'. split; [exact (eq_sym H)|exact Hin].
Qed.
