(** Property theorems for flag and env names (C51-C52). *)
From Verif Require Import Common Bytes ConfNamesModel ConfNamesSpec ConfNamesProofs.
Local Open Scope string_scope.

(** C51.  The flag name is the lower-cased words of the path joined by '-', the env name the
    upper-cased words joined by '_'. *)
Theorem names_follow_convention : forall segs, (forall s, In s segs -> ~ mentions "." s) -> segs <> [] ->
  flag_style (dotted segs) = String.concat "-" (map to_lower (path_words segs)) /\
  env_style (dotted segs) = String.concat "_" (map to_upper (path_words segs)).
Proof. exact names_are_words. Qed.
Print Assumptions names_follow_convention.

(** No upper-case letter or dot in a flag name, no lower-case letter or dot in an env name. *)
Theorem flag_name_characters : forall path c, mentions c (flag_style path) -> ~ upper c /\ c <> "."%char.
Proof.
  exact (fun path c H => flag_chars true path c
    ((fix go s : mentions c s -> has_char (eq c) s :=
       match s with
       | String.EmptyString => fun h => h
       | String.String x s' => fun h => match h with or_introl e => or_introl (eq_sym e) | or_intror r => or_intror (go s' r) end
       end) _ H)).
Qed.
Print Assumptions flag_name_characters.

Theorem env_name_characters : forall path c, mentions c (env_style path) -> ~ In c lowers /\ c <> "."%char.
Proof.
  exact (fun path c H => env_chars true path c
    ((fix go s : mentions c s -> has_char (eq c) s :=
       match s with
       | String.EmptyString => fun h => h
       | String.String x s' => fun h => match h with or_introl e => or_introl (eq_sym e) | or_intror r => or_intror (go s' r) end
       end) _ H)).
Qed.
Print Assumptions env_name_characters.

(** The env name is the flag name in capitals with '_' for '-' (paths have no '-'). *)
Theorem env_name_from_flag_name : forall path, ~ mentions "-" path ->
  env_style path = smap_chars (fun c => if Ascii.eqb c "-" then "_"%char else translate lowers uppers c) (flag_style path).
Proof. exact (env_from_flag true). Qed.
Print Assumptions env_name_from_flag_name.

Example names_case :
  flag_style (dotted ["Foo"; "BarBaz"; "x"; "HTTPPort"]) = "foo-bar-baz-x-h-t-t-p-port" /\
  env_style (dotted ["Foo"; "BarBaz"; "x"; "HTTPPort"]) = "FOO_BAR_BAZ_X_H_T_T_P_PORT" /\
  path_words ["Foo"; "BarBaz"; "x"; "HTTPPort"] = ["Foo"; "Bar"; "Baz"; "x"; "H"; "T"; "T"; "P"; "Port"] /\
  ~ mentions "." "HTTPPort".
Proof. repeat split; try reflexivity. unfold mentions. cbn. intuition discriminate. Qed.

(** C52.  Exactly when two paths share a flag or an env name. *)
Theorem flag_names_equal_iff : forall p q, p <> [] -> q <> [] ->
  (forall s, In s (p ++ q)%list -> ~ mentions "." s /\ ~ mentions "-" s) ->
  (flag_style (dotted p) = flag_style (dotted q) <-> map to_lower (path_words p) = map to_lower (path_words q)).
Proof. exact same_flag_words. Qed.
Print Assumptions flag_names_equal_iff.

Theorem env_names_equal_iff : forall p q, p <> [] -> q <> [] ->
  (forall s, In s (p ++ q)%list -> ~ mentions "." s /\ ~ mentions "_" s) ->
  (env_style (dotted p) = env_style (dotted q) <-> map to_upper (path_words p) = map to_upper (path_words q)).
Proof. exact same_env_words. Qed.
Print Assumptions env_names_equal_iff.

(** Paths of one-word field names never collide. *)
Theorem one_word_names_distinct : forall p q, p <> [] -> q <> [] ->
  (forall s, In s (p ++ q)%list -> one_word s) ->
  flag_style (dotted p) = flag_style (dotted q) \/ env_style (dotted p) = env_style (dotted q) -> p = q.
Proof. exact conventional_names_distinct. Qed.
Print Assumptions one_word_names_distinct.

Example one_word_case : one_word "Port" /\ one_word "Host".
Proof.
  assert (H : forall c r, upper c -> ~ has_char upper r -> ~ mentions "." r -> ~ mentions "-" r -> ~ mentions "_" r -> one_word (String.String c r))
    by (intros c r ? ? ? ? ?; exists c, r; auto 8).
  split; apply H; try (left; reflexivity); unfold mentions, upper, uppers; vm_compute; intuition discriminate.
Qed.

(** In general different paths do collide. *)
Theorem names_distinct_refuted : exists p q, p <> q /\
  flag_style (dotted p) = flag_style (dotted q) /\ env_style (dotted p) = env_style (dotted q).
Proof. exists ["FooBar"], ["Foo"; "Bar"]. split; [discriminate|]. split; reflexivity. Qed.
Print Assumptions names_distinct_refuted.
