(** Executable model of the flag and env naming (/repo/conf/string.go). *)
From Verif Require Import Common Bytes.
Local Open Scope string_scope.

(** conf/string.go:88-94 isLowerASCII, isUpperASCII. *)
Definition is_lower (b : ascii) : bool := (97 <=? N_of_ascii b)%N && (N_of_ascii b <=? 122)%N.
Definition is_upper (b : ascii) : bool := (65 <=? N_of_ascii b)%N && (N_of_ascii b <=? 90)%N.

(** conf/string.go:74-86 lowerASCII, upperASCII; the arithmetic is on bytes. *)
Definition lower_ascii (b : ascii) : ascii :=
  if is_upper b then ascii_of_N ((N_of_ascii b + 32) mod 256) else b.
Definition upper_ascii (b : ascii) : ascii :=
  if is_lower b then ascii_of_N ((N_of_ascii b + 256 - 32) mod 256) else b.

(** conf/string.go:26-41, the loop of flagStyle. *)
Fixpoint flag_loop (prev_dot : bool) (bs : string) : string :=
  match bs with
  | String.EmptyString => ""
  | String.String b bs' =>
    if is_upper b then
      (if negb prev_dot then "-" else "") ++ String.String (lower_ascii b) (flag_loop false bs')
    else if Ascii.eqb b "." then String.String "-" (flag_loop true bs')
    else String.String b (flag_loop false bs')
  end.

(** conf/string.go:20-44 flagStyle. *)
Definition flag_style (path : string) : string := flag_loop true path.

(** conf/string.go:53-68, the loop of envStyle. *)
Fixpoint env_loop (prev_dot : bool) (bs : string) : string :=
  match bs with
  | String.EmptyString => ""
  | String.String b bs' =>
    if is_upper b then
      (if negb prev_dot then "_" else "") ++ String.String b (env_loop false bs')
    else if Ascii.eqb b "." then String.String "_" (env_loop true bs')
    else String.String (upper_ascii b) (env_loop false bs')
  end.

(** conf/string.go:46-72 envStyle. *)
Definition env_style (path : string) : string := env_loop true path.
