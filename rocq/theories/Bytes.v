(** Go strings: sequences of bytes.  Coq's [string] is a sequence of 8-bit characters, so it is
    used as is.  Maps keyed by strings are total functions into [option]. *)
From Verif Require Export Common.
From Coq Require Export Ascii.
From Coq Require String.
Export String.StringSyntax.
Notation string := String.string.
Notation "a =? b" := (String.eqb a b) : string_scope.
Notation "a ++ b" := (String.append a b) : string_scope.
Delimit Scope string_scope with string.
Bind Scope string_scope with String.string.

Lemma seqb_refl (k : string) : String.eqb k k = true.
Proof. apply String.eqb_refl. Qed.

Lemma seqb_neq (a b : string) : a <> b -> String.eqb a b = false.
Proof. apply String.eqb_neq. Qed.

(** Go's [map[string]A]: lookup, assignment and [delete]. *)
Definition smap (A : Type) : Type := string -> option A.
Definition mempty {A} : smap A := fun _ => None.
Definition mset {A} (m : smap A) (k : string) (v : A) : smap A :=
  fun k' => if String.eqb k' k then Some v else m k'.
Definition mdel {A} (m : smap A) (k : string) : smap A :=
  fun k' => if String.eqb k' k then None else m k'.

Lemma mset_same {A} (m : smap A) k v : mset m k v k = Some v.
Proof. unfold mset. rewrite seqb_refl. reflexivity. Qed.
Lemma mset_other {A} (m : smap A) k v k' : k' <> k -> mset m k v k' = m k'.
Proof. intros H. unfold mset. rewrite (seqb_neq _ _ H). reflexivity. Qed.
Lemma mdel_same {A} (m : smap A) k : mdel m k k = None.
Proof. unfold mdel. rewrite seqb_refl. reflexivity. Qed.
Lemma mdel_other {A} (m : smap A) k k' : k' <> k -> mdel m k k' = m k'.
Proof. intros H. unfold mdel. rewrite (seqb_neq _ _ H). reflexivity. Qed.
