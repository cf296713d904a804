(** Shared helpers: function update and small list facts.  Nothing here models
    a part of the repository. *)
From Coq Require Export List Arith ZArith NArith Lia Bool Permutation.
Export ListNotations.

Definition fupd {A : Type} (f : nat -> A) (i : nat) (v : A) : nat -> A :=
  fun j => if Nat.eqb j i then v else f j.

Lemma fupd_eq {A} (f : nat -> A) i v : fupd f i v i = v.
Proof. unfold fupd. now rewrite Nat.eqb_refl. Qed.

Lemma fupd_neq {A} (f : nat -> A) i v j : j <> i -> fupd f i v j = f j.
Proof. unfold fupd. intros H. destruct (Nat.eqb_spec j i); congruence. Qed.

Ltac fupd_tac :=
  repeat match goal with
  | |- context [fupd ?f ?i ?v ?i] => rewrite (fupd_eq f i v)
  | H : context [fupd ?f ?i ?v ?i] |- _ => rewrite (fupd_eq f i v) in H
  | |- context [fupd ?f ?i ?v ?j] => rewrite (fupd_neq f i v j) by (congruence || lia)
  | H : context [fupd ?f ?i ?v ?j] |- _ => rewrite (fupd_neq f i v j) in H by (congruence || lia)
  end.

(** Negative errno-style codes used throughout the models. *)
Definition ENOENT := 2%Z.
Definition ENOMEM := 12%Z.
Definition EACCES := 13%Z.
Definition ENOSYS : Z := 38.
Definition EBUSY := 16%Z.
Definition EEXIST := 17%Z.
Definition EINVAL := 22%Z.
Definition ENOSPC := 28%Z.
Definition ENOBUFS := 105%Z.
Definition ENOTCONN := 107%Z.
