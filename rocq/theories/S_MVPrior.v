(** Vocabulary for C69: finite sums, symmetric positive definite matrices, Cholesky factors. *)
From Coq Require Import Reals.
From Verif Require Import M_Base.
Open Scope R_scope.

Fixpoint sigma (n : nat) (f : nat -> R) : R := match n with O => 0 | S n' => sigma n' f + f n' end.
Fixpoint prod (n : nat) (f : nat -> R) : R := match n with O => 1 | S n' => prod n' f * f n' end.
(** the form x' A x *)
Definition form (n : nat) (A : nat -> nat -> R) (x : nat -> R) : R := sigma n (fun i => sigma n (fun j => x i * A i j * x j)).
Definition Symmetric (n : nat) (A : nat -> nat -> R) : Prop := forall i j, (i < n)%nat -> (j < n)%nat -> A i j = A j i.
Definition PositiveDefinite (n : nat) (A : nat -> nat -> R) : Prop := forall x, (exists i, (i < n)%nat /\ x i <> 0) -> 0 < form n A x.
(** the symmetric matrix with the entries of A on and below the diagonal *)
Definition lower (A : nat -> nat -> R) (i j : nat) : R := if (j <=? i)%nat then A i j else A j i.
(** lower triangular with positive diagonal, and L L' = A *)
Definition Factor (n : nat) (L A : nat -> nat -> R) : Prop :=
  (forall i j, (i < n)%nat -> (i < j < n)%nat -> L i j = 0) /\ (forall i, (i < n)%nat -> 0 < L i i)
  /\ forall i j, (i < n)%nat -> (j < n)%nat -> sigma n (fun k => L i k * L j k) = A i j.
