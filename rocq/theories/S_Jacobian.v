(** Specification: derivatives by one entry of a batch. *)
From Coq Require Import Reals List.
From Verif Require Import M_NN S_NN.
Import ListNotations.
Open Scope R_scope.

(** X with component l of row c replaced by t *)
Fixpoint upd2 (X : list (list R)) (c l : nat) (t : R) : list (list R) :=
  match X, c with [], _ => [] | x :: X', O => upd x l t :: X' | x :: X', S c' => x :: upd2 X' c' l t end.
(** d is the derivative of s at X by component l of row c *)
Definition partial2 (s : list (list R) -> R) (c l : nat) (X : list (list R)) (d : R) : Prop :=
  derivable_pt_lim (fun t => s (upd2 X c l t)) (nth l (nth c X []) 0) d.
(** a batch of rows of length n *)
Definition batch_of (n : nat) (X : list (list R)) : Prop := Forall (fun x => length x = n) X.
(** automatic differentiation is exact: a scalar computed from the batch that has a derivative gets that derivative *)
Definition exact_gradients (deriv : (list (list R) -> R) -> nat -> nat -> list (list R) -> R) : Prop :=
  forall s c l X d, (c < length X)%nat -> (l < length (nth c X []))%nat -> partial2 s c l X d -> deriv s c l X = d.
