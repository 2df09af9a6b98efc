(** Random programs: what a program that consumes a list of independent draws produces as the number of available draws grows (C78). *)
From Coq Require Import Reals.
From Verif Require Import M_Base M_Num M_XReal M_Stats S_Stats S_Law.
Open Scope R_scope.

Section Gen.
Variable A : Type.
Variable outs : list A.
Variable p : A -> R.
(** the expectation of a quantity of k draws tends to v; the quantity may depend on a bound of the number of iterations, larger than k *)
Definition Tends (u : nat -> list A -> R) (v : R) : Prop :=
  forall e, 0 < e -> exists K, forall k f, (K <= k < f)%nat -> Rabs (mean outs p k (u f) - v) < e.
(** a program returns the unused draws and a result; the value of g of the result and the unused draws, 0 after an exception *)
Definition after {X} (P : nat -> list A -> res (list A * X)) (g : X -> nat -> list A -> R) (f : nat) (l : list A) : R :=
  match P f l with Ok (l', x) => g x f l' | Err _ => 0 end.
(** P produces results of the law mu (mu G v: the mean of G is v) on the set xs: whatever follows P, if its expectation after result x tends to G x, then
    the expectation of the whole tends to the mean of G *)
Definition Gives {X} (P : nat -> list A -> res (list A * X)) (xs : X -> Prop) (mu : (X -> R) -> R -> Prop) : Prop :=
  forall g G B v, (forall x f l, Rabs (g x f l) <= B) -> (forall x, xs x -> Tends (g x) (G x)) -> mu G v -> Tends (after P g) v.
(** finitely many results with the given weights *)
Definition Produces {X} (P : nat -> list A -> res (list A * X)) (xs : list X) (w : X -> R) : Prop :=
  Gives P (fun x => In x xs /\ w x <> 0) (fun G v => v = total (map (fun x => w x * G x) xs)).
End Gen.
Arguments Tends {A} outs p u v.
Arguments after {A X} P g f l.
Arguments Gives {A} outs p {X} P xs mu.
Arguments Produces {A} outs p {X} P xs w.
