(** Specification vocabulary for similarity sets (C48). *)
From Coq Require Import Reals.
From Verif Require Import M_Base S_Stats S_KNN.
Open Scope R_scope.

(** squared Euclidean distance *)
Definition sqd (x y : list R) : R := total (map (fun ab => (fst ab - snd ab) ^ 2) (combine x y)).
Definition Square (n : nat) (S : list (list bool)) : Prop := length S = n /\ Forall (fun r => length r = n) S.
(** entry (i, j) of the matrix is b *)
Definition Entry (S : list (list bool)) (i j : nat) (b : bool) : Prop := exists r, nth_error S i = Some r /\ nth_error r j = Some b.
(** number of samples marked similar to sample i *)
Definition Similars (S : list (list bool)) (i : nat) (k : nat) : Prop :=
  exists r, nth_error S i = Some r /\ length (filter (fun b => b) r) = k.
(** q is a p-quantile of l: with h = (N-1)p, less than h+1 elements are below q and more than h are at most q *)
Definition Quantile (p : R) (l : list R) (q : R) : Prop :=
  let h := INR (length l - 1) * p in INR (below q l) < h + 1 /\ h < INR (upto q l).
