(** Specification vocabulary for the synthetic likelihoods (C65). *)
From Coq Require Import Reals.
From Verif Require Import M_Base M_Num M_XReal M_MMD M_Stats M_Syn S_Stats.
Open Scope R_scope.

(** M is the finite d x d matrix P *)
Definition Is (d : nat) (P : nat -> nat -> R) (M : list (list xr)) : Prop :=
  forall i j, (i < d)%nat -> (j < d)%nat -> nth j (nth i M []) XNaN = XR (P i j).
(** x^T P x *)
Definition qform (d : nat) (P : nat -> nat -> R) (x : nat -> R) : R := total (map (fun i => total (map (fun j => x i * P i j * x j) (seq 0 d))) (seq 0 d)).
Definition PositiveDefinite (d : nat) (P : nat -> nat -> R) : Prop := forall x, (exists i, (i < d)%nat /\ x i <> 0) -> 0 < qform d P x.
(** the mean of column j *)
Definition mean_of_col (s : list (list R)) (j : nat) : R := average (map (fun r => nth j r 0) s).
(** logarithm of the density of the normal distribution with mean mu and precision matrix P, where ld is the logarithm of the
    determinant of P *)
Definition normal_logdensity (d : nat) (mu : nat -> R) (P : nat -> nat -> R) (ld : R) (o : list R) : R :=
  ld / 2 - INR d / 2 * ln (2 * PI) - qform d P (fun i => nth i o 0 - mu i) / 2.
(** logarithm of the density of the Gaussian copula with inverse correlation matrix P at normal scores eta *)
Definition copula_logdensity (d : nat) (P : nat -> nat -> R) (ld : R) (eta : nat -> R) : R :=
  ld / 2 - qform d (fun i j => P i j - (if (i =? j)%nat then 1 else 0)) eta / 2.
(** the column j of the simulations has no two equal values *)
Definition NoTies (j : nat) (s : list (list R)) : Prop := NoDup (map (fun r => nth j r 0) s).
(** the quantile function: finite and strictly increasing on (0, 1) *)
Definition Quantile (ppf : R -> xr) (phi : R -> R) : Prop :=
  (forall u, 0 < u < 1 -> ppf u = XR (phi u)) /\ forall u v, 0 < u -> u < v -> v < 1 -> phi u < phi v.
Definition StrictlyIncreasing (f : R -> R) : Prop := forall x y, x < y -> f x < f y.
(** the rank of x in l, counting from one; values that occur several times share the mean of their ranks *)
Definition mid_rank (l : list R) (x : R) : R :=
  1 + INR (length (filter (fun y => if Rlt_dec y x then true else false) l)) + (INR (length (filter (fun y => if Req_EM_T y x then true else false) l)) - 1) / 2.
(** normal score of statistic j of the simulation r among the simulations s *)
Definition normal_score (phi : R -> R) (s : list (list R)) (j : nat) (r : list R) : R :=
  phi (mid_rank (map (fun r => nth j r 0) s) (nth j r 0) / INR (length s + 1)).
Definition rank_correlation (phi : R -> R) (s : list (list R)) (i j : nat) : R :=
  total (map (fun r => normal_score phi s i r * normal_score phi s j r) s) / total (map (fun k => phi (INR k / INR (length s + 1)) * phi (INR k / INR (length s + 1))) (seq 1 (length s))).
Definition table (d : nat) (P : nat -> nat -> R) : list (list xr) := map (fun i => map (fun j => XR (P i j)) (seq 0 d)) (seq 0 d).
(** the statistics r, each changed by its own function *)
Definition transform (f : nat -> R -> R) (d : nat) (r : list R) : list R := map (fun j => f j (nth j r 0)) (seq 0 d).
