(** Vocabulary for C98: the gamma function, the chi-square distribution, the normal distribution in several dimensions.  Integrals over the positive numbers are limits of Riemann
    integrals (Coquelicot). *)
From Coquelicot Require Import Coquelicot.
From Coq Require Import Reals.
From Verif Require Import S_MVPrior.
Open Scope R_scope.

(** the integral of f from 0 to infinity is l *)
Definition integral_0_inf (f : R -> R) (l : R) : Prop := is_RInt_gen f (at_right 0) (Rbar_locally p_infty) l.
(** [gam] has the value of Euler's gamma function at s *)
Definition GammaAt (gam : R -> R) (s : R) : Prop := integral_0_inf (fun t => Rpower t (s - 1) * exp (- t)) (gam s).
(** density of the chi-square distribution with v degrees of freedom at c > 0 *)
Definition chi_square (gam : R -> R) (v c : R) : R := Rpower c (v / 2 - 1) * exp (- c / 2) / (Rpower 2 (v / 2) * gam (v / 2)).
(** density of mean + s L g at the point mean + L z, where g is a vector of n independent standard normal numbers and L is triangular with positive diagonal *)
Definition normal_density (n : nat) (L : nat -> nat -> R) (s : R) (z : nat -> R) : R :=
  exp (- sigma n (fun k => z k * z k) / (2 * (s * s))) / (Rpower (2 * PI) (INR n / 2) * s ^ n * prod n (fun i => L i i)).
