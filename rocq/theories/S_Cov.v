(** Specification vocabulary for the covariance matrices (C57). *)
From Coq Require Import Reals Qreals.
From Verif Require Import M_Base M_Num M_XReal M_MMD M_Stats M_Graph M_Infer M_Journal M_APM M_Kernel M_Cov S_Stats.
Open Scope R_scope.

(** the parameter values in a row of a kernel *)
Definition values (row : list kval) : list R := flat_map (fun v => match v with KS q => [Q2R q] | KA l => map Q2R l end) row.
(** rows of numbers or rows of arrays, with p values each *)
Definition Row (p : nat) (row : list kval) : Prop :=
  row <> [] /\ (Forall (fun v => exists q, v = KS q) row \/ Forall (fun v => exists l, v = KA l) row) /\ length (values row) = p.
(** sum over the particles of f (weight, particle) *)
Definition over (w : list R) (xs : list (list R)) (f : R -> list R -> R) : R := total (map (fun wx => f (fst wx) (snd wx)) (combine w xs)).
Definition coord (x : list R) (i : nat) : R := nth i x 0.
(** weighted mean and weighted covariance with the factor for reliability weights *)
Definition wmean (w : list R) (xs : list (list R)) (i : nat) : R := over w xs (fun a x => a * coord x i) / total w.
Definition wcov (w : list R) (xs : list (list R)) (i j : nat) : R :=
  over w xs (fun a x => a * (coord x i - wmean w xs i) * (coord x j - wmean w xs j)) / (total w - total (map (fun a => a ^ 2) w) / total w).
(** non-negative weights, at least two of them positive *)
Definition TwoPositive (w : list R) : Prop := Forall (fun a => 0 <= a) w /\ exists i j, (i < j)%nat /\ 0 < nth i w 0 /\ 0 < nth j w 0.
(** a is the p x p matrix A, without dimensions for p = 1 *)
Definition IsMatrix (p : nat) (A : nat -> nat -> R) (a : arr) : Prop :=
  match a with
  | Scalar x => p = 1%nat /\ x = XR (A 0 0)%nat
  | Matrix m => length m = p /\ forall i, (i < p)%nat -> length (nth i m []) = p /\ forall j, (j < p)%nat -> nth j (nth i m []) XNaN = XR (A i j)
  | Dummy => False
  end.
Definition trace (p : nat) (A : nat -> nat -> R) : R := total (map (fun i => A i i) (seq 0 p)).
(** u^T A u *)
Definition quad (p : nat) (A : nat -> nat -> R) (u : nat -> R) : R := total (map (fun i => total (map (fun j => u i * A i j * u j) (seq 0 p))) (seq 0 p)).
Definition norm_sq (p : nat) (u : nat -> R) : R := total (map (fun i => u i ^ 2) (seq 0 p)).
