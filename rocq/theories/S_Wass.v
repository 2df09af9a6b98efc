(** Specification vocabulary for optimal transport between weighted samples (C53). *)
From Coq Require Import Reals.
From Verif Require Import M_Base M_Num M_XReal S_Stats S_Distance.
Open Scope R_scope.

(** sum of f over 0 .. n-1 *)
Definition sumn (n : nat) (f : nat -> R) : R := total (map f (seq 0 n)).
(** a transport plan between the weight vectors a and b *)
Definition Plan (a b : list R) (g : nat -> nat -> R) : Prop :=
  (forall i j, (i < length a)%nat -> (j < length b)%nat -> 0 <= g i j) /\
  (forall i, (i < length a)%nat -> sumn (length b) (g i) = nth i a 0) /\
  (forall j, (j < length b)%nat -> sumn (length a) (fun i => g i j) = nth j b 0).
Definition cost (n m : nat) (M : nat -> nat -> R) (g : nat -> nat -> R) : R := sumn n (fun i => sumn m (fun j => g i j * M i j)).
(** v is the least cost (the infimum) over all plans *)
Definition LeastCost (a b : list R) (M : nat -> nat -> R) (v : R) : Prop :=
  (forall g, Plan a b g -> v <= cost (length a) (length b) M g) /\
  (forall eps, 0 < eps -> exists g, Plan a b g /\ cost (length a) (length b) M g < v + eps).
(** non-negative weights with sum one *)
Definition Prob (a : list R) : Prop := Forall (fun x => 0 <= x) a /\ total a = 1.
Definition at_ (K : list (list R)) (i j : nat) : R := nth j (nth i K []) 0.
(** the weights w divided by their sum; equal weights if there are none *)
Definition normed (n : nat) (w : option (list R)) : list R :=
  match w with None => repeat (/ INR n) n | Some l => map (fun x => x / total l) l end.
(** weights that define a distribution on n samples *)
Definition GoodWeights (n : nat) (w : option (list R)) : Prop :=
  (0 < n)%nat /\ match w with None => True | Some l => length l = n /\ Forall (fun x => 0 <= x) l /\ 0 < total l end.
(** v is the 2-Wasserstein distance: v^2 is the least cost for the squared Euclidean distances *)
Definition W2dist (s1 s2 : list (list R)) (a b : list R) (v : R) : Prop :=
  0 <= v /\ LeastCost a b (fun i j => (vdist (nth i s1 []) (nth j s2 [])) ^ 2) (v ^ 2).
(** the mean of f under the weighted sample *)
Definition mean_of (s : list (list R)) (a : list R) (f : list R -> R) : R := sumn (length a) (fun i => nth i a 0 * f (nth i s [])).
(** an exact solver of the transport problem *)
Definition Solver (emd2 : list xr -> list xr -> list (list R) -> xr) : Prop :=
  forall a b K, Prob a -> Prob b -> exists v, emd2 (map XR a) (map XR b) K = XR v /\ LeastCost a b (at_ K) v.
(** two weighted samples represent the same distribution *)
Definition SameDistribution (s1 s2 : list (list R)) (a b : list R) : Prop := forall f, mean_of s1 a f = mean_of s2 b f.
