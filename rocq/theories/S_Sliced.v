(** Specification vocabulary for the sliced Wasserstein distance (C64). *)
From Coq Require Import Reals.
From Verif Require Import M_Base M_Num M_XReal M_MMD M_Stats S_Stats S_Distance S_Wass.
Open Scope R_scope.

Definition inner (x y : list R) : R := total (map (fun ab => fst ab * snd ab) (combine x y)).
(** the sample projected on the direction t, as a sample of one-dimensional vectors *)
Definition onto (t : list R) (s : list (list R)) : list (list R) := map (fun x => [inner t x]) s.
(** equal weights of n samples *)
Definition equal (n : nat) : list R := repeat (/ INR n) n.
(** t is the unit vector in the direction of v *)
Definition UnitOf (v t : list R) : Prop := length t = length v /\ inner t t = 1 /\ exists c, 0 < c /\ v = map (Rmult c) t.
(** an exact solver of the transport problem on the line for squared distances *)
Definition Solver1 (emd : list xr -> list xr -> list xr -> list xr -> xr) : Prop :=
  forall xs ys a b, Prob a -> Prob b -> length xs = length a -> length ys = length b ->
  exists v, emd (map XR xs) (map XR ys) (map XR a) (map XR b) = XR v /\ LeastCost a b (fun i j => (nth i xs 0 - nth j ys 0) ^ 2) v.
(** a generator: n rows with d numbers each, none of them zero in all places *)
Definition Generator {G} (normals : G -> nat -> nat -> G * list (list R)) : Prop :=
  forall g n d, length (snd (normals g n d)) = n /\ Forall (fun v => length v = d) (snd (normals g n d)).
Definition NonZero (rows : list (list R)) : Prop := Forall (fun v => exists x, In x v /\ x <> 0) rows.
(** the rows of a data set with d columns, at least one *)
Definition Data (d : nat) (s : list (list R)) : Prop := s <> [] /\ Forall (fun x => length x = d) s.
