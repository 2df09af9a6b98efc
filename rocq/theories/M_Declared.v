(** The distance objects of abcpy/distances.py as values, what they declare about the sign of their estimates
    ([_estimate_always_positive], lines 141-151, 282-283, 351-352, 410-411, 474-475, 749-750, 848-849, 1013-1014, 1218-1219), and the check in the
    constructors of SABC (abcpy/inferences.py 1530-1538) and SMCABC (3243-3258).  Classes written by users are not modelled. *)
From Coq Require Import Reals String.
From Verif Require Import M_Base M_Num M_XReal M_MMD M_Stats M_Distance M_KNN M_Wass M_Sliced.
Open Scope R_scope.

(** the classes with the arguments of their constructors; the fitted classifiers of LogReg and PenLogReg are arguments here *)
Inductive object :=
| OEuclidean
| OPenLogReg (score : list vec -> list bool -> list nat -> R)
| OLogReg (fit : list vec -> list bool -> list bool)
| OWasserstein
| OSliced (n_projections : nat)
| OGamma (k : nat) (gam : R)
| OKL (k : nat)
| OMMD (kern : kernel) (biased : bool)
| OEnergy (kern : kernel) (biased : bool)
| OHellinger (k : nat).

(** [isinstance(distance, Divergence)] (153, 205, 286, 355, 414, 619, 753, 852, 1017, 1092): every class but Euclidean *)
Definition is_divergence (o : object) : bool := match o with OEuclidean => false | _ => true end.
(** [_estimate_always_positive]; EnergyDistance inherits that of MMD *)
Definition always_positive (o : object) : bool :=
  match o with
  | OEuclidean => true
  | OPenLogReg _ | OLogReg _ => logreg_always_positive
  | OWasserstein | OSliced _ => true
  | OGamma _ _ => gamma_always_positive
  | OKL _ => kl_always_positive
  | OMMD _ b | OEnergy _ b => mmd_always_positive b
  | OHellinger _ => hellinger_always_positive
  end.
(** inferences.py 1534-1538, in the constructor of SABC *)
Definition sabc_check (os : list object) : res unit :=
  if existsb (fun o => is_divergence o && negb (always_positive o)) os then Err RuntimeError else Ok tt.
(** inferences.py 3243-3258, in the constructor of SMCABC; the result is the attribute [bernton] *)
Definition smc_check (version : string) (os : list object) : res bool :=
  if negb (existsb (String.eqb version) ["DelMoral"; "Bernton"]%string) then Err RuntimeError
  else let bernton := String.eqb version "Bernton" in
       if negb bernton && existsb is_divergence os then Err RuntimeError else Ok bernton.

Section Declared.
Variable G : Type.
Variable normals : G -> nat -> nat -> G * list (list R).
Variable emd : list xr -> list xr -> list xr -> list xr -> xr.
Variable emd2 : list xr -> list xr -> list (list R) -> xr.
Definition plain (r : res R) : res xr := rthen r (fun v => Ok (XR v)).
(** [distance] of an object on two matrices of statistics with p columns (the models are in M_Distance, M_KNN, M_Wass, M_Sliced, M_MMD); g is the
    generator held by a SlicedWasserstein object *)
Definition object_distance (g : G) (o : object) (p : nat) (s1 s2 : list vec) : res xr :=
  match o with
  | OEuclidean => euclid (mkmat p (map (map XR) s1)) (mkmat p (map (map XR) s2))
  | OPenLogReg score => plain (penlogreg score s1 s2)
  | OLogReg fit => plain (logreg fit s1 s2)
  | OWasserstein => wasserstein emd2 s1 s2
  | OSliced k => snd (sliced_distance G normals emd g p s1 p s2 k)
  | OGamma k gam => gamma_q k p gam s1 s2
  | OKL k => kl k p s1 s2
  | OMMD kern b | OEnergy kern b => plain (mmd_distance kern b s1 s2)
  | OHellinger k => hellinger k p s1 s2
  end.
(** [dist_max] of an object (195-202, 273-280, 342-349, 401-408, 462-471, 678-687, 802-811, 924-934, 1142-1150) *)
Definition object_max (o : object) : xr :=
  match o with
  | OEuclidean => euclid_max
  | OPenLogReg _ | OLogReg _ => XR logreg_max
  | OWasserstein => wasserstein_max
  | OSliced _ => sliced_max
  | OHellinger _ => XR hellinger_max
  | OGamma _ _ | OKL _ | OMMD _ _ | OEnergy _ _ => XInf
  end.
End Declared.
