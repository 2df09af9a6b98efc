(** Spec for C83: moves that are accepted with the ratio of the weights of prior and distance, alone and in batches. *)
From Coq Require Import Reals Qreals.
From Verif Require Import M_Base M_Num M_PMCABC M_XReal M_Stats S_Stats S_Law S_Chain.
Open Scope R_scope.

Section Anneal.
Variables Theta Y : Type.
(** prior density, density of a perturbation, probability of a data set, its distance, the weight of a distance *)
Variable pi : Theta -> Q.
Variable kern : Theta -> Theta -> Q.
Variable lik : Theta -> Y -> R.
Variable dist : Y -> num.
Variable W : num -> R.
(** the parameters inside the prior; all data sets *)
Variable Ts : list Theta.
Variable datas : list Y.
Notation inner := (inner Theta kern Ts).
(** chance that new parameters and their distance replace the old ones *)
Definition keep (x x' : Theta * num) : R := Rmin 1 (Q2R (pi (fst x')) / Q2R (pi (fst x)) * (W (snd x') / W (snd x))).
(** mean of G over what is proposed from x and whether it is accepted *)
Definition attempt (x : Theta * num) (G : bool -> Theta * num -> R) : R :=
  total (map (fun th' => Q2R (kern (fst x) th') / inner (fst x) *
    total (map (fun y => lik th' y * (keep x (th', dist y) * G true (th', dist y) + (1 - keep x (th', dist y)) * G false (th', dist y))) datas)) Ts).
(** mean of F over the population after m proposals, each from a member of pp chosen at random; now: the population so far *)
Fixpoint batch (pp : list (Theta * num)) (m : nat) (F : list (Theta * num) -> R) (now : list (Theta * num)) : R :=
  match m with
  | O => F now
  | S m' => / INR (length pp) * total (map (fun ix => attempt (snd ix) (fun b x' => batch pp m' F (if b then lset now (fst ix) x' else now))) (combine (seq 0 (length pp)) pp))
  end.
(** the same for one member x of n *)
Fixpoint member (n m : nat) (f : Theta * num -> R) (x now : Theta * num) : R :=
  match m with
  | O => f now
  | S m' => / INR n * attempt x (fun b x' => member n m' f x (if b then x' else now)) + (1 - / INR n) * member n m' f x now
  end.
(** sum over parameters and data sets: prior density, likelihood, weight of the distance, factor c *)
Definition weigh (c : Theta -> R) (f : Theta * num -> R) : R :=
  total (map (fun th => total (map (fun y => Q2R (pi th) * lik th y * W (dist y) * c th * f (th, dist y)) datas)) Ts).
End Anneal.
(** sum over parameters and data sets: prior probability, likelihood, chance of acceptance of the data set *)
Definition mass (Theta Y : Type) (pr : Theta -> R) (lik : Theta -> Y -> R) (ac : Y -> Q) (dist : Y -> num) (pts : list Theta) (datas : list Y) (F : Theta * num -> R) : R :=
  total (map (fun th => total (map (fun y => pr th * lik th y * Q2R (ac y) * F (th, dist y)) datas)) pts).
(** mean over m independent generators of k draws each *)
Fixpoint gens {A} (outs : list A) (p : A -> R) (m k : nat) (F : list (list A) -> R) : R :=
  match m with O => F [] | S m' => mean outs p k (fun l => gens outs p m' k (fun ls => F (l :: ls))) end.
