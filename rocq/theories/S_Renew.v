(** Spec for C92: particles that are replaced by chosen ones, with the distance of an accepted proposal. *)
From Coq Require Import Reals Qreals.
From Verif Require Import M_Base M_Num M_PMCABC M_XReal M_Stats S_Stats S_Law S_Chain.
Open Scope R_scope.

Section Renew.
Variables Theta Y : Type.
(** prior density, density of a perturbation, probability of a data set, whether it is close, its distance *)
Variable pi : Theta -> Q.
Variable kern : Theta -> Theta -> Q.
Variable lik : Theta -> Y -> R.
Variable near : Y -> bool.
Variable dist : Y -> num.
(** the parameters inside the prior; all data sets *)
Variable Ts : list Theta.
Variable datas : list Y.
Notation inner := (inner Theta kern Ts).
Notation ratio := (ratio Theta pi kern).
(** mean of F over the particle that comes from x = (parameters, distance): the parameters never change, the distance is that of an accepted proposal th' *)
Definition renew (x : Theta * num) (F : Theta * num -> R) : R :=
  total (map (fun th' => Q2R (kern (fst x) th') / inner (fst x) * total (map (fun y => lik th' y *
    let a := if near y then ratio (fst x) th' else 0 in (a * F (fst x, dist y) + (1 - a) * F x)) datas)) Ts).
(** mean of F over the population pp and m particles that come from members of pp chosen at random; now: the population so far *)
Fixpoint renewals (pp : list (Theta * num)) (m : nat) (F : list (Theta * num) -> R) (now : list (Theta * num)) : R :=
  match m with
  | O => F now
  | S m' => / INR (length pp) * total (map (fun x => renew x (fun x' => renewals pp m' F (now ++ [x']))) pp)
  end.
End Renew.
