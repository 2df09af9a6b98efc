(** Spec for C81: chains of moves that are all proposed from the same starting parameters. *)
From Coq Require Import Reals Qreals.
From Verif Require Import M_Base M_Num M_XReal M_Stats S_Stats S_Law.
Open Scope R_scope.

Section Chain.
Variables Theta Y : Type.
(** prior density, density of a perturbation, probability of a data set *)
Variable pi : Theta -> Q.
Variable kern : Theta -> Theta -> Q.
Variable lik : Theta -> Y -> R.
Variable near : Y -> bool.
Variable dist : Y -> num.
(** the parameters inside the prior; all data sets *)
Variable Ts : list Theta.
Variable datas : list Y.
(** chance that a perturbation is inside the prior; chance of a close data set *)
Definition inner (th : Theta) : R := total (map (fun x => Q2R (kern th x)) Ts).
Definition hit (th : Theta) : R := chance datas (lik th) near.
(** the ratio of Metropolis and Hastings *)
Definition ratio (th th' : Theta) : R := Rmin 1 (Q2R (pi th') / Q2R (pi th) * (Q2R (kern th' th) / Q2R (kern th th'))).
(** mean of F over the entries (accepted, parameters, distance) of k moves, proposed from start; th, d: current parameters and distance; l: entries so far *)
Fixpoint path (start : Theta) (F : list (bool * Theta * num) -> R) (k : nat) (th : Theta) (d : num) (l : list (bool * Theta * num)) : R :=
  match k with
  | O => F l
  | S k' => total (map (fun th' => Q2R (kern start th') / inner start * total (map (fun y => lik th' y *
       let a := if near y then ratio th th' else 0 in
       (a * path start F k' th' (dist y) (l ++ [(true, th', dist y)]) + (1 - a) * path start F k' th d (l ++ [(false, th, d)]))) datas)) Ts)
  end.
(** mean of f over the parameters after k moves *)
Fixpoint moves (start : Theta) (k : nat) (f : Theta -> R) (th : Theta) : R :=
  match k with
  | O => f th
  | S k' => total (map (fun th' => Q2R (kern start th') / inner start * (ratio th th' * hit th' * moves start k' f th' + (1 - ratio th th' * hit th') * moves start k' f th)) Ts)
  end.
(** sum over parameters: prior density, factor c, chance of close data *)
Definition weigh (c : Theta -> R) (f : Theta -> R) : R := total (map (fun th => Q2R (pi th) * c th * hit th * f th) Ts).
End Chain.
