(** Specification vocabulary for the likelihood by penalised logistic regression (C66). *)
From Coq Require Import Reals.
From Verif Require Import M_Base S_Stats.
Open Scope R_scope.

(** [rows] are n draws, one after the other, each from the generator left by the one before; all with the one parameter th *)
Definition Draws {rng theta : Type} (draw : theta -> rng -> list R * rng) (th : theta) (g : rng) (rows : list (list R)) : Prop :=
  exists gs, length gs = S (length rows) /\ nth_error gs 0 = Some g /\
    forall i r, nth_error rows i = Some r -> exists a b, nth_error gs i = Some a /\ nth_error gs (S i) = Some b /\ draw th a = (r, b).
(** w . x *)
Definition inner (w x : list R) : R := total (map (fun wx => fst wx * snd wx) (combine w x)).
(** the probability of the second class in the logistic model *)
Definition logistic (b : R) (w x : list R) : R := / (1 + exp (- (b + inner w x))).
