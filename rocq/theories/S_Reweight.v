(** Spec for C93: what a reweighted population stands for. *)
From Coq Require Import Reals Qreals.
From Verif Require Import M_Base M_Num M_XReal M_Stats S_Stats S_Law S_Consist.
Open Scope R_scope.

(** number of distances below e *)
Definition below (e : Q) (ds : list num) : nat := length (filter (fun d => nlt d (Fin e)) ds).
(** share of the distances below the old threshold that are below the new one *)
Definition share (old new : Q) (ds : list num) : R := if (below old ds =? 0)%nat then 0 else INR (below new ds) / INR (below old ds).
(** 1 for a distance below the threshold *)
Definition close (e : Q) (d : num) : R := if nlt d (Fin e) then 1 else 0.
(** mean of f over parameters from the prior and data simulated with them, weighted by g *)
Definition abc_mean {A Theta Y} (outs : list A) (p : A -> R) (pth : A -> Theta) (dat : Theta -> A -> Y) (g : Y -> R) (f : Theta -> Y -> R) : R :=
  expect outs p (fun a => expect outs p (fun b => g (dat (pth a) b) * f (pth a) (dat (pth a) b))) / expect outs p (fun a => expect outs p (fun b => g (dat (pth a) b))).
(** weighted average of f, if all weights are numbers *)
Definition weighted_num {X} (f : X -> R) (rows : list X) (ws : list num) : option R :=
  if forallb (fun w => match w with Fin _ => true | _ => false end) ws then Some (weighted f rows (map (fun w => match w with Fin q => Q2R q | _ => 0 end) ws)) else None.
(** not a number, or more than d away from m *)
Definition off (d : R) (x : option R) (m : R) : bool := match x with Some v => far d v m | None => true end.
