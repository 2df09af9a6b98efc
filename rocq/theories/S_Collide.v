(** Values drawn more than once (C89). *)
From Coq Require Import Reals.
From Verif Require Import M_Base.
Open Scope R_scope.

(** some value occurs at two places of the list *)
Fixpoint twice {X} (eq : forall x y : X, {x = y} + {x <> y}) (l : list X) : bool :=
  match l with [] => false | x :: l' => (if in_dec eq x l' then true else false) || twice eq l' end.
(** equal probabilities for the values of a list without repetitions *)
Definition alike {X} (l : list X) (_ : X) : R := / INR (length l).
(** the m integers from lo on, equally likely *)
Definition ints (lo : Z) (m : nat) : list Z := map (fun i => (lo + Z.of_nat i)%Z) (seq 0 m).
Definition even {X} (m : nat) (_ : X) : R := / INR m.
(** product of 1 - u/m, 1 - (u+1)/m, ... (k factors) *)
Fixpoint spread (m : R) (u : R) (k : nat) : R := match k with O => 1 | S k' => (1 - u / m) * spread m (u + 1) k' end.
