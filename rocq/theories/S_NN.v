(** Specification: partial derivatives and the values a network applies its nonlinearity to. *)
From Coq Require Import Reals List.
From Verif Require Import M_NN.
Import ListNotations.
Open Scope R_scope.

(** x with component i replaced by t *)
Fixpoint upd (x : list R) (i : nat) (t : R) : list R :=
  match x, i with [], _ => [] | _ :: x', O => t :: x' | a :: x', S i' => a :: upd x' i' t end.
(** d is the partial derivative of g at x with respect to component i *)
Definition partial (g : list R -> R) (i : nat) (x : list R) (d : R) : Prop := derivable_pt_lim (fun t => g (upd x i t)) (nth i x 0) d.
(** the values to which the nonlinearity is applied when the network is evaluated at x *)
Fixpoint values (act : R -> R) (hs : list layer) (v : list R) : list R :=
  v ++ match hs with [] => [] | L :: hs' => values act hs' (linear L (map act v)) end.
Definition visited (act : R -> R) (N : net) (x : list R) : list R :=
  match fc_rest N with None => [] | Some (hs, _) => values act hs (linear (fc_in N) x) end.
(** widths of a chain of layers *)
Fixpoint chain (n : nat) (hs : list nat) : list (nat * nat) := match hs with [] => [] | h :: hs' => (n, h) :: chain h hs' end.
