(** Specification of perturbation kernels. *)
From Verif Require Import M_Base M_Kernel.

Section Spec.
Variables C Rng D V : Type.
(** the kernels move one after the other, each its own row, with the generator handed on: [outs] are the moved rows *)
Inductive Moves (covs : list C) : nat -> list (kernel C Rng D V) -> list (list V) -> Rng -> Rng -> list (list V) -> Prop :=
| mv0 ki r : Moves covs ki [] [] r r []
| mvS ki k ks row rows r r1 r2 out outs : k_upd k (nth_error covs ki) row r = (r1, Ok out) -> Moves covs (S ki) ks rows r1 r2 outs ->
    Moves covs ki (k :: ks) (row :: rows) r r2 (out :: outs).
(** the densities of the kernels, each between its own columns of two samples *)
Inductive Densities (covs : list C) (mean x : nat -> V) : nat -> list (kernel C Rng D V) -> list D -> Prop :=
| dn0 ki : Densities covs mean x ki [] []
| dnS ki k ks d ds : k_pdf k (nth_error covs ki) (map mean (k_models k)) (map x (k_models k)) = Ok d ->
    Densities covs mean x (S ki) ks ds -> Densities covs mean x ki (k :: ks) (d :: ds).
End Spec.
Arguments Moves {C Rng D V} covs _ _ _ _ _ _.
Arguments Densities {C Rng D V} covs mean x _ _ _.

(** all sequences of k draws from 0, ..., n-1, and a generator that replays one *)
Fixpoint tapes (n k : nat) : list (list nat) := match k with 0 => [[]] | S k' => flat_map (fun d => map (cons d) (tapes n k')) (seq 0 n) end.
Definition replay (n : nat) (t : list nat) : list nat * nat := match t with d :: t' => (t', d) | [] => ([], 0) end.
(** number of sequences of draws for which a computation returns x *)
Fixpoint same (a b : list Q) : bool := match a, b with [], [] => true | x :: a', y :: b' => Qeq_bool x y && same a' b' | _, _ => false end.
Definition returns (x : list Q) (r : list nat * res (list Q)) : bool := match r with (_, Ok l) => same l x | _ => false end.
Definition hits (f : list nat -> list nat * res (list Q)) (x : list Q) (n k : nat) : nat := length (filter (fun t => returns x (f t)) (tapes n k)).
(** integer vectors *)
Definition ints (l : list Z) : list Q := map inject_Z l.
