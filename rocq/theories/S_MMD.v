(** Specification vocabulary for the maximum mean discrepancy and the energy distance (C38). *)
From Coq Require Import Reals.
From Verif Require Import M_Base S_Stats.
Open Scope R_scope.

(** mean of k over all pairs; mean over pairs of different positions *)
Definition mean_pairs (k : list R -> list R -> R) (xs ys : list (list R)) : R := average (flat_map (fun x => map (k x) ys) xs).
Definition distinct_pairs {A} (xs : list A) : list (A * A) :=
  flat_map (fun i => flat_map (fun j => match nth_error xs i, nth_error xs j with Some x, Some y => if (i =? j)%nat then [] else [(x, y)] | _, _ => [] end) (seq 0 (length xs))) (seq 0 (length xs)).
Definition mean_distinct (k : list R -> list R -> R) (xs : list (list R)) : R := average (map (fun xy => k (fst xy) (snd xy)) (distinct_pairs xs)).
(** squared distance between mean embeddings: E k(x,x') - 2 E k(x,y) + E k(y,y') *)
Definition MMD2 (k : list R -> list R -> R) (xs ys : list (list R)) : R := mean_pairs k xs xs - 2 * mean_pairs k xs ys + mean_pairs k ys ys.
Definition MMD2_distinct (k : list R -> list R -> R) (xs ys : list (list R)) : R := mean_distinct k xs - 2 * mean_pairs k xs ys + mean_distinct k ys.
(** 2 E d(x,y) - E d(x,x') - E d(y,y') *)
Definition Energy (d : list R -> list R -> R) (xs ys : list (list R)) : R := 2 * mean_pairs d xs ys - mean_pairs d xs xs - mean_pairs d ys ys.
Definition Symmetric (k : list R -> list R -> R) : Prop := forall x y, k x y = k y x.
(** every row has p entries *)
Definition Rows (p : nat) (xs : list (list R)) : Prop := Forall (fun r => length r = p) xs.
(** sum over all pairs of c_i c_j k(x_i, x_j) for weights c and points of dimension p *)
Definition form (k : list R -> list R -> R) (l : list (R * list R)) : R := total (flat_map (fun a => map (fun b => fst a * fst b * k (snd a) (snd b)) l) l).
Definition PositiveDefinite (p : nat) (k : list R -> list R -> R) : Prop := forall l, Forall (fun a => length (snd a) = p) l -> 0 <= form k l.
Definition NegativeType (p : nat) (d : list R -> list R -> R) : Prop := forall l, Forall (fun a => length (snd a) = p) l -> total (map fst l) = 0 -> form d l <= 0.
