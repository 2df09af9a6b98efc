(** Specifications for the prior distributions. *)
From Coq Require Import Reals List.
From Verif Require Import M_XReal S_Stats.
Import ListNotations.
Open Scope R_scope.

(** all results of n trials, the number of successes, the probability of a result when every trial succeeds with probability p, independently *)
Fixpoint outcomes (n : nat) : list (list bool) :=
  match n with O => [[]] | S n' => map (cons true) (outcomes n') ++ map (cons false) (outcomes n') end.
Definition hits (o : list bool) : nat := length (filter (fun b => b) o).
Definition weight (p : R) (o : list bool) : R := fold_right (fun b acc => (if b : bool then p else 1 - p) * acc) 1 o.
(** probability of exactly k successes *)
Definition chance (p : R) (n k : nat) : R := total (map (weight p) (filter (fun o => Nat.eqb (hits o) k) (outcomes n))).

(** boxes of finite numbers *)
Definition Proper (lo hi : list R) : Prop := length lo = length hi /\ forall j, (j < length lo)%nat -> nth j lo 0 < nth j hi 0.
Definition Inside (lo hi x : list R) : Prop := forall j, (j < length lo)%nat -> nth j lo 0 <= nth j x 0 <= nth j hi 0.
Definition volume (lo hi : list R) : R := fold_right Rmult 1 (map (fun ab => snd ab - fst ab) (combine lo hi)).
