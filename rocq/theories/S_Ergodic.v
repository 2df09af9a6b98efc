(** What it means that a chain forgets where it started and that averages along it approach an expectation (C88). *)
From Coq Require Import Reals.
From Verif Require Import M_Base M_Num M_XReal M_Stats S_Stats S_Law.
Open Scope R_scope.

(** expectation of F of the next n states, when [step f s] is the expectation of f of the state after s *)
Fixpoint along {X} (step : (X -> R) -> X -> R) (n : nat) (F : list X -> R) (s : X) : R :=
  match n with
  | O => F []
  | S k => step (fun s' => along step k (fun l => F (s' :: l)) s') s
  end.
(** y' can be reached from y by m proposals, all inside Ys *)
Inductive Reach {T D} (outs : list D) (p : D -> R) (move : T -> D -> T) (Ys : list T) : nat -> T -> T -> Prop :=
  | Reach_here y : Reach outs p move Ys 0 y y
  | Reach_move m y d y' : In d outs -> 0 < p d -> In (move y d) Ys -> Reach outs p move Ys m (move y d) y' -> Reach outs p move Ys (S m) y y'.
(** every position can be reached from every other, and one of them can be proposed from itself *)
Definition Connected {T D} (outs : list D) (p : D -> R) (move : T -> D -> T) (Ys : list T) : Prop :=
  (forall y y', In y Ys -> In y' Ys -> exists m, Reach outs p move Ys m y y') /\ exists y, In y Ys /\ Reach outs p move Ys 1 y y.
