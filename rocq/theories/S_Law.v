(** Probabilities of events of finitely many independent draws (C74, C75, C76). *)
From Coq Require Import Reals.
From Verif Require Import M_Base M_Num M_XReal M_Stats S_Stats.
Open Scope R_scope.

Section Law.
Variable A : Type.
(** the possible outcomes of one draw and their probabilities *)
Variable outs : list A.
Variable p : A -> R.
Definition Law : Prop := (forall a, In a outs -> 0 <= p a) /\ total (map p outs) = 1.
(** expectation of a quantity of one outcome; probability of an event *)
Definition expect (f : A -> R) : R := total (map (fun a => p a * f a) outs).
Definition chance (P : A -> bool) : R := expect (fun a => if P a then 1 else 0).
(** probability of an event of k independent draws *)
Fixpoint prob (k : nat) (F : list A -> bool) : R :=
  match k with
  | O => if F [] then 1 else 0
  | S k' => expect (fun a => prob k' (fun l => F (a :: l)))
  end.
End Law.
Arguments Law {A} outs p.
Arguments expect {A} outs p f.
Arguments chance {A} outs p P.
Arguments prob {A} outs p k F.
(** expectation of a quantity of k independent draws *)
Fixpoint mean {A} (outs : list A) (p : A -> R) (k : nat) (F : list A -> R) : R :=
  match k with
  | O => F []
  | S k' => expect outs p (fun a => mean outs p k' (fun l => F (a :: l)))
  end.
