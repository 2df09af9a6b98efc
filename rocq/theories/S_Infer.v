(** What perturb and the proposal loop do, as relations between states (parameter vector of the graph, generator). *)
From Verif Require Import M_Base M_Num.

Section Spec.
Variables Theta Rng Pop : Type.
Variable setp : Theta -> Theta -> bool * Theta.
Variable kupd : Pop -> nat -> Rng -> Rng * Theta.
(** one proposal of the kernel and its assignment to the graph, with the verdict *)
Definition Try (p : Pop) (i : nat) (st st' : Theta * Rng) (th : Theta) (ok : bool) : Prop :=
  kupd p i (snd st) = (snd st', th) /\ setp th (fst st) = (ok, fst st').
(** k refused proposals in a row *)
Inductive Refused (p : Pop) (i : nat) : nat -> Theta * Rng -> Theta * Rng -> Prop :=
| ref0 st : Refused p i 0 st st
| refS k st st1 st2 th : Try p i st st1 th false -> Refused p i k st1 st2 -> Refused p i (S k) st st2.
(** assigning the values the graph already has changes nothing, an accepted assignment installs the values (both follow from C06) *)
Definition set_ok : Prop := (forall th cur cur', setp th cur = (true, cur') -> cur' = th) /\ (forall th, snd (setp th th) = th).
End Spec.
Arguments Try {Theta Rng Pop} setp kupd p i st st' th ok.
Arguments Refused {Theta Rng Pop} setp kupd p i k st st'.
Arguments set_ok {Theta} setp.
