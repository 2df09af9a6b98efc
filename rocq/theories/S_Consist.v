(** What it means that averages over samples approach an expectation (C86). *)
From Coq Require Import Reals Qreals.
From Verif Require Import M_Base M_Num M_Journal M_XReal M_Stats S_Stats S_Law.
Open Scope R_scope.

(** x is more than e away from m *)
Definition far (e x m : R) : bool := if Rlt_dec e (Rabs (x - m)) then true else false.
(** variance of a quantity of one draw *)
Definition variance {A} (outs : list A) (p : A -> R) (f : A -> R) : R := expect outs p (fun a => (f a - expect outs p f) ^ 2).
(** the draws of worker i, when every worker has k of them *)
Definition chunk {A} (k i : nat) (l : list A) : list A := firstn k (skipn (i * k) l).
(** weighted average of a quantity of the samples *)
Definition weighted {X} (f : X -> R) (rows : list X) (ws : list R) : R := total (map (fun rw => snd rw * f (fst rw)) (combine rows ws)) / total ws.
(** ... over the samples of a journal, with its weights *)
Definition estimate {Name E} (f : list E -> R) (j : journal Name E unit unit (list num)) : option R :=
  match get_accepted_parameters j None, get_weights j None with
  | Ok rows, Ok (Col ws) => Some (weighted f rows (map Q2R ws))
  | _, _ => None
  end.
