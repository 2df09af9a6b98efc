(** Specification vocabulary for nearest-neighbour and classifier distances (C39, C52). *)
From Coq Require Import Reals.
From Verif Require Import M_Base S_Stats S_Distance.
Open Scope R_scope.

Definition below (v : R) (l : list R) : nat := length (filter (fun d => if Rlt_dec d v then true else false) l).
Definition upto (v : R) (l : list R) : nat := length (filter (fun d => if Rle_dec d v then true else false) l).
(** v is the k-th smallest element of l (k from 1, repetitions counted) *)
Definition KthSmallest (k : nat) (l : list R) (v : R) : Prop := In v l /\ (below v l < k <= upto v l)%nat.
(** ds are the distances of the points xs to their k-th nearest neighbours among pts *)
Definition Neighbours (k : nat) (pts xs : list (list R)) (ds : list R) : Prop := Forall2 (fun x d => KthSmallest k (map (vdist x) pts) d) xs ds.
Definition positive (l : list R) : Prop := Forall (fun x => 0 < x) l.
(** sum over two parallel lists *)
Definition sum2 (f : R -> R -> R) (l l' : list R) : R := total (map (fun ab => f (fst ab) (snd ab)) (combine l l')).
