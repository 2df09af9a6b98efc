(** Specification vocabulary for distances (C36, C37). *)
From Coq Require Import Reals.
From Verif Require Import M_Base M_Num M_XReal M_Stats S_Stats M_Distance.
Open Scope nat_scope.

(** all observations are numbers (None), or all are arrays of the same length *)
Definition shape_of (d : datum) : option nat := match d with Num _ => None | Vec l => Some (length l) end.
Definition Uniform (sh : option nat) (l : list datum) : Prop := l <> [] /\ Forall (fun d => shape_of d = sh) l.
(** no list is changed in place after it was passed as the first argument *)
Definition NoMutation (hist : list (heap * arg * arg)) : Prop :=
  ForallOrdPairs (fun c1 c2 => match snd (fst c1) with Some p => fst (fst c2) p = fst (fst c1) p | None => True end) hist.
Definition FirstUniform (sh : option nat) (hist : list (heap * arg * arg)) : Prop :=
  Forall (fun c => match snd (fst c) with Some p => Uniform sh (fst (fst c) p) | None => True end) hist.

(** real vectors *)
Definition vdist (x y : list R) : R := sqrt (total (map (fun ab => (fst ab - snd ab) ^ 2)%R (combine x y))).
Definition matR (p : nat) (rows : list (list R)) : mat := mkmat p (map (map XR) rows).
(** mean distance over all pairs of observations *)
Definition mean_dist (xs ys : list (list R)) : R := average (flat_map (fun x => map (vdist x) ys) xs).
