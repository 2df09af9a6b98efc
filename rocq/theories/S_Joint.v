(** Specification vocabulary for joint distances and likelihoods (C45). *)
From Coq Require Import Reals.
From Verif Require Import M_Base M_XReal S_Stats.
Open Scope R_scope.

(** the weighted average of v with weights w *)
Definition waverage (w v : list R) : R := total (map (fun wv => fst wv * snd wv) (combine w v)) / total w.
(** the components [cs], applied to the data sets with the same number, return the numbers [v] *)
Definition Values {D} (cs : list (D -> D -> res xr)) (l1 l2 : list D) (v : list R) : Prop :=
  length v = length cs /\
  forall i c, nth_error cs i = Some c ->
    exists a b x, nth_error l1 i = Some a /\ nth_error l2 i = Some b /\ nth_error v i = Some x /\ c a b = Ok (XR x).
Definition product (l : list R) : R := fold_right Rmult 1 l.
