(** Bounded variables and the coordinate transformations, on real numbers. *)
From Coq Require Import Reals List.
Import ListNotations.
From Verif Require Import M_XReal M_Transform.
Open Scope R_scope.

(** strictly inside the bounds *)
Definition inside (b : bnd) (x : R) : Prop := (forall lo, fst b = Some lo -> lo < x) /\ (forall hi, snd b = Some hi -> x < hi).
(** log distance to a lower bound; log ratio of the distances to two bounds *)
Definition t (b : bnd) (x : R) : R :=
  match b with (Some lo, None) => ln (x - lo) | (Some lo, Some hi) => ln ((x - lo) / (hi - x)) | _ => x end.
(** supported patterns: no bound, a lower bound, two bounds in order *)
Definition supported (b : bnd) : Prop := match b with (None, Some _) => False | (Some lo, Some hi) => lo < hi | _ => True end.
(** the bounds and their difference are float32 numbers *)
Definition exact (f32 : R -> R) (b : bnd) : Prop :=
  (forall lo, fst b = Some lo -> f32 lo = lo) /\ (forall hi, snd b = Some hi -> f32 hi = hi) /\ (forall lo hi, b = (Some lo, Some hi) -> f32 (hi - lo) = hi - lo).
(** a parameter list: plain numbers, or arrays of one number *)
Definition pack (arrays : bool) (l : list R) : list entry := map (fun r => if arrays then Ar [XR r] else Sc (XR r)) l.
