(** The sliced 2-Wasserstein distance (abcpy/distances.py 413-618).
    Reals without rounding; the statistics are matrices of finite numbers. Parameters: the random number generator (its
    states and the matrices of normal draws), and [ot.lp.emd2_1d], a function of the two projected samples and the two
    weight vectors. The weights [a], [b] are never passed by [distance], so only the equal weights are modelled; [log] is
    always False. *)
From Coq Require Import Reals.
From Verif Require Import M_Base M_Num M_XReal M_MMD M_Stats M_Wass.
Open Scope R_scope.

Section Sliced.
Variable G : Type.
(** [RandomState.normal(0., 1., [n, d])]: the new state and the n rows *)
Variable normals : G -> nat -> nat -> G * list vec.
Variable emd2_1d : list xr -> list xr -> list xr -> list xr -> xr.

(** a row divided by its Euclidean norm (lines 519-520); a zero row gives NaN *)
Definition norm2 (v : vec) : xr := xsqrt (xsum (map (fun x => xmul (XR x) (XR x)) v)).
Definition unit_row (v : vec) : list xr := map (fun x => xdiv (XR x) (norm2 v)) v.
(** [get_random_projections] with a RandomState (lines 479-521) *)
Definition get_random_projections (g : G) (n d : nat) : G * list (list xr) :=
  let '(g', rows) := normals g n d in (g', map unit_row rows).
(** a row of [np.dot(projections, X.T)] (lines 595-596) *)
Definition project (p : list xr) (s : list vec) : list xr := map (fun x => xsum (map (fun ab => xmul (fst ab) (XR (snd ab))) (combine p x))) s.
(** [sliced_wasserstein_distance] (lines 523-618). [d1] and [d2] are the numbers of columns. The checks come before the
    draws: [1 / n] with no rows is a ZeroDivisionError, and [res / n_projections] is one as well for a number 0. *)
Definition sliced_wasserstein_distance (g : G) (d1 : nat) (s1 : list vec) (d2 : nat) (s2 : list vec) (n_projections : nat) : G * res xr :=
  if negb (d1 =? d2)%nat then (g, Err ValueError) else
  if ((length s1 =? 0) || (length s2 =? 0))%nat then (g, Err ZeroDivisionError) else
  let a := repeat (xdiv (XR 1) (XR (INR (length s1)))) (length s1) in
  let b := repeat (xdiv (XR 1) (XR (INR (length s2)))) (length s2) in
  let '(g', projections) := get_random_projections g n_projections d1 in
  let total := fold_left (fun acc p => xadd acc (emd2_1d (project p s1) (project p s2) a b)) projections (XR 0) in
  if (n_projections =? 0)%nat then (g', Err ZeroDivisionError)
  else (g', Ok (xsqrt (xdiv total (XR (INR n_projections))))).
(** [SlicedWasserstein.distance] on the two matrices of statistics (lines 442-460): the generator of the object is used, so
    the call changes it. [dist_max] (lines 462-471). *)
Definition sliced_distance := sliced_wasserstein_distance.
Definition sliced_max : xr := XInf.
End Sliced.
