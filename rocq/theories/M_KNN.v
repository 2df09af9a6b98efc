(** abcpy/distances.py: nearest-neighbour divergence estimators GammaDivergence (621-750), KLDivergence (753-849), SquaredHellingerDistance (1092-1219);
    classifier distances LogReg (285-353) and PenLogReg (205-282); fold labels also in abcpy/approx_lhd.py 383-385.
    Simplifications: statistics are matrices of finite reals with at least one column; no rounding; a zero divisor has no sign; gam > 0.
    sklearn's NearestNeighbors.kneighbors (exact search) gives the sorted Euclidean distances to the fitted points and raises ValueError for no query or
    fitted points, a neighbour count of 0, or one larger than the number of fitted points.  Warnings are not modelled.
    The statement [assert ValueError(...)] (671-673, 795-797, 1135-1137) never fails, since an exception object is true. *)
From Coq Require Import Reals Lra.
From Verif Require Import M_Base M_XReal M_MMD.
Open Scope R_scope.

Fixpoint insR (x : R) (l : list R) : list R := match l with [] => [x] | y :: t => if Rle_dec x y then x :: l else y :: insR x t end.
Definition sortR (l : list R) : list R := fold_right insR [] l.
(** [NearestNeighbors(n_neighbors=k).fit(pts).kneighbors(xs, k)[0][:, -1]] (703-713, 831-837, 1167-1175, 1192-1195): distance of every query to its k-th neighbour *)
Definition kneigh (k : nat) (pts xs : list vec) : res (list R) :=
  if ((k =? 0) || (length pts <? k) || (length xs =? 0))%nat%bool then Err ValueError else Ok (map (fun x => nth (k - 1) (sortR (map (norm x) pts)) 0) xs).
(** [x ** a] elementwise for a > 0 *)
Definition xpowr (x : xr) (a : R) : xr := match x with XR r => match rsign r with Some true => XR (Rpower r a) | None => XR 0 | Some false => XNaN end | XInf => XInf | _ => XNaN end.
Definition rn (n : nat) : R := INR n.

(** [KLDivergence.skl_estimator_KL_div] (813-846) *)
Definition kl (k p : nat) (s1 s2 : list vec) : res xr :=
  let n := length s1 in let m := length s2 in
  rthen (kneigh (k + 1) s1 s1) (fun rho => rthen (kneigh k s2 s1) (fun nu =>
  let D := xsum (map (fun ab => xlog (xdiv (XR (fst ab)) (XR (snd ab)))) (combine nu rho)) in
  Ok (xadd (xmul (XR (rn p / rn n)) D) (xlog (XR (rn m / rn (n - 1))))))).

(** [GammaDivergence.skl_estimator_gamma_q] (689-747) *)
Definition inv_pow_sum (l : list R) (a : R) : xr := xsum (map (fun r => xdiv (XR 1) (xpowr (XR r) a)) l).
Definition gamma_q (k p : nat) (gam : R) (s1 s2 : list vec) : res xr :=
  let n := length s1 in let m := length s2 in let dg := rn p * gam in
  rthen (kneigh (k + 1) s1 s1) (fun rho => rthen (kneigh k s2 s1) (fun nu => rthen (kneigh (k + 1) s2 s2) (fun rho_q =>
  let second := xdiv (inv_pow_sum rho dg) (XR (rn n * Rpower (rn (n - 1)) gam)) in
  let fourth := xdiv (inv_pow_sum nu dg) (XR (rn n * Rpower (rn m) gam)) in
  let third := xdiv (inv_pow_sum rho_q dg) (XR (rn m * Rpower (rn (m - 1)) gam)) in
  Ok (xmul (XR (1 / (gam * (gam + 1)))) (xlog (xdiv (xmul second (xpowr third gam)) (xpowr fourth (1 + gam)))))))).

(** [SquaredHellingerDistance.skl_estimator_squared_Hellinger_distance] (1152-1216): one of the two estimators, and their mean *)
Definition hell_one (p n m : nat) (rho nu : list R) : xr :=
  xsub (XR 2) (xmul (XR (2 * sqrt (rn (n - 1) / rn m))) (xsum (map (fun ab => xpowr (xdiv (XR (fst ab)) (XR (snd ab))) (rn p / 2)) (combine rho nu)))).
Definition hellinger (k p : nat) (s1 s2 : list vec) : res xr :=
  let n := length s1 in let m := length s2 in
  rthen (kneigh (k + 1) s1 s1) (fun rho1 => rthen (kneigh k s2 s1) (fun nu1 => rthen (kneigh (k + 1) s2 s2) (fun rho2 => rthen (kneigh k s1 s2) (fun nu2 =>
  Ok (xmul (XR (/ 2)) (xadd (hell_one p n m rho1 nu1) (hell_one p m n rho2 nu2))))))).
(** [dist_max] and [_estimate_always_positive] (678-687, 749-750; 802-811, 848-849; 1142-1150, 1218-1219; 342-352; 273-283) *)
Definition hellinger_max : R := 2.
Definition hellinger_always_positive : bool := true.
Definition kl_always_positive : bool := false.
Definition gamma_always_positive : bool := false.
Definition logreg_max : R := 1.
Definition logreg_always_positive : bool := false.

(** Training labels (327-330, 259-262): 0 for every row of s1, then 1 for every row of s2; false stands for 0 *)
Definition labels (n1 n2 : nat) : list bool := repeat false n1 ++ repeat true n2.
(** [score] of a fitted classifier: the fraction of rows whose predicted label is the given one *)
Definition accuracy (pred lab : list bool) : R := rn (length (filter (fun ab => Bool.eqb (fst ab) (snd ab)) (combine pred lab))) / rn (length lab).
(** [LogReg.distance] (309-340); the fitted classifier is an arbitrary function from the training set and labels to predictions, of the length of the training set.
    sklearn refuses a training set with one class only, or empty. *)
Definition logreg (fit : list vec -> list bool -> list bool) (s1 s2 : list vec) : res R :=
  let X := s1 ++ s2 in let y := labels (length s1) (length s2) in
  if ((length s1 =? 0) || (length s2 =? 0))%nat%bool then Err ValueError else Ok (2 * (accuracy (fit X y) y - / 2)).
(** fold labels (264-266; approx_lhd.py 383-385): [np.repeat(np.arange(f), ceil(n / f))[:n]], twice *)
Definition ceil_div (n f : nat) : nat := ((n + f - 1) / f)%nat.
Definition half_groups (f n : nat) : list nat := firstn n (flat_map (fun i => repeat i (ceil_div n f)) (seq 0 f)).
Definition groups (f n : nat) : list nat := half_groups f n ++ half_groups f n.
(** [PenLogReg.distance] (233-271); the cross-validated score is an arbitrary function of training set, labels and groups that raises nothing *)
Definition penlogreg (score : list vec -> list bool -> list nat -> R) (s1 s2 : list vec) : res R :=
  if negb (length s2 =? length s1)%nat then Err RuntimeError
  else Ok (2 * (score (s1 ++ s2) (labels (length s1) (length s2)) (groups 10 (length s1)) - / 2)).
