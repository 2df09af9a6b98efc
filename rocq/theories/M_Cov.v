(** Covariance matrices of the perturbation kernels: [calculate_cov] (abcpy/perturbationkernel.py 126-145, 246-276, 375-402,
    596-602, 714-720) and [_compute_accepted_cov_mats] (abcpy/inferences.py 1059-1083, and the same text in 2008-2031,
    2799-2823, 3151-3175, 4046-4070, 4580-4605; with one factor per kernel in 1465-1488).
    Reals without rounding; parameter values and weights are finite. [np.cov] is modelled after its numpy source with
    rowvar=False, ddof=1: a matrix with a single row is not transposed, so that its entries count as observations of one
    variable; the result is squeezed. *)
From Coq Require Import Reals Qreals.
From Verif Require Import M_Base M_Num M_XReal M_MMD M_Stats M_Graph M_Infer M_Journal M_APM M_Kernel.
Open Scope R_scope.

(** an array without dimensions, the array [0] of the random walks, and a matrix *)
Inductive arr := Scalar (x : xr) | Dummy | Matrix (m : list (list xr)).
(** variables as lists of observations *)
Definition variables (p : nat) (rows : list vec) : list (list R) :=
  match rows with
  | [] => [[]]
  | [r] => [r]
  | _ => map (fun i => map (fun r => nth i r 0) rows) (seq 0 p)
  end.
Definition observations (p : nat) (rows : list vec) : nat := match rows with [] => 0 | [r] => p | _ => length rows end.
Section Entry.
Variable w : list R.
(** [np.average(X, axis=1, weights=w)] *)
Definition wavg (xs : list R) : xr := xdiv (xsum (map (fun wx => XR (fst wx * snd wx)) (combine w xs))) (xsum (map XR w)).
(** an entry of [dot(X, (X*w).T)] after the means were subtracted *)
Definition wprod (xs ys : list R) : xr :=
  xsum (map (fun wxy => xmul (xsub (XR (fst (snd wxy))) (wavg xs)) (xmul (xsub (XR (snd (snd wxy))) (wavg ys)) (XR (fst wxy)))) (combine w (combine xs ys))).
End Entry.
Definition squeeze_cov (m : list (list xr)) : arr := match m with [[x]] => Scalar x | _ => Matrix m end.
Definition clip (f : R) : R := if Rle_dec f 0 then 0 else f.
(** [np.cov(rows, aweights=aw, rowvar=False)] for rows with p entries *)
Definition np_cov (p : nat) (rows : list vec) (aw : option (list R)) : res arr :=
  let X := variables p rows in
  let n := observations p rows in
  let entries w fact := map (fun xs => map (fun ys => xmul (wprod w xs ys) (xdiv (XR 1) (XR (clip fact)))) X) X in
  match aw with
  | None => Ok (squeeze_cov (entries (repeat 1 n) (INR n - 1)))
  | Some w =>
      if negb (length w =? n)%nat then Err RuntimeError else
      if existsb (fun x => if Rlt_dec x 0 then true else false) w then Err ValueError else
      let W := rsuml w in
      if Req_EM_T W 0 then Err ZeroDivisionError else
      Ok (squeeze_cov (entries w (W - rsuml (map (fun x => x * x) w) / W)))
  end.
(** one row of [continuous_model] (perturbationkernel.py 263-270) *)
Definition flat_row (row : list kval) : res vec :=
  match row with
  | [] => Err IndexError
  | KS _ :: _ => rthen (all_scalars row) (fun l => Ok (map Q2R l))
  | KA _ :: _ => rthen (all_arrays row) (fun l => Ok (map Q2R (concat l)))
  end.
(** [MultivariateNormalKernel.calculate_cov], [MultivariateStudentTKernel.calculate_cov] (perturbationkernel.py 246-276,
    375-402); rows of different sizes cannot be converted to an array of floats (271) *)
Definition calculate_cov (rows : list (list kval)) (aw : option (list R)) : res arr :=
  rthen (mapR flat_row rows) (fun xs =>
  let p := match xs with x :: _ => length x | [] => 0%nat end in
  if forallb (fun x => (length x =? p)%nat) xs then np_cov p xs aw else Err ValueError).
(** [RandomWalkKernel.calculate_cov], [NetworkRandomWalkKernel.calculate_cov] (602, 720) *)
Definition walk_cov : arr := Dummy.

(** one matrix of [_compute_accepted_cov_mats]; the size of an array *)
Definition msize (m : list (list xr)) : nat := length (concat m).
Definition mtrace (m : list (list xr)) : xr := xsum (map (fun i => nth i (nth i m []) XNaN) (seq 0 (length m))).
Definition tiny : R := / 10 ^ 20.
Definition scale_one (c x : xr) : xr := xadd (xmul c x) (xmul (XR tiny) x).
Definition accepted_one (c : xr) (a : arr) : arr :=
  match a with
  | Scalar x => Matrix [[scale_one c x]]
  | Dummy => Matrix [[scale_one c (XR 0)]]
  | Matrix m =>
      if negb (msize m =? 1)%nat
      then Matrix (map (fun i => map (fun j => xadd (xmul c (nth j (nth i m []) XNaN)) (xmul (xmul (XR tiny) (mtrace m)) (XR (if (i =? j)%nat then 1 else 0))))
                                     (seq 0 (length (nth i m [])))) (seq 0 (length m)))
      else Matrix [[scale_one c (nth 0 (nth 0 m []) XNaN)]]
  end.
Definition compute_accepted_cov_mats (c : xr) (covs : list arr) : list arr := map (accepted_one c) covs.
(** with one factor per kernel (PMC, inferences.py 1465-1488) *)
Definition compute_accepted_cov_mats_pmc (cs : list xr) (covs : list arr) : list arr := map (fun p => accepted_one (fst p) (snd p)) (combine cs covs).
