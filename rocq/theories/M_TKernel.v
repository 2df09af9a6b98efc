(** MultivariateStudentTKernel (abcpy/perturbationkernel.py 360-524): the draw and the density on vectors; the rows of numbers or arrays they come from and their splitting are in M_Kernel
    (vec_update, vec_pdf).  Real arithmetic, finite covariance matrices. *)
From Coq Require Import Reals.
From Verif Require Import M_Base M_Num M_XReal M_Stats M_Priors M_MVPrior M_Kernel.
Open Scope R_scope.

(** an entry of accepted_cov_mats: number of rows and columns, entries *)
Definition smat := (nat * (nat -> nat -> R))%type.

Section Density.
(** scipy's gamma; np.linalg.det; np.linalg.inv, which raises LinAlgError (None) for a singular matrix *)
Variables (gam : R -> R) (det : nat -> (nat -> nat -> R) -> R) (inv : nat -> (nat -> nat -> R) -> option (nat -> nat -> R)).
(** 495-524.  LinAlgError is recorded as RuntimeError.  Simplification: a point or matrix of another size is refused (numpy would broadcast a single number). *)
Definition t_dens (df : xr) (mean : list Q) (c : smat) (x : list Q) : res xr :=
  let v := df in
  let p := length mean in
  if negb (length x =? p)%nat then Err ValueError else
  if negb (fst c =? p)%nat then Err ValueError else
  let P := XR (INR p) in
  let numerator := xgam gam (xdiv (xadd v P) (XR 2)) in
  let denominator := xmul (xmul (xgam gam (xdiv v (XR 2))) (xrpow (xmul v (XR PI)) (xdiv P (XR 2)))) (XR (sqrt (Rabs (det p (snd c))))) in
  let normalizing_const := xdiv numerator denominator in
  match inv p (snd c) with
  | None => Err RuntimeError
  | Some B =>
      let d i := Q2R (nth i x 0%Q) - Q2R (nth i mean 0%Q) in
      let tmp := xadd x1 (xmul (xdiv x1 v) (XR (dot p (fun j => dot p d (fun i => B i j)) d))) in
      Ok (xmul normalizing_const (xrpow tmp (xopp (xdiv (xadd v P) (XR 2)))))
  end.
End Density.

Section Draw.
Context {Rng : Type}.
(** [rng.chisquare(df, 1)] and [rng.multivariate_normal(np.zeros(p), cov, 1)[0]] *)
Variables (chisquare : R -> Rng -> Rng * R) (normal0 : nat -> (nat -> nat -> R) -> Rng -> Rng * list R).
(** 431-446, 454-467: rng.chisquare refuses degrees of freedom that are not positive; rng.multivariate_normal a matrix of another size *)
Definition t_draw (df : xr) (mean : list R) (c : smat) (r : Rng) : Rng * res (list xr) :=
  let p := length mean in
  match (match df with
         | XInf => Ok (r, x1)
         | XR v => if Rlt_dec 0 v then let '(r', s) := chisquare v r in Ok (r', xdiv (XR s) (XR v)) else Err ValueError
         | _ => Err ValueError
         end) with
  | Err e => (r, Err e)
  | Ok (r1, chisq) =>
      if negb (fst c =? p)%nat then (r1, Err ValueError) else
      let '(r2, mvn) := normal0 p (snd c) r1 in
      (r2, Ok (map (fun mz => xadd (XR (fst mz)) (xdiv (XR (snd mz)) (xsqrt chisq))) (combine mean mvn)))
  end.
End Draw.
