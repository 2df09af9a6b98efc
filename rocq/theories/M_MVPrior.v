(** Multivariate priors: MultivariateNormal and MultiStudentT (abcpy/continuousmodels.py 315-584).  Floats are extended real numbers; rounding is not modelled. *)
From Coq Require Import Reals.
From Verif Require Import M_Base M_Num M_XReal M_Stats M_Transform M_Priors.
Open Scope R_scope.

(** np.array(l).reshape((dim, dim)) of a list of dim * dim numbers, and an entry of such an array *)
Definition square (dim : nat) (l : list xr) : list (list xr) := map (fun i => firstn dim (skipn (i * dim) l)) (seq 0 dim).
Definition at_ (m : list (list xr)) (i j : nat) : xr := nth j (nth i m []) XNaN.
(** np.isclose(a, b, rtol=1e-5, atol=1e-3): for infinities equality, false with NaN *)
Definition isclose (a b : xr) : bool :=
  match a, b with
  | XR x, XR y => if Rle_dec (Rabs (x - y)) (1 / 1000 + 1 / 100000 * Rabs y) then true else false
  | XInf, XInf | XNInf, XNInf => true
  | _, _ => false
  end.
(* 361-362, 506-507  np.allclose(cov, cov.T, atol=1e-3) *)
Definition near_symmetric (dim : nat) (m : list (list xr)) : bool :=
  forallb (fun i => forallb (fun j => isclose (at_ m i j) (at_ m j i)) (seq 0 dim)) (seq 0 dim).
(** np.linalg.cholesky (LAPACK potrf, lower): fails at a pivot that is not positive or is NaN.  Reads only entries on and below the diagonal. *)
Fixpoint cholesky (n : nat) (m : list (list xr)) : option (list (list xr)) :=
  match n with
  | O => Some []
  | S n' =>
      let a := at_ m 0 0 in
      if negb (xlt x0 a) then None
      else
        let r := xsqrt a in
        let l i := xdiv (at_ m (S i) 0) r in
        let rest := map (fun i => map (fun j => xsub (at_ m (S i) (S j)) (xmul (l i) (l j))) (seq 0 n')) (seq 0 n') in
        match cholesky n' rest with
        | None => None
        | Some L => Some ((r :: repeat x0 n') :: map (fun il => l (fst il) :: snd il) (combine (seq 0 n') L))
        end
  end.
Definition pos_def (dim : nat) (m : list (list xr)) : bool := match cholesky dim m with Some _ => true | None => false end.

(* 347-371  MultivariateNormal._check_input *)
Definition mvn_check_input (dim : nat) (vs : list xr) : bool :=
  if negb (length vs =? dim + dim ^ 2)%nat then false
  else let cov := square dim (firstn (dim ^ 2) (skipn dim vs)) in
       if negb (near_symmetric dim cov) then false else pos_def dim cov.
(* 486-516  MultiStudentT._check_input *)
Definition mst_check_input (dim : nat) (vs : list xr) : bool :=
  if negb (length vs =? dim + dim ^ 2 + 1)%nat then false
  else let cov := square dim (firstn (dim ^ 2) (skipn dim vs)) in
       let df := last vs XNaN in
       if negb (near_symmetric dim cov) then false
       else if negb (pos_def dim cov) then false
       else negb (xle df x0).

(** Arguments of the constructors: numbers, lists, models (their current values; whether they are fixed), anything else that InputConnector.from_list refuses. *)
Inductive arg := ANum (x : xr) | AList (l : list arg) | AModel (fixed : bool) (values : list xr) | AOther.
(** InputConnector.from_list (probabilisticmodels.py 70-131; C07): the values in order, whether all are fixed; TypeError for anything else *)
Fixpoint flat (a : arg) : res (bool * list xr) :=
  match a with
  | ANum x => Ok (true, [x])
  | AModel f vs => Ok (f, vs)
  | AOther => Err TypeError
  | AList l => (fix go (l : list arg) : res (bool * list xr) :=
                  match l with
                  | [] => Ok (true, [])
                  | b :: l' => match flat b with
                               | Err e => Err e
                               | Ok (f, vs) => match go l' with Err e => Err e | Ok (f', vs') => Ok (f && f', vs ++ vs') end
                               end
                  end) l
  end.
(** [_dimension] (333-337, 473-479), unset for other kinds of mean *)
Definition mean_dim (mean : arg) : option nat := match mean with AList l => Some (length l) | AModel _ vs => Some (length vs) | _ => None end.
(** ProbabilisticModel.__init__ (265-268): the check is made if all parents are fixed *)
Definition model_init (check : nat -> list xr -> bool) (dim : option nat) (fv : bool * list xr) : res (option nat) :=
  let (fixed, vs) := fv in
  if fixed then match dim with None => Err AttributeError | Some d => if check d vs then Ok dim else Err ValueError end else Ok dim.
(* 316-345; None stands for an argument that is not a list *)
Definition mvn_init (parameters : option (list arg)) : res (option nat) :=
  match parameters with
  | None => Err TypeError
  | Some ps =>
      match ps with
      | mean :: _ :: _ => match flat (AList ps) with Err e => Err e | Ok fv => model_init mvn_check_input (mean_dim mean) fv end
      | _ => Err ValueError
      end
  end.
(* 440-484.  The branch for a mean that is a model (477-479) is never reached: such a mean is refused before (468-469). *)
Definition is_list (a : arg) : bool := match a with AList _ => true | _ => false end.
Definition mst_init (parameters : option (list arg)) : res (option nat) :=
  match parameters with
  | None => Err TypeError
  | Some ps =>
      match ps with
      | mean :: cov :: _ :: _ =>
          if negb (is_list mean) then Err TypeError
          else if negb (is_list cov) then Err TypeError
          else match flat (AList ps) with Err e => Err e | Ok fv => model_init mst_check_input (mean_dim mean) fv end
      | _ => Err ValueError
      end
  end.

(** Samplers.  [normals mean cov k]: the k rows of rng.multivariate_normal(mean, cov, k); [chisq df i]: entry i of rng.chisquare(df, k). *)
Section Sample.
Variables (normals : list xr -> list (list xr) -> nat -> list (list xr)) (chisq : xr -> nat -> xr).
(* 381-406 *)
Definition mvn_sample (dim : nat) (vs : list xr) (k : nat) : list (list xr) :=
  let mean := firstn dim vs in
  let cov := square dim (firstn (dim ^ 2) (skipn dim vs)) in
  let result := normals mean cov k in
  map (fun i => nth i result []) (seq 0 k).
(* 524-557: the quotient of row i by the same number in all dim columns (reshape(-1, 1).repeat(dim, axis=1)) *)
Definition mst_sample (dim : nat) (vs : list xr) (k : nat) : list (list xr) :=
  let mean := firstn dim vs in
  let cov := square dim (firstn (dim ^ 2) (skipn dim vs)) in
  let df := last vs XNaN in
  let c i := match df with XInf => x1 | _ => xdiv (chisq df i) df end in
  let mvn := normals (repeat x0 dim) cov k in
  map (fun i => map (fun mz => xadd (fst mz) (xdiv (snd mz) (xsqrt (c i)))) (combine mean (nth i mvn []))) (seq 0 k).
End Sample.

(** Densities.  scipy's gamma (infinite at infinity), np.linalg.det and np.linalg.inv (of a matrix given by its entries) are parameters; scipy's multivariate_normal(mean, cov).pdf is not modelled. *)
Section Density.
Variables (gam : R -> R) (det : nat -> (nat -> nat -> R) -> R) (inv : nat -> (nat -> nat -> R) -> nat -> nat -> R).
Definition xgam (a : xr) : xr := match a with XR x => XR (gam x) | XInf => XInf | _ => XNaN end.
(** pow for a positive base; pow(inf, 0) = 1 *)
Definition xrpow (a : xr) (b : xr) : xr :=
  match a, b with
  | XR x, XR y => XR (Rpower x y)
  | XInf, XR y => match rsign y with Some true => XInf | None => x1 | Some false => x0 end
  | XR x, XInf => match total_order_T x 1 with inleft (left _) => x0 | inleft (right _) => x1 | inright _ => XInf end
  | XR x, XNInf => match total_order_T x 1 with inleft (left _) => XInf | inleft (right _) => x1 | inright _ => x0 end
  | _, _ => XNaN
  end.
(** np.dot *)
Fixpoint dot (n : nat) (a b : nat -> R) : R := match n with O => 0 | S n' => dot n' a b + a n' * b n' end.
(* 562-584  MultiStudentT.pdf, for finite mean, covariance and point; df may be infinite.  [x] is a function of the position: the code requires len(x) = dim *)
Definition mst_pdf (p : nat) (mean : nat -> R) (cov : nat -> nat -> R) (df : xr) (x : nat -> R) : xr :=
  let P := XR (INR p) in
  let numerator := xgam (xdiv (xadd df P) (XR 2)) in
  let denominator := xmul (xmul (xgam (xdiv df (XR 2))) (xrpow (xmul df (XR PI)) (xdiv P (XR 2)))) (XR (sqrt (Rabs (det p cov)))) in
  let const := xdiv numerator denominator in
  let d i := x i - mean i in
  let q := dot p (fun j => dot p d (fun i => inv p cov i j)) d in
  let tmp := xadd x1 (xmul (xdiv x1 df) (XR q)) in
  xmul const (xrpow tmp (xopp (xdiv (xadd df P) (XR 2)))).
End Density.
