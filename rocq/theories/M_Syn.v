(** Synthetic likelihoods: [SynLikelihood] and [SemiParametricSynLikelihood] (abcpy/approx_lhd.py 58-74, 125-304), as functions of
    the two matrices of statistics (the statistics and their cache are in M_Stats and M_Distance).
    Reals without rounding; statistics are finite. Library functions are parameters: [ledoit_wolf], [np.linalg.inv],
    the logarithm of [np.linalg.slogdet], the kernel density estimator (log density and distribution function), and [norm.ppf]. *)
From Coq Require Import Reals.
From Verif Require Import M_Base M_Num M_XReal M_MMD M_Stats.
Open Scope R_scope.

(** np.mean(stat, 0) of a non-empty matrix with d columns (line 168) *)
Definition mean_row (d : nat) (s : list vec) : vec := map (fun j => rsuml (map (fun r => nth j r 0) s) / INR (length s)) (seq 0 d).
Definition sub (x y : vec) : vec := map (fun ab => fst ab - snd ab) (combine x y).
(** one entry of [np.einsum('bi,ij,bj->b', x, M, x)] (lines 180, 271) *)
Definition einsum1 (d : nat) (M : list (list xr)) (x : list xr) : xr :=
  xsum (flat_map (fun i => map (fun j => xmul (xmul (nth i x XNaN) (nth j (nth i M []) XNaN)) (nth j x XNaN)) (seq 0 d)) (seq 0 d)).
Definition half : xr := XR (/ 2).

Section Lib.
Variable ledoit_wolf : list vec -> res (list (list xr)).
Variable inv : list (list xr) -> res (list (list xr)).
Variable logdet : list (list xr) -> xr.

(** [SynLikelihood.loglikelihood] (lines 148-183) on matrices with d columns; no simulations: [ledoit_wolf] raises ValueError *)
Definition syn_loglik (d : nat) (obs sim : list vec) : res xr :=
  match sim with [] => Err ValueError | _ =>
  let mean_sim := mean_row d sim in
  rthen (ledoit_wolf sim) (fun cov =>
  rthen (inv cov) (fun precision =>
  let ld := logdet precision in
  let x_news := map (fun o => einsum1 d precision (map XR (sub o mean_sim))) obs in
  let logliks := map (fun x => xmul (xopp half) x) x_news in
  let logfactor := xmul (xmul half (XR (INR (length obs)))) ld in
  Ok (xadd (xsum logliks) logfactor)))
  end.
(** [likelihood] (lines 58-74) *)
Definition likelihood (r : res xr) : res xr := rthen r (fun v => Ok (xexp v)).

(** the density estimate of one column: [gaussian_kde(...)], its [logpdf] and its integral up to a point *)
Variable kde : list R -> res ((R -> xr) * (R -> R)).
Variable ppf : R -> xr.
(** what an infinite value or NaN becomes in an array of integers *)
Variable junk : R.

(** Arrays made by [np.zeros_like(s)] have the type of [s]: values written into an array of integers are cut off towards zero *)
Definition trunc (x : R) : R := if Rle_dec 0 x then IZR (Int_part x) else - IZR (Int_part (- x)).
Definition store (ints : bool) (x : xr) : xr := if ints then match x with XR r => XR (trunc r) | _ => XR junk end else x.
Definition storeR (ints : bool) (x : R) : R := if ints then trunc x else x.

(** [scipy.stats.rankdata]: ties get the mean of their ranks *)
Definition less (l : list R) (x : R) : nat := length (filter (fun y => if Rlt_dec y x then true else false) l).
Definition same (l : list R) (x : R) : nat := length (filter (fun y => if Req_EM_T y x then true else false) l).
Definition rank (l : list R) (x : R) : R := INR (less l x) + (INR (same l x) + 1) / 2.
Definition col (j : nat) (s : list vec) : list R := map (fun r => nth j r 0) s.
(** the memo of denominators: pairs of a sample size and a value *)
Definition memo := list (nat * xr).
Definition find_memo (m : memo) (n : nat) : option xr := option_map snd (find (fun kv => (fst kv =? n)%nat) m).
Definition denominator_for (n : nat) : xr := xsum (map (fun k => xmul (ppf (INR (k + 1) / INR (n + 1))) (ppf (INR (k + 1) / INR (n + 1)))) (seq 0 n)).
(** [_estimate_gaussian_correlation] (lines 276-304) *)
Definition scores (ints : bool) (j : nat) (s : list vec) : list xr :=
  map (fun x => ppf (storeR ints (rank (col j s) x) / INR (length s + 1))) (col j s).
Definition gaussian_correlation (ints : bool) (d : nat) (s : list vec) (m : memo) : memo * list (list xr) :=
  let n := length s in
  let '(m', den) := match find_memo m n with
                    | Some v => (m, v)
                    | None => let v := denominator_for n in ((n, v) :: m, v)
                    end in
  (m', map (fun i => map (fun j => xdiv (xsum (map (fun ab => xmul (fst ab) (snd ab)) (combine (scores ints i s) (scores ints j s)))) den) (seq 0 d)) (seq 0 d)).

(** the columns of [logpdf_obs] and [u_obs] (lines 242-251) *)
Fixpoint marginals (ints : bool) (js : list nat) (obs sim : list vec) : res (list (list xr * list R)) :=
  match js with
  | [] => Ok []
  | j :: js' =>
      rthen (kde (col j sim)) (fun k =>
      rthen (marginals ints js' obs sim) (fun rest =>
      Ok ((map (fun x => store ints (fst k x)) (col j obs), map (fun x => storeR ints (snd k x)) (col j obs)) :: rest)))
  end.
(** R_hat_inv - np.eye(d) *)
Definition minus_eye (d : nat) (M : list (list xr)) : list (list xr) :=
  map (fun i => map (fun j => xsub (nth j (nth i M []) XNaN) (XR (if (i =? j)%nat then 1 else 0))) (seq 0 d)) (seq 0 d).
(** [SemiParametricSynLikelihood.loglikelihood] (lines 219-274): the flags tell whether the statistics of the observations and of
    the simulations are integers *)
Definition semi_loglik (d : nat) (obs_int sim_int : bool) (obs sim : list vec) (m : memo) : memo * res xr :=
  if (d <? 2)%nat then (m, Err RuntimeError) else
  match marginals obs_int (seq 0 d) obs sim with
  | Err e => (m, Err e)
  | Ok ms =>
      let etas := map (fun b => map (fun c => ppf (nth b (snd c) 0)) ms) (seq 0 (length obs)) in
      let '(m', R_hat) := gaussian_correlation sim_int d sim m in
      match inv R_hat with
      | Err e => (m', Err e)
      | Ok R_inv =>
          let ld := logdet R_inv in
          let loglik := xsum (concat (map fst ms)) in
          let copula := map (fun eta => xmul (xopp half) (einsum1 d (minus_eye d R_inv) eta)) etas in
          (m', Ok (xadd loglik (xadd (xsum copula) (xmul (xmul half (XR (INR (length obs)))) ld))))
      end
  end.
End Lib.
