(** The 2-Wasserstein distance of weighted samples (abcpy/utils.py 19-72), the [Wasserstein] distance of data sets
    (abcpy/distances.py 355-410) and the convergence series of a journal (abcpy/output.py 886-960).
    Reals without rounding; samples are matrices of finite numbers with the same number of columns. The linear-programming
    solver [ot.emd2] is a parameter: a function of the two weight vectors and the cost matrix. *)
From Coq Require Import Reals.
From Verif Require Import M_Base M_Num M_XReal M_MMD M_Stats.
Open Scope R_scope.

Section Wass.
Variable emd2 : list xr -> list xr -> list (list R) -> xr.
(** [ot.dist(x1, x2)]: squared Euclidean distances (utils.py 68) *)
Definition ot_dist (s1 s2 : list vec) : list (list R) :=
  map (fun x => map (fun y => rsuml (map (fun ab => (fst ab - snd ab) * (fst ab - snd ab)) (combine x y))) s2) s1.
(** lines 53-58 and 59-64 of utils.py *)
Definition norm_weights (n : nat) (w : option (list R)) : res (list xr) :=
  match w with
  | None => Ok (repeat (xdiv (XR 1) (XR (INR n))) n)
  | Some l => if negb (length l =? n)%nat then Err RuntimeError
              else Ok (map (fun x => xdiv x (xsum (map XR l))) (map XR l))
  end.
(** [wass_dist] (utils.py 19-72) *)
Definition wass_dist (s1 s2 : list vec) (w1 w2 : option (list R)) : res xr :=
  let n := length s1 in let m := length s2 in
  rthen (norm_weights n w1) (fun a =>
  rthen (norm_weights m w2) (fun b => Ok (xsqrt (emd2 a b (ot_dist s1 s2))))).
(** [Wasserstein.distance] on the two matrices of statistics, and [dist_max] (distances.py 379-410) *)
Definition wasserstein (s1 s2 : list vec) : res xr := wass_dist s1 s2 None None.
Definition wasserstein_max : xr := XInf.

(** A journal's parameters and weights of one iteration. [accepted_parameters[i]] becomes a one-dimensional array or an
    array with one row (of parameters, each with components) per sample; the weights have shape (n) or (n, 1). *)
Inductive parray := Flat (l : list R) | Nested (l : list (list (list R))).
Inductive warray := W1 (l : list R) | W2 (l : list (list R)).
(** [reshape(-1, 1)], [reshape(shape[0], -1)] (output.py 935-942) *)
Definition prows (p : parray) : list vec := match p with Flat l => map (fun x => [x]) l | Nested l => map (@concat R) l end.
(** [reshape(-1)] (output.py 944-947) *)
Definition wflat (w : warray) : list R := match w with W1 l => l | W2 l => concat l end.
(** dtype "object" (922): parameters of different dimensions. The test looks at the last iteration only; numpy versions
    that refuse to build such an array raise ValueError instead. *)
Definition ragged (p : parray) : bool :=
  match p with
  | Flat _ => false
  | Nested l => match concat l with
                | [] => false
                | c :: cs => negb (forallb (fun c' => (length c' =? length c)%nat) cs)
                end
  end.
(** [Journal.Wass_convergence_plot] (886-960) without the plotting: the list of distances. [params] and [weights] are the
    journal's lists; [get_accepted_parameters()] is the last element. *)
Definition wass_series (type : nat) (params : list parray) (weights : list warray) : res (list xr) :=
  if (type =? 0)%nat then Err RuntimeError
  else if (length weights =? 1)%nat then Err RuntimeError
  else match params with
  | [] => Err IndexError
  | p0 :: _ =>
    if ragged (last params p0) then Err RuntimeError
    else fold_right (fun i acc =>
           rthen (match nth_error params i, nth_error params (S i), nth_error weights i, nth_error weights (S i) with
                  | Some p1, Some p2, Some w1, Some w2 => wass_dist (prows p1) (prows p2) (Some (wflat w1)) (Some (wflat w2))
                  | _, _, _, _ => Err IndexError
                  end) (fun d => rthen acc (fun ds => Ok (d :: ds)))) (Ok []) (seq 0 (length weights - 1))
  end.
End Wass.
