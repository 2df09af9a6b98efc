(** Losses for learning statistics: abcpy/NN_utilities/losses.py and the loss routines of abcpy/statisticslearning.py (1753-1814).  Tensors are lists of rows of real numbers
    (no rounding); broadcasting of tensors of different sizes is not modelled (RuntimeError). *)
From Coq Require Import Reals.
From Verif Require Import M_Base M_Num M_XReal.
Open Scope nat_scope.

Definition rtotal (l : list R) : R := fold_right Rplus 0%R l.
Definition relu (x : R) : R := Rmax 0 x.
(* (b - a).pow(2).sum(1) on one row *)
Definition sqdist (a b : list R) : R := rtotal (map (fun ab => ((snd ab - fst ab) * (snd ab - fst ab))%R) (combine a b)).
(* mean or sum over the batch; the mean of no rows is NaN *)
Definition reduce (size_average : bool) (l : list R) : xr :=
  if size_average then match l with [] => XNaN | _ => XR (rtotal l / INR (length l)) end else XR (rtotal l).
Definition eps : R := (/ 1000000000)%R.

(* losses.py 13-23  ContrastiveLoss.forward *)
Definition contrastive_rows (margin : R) (out1 out2 : list (list R)) (target : list R) : list R :=
  map (fun p => let d := sqdist (fst (fst p)) (snd (fst p)) in let t := snd p in
                (/ 2 * (t * d + (1 + -1 * t) * (relu (margin - sqrt (d + eps)) * relu (margin - sqrt (d + eps)))))%R)
      (combine (combine out1 out2) target).
Definition contrastive (margin : R) (out1 out2 : list (list R)) (target : list R) (size_average : bool) : res xr :=
  if (length out1 =? length out2) && (length out1 =? length target) then Ok (reduce size_average (contrastive_rows margin out1 out2 target)) else Err RuntimeError.

(* losses.py 33-41  TripletLoss.forward *)
Definition triplet_rows (margin : R) (anchor positive negative : list (list R)) : list R :=
  map (fun p => relu (sqdist (snd (fst p)) (fst (fst p)) - sqdist (snd p) (fst (fst p)) + margin)%R) (combine (combine anchor positive) negative).
Definition triplet (margin : R) (anchor positive negative : list (list R)) (size_average : bool) : res xr :=
  if (length anchor =? length positive) && (length anchor =? length negative) then Ok (reduce size_average (triplet_rows margin anchor positive negative)) else Err RuntimeError.

Definition rdot (a b : list R) : R := rtotal (map (fun ab => (fst ab * snd ab)%R) (combine a b)).
(* torch.bmm(m, eta.unsqueeze(-1)): batch of matrices times batch of vectors *)
Definition bmm (m : list (list (list R))) (eta : list (list R)) : res (list (list R)) :=
  if (length m =? length eta) && forallb (fun me => forallb (fun row => length row =? length (snd me)) (fst me)) (combine m eta)
  then Ok (map (fun me => map (fun row => rdot row (snd me)) (fst me)) (combine m eta)) else Err RuntimeError.
(* losses.py 44-55  Fisher_divergence_loss *)
Definition fisher (first second : list (list (list R))) (eta : list (list R)) (lam : R) : res R :=
  match bmm second eta with Err e => Err e | Ok s =>
  match bmm first eta with Err e => Err e | Ok f =>
    if forallb (fun fs => length (fst fs) =? length (snd fs)) (combine f s) then
      Ok (rtotal (map (fun fs => (/ 2 * (fst fs * fst fs) + snd fs + (if Req_EM_T lam 0 then 0 else lam * (snd fs * snd fs)))%R) (combine (concat f) (concat s))))
    else Err RuntimeError
  end end.
(* losses.py 56-61 *)
Definition fisher_with_c_x (first second : list (list (list R))) (eta : list (list R)) (lam : R) : res R := fisher first second (map (fun e => e ++ [1%R]) eta) lam.
(* statisticslearning.py 1753-1764  _batch_Fisher_div_with_c_x; [first], [second]: the derivatives the network (or jacobian_second_order) returns for the samples *)
Definition batch_fisher (first second : list (list (list R))) (eta : list (list R)) (lam : R) : res xr :=
  match fisher_with_c_x first second eta lam with
  | Err e => Err e
  | Ok l => Ok (match first with [] => XNaN | _ => XR (l / INR (length first)) end)
  end.

(* statisticslearning.py 1766-1814  _single_sliced_score_matching with the projections [vs].  [grad b] and [hess b]: gradient and Hessian (autograd) of the sum over the
   samples of log p with respect to sample b.  The network is evaluated row by row, so they are the gradient and Hessian of sample b's own log p (batch normalisation
   layers are not modelled); grad2 (1805) is then the Hessian times the projection. *)
Definition sliced_row (variance_reduction : bool) (g : list R) (h : list (list R)) (v : list R) : R :=
  ((if variance_reduction then sqrt (rdot g g) * sqrt (rdot g g) * / 2 else rdot g v * rdot g v * / 2) + rdot v (map (fun row => rdot row v) h))%R.
Definition sliced (variance_reduction : bool) (grads : list (list R)) (hesss : list (list (list R))) (vs : list (list R)) : xr :=
  reduce true (map (fun p => sliced_row variance_reduction (fst (fst p)) (snd (fst p)) (snd p)) (combine (combine grads hesss) vs)).
(* 1783-1797  the projections made from standard normal numbers; sign(0) = 0 *)
Inductive noise := Rademacher | Sphere | Gaussian | OtherNoise.
Definition rsgn (x : R) : R := if Rlt_dec 0 x then 1 else if Rlt_dec x 0 then (-1) else 0.
Definition projections (k : noise) (variance_reduction : bool) (normals : list (list R)) : res (list (list R)) :=
  match k with
  | Rademacher => Ok (map (map rsgn) normals)
  | Sphere => if variance_reduction then Err RuntimeError else Ok (map (fun v => map (fun x => (x / sqrt (rdot v v) * sqrt (INR (length v)))%R) v) normals)
  | Gaussian => Ok normals
  | OtherNoise => Err RuntimeError
  end.
