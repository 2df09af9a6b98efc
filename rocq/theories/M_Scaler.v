(** Model of abcpy/transformers.py, class BoundedVarScaler (229-413), for two-dimensional float data, with sklearn's MinMaxScaler: scale is
    (max - min of feature_range) / (data range, 1 if the data are constant), and NaN is ignored when minimum and maximum are computed. *)
From Coq Require Import Reals.
From Verif Require Import M_Base M_Num M_XReal M_Transform.
Open Scope R_scope.

Definition xmin2n (a b : xr) : xr := match a, b with XNaN, b => b | a, XNaN => a | XNInf, _ | _, XNInf => XNInf | XInf, b => b | a, XInf => a | XR x, XR y => XR (Rmin x y) end.
Definition xmax2n (a b : xr) : xr := match a, b with XNaN, b => b | a, XNaN => a | XInf, _ | _, XInf => XInf | XNInf, b => b | a, XNInf => a | XR x, XR y => XR (Rmax x y) end.
Definition matrix := list (list xr).
Definition column (X : matrix) (j : nat) : list xr := map (fun row => nth j row XNaN) X.
Section Scaler.
Variable f32 : R -> R.
(** MinMaxScaler.fit: scale_ and min_ of a column *)
Definition mm_fit (a b : R) (col : list xr) : xr * xr :=
  let lo := fold_left xmin2n col XNaN in
  let hi := fold_left xmax2n col XNaN in
  let range := match xsub hi lo with XR r => if Req_EM_T r 0 then XR 1 else XR r | z => z end in
  let scale := xdiv (XR (b - a)) range in
  (scale, xsub (XR a) (xmul lo scale)).
(** MinMaxScaler.transform, inverse_transform of a row *)
Definition mm_row (ps : list (xr * xr)) (row : list xr) : list xr := map (fun pv => xadd (xmul (snd pv) (fst (fst pv))) (snd (fst pv))) (combine ps row).
Definition mm_inv (ps : list (xr * xr)) (row : list xr) : list xr := map (fun pv => xdiv (xsub (snd pv) (snd (fst pv))) (fst (fst pv))) (combine ps row).
(* transformers.py:65-72 on a matrix; boolean masks must have the length of the rows *)
Definition sc_check (bs : list bnd) (X : matrix) : res unit :=
  if existsb (fun row => negb (length row =? length bs)%nat) X then Err IndexError
  else if existsb (fun row => existsb (fun bv => negb (in_check f32 (fst bv) (snd bv))) (combine bs row)) X then Err RuntimeError
  else Ok tt.
(* transformers.py:291-322  fit *)
Definition sc_fit (bs : list bnd) (rescale : bool) (a b : R) (X : matrix) : res (option (list (xr * xr))) :=
  match sc_check bs X with
  | Err e => Err e
  | Ok _ =>
      let Y := map (each (fwd f32) bs) X in
      if rescale then (if Rle_dec b a then Err ValueError else match X with [] => Err ValueError | _ => Ok (Some (map (fun j => mm_fit a b (column Y j)) (seq 0 (length bs)))) end)
      else Ok None
  end.
(* transformers.py:324-347  transform *)
Definition sc_transform (bs : list bnd) (fitted : option (list (xr * xr))) (X : matrix) : res matrix :=
  match sc_check bs X with
  | Err e => Err e
  | Ok _ => let Y := map (each (fwd f32) bs) X in Ok (match fitted with Some ps => map (mm_row ps) Y | None => Y end)
  end.
(* transformers.py:349-369  inverse_transform *)
Definition sc_inverse (bs : list bnd) (fitted : option (list (xr * xr))) (Y : matrix) : matrix :=
  map (each (bwd f32) bs) (match fitted with Some ps => map (mm_inv ps) Y | None => Y end).
(* transformers.py:371-391  jac_log_det of one row *)
Definition sc_jac (bs : list bnd) (x : list xr) : res xr :=
  match sc_check bs [x] with Err e => Err e | Ok _ => Ok (xsum (each (ldj_term f32) bs x)) end.
(* transformers.py:393-413  jac_log_det_inverse_transform of one row *)
Definition sc_jac_inv (bs : list bnd) (fitted : option (list (xr * xr))) (y : list xr) : xr :=
  xsum (each (ildj_term f32) bs (match fitted with Some ps => mm_inv ps y | None => y end)).
End Scaler.
