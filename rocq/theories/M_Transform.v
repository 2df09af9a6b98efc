(** Model of abcpy/transformers.py.  Floats are extended real numbers: no rounding and no overflow, except that bounds are rounded by the
    code itself to float32, which is the function [f32]. *)
From Coq Require Import Reals.
From Verif Require Import M_Base M_Num M_XReal.
Open Scope R_scope.

Definition xle (a b : xr) : bool :=
  match a, b with
  | XNaN, _ | _, XNaN => false
  | XR x, XR y => if Rle_dec x y then true else false
  | XNInf, _ | _, XInf => true
  | _, _ => false
  end.
(** element of a parameter list: a number or a one-dimensional array *)
Inductive entry := Sc (v : xr) | Ar (l : list xr).
(** lower and upper bound of a variable *)
Definition bnd := (option R * option R)%type.
(** toward zero (what storing a float in an integer array does) *)
Definition xtrunc (v : xr) : xr := match v with XR r => XR (if Rlt_dec r 0 then - IZR (Int_part (- r)) else IZR (Int_part r)) | v => v end.

Section Transform.
Variable f32 : R -> R.

(* transformers.py:29-58  __init__ (both arguments arrays) *)
Definition tf_init (lower upper : list (option R)) : res (list bnd) :=
  if negb (length lower =? length upper)%nat then Err RuntimeError
  else if existsb (fun b : bnd => match b with (None, Some _) => true | _ => false end) (combine lower upper) then Err NotImplementedError
  else Ok (combine lower upper).
(* transformers.py:129-131  _array_from_list *)
Fixpoint scalars (x : list entry) : option (list xr) :=
  match x with [] => Some [] | Sc v :: x' => option_map (cons v) (scalars x') | Ar _ :: _ => None end.
Fixpoint arrays (n : nat) (x : list entry) : option (list xr) :=
  match x with [] => Some [] | Ar l :: x' => if (length l =? n)%nat then option_map (app l) (arrays n x') else None | Sc _ :: _ => None end.
Definition array_from_list (x : list entry) : res (list xr) :=
  match (match x with Ar l :: _ => arrays (length l) x | _ => scalars x end) with Some l => Ok l | None => Err ValueError end.
(* transformers.py:133-142  _list_from_array *)
Fixpoint list_from_array (y : list xr) (x : list entry) : res (list entry) :=
  match x, y with
  | [], _ => Ok []
  | _ :: _, [] => Err IndexError
  | e :: x', v :: y' =>
      match (match e with Sc _ => Ok (Sc v) | Ar l => if (length l =? 1)%nat then Ok (Ar [v]) else Err ValueError end), list_from_array y' x' with
      | Ok e', Ok r => Ok (e' :: r)
      | Err er, _ => Err er
      | _, Err er => Err er
      end
  end.
(* transformers.py:65-72  _check_data_in_bounds, for one variable: the two-sided lower bound is not rounded *)
Definition in_check (b : bnd) (v : xr) : bool :=
  match b with
  | (Some lo, None) => negb (xle v (XR (f32 lo)))
  | (Some lo, Some hi) => negb (xle v (XR lo)) && negb (xle (XR (f32 hi)) v)
  | _ => true
  end.
(* transformers.py:60-62 *)
Definition logit (x : xr) : xr := xsub (xlog x) (xlog (xsub (XR 1) x)).
(* upper_bound_two_sided - lower_bound_two_sided, computed in float32 *)
Definition width (lo hi : R) : R := f32 (f32 hi - f32 lo).
(* transformers.py:74-83 *)
Definition fwd (b : bnd) (v : xr) : xr :=
  match b with
  | (Some lo, None) => xlog (xsub v (XR (f32 lo)))
  | (Some lo, Some hi) => logit (xdiv (xsub v (XR (f32 lo))) (XR (width lo hi)))
  | _ => v
  end.
(* transformers.py:85-95 *)
Definition bwd (b : bnd) (v : xr) : xr :=
  match b with
  | (Some lo, None) => xadd (xexp v) (XR (f32 lo))
  | (Some lo, Some hi) => xadd (xdiv (xmul (XR (width lo hi)) (xexp v)) (xadd (XR 1) (xexp v))) (XR (f32 lo))
  | _ => v
  end.
(* transformers.py:97-105 *)
Definition ldj_term (b : bnd) (v : xr) : xr :=
  match b with
  | (Some lo, None) => xopp (xlog (xsub v (XR (f32 lo))))
  | (Some lo, Some hi) => xlog (xdiv (XR (width lo hi)) (xmul (xsub v (XR (f32 lo))) (xsub (XR (f32 hi)) v)))
  | _ => XR 0
  end.
(* transformers.py:107-127; np.log of a float32 array is a float32 array *)
Definition ildj_term (b : bnd) (v : xr) : xr :=
  match b with
  | (Some lo, None) => xopp v
  | (Some lo, Some hi) =>
      let a := xopp (match xlog (XR (width lo hi)) with XR r => XR (f32 r) | z => z end) in
      let res_b := if xlt v (XR 100) then xlog (xadd (XR 1) (xexp v)) else v in
      let res_c := if xlt (XR (- 100)) v then xlog (xadd (XR 1) (xexp (xopp v))) else xopp v in
      xadd (xadd a res_b) res_c
  | _ => XR 0
  end.
(** an assignment into an array of integers ([int]) or floats *)
Definition store (int : bool) (v : xr) : xr := if int then xtrunc v else v.
(** the bounds of a list of variables applied element by element; boolean masks must have the length of the array *)
Definition each (f : bnd -> xr -> xr) (bs : list bnd) (x : list xr) : list xr := map (fun bv => f (fst bv) (snd bv)) (combine bs x).
(* transformers.py:144-168  transform; [int]: the array made from x has an integer type.  A single number is squeezed to an array without
   dimensions, which cannot be indexed *)
Definition tf_back (y : list xr) (x : list entry) : res (list entry) := if (length y =? 1)%nat then Err IndexError else list_from_array y x.
Definition transform (bs : list bnd) (int : bool) (x : list entry) : res (list entry) :=
  match array_from_list x with
  | Err e => Err e
  | Ok v =>
      if negb (length v =? length bs)%nat then Err IndexError
      else if existsb (fun bv => negb (in_check (fst bv) (snd bv))) (combine bs v) then Err RuntimeError
      else tf_back (each (fun b a => store int (fwd b a)) bs v) x
  end.
(* transformers.py:170-190  inverse_transform *)
Definition inverse_transform (bs : list bnd) (int : bool) (y : list entry) : res (list entry) :=
  match array_from_list y with
  | Err e => Err e
  | Ok v => if negb (length v =? length bs)%nat then Err IndexError else tf_back (each (fun b a => store int (bwd b a)) bs v) y
  end.
(* transformers.py:192-207  jac_log_det *)
Definition jac_log_det (bs : list bnd) (int : bool) (x : list entry) : res xr :=
  match array_from_list x with
  | Err e => Err e
  | Ok v =>
      if negb (length v =? length bs)%nat then Err IndexError
      else if existsb (fun bv => negb (in_check (fst bv) (snd bv))) (combine bs v) then Err RuntimeError
      else Ok (xsum (each (fun b a => store int (ldj_term b a)) bs v))
  end.
(* transformers.py:209-226  jac_log_det_inverse_transform *)
Definition jac_log_det_inverse (bs : list bnd) (int : bool) (y : list entry) : res xr :=
  match array_from_list y with
  | Err e => Err e
  | Ok v => if negb (length v =? length bs)%nat then Err IndexError else Ok (xsum (each (fun b a => store int (ildj_term b a)) bs v))
  end.
End Transform.
(* transformers.py:416-432  DummyTransformer *)
Definition dummy_transform (x : list entry) : list entry := x.
Definition dummy_inverse (x : list entry) : list entry := x.
Definition dummy_ldj (x : list entry) : xr := XR 0.
