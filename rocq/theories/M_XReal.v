(** Floats as extended real numbers (no rounding), for code that uses logarithms and exponentials. *)
From Coq Require Import Reals Qreals.
From Verif Require Import M_Base M_Num.
Open Scope R_scope.

Inductive xr := XR (r : R) | XInf | XNInf | XNaN.
Definition toX (a : num) : xr := match a with Fin q => XR (Q2R q) | PInf => XInf | NInf => XNInf | NaN => XNaN end.
(** sign: Some true positive, Some false negative, None zero *)
Definition rsign (r : R) : option bool := match total_order_T r 0 with inleft (left _) => Some false | inleft (right _) => None | inright _ => Some true end.
Definition xopp (a : xr) : xr := match a with XR x => XR (- x) | XInf => XNInf | XNInf => XInf | XNaN => XNaN end.
Definition xadd (a b : xr) : xr :=
  match a, b with
  | XNaN, _ | _, XNaN => XNaN
  | XInf, XNInf | XNInf, XInf => XNaN
  | XInf, _ | _, XInf => XInf
  | XNInf, _ | _, XNInf => XNInf
  | XR x, XR y => XR (x + y)
  end.
Definition xsub (a b : xr) : xr := xadd a (xopp b).
Definition xneg (neg : bool) : xr := if neg then XNInf else XInf.
Definition xsgn (a : xr) : option (option bool) := match a with XNaN => None | XInf => Some (Some true) | XNInf => Some (Some false) | XR x => Some (rsign x) end.
Definition xmul (a b : xr) : xr :=
  match a, b with
  | XR x, XR y => XR (x * y)
  | _, _ => match xsgn a, xsgn b with
            | Some (Some s), Some (Some t) => xneg (xorb s t)
            | _, _ => XNaN
            end
  end.
(** a zero divisor has no sign (simplification) *)
Definition xdiv (a b : xr) : xr :=
  match a, b with
  | XNaN, _ | _, XNaN => XNaN
  | XR x, XR y => match rsign y with None => (match rsign x with None => XNaN | Some s => xneg (negb s) end) | _ => XR (x / y) end
  | XR _, _ => XR 0
  | _, XR y => match xsgn a, rsign y with Some (Some s), Some t => xneg (xorb s t) | Some (Some s), None => xneg (negb s) | _, _ => XNaN end
  | _, _ => XNaN
  end.
(** np.log, np.exp *)
Definition xlog (a : xr) : xr :=
  match a with
  | XR x => match rsign x with Some true => XR (ln x) | None => XNInf | Some false => XNaN end
  | XInf => XInf
  | _ => XNaN
  end.
Definition xexp (a : xr) : xr := match a with XR x => XR (exp x) | XInf => XInf | XNInf => XR 0 | XNaN => XNaN end.
Definition xmax2 (a b : xr) : xr :=
  match a, b with
  | XNaN, _ | _, XNaN => XNaN
  | XInf, _ | _, XInf => XInf
  | XNInf, b => b
  | a, XNInf => a
  | XR x, XR y => XR (Rmax x y)
  end.
(** np.sum; np.max of a non-empty vector (NaN if there is one) *)
Definition xsum (l : list xr) : xr := fold_left xadd l (XR 0).
Definition xmax (x : xr) (l : list xr) : xr := fold_left xmax2 l x.
(** <, false with NaN *)
Definition xlt (a b : xr) : bool :=
  match a, b with
  | XNaN, _ | _, XNaN => false
  | XR x, XR y => if Rlt_dec x y then true else false
  | XNInf, XNInf | XInf, XInf => false
  | XNInf, _ | _, XInf => true
  | _, _ => false
  end.
