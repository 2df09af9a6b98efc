(** Floating point numbers as exact rationals with infinities and NaN, with the IEEE rules for the special values, and the numpy
    functions on vectors of them that the schemes use.  Simplification: finite arithmetic is exact (no rounding, no overflow). *)
From Verif Require Import M_Base.
From Coq Require Import Qround.

Inductive num := Fin (q : Q) | PInf | NInf | NaN.

(** comparisons: every comparison with NaN is false *)
Definition nlt (a b : num) : bool :=
  match a, b with
  | Fin x, Fin y => negb (Qle_bool y x)
  | Fin _, PInf | NInf, Fin _ | NInf, PInf => true
  | _, _ => false
  end.
Definition nle (a b : num) : bool :=
  match a, b with
  | Fin x, Fin y => Qle_bool x y
  | Fin _, PInf | PInf, PInf | NInf, Fin _ | NInf, PInf | NInf, NInf => true
  | _, _ => false
  end.
Definition neqb (a b : num) : bool :=
  match a, b with
  | Fin x, Fin y => Qeq_bool x y
  | PInf, PInf | NInf, NInf => true
  | _, _ => false
  end.
Definition nopp (a : num) : num := match a with Fin x => Fin (- x) | PInf => NInf | NInf => PInf | NaN => NaN end.
Definition nadd (a b : num) : num :=
  match a, b with
  | Fin x, Fin y => Fin (x + y)
  | NaN, _ | _, NaN => NaN
  | PInf, NInf | NInf, PInf => NaN
  | PInf, _ | _, PInf => PInf
  | NInf, _ | _, NInf => NInf
  end.
Definition nsub (a b : num) : num := nadd a (nopp b).
Definition nsign (a : num) : option comparison := match a with Fin x => Some (Qcompare x 0) | PInf => Some Gt | NInf => Some Lt | NaN => None end.
Definition nmul (a b : num) : num :=
  match a, b with
  | Fin x, Fin y => Fin (x * y)
  | _, _ => match nsign a, nsign b with
            | None, _ | _, None | Some Eq, _ | _, Some Eq => NaN
            | Some Lt, Some Lt | Some Gt, Some Gt => PInf
            | _, _ => NInf
            end
  end.

(** np.sort: NaN last *)
Definition sle (a b : num) : bool := match b with NaN => true | _ => nle a b end.
Fixpoint insert (x : num) (l : list num) : list num := match l with [] => [x] | y :: l' => if sle x y then x :: l else y :: insert x l' end.
Fixpoint nsort (l : list num) : list num := match l with [] => [] | x :: l' => insert x (nsort l') end.
Definition is_nan (a : num) : bool := match a with NaN => true | _ => false end.

(** np.quantile(l, q), method linear: NaN if an entry is NaN; the rank (n-1)q is interpolated between its neighbours *)
Definition lerp (a b : num) (t : Q) : num :=
  let d := nsub b a in
  if Qle_bool (1 # 2) t then nsub b (nmul d (Fin (1 - t))) else nadd a (nmul d (Fin t)).
Definition quantile (l : list num) (q : Q) : res num :=
  if negb (Qle_bool 0 q && Qle_bool q 1) then Err ValueError
  else match l with
  | [] => Err IndexError
  | _ =>
    if existsb is_nan l then Ok NaN
    else
      let s := nsort l in
      let v := (inject_Z (Z.of_nat (length l) - 1) * q)%Q in
      let p := Z.to_nat (Qfloor v) in
      let p' := Nat.min (S p) (length l - 1) in
      Ok (lerp (nth p s NaN) (nth p' s NaN) (v - inject_Z (Qfloor v)))
  end.
(** np.percentile *)
Definition percentile (l : list num) (a : Q) : res num := quantile l (a / 100).
(** np.max / np.min of a vector: NaN if an entry is NaN *)
Definition nmax (a b : num) : num := match a, b with NaN, _ | _, NaN => NaN | _, _ => if nle a b then b else a end.
Definition nmin (a b : num) : num := match a, b with NaN, _ | _, NaN => NaN | _, _ => if nle a b then a else b end.
