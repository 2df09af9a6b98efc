(** Model of abcpy/NN_utilities/utilities.py 62-157: jacobian, jacobian_second_order, jacobian_hessian.
    Tensors are nested lists indexed in the order of the torch dimensions; numbers are reals (torch: float32), except in the check for infinities.
    The network is a function [F] of the whole batch (batch x in -> batch x out): torch records how [output] was computed from [input].
    torch.autograd is the oracle [deriv]: [deriv s c l X] stands for the derivative of the scalar [s] by component [l] of row [c] of the input, at X.
    By its documentation torch.autograd.grad(output, input, g) is the gradient of the sum over all entries of g * output.
    An input with more than two dimensions, batch x first x d2 x d3 ..., is a batch of rows of length first * rest (rest = d2 * d3 * ...), flattened in row-major
    order as reshape does; jacobian_hessian is modelled for two-dimensional inputs only.  [diffable] decides only whether the results can be differentiated again. *)
From Coq Require Import Reals List Arith Bool.
From Verif Require Import M_XReal M_NN.
Import ListNotations.
Open Scope R_scope.

Inductive jres (A : Type) := Val (a : A) | AssertionError | ValueErr.
Arguments Val {A} a. Arguments AssertionError {A}. Arguments ValueErr {A}.

(** 75, 104, 139: (input.sum() + output.sum()).item() in [np.nan, np.inf].  [in] compares with == (after identity); item() makes a new float, so a NaN is never found. *)
Definition isin (v : xr) : bool := match v with XInf => true | _ => false end.
Definition checked (input output : list (list xr)) : bool := negb (isin (xadd (xsum (concat input)) (xsum (concat output)))).
(** 72-76, 101-105, 136-140: the refusals; both arguments are lists of rows here, so output has two dimensions *)
Definition guard {A} (input output : list (list xr)) (k : A) : jres A :=
  if (length input =? length output)%nat then if checked input output then Val k else ValueErr else AssertionError.
Definition fin (X : list (list R)) : list (list xr) := map (map XR) X.

Section Autograd.
Variable deriv : (list (list R) -> R) -> nat -> nat -> list (list R) -> R.
Variable F : list (list R) -> list (list R).

(* entry of a nested list *)
Definition at2 (T : list (list R)) (b i : nat) : R := nth i (nth b T []) 0.
Definition at3 (T : list (list (list R))) (b i j : nat) : R := nth j (nth i (nth b T []) []) 0.
Definition rsum2 (l : list R) : R := fold_right Rplus 0 l.
Definition table2 (a b : nat) (f : nat -> nat -> R) : list (list R) := map (fun i => map (fun j => f i j) (seq 0 b)) (seq 0 a).
Definition table3 (a b c : nat) (f : nat -> nat -> nat -> R) : list (list (list R)) := map (fun i => table2 b c (f i)) (seq 0 a).

(** 80-81: g is 1 in column i and 0 elsewhere *)
Definition pick2 (batch m i : nat) : list (list R) := table2 batch m (fun _ k => if (k =? i)%nat then 1 else 0).
(** torch.autograd.grad(output, input, g)[0], batch x in *)
Definition grad2 (batch n m : nat) (g : list (list R)) (X : list (list R)) : list (list R) :=
  table2 batch n (fun c l => deriv (fun Y => rsum2 (map (fun b => rsum2 (map (fun k => at2 g b k * at2 (F Y) b k) (seq 0 m))) (seq 0 batch))) c l X).
(** 77-86: J[:, i] = grad, then the reshape: batch x out x in *)
Definition J0 (batch n m : nat) (X : list (list R)) : list (list (list R)) :=
  table3 batch m n (fun b i l => at2 (grad2 batch n m (pick2 batch m i) X) b l).
(** transpose(2, 1) *)
Definition transpose21 (batch n m : nat) (J : list (list (list R))) : list (list (list R)) := table3 batch n m (fun b l i => at3 J b i l).

(** 62-87: [n] is in_size and [m] is output.shape[1] *)
Definition jacobian (n m : nat) (X : list (list R)) : jres (list (list (list R))) :=
  guard (fin X) (fin (F X)) (transpose21 (length X) n m (J0 (length X) n m X)).

(** 112-120: g is 1 at entries (., i, j); torch.autograd.grad(J, input, g)[0], where J is itself a function of the input *)
Definition pick3 (batch m n i j : nat) : list (list (list R)) := table3 batch m n (fun _ k l => if ((k =? i) && (l =? j))%nat then 1 else 0).
Definition grad3 (batch n m : nat) (g : list (list (list R))) (X : list (list R)) : list (list R) :=
  table2 batch n (fun c l => deriv (fun Y => rsum2 (map (fun b => rsum2 (map (fun k => rsum2 (map (fun q => at3 g b k q * at3 (J0 batch n m Y) b k q) (seq 0 n))) (seq 0 m))) (seq 0 batch))) c l X).
(** 107-122: for j in range(input.shape[1]) (= first): J2[:, i, j] = grad[:, j]; for inputs with further dimensions both sides are slabs of [rest] numbers *)
Definition J2 (batch first rest m : nat) (X : list (list R)) : list (list (list R)) :=
  table3 batch m (first * rest) (fun b i p => at2 (grad3 batch (first * rest) m (pick3 batch m (first * rest) i (p / rest)) X) b p).
(** 89-126 *)
Definition jacobian_second_order (first rest m : nat) (X : list (list R)) : jres (list (list (list R)) * list (list (list R))) :=
  let n := (first * rest)%nat in
  guard (fin X) (fin (F X)) (transpose21 (length X) n m (J0 (length X) n m X), transpose21 (length X) n m (J2 (length X) first rest m X)).

(** 128-157: H[:, i, j] = grad (batch x out x in x in), then H.transpose(3, 1): entry (b, l, j, i) of the result is entry (b, i, j, l) of H *)
Definition H0 (batch n m : nat) (X : list (list R)) : list (list (list (list R))) :=
  map (fun b => map (fun i => map (fun j => map (fun l => at2 (grad3 batch n m (pick3 batch m n i j) X) b l) (seq 0 n)) (seq 0 n)) (seq 0 m)) (seq 0 batch).
Definition transpose31 (batch n m : nat) (H : list (list (list (list R)))) : list (list (list (list R))) :=
  map (fun b => map (fun l => map (fun j => map (fun i => nth l (nth j (nth i (nth b H []) []) []) 0) (seq 0 m)) (seq 0 n)) (seq 0 n)) (seq 0 batch).
Definition jacobian_hessian (n m : nat) (X : list (list R)) : jres (list (list (list R)) * list (list (list (list R)))) :=
  guard (fin X) (fin (F X)) (transpose21 (length X) n m (J0 (length X) n m X), transpose31 (length X) n m (H0 (length X) n m X)).
End Autograd.
