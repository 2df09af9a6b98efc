(** Model of abcpy/NN_utilities/networks.py: the fully connected networks (createDefaultNN, 79-160; createDefaultNNWithDerivatives, 163-323).
    Tensors are nested lists, indexed in the order of the torch dimensions.  Arithmetic is over the reals (torch: float32).
    The elementwise nonlinearity is [act]; [d1] stands for what x1.grad_fn(ones) returns and [d2] for what grad(z, x, ones) returns, as functions of the
    value before the nonlinearity (torch's automatic differentiation itself is not modelled).  Batch normalisation and devices are not modelled. *)
From Coq Require Import Reals List Arith Bool.
From Verif Require Import M_Base M_MMD.
Import ListNotations.
Open Scope R_scope.

(** nn.Linear: weight (out x in) and bias *)
Record layer := { weight : list (list R); bias : list R }.
Fixpoint dot (a b : list R) : R := match a, b with x :: a', y :: b' => x * y + dot a' b' | _, _ => 0 end.
(* F.linear(v, weight) for one vector (last dimension) *)
Definition linear0 (W : list (list R)) (v : list R) : list R := map (fun row => dot row v) W.
(* self.fc(v) *)
Fixpoint vadd (a b : list R) : list R := match a, b with x :: a', y :: b' => (x + y) :: vadd a' b' | _, _ => [] end.
Fixpoint vmul (a b : list R) : list R := match a, b with x :: a', y :: b' => (x * y) :: vmul a' b' | _, _ => [] end.
Definition linear (L : layer) (v : list R) : list R := vadd (linear0 (weight L) v) (bias L).

(** 112-129, 197-217: the first layer and, unless hidden_sizes == [], the hidden layers and the last one *)
Record net := { fc_in : layer; fc_rest : option (list layer * layer) }.
(* nn.Linear(n, m) *)
Definition fits (n : nat) (L : layer) : bool := forallb (fun row => (length row =? n)%nat) (weight L) && (length (weight L) =? length (bias L))%nat.
Fixpoint fits_all (n : nat) (Ls : list layer) : bool := match Ls with [] => true | L :: Ls' => fits n L && fits_all (length (bias L)) Ls' end.
Definition layers (N : net) : list layer := match fc_rest N with None => [fc_in N] | Some (hs, out) => fc_in N :: hs ++ [out] end.
(* 109-129, 193-217: the sizes (in, out) of the linear layers; int() of a product of a size and 1.5 or 0.75 rounds down *)
Definition hidden_default (input_size output_size : nat) : list nat :=
  [(input_size * 3 / 2)%nat; ((input_size * 3 + output_size * 12) / 4)%nat; (output_size * 5)%nat].
Definition sizes (input_size output_size : nat) (hidden_sizes : option (list nat)) : list (nat * nat) :=
  let hs := match hidden_sizes with None => hidden_default input_size output_size | Some l => l end in
  match hs with
  | [] => [(input_size, output_size)]
  | h0 :: _ =>
      (* fc_in, then fc_hidden[i] : hs[i] -> hs[i+1], then fc_out : hs[-1] -> output *)
      (input_size, h0) :: map (fun i => (nth i hs 0%nat, nth (i + 1) hs 0%nat)) (seq 0 (length hs - 1)) ++ [(last hs 0%nat, output_size)]
  end.

Section Activation.
Variable act d1 d2 : R -> R.

(** 135-157, 219-235: the forward pass of one sample.  The sizes are checked by torch when the matrices are multiplied. *)
Definition act_layers (hs : list layer) (x : list R) : list R := fold_left (fun x L => linear L (map act x)) hs x.
Definition forward1 (N : net) (x : list R) : list R :=
  match fc_rest N with
  | None => linear (fc_in N) x
  | Some (hs, out) => linear out (map act (act_layers hs (linear (fc_in N) x)))
  end.
Definition ok_batch (n : nat) (X : list (list R)) : bool := forallb (fun x => (length x =? n)%nat) X.
Definition forward (n : nat) (N : net) (X : list (list R)) : res (list (list R)) :=
  if ok_batch n X && fits_all n (layers N) then Ok (map (forward1 N) X) else Err RuntimeError.

(** 237-287: forward_and_derivatives.  [f] and [s] have dimensions input x batch x width. *)
(* 240-241: weight.unsqueeze(0).repeat(batch, 1, 1).transpose(2, 1).transpose(0, 1) *)
Definition f_init (n batch : nat) (W : list (list R)) : list (list (list R)) :=
  map (fun i => map (fun _ => map (fun row => nth i row 0) W) (seq 0 batch)) (seq 0 n).
Definition zeros_like (f : list (list (list R))) : list (list (list R)) := map (map (map (fun _ => 0))) f.
(* products of a batch x width tensor with a tensor having further dimensions in front *)
Definition bmul (z f : list (list R)) : list (list R) := map (fun zf => vmul (fst zf) (snd zf)) (combine z f).
Definition tmul (z : list (list R)) (f : list (list (list R))) := map (bmul z) f.
Definition badd (a b : list (list R)) : list (list R) := map (fun ab => vadd (fst ab) (snd ab)) (combine a b).
Definition tadd (a b : list (list (list R))) := map (fun ab => badd (fst ab) (snd ab)) (combine a b).
Definition square (f : list (list (list R))) := map (map (map (fun t => t * t))) f.
Definition tlin (W : list (list R)) (f : list (list (list R))) := map (map (linear0 W)) f.
(* one round of the loop (257-271); the code after the loop (273-282) repeats it with the last layer *)
Definition round (xfs : list (list R) * list (list (list R)) * list (list (list R))) (L : layer) :=
  let '(x, f, s) := xfs in
  let z := map (map d1) x in
  let s' := tadd (tmul z s) (tmul (map (map d2) x) (square f)) in
  let f' := tmul z f in
  (map (fun v => linear L (map act v)) x, tlin (weight L) f', tlin (weight L) s').
(* transpose(0, 1) of an input x batch tensor of vectors *)
Definition swap {A} (d : A) (n batch : nat) (f : list (list A)) : list (list A) := map (fun b => map (fun i => nth b (nth i f []) d) (seq 0 n)) (seq 0 batch).
Definition forward_and_derivatives (n : nat) (N : net) (X : list (list R)) : res (list (list R) * list (list (list R)) * list (list (list R))) :=
  if ok_batch n X && fits_all n (layers N) then
    let f := f_init n (length X) (weight (fc_in N)) in
    let s := zeros_like f in
    let x := map (linear (fc_in N)) X in
    let '(x', f', s') :=
      match fc_rest N with
      | None => (x, f, s)
      | Some (hs, out) => round (fold_left round hs (x, f, s)) out
      end in
    Ok (x', swap [] n (length X) f', swap [] n (length X) s')
  else Err RuntimeError.
(* first_derivative_only (245-251, 283-287): the recursion without [s] *)
Definition round1 (xf : list (list R) * list (list (list R))) (L : layer) :=
  let '(x, f) := xf in (map (fun v => linear L (map act v)) x, tlin (weight L) (tmul (map (map d1) x) f)).
Definition forward_and_first_derivatives (n : nat) (N : net) (X : list (list R)) : res (list (list R) * list (list (list R))) :=
  if ok_batch n X && fits_all n (layers N) then
    let f := f_init n (length X) (weight (fc_in N)) in
    let x := map (linear (fc_in N)) X in
    let '(x', f') := match fc_rest N with None => (x, f) | Some (hs, out) => round1 (fold_left round1 hs (x, f)) out end in
    Ok (x', swap [] n (length X) f')
  else Err RuntimeError.

(** 289-321: forward_and_full_derivatives.  [H] has dimensions input x input x batch x width; einsum('ibo,jbo->ijbo', f, f). *)
Definition outer (f : list (list (list R))) : list (list (list (list R))) := map (fun fi => map (fun fj => bmul fi fj) f) f.
Definition roundH (xfH : list (list R) * list (list (list R)) * list (list (list (list R)))) (L : layer) :=
  let '(x, f, H) := xfH in
  let z := map (map d1) x in
  let H' := map (fun ab => tadd (fst ab) (snd ab)) (combine (map (tmul z) H) (map (tmul (map (map d2) x)) (outer f))) in
  (map (fun v => linear L (map act v)) x, tlin (weight L) (tmul z f), map (tlin (weight L)) H').
(* H.transpose(0, 2): (i, j, b) becomes (b, j, i) *)
Definition swap02 (n batch : nat) (H : list (list (list (list R)))) : list (list (list (list R))) :=
  map (fun b => map (fun j => map (fun i => nth b (nth j (nth i H []) []) []) (seq 0 n)) (seq 0 n)) (seq 0 batch).
Definition forward_and_full_derivatives (n : nat) (N : net) (X : list (list R)) : res (list (list R) * list (list (list R)) * list (list (list (list R)))) :=
  if ok_batch n X && fits_all n (layers N) then
    let f := f_init n (length X) (weight (fc_in N)) in
    let H := map (fun _ => zeros_like f) f in
    let x := map (linear (fc_in N)) X in
    let '(x', f', H') := match fc_rest N with None => (x, f, H) | Some (hs, out) => roundH (fold_left roundH hs (x, f, H)) out end in
    Ok (x', swap [] n (length X) f', swap02 n (length X) H')
  else Err RuntimeError.
End Activation.

(** 174-176: nonlinearities given by class; Softsign and Tanhshrink are refused (their first derivative is not a single node of torch's graph) *)
Inductive nonlin := ReLU | Softplus | Sigmoid | Tanh | Softsign | Tanhshrink.
Definition refused (nl : option nonlin) : bool := match nl with Some Softsign | Some Tanhshrink => true | _ => false end.
Definition create_with_derivatives (nl : option nonlin) : res nonlin :=
  if refused nl then Err RuntimeError else Ok (match nl with None => ReLU | Some k => k end).

(** networks.py 58-76: DiscardLastOutputNet for a batch of vectors *)
Definition discard_last (X : list (list R)) : list (list R) := map (fun x => firstn (length x - 1) x) X.
