(** Model of abcpy/inferences.py, class BaseMethodsWithKernel (74-129), and of the way every scheme shares the model graph.
    The graph is represented by its current parameter vector [cur]: what get_parameters reads and simulate uses (C01-C06).
    set_parameters may refuse and then leaves a mixture of old and new values (C06). *)
From Verif Require Import M_Base M_Num.

(** division of floats; a zero divisor has no sign (simplification) *)
Definition ndiv (a b : num) : num :=
  match a, b with
  | NaN, _ | _, NaN => NaN
  | Fin x, Fin y => if Qeq_bool y 0 then (match Qcompare x 0 with Eq => NaN | Gt => PInf | Lt => NInf end) else Fin (x / y)
  | Fin _, _ => Fin 0
  | _, Fin y => match nsign a, Qcompare y 0 with Some Lt, Lt | Some Gt, Gt | Some Gt, Eq => PInf | _, _ => NInf end
  | _, _ => NaN
  end.
Definition nsum (l : list num) : num := fold_left nadd l (Fin 0).

Section Infer.
Variables Theta Rng Y Pop : Type.
(** set_parameters: verdict and the parameter vector afterwards *)
Variable setp : Theta -> Theta -> bool * Theta.
(** kernel.update for sample i of a population, ordered by get_correct_ordering (C01) *)
Variable kupd : Pop -> nat -> Rng -> Rng * Theta.
(** value of pdf_of_prior for a vector, evaluated in the state its own set_parameters left behind (graphtools.py:85-182) *)
Variable pdfv : Theta -> Theta -> num.

(* graphtools.py:85-182  pdf_of_prior: sets the parameters (ignoring a refusal), then evaluates *)
Definition pdf_of_prior (th cur : Theta) : num * Theta := let cur' := snd (setp th cur) in (pdfv th cur', cur').

(* inferences.py:104-124  while current_epoch < epochs; [last] is correctly_ordered_parameters *)
Fixpoint perturb_loop (p : Pop) (i : nat) (left epoch : nat) (cur : Theta) (r : Rng) (last : option Theta) : res (nat * Theta * Rng * Theta) :=
  match left with
  | 0 => match last with Some th => Ok (epoch, cur, r, th) | None => Err UnboundLocalError end
  | S left' =>
      let '(r', th) := kupd p i r in
      let '(accepted, cur') := setp th cur in
      if accepted then Ok (epoch, cur', r', th) else perturb_loop p i left' (S epoch) cur' r' (Some th)
  end.
(* inferences.py:85-129; None is [False] *)
Definition perturb (epochs : nat) (p : Pop) (i : nat) (cur : Theta) (r : Rng) : res (Theta * Rng * option Theta) :=
  match perturb_loop p i epochs 0 cur r None with
  | Err e => Err e
  | Ok (epoch, cur', r', th) => if Nat.eqb epoch 10 then Ok (cur', r', None) else Ok (cur', r', Some th)
  end.
(* the loop "while True: perturb; if accepted and pdf_of_prior != 0: break", e.g. inferences.py:1016-1020 *)
Fixpoint propose (fuel : nat) (p : Pop) (i : nat) (cur : Theta) (r : Rng) : res (Theta * Rng * Theta) :=
  match fuel with
  | 0 => Err OutOfFuel
  | S f =>
      match perturb 100 p i cur r with
      | Err e => Err e
      | Ok (cur1, r1, None) => propose f p i cur1 r1
      | Ok (cur1, r1, Some th) =>
          let '(v, cur2) := pdf_of_prior th cur1 in
          if neqb v (Fin 0) then propose f p i cur2 r1 else Ok (cur2, r1, th)
      end
  end.
End Infer.
