(** [PenLogReg] (abcpy/approx_lhd.py 307-425): the approximate likelihood by penalised logistic regression.
    The statistics of the observations and of the simulations are matrices (lists of rows of reals, see M_Stats).
    The prior draw, the simulation of one data set with its statistics, and the fit of [LogitNet] are parameters
    that raise nothing, except that the fit may raise. The fold labels are in M_KNN. *)
From Coq Require Import Reals.
From Verif Require Import M_Base M_Num M_XReal M_MMD M_Stats M_KNN.
Open Scope R_scope.

(** numpy arrays of dimension 0, 1 and 2 *)
Inductive arr := A0 (x : R) | A1 (l : vec) | A2 (rows : list vec).
(** [np.squeeze] (line 424) of an array of shape (n, 1, d), given as its n rows of length d: axes of length one are removed *)
Definition squeeze (d : nat) (rows : list vec) : arr :=
  if (length rows =? 1)%nat then (if (d =? 1)%nat then A0 (nth 0 (nth 0 rows []) 0) else A1 (nth 0 rows []))
  else if (d =? 1)%nat then A1 (map (fun r => nth 0 r 0) rows) else A2 rows.
(** [np.concatenate((stat_sim, ref), axis=0)] (line 381): equal dimensions and equal row lengths, else ValueError *)
Definition concatenate (d : nat) (sim : list vec) (a : arr) : res (list vec) :=
  match a with
  | A2 rows => if forallb (fun r => (length r =? d)%nat) rows then Ok (sim ++ rows) else Err ValueError
  | _ => Err ValueError
  end.

Section PenLik.
Variable rng : Type.
Variable theta : Type.
(** [sample_from_prior] (line 410): the parameters set in the graph *)
Variable prior : rng -> theta * rng.
(** [model.forward_simulate(model.get_input_values(), 1)] and [statistics_calc.statistics(data)] (lines 414-420) for one of the models:
    the row of statistics of one data set *)
Variable draw : nat -> theta -> rng -> vec * rng.

(** the loop of lines 413-423: it runs while the last entry is None; [fuel] bounds the number of rounds *)
Fixpoint fill (fuel : nat) (k : nat) (th : theta) (slots : list (option vec)) (ind : nat) (g : rng) : res (list (option vec) * rng) :=
  match slots with [] => Err IndexError | _ =>
  match last slots None with
  | Some _ => Ok (slots, g)
  | None =>
      match fuel with
      | O => Err OutOfFuel
      | S f => let '(row, g') := draw k th g in
               if (ind <? length slots)%nat then fill f k th (firstn ind slots ++ Some row :: skipn (S ind) slots) (S ind) g' else Err IndexError
      end
  end
  end.
Definition entry (o : option vec) : vec := match o with Some r => r | None => [] end.
(** the loop over the models (lines 411-424) *)
Fixpoint models_loop (fuel : nat) (n : nat) (ks : list nat) (th : theta) (g : rng) : res (list arr * rng) :=
  match ks with
  | [] => Ok ([], g)
  | k :: ks' =>
      rthen (fill fuel k th (repeat None n) 0 g) (fun sg =>
      let rows := map entry (fst sg) in
      rthen (models_loop fuel n ks' th (snd sg)) (fun rest =>
      Ok (squeeze (length (nth 0 rows [])) rows :: fst rest, snd rest)))
  end.
(** [_simulate_ref_data] (lines 392-425) and the [0] of line 355 *)
Definition reference (fuel n_models n : nat) (g : rng) : res arr :=
  let '(th, g') := prior g in
  rthen (models_loop fuel n (seq 0 n_models) th g') (fun r => match fst r with [] => Err IndexError | a :: _ => Ok a end).

(** [LogitNet(...).fit(X, y, groups)]: intercept and coefficients *)
Variable fit : list vec -> list R -> list nat -> res (R * vec).
(** [loglikelihood] (lines 357-390) on the matrices of statistics, which have d columns *)
Definition penlog (n_simulate n_folds d : nat) (ref : arr) (obs sim : list vec) : res R :=
  if negb (length sim =? n_simulate)%nat then Err RuntimeError else
  let y := repeat 0 n_simulate ++ repeat 1 n_simulate in
  rthen (concatenate d sim ref) (fun X =>
  if (n_folds =? 0)%nat then Err ZeroDivisionError else
  rthen (fit X y (groups n_folds n_simulate)) (fun m =>
  Ok (- rsuml (map (fun o => fst m + rsuml (map (fun wx => fst wx * snd wx) (combine (snd m) o))) obs)))).
End PenLik.
