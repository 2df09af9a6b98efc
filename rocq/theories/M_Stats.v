(** Summary statistics (/repo/abcpy/statistics.py).  Floats are extended reals without rounding. *)
From Coq Require Import Reals.
From Verif Require Import M_Base M_Num M_XReal.
Open Scope nat_scope.

(** A 2-d numpy array: the number of columns (needed when there are no rows) and the rows. *)
Record mat := mkmat { mcols : nat; mrows : list (list xr) }.
(** An element of a data set: a number or a 1-d array.  Arrays with more axes are not modelled; np.concatenate(...).reshape (line 216)
    flattens them row by row. *)
Inductive datum := Num (x : xr) | Vec (l : list xr).
(** The argument of [statistics]: a list or something else. *)
Inductive pydata := PList (l : list datum) | POther.

Definition all_nums (l : list datum) : option (list xr) :=
  fold_right (fun d acc => match d, acc with Num x, Some xs => Some (x :: xs) | _, _ => None end) (Some []) l.
Definition all_vecs (l : list datum) : option (list (list xr)) :=
  fold_right (fun d acc => match d, acc with Vec x, Some xs => Some (x :: xs) | _, _ => None end) (Some []) l.

(** ndarray.reshape(n, -1) of a flat array: [n] rows of [p] numbers *)
Fixpoint chunk (n p : nat) (l : list xr) : list (list xr) :=
  match n with 0 => [] | S n' => firstn p l :: chunk n' p (skipn p l) end.

(** statistics.py 196-220 [_check_and_transform_input].  A list of arrays of different lengths, or of numbers and arrays, is outside the model
    (ValueError here; numpy makes a column of objects of it or raises, depending on the version). *)
Definition check_input (d : pydata) : res mat :=
  match d with
  | POther => Err TypeError
  | PList l =>
      match all_nums l with
      | Some xs => Ok (mkmat 1 (chunk (length l) 1 xs))
      | None =>
          match all_vecs l with
          | Some (v :: vs) =>
              if forallb (fun w => length w =? length v) vs
              then Ok (mkmat (length (concat (v :: vs)) / length l) (chunk (length l) (length (concat (v :: vs)) / length l) (concat (v :: vs))))
              else Err ValueError
          | _ => Err ValueError
          end
      end
  end.

(** np.power with an integer exponent *)
Fixpoint xpow (x : xr) (k : nat) : xr := match k with 0 => XR 1 | S 0 => x | S k' => xmul x (xpow x k') end.
(** np.column_stack of two matrices with equally many rows *)
Definition colstack (a b : mat) : mat := mkmat (mcols a + mcols b) (map (fun rs => fst rs ++ snd rs) (combine (mrows a) (mrows b))).
(** one more column: the product of columns [i] and [j] *)
Definition prodcol (m : mat) (i j : nat) : mat := mkmat 1 (map (fun row => [xmul (nth i row XNaN) (nth j row XNaN)]) (mrows m)).
(** statistics.py 108-142 [_polynomial_expansion]; the type check (126-127) never fails in the modelled callers *)
Definition poly (degree : nat) (cross : bool) (m : mat) : mat :=
  let r := fold_left (fun r ind => colstack r (mkmat (mcols m) (map (map (fun x => xpow x ind)) (mrows m)))) (seq 2 (degree - 1)) m in
  if cross && (1 <? mcols m)
  then fold_left (fun r ind1 => fold_left (fun r ind2 => colstack r (prodcol m ind1 ind2)) (seq (S ind1) (mcols m - S ind1)) r) (seq 0 (mcols m)) r
  else r.

(** statistics.py 144-166 [_rescale]; [sd] is the attribute std_statistics, if set *)
Definition rescale (sd : option (list xr)) (m : mat) : res mat :=
  match sd with
  | None => Ok m
  | Some s =>
      if negb (mcols m =? length s) then Err RuntimeError
      else Ok (mkmat (mcols m) (map (fun row => map (fun ab => xdiv (fst ab) (snd ab)) (combine row s)) (mrows m)))
  end.

(** The three classes: Identity; LinearTransformation with its coefficient matrix; NeuralEmbedding with a network taking [p] inputs to [q]
    outputs, applied row by row (the conversion to float32, line 539, is part of [f]). *)
Inductive kind := Ident | Linear (coef : mat) | Embed (p q : nat) (f : list xr -> list xr).
(** A statistics object: class, degree (negative degrees act like 0), cross, std_statistics, previous_statistics *)
Inductive stats := mkstats (k : kind) (degree : nat) (cross : bool) (sd : option (list xr)) (prev : option stats).

(** np.dot(row, coefficients) *)
Definition dotrow (coef : mat) (row : list xr) : list xr :=
  map (fun j => xsum (map (fun xc => xmul (fst xc) (nth j (snd xc) XNaN)) (combine row (mrows coef)))) (seq 0 (mcols coef)).
(** statistics.py 238-246 (Identity), 320-324 (LinearTransformation), 539-551 (NeuralEmbedding) *)
Definition apply_kind (k : kind) (m : mat) : res mat :=
  match k with
  | Ident => Ok m
  | Linear coef => if negb (mcols m =? length (mrows coef)) then Err ValueError else Ok (mkmat (mcols coef) (map (dotrow coef) (mrows m)))
  | Embed p q f => if negb (mcols m =? p) then Err RuntimeError else Ok (mkmat q (map f (mrows m)))
  end.
(** statistics.py 168-194 [_preprocess] and the [statistics] methods 236-250, 315-332, 529-560 *)
Fixpoint statistics (s : stats) (d : pydata) : res mat :=
  match s with
  | mkstats k degree cross sd prev =>
      match (match prev with Some s' => statistics s' d | None => check_input d end) with
      | Err e => Err e
      | Ok m => match apply_kind k m with Err e => Err e | Ok m' => rescale sd (poly degree cross m') end
      end
  end.

(** square root, NaN for negative numbers *)
Definition xsqrt (a : xr) : xr :=
  match a with
  | XR x => match rsign x with Some false => XNaN | _ => XR (sqrt x) end
  | XInf => XInf
  | _ => XNaN
  end.
(** np.mean, np.std of a vector *)
Definition xmean (l : list xr) : xr := xdiv (xsum l) (XR (INR (length l))).
Definition xstd (l : list xr) : xr := xsqrt (xmean (map (fun x => xmul (xsub x (xmean l)) (xsub x (xmean l))) l)).
Definition column (m : mat) (j : nat) : list xr := map (fun row => nth j row XNaN) (mrows m).
(** np.std(m, axis=0) *)
Definition std0 (m : mat) : list xr := map (fun j => xstd (column m j)) (seq 0 (mcols m)).
(** statistics.py 20-70 [__init__]; reference_simulations as the list of its rows *)
Definition init_stats (k : kind) (degree : nat) (cross : bool) (prev : option stats) (refs : option (list datum)) : res stats :=
  match refs with
  | None => Ok (mkstats k degree cross None prev)
  | Some rows =>
      match statistics (mkstats k degree cross None prev) (PList rows) with
      | Err e => Err e
      | Ok m => Ok (mkstats k degree cross (Some (std0 m)) prev)
      end
  end.
