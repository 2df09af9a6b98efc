(** Generation of the training data for learning statistics, and the linear method (/repo/abcpy/statisticslearning.py 36-221, 266-328). *)
From Coq Require Import Reals.
From Verif Require Import M_Base M_Num M_XReal M_Stats M_Journal.
Open Scope nat_scope.

(** A data argument: not an array, an array with two axes, an array with another number of axes. *)
Inductive array := NotArray | Array2 (m : mat) | ArrayN.

Section Learn.
  (** What a worker obtains with the generator seeded by the argument (211-221): the drawn parameters (sample_from_prior, get_parameters), and per root model the list
      of simulated vectors, or [None] when some root refuses its input (graphtools.py 411-420). *)
  Variable draw : Z -> res (list (list xr) * option (list (list (list xr)))).
  (** rng.randint(1, n*n, size=n, dtype=int32) of RandomState(seed) (106-107) *)
  Variable randints : nat -> list Z.

  (* 211-221  _sample_parameter_statistics: a refused simulation leaves [statistics] undefined.  The list of root results, each a list of arrays, is flattened per root by
     np.concatenate(data).reshape(len(data), -1) (statistics.py 216), so a root's result is given to [statistics] as the one vector it is turned into. *)
  Definition sample_one (sc : stats) (seed : Z) : res (list (list xr) * mat) :=
    match draw seed with
    | Err e => Err e
    | Ok (p, None) => Err UnboundLocalError
    | Ok (p, Some y) => match statistics sc (PList (map (fun r => Vec (concat r)) y)) with Err e => Err e | Ok m => Ok (p, m) end
    end.
  (* 116  np.concatenate *)
  Definition vstack (l : list mat) : res mat :=
    match l with
    | [] => Err ValueError
    | m :: ms => if forallb (fun m' => mcols m' =? mcols m) ms then Ok (mkmat (mcols m) (flat_map mrows (m :: ms))) else Err ValueError
    end.
  (* 115, 120  np.array(sample_parameters).reshape((n, -1)); parameters of different lengths do not form an array (ValueError; an array of objects in old numpy versions) *)
  Definition stack_params (ps : list (list (list xr))) : res mat :=
    match ps with
    | [] => Err ValueError
    | p :: _ =>
        let w := length (nth 0 p []) in
        if forallb (fun q => (length q =? length p) && forallb (fun v => length v =? w) q) ps
        then Ok (mkmat (length p * w) (map (@concat xr) ps)) else Err ValueError
    end.
  (* 126-127  reshape(rows, -1) of the flattened numbers *)
  Definition reshape (rows : nat) (m : mat) : res mat :=
    let flat := concat (mrows m) in
    if rows =? 0 then Err ValueError
    else if length flat mod rows =? 0 then Ok (mkmat (length flat / rows) (chunk rows (length flat / rows) flat)) else Err ValueError.
  (* 128  np.repeat(..., k, axis=0) *)
  Definition repeat_rows (k : nat) (m : mat) : mat := mkmat (mcols m) (flat_map (fun r => repeat r k) (mrows m)).
  Definition take (k : nat) (m : mat) : mat := mkmat (mcols m) (firstn k (mrows m)).
  Definition drop (k : nat) (m : mat) : mat := mkmat (mcols m) (skipn k (mrows m)).

  (** The attributes set by the constructor: sample_parameters and sample_statistics, and those of the validation set; [None] when the attribute is not set. *)
  Record learned := mklearned { train : option (mat * mat); valid : option (mat * mat) }.
  (* 94-142; randint raises ValueError for an empty range and for n*n > 2^31 *)
  Definition generate (sc : stats) (n nval k : nat) (has has_val : bool) : res learned :=
    let ntrain := if has then 0 else n in
    let total := ntrain + (if has_val then 0 else nval) in
    if total =? 0 then Ok (mklearned None None)
    else if (total =? 1) || (2147483648 <? Z.of_nat total * Z.of_nat total)%Z then Err ValueError
    else match mapR (sample_one sc) (randints total) with
         | Err e => Err e
         | Ok out =>
             match stack_params (map fst out) with
             | Err e => Err e
             | Ok ps =>
                 match vstack (map snd out) with
                 | Err e => Err e
                 | Ok st =>
                     match reshape (total * k) st with
                     | Err e => Err e
                     | Ok st' =>
                         let ps' := repeat_rows k ps in
                         Ok (mklearned (Some (take (ntrain * k) ps', take (ntrain * k) st')) (Some (drop (ntrain * k) ps', drop (ntrain * k) st')))
                     end
                 end
             end
         end.
  (* 144-159 and 163-178 *)
  Definition provided (sc : stats) (p s : array) : res (mat * mat) :=
    match p, s with
    | NotArray, _ | _, NotArray => Err TypeError
    | ArrayN, _ | _, ArrayN => Err RuntimeError
    | Array2 pm, Array2 sm =>
        if negb (length (mrows sm) =? length (mrows pm)) then Err RuntimeError
        else match statistics sc (PList (map Vec (mrows sm))) with Err e => Err e | Ok st => Ok (pm, st) end
    end.
  (* 40-182  __init__ *)
  Definition init (sc : stats) (n nval k : nat) (p s pv sv : option array) : res learned :=
    let given (o : option array) := match o with Some _ => true | None => false end in
    if negb (Bool.eqb (given p) (given s)) then Err RuntimeError
    else if negb (Bool.eqb (given pv) (given sv)) then Err RuntimeError
    else match generate sc n nval k (given p) (given pv) with
         | Err e => Err e
         | Ok l =>
             match (match p, s with Some a, Some b => match provided sc a b with Err e => Err e | Ok d => Ok (mklearned (Some d) (valid l)) end | _, _ => Ok l end) with
             | Err e => Err e
             | Ok l' =>
                 match pv, sv with Some a, Some b => match provided sc a b with Err e => Err e | Ok d => Ok (mklearned (train l') (Some d)) end | _, _ => Ok l' end
             end
         end.

  (** sklearn's LinearRegression(fit_intercept=True).fit(X, y).coef_ for X with at least one row *)
  Variable regress : list (list xr) -> list xr -> list xr.
  (* 298-315  Semiautomatic.__init__: one regression per parameter; fit raises ValueError on an empty table and AttributeError arises when nothing was generated *)
  Definition semiautomatic (sc : stats) (n k : nat) (p s : option array) : res (list (list xr)) :=
    match init sc n 0 k p s None None with
    | Err e => Err e
    | Ok l =>
        match train l with
        | None => Err AttributeError
        | Some (ps, st) =>
            mapR (fun ind => match mrows st with
                             | [] => Err ValueError
                             | _ => let c := regress (mrows st) (M_Stats.column ps ind) in if length c =? mcols st then Ok c else Err ValueError
                             end) (seq 0 (mcols ps))
        end
    end.
  (* 317-328  get_statistics: np.transpose of the coefficients; LinearTransformation has degree 1 and no cross products by default (statistics.py 288) *)
  Definition transpose (width : nat) (rows : list (list xr)) : mat := mkmat (length rows) (map (fun j => map (fun r => nth j r XNaN) rows) (seq 0 width)).
  Definition semi_statistics (sc : stats) (width : nat) (coefs : list (list xr)) : stats := mkstats (Linear (transpose width coefs)) 1 false None (Some sc).
End Learn.
