(** Summaries of a journal: [Journal.posterior_cov] (abcpy/output.py 418-442) and [Journal.posterior_histogram] (444-468).
    A parameter entry is a number or a one-dimensional array (type [kval]); reals without rounding, entries and weights are
    finite. [np.hstack], [np.cov] and [np.histogramdd] are modelled after their numpy sources. *)
From Coq Require Import Reals Qreals ZArith.
From Verif Require Import M_Base M_Num M_XReal M_MMD M_Stats M_Graph M_Infer M_Journal M_APM M_Kernel M_Cov.
Open Scope R_scope.

(** an array with one dimension; an array with two dimensions and d columns *)
Inductive array := Vector (l : list R) | Rows (d : nat) (rows : list vec).
(** [np.array(params[k]).squeeze(axis=1)] (440, 465): every sample must hold exactly one entry, all of the same shape; no
    samples give an array without an axis 1 *)
Definition one_entry (s : list kval) : res kval := match s with [v] => Ok v | _ => Err ValueError end.
Definition joined (col : list (list kval)) : res array :=
  rthen (mapR one_entry col) (fun vs =>
  match vs with
  | [] => Err ValueError
  | KS _ :: _ => rthen (all_scalars vs) (fun l => Ok (Vector (map Q2R l)))
  | KA l0 :: _ => rthen (all_arrays vs) (fun ls =>
      if forallb (fun l => (length l =? length l0)%nat) ls then Ok (Rows (length l0) (map (map Q2R) ls)) else Err ValueError)
  end).
(** [np.hstack]: vectors are put one after the other, matrices side by side; mixtures and matrices with different numbers of
    rows are refused *)
Fixpoint after (x : list R) (l : list array) : res array :=
  match l with
  | [] => Ok (Vector x)
  | Vector y :: l' => after (x ++ y) l'
  | Rows _ _ :: _ => Err ValueError
  end.
Definition zip_rows (a b : list vec) : list vec := map (fun p => fst p ++ snd p) (combine a b).
Fixpoint beside (d : nat) (rows : list vec) (l : list array) : res array :=
  match l with
  | [] => Ok (Rows d rows)
  | Rows d' rows' :: l' => if (length rows =? length rows')%nat then beside (d + d') (zip_rows rows rows') l' else Err ValueError
  | Vector _ :: _ => Err ValueError
  end.
Definition hstack (l : list array) : res array :=
  match l with [] => Err ValueError | Vector x :: l' => after x l' | Rows d rows :: l' => beside d rows l' end.

(** [np.cov(np.transpose(a), aweights=w)]: one variable per column, or one variable for a vector; no variables give an empty
    matrix *)
Definition cov_variables (a : array) : list (list R) :=
  match a with Vector l => [l] | Rows d rows => map (fun i => map (fun r => nth i r 0) rows) (seq 0 d) end.
Definition cov_observations (a : array) : nat := match a with Vector l => length l | Rows _ rows => length rows end.
Definition cov_columns (a : array) (w : list R) : res arr :=
  let X := cov_variables a in
  match X with
  | [] => Ok (Matrix [])
  | _ =>
    if negb (length w =? cov_observations a)%nat then Err RuntimeError else
    if existsb (fun x => if Rlt_dec x 0 then true else false) w then Err ValueError else
    let W := rsuml w in
    if Req_EM_T W 0 then Err ZeroDivisionError else
    let fact := W - rsuml (map (fun x => x * x) w) / W in
    Ok (squeeze_cov (map (fun xs => map (fun ys => xmul (wprod w xs ys) (xdiv (XR 1) (XR (clip fact)))) X) X))
  end.

(** the samples and weights of an iteration (430-436, 455-461) *)
Definition of_iteration {Name S C D} (j : journal Name kval S C D) (it : option Z) : res (list (Name * list (list kval)) * list R) :=
  let i := match it with Some i => i | None => (Z.of_nat (length (j_names j)) - 1)%Z end in
  rthen (pyget (j_names j) i) (fun params =>
  rthen (pyget (j_weights j) i) (fun w => Ok (params, map Q2R (wvals w)))).
(** 438-440, 463-465 and the call of [np.hstack] *)
Definition joined_params {Name} (params : list (Name * list (list kval))) : res array :=
  rthen (mapR (fun kc => joined (snd kc)) params) hstack.
(* output.py:418-442 *)
Definition posterior_cov {Name S C D} (j : journal Name kval S C D) (it : option Z) : res (arr * list Name) :=
  rthen (of_iteration j it) (fun pw =>
  rthen (joined_params (fst pw)) (fun a =>
  rthen (cov_columns a (snd pw)) (fun c => Ok (c, map fst (fst pw))))).

(** [np.histogramdd(sample, bins=n, weights=w)] for a number n of bins.  [_get_outer_edges] *)
Definition lowest (xs : list R) : R := match xs with [] => 0 | x :: l => fold_left Rmin l x end.
Definition highest (xs : list R) : R := match xs with [] => 0 | x :: l => fold_left Rmax l x end.
Definition outer_edges (xs : list R) : R * R :=
  let lo := lowest xs in let hi := highest xs in if Req_EM_T lo hi then (lo - / 2, hi + / 2) else (lo, hi).
(** [np.linspace(lo, hi, n + 1)] *)
Definition linspace (lo hi : R) (n : nat) : list R :=
  map (fun k => if (k =? n)%nat then hi else INR k * ((hi - lo) / INR n) + lo) (seq 0 (S n)).
Definition edges_of (n : nat) (xs : list R) : list R := linspace (fst (outer_edges xs)) (snd (outer_edges xs)) n.
(** [np.searchsorted(edges, x, side='right')]; values on the last edge are moved one bin to the left *)
Definition leb (a b : R) : bool := if Rle_dec a b then true else false.
Definition bin_number (edges : list R) (x : R) : nat :=
  let k := length (filter (fun e => leb e x) edges) in
  if Req_EM_T x (last edges 0) then (k - 1)%nat else k.
(** [np.ravel_multi_index] with the same length in all dimensions *)
Definition ravel (b : nat) (idx : list nat) : nat := fold_left (fun acc k => (acc * b + k)%nat) idx 0%nat.
(** an entry of [np.bincount(xy, w)] *)
Definition bincount (xy : list nat) (w : list R) (c : nat) : R :=
  rsuml (map snd (filter (fun p => (fst p =? c)%nat) (combine xy w))).
(** The histogram without the outer bins, as a function of the index of a cell, and the edges. A sample without columns is
    taken to be refused. *)
Definition histogramdd (columns : list (list R)) (N : nat) (bins : Z) (w : list R) : res ((list nat -> R) * list (list R)) :=
  match columns with
  | [] => Err ValueError
  | _ =>
    if (bins <? 1)%Z then Err ValueError else
    let n := Z.to_nat bins in
    let edges := map (edges_of n) columns in
    let Ncount := map (fun s => map (fun p => bin_number (fst p) (nth s (snd p) 0)) (combine edges columns)) (seq 0 N) in
    let xy := map (ravel (n + 2)) Ncount in
    if negb (length w =? length xy)%nat then Err ValueError else
    Ok (fun cell => bincount xy w (ravel (n + 2) (map S cell)), edges)
  end.
(* output.py:444-468; [histogramdd] turns a vector into one column *)
Definition posterior_histogram {Name S C D} (j : journal Name kval S C D) (it : option Z) (n_bins : Z) : res ((list nat -> R) * list (list R)) :=
  rthen (of_iteration j it) (fun pw =>
  rthen (joined_params (fst pw)) (fun a =>
  histogramdd (cov_variables a) (cov_observations a) n_bins (snd pw))).
