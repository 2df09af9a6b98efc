(** Model of abcpy/output.py, class Journal: recording, reading, effective sample size, posterior mean, resampling. *)
From Verif Require Import M_Base.
From Coq Require Import QArith ZArith.

(** Python list indexing, negative indices included. *)
Definition pyget {A} (l : list A) (i : Z) : res A :=
  let k := if (i <? 0)%Z then (i + Z.of_nat (length l))%Z else i in
  if (k <? 0)%Z then Err IndexError
  else match nth_error l (Z.to_nat k) with Some x => Ok x | None => Err IndexError end.

(** Python dict of an association list: a later entry replaces the value, the key keeps its first position. *)
Fixpoint dset {K V} (eqb : K -> K -> bool) (d : list (K * V)) (k : K) (v : V) : list (K * V) :=
  match d with
  | [] => [(k, v)]
  | (k', v') :: d' => if eqb k k' then (k', v) :: d' else (k', v') :: dset eqb d' k v
  end.
Definition dict_of {K V} (eqb : K -> K -> bool) (l : list (K * V)) : list (K * V) :=
  fold_left (fun d kv => dset eqb d (fst kv) (snd kv)) l [].
Fixpoint dget {K V} (eqb : K -> K -> bool) (d : list (K * V)) (k : K) : option V :=
  match d with [] => None | (k', v) :: d' => if eqb k k' then Some v else dget eqb d' k end.

Fixpoint qsum (l : list Q) : Q := match l with [] => 0 | x :: l' => x + qsum l' end.
Definition qsq (x : Q) : Q := x * x.

(** NumPy arrays of weights: one column (n, 1), the shape every inference scheme records, or a flat vector. *)
Inductive arr := Col (l : list Q) | Flat (l : list Q).
Definition wvals (w : arr) : list Q := match w with Col l | Flat l => l end.

(* output.py:207-210  ESS of an (n, 1) array.  [Ok None] stands for the nan of weights with sum zero.  A flat vector makes
   the second sum() iterate over a number: TypeError. *)
Definition ess_of (w : arr) : res (option Q) :=
  match w with
  | Flat _ => Err TypeError
  | Col l => if Qeq_bool (qsum l) 0 then Ok None
             else Ok (Some (1 / qsum (map (fun x => qsq (x / qsum l)) l)))
  end.

Section Journal.
(** parameter names; entries of a sample; simulations; covariance matrices; distances *)
Variables Name E S C D : Type.
Variable neqb : Name -> Name -> bool.
Definition column := list (list E).            (* one named parameter: for each sample, its entries *)
Definition ndict := list (Name * column).

Record journal := mkj {
  jtype : nat;
  j_acc : list (list (list E));     (* accepted_parameters: per iteration, per sample, the entries *)
  j_names : list ndict;             (* names_and_parameters *)
  j_sims : list S;
  j_covs : list C;
  j_weights : list arr;
  j_ess : list (option Q);
  j_dists : list D;
  j_nsim : list nat;                (* number_of_simulations *)
  j_nsamples : option nat;          (* configuration["n_samples"] *)
  j_hasmodel : bool                 (* configuration has "type_model" *)
}.

(* output.py:41-66  __init__ *)
Open Scope nat_scope.
Definition new (t : nat) : res journal :=
  if (t =? 0) || (t =? 1) then Ok (mkj t [] [] [] [] [] [] [] [] None false) else Err ValueError.

(** what every add_ method does with its list, depending on the type (_type is 0 or 1) *)
Definition put {A} (t : nat) (l : list A) (x : A) : list A := if t =? 0 then [x] else l ++ [x].

Inductive addop :=
| AddUser (l : list (Name * column)) | AddAcc (x : list (list E)) | AddSim (x : S) | AddCov (x : C)
| AddW (w : arr) | AddDist (x : D) | AddEss (w : arr).

(* output.py:97-215  the add_ methods; add_ESS_estimate may raise before recording *)
Definition add (j : journal) (o : addop) : journal * res unit :=
  let t := jtype j in
  match o with
  | AddUser l => (mkj t (j_acc j) (put t (j_names j) (dict_of neqb l)) (j_sims j) (j_covs j) (j_weights j) (j_ess j) (j_dists j) (j_nsim j) (j_nsamples j) (j_hasmodel j), Ok tt)
  | AddAcc x => (mkj t (put t (j_acc j) x) (j_names j) (j_sims j) (j_covs j) (j_weights j) (j_ess j) (j_dists j) (j_nsim j) (j_nsamples j) (j_hasmodel j), Ok tt)
  | AddSim x => (mkj t (j_acc j) (j_names j) (put t (j_sims j) x) (j_covs j) (j_weights j) (j_ess j) (j_dists j) (j_nsim j) (j_nsamples j) (j_hasmodel j), Ok tt)
  | AddCov x => (mkj t (j_acc j) (j_names j) (j_sims j) (put t (j_covs j) x) (j_weights j) (j_ess j) (j_dists j) (j_nsim j) (j_nsamples j) (j_hasmodel j), Ok tt)
  | AddW w => (mkj t (j_acc j) (j_names j) (j_sims j) (j_covs j) (put t (j_weights j) w) (j_ess j) (j_dists j) (j_nsim j) (j_nsamples j) (j_hasmodel j), Ok tt)
  | AddDist x => (mkj t (j_acc j) (j_names j) (j_sims j) (j_covs j) (j_weights j) (j_ess j) (put t (j_dists j) x) (j_nsim j) (j_nsamples j) (j_hasmodel j), Ok tt)
  | AddEss w => match ess_of w with
                | Err e => (j, Err e)
                | Ok v => (mkj t (j_acc j) (j_names j) (j_sims j) (j_covs j) (j_weights j) (put t (j_ess j) v) (j_dists j) (j_nsim j) (j_nsamples j) (j_hasmodel j), Ok tt)
                end
  end.
Definition adds (j : journal) (os : list addop) : journal := fold_left (fun j o => fst (add j o)) os j.

(* output.py:230-382  the getters: None is the last entry; get_parameters, get_weights, get_distances compute
   len - 1, which is -1 on an empty list and raises like [-1] does *)
Definition get_last_or {A} (l : list A) (it : option Z) : res A :=
  match it with Some i => pyget l i | None => pyget l (-1) end.
Definition get_len1 {A} (l : list A) (it : option Z) : res A :=
  match it with Some i => pyget l i | None => pyget l (Z.of_nat (length l) - 1) end.
(* get_accepted_simulations, get_accepted_cov_mats: None (no exception) when nothing is stored *)
Definition get_opt {A} (l : list A) (it : option Z) : res (option A) :=
  match it with
  | Some i => match pyget l i with Ok x => Ok (Some x) | Err e => Err e end
  | None => match l with [] => Ok None | _ => match pyget l (-1) with Ok x => Ok (Some x) | Err e => Err e end end
  end.
Definition get_parameters (j : journal) it := get_len1 (j_names j) it.
Definition get_accepted_parameters (j : journal) it := get_last_or (j_acc j) it.
Definition get_accepted_simulations (j : journal) it := get_opt (j_sims j) it.
Definition get_accepted_cov_mats (j : journal) it := get_opt (j_covs j) it.
Definition get_weights (j : journal) it := get_len1 (j_weights j) it.
Definition get_distances (j : journal) it := get_len1 (j_dists j) it.
Definition get_ESS_estimates (j : journal) it := get_last_or (j_ess j) it.
End Journal.

Arguments mkj {Name E S C D}.
Arguments jtype {Name E S C D} _.
Arguments j_acc {Name E S C D} _.
Arguments j_names {Name E S C D} _.
Arguments j_sims {Name E S C D} _.
Arguments j_covs {Name E S C D} _.
Arguments j_weights {Name E S C D} _.
Arguments j_ess {Name E S C D} _.
Arguments j_dists {Name E S C D} _.
Arguments j_nsim {Name E S C D} _.
Arguments j_nsamples {Name E S C D} _.
Arguments j_hasmodel {Name E S C D} _.
Arguments new {Name E S C D} t.
Arguments AddUser {Name E S C D} l.
Arguments AddAcc {Name E S C D} x.
Arguments AddSim {Name E S C D} x.
Arguments AddCov {Name E S C D} x.
Arguments AddW {Name E S C D} w.
Arguments AddDist {Name E S C D} x.
Arguments AddEss {Name E S C D} w.
Arguments add {Name E S C D} neqb j o.
Arguments adds {Name E S C D} neqb j os.
Arguments get_parameters {Name E S C D} j it.
Arguments get_accepted_parameters {Name E S C D} j it.
Arguments get_accepted_simulations {Name E S C D} j it.
Arguments get_accepted_cov_mats {Name E S C D} j it.
Arguments get_weights {Name E S C D} j it.
Arguments get_distances {Name E S C D} j it.
Arguments get_ESS_estimates {Name E S C D} j it.

(** * posterior_mean *)
Open Scope Q_scope.
(** np.array(column).squeeze() for n samples of d numbers each *)
Inductive squeezed := Q0 (x : Q) | Q1 (l : list Q) | Q2 (rows : list (list Q)).
Definition squeeze (rows : list (list Q)) : squeezed :=
  match rows with
  | [[x]] => Q0 x
  | [row] => Q1 row
  | _ => if forallb (fun r => Nat.eqb (length r) 1) rows then Q1 (map (fun r => hd 0 r) rows) else Q2 rows
  end.
Definition qdot (ws xs : list Q) : Q := qsum (map (fun p => fst p * snd p) (combine ws xs)).
(* numpy.average with 1-d weights, axis 0: a length mismatch is a ValueError, weights of sum zero a ZeroDivisionError *)
Inductive avg := V0 (x : Q) | V1 (l : list Q).
Definition average (a : squeezed) (ws : list Q) : res avg :=
  match a with
  | Q0 _ => Err IndexError
  | Q1 l => if Nat.eqb (length ws) (length l) then
              if Qeq_bool (qsum ws) 0 then Err ZeroDivisionError else Ok (V0 (qdot ws l / qsum ws))
            else Err ValueError
  | Q2 rows => if Nat.eqb (length ws) (length rows) then
              if Qeq_bool (qsum ws) 0 then Err ZeroDivisionError
              else Ok (V1 (map (fun k => qdot ws (map (fun r => nth k r 0) rows) / qsum ws) (seq 0 (length (hd [] rows)))))
            else Err ValueError
  end.
Fixpoint mapR {A B} (f : A -> res B) (l : list A) : res (list B) :=
  match l with
  | [] => Ok []
  | x :: l' => match f x with Err e => Err e | Ok y => match mapR f l' with Err e => Err e | Ok ys => Ok (y :: ys) end end
  end.
(* output.py:384-416  Simplification: the entries of a sample are flattened numbers *)
Definition posterior_mean {Name S C D} (j : journal Name Q S C D) (it : option Z) : res (list (Name * avg)) :=
  let i := match it with Some i => i | None => (Z.of_nat (length (j_names j)) - 1)%Z end in
  match pyget (j_names j) i with
  | Err e => Err e
  | Ok params =>
      match pyget (j_weights j) i with
      | Err e => Err e
      | Ok w => mapR (fun kc => match average (squeeze (snd kc)) (wvals w) with Ok v => Ok (fst kc, v) | Err e => Err e end) params
      end
  end.

(** * resample *)
Open Scope nat_scope.
(* output.py:1100-1107  the loop over names: the next [len(entry of the first sample)] entries of each row *)
Fixpoint name_cols {Name E} (boot : list (list E)) (n : nat) (l : list (Name * list (list E))) (start : nat)
  : res (list (Name * list (list E))) :=
  match l with
  | [] => Ok []
  | (name, col) :: l' =>
      match col with
      | [] => Err IndexError
      | c0 :: _ =>
          match mapR (fun i => match pyget boot (Z.of_nat i) with
                               | Ok row => Ok (firstn (length c0) (skipn start row))
                               | Err e => Err e end) (seq 0 n) with
          | Err e => Err e
          | Ok col' => match name_cols boot n l' (start + length c0) with
                       | Ok rest => Ok ((name, col') :: rest) | Err e => Err e end
          end
      end
  end.
(* output.py:1014-1118.  [draw] stands for the indices rng.choice returns (an oracle constrained in the theorems);
   choice raises ValueError when the number of weights is not configuration["n_samples"].  Saving to disk is left out. *)
Definition resample {Name E S C D} (neqb : Name -> Name -> bool) (j : journal Name E S C D) (n_samples : option nat) (replace : bool)
    (draw : list nat) : res (journal Name E S C D) :=
  match get_accepted_parameters j (Some (-1)%Z) with Err e => Err e | Ok acc =>
  match get_weights j (Some (-1)%Z) with Err e => Err e | Ok w =>
  match j_nsamples j with None => Err KeyError | Some n_old =>
  let n := match n_samples with Some n => n | None => n_old end in
  if (n_old <? n) && negb replace then Err RuntimeError
  else if negb (length (wvals w) =? n_old) then Err ValueError
  else match mapR (fun i => pyget acc (Z.of_nat i)) draw with Err e => Err e | Ok boot =>
  if negb (j_hasmodel j) then Err KeyError else
  match get_parameters j None with Err e => Err e | Ok nd =>
  match name_cols boot n nd 0 with Err e => Err e | Ok nl =>
  let ones := Col (repeat 1%Q n) in
  match ess_of ones with Err e => Err e | Ok v =>
  Ok (mkj 0 [boot] [dict_of neqb nl] [] [] [ones] [v] [] [0] (Some n) true)
  end end end end end end end.
