(** abcpy/distances.py: MMD (852-1014) and EnergyDistance (1017-1090).
    Simplifications: the statistics of the two data sets are matrices of finite real numbers (rows = data points); real arithmetic instead of
    floating point; sigma is not 0 (numpy would give NaN or 0 there); a user-supplied kernel or base distance is an arbitrary function of two rows
    that returns a real number and raises nothing. *)
From Coq Require Import Reals Lra.
From Verif Require Import M_Base.
Open Scope R_scope.

Notation vec := (list R).
(** [np.sum] over a matrix (991-993, 1006-1008) *)
Definition rsuml (l : list R) : R := fold_right Rplus 0 l.
Definition msum (K : list (list R)) : R := rsuml (map rsuml K).

(** The kernel option (882, 886-896): the string "gaussian" with its sigma, another string, a callable, or something else. *)
Inductive kernel_arg := Gaussian (sigma : R) | OtherName | Callable (k : vec -> vec -> R) | NotCallable.
(** The kernel the object holds: vectorised (all pairs at once, only the Gaussian one) or called pair by pair (885, 891-892, 896). *)
Inductive kernel := Vectorised (k : vec -> vec -> R) | Pairwise (k : vec -> vec -> R).
(** [Gaussian_kernel_vectorized] (936-951), entry by entry: exp(- sum of squared differences / (2 sigma^2)). *)
Definition gaussian (sigma : R) (x y : vec) : R := exp (- (rsuml (map (fun ab => (fst ab - snd ab) * (fst ab - snd ab)) (combine x y))) / (2 * sigma ^ 2)).
(** [MMD.__init__] (882-897), kernel part *)
Definition mmd_init (a : kernel_arg) : res kernel :=
  match a with
  | NotCallable => Err RuntimeError
  | Gaussian sigma => Ok (Vectorised (gaussian sigma))
  | OtherName => Err NotImplementedError
  | Callable k => Ok (Pairwise k)
  end.

(** matrix of zeros, and assignment of one entry (963-965, 970) *)
Definition zeros (m n : nat) : list (list R) := repeat (repeat 0 n) m.
Fixpoint rset {A} (l : list A) (i : nat) (x : A) : list A := match l, i with [], _ => [] | _ :: l', 0%nat => x :: l' | y :: l', S i' => y :: rset l' i' x end.
Definition mset (K : list (list R)) (i j : nat) (v : R) : list (list R) := rset K i (rset (nth i K []) j v).
Definition row (s : list vec) (i : nat) : vec := nth i s [].
(** the index pairs visited by [for i in range(m): for j in range(i, m)] (967-969) *)
Definition upper (m : nat) : list (nat * nat) := flat_map (fun i => map (pair i) (seq i (m - i))) (seq 0 m).
(** [K[j, i] = K[i, j] = kernel(s[i], s[j])] over those pairs (967-975) *)
Definition gram_sym (k : vec -> vec -> R) (s : list vec) : list (list R) :=
  fold_left (fun K ij => mset (mset K (snd ij) (fst ij) (k (row s (fst ij)) (row s (snd ij)))) (fst ij) (snd ij) (k (row s (fst ij)) (row s (snd ij))))
    (upper (length s)) (zeros (length s) (length s)).
(** [K12[i, j] = kernel(s1[i], s2[j])] (977-979), and one call of a vectorised kernel (955-958) *)
Definition gram_all (k : vec -> vec -> R) (s1 s2 : list vec) : list (list R) := map (fun x => map (k x) s2) s1.
(** [compute_Gram_matrix] (953-982) *)
Definition gram (k : kernel) (s1 s2 : list vec) : list (list R) * list (list R) * list (list R) :=
  match k with
  | Vectorised f => (gram_all f s1 s1, gram_all f s2 s2, gram_all f s1 s2)
  | Pairwise f => (gram_sym f s1, gram_sym f s2, gram_all f s1 s2)
  end.

(** [K - np.diag(np.diagonal(K))] (991, 993): the diagonal entry is subtracted from itself. *)
Definition enum {A} (l : list A) : list (nat * A) := combine (seq 0 (length l)) l.
Definition drop_diag (K : list (list R)) : list (list R) :=
  map (fun ir => map (fun jv => if (fst ir =? fst jv)%nat then snd jv - snd jv else snd jv) (enum (snd ir))) (enum K).
(** [a / b] on a Python float and int (991-993, 1006-1008) *)
Definition pydiv (a : R) (b : nat) : res R := if (b =? 0)%nat then Err ZeroDivisionError else Ok (a / INR b).
Definition rthen {A B} (r : res A) (f : A -> res B) : res B := match r with Ok x => f x | Err e => Err e end.
(** [MMD_unbiased] (984-997) *)
Definition mmd_unbiased (Kxx Kyy Kxy : list (list R)) : res R :=
  let m := length Kxx in let n := length Kyy in
  rthen (pydiv 1 (m * (m - 1))) (fun c1 => rthen (pydiv 2 (m * n)) (fun c2 => rthen (pydiv 1 (n * (n - 1))) (fun c3 =>
  Ok (c1 * msum (drop_diag Kxx) - c2 * msum Kxy + c3 * msum (drop_diag Kyy))))).
(** [MMD_V_estimator] (999-1012) *)
Definition mmd_V (Kxx Kyy Kxy : list (list R)) : res R :=
  let m := length Kxx in let n := length Kyy in
  rthen (pydiv 1 (m * m)) (fun c1 => rthen (pydiv 2 (m * n)) (fun c2 => rthen (pydiv 1 (n * n)) (fun c3 =>
  Ok (c1 * msum Kxx - c2 * msum Kxy + c3 * msum Kyy)))).
(** [MMD.distance] (899-922) on the statistics of the two data sets *)
Definition mmd_distance (k : kernel) (biased : bool) (s1 s2 : list vec) : res R :=
  let '(K11, K22, K12) := gram k s1 s2 in if biased then mmd_V K11 K22 K12 else mmd_unbiased K11 K22 K12.
(** default of [biased_estimator] (882; 1047) and [_estimate_always_positive] (1013-1014) *)
Definition mmd_default_biased : bool := false.
Definition energy_default_biased : bool := true.
Definition mmd_always_positive (biased : bool) : bool := biased.

(** [np.linalg.norm(x - y)] and [** beta] (1082-1088); 0 to a positive power is 0. *)
Definition norm (x y : vec) : R := sqrt (rsuml (map (fun ab => (fst ab - snd ab) * (fst ab - snd ab)) (combine x y))).
Definition pypow (x b : R) : R := if Req_EM_T x 0 then 0 else Rpower x b.
Inductive base_arg := Euclidean (beta : R) | OtherBase | CallableBase (d : vec -> vec -> R) | BadBase.
(** [def_Euclidean_distance] (1077-1090) *)
Definition def_euclidean (beta : R) : res (vec -> vec -> R) :=
  if Rle_dec beta 0 then Err RuntimeError else if Rlt_dec 2 beta then Err RuntimeError
  else if Req_EM_T beta 1 then Ok norm else Ok (fun x y => pypow (norm x y) beta).
(** [EnergyDistance.__init__] (1047-1065): the kernel is minus the base distance, called pair by pair. *)
Definition energy_init (a : base_arg) : res kernel :=
  rthen match a with BadBase => Err RuntimeError | Euclidean beta => def_euclidean beta | OtherBase => Err NotImplementedError | CallableBase d => Ok d end
  (fun d => mmd_init (Callable (fun x y => - d x y))).
