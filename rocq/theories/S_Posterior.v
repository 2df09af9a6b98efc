(** Specification vocabulary for posterior covariance (C70) and posterior histogram (C71). *)
From Coq Require Import Reals Qreals ZArith.
From Verif Require Import M_Base M_Num M_XReal M_MMD M_Stats M_Graph M_Infer M_Journal M_APM M_Kernel M_Cov M_Posterior S_Journal S_Stats S_Cov.
Open Scope R_scope.

(** a named parameter: n samples, each an array of d numbers *)
Definition Column (n d : nat) (col : list (list kval)) : Prop := length col = n /\ Forall (fun s => exists l, s = [KA l] /\ length l = d) col.
Definition Columns {Name} (n : nat) (ds : list nat) (params : list (Name * list (list kval))) : Prop := Forall2 (fun d kc => Column n d (snd kc)) ds params.
(** the numbers of a sample of one parameter; coordinate c of all samples of the k-th parameter *)
Definition numbers (s : list kval) : list R := values s.
Definition coordinate {Name} (params : list (Name * list (list kval))) (k c : nat) : list R :=
  match nth_error params k with Some (_, col) => map (fun s => nth c (numbers s) 0) col | None => [] end.
(** column of coordinate c of the k-th parameter when the parameters have ds coordinates *)
Definition column_of (ds : list nat) (k c : nat) : nat := (list_sum (firstn k ds) + c)%nat.
(** weighted mean, weighted covariance of two lists *)
Definition average_of (w xs : list R) : R := total (map (fun p => fst p * snd p) (combine w xs)) / total w.
Definition covariance (w xs ys : list R) : R :=
  total (map (fun p => fst p * (fst (snd p) - average_of w xs) * (snd (snd p) - average_of w ys)) (combine w (combine xs ys)))
  / (total w - total (map (fun a => a ^ 2) w) / total w).
(** the iteration asked for holds these samples and weights *)
Definition Holds {Name S C D} (j : journal Name kval S C D) (it : option Z) (params : list (Name * list (list kval))) (w : list Q) : Prop :=
  at_pos (j_names j) (iter_of j it) = Some params /\ exists a, at_pos (j_weights j) (iter_of j it) = Some a /\ wvals a = w.
(** exactly the k-th weight is positive, the others are 0 *)
Definition OnlyPositive (w : list R) (k : nat) : Prop := (k < length w)%nat /\ 0 < nth k w 0 /\ forall i, i <> k -> nth i w 0 = 0.
(** n_bins intervals of the same length: the k-th edge, the values in the k-th interval (the last one is closed) *)
Definition edge (lo hi : R) (n k : nat) : R := lo + INR k * (hi - lo) / INR n.
Definition InBin (lo hi : R) (n k : nat) (x : R) : Prop :=
  (k < n)%nat /\ edge lo hi n k <= x /\ (x < edge lo hi n (k + 1) \/ (k + 1 = n)%nat /\ x = hi).
(** lo and hi are the smallest and the largest value, or half a unit around the only value *)
Definition Range (xs : list R) (lo hi : R) : Prop :=
  (In lo xs /\ In hi xs /\ lo < hi /\ forall x, In x xs -> lo <= x <= hi) \/ (exists v, lo = v - 1 / 2 /\ hi = v + 1 / 2 /\ In v xs /\ forall x, In x xs -> x = v).
(** all indices of a histogram with n bins in each of p dimensions *)
Fixpoint cells (p n : nat) : list (list nat) :=
  match p with O => [[]] | S p' => flat_map (fun k => map (cons k) (cells p' n)) (seq 0 n) end.
