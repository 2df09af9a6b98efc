(** What a run of ABCsubsim is. *)
From Coq Require Import Permutation Sorting.Sorted.
From Verif Require Import M_Base M_Num M_Infer M_PMCABC M_RSMCABC M_Subsim S_PMCABC.

Section Spec.
Variables Theta Rng Y Cov : Type.
Notation kst := (kst Theta Cov).
Variable setp : Theta -> Theta -> bool * Theta.
Variable pdfv : Theta -> Theta -> num.
Variable kupd : kst -> nat -> Rng -> Rng * Theta.
Variable kpdf : kst -> Theta -> Theta -> num.
Variable calc_cov : list Theta -> list Cov.
Variable shrink : nat -> Cov -> Cov.
Variable prior : Rng -> Rng * Theta.
Variable simc : Theta -> Rng -> Rng * option Y.
Variable dist : Y -> num.
Variable bern : num -> Rng -> res (Rng * bool).
Variables n cl : nat.   (* n_samples, chain_length *)
Variable cutoff : num.  (* ap_change_cutoff *)

(** acceptance probability of a move from theta to th with data at distance d: zero unless d is below the annealing parameter *)
Definition MHProb (q : kst) (th theta : Theta) (d ann pa : num) : Prop :=
  exists c1 c2, pa = nmul (min1 (nmul (ndiv (pdfv th (snd (setp th c1))) (pdfv theta (snd (setp theta c2)))) (ndiv (kpdf q th theta) (kpdf q theta th))))
                          (if nlt d ann then Fin 1 else Fin 0).
(** consecutive states (accepted?, theta, distance) of a chain that is at (theta, d) now: every proposal perturbs row i of the kernels'
    parameters, not theta *)
Inductive Chain (ann : num) (q : kst) (i : nat) : Theta -> num -> list (bool * Theta * num) -> Prop :=
| ch_nil theta d : Chain ann q i theta d []
| ch_step theta d th d' pa r r' r1 r2 c b l :
    kupd q i r = (r', th) -> neqb (pdfv th c) (Fin 0) = false -> Simulated setp simc dist th d' -> MHProb q th theta d' ann pa -> bern pa r1 = Ok (r2, b) ->
    Chain ann q i (if b then th else theta) (if b then d' else d) l ->
    Chain ann q i theta d ((b, if b then th else theta, if b then d' else d) :: l).
(** r holds the given (theta, distance) pairs, in increasing order of distance *)
Definition Sorts (all : list (Theta * num)) (r : rec Theta) : Prop :=
  length (r_rows r) = length all /\ length (r_ds r) = length all /\ Permutation (combine (r_rows r) (r_ds r)) all
  /\ (Forall (fun d => is_nan d = false) (r_ds r) -> StronglySorted (fun x y => nle x y = true) (r_ds r)).
(** the annealing parameter: mean of the distances at positions n/cl and n/cl + 1 (counted from 0) *)
Definition Anneal (ds : list num) (ann : num) : Prop :=
  exists d1 d2, nth_error ds (n / cl) = Some d1 /\ nth_error ds (n / cl + 1) = Some d2 /\ ann = nmul (Fin (1 # 2)) (nadd d1 d2).
(** ten trial chains of length cl from the first particle; the number of accepted moves of the first trial with 3, 4 or 5 of them decides *)
Definition Trial (q : kst) (bds : list Theta) (ann : num) (acc : nat) : Prop :=
  exists theta l, hd_error bds = Some theta /\ length l = cl /\ Chain ann q 0 theta NaN l /\ acc = length (filter (fun x => fst (fst x)) l).
Definition NewCovs (q : kst) (bds : list Theta) (ann : num) (covs : list Cov) : Prop :=
  exists accs, length accs = 10 /\ Forall (Trial q bds ann) accs
  /\ ((exists t a, nth_error accs t = Some a /\ 3 <= a <= 5 /\ (forall t' a', t' < t -> nth_error accs t' = Some a' -> ~ 3 <= a' <= 5) /\ covs = map (shrink t) (k_covs q))
      \/ (Forall (fun a => ~ 3 <= a <= 5) accs /\ covs = k_covs q)).
(** iterations after the first, from the population [rows], the kernels' state [q], the last annealing parameter and the simulation count *)
Inductive BRun : list Theta -> kst -> num -> nat -> list num -> list (rec Theta) -> list (list Cov) -> Prop :=
| br_nil rows q ann0 count : BRun rows q ann0 count [] [] []
| br_step rows q ann0 count chains r ann covs anns rs cs :
    length chains = n / cl -> 0 < n / cl -> 0 < cl ->
    (forall i c, nth_error chains i = Some c ->
       exists theta d l, nth_error rows i = Some theta /\ Simulated setp simc dist theta d /\ Chain ann0 q i theta d l /\ length l = cl - 1
                         /\ c = (theta, d) :: map (fun x => (snd (fst x), snd x)) l) ->
    Sorts (concat chains) r -> r_w r = repeat (Fin 1) n -> r_nsim r = count + n / cl * cl + 10 * cl -> Anneal (r_ds r) ann ->
    NewCovs (mkkst (k_from q) (k_covs q ++ k_covs q)) rows ann covs ->
    BRun (r_rows r) (mkkst (k_from q) covs) ann (r_nsim r) anns rs cs ->
    BRun rows q ann0 count (ann :: anns) (r :: rs) (covs :: cs).
(** the first iteration: n draws from the prior *)
Definition BFirst (count : nat) (r : rec Theta) (ann : num) (covs : list Cov) : Prop :=
  exists all, length all = n /\ 0 < n /\ 0 < cl /\ Forall (fun x => (exists r r', prior r = (r', fst x)) /\ Simulated setp simc dist (fst x) (snd x)) all
  /\ Sorts all r /\ r_w r = repeat (Fin 1) n /\ r_nsim r = count + n + 10 * cl /\ Anneal (r_ds r) ann
  /\ NewCovs (mkkst (r_rows r) (calc_cov (r_rows r))) (r_rows r) ann covs.
End Spec.
Arguments BRun {Theta Rng Y Cov} setp pdfv kupd kpdf shrink simc dist bern n cl _ _ _ _ _ _ _.
Arguments BFirst {Theta Rng Y Cov} setp pdfv kupd kpdf calc_cov shrink prior simc dist bern n cl _ _ _ _.
(** the relative change of the annealing parameter in percent; the run goes on while it is not below the cutoff; the Boolean says whether
    the last change was *)
Definition change (a0 a : num) : num := ndiv (nmul (Fin 100) (nabs (nsub a0 a))) (nabs a).
Inductive Annealed (cutoff : num) : num -> list num -> bool -> Prop :=
| an_last a0 a : Annealed cutoff a0 [a] (nlt (change a0 a) cutoff)
| an_more a0 a l b : nlt (change a0 a) cutoff = false -> Annealed cutoff a l b -> Annealed cutoff a0 (a :: l) b.
