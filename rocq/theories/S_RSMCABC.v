(** What a run of RSMCABC is. *)
From Verif Require Import M_Base M_Num M_Infer M_PMCABC M_RSMCABC S_PMCABC.
From Coq Require Import Permutation Sorting.Sorted.

(** (krows, kds) are the m closest of the particles (rows, ds), in increasing order of distance; NaN distances make the order meaningless *)
Definition Closest {Theta} (m : nat) (rows : list Theta) (ds : list num) (krows : list Theta) (kds : list num) : Prop :=
  length krows = m /\ length kds = m
  /\ exists orows ods, length orows = length ods /\ Permutation (combine ds rows) (combine kds krows ++ combine ods orows)
     /\ (Forall (fun d => is_nan d = false) ds ->
         StronglySorted (fun x y => nle x y = true) kds /\ forall x y, In x kds -> In y ods -> nle x y = true).

Section Spec.
Variables Theta Rng Y : Type.
Variable setp : Theta -> Theta -> bool * Theta.
Variable pdfv : Theta -> Theta -> num.
Variable kupd : pop Theta -> nat -> Rng -> Rng * Theta.
Variable kpdf : pop Theta -> Theta -> Theta -> num.
Variable simc : Theta -> Rng -> Rng * option Y.
Variable dist : Y -> num.
Variable bern : num -> Rng -> res (Rng * bool).
(** d is the distance of data simulated, below the threshold, at a perturbation th' of particle i (theta) which was accepted with the
    Metropolis-Hastings probability *)
Definition Better (eps : num) (rows : list Theta) (i : nat) (theta : Theta) (d : num) : Prop :=
  nlt d eps = true /\ exists th' w r r' c1 c2 r3 r4, let p := mkpop rows w in kupd p i r = (r', th') /\ Simulated setp simc dist th' d
  /\ bern (min1 (nmul (ndiv (pdfv th' (snd (setp th' c1))) (pdfv theta (snd (setp theta c2)))) (ndiv (kpdf p th' theta) (kpdf p theta th')))) r3 = Ok (r4, true).
(** a replenished particle, chosen from the retained ones (krows, kds): its parameters are what the graph holds after assigning retained
    particle i (also when the move was accepted), its distance is that particle's, or that of an accepted perturbation of it *)
Definition Replenished (eps : num) (krows : list Theta) (kds : list num) (th : Theta) (d : num) : Prop :=
  exists i theta, nth_error krows i = Some theta /\ (exists c, th = snd (setp theta c))
  /\ (nth_error kds i = Some d \/ Better eps krows i theta d).
(** iterations after the first: threshold = largest retained distance; k particles are replenished, with the same number R of simulations
    for each; [count]: simulations made before *)
Inductive RRun (n k : nat) : list Theta -> list num -> nat -> list num -> list (rec Theta) -> Prop :=
| rr_nil krows kds count : RRun n k krows kds count [] []
| rr_step krows kds count R eps nrows nds r krows' kds' es rs :
    kds <> [] -> eps = last kds NaN -> length nrows = k -> Forall2 (Replenished eps krows kds) nrows nds ->
    r_rows r = krows ++ nrows -> r_ds r = kds ++ nds -> r_w r = repeat (ndiv (Fin 1) (Fin (inject_Z (Z.of_nat n)))) n ->
    0 < R -> r_nsim r = count + k * R ->
    Closest (n - k) (r_rows r) (r_ds r) krows' kds' -> RRun n k krows' kds' (r_nsim r) es rs ->
    RRun n k krows kds count (eps :: es) (r :: rs).
End Spec.
Arguments Better {Theta Rng Y} setp pdfv kupd kpdf simc dist bern eps rows i theta d.
Arguments Replenished {Theta Rng Y} setp pdfv kupd kpdf simc dist bern eps krows kds th d.
Arguments RRun {Theta Rng Y} setp pdfv kupd kpdf simc dist bern n k _ _ _ _ _.
(** a full population within the threshold, with equal weights *)
Definition full_below {Theta} (n : nat) (e : num) (r : rec Theta) : Prop :=
  length (r_rows r) = n /\ length (r_ds r) = n /\ Forall (fun d => nle d e = true) (r_ds r)
  /\ r_w r = repeat (ndiv (Fin 1) (Fin (inject_Z (Z.of_nat n)))) n.
