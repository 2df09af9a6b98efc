(** What a run of SMCABC is. *)
From Verif Require Import M_Base M_Num M_Infer M_PMCABC M_RSMCABC M_SMCABC.

Section Spec.
Variables Theta Rng Y : Type.
Variable setp : Theta -> Theta -> bool * Theta.
Variable pdfv : Theta -> Theta -> num.
Variable kupd : pop Theta -> nat -> Rng -> Rng * Theta.
Variable kupdL : pop Theta -> Theta -> Rng -> Rng * Theta.
Variable kpdf : pop Theta -> Theta -> Theta -> num.
Variable prior : Rng -> Rng * Theta.
Variable simc : Theta -> Rng -> Rng * option Y.
Variable dist : Y -> num.
Variable dist1 : Y -> list num.
Variable bern : num -> Rng -> res (Rng * bool).

(** parameters th were to be assigned: the graph then holds th, or what a refused assignment of th left *)
Definition Installed (th th' : Theta) : Prop := th' = th \/ exists c, setp th c = (false, th').
(** y was simulated at th *)
Definition SimY (th : Theta) (y : Y) : Prop := exists c r r', simc c r = (r', Some y) /\ Installed th c.
(** th is a proposal of non-zero prior density made by a kernel [up] *)
Definition Proposed (up : Rng -> Rng * Theta) (th : Theta) : Prop := exists r r' c, up r = (r', th) /\ neqb (pdfv th c) (Fin 0) = false.
(** how many of the distances are below eps *)
Definition closer (eps : num) (ds : list num) : nat := length (filter (fun d => nlt d eps) ds).
Definition hit (eps : num) {A} (x : A * Y) : bool := nlt (dist (snd x)) eps.
(** trials that stopped with the [want]-th hit *)
Definition Trials {A} (P : A * Y -> Prop) (eps : num) (want : nat) (l : list (A * Y)) : Prop :=
  Forall P l /\ length (filter (hit eps) l) = want /\ (want = 0 -> l = []) /\ (forall l' x, l = l' ++ [x] -> hit eps x = true).
(** the Metropolis-Hastings probability: min(1, data ratio * prior ratio * kernel ratio) *)
Definition Prob (p : pop Theta) (th theta : Theta) (ratio pa : num) : Prop :=
  exists c1 c2, pa = min1 (nmul (nmul ratio (ndiv (pdfv th (snd (setp th c1))) (pdfv theta (snd (setp theta c2))))) (ndiv (kpdf p th theta) (kpdf p theta th))).
(** a candidate (th, y) for particle i at theta, with the data ratio of the three kernels and the number of simulations made *)
Definition Candidate (kernel hits : nat) (eps : num) (p : pop Theta) (ys : list Y) (i : nat) (theta th : Theta) (y : Y) (ratio : num) (counter : nat) : Prop :=
  match kernel with
  | 0 => Proposed (kupd p i) th /\ SimY th y /\ counter = 1
         /\ exists y_old, nth_error ys i = Some y_old
         /\ ratio = (if closer eps (dist1 y_old) =? 0 then Fin 1 else ndiv (ofnat (closer eps (dist1 y))) (ofnat (closer eps (dist1 y_old))))
  | 1 => exists old new, Proposed (kupd p i) th
         /\ Trials (fun x : unit * Y => SimY theta (snd x)) eps (hits - 1) old /\ Trials (fun x : unit * Y => SimY th (snd x)) eps hits new
         /\ (exists l1 l2, new = l1 ++ (tt, y) :: l2 /\ nlt (dist y) eps = true /\ existsb (hit eps) l2 = true)
         /\ ratio = ndiv (ofnat (length old)) (Fin (inject_Z (Z.of_nat (length new) - 1))) /\ counter = length old + length new
  | _ => exists primes back,
         Trials (fun x => Proposed (kupd p i) (fst x) /\ SimY (fst x) (snd x)) eps hits primes
         /\ (exists l1 l2, primes = l1 ++ (th, y) :: l2 /\ nlt (dist y) eps = true /\ existsb (hit eps) l2 = true)
         /\ Trials (fun x => Proposed (kupdL p th) (fst x) /\ SimY (fst x) (snd x)) eps (hits - 1) back
         /\ ratio = ndiv (ofnat (length back)) (Fin (inject_Z (Z.of_nat (length primes) - 1))) /\ counter = length primes + length back
  end.
(** particle i after a move: unchanged because its weight is not positive; or replaced by the candidate with the Metropolis-Hastings
    probability, and unchanged otherwise (the first r-hit kernel picks the candidate's data only afterwards, hence needs two hits) *)
Definition Moved (kernel hits : nat) (eps : num) (p : pop Theta) (ys : list Y) (i : nat) (x : Theta * Y * num * nat) : Prop :=
  let '(th', y', d', counter) := x in
  exists w theta, nth_error (p_w p) i = Some w /\ nth_error (p_rows p) i = Some theta /\ d' = dist y'
  /\ ((nlt (Fin 0) w = false /\ Installed theta th' /\ nth_error ys i = Some y' /\ counter = 0)
      \/ (nlt (Fin 0) w = true /\ exists th ratio pa r r', Prob p th theta ratio pa
            /\ ((bern pa r = Ok (r', true) /\ Installed th th' /\ Candidate kernel hits eps p ys i theta th y' ratio counter)
                \/ (bern pa r = Ok (r', false) /\ Installed theta th' /\ nth_error ys i = Some y'
                    /\ (kernel <> 1 \/ 2 <= hits -> exists yc, Candidate kernel hits eps p ys i theta th yc ratio counter))))).
(** without a population: a draw from the prior *)
Definition Fresh (x : Theta * Y * num * nat) : Prop :=
  let '(th, y, d, counter) := x in (exists r r', prior r = (r', th)) /\ SimY th y /\ d = dist y /\ counter = 1.

(** * A run *)
Variable n : nat.            (* n_samples *)
Variable bernton : bool.
Variables kernel hits : nat.
Variables alpha efinal resample : Q.
Variable draw : nat -> nat -> list num -> res (list nat).
(** population, simulations, distances, weights *)
Record cloud := mkcloud { k_rows : list Theta; k_ys : list Y; k_ds : list num; k_w : list num }.
(** reweighting at the new threshold e': indicator weights, or old weight times the ratio of numbers of close data points; normalised *)
Definition raw_weights (e' e : Q) (c : cloud) : list num :=
  if bernton then map (fun d => if nlt d (Fin e') then Fin 1 else Fin 0) (k_ds c)
  else map (fun wy => let den := closer (Fin e) (dist1 (snd wy)) in
                      if den =? 0 then Fin 0 else nmul (fst wy) (ndiv (ofnat (closer (Fin e') (dist1 (snd wy)))) (ofnat den))) (combine (k_w c) (firstn n (k_ys c))).
(** then the rows (not the simulations) are drawn anew, or kept; [idx] are the positions the rows come from *)
Definition Reweighted (t : nat) (c : cloud) (e e' : Q) (idx : list nat) (p : pop Theta) : Prop :=
  let nw := map (fun x => ndiv x (nsum (raw_weights e' e c))) (raw_weights e' e c) in
  (efinal <= e' <= e)%Q
  /\ Forall2 (fun i th => nth_error (k_rows c) i = Some th) idx (p_rows p)
  /\ if bernton || nlt (ndiv (Fin 1) (nsum (map (fun x => nmul x x) nw))) (Fin resample)
     then draw t n nw = Ok idx /\ p_w p = repeat (ndiv (Fin 1) (ofnat n)) n
     else idx = seq 0 (length (k_rows c)) /\ p_w p = nw.
Definition cloud_of (x : srec Theta Y) : cloud := mkcloud (r_rows (fst x)) (snd x) (r_ds (fst x)) (r_w (fst x)).
(** iterations from step t on: previous population (if any), threshold and simulation count *)
Inductive SRun : nat -> option cloud -> Q -> nat -> list Q -> list (list nat) -> list (srec Theta Y) -> Prop :=
| sr_nil t c e count : SRun t c e count [] [] []
| sr_first t e count x ks es idxs xs :
    (efinal < e)%Q -> length (r_rows (fst x)) = n -> 0 < n ->
    Forall Fresh (combine (combine (combine (r_rows (fst x)) (snd x)) (r_ds (fst x))) ks) -> length ks = n -> length (snd x) = n -> length (r_ds (fst x)) = n ->
    r_w (fst x) = repeat (ndiv (Fin 1) (ofnat n)) n -> r_nsim (fst x) = count + list_sum ks ->
    SRun (S t) (Some (cloud_of x)) e (r_nsim (fst x)) es idxs xs ->
    SRun t None e count es ([] :: idxs) (x :: xs)
| sr_step t c e e' count x p ks idx es idxs xs :
    (efinal < e)%Q -> Reweighted t c e e' idx p -> length (r_rows (fst x)) = n -> 0 < n ->
    (forall i z, nth_error (combine (combine (combine (r_rows (fst x)) (snd x)) (r_ds (fst x))) ks) i = Some z -> Moved kernel hits (Fin e') p (k_ys c) i z) ->
    length ks = n -> length (snd x) = n -> length (r_ds (fst x)) = n -> r_w (fst x) = p_w p -> r_nsim (fst x) = count + list_sum ks ->
    SRun (S t) (Some (cloud_of x)) e' (r_nsim (fst x)) es idxs xs ->
    SRun t (Some c) e count (e' :: es) (idx :: idxs) (x :: xs).
End Spec.
