(** What a run of APMCABC is. *)
From Verif Require Import M_Base M_Num M_Infer M_PMCABC S_PMCABC.

(** particles as triples: parameters, distance, weight *)
Definition particles {Theta} (r : rec Theta) : list (Theta * (num * num)) := combine (r_rows r) (combine (r_ds r) (r_w r)).
(** the particles strictly below e, with their weights divided by the sum of these weights *)
Definition below {Theta} (e : num) (l : list (Theta * (num * num))) : list (Theta * (num * num)) :=
  let sel := filter (fun x => nlt (fst (snd x)) e) l in
  map (fun x => (fst x, (fst (snd x), ndiv (snd (snd x)) (nsum (map (fun x => snd (snd x)) sel))))) sel.
Definition as_pop {Theta} (l : list (Theta * (num * num))) : pop Theta := mkpop (map fst l) (map (fun x => snd (snd x)) l).

Section Spec.
Variables Theta Rng Y : Type.
Variable setp : Theta -> Theta -> bool * Theta.
Variable pdfv : Theta -> Theta -> num.
Variable kupd : pop Theta -> nat -> Rng -> Rng * Theta.
Variable kpdf : pop Theta -> Theta -> Theta -> num.
Variable prior : Rng -> Rng * Theta.
Variable simc : Theta -> Rng -> Rng * option Y.
Variable dist : Y -> num.
Variable choice : nat -> list num -> Rng -> res (Rng * nat).
(** a new particle: drawn from the prior with weight 1, or a perturbation th of a particle drawn with the weights, weighted by prior
    density over mixture density; reported is th or what a refused assignment of th left in the graph *)
Definition New (mgr : option (pop Theta)) (x : Theta * (num * num)) : Prop :=
  let '(th', (d, w)) := x in
  exists th, Drawn pdfv kupd prior choice (match mgr with Some p => length (p_w p) | None => 0 end) mgr th
  /\ Simulated setp simc dist th d
  /\ (th' = th \/ exists c, setp th c = (false, th'))
  /\ match mgr with
     | None => w = Fin 1
     | Some p => exists c, w = ndiv (nmul (Fin 1) (pdfv th (snd (setp th c)))) (nsum (map (fun wr => nmul (fst wr) (kpdf p (snd wr) th)) (combine (p_w p) (p_rows p))))
     end.
(** iterations: m new particles join the retained ones; the threshold is the alpha-quantile of all distances; what is strictly below it
    is retained *)
Inductive ARun (n k : nat) (alpha : Q) : option (pop Theta) -> list (Theta * (num * num)) -> nat -> nat -> list num -> list (rec Theta) -> Prop :=
| ar_nil mgr old m count : ARun n k alpha mgr old m count [] []
| ar_step mgr old m count new r e es rs :
    length new = m -> 0 < m -> Forall (New mgr) new -> particles r = old ++ new ->
    length (r_ds r) = length (r_rows r) -> length (r_w r) = length (r_rows r) -> r_nsim r = count + m ->
    percentile (r_ds r) (alpha * 100) = Ok e ->
    ARun n k alpha (Some (as_pop (below e (particles r)))) (below e (particles r)) (n - k) (r_nsim r) es rs ->
    ARun n k alpha mgr old m count (e :: es) (r :: rs).
End Spec.
Arguments New {Theta Rng Y} setp pdfv kupd kpdf prior simc dist choice mgr x.
Arguments ARun {Theta Rng Y} setp pdfv kupd kpdf prior simc dist choice n k alpha _ _ _ _ _ _.
(** how many of the distances are at most e *)
Definition count_le (e : num) (ds : list num) : nat := length (filter (fun d => nle d e) ds).

(** the acceptance rate of an iteration: 1 for the first; then the fraction of new distances (those after the m retained ones) strictly
    below the threshold e of the iteration before *)
Definition rate {Theta} (prev : option (num * nat)) (r : rec Theta) : Q :=
  match prev with
  | None => 1
  | Some (e, m) => let new := skipn m (r_ds r) in inject_Z (Z.of_nat (length (filter (fun d => nlt d e) new))) / inject_Z (Z.of_nat (length new))
  end.
(** a run goes on while the rate is at least the cutoff; the Boolean says whether the last rate was below it *)
Inductive Stopping {Theta} (cutoff : Q) : option (num * nat) -> list num -> list (rec Theta) -> bool -> Prop :=
| st_last prev e r b : (b = true <-> rate prev r < cutoff)%Q -> Stopping cutoff prev [e] [r] b
| st_more prev e r es rs b : (cutoff <= rate prev r)%Q -> Stopping cutoff (Some (e, length (below e (particles r)))) es rs b -> Stopping cutoff prev (e :: es) (r :: rs) b.
