(** What a run of SABC is. *)
From Verif Require Import M_Base M_Num M_Infer M_PMCABC M_RSMCABC M_SMCABC M_SABC S_PMCABC.

(** the value of distance d on the scale of the distances [all]: the fraction of them below d; below all of them, d relative to the
    smallest, on a scale where the smallest would be 1/length *)
Definition Smooth (all : list num) (d s : num) : Prop :=
  exists m, In m all /\ (forall x, In x all -> nle m x = true)
  /\ s = (if nlt d m then ndiv (ndiv d m) (ofnat (length all)) else ndiv (ofnat (length (filter (fun o => nlt o d) all))) (ofnat (length all))).

Section Spec.
Variables Theta Rng Y : Type.
Variable setp : Theta -> Theta -> bool * Theta.
Variable pdfv : Theta -> Theta -> num.
Variable kupd : pop Theta -> nat -> Rng -> Rng * Theta.
Variable prior : Rng -> Rng * Theta.
Variable simc : Theta -> Rng -> Rng * option Y.
Variable dist : Y -> num.
Variable choiceU : nat -> Rng -> res (Rng * nat).
Variable bern : num -> Rng -> res (Rng * bool).
Variable rand : Rng -> Rng * num.
Variable nexp : num -> num.
Variable fsolve : num -> num.
Variables n n_update resample : nat.
Variables delta cutoff : num.
Variable resamp : nat -> list num -> res (list nat).

(** a first particle: drawn from the prior until one is accepted with probability exp(-distance / epsilon); [tried] are the distances of
    all its draws, the last one being accepted *)
Inductive First (eps : num) : Theta -> num -> list num -> Prop :=
| fi_acc th d r r' r1 r2 : prior r = (r', th) -> Simulated setp simc dist th d -> bern (nexp (ndiv (nopp d) eps)) r1 = Ok (r2, true) -> First eps th d [d]
| fi_rej th0 d0 th d tried r r' r1 r2 : prior r = (r', th0) -> Simulated setp simc dist th0 d0 -> bern (nexp (ndiv (nopp d0) eps)) r1 = Ok (r2, false) ->
    First eps th d tried -> First eps th d (d0 :: tried).
(** a candidate for member i of the population: a perturbation of it with positive prior density, accepted when a uniform number is below
    prior ratio times exp((smoothed old distance - smoothed new distance) / epsilon) *)
Definition Cand (all : list num) (p : pop Theta) (ds : list num) (eps : num) (i : nat) (th : Theta) (d : num) (b : bool) : Prop :=
  exists theta di r0 r1 r2 r3 r4 r5 u c c1 c2, choiceU n r0 = Ok (r1, i) /\ nth_error (p_rows p) i = Some theta /\ nth_error ds i = Some di
  /\ kupd p i r2 = (r3, th) /\ neqb (pdfv th c) (Fin 0) = false /\ Simulated setp simc dist th d /\ rand r4 = (r5, u)
  /\ b = nlt u (nmul (ndiv (pdfv th (snd (setp th c1))) (pdfv theta (snd (setp theta c2)))) (nexp (ndiv (nsub (smooth all di) (smooth all d)) eps))).
(** the last accepted candidate for member i *)
Definition latest {A} (i : nat) (cands : list (nat * A * bool)) : option A :=
  option_map (fun c => snd (fst c)) (nth_error (rev (filter (fun c => snd c && (fst (fst c) =? i)) cands)) 0).
(** member i is replaced by the last accepted candidate for it, if there is one *)
Definition Replaced {A} (old : list A) (cands : list (nat * A * bool)) (new : list A) : Prop :=
  length new = length old /\ forall i x, nth_error old i = Some x -> nth_error new i = Some (match latest i cands with Some y => y | None => x end).
Definition accepted {A} (cands : list (nat * A * bool)) : nat := length (filter (fun c => snd c) cands).
(** epsilon belonging to a population: 0 if the mean smoothed distance is negligible *)
Definition Eps (all ds : list num) (eps : num) : Prop := let U := nmean (map (smooth all) ds) in eps = (if nlt U tiny then Fin 0 else fsolve U).
(** iterations after the first, starting with iteration t, from a population with distances [ds], the current epsilon, and the numbers of
    accepted and proposed moves since the last resampling; the Boolean says whether the last iteration was abandoned because of its
    acceptance rate *)
Inductive SRun (all : list num) : nat -> list (Theta * num) -> num -> nat -> nat -> nat -> list (rec Theta) -> list num -> bool -> Prop :=
| sr_end t pop eps acc until count : SRun all t pop eps acc until count [] [] false
| sr_stop t pop eps acc until count cands :
    length cands = n_update -> 0 < n_update ->
    Forall (fun c => Cand all (mkpop (map fst pop) (repeat (Fin 1) n)) (map snd pop) eps (fst (fst c)) (fst (snd (fst c))) (snd (snd (fst c))) (snd c)) cands ->
    nlt (ndiv (ofnat (acc + accepted cands)) (ofnat (until + n_update))) cutoff = true ->
    SRun all t pop eps acc until count [] [] true
| sr_step t pop eps acc until count cands pop1 pop2 acc2 until2 r eps2 rs es b :
    length cands = n_update -> 0 < n_update ->
    Forall (fun c => Cand all (mkpop (map fst pop) (repeat (Fin 1) n)) (map snd pop) eps (fst (fst c)) (fst (snd (fst c))) (snd (snd (fst c))) (snd c)) cands ->
    Replaced pop cands pop1 ->
    nlt (ndiv (ofnat (acc + accepted cands)) (ofnat (until + n_update))) cutoff = false ->
    (let sm := map (smooth all) (map snd pop1) in let U := nmean sm in
     ((acc + accepted cands < resample \/ nlt tiny U = false) /\ pop2 = pop1 /\ acc2 = acc + accepted cands /\ until2 = until + n_update)
     \/ (resample <= acc + accepted cands /\ nlt tiny U = true /\ acc2 = 0 /\ until2 = 0
         /\ exists idx, resamp t (normalise (map (fun s => nexp (ndiv (nmul (nopp s) delta) U)) sm)) = Ok idx
                        /\ Forall2 (fun i x => nth_error pop1 i = Some x) idx pop2)) ->
    r = mkrec (map fst pop2) (map snd pop2) (repeat (Fin 1) n) (count + n_update) -> Eps all (map snd pop2) eps2 ->
    SRun all (S t) pop2 eps2 acc2 until2 (count + n_update) rs es b ->
    SRun all t pop eps acc until count (r :: rs) (eps2 :: es) b.
(** the first iteration: n particles, [all] all distances tried; U is the mean of all smoothed distances weighted with exp(-s / epsilon) *)
Definition SFirst (eps : num) (count : nat) (all : list num) (pop : list (Theta * num)) (r : rec Theta) (eps1 : num) : Prop :=
  exists tried first U, length first = n /\ 0 < n /\ length tried = n
  /\ (forall i x l, nth_error first i = Some x -> nth_error tried i = Some l -> First eps (fst x) (snd x) l) /\ all = concat tried
  /\ (neqb eps (Fin 0) = true /\ U = Fin 0
      \/ neqb eps (Fin 0) = false /\ (let ws := map (fun d => nexp (ndiv (nopp (smooth all d)) eps)) all in
           neqb (nsum ws) (Fin 0) = false /\ U = ndiv (nsum (map (fun dw => nmul (smooth all (fst dw)) (snd dw)) (combine all ws))) (nsum ws)))
  /\ ((0 < resample \/ nlt tiny U = false) /\ pop = first /\ eps1 = (if nlt U tiny then Fin 0 else fsolve U)
      \/ resample = 0 /\ nlt tiny U = true /\ Eps all (map snd pop) eps1
         /\ exists idx, resamp 0 (normalise (map (fun s => nexp (ndiv (nmul (nopp s) delta) U)) (map (smooth all) (map snd first)))) = Ok idx
                        /\ Forall2 (fun i x => nth_error first i = Some x) idx pop)
  /\ r = mkrec (map fst pop) (map snd pop) (repeat (Fin 1) n) (count + length all).
End Spec.
Arguments First {Theta Rng Y} setp prior simc dist bern nexp eps _ _ _.
Arguments Cand {Theta Rng Y} setp pdfv kupd simc dist choiceU rand nexp n all p ds eps i th d b.
Arguments Eps fsolve all ds eps : clear implicits.
Arguments SRun {Theta Rng Y} setp pdfv kupd simc dist choiceU rand nexp fsolve n n_update resample delta cutoff resamp all _ _ _ _ _ _ _ _ _.
Arguments SFirst {Theta Rng Y} setp prior simc dist bern nexp fsolve n resample delta resamp eps count all pop r eps1.
