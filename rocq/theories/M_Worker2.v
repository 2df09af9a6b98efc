(** The workers of the other schemes of abcpy/inferences.py as programs of graph calls (see M_Worker). *)
From Coq Require Import Reals.
From Verif Require Import M_Base M_Num M_XReal M_Infer M_PMCABC M_RSMCABC M_SMCABC M_SABC M_Subsim M_PMC M_MCMC M_Worker.
Open Scope nat_scope.

(** ** Shared steps *)
(** simulate, then the distance, which of None is a TypeError *)
Definition w_sim {A} (c : Data -> prog A) : prog A := Simu (fun y => match y with None => Done (Err TypeError) | Some y => c y end).
(** both prior densities of a move, first the new one *)
Definition w_ratio {A} (th theta : Vec) (c : num -> num -> prog A) : prog A := Dens th (fun new_prob => Dens theta (fun old_prob => c new_prob old_prob)).

Section Pop.
Variable kupd : pop Vec -> nat -> nat -> nat * Vec.
Variable kupdL : pop Vec -> Vec -> nat -> nat * Vec.
Variable kpdf : pop Vec -> Vec -> Vec -> num.
Variable dist : Data -> num.
Variable dist1 : Data -> list num.
Variable dist_max : num.
Variable mkrng : Z -> nat.
Variable reseed : nat -> nat.
Variable choice : nat -> list num -> nat -> res (nat * nat).
Variable choiceU : nat -> nat -> res (nat * nat).
Variable choiceL : list nat -> nat -> res (nat * nat).
Variable bern : num -> nat -> res (nat * bool).
Variable rand : nat -> nat * num.
Variable nexp : num -> num.
(** RandomState(seed), reseeded *)
Definition w_seed {A} (seed : Z) (c : prog A) : prog A := Rand (fun _ => Ok (reseed (mkrng seed), tt)) (fun _ => c).

(* inferences.py:2759-2767 *)
Fixpoint w_rs_prior (eps : num) (fuel : nat) (d : num) (counter : nat) : prog (Vec * num * nat * nat) :=
  if nlt eps d then
    match fuel with
    | 0 => Done (Err OutOfFuel)
    | S f => Prior (w_sim (fun y => w_rs_prior eps f (dist y) (S counter)))
    end
  else Get (fun cur => Done (Ok (cur, d, 1, counter))).
(* inferences.py:2772-2795 *)
Fixpoint w_rs_moves (eps : num) (p : pop Vec) (dists : option (list num)) (i : nat) (theta : Vec) (fuel k : nat) (d : num) (acc counter : nat) : prog (Vec * num * nat * nat) :=
  match k with
  | 0 => Get (fun cur => Done (Ok (cur, d, acc, counter)))
  | S k' =>
      pbind (w_propose (pop Vec) kupd fuel p i) (fun th => w_sim (fun y => w_ratio th theta (fun new_prob old_prob =>
        let pa := min1 (nmul (ndiv new_prob old_prob) (ndiv (kpdf p th theta) (kpdf p theta th))) in
        let reject := match dists with
                      | None => Done (Err AttributeError)
                      | Some ds => match nth_error ds i with
                                   | None => Done (Err IndexError)
                                   | Some d' => Put theta (fun _ => w_rs_moves eps p dists i theta fuel k' d' acc (S counter))
                                   end
                      end in
        if nlt (dist y) eps then Rand (bern pa) (fun b : bool => if b then w_rs_moves eps p dists i theta fuel k' (dist y) (S acc) (S counter) else reject)
        else reject)))
  end.
(* inferences.py:2739-2797  RSMCABC._accept_parameter *)
Definition w_rsmcabc (eps : num) (R : Z) (mgr : option (pop Vec)) (dists : option (list num)) (fuel : nat) (seed : Z) : prog (Vec * num * nat * nat) :=
  w_seed seed
  (match mgr with
   | None => w_rs_prior eps fuel dist_max 0
   | Some p => Rand (choiceU (length (p_rows p))) (fun i =>
       match nth_error (p_rows p) i with
       | None => Done (Err IndexError)
       | Some theta => w_rs_moves eps p dists i theta fuel (Z.to_nat R) dist_max 0 0
       end)
   end).
(* inferences.py:3095-3149  APMCABC._accept_parameter *)
Definition w_apmcabc (mgr : option (pop Vec)) (fuel : nat) (seed : Z) : prog (Vec * num * num * nat) :=
  w_seed seed
  (match mgr with
   | None => Prior (w_sim (fun y => Get (fun th => Done (Ok (th, dist y, Fin 1, 1)))))
   | Some p => Rand (choice (length (p_w p)) (p_w p)) (fun i => pbind (w_propose (pop Vec) kupd fuel p i) (fun th => w_sim (fun y => Dens th (fun prior_prob =>
       let denominator := nsum (map (fun wr => nmul (fst wr) (kpdf p (snd wr) th)) (combine (p_w p) (p_rows p))) in
       Get (fun cur => Done (Ok (cur, dist y, ndiv (nmul (Fin 1) prior_prob) denominator, 1)))))))
   end).

(** ** SMCABC *)
Fixpoint w_until {A} (gen : prog (A * Data)) (eps : num) (want fuel : nat) (trials : list (A * Data)) : prog (list (A * Data)) :=
  match want with
  | 0 => Done (Ok trials)
  | S w => match fuel with
           | 0 => Done (Err OutOfFuel)
           | S f => pbind gen (fun x => w_until gen eps (if nlt (dist (snd x)) eps then w else want) f (trials ++ [x]))
           end
  end.
Definition w_sim1 {A} (a : A) : prog (A * Data) := w_sim (fun y => Done (Ok (a, y))).
(* inferences.py:3734-3808 *)
Definition w_move0 (eps : num) (p : pop Vec) (ys : option (list Data)) (fuel idx : nat) (theta : Vec) : prog (Vec * Data * nat) :=
  pbind (w_propose (pop Vec) kupd fuel p idx) (fun th => w_sim (fun y =>
    match ys with None => Done (Err AttributeError) | Some ys =>
    match nth_error ys idx with None => Done (Err IndexError) | Some y_old =>
      let numerator := length (filter (fun d => nlt d eps) (dist1 y)) in
      let denominator := length (filter (fun d => nlt d eps) (dist1 y_old)) in
      let ratio_data := if denominator =? 0 then Fin 1 else ndiv (ofnat numerator) (ofnat denominator) in
      w_ratio th theta (fun new_prob old_prob =>
        Rand (bern (min1 (nmul (nmul ratio_data (ndiv new_prob old_prob)) (ndiv (kpdf p th theta) (kpdf p theta th))))) (fun b : bool =>
          if b then Put th (fun _ => Get (fun c => Done (Ok (c, y, 1)))) else Put theta (fun _ => Get (fun c => Done (Ok (c, y_old, 1))))))
    end end)).
Definition w_keep (ys : option (list Data)) (idx counter : nat) (theta : Vec) : prog (Vec * Data * nat) :=
  match ys with None => Done (Err AttributeError) | Some ys =>
  match nth_error ys idx with None => Done (Err IndexError) | Some y => Put theta (fun _ => Get (fun c => Done (Ok (c, y, counter)))) end end.
(* inferences.py:3846-3900 *)
Definition w_move1 (hits : nat) (eps : num) (p : pop Vec) (ys : option (list Data)) (fuel idx : nat) (theta : Vec) : prog (Vec * Data * nat) :=
  Put theta (fun _ => pbind (w_until (w_sim1 tt) eps (hits - 1) fuel []) (fun old =>
    pbind (w_propose (pop Vec) kupd fuel p idx) (fun th => pbind (w_until (w_sim1 tt) eps hits fuel []) (fun new =>
      let counter := length old + length new in
      w_ratio th theta (fun new_prob old_prob =>
        if length new =? 1 then Done (Err ZeroDivisionError) else
        Rand (bern (min1 (nmul (nmul (ndiv (ofnat (length old)) (Fin (inject_Z (Z.of_nat (length new) - 1)))) (ndiv new_prob old_prob)) (ndiv (kpdf p th theta) (kpdf p theta th))))) (fun b : bool =>
          if b then Put th (fun _ => Rand (choiceL (removelast (hits_at Data dist eps new))) (fun J =>
            match nth_error new J with None => Done (Err IndexError) | Some (_, y) => Get (fun c => Done (Ok (c, y, counter))) end))
          else w_keep ys idx counter theta)))))).
Definition w_pert_sim {Pop} (up : Pop -> nat -> nat -> nat * Vec) (fuel : nat) (p : Pop) (idx : nat) : prog (Vec * Data) :=
  pbind (w_propose Pop up fuel p idx) w_sim1.
(* inferences.py:3951-4036 *)
Definition w_move2 (hits : nat) (eps : num) (p : pop Vec) (ys : option (list Data)) (fuel idx : nat) (theta : Vec) : prog (Vec * Data * nat) :=
  pbind (w_until (w_pert_sim kupd fuel p idx) eps hits fuel []) (fun primes =>
    Rand (choiceL (removelast (hits_at Data dist eps primes))) (fun L =>
      match nth_error primes L with
      | None => Done (Err IndexError)
      | Some (th, y) =>
          pbind (w_until (w_pert_sim (fun q (_ : nat) => kupdL (fst q) (snd q)) fuel (p, th) 0) eps (hits - 1) fuel []) (fun back =>
            let counter := length primes + length back in
            w_ratio th theta (fun new_prob old_prob =>
              if length primes =? 1 then Done (Err ZeroDivisionError) else
              Rand (bern (min1 (nmul (nmul (ndiv (ofnat (length back)) (Fin (inject_Z (Z.of_nat (length primes) - 1)))) (ndiv new_prob old_prob)) (ndiv (kpdf p th theta) (kpdf p theta th))))) (fun b : bool =>
                if b then Put th (fun _ => Get (fun c => Done (Ok (c, y, counter)))) else w_keep ys idx counter theta)))
      end)).
(* inferences.py:3734-4044  SMCABC._accept_parameter and its two r-hit versions *)
Definition w_smcabc (kernel hits : nat) (eps : num) (mgr : option (pop Vec)) (ys : option (list Data)) (fuel : nat) (seed_idx : Z * nat) : prog (Vec * Data * num * nat) :=
  let idx := snd seed_idx in
  w_seed (fst seed_idx)
  (pbind (match mgr with
          | None => Prior (w_sim (fun y => Get (fun th => Done (Ok (th, y, 1)))))
          | Some p =>
              match nth_error (p_w p) idx with None => Done (Err IndexError) | Some w =>
              match nth_error (p_rows p) idx with None => Done (Err IndexError) | Some theta =>
                if nlt (Fin 0) w then
                  match kernel with
                  | 0 => w_move0 eps p ys fuel idx theta
                  | 1 => w_move1 hits eps p ys fuel idx theta
                  | _ => w_move2 hits eps p ys fuel idx theta
                  end
                else w_keep ys idx 0 theta
              end end
          end) (fun x => let '(th, y, counter) := x in Done (Ok (th, y, dist y, counter)))).

(** ** SABC *)
(* inferences.py:1963-1977 *)
Fixpoint w_sa_prior (eps : num) (fuel : nat) (tried : list num) : prog (wres Vec) :=
  match fuel with
  | 0 => Done (Err OutOfFuel)
  | S f => Prior (Get (fun th => w_sim (fun y => Rand (bern (nexp (ndiv (nopp (dist y)) eps))) (fun b : bool =>
             if b then Done (Ok (mkw Vec th (dist y) (tried ++ [dist y]) 0 true (S (length tried)))) else w_sa_prior eps f (tried ++ [dist y])))))
  end.
(* inferences.py:1934-2006  SABC._accept_parameter *)
Definition w_sabc (n : nat) (eps : num) (mgr : option (pop Vec)) (all : option (list num)) (sm : list num) (fuel : nat) (seed : Z) : prog (wres Vec) :=
  w_seed seed
  (match mgr with
   | None => w_sa_prior eps fuel []
   | Some p => Rand (choiceU n) (fun i =>
       match nth_error (p_rows p) i with None => Done (Err IndexError) | Some theta =>
       pbind (w_propose (pop Vec) kupd fuel p i) (fun th => w_sim (fun y =>
         match all with None => Done (Err AttributeError) | Some [] => Done (Err ValueError) | Some all =>
         w_ratio th theta (fun new_prob old_prob =>
           match nth_error sm i with None => Done (Err IndexError) | Some s =>
           let acceptance_prob := nmul (ndiv new_prob old_prob) (nexp (ndiv (nsub s (smooth all (dist y))) eps)) in
           Rand (fun r => Ok (rand r)) (fun u => if nlt u acceptance_prob then Done (Ok (mkw Vec th (dist y) [] i true 1)) else Done (Ok (mkw Vec th PInf [] i false 1)))
           end)
         end))
       end)
   end).
End Pop.

(** ** ABCsubsim *)
Section Subsim.
Variable Cov : Type.
Variable kupd : kst Vec Cov -> nat -> nat -> nat * Vec.
Variable kpdf : kst Vec Cov -> Vec -> Vec -> num.
Variable dist : Data -> num.
Variable mkrng : Z -> nat.
Variable reseed : nat -> nat.
Variable bern : num -> nat -> res (nat * bool).
(* inferences.py:2361-2391, 2417-2437 *)
Fixpoint w_chain (ann : num) (p : option (kst Vec Cov)) (i fuel k : nat) (theta : Vec) (d : num) (acc : list (bool * Vec * num)) : prog (list (bool * Vec * num)) :=
  match k with
  | 0 => Done (Ok acc)
  | S k' =>
      match p with None => Done (Err AttributeError) | Some q =>
      pbind (w_propose (kst Vec Cov) kupd fuel q i) (fun th => w_sim (fun y => w_ratio th theta (fun new_prob old_prob =>
        Rand (bern (nmul (min1 (nmul (ndiv new_prob old_prob) (ndiv (kpdf q th theta) (kpdf q theta th)))) (if nlt (dist y) ann then Fin 1 else Fin 0))) (fun b : bool =>
          if b then w_chain ann p i fuel k' th (dist y) (acc ++ [(true, th, dist y)]) else w_chain ann p i fuel k' theta d (acc ++ [(false, theta, d)])))))
      end
  end.
(* inferences.py:2309-2392  ABCsubsim._accept_parameter *)
Definition w_subsim (cl : nat) (ann : num) (bds : option (list Vec)) (p : option (kst Vec Cov)) (fuel : nat) (seed_idx : Z * nat) : prog (list (Vec * num) * nat) :=
  w_seed mkrng reseed (fst seed_idx)
  (match bds with
   | None => Prior (Get (fun th => w_sim (fun y => Done (Ok ([(th, dist y)], 1)))))
   | Some rows =>
       match nth_error rows (snd seed_idx) with
       | None => Done (Err IndexError)
       | Some theta => Put theta (fun _ => w_sim (fun y =>
           pbind (w_chain ann p (snd seed_idx) fuel (cl - 1) theta (dist y) []) (fun l =>
             Done (Ok ((theta, dist y) :: map (fun x => (snd (fst x), snd x)) l, S (cl - 1))))))
       end
   end).
(* inferences.py:2394-2443  ABCsubsim._update_cov_mat *)
Definition w_cov_try (cl : nat) (ann : num) (bds : list Vec) (p : kst Vec Cov) (fuel : nat) (seed : Z) : prog nat :=
  match bds with
  | [] => Done (Err IndexError)
  | theta :: _ => w_seed mkrng reseed seed (pbind (w_chain ann (Some p) 0 fuel cl theta NaN []) (fun l => Done (Ok (length (filter (fun x => fst (fst x)) l)))))
  end.
End Subsim.

(** ** PMC *)
Section PMC.
Variable kpdf : wpop Vec -> Vec -> Vec -> xr.
Variable loglik : Data -> xr.
Variable mkrng : Z -> nat.
(* inferences.py:1390-1429  PMC._approx_log_lik_calc *)
Definition w_log_lik (th : Vec) (seed : Z) : prog xr :=
  Rand (fun _ => Ok (mkrng seed, tt)) (fun _ => Put th (fun _ => w_sim (fun y => Dens th (fun v => Done (Ok (xadd (xlog (toX v)) (loglik y))))))).
(* inferences.py:1431-1463  PMC._calculate_weight *)
Definition w_pm_weight (n : nat) (p : wpop Vec) (th : Vec) : prog xr :=
  Dens th (fun prior_prob =>
    if length (wp_rows p) <? n then Done (Err IndexError)
    else if negb (length (wp_w p) =? n) then Done (Err ValueError)
    else let denominator := xsum (map (fun wr => xmul (fst wr) (kpdf p (snd wr) th)) (combine (wp_w p) (firstn n (wp_rows p)))) in
         Done (Ok (xdiv (xmul (XR 1%R) (toX prior_prob)) denominator))).
End PMC.

(** ** MCMCMetropoliHastings: the whole of sample() as a program *)
Section MCMC.
Variables F Cov : Type.
Variables fadd fsub fmul fdiv : F -> F -> F.
Variable fexp : F -> F.
Variable flt : F -> F -> bool.
Variable fzero : F -> bool.
Variable fof : num -> F.
Variable kupd : Vec -> Cov -> nat -> nat * Vec.
Variable loglik : Data -> F.
Variable tr : Vec -> res Vec.
Variable inv : Vec -> Vec.
Variable ldj : Vec -> res F.
Variable unif : nat -> nat * F.
Variable eye : Vec -> Cov.
Variable adapt : list Vec -> Cov.
(** the local variables of the loop *)
Record wchain := mkwc { wc_pt : pt Vec F; wc_acc : nat; wc_sims : nat; wc_cov : Cov; wc_burn : list Vec; wc_trace : list Vec }.
(* inferences.py:4509-4560 *)
Definition w_sim_ll (th : Vec) : prog F := Put th (fun _ => w_sim (fun y => Done (Ok (loglik y)))).
(* inferences.py:4347-4433 *)
Definition w_mh_step (burnin : nat) (interval : option nat) (aStep : nat) (c : wchain) : prog wchain :=
  let s := wc_pt c in
  Rand (fun r => Ok (kupd (q_tr _ _ s) (wc_cov c) r)) (fun y =>
    let th := inv y in
    Dens th (fun v =>
      let pdf := fof v in
      let after := burnin <=? aStep in
      if fzero pdf then
        Done (Ok (mkwc s (wc_acc c) (wc_sims c) (wc_cov c) (if after then wc_burn c else wc_burn c ++ [q_th _ _ s]) (if after then wc_trace c ++ [q_th _ _ s] else wc_trace c)))
      else
        pbind (w_sim_ll th) (fun ll =>
          match ldj th with Err e => Done (Err e) | Ok j =>
          let s' := mkpt _ _ th y ll pdf j in
          Rand (fun r => Ok (unif r)) (fun u =>
            let ok := flt u (alpha Vec F fadd fsub fmul fdiv fexp s s') in
            let t := if ok then s' else s in
            let acc := if ok && after then S (wc_acc c) else wc_acc c in
            if after then Done (Ok (mkwc t acc (S (wc_sims c)) (wc_cov c) (wc_burn c) (wc_trace c ++ [q_th _ _ t])))
            else let burn := wc_burn c ++ [q_th _ _ t] in
                 match interval with
                 | None => Done (Ok (mkwc t acc (S (wc_sims c)) (wc_cov c) burn (wc_trace c)))
                 | Some 0 => Done (Err ZeroDivisionError)
                 | Some k => Done (Ok (mkwc t acc (S (wc_sims c)) (if (aStep + 1) mod k =? 0 then adapt burn else wc_cov c) burn (wc_trace c)))
                 end)
          end))).
Fixpoint w_mh_loop (burnin : nat) (interval : option nat) (aStep todo : nat) (c : wchain) : prog wchain :=
  match todo with
  | 0 => Done (Ok c)
  | S k => pbind (w_mh_step burnin interval aStep c) (w_mh_loop burnin interval (S aStep) k)
  end.
(* inferences.py:4260-4343 and 4435-4459 *)
Definition w_mh_first (ini : option Vec) (c : Vec -> prog (mjournal Vec F Cov)) : prog (mjournal Vec F Cov) :=
  match ini with None => Prior (Get c) | Some th => c th end.
Definition w_mh_run (n burnin : nat) (interval : option nat) (journal : option (mjournal Vec F Cov)) (th : Vec) (burn : list Vec) (ll : F) (ns : nat) (rate0 : Q) (covs : option Cov) (total : nat)
    : prog (mjournal Vec F Cov) :=
  Dens th (fun v =>
    match tr th with Err e => Done (Err e) | Ok y =>
    match ldj th with Err e => Done (Err e) | Ok jd =>
    let m := match covs with Some m => m | None => eye y end in
    pbind (w_mh_loop burnin interval 0 (burnin + n) (mkwc (mkpt _ _ th y ll (fof v) jd) 0 ns m burn [])) (fun c =>
      if total =? 0 then Done (Err ZeroDivisionError) else
      let rate := ((rate0 + inject_Z (Z.of_nat (wc_acc c))) / inject_Z (Z.of_nat total))%Q in
      let old := match journal with None => ([], [], []) | Some j => (j_params j, j_rates j, j_nsims j) end in
      Done (Ok (mkmj (fst (fst old) ++ wc_trace c) total (snd (fst old) ++ [rate]) (snd old ++ [wc_sims c]) (q_ll _ _ (wc_pt c)) (wc_cov c) total)))
    end end).
Definition w_mh_sample (n burnin : nat) (cov : option Cov) (ini : option Vec) (interval : option nat) (journal : option (mjournal Vec F Cov)) (count0 : nat) : prog (mjournal Vec F Cov) :=
  match journal with
  | None => w_mh_first ini (fun th => pbind (w_sim_ll th) (fun ll => w_mh_run n burnin interval journal th (if burnin =? 0 then [th] else []) ll (S count0) 0%Q cov n))
  | Some j =>
      match last_opt (j_rates j), last_opt (j_params j), last_opt (j_nsims j) with
      | Some rate, Some th, Some ns => w_mh_run n burnin interval journal th [] (j_ll j) ns (rate * inject_Z (Z.of_nat (j_n j)))%Q (Some (match cov with None => j_cov j | Some m => m end)) (j_n j + n)
      | _, _, _ => Done (Err IndexError)
      end
  end.
End MCMC.
