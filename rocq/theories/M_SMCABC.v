(** Model of abcpy/inferences.py, class SMCABC (3178-4070). *)
From Verif Require Import M_Base M_Num M_Infer M_PMCABC M_RSMCABC.
From Coq Require Import Qround.

Definition Qltb (a b : Q) : bool := negb (Qle_bool b a).

(* inferences.py:3705-3721  _bisection; the cache around func is transparent (C47).  Midpoints are exact (Qred only shortens the
   representation). *)
Fixpoint bisect (f : Q -> num) (fuel : nat) (low high tol : Q) : res Q :=
  let midpoint := Qred ((low + high) / 2) in
  if Qltb tol ((high - low) / 2) then
    match fuel with
    | 0 => Err OutOfFuel
    | S k => if neqb (f midpoint) (Fin 0) then Ok midpoint
             else if nlt (nmul (f low) (f midpoint)) (Fin 0) then bisect f k low midpoint tol
             else bisect f k midpoint high tol
    end
  else Ok midpoint.
(** enough iterations for the interval to become short *)
Definition bisect_fuel (low high tol : Q) : nat := Z.to_nat (Qceiling ((high - low) / (2 * tol))).

(** np.sum(row < e) *)
Definition n_below (e : Q) (row : list num) : nat := length (filter (fun d => nlt d (Fin e)) row).
Definition ofnat (n : nat) : num := Fin (inject_Z (Z.of_nat n)).
(* inferences.py:3477-3485 and 3648-3653: w_i * (numerator_i / denominator_i), 0 where the denominator is 0 *)
Definition dm_weights (e_new e_old : Q) (w : list num) (dm : list (list num)) : list num :=
  map (fun wr => let den := n_below e_old (snd wr) in
                 if den =? 0 then Fin 0 else nmul (fst wr) (ndiv (ofnat (n_below e_new (snd wr))) (ofnat den))) (combine w dm).
(** pow(sum(pow(w, 2)), -1) *)
Definition ess (w : list num) : num := ndiv (Fin 1) (nsum (map (fun x => nmul x x) w)).
(* inferences.py:3596-3664  _def_compute_epsilon *)
Definition eps_del (w : list num) (dm : list (list num)) (alpha e_old e_new : Q) : num :=
  let RHS := nmul (Fin alpha) (ess w) in
  let LHS := dm_weights e_new e_old w dm in
  if neqb (nsum LHS) (Fin 0) then RHS else nsub RHS (ess (normalise LHS)).
(* inferences.py:3476, 3694  (distances < e) * 1 *)
Definition ind_weights (e : Q) (ds : list num) : list num := map (fun d => if nlt d (Fin e) then Fin 1 else Fin 0) ds.
(* inferences.py:3666-3703; [uniq p] = len(np.unique(RandomState(1).choice(n, n, p=p))) *)
Definition eps_ber (uniq : list num -> nat) (n : nat) (ds : list num) (alpha e_new : Q) : num :=
  let nw := ind_weights e_new ds in
  if neqb (nsum nw) (Fin 0) then Fin (- alpha)
  else nsub (ndiv (ofnat (uniq (normalise nw))) (ofnat n)) (Fin alpha).

Section SMC.
Variables Theta Rng Y : Type.
Variable setp : Theta -> Theta -> bool * Theta.
Variable pdfv : Theta -> Theta -> num.
Variable kupd : pop Theta -> nat -> Rng -> Rng * Theta.
(** a perturbation of the given parameters with the covariances of the population (the inner manager of 3978-4002) *)
Variable kupdL : pop Theta -> Theta -> Rng -> Rng * Theta.
Variable kpdf : pop Theta -> Theta -> Theta -> num.
Variable prior : Rng -> Rng * Theta.
Variable simc : Theta -> Rng -> Rng * option Y.
(** distance of a simulated data set, and of each of its n_samples_per_param data points on its own (3578-3588, 3772-3780) *)
Variable dist : Y -> num.
Variable dist1 : Y -> list num.
Variable mkrng : Z -> Rng.
Variable reseed : Rng -> Rng.
(** rng.binomial(1, p) == 1; rng.choice(list) *)
Variable bern : num -> Rng -> res (Rng * bool).
Variable choiceL : list nat -> Rng -> res (Rng * nat).

(** repeated generation of (x, data set) until [want] data sets are closer than eps; all trials in order *)
Fixpoint until_hits {A} (gen : Theta -> Rng -> res (Theta * Rng * (A * Y))) (eps : num) (want fuel : nat) (cur : Theta) (r : Rng) (trials : list (A * Y))
    : res (Theta * Rng * list (A * Y)) :=
  match want with
  | 0 => Ok (cur, r, trials)
  | S w => match fuel with
           | 0 => Err OutOfFuel
           | S f => match gen cur r with
                    | Err e => Err e
                    | Ok (cur', r', x) => until_hits gen eps (if nlt (dist (snd x)) eps then w else want) f cur' r' (trials ++ [x])
                    end
           end
  end.
(** the positions of the hits *)
Definition hits_at {A} (eps : num) (trials : list (A * Y)) : list nat :=
  map fst (filter (fun ix => nlt (dist (snd (snd ix))) eps) (combine (seq 0 (length trials)) trials)).
(** simulate from the parameters in the graph; distance(observations, None) is a TypeError *)
Definition sim1 {A} (a : A) (cur : Theta) (r : Rng) : res (Theta * Rng * (A * Y)) :=
  let '(r', y) := simc cur r in match y with None => Err TypeError | Some y => Ok (cur, r', (a, y)) end.
(** ratio of prior densities times ratio of kernel densities; the graph is left with theta *)
Definition ratios (p : pop Theta) (th theta : Theta) (cur : Theta) : num * num * Theta :=
  let '(new_prob, cur1) := pdf_of_prior Theta setp pdfv th cur in
  let '(old_prob, cur2) := pdf_of_prior Theta setp pdfv theta cur1 in
  (ndiv new_prob old_prob, ndiv (kpdf p th theta) (kpdf p theta th), cur2).

(* inferences.py:3734-3808  _accept_parameter; result: get_parameters, y_sim, distance, counter, graph *)
Definition move0 (eps : num) (p : pop Theta) (ys : option (list Y)) (fuel idx : nat) (theta : Theta) (cur : Theta) (r : Rng) : res (Theta * Y * nat * Theta) :=
  match propose Theta Rng (pop Theta) setp kupd pdfv fuel p idx cur r with
  | Err e => Err e
  | Ok (cur1, r1, th) =>
      match sim1 tt cur1 r1 with
      | Err e => Err e
      | Ok (_, r2, (_, y)) =>
          match ys with None => Err AttributeError | Some ys =>
          match nth_error ys idx with None => Err IndexError | Some y_old =>
            let numerator := length (filter (fun d => nlt d eps) (dist1 y)) in
            let denominator := length (filter (fun d => nlt d eps) (dist1 y_old)) in
            let ratio_data := if denominator =? 0 then Fin 1 else ndiv (ofnat numerator) (ofnat denominator) in
            let '(rp, rk, cur2) := ratios p th theta cur1 in
            match bern (min1 (nmul (nmul ratio_data rp) rk)) r2 with
            | Err e => Err e
            | Ok (_, true) => let c := snd (setp th cur2) in Ok (c, y, 1, c)
            | Ok (_, false) => let c := snd (setp theta cur2) in Ok (c, y_old, 1, c)
            end
          end end
      end
  end.
(** the rejection branch of the r-hit kernels *)
Definition keep (ys : option (list Y)) (idx counter : nat) (theta cur : Theta) : res (Theta * Y * nat * Theta) :=
  match ys with None => Err AttributeError | Some ys =>
  match nth_error ys idx with None => Err IndexError | Some y => let c := snd (setp theta cur) in Ok (c, y, counter, c) end end.
(* inferences.py:3846-3900; Python's N_old / (N - 1) raises on N = 1 *)
Definition move1 (hits : nat) (eps : num) (p : pop Theta) (ys : option (list Y)) (fuel idx : nat) (theta : Theta) (cur : Theta) (r : Rng) : res (Theta * Y * nat * Theta) :=
  match until_hits (sim1 tt) eps (hits - 1) fuel (snd (setp theta cur)) r [] with
  | Err e => Err e
  | Ok (cur1, r1, old) =>
      match propose Theta Rng (pop Theta) setp kupd pdfv fuel p idx cur1 r1 with
      | Err e => Err e
      | Ok (cur2, r2, th) =>
          match until_hits (sim1 tt) eps hits fuel cur2 r2 [] with
          | Err e => Err e
          | Ok (cur3, r3, new) =>
              let counter := length old + length new in
              let '(rp, rk, cur4) := ratios p th theta cur3 in
              if length new =? 1 then Err ZeroDivisionError else
              match bern (min1 (nmul (nmul (ndiv (ofnat (length old)) (Fin (inject_Z (Z.of_nat (length new) - 1)))) rp) rk)) r3 with
              | Err e => Err e
              | Ok (r4, true) =>
                  let c := snd (setp th cur4) in
                  match choiceL (removelast (hits_at eps new)) r4 with
                  | Err e => Err e
                  | Ok (_, J) => match nth_error new J with None => Err IndexError | Some (_, y) => Ok (c, y, counter, c) end
                  end
              | Ok (_, false) => keep ys idx counter theta cur4
              end
          end
      end
  end.
(** perturb and simulate *)
Definition pert_sim {Pop} (up : Pop -> nat -> Rng -> Rng * Theta) (fuel : nat) (p : Pop) (idx : nat) (cur : Theta) (r : Rng) : res (Theta * Rng * (Theta * Y)) :=
  match propose Theta Rng Pop setp up pdfv fuel p idx cur r with
  | Err e => Err e
  | Ok (cur1, r1, th) => sim1 th cur1 r1
  end.
(* inferences.py:3951-4036 *)
Definition move2 (hits : nat) (eps : num) (p : pop Theta) (ys : option (list Y)) (fuel idx : nat) (theta : Theta) (cur : Theta) (r : Rng) : res (Theta * Y * nat * Theta) :=
  match until_hits (pert_sim kupd fuel p idx) eps hits fuel cur r [] with
  | Err e => Err e
  | Ok (cur1, r1, primes) =>
      match choiceL (removelast (hits_at eps primes)) r1 with
      | Err e => Err e
      | Ok (r2, L) =>
          match nth_error primes L with
          | None => Err IndexError
          | Some (th, y) =>
              match until_hits (pert_sim (fun q (_ : nat) => kupdL (fst q) (snd q)) fuel (p, th) 0) eps (hits - 1) fuel cur1 r2 [] with
              | Err e => Err e
              | Ok (cur2, r3, back) =>
                  let counter := length primes + length back in
                  let '(rp, rk, cur3) := ratios p th theta cur2 in
                  if length primes =? 1 then Err ZeroDivisionError else
                  match bern (min1 (nmul (nmul (ndiv (ofnat (length back)) (Fin (inject_Z (Z.of_nat (length primes) - 1)))) rp) rk)) r3 with
                  | Err e => Err e
                  | Ok (_, true) => let c := snd (setp th cur3) in Ok (c, y, counter, c)
                  | Ok (_, false) => keep ys idx counter theta cur3
                  end
              end
          end
      end
  end.
(* inferences.py:3734-4044, the frame common to the three kernels *)
Definition sm_accept (kernel hits : nat) (eps : num) (mgr : option (pop Theta)) (ys : option (list Y)) (fuel : nat) (seed_idx : Z * nat) (cur : Theta)
    : res (Theta * Y * num * nat * Theta) :=
  let r := reseed (mkrng (fst seed_idx)) in
  let idx := snd seed_idx in
  match (match mgr with
         | None => let '(r1, th) := prior r in
                   match sim1 tt th r1 with Err e => Err e | Ok (_, _, (_, y)) => Ok (th, y, 1, th) end
         | Some p =>
             match nth_error (p_w p) idx with None => Err IndexError | Some w =>
             match nth_error (p_rows p) idx with None => Err IndexError | Some theta =>
               if nlt (Fin 0) w then
                 match kernel with
                 | 0 => move0 eps p ys fuel idx theta cur r
                 | 1 => move1 hits eps p ys fuel idx theta cur r
                 | _ => move2 hits eps p ys fuel idx theta cur r
                 end
               else keep ys idx 0 theta cur
             end end
         end) with
  | Err e => Err e
  | Ok (th, y, counter, c) => Ok (th, y, dist y, counter, c)
  end.

(** one iteration as recorded, with the stored simulations *)
Definition srec := (rec Theta * list Y)%type.
Record sstate := mksst { m_eps : list Q; m_rows : option (list Theta); m_w : list num; m_ys : option (list Y); m_ds : option (list num); m_mgr : option (pop Theta);
                         m_count : nat; m_cur : Theta; m_hist : list srec; m_recs : list srec; m_conf : option (list Q) }.

Variable uniq : list num -> nat.
(** self.rng.choice(n, n, p=w) in iteration t *)
Variable draw : nat -> nat -> list num -> res (list nat).

Fixpoint pick {A} (l : list A) (idx : list nat) : res (list A) :=
  match idx with
  | [] => Ok []
  | i :: idx' => match nth_error l i with
                 | None => Err IndexError
                 | Some x => match pick l idx' with Err e => Err e | Ok xs => Ok (x :: xs) end
                 end
  end.
(* inferences.py:3440-3491  threshold and weights from the previous iteration *)
Definition sm_reweight (bernton : bool) (n : nat) (alpha efinal e : Q) (w ds : list num) (ys : list Y) : res (Q * list num) :=
  if bernton then
    if negb (length ds =? n) then Err ValueError else
    match bisect (eps_ber uniq n ds alpha) (bisect_fuel efinal e (1 # 1000)) efinal e (1 # 1000) with
    | Err x => Err x
    | Ok e1 => let e' := if Qltb e1 efinal then efinal else e1 in Ok (e', normalise (ind_weights e' ds))
    end
  else
    if (length ys <? n) || negb (length w =? n) then Err IndexError else
    let dm := map dist1 (firstn n ys) in
    match bisect (eps_del w dm alpha e) (bisect_fuel efinal e (1 # 1000)) efinal e (1 # 1000) with
    | Err x => Err x
    | Ok e1 => let e' := if Qltb e1 efinal then efinal else e1 in Ok (e', normalise (dm_weights e' e w dm))
    end.
(* inferences.py:3440-3575  one iteration *)
Definition sm_step (bernton : bool) (kernel hits n steps : nat) (alpha efinal resample : Q) (full_output fuel aStep : nat) (seed : nat -> Z) (s : sstate) : res sstate :=
  match rev (m_eps s) with
  | [] => Err IndexError
  | e :: _ =>
    match (match m_ds s with
           | None => Ok (m_eps s, e, ones n, m_rows s)
           | Some ds =>
               match m_ys s, m_rows s with
               | Some ys, Some rows =>
                   match sm_reweight bernton n alpha efinal e (m_w s) ds ys with
                   | Err x => Err x
                   | Ok (e', nw) =>
                       if bernton || nlt (ess nw) (Fin resample) then
                         match draw aStep n nw with
                         | Err x => Err x
                         | Ok idx => match pick rows idx with Err x => Err x | Ok rows' => Ok (m_eps s ++ [e'], e', ones n, Some rows') end
                         end
                       else Ok (m_eps s ++ [e'], e', nw, Some rows)
                   end
               | _, _ => Err TypeError
               end
           end) with
    | Err x => Err x
    | Ok (epsilon, eps, w, rows) =>
      let mgr := match rows with Some rows => Some (mkpop rows w) | None => match m_mgr s with Some p => Some (mkpop (p_rows p) w) | None => None end end in
      match mapT (fun si c => match sm_accept kernel hits (Fin eps) mgr (m_ys s) fuel si c with Err e => Err e | Ok (th, y, d, cnt, c') => Ok ((th, y, d, cnt), c') end)
                 (combine (seeds_of seed n) (seq 0 n)) (m_cur s) with
      | Err x => Err x
      | Ok ([], _) => Err ValueError
      | Ok (results, cur1) =>
        let rows' := map (fun x => fst (fst (fst x))) results in
        let ys' := map (fun x => snd (fst (fst x))) results in
        let ds' := map (fun x => snd (fst x)) results in
        let count := fold_left (fun a x => a + snd x) results (m_count s) in
        let r := (mkrec rows' ds' w count, ys') in
        let recorded := ((full_output =? 1) && (aStep <=? steps - 1)) || ((full_output =? 0) && (aStep =? steps - 1)) in
        Ok (mksst epsilon (Some rows') w (Some ys') (Some ds') (if recorded then Some (mkpop rows' w) else mgr) count cur1 (m_hist s ++ [r])
              (if recorded then m_recs s ++ [r] else m_recs s) (Some epsilon))
      end
    end
  end.
(* inferences.py:3407-3576; break as soon as the last threshold is at most epsilon_final *)
Fixpoint sm_iterate (bernton : bool) (kernel hits n steps : nat) (alpha efinal resample : Q) (full_output fuel aStep todo : nat) (seed : nat -> nat -> Z) (s : sstate) : res sstate :=
  match todo with
  | 0 => Ok s
  | S todo' =>
      match rev (m_eps s) with
      | [] => Err IndexError
      | e :: _ =>
          if Qle_bool e efinal then Ok s else
          match sm_step bernton kernel hits n steps alpha efinal resample full_output fuel aStep (seed aStep) s with
          | Err x => Err x
          | Ok s' => sm_iterate bernton kernel hits n steps alpha efinal resample full_output fuel (S aStep) todo' seed s'
          end
      end
  end.
(* inferences.py:3365-3405, 3411-3424.  [eps0]: dist_max, or 1e5 when that is infinite.  [journal]: last population, weights, distances,
   simulations and epsilon_arr of the journal.  [mgr0], [ys0]: what an earlier call of sample left broadcast (the kernel's own copy of
   that population is taken to be the same). *)
Definition sm_sample (bernton : bool) (kernel hits n steps : nat) (alpha efinal resample : Q) (full_output fuel : nat) (eps0 : Q)
    (journal : option (list Theta * list num * list num * option (list Y) * list Q)) (seed : nat -> nat -> Z) (mgr0 : option (pop Theta)) (ys0 : option (list Y))
    (cur0 : Theta) (count0 : nat) : res sstate :=
  if negb (kernel <=? 2) then Err NotImplementedError else
  if bernton && (kernel =? 0) then Err RuntimeError else
  match journal, steps with
  | Some (rows, w, ds, Some ys, epsilon), S _ =>
      sm_iterate bernton kernel hits n steps alpha efinal resample full_output fuel 0 steps seed
        (mksst epsilon (Some rows) w (Some ys) (Some ds) (Some (mkpop rows w)) count0 cur0 [] [] None)
  | Some (_, _, _, None, _), S _ => Err RuntimeError
  | _, _ => sm_iterate bernton kernel hits n steps alpha efinal resample full_output fuel 0 steps seed (mksst [eps0] None [] ys0 None mgr0 count0 cur0 [] [] None)
  end.
End SMC.
