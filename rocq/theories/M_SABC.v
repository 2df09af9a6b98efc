(** Model of abcpy/inferences.py, class SABC (1491-2031). *)
From Verif Require Import M_Base M_Num M_Infer M_PMCABC M_RSMCABC M_SMCABC.

(** np.min of a non-empty vector *)
Definition nminl (x : num) (l : list num) : num := fold_left nmin l x.
(* inferences.py:1880-1887, one distance against a non-empty vector of old distances *)
Definition smooth (all : list num) (d : num) : num :=
  match all with
  | [] => NaN
  | x :: l => if nlt d (nminl x l) then ndiv (ndiv d (nminl x l)) (ofnat (length all))
              else ndiv (ofnat (length (filter (fun o => nlt o d) all))) (ofnat (length all))
  end.
(* inferences.py:1861-1889  _smoother_distance; np.min of an empty vector is a ValueError *)
Definition smoother (l all : list num) : res (list num) :=
  match l, all with [], _ => Ok [] | _, [] => Err ValueError | _, _ => Ok (map (smooth all) l) end.
(** np.mean *)
Definition nmean (l : list num) : num := ndiv (nsum l) (ofnat (length l)).
(** 1e-100 *)
Definition tiny : num := Fin (1 # 10 ^ 100).
(** l[i] = x for the given pairs, in order *)
Fixpoint place {A} (l : list A) (us : list (nat * A)) : res (list A) :=
  match us with [] => Ok l | (i, x) :: us' => if i <? length l then place (lset l i x) us' else Err IndexError end.
(** [l[i] for i in idx] *)
Fixpoint picks {A} (l : list A) (idx : list nat) : res (list A) :=
  match idx with [] => Ok [] | i :: idx' => match nth_error l i, picks l idx' with Some x, Ok xs => Ok (x :: xs) | None, _ => Err IndexError | _, Err e => Err e end end.

Section SABC.
Variables Theta Rng Y : Type.
Variable setp : Theta -> Theta -> bool * Theta.
Variable pdfv : Theta -> Theta -> num.
Variable kupd : pop Theta -> nat -> Rng -> Rng * Theta.
Variable prior : Rng -> Rng * Theta.
Variable simc : Theta -> Rng -> Rng * option Y.
Variable dist : Y -> num.
Variable mkrng : Z -> Rng.
Variable reseed : Rng -> Rng.
Variable choiceU : nat -> Rng -> res (Rng * nat).
Variable bern : num -> Rng -> res (Rng * bool).
(** rng.rand(1); np.exp; scipy's fsolve for epsilon^2 + v epsilon^(3/2) = rho^2 *)
Variable rand : Rng -> Rng * num.
Variable nexp : num -> num.
Variable fsolve : num -> num.

(* inferences.py:1910-1917  _schedule *)
Definition schedule (rho : num) : num := if nlt rho tiny then Fin 0 else fsolve rho.
(* inferences.py:1891-1908  _average_redefined_distance; np.average raises ZeroDivisionError if the weights sum to zero *)
Definition average (l : list num) (eps : num) : res num :=
  if neqb eps (Fin 0) then Ok (Fin 0)
  else let ws := map (fun d => nexp (ndiv (nopp d) eps)) l in
       if neqb (nsum ws) (Fin 0) then Err ZeroDivisionError
       else Ok (ndiv (nsum (map (fun dw => nmul (fst dw) (snd dw)) (combine l ws))) (nsum ws)).

(** result of a worker: new_theta, distance, all_distances, index, acceptance, counter *)
Record wres := mkw { w_th : Theta; w_d : num; w_all : list num; w_i : nat; w_acc : bool; w_k : nat }.
(* inferences.py:1963-1977  while acceptance == 0.  The index is overwritten by the caller (1702), 0 here. *)
Fixpoint sa_prior (eps : num) (fuel : nat) (r : Rng) (tried : list num) : res (wres * Theta) :=
  match fuel with
  | 0 => Err OutOfFuel
  | S f =>
      let '(r1, th) := prior r in
      let '(r2, y) := simc th r1 in
      match y with
      | None => Err TypeError
      | Some y =>
          match bern (nexp (ndiv (nopp (dist y)) eps)) r2 with
          | Err e => Err e
          | Ok (r3, true) => Ok (mkw th (dist y) (tried ++ [dist y]) 0 true (S (length tried)), th)
          | Ok (r3, false) => sa_prior eps f r3 (tried ++ [dist y])
          end
      end
  end.
(* inferences.py:1934-2006  _accept_parameter.  [mgr]: the manager once it has covariance matrices; [all]: all_distances_bds; [sm]:
   smooth_distances_bds *)
Definition sa_accept (n : nat) (eps : num) (mgr : option (pop Theta)) (all : option (list num)) (sm : list num) (fuel : nat) (seed : Z) (cur : Theta)
    : res (wres * Theta) :=
  let r := reseed (mkrng seed) in
  match mgr with
  | None => sa_prior eps fuel r []
  | Some p =>
      match choiceU n r with Err e => Err e | Ok (r0, i) =>
      match nth_error (p_rows p) i with None => Err IndexError | Some theta =>
      match propose Theta Rng (pop Theta) setp kupd pdfv fuel p i cur r0 with Err e => Err e | Ok (cur1, r1, th) =>
      let '(r2, y) := simc cur1 r1 in
      match y with None => Err TypeError | Some y =>
      match all with None => Err AttributeError | Some [] => Err ValueError | Some all =>
      let '(new_prob, cur2) := pdf_of_prior Theta setp pdfv th cur1 in
      let '(old_prob, cur3) := pdf_of_prior Theta setp pdfv theta cur2 in
      match nth_error sm i with None => Err IndexError | Some s =>
      let acceptance_prob := nmul (ndiv new_prob old_prob) (nexp (ndiv (nsub s (smooth all (dist y))) eps)) in
      let '(_, u) := rand r2 in
      if nlt u acceptance_prob then Ok (mkw th (dist y) [] i true 1, cur3) else Ok (mkw th PInf [] i false 1, cur3)
      end end end end end end
  end.

(** local variables of sample and what the object keeps; [a_mgr]: manager with covariances; [a_bds]: all_distances_bds; [a_hist]: completed
    iterations; [a_recs], [a_nsims]: what the journal holds; [a_epss]: epsilon after each completed iteration; [a_stop]: acceptance rate
    was below the cutoff *)
Record astate := mkast { a_rows : option (list Theta); a_ds : list num; a_sm : list num; a_w : list num; a_all : option (list num);
  a_bds : option (list num); a_mgr : option (pop Theta); a_eps : num; a_acc : nat; a_until : nat; a_count : nat; a_cur : Theta;
  a_hist : list (rec Theta); a_recs : list (rec Theta); a_nsims : list nat; a_epss : list num; a_stop : bool }.

(* inferences.py:1640-1859  one iteration; [resamp]: self.rng.choice(n, n, replace=True, p=weight).  A journal without full output keeps
   only the last record, but number_of_simulations is appended to in both cases. *)
Definition sa_step (n n_update resample : nat) (delta cutoff : num) (full_output fuel aStep : nat) (seed : nat -> Z) (resamp : list num -> res (list nat)) (s : astate)
    : res astate :=
  let m := match aStep with 0 => n | _ => n_update end in
  let bds := match a_all s with Some a => Some a | None => a_bds s end in
  match mapT (sa_accept n (a_eps s) (a_mgr s) bds (a_sm s) fuel) (seeds_of seed m) (a_cur s) with
  | Err e => Err e
  | Ok ([], _) => Err ValueError
  | Ok (results, cur1) =>
    let count := fold_left (fun a x => a + w_k x) results (a_count s) in
    let index := match aStep with 0 => seq 0 n | _ => map w_i results end in
    let all := match aStep, a_all s with S _, Some a => a | _, _ => concat (map w_all results) end in
    let taken := filter (fun ix => w_acc (snd ix)) (combine index results) in
    match match a_rows s with None => Ok (map w_th results) | Some rows => place rows (map (fun ix => (fst ix, w_th (snd ix))) taken) end with
    | Err e => Err e
    | Ok rows =>
      match place (a_ds s) (map (fun ix => (fst ix, w_d (snd ix))) taken) with
      | Err e => Err e
      | Ok ds =>
        match picks ds (map fst taken) with Err e => Err e | Ok dts =>
        match smoother dts all with Err e => Err e | Ok sms =>
        match place (a_sm s) (combine (map fst taken) sms) with Err e => Err e | Ok sm =>
        match match aStep with
              | 0 => match smoother all all with Err e => Err e | Ok sa => average sa (a_eps s) end
              | _ => Ok (nmean sm)
              end with
        | Err e => Err e
        | Ok U =>
          let acc := match aStep with 0 => 0 | _ => a_acc s + length (filter w_acc results) end in
          let until := match aStep with 0 => a_until s | _ => a_until s + m end in
          if match aStep with 0 => false | _ => nlt (ndiv (ofnat acc) (ofnat until)) cutoff end
          then Ok (mkast (Some rows) ds sm (a_w s) (Some all) bds (a_mgr s) (schedule U) acc until count cur1 (a_hist s) (a_recs s) (a_nsims s) (a_epss s) true)
          else
            let finish rows ds sm eps acc until :=
              let r := mkrec rows ds (a_w s) count in
              Ok (mkast (Some rows) ds sm (a_w s) (Some all) bds (Some (mkpop rows (a_w s))) eps acc until count cur1 (a_hist s ++ [r])
                    (if full_output =? 1 then a_recs s ++ [r] else if full_output =? 0 then [r] else a_recs s)
                    (if full_output <? 2 then a_nsims s ++ [count] else a_nsims s) (a_epss s ++ [eps]) false) in
            if (resample <=? acc) && nlt tiny U then
              match resamp (normalise (map (fun x => nexp (ndiv (nmul (nopp x) delta) U)) sm)) with Err e => Err e | Ok idx =>
              match picks rows idx, picks sm idx, picks ds idx with
              | Ok rows', Ok sm', Ok ds' => finish rows' ds' sm' (schedule (nmean sm')) 0 0
              | _, _, _ => Err IndexError
              end end
            else finish rows ds sm (schedule U) acc until
        end end end end
      end
    end
  end.
Fixpoint sa_iterate (n n_update resample : nat) (delta cutoff : num) (full_output fuel aStep todo : nat) (seed : nat -> nat -> Z) (resamp : nat -> list num -> res (list nat))
    (s : astate) : res astate :=
  match todo with
  | 0 => Ok s
  | S todo' => match sa_step n n_update resample delta cutoff full_output fuel aStep (seed aStep) (resamp aStep) s with
               | Err e => Err e
               | Ok s' => if a_stop s' then Ok s' else sa_iterate n n_update resample delta cutoff full_output fuel (S aStep) todo' seed resamp s'
               end
  end.
(* inferences.py:1560-1859; [journal]: parameters and weights of a journal file; [mgr0], [bds0]: what earlier calls left in the object.
   sample_array[0] is an IndexError without steps. *)
Definition sa_sample (steps n : nat) (eps : num) (resample n_update : option nat) (delta cutoff : num) (full_output : nat) (journal : option (pop Theta)) (fuel : nat)
    (seed : nat -> nat -> Z) (resamp : nat -> list num -> res (list nat)) (mgr0 : option (pop Theta)) (bds0 : option (list num)) (cur0 : Theta) (count0 : nat) : res astate :=
  let rs := match resample with None => n | Some k => k end in
  let up := match n_update with None => n | Some k => k end in
  match steps with
  | 0 => Err IndexError
  | _ => sa_iterate n up rs delta cutoff full_output fuel 0 steps seed resamp
           (mkast (option_map p_rows journal) (repeat (Fin 0) n) (repeat (Fin 0) n) (match journal with Some p => p_w p | None => repeat (Fin 1) n end) None
              bds0 (match journal with Some p => Some p | None => mgr0 end) eps 0 0 count0 cur0 [] [] [] [] false)
  end.
End SABC.
