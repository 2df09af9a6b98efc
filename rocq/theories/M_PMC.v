(** Model of abcpy/inferences.py, class PMC (1086-1488). *)
From Coq Require Import Reals.
From Verif Require Import M_Base M_Num M_Infer M_PMCABC M_RSMCABC M_XReal.
Open Scope nat_scope.

(** accepted parameters and weights as broadcast (covariance matrices are a function of them and of covFactors) *)
Record wpop (Theta : Type) := mkwp { wp_rows : list Theta; wp_w : list xr }.
Arguments mkwp {Theta} _ _.
Arguments wp_rows {Theta} _.
Arguments wp_w {Theta} _.
(** one iteration as recorded: accepted parameters, weights, number_of_simulations *)
Record wrec (Theta : Type) := mkwr { wr_rows : list Theta; wr_w : list xr; wr_nsim : nat }.
Arguments mkwr {Theta} _ _ _.
Arguments wr_rows {Theta} _.
Arguments wr_w {Theta} _.
Arguments wr_nsim {Theta} _.

(* inferences.py:1339-1352  from log weights to normalised weights; np.max of an empty vector is a ValueError *)
Definition from_logs (lw : list xr) : res (list xr) :=
  match lw with
  | [] => Err ValueError
  | x :: l => let ws := map (fun a => xexp (xsub a (xmax x l))) lw in Ok (map (fun w => xdiv w (xsum ws)) ws)
  end.

Section PMC.
Variables Theta Rng Y : Type.
Notation wpop := (wpop Theta).
Notation wrec := (wrec Theta).
Variable setp : Theta -> Theta -> bool * Theta.
Variable pdfv : Theta -> Theta -> num.
Variable kupd : wpop -> nat -> Rng -> Rng * Theta.
Variable kpdf : wpop -> Theta -> Theta -> xr.
Variable prior : Rng -> Rng * Theta.
Variable simc : Theta -> Rng -> Rng * option Y.
(** self.likfun.loglikelihood(observations, y_sim) *)
Variable loglik : Y -> xr.
Variable mkrng : Z -> Rng.
(** rng.choice(k, size=n, p=weights) *)
Variable choiceN : nat -> nat -> list xr -> Rng -> res (Rng * list nat).

(* inferences.py:1218-1220 *)
Fixpoint draws (n : nat) (r : Rng) : Rng * list Theta :=
  match n with 0 => (r, []) | S n' => let '(r1, th) := prior r in let '(r2, l) := draws n' r1 in (r2, th :: l) end.
(* inferences.py:1390-1429  _approx_log_lik_calc; the loglikelihood of None is a TypeError.  The counter is n_samples_per_param. *)
Definition log_lik (th : Theta) (seed : Z) (cur : Theta) : res (xr * Theta) :=
  let cur1 := snd (setp th cur) in
  let '(_, y) := simc cur1 (mkrng seed) in
  match y with
  | None => Err TypeError
  | Some y => let '(v, cur2) := pdf_of_prior Theta setp pdfv th cur1 in Ok (xadd (xlog (toX v)) (loglik y), cur2)
  end.
(* inferences.py:1431-1463  _calculate_weight; the manager has weights from the start.  numpy would also broadcast a weight vector of
   length 1 (not modelled). *)
Definition pm_weight (n : nat) (p : wpop) (th cur : Theta) : res (xr * Theta) :=
  let '(prior_prob, cur') := pdf_of_prior Theta setp pdfv th cur in
  if length (wp_rows p) <? n then Err IndexError
  else if negb (length (wp_w p) =? n) then Err ValueError
  else let denominator := xsum (map (fun wr => xmul (fst wr) (kpdf p (snd wr) th)) (combine (wp_w p) (firstn n (wp_rows p)))) in
       Ok (xdiv (xmul (XR 1) (toX prior_prob)) denominator, cur').

(** [m_hist] keeps all iterations, [m_recs] those in the journal *)
Record mstate := mkms { m_pop : wpop; m_count : nat; m_cur : Theta; m_hist : list wrec; m_recs : list wrec }.
(* inferences.py:1264-1386  one iteration; [gen]: the generator's state at its start, [seed]: the drawn worker seeds *)
Definition pm_step (n per steps full_output fuel aStep : nat) (gen : Rng) (seed : nat -> Z) (s : mstate) : res mstate :=
  let p := m_pop s in
  match choiceN (length (wp_rows p)) n (wp_w p) gen with
  | Err e => Err e
  | Ok (r1, idx) =>
    if length idx <? n then Err IndexError else
    match mapT (fun i cr => match propose Theta Rng wpop setp kupd pdfv fuel p i (fst cr) (snd cr) with Err e => Err e | Ok (c, r, th) => Ok (th, (c, r)) end)
               (firstn n idx) (m_cur s, r1) with
    | Err e => Err e
    | Ok (rows, (cur1, _)) =>
      match mapT (fun ts => log_lik (fst ts) (snd ts)) (combine rows (seeds_of seed n)) cur1 with
      | Err e => Err e
      | Ok ([], _) => Err ValueError
      | Ok (ls, cur2) =>
        let count := m_count s + n * per in
        match mapT (pm_weight n p) rows cur2 with
        | Err e => Err e
        | Ok (vs, cur3) =>
          match from_logs (map (fun vl => xadd (xlog (fst vl)) (snd vl)) (combine vs ls)) with
          | Err e => Err e
          | Ok ws =>
            let r := mkwr rows ws count in
            Ok (mkms (mkwp rows ws) count cur3 (m_hist s ++ [r])
                  (if ((full_output =? 1) && (aStep <=? steps - 1)) || ((full_output =? 0) && (aStep =? steps - 1)) then m_recs s ++ [r] else m_recs s))
          end
        end
      end
    end
  end.
Fixpoint pm_iterate (n per steps full_output fuel aStep todo : nat) (gen : nat -> Rng) (seed : nat -> nat -> Z) (s : mstate) : res mstate :=
  match todo with
  | 0 => Ok s
  | S todo' => match pm_step n per steps full_output fuel aStep (gen aStep) (seed aStep) s with
               | Err e => Err e
               | Ok s' => pm_iterate n per steps full_output fuel (S aStep) todo' gen seed s'
               end
  end.
(* inferences.py:1152-1388.  [ini]: iniPoints as an array of parameter vectors of dimension [dim]; [iniPoints == None] is an array, whose
   truth value is an error unless it has one entry (an empty array is not modelled, except that it fails).  [r0]: the generator after
   sample_from_prior (1190); [journal]: parameters and weights of a journal file; np.ones/k = 1/k. *)
Definition pm_sample (steps n per full_output : nat) (ini : option (list Theta * nat)) (journal : option wpop) (fuel : nat) (r0 : Rng) (gen : nat -> Rng) (seed : nat -> nat -> Z)
    (cur0 : Theta) (count0 : nat) : res mstate :=
  let even k := repeat (xdiv (XR 1) (XR (INR k))) k in
  match (match ini with
         | None => let l := snd (draws n r0) in Ok (l, even n, last l cur0)
         | Some (pts, dim) => if length pts * dim =? 1 then Ok (pts, even (length pts), cur0) else Err ValueError
         end) with
  | Err e => Err e
  | Ok (rows, ws, cur) =>
      pm_iterate n per steps full_output fuel 0 steps gen seed (mkms (match journal with Some p => p | None => mkwp rows ws end) count0 cur [] [])
  end.
End PMC.
