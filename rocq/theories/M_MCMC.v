(** Model of abcpy/inferences.py, class MCMCMetropoliHastings (4073-4605).  Floats are an arbitrary type F with the operations the code uses;
    acceptance rates are exact rationals. *)
From Verif Require Import M_Base.
Open Scope nat_scope.

(** what the journal keeps: accepted parameters, configuration["n_samples"], acceptance_rates, number_of_simulations, final_step_loglik,
    actual_cov_matrices, and the number of weights (all 1) *)
Record mjournal (Theta F Cov : Type) := mkmj { j_params : list Theta; j_n : nat; j_rates : list Q; j_nsims : list nat; j_ll : F; j_cov : Cov; j_weights : nat }.
Arguments mkmj {Theta F Cov} _ _ _ _ _ _ _.
Arguments j_params {Theta F Cov} _.
Arguments j_n {Theta F Cov} _.
Arguments j_rates {Theta F Cov} _.
Arguments j_nsims {Theta F Cov} _.
Arguments j_ll {Theta F Cov} _.
Arguments j_cov {Theta F Cov} _.
Arguments j_weights {Theta F Cov} _.
(** chain[-1] *)
Definition last_opt {A} (l : list A) : option A := nth_error (rev l) 0.

Section MCMC.
Variables Theta Rng Y F Cov : Type.
Variables fadd fsub fmul fdiv : F -> F -> F.
Variable fexp : F -> F.
Variable flt : F -> F -> bool.
Variable fzero : F -> bool.
(** set_parameters; value of pdf_of_prior; kernel.update from the transformed position with covariance matrices, correctly ordered *)
Variable setp : Theta -> Theta -> bool * Theta.
Variable pdfv : Theta -> Theta -> F.
Variable kupd : Theta -> Cov -> Rng -> Rng * Theta.
Variable prior : Rng -> Rng * Theta.
Variable simc : Theta -> Rng -> Rng * option Y.
Variable loglik : Y -> F.
(** self.transformer: transform, inverse_transform, jac_log_det *)
Variable tr : Theta -> res Theta.
Variable inv : Theta -> Theta.
Variable ldj : Theta -> res F.
(** self.rng.uniform(); identity matrices of the right shape; calculate_cov and _compute_accepted_cov_mats of a chain *)
Variable unif : Rng -> Rng * F.
Variable eye : Theta -> Cov.
Variable adapt : list Theta -> Cov.

(** position of the chain with what is kept about it *)
Record pt := mkpt { q_th : Theta; q_tr : Theta; q_ll : F; q_pdf : F; q_ldj : F }.
(** [c_acc]: acceptances after burn-in; [c_burn], [c_trace]: the two lists of states *)
Record chain := mkch { c_pt : pt; c_acc : nat; c_sims : nat; c_cov : Cov; c_burn : list Theta; c_trace : list Theta; c_cur : Theta; c_rng : Rng }.

(* inferences.py:4509-4560  _simulate_and_compute_log_lik with BackendDummy and speedup_dummy (a refusal of set_parameters is only logged) *)
Definition sim_ll (th cur : Theta) (r : Rng) : res (Rng * F * Theta) :=
  let cur1 := snd (setp th cur) in
  let '(r1, y) := simc cur1 r in
  match y with None => Err TypeError | Some y => Ok (r1, loglik y, cur1) end.
(* inferences.py:4389-4391 *)
Definition alpha (s s' : pt) : F := fdiv (fmul (fexp (fsub (fadd (fsub (q_ldj s) (q_ldj s')) (q_ll s')) (q_ll s))) (q_pdf s')) (q_pdf s).
(* inferences.py:4347-4433  one step *)
Definition mh_step (burnin : nat) (interval : option nat) (aStep : nat) (c : chain) : res chain :=
  let s := c_pt c in
  let '(r1, y) := kupd (q_tr s) (c_cov c) (c_rng c) in
  let th := inv y in
  let cur1 := snd (setp th (c_cur c)) in
  let pdf := pdfv th cur1 in
  let after := burnin <=? aStep in
  if fzero pdf then
    Ok (mkch s (c_acc c) (c_sims c) (c_cov c) (if after then c_burn c else c_burn c ++ [q_th s]) (if after then c_trace c ++ [q_th s] else c_trace c) cur1 r1)
  else
    match sim_ll th cur1 r1 with Err e => Err e | Ok (r2, ll, cur2) =>
    match ldj th with Err e => Err e | Ok j =>
    let s' := mkpt th y ll pdf j in
    let '(r3, u) := unif r2 in
    let ok := flt u (alpha s s') in
    let t := if ok then s' else s in
    let acc := if ok && after then S (c_acc c) else c_acc c in
    if after then Ok (mkch t acc (S (c_sims c)) (c_cov c) (c_burn c) (c_trace c ++ [q_th t]) cur2 r3)
    else let burn := c_burn c ++ [q_th t] in
         match interval with
         | None => Ok (mkch t acc (S (c_sims c)) (c_cov c) burn (c_trace c) cur2 r3)
         | Some 0 => Err ZeroDivisionError
         | Some k => Ok (mkch t acc (S (c_sims c)) (if (aStep + 1) mod k =? 0 then adapt burn else c_cov c) burn (c_trace c) cur2 r3)
         end
    end end.
Fixpoint mh_loop (burnin : nat) (interval : option nat) (aStep todo : nat) (c : chain) : res chain :=
  match todo with
  | 0 => Ok c
  | S k => match mh_step burnin interval aStep c with Err e => Err e | Ok c' => mh_loop burnin interval (S aStep) k c' end
  end.
(* inferences.py:4260-4343 and 4435-4459.  [journal]: the journal read from journal_file; [count0]: simulation_counter before the call;
   returns the journal and the final state *)
Definition mh_sample (n burnin : nat) (cov : option Cov) (ini : option Theta) (interval : option nat) (journal : option (mjournal Theta F Cov)) (r0 : Rng) (cur0 : Theta) (count0 : nat)
    : res (mjournal Theta F Cov * chain) :=
  match (match journal with
         | None =>
             let '(r1, th, cur1) := match ini with None => let '(r1, th) := prior r0 in (r1, th, th) | Some th => (r0, th, cur0) end in
             match sim_ll th cur1 r1 with
             | Err e => Err e
             | Ok (r2, ll, cur2) => Ok (th, (if burnin =? 0 then [th] else []), ll, S count0, 0%Q, cov, n, r2, cur2)
             end
         | Some j =>
             match last_opt (j_rates j), last_opt (j_params j), last_opt (j_nsims j) with
             | Some rate, Some th, Some ns => Ok (th, [], j_ll j, ns, (rate * inject_Z (Z.of_nat (j_n j)))%Q, Some (match cov with None => j_cov j | Some m => m end), j_n j + n, r0, cur0)
             | _, _, _ => Err IndexError
             end
         end) with
  | Err e => Err e
  | Ok (th, burn, ll, ns, rate0, covs, total, r, cur) =>
      let cur1 := snd (setp th cur) in
      let pdf := pdfv th cur1 in
      match tr th with Err e => Err e | Ok y =>
      match ldj th with Err e => Err e | Ok jd =>
      let m := match covs with Some m => m | None => eye y end in
      match mh_loop burnin interval 0 (burnin + n) (mkch (mkpt th y ll pdf jd) 0 ns m burn [] cur1 r) with
      | Err e => Err e
      | Ok c =>
          if total =? 0 then Err ZeroDivisionError else
          let rate := ((rate0 + inject_Z (Z.of_nat (c_acc c))) / inject_Z (Z.of_nat total))%Q in
          let old := match journal with None => ([], [], []) | Some j => (j_params j, j_rates j, j_nsims j) end in
          Ok (mkmj (fst (fst old) ++ c_trace c) total (snd (fst old) ++ [rate]) (snd old ++ [c_sims c]) (q_ll (c_pt c)) (c_cov c) total, c)
      end end end
  end.
End MCMC.
