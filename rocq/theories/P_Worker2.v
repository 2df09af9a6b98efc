(** C95 for the other schemes: one backend.map of their workers on the graph, one worker after the other, is the map in the model of the scheme
    on the parameter vector; MCMCMetropoliHastings: the whole of sample().  The results again are vectors of the right shape, so that the
    hypotheses hold for the next population. *)
From Coq Require Import Reals.
From Verif Require Import M_Base M_Num M_XReal M_Graph S_Graph L_Graph2 L_Graph4 M_Worker S_Worker L_Worker M_Worker2 L_Worker2 P_Worker.
From Verif Require M_Infer M_PMCABC M_RSMCABC M_APMCABC M_SMCABC M_SABC M_Subsim M_PMC M_MCMC.
Open Scope nat_scope.

Section Claims.
Variables (g : graph) (roots o : list nat) (base : nat -> option (list Q)) (tries k : nat).
Hypothesis Hg : ordinary g roots o base.
Notation on_graph := (on_graph g roots tries k).
Notation setp := (set_of g roots o base).
Notation pdfv := (dens_of g roots o base).
Notation prior := (prior_of g roots o base tries).
Notation simc := (sim_of g roots o base k).
Notation Stands := (Stands g roots o base).
Notation fits := (fits g o).
(** [model], run over the inputs on a vector, is what the workers [f] do on every graph that stands for it *)
Definition Refines {A B} (P : B -> Prop) (f : A -> prog B) (model : A -> Vec -> res (B * Vec)) (inputs : list A) : Prop :=
  forall s cur s' x, Stands s cur -> on_graph (pmap f inputs) s = (s', x) -> x <> Err OutOfFuel ->
  match M_PMCABC.mapT model inputs cur with
  | Ok (results, cur') => x = Ok results /\ Stands s' cur' /\ Forall P results
  | Err e => x = Err e
  end.
Lemma refines_map {A B} (P : B -> Prop) (f : A -> prog B) model (R : A -> Prop) inputs :
  (forall a, R a -> careful g o P (f a)) -> Forall R inputs ->
  (forall a cur r, exists r', on_vector setp pdfv prior simc (f a) cur r = match model a cur with Err e => Err e | Ok (y, cur') => Ok (y, cur', r') end) ->
  Refines P f model inputs.
Proof.
  intros Hc Hr Hv s cur s' x Hs E Hx. pose proof (C95_worker g roots o base tries k Hg _ _ _ (careful_map g o R P f inputs Hc Hr) s cur s' x Hs E Hx) as W.
  destruct (v_map setp pdfv prior simc f model Hv inputs cur (ctr s)) as (r & V). rewrite V in W. destruct (M_PMCABC.mapT model inputs cur) as [[ys c]|e]; [|exact W]. destruct W as (H1 & _ & H2 & H3). auto.
Qed.
Lemma all {A} (l : list A) : Forall (fun _ => True) l.
Proof. apply Forall_forall. auto. Qed.

Section Pop.
Variable kupd : M_PMCABC.pop Vec -> nat -> nat -> nat * Vec.
Variable kupdL : M_PMCABC.pop Vec -> Vec -> nat -> nat * Vec.
Variable kpdf : M_PMCABC.pop Vec -> Vec -> Vec -> num.
Variable dist : Data -> num.
Variable dist1 : Data -> list num.
Variable dist_max : num.
Variable mkrng : Z -> nat.
Variable reseed : nat -> nat.
Variable choice : nat -> list num -> nat -> res (nat * nat).
Variable choiceU : nat -> nat -> res (nat * nat).
Variable choiceL : list nat -> nat -> res (nat * nat).
Variable bern : num -> nat -> res (nat * bool).
Variable rand : nat -> nat * num.
Variable nexp : num -> num.
(** the kernel delivers parameter vectors, and the population consists of parameter vectors *)
Hypothesis Hk : forall p i r, fits (snd (kupd p i r)).
Definition Population (mgr : option (M_PMCABC.pop Vec)) : Prop := forall p, mgr = Some p -> Forall fits (M_PMCABC.p_rows p).

Theorem C95_rsmcabc : forall eps R mgr dists fuel seeds, Population mgr ->
  Refines (fun x => fits (fst (fst (fst x)))) (w_rsmcabc kupd kpdf dist dist_max mkrng reseed choiceU bern eps R mgr dists fuel)
    (M_RSMCABC.rs_accept Vec nat Data setp pdfv kupd kpdf prior simc dist dist_max mkrng reseed choiceU bern eps R mgr dists fuel) seeds.
Proof.
  intros eps R mgr dists fuel seeds Hm. apply (refines_map _ _ _ (fun _ => True)); [intros a _; apply c_rsmcabc; assumption|apply all|]. intros seed cur r.
  destruct (v_rsmcabc setp pdfv prior simc kupd kpdf dist dist_max mkrng reseed choiceU bern eps R mgr dists fuel seed cur r) as (r' & E). exists r'. rewrite E.
  destruct (M_RSMCABC.rs_accept _ _ _ _ _ _ _ _ _ _ _ _ _ _ _ _ _ _ _ _ _ _) as [[[[[th d] a] c] cur']|]; reflexivity.
Qed.
Theorem C95_apmcabc : forall mgr fuel seeds,
  Refines (fun x => fits (fst (fst (fst x)))) (w_apmcabc kupd kpdf dist mkrng reseed choice mgr fuel) (M_APMCABC.ap_accept Vec nat Data setp pdfv kupd kpdf prior simc dist mkrng reseed choice mgr fuel) seeds.
Proof.
  intros mgr fuel seeds. apply (refines_map _ _ _ (fun _ => True)); [intros a _; apply c_apmcabc; assumption|apply all|]. intros seed cur r.
  destruct (v_apmcabc setp pdfv prior simc kupd kpdf dist mkrng reseed choice mgr fuel seed cur r) as (r' & E). exists r'. rewrite E.
  destruct (M_APMCABC.ap_accept _ _ _ _ _ _ _ _ _ _ _ _ _ _ _ _ _) as [[[[[th d] a] c] cur']|]; reflexivity.
Qed.
Theorem C95_smcabc : (forall p th r, fits (snd (kupdL p th r))) -> forall kernel hits eps mgr ys fuel inputs, Population mgr ->
  Refines (fun x => fits (fst (fst (fst x)))) (w_smcabc kupd kupdL kpdf dist dist1 mkrng reseed choiceL bern kernel hits eps mgr ys fuel)
    (M_SMCABC.sm_accept Vec nat Data setp pdfv kupd kupdL kpdf prior simc dist dist1 mkrng reseed bern choiceL kernel hits eps mgr ys fuel) inputs.
Proof.
  intros HL kernel hits eps mgr ys fuel inputs Hm. apply (refines_map _ _ _ (fun _ => True)); [intros a _; apply c_smcabc; assumption|apply all|]. intros si cur r.
  destruct (v_smcabc setp pdfv prior simc kupd kupdL kpdf dist dist1 mkrng reseed choiceL bern kernel hits eps mgr ys fuel si cur r) as (r' & E). exists r'. rewrite E.
  destruct (M_SMCABC.sm_accept _ _ _ _ _ _ _ _ _ _ _ _ _ _ _ _ _ _ _ _ _ _ _ _) as [[[[[th d] a] c] cur']|]; reflexivity.
Qed.
Theorem C95_sabc : forall n eps mgr all_d sm fuel seeds, Population mgr ->
  Refines (fun x => fits (M_SABC.w_th Vec x)) (w_sabc kupd dist mkrng reseed choiceU bern rand nexp n eps mgr all_d sm fuel)
    (M_SABC.sa_accept Vec nat Data setp pdfv kupd prior simc dist mkrng reseed choiceU bern rand nexp n eps mgr all_d sm fuel) seeds.
Proof.
  intros n eps mgr all_d sm fuel seeds Hm. apply (refines_map _ _ _ (fun _ => True)); [intros a _; apply c_sabc; assumption|apply all|]. intros seed cur r.
  apply v_sabc.
Qed.
End Pop.

Section Subsim.
Variable Cov : Type.
Variable kupd : M_Subsim.kst Vec Cov -> nat -> nat -> nat * Vec.
Variable kpdf : M_Subsim.kst Vec Cov -> Vec -> Vec -> num.
Variable dist : Data -> num.
Variable mkrng : Z -> nat.
Variable reseed : nat -> nat.
Variable bern : num -> nat -> res (nat * bool).
Hypothesis Hk : forall p i r, fits (snd (kupd p i r)).
(** ABCsubsim: the chains, and the ten trial chains of _update_cov_mat *)
Theorem C95_subsim : forall cl ann bds p fuel inputs, (forall rows, bds = Some rows -> Forall fits rows) ->
  Refines (fun x => Forall (fun y => fits (fst y)) (fst x)) (w_subsim Cov kupd kpdf dist mkrng reseed bern cl ann bds p fuel)
    (M_Subsim.sb_accept Vec nat Data Cov setp pdfv kupd kpdf prior simc dist mkrng reseed bern cl ann bds p fuel) inputs.
Proof.
  intros cl ann bds p fuel inputs Hb. apply (refines_map _ _ _ (fun _ => True)); [intros a _; apply c_subsim; assumption|apply all|]. intros si cur r.
  destruct (v_subsim setp pdfv prior simc Cov kupd kpdf dist mkrng reseed bern cl ann bds p fuel si cur r) as (r' & E). exists r'. rewrite E.
  destruct (M_Subsim.sb_accept _ _ _ _ _ _ _ _ _ _ _ _ _ _ _ _ _ _ _ _ _) as [[[l c] cur']|]; reflexivity.
Qed.
Theorem C95_subsim_cov : forall cl ann bds p fuel seeds, Forall fits bds ->
  Refines (fun _ => True) (w_cov_try Cov kupd kpdf dist mkrng reseed bern cl ann bds p fuel) (M_Subsim.cov_try Vec nat Data Cov setp pdfv kupd kpdf simc dist mkrng reseed bern cl ann bds p fuel) seeds.
Proof.
  intros cl ann bds p fuel seeds Hb. apply (refines_map _ _ _ (fun _ => True)); [intros a _; apply c_cov_try; assumption|apply all|]. intros seed cur r. apply v_cov_try.
Qed.
End Subsim.

Section PMC.
Variable kpdf : M_PMC.wpop Vec -> Vec -> Vec -> xr.
Variable loglik : Data -> xr.
Variable mkrng : Z -> nat.
(** PMC: the likelihoods of the new parameters, and their weights *)
Theorem C95_pmc_likelihood : forall inputs, Forall (fun x => fits (fst x)) inputs ->
  Refines (fun _ => True) (fun ts => w_log_lik loglik mkrng (fst ts) (snd ts)) (fun ts => M_PMC.log_lik Vec nat Data setp pdfv simc loglik mkrng (fst ts) (snd ts)) inputs.
Proof.
  intros inputs Hi. apply (refines_map _ _ _ (fun x => fits (fst x))); [intros a Ha; apply c_log_lik, Ha|exact Hi|]. intros ts cur r. apply v_log_lik.
Qed.
Theorem C95_pmc_weight : forall n p rows, Forall fits rows -> Refines (fun _ => True) (w_pm_weight kpdf n p) (M_PMC.pm_weight Vec setp pdfv kpdf n p) rows.
Proof.
  intros n p rows Hr. apply (refines_map _ _ _ fits); [intros a Ha; apply c_pm_weight, Ha|exact Hr|]. intros th cur r. apply v_pm_weight.
Qed.
End PMC.

Section MCMC.
Variables F Cov : Type.
Variables fadd fsub fmul fdiv : F -> F -> F.
Variable fexp : F -> F.
Variable flt : F -> F -> bool.
Variable fzero : F -> bool.
Variable fof : num -> F.
Variable kupd : Vec -> Cov -> nat -> nat * Vec.
Variable loglik : Data -> F.
Variable tr : Vec -> res Vec.
Variable inv : Vec -> Vec.
Variable ldj : Vec -> res F.
Variable unif : nat -> nat * F.
Variable eye : Vec -> Cov.
Variable adapt : list Vec -> Cov.
Hypothesis Hk : forall y m r, fits (inv (snd (kupd y m r))).
(** MCMCMetropoliHastings: a whole run, fresh or continued from a journal *)
Theorem C95_mcmc : forall n burnin cov ini interval journal count0 s cur s' x,
  (forall th, ini = Some th -> fits th) -> (forall j th, journal = Some j -> In th (M_MCMC.j_params j) -> fits th) -> Stands s cur ->
  on_graph (w_mh_sample F Cov fadd fsub fmul fdiv fexp flt fzero fof kupd loglik tr inv ldj unif eye adapt n burnin cov ini interval journal count0) s = (s', x) -> x <> Err OutOfFuel ->
  match M_MCMC.mh_sample Vec nat Data F Cov fadd fsub fmul fdiv fexp flt fzero setp (fun th c => fof (pdfv th c)) kupd prior simc loglik tr inv ldj unif eye adapt n burnin cov ini interval journal (ctr s) cur count0 with
  | Ok (j, c) => x = Ok j /\ ctr s' = M_MCMC.c_rng _ _ _ _ c /\ Stands s' (M_MCMC.c_cur _ _ _ _ c)
  | Err e => x = Err e
  end.
Proof.
  intros n burnin cov ini interval journal count0 s cur s' x Hi Hj Hs E Hx.
  assert (Hc : careful g o (fun _ => True) (w_mh_sample F Cov fadd fsub fmul fdiv fexp flt fzero fof kupd loglik tr inv ldj unif eye adapt n burnin cov ini interval journal count0)) by (apply c_mh_sample; assumption).
  pose proof (C95_worker g roots o base tries k Hg _ _ _ Hc s cur s' x Hs E Hx) as W. rewrite v_mh_sample in W.
  destruct (M_MCMC.mh_sample _ _ _ _ _ _ _ _ _ _ _ _ _ _ _ _ _ _ _ _ _ _ _ _ _ _ _ _ _ _ _ _ _) as [[j c]|e]; [|exact W]. destruct W as (H1 & H2 & H3 & _). auto.
Qed.
End MCMC.
End Claims.
Print Assumptions C95_rsmcabc.
Print Assumptions C95_apmcabc.
Print Assumptions C95_smcabc.
Print Assumptions C95_sabc.
Print Assumptions C95_subsim.
Print Assumptions C95_subsim_cov.
Print Assumptions C95_pmc_likelihood.
Print Assumptions C95_pmc_weight.
Print Assumptions C95_mcmc.

(** ** Cases, on the graph of C95_case *)
(** RSMCABC with two moves per worker: both accept their second move, and return the parameter of the particle they started from (C92) *)
Definition bw (pa : num) (r : nat) : res (nat * bool) := Ok (S r, 17 <=? r).
Example C95_rsmcabc_case :
  Population gw [2; 3] (Some pw)
  /\ match on_graph gw [4] 3 1 (pmap (w_rsmcabc kw (fun _ _ _ => Fin 1) dw (Fin 100) Z.to_nat (fun r => r + 10) (fun _ r => Ok (S r, 1)) bw (Fin 50) 2 (Some pw) (Some [Fin 4; Fin 3]) 20) [2%Z; 0%Z]) sw with
     | (s', Ok [(th1, _, a1, k1); (th2, _, a2, k2)]) => (th1, a1, k1) = ([[2]; [6]]%Q, 1, 2) /\ (th2, a2, k2) = ([[2]; [6]]%Q, 1, 2) /\ val s' 3 = Some [6%Q]
     | _ => False
     end.
Proof.
  split; [intros p E; injection E as <-; repeat constructor|]. vm_compute. auto.
Qed.
(** SMCABC with the Metropolis-Hastings kernel: particle 0 moves, particle 1 does not *)
Example C95_smcabc_case :
  match on_graph gw [4] 3 1 (pmap (w_smcabc kw (fun _ th r => (r, th)) (fun _ _ _ => Fin 1) dw (fun y => [dw y]) Z.to_nat (fun r => r + 10) (fun _ r => Ok (r, 0)) bw 0 2 (Fin 50) (Some pw)
      (Some [[Some [[6%Q]]]; [Some [[4%Q]]]]) 20) [(7%Z, 0); (2%Z, 1)]) sw with
  | (s', Ok [(th1, y1, _, k1); (th2, y2, d2, k2)]) => (th1, k1) = ([[5]; [8]]%Q, 1) /\ (th2, y2, d2, k2) = ([[2]; [6]]%Q, [Some [[4%Q]]], Fin 4, 1) /\ val s' 2 = Some [2%Q]
  | _ => False
  end.
Proof. vm_compute. auto. Qed.
(** ABCsubsim: a chain of length three from particle 1, with one accepted and one refused move *)
Example C95_subsim_case :
  match on_graph gw [4] 3 1 (w_subsim unit (fun _ i r => kw pw i r) (fun _ _ _ => Fin 1) dw Z.to_nat (fun r => r + 10) (fun pa r => Ok (S r, r <? 20)) 3 (Fin 50) (Some [[[5]; [7]]; [[2]; [6]]]%Q) (Some (M_Subsim.mkkst [] [tt])) 20 (4%Z, 1)) sw with
  | (s', Ok (l, k)) => map fst l = [[[2]; [6]]; [[5]; [8]]; [[5]; [8]]]%Q /\ k = 3
  | _ => False
  end.
Proof. vm_compute. auto. Qed.
(** MCMC: numbers are rationals, the proposal is always (5, 8), one step of burn-in and two recorded steps *)
Example C95_mcmc_case :
  match on_graph gw [4] 3 1 (w_mh_sample Q unit Qplus Qminus Qmult Qdiv (fun _ => 1%Q) (fun a b => negb (Qle_bool b a)) (fun a => Qeq_bool a 0) (fun v => match v with Fin a => a | _ => 0%Q end)
      (fun _ _ r => kw pw 0 r) (fun y => match dw y with Fin a => a | _ => 0%Q end) Ok (fun th => th) (fun _ => Ok 0%Q) (fun r => (S r, if r <? 22 then 9 # 10 else 0)%Q) (fun _ => tt) (fun _ => tt) 2 1 None None None None 0) sw with
  | (s', Ok j) => M_MCMC.j_weights j = 2 /\ nth_error (M_MCMC.j_params j) 1 = Some [[5]; [8]]%Q
  | _ => False
  end.
Proof. vm_compute. auto. Qed.
