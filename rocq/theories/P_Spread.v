(** C96: the results of a parallel map do not depend on which process executes a work item, when, and what this process did before
    (backends/base.py, backends/mpi.py, backends/spark.py: the sequential backend is the case of one process).  True for the prior samplers; for the workers that
    perturb a population it needs that set_parameters meets a parameter before those whose checks depend on it; refuted without that. *)
From Coq Require Import Reals.
From Verif Require Import M_Base M_Num M_XReal M_Graph M_GraphEx S_Graph L_Graph2 L_Graph4 M_Worker S_Worker L_Worker M_Worker2 L_Worker2 S_Spread L_Spread L_Spread2 L_Spread3 P_Worker P_Worker2.
From Verif Require M_Infer M_PMCABC M_Subsim M_PMC P_Graph.
Open Scope nat_scope.

Section Claims.
Variables (g : graph) (roots o : list nat) (base : nat -> option (list Q)) (tries k : nat).
Hypothesis Hg : ordinary g roots o base.
Notation fits := (fits g o).
Notation acceptable := (acceptable g o base).
Notation Free := (Location_free g roots tries k).
Notation Any := (Any g roots o base).
Definition Every {A} (_ : A) : Prop := True.
(** a population of acceptable parameter vectors *)
Definition Acceptable (rows : list Vec) : Prop := forall th, In th rows -> fits th /\ acceptable th.

Section Pop.
Variable kupd : M_PMCABC.pop Vec -> nat -> nat -> nat * Vec.
Variable kupdL : M_PMCABC.pop Vec -> Vec -> nat -> nat * Vec.
Variable kpdf : M_PMCABC.pop Vec -> Vec -> Vec -> num.
Variable dist : Data -> num.
Variable dist1 : Data -> list num.
Variable dist_max : num.
Variable mkrng : Z -> nat.
Variable reseed : nat -> nat.
Variable choice : nat -> list num -> nat -> res (nat * nat).
Variable choiceU : nat -> nat -> res (nat * nat).
Variable choiceL : list nat -> nat -> res (nat * nat).
Variable bern : num -> nat -> res (nat * bool).
Variable rand : nat -> nat * num.
Variable nexp : num -> num.
(** The first generations, sampled from the prior, on every graph, sampled before or not.  No condition on the graph is needed. *)
Theorem C96_rejection : forall eps fuel, nlt eps dist_max = true -> Free Any Every (w_rejection dist dist_max mkrng eps (S fuel)).
Proof.
  intros eps fuel He. apply (any_free g roots o base tries k Hg _ (fun x => fits (fst (fst x)))). intros seed _. unfold w_rejection. cbn [w_rejection_loop]. rewrite He. do 2 eexists. split; [reflexivity|].
  cbn [careful]. intros th Hth y. apply c_rejection_loop. intros th' E. injection E as <-. exact Hth.
Qed.
Theorem C96_rsmcabc_first : forall eps R dists fuel, nlt eps dist_max = true -> Free Any Every (w_rsmcabc kupd kpdf dist dist_max mkrng reseed choiceU bern eps R None dists (S fuel)).
Proof.
  intros eps R dists fuel He. apply (any_free g roots o base tries k Hg _ (fun x => fits (fst (fst (fst x))))). intros seed _. unfold w_rsmcabc, w_seed. cbn [w_rs_prior]. rewrite He. do 2 eexists. split; [reflexivity|].
  apply c_sim. intros y. apply c_rs_prior.
Qed.
Theorem C96_apmcabc_first : forall fuel, Free Any Every (w_apmcabc kupd kpdf dist mkrng reseed choice None fuel).
Proof.
  intros fuel. apply (any_free g roots o base tries k Hg _ (fun x => fits (fst (fst (fst x))))). intros seed _. unfold w_apmcabc, w_seed. do 2 eexists. split; [reflexivity|].
  apply c_sim. intros y. cbn [careful]. auto.
Qed.
Theorem C96_smcabc_first : forall kernel hits eps ys fuel, Free Any Every (w_smcabc kupd kupdL kpdf dist dist1 mkrng reseed choiceL bern kernel hits eps None ys fuel).
Proof.
  intros kernel hits eps ys fuel. apply (any_free g roots o base tries k Hg _ (fun x => fits (fst (fst (fst x))))). intros si _. unfold w_smcabc, w_seed. cbn [pbind]. do 2 eexists. split; [reflexivity|].
  apply (careful_bind g o (fun x => fits (fst (fst x)))); [apply c_sim; intros y; cbn [careful]; auto|]. intros [[th y] c] H. exact H.
Qed.
Theorem C96_sabc_first : forall n eps all_d sm fuel, Free Any Every (w_sabc kupd dist mkrng reseed choiceU bern rand nexp n eps None all_d sm (S fuel)).
Proof.
  intros n eps all_d sm fuel. apply (any_free g roots o base tries k Hg _ (fun x => fits (M_SABC.w_th Vec x))). intros seed _. unfold w_sabc, w_seed. cbn [w_sa_prior]. do 2 eexists. split; [reflexivity|].
  cbn [careful]. intros th Hth. apply c_sim. intros y. cbn [careful]. intros r r' [|] _; [exact Hth|apply c_sa_prior].
Qed.

(** The later generations, on every graph: the sequential backend lets the workers find the graph as the previous worker left it; with MPI and
    Spark a worker finds a copy of the scheduler's graph, which PMCABC and a restarted SMCABC never sample. *)
Hypothesis Hs : steady g o.
Hypothesis Hk : forall p i r, fits (snd (kupd p i r)).
Hypothesis Hh : hits_home g o base kupd.
Theorem C96_pmcabc : forall eps n mgr fuel, nlt eps dist_max = true -> Free Any Every (w_resample kupd dist dist_max mkrng reseed choice eps n mgr fuel).
Proof.
  intros eps n mgr fuel He. assert (HC : forall seed, careful g o (fun x => fits (fst (fst x))) (w_resample kupd dist dist_max mkrng reseed choice eps n mgr fuel seed)).
  { intros seed. unfold w_resample. cbn [careful]. intros r r' u _ th Hth. apply c_resample_loop; assumption. }
  apply (any_used g roots o base tries k Hg _ (fun x => fits (fst (fst x)))); intros seed _; [apply HC|apply f_resample; assumption|].
  apply (opens_fine _ _ _ _ _ _ _ _ (HC seed)). intros r. apply o_resample; assumption.
Qed.
Theorem C96_pmcabc_weight : forall n mgr, Free Any (fun th => fits th /\ acceptable th) (w_weight kpdf n mgr).
Proof.
  intros n mgr. assert (HC : forall th, fits th -> careful g o (fun _ => True) (w_weight kpdf n mgr th)).
  { intros th H1. unfold w_weight. destruct mgr as [p|]; [|exact I]. cbn [careful]. split; [exact H1|]. intros v. destruct (_ <? n); [exact I|]. destruct (negb _); exact I. }
  apply (any_used g roots o base tries k Hg _ (fun _ => True)); intros th [H1 H2]; [apply HC, H1|apply f_weight; assumption|]. destruct mgr as [p|]; [|apply done_fine].
  apply (opens_fine _ _ _ _ _ _ _ _ (HC th H1)). intros r. apply opens_dens; assumption.
Qed.
Theorem C96_rsmcabc : forall eps R mgr dists fuel, nlt eps dist_max = true -> (0 < R)%Z -> Population g o mgr -> Free Any Every (w_rsmcabc kupd kpdf dist dist_max mkrng reseed choiceU bern eps R mgr dists fuel).
Proof.
  intros eps R mgr dists fuel He HR Hm. assert (HC : forall seed, careful g o (fun x => fits (fst (fst (fst x)))) (w_rsmcabc kupd kpdf dist dist_max mkrng reseed choiceU bern eps R mgr dists fuel seed)) by (intros; apply c_rsmcabc; assumption).
  apply (any_used g roots o base tries k Hg _ (fun x => fits (fst (fst (fst x))))); intros seed _; [apply HC|apply f_rsmcabc; assumption|]. apply (opens_fine _ _ _ _ _ _ _ _ (HC seed)). intros r. apply o_rsmcabc; assumption.
Qed.
Theorem C96_apmcabc : forall mgr fuel, Free Any Every (w_apmcabc kupd kpdf dist mkrng reseed choice mgr fuel).
Proof.
  intros mgr fuel. assert (HC : forall seed, careful g o (fun x => fits (fst (fst (fst x)))) (w_apmcabc kupd kpdf dist mkrng reseed choice mgr fuel seed)) by (intros; apply c_apmcabc; assumption).
  apply (any_used g roots o base tries k Hg _ (fun x => fits (fst (fst (fst x))))); intros seed _; [apply HC|apply f_apmcabc; assumption|]. apply (opens_fine _ _ _ _ _ _ _ _ (HC seed)). intros r. apply o_apmcabc; assumption.
Qed.
Lemma pop_rows mgr : (forall p, mgr = Some p -> Acceptable (M_PMCABC.p_rows p)) -> rows_fit g o mgr.
Proof. intros H p E. apply Forall_forall. intros th Hth. apply (H p E th Hth). Qed.
Theorem C96_smcabc : (forall p th r, fits (snd (kupdL p th r))) -> forall kernel hits eps mgr ys fuel, (forall p, mgr = Some p -> Acceptable (M_PMCABC.p_rows p)) ->
  Free Any Every (w_smcabc kupd kupdL kpdf dist dist1 mkrng reseed choiceL bern kernel hits eps mgr ys fuel).
Proof.
  intros HL kernel hits eps mgr ys fuel Hm. assert (HC : forall si, careful g o (fun x => fits (fst (fst (fst x)))) (w_smcabc kupd kupdL kpdf dist dist1 mkrng reseed choiceL bern kernel hits eps mgr ys fuel si)) by (intros; apply c_smcabc; try assumption; apply pop_rows, Hm).
  apply (any_used g roots o base tries k Hg _ (fun x => fits (fst (fst (fst x))))); intros si _; [apply HC| |].
  - apply f_smcabc; try assumption. intros p th E Hth. apply (Hm p E th Hth).
  - apply (opens_fine _ _ _ _ _ _ _ _ (HC si)). intros r. apply o_smcabc; try assumption. intros p th E Hth. apply (Hm p E th Hth).
Qed.
Theorem C96_sabc : forall n eps mgr all_d sm fuel, Population g o mgr -> Free Any Every (w_sabc kupd dist mkrng reseed choiceU bern rand nexp n eps mgr all_d sm fuel).
Proof.
  intros n eps mgr all_d sm fuel Hm. assert (HC : forall seed, careful g o (fun x => fits (M_SABC.w_th Vec x)) (w_sabc kupd dist mkrng reseed choiceU bern rand nexp n eps mgr all_d sm fuel seed)) by (intros; apply c_sabc; assumption).
  apply (any_used g roots o base tries k Hg _ (fun x => fits (M_SABC.w_th Vec x))); intros seed _; [apply HC|apply f_sabc; assumption|]. apply (opens_fine _ _ _ _ _ _ _ _ (HC seed)). intros r. apply o_sabc; assumption.
Qed.
End Pop.

Section Subsim.
Variable Cov : Type.
Variable kupd : M_Subsim.kst Vec Cov -> nat -> nat -> nat * Vec.
Variable kpdf : M_Subsim.kst Vec Cov -> Vec -> Vec -> num.
Variable dist : Data -> num.
Variable mkrng : Z -> nat.
Variable reseed : nat -> nat.
Variable bern : num -> nat -> res (nat * bool).
Theorem C96_subsim_first : forall cl ann p fuel, Free Any Every (w_subsim Cov kupd kpdf dist mkrng reseed bern cl ann None p fuel).
Proof.
  intros cl ann p fuel. apply (any_free g roots o base tries k Hg _ (fun x => Forall (fun y => fits (fst y)) (fst x))). intros si _. unfold w_subsim, w_seed. do 2 eexists. split; [reflexivity|].
  cbn [careful]. intros th Hth. apply c_sim. intros y. repeat constructor. exact Hth.
Qed.
Hypothesis Hs : steady g o.
Hypothesis Hk : forall p i r, fits (snd (kupd p i r)).
(** the chains start by storing their first parameter, so no luck of the kernel is needed *)
Theorem C96_subsim : forall cl ann bds p fuel, (forall rows, bds = Some rows -> Acceptable rows) -> Free Any Every (w_subsim Cov kupd kpdf dist mkrng reseed bern cl ann bds p fuel).
Proof.
  intros cl ann bds p fuel Hb. assert (HC : forall si, careful g o (fun x => Forall (fun y => fits (fst y)) (fst x)) (w_subsim Cov kupd kpdf dist mkrng reseed bern cl ann bds p fuel si)).
  { intros si. apply c_subsim; [assumption|]. intros rows E. apply Forall_forall. intros th Hth. apply (Hb rows E th Hth). }
  apply (any_used g roots o base tries k Hg _ (fun x => Forall (fun y => fits (fst y)) (fst x))); intros si _; [apply HC| |].
  - apply f_subsim; try assumption. intros rows th E Hth. apply (Hb rows E th Hth).
  - apply (opens_fine _ _ _ _ _ _ _ _ (HC si)). intros r. apply o_subsim; try assumption. intros rows th E Hth. apply (Hb rows E th Hth).
Qed.
Theorem C96_subsim_cov : hits_home g o base kupd -> forall cl ann bds p fuel, Acceptable bds -> Free Any Every (w_cov_try Cov kupd kpdf dist mkrng reseed bern cl ann bds p fuel).
Proof.
  intros Hh cl ann bds p fuel Hb. assert (Hb' : Forall fits bds) by (apply Forall_forall; intros th Hth; apply (Hb th Hth)).
  apply (any_used g roots o base tries k Hg _ (fun _ => True)); intros seed _; [apply c_cov_try; assumption|apply f_cov_try; assumption|apply fine_cov_try; assumption].
Qed.
End Subsim.

Section PMC.
Variable kpdf : M_PMC.wpop Vec -> Vec -> Vec -> xr.
Variable loglik : Data -> xr.
Variable mkrng : Z -> nat.
Hypothesis Hs : steady g o.
Theorem C96_pmc_likelihood : Free Any (fun ts => fits (fst ts) /\ acceptable (fst ts)) (fun ts => w_log_lik loglik mkrng (fst ts) (snd ts)).
Proof.
  apply (any_used g roots o base tries k Hg _ (fun _ => True)); intros ts [H1 H2]; [apply c_log_lik, H1|apply f_log_lik; assumption|]. apply (opens_fine _ _ _ _ _ _ (fun _ => True)); [apply c_log_lik, H1|]. intros r. apply o_log_lik; assumption.
Qed.
Theorem C96_pmc_weight : forall n p, Free Any (fun th => fits th /\ acceptable th) (w_pm_weight kpdf n p).
Proof.
  intros n p. apply (any_used g roots o base tries k Hg _ (fun _ => True)); intros th [H1 H2]; [apply c_pm_weight, H1|apply f_pm_weight; assumption|]. apply (opens_fine _ _ _ _ _ _ (fun _ => True)); [apply c_pm_weight, H1|]. intros r. apply opens_dens; assumption.
Qed.
End PMC.
End Claims.

(** ** Hierarchies *)
(** everything before an occurrence of [m] contains [n] *)
Definition before (n m : nat) (l : list nat) : Prop := forall a b, l = a ++ m :: b -> In n a.
Lemma before_filter n m f l : f n = true -> before n m l -> before n m (filter f l).
Proof.
  intros Hf H a b E. assert (S : forall l a, filter f l = a ++ m :: b -> exists a0 b0, l = a0 ++ m :: b0 /\ filter f a0 = a).
  { clear - Hf. induction l as [|x l IH]; intros a E; cbn [filter] in E; [destruct a; discriminate|]. destruct (f x) eqn:Fx.
    - destruct a as [|y a]; cbn [app] in E; injection E as -> E; [exists [], l; split; reflexivity|]. destruct (IH a E) as (a0 & b0 & -> & <-). exists (y :: a0), b0. split; [reflexivity|]. cbn [filter]. rewrite Fx. reflexivity.
    - destruct (IH a E) as (a0 & b0 & -> & <-). exists (x :: a0), b0. split; [reflexivity|]. cbn [filter]. rewrite Fx. reflexivity. }
  destruct (S l a E) as (a0 & b0 & -> & <-). apply filter_In. split; [apply (H a0 b0 eq_refl)|exact Hf].
Qed.
Lemma before_first n m l : n <> m -> before n m l -> before n m (first_occ l).
Proof.
  intros Hnm. induction l as [|x l IH]; intros H; cbn [first_occ]; [exact H|]. destruct (Nat.eq_dec x n) as [->|Hx].
  - intros [|y a] b E; cbn [app] in E; injection E as Ey E; [contradiction|]. left. symmetry. exact Ey.
  - assert (H' : before n m l) by (intros a b ->; destruct (H (x :: a) b eq_refl) as [->|I]; [contradiction|exact I]).
    assert (F : before n m (filter (fun y => negb (Nat.eqb y x)) (first_occ l))) by (apply before_filter; [apply negb_true_iff, Nat.eqb_neq; congruence|apply IH, H']).
    intros [|y a] b E; cbn [app] in E; injection E as Ey E.
    + exfalso. apply (H [] l). rewrite Ey. reflexivity.
    + right. apply (F a b E).
Qed.
Lemma before_app n m l l' : before n m l -> before n m l' -> before n m (l ++ l').
Proof.
  intros H H'. revert H. induction l as [|x l IH]; intros H; [exact H'|]. intros [|y a] b E; cbn [app] in E; injection E as Ey E.
  - apply (H [] l). rewrite Ey. reflexivity.
  - destruct (Nat.eq_dec x n) as [->|Hx]; [left; congruence|]. right. apply (IH) with (b := b); [|exact E]. intros a0 b0 ->. destruct (H (x :: a0) b0 eq_refl) as [->|I]; [contradiction|exact I].
Qed.
Lemma before_concat n m ls : Forall (before n m) ls -> before n m (concat ls).
Proof. induction 1 as [|l ls H _ IH]; cbn [concat]; [intros [|? ?] b E; discriminate|apply before_app; assumption]. Qed.
Lemma expand_before g n m : wf g -> (forall c, In m (gpar g c) -> c = n) -> forall p l, Expand g p l -> p <> m -> before n m l.
Proof.
  intros [Hlt _] Hc. induction p as [p IH] using (well_founded_induction lt_wf). intros l E Hp. destruct E as [p ls F]. intros [|y a] b E; cbn [app] in E; injection E as Ey E; [contradiction|].
  destruct (Nat.eq_dec p n) as [->|Hn]; [left; congruence|]. right. apply (before_concat n m ls) with (b := b); [|exact E].
  assert (G : forall q, In q (gpar g p) -> q < p /\ q <> m) by (intros q Hq; split; [apply Hlt, Hq|intros ->; apply Hn, Hc, Hq]).
  clear - F IH G. induction F as [|q l qs ls H F IHF]; constructor.
  - destruct (G q (or_introl eq_refl)) as [G1 G2]. exact (IH q G1 l H G2).
  - apply IHF. intros q' Hq'. apply G. right. exact Hq'.
Qed.
(** A prior on a prior: m is an input of the parameter n only, and not of an observed model.  Then the parameters are met child first, and the
    condition of the theorems above fails unless the check of n does not look at its inputs.  (Of the distributions only the uniform one does
    look: continuousmodels.py:53-64.) *)
Theorem C96_hierarchy : forall g roots o n m, wf g -> ParamOrder g roots o -> In n o -> In m o ->
  In m (gpar g n) -> (forall c, In m (gpar g c) -> c = n) -> ~ In n roots ->
  (forall i, nth_error o i = Some n -> ~ In m (firstn i o))
  /\ (steady g o -> forall ins ins' v, gchk_out g n ins v = gchk_out g n ins' v).
Proof.
  intros g roots o n m Hwf (ls & F & Ho) Hn Hm Hnm Hc Hr.
  assert (Hne : n <> m) by (intros ->; apply (proj1 Hwf) in Hnm; lia).
  assert (B : before n m o).
  { rewrite Ho. apply before_filter; [rewrite Ho in Hn; apply filter_In in Hn; apply Hn|]. apply before_first; [exact Hne|]. apply before_concat.
    assert (G : forall q, In q (flat_map (gpar g) roots) -> q <> m) by (intros q Hq ->; apply in_flat_map in Hq; destruct Hq as (r & Hr' & Hq); apply Hc in Hq; subst r; contradiction).
    clear - F G Hwf Hc. induction F as [|q l qs ls H F IHF]; constructor; [apply (expand_before g n m Hwf Hc q l H), G; left; reflexivity|apply IHF; intros q' Hq'; apply G; right; exact Hq']. }
  assert (ND : NoDup o) by (rewrite Ho; apply NoDup_filter; clear; generalize (concat ls) as l; induction l as [|x l IH]; cbn [first_occ]; constructor; [intros H; apply filter_In in H; destruct H as [_ H]; rewrite Nat.eqb_refl in H; discriminate|apply NoDup_filter, IH]).
  assert (K : forall i, nth_error o i = Some n -> ~ In m (firstn i o)).
  { intros i Hi H. destruct (in_firstn_nth o i m H) as (j & Hj & Ej). apply nth_error_split in Ej. destruct Ej as (a & b & Eo & La). pose proof (B a b Eo) as I. apply In_nth_error in I. destruct I as (t & Et).
    assert (Lt : t < length a) by (apply nth_error_Some; congruence). assert (Et' : nth_error o t = Some n) by (rewrite Eo, nth_error_app1; assumption).
    assert (t = i) by (apply (proj1 (NoDup_nth_error o) ND); [apply nth_error_Some; congruence|congruence]). lia. }
  split; [exact K|]. intros Hs. destruct (In_nth_error _ _ Hn) as (i & Hi). destruct (Hs i n Hi) as [H|H]; [exact H|]. exfalso. unfold gpar in Hnm. apply in_map_iff in Hnm. destruct Hnm as ([m' j] & E & Hin). cbn in E. subst m'. exact (K i Hi (H m j Hin Hm)).
Qed.
Print Assumptions C96_hierarchy.

(** ** A child whose check looks at a parent that is stored after it *)
(** 0 and 1 are the numbers 0 and 10; X = 2 ~ U(0,10); Y = 3 ~ U(X,10); the observed model is uniform between Y and 10.  set_parameters meets Y
    before X, so that a proposed Y is checked against the X of the previous call. *)
Definition gv : graph := mkgraph [hy; hy; un 0 1; un 2 1; un 3 1].
Lemma gv_accepts : forall n ins t v rest, is_free gv n = true -> gchk_in gv n ins = true -> gsim gv n ins 1 t = Some (v :: rest) -> gchk_out gv n ins v = true.
Proof.
  intros n ins t v rest Hf Hin Hs. destruct n as [|[|[|[|[|n]]]]]; try discriminate Hf; [exact (gw_accepts 2 ins t v rest Hf Hin Hs)|exact (gw_accepts 3 ins t v rest Hf Hin Hs)|exact (gw_accepts 4 ins t v rest Hf Hin Hs)|destruct n; discriminate Hf].
Qed.
Lemma gv_ordinary : ordinary gv [4] [3; 2] basew.
Proof.
  assert (W : wf gv) by (apply mkgraph_wf; reflexivity). split.
  - exact W.
  - split; [apply indep_single, W|]. intros r [<-|[]]. reflexivity.
  - intros n. do 5 (destruct n as [|n]; [reflexivity|]). destruct n; reflexivity.
  - intros n ins t x _ H. cbn [gv mkgraph gsim] in H. destruct ins as [|[lo|] [|[hi|] [|]]]; try discriminate. injection H as <-. eexists _, []. split; reflexivity.
  - exact gv_accepts.
  - intros n v H. do 2 (destruct n as [|n]; [injection H as <-; reflexivity|]). destruct n; discriminate.
  - apply (L_Graph.ParamOrder_order gv W). vm_compute. reflexivity.
Qed.
(** the parameters are X = 2 and Y = 7 *)
Definition sv : st := mkst (fun _ => false) (fun n => nth n [Some [0]; Some [10]; Some [2]; Some [7]]%Q None) (fun _ => None) 0 [].
(** the kernel proposes (Y, X) = (4, 3) or (8, 6), both acceptable, as the generator decides *)
Definition kv (p : M_PMCABC.pop Vec) (i r : nat) : nat * Vec := (S r, if r =? 12 then [[4]; [3]]%Q else [[8]; [6]]%Q).
Definition rv : Z -> prog (Vec * num * nat) := w_resample kv dw (Fin 100) Z.to_nat (fun r => r + 10) (fun _ _ r => Ok (S r, 0)) (Fin 50) 2 (Some pw) 20.
Lemma kv_home : hits_home gv [3; 2] basew kv.
Proof.
  intros p i r. exists 0. split; [lia|]. cbn [draw_after kv snd]. intros j n v Hn Hv. destruct (r =? 12); destruct j as [|[|j]]; cbn in Hn, Hv; try (destruct j; discriminate); injection Hn as <-; injection Hv as <-; reflexivity.
Qed.
(** PMCABC with two work items, with the seeds 5 and 1.  Both processes start from identical copies of the graph.  One process: the second
    item gives (8, 6).  Two processes: it gives (4, 3). *)
Theorem C96_child_first_refuted :
  ordinary gv [4] [3; 2] basew /\ (forall p i r, fits gv [3; 2] (snd (kv p i r))) /\ hits_home gv [3; 2] basew kv
  /\ Used gv [4] [3; 2] basew sv
  /\ (exists x1 x2 x2' d1 d2 d2', spread gv [4] 3 1 rv [(0, 5%Z); (0, 1%Z)] (fun _ => sv) = Ok [(x1, d1, 1); (x2, d2, 1)]
       /\ spread gv [4] 3 1 rv [(0, 5%Z); (1, 1%Z)] (fun _ => sv) = Ok [(x1, d1, 1); (x2', d2', 1)]
       /\ x2 = [[8]; [6]]%Q /\ x2' = [[4]; [3]]%Q)
  /\ ~ Location_free gv [4] 3 1 (Any gv [4] [3; 2] basew) Every rv.
Proof.
  assert (St : Used gv [4] [3; 2] basew sv).
  { exists [[7]; [2]]%Q. assert (B : forall n, n = 4 \/ Anc gv n 4 -> n <= 4) by (intros n [->|H]; [lia|]; apply (L_Graph.Anc_lt gv (or_wf _ _ _ _ gv_ordinary)) in H; lia).
    split; [intros r n [<-|[]] Hn; reflexivity|]. split; [intros n v H; do 4 (destruct n as [|n]; [injection H as <-; reflexivity|]); destruct n; discriminate|].
    split; [repeat constructor|]. intros r n [<-|[]] Hn. apply B in Hn. do 5 (destruct n as [|n]; [reflexivity|]). lia. }
  split; [exact gv_ordinary|]. split; [intros p i r; cbn [kv snd]; destruct (r =? 12); repeat constructor|]. split; [exact kv_home|]. split; [exact St|].
  assert (E1 : match spread gv [4] 3 1 rv [(0, 5%Z); (0, 1%Z)] (fun _ => sv) with Ok [(x1, d1, c1); (x2, d2, c2)] => x1 = [[8]; [6]]%Q /\ c1 = 1 /\ x2 = [[8]; [6]]%Q /\ c2 = 1 | _ => False end) by (vm_compute; auto).
  assert (E2 : match spread gv [4] 3 1 rv [(0, 5%Z); (1, 1%Z)] (fun _ => sv) with Ok [(x1, d1, c1); (x2, d2, c2)] => x2 = [[4]; [3]]%Q | _ => False end) by (vm_compute; reflexivity).
  split.
  - do 6 eexists. split; [vm_compute; reflexivity|]. split; [vm_compute; reflexivity|]. split; reflexivity.
  - intros H. specialize (H [(0, 5%Z); (0, 1%Z)] [(0, 5%Z); (1, 1%Z)] (fun _ => sv) (fun _ => sv)). destruct H as [_ H]; try (repeat constructor; fail); try (intros; left; exact St).
    + intros E. rewrite E in E1. exact E1.
    + intros E. rewrite E in E2. exact E2.
    + specialize (H eq_refl). rewrite H in E1. destruct (spread gv [4] 3 1 rv [(0, 5%Z); (1, 1%Z)] (fun _ => sv)) as [[|[[x1 d1] c1] [|[[x2 d2] c2] [|]]]|]; try contradiction. destruct E1 as (_ & _ & E & _). rewrite E in E2. discriminate E2.
Qed.
Print Assumptions C96_rejection.
Print Assumptions C96_rsmcabc_first.
Print Assumptions C96_apmcabc_first.
Print Assumptions C96_smcabc_first.
Print Assumptions C96_sabc_first.
Print Assumptions C96_pmcabc.
Print Assumptions C96_pmcabc_weight.
Print Assumptions C96_rsmcabc.
Print Assumptions C96_apmcabc.
Print Assumptions C96_smcabc.
Print Assumptions C96_sabc.
Print Assumptions C96_subsim_first.
Print Assumptions C96_subsim.
Print Assumptions C96_subsim_cov.
Print Assumptions C96_pmc_likelihood.
Print Assumptions C96_pmc_weight.
Print Assumptions C96_child_first_refuted.

(** ** Cases *)
(** the graph of C95_case, where X is stored before Y: X's check does not look at a parameter, Y's looks at X *)
Lemma gw_steady : steady gw [2; 3].
Proof.
  intros i n Hn. right. intros m j Hm Ho. destruct i as [|[|i]]; cbn in Hn; [| |destruct i; discriminate]; injection Hn as <-; cbn in Hm, Ho |- *; intuition congruence.
Qed.
Lemma kw_home : hits_home gw [2; 3] basew kw.
Proof.
  assert (K : forall t p i r, draw_after kw p i t r = [[5]; [if t + r <? 13 then 11 else 8]]%Q).
  { induction t as [|t IH]; intros p i r; cbn [draw_after kw fst snd]; [reflexivity|]. rewrite IH. replace (t + S r) with (S t + r) by lia. reflexivity. }
  intros p i r. exists 13. split; [lia|]. rewrite K. assert (E : 13 + r <? 13 = false) by (apply Nat.ltb_ge; lia). rewrite E.
  intros j n v Hn Hv. destruct j as [|[|j]]; cbn in Hn, Hv; try (destruct j; discriminate); injection Hn as <-; injection Hv as <-; reflexivity.
Qed.
(** a copy that was never sampled *)
Definition uw : st := mkst (fun _ => false) basew (fun _ => None) 0 [].
Lemma uw_unsampled : Unsampled gw [4] [2; 3] basew uw.
Proof.
  split; [intros r n _ _; reflexivity|]. split; [intros n v H; do 2 (destruct n as [|n]; [injection H as <-; reflexivity|]); destruct n; discriminate|]. intros r n _ _ _. reflexivity.
Qed.
Definition rw : Z -> prog (Vec * num * nat) := w_resample kw dw (Fin 100) Z.to_nat (fun r => r + 10) (fun _ _ r => Ok (S r, 0)) (Fin 50) 2 (Some pw) 20.
Example C96_case :
  ordinary gw [4] [2; 3] basew /\ steady gw [2; 3] /\ hits_home gw [2; 3] basew kw /\ (forall p i r, fits gw [2; 3] (snd (kw p i r))) /\ nlt (Fin 50) (Fin 100) = true
  /\ Any gw [4] [2; 3] basew sw /\ Any gw [4] [2; 3] basew uw /\ Acceptable gw [2; 3] basew (M_PMCABC.p_rows pw)
  /\ match spread gw [4] 3 1 rw [(0, 1%Z); (0, 7%Z); (0, 1%Z)] (fun _ => sw), spread gw [4] 3 1 rw [(2, 1%Z); (1, 7%Z); (0, 1%Z)] (fun q => if q =? 1 then uw else sw) with
     | Ok [a; b; c], Ok [a'; b'; c'] => a = a' /\ b = b' /\ c = c' /\ a = c /\ fst (fst a) = [[5]; [8]]%Q /\ a <> b
     | _, _ => False
     end.
Proof.
  split; [exact gw_ordinary|]. split; [exact gw_steady|]. split; [exact kw_home|]. split; [intros p i r; cbn [kw snd]; repeat constructor|]. split; [reflexivity|].
  split; [left; eexists; exact (proj2 C95_hyps)|]. split; [right; exact uw_unsampled|]. split; [intros th [<-|[<-|[]]]; (split; [repeat constructor|]); intros j n v Hn Hv; destruct j as [|[|j]]; cbn in Hn, Hv; try (destruct j; discriminate); injection Hn as <-; injection Hv as <-; reflexivity|].
  vm_compute. intuition discriminate.
Qed.
(** RejectionABC, one copy never sampled *)
Example C96_first_case :
  match spread gw [4] 3 1 (w_rejection dw (Fin 100) Z.to_nat (Fin 5) 9) [(0, 1%Z); (0, 7%Z)] (fun _ => sw),
        spread gw [4] 3 1 (w_rejection dw (Fin 100) Z.to_nat (Fin 5) 9) [(0, 1%Z); (1, 7%Z)] (fun q => if q =? 1 then uw else sw) with
  | Ok [a; b], Ok [a'; b'] => a = a' /\ b = b' /\ a <> b
  | _, _ => False
  end.
Proof. vm_compute. intuition discriminate. Qed.
(** in [gv] the parameter X = 2 is an input of Y = 3 only *)
Example C96_hierarchy_case : In 2 (gpar gv 3) /\ (forall c, In 2 (gpar gv c) -> c = 3) /\ nth_error [3; 2] 0 = Some 3 /\ ~ steady gv [3; 2].
Proof.
  assert (A : forall c, In 2 (gpar gv c) -> c = 3) by (intros c H; destruct c as [|[|[|[|[|c]]]]]; cbn in H; try (destruct c; cbn in H); intuition congruence).
  split; [left; reflexivity|]. split; [exact A|]. split; [reflexivity|]. intros Hs.
  pose proof (proj2 (C96_hierarchy gv [4] [3; 2] 3 2 (or_wf _ _ _ _ gv_ordinary) (or_order _ _ _ _ gv_ordinary) (or_introl eq_refl) (or_intror (or_introl eq_refl)) (or_introl eq_refl) A ltac:(intros [H|[]]; discriminate)) Hs [Some 0%Q; Some 1%Q] [Some 2%Q; Some 3%Q] [1%Q]) as E. discriminate.
Qed.
