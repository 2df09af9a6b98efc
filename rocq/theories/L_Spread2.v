(** C96: the workers of the schemes are free of the state they find. *)
From Coq Require Import Reals.
From Verif Require Import M_Base M_Num M_XReal M_Infer M_PMCABC M_RSMCABC M_SMCABC M_SABC M_Subsim M_PMC M_Graph S_Graph M_Worker S_Worker L_Worker M_Worker2 L_Worker2 S_Spread L_Spread.
Open Scope nat_scope.

Section Workers.
Variables (g : graph) (roots o : list nat) (base : nat -> option (list Q)) (tries k : nat).
Hypothesis Hg : ordinary g roots o base.
Hypothesis Hs : steady g o.
Notation Free := (Free g roots o base tries k).
Notation free := (free g roots o base tries k).
Notation det := (det g roots o base tries k).
Notation fits := (fits g o).
Notation acceptable := (acceptable g o base).
Section Pop.
Variable kupd : pop Vec -> nat -> nat -> nat * Vec.
Variable kupdL : pop Vec -> Vec -> nat -> nat * Vec.
Variable kpdf : pop Vec -> Vec -> Vec -> num.
Variable dist : Data -> num.
Variable dist1 : Data -> list num.
Variable dist_max : num.
Variable mkrng : Z -> nat.
Variable reseed : nat -> nat.
Variable choice : nat -> list num -> nat -> res (nat * nat).
Variable choiceU : nat -> nat -> res (nat * nat).
Variable choiceL : list nat -> nat -> res (nat * nat).
Variable bern : num -> nat -> res (nat * bool).
Variable rand : nat -> nat * num.
Variable nexp : num -> num.
Hypothesis Hk : forall p i r, fits (snd (kupd p i r)).
Hypothesis Hh : hits_home g o base kupd.
Lemma d_propose p i fuel r : det (w_propose (pop Vec) kupd fuel p i) r.
Proof. apply (det_propose g roots o base tries k Hg Hs (pop Vec) kupd Hk Hh). Qed.
Lemma f_rejection eps fuel seed : Free (w_rejection dist dist_max mkrng eps fuel seed).
Proof.
  apply (seed_free _ _ _ _ _ _ _ (mkrng seed)); [reflexivity|]. destruct fuel as [|f]; cbn [w_rejection_loop]; destruct (nlt eps dist_max); apply det_free; first [apply det_err | apply det_prior].
Qed.
Lemma f_resample eps n mgr fuel seed : nlt eps dist_max = true -> Free (w_resample kupd dist dist_max mkrng reseed choice eps n mgr fuel seed).
Proof.
  intros He. apply (seed_free _ _ _ _ _ _ _ (reseed (mkrng seed))); [reflexivity|]. set (r0 := reseed (mkrng seed)).
  assert (G : exists x, forall theta cur, fits cur -> on_vector (set_of g roots o base) (dens_of g roots o base) (prior_of g roots o base tries) (sim_of g roots o base k) (w_resample_loop kupd dist choice eps n mgr fuel theta dist_max 0) cur r0 = x).
  { destruct fuel as [|f]; cbn [w_resample_loop]; rewrite He; [exists (Err OutOfFuel); reflexivity|]. destruct mgr as [p|].
    - assert (D : forall c : Vec -> prog (Vec * num * nat), det (Rand (choice n (p_w p)) (fun i => pbind (w_propose (pop Vec) kupd (S f) p i) c)) r0).
      { intros c. apply det_rand. intros r' i _. apply det_bind, d_propose. }
      destruct (D (fun th => Simu (fun y => match y with None => Done (Err TypeError) | Some y => w_resample_loop kupd dist choice eps n (Some p) f th (dist y) 1 end))) as (x & Hx).
      exists x. intros _ cur Hc. apply Hx, Hc.
    - destruct (det_prior g roots o base tries k (Get (fun th => Simu (fun y => match y with None => Done (Err TypeError) | Some y => w_resample_loop kupd dist choice eps n None f th (dist y) 1 end))) r0) as (x & Hx). exists x. intros _ cur Hc. apply Hx, Hc. }
  destruct G as (x & Hx). exists (forget x). intros cur Hc. cbn [M_Worker.on_vector]. rewrite (Hx cur cur Hc). reflexivity.
Qed.
Lemma f_dens {A} th (c : num -> prog A) : fits th -> acceptable th -> (forall v, exists x, c v = Done x) -> Free (Dens th c).
Proof.
  intros Ht Ha Hd. destruct (Hd (dens_of g roots o base th th)) as (x & E). exists x. intros cur r Hc. cbn [M_Worker.on_vector]. unfold M_Infer.pdf_of_prior.
  destruct (set_verdict g roots o base Hg Hs th cur Ht Hc) as [[_ V]|[N _]]; [|contradiction]. rewrite V. cbn [snd]. rewrite E. destruct x; reflexivity.
Qed.
Lemma f_weight n mgr th : fits th -> acceptable th -> Free (w_weight kpdf n mgr th).
Proof.
  intros Ht Ha. unfold w_weight. destruct mgr as [p|]; [|exists (Ok (M_Infer.ndiv (Fin 1) (Fin (inject_Z (Z.of_nat n))))); reflexivity]. apply f_dens; [exact Ht|exact Ha|]. intros v. destruct (length (p_rows p) <? n); [eexists; reflexivity|]. destruct (negb (length (p_w p) =? n)); eexists; reflexivity.
Qed.
Lemma f_rsmcabc eps R mgr dists fuel seed : nlt eps dist_max = true -> (0 < R)%Z -> Free (w_rsmcabc kupd kpdf dist dist_max mkrng reseed choiceU bern eps R mgr dists fuel seed).
Proof.
  intros He HR. apply (seed_free _ _ _ _ _ _ _ (reseed (mkrng seed))); [reflexivity|]. apply det_free. destruct mgr as [p|].
  - apply det_rand. intros r' i _. destruct (nth_error (p_rows p) i) as [theta|]; [|apply det_err]. destruct (Z.to_nat R) as [|K] eqn:EK; [lia|]. cbn [w_rs_moves]. apply det_bind, d_propose.
  - destruct fuel as [|f]; cbn [w_rs_prior]; rewrite He; [apply det_err|apply det_prior].
Qed.
Lemma f_apmcabc mgr fuel seed : Free (w_apmcabc kupd kpdf dist mkrng reseed choice mgr fuel seed).
Proof.
  apply (seed_free _ _ _ _ _ _ _ (reseed (mkrng seed))); [reflexivity|]. apply det_free. destruct mgr as [p|]; [|apply det_prior]. apply det_rand. intros r' i _. apply det_bind, d_propose.
Qed.
Lemma d_keep ys idx counter theta r : fits theta -> acceptable theta -> det (w_keep ys idx counter theta) r.
Proof. intros Ht Ha. unfold w_keep. destruct ys as [ys|]; [|apply det_err]. destruct (nth_error ys idx) as [y|]; [|apply det_err]. apply det_put; assumption. Qed.
Lemma f_smcabc kernel hits eps mgr ys fuel si : (forall p th, mgr = Some p -> In th (p_rows p) -> fits th /\ acceptable th) -> Free (w_smcabc kupd kupdL kpdf dist dist1 mkrng reseed choiceL bern kernel hits eps mgr ys fuel si).
Proof.
  intros Hm. apply (seed_free _ _ _ _ _ _ _ (reseed (mkrng (fst si)))); [reflexivity|]. apply det_free, det_bind. destruct mgr as [p|]; [|apply det_prior].
  destruct (nth_error (p_w p) (snd si)) as [w|]; [|apply det_err]. destruct (nth_error (p_rows p) (snd si)) as [theta|] eqn:N; [|apply det_err]. destruct (Hm p theta eq_refl (nth_error_In _ _ N)) as [Ht Ha].
  destruct (nlt (Fin 0) w); [|apply d_keep; assumption]. destruct kernel as [|[|kernel]].
  - apply det_bind, d_propose.
  - apply det_put; assumption.
  - unfold w_move2. destruct hits as [|hits].
    + destruct fuel; cbn [w_until pbind]; apply det_rand; intros r' [|L] _; apply det_err.
    + apply det_bind. destruct fuel as [|f]; cbn [w_until]; [apply det_err|]. apply det_bind. unfold w_pert_sim. apply det_bind, d_propose.
Qed.
Lemma f_sabc n eps mgr all_d sm fuel seed : Free (w_sabc kupd dist mkrng reseed choiceU bern rand nexp n eps mgr all_d sm fuel seed).
Proof.
  apply (seed_free _ _ _ _ _ _ _ (reseed (mkrng seed))); [reflexivity|]. apply det_free. destruct mgr as [p|].
  - apply det_rand. intros r' i _. destruct (nth_error (p_rows p) i) as [theta|]; [|apply det_err]. apply det_bind, d_propose.
  - destruct fuel as [|f]; cbn [w_sa_prior]; [apply det_err|apply det_prior].
Qed.
End Pop.
Section Subsim.
Variable Cov : Type.
Variable kupd : kst Vec Cov -> nat -> nat -> nat * Vec.
Variable kpdf : kst Vec Cov -> Vec -> Vec -> num.
Variable dist : Data -> num.
Variable mkrng : Z -> nat.
Variable reseed : nat -> nat.
Variable bern : num -> nat -> res (nat * bool).
Hypothesis Hk : forall p i r, fits (snd (kupd p i r)).
Hypothesis Hh : hits_home g o base kupd.
Lemma f_subsim cl ann bds p fuel si : (forall rows th, bds = Some rows -> In th rows -> fits th /\ acceptable th) -> Free (w_subsim Cov kupd kpdf dist mkrng reseed bern cl ann bds p fuel si).
Proof.
  intros Hb. apply (seed_free _ _ _ _ _ _ _ (reseed (mkrng (fst si)))); [reflexivity|]. apply det_free. destruct bds as [rows|]; [|apply det_prior].
  destruct (nth_error rows (snd si)) as [theta|] eqn:N; [|apply det_err]. destruct (Hb rows theta eq_refl (nth_error_In _ _ N)) as [Ht Ha]. apply det_put; assumption.
Qed.
Lemma f_cov_try cl ann bds p fuel seed : Free (w_cov_try Cov kupd kpdf dist mkrng reseed bern cl ann bds p fuel seed).
Proof.
  unfold w_cov_try. destruct bds as [|theta bds]; [exists (Err IndexError); reflexivity|]. apply (seed_free _ _ _ _ _ _ _ (reseed (mkrng seed))); [reflexivity|]. destruct cl as [|cl]; cbn [w_chain]; [exists (Ok 0); reflexivity|].
  apply det_free, det_bind, det_bind, (det_propose g roots o base tries k Hg Hs _ kupd Hk Hh).
Qed.
End Subsim.
Section PMC.
Variable kpdf : wpop Vec -> Vec -> Vec -> xr.
Variable loglik : Data -> xr.
Variable mkrng : Z -> nat.
Lemma f_log_lik th seed : fits th -> acceptable th -> Free (w_log_lik loglik mkrng th seed).
Proof. intros Ht Ha. apply (seed_free _ _ _ _ _ _ _ (mkrng seed)); [reflexivity|]. apply det_free, det_put; assumption. Qed.
Lemma f_pm_weight n p th : fits th -> acceptable th -> Free (w_pm_weight kpdf n p th).
Proof.
  intros Ht Ha. apply f_dens; [exact Ht|exact Ha|]. intros v. destruct (length (wp_rows p) <? n); [eexists; reflexivity|]. destruct (negb (length (wp_w p) =? n)); eexists; reflexivity.
Qed.
End PMC.
End Workers.
