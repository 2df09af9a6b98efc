(** C88: the Metropolis-Hastings sampler forgets where it started, and averages over its samples approach posterior expectations. *)
From Coq Require Import Reals Lra Lia.
From Verif Require Import M_Base M_Num M_MCMC S_MCMC M_XReal P_MCMC M_Stats L_PMC S_Stats L_Stats L_Distance L_PosDef L_Histogram S_Law P_Law L_Law L_Gen S_Consist L_LLN P_Law2 S_Ergodic L_Ergodic.
Open Scope R_scope.

Section Kernel.
Variables Theta A : Type.
Variable teq : forall x y : Theta, {x = y} + {x <> y}.
Variable inv : Theta -> Theta.
Variable Ys : list Theta.
Variable pi aj : Theta -> R.
Variable move : Theta -> A -> Theta.
Variable ll : Theta -> A -> R.
Variable outs : list A.
Variable p : A -> R.
Hypothesis Ys_distinct : NoDup Ys.
Hypothesis Ys_density : forall y, In y Ys -> 0 < pi (inv y).
Hypothesis stays : forall y a, In y Ys -> In (move y a) Ys \/ pi (inv (move y a)) = 0.
Hypothesis law : Law outs p.
Hypothesis symmetric : forall y y', In y Ys -> In y' Ys -> leads Theta A teq move outs p y y' = leads Theta A teq move outs p y' y.
Hypothesis connected : Connected outs p move Ys.
Notation state := (P_Law2.state Theta A).
Notation after_step := (after_step Theta A A inv pi aj move ll outs outs p p).
Notation after_steps := (after_steps Theta A A inv pi aj move ll outs outs p p).
Notation posterior := (posterior Theta A inv Ys pi aj ll outs p).
Notation accept := (accept Theta A inv pi aj ll).
Notation density_at := (density_at Theta A inv pi aj ll).
Definition ok (s : state) : Prop := In (fst s) Ys /\ In (snd s) outs.
(** expectation of f when the state has the posterior law *)
Definition post (f : state -> R) : R := posterior f / posterior (fun _ => 1).

Lemma inside y a : In y Ys -> pi (inv (move y a)) <> 0 -> In (move y a) Ys.
Proof. intros Hy H. destruct (stays y a Hy) as [X|X]; [exact X|contradiction]. Qed.
Lemma acc01 s s' : In (fst s) Ys -> In (fst s') Ys -> 0 < accept s s' <= 1.
Proof. exact (C75_accept Theta A inv Ys pi aj ll Ys_density s s'). Qed.
Lemma step_le f g s : (forall x, ok x -> f x <= g x) -> ok s -> after_step f s <= after_step g s.
Proof.
  intros H Hs. unfold P_Law2.after_step. apply (expect_le _ _ _ law). intros a Ha. destruct (Req_EM_T _ 0) as [E|E]; [apply H, Hs|]. pose proof (inside _ a (proj1 Hs) E) as Hi. apply (expect_le _ _ _ law). intros b Hb.
  pose proof (acc01 s (move (fst s) a, b) (proj1 Hs) Hi). pose proof (H (move (fst s) a, b) (conj Hi Hb)). pose proof (H s Hs). apply Rplus_le_compat; apply Rmult_le_compat_l; lra.
Qed.
Lemma step_lin c f g s : after_step (fun x => c * f x + g x) s = c * after_step f s + after_step g s.
Proof.
  unfold P_Law2.after_step. rewrite <- expect_scale, <- expect_plus. apply expect_ext. intros a _. destruct (Req_EM_T _ 0); [reflexivity|]. rewrite <- expect_scale, <- expect_plus. apply expect_ext. intros b _. ring.
Qed.
Lemma step_one c s : after_step (fun _ => c) s = c.
Proof.
  unfold P_Law2.after_step. transitivity (expect outs p (fun _ => c)); [|apply expect_const, law]. apply expect_ext. intros a _. destruct (Req_EM_T _ 0); [reflexivity|]. transitivity (expect outs p (fun _ => c)); [|apply expect_const, law]. apply expect_ext. intros b _. ring.
Qed.
Lemma posterior_lin c f g : posterior (fun x => c * f x + g x) = c * posterior f + posterior g.
Proof. unfold P_Law2.posterior. rewrite <- total_scale, <- total_plus. apply total_ext. intros y _. rewrite <- expect_scale, <- expect_plus. apply expect_ext. intros b _. ring. Qed.
Lemma density_pos s : In (fst s) Ys -> 0 < density_at s.
Proof. exact (P_Law2.density_pos Theta A inv Ys pi aj ll Ys_density s). Qed.
Lemma outs_ne : outs <> [].
Proof. intros E. destruct law as [_ H]. rewrite E in H. unfold total in H. cbn in H. lra. Qed.
Lemma expect_pos f : (forall a, In a outs -> 0 < f a) -> 0 < expect outs p f.
Proof.
  intros H. destruct (uniform_low (fun a c => c <= f a) outs) as (c & Hc & Hl); [intros; lra|intros a Ha; exists (f a); split; [apply H, Ha|lra]|].
  apply Rlt_le_trans with c; [exact Hc|]. rewrite <- (expect_const _ outs p c law). apply (expect_le _ _ _ law). exact Hl.
Qed.
Lemma norm_pos : 0 < posterior (fun _ => 1).
Proof.
  destruct connected as (_ & y0 & H0 & _). unfold P_Law2.posterior. apply Rlt_le_trans with (expect outs p (fun b => density_at (y0, b) * 1)).
  - apply expect_pos. intros b _. rewrite Rmult_1_r. apply density_pos. exact H0.
  - apply (member_le Ys (fun y => expect outs p (fun b => density_at (y, b) * 1)) y0 H0). intros y Hy. apply (expect_nonneg _ _ _ law). intros b _. rewrite Rmult_1_r. left. apply density_pos. exact Hy.
Qed.
Lemma post_lin c f g : post (fun x => c * f x + g x) = c * post f + post g.
Proof. unfold post. rewrite posterior_lin. pose proof norm_pos. field. lra. Qed.
Lemma post_one c : post (fun _ => c) = c.
Proof.
  unfold post. assert (E : posterior (fun _ => c) = c * posterior (fun _ => 1)) by (rewrite <- (Rplus_0_r (posterior (fun _ => c))); unfold P_Law2.posterior; rewrite <- total_scale, Rplus_0_r; apply total_ext; intros y _; rewrite <- expect_scale; apply expect_ext; intros; ring).
  rewrite E. pose proof norm_pos. field. lra.
Qed.
Lemma post_ext f g : (forall x, ok x -> f x = g x) -> post f = post g.
Proof. intros H. unfold post. f_equal. unfold P_Law2.posterior. apply total_ext. intros y Hy. apply expect_ext. intros b Hb. rewrite (H (y, b) (conj Hy Hb)). reflexivity. Qed.
Lemma invariant f : post (after_step f) = post f.
Proof. unfold post. f_equal. exact (C75_invariant Theta A A teq inv Ys pi aj move ll outs outs p p Ys_distinct Ys_density stays law law symmetric f 1). Qed.

(** one proposal, if it is inside the prior *)
Definition low (h : Theta -> R) (y : Theta) : R := expect outs p (fun a => if Req_EM_T (pi (inv (move y a))) 0 then 0 else h (move y a)).
Fixpoint lows (n : nat) (h : Theta -> R) (y : Theta) : R := match n with O => h y | S k => low (lows k h) y end.
Definition ave (f : state -> R) (y : Theta) : R := expect outs p (fun b => f (y, b)).
Lemma low_le h g y : In y Ys -> (forall z, In z Ys -> h z <= g z) -> low h y <= low g y.
Proof. intros Hy H. apply (expect_le _ _ _ law). intros a _. destruct (Req_EM_T _ 0) as [E|E]; [lra|]. apply H, inside; assumption. Qed.
Lemma low_scale c h y : low (fun z => c * h z) y = c * low h y.
Proof. unfold low. rewrite <- expect_scale. apply expect_ext. intros a _. destruct (Req_EM_T _ 0); ring. Qed.
Lemma lows_nonneg n h : (forall z, In z Ys -> 0 <= h z) -> forall y, In y Ys -> 0 <= lows n h y.
Proof. intros H. induction n as [|n IH]; intros y Hy; cbn [lows]; [apply H, Hy|]. apply (expect_nonneg _ _ _ law). intros a _. destruct (Req_EM_T _ 0) as [E|E]; [lra|]. apply IH, inside; assumption. Qed.
Lemma reach_low m y y' : Reach outs p move Ys m y y' -> In y Ys -> exists c, 0 < c /\ forall h, (forall z, In z Ys -> 0 <= h z) -> c * h y' <= lows m h y.
Proof.
  intros H. induction H as [y|m y d y' Hd Hp Hm H IH]; intros Hy; [exists 1; split; [lra|intros h _; cbn [lows]; lra]|].
  destruct (IH Hm) as (c & Hc & Hl). exists (p d * c). split; [apply Rmult_lt_0_compat; assumption|]. intros h Hh. cbn [lows]. unfold low, expect.
  eapply Rle_trans; [|apply (member_le outs (fun a => p a * (if Req_EM_T (pi (inv (move y a))) 0 then 0 else lows m h (move y a))) d Hd)].
  - destruct (Req_EM_T _ 0) as [E|E]; [specialize (Ys_density _ Hm); lra|]. rewrite Rmult_assoc. apply Rmult_le_compat_l; [lra|]. apply Hl, Hh.
  - intros a Ha. apply Rmult_le_pos; [apply (proj1 law), Ha|]. destruct (Req_EM_T _ 0) as [E|E]; [lra|]. apply lows_nonneg; [exact Hh|apply inside; assumption].
Qed.
Lemma accept_low : exists c, 0 < c /\ forall s s', ok s -> ok s' -> c <= accept s s'.
Proof.
  destruct (uniform_low (fun x c => c <= accept (fst x) (snd x)) (list_prod (list_prod Ys outs) (list_prod Ys outs))) as (c & Hc & H); [intros; lra| |].
  - intros [s s'] Hin. apply in_prod_iff in Hin. destruct Hin as [H1 H2]. destruct s as [y b], s' as [y' b']. apply in_prod_iff in H1, H2. exists (accept (y, b) (y', b')). split; [apply acc01; tauto|cbn; lra].
  - exists c. split; [exact Hc|]. intros [y b] [y' b'] [H1 H2] [H3 H4]. apply (H ((y, b), (y', b'))). apply in_prod; apply in_prod; assumption.
Qed.
Lemma step_low c f s : 0 < c -> (forall s s', ok s -> ok s' -> c <= accept s s') -> (forall x, ok x -> 0 <= f x) -> ok s -> c * low (ave f) (fst s) <= after_step f s.
Proof.
  intros Hc Ha Hf Hs. unfold low. rewrite <- expect_scale. apply (expect_le _ _ _ law). intros a Hin. destruct (Req_EM_T _ 0) as [E|E]; [rewrite Rmult_0_r; apply Hf, Hs|]. pose proof (inside _ a (proj1 Hs) E) as Hi.
  unfold ave. rewrite <- expect_scale. apply (expect_le _ _ _ law). intros b Hb. assert (Ho : ok (move (fst s) a, b)) by (split; assumption). pose proof (acc01 s (move (fst s) a, b) (proj1 Hs) Hi) as H1.
  pose proof (Ha s _ Hs Ho). pose proof (Hf _ Ho). pose proof (Hf s Hs). assert (0 <= (1 - accept s (move (fst s) a, b)) * f s) by (apply Rmult_le_pos; lra).
  assert (c * f (move (fst s) a, b) <= accept s (move (fst s) a, b) * f (move (fst s) a, b)) by (apply Rmult_le_compat_r; lra). lra.
Qed.
Notation steps := (steps state after_step).
Lemma steps_low c : 0 < c -> (forall s s', ok s -> ok s' -> c <= accept s s') -> forall n f s, (forall x, ok x -> 0 <= f x) -> ok s -> c ^ S n * lows (S n) (ave f) (fst s) <= steps (S n) f s.
Proof.
  intros Hc Ha. assert (Hnn : forall n f x, (forall x, ok x -> 0 <= f x) -> ok x -> 0 <= steps n f x).
  { induction n as [|n IH]; intros f x Hf Hx; cbn [L_Ergodic.steps]; [apply Hf, Hx|]. rewrite <- (step_one 0 x). apply step_le; [|exact Hx]. intros z Hz. apply IH; assumption. }
  induction n as [|n IH]; intros f s Hf Hs.
  - cbn [pow lows L_Ergodic.steps]. rewrite Rmult_1_r. change (fun y => ave f y) with (ave f). apply (step_low c f s Hc Ha Hf Hs).
  - change (steps (S (S n)) f s) with (after_step (steps (S n) f) s). apply Rle_trans with (c * low (ave (steps (S n) f)) (fst s)).
    + change (lows (S (S n)) (ave f) (fst s)) with (low (lows (S n) (ave f)) (fst s)). change (c ^ S (S n)) with (c * c ^ S n). rewrite Rmult_assoc. apply Rmult_le_compat_l; [lra|]. rewrite <- low_scale. apply low_le; [apply Hs|].
      intros z Hz. unfold ave at 2. rewrite <- (expect_const _ outs p (c ^ S n * lows (S n) (ave f) z) law). apply (expect_le _ _ _ law). intros b Hb. apply (IH f (z, b) Hf). split; assumption.
    + apply step_low; try assumption. intros x Hx. apply Hnn; assumption.
Qed.
Lemma minor : exists m d, (0 < m)%nat /\ 0 < d /\ forall f s, (forall x, ok x -> 0 <= f x) -> ok s -> d * post f <= steps m f s.
Proof.
  destruct (connected_uniform _ _ outs p move Ys connected) as (m & Hm & Hr). destruct accept_low as (c & Hc & Ha).
  destruct (uniform_low (fun x l => forall h, (forall z, In z Ys -> 0 <= h z) -> l * h (snd x) <= lows m h (fst x)) (list_prod Ys Ys)) as (l & Hl & HL).
  - intros [y y'] a a' Hin Ha' H h Hh. cbn [fst snd] in *. apply in_prod_iff in Hin. apply Rle_trans with (a * h y'); [apply Rmult_le_compat_r; [apply Hh, Hin|lra]|apply H, Hh].
  - intros [y y'] Hin. apply in_prod_iff in Hin. apply reach_low; [apply Hr; tauto|tauto].
  - destruct (upper_bound (list_prod Ys outs) density_at) as (M0 & H0 & HM). set (M := M0 + 1). assert (HMp : 0 < M) by (unfold M; lra). set (N := INR (length Ys)). assert (HN : 0 < N) by (apply lt_0_INR; destruct connected as (_ & y0 & Hy0 & _); destruct Ys; [destruct Hy0|cbn; lia]).
    pose proof norm_pos as HZ. set (Z := posterior (fun _ => 1)) in *. pose proof (pow_lt c m Hc) as Hcm.
    exists m, (c ^ m * (l / N) * (Z / M)). split; [exact Hm|]. split; [apply Rmult_lt_0_compat; [apply Rmult_lt_0_compat; [exact Hcm|]|]; apply Rdiv_lt_0_compat; assumption|].
    intros f s Hf Hs. assert (Have : forall y, In y Ys -> 0 <= ave f y) by (intros y Hy; apply (expect_nonneg _ _ _ law); intros b Hb; apply Hf; split; assumption).
    apply Rle_trans with (c ^ m * lows m (ave f) (fst s)); [|destruct m as [|m']; [lia|]; apply steps_low; assumption]. rewrite !Rmult_assoc. apply Rmult_le_compat_l; [lra|].
    assert (S1 : l * total (map (ave f) Ys) <= N * lows m (ave f) (fst s)).
    { rewrite <- total_scale. unfold N. rewrite <- total_const_map. apply total_le. intros y' Hy'. apply (HL (fst s, y')); [apply in_prod; [apply Hs|exact Hy']|exact Have]. }
    assert (S2 : posterior f <= M * total (map (ave f) Ys)).
    { unfold P_Law2.posterior. rewrite <- total_scale. apply total_le. intros y Hy. unfold ave. rewrite <- expect_scale. apply (expect_le _ _ _ law). intros b Hb. apply Rmult_le_compat_r; [apply Hf; split; assumption|].
      apply Rle_trans with M0; [apply HM, in_prod; assumption|unfold M; lra]. }
    unfold post. fold Z. replace (l / N * (Z / M * (posterior f / Z))) with (l * (posterior f / M) / N) by (field; lra). apply Rmult_le_reg_l with N; [exact HN|]. replace (N * (l * (posterior f / M) / N)) with (l * (posterior f / M)) by (field; lra).
    apply Rle_trans with (l * total (map (ave f) Ys)); [|exact S1]. apply Rmult_le_compat_l; [lra|]. apply Rmult_le_reg_l with M; [exact HMp|]. replace (M * (posterior f / M)) with (posterior f) by (field; lra). exact S2.
Qed.
(** the posterior expectation of a function of the parameters: prior times expected likelihood estimate, in the transformed space *)
Definition mass (y : Theta) : R := pi (inv y) * expect outs p (fun b => exp (ll (inv y) b)) * exp (- aj (inv y)).
Definition posterior_mean (g : Theta -> R) : R := total (map (fun y => mass y * g (inv y)) Ys) / total (map mass Ys).
Lemma post_mean g : post (fun s => g (inv (fst s))) = posterior_mean g.
Proof.
  unfold post, posterior_mean, mass. rewrite <- (C75_marginal Theta A A teq inv Ys pi aj move ll outs outs p p Ys_distinct Ys_density stays law law symmetric g 0). f_equal.
  transitivity (posterior (P_Law2.after_steps Theta A A inv pi aj move ll outs outs p p 0 (fun s => (fun _ => 1) (inv (fst s))))); [reflexivity|].
  rewrite (C75_marginal Theta A A teq inv Ys pi aj move ll outs outs p p Ys_distinct Ys_density stays law law symmetric (fun _ => 1) 0). apply total_ext. intros y _. ring.
Qed.
Lemma steps_eq n f : forall s, ok s -> steps n f s = after_steps n f s.
Proof. induction n as [|n IH]; intros s Hs; cbn [L_Ergodic.steps P_Law2.after_steps]; [reflexivity|]. apply (step_ext _ ok after_step step_le); assumption. Qed.
Lemma mixing : exists m d, (0 < m)%nat /\ 0 < d /\
  (forall f M s n, ok s -> (forall x, ok x -> Rabs (f x - post f) <= M) -> Rabs (steps n f s - post f) <= M * (1 - d) ^ (n / m)) /\
  (forall f M n e s, (0 < n)%nat -> 0 < e -> (forall x, ok x -> Rabs (f x - post f) <= M) -> ok s ->
    along after_step n (fun l => if far e (average (map f l)) (post f) then 1 else 0) s <= (1 + 2 * INR m / d) * M ^ 2 / (INR n * e ^ 2)) /\
  d <= 1.
Proof.
  destruct minor as (m & d & Hm & Hd & H). exists m, d. split; [exact Hm|]. split; [exact Hd|]. split; [|split].
  - intros f M s n Hs HM. apply (converges _ ok after_step post step_le step_lin step_one post_lin post_one invariant m d Hm H f M s n HM Hs).
  - intros f M n e s Hn He HM Hs. apply (along_average _ ok after_step post step_le step_lin step_one post_lin post_one invariant m d Hm Hd H f M n e s Hn He HM Hs).
  - destruct connected as (_ & y0 & H0 & _). pose proof outs_ne as Hne. destruct outs as [|b o] eqn:E; [contradiction|]. rewrite <- E in *. apply (d_le _ ok after_step post step_le step_one post_one m d H (y0, b)). split; [exact H0|cbn [snd]; rewrite E; left; reflexivity].
Qed.
(** C88 (the law of the chain): from every start, the expectation after k steps approaches that of the posterior geometrically. *)
Theorem C88_converges : exists m d, (0 < m)%nat /\ 0 < d <= 1 /\ forall g M s k, ok s -> (forall y, In y Ys -> Rabs (g (inv y) - posterior_mean g) <= M) ->
  Rabs (after_steps k (fun s => g (inv (fst s))) s - posterior_mean g) <= M * (1 - d) ^ (k / m).
Proof.
  destruct mixing as (m & d & Hm & Hd & H & _ & Hd1). exists m, d. split; [exact Hm|]. split; [lra|]. intros g M s k Hs HM. rewrite <- steps_eq by exact Hs. rewrite <- post_mean in *. apply H; [exact Hs|]. intros x Hx. apply HM, Hx.
Qed.
End Kernel.
Print Assumptions C88_converges.

Section Code.
Variables Theta Y Cov A : Type.
Variable teq : forall x y : Theta, {x = y} + {x <> y}.
Variable fzero : xr -> bool.
Variable setp : Theta -> Theta -> bool * Theta.
Variable pdfv : Theta -> Theta -> xr.
Variable kupd : Theta -> Cov -> list A -> list A * Theta.
Variable prior : list A -> list A * Theta.
Variable simc : Theta -> list A -> list A * option Y.
Variable loglik : Y -> xr.
Variable tr : Theta -> res Theta.
Variable inv : Theta -> Theta.
Variable ldj : Theta -> res xr.
Variable unif : list A -> list A * xr.
Variable eye : Theta -> Cov.
Variable adapt : list Theta -> Cov.
Notation mh_step := (mh_step Theta (list A) Y xr Cov xadd xsub xmul xdiv xexp xlt fzero setp pdfv kupd simc loglik inv ldj unif adapt).
Notation mh_loop := (mh_loop Theta (list A) Y xr Cov xadd xsub xmul xdiv xexp xlt fzero setp pdfv kupd simc loglik inv ldj unif adapt).
Notation mh_sample := (mh_sample Theta (list A) Y xr Cov xadd xsub xmul xdiv xexp xlt fzero setp pdfv kupd prior simc loglik tr inv ldj unif eye adapt).
Notation chain := (chain Theta (list A) xr Cov).
Notation mkch := (mkch Theta (list A) xr Cov).
Notation c_pt := (c_pt Theta (list A) xr Cov).
Notation c_acc := (c_acc Theta (list A) xr Cov).
Notation c_sims := (c_sims Theta (list A) xr Cov).
Notation c_cov := (c_cov Theta (list A) xr Cov).
Notation c_burn := (c_burn Theta (list A) xr Cov).
Notation c_trace := (c_trace Theta (list A) xr Cov).
Notation c_cur := (c_cur Theta (list A) xr Cov).
Notation c_rng := (c_rng Theta (list A) xr Cov).

(** the generator is the list of outcomes still to be drawn: a perturbation, a simulation, a uniform number and a sample of the prior take one each *)
Variable Ys : list Theta.
Variable Covs : list Cov.
Variable pi aj : Theta -> R.
Variable move : Cov -> Theta -> A -> Theta.
Variable dat : Theta -> A -> Y.
Variable ll : Theta -> A -> R.
Variable uu : A -> R.
Variable start : A -> Theta.
Variable outs : list A.
Variable p : A -> R.
Hypothesis law : Law outs p.
Hypothesis kupd_draw : forall y cov a l, kupd y cov (a :: l) = (l, move cov y a).
Hypothesis sim_draw : forall th a l, simc th (a :: l) = (l, Some (dat th a)).
Hypothesis loglik_ok : forall th a, loglik (dat th a) = XR (ll th a).
Hypothesis unif_draw : forall a l, unif (a :: l) = (l, XR (uu a)).
Hypothesis prior_draw : forall a l, prior (a :: l) = (l, start a).
Hypothesis unit_range : forall a, 0 <= uu a < 1.
Hypothesis fzero_ok : forall x, fzero (XR x) = true <-> x = 0.
Hypothesis density : forall th cur, pdfv th (snd (setp th cur)) = XR (pi th).
Hypothesis assigned : forall th cur, pi th <> 0 -> snd (setp th cur) = th.
Hypothesis jacobian : forall th, ldj th = Ok (XR (aj th)).
Hypothesis Ys_distinct : NoDup Ys.
Hypothesis Ys_density : forall y, In y Ys -> 0 < pi (inv y).
(** what every covariance matrix that may be used has to satisfy *)
Hypothesis stays : forall cov y a, In cov Covs -> In y Ys -> In (move cov y a) Ys \/ pi (inv (move cov y a)) = 0.
Hypothesis symmetric : forall cov y y', In cov Covs -> In y Ys -> In y' Ys -> leads Theta A teq (move cov) outs p y y' = leads Theta A teq (move cov) outs p y' y.
Hypothesis connected : forall cov, In cov Covs -> Connected outs p (move cov) Ys.
Hypothesis adapt_in : forall l, In (adapt l) Covs.
Hypothesis eye_in : forall y, In (eye y) Covs.
Notation state := (P_Law2.state Theta A).
Notation accept := (accept Theta A inv pi aj ll).
Notation point := (point Theta A inv pi aj ll).
Notation ok := (ok Theta A Ys outs).
Notation after_step cov := (after_step Theta A A inv pi aj (move cov) ll outs outs p p).
Notation posterior_mean := (posterior_mean Theta A inv Ys pi aj ll outs p).
(** the uniform numbers decide with the right probabilities *)
Hypothesis fair : forall s s', ok s -> ok s' -> chance outs p (fun a => if Rlt_dec (uu a) (accept s s') then true else false) = accept s s'.

(** the next n states with given draws *)
Fixpoint path (cov : Cov) (n : nat) (s : state) (l : list A) : list state :=
  match n, l with
  | S k, a :: l1 => if Req_EM_T (pi (inv (move cov (fst s) a))) 0 then s :: path cov k s l1 else
      match l1 with
      | b :: u :: l2 => let s' := if Rlt_dec (uu u) (accept s (move cov (fst s) a, b)) then (move cov (fst s) a, b) else s in s' :: path cov k s' l2
      | _ => []
      end
  | _, _ => []
  end.
Lemma inside1 cov y a : In cov Covs -> In y Ys -> pi (inv (move cov y a)) <> 0 -> In (move cov y a) Ys.
Proof. intros Hc Hy H. destruct (stays cov y a Hc Hy) as [X|X]; [exact X|contradiction]. Qed.
Lemma last_cons {T} (x d : T) l : last (x :: l) d = last l x.
Proof. revert x d. induction l as [|y l IH]; intros x d; [reflexivity|]. change (last (x :: y :: l) d) with (last (y :: l) d). rewrite !IH. reflexivity. Qed.
Lemma loop_path burnin interval cov : In cov Covs -> forall n aStep c s l, In (fst s) Ys -> (burnin <= aStep)%nat -> c_pt c = point s -> c_cov c = cov -> c_rng c = l -> (3 * n <= length l)%nat ->
  exists c', mh_loop burnin interval aStep n c = Ok c' /\ c_trace c' = c_trace c ++ map (fun s => inv (fst s)) (path cov n s l) /\ c_pt c' = point (last (path cov n s l) s).
Proof.
  intros Hcov. induction n as [|n IH]; intros aStep c s l Hy Hb Hc Hv Hr Hl.
  - exists c. cbn [M_MCMC.mh_loop path map last]. split; [reflexivity|]. split; [rewrite app_nil_r; reflexivity|exact Hc].
  - destruct l as [|a l]; [cbn in Hl; lia|]. cbn [length] in Hl.
    destruct (C75_step Theta (list A) Y Cov A A fzero setp pdfv kupd simc loglik inv ldj unif adapt Ys pi aj (move cov) ll fzero_ok density assigned jacobian Ys_density (fun y a => stays cov y a Hcov)
      burnin interval aStep c s a l Hy Hb Hc) as [H1 H2]; [rewrite Hv, Hr; apply kupd_draw|]. cbn [M_MCMC.mh_loop path]. destruct (Req_EM_T _ 0) as [E|E].
    + destruct (H1 E) as (c1 & -> & Hc1 & Hv1 & Ht & Hr1). destruct (IH (S aStep) c1 s l Hy ltac:(lia) Hc1 ltac:(congruence) Hr1 ltac:(lia)) as (c' & Ec & Et & Ep). exists c'. split; [exact Ec|].
      split; [rewrite Et, Ht, <- app_assoc; reflexivity|]. rewrite last_cons. exact Ep.
    + destruct l as [|b [|u l2]]; try (cbn in Hl; lia). cbn [length] in Hl. destruct (H2 E b (u :: l2) (dat (inv (move cov (fst s) a)) b) l2 (uu u)) as (c1 & -> & Hv1 & Hr1 & Hc1 & Ht);
        [apply sim_draw|apply loglik_ok|apply unif_draw|apply unit_range|]. cbv zeta in *. set (s' := if Rlt_dec _ _ then _ else _) in *.
      assert (Hy' : In (fst s') Ys) by (unfold s'; destruct (Rlt_dec _ _); [apply inside1; assumption|exact Hy]).
      destruct (IH (S aStep) c1 s' l2 Hy' ltac:(lia) Hc1 ltac:(congruence) Hr1 ltac:(lia)) as (c' & Ec & Et & Ep). exists c'. split; [exact Ec|].
      split; [rewrite Et, Ht, <- app_assoc; reflexivity|]. rewrite last_cons. exact Ep.
Qed.
Lemma path_mean cov : In cov Covs -> forall n k F s, ok s -> (3 * n <= k)%nat -> mean outs p k (fun l => F (path cov n s l)) = along (after_step cov) n F s.
Proof.
  intros Hcov. induction n as [|n IH]; intros k F s Hs Hk; cbn [along path]; [apply (mean_const _ _ _ law)|]. destruct k as [|[|[|k]]]; try lia. cbn [mean]. unfold P_Law2.after_step at 1. apply expect_ext. intros a _.
  destruct (Req_EM_T _ 0) as [E|E].
  - cbv beta. rewrite <- (IH (S (S k)) (fun l => F (s :: l)) s Hs ltac:(lia)). reflexivity.
  - apply expect_ext. intros b Hb. pose proof (inside1 cov _ a Hcov (proj1 Hs) E) as Hi. set (s1 := (move cov (fst s) a, b)). assert (H1 : ok s1) by (split; assumption).
    transitivity (expect outs p (fun u => along (after_step cov) n (fun l => F (s1 :: l)) s1 * (if if Rlt_dec (uu u) (accept s s1) then true else false then 1 else 0)
      + along (after_step cov) n (fun l => F (s :: l)) s * (if negb (if Rlt_dec (uu u) (accept s s1) then true else false) then 1 else 0))).
    + apply expect_ext. intros u _. fold s1. destruct (Rlt_dec (uu u) (accept s s1)); cbn [negb]; cbv zeta.
      * rewrite <- (IH k (fun l => F (s1 :: l)) s1 H1 ltac:(lia)). rewrite Rmult_0_r, Rplus_0_r, Rmult_1_r. reflexivity.
      * rewrite <- (IH k (fun l => F (s :: l)) s Hs ltac:(lia)). rewrite Rmult_0_r, Rplus_0_l, Rmult_1_r. reflexivity.
    + rewrite expect_plus, !expect_scale. pose proof (fair s s1 Hs H1) as Hf. pose proof (chance_neg _ _ _ (fun u => if Rlt_dec (uu u) (accept s s1) then true else false) law) as Hn. rewrite Hf in Hn. unfold chance in Hf, Hn. rewrite Hf, Hn. rewrite (Rmult_comm (accept s s1)), (Rmult_comm (1 - accept s s1)). reflexivity.
Qed.
(** C88 (the code): the recorded samples have the law of the chain. *)
Theorem C88_law : forall burnin interval cov n k F acc sims burn trace cur s aStep, In cov Covs -> ok s -> (burnin <= aStep)%nat -> (3 * n <= k)%nat ->
  mean outs p k (fun l => match mh_loop burnin interval aStep n (mkch (point s) acc sims cov burn trace cur l) with Ok c => F (c_trace c) | Err _ => 0 end) =
  along (after_step cov) n (fun ss => F (trace ++ map (fun s => inv (fst s)) ss)) s.
Proof.
  intros burnin interval cov n k F acc sims burn trace cur s aStep Hcov Hs Hb Hk. rewrite <- (path_mean cov Hcov n k (fun ss => F (trace ++ map (fun s => inv (fst s)) ss)) s Hs Hk). apply mean_ext. intros l Hl.
  destruct (loop_path burnin interval cov Hcov n aStep (mkch (point s) acc sims cov burn trace cur l) s l (proj1 Hs) Hb eq_refl eq_refl eq_refl ltac:(lia)) as (c' & -> & -> & _). reflexivity.
Qed.
(** C88 (one sample): the position after n recorded steps is distributed almost as the posterior, whatever the start. *)
Theorem C88_forget : forall cov, In cov Covs -> exists m d, (0 < m)%nat /\ 0 < d <= 1 /\ forall g M s n k burnin interval acc sims burn trace cur aStep, ok s -> (burnin <= aStep)%nat -> (3 * n <= k)%nat ->
  (forall y, In y Ys -> Rabs (g (inv y) - posterior_mean g) <= M) ->
  Rabs (mean outs p k (fun l => match mh_loop burnin interval aStep n (mkch (point s) acc sims cov burn trace cur l) with Ok c => g (q_th Theta xr (c_pt c)) | Err _ => 0 end) - posterior_mean g) <= M * (1 - d) ^ (n / m).
Proof.
  intros cov Hcov. destruct (C88_converges Theta A teq inv Ys pi aj (move cov) ll outs p Ys_distinct Ys_density (fun y a => stays cov y a Hcov) law (fun y y' => symmetric cov y y' Hcov) (connected cov Hcov)) as (m & d & Hm & Hd & H).
  exists m, d. split; [exact Hm|]. split; [exact Hd|]. intros g M s n k burnin interval acc sims burn trace cur aStep Hs Hb Hk HM. specialize (H g M s n Hs HM).
  rewrite (mean_ext _ _ _ k _ (fun l => g (inv (fst (last (path cov n s l) s))))).
  - rewrite (path_mean cov Hcov n k (fun ss => g (inv (fst (last ss s)))) s Hs Hk). replace (along (after_step cov) n (fun ss => g (inv (fst (last ss s)))) s) with (P_Law2.after_steps Theta A A inv pi aj (move cov) ll outs outs p p n (fun s => g (inv (fst s))) s); [exact H|].
    clear H HM Hk. revert s Hs. induction n as [|n IH]; intros s Hs; [reflexivity|]. cbn [P_Law2.after_steps along].
    apply (step_ext _ ok (after_step cov) (step_le Theta A inv Ys pi aj (move cov) ll outs p Ys_density (fun y a => stays cov y a Hcov) law)); [|exact Hs]. intros x Hx. rewrite (IH x Hx).
    apply (along_ext _ ok (after_step cov) (step_le Theta A inv Ys pi aj (move cov) ll outs p Ys_density (fun y a => stays cov y a Hcov) law)); [|exact Hx]. intros l _ _. rewrite last_cons. reflexivity.
  - intros l Hl. destruct (loop_path burnin interval cov Hcov n aStep (mkch (point s) acc sims cov burn trace cur l) s l (proj1 Hs) Hb eq_refl eq_refl eq_refl ltac:(lia)) as (c' & -> & _ & ->). reflexivity.
Qed.

Definition setr (c : chain) (l : list A) : chain := mkch (c_pt c) (c_acc c) (c_sims c) (c_cov c) (c_burn c) (c_trace c) (c_cur c) l.
(** a chain inside the prior with an allowed covariance matrix *)
Definition valid (c : chain) : Prop := In (c_cov c) Covs /\ exists s, ok s /\ c_pt c = point s.
Lemma warm_step burnin interval aStep c : interval <> Some O -> (aStep < burnin)%nat -> valid c -> forall a, In a outs ->
  (exists c0, valid c0 /\ c_trace c0 = c_trace c /\ forall l, mh_step burnin interval aStep (setr c (a :: l)) = Ok (setr c0 l)) \/
  (forall b u, In b outs -> exists c0, valid c0 /\ c_trace c0 = c_trace c /\ forall l, mh_step burnin interval aStep (setr c (a :: b :: u :: l)) = Ok (setr c0 l)).
Proof.
  intros Hi Hb (Hcov & s & Hs & Hc) a Ha. assert (Eb : (burnin <=? aStep)%nat = false) by (apply Nat.leb_gt; exact Hb).
  destruct (Req_EM_T (pi (inv (move (c_cov c) (fst s) a))) 0) as [E|E].
  - left. exists (mkch (c_pt c) (c_acc c) (c_sims c) (c_cov c) (c_burn c ++ [q_th Theta xr (c_pt c)]) (c_trace c) (snd (setp (inv (move (c_cov c) (fst s) a)) (c_cur c))) []).
    split; [split; [exact Hcov|exists s; split; assumption]|]. split; [reflexivity|]. intros l. unfold M_MCMC.mh_step, setr. cbn [M_MCMC.c_pt M_MCMC.c_acc M_MCMC.c_sims M_MCMC.c_cov M_MCMC.c_burn M_MCMC.c_trace M_MCMC.c_cur M_MCMC.c_rng].
    rewrite Hc. change (q_tr Theta xr (point s)) with (fst s). rewrite kupd_draw. cbv zeta. rewrite density, Eb. rewrite (proj2 (fzero_ok _) E). reflexivity.
  - right. intros b u Hin. pose proof (inside1 _ _ a Hcov (proj1 Hs) E) as Hins.
    set (th := inv (move (c_cov c) (fst s) a)) in *. set (s1 := point (move (c_cov c) (fst s) a, b)).
    set (t := if xlt (XR (uu u)) (alpha Theta xr xadd xsub xmul xdiv xexp (point s) s1) then s1 else point s). set (bu := c_burn c ++ [q_th Theta xr t]).
    exists (mkch t (c_acc c) (S (c_sims c)) (match interval with None => c_cov c | Some k => if ((aStep + 1) mod k =? 0)%nat then adapt bu else c_cov c end) bu (c_trace c) th []).
    split; [|split; [reflexivity|]].
    + split; cbn [M_MCMC.c_cov M_MCMC.c_pt]; [destruct interval as [k|]; [destruct (_ =? _)%nat; [apply adapt_in|exact Hcov]|exact Hcov]|]. unfold t. destruct (xlt _ _); [exists (move (c_cov c) (fst s) a, b); split; [split; assumption|reflexivity]|exists s; split; [exact Hs|reflexivity]].
    + intros l. unfold M_MCMC.mh_step, setr. cbn [M_MCMC.c_pt M_MCMC.c_acc M_MCMC.c_sims M_MCMC.c_cov M_MCMC.c_burn M_MCMC.c_trace M_MCMC.c_cur M_MCMC.c_rng]. rewrite Hc. change (q_tr Theta xr (point s)) with (fst s). rewrite kupd_draw. cbv zeta. rewrite density, Eb. fold th.
      destruct (fzero (XR (pi th))) eqn:Ez; [apply fzero_ok in Ez; contradiction|]. unfold sim_ll. rewrite !(assigned _ _ E), sim_draw, loglik_ok, jacobian, unif_draw, andb_false_r. fold th.
      change (mkpt Theta xr th (move (c_cov c) (fst s) a) (XR (ll th b)) (XR (pi th)) (XR (aj th))) with s1. fold t. fold bu. destruct interval as [[|k]|]; [contradiction| |]; reflexivity.
Qed.
Lemma warm_up burnin interval n (bad : res chain -> R) Bd : interval <> Some O -> (forall r, 0 <= bad r) ->
  (forall c k, valid c -> c_trace c = [] -> (3 * n <= k)%nat -> mean outs p k (fun l => bad (mh_loop burnin interval burnin n (setr c l))) <= Bd) ->
  forall j aStep c k, (aStep + j = burnin)%nat -> valid c -> c_trace c = [] -> (3 * (j + n) <= k)%nat -> mean outs p k (fun l => bad (mh_loop burnin interval aStep (j + n) (setr c l))) <= Bd.
Proof.
  intros Hi Hbad Base. induction j as [|j IH]; intros aStep c k Hj Hv Ht Hk; [replace aStep with burnin by lia; apply Base; assumption|].
  destruct k as [|[|[|k]]]; try lia. cbn [mean]. rewrite <- (expect_const _ outs p Bd law). apply (expect_le _ _ _ law). intros a Ha. destruct (warm_step burnin interval aStep c Hi ltac:(lia) Hv a Ha) as [(c0 & Hv0 & Ht0 & H0)|H].
  - apply Rle_trans with (mean outs p (S (S k)) (fun l => bad (mh_loop burnin interval (S aStep) (j + n) (setr c0 l)))); [|apply IH; [lia|exact Hv0|congruence|lia]]. right. apply (mean_ext _ outs p (S (S k)) (fun l => bad (mh_loop burnin interval aStep (S j + n) (setr c (a :: l))))). intros l _. cbn [Nat.add M_MCMC.mh_loop]. rewrite H0. reflexivity.
  - rewrite <- (expect_const _ outs p Bd law). apply (expect_le _ _ _ law). intros b Hb. rewrite <- (expect_const _ outs p Bd law). apply (expect_le _ _ _ law). intros u _. destruct (H b u Hb) as (c0 & Hv0 & Ht0 & H0).
    apply Rle_trans with (mean outs p k (fun l => bad (mh_loop burnin interval (S aStep) (j + n) (setr c0 l)))); [|apply IH; [lia|exact Hv0|congruence|lia]]. right. apply mean_ext. intros l _. cbn [Nat.add M_MCMC.mh_loop]. rewrite H0. reflexivity.
Qed.
Lemma loop_average : exists K, 0 <= K /\ forall burnin interval g M n e c k, (0 < n)%nat -> 0 < e -> (forall y, In y Ys -> Rabs (g (inv y) - posterior_mean g) <= M) -> valid c -> c_trace c = [] -> (3 * n <= k)%nat ->
  mean outs p k (fun l => if match mh_loop burnin interval burnin n (setr c l) with Ok c' => far e (average (map g (c_trace c'))) (posterior_mean g) | Err _ => true end then 1 else 0) <= K * M ^ 2 / (INR n * e ^ 2).
Proof.
  destruct (uniform_high (fun cov K => forall g M n e s, (0 < n)%nat -> 0 < e -> (forall y, In y Ys -> Rabs (g (inv y) - posterior_mean g) <= M) -> ok s ->
      along (after_step cov) n (fun ss => if far e (average (map g (map (fun s => inv (fst s)) ss))) (posterior_mean g) then 1 else 0) s <= K * M ^ 2 / (INR n * e ^ 2)) Covs) as (K & HK & H).
  - intros cov a a' Ha H g M n e s Hn He HM Hs. eapply Rle_trans; [apply (H g M n e s Hn He HM Hs)|]. assert (0 < INR n * e ^ 2) by (apply Rmult_lt_0_compat; [apply lt_0_INR; lia|apply pow_lt; exact He]).
    unfold Rdiv. apply Rmult_le_compat_r; [left; apply Rinv_0_lt_compat; assumption|]. apply Rmult_le_compat_r; [apply pow2_ge_0|exact Ha].
  - intros cov Hcov. pose proof (post_mean Theta A teq inv Ys pi aj (move cov) ll outs p Ys_distinct Ys_density (fun y a => stays cov y a Hcov) law (fun y y' => symmetric cov y y' Hcov)) as PM.
    destruct (mixing Theta A teq inv Ys pi aj (move cov) ll outs p Ys_distinct Ys_density (fun y a => stays cov y a Hcov) law (fun y y' => symmetric cov y y' Hcov) (connected cov Hcov)) as (m & d & Hm & Hd & _ & H & _).
    exists (1 + 2 * INR m / d). split.
    + assert (0 < INR m / d) by (apply Rdiv_lt_0_compat; [apply lt_0_INR; lia|exact Hd]). lra.
    + intros g M n e s Hn He HM Hs. specialize (H (fun s => g (inv (fst s))) M n e s Hn He). rewrite PM in H. specialize (H ltac:(intros x Hx; apply HM, Hx) Hs). eapply Rle_trans; [|exact H]. right.
      apply (along_ext _ ok (after_step cov) (step_le Theta A inv Ys pi aj (move cov) ll outs p Ys_density (fun y a => stays cov y a Hcov) law)); [|exact Hs]. intros l _ _. rewrite map_map. reflexivity.
  - exists K. split; [exact HK|]. intros burnin interval g M n e c k Hn He HM (Hcov & s & Hs & Hc) Ht Hk. eapply Rle_trans; [|apply (H (c_cov c) Hcov g M n e s Hn He HM Hs)]. right.
    rewrite <- (path_mean (c_cov c) Hcov n k (fun ss => if far e (average (map g (map (fun s => inv (fst s)) ss))) (posterior_mean g) then 1 else 0) s Hs Hk). apply mean_ext. intros l Hl.
    destruct (loop_path burnin interval (c_cov c) Hcov n burnin (setr c l) s l (proj1 Hs) (le_n _) Hc eq_refl eq_refl ltac:(lia)) as (c' & -> & -> & _). unfold setr. cbn [M_MCMC.c_trace]. rewrite Ht. reflexivity.
Qed.

(** th is the image of an allowed position *)
Definition begins (th : Theta) : Prop := exists y, tr th = Ok y /\ inv y = th /\ In y Ys.
(** C88 (sample): the average of g over the samples of a run from scratch, with any burn-in and any adaptation of the covariance matrices during it,
    is close to the posterior expectation. *)
Theorem C88_sample : exists K, forall g M e n burnin cov ini interval cur count k, (0 < n)%nat -> 0 < e -> (forall y, In y Ys -> Rabs (g (inv y) - posterior_mean g) <= M) ->
  interval <> Some O -> (forall m, cov = Some m -> In m Covs) -> match ini with Some th => begins th | None => forall a, In a outs -> begins (start a) end -> (2 + 3 * (burnin + n) <= k)%nat ->
  prob outs p k (fun l => match mh_sample n burnin cov ini interval None l cur count with Ok (j, _) => far e (average (map g (j_params j))) (posterior_mean g) | Err _ => true end) <= K * M ^ 2 / (INR n * e ^ 2).
Proof.
  destruct loop_average as (K & HK & H). exists K. intros g M e n burnin cov ini interval cur count k Hn He HM Hi Hcov Hini Hk. rewrite prob_mean. set (Bd := K * M ^ 2 / (INR n * e ^ 2)).
  set (bad := fun r : res chain => if match r with Ok c' => far e (average (map g (c_trace c'))) (posterior_mean g) | Err _ => true end then 1 else 0).
  assert (W : forall j aStep c k, (aStep + j = burnin)%nat -> valid c -> c_trace c = [] -> (3 * (j + n) <= k)%nat -> mean outs p k (fun l => bad (mh_loop burnin interval aStep (j + n) (setr c l))) <= Bd).
  { apply warm_up; [exact Hi|intros r; unfold bad; destruct (match r with Ok _ => _ | Err _ => _ end); lra|]. intros c k0 Hv Ht Hk0. apply (H burnin interval g M n e c k0); assumption. }
  (* after the initial parameters are known *)
  assert (Go : forall th cur1 k, begins th -> (1 + 3 * (burnin + n) <= k)%nat -> mean outs p k (fun r1 => if match match
      (match sim_ll Theta (list A) Y xr setp simc loglik th cur1 r1 with Err er => Err er | Ok (r2, l1, cur2) => Ok (th, (if (burnin =? 0)%nat then [th] else []), l1, S count, 0%Q, cov, n, r2, cur2) end) with
      | Err er => Err er
      | Ok (th, burn, l1, ns, rate0, covs, total, r, cur) =>
      match tr th with Err er => Err er | Ok y => match ldj th with Err er => Err er | Ok jd =>
      match mh_loop burnin interval 0 (burnin + n) (mkch (mkpt Theta xr th y l1 (pdfv th (snd (setp th cur))) jd) 0 ns (match covs with Some m => m | None => eye y end) burn [] (snd (setp th cur)) r) with
      | Err er => Err er
      | Ok c => if (total =? 0)%nat then Err ZeroDivisionError else
          let rate := ((rate0 + inject_Z (Z.of_nat (c_acc c))) / inject_Z (Z.of_nat total))%Q in
          Ok (mkmj ([] ++ c_trace c) total ([] ++ [rate]) ([] ++ [c_sims c]) (q_ll Theta xr (c_pt c)) (c_cov c) total, c)
      end end end end with Ok (j, _) => far e (average (map g (j_params j))) (posterior_mean g) | Err _ => true end then 1 else 0) <= Bd).
  { intros th cur1 k0 (y & Ey & Ei & Hy) Hk0. destruct k0 as [|k0]; [lia|]. cbn [mean]. rewrite <- (expect_const _ outs p Bd law). apply (expect_le _ _ _ law). intros b Hb.
    assert (Hp : pi th <> 0) by (rewrite <- Ei; specialize (Ys_density y Hy); lra).
    set (c0 := mkch (point (y, b)) 0 (S count) (match cov with Some m => m | None => eye y end) (if (burnin =? 0)%nat then [th] else []) [] th []).
    eapply Rle_trans; [|apply (W burnin 0%nat c0 k0); [lia| |reflexivity|lia]].
    - right. apply mean_ext. intros l _. unfold sim_ll. rewrite (assigned th cur1 Hp), sim_draw, loglik_ok. rewrite Ey, jacobian, density, (assigned th th Hp). unfold setr, c0, bad, P_Law2.point. cbn [M_MCMC.c_pt M_MCMC.c_acc M_MCMC.c_sims M_MCMC.c_cov M_MCMC.c_burn M_MCMC.c_trace M_MCMC.c_cur fst snd]. rewrite Ei.
      destruct (mh_loop burnin interval 0 (burnin + n) _) as [c|er]; [|reflexivity]. replace (n =? 0)%nat with false by (symmetry; apply Nat.eqb_neq; lia). reflexivity.
    - split; [cbn; destruct cov as [m|]; [apply Hcov; reflexivity|apply eye_in]|]. exists (y, b). split; [split; assumption|reflexivity]. }
  destruct ini as [th|].
  - apply (Go th cur k Hini ltac:(lia)).
  - destruct k as [|k]; [lia|]. cbn [mean]. rewrite <- (expect_const _ outs p Bd law). apply (expect_le _ _ _ law). intros a Ha. eapply Rle_trans; [|apply (Go (start a) (start a) k (Hini a Ha) ltac:(lia))]. right. apply mean_ext. intros l _.
    unfold M_MCMC.mh_sample. rewrite prior_draw. reflexivity.
Qed.
(** ... so that enough samples make it as close as wanted, as surely as wanted. *)
Theorem C88_enough : forall g e q, 0 < e -> 0 < q -> exists N, forall n burnin cov ini interval cur count k, (N < n)%nat ->
  interval <> Some O -> (forall m, cov = Some m -> In m Covs) -> match ini with Some th => begins th | None => forall a, In a outs -> begins (start a) end -> (2 + 3 * (burnin + n) <= k)%nat ->
  prob outs p k (fun l => match mh_sample n burnin cov ini interval None l cur count with Ok (j, _) => far e (average (map g (j_params j))) (posterior_mean g) | Err _ => true end) <= q.
Proof.
  intros g e q He Hq. destruct C88_sample as (K & H). destruct (upper_bound Ys (fun y => Rabs (g (inv y) - posterior_mean g))) as (M & HM0 & HM). set (C := K * M ^ 2 / e ^ 2).
  assert (He2 : 0 < e ^ 2) by (apply pow_lt; exact He).
  set (N := Z.to_nat (Rdefinitions.up (Rabs C / q))). exists N. intros n burnin cov ini interval cur count k Hn Hi Hc Hini Hk.
  eapply Rle_trans; [apply (H g M e n burnin cov ini interval cur count k); try assumption; lia|]. assert (HN : Rabs C / q < INR n).
  { destruct (archimed (Rabs C / q)) as [Hu _]. apply Rlt_le_trans with (IZR (Rdefinitions.up (Rabs C / q))); [exact Hu|]. rewrite INR_IZR_INZ. apply IZR_le. unfold N in Hn. lia. }
  assert (0 <= Rabs C / q) by (unfold Rdiv; apply Rmult_le_pos; [apply Rabs_pos|left; apply Rinv_0_lt_compat, Hq]). assert (Hp : 0 < INR n) by lra.
  replace (K * M ^ 2 / (INR n * e ^ 2)) with (C / INR n) by (unfold C; field; split; lra). apply Rmult_le_reg_r with (INR n); [exact Hp|]. unfold Rdiv at 1. rewrite Rmult_assoc, Rinv_l, Rmult_1_r by lra.
  apply Rle_trans with (Rabs C); [apply Rle_abs|]. apply Rmult_lt_compat_r with (r := q) in HN; [|exact Hq]. unfold Rdiv in HN. rewrite Rmult_assoc, Rinv_l in HN by lra. lra.
Qed.
End Code.
Print Assumptions C88_law.
Print Assumptions C88_forget.
Print Assumptions C88_sample.
Print Assumptions C88_enough.

(** A case: positions 0, 1, 2 with a uniform prior and simulated likelihoods 1 or 2^th; twelve equally likely outcomes serve as perturbations (by at most 1, or,
    with the matrix adapted during burn-in, by at most 2), simulations and uniform numbers. *)
Module Walk.
Open Scope Z_scope.
Definition Ys : list Z := [0; 1; 2].
Definition outs : list Z := [0; 1; 2; 3; 4; 5; 6; 7; 8; 9; 10; 11].
Definition p (_ : Z) : R := (1 / 12)%R.
Definition pi (th : Z) : R := if (0 <=? th) && (th <=? 2) then (1 / 3)%R else 0%R.
Definition move (cov : bool) (y a : Z) : Z := y + (if cov then match a mod 6 with 0 => -2 | 1 => -1 | 4 => 1 | 5 => 2 | _ => 0 end else a mod 3 - 1).
Definition lik (th a : Z) : R := if Z.odd a then IZR (2 ^ th) else 1%R.
Definition ll (th a : Z) : R := ln (lik th a).
Definition uu (a : Z) : R := (IZR (a mod 12) / 12)%R.
Definition start (a : Z) : Z := a mod 3.
Definition kupd (y : Z) (cov : bool) (r : list Z) : list Z * Z := (tl r, move cov y (hd 0 r)).
Definition prior (r : list Z) : list Z * Z := (tl r, start (hd 0 r)).
Definition simc (th : Z) (r : list Z) : list Z * option xr := (tl r, Some (XR (ll th (hd 0 r)))).
Definition unif (r : list Z) : list Z * xr := (tl r, XR (uu (hd 0 r))).
Definition setp (th cur : Z) : bool * Z := if (0 <=? th) && (th <=? 2) then (true, th) else (false, cur).
Definition fzero (x : xr) : bool := match x with XR v => if Req_EM_T v 0 then true else false | _ => false end.
Open Scope R_scope.
Definition sample (n burnin : nat) (interval : option nat) (l : list Z) :=
  mh_sample Z (list Z) xr xr bool xadd xsub xmul xdiv xexp xlt fzero setp (fun th _ => XR (pi th)) kupd prior simc (fun x => x) (fun th => Ok th) (fun y => y) (fun _ => Ok (XR 0)) unif (fun _ => false) (fun _ => true)
    n burnin None None interval None l 0%Z 0.
Lemma fzero_ok : forall x, fzero (XR x) = true <-> x = 0.
Proof. intros x. unfold fzero. destruct (Req_EM_T x 0); split; congruence. Qed.
Lemma law : Law outs p.
Proof. split; [intros; unfold p; lra|]. unfold outs, p, total. cbn. lra. Qed.
Lemma range : forall a, 0 <= uu a < 1.
Proof. intros a. unfold uu. pose proof (Z.mod_pos_bound a 12 ltac:(lia)) as [H1 H2]. apply IZR_le in H1. apply IZR_lt in H2. lra. Qed.
Lemma assigned : forall th cur, pi th <> 0 -> snd (setp th cur) = th.
Proof. intros th cur H. unfold setp, pi in *. destruct (_ && _); [reflexivity|lra]. Qed.
Lemma distinct : NoDup Ys.
Proof. unfold Ys. repeat (constructor; [cbn; lia|]). constructor. Qed.
Lemma pos : forall y, In y Ys -> 0 < pi y.
Proof. intros y [<-|[<-|[<-|[]]]]; cbn; lra. Qed.
Lemma in_or_out : forall y, In y Ys \/ pi y = 0.
Proof.
  intros y. unfold pi. destruct ((0 <=? y)%Z && (y <=? 2)%Z) eqn:E; [left|right; reflexivity]. apply andb_true_iff in E. destruct E as [E1 E2]. apply Z.leb_le in E1, E2. cbn.
  assert (y = 0 \/ y = 1 \/ y = 2)%Z by lia. intuition.
Qed.
Lemma symmetric : forall cov y y', In cov [false; true] -> In y Ys -> In y' Ys -> leads Z Z Z.eq_dec (move cov) outs p y y' = leads Z Z Z.eq_dec (move cov) outs p y' y.
Proof. intros cov y y' Hc [<-|[<-|[<-|[]]]] [<-|[<-|[<-|[]]]]; destruct cov; unfold leads, chance, expect, outs, p, total; cbn; lra. Qed.
Lemma one_step cov y a y' : In a outs -> In y' Ys -> move cov y a = y' -> Reach outs p (move cov) Ys 1 y y'.
Proof. intros Ha Hy E. apply (Reach_move _ _ _ _ O y a); [exact Ha|unfold p; lra|rewrite E; exact Hy|rewrite E; constructor]. Qed.
Lemma connected : forall cov, In cov [false; true] -> Connected outs p (move cov) Ys.
Proof.
  intros cov _.
  assert (Up : forall y, (y = 0 \/ y = 1)%Z -> Reach outs p (move cov) Ys 1 y (y + 1)%Z).
  { intros y Hy. apply (one_step cov y (if cov then 4 else 2)%Z); [destruct cov; cbn; tauto|destruct Hy as [->| ->]; cbn; tauto|destruct cov; reflexivity]. }
  assert (Down : forall y, (y = 1 \/ y = 2)%Z -> Reach outs p (move cov) Ys 1 y (y - 1)%Z).
  { intros y Hy. apply (one_step cov y (if cov then 1 else 0)%Z); [destruct cov; cbn; tauto|destruct Hy as [->| ->]; cbn; tauto|destruct cov; reflexivity]. }
  split.
  - intros y y' [<-|[<-|[<-|[]]]] [<-|[<-|[<-|[]]]].
    all: try (exists O; constructor).
    + exists 1%nat. apply (Up 0%Z). tauto.
    + exists (1 + 1)%nat. apply (Reach_app _ _ _ _ _ _ _ _ _ 1%Z); [apply (Up 0%Z); tauto|apply (Up 1%Z); tauto].
    + exists 1%nat. apply (Down 1%Z). tauto.
    + exists 1%nat. apply (Up 1%Z). tauto.
    + exists (1 + 1)%nat. apply (Reach_app _ _ _ _ _ _ _ _ _ 1%Z); [apply (Down 2%Z); tauto|apply (Down 1%Z); tauto].
    + exists 1%nat. apply (Down 2%Z). tauto.
  - exists 0%Z. split; [cbn; tauto|]. apply (one_step cov 0%Z (if cov then 2 else 1)%Z); [destruct cov; cbn; tauto|cbn; tauto|destruct cov; reflexivity].
Qed.
Lemma weights s : In (fst s) Ys -> exists w, (w = 1 \/ w = 2 \/ w = 4) /\ density_at Z Z (fun y => y) pi (fun _ => 0) ll s = / 3 * w.
Proof.
  destruct s as [y b]. cbn [fst]. intros Hy. exists (lik y b). unfold density_at, target, ll. cbn [fst snd].
  assert (L : lik y b = 1 \/ lik y b = 2 \/ lik y b = 4) by (unfold lik; destruct (Z.odd b); [|tauto]; destruct Hy as [<-|[<-|[<-|[]]]]; cbn; tauto).
  split; [exact L|]. rewrite exp_ln by (destruct L as [->|[->| ->]]; lra). rewrite Ropp_0, exp_0. destruct Hy as [<-|[<-|[<-|[]]]]; cbn; lra.
Qed.
Lemma below q : q = 1 \/ q = 1 / 2 \/ q = 1 / 4 -> chance outs p (fun a => if Rlt_dec (uu a) q then true else false) = q.
Proof.
  intros Hq. unfold chance, expect, outs, p, uu. cbn [map]. unfold total. cbn [fold_right].
  change (0 mod 12)%Z with 0%Z; change (1 mod 12)%Z with 1%Z; change (2 mod 12)%Z with 2%Z; change (3 mod 12)%Z with 3%Z; change (4 mod 12)%Z with 4%Z; change (5 mod 12)%Z with 5%Z;
  change (6 mod 12)%Z with 6%Z; change (7 mod 12)%Z with 7%Z; change (8 mod 12)%Z with 8%Z; change (9 mod 12)%Z with 9%Z; change (10 mod 12)%Z with 10%Z; change (11 mod 12)%Z with 11%Z.
  destruct Hq as [->|[->| ->]]; repeat (destruct (Rlt_dec _ _); try lra).
Qed.
Lemma fair : forall s s', ok Z Z Ys outs s -> ok Z Z Ys outs s' ->
  chance outs p (fun a => if Rlt_dec (uu a) (accept Z Z (fun y => y) pi (fun _ => 0) ll s s') then true else false) = accept Z Z (fun y => y) pi (fun _ => 0) ll s s'.
Proof.
  intros s s' [Hs _] [Hs' _]. apply below. unfold accept. destruct (weights s Hs) as (w & Hw & ->). destruct (weights s' Hs') as (w' & Hw' & ->). unfold Rmin.
  destruct Hw as [->|[->| ->]], Hw' as [->|[->| ->]]; destruct (Rle_dec _ _) as [H|H]; try (left; reflexivity); try (right; left; lra); try (right; right; lra); exfalso; apply H; lra.
Qed.
(** the posterior: prior times (1 + 2^th)/2, so weights 2, 3 and 5 *)
Example target : posterior_mean Z Z (fun y => y) Ys pi (fun _ => 0) ll outs p IZR = 13 / 10.
Proof.
  assert (M : forall y, In y Ys -> mass Z Z (fun y => y) pi (fun _ => 0) ll outs p y = (1 + IZR (2 ^ y)) / 6).
  { intros y Hy. unfold mass. rewrite (expect_ext _ _ _ _ (fun b => lik y b)) by (intros b _; unfold ll; apply exp_ln; unfold lik; destruct (Z.odd b); [|lra]; destruct Hy as [<-|[<-|[<-|[]]]]; cbn; lra).
    rewrite Ropp_0, exp_0. unfold expect, outs, p, lik, total. destruct Hy as [<-|[<-|[<-|[]]]]; cbn; lra. }
  unfold posterior_mean, Ys. cbn [map]. rewrite !M by (cbn; tauto). unfold total. cbn. lra.
Qed.
(** however many burn-in steps, with adaptation every third of them: enough samples have an average as close to 13/10 as wanted *)
Example enough : forall e q, 0 < e -> 0 < q -> exists N, forall n burnin k, (N < n)%nat -> (2 + 3 * (burnin + n) <= k)%nat ->
  prob outs p k (fun l => match sample n burnin (Some 3%nat) l with Ok (j, _) => far e (average (map IZR (j_params j))) (13 / 10) | Err _ => true end) <= q.
Proof.
  intros e q He Hq.
  destruct (C88_enough Z xr bool Z Z.eq_dec fzero setp (fun th _ => XR (pi th)) kupd prior simc (fun x => x) (fun th => Ok th) (fun y => y) (fun _ => Ok (XR 0)) unif (fun _ => false) (fun _ => true)
    Ys [false; true] pi (fun _ => 0) move (fun th a => XR (ll th a)) ll uu start outs p law (fun _ _ _ _ => eq_refl) (fun _ _ _ => eq_refl) (fun _ _ => eq_refl) (fun _ _ => eq_refl) (fun _ _ => eq_refl) range fzero_ok
    (fun _ _ => eq_refl) assigned (fun _ => eq_refl) distinct pos (fun cov y a _ _ => in_or_out (move cov y a)) symmetric connected ltac:(cbn; tauto) ltac:(cbn; tauto) fair IZR e q He Hq) as (N & HN).
  exists N. intros n burnin k Hn Hk. rewrite <- target. apply HN; [exact Hn|discriminate|discriminate| |exact Hk].
  intros a _. exists (start a). split; [reflexivity|]. split; [reflexivity|]. unfold start. pose proof (Z.mod_pos_bound a 3 ltac:(lia)). assert (a mod 3 = 0 \/ a mod 3 = 1 \/ a mod 3 = 2)%Z as [->|[->| ->]] by lia; cbn; tauto.
Qed.
End Walk.

(** Without the condition on the proposals: the prior of the case above without position 1, so that no proposal crosses the gap. *)
Module Gap.
Definition Ys : list Z := [0; 2]%Z.
Definition pi (th : Z) : R := if (th =? 0)%Z || (th =? 2)%Z then 1 / 2 else 0.
Definition move (_ : unit) (y a : Z) : Z := (y + (a mod 3 - 1))%Z.
Definition kupd (y : Z) (cov : unit) (r : list Z) : list Z * Z := (tl r, move cov y (hd 0%Z r)).
Definition setp (th cur : Z) : bool * Z := if (th =? 0)%Z || (th =? 2)%Z then (true, th) else (false, cur).
Definition loop := mh_loop Z (list Z) xr xr unit xadd xsub xmul xdiv xexp xlt Walk.fzero setp (fun th _ => XR (pi th)) kupd Walk.simc (fun x => x) (fun y => y) (fun _ => Ok (XR 0)) Walk.unif (fun _ => tt).
Notation point := (point Z Z (fun y => y) pi (fun _ => 0) Walk.ll).
Lemma assigned : forall th cur, pi th <> 0 -> snd (setp th cur) = th.
Proof. intros th cur H. unfold setp, pi in *. destruct (_ || _); [reflexivity|lra]. Qed.
Lemma pos : forall y, In y Ys -> 0 < pi y.
Proof. intros y [<-|[<-|[]]]; cbn; lra. Qed.
Lemma in_or_out : forall y, In y Ys \/ pi y = 0.
Proof. intros y. unfold pi. destruct ((y =? 0)%Z || (y =? 2)%Z) eqn:E; [left|right; reflexivity]. apply orb_true_iff in E. destruct E as [E|E]; apply Z.eqb_eq in E; subst; cbn; tauto. Qed.
Lemma target : posterior_mean Z Z (fun y => y) Ys pi (fun _ => 0) Walk.ll Walk.outs Walk.p IZR = 10 / 7.
Proof.
  assert (M : forall y, In y Ys -> mass Z Z (fun y => y) pi (fun _ => 0) Walk.ll Walk.outs Walk.p y = (1 + IZR (2 ^ y)) / 4).
  { intros y Hy. unfold mass. rewrite (expect_ext _ _ _ _ (fun b => Walk.lik y b)) by (intros b _; unfold Walk.ll; apply exp_ln; unfold Walk.lik; destruct (Z.odd b); [|lra]; destruct Hy as [<-|[<-|[]]]; cbn; lra).
    rewrite Ropp_0, exp_0. unfold expect, Walk.outs, Walk.p, Walk.lik, total. destruct Hy as [<-|[<-|[]]]; cbn; lra. }
  unfold posterior_mean, Ys. cbn [map]. rewrite !M by (cbn; tauto). unfold total. cbn. lra.
Qed.
Lemma stuck n : forall s l, fst s = 0%Z -> (3 * n <= length l)%nat ->
  map (fun s => fst s) (path Z unit Z (fun y => y) pi (fun _ => 0) move Walk.ll Walk.uu tt n s l) = repeat 0%Z n.
Proof.
  induction n as [|n IH]; intros s l Hs Hl; [destruct l; reflexivity|]. destruct l as [|a [|b [|u l]]]; cbn [length] in Hl; try lia. cbn [path repeat]. unfold move. rewrite Hs. destruct (Req_EM_T _ 0) as [E|E].
  - cbn [map]. rewrite Hs, IH by (cbn [length]; lia || exact Hs). reflexivity.
  - assert (Ea : (0 + (a mod 3 - 1) = 0)%Z).
    { pose proof (Z.mod_pos_bound a 3 ltac:(lia)). unfold pi in E. destruct ((0 + (a mod 3 - 1) =? 0)%Z) eqn:E0; [apply Z.eqb_eq in E0; exact E0|]. destruct ((0 + (a mod 3 - 1) =? 2)%Z) eqn:E2; [apply Z.eqb_eq in E2; lia|]. cbn [orb] in E. contradiction. }
    rewrite Ea. cbv zeta. set (s' := if Rlt_dec _ _ then _ else _). assert (Hs' : fst s' = 0%Z) by (unfold s'; destruct (Rlt_dec _ _); [reflexivity|exact Hs]). cbn [map]. rewrite Hs', IH by (lia || exact Hs'). reflexivity.
Qed.
End Gap.
(** C88 (refuted without connected positions): from 0, no average comes near the posterior mean 10/7, however long the run. *)
Theorem C88_gap_refuted : posterior_mean Z Z (fun y => y) Gap.Ys Gap.pi (fun _ => 0) Walk.ll Walk.outs Walk.p IZR = 10 / 7 /\ forall n k, (0 < n)%nat -> (3 * n <= k)%nat ->
  prob Walk.outs Walk.p k (fun l => match Gap.loop 0 None 0 n (mkch Z (list Z) xr unit (Gap.point (0%Z, 0%Z)) 0 1 tt [] [] 0%Z l) with Ok c => far 1 (average (map IZR (c_trace Z (list Z) xr unit c))) (10 / 7) | Err _ => false end) = 1.
Proof.
  split; [exact Gap.target|]. intros n k Hn Hk. rewrite (prob_ext _ _ _ k _ (fun _ => true)); [apply (prob_const _ _ _ k true Walk.law)|]. intros l Hl.
  destruct (loop_path Z xr unit Z Walk.fzero Gap.setp (fun th _ => XR (Gap.pi th)) Gap.kupd Walk.simc (fun x => x) (fun y => y) (fun _ => Ok (XR 0)) Walk.unif (fun _ => tt) Gap.Ys [tt] Gap.pi (fun _ => 0) Gap.move (fun th a => XR (Walk.ll th a)) Walk.ll Walk.uu
    (fun _ _ _ _ => eq_refl) (fun _ _ _ => eq_refl) (fun _ _ => eq_refl) (fun _ _ => eq_refl) Walk.range Walk.fzero_ok (fun _ _ => eq_refl) Gap.assigned (fun _ => eq_refl) Gap.pos (fun cov y a _ _ => Gap.in_or_out (Gap.move cov y a))
    0%nat None tt ltac:(cbn; tauto) n 0%nat (mkch Z (list Z) xr unit (Gap.point (0%Z, 0%Z)) 0 1 tt [] [] 0%Z l) (0%Z, 0%Z) l ltac:(cbn; tauto) (le_n _) eq_refl eq_refl eq_refl ltac:(lia)) as (c & Ec & Et & _).
  unfold Gap.loop. rewrite Ec, Et. cbn [c_trace app]. rewrite (Gap.stuck n (0%Z, 0%Z) l eq_refl ltac:(lia)).
  assert (E : average (map IZR (repeat 0%Z n)) = 0).
  { unfold average. replace (total (map IZR (repeat 0%Z n))) with 0; [unfold Rdiv; ring|]. clear. induction n as [|n IH]; [reflexivity|]. cbn [repeat map]. rewrite total_cons, <- IH. ring. }
  rewrite E. unfold far. destruct (Rlt_dec _ _) as [H|H]; [reflexivity|]. exfalso. apply H. rewrite Rabs_left by lra. lra.
Qed.
Print Assumptions C88_gap_refuted.
