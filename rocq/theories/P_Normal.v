(** C58: the Normal, LogNormal and Exponential priors are probability distributions, and what their parameters are. *)
From Coquelicot Require Import Coquelicot.
From Coq Require Import Reals Lra Psatz.
From Verif Require Import M_XReal M_Priors L_Gauss.
Open Scope R_scope.

(** Integral of f over the line, and over the positive numbers (improper integrals of Coquelicot). *)
Definition on_line (f : R -> R) (v : R) : Prop := is_RInt_gen f (Rbar_locally m_infty) (Rbar_locally p_infty) v.
Definition on_positive (f : R -> R) (v : R) : Prop := is_RInt_gen f (at_right 0) (Rbar_locally p_infty) v.
(** A distribution function with density f: its derivative is f and it vanishes at minus infinity. *)
Definition Distribution (F f : R -> R) : Prop := (forall x, derivable_pt_lim F x (f x)) /\ is_lim F m_infty 0.

Lemma lim_of (F : R -> R) x (l : R) : filterlim F (Rbar_locally x) (locally l) -> (match x with Finite _ => False | _ => True end) -> is_lim F x l.
Proof. intros H Hx P HP. destruct x; [contradiction| |]; exact (H P HP). Qed.
Lemma of_lim (F : R -> R) x (l : R) : is_lim F x l -> (match x with Finite _ => False | _ => True end) -> filterlim F (Rbar_locally x) (locally l).
Proof. intros H Hx P HP. destruct x; [contradiction| |]; exact (H P HP). Qed.

(** C58.  The standard normal density integrates to one: it has exactly one distribution function; that one grows from 0 to 1, is symmetric and comes within 4/t of
    its limits at t. *)
Theorem C58_standard : exists Phi, Distribution Phi phi /\ is_lim Phi p_infty 1 /\ (forall F, Distribution F phi -> forall z, F z = Phi z)
  /\ (forall z, Phi (- z) = 1 - Phi z) /\ (forall a b, a < b -> Phi a < Phi b) /\ (forall t, 1 <= t -> 1 - 4 / t <= Phi t <= 1).
Proof.
  assert (Mono : forall a b, a < b -> Phi a < Phi b).
  { intros a b H. destruct (MVT_gen Phi a b phi) as (c & _ & E).
    - intros x _. apply Phi_derive.
    - intros x _. apply derivable_continuous_pt. exists (phi x). apply is_derive_Reals, Phi_derive.
    - assert (0 < phi c); [|nra]. unfold phi. apply Rdiv_lt_0_compat; [apply exp_pos | apply root2]. }
  exists Phi. split; [split; [intros x; apply is_derive_Reals, Phi_derive | apply lim_of; [apply Phi_m | exact I]]|]. split; [apply lim_of; [apply Phi_p | exact I]|].
  split; [intros F [D L] z; apply Phi_unique; [intros x; apply is_derive_Reals, D | apply of_lim; [exact L | exact I]]|]. split; [apply Phi_opp|]. split; [exact Mono|].
  intros t Ht. pose proof (Phi_close t Ht) as C. apply Rabs_le_between in C. split; [lra|]. destruct (Rle_lt_dec (Phi t) 1) as [H|H]; [exact H|]. exfalso.
  set (T := Rmax t (8 / (Phi t - 1)) + 1). assert (P8 : 0 < 8 / (Phi t - 1)) by (apply Rdiv_lt_0_compat; lra). pose proof (Rmax_l t (8 / (Phi t - 1))) as M1. pose proof (Rmax_r t (8 / (Phi t - 1))) as M2.
  pose proof (Mono t T ltac:(unfold T; lra)) as M. pose proof (Phi_close T ltac:(unfold T; lra)) as CT. apply Rabs_le_between in CT. assert (B : 4 / T < Phi t - 1); [|lra].
  apply (Rmult_lt_reg_r T); [unfold T; lra|]. unfold Rdiv. rewrite Rmult_assoc, Rinv_l, Rmult_1_r by (unfold T; lra).
  assert (Q : (Phi t - 1) * (8 / (Phi t - 1)) = 8) by (field; lra). assert ((Phi t - 1) * (8 / (Phi t - 1)) <= (Phi t - 1) * T) by (apply Rmult_le_compat_l; unfold T; lra). lra.
Qed.
Print Assumptions C58_standard.

Lemma affine_derive (G g : R -> R) : (forall z, is_derive G z (g z)) -> forall mu sigma t, 0 < sigma -> is_derive (fun t => G ((t - mu) / sigma)) t (g ((t - mu) / sigma) / sigma).
Proof.
  intros D mu sigma t S. replace (g ((t - mu) / sigma) / sigma) with (scal (/ sigma) (g ((t - mu) / sigma))) by (unfold scal; cbn; unfold mult; cbn; field; lra).
  apply (is_derive_comp G (fun t => (t - mu) / sigma)); [apply D|]. auto_derive; [exact I|]. unfold Rdiv. rring.
Qed.
Lemma normal_cont mu sigma : 0 < sigma -> forall x, continuous (normal_pdf mu sigma) x.
Proof. intros S x. apply (ex_derive_continuous (normal_pdf mu sigma)). destruct root2. unfold normal_pdf, phi. auto_derive. repeat split; lra. Qed.
Lemma on_line_eq f u v : u = v -> on_line f u -> on_line f v.
Proof. intros ->. exact (fun H => H). Qed.
(** the integral over the line of a function with antiderivative G of the standardised variable *)
Lemma standardised (G g f : R -> R) mu sigma la lb : 0 < sigma -> (forall z, is_derive G z (g z)) -> (forall t, f t = g ((t - mu) / sigma) / sigma) -> (forall x, continuous f x) ->
  filterlim G (Rbar_locally m_infty) (locally la) -> filterlim G (Rbar_locally p_infty) (locally lb) -> on_line f (lb - la).
Proof.
  intros S D E C LA LB. apply (improper_line (fun t => G ((t - mu) / sigma)) f la lb); [intros x; rewrite E; apply affine_derive; assumption | exact C | |].
  - apply (filterlim_comp _ _ _ (fun t => (t - mu) / sigma) G _ (Rbar_locally m_infty)); [apply affine_m; exact S | exact LA].
  - apply (filterlim_comp _ _ _ (fun t => (t - mu) / sigma) G _ (Rbar_locally p_infty)); [apply affine_p; exact S | exact LB].
Qed.

(** the antiderivatives behind mean and variance *)
Lemma mean_prim mu sigma : 0 < sigma -> (forall z, is_derive (fun z => mu * Phi z - sigma * phi z) z (mu * phi z - sigma * (- z * phi z)))
  /\ filterlim (fun z => mu * Phi z - sigma * phi z) (Rbar_locally m_infty) (locally 0) /\ filterlim (fun z => mu * Phi z - sigma * phi z) (Rbar_locally p_infty) (locally mu).
Proof.
  intros S. split; [|split].
  - intros z. apply (is_derive_minus (fun z => mu * Phi z) (fun z => sigma * phi z)); [apply (is_derive_scal Phi z mu), Phi_derive | apply (is_derive_scal phi z sigma), phi_derive].
  - apply (lim_m _ 0 (4 * Rabs mu + 2 * sigma)). intros t H. rewrite Phi_opp, phi_opp. pose proof (Phi_close t H) as P1. pose proof (phi_close t H) as P2.
    replace (mu * (1 - Phi t) - sigma * phi t - 0) with (- (mu * (Phi t - 1)) + - (sigma * phi t)) by ring. eapply Rle_trans; [apply Rabs_triang|]. rewrite !Rabs_Ropp, !Rabs_mult, (Rabs_right sigma) by lra.
    replace ((4 * Rabs mu + 2 * sigma) / t) with (Rabs mu * (4 / t) + sigma * (2 / t)) by (field; lra). apply Rplus_le_compat; apply Rmult_le_compat_l; try assumption; [apply Rabs_pos | lra].
  - apply (lim_p _ mu (4 * Rabs mu + 2 * sigma)). intros t H. pose proof (Phi_close t H) as P1. pose proof (phi_close t H) as P2.
    replace (mu * Phi t - sigma * phi t - mu) with (mu * (Phi t - 1) + - (sigma * phi t)) by ring. eapply Rle_trans; [apply Rabs_triang|]. rewrite !Rabs_Ropp, !Rabs_mult, (Rabs_right sigma) by lra.
    replace ((4 * Rabs mu + 2 * sigma) / t) with (Rabs mu * (4 / t) + sigma * (2 / t)) by (field; lra). apply Rplus_le_compat; apply Rmult_le_compat_l; try assumption; [apply Rabs_pos | lra].
Qed.
Lemma var_prim sigma : 0 < sigma -> (forall z, is_derive (fun z => sigma ^ 2 * (Phi z - z * phi z)) z (sigma ^ 2 * (phi z - (1 * phi z + z * (- z * phi z)))))
  /\ filterlim (fun z => sigma ^ 2 * (Phi z - z * phi z)) (Rbar_locally m_infty) (locally 0) /\ filterlim (fun z => sigma ^ 2 * (Phi z - z * phi z)) (Rbar_locally p_infty) (locally (sigma ^ 2)).
Proof.
  intros S. split; [|split].
  - intros z. apply (is_derive_scal (fun z => Phi z - z * phi z) z (sigma ^ 2)). apply (is_derive_minus Phi (fun z => z * phi z)); [apply Phi_derive|].
    apply is_derive_Reals. apply (derivable_pt_lim_mult id phi z); [apply derivable_pt_lim_id | apply is_derive_Reals, phi_derive].
  - apply (lim_m _ 0 (6 * sigma ^ 2)). intros t H. rewrite Phi_opp, phi_opp. pose proof (Phi_close t H) as P1. pose proof (zphi_close t H) as P2.
    replace (sigma ^ 2 * (1 - Phi t - - t * phi t) - 0) with (sigma ^ 2 * (- (Phi t - 1) + t * phi t)) by ring. rewrite Rabs_mult, (Rabs_right (sigma ^ 2)) by nra.
    replace (6 * sigma ^ 2 / t) with (sigma ^ 2 * (4 / t + 2 / t)) by (field; lra). apply Rmult_le_compat_l; [nra|]. eapply Rle_trans; [apply Rabs_triang|]. rewrite Rabs_Ropp. lra.
  - apply (lim_p _ (sigma ^ 2) (6 * sigma ^ 2)). intros t H. pose proof (Phi_close t H) as P1. pose proof (zphi_close t H) as P2.
    replace (sigma ^ 2 * (Phi t - t * phi t) - sigma ^ 2) with (sigma ^ 2 * ((Phi t - 1) + - (t * phi t))) by ring. rewrite Rabs_mult, (Rabs_right (sigma ^ 2)) by nra.
    replace (6 * sigma ^ 2 / t) with (sigma ^ 2 * (4 / t + 2 / t)) by (field; lra). apply Rmult_le_compat_l; [nra|]. eapply Rle_trans; [apply Rabs_triang|]. rewrite Rabs_Ropp. lra.
Qed.

(** C58.  Normal: the density integrates to one, its mean is the first parameter and its variance the square of the second, which the
    documentation calls the variance. *)
Theorem C58_normal_law : forall mu sigma, 0 < sigma ->
  on_line (normal_pdf mu sigma) 1 /\ on_line (fun x => x * normal_pdf mu sigma x) mu /\ on_line (fun x => (x - mu) ^ 2 * normal_pdf mu sigma x) (sigma ^ 2).
Proof.
  intros mu sigma S. pose proof (normal_cont mu sigma S) as NC. split; [|split].
  - apply (on_line_eq _ (1 - 0)); [ring|]. apply (standardised Phi phi _ mu sigma); [exact S | apply Phi_derive | reflexivity | exact NC | apply Phi_m | apply Phi_p].
  - apply (on_line_eq _ (mu - 0)); [ring|]. destruct (mean_prim mu sigma S) as (D & LA & LB). apply (standardised _ _ _ mu sigma _ _ S D); [| |exact LA | exact LB].
    + intros t. unfold normal_pdf. field. lra.
    + intros x. apply (continuous_mult (fun x => x) (normal_pdf mu sigma)); [apply continuous_id | apply NC].
  - apply (on_line_eq _ (sigma ^ 2 - 0)); [ring|]. destruct (var_prim sigma S) as (D & LA & LB). apply (standardised _ _ _ mu sigma _ _ S D); [| |exact LA | exact LB].
    + intros t. unfold normal_pdf. field. lra.
    + intros x. apply (continuous_mult (fun x => (x - mu) ^ 2) (normal_pdf mu sigma)); [|apply NC]. apply (ex_derive_continuous (fun x => (x - mu) ^ 2)). auto_derive. exact I.
Qed.
Print Assumptions C58_normal_law.
(** The probability that the density gives to the samples up to t is the distribution function of the standard normal law at the standardised t; with
    C58_normal (a sample is at most t iff the normal number it is made of is at most the standardised t) the density is that of the samples. *)
Theorem C58_normal_cdf : forall F, Distribution F phi -> forall mu sigma t, 0 < sigma -> is_RInt_gen (normal_pdf mu sigma) (Rbar_locally m_infty) (at_point t) (F ((t - mu) / sigma)).
Proof.
  intros F [D L] mu sigma t S. rewrite <- (Rminus_0_r (F ((t - mu) / sigma))).
  apply (improper (fun t => F ((t - mu) / sigma)) _ 0 (F ((t - mu) / sigma)) _ _ _ _ (fun _ => True)).
  - apply filter_forall. intros; exact I.
  - intros x _. apply (affine_derive F phi); [intros z; apply is_derive_Reals, D | exact S].
  - intros x _. apply normal_cont, S.
  - apply (filterlim_comp _ _ _ (fun t => (t - mu) / sigma) F _ (Rbar_locally m_infty)); [apply affine_m; exact S | apply of_lim; [exact L | exact I]].
  - intros P HP. unfold filtermap, at_point. apply locally_singleton. exact HP.
Qed.
Print Assumptions C58_normal_cdf.

Lemma positive_dom : filter_prod (at_right 0) (Rbar_locally p_infty) (fun ab => forall x, Rmin (fst ab) (snd ab) <= x <= Rmax (fst ab) (snd ab) -> 0 < x).
Proof.
  apply (Filter_prod _ _ _ (fun a => 0 < a) (fun b => 0 < b)).
  - exists (mkposreal 1 Rlt_0_1). intros y _ H. exact H.
  - exists 0. intros x H. exact H.
  - intros a b Ha Hb x [H _]. cbn in H. pose proof (Rmin_glb_lt a b 0 Ha Hb). lra.
Qed.
Lemma ln_p : filterlim ln (Rbar_locally p_infty) (Rbar_locally p_infty).
Proof. exact is_lim_ln_p. Qed.
Lemma ln_0 : filterlim ln (at_right 0) (Rbar_locally m_infty).
Proof. exact is_lim_ln_0. Qed.
Lemma logstandard (G g f : R -> R) mu sigma la lb : 0 < sigma -> (forall z, is_derive G z (g z)) -> (forall t, 0 < t -> f t = g ((ln t - mu) / sigma) / sigma / t) -> (forall z, continuous g z) ->
  filterlim G (Rbar_locally m_infty) (locally la) -> filterlim G (Rbar_locally p_infty) (locally lb) -> on_positive f (lb - la).
Proof.
  intros S D E C LA LB. apply (improper (fun t => G ((ln t - mu) / sigma)) f la lb _ _ _ _ (fun t => 0 < t)); [exact positive_dom | | | |].
  - intros x Hx. rewrite E by exact Hx. replace (g ((ln x - mu) / sigma) / sigma / x) with (scal (/ x) (g ((ln x - mu) / sigma) / sigma)) by (unfold scal; cbn; unfold mult; cbn; field; lra).
    apply (is_derive_comp (fun y => G ((y - mu) / sigma)) ln); [apply affine_derive; assumption|]. apply is_derive_Reals, derivable_pt_lim_ln, Hx.
  - intros x Hx. apply (continuous_ext_loc f (fun t => g ((ln t - mu) / sigma) / sigma / t)).
    + exists (mkposreal x Hx). intros y Hy. symmetry. apply E. unfold ball in Hy. cbn in Hy. unfold AbsRing_ball, abs, minus, plus, opp in Hy. cbn in Hy. apply Rabs_lt_between in Hy. lra.
    + assert (CL : continuous (fun t => (ln t - mu) / sigma) x) by (apply (ex_derive_continuous (fun t => (ln t - mu) / sigma)); auto_derive; exact Hx).
      apply (continuous_mult (fun t => g ((ln t - mu) / sigma) / sigma) (fun t => / t)).
      * apply (continuous_mult (fun t => g ((ln t - mu) / sigma)) (fun _ => / sigma)); [|apply continuous_const]. apply (continuous_comp (fun t => (ln t - mu) / sigma) g); [exact CL | apply C].
      * apply (ex_derive_continuous (fun t => / t)). auto_derive. lra.
  - apply (filterlim_comp _ _ _ ln (fun y => G ((y - mu) / sigma)) _ (Rbar_locally m_infty)); [exact ln_0|].
    apply (filterlim_comp _ _ _ (fun t => (t - mu) / sigma) G _ (Rbar_locally m_infty)); [apply affine_m; exact S | exact LA].
  - apply (filterlim_comp _ _ _ ln (fun y => G ((y - mu) / sigma)) _ (Rbar_locally p_infty)); [exact ln_p|].
    apply (filterlim_comp _ _ _ (fun t => (t - mu) / sigma) G _ (Rbar_locally p_infty)); [apply affine_p; exact S | exact LB].
Qed.
Lemma on_positive_eq f u v : u = v -> on_positive f u -> on_positive f v.
Proof. intros ->. exact (fun H => H). Qed.
Lemma on_positive_unique f u v : on_positive f u -> on_positive f v -> u = v.
Proof. intros H1 H2. rewrite <- (@is_RInt_gen_unique R_CompleteNormedModule (at_right 0) (Rbar_locally p_infty) _ _ f u H1). exact (@is_RInt_gen_unique R_CompleteNormedModule (at_right 0) (Rbar_locally p_infty) _ _ f v H2). Qed.
Lemma lognormal_eq mu sigma t : 0 < sigma -> 0 < t -> lognormal_pdf mu sigma t = phi ((ln t - mu) / sigma) / sigma / t.
Proof.
  intros S H. unfold lognormal_pdf. destruct (Rlt_dec 0 t); [|lra]. pose proof (exp_pos mu).
  replace (ln (t / exp mu)) with (ln t - mu) by (unfold Rdiv; rewrite ln_mult, ln_Rinv, ln_exp by (try apply Rinv_0_lt_compat; assumption); ring). field. lra.
Qed.
Lemma tilt sigma z : phi (z - sigma) = exp (sigma * z - sigma * sigma / 2) * phi z.
Proof. unfold phi. unfold Rdiv. rewrite <- Rmult_assoc. f_equal. rewrite <- exp_plus. f_equal. field. Qed.

(** C58.  LogNormal: the density integrates to one; the mean of the k-th power is exp (k mu + (k sigma)^2 / 2).  Hence neither the mean is mu nor the variance sigma,
    as the first line of the documentation says; mu and sigma are mean and standard deviation of the logarithm. *)
Theorem C58_lognormal_law : forall mu sigma, 0 < sigma ->
  on_positive (lognormal_pdf mu sigma) 1
  /\ (forall k : nat, on_positive (fun x => x ^ k * lognormal_pdf mu sigma x) (exp (INR k * mu + (INR k * sigma) ^ 2 / 2)))
  /\ on_positive (fun x => ln x * lognormal_pdf mu sigma x) mu /\ on_positive (fun x => (ln x - mu) ^ 2 * lognormal_pdf mu sigma x) (sigma ^ 2).
Proof.
  intros mu sigma S. split; [|split; [|split]].
  - apply (on_positive_eq _ (1 - 0)); [ring|]. apply (logstandard Phi phi _ mu sigma); [exact S | apply Phi_derive | intros t; apply lognormal_eq, S | apply phi_cont | apply Phi_m | apply Phi_p].
  - intros k. set (K := exp (INR k * mu + (INR k * sigma) ^ 2 / 2)). apply (on_positive_eq _ (K * 1 - K * 0)); [ring|].
    apply (logstandard (fun z => K * Phi (z - INR k * sigma)) (fun z => K * phi (z - INR k * sigma)) _ mu sigma); [exact S | | | | |].
    + intros z. apply (is_derive_scal (fun z => Phi (z - INR k * sigma)) z K).
      replace (phi (z - INR k * sigma)) with (scal 1 (phi (z - INR k * sigma))) by (unfold scal; cbn; unfold mult; cbn; ring).
      apply (is_derive_comp Phi (fun z => z - INR k * sigma)); [apply Phi_derive|]. auto_derive; [exact I|]. rring.
    + intros t Ht. rewrite (lognormal_eq mu sigma t S Ht), tilt. replace (t ^ k) with (exp (INR k * ln t)).
      * unfold K. rewrite <- (Rmult_assoc (exp (INR k * mu + (INR k * sigma) ^ 2 / 2))), <- exp_plus.
        replace (INR k * mu + (INR k * sigma) ^ 2 / 2 + (INR k * sigma * ((ln t - mu) / sigma) - INR k * sigma * (INR k * sigma) / 2)) with (INR k * ln t) by (field; lra). field. lra.
      * clear K. induction k as [|k IH]; [cbn; rewrite Rmult_0_l, exp_0; reflexivity|]. rewrite S_INR, Rmult_plus_distr_r, exp_plus, IH, Rmult_1_l, exp_ln by exact Ht. cbn. ring.
    + intros z. apply (continuous_mult (fun _ => K) (fun z => phi (z - INR k * sigma))); [apply continuous_const|]. apply (continuous_comp (fun z => z - INR k * sigma) phi); [|apply phi_cont].
      apply (ex_derive_continuous (fun z => z - INR k * sigma)). auto_derive. exact I.
    + apply (filterlim_comp _ _ _ (fun z => Phi (z - INR k * sigma)) (fun y => K * y) _ (locally 0)); [|apply (continuous_mult (fun _ => K) (fun y : R => y)); [apply continuous_const | apply continuous_id]].
      apply (filterlim_comp _ _ _ (fun z => z - INR k * sigma) Phi _ (Rbar_locally m_infty)); [|apply Phi_m].
      eapply filterlim_ext; [|apply (affine_m (INR k * sigma) 1 Rlt_0_1)]. intros x. cbn. field.
    + apply (filterlim_comp _ _ _ (fun z => Phi (z - INR k * sigma)) (fun y => K * y) _ (locally 1)); [|apply (continuous_mult (fun _ => K) (fun y : R => y)); [apply continuous_const | apply continuous_id]].
      apply (filterlim_comp _ _ _ (fun z => z - INR k * sigma) Phi _ (Rbar_locally p_infty)); [|apply Phi_p].
      eapply filterlim_ext; [|apply (affine_p (INR k * sigma) 1 Rlt_0_1)]. intros x. cbn. field.
  - apply (on_positive_eq _ (mu - 0)); [ring|]. destruct (mean_prim mu sigma S) as (D & LA & LB).
    apply (logstandard _ _ _ mu sigma _ _ S D); [| |exact LA | exact LB].
    + intros t Ht. rewrite (lognormal_eq mu sigma t S Ht). field. lra.
    + intros z. apply (ex_derive_continuous (fun z => mu * phi z - sigma * (- z * phi z))). destruct root2. unfold phi. auto_derive. repeat split; lra.
  - apply (on_positive_eq _ (sigma ^ 2 - 0)); [ring|]. destruct (var_prim sigma S) as (D & LA & LB).
    apply (logstandard _ _ _ mu sigma _ _ S D); [| |exact LA | exact LB].
    + intros t Ht. rewrite (lognormal_eq mu sigma t S Ht). field. lra.
    + intros z. apply (ex_derive_continuous (fun z => sigma ^ 2 * (phi z - (1 * phi z + z * (- z * phi z))))). destruct root2. unfold phi. auto_derive. repeat split; lra.
Qed.
Print Assumptions C58_lognormal_law.
(** The documented mean is never that of the distribution: the mean exp (mu + sigma^2 / 2) is greater than mu. *)
Theorem C58_lognormal_mean_refuted : forall mu sigma, 0 < sigma -> forall m, on_positive (fun x => x * lognormal_pdf mu sigma x) m -> mu < m.
Proof.
  intros mu sigma S m H. destruct (C58_lognormal_law mu sigma S) as (_ & M & _). specialize (M 1%nat).
  assert (E : exp (INR 1 * mu + (INR 1 * sigma) ^ 2 / 2) = m).
  { apply (on_positive_unique _ _ _ M). replace (fun x => x ^ 1 * lognormal_pdf mu sigma x) with (fun x => x * lognormal_pdf mu sigma x); [exact H|].
    apply FunctionalExtensionality.functional_extensionality. intros x. cbn. ring. }
  rewrite <- E. cbn. pose proof (exp_ineq1_le (1 * mu + (1 * sigma) * ((1 * sigma) * 1) / 2)) as I. nra.
Qed.
Print Assumptions C58_lognormal_mean_refuted.

(** C58.  Exponential: the density integrates to one and its mean is one over the rate. *)
Theorem C58_exponential_law : forall rate, 0 < rate ->
  on_positive (expo_pdf rate) 1 /\ on_positive (fun x => x * expo_pdf rate x) (1 / rate) /\ on_positive (fun x => (x - 1 / rate) ^ 2 * expo_pdf rate x) ((1 / rate) ^ 2).
Proof.
  intros r Hr.
  assert (G : forall (p F : R -> R) la, (forall x, continuous p x) -> (forall x, is_derive F x (p x * (r * exp (- (r * x))))) -> F 0 = la ->
    (exists C, forall t, 1 <= t -> Rabs (F t - 0) <= C / t) -> on_positive (fun x => p x * expo_pdf r x) (0 - la)).
  { intros p F la C D E0 [K B]. assert (E : forall x, 0 < x -> expo_pdf r x = r * exp (- (r * x))).
    { intros x Hx. unfold expo_pdf. destruct (Rle_dec 0 x); [|lra]. replace (x / (1 / r)) with (r * x) by (field; lra). field. lra. }
    apply (improper F _ la 0 _ _ _ _ (fun t => 0 < t)); [exact positive_dom | | | |].
    - intros x Hx. rewrite (E x Hx). apply D.
    - intros x Hx. apply (continuous_mult p (expo_pdf r)); [apply C|]. apply (continuous_ext_loc (expo_pdf r) (fun x => r * exp (- (r * x)))).
      + exists (mkposreal x Hx). intros y Hy. symmetry. apply E. unfold ball in Hy. cbn in Hy. unfold AbsRing_ball, abs, minus, plus, opp in Hy. cbn in Hy. apply Rabs_lt_between in Hy. lra.
      + apply (ex_derive_continuous (fun x => r * exp (- (r * x)))). auto_derive. exact I.
    - rewrite <- E0. assert (CF : continuous F 0) by (apply (ex_derive_continuous F 0); eexists; apply D). intros P HP. destruct (CF P HP) as [d Hd]. exists d. intros y By _. apply Hd, By.
    - apply (lim_p F 0 K B). }
  assert (B3 : forall t, 1 <= t -> exp (- (r * t)) * (r * t) ^ 3 <= 27).
  { intros t Ht. pose proof (exp_ineq1_le (r * t / 3)) as I. assert (P : 0 < r * t) by nra. assert (E : exp (r * t) = exp (r * t / 3) ^ 3) by (cbn; rewrite Rmult_1_r, <- !exp_plus; f_equal; field).
    rewrite exp_Ropp. apply (Rmult_le_reg_l (exp (r * t))); [apply exp_pos|]. rewrite <- Rmult_assoc, Rinv_r, Rmult_1_l by (pose proof (exp_pos (r * t)); lra). rewrite E.
    replace ((r * t) ^ 3) with ((r * t / 3) ^ 3 * 27) by field. apply Rmult_le_compat_r; [lra|]. apply pow_incr. lra. }
  assert (Bk : forall a b c, exists C, forall t, 1 <= t -> Rabs ((a * t ^ 2 + b * t + c) * exp (- (r * t)) - 0) <= C / t).
  { intros a b c. exists ((Rabs a + Rabs b + Rabs c) * (27 / r ^ 3)). intros t Ht. specialize (B3 t Ht). rewrite Rminus_0_r, Rabs_mult, (Rabs_right (exp _)) by (left; apply exp_pos).
    assert (Q : Rabs (a * t ^ 2 + b * t + c) <= (Rabs a + Rabs b + Rabs c) * t ^ 2).
    { eapply Rle_trans; [apply Rabs_triang|]. eapply Rle_trans; [apply Rplus_le_compat_r, Rabs_triang|]. rewrite !Rabs_mult, (Rabs_right (t ^ 2)), (Rabs_right t) by nra.
      pose proof (Rabs_pos a). pose proof (Rabs_pos b). pose proof (Rabs_pos c). assert (t <= t ^ 2) by nra. assert (1 <= t ^ 2) by nra. nra. }
    assert (X : exp (- (r * t)) * t ^ 2 <= 27 / r ^ 3 / t).
    { assert (R3 : 0 < r ^ 3) by (apply pow_lt, Hr). apply (Rmult_le_reg_r (r ^ 3 * t)); [nra|]. replace (27 / r ^ 3 / t * (r ^ 3 * t)) with 27 by (field; split; lra).
      replace (exp (- (r * t)) * t ^ 2 * (r ^ 3 * t)) with (exp (- (r * t)) * (r * t) ^ 3) by ring. exact B3. }
    pose proof (exp_pos (- (r * t))) as EP. eapply Rle_trans; [apply Rmult_le_compat_r; [lra | exact Q]|].
    replace ((Rabs a + Rabs b + Rabs c) * t ^ 2 * exp (- (r * t))) with ((Rabs a + Rabs b + Rabs c) * (exp (- (r * t)) * t ^ 2)) by ring. unfold Rdiv at 1. rewrite Rmult_assoc.
    apply Rmult_le_compat_l; [pose proof (Rabs_pos a); pose proof (Rabs_pos b); pose proof (Rabs_pos c); lra | exact X]. }
  split; [|split].
  - apply (on_positive_eq _ (0 - - (1))); [ring|]. unfold on_positive. eapply is_RInt_gen_ext; [|apply (G (fun _ => 1) (fun t => (0 * t ^ 2 + 0 * t + - (1)) * exp (- (r * t))) (- (1)))].
    + apply filter_forall. intros ab x _. match goal with |- ?a = ?b => change (@eq R a b) end. ring.
    + intros x. apply continuous_const.
    + intros x. auto_derive; [exact I|]. rring.
    + replace (- (r * 0)) with 0 by ring. rewrite exp_0. ring.
    + apply Bk.
  - apply (on_positive_eq _ (0 - - (1 / r))); [ring|]. apply (G (fun x => x) (fun t => (0 * t ^ 2 + - (1) * t + - (1 / r)) * exp (- (r * t))) (- (1 / r))).
    + intros x. apply continuous_id.
    + intros x. auto_derive; [exact I|]. unfold Rdiv. match goal with |- ?a = ?b => change (@eq R a b) end. field. lra.
    + replace (- (r * 0)) with 0 by ring. rewrite exp_0. ring.
    + apply Bk.
  - apply (on_positive_eq _ (0 - - ((1 / r) ^ 2))); [ring|]. apply (G (fun x => (x - 1 / r) ^ 2) (fun t => (- (1) * t ^ 2 + 0 * t + - ((1 / r) ^ 2)) * exp (- (r * t))) (- ((1 / r) ^ 2))).
    + intros x. apply (ex_derive_continuous (fun x => (x - 1 / r) ^ 2)). auto_derive. exact I.
    + intros x. auto_derive; [exact I|]. unfold Rdiv. match goal with |- ?a = ?b => change (@eq R a b) end. field. lra.
    + replace (- (r * 0)) with 0 by ring. rewrite exp_0. ring.
    + apply Bk.
Qed.
Print Assumptions C58_exponential_law.
(** Non-trivial cases: Normal([3, 2]) has variance 4 and not 2; LogNormal([0, 1]) has mean exp (1/2). *)
Example C58_law_case : on_line (fun x => (x - 3) ^ 2 * normal_pdf 3 2 x) 4 /\ on_positive (fun x => x ^ 1 * lognormal_pdf 0 1 x) (exp (1 / 2)) /\ on_positive (fun x => x * expo_pdf 2 x) (1 / 2).
Proof.
  split; [|split].
  - destruct (C58_normal_law 3 2 ltac:(lra)) as (_ & _ & H). replace 4 with (2 ^ 2) by ring. exact H.
  - destruct (C58_lognormal_law 0 1 ltac:(lra)) as (_ & H & _). specialize (H 1%nat). revert H. apply on_positive_eq. f_equal. cbn. field.
  - destruct (C58_exponential_law 2 ltac:(lra)) as (_ & H & _). exact H.
Qed.
