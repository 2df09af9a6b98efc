(** Proofs for C98: the mixture of normal densities over the chi-square distribution. *)
From Coquelicot Require Import Coquelicot.
From Coq Require Import Reals Lra Psatz.
From Verif Require Import S_MVPrior S_Mixture.
Open Scope R_scope.

Lemma at_right_scale a (Q : R -> Prop) : 0 < a -> at_right 0 Q -> at_right 0 (fun x => Q (a * x)).
Proof.
  intros Ha (e & He). assert (Hp : 0 < e / a) by (apply Rdiv_lt_0_compat; [apply cond_pos | exact Ha]). exists (mkposreal _ Hp). intros y Hy Hy0. apply He; [|apply Rmult_lt_0_compat; assumption].
  unfold ball in *; cbn in *. unfold AbsRing_ball, abs, minus, plus, opp in *; cbn in *. rewrite Ropp_0, Rplus_0_r in *. rewrite Rabs_mult, (Rabs_pos_eq a) by lra.
  apply Rmult_lt_reg_l with (/ a); [now apply Rinv_0_lt_compat|]. rewrite <- Rmult_assoc, Rinv_l, Rmult_1_l by lra. unfold Rdiv in Hy. lra.
Qed.
Lemma infty_scale a (Q : R -> Prop) : 0 < a -> Rbar_locally p_infty Q -> Rbar_locally p_infty (fun x => Q (a * x)).
Proof.
  intros Ha (M & HM). exists (M / a). intros x Hx. apply HM. apply Rmult_lt_reg_l with (/ a); [now apply Rinv_0_lt_compat|]. rewrite <- Rmult_assoc, Rinv_l, Rmult_1_l by lra. unfold Rdiv in Hx. lra.
Qed.
Lemma integral_scale f a l : 0 < a -> integral_0_inf f l -> integral_0_inf (fun x => a * f (a * x)) l.
Proof.
  intros Ha H P HP. specialize (H P HP). destruct H as [Q S HQ HS H]. exists (fun x => Q (a * x)) (fun x => S (a * x)); [now apply at_right_scale | now apply infty_scale|].
  intros x y Hx Hy. destruct (H _ _ Hx Hy) as (v & Hv & HPv). exists v. split; [|exact HPv]. cbn [fst snd] in *.
  apply is_RInt_ext with (fun t => scal a (f (a * t + 0))); [intros t _; rewrite Rplus_0_r; reflexivity|]. apply (is_RInt_comp_lin (V := R_NormedModule) f a 0 x y v). now rewrite !Rplus_0_r.
Qed.
Lemma integral_ext f g l : (forall x, 0 < x -> f x = g x) -> integral_0_inf f l -> integral_0_inf g l.
Proof.
  intros E H. eapply is_RInt_gen_ext; [| exact H]. exists (fun x => 0 < x) (fun x => 0 < x).
  - exists (mkposreal 1 Rlt_0_1). intros y _ Hy. exact Hy.
  - exists 0. intros x Hx. exact Hx.
  - intros x y Hx Hy t (Ht & _). apply E. cbn [fst snd] in Ht. unfold Rmin in Ht. destruct (Rle_dec x y); lra.
Qed.
Lemma integral_mult f k l : integral_0_inf f l -> integral_0_inf (fun x => k * f x) (k * l).
Proof. intros H. apply (is_RInt_gen_scal (V := R_NormedModule) f k l H). Qed.

Lemma Rpower_inv x y : 0 < x -> Rpower (/ x) y = / Rpower x y.
Proof. intros Hx. unfold Rpower. rewrite ln_Rinv by exact Hx. rewrite Ropp_mult_distr_r_reverse, exp_Ropp. reflexivity. Qed.
Lemma Rpower_div x y z : 0 < x -> 0 < y -> Rpower (x / y) z = Rpower x z / Rpower y z.
Proof. intros Hx Hy. unfold Rdiv. rewrite <- Rpower_mult_distr by (try assumption; now apply Rinv_0_lt_compat). now rewrite Rpower_inv. Qed.
(** the integral of c^(m-1) exp(-a c) *)
Lemma gamma_scaled gam m a : 0 < a -> GammaAt gam m -> integral_0_inf (fun c => Rpower c (m - 1) * exp (- (a * c))) (gam m * Rpower a (- m)).
Proof.
  intros Ha H. rewrite Rmult_comm. apply integral_ext with (fun c => Rpower a (- m) * (a * (Rpower (a * c) (m - 1) * exp (- (a * c))))).
  - intros c Hc. rewrite <- Rpower_mult_distr by assumption. replace (Rpower a (- m) * (a * (Rpower a (m - 1) * Rpower c (m - 1) * exp (- (a * c))))) with ((Rpower a (- m) * (a * Rpower a (m - 1))) * (Rpower c (m - 1) * exp (- (a * c)))) by ring.
    rewrite <- (Rpower_1 a) at 2 by exact Ha. rewrite <- !Rpower_plus. replace (- m + (1 + (m - 1))) with 0 by ring. rewrite Rpower_O by exact Ha. ring.
  - apply integral_mult. exact (integral_scale (fun t => Rpower t (m - 1) * exp (- t)) a (gam m) Ha H).
Qed.
Lemma pow_sqrt_inv c n : 0 < c -> (/ sqrt c) ^ n = / Rpower c (INR n / 2).
Proof.
  intros Hc. rewrite <- Rpower_pow by (apply Rinv_0_lt_compat, sqrt_lt_R0, Hc). rewrite Rpower_inv by (apply sqrt_lt_R0, Hc). f_equal.
  rewrite <- Rpower_sqrt by exact Hc. rewrite Rpower_mult. f_equal. field.
Qed.
Lemma sigma_sq_nonneg n (z : nat -> R) : 0 <= sigma n (fun k => z k * z k).
Proof. induction n as [|n IH]; cbn [sigma]; [lra|]. pose proof (Rle_0_sqr (z n)). unfold Rsqr in *. lra. Qed.

(** the value of the mixture *)
Lemma mixture gam n L v z : 0 < v -> 0 < gam (v / 2) -> 0 < prod n (fun i => L i i) -> GammaAt gam ((v + INR n) / 2) ->
  integral_0_inf (fun c => chi_square gam v c * normal_density n L (/ sqrt (c / v)) z)
    (gam ((v + INR n) / 2) / (gam (v / 2) * Rpower (v * PI) (INR n / 2) * prod n (fun i => L i i)) * Rpower (1 + sigma n (fun k => z k * z k) / v) (- ((v + INR n) / 2))).
Proof.
  intros Hv Hg HL HG. set (q := sigma n (fun k => z k * z k)). assert (Hq : 0 <= q) by apply sigma_sq_nonneg. set (m := (v + INR n) / 2) in *. set (P := prod n (fun i => L i i)) in *.
  assert (Hn : 0 <= INR n) by apply pos_INR. assert (HPI := PI_RGT_0). assert (Hqv : 0 <= q / v) by (apply Rmult_le_pos; [exact Hq | apply Rlt_le, Rinv_0_lt_compat, Hv]). set (a := (1 + q / v) / 2). assert (Ha : 0 < a) by (unfold a; lra).
  set (K := / (Rpower 2 (v / 2) * gam (v / 2) * Rpower (2 * PI) (INR n / 2) * Rpower v (INR n / 2) * P)).
  assert (P1 := exp_pos (v / 2 * ln 2)). fold (Rpower 2 (v / 2)) in P1. assert (P2 := exp_pos (INR n / 2 * ln (2 * PI))). fold (Rpower (2 * PI) (INR n / 2)) in P2. assert (P3 := exp_pos (INR n / 2 * ln v)). fold (Rpower v (INR n / 2)) in P3.
  apply integral_ext with (fun c => K * (Rpower c (m - 1) * exp (- (a * c)))).
  - intros c Hc. assert (Hcv : 0 < c / v) by (apply Rdiv_lt_0_compat; assumption). unfold chi_square, normal_density. fold q. fold P. rewrite pow_sqrt_inv by exact Hcv.
    assert (Hs := sqrt_lt_R0 _ Hcv). replace (/ sqrt (c / v) * / sqrt (c / v)) with (/ (c / v)) by (rewrite <- Rinv_mult, sqrt_sqrt by lra; reflexivity).
    rewrite Rpower_div by assumption. assert (P4 := exp_pos (INR n / 2 * ln c)). fold (Rpower c (INR n / 2)) in P4.
    replace (m - 1) with ((v / 2 - 1) + INR n / 2) by (unfold m; field). rewrite Rpower_plus.
    replace (- (a * c)) with (- c / 2 + - q / (2 * / (c / v))) by (unfold a; field; lra). rewrite exp_plus. unfold K. field. repeat split; lra.
  - replace (gam m / (gam (v / 2) * Rpower (v * PI) (INR n / 2) * P) * Rpower (1 + q / v) (- m)) with (K * (gam m * Rpower a (- m))).
    + apply integral_mult, gamma_scaled; assumption.
    + unfold a. rewrite Rpower_div by lra. unfold K. rewrite <- (Rpower_mult_distr 2 PI), <- (Rpower_mult_distr v PI) by lra. assert (P5 := exp_pos (INR n / 2 * ln PI)). fold (Rpower PI (INR n / 2)) in P5. assert (P6 := exp_pos (INR n / 2 * ln 2)). fold (Rpower 2 (INR n / 2)) in P6.
      replace (Rpower 2 (- m)) with (/ (Rpower 2 (v / 2) * Rpower 2 (INR n / 2))) by (rewrite <- Rpower_plus, <- Rpower_Ropp; f_equal; unfold m; field).
      field. repeat split; lra.
Qed.
Print Assumptions mixture.
