(** The standard normal density integrates to one. *)
From Coquelicot Require Import Coquelicot.
From Coq Require Import Reals Lra Psatz.
From Verif Require Import M_XReal M_Priors.
Open Scope R_scope.

Ltac rfield := match goal with |- ?a = ?b => change (@eq R a b) end; unfold Rdiv; field.
Ltac rring := match goal with |- ?a = ?b => change (@eq R a b) end; ring.
Definition bell (x : R) : R := exp (- (x * x) / 2).
Lemma bell_pos (x : R) : 0 < bell x.
Proof. apply exp_pos. Qed.
Lemma bell_derive (x : R) : is_derive bell x (- x * bell x).
Proof. unfold bell. auto_derive; [exact I|]. rfield. Qed.
Lemma bell_cont (x : R) : continuous bell x.
Proof. apply (ex_derive_continuous bell). exists (- x * bell x). apply bell_derive. Qed.
Lemma bell_int a b : ex_RInt bell a b.
Proof. apply (ex_RInt_continuous bell). intros z _. apply bell_cont. Qed.
Definition area (t : R) : R := RInt bell 0 t.
Lemma area_derive (t : R) : is_derive area t (bell t).
Proof. unfold area. apply (is_derive_RInt bell (fun t => RInt bell 0 t) 0 t); [|apply bell_cont]. exists (mkposreal 1 Rlt_0_1). intros y _. apply (RInt_correct bell), bell_int. Qed.

(** the companion: the integral over x in [0,1] of exp (- t^2 (1 + x^2) / 2) / (1 + x^2) *)
Definition two (t x : R) : R := exp (- (t * t) * (1 + x * x) / 2) / (1 + x * x).
Definition dtwo (t x : R) : R := - t * exp (- (t * t) * (1 + x * x) / 2).
Lemma pos1 (x : R) : 0 < 1 + x * x.
Proof. nra. Qed.
Lemma two_derive (t x : R) : is_derive (fun u => two u x) t (dtwo t x).
Proof. unfold two, dtwo. pose proof (pos1 x). auto_derive; [lra|]. rfield. lra. Qed.
Lemma two_cont (t x : R) : continuous (two t) x.
Proof. apply (ex_derive_continuous (two t)). unfold two. pose proof (pos1 x). auto_derive. lra. Qed.
Lemma two_int (t : R) : ex_RInt (two t) 0 1.
Proof. apply (ex_RInt_continuous (two t)). intros z _. apply two_cont. Qed.
Definition companion (t : R) : R := RInt (two t) 0 1.
Lemma dtwo_cont (t x : R) : continuity_2d_pt dtwo t x.
Proof.
  unfold dtwo. apply continuity_2d_pt_mult; [apply continuity_2d_pt_opp, continuity_2d_pt_id1|].
  apply (continuity_1d_2d_pt_comp exp (fun t x => - (t * t) * (1 + x * x) / 2)); [apply derivable_continuous_pt, derivable_pt_exp|].
  apply (continuity_2d_pt_ext (fun t x => (t * t * (1 + x * x)) * (- / 2))); [intros a b; field|].
  apply continuity_2d_pt_mult; [|apply continuity_2d_pt_const].
  apply continuity_2d_pt_mult; [apply continuity_2d_pt_mult; apply continuity_2d_pt_id1|].
  apply continuity_2d_pt_plus; [apply continuity_2d_pt_const | apply continuity_2d_pt_mult; apply continuity_2d_pt_id2].
Qed.
Lemma companion_derive (t : R) : is_derive companion t (- (bell t * area t)).
Proof.
  unfold companion.
  assert (D : is_derive (fun t => RInt (fun x => two t x) 0 1) t (RInt (fun x => Derive (fun u => two u x) t) 0 1)).
  { apply is_derive_RInt_param.
    - apply filter_forall. intros y x _. exists (dtwo y x). apply two_derive.
    - intros x _. apply (continuity_2d_pt_ext dtwo); [intros a b; symmetry; apply is_derive_unique, two_derive | apply dtwo_cont].
    - apply filter_forall. intros y. apply two_int. }
  apply (is_derive_ext (fun t => RInt (fun x => two t x) 0 1)); [reflexivity|].
  replace (- (bell t * area t)) with (RInt (fun x => Derive (fun u => two u x) t) 0 1); [exact D|].
  rewrite (RInt_ext _ (fun x => - bell t * (t * bell (t * x + 0)))).
  2: { intros x _. transitivity (dtwo t x); [exact (is_derive_unique (fun u => two u x) t _ (two_derive t x))|]. unfold dtwo, bell.
       replace (- (t * t) * (1 + x * x) / 2) with (- (t * t) / 2 + - ((t * x + 0) * (t * x + 0)) / 2) by field. rewrite exp_plus. rring. }
  assert (C : is_RInt (fun x => t * bell (t * x + 0)) 0 1 (area t)).
  { assert (E : is_RInt bell (t * 0 + 0) (t * 1 + 0) (area t)).
    { replace (t * 0 + 0) with 0 by ring. replace (t * 1 + 0) with t by ring. apply (RInt_correct bell), bell_int. }
    exact (is_RInt_comp_lin (V := R_NormedModule) bell t 0 0 1 (area t) E). }
  replace (- (bell t * area t)) with (- bell t * area t) by ring.
  apply is_RInt_unique. exact (is_RInt_scal (V := R_NormedModule) _ 0 1 (- bell t) (area t) C).
Qed.
Lemma companion_0 : companion 0 = PI / 4.
Proof.
  unfold companion. rewrite <- atan_1. replace (atan 1) with (atan 1 - atan 0) by (rewrite atan_0; ring). apply is_RInt_unique.
  apply (is_RInt_ext (fun x => / (1 + x ^ 2))).
  - intros x _. unfold two. replace (- (0 * 0) * (1 + x * x) / 2) with 0 by field. rewrite exp_0. pose proof (pos1 x). match goal with |- ?a = ?b => change (@eq R a b) end. field. lra.
  - apply (is_RInt_derive (V := R_CompleteNormedModule) atan (fun x => / (1 + x ^ 2))).
    + intros x _. apply is_derive_Reals. apply derivable_pt_lim_atan.
    + intros x _. apply (ex_derive_continuous (fun x => / (1 + x ^ 2))). auto_derive. nra.
Qed.
Lemma sum_const (t : R) : area t * area t / 2 + companion t = PI / 4.
Proof.
  assert (D : forall x, is_derive (fun t => area t * area t / 2 + companion t) x 0).
  { intros x. assert (E : is_derive (fun t => area t * area t / 2 + companion t) x (plus ((bell x * area x + area x * bell x) / 2) (- (bell x * area x)))).
    { apply (is_derive_plus (fun t => area t * area t / 2) companion); [|apply companion_derive].
      apply is_derive_Reals. pose proof (proj1 (is_derive_Reals _ _ _) (area_derive x)) as A.
      pose proof (derivable_pt_lim_mult area area x (bell x) (bell x) A A) as M.
      pose proof (derivable_pt_lim_scal _ (/ 2) x _ M) as S. unfold mult_real_fct, mult_fct in S.
      replace ((bell x * area x + area x * bell x) / 2) with (/ 2 * (bell x * area x + area x * bell x)) by field.
      eapply derivable_pt_lim_ext; [|exact S]. intros y. cbn. field. }
    cbn in E. replace 0 with (plus ((bell x * area x + area x * bell x) / 2) (- (bell x * area x))); [exact E | cbn; field]. }
  assert (A0 : area 0 = 0) by (unfold area; exact (RInt_point (V := R_CompleteNormedModule) 0 bell)).
  assert (E0 : area 0 * area 0 / 2 + companion 0 = PI / 4) by (rewrite A0, companion_0; field).
  rewrite <- E0. destruct (MVT_gen (fun t => area t * area t / 2 + companion t) 0 t (fun _ => 0)) as (c & _ & E).
  - intros x _. apply D.
  - intros x _. apply derivable_continuous_pt. exists 0. apply is_derive_Reals, D.
  - lra.
Qed.
Lemma companion_bound (t : R) : 0 <= companion t <= bell t.
Proof.
  assert (B : forall x, 0 <= two t x <= bell t).
  { intros x. unfold two. pose proof (pos1 x) as P. pose proof (exp_pos (- (t * t) * (1 + x * x) / 2)) as E. split; [apply Rlt_le, Rdiv_lt_0_compat; assumption|].
    assert (L : exp (- (t * t) * (1 + x * x) / 2) <= bell t).
    { unfold bell. destruct (Rle_lt_or_eq_dec (- (t * t) * (1 + x * x) / 2) (- (t * t) / 2)) as [H|H]; [nra | left; apply exp_increasing, H | rewrite H; lra]. }
    apply (Rmult_le_reg_r (1 + x * x)); [exact P|]. unfold Rdiv. rewrite Rmult_assoc, Rinv_l, Rmult_1_r by lra. pose proof (bell_pos t). nra. }
  unfold companion. split.
  - apply RInt_ge_0; [lra | apply two_int | intros x _; apply B].
  - replace (bell t) with (RInt (fun _ => bell t) 0 1) by (rewrite RInt_const; cbn; unfold mult; cbn; ring).
    apply RInt_le; [lra | apply two_int | apply ex_RInt_const | intros x _; apply B].
Qed.
Lemma bell_small (t : R) : bell t * (t * t) < 2.
Proof.
  unfold bell. pose proof (exp_ineq1_le (t * t / 2)) as H. replace (- (t * t) / 2) with (- (t * t / 2)) by field. rewrite exp_Ropp.
  pose proof (exp_pos (t * t / 2)). apply (Rmult_lt_reg_r (exp (t * t / 2))); [assumption|]. replace (/ exp (t * t / 2) * (t * t) * exp (t * t / 2)) with (t * t) by (field; lra). lra.
Qed.
Lemma area_mono a b : a <= b -> area a <= area b.
Proof.
  intros H. destruct (MVT_gen area a b bell) as (c & _ & E).
  - intros x _. apply area_derive.
  - intros x _. apply derivable_continuous_pt. exists (bell x). apply is_derive_Reals, area_derive.
  - pose proof (bell_pos c). nra.
Qed.
Lemma area_0 : area 0 = 0.
Proof. unfold area. exact (RInt_point (V := R_CompleteNormedModule) 0 bell). Qed.
Lemma area_opp (t : R) : area (- t) = - area t.
Proof.
  unfold area. pose proof (RInt_correct bell 0 t (bell_int 0 t)) as H.
  assert (E : is_RInt bell (-1 * 0 + 0) (-1 * (- t) + 0) (RInt bell 0 t)) by (replace (-1 * 0 + 0) with 0 by ring; replace (-1 * - t + 0) with t by ring; exact H).
  apply (is_RInt_comp_lin (V := R_NormedModule)) in E. apply is_RInt_unique. apply (is_RInt_scal (V := R_NormedModule) _ _ _ (-1)) in E.
  replace (- RInt bell 0 t) with (scal (-1) (RInt bell 0 t)) by (unfold scal; cbn; unfold mult; cbn; ring).
  eapply is_RInt_ext; [|exact E]. intros x _. unfold scal. cbn. unfold mult. cbn. unfold bell. replace ((-1 * x + 0) * (-1 * x + 0)) with (x * x) by ring. rring.
Qed.
Lemma root_bounds : 1 <= sqrt (PI / 2) /\ sqrt (PI / 2) * sqrt (PI / 2) = PI / 2.
Proof.
  pose proof PI2_3_2. split.
  - rewrite <- sqrt_1. apply sqrt_le_1_alt. lra.
  - apply sqrt_sqrt. lra.
Qed.
Lemma area_close (t : R) : 1 <= t -> Rabs (area t - sqrt (PI / 2)) <= 4 / t.
Proof.
  intros H. pose proof (sum_const t) as S. pose proof (companion_bound t) as C. pose proof (bell_small t) as B. destruct root_bounds as [R1 R2]. pose proof (area_mono 0 t ltac:(lra)) as A. rewrite area_0 in A.
  set (r := sqrt (PI / 2)) in *. assert (E : (r - area t) * (r + area t) = 2 * companion t) by nra.
  assert (L : 0 <= r - area t) by nra. rewrite Rabs_left1 by lra. apply (Rmult_le_reg_r t); [lra|]. unfold Rdiv. rewrite (Rmult_assoc 4), Rinv_l, Rmult_1_r by lra.
  assert (U : r - area t <= 2 * companion t) by nra. assert (K : bell t * t <= bell t * (t * t)) by (pose proof (bell_pos t); assert (t <= t * t) by nra; nra). nra.
Qed.

(** ** Limits and improper integrals *)
Lemma lim_p (F : R -> R) l C : (forall t, 1 <= t -> Rabs (F t - l) <= C / t) -> filterlim F (Rbar_locally p_infty) (locally l).
Proof.
  intros H P [eps HP]. exists (Rmax 1 (Rabs C / eps)). intros t Ht. apply HP. pose proof (cond_pos eps) as E. pose proof (Rmax_l 1 (Rabs C / eps)). pose proof (Rmax_r 1 (Rabs C / eps)).
  unfold ball. cbn. unfold AbsRing_ball, abs, minus, plus, opp. cbn. apply Rle_lt_trans with (1 := H t ltac:(lra)). apply Rle_lt_trans with (Rabs C / t).
  - unfold Rdiv. apply Rmult_le_compat_r; [left; apply Rinv_0_lt_compat; lra | apply RRle_abs].
  - apply (Rmult_lt_reg_r t); [lra|]. unfold Rdiv. rewrite Rmult_assoc, Rinv_l, Rmult_1_r by lra.
    assert (K : Rabs C / eps < t) by lra. apply (Rmult_lt_compat_r eps) in K; [|exact E]. unfold Rdiv in K. rewrite Rmult_assoc, Rinv_l, Rmult_1_r in K by lra. lra.
Qed.
Lemma lim_m (F : R -> R) l C : (forall t, 1 <= t -> Rabs (F (- t) - l) <= C / t) -> filterlim F (Rbar_locally m_infty) (locally l).
Proof.
  intros H. pose proof (lim_p (fun t => F (- t)) l C H) as L. intros P HP. destruct (L P HP) as [M HM]. exists (- M). intros t Ht. specialize (HM (- t)). rewrite Ropp_involutive in HM. apply HM. lra.
Qed.
Lemma improper (F f : R -> R) la lb (Fa Fb : (R -> Prop) -> Prop) (FA : Filter Fa) (FB : Filter Fb) (dom : R -> Prop) :
  filter_prod Fa Fb (fun ab => forall x, Rmin (fst ab) (snd ab) <= x <= Rmax (fst ab) (snd ab) -> dom x) ->
  (forall x, dom x -> is_derive F x (f x)) -> (forall x, dom x -> continuous f x) -> filterlim F Fa (locally la) -> filterlim F Fb (locally lb) -> is_RInt_gen f Fa Fb (lb - la).
Proof.
  intros HD D C LA LB P [eps HP].
  assert (K : filterlim (fun ab => F (snd ab) - F (fst ab)) (filter_prod Fa Fb) (locally (lb - la))).
  { apply (filterlim_comp_2 (F := filter_prod Fa Fb) (G := locally lb) (H := locally (- la)) (fun ab => F (snd ab)) (fun ab => - F (fst ab)) Rplus).
    - apply (filterlim_comp _ _ _ snd F _ Fb); [apply filterlim_snd | exact LB].
    - apply (filterlim_comp _ _ _ (fun ab => F (fst ab)) Ropp _ (locally la)); [apply (filterlim_comp _ _ _ fst F _ Fa); [apply filterlim_fst | exact LA] | apply (filterlim_opp (V := R_NormedModule))].
    - apply (filterlim_plus (V := R_NormedModule) lb (- la)). }
  specialize (K P (ex_intro _ eps HP)). unfold filtermapi, filtermap in *. 
  apply (filter_imp (fun ab => (forall x, Rmin (fst ab) (snd ab) <= x <= Rmax (fst ab) (snd ab) -> dom x) /\ P (F (snd ab) - F (fst ab)))).
  - intros [a b] [H1 H2]. cbn [fst snd] in *. exists (F b - F a). split; [|exact H2].
    apply (is_RInt_derive (V := R_CompleteNormedModule) F f); intros x Hx; [apply D | apply C]; apply H1, Hx.
  - apply filter_and; [exact HD | exact K].
Qed.
Lemma improper_line (F f : R -> R) la lb : (forall x, is_derive F x (f x)) -> (forall x, continuous f x) -> filterlim F (Rbar_locally m_infty) (locally la) -> filterlim F (Rbar_locally p_infty) (locally lb) ->
  is_RInt_gen f (Rbar_locally m_infty) (Rbar_locally p_infty) (lb - la).
Proof. intros D C LA LB. apply (improper F f la lb _ _ _ _ (fun _ => True)); try assumption; try (intros; apply D); try (intros; apply C). apply filter_forall. intros; exact I. Qed.

(** ** The standard normal distribution function *)
Definition Phi (z : R) : R := 1 / 2 + area z / sqrt (2 * PI).
Lemma root2 : 0 < sqrt (2 * PI) /\ sqrt (2 * PI) = 2 * sqrt (PI / 2) /\ 1 <= sqrt (2 * PI).
Proof.
  pose proof PI_RGT_0. destruct root_bounds as [R1 R2]. assert (E : sqrt (2 * PI) = 2 * sqrt (PI / 2)).
  { replace (2 * PI) with ((2 * sqrt (PI / 2)) * (2 * sqrt (PI / 2))) by nra. apply sqrt_square. lra. }
  rewrite E. lra.
Qed.
Lemma Phi_derive z : is_derive Phi z (phi z).
Proof.
  destruct root2 as (R0 & _). apply is_derive_Reals. pose proof (proj1 (is_derive_Reals _ _ _) (area_derive z)) as A.
  pose proof (derivable_pt_lim_plus (fct_cte (1 / 2)) (mult_real_fct (/ sqrt (2 * PI)) area) z 0 _ (derivable_pt_lim_const (1 / 2) z) (derivable_pt_lim_scal area (/ sqrt (2 * PI)) z _ A)) as D.
  replace (phi z) with (0 + / sqrt (2 * PI) * bell z) by (unfold phi, bell; field; lra). eapply derivable_pt_lim_ext; [|exact D]. intros y. unfold Phi, plus_fct, mult_real_fct, fct_cte. field. lra.
Qed.
Lemma phi_cont z : continuous phi z.
Proof. apply (ex_derive_continuous phi). unfold phi. destruct root2. auto_derive. lra. Qed.
Lemma Phi_close t : 1 <= t -> Rabs (Phi t - 1) <= 4 / t.
Proof.
  intros H. destruct root2 as (R0 & E & R1). unfold Phi. replace (1 / 2 + area t / sqrt (2 * PI) - 1) with ((area t - sqrt (PI / 2)) / sqrt (2 * PI)) by (rewrite E in *; field; lra).
  unfold Rdiv. rewrite Rabs_mult, (Rabs_right (/ sqrt (2 * PI))) by (apply Rle_ge, Rlt_le, Rinv_0_lt_compat; lra).
  pose proof (area_close t H) as A. pose proof (Rabs_pos (area t - sqrt (PI / 2))) as B. assert (I : / sqrt (2 * PI) <= 1) by (rewrite <- Rinv_1; apply Rinv_le_contravar; lra).
  assert (J : 0 < / sqrt (2 * PI)) by (apply Rinv_0_lt_compat; lra). unfold Rdiv in A. nra.
Qed.
Lemma Phi_opp t : Phi (- t) = 1 - Phi t.
Proof. destruct root2. unfold Phi. rewrite area_opp. field. lra. Qed.
Lemma Phi_p : filterlim Phi (Rbar_locally p_infty) (locally 1).
Proof. apply (lim_p Phi 1 4), Phi_close. Qed.
Lemma Phi_m : filterlim Phi (Rbar_locally m_infty) (locally 0).
Proof. apply (lim_m Phi 0 4). intros t H. rewrite Phi_opp. replace (1 - Phi t - 0) with (- (Phi t - 1)) by ring. rewrite Rabs_Ropp. apply Phi_close, H. Qed.
Lemma Phi_unique (F : R -> R) : (forall z, is_derive F z (phi z)) -> filterlim F (Rbar_locally m_infty) (locally 0) -> forall z, F z = Phi z.
Proof.
  intros D L z. assert (K : forall x, F x - Phi x = F z - Phi z).
  { intros x. destruct (MVT_gen (fun t => F t - Phi t) z x (fun _ => 0)) as (c & _ & E).
    - intros y _. replace 0 with (minus (phi y) (phi y)) by (unfold minus, plus, opp; cbn; ring). apply (is_derive_minus F Phi); [apply D | apply Phi_derive].
    - intros y _. apply derivable_continuous_pt. apply derivable_pt_minus; eexists; apply is_derive_Reals; [apply D | apply Phi_derive].
    - lra. }
  assert (C : filterlim (fun x : R => F z - Phi z) (Rbar_locally m_infty) (locally (0 - 0))).
  { apply (filterlim_ext (fun x => F x + - Phi x)); [intros x; apply K|].
    apply (filterlim_comp_2 (F := Rbar_locally m_infty) (G := locally 0) (H := locally (- 0)) F (fun x => - Phi x) Rplus); [exact L | | apply (filterlim_plus (V := R_NormedModule) 0 (- 0))].
    apply (filterlim_comp _ _ _ Phi Ropp _ (locally 0)); [apply Phi_m | apply (filterlim_opp (V := R_NormedModule))]. }
  pose proof (filterlim_locally_unique (F := Rbar_locally m_infty) (fun _ : R => F z - Phi z) _ _ C (filterlim_const (F z - Phi z))) as U. lra.
Qed.
Lemma zphi_close t : 1 <= t -> Rabs (t * phi t) <= 2 / t.
Proof.
  intros H. destruct root2 as (R0 & _ & R1). pose proof (bell_small t) as B. unfold phi. fold (bell t). pose proof (bell_pos t) as P. assert (J : 0 < / sqrt (2 * PI)) by (apply Rinv_0_lt_compat; lra).
  assert (I : / sqrt (2 * PI) <= 1) by (rewrite <- Rinv_1; apply Rinv_le_contravar; lra). unfold Rdiv. rewrite Rabs_right by (apply Rle_ge; apply Rmult_le_pos; [lra|]; apply Rmult_le_pos; lra).
  apply (Rmult_le_reg_r t); [lra|]. rewrite (Rmult_assoc 2), Rinv_l, Rmult_1_r by lra. replace (t * (bell t * / sqrt (2 * PI)) * t) with ((bell t * (t * t)) * / sqrt (2 * PI)) by ring.
  assert (0 < bell t * (t * t)) by (apply Rmult_lt_0_compat; [assumption | nra]). nra.
Qed.
Lemma phi_close t : 1 <= t -> Rabs (phi t) <= 2 / t.
Proof. intros H. pose proof (zphi_close t H) as Z. rewrite Rabs_mult, (Rabs_right t) in Z by lra. pose proof (Rabs_pos (phi t)). nra. Qed.
Lemma phi_opp t : phi (- t) = phi t.
Proof. unfold phi. do 3 f_equal. ring. Qed.
Lemma phi_derive z : is_derive phi z (- z * phi z).
Proof. destruct root2. unfold phi. auto_derive; [lra|]. unfold Rdiv. match goal with |- ?a = ?b => change (@eq R a b) end. field. lra. Qed.
Lemma affine_p mu sigma : 0 < sigma -> filterlim (fun t => (t - mu) / sigma) (Rbar_locally p_infty) (Rbar_locally p_infty).
Proof. intros S P [M HM]. exists (M * sigma + mu). intros t Ht. apply HM. apply (Rmult_lt_reg_r sigma); [exact S|]. unfold Rdiv. rewrite Rmult_assoc, Rinv_l, Rmult_1_r by lra. lra. Qed.
Lemma affine_m mu sigma : 0 < sigma -> filterlim (fun t => (t - mu) / sigma) (Rbar_locally m_infty) (Rbar_locally m_infty).
Proof. intros S P [M HM]. exists (M * sigma + mu). intros t Ht. apply HM. apply (Rmult_lt_reg_r sigma); [exact S|]. unfold Rdiv. rewrite Rmult_assoc, Rinv_l, Rmult_1_r by lra. lra. Qed.
