(** Positive definite and conditionally negative definite functions: the Gaussian kernel and powers of the Euclidean distance.  Pure mathematics
    used for C38; no model definitions. *)
From Coq Require Import Reals Lra Lia List.
From Verif Require Import M_Base S_Stats L_Stats S_Distance L_Distance.
Import ListNotations.
Open Scope R_scope.

(** sum over all pairs of weighted points *)
Definition qf {X} (k : X -> X -> R) (l : list (R * X)) : R := total (map (fun p => total (map (fun q => fst p * fst q * k (snd p) (snd q)) l)) l).
Definition wsum {X} (f : X -> R) (l : list (R * X)) : R := total (map (fun p => fst p * f (snd p)) l).
Definition on {X} (D : X -> Prop) (l : list (R * X)) : Prop := Forall (fun p => D (snd p)) l.
Definition PosDef {X} (D : X -> Prop) (k : X -> X -> R) : Prop := forall l, on D l -> 0 <= qf k l.
Definition NegType {X} (D : X -> Prop) (k : X -> X -> R) : Prop := forall l, on D l -> total (map fst l) = 0 -> qf k l <= 0.

Lemma total_ext {A} (f g : A -> R) l : (forall x, In x l -> f x = g x) -> total (map f l) = total (map g l).
Proof. intros H. apply f_equal, map_ext_in. exact H. Qed.

Section K.
Context {X : Type}.
Variable D : X -> Prop.
Implicit Types k : X -> X -> R.
Lemma on_in l p : on D l -> In p l -> D (snd p).
Proof. unfold on. rewrite Forall_forall. intros H. apply H. Qed.
Lemma qf_ext k1 k2 l : on D l -> (forall x y, D x -> D y -> k1 x y = k2 x y) -> qf k1 l = qf k2 l.
Proof. intros Hl H. unfold qf. apply total_ext. intros p Hp. apply total_ext. intros q Hq. rewrite H by (eapply on_in; eassumption). reflexivity. Qed.
Lemma qf_plus k1 k2 l : qf (fun x y => k1 x y + k2 x y) l = qf k1 l + qf k2 l.
Proof. unfold qf. rewrite <- total_plus. apply f_equal, map_ext. intros p. rewrite <- total_plus. apply f_equal, map_ext. intros q. ring. Qed.
Lemma qf_scale c k l : qf (fun x y => c * k x y) l = c * qf k l.
Proof. unfold qf. rewrite <- total_scale. apply f_equal, map_ext. intros p. rewrite <- total_scale. apply f_equal, map_ext. intros q. ring. Qed.
Lemma qf_rank (f g : X -> R) (l : list (R * X)) : qf (fun x y => f x * g y) l = wsum f l * wsum g l.
Proof.
  unfold qf, wsum. rewrite Rmult_comm, <- total_scale. apply f_equal, map_ext. intros p. rewrite Rmult_comm, <- total_scale. apply f_equal, map_ext. intros q. ring.
Qed.
Lemma wsum_one (l : list (R * X)) : wsum (fun _ => 1) l = total (map fst l).
Proof. unfold wsum. apply f_equal, map_ext. intros p. ring. Qed.

(** finite sums of products of features *)
Definition Feat k : Prop := exists L : list (X -> R), forall x y, D x -> D y -> k x y = total (map (fun f => f x * f y) L).
Lemma qf_features (L : list (X -> R)) (l : list (R * X)) : 0 <= qf (fun x y => total (map (fun f => f x * f y) L)) l.
Proof.
  induction L as [|f L IH].
  - cbn [map]. change (total []) with 0. unfold qf. apply Req_le. symmetry. transitivity (total (map (fun _ : R * X => 0) l)); [|rewrite total_const; ring].
    apply f_equal, map_ext. intros p. transitivity (total (map (fun _ : R * X => 0) l)); [|rewrite total_const; ring]. apply f_equal, map_ext. intros q. ring.
  - cbn [map]. assert (E : qf (fun x y => total (f x * f y :: map (fun f0 => f0 x * f0 y) L)) l = qf (fun x y => f x * f y + total (map (fun f0 => f0 x * f0 y) L)) l) by reflexivity.
    rewrite E, qf_plus, qf_rank. pose proof (Rle_0_sqr (wsum f l)) as H. unfold Rsqr in H. lra.
Qed.
Lemma Feat_PosDef k : Feat k -> PosDef D k.
Proof. intros (L & H) l Hl. rewrite (qf_ext _ _ l Hl H). apply qf_features. Qed.
Lemma Feat_const c : 0 <= c -> Feat (fun _ _ => c).
Proof. intros H. exists [fun _ => sqrt c]. intros x y _ _. cbn [map]. rewrite total_cons. change (total []) with 0. rewrite sqrt_def by exact H. ring. Qed.
Lemma Feat_rank f : Feat (fun x y => f x * f y).
Proof. exists [f]. intros x y _ _. cbn [map]. rewrite total_cons. change (total []) with 0. ring. Qed.
Lemma Feat_plus k1 k2 : Feat k1 -> Feat k2 -> Feat (fun x y => k1 x y + k2 x y).
Proof. intros (L1 & H1) (L2 & H2). exists (L1 ++ L2). intros x y Hx Hy. rewrite map_app, total_app, <- (H1 x y Hx Hy), <- (H2 x y Hx Hy). reflexivity. Qed.
Lemma Feat_mult k1 k2 : Feat k1 -> Feat k2 -> Feat (fun x y => k1 x y * k2 x y).
Proof.
  intros (L1 & H1) (L2 & H2). exists (flat_map (fun f => map (fun g x => f x * g x) L2) L1). intros x y Hx Hy. rewrite (H1 x y Hx Hy), (H2 x y Hx Hy). clear H1 H2.
  induction L1 as [|f L1 IH]; [cbn; ring|]. cbn [map flat_map]. rewrite map_app, total_app, total_cons, <- IH, map_map.
  replace (total (map (fun g => f x * g x * (f y * g y)) L2)) with (f x * f y * total (map (fun g => g x * g y) L2)); [ring|]. rewrite <- total_scale. apply f_equal, map_ext. intros g. ring.
Qed.
Lemma Feat_pow k n : Feat k -> Feat (fun x y => k x y ^ n).
Proof. intros H. induction n as [|n IH]; [exact (Feat_const 1 Rle_0_1)|]. exact (Feat_mult _ _ H IH). Qed.
Lemma Feat_sum (a : nat -> R) k n : Feat k -> (forall i, 0 <= a i) -> Feat (fun x y => sum_f_R0 (fun i => a i * k x y ^ i) n).
Proof.
  intros Hk Ha. induction n as [|n IH]; cbn [sum_f_R0].
  - apply (Feat_mult (fun _ _ => a 0%nat) (fun x y => k x y ^ 0)); [apply Feat_const, Ha | apply Feat_pow, Hk].
  - apply Feat_plus; [exact IH|]. apply (Feat_mult (fun _ _ => a (S n)) (fun x y => k x y ^ S n)); [apply Feat_const, Ha | apply Feat_pow, Hk].
Qed.

(** limits *)
Lemma total_cv {A} (f : nat -> A -> R) (g : A -> R) l : (forall x, In x l -> Un_cv (fun n => f n x) (g x)) -> Un_cv (fun n => total (map (f n) l)) (total (map g l)).
Proof.
  induction l as [|x l IH]; intros H.
  - cbn [map]. intros eps He. exists 0%nat. intros n _. rewrite R_dist_eq. exact He.
  - cbn [map]. rewrite total_cons. apply (Un_cv_ext (fun n => f n x + total (map (f n) l))); [intros n; reflexivity|]. apply CV_plus; [apply H; left; reflexivity | apply IH; intros y Hy; apply H; right; exact Hy].
Qed.
Lemma cv_const c : Un_cv (fun _ => c) c.
Proof. intros eps He. exists 0%nat. intros n _. rewrite R_dist_eq. exact He. Qed.
Lemma qf_cv (kn : nat -> X -> X -> R) k l : on D l -> (forall x y, D x -> D y -> Un_cv (fun n => kn n x y) (k x y)) -> Un_cv (fun n => qf (kn n) l) (qf k l).
Proof.
  intros Hl H. unfold qf. apply (total_cv (fun n p => total (map (fun q => fst p * fst q * kn n (snd p) (snd q)) l))). intros p Hp.
  apply (total_cv (fun n q => fst p * fst q * kn n (snd p) (snd q))). intros q Hq. apply CV_mult; [apply cv_const | apply H; eapply on_in; eassumption].
Qed.
Lemma cv_nonneg (u : nat -> R) a : (forall n, 0 <= u n) -> Un_cv u a -> 0 <= a.
Proof.
  intros H Hc. destruct (Rle_or_lt 0 a) as [|Hlt]; [assumption|]. exfalso. destruct (Hc (- a) ltac:(lra)) as (N & HN). specialize (HN N (le_n N)). unfold R_dist in HN. specialize (H N). apply Rabs_def2 in HN. lra.
Qed.
Lemma PosDef_limit (kn : nat -> X -> X -> R) k : (forall n, PosDef D (kn n)) -> (forall x y, D x -> D y -> Un_cv (fun n => kn n x y) (k x y)) -> PosDef D k.
Proof. intros Hn Hc l Hl. apply (cv_nonneg (fun n => qf (kn n) l)); [intros n; apply Hn; exact Hl | apply qf_cv; assumption]. Qed.
Lemma NegType_limit (kn : nat -> X -> X -> R) k : (forall n, NegType D (kn n)) -> (forall x y, D x -> D y -> Un_cv (fun n => kn n x y) (k x y)) -> NegType D k.
Proof.
  intros Hn Hc l Hl Hs. assert (0 <= - qf k l); [|lra]. apply (cv_nonneg (fun n => - qf (kn n) l)); [intros n; pose proof (Hn n l Hl Hs); lra|]. apply CV_opp. apply qf_cv; assumption.
Qed.
Lemma NegType_plus k1 k2 : NegType D k1 -> NegType D k2 -> NegType D (fun x y => k1 x y + k2 x y).
Proof. intros H1 H2 l Hl Hs. rewrite qf_plus. pose proof (H1 l Hl Hs). pose proof (H2 l Hl Hs). lra. Qed.
Lemma NegType_scale c k : 0 <= c -> NegType D k -> NegType D (fun x y => c * k x y).
Proof. intros Hc H l Hl Hs. rewrite qf_scale. pose proof (H l Hl Hs) as Hq. pose proof (Rmult_le_compat_l c _ 0 Hc Hq). lra. Qed.
Lemma NegType_ext k1 k2 : (forall x y, D x -> D y -> k1 x y = k2 x y) -> NegType D k1 -> NegType D k2.
Proof. intros E H l Hl Hs. rewrite <- (qf_ext k1 k2 l Hl E). apply H; assumption. Qed.
Lemma PosDef_ext k1 k2 : (forall x y, D x -> D y -> k1 x y = k2 x y) -> PosDef D k1 -> PosDef D k2.
Proof. intros E H l Hl. rewrite <- (qf_ext k1 k2 l Hl E). apply H; assumption. Qed.
Lemma NegType_one_minus k : PosDef D k -> NegType D (fun x y => 1 - k x y).
Proof.
  intros H l Hl Hs. assert (E : qf (fun x y => 1 - k x y) l = qf (fun x y => 1 * 1 + (-1) * k x y) l) by (apply qf_ext; [exact Hl | intros; ring]).
  rewrite E, (qf_plus (fun _ _ => 1 * 1)), (qf_scale (-1)), (qf_rank (fun _ => 1) (fun _ => 1)), wsum_one, Hs. pose proof (H l Hl). lra.
Qed.
Lemma NegType_sum (a : nat -> X -> X -> R) n : (forall i, NegType D (a i)) -> NegType D (fun x y => sum_f_R0 (fun i => a i x y) n).
Proof. intros H. induction n as [|n IH]; cbn [sum_f_R0]; [apply H | apply NegType_plus; [exact IH | apply H]]. Qed.
End K.

(** the dot product of vectors of length p *)
Definition dim (p : nat) (v : list R) : Prop := length v = p.
Lemma Feat_dot p : Feat (dim p) dotl.
Proof.
  exists (map (fun i v => nth i v 0) (seq 0 p)). intros x y Hx Hy. unfold dim in *. rewrite map_map. revert x y Hx Hy. induction p as [|p IH]; intros [|a x] [|b y] Hx Hy; try discriminate; [reflexivity|].
  rewrite dotl_cons. cbn [seq map]. rewrite total_cons. cbn [nth]. rewrite (IH x y) by (cbn in *; lia). f_equal. rewrite <- seq_shift, map_map. reflexivity.
Qed.
Lemma sq_dots : forall x y, length x = length y -> sq x y = dotl x x + dotl y y - 2 * dotl x y.
Proof. induction x as [|a x IH]; intros [|b y] H; try discriminate; [cbn; lra|]. rewrite sq_cons, !dotl_cons, (IH y) by (cbn in H; lia). ring. Qed.

(** exp(-t |x-y|^2) is positive definite *)
Definition expsum (n : nat) (u : R) : R := sum_f_R0 (fun i => / INR (fact i) * u ^ i) n.
Lemma expsum_cv u : Un_cv (fun n => expsum n u) (exp u).
Proof. unfold exp. destruct (exist_exp u) as (l & Hl). cbn [proj1_sig]. exact Hl. Qed.
Theorem gauss_PosDef p t : 0 <= t -> PosDef (dim p) (fun x y => exp (- t * sq x y)).
Proof.
  intros Ht. set (g := fun x => exp (- t * dotl x x)).
  apply (PosDef_limit _ (fun n x y => g x * g y * expsum n (2 * t * dotl x y))).
  - intros n. apply Feat_PosDef. apply Feat_mult; [apply Feat_rank|]. unfold expsum. apply (Feat_sum _ (fun i => / INR (fact i)) (fun x y => 2 * t * dotl x y)).
    + apply (Feat_mult _ (fun _ _ => 2 * t) dotl); [apply Feat_const; lra | apply Feat_dot].
    + intros i. apply Rlt_le, Rinv_0_lt_compat, INR_fact_lt_0.
  - intros x y Hx Hy. replace (exp (- t * sq x y)) with (g x * g y * exp (2 * t * dotl x y)).
    + apply CV_mult; [apply cv_const | apply expsum_cv].
    + unfold g. rewrite <- !exp_plus. f_equal. rewrite sq_dots by (unfold dim in *; congruence). ring.
Qed.

(** |x-y|^2 *)
Theorem sq_NegType p : NegType (dim p) sq.
Proof.
  intros l Hl Hs. assert (E : qf sq l = qf (fun x y => dotl x x * 1 + (1 * dotl y y + (-2) * dotl x y)) l).
  { apply (qf_ext (dim p)); [exact Hl|]. intros x y Hx Hy. rewrite sq_dots by (unfold dim in *; congruence). ring. }
  rewrite E, (qf_plus (fun x _ => dotl x x * 1)), (qf_plus (fun _ y => 1 * dotl y y)), (qf_scale (-2)).
  rewrite (qf_rank (fun x => dotl x x) (fun _ => 1)), (qf_rank (fun _ => 1) (fun y => dotl y y)), wsum_one, Hs. pose proof (Feat_PosDef _ _ (Feat_dot p) l Hl). lra.
Qed.

(** Powers |x-y|^(2 al), 0 < al < 1, as limits of positive combinations of 1 - exp(-t |x-y|^2) over the grid t = q^k, k integer:
    the weighted sum over all k of (1 - exp(-q^k lam)) q^(-al k) is multiplied by q^al when lam is multiplied by q. *)
Section Power.
Variable al : R.
Hypothesis Hal : 0 < al < 1.
Section Grid.
Variable q : R.
Hypothesis Hq : 1 < q.
Let RR := Rpower q al.
Let r := / RR.
Let ps := / q.
Lemma RR_gt1 : 1 < RR.
Proof. unfold RR. rewrite <- (Rpower_O q) by lra. apply Rpower_lt; lra. Qed.
Lemma RR_lt_q : RR < q.
Proof. unfold RR. rewrite <- (Rpower_1 q) at 2 by lra. apply Rpower_lt; lra. Qed.
Lemma r_bounds : 0 < r < 1.
Proof. unfold r. pose proof RR_gt1. split; [apply Rinv_0_lt_compat; lra|]. rewrite <- Rinv_1. apply Rinv_lt_contravar; lra. Qed.
Lemma ps_bounds : 0 < ps < 1.
Proof. unfold ps. split; [apply Rinv_0_lt_compat; lra|]. rewrite <- Rinv_1. apply Rinv_lt_contravar; lra. Qed.
Lemma psR_bounds : 0 < ps * RR < 1.
Proof. pose proof ps_bounds. pose proof RR_gt1. pose proof RR_lt_q. split; [nra|]. unfold ps. apply (Rmult_lt_reg_l q); [lra|]. rewrite <- Rmult_assoc, Rinv_r by lra. lra. Qed.

Definition up (k : nat) (lam : R) : R := (1 - exp (- (q ^ k * lam))) * r ^ k.
Definition down (k : nat) (lam : R) : R := (1 - exp (- (ps ^ S k * lam))) * RR ^ S k.
Definition grid (n : nat) (lam : R) : R := sum_f_R0 (fun k => up k lam) n + sum_f_R0 (fun k => down k lam) n.
Lemma one_minus_exp x : 0 <= x -> 0 <= 1 - exp (- x) <= 1.
Proof. intros H. pose proof (exp_pos (- x)). assert (exp (- x) <= 1). { rewrite <- exp_0. destruct (Req_dec x 0) as [->|]; [rewrite Ropp_0; lra | apply Rlt_le, exp_increasing; lra]. } lra. Qed.
Lemma one_minus_exp_le x : 0 <= x -> 1 - exp (- x) <= x.
Proof. intros H. destruct (Req_dec x 0) as [->|]; [rewrite Ropp_0, exp_0; lra|]. pose proof (exp_ineq1 (- x) ltac:(lra)). lra. Qed.
Lemma one_minus_exp_mono x y : x <= y -> 1 - exp (- x) <= 1 - exp (- y).
Proof. intros H. destruct (Req_dec x y) as [->|]; [lra|]. assert (exp (- y) < exp (- x)) by (apply exp_increasing; lra). lra. Qed.
Lemma pow_nn a k : 0 < a -> 0 < a ^ k.
Proof. apply pow_lt. Qed.
Lemma up_bounds k lam : 0 <= lam -> 0 <= up k lam <= r ^ k.
Proof.
  intros H. unfold up. pose proof (pow_nn r k (proj1 r_bounds)) as Hr. pose proof (pow_nn q k ltac:(lra)) as Hqk. pose proof (one_minus_exp (q ^ k * lam) ltac:(apply Rmult_le_pos; lra)). split; nra.
Qed.
Lemma down_bounds k lam : 0 <= lam -> 0 <= down k lam <= lam * (ps * RR) ^ S k.
Proof.
  intros H. unfold down. pose proof (pow_nn RR (S k) ltac:(pose proof RR_gt1; lra)) as Hr. pose proof (pow_nn ps (S k) (proj1 ps_bounds)) as Hp.
  pose proof (one_minus_exp (ps ^ S k * lam) ltac:(apply Rmult_le_pos; lra)). pose proof (one_minus_exp_le (ps ^ S k * lam) ltac:(apply Rmult_le_pos; lra)). rewrite Rpow_mult_distr. split; [apply Rmult_le_pos; lra|].
  replace (lam * (ps ^ S k * RR ^ S k)) with (ps ^ S k * lam * RR ^ S k) by ring. apply Rmult_le_compat_r; lra.
Qed.
Lemma geom_sum a n : 0 < a < 1 -> sum_f_R0 (fun k => a ^ k) n <= / (1 - a).
Proof.
  intros H. rewrite tech3 by lra. unfold Rdiv. pose proof (pow_nn a (S n) (proj1 H)). assert (0 < / (1 - a)) by (apply Rinv_0_lt_compat; lra). rewrite <- (Rmult_1_l (/ (1 - a))) at 2. apply Rmult_le_compat_r; lra.
Qed.
Lemma grid_bounded lam n : 0 <= lam -> grid n lam <= / (1 - r) + lam * / (1 - ps * RR).
Proof.
  intros H. unfold grid. apply Rplus_le_compat.
  - eapply Rle_trans; [|apply (geom_sum r n r_bounds)]. apply sum_Rle. intros k _. apply up_bounds. exact H.
  - eapply Rle_trans; [apply (sum_Rle _ (fun k => (ps * RR) ^ k * lam))|].
    + intros k _. eapply Rle_trans; [apply down_bounds; exact H|]. cbn [pow]. pose proof psR_bounds. pose proof (pow_nn (ps * RR) k (proj1 psR_bounds)). assert (ps * RR * (ps * RR) ^ k <= (ps * RR) ^ k) by nra. nra.
    + rewrite <- scal_sum. apply Rmult_le_compat_l; [exact H|]. apply geom_sum, psR_bounds.
Qed.
Lemma grid_growing lam : 0 <= lam -> Un_growing (fun n => grid n lam).
Proof. intros H n. unfold grid. cbn [sum_f_R0]. pose proof (up_bounds (S n) lam H). pose proof (down_bounds (S n) lam H). lra. Qed.
Lemma grid_limit lam : 0 <= lam -> { s : R | Un_cv (fun n => grid n lam) s }.
Proof.
  intros H. apply growing_cv; [apply grid_growing; exact H|]. exists (/ (1 - r) + lam * / (1 - ps * RR)). intros x (n & ->). apply grid_bounded. exact H.
Qed.
Lemma grid_scale lam n : grid (S n) (q * lam) = RR * (sum_f_R0 (fun k => up k lam) (S (S n)) + sum_f_R0 (fun k => down k lam) n).
Proof.
  assert (Hu : forall m, sum_f_R0 (fun k => up k (q * lam)) m = RR * (sum_f_R0 (fun k => up k lam) (S m) - up 0 lam)).
  { pose proof RR_gt1 as Hgt. assert (Hk : forall k, up k (q * lam) = RR * up (S k) lam). { intros k. unfold up. cbn [pow]. replace (q * q ^ k * lam) with (q ^ k * (q * lam)) by ring. unfold r at 2. field. lra. }
    induction m as [|m IH]; [cbn [sum_f_R0]; rewrite Hk; ring|]. change (sum_f_R0 (fun k => up k (q * lam)) (S m)) with (sum_f_R0 (fun k => up k (q * lam)) m + up (S m) (q * lam)). rewrite IH, Hk. cbn [sum_f_R0]. ring. }
  assert (Hd : forall m, sum_f_R0 (fun k => down k (q * lam)) (S m) = RR * (up 0 lam + sum_f_R0 (fun k => down k lam) m)).
  { assert (Hk : forall k, down (S k) (q * lam) = RR * down k lam). { intros k. unfold down. replace (ps ^ S (S k) * (q * lam)) with (ps ^ S k * lam) by (cbn [pow]; unfold ps; field; lra). cbn [pow]. ring. }
    assert (H0 : down 0 (q * lam) = RR * up 0 lam). { unfold down, up. replace (ps ^ 1 * (q * lam)) with (q ^ 0 * lam) by (cbn [pow]; unfold ps; field; lra). cbn [pow]. ring. }
    induction m as [|m IH]; [cbn [sum_f_R0]; rewrite H0, Hk; ring|]. change (sum_f_R0 (fun k => down k (q * lam)) (S (S m))) with (sum_f_R0 (fun k => down k (q * lam)) (S m) + down (S (S m)) (q * lam)). rewrite IH, Hk. cbn [sum_f_R0]. ring. }
  unfold grid. rewrite Hu, Hd. ring.
Qed.
Lemma cv_shift (u : nat -> R) a j : Un_cv u a -> Un_cv (fun n => u (n + j)%nat) a.
Proof. intros H eps He. destruct (H eps He) as (N & HN). exists N. intros n Hn. apply HN. lia. Qed.
Lemma up_cv0 lam : 0 <= lam -> Un_cv (fun n => up n lam) 0.
Proof.
  intros H eps He. destruct (pow_lt_1_zero r ltac:(rewrite Rabs_pos_eq; [apply r_bounds | apply Rlt_le, r_bounds]) eps He) as (N & HN). exists N. intros n Hn. unfold R_dist. rewrite Rminus_0_r.
  pose proof (up_bounds n lam H). specialize (HN n Hn). rewrite Rabs_pos_eq by lra. rewrite Rabs_pos_eq in HN by (apply Rlt_le, pow_nn, r_bounds). lra.
Qed.
(** the limit at q * lam is RR times the limit at lam *)
Lemma limit_scale lam s s' : 0 <= lam -> Un_cv (fun n => grid n lam) s -> Un_cv (fun n => grid n (q * lam)) s' -> s' = RR * s.
Proof.
  intros H Hs Hs'. apply (UL_sequence (fun n => grid (n + 1) (q * lam))); [apply (cv_shift (fun n => grid n (q * lam)) s' 1), Hs'|].
  apply (Un_cv_ext (fun n => RR * (grid n lam + up (n + 1) lam + up (n + 2) lam))).
  - intros n. rewrite !(Nat.add_comm n). cbn [Nat.add]. rewrite grid_scale. unfold grid. cbn [sum_f_R0]. ring.
  - replace (RR * s) with (RR * (s + 0 + 0)) by ring. apply CV_mult; [apply cv_const|]. apply CV_plus; [apply CV_plus; [exact Hs|]|]; [apply (cv_shift (fun n => up n lam) 0 1) | apply (cv_shift (fun n => up n lam) 0 2)]; apply up_cv0, H.
Qed.
Lemma limit_pow j : forall lam s s', 0 <= lam -> Un_cv (fun n => grid n lam) s -> Un_cv (fun n => grid n (q ^ j * lam)) s' -> s' = RR ^ j * s.
Proof.
  induction j as [|j IH]; intros lam s s' H Hs Hs'.
  - cbn [pow] in *. rewrite Rmult_1_l in Hs' |- *. eapply UL_sequence; eassumption.
  - destruct (grid_limit (q ^ j * lam)) as (s1 & H1); [apply Rmult_le_pos; [apply Rlt_le, pow_lt; lra | exact H]|].
    assert (E : q ^ S j * lam = q * (q ^ j * lam)) by (cbn; ring). rewrite E in Hs'. rewrite (limit_scale (q ^ j * lam) s1 s' ltac:(apply Rmult_le_pos; [apply Rlt_le, pow_lt; lra | exact H]) H1 Hs'). rewrite (IH lam s s1 H Hs H1). cbn [pow]. ring.
Qed.
Lemma grid_mono n x y : 0 <= x <= y -> grid n x <= grid n y.
Proof.
  intros [H0 H]. unfold grid. apply Rplus_le_compat; apply sum_Rle; intros k _.
  - unfold up. apply Rmult_le_compat_r; [apply Rlt_le, pow_lt, r_bounds|]. apply one_minus_exp_mono. apply Rmult_le_compat_l; [apply Rlt_le, pow_lt; lra | exact H].
  - unfold down. apply Rmult_le_compat_r; [apply Rlt_le, pow_lt; pose proof RR_gt1; lra|]. apply one_minus_exp_mono. apply Rmult_le_compat_l; [apply Rlt_le, pow_lt, ps_bounds | exact H].
Qed.
Lemma limit_mono x y s s' : 0 <= x <= y -> Un_cv (fun n => grid n x) s -> Un_cv (fun n => grid n y) s' -> s <= s'.
Proof.
  intros H Hs Hs'. assert (0 <= s' - s); [|lra]. apply (cv_nonneg (fun n => grid n y - grid n x)); [intros n; pose proof (grid_mono n x y H); lra | apply CV_minus; assumption].
Qed.
Lemma limit_pos lam s : 0 < lam -> Un_cv (fun n => grid n lam) s -> 0 < s.
Proof.
  intros H Hs. assert (H0 : 0 < up 0 lam). { unfold up. cbn [pow]. rewrite Rmult_1_r, Rmult_1_l. assert (exp (- lam) < exp 0) by (apply exp_increasing; lra). rewrite exp_0 in H0. lra. }
  assert (0 <= s - up 0 lam); [|lra]. apply (cv_nonneg (fun n => grid n lam - up 0 lam)); [|apply CV_minus; [exact Hs | apply cv_const]].
  intros n. pose proof (tech9 _ (grid_growing lam ltac:(lra)) 0%nat n ltac:(lia)) as Hg. cbv beta in Hg. unfold grid at 1 in Hg. cbn [sum_f_R0] in Hg. pose proof (down_bounds 0 lam ltac:(lra)). lra.
Qed.
Lemma limit_zero s : Un_cv (fun n => grid n 0) s -> s = 0.
Proof.
  intros H. apply (UL_sequence (fun n => grid n 0)); [exact H|]. apply (Un_cv_ext (fun _ => 0)); [|apply cv_const]. intros n. unfold grid, up, down.
  assert (E : forall m, sum_f_R0 (fun k => (1 - exp (- (q ^ k * 0))) * r ^ k) m = 0). { intros m. induction m as [|m IH]; cbn [sum_f_R0]; rewrite ?IH, ?Rmult_0_r, Ropp_0, exp_0; ring. }
  assert (E' : forall m, sum_f_R0 (fun k => (1 - exp (- (ps ^ S k * 0))) * RR ^ S k) m = 0). { intros m. induction m as [|m IH]; cbn [sum_f_R0]; rewrite ?IH, ?Rmult_0_r, Ropp_0, exp_0; ring. }
  rewrite E, E'. ring.
Qed.
Lemma floor_pow x : 1 <= x -> exists j, q ^ j <= x < q ^ S j.
Proof.
  intros Hx. destruct (Pow_x_infinity q ltac:(rewrite Rabs_pos_eq; lra) (x + 1)) as (N & HN). specialize (HN N (le_n N)). rewrite Rabs_pos_eq in HN by (apply Rlt_le, pow_lt; lra).
  assert (H : x < q ^ N) by lra. clear HN. induction N as [|N IH]; [cbn in H; lra|]. destruct (Rle_or_lt (q ^ N) x) as [|Hl]; [exists N; split; assumption | apply IH; exact Hl].
Qed.
Lemma RR_pow j : RR ^ j = Rpower (q ^ j) al.
Proof.
  unfold RR. rewrite <- Rpower_pow by apply exp_pos. rewrite Rpower_mult, Rmult_comm, <- Rpower_mult, Rpower_pow by lra. reflexivity.
Qed.
(** the ratio is lam^al up to a factor RR *)
Lemma ratio_bounds lam s s1 : 0 < lam -> Un_cv (fun n => grid n lam) s -> Un_cv (fun n => grid n 1) s1 -> / RR * Rpower lam al <= s / s1 <= RR * Rpower lam al.
Proof.
  intros Hl Hs Hs1. pose proof (limit_pos 1 s1 ltac:(lra) Hs1) as Hp1. pose proof (limit_pos lam s Hl Hs) as Hp. pose proof RR_gt1 as HR.
  assert (Hmono : forall a b, 0 < a -> a <= b -> Rpower a al <= Rpower b al) by (intros a b Ha Hab; apply Rle_Rpower_l; lra).
  destruct (Rle_or_lt 1 lam) as [H1|H1].
  - destruct (floor_pow lam H1) as (j & Hj1 & Hj2). destruct (grid_limit (q ^ j * 1)) as (sa & Ha); [apply Rmult_le_pos; [apply Rlt_le, pow_lt; lra | lra]|].
    destruct (grid_limit (q ^ S j * 1)) as (sb & Hb); [apply Rmult_le_pos; [apply Rlt_le, pow_lt; lra | lra]|].
    pose proof (limit_pow j 1 s1 sa ltac:(lra) Hs1 Ha) as Ea. pose proof (limit_pow (S j) 1 s1 sb ltac:(lra) Hs1 Hb) as Eb.
    pose proof (pow_lt q j ltac:(lra)) as Hqj. assert (Ha' : sa <= s) by (apply (limit_mono (q ^ j * 1) lam); [lra | assumption | assumption]). assert (Hb' : s <= sb) by (apply (limit_mono lam (q ^ S j * 1)); [lra | assumption | assumption]).
    assert (Hlo : RR ^ j <= s / s1). { apply (Rmult_le_reg_r s1); [exact Hp1|]. unfold Rdiv. rewrite Rmult_assoc, Rinv_l by lra. lra. }
    assert (Hhi : s / s1 <= RR ^ S j). { apply (Rmult_le_reg_r s1); [exact Hp1|]. unfold Rdiv. rewrite Rmult_assoc, Rinv_l by lra. lra. }
    assert (H3 : RR ^ j <= Rpower lam al) by (rewrite RR_pow; apply Hmono; lra). assert (H4 : Rpower lam al <= RR ^ S j) by (rewrite RR_pow; apply Hmono; lra).
    cbn [pow] in Hhi, H4. split.
    + apply (Rmult_le_reg_l RR); [lra|]. rewrite <- Rmult_assoc, Rinv_r, Rmult_1_l by lra. nra.
    + nra.
  - destruct (floor_pow (/ lam)) as (j & Hj1 & Hj2). { rewrite <- Rinv_1. apply Rinv_le_contravar; lra. }
    destruct (grid_limit (q ^ j * lam)) as (sa & Ha); [apply Rmult_le_pos; [apply Rlt_le, pow_lt; lra | lra]|].
    destruct (grid_limit (q ^ S j * lam)) as (sb & Hb); [apply Rmult_le_pos; [apply Rlt_le, pow_lt; lra | lra]|].
    pose proof (limit_pow j lam s sa ltac:(lra) Hs Ha) as Ea. pose proof (limit_pow (S j) lam s sb ltac:(lra) Hs Hb) as Eb.
    assert (Hj1' : q ^ j * lam <= 1). { apply (Rmult_le_compat_r lam) in Hj1; [|lra]. rewrite Rinv_l in Hj1 by lra. lra. }
    assert (Hj2' : 1 < q ^ S j * lam). { apply (Rmult_lt_compat_r lam) in Hj2; [|lra]. rewrite Rinv_l in Hj2 by lra. lra. }
    pose proof (pow_lt q j ltac:(lra)) as Hqj. pose proof (pow_lt q (S j) ltac:(lra)) as Hqj1.
    assert (Ha' : sa <= s1) by (apply (limit_mono (q ^ j * lam) 1); [split; [apply Rmult_le_pos; lra | lra] | assumption | assumption]). assert (Hb' : s1 <= sb) by (apply (limit_mono 1 (q ^ S j * lam)); [lra | assumption | assumption]).
    assert (O1 : Rpower 1 al = 1) by (unfold Rpower; rewrite ln_1, Rmult_0_r; apply exp_0).
    assert (H3 : RR ^ j * Rpower lam al <= 1). { rewrite RR_pow, Rpower_mult_distr by lra. eapply Rle_trans; [apply (Hmono _ 1); [apply Rmult_lt_0_compat; lra | exact Hj1'] | lra]. }
    assert (H4 : 1 <= RR ^ S j * Rpower lam al). { rewrite RR_pow, Rpower_mult_distr by lra. eapply Rle_trans; [|apply (Hmono 1); lra]. lra. }
    pose proof (pow_lt RR j ltac:(lra)) as HRj. cbn [pow] in H4, Eb. pose proof (exp_pos (al * ln lam)) as Hpw. fold (Rpower lam al) in Hpw. set (P := Rpower lam al) in *. set (J := RR ^ j) in *.
    assert (Hq1 : J * (s / s1) <= 1). { apply (Rmult_le_reg_r s1); [exact Hp1|]. unfold Rdiv. replace (J * (s * / s1) * s1) with (J * s) by (field; lra). lra. }
    assert (Hq2 : 1 <= RR * J * (s / s1)). { apply (Rmult_le_reg_r s1); [exact Hp1|]. unfold Rdiv. replace (RR * J * (s * / s1) * s1) with (RR * J * s) by (field; lra). lra. }
    assert (Hss : 0 < s / s1) by (apply Rmult_lt_0_compat; [exact Hp | apply Rinv_0_lt_compat; exact Hp1]). split.
    + apply (Rmult_le_reg_l (RR * J)); [nra|]. replace (RR * J * (/ RR * P)) with (J * P) by (field; lra). lra.
    + apply (Rmult_le_reg_l J); [exact HRj|]. replace (J * (RR * P)) with (RR * J * P) by ring. lra.
Qed.
Lemma grid_NegType p n : NegType (dim p) (fun x y => grid n (sq x y)).
Proof.
  assert (H1 : forall t, 0 <= t -> NegType (dim p) (fun x y => 1 - exp (- (t * sq x y)))).
  { intros t Ht. apply (NegType_ext _ (fun x y => 1 - exp (- t * sq x y))); [intros x y _ _; f_equal; f_equal; ring|]. apply NegType_one_minus, gauss_PosDef, Ht. }
  unfold grid. apply NegType_plus.
  - apply (NegType_sum _ (fun k x y => up k (sq x y))). intros k. unfold up. apply (NegType_ext _ (fun x y => r ^ k * (1 - exp (- (q ^ k * sq x y))))); [intros; ring|].
    apply NegType_scale; [apply Rlt_le, pow_lt, r_bounds|]. apply H1. apply Rlt_le, pow_lt. lra.
  - apply (NegType_sum _ (fun k x y => down k (sq x y))). intros k. unfold down. apply (NegType_ext _ (fun x y => RR ^ S k * (1 - exp (- (ps ^ S k * sq x y))))); [intros; ring|].
    apply NegType_scale; [apply Rlt_le, pow_lt; pose proof RR_gt1; lra|]. apply H1. apply Rlt_le, pow_lt, ps_bounds.
Qed.
End Grid.

(** lam^al with 0^al = 0 *)
Definition rpow (x a : R) : R := if Req_EM_T x 0 then 0 else Rpower x a.
Definition qn (n : nat) : R := exp (/ INR (S n)).
Lemma qn_gt1 n : 1 < qn n.
Proof. unfold qn. rewrite <- exp_0. apply exp_increasing. apply Rinv_0_lt_compat, lt_0_INR. lia. Qed.
Lemma qn_pow_cv a : Un_cv (fun n => Rpower (qn n) a) 1.
Proof.
  apply (Un_cv_ext (fun n => exp (a * / INR (S n)))); [intros n; unfold Rpower, qn; rewrite ln_exp; reflexivity|].
  rewrite <- exp_0. apply (continuity_seq exp (fun n => a * / INR (S n)) 0); [apply derivable_continuous_pt, derivable_pt_exp|].
  replace 0 with (a * 0) by ring. apply CV_mult; [apply cv_const|]. intros eps He. destruct (archimed_cor1 eps He) as (N & HN & HNpos). exists N. intros n Hn. unfold R_dist. rewrite Rminus_0_r, Rabs_pos_eq by (apply Rlt_le, Rinv_0_lt_compat, lt_0_INR; lia).
  eapply Rle_lt_trans; [|exact HN]. apply Rinv_le_contravar; [apply lt_0_INR; lia | apply le_INR; lia].
Qed.
Definition lim (n : nat) (lam : R) (H : 0 <= lam) : R := proj1_sig (grid_limit (qn n) (qn_gt1 n) lam H).
Theorem power_NegType p : NegType (dim p) (fun x y => rpow (sq x y) al).
Proof.
  set (S1 := fun n => lim n 1 Rle_0_1). set (F := fun n x y => / S1 n * lim n (sq x y) (sq_nn x y)).
  assert (Hlim : forall n lam H, Un_cv (fun m => grid (qn n) m lam) (lim n lam H)) by (intros n lam H; unfold lim; destruct (grid_limit _ _ _ _) as (s & Hs); exact Hs).
  assert (HS1 : forall n, 0 < S1 n). { intros n. apply (limit_pos (qn n) (qn_gt1 n) 1); [lra | apply Hlim]. }
  apply (NegType_limit _ F).
  - intros n. apply NegType_scale; [apply Rlt_le, Rinv_0_lt_compat, HS1|]. apply (NegType_limit _ (fun m x y => grid (qn n) m (sq x y))); [intros m; apply grid_NegType, qn_gt1|]. intros x y _ _. apply Hlim.
  - intros x y _ _. unfold rpow. destruct (Req_EM_T (sq x y) 0) as [E|E].
    + apply (Un_cv_ext (fun _ => 0)); [|apply cv_const]. intros n. unfold F. rewrite (limit_zero (qn n) (lim n (sq x y) (sq_nn x y))); [ring|]. pose proof (Hlim n (sq x y) (sq_nn x y)) as H. revert H. generalize (lim n (sq x y) (sq_nn x y)). rewrite E. intros s H. exact H.
    + pose proof (sq_nn x y) as Hnn. assert (Hpos : 0 < sq x y) by lra. set (P := Rpower (sq x y) al).
      assert (Hb : forall n, / Rpower (qn n) al * P <= F n x y <= Rpower (qn n) al * P).
      { intros n. pose proof (ratio_bounds (qn n) (qn_gt1 n) (sq x y) (lim n (sq x y) (sq_nn x y)) (S1 n) Hpos (Hlim n _ _) (Hlim n _ _)) as H. unfold F. rewrite (Rmult_comm (/ S1 n)). exact H. }
      assert (Hup : Un_cv (fun n => Rpower (qn n) al * P) P). { pose proof (CV_mult _ _ _ _ (qn_pow_cv al) (cv_const P)) as Hc. rewrite Rmult_1_l in Hc. exact Hc. }
      assert (Hlo : Un_cv (fun n => / Rpower (qn n) al * P) P).
      { apply (Un_cv_ext (fun n => Rpower (qn n) (- al) * P)); [intros n; rewrite Rpower_Ropp; reflexivity|]. pose proof (CV_mult _ _ _ _ (qn_pow_cv (- al)) (cv_const P)) as Hc. rewrite Rmult_1_l in Hc. exact Hc. }
      intros eps He. destruct (Hup eps He) as (N1 & HN1). destruct (Hlo eps He) as (N2 & HN2). exists (max N1 N2). intros n Hn. specialize (HN1 n ltac:(lia)). specialize (HN2 n ltac:(lia)). specialize (Hb n). unfold R_dist in *.
      apply Rabs_def2 in HN1. apply Rabs_def2 in HN2. apply Rabs_def1; lra.
Qed.
End Power.
