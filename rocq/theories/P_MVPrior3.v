(** Property C69, continued: the density of the multivariate Student distribution. *)
From Coq Require Import Reals Lra.
From Verif Require Import M_Base M_Num M_XReal M_Transform M_Stats M_Priors L_PMC L_Stats M_MVPrior S_MVPrior L_MVPrior P_MVPrior.
Open Scope R_scope.

Definition Inverse (n : nat) (A B : nat -> nat -> R) : Prop := forall i j, (i < n)%nat -> (j < n)%nat -> sigma n (fun k => A i k * B k j) = if (i =? j)%nat then 1 else 0.
Lemma dot_sigma n a b : dot n a b = sigma n (fun i => a i * b i).
Proof. induction n as [|n IH]; cbn; [reflexivity | now rewrite IH]. Qed.
Lemma sigma_one n f i : (i < n)%nat -> (forall k, (k < n)%nat -> k <> i -> f k = 0) -> sigma n f = f i.
Proof.
  induction n as [|n IH]; intros Hi H; [lia|]. cbn [sigma]. destruct (Nat.eq_dec i n) as [->|Hn].
  - rewrite sigma_zero; [ring|]. intros k Hk. apply H; lia.
  - rewrite IH; [rewrite (H n) by lia; ring | lia | intros k Hk Hkn; apply H; lia].
Qed.
(** forward substitution *)
Lemma triangular_zero n L v : (forall i j, (i < n)%nat -> (i < j < n)%nat -> L i j = 0) -> (forall i, (i < n)%nat -> 0 < L i i) ->
  (forall i, (i < n)%nat -> sigma n (fun k => L i k * v k) = 0) -> forall i, (i < n)%nat -> v i = 0.
Proof.
  intros Ht Hd H i. induction i as [i IH] using (well_founded_induction lt_wf). intros Hi. specialize (H i Hi). rewrite (sigma_one n _ i Hi) in H.
  - apply Rmult_integral in H. specialize (Hd i Hi). destruct H; [lra | assumption].
  - intros k Hk Hne. destruct (Nat.lt_total k i) as [Hl|[Hl|Hl]]; [rewrite IH by assumption; ring | contradiction | rewrite Ht by lia; ring].
Qed.
(** the form of the inverse, by the factor *)
Lemma inverse_form n L A B d z : Factor n L A -> Inverse n A B -> (forall i, (i < n)%nat -> sigma n (fun k => L i k * z k) = d i) ->
  dot n (fun j => dot n d (fun i => B i j)) d = sigma n (fun k => z k * z k).
Proof.
  intros (Ht & Hd & HF) HI Hz. set (u := fun i => sigma n (fun j => B i j * d j)).
  assert (Eq : dot n (fun j => dot n d (fun i => B i j)) d = sigma n (fun i => d i * u i)).
  { rewrite dot_sigma. rewrite (sigma_ext n _ (fun j => sigma n (fun i => d i * B i j * d j))).
    - rewrite sigma_swap. apply sigma_ext. intros i _. unfold u. rewrite <- sigma_scale. apply sigma_ext. intros; ring.
    - intros j _. rewrite dot_sigma, <- sigma_scale_r. reflexivity. }
  assert (HA : forall i, (i < n)%nat -> sigma n (fun k => A i k * u k) = d i).
  { intros i Hi. unfold u. rewrite (sigma_ext n _ (fun k => sigma n (fun j => A i k * B k j * d j))) by (intros; rewrite <- sigma_scale; apply sigma_ext; intros; ring). rewrite sigma_swap.
    rewrite (sigma_ext n _ (fun j => (if (i =? j)%nat then 1 else 0) * d j)) by (intros j Hj; rewrite sigma_scale_r, HI by assumption; reflexivity). rewrite (sigma_one n _ i Hi); [rewrite Nat.eqb_refl; ring|]. intros k _ Hk. destruct (Nat.eqb_spec i k); [congruence | ring]. }
  set (w := fun k => sigma n (fun i => L i k * u i)).
  assert (Hw : forall i, (i < n)%nat -> sigma n (fun k => L i k * w k) = d i).
  { intros i Hi. rewrite <- (HA i Hi). unfold w. rewrite (sigma_ext n _ (fun k => sigma n (fun j => L i k * L j k * u j))) by (intros; rewrite <- sigma_scale; apply sigma_ext; intros; ring). rewrite sigma_swap. apply sigma_ext. intros j Hj. rewrite sigma_scale_r, HF by assumption. reflexivity. }
  assert (Ewz : forall i, (i < n)%nat -> w i = z i).
  { intros i Hi. cut (w i - z i = 0); [lra|]. apply (triangular_zero n L (fun k => w k - z k) Ht Hd); [|exact Hi]. intros k Hk. rewrite (sigma_ext n _ (fun j => L k j * w j + (-1) * (L k j * z j))) by (intros; ring). rewrite sigma_plus, sigma_scale, Hw, Hz by exact Hk. ring. }
  rewrite Eq. rewrite (sigma_ext n _ (fun i => sigma n (fun k => L i k * z k * u i))) by (intros i Hi; rewrite <- Hz by exact Hi; rewrite <- sigma_scale_r; reflexivity). rewrite sigma_swap. apply sigma_ext. intros k Hk. rewrite <- (Ewz k Hk) at 2. unfold w. rewrite <- sigma_scale. apply sigma_ext. intros; ring.
Qed.
Lemma prod_pos n f : (forall i, (i < n)%nat -> 0 < f i) -> 0 < prod n f.
Proof. induction n as [|n IH]; intros H; cbn; [lra|]. apply Rmult_lt_0_compat; [apply IH; intros; apply H; lia | apply H; lia]. Qed.

Lemma inv_lt1 y : 1 < y -> / y < 1.
Proof. intros H. rewrite <- Rinv_1. apply Rinv_lt_contravar; lra. Qed.
(** The density at mean + L z, where L is the Cholesky factor of the covariance matrix *)
Definition t_density (gam : R -> R) (n : nat) (df : R) (L : nat -> nat -> R) (z : nat -> R) : R :=
  gam ((df + INR n) / 2) / (gam (df / 2) * Rpower (df * PI) (INR n / 2) * prod n (fun i => L i i)) * Rpower (1 + sigma n (fun k => z k * z k) / df) (- ((df + INR n) / 2)).

(** C69.  The density is the one of the multivariate Student distribution: written with the Cholesky factor L of the matrix, at mean + L z it depends on z only through its length. *)
Theorem C69_density : forall gam det inv n mean A L df x z, (forall t, 0 < t -> 0 < gam t) -> 0 < df ->
  Factor n L A -> Inverse n A (inv n A) -> det n A = prod n (fun i => L i i) * prod n (fun i => L i i) ->
  (forall i, (i < n)%nat -> x i = mean i + sigma n (fun k => L i k * z k)) ->
  mst_pdf gam det inv n mean A (XR df) x = XR (t_density gam n df L z).
Proof.
  intros gam det inv n mean A L df x z Hg Hdf HF HI Hdet Hx. unfold mst_pdf. cbv zeta.
  rewrite (inverse_form n L A (inv n A) (fun i => x i - mean i) z HF HI) by (intros i Hi; rewrite Hx by exact Hi; ring). set (q := sigma n (fun k => z k * z k)).
  assert (Hq : 0 <= q) by (apply sigma_nonneg; intros; apply Rle_0_sqr). assert (Hn : 0 <= INR n) by apply pos_INR.
  assert (Hp : 0 < prod n (fun i => L i i)) by (apply prod_pos; apply HF). unfold x1. cbn [xadd]. rewrite !xdiv_fin by lra. cbn [xgam xmul xrpow xopp xadd].
  rewrite Hdet, Rabs_pos_eq by (apply Rlt_le, Rmult_lt_0_compat; exact Hp). rewrite sqrt_square by lra.
  rewrite xdiv_fin. 2:{ apply Rgt_not_eq. apply Rmult_lt_0_compat; [apply Rmult_lt_0_compat; [apply Hg; lra | apply exp_pos] | exact Hp]. }
  cbn [xmul]. unfold t_density. fold q. f_equal. f_equal. f_equal. field. lra.
Qed.
Print Assumptions C69_density.

(** C69.  The density is positive, the same at mean + v and mean - v, and nowhere larger than at the mean. *)
Theorem C69_density_shape : forall gam det inv n mean A L df, (forall t, 0 < t -> 0 < gam t) -> 0 < df ->
  Factor n L A -> Inverse n A (inv n A) -> det n A = prod n (fun i => L i i) * prod n (fun i => L i i) ->
  forall z, let at_shift s := mst_pdf gam det inv n mean A (XR df) (fun i => mean i + s * sigma n (fun k => L i k * z k)) in
  exists p p0, at_shift 1 = XR p /\ at_shift (-1) = XR p /\ at_shift 0 = XR p0 /\ 0 < p <= p0 /\ ((exists k, (k < n)%nat /\ z k <> 0) -> p < p0).
Proof.
  intros gam det inv n mean A L df Hg Hdf HF HI Hdet z at_shift. exists (t_density gam n df L z), (t_density gam n df L (fun _ => 0)).
  assert (D : forall s, at_shift s = XR (t_density gam n df L (fun k => s * z k))).
  { intros s. apply C69_density; try assumption. intros i _. f_equal. rewrite <- sigma_scale. apply sigma_ext. intros; ring. }
  assert (E : forall y y', sigma n (fun k => y k * y k) = sigma n (fun k => y' k * y' k) -> t_density gam n df L y = t_density gam n df L y') by (intros y y' H; unfold t_density; now rewrite H).
  split; [rewrite D; f_equal; apply E, sigma_ext; intros; ring|]. split; [rewrite D; f_equal; apply E, sigma_ext; intros; ring|]. split; [rewrite D; f_equal; apply E, sigma_ext; intros; ring|].
  assert (Hn : 0 <= INR n) by apply pos_INR. assert (Hp : 0 < prod n (fun i => L i i)) by (apply prod_pos; apply HF).
  assert (Hc : 0 < gam ((df + INR n) / 2) / (gam (df / 2) * Rpower (df * PI) (INR n / 2) * prod n (fun i => L i i))).
  { apply Rdiv_lt_0_compat; [apply Hg; lra|]. apply Rmult_lt_0_compat; [apply Rmult_lt_0_compat; [apply Hg; lra | apply exp_pos] | exact Hp]. }
  assert (E0 : Rpower (1 + sigma n (fun _ => 0 * 0) / df) (- ((df + INR n) / 2)) = 1).
  { rewrite sigma_zero by (intros; ring). replace (1 + 0 / df) with 1 by (field; lra). unfold Rpower. rewrite ln_1, Rmult_0_r. apply exp_0. }
  assert (Hstrict : (exists k, (k < n)%nat /\ z k <> 0) -> t_density gam n df L z < t_density gam n df L (fun _ => 0)).
  { intros (k & Hk & Hz). unfold t_density. rewrite E0. apply Rmult_lt_compat_l; [exact Hc|]. assert (Hs : 0 < sigma n (fun k => z k * z k)) by (apply (sigma_pos n _ k); [intros; apply Rle_0_sqr | exact Hk | apply sq_pos; exact Hz]).
    rewrite Rpower_Ropp. assert (H1 : 1 < 1 + sigma n (fun k => z k * z k) / df) by (pose proof (Rdiv_lt_0_compat _ _ Hs Hdf); lra). assert (H2 : 1 < Rpower (1 + sigma n (fun k => z k * z k) / df) ((df + INR n) / 2)).
    { unfold Rpower. rewrite <- exp_0 at 1. apply exp_increasing. apply Rmult_lt_0_compat; [lra|]. rewrite <- ln_1. apply ln_increasing; lra. }
    apply inv_lt1; exact H2. }
  split; [|exact Hstrict]. split; [apply Rmult_lt_0_compat; [exact Hc | apply exp_pos]|].
  destruct (Classical_Prop.classic (exists k, (k < n)%nat /\ z k <> 0)) as [H|H]; [apply Rlt_le, Hstrict, H|]. right. apply E, sigma_ext. intros k Hk. destruct (Req_EM_T (z k) 0) as [->|Hne]; [reflexivity|]. exfalso. apply H. now exists k.
Qed.
Print Assumptions C69_density_shape.

(** C69.  In one dimension with variance 1 it is the density of StudentT (C58). *)
Theorem C69_density_one : forall gam det inv m df x, (forall t, 0 < t -> 0 < gam t) -> 0 < df ->
  inv 1%nat (fun _ _ => 1) 0%nat 0%nat = 1 -> det 1%nat (fun _ _ => 1) = 1 ->
  mst_pdf gam det inv 1 (fun _ => m) (fun _ _ => 1) (XR df) (fun _ => x) = XR (student_kernel gam df (x - m)).
Proof.
  intros gam det inv m df x Hg Hdf Hinv Hdet. rewrite (C69_density gam det inv 1 (fun _ => m) (fun _ _ => 1) (fun _ _ => 1) df (fun _ => x) (fun _ => x - m)); try assumption.
  - f_equal. unfold t_density, student_kernel. cbn [sigma prod INR]. rewrite Rpower_Ropp. replace (1 + (0 + (x - m) * (x - m)) / df) with (1 + (x - m) * (x - m) / df) by (field; lra).
    assert (HPI := PI_RGT_0). replace (1 / 2) with (/ 2) by lra. rewrite Rpower_sqrt by (apply Rmult_lt_0_compat; lra).
    assert (0 < sqrt (df * PI)) by (apply sqrt_lt_R0, Rmult_lt_0_compat; lra). assert (0 < gam (df / 2)) by (apply Hg; lra). assert (Hr := exp_pos ((df + 1) / 2 * ln (1 + (x - m) * (x - m) / df))). change (exp ((df + 1) / 2 * ln (1 + (x - m) * (x - m) / df))) with (Rpower (1 + (x - m) * (x - m) / df) ((df + 1) / 2)) in Hr. field. lra.
  - split; [intros i j Hi Hj; lia|]. split; [intros; lra|]. intros i j _ _. cbn [sigma]. ring.
  - intros i j Hi Hj. destruct i; [|lia]. destruct j; [|lia]. cbn [sigma]. rewrite Hinv. cbn. ring.
  - rewrite Hdet. cbn [prod]. ring.
  - intros i _. cbn [sigma]. ring.
Qed.
Print Assumptions C69_density_one.

(** C69, refuted: infinitely many degrees of freedom are accepted, and the sampler then draws from the normal distribution (C69_samples), but the density is not a number at every point. *)
Theorem C69_infinite_df_refuted : forall mean A, mvn_check_input (length mean) (values mean A) = true -> (0 < length mean)%nat ->
  mst_check_input (length mean) (values mean A ++ [XInf]) = true
  /\ forall gam det inv x, 0 < det (length mean) A -> mst_pdf gam det inv (length mean) (fun i => nth i mean 0) A XInf x = XNaN.
Proof.
  intros mean A H Hd. split.
  - apply (proj2 (proj1 (proj2 (C69_accepted mean A XInf)))). apply (proj1 (proj1 (C69_accepted mean A XInf))) in H. destruct H as (H1 & H2). split; [exact H1|]. split; [exact H2 | reflexivity].
  - intros gam det inv x Hdet. unfold mst_pdf. cbv zeta. assert (Hn : 0 < INR (length mean)) by (apply lt_0_INR; exact Hd). assert (HPI := PI_RGT_0). rewrite (Rabs_pos_eq (det _ A)) by lra. assert (Hs : 0 < sqrt (det (length mean) A)) by (apply sqrt_lt_R0; exact Hdet).
    rewrite (xdiv_fin (INR (length mean)) 2) by lra.
    assert (Hi : xdiv XInf (XR 2) = XInf) by (unfold xdiv; cbn [xsgn]; rewrite rsign_pos by lra; reflexivity). cbn [xadd]. rewrite Hi. cbn [xgam].
    assert (E1 : xmul XInf (XR PI) = XInf) by (unfold xmul; cbn [xsgn]; rewrite rsign_pos by lra; reflexivity). rewrite E1. cbn [xrpow]. rewrite rsign_pos by lra.
    change (xmul XInf XInf) with XInf. assert (E2 : xmul XInf (XR (sqrt (det (length mean) A))) = XInf) by (unfold xmul; cbn [xsgn]; rewrite rsign_pos by lra; reflexivity). rewrite E2.
    change (xdiv XInf XInf) with XNaN. destruct (xrpow _ _); reflexivity.
Qed.
Print Assumptions C69_infinite_df_refuted.
(** A case: two independent coordinates with variances 4 and 1. *)
Example C69_density_case : let A := mat2 4 0 0 1 in let L := mat2 2 0 0 1 in let inv := fun (_ : nat) (_ : nat -> nat -> R) => mat2 (1 / 4) 0 0 1 in let det := fun (_ : nat) (_ : nat -> nat -> R) => 4 in
  Factor 2 L A /\ Inverse 2 A (inv 2%nat A) /\ det 2%nat A = prod 2 (fun i => L i i) * prod 2 (fun i => L i i)
  /\ mst_pdf (fun _ => 1) det inv 2 (fun _ => 0) A (XR 2) (fun i => match i with O => 2 | _ => 1 end) = XR (1 / (Rpower (2 * PI) (2 / 2) * 2) * Rpower 2 (- 2)).
Proof.
  intros A L inv det. assert (HF : Factor 2 L A).
  { split; [intros [|[|i]] [|[|j]] Hi Hj; try lia; reflexivity|]. split; [intros [|[|i]] Hi; try lia; cbn; lra|]. intros [|[|i]] [|[|j]] Hi Hj; try lia; cbn; lra. }
  assert (HI : Inverse 2 A (inv 2%nat A)) by (intros [|[|i]] [|[|j]] Hi Hj; try lia; cbn; lra). assert (HD : det 2%nat A = prod 2 (fun i => L i i) * prod 2 (fun i => L i i)) by (cbn; unfold det; lra).
  split; [exact HF|]. split; [exact HI|]. split; [exact HD|]. rewrite (C69_density (fun _ => 1) det inv 2 (fun _ => 0) A L 2 _ (fun _ => 1)); try assumption; [|intros; lra|lra|intros [|[|i]] Hi; try lia; cbn; lra].
  f_equal. unfold t_density. cbn [sigma prod L mat2]. change (INR 2) with 2. replace (1 + (0 + 1 * 1 + 1 * 1) / 2) with 2 by lra. replace (- ((2 + 2) / 2)) with (- (2)) by lra. f_equal. f_equal. ring.
Qed.
