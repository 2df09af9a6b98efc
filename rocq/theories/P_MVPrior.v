(** Property C69: multivariate priors. *)
From Coq Require Import Reals Lra.
From Verif Require Import M_Base M_Num M_XReal M_Transform M_Stats M_Priors L_PMC L_Stats M_MVPrior S_MVPrior L_MVPrior.
Open Scope R_scope.

(** the input values of a model with this mean and this covariance matrix, given row by row *)
Definition values (mean : list R) (A : nat -> nat -> R) : list xr :=
  let d := length mean in map XR mean ++ concat (map (fun i => map (fun j => XR (A i j)) (seq 0 d)) (seq 0 d)).
(** symmetric up to 1/1000 plus 1/100000 of the entry *)
Definition NearlySymmetric (n : nat) (A : nat -> nat -> R) : Prop :=
  forall i j, (i < n)%nat -> (j < n)%nat -> Rabs (A i j - A j i) <= 1 / 1000 + 1 / 100000 * Rabs (A j i).

Lemma concat_len {X} (f : nat -> list X) d l : (forall i, length (f i) = d) -> length (concat (map f l)) = (length l * d)%nat.
Proof. intros H. induction l as [|i l IH]; [reflexivity|]. cbn [map concat]. rewrite app_length, H, IH. reflexivity. Qed.
Lemma rows_skip {X} (f : nat -> list X) d : (forall i, length (f i) = d) -> forall n a i, (i < n)%nat -> firstn d (skipn (i * d) (concat (map f (seq a n)))) = f (a + i)%nat.
Proof.
  intros H. induction n as [|n IH]; intros a i Hi; [lia|]. cbn [seq map concat]. destruct i as [|i].
  - cbn [Nat.mul skipn]. rewrite firstn_app, H, Nat.sub_diag. cbn [firstn]. rewrite app_nil_r, firstn_all2 by (rewrite H; lia). f_equal. lia.
  - rewrite skipn_app, skipn_all2 by (rewrite H; cbn; lia). rewrite H. cbn [app]. replace (S i * d - d)%nat with (i * d)%nat by (cbn; lia). rewrite IH by lia. f_equal. lia.
Qed.
Lemma cov_array mean A tl : let d := length mean in Array d (square d (firstn (d ^ 2) (skipn d (values mean A ++ tl)))) A.
Proof.
  intros d i j Hi Hj. unfold values. fold d. rewrite <- app_assoc, skipn_app, skipn_all2 by (rewrite map_length; fold d; lia). rewrite map_length. fold d. rewrite Nat.sub_diag. cbn [app skipn].
  set (f := fun i => map (fun j => XR (A i j)) (seq 0 d)). assert (Hf : forall i, length (f i) = d) by (intros; unfold f; now rewrite map_length, seq_length).
  assert (Hl : length (concat (map f (seq 0 d))) = (d ^ 2)%nat) by (rewrite (concat_len f d _ Hf), seq_length; cbn; lia).
  rewrite firstn_app, Hl, Nat.sub_diag. cbn [firstn]. rewrite app_nil_r, firstn_all2 by (rewrite Hl; lia).
  unfold at_, square. rewrite (nth_indep _ [] (firstn d (skipn (0 * d) (concat (map f (seq 0 d)))))) by (rewrite map_length, seq_length; exact Hi).
  rewrite (map_nth (fun i => firstn d (skipn (i * d) (concat (map f (seq 0 d)))))), seq_nth by exact Hi. rewrite (rows_skip f d Hf) by (cbn; lia). unfold f. cbn [plus].
  rewrite (nth_indep _ XNaN (XR (A i 0%nat))) by (rewrite map_length, seq_length; exact Hj). rewrite (map_nth (fun j => XR (A i j))), seq_nth by exact Hj. reflexivity.
Qed.
Lemma values_len mean A : length (values mean A) = (length mean + length mean ^ 2)%nat.
Proof. unfold values. rewrite app_length, map_length, (concat_len _ (length mean)) by (intros; now rewrite map_length, seq_length). rewrite seq_length. cbn. lia. Qed.
Lemma near_sym n m A : Array n m A -> near_symmetric n m = true <-> NearlySymmetric n A.
Proof.
  intros H. unfold near_symmetric. rewrite forallb_forall. split.
  - intros E i j Hi Hj. specialize (E i). rewrite in_seq in E. specialize (E ltac:(lia)). rewrite forallb_forall in E. specialize (E j). rewrite in_seq in E. specialize (E ltac:(lia)). rewrite !H in E by assumption. cbn in E. destruct (Rle_dec _ _); [assumption | discriminate].
  - intros E i Hi. rewrite in_seq in Hi. apply forallb_forall. intros j Hj. rewrite in_seq in Hj. rewrite !H by lia. cbn. specialize (E i j ltac:(lia) ltac:(lia)). destruct (Rle_dec _ _); [reflexivity | contradiction].
Qed.

(** C69.  A multivariate normal accepts finite input values exactly if there are as many as the dimension asks for, the matrix is symmetric up to the tolerance and the symmetric
    matrix with the entries on and below its diagonal is positive definite; for the Student distribution also the degrees of freedom must not be zero or negative.  In particular a
    symmetric matrix is accepted exactly if it is positive definite. *)
Theorem C69_accepted : forall mean A (df : xr), let d := length mean in
  (mvn_check_input d (values mean A) = true <-> NearlySymmetric d A /\ PositiveDefinite d (lower A))
  /\ (mst_check_input d (values mean A ++ [df]) = true <-> NearlySymmetric d A /\ PositiveDefinite d (lower A) /\ xle df (XR 0) = false)
  /\ (Symmetric d A -> mvn_check_input d (values mean A) = true <-> PositiveDefinite d A)
  /\ (forall vs n, (length vs <> n + n ^ 2 -> mvn_check_input n vs = false) /\ (length vs <> n + n ^ 2 + 1 -> mst_check_input n vs = false))%nat.
Proof.
  intros mean A df d.
  assert (N : mvn_check_input d (values mean A) = true <-> NearlySymmetric d A /\ PositiveDefinite d (lower A)).
  { unfold mvn_check_input. rewrite values_len, Nat.eqb_refl. cbn [negb]. cbv zeta. pose proof (cov_array mean A []) as HA. cbv zeta in HA. rewrite app_nil_r in HA. fold d in HA |- *.
    rewrite <- (near_sym _ _ _ HA), <- (chol_pd _ _ _ HA). destruct (near_symmetric _ _); cbn [negb]; [tauto|]. split; [discriminate | intros (? & _); discriminate]. }
  split; [exact N|]. split; [|split].
  - unfold mst_check_input. rewrite app_length, values_len. cbn [length]. rewrite Nat.eqb_refl. cbn [negb]. cbv zeta. pose proof (cov_array mean A [df]) as HA. cbv zeta in HA. fold d in HA |- *.
    rewrite <- (near_sym _ _ _ HA), <- (chol_pd _ _ _ HA). rewrite last_last. change x0 with (XR 0). destruct (near_symmetric _ _); cbn [negb]; [|split; [discriminate | intros (? & _); discriminate]]. destruct (pos_def _ _); cbn [negb]; [|split; [discriminate | intros (_ & ? & _); discriminate]].
    destruct (xle df (XR 0)); cbn [negb]; split; try discriminate; try reflexivity; [intros (_ & _ & ?); discriminate | auto].
  - intros Hs. rewrite N. assert (E : forall x, form d (lower A) x = form d A x).
    { intros x. apply form_ext; [|reflexivity]. intros i j Hi Hj. unfold lower. destruct (j <=? i)%nat; [reflexivity | now apply Hs]. }
    split.
    + intros (_ & H) x Hx. rewrite <- E. now apply H.
    + intros H. split; [|intros x Hx; rewrite E; now apply H]. intros i j Hi Hj. rewrite (Hs i j Hi Hj). replace (A j i - A j i) with 0 by ring. rewrite Rabs_R0. pose proof (Rabs_pos (A j i)). lra.
  - intros vs n. split; intros H; [unfold mvn_check_input | unfold mst_check_input]; destruct (Nat.eqb_spec (length vs) (n + n ^ 2)) as [E|E]; try congruence; try reflexivity; destruct (Nat.eqb_spec (length vs) (n + n ^ 2 + 1)) as [E'|E']; congruence || reflexivity.
Qed.
Print Assumptions C69_accepted.
Definition mat2 (a b c d : R) (i j : nat) : R := match i, j with O, O => a | O, _ => b | _, O => c | _, _ => d end.
Lemma sq_pos y : y <> 0 -> 0 < y * y.
Proof. intros H. destruct (Rtotal_order y 0) as [Hy|[Hy|Hy]]; [nra | contradiction | nra]. Qed.
Lemma pd2 a b c : 0 < a -> b * b < a * c -> PositiveDefinite 2 (mat2 a b b c).
Proof.
  intros Ha Hd x (i & Hi & Hx). unfold form, mat2. cbn [sigma]. assert (E : a * (0 + (0 + x 0%nat * a * x 0%nat + x 0%nat * b * x 1%nat) + (0 + x 1%nat * b * x 0%nat + x 1%nat * c * x 1%nat)) = (a * x 0%nat + b * x 1%nat) * (a * x 0%nat + b * x 1%nat) + (a * c - b * b) * (x 1%nat * x 1%nat)) by ring.
  assert (0 < (a * x 0%nat + b * x 1%nat) * (a * x 0%nat + b * x 1%nat) + (a * c - b * b) * (x 1%nat * x 1%nat)).
  { destruct (Req_EM_T (x 1%nat) 0) as [E1|E1].
    - rewrite E1. destruct i as [|[|i]]; [|contradiction|lia]. replace ((a * x 0%nat + b * 0) * (a * x 0%nat + b * 0) + (a * c - b * b) * (0 * 0)) with ((a * x 0%nat) * (a * x 0%nat)) by ring. assert (a * x 0%nat <> 0) by (apply Rmult_integral_contrapositive_currified; [apply Rgt_not_eq; exact Ha | assumption]). apply sq_pos; assumption.
    - assert (0 < x 1%nat * x 1%nat) by (apply sq_pos; assumption). assert (0 <= (a * x 0%nat + b * x 1%nat) * (a * x 0%nat + b * x 1%nat)) by apply Rle_0_sqr. nra. }
  rewrite <- E in H. apply (Rmult_lt_reg_l a); lra.
Qed.
Example C69_accepted_case : mvn_check_input 2 (values [1; 5] (mat2 2 1 1 2)) = true /\ mvn_check_input 2 (values [1; 5] (mat2 1 2 2 1)) = false
  /\ mst_check_input 2 (values [1; 5] (mat2 2 1 1 2) ++ [XR 3]) = true /\ mst_check_input 2 (values [1; 5] (mat2 2 1 1 2) ++ [XR 0]) = false.
Proof.
  assert (S2 : forall a b c, Symmetric 2 (mat2 a b b c)). { intros a b c [|[|i]] [|[|j]] Hi Hj; try lia; reflexivity. }
  destruct (C69_accepted [1; 5] (mat2 2 1 1 2) (XR 3)) as (N & T & Y & _). destruct (C69_accepted [1; 5] (mat2 2 1 1 2) (XR 0)) as (_ & T0 & _ & _). destruct (C69_accepted [1; 5] (mat2 1 2 2 1) (XR 3)) as (_ & _ & Y' & _).
  assert (A1 : mvn_check_input 2 (values [1; 5] (mat2 2 1 1 2)) = true). { apply (Y (S2 _ _ _)). apply pd2; lra. }
  split; [exact A1|]. split.
  - apply not_true_is_false. intros E. apply (Y' (S2 _ _ _)) in E. specialize (E (fun i => match i with O => 1 | _ => -1 end)). assert (H : exists i, (i < 2)%nat /\ (match i with O => 1 | _ => -1 end) <> 0) by (exists O; split; [lia | lra]). apply E in H. unfold form, mat2 in H. cbn [sigma length] in H. lra.
  - apply N in A1. destruct A1 as (H1 & H2). split; [apply T | apply not_true_is_false; intros E; apply T0 in E].
    + split; [exact H1|]. split; [exact H2|]. unfold xle. destruct (Rle_dec 3 0); [lra | reflexivity].
    + destruct E as (_ & _ & E). unfold xle in E. destruct (Rle_dec 0 0); [discriminate | lra].
Qed.

(** C69.  The matrix returned by np.linalg.cholesky when it does not fail: lower triangular, positive on the diagonal, and its product with its transpose is the matrix that was given (the
    part above the diagonal replaced by the part below). *)
Theorem C69_cholesky : forall n m A, Array n m A ->
  (PositiveDefinite n (lower A) -> exists L F, cholesky n m = Some L /\ Array n L F /\ Factor n F (lower A)) /\ (~ PositiveDefinite n (lower A) -> cholesky n m = None).
Proof.
  intros n m A H. pose proof (chol_pd n m A H) as E. unfold pos_def in E. destruct (cholesky n m) as [L|] eqn:Ec.
  - split; [intros _; destruct (chol_factor n m A L H Ec) as (F & HF); exists L, F; split; [reflexivity | exact HF] | intros Hn; exfalso; apply Hn, E; reflexivity].
  - split; [intros Hp; apply E in Hp; discriminate | reflexivity].
Qed.
Print Assumptions C69_cholesky.
Example C69_cholesky_case : exists L, cholesky 2 [[XR 4; XR 2]; [XR 2; XR 10]] = Some L /\ L = [[XR (sqrt 4); XR 0]; [XR (2 / sqrt 4); XR (sqrt (10 - 2 / sqrt 4 * (2 / sqrt 4)))]].
Proof.
  assert (E : sqrt 4 = 2) by (replace 4 with (2 * 2) by lra; apply sqrt_square; lra). eexists. split; [|reflexivity]. cbn [cholesky at_ nth]. unfold x0 at 1. cbn [xlt]. destruct (Rlt_dec 0 4); [|lra]. cbn [negb]. cbv zeta. cbn [seq map at_ nth]. rewrite xsqrt_pos by lra. rewrite !xdiv_fin by lra. cbn [xmul xsub xopp xadd].
  replace (10 + - (2 / sqrt 4 * (2 / sqrt 4))) with (10 - 2 / sqrt 4 * (2 / sqrt 4)) by ring. unfold x0 at 1. cbn [xlt]. destruct (Rlt_dec 0 (10 - 2 / sqrt 4 * (2 / sqrt 4))) as [H|H]; [|exfalso; apply H; rewrite E; lra]. cbn [negb]. rewrite xsqrt_pos by exact H. cbn [seq combine map fst snd repeat at_ nth]. rewrite ?xsqrt_pos by lra. rewrite ?xdiv_fin by lra. reflexivity.
Qed.

(** C69, refuted: accepted although not symmetric positive definite.  With small variances the absolute tolerance 1/1000 lets any entry above the diagonal pass, and the Cholesky factorisation does not look at it; an
    infinite variance is accepted in one dimension; and degrees of freedom that are not a number. *)
Theorem C69_accepted_refuted :
  (exists A, mvn_check_input 2 (values [0; 0] A) = true /\ ~ Symmetric 2 A /\ ~ PositiveDefinite 2 A /\ ~ PositiveDefinite 2 (fun i j => (A i j + A j i) / 2))
  /\ mvn_check_input 1 [XR 0; XInf] = true
  /\ (forall mean A, mvn_check_input (length mean) (values mean A) = true -> mst_check_input (length mean) (values mean A ++ [XNaN]) = true).
Proof.
  split; [|split].
  - exists (mat2 (1 / 10000) (9 / 10000) 0 (1 / 10000)).
    assert (Hw : exists i, (i < 2)%nat /\ (match i with O => 1 | _ => -1 end) <> 0) by (exists O; split; [lia | lra]).
    split; [|split; [|split]].
    + apply (proj2 (proj1 (C69_accepted [0; 0] _ (XR 1)))). split.
      * intros [|[|i]] [|[|j]] Hi Hj; try (cbn in Hi, Hj; lia); cbn [mat2]; unfold Rabs; repeat (destruct (Rcase_abs _)); lra.
      * intros x Hx. rewrite (form_ext 2 _ (mat2 (1 / 10000) 0 0 (1 / 10000)) x x); [|intros [|[|i]] [|[|j]] Hi Hj; try (cbn in Hi, Hj; lia); reflexivity | reflexivity]. revert x Hx. apply pd2; lra.
    + intros H. specialize (H 0%nat 1%nat ltac:(lia) ltac:(lia)). cbn in H. lra.
    + intros H. specialize (H _ Hw). unfold form, mat2 in H. cbn [sigma length] in H. lra.
    + intros H. specialize (H _ Hw). unfold form, mat2 in H. cbn [sigma length] in H. lra.
  - reflexivity.
  - intros mean A H. apply (proj2 (proj1 (proj2 (C69_accepted mean A XNaN)))). apply (proj1 (proj1 (C69_accepted mean A XNaN))) in H. destruct H as (H1 & H2). split; [exact H1|]. split; [exact H2 | reflexivity].
Qed.
Print Assumptions C69_accepted_refuted.
