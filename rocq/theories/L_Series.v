(** Series of nonnegative terms (C78). *)
From Coq Require Import Reals Lra Lia.
From Verif Require Import M_Base S_Law P_Law L_Law.
Open Scope R_scope.

(** Iterated sums of nonnegative terms *)
Lemma cv_sum (d : nat -> nat -> R) (I : nat -> R) : (forall m, Un_cv (sum_f_R0 (d m)) (I m)) -> forall M, Un_cv (fun N => sum_f_R0 (fun m => sum_f_R0 (d m) N) M) (sum_f_R0 I M).
Proof. intros H. induction M as [|M IH]; cbn [sum_f_R0]; [apply H|]. apply CV_plus; [exact IH|apply H]. Qed.
Lemma sum_le (u v : nat -> R) N : (forall n, u n <= v n) -> sum_f_R0 u N <= sum_f_R0 v N.
Proof. intros H. induction N as [|N IH]; cbn [sum_f_R0]; [apply H|]. apply Rplus_le_compat; [exact IH|apply H]. Qed.
Lemma sum_below (u : nat -> R) l N : (forall n, 0 <= u n) -> Un_cv (sum_f_R0 u) l -> sum_f_R0 u N <= l.
Proof. intros H C. apply (growing_ineq (sum_f_R0 u)); [intros k; cbn [sum_f_R0]; specialize (H (S k)); lra|exact C]. Qed.
Lemma sum_swap (d : nat -> nat -> R) M N : sum_f_R0 (fun m => sum_f_R0 (d m) N) M = sum_f_R0 (fun n => sum_f_R0 (fun m => d m n) M) N.
Proof. induction M as [|M IH]; cbn [sum_f_R0]; [apply sum_eq; reflexivity|]. rewrite IH, <- plus_sum. apply sum_eq. reflexivity. Qed.
Lemma cv_below (u : nat -> R) l B : (forall n, u n <= B) -> Un_cv u l -> l <= B.
Proof. intros H C. apply Rle_cv_lim with (Un := u) (Vn := fun _ => B); [exact H|exact C|apply cv_const]. Qed.
Lemma tonelli_le (d : nat -> nat -> R) I J L L' : (forall m n, 0 <= d m n) -> (forall m, Un_cv (sum_f_R0 (d m)) (I m)) -> Un_cv (sum_f_R0 I) L ->
  (forall n, Un_cv (sum_f_R0 (fun m => d m n)) (J n)) -> Un_cv (sum_f_R0 J) L' -> L <= L'.
Proof.
  intros H0 HI HL HJ HL'. assert (J0 : forall n, 0 <= J n) by (intros n; apply Rle_trans with (sum_f_R0 (fun m => d m n) 0); [apply H0|apply sum_below; [intros; apply H0|apply HJ]]).
  apply (cv_below (sum_f_R0 I) L L'); [|exact HL]. intros M. apply (cv_below (fun N => sum_f_R0 (fun m => sum_f_R0 (d m) N) M)); [|apply cv_sum, HI]. intros N. rewrite sum_swap. apply Rle_trans with (sum_f_R0 J N); [|apply sum_below; assumption]. apply sum_le. intros n. apply sum_below; [intros; apply H0|apply HJ].
Qed.
Lemma tonelli (d : nat -> nat -> R) I J L L' : (forall m n, 0 <= d m n) -> (forall m, Un_cv (sum_f_R0 (d m)) (I m)) -> Un_cv (sum_f_R0 I) L ->
  (forall n, Un_cv (sum_f_R0 (fun m => d m n)) (J n)) -> Un_cv (sum_f_R0 J) L' -> L = L'.
Proof. intros H0 HI HL HJ HL'. apply Rle_antisym; [apply (tonelli_le d I J)|apply (tonelli_le (fun n m => d m n) J I)]; auto. Qed.
(** series dominated by a convergent one *)
Lemma dominated (u v : nat -> R) : (forall n, 0 <= u n <= v n) -> (forall N, sum_f_R0 v N <= 1) -> {l | Un_cv (sum_f_R0 u) l /\ 0 <= l <= 1}.
Proof.
  intros H HB. destruct (growing_cv (sum_f_R0 u)) as [l Hl]; [intros k; cbn [sum_f_R0]; specialize (H (S k)); lra|exists 1; intros x (k & ->); apply Rle_trans with (sum_f_R0 v k); [apply sum_le; intros; apply H|apply HB]|].
  exists l. split; [exact Hl|]. split.
  - apply Rle_trans with (sum_f_R0 u 0); [apply H|apply sum_below; [intros; apply H|exact Hl]].
  - apply (cv_below (sum_f_R0 u)); [|exact Hl]. intros k. apply Rle_trans with (sum_f_R0 v k); [apply sum_le; intros; apply H|apply HB].
Qed.
Lemma cv_shift_sum (u : nat -> R) l : u 0%nat = 0 -> Un_cv (sum_f_R0 u) l -> Un_cv (sum_f_R0 (fun n => u (S n))) l.
Proof. intros H0 C. apply (cv_ext (fun N => sum_f_R0 u (S N))); [intros N; rewrite decomp_sum by lia; rewrite H0; cbn [pred]; ring|]. apply (cv_shift1 (sum_f_R0 u)), C. Qed.
Lemma cv_scale_sum c (u : nat -> R) l : Un_cv (sum_f_R0 u) l -> Un_cv (sum_f_R0 (fun n => c * u n)) (c * l).
Proof. intros C. apply (cv_ext (fun N => c * sum_f_R0 u N)); [intros N; rewrite scal_sum; apply sum_eq; intros; ring|]. apply CV_mult; [apply cv_const|exact C]. Qed.
Lemma cv_plus_sum (u v : nat -> R) l l' : Un_cv (sum_f_R0 u) l -> Un_cv (sum_f_R0 v) l' -> Un_cv (sum_f_R0 (fun n => u n + v n)) (l + l').
Proof. intros C C'. apply (cv_ext (fun N => sum_f_R0 u N + sum_f_R0 v N)); [intros N; rewrite <- plus_sum; apply sum_eq; reflexivity|]. apply CV_plus; assumption. Qed.
Lemma cv_limit (u : nat -> R) l l' : l = l' -> Un_cv u l -> Un_cv u l'.
Proof. intros ->. exact (fun H => H). Qed.
