(** C70: the posterior covariance of a journal. *)
From Coq Require Import Reals Qreals ZArith Lia Lra.
From Verif Require Import M_Base M_Num M_XReal M_MMD M_Stats M_Graph M_Infer M_Journal M_APM M_Kernel M_Cov M_Posterior S_Journal L_Journal L_Journal2 S_Stats S_Distance L_PMC L_Stats L_Distance L_PosDef L_MMD S_Cov P_Cov S_Posterior L_Posterior.
Open Scope R_scope.

Lemma two_len w : TwoPositive w -> (2 <= length w)%nat.
Proof.
  intros [_ (i & j & Hij & _ & Hj)]. destruct (Nat.lt_ge_cases j (length w)) as [L|G]; [lia|]. rewrite nth_overflow in Hj by lia. lra.
Qed.
Lemma columns_pos {Name} n ds (params : list (Name * list (list kval))) : Columns n ds params -> (1 <= list_sum ds)%nat -> params <> [].
Proof. intros HC H E. subst. inversion HC; subst. cbn in H. lia. Qed.
Lemma posterior_cov_ok {Name S C D} (j : journal Name kval S C D) it params w ds : Holds j it params w -> Columns (length w) ds params -> (1 <= list_sum ds)%nat -> TwoPositive (map Q2R w) ->
  posterior_cov j it = Ok (squeeze_cov (P_Cov.table (list_sum ds) (wcov (map Q2R w) (map (sample params) (seq 0 (length w))))), map fst params).
Proof.
  intros HJ HC Hp HT. pose proof (two_len _ HT) as L. rewrite map_length in L. unfold posterior_cov. rewrite (holds_iter j it params w HJ). cbn [rthen fst snd].
  rewrite (joined_params_ok (length w) ds) by first [assumption | lia | apply (columns_pos _ _ _ HC Hp)]. cbn [rthen]. rewrite cov_columns_ok by (rewrite ?map_length, ?seq_length; assumption || reflexivity). reflexivity.
Qed.

(** With at least two positive weights, the matrix has one row and column per coordinate of a parameter: the entry for
    coordinate c of the k-th and coordinate c' of the k'-th parameter is the weighted covariance of the two; the names are
    returned in the same order. *)
Theorem C70_value : forall (Name S C D : Type) (j : journal Name kval S C D) it params w ds,
  Holds j it params w -> Columns (length w) ds params -> (1 <= list_sum ds)%nat -> TwoPositive (map Q2R w) ->
  exists a A, posterior_cov j it = Ok (a, map fst params) /\ IsMatrix (list_sum ds) A a /\
  forall k c d k' c' d', nth_error ds k = Some d -> (c < d)%nat -> nth_error ds k' = Some d' -> (c' < d')%nat ->
  A (column_of ds k c) (column_of ds k' c') = covariance (map Q2R w) (coordinate params k c) (coordinate params k' c').
Proof.
  intros Name S C D j it params w ds HJ HC Hp HT. eexists. eexists. split; [apply (posterior_cov_ok j it params w ds HJ HC Hp HT)|]. split; [apply squeeze_is; exact Hp|].
  intros k c d k' c' d' Hk Hc Hk' Hc'. rewrite wcov_covariance. rewrite <- (coordinate_col (length w) ds params k c d), <- (coordinate_col (length w) ds params k' c' d') by assumption. reflexivity.
Qed.
Print Assumptions C70_value.

(** The matrix is symmetric and positive semidefinite. *)
Theorem C70_semidefinite : forall (Name S C D : Type) (j : journal Name kval S C D) it params w ds,
  Holds j it params w -> Columns (length w) ds params -> (1 <= list_sum ds)%nat -> TwoPositive (map Q2R w) ->
  exists a A, posterior_cov j it = Ok (a, map fst params) /\ IsMatrix (list_sum ds) A a /\
  (forall i i', A i i' = A i' i) /\ (forall u, 0 <= quad (list_sum ds) A u).
Proof.
  intros Name S C D j it params w ds HJ HC Hp HT. eexists. eexists. split; [apply (posterior_cov_ok j it params w ds HJ HC Hp HT)|]. split; [apply squeeze_is; exact Hp|]. split.
  - intros i i'. unfold wcov. f_equal. apply over_ext. intros. ring.
  - intros u. rewrite quad_wcov. destruct (fact_pos _ HT) as [_ F]. apply Rmult_le_pos; [|left; apply Rinv_0_lt_compat; exact F].
    apply over_nonneg. intros a x Ha _. apply Rmult_le_pos; [|apply pow2_ge_0]. destruct HT as [HF _]. rewrite Forall_forall in HF. apply HF. exact Ha.
Qed.
Print Assumptions C70_semidefinite.

(** Only the ratios of the weights matter. *)
Theorem C70_scale : forall (Name S C D : Type) (j j' : journal Name kval S C D) it it' params w w' ds c,
  Holds j it params w -> Holds j' it' params w' -> 0 < c -> map Q2R w' = map (Rmult c) (map Q2R w) ->
  Columns (length w) ds params -> (1 <= list_sum ds)%nat -> TwoPositive (map Q2R w) -> posterior_cov j' it' = posterior_cov j it.
Proof.
  intros Name S C D j j' it it' params w w' ds c HJ HJ' Hc HW HC Hp HT.
  assert (L : length w' = length w) by (apply (f_equal (@length R)) in HW; rewrite !map_length in HW; exact HW).
  assert (HT' : TwoPositive (map Q2R w')).
  { rewrite HW. destruct HT as [HF (i & k & Hik & Hi & Hk)]. split; [apply Forall_map; eapply Forall_impl; [|exact HF]; intros a Ha; apply Rmult_le_pos; lra|].
    exists i, k. split; [assumption|]. assert (N : forall m, nth m (map (Rmult c) (map Q2R w)) 0 = c * nth m (map Q2R w) 0) by (intros m; rewrite <- (map_nth (Rmult c)); f_equal; ring).
    rewrite !N. split; apply Rmult_lt_0_compat; assumption. }
  rewrite (posterior_cov_ok j it params w ds HJ HC Hp HT), (posterior_cov_ok j' it' params w' ds HJ') by (rewrite ?L; assumption).
  do 3 f_equal. rewrite L, HW. unfold P_Cov.table. apply map_ext. intros i. apply map_ext. intros i'. f_equal. destruct (fact_pos _ HT). apply wcov_scale; assumption.
Qed.
Print Assumptions C70_scale.

(** With equal weights the entries are the unbiased sample covariances. *)
Definition sample_covariance (xs ys : list R) : R :=
  total (map (fun p => (fst p - S_Stats.average xs) * (snd p - S_Stats.average ys)) (combine xs ys)) / (INR (length xs) - 1).
Lemma combine_repeat {A B C} (a : A) (f : A * B -> C) : forall (l : list B) n, length l = n -> map f (combine (repeat a n) l) = map (fun x => f (a, x)) l.
Proof. induction l as [|x l IH]; intros [|n] H; try discriminate; [reflexivity|]. cbn [repeat combine map]. f_equal. apply IH. injection H as H. exact H. Qed.
Lemma covariance_equal c xs ys : 0 < c -> (2 <= length xs)%nat -> length ys = length xs -> covariance (repeat c (length xs)) xs ys = sample_covariance xs ys.
Proof.
  intros Hc Hn HL. unfold covariance, sample_covariance. fold (fact (repeat c (length xs))). rewrite fact_repeat by assumption.
  assert (N : 1 < INR (length xs)) by (apply (lt_INR 1); lia).
  assert (AV : forall zs, length zs = length xs -> average_of (repeat c (length xs)) zs = S_Stats.average zs).
  { intros zs HZ. unfold average_of, S_Stats.average. rewrite combine_repeat by exact HZ. cbn [fst snd]. rewrite (total_scale (fun x => x)), map_id, total_repeat', HZ. field. split; lra. }
  rewrite !AV by (reflexivity || assumption). rewrite combine_repeat by (rewrite combine_length; lia). cbn [fst snd].
  rewrite (total_ext _ (fun p => c * ((fst p - S_Stats.average xs) * (snd p - S_Stats.average ys)))) by (intros; ring). rewrite total_scale. field. split; lra.
Qed.
Theorem C70_equal_weights : forall (Name S C D : Type) (j : journal Name kval S C D) it params n q ds,
  Holds j it params (repeat q n) -> 0 < Q2R q -> (2 <= n)%nat -> Columns n ds params -> (1 <= list_sum ds)%nat ->
  exists a A, posterior_cov j it = Ok (a, map fst params) /\ IsMatrix (list_sum ds) A a /\
  forall k c d k' c' d', nth_error ds k = Some d -> (c < d)%nat -> nth_error ds k' = Some d' -> (c' < d')%nat ->
  A (column_of ds k c) (column_of ds k' c') = sample_covariance (coordinate params k c) (coordinate params k' c').
Proof.
  intros Name S C D j it params n q ds HJ Hq Hn HC Hp.
  assert (MR : map Q2R (repeat q n) = repeat (Q2R q) n) by (clear; induction n; cbn; [reflexivity|f_equal; assumption]).
  destruct (C70_value Name S C D j it params (repeat q n) ds HJ) as (a & A & E & HA & HV); [rewrite repeat_length; exact HC|exact Hp|rewrite MR; apply repeat_two; assumption|].
  exists a, A. split; [exact E|]. split; [exact HA|]. intros k c d k' c' d' Hk Hc Hk' Hc'. rewrite (HV k c d k' c' d') by assumption. rewrite MR.
  assert (L : forall k c d, nth_error ds k = Some d -> (c < d)%nat -> length (coordinate params k c) = n) by (intros; rewrite (coordinate_col n ds params k0 c0 d0) by assumption; rewrite !map_length, seq_length; reflexivity).
  rewrite <- (L k c d Hk Hc) at 1. apply covariance_equal; [exact Hq|rewrite (L k c d) by assumption; exact Hn|rewrite (L k c d), (L k' c' d') by assumption; reflexivity].
Qed.
Print Assumptions C70_equal_weights.

(** All weight on one sample, in particular a single sample: every entry is NaN. *)
Lemma only_sum w k (f : nat -> R) : OnlyPositive w k -> total (map (fun i => nth i w 0 * f i) (seq 0 (length w))) = nth k w 0 * f k.
Proof.
  intros (Hk & _ & H0). assert (G : forall n a, total (map (fun i => nth i w 0 * f i) (seq a n)) = if ((a <=? k) && (k <? a + n))%nat then nth k w 0 * f k else 0).
  { induction n as [|n IH]; intros a.
    - cbn [seq map]. replace ((a <=? k) && (k <? a + 0))%nat with false; [reflexivity|]. symmetry. apply andb_false_iff. destruct (Nat.leb_spec a k); [right; apply Nat.ltb_ge; lia|left; reflexivity].
    - cbn [seq map]. rewrite total_cons, IH. destruct (Nat.eq_dec a k) as [->|N].
      + rewrite Nat.leb_refl. replace (k <? k + S n)%nat with true by (symmetry; apply Nat.ltb_lt; lia). replace (S k <=? k)%nat with false by (symmetry; apply Nat.leb_gt; lia). cbn [andb]. ring.
      + rewrite (H0 a N). replace ((S a <=? k) && (k <? S a + n))%nat with ((a <=? k) && (k <? a + S n))%nat; [ring|].
        replace (S a + n)%nat with (a + S n)%nat by lia. destruct (Nat.leb_spec a k), (Nat.leb_spec (S a) k); try reflexivity; lia. }
  rewrite G. cbn [Nat.add]. replace (k <? length w)%nat with true by (symmetry; apply Nat.ltb_lt; exact Hk). reflexivity.
Qed.
Lemma over_seq w rows f : length w = length rows -> over w rows f = total (map (fun i => f (nth i w 0) (nth i rows [])) (seq 0 (length w))).
Proof.
  revert rows. induction w as [|a w IH]; intros [|x rows] H; try discriminate; [reflexivity|]. injection H as H.
  change (over (a :: w) (x :: rows) f) with (f a x + over w rows f). cbn [length seq map nth]. rewrite total_cons. f_equal. rewrite (IH rows H), <- seq_shift, map_map. reflexivity.
Qed.
Lemma total_seq_nth w : total w = total (map (fun i => nth i w 0 * 1) (seq 0 (length w))).
Proof. pose proof (map_seq_nth (fun x : R => x * 1) 0 w) as E. cbv beta in E. rewrite <- E. f_equal. rewrite <- (map_id w) at 1. apply map_ext. intros. ring. Qed.
Lemma total_sq_seq w : total (map (fun x => x * x) w) = total (map (fun i => nth i w 0 * nth i w 0) (seq 0 (length w))).
Proof. rewrite (map_seq_nth (fun x => x * x) 0). reflexivity. Qed.
Lemma xnan : xmul (XR 0) (xdiv (XR 1) (XR 0)) = XNaN.
Proof.
  cbn [xdiv]. unfold rsign. destruct (total_order_T 0 0) as [[?|_]|?]; [lra| |lra]. destruct (total_order_T 1 0) as [[?|?]|_]; [lra|lra|]. cbn [xneg negb xmul xsgn]. unfold rsign. destruct (total_order_T 0 0) as [[?|_]|?]; [lra|reflexivity|lra].
Qed.
Lemma only_nonneg w k : OnlyPositive w k -> Forall (fun a => 0 <= a) w.
Proof.
  intros (_ & HP & H0). apply Forall_forall. intros a Ha. destruct (In_nth _ _ 0 Ha) as (i & _ & <-). destruct (Nat.eq_dec i k) as [->|N]; [lra|rewrite (H0 i N); lra].
Qed.
Theorem C70_one_weight_refuted : forall (Name S C D : Type) (j : journal Name kval S C D) it params w ds s,
  Holds j it params w -> Columns (length w) ds params -> (1 <= list_sum ds)%nat -> OnlyPositive (map Q2R w) s ->
  exists a, posterior_cov j it = Ok (a, map fst params) /\
  match a with Scalar x => list_sum ds = 1%nat /\ x = XNaN | Matrix m => length m = list_sum ds /\ Forall (fun row => row = repeat XNaN (list_sum ds)) m | Dummy => False end.
Proof.
  intros Name S C D j it params w ds s HJ HC Hp HO. set (v := map Q2R w) in *. assert (Lv : length v = length w) by apply map_length.
  assert (L : (1 <= length w)%nat) by (destruct HO as (H & _); lia).
  unfold posterior_cov. rewrite (holds_iter j it params w HJ). cbn [rthen fst snd].
  rewrite (joined_params_ok (length w) ds) by first [assumption | apply (columns_pos _ _ _ HC Hp)]. cbn [rthen]. fold v. set (p := list_sum ds) in *. set (rows := map (sample params) (seq 0 (length w))).
  assert (LR : length v = length rows) by (unfold rows; rewrite map_length, seq_length; exact Lv).
  assert (T : total v = nth s v 0) by (rewrite total_seq_nth, (only_sum v s (fun _ => 1) HO); ring).
  assert (HP : 0 < nth s v 0) by apply HO.
  unfold cov_columns. cbn [cov_variables cov_observations]. destruct (map (fun i => map (fun r => nth i r 0) rows) (seq 0 p)) as [|v0 vs] eqn:E; [destruct p; [lia|discriminate]|]. rewrite <- E. clear E v0 vs.
  rewrite LR, Nat.eqb_refl, (no_negative v (only_nonneg v s HO)), rsuml_total'. cbn [negb]. destruct (Req_EM_T (total v) 0) as [Z|_]; [lra|]. cbn [rthen].
  assert (CL : clip (total v - rsuml (map (fun x => x * x) v) / total v) = 0).
  { unfold clip. destruct (Rle_dec _ 0) as [|N]; [reflexivity|]. exfalso. apply N. right. rewrite (rsuml_total' (map (fun x => x * x) v)), (total_sq_seq v), (only_sum v s (fun i => nth i v 0) HO), T. field. lra. }
  rewrite CL.
  assert (EN : map (fun u => map (fun y => xmul (wprod v u y) (xdiv (XR 1) (XR 0))) (map (fun i => map (fun r => nth i r 0) rows) (seq 0 p))) (map (fun i => map (fun r => nth i r 0) rows) (seq 0 p)) = repeat (repeat XNaN p) p).
  { assert (RE : forall (A : Type) (x : A) (f : nat -> A) n b, (forall i, f i = x) -> map f (seq b n) = repeat x n) by (intros A x f n; induction n as [|n IH]; intros b Hf; [reflexivity|cbn [seq map repeat]; rewrite Hf, IH by assumption; reflexivity]).
    rewrite map_map. apply RE. intros i. rewrite map_map. apply RE. intros i'. rewrite wprod_fin by lra. rewrite over_seq by exact LR.
    assert (M : forall i, S_Cov.wmean v rows i = S_Cov.coord (nth s rows []) i).
    { intros m. unfold S_Cov.wmean. rewrite over_seq by exact LR. rewrite (only_sum v s (fun i => S_Cov.coord (nth i rows []) m) HO), T. field. lra. }
    rewrite !M. rewrite (total_ext _ (fun n => nth n v 0 * ((S_Cov.coord (nth n rows []) i - S_Cov.coord (nth s rows []) i) * (S_Cov.coord (nth n rows []) i' - S_Cov.coord (nth s rows []) i')))) by (intros; ring).
    rewrite (only_sum v s (fun n => (S_Cov.coord (nth n rows []) i - S_Cov.coord (nth s rows []) i) * (S_Cov.coord (nth n rows []) i' - S_Cov.coord (nth s rows []) i')) HO).
    replace (nth s v 0 * _) with 0 by ring. apply xnan. }
  rewrite EN. eexists. split; [reflexivity|]. clearbody p. clear -Hp. destruct p as [|[|p]]; [lia|split; reflexivity|]. change (squeeze_cov (repeat (repeat XNaN (S (S p))) (S (S p)))) with (Matrix (repeat (repeat XNaN (S (S p))) (S (S p)))).
  split; [apply repeat_length|]. apply Forall_forall. intros r Hr. apply repeat_spec in Hr. exact Hr.
Qed.
Print Assumptions C70_one_weight_refuted.
